{
 "claims": [
  {
   "property": "C01",
   "status": "proved",
   "theorems": [
    "C01_region_rewrite_keeps_user_lines",
    "C01_regions_rewrite_keeps_user_lines",
    "C01_second_region_indented_twice_refuted"
   ],
   "note": "One region: exact statement, including the shape of the inserted lines. Any number of regions: user lines kept. The refuted theorem records a side finding: with several regions the inserted code accumulates the indentation of all previous regions."
  },
  {
   "property": "C02",
   "status": "proved",
   "theorems": [
    "C02_second_rewrite_does_nothing"
   ],
   "note": "For inserted code whose lines contain no marker."
  },
  {
   "property": "C03",
   "status": "partial",
   "theorems": [
    "C03_failure_leaves_file_partial",
    "C03_missing_marker_is_an_error_partial",
    "C03_reopened_region_is_an_error_partial",
    "C03_unclosed_region_loses_lines_refuted",
    "C03_orphan_closing_line_is_duplicated_refuted"
   ],
   "note": "Errors leave the file untouched (proved, incl. missing and reopened marker). The second half is false of the code: an unclosed region silently drops the rest of the file, an orphan closing line is duplicated (refuted with witnesses)."
  },
  {
   "property": "C04",
   "status": "partial",
   "theorems": [
    "C04_only_blank_lines_removed_partial",
    "C04_blank_runs_bounded_partial",
    "C04_bounded_text_unchanged_partial",
    "C04_mixed_blank_lines_refuted"
   ],
   "note": "Non-blank lines kept and only blank lines removed: proved for every text. Bound proved when blank lines are textually equal; false otherwise (refuted: blank lines with different spaces are counted separately)."
  },
  {
   "property": "C05",
   "status": "partial",
   "theorems": [
    "C05_comment_literal_is_closed_partial",
    "C05_comment_literal_denotes_comment_partial",
    "C05_single_backslash_refuted",
    "C05_user_escape_refuted"
   ],
   "note": "Proved for every comment except the single character backslash, which is not escaped (refuted). The literal denotes the comment unless it holds a backslash followed by n, t, o, x or a quote, which is kept as an escape (refuted)."
  },
  {
   "property": "C06",
   "status": "partial",
   "theorems": [
    "C06_align_only_moves_comments_partial",
    "C06_align_idempotent",
    "C06_string_literal_changed_refuted",
    "C06_comment_line_changed_refuted",
    "C06_empty_block_refuted"
   ],
   "note": "Proved: same number of lines, only spaces inserted before a # sign that follows code, one common column, quote-free comments always found, idempotent. The claim that other lines are untouched is false for # inside mixed quotes or inside comment lines, and an empty list of lines grows by one (refuted)."
  },
  {
   "property": "C07",
   "status": "proved",
   "theorems": [
    "C07_indent_lines",
    "C07_unindent_undoes_indent",
    "C07_unindent_only_removes_spaces",
    "C07_rstrip_option_ignored_refuted",
    "C07_reindent_ignores_size_refuted"
   ],
   "note": "Also records that reindent_code ignores its width with the default indent string and that indent_code_lines ignores its rstrip option."
  },
  {
   "property": "C08",
   "status": "proved",
   "theorems": [
    "C08_strip_blank_lines",
    "C08_strip_idempotent"
   ],
   "note": ""
  },
  {
   "property": "C09",
   "status": "proved",
   "theorems": [
    "C09_force_one_space"
   ],
   "note": "The result is characterised exactly: the words of the stripped text separated by one space; the loop ends for every input."
  },
  {
   "property": "C10",
   "status": "partial",
   "theorems": [
    "C10_token_before_comment_partial",
    "C10_item_goes_to_last_line",
    "C10_token_goes_to_all_but_last",
    "C10_escaped_backslash_refuted"
   ],
   "note": "Proved against a lexer with string literals and escapes, for lines whose code has no escaped backslash; with an escaped backslash before the closing quote the item is commented out (refuted). Character literals and /* */ comments are not in the reference lexer."
  },
  {
   "property": "C11",
   "status": "partial",
   "theorems": [
    "C11_ends",
    "C11_succeeds",
    "C11_lines_once",
    "C11_nothing_else",
    "C11_externals_once",
    "C11_text_lines",
    "C11_text_of_each_header",
    "C11_local_include_partial",
    "C11_external_include_partial",
    "C11_found_in_base",
    "C11_found_in_subdirectory",
    "C11_found_absolute",
    "C11_external_comment_refuted",
    "C11_two_names_refuted",
    "C11_local_comment_refuted"
   ],
   "note": "Termination for every include graph, exactly the plain lines of the reached headers once and in order, external includes once, and the lines of the written text: proved for every set of files. Same header means same path, same external include means same text after #include; false otherwise (refuted: a comment after the include, a.h and ./a.h; a comment after a local include raises)."
  },
  {
   "property": "C12",
   "status": "proved",
   "theorems": [
    "C12_every_source",
    "C12_exact",
    "C12_subsequence",
    "C12_no_directive",
    "C12_condition_name",
    "C12_comment_refuted"
   ],
   "note": "The kept elements are characterised exactly for every nesting, complete or not; comments on the line of a directive go away with it (refuted as an exception). The elements of the source come from srcml."
  },
  {
   "property": "C13",
   "status": "partial",
   "theorems": [
    "C13_blank_lines",
    "C13_succeeds",
    "C13_one_place",
    "C13_elements_kept",
    "C13_lines_kept_partial",
    "C13_behind",
    "C13_above",
    "C13_above_series",
    "C13_c_text",
    "C13_slashes_refuted",
    "C13_c_signs_refuted"
   ],
   "note": "Groups, one place for every comment, elements kept once and in order, which comment goes where: proved for every list of elements. Lines kept once and in order: proved for comments that start with two slashes and have no more of them; false for more slashes and for C comments on consecutive lines (refuted: characters are lost, signs stay)."
  },
  {
   "property": "C14",
   "status": "partial",
   "theorems": [
    "C14_passes",
    "C14_settles",
    "C14_order",
    "C14_rules_read",
    "C14_fixed_point_refuted",
    "C14_empty_target_refuted"
   ],
   "note": "Proved for all rules and texts: the passes, the settling criterion, the order of rules, and reading rules back from their text. That the result is a fixed point is false (refuted); a rule without right side cannot be read (refuted)."
  },
  {
   "property": "C15",
   "status": "proved",
   "theorems": [
    "C15_hierarchy_is_chain_of_enclosing_scopes",
    "C15_access_exactly_the_chain",
    "C15_text_read_back",
    "C15_parts_read_back",
    "C15_global_scope_not_read_back_refuted"
   ],
   "note": "For parts that are non-empty and without colon. Side finding (refuted): the empty text is not read back as the global scope."
  },
  {
   "property": "C16",
   "status": "partial",
   "theorems": [
    "C16_qualify_changes_only_words_partial",
    "C16_shorten_changes_only_words_partial",
    "C16_prefixed_literal_refuted",
    "C16_word_before_comment_refuted",
    "C16_escaped_quote_refuted",
    "C16_character_literal_refuted"
   ],
   "note": "Proved for every code given by its lexical structure when words do not touch a literal or a comment and no escaped quote or character literal occurs; outside of that it is false (refuted with four witnesses)."
  },
  {
   "property": "C17",
   "status": "partial",
   "theorems": [
    "C17_unmatched_unchanged",
    "C17_absolute_unchanged",
    "C17_only_reachable_names",
    "C17_innermost_partial",
    "C17_single_match_partial",
    "C17_outer_declared_first_refuted",
    "C17_chained_lookup_refuted"
   ],
   "note": "Unmatched and absolute identifiers unchanged, result always reachable: proved for all inputs. Innermost lookup proved when the innermost name is declared first among the matching ones, or is the only one, and no known name chains to another; false otherwise (refuted)."
  },
  {
   "property": "C18",
   "status": "partial",
   "theorems": [
    "C18_shortened_exactly",
    "C18_same_candidates",
    "C18_short_name_found_partial",
    "C18_homonym_scope_refuted",
    "C18_hidden_short_name_refuted",
    "C18_absolute_name_refuted"
   ],
   "note": "Exact characterisation of the short form, and the equality of candidate names, proved for all clean names and scopes; lookup finds the original when the first part of the name is first in the scope or absent from it and nothing hides the short form; false otherwise (refuted: homonym scope, hidden name, absolute name)."
  },
  {
   "property": "C19",
   "status": "partial",
   "theorems": [
    "C19_declaration_answers_first_scope_partial",
    "C19_function_one_scope_partial",
    "C19_function_without_parameters_partial",
    "C19_shortened_function",
    "C19_declaration_history_refuted",
    "C19_function_history_refuted",
    "C19_shortened_method_history_refuted"
   ],
   "note": "Shortened forms of functions: history independent (proved). Qualified forms: false for declarations and for parameters, whose cache ignores the scope (refuted); proved for one scope and for functions without parameters."
  },
  {
   "property": "C20",
   "status": "partial",
   "theorems": [
    "C20_values_follow_cpp_partial",
    "C20_no_value_missing",
    "C20_octal_value_refuted"
   ],
   "note": "Proved for every enum whose explicit texts have no decimal digit after a leading zero, no underscore and no outer spaces; the value of any other explicit text is arbitrary. False for octal texts (refuted: the enumerator after 010 is shown as 11)."
  },
  {
   "property": "C21",
   "status": "partial",
   "theorems": [
    "C21_enumerator_is_a_name",
    "C21_distinct_names_partial",
    "C21_distinct_names_refuted",
    "C21_distinct_prefixed_names_refuted"
   ],
   "note": "Always a Python identifier and never a reserved word: proved for every identifier (with no variable name replacements). Distinct names: proved for values all named prefix_rest, for scoped enums and without prefix removal, as far as case conversion keeps them apart and none is reserved; false otherwise (refuted: Foo_A and A, Foo_1 and Foo__1, letter case, reserved words)."
  },
  {
   "property": "C22",
   "status": "proved",
   "theorems": [
    "C22_grouping_only_moves_overloads",
    "C22_already_grouped_unchanged"
   ],
   "note": "For any elements and any names, with idempotence."
  },
  {
   "property": "C23",
   "status": "partial",
   "theorems": [
    "C23_only_repeated_overloads_dropped",
    "C23_emitted_signatures_distinct",
    "C23_dropped_has_emitted_earlier_twin",
    "C23_decorator_needs_two_overloads",
    "C23_dropped_for_an_invisible_twin_refuted",
    "C23_element_with_two_definitions_refuted"
   ],
   "note": "Distinct signatures, exactly the repeated overloads dropped, each for an earlier emitted one, @overload kept exactly when two overloads of the name show something: proved for all lists. False in two corners (refuted): the earlier twin may itself show nothing; an element that writes several definitions is counted once and loses every @overload."
  },
  {
   "property": "C24",
   "status": "proved",
   "theorems": [
    "C24_spacing_of_blocks",
    "C24_spacing_of_stub_bodies",
    "C24_reproduced_layout_adds_nothing",
    "C24_spacing_of_stub_blocks"
   ],
   "note": "The exact number of blank lines between any two elements is given for the three uses of the spacers."
  },
  {
   "property": "C25",
   "status": "partial",
   "theorems": [
    "C25_fragments_once_in_their_block_partial",
    "C25_enclosing_block_refuted"
   ],
   "note": "Proved for every sequence of recordings whose scopes have non-empty names without colon and are not made of roots only. False in one corner (refuted): a namespace without text of its own gets no block, its sub-blocks are then one level higher."
  },
  {
   "property": "C26",
   "status": "partial",
   "theorems": [
    "C26_submodules_created_once_partial",
    "C26_stub_classes_created_once_partial",
    "C26_namespace_inside_and_outside_root_refuted",
    "C26_nested_definition_variable_refuted",
    "C26_two_headers_refuted"
   ],
   "note": "Proved for every namespace structure of one header, for bindings and stubs, when no two different namespaces share a path once roots are removed. False otherwise (refuted: A and Root::A), for nested definitions namespace A::B, and across headers, where the class of the stub is defined again."
  },
  {
   "property": "C27",
   "status": "partial",
   "theorems": [
    "C27_main_code_once",
    "C27_second_generator_refuted",
    "C27_second_generator_emits_nothing",
    "C27_late_registration_refuted"
   ],
   "note": "Once per generator: proved for every list of registrations and headers. Every new generator emits it: false, the marks live in the options (refuted, and proved that the second generator emits nothing); code registered late is lost (refuted)."
  },
  {
   "property": "C28",
   "status": "partial",
   "theorems": [
    "C28_class_code",
    "C28_submodule_code",
    "C28_reopened_namespace_refuted"
   ],
   "note": "Codes of a scope: proved for every list of registrations (own codes only, in order, placeholder replaced everywhere). A reopened namespace shows its custom code once per opening (refuted)."
  },
  {
   "property": "C29",
   "status": "partial",
   "theorems": [
    "C29_class_and_enum_names",
    "C29_other_names_partial",
    "C29_replacements_refuted",
    "C29_names_stay_distinct_refuted"
   ],
   "note": "Proved for class and enum names with any replacements, and for the other names when the replacements applied last give no reserved word; false when they do (refuted). Also refuted: distinct names stay distinct."
  },
  {
   "property": "C30",
   "status": "partial",
   "theorems": [
    "C30_names_of_parameters",
    "C30_distinct_partial",
    "C30_distinct_refuted"
   ],
   "note": "Non-empty, named parameters kept, count and order: proved for every list. Distinct: proved when no given name has the form of the generated one at that position; false otherwise (refuted: param_1 followed by an unnamed parameter)."
  },
  {
   "property": "C31",
   "status": "proved",
   "theorems": [
    "C31_snake_case_rule",
    "C31_no_upper_case",
    "C31_letters_kept",
    "C31_idempotent",
    "C31_names_stay_names"
   ],
   "note": "With the exact result given character by character by a separate rule."
  },
  {
   "property": "C32",
   "status": "partial",
   "theorems": [
    "C32_split",
    "C32_split_nested",
    "C32_ends",
    "C32_no_angle_bracket",
    "C32_translation_partial",
    "C32_unmatched_refuted",
    "C32_arrow_refuted"
   ],
   "note": "Split is lossless and exact at any nesting, the translation always ends, no angle bracket is left: proved for every text. Brackets and the texts between them are translated one by one: proved for balanced texts and replacements that work within the texts between brackets. Unmatched brackets raise IndexError and an arrow is taken for a bracket (refuted)."
  },
  {
   "property": "C33",
   "status": "partial",
   "theorems": [
    "C33_integer_value",
    "C33_signed_value_partial",
    "C33_float_text",
    "C33_string_value_partial",
    "C33_signed_octal_refuted",
    "C33_string_escapes_refuted",
    "C33_more_than_a_literal_refuted"
   ],
   "note": "Unsigned integers in any base, floats, decimal integers with a sign, sequences of string literals with the escapes common to both languages: proved for every text. False for negative octals (not valid Python), escapes with a question mark or hexadecimal digits, and texts such as \"%\" PRIu64 \"d\" (refuted)."
  },
  {
   "property": "C34",
   "status": "proved",
   "theorems": [
    "C34_resolution_ends",
    "C34_value_found_by_following",
    "C34_chains_followed",
    "C34_any_order",
    "C34_only_constants_refuted",
    "C34_unsigned_refuted"
   ],
   "note": "Termination with cycles, soundness, completeness for chains ending in a constant of C++, and independence from the order are proved for every set of macros. The accepted integers are characterised; refuted side findings: 1_000 is accepted, -1u is negative."
  },
  {
   "property": "C35",
   "status": "partial",
   "theorems": [
    "C35_closed_partial",
    "C35_in_stub_partial",
    "C35_quotes_refuted",
    "C35_backslash_refuted",
    "C35_escape_refuted"
   ],
   "note": "Proved, in the stub as well, for every text without three quotes, without escapes that need more characters and, on a single line, without a backslash at the end; false otherwise (refuted three times)."
  },
  {
   "property": "C36",
   "status": "partial",
   "theorems": [
    "C36_above",
    "C36_free",
    "C36_original_code",
    "C36_macros",
    "C36_indented",
    "C36_behind_partial",
    "C36_behind_refuted"
   ],
   "note": "Proved for comments above elements, free comments, original code and macros, indented or not. Comments behind code: proved on one line; a C comment over two lines behind an element becomes code (refuted)."
  },
  {
   "property": "C37",
   "status": "proved",
   "theorems": [
    "C37_meaning",
    "C37_call",
    "C37_only",
    "C37_distinct",
    "C37_named",
    "C37_free_operators",
    "C37_spaceship",
    "C37_ordinary_name_refuted"
   ],
   "note": "Every operator, any spacing, any number of parameters; the lambdas of the three-way comparison are evaluated for every result. Side finding, refuted: a function whose name merely starts with operator is rejected."
  },
  {
   "property": "C38",
   "status": "partial",
   "theorems": [
    "C38_exact",
    "C38_decided",
    "C38_prefixes",
    "C38_comment",
    "C38_empty_signature_refuted",
    "C38_bar_refuted"
   ],
   "note": "The decision is characterised exactly for every function and option setting, and the comment on functions outside the API. Two rules do not do what they say (refuted): an empty signature never excludes, a single bar excludes everything."
  },
  {
   "property": "C39",
   "status": "partial",
   "theorems": [
    "C39_chain",
    "C39_called_once",
    "C39_one_argument_each_partial",
    "C39_scoped_partial",
    "C39_well_named_partial",
    "C39_clean_partial",
    "C39_unnamed_partial",
    "C39_unnamed_same",
    "C39_one_argument_each_refuted",
    "C39_scoped_refuted",
    "C39_well_named_refuted",
    "C39_unnamed_refuted"
   ],
   "note": "Proved for every function and all the adapters together: each lambda is written around what the previous one left, and the original function is called at most once, with one argument for each of its parameters, whatever it does. One argument per parameter in each written call, names bound before use and names which do not clash are proved under conditions on the parameters (single roles for buffers, no list of strings named like a size, no clash with names made from parameters). Refuted without these conditions: a list of strings named like a size, a template pointer without size, a function with a parameter of its own name, param_0 beside a parameter without name."
  },
  {
   "property": "C40",
   "status": "partial",
   "theorems": [
    "C40_applies",
    "C40_round_trip_partial",
    "C40_default_refuted",
    "C40_pointers_refuted",
    "C40_names_refuted",
    "C40_signature"
   ],
   "note": "Proved for any C++ function, memory and arguments, with a semantics of the C++ subset used in the generated lambdas, when the names of the lambda do not clash and the boxed arrays have no specifier, modifier or default value. False otherwise (refuted: v and v_0, an array with a default value, arrays of pointers)."
  },
  {
   "property": "C41",
   "status": "partial",
   "theorems": [
    "C41_signature",
    "C41_applies",
    "C41_receives_partial",
    "C41_capture_refuted"
   ],
   "note": "The signature is proved for every function. The arguments received: proved for any C++ function, memory and arguments, with a semantics of the C++ subset used in the generated lambdas, when the names of the lambda do not clash. A default value that uses the name of another parameter is captured (refuted)."
  },
  {
   "property": "C42",
   "status": "partial",
   "theorems": [
    "C42_returns_partial",
    "C42_named_r_refuted",
    "C42_reference_refuted",
    "C42_signature",
    "C42_result_type"
   ],
   "note": "Proved for any C++ function, memory and arguments, with a semantics of the C++ subset used in the generated lambdas, when the names of the lambda do not clash and the function does not return a reference. Refuted: a parameter named r, a function returning a reference."
  },
  {
   "property": "C43",
   "status": "partial",
   "theorems": [
    "C43_applies",
    "C43_receives_partial",
    "C43_names_refuted",
    "C43_size_t_refuted",
    "C43_signature"
   ],
   "note": "Proved for any C++ function, memory and arguments, with a semantics of the C++ subset used in the generated lambdas, when the names of the lambda do not clash. Refuted: a clash of names, std::size_t."
  },
  {
   "property": "C44",
   "status": "partial",
   "theorems": [
    "C44_receives_partial",
    "C44_without_size_partial",
    "C44_overlap_refuted",
    "C44_signature",
    "C44_signature_alone"
   ],
   "note": "Proved for any C++ function, memory and arguments, with a semantics of the C++ subset used in the generated lambdas, when the names of the lambda do not clash, with and without size, for any number of lists. Refuted: a size which is itself a list."
  },
  {
   "property": "C45",
   "status": "partial",
   "theorems": [
    "C45_applies",
    "C45_adapts_partial",
    "C45_signature_partial",
    "C45_receives_partial",
    "C45_refuses_partial",
    "C45_letter",
    "C45_lengths_refuted",
    "C45_count_type_refuted",
    "C45_long_double_refuted",
    "C45_six_refuted",
    "C45_undeclared_refuted",
    "C45_stride_refuted",
    "C45_names_refuted"
   ],
   "note": "Proved for any C++ function, memory and arguments, with a semantics of the C++ subset used in the generated lambdas, when the names of the lambda do not clash, for any number and order of arrays, sizes and strides, with pybind11 and nanobind, when each parameter has a single role and its type is one word; when the code is written (at most one stride, known types) is proved too. Refuted: arrays of different lengths share the last count, types of several words, six arrays before a size, a template pointer without a size, a stride before its array, a clash of names."
  },
  {
   "property": "C46",
   "status": "partial",
   "theorems": [
    "C46_distinct_types_partial",
    "C46_distinct_templates_partial",
    "C46_space_ignored_partial",
    "C46_distinct_types_refuted",
    "C46_std_refuted",
    "C46_pointer_refuted",
    "C46_distinct_templates_refuted"
   ],
   "note": "Proved for types made of namespaces and a name without underscore or std, with an optional pointer or reference mark, and for template names without underscore; before type replacements. False in general (refuted with four witnesses)."
  },
  {
   "property": "C47",
   "status": "partial",
   "theorems": [
    "C47_named_when_listed",
    "C47_excluded_when",
    "C47_named_or_excluded_partial",
    "C47_class_emitted_partial",
    "C47_function_named",
    "C47_function_suffix_partial",
    "C47_written_type",
    "C47_two_options_refuted",
    "C47_class_emitted_refuted",
    "C47_synonym_target_refuted",
    "C47_function_suffix_refuted"
   ],
   "note": "Which types are named, under which name, and which are excluded is characterised for all lists of options. With one option per name the decisions agree; with two options for one name they do not (refuted four times)."
  },
  {
   "property": "C48",
   "status": "proved",
   "theorems": [
    "C48_one_code_per_header",
    "C48_headers_before_are_kept",
    "C48_binding_text",
    "C48_stub_text",
    "C48_boxed_types_first",
    "C48_boxed_types_once_in_order",
    "C48_boxed_types_order_irrelevant",
    "C48_output_is_extended"
   ],
   "note": "Including the boxed types: sorted, once each, whatever the order in which they were met."
  },
  {
   "property": "C49",
   "status": "partial",
   "theorems": [
    "C49_text",
    "C49_pointer_const",
    "C49_keeps",
    "C49_defined",
    "C49_return_partial",
    "C49_return_words",
    "C49_api_prefix_refuted",
    "C49_return_const_refuted"
   ],
   "note": "The text of a type: proved for every type. Return types: proved when specifiers are not repeated and no word merely starts with the name of an API macro; both exceptions are refuted (APIString becomes String, a constant pointer to a constant has no return type text)."
  },
  {
   "property": "C50",
   "status": "proved",
   "theorems": [
    "C50_fill",
    "C50_loaded",
    "C50_scope",
    "C50_path",
    "C50_scope_enumerator",
    "C50_cached"
   ],
   "note": "Proved for every tree: the parents after loading, the scopes from the path to an element, the cache."
  },
  {
   "property": "C51",
   "status": "partial",
   "theorems": [
    "C51_unqualified_partial",
    "C51_qualified_partial",
    "C51_innermost_refuted",
    "C51_resembling_refuted",
    "C51_between_refuted",
    "C51_bases_partial",
    "C51_default_access_refuted",
    "C51_virtual_base_refuted",
    "C51_virtual_methods",
    "C51_terminates_partial",
    "C51_terminates_refuted",
    "C51_const_refuted"
   ],
   "note": "Lookup proved equal to C++ lookup when the class that can be seen is unique and no scope name is the start of another; bases and access proved when the last specifier is the access; virtual methods proved complete, without duplicates and own first for every class graph; termination proved when bases come before derived classes. Refuted: innermost class, resembling scopes, partly qualified names, default access of class, public virtual, struct A : Ext::A, const overloads."
  },
  {
   "property": "C52",
   "status": "partial",
   "theorems": [
    "C52_fill_partial",
    "C52_independent_partial",
    "C52_lines_partial",
    "C52_commas_partial",
    "C52_ending_partial",
    "C52_constructor_partial",
    "C52_value_refuted",
    "C52_docstring_refuted",
    "C52_multiline_refuted"
   ],
   "note": "Proved for any template, dictionary and order as long as no text or value contains the placeholder of a key; optional lines and commas likewise, with the two templates of function and constructor bindings. Without this condition it is false (refuted three times)."
  },
  {
   "property": "C53",
   "status": "partial",
   "theorems": [
    "C53_array_size_partial",
    "C53_octal_size_refuted"
   ],
   "note": "Proved for sizes that are not octal and have no underscore or outer spaces. False for octal sizes (refuted: v[010] has 10 elements)."
  },
  {
   "property": "C54",
   "status": "partial",
   "theorems": [
    "C54_names_removed_partial",
    "C54_others_unchanged",
    "C54_two_words_refuted",
    "C54_bracketed_type_refuted"
   ],
   "note": "Proved for any number of callbacks and parameters whose types are single words; types of several words lose a word and names after bracketed types stay (refuted)."
  },
  {
   "property": "C55",
   "status": "partial",
   "theorems": [
    "C55_parentheses_partial",
    "C55_braces_partial",
    "C55_text_argument_refuted"
   ],
   "note": "Proved for arguments without braces; braces inside the arguments are changed (refuted)."
  },
  {
   "property": "C56",
   "status": "partial",
   "theorems": [
    "C56_only_root_dropped_partial",
    "C56_other_namespace_refuted",
    "C56_inner_namespace_refuted"
   ],
   "note": "Proved for one root namespace and any text whose names have no other part ending like it; false otherwise (refuted: MyNs.Foo, A.Ns.Foo)."
  },
  {
   "property": "C57",
   "status": "partial",
   "theorems": [
    "C57_filled",
    "C57_succeeds",
    "C57_independent",
    "C57_declarations_refuted"
   ],
   "note": "Proved for every list of children and failures. False inside a declaration of several variables: those after a failing one are lost (refuted)."
  },
  {
   "property": "C58",
   "status": "partial",
   "theorems": [
    "C58_fill_all_refuted",
    "C58_scope_self_partial",
    "C58_scope_self_refuted",
    "C58_cached_refuted",
    "C58_all_elements_partial",
    "C58_all_elements_refuted"
   ],
   "note": "Proved when every child is visited and for elements other than the values of an enum that is not an enum class. Refuted in general: the parameters of a function with a body are not listed, the scope of such an enum value with itself contains the enum, and a scope asked for before parents are filled again stays."
  },
  {
   "property": "C59",
   "status": "partial",
   "theorems": [
    "C59_fresh_default_partial",
    "C59_holders",
    "C59_capture_refuted",
    "C59_applies",
    "C59_signature"
   ],
   "note": "Proved for any C++ function, memory and arguments, with a semantics of the C++ subset used in the generated lambdas, when the names of the lambda do not clash. Refuted: a default value using the name of the parameter. What seems modifiable is a heuristic of the options, left arbitrary."
  },
  {
   "property": "C60",
   "status": "partial",
   "theorems": [
    "C60_null_string_partial",
    "C60_option_refuted",
    "C60_signature"
   ],
   "note": "Proved for any C++ function, memory and arguments, with a semantics of the C++ subset used in the generated lambdas, when the names of the lambda do not clash. Refuted: the option alone is not enough, the function must also match the option of another adapter."
  },
  {
   "property": "C61",
   "status": "partial",
   "theorems": [
    "C61_applies",
    "C61_text_is_no_format_partial",
    "C61_mixed_refuted",
    "C61_signature"
   ],
   "note": "Proved for any C++ function, memory and arguments, with a semantics of the C++ subset used in the generated lambdas, when the names of the lambda do not clash, with no other adapter before. With another adapter the dots become a named parameter (refuted)."
  },
  {
   "property": "C62",
   "status": "partial",
   "theorems": [
    "C62_trailing_partial",
    "C62_optional_partial",
    "C62_named",
    "C62_list_refuted",
    "C62_array_refuted"
   ],
   "note": "Proved through the whole chain of adapters, for every function where neither an array nor a list of C strings has a default value: default values stay last, and the parameters which Python sees stand for those of C++ in order, each optional if and only if the one it stands for is. Refuted otherwise: a list of C strings with a null default, and a returned array with a default, become mandatory after optional parameters."
  },
  {
   "property": "C63",
   "status": "partial",
   "theorems": [
    "C63_described_partial",
    "C63_called_partial",
    "C63_args",
    "C63_static_refuted",
    "C63_static_overload_refuted",
    "C63_static_stub_refuted",
    "C63_value_refuted",
    "C63_names_refuted",
    "C63_vectorized_refuted"
   ],
   "note": "Proved through the whole chain of adapters, for functions, methods and constructors and both binding libraries, when the options keep values (a default value is not replaced by an empty text) and types, and when no lambda is bound for a static method. The text of types and values is not compared. Refuted otherwise: a static method changed by an adapter, or overloaded without parameters, is bound with an object which Python does not give; a static method with a replaced result is shown with self; a default value may vanish from the stub; two parameters may get the same name; vectorized functions changed by an adapter and vectorized methods."
  },
  {
   "property": "C64",
   "status": "proved",
   "theorems": [
    "C64_declares",
    "C64_fits",
    "C64_length_refuted"
   ],
   "note": "Full. The lines may still be longer than the limit after cutting: C64_length_refuted shows that the option is not an upper bound."
  },
  {
   "property": "C65",
   "status": "partial",
   "theorems": [
    "C65_exists",
    "C65_named",
    "C65_shown_partial",
    "C65_made_partial",
    "C65_constructed_partial",
    "C65_text_partial",
    "C65_optional_refuted",
    "C65_excluded_refuted",
    "C65_self_refuted",
    "C65_buffer_refuted",
    "C65_abstract_refuted",
    "C65_protected_refuted"
   ],
   "note": "When there is a constructor and when it takes members are proved for every class. What it takes, what the stub and the binding show, that nothing is raised, and the state of the object made, are proved for any members when nothing hinders the adapters (no member taken for a buffer, excluded as a parameter or named self, options for optional values consistent). The text is proved when placeholders are in none of the texts. Parsing the written constructor is not modelled. Refuted otherwise: optional values assigned as they are, excluded names, a first member named self, a template of pointers before a size, abstract classes, protected destructors."
  },
  {
   "property": "C66",
   "status": "partial",
   "theorems": [
    "C66_stub_partial",
    "C66_binding_partial",
    "C66_values",
    "C66_arithmetic",
    "C66_not_arithmetic_refuted",
    "C66_flag_refuted",
    "C66_count_refuted",
    "C66_only_comments_refuted"
   ],
   "note": "The values published are proved for every enum whose names are C++ names. The stub and the binding are proved to have exactly these, in order, when the names given by the options are words and the one-line comments are closed literals (C05 tells when). The Python text of the values, the values filled by C++ rules (C20) and the location comments are parameters. Refuted otherwise: an enum which is not arithmetic has no binding (an exception is raised), flags are not flags for pybind11, the count of an enum whose name ends with an underscore is published, an enum with comments only has a class without statement."
  },
  {
   "property": "C67",
   "status": "partial",
   "theorems": [
    "C67_published",
    "C67_fields_partial",
    "C67_arrays_partial",
    "C67_names_partial",
    "C67_array_assign_refuted",
    "C67_array_setter_refuted",
    "C67_reference_refuted",
    "C67_unsized_array_refuted",
    "C67_pointer_to_const_refuted"
   ],
   "note": "Which members are published is proved for any members. That the stub and the binding show the same attributes, in order, with the right C++ members, and agree on static and read-only, is proved when names are words, types and values have no sharp sign, the one-line comments are closed literals and the comments do not look like the marks of the stub. Regexes, array sizes (C20), names (C16) and the Python text of types and values are parameters. Refuted otherwise: arrays of numbers cannot be assigned though the stub does not tell so (nanobind: read-only; pybind11: the setter takes no value), references are published as fields which C++ refuses, arrays without size are published as one element, a pointer to constant data is read-only."
  },
  {
   "property": "C68",
   "status": "partial",
   "theorems": [
    "C68_lambda_partial",
    "C68_chain_partial",
    "C68_braces_refuted"
   ],
   "note": "Proved for any function, lambdas and statements, up to indentation and empty lines, when names, types and default values are on one line and hold none of the placeholders of the templates. Not covered: the lambdas which choose the call by the type of the items of a buffer (their text is only shown in examples, see C45). Refuted otherwise: text between braces in a default value is taken for a placeholder."
  },
  {
   "property": "C69",
   "status": "partial",
   "theorems": [
    "C69_binding_partial",
    "C69_written",
    "C69_arguments",
    "C69_template_refuted",
    "C69_variable_refuted",
    "C69_argument_refuted",
    "C69_comment_refuted",
    "C69_holders_refuted"
   ],
   "note": "Proved for forests of any depth and width, when names are words, types are without brackets, quotes and semicolons, the one-line comments are closed literals, the other elements give chains of calls, the identities (name, template arguments) of the classes at the same place are distinct and instances of template classes hold no class nor enum. Left out: custom code, the glue code of virtual and protected methods. That the code is written if and only if all the enums are arithmetic is proved for any forest. Refuted otherwise: classes inside an instance of a template class use a variable which does not exist, two distinct classes can have the same variable, template arguments which are template instances give a variable which is not a name, comments with the name of a placeholder are changed, two holders can be given."
  },
  {
   "property": "C70",
   "status": "partial",
   "theorems": [
    "C70_stub_partial",
    "C70_same_partial",
    "C70_told",
    "C70_empty_refuted",
    "C70_enum_refuted",
    "C70_private_refuted",
    "C70_comment_refuted"
   ],
   "note": "Proved for forests of any depth and width, when names are words, the names of the bases are made of words, dots, commas and square brackets, the other elements give statements without classes, comments do not break docstrings, and the body of a class is not only made of comments. Left out: the lines around the instances of a template class (empty, or comments), namespaces, and how the lines of the other elements are made (C63 to C67). Refuted otherwise: a class or an enum without docstring and with nothing but comments is a block without statements, a comment which ends with a backslash breaks its docstring, a private base is shown by the stub and not by the binding."
  },
  {
   "property": "C71",
   "status": "partial",
   "theorems": [
    "C71_glue_partial",
    "C71_written",
    "C71_count",
    "C71_complete",
    "C71_named",
    "C71_nested_refuted",
    "C71_comma_refuted",
    "C71_overload_refuted",
    "C71_instances_refuted",
    "C71_placeholder_refuted"
   ],
   "note": "Proved for any list of classes in namespaces, methods and parameters, for both libraries, when names are words, results have no brackets nor commas, and parameters are closed one-line C++ texts without the names of the placeholders. Not covered: the code of the boxed types, unnamed parameters, and which methods are found (C51). Refuted otherwise: a class inside a class makes the whole generation fail, a comma in a result type splits the arguments of the macro, overloaded protected methods give the same using twice, two instances of a template class define the same class twice, names of placeholders in default values are replaced."
  },
  {
   "property": "C72",
   "status": "partial",
   "theorems": [
    "C72_pimpl_partial",
    "C72_name",
    "C72_suffix_refuted",
    "C72_default_refuted",
    "C72_virtual_refuted",
    "C72_unnamed_refuted",
    "C72_brace_refuted"
   ],
   "note": "Proved for any class, with any number of public blocks, constructors, methods and parameters, any options, when names are words, types are texts on one line without quotes, slashes and braces, parameters are named one-line C++ texts without the names of the placeholders, comments begin with slashes, have no opening brace, and the one behind does not end like a cut list of parameters. Not covered: comments between slashes and stars, template methods. Refuted otherwise: FooPimpl is published as FooP with the default suffixes, default values are repeated in the definitions, virtual is kept in the definitions, an unnamed parameter is not passed, without a line feed a comment behind the class hides its opening brace."
  },
  {
   "property": "C73",
   "status": "partial",
   "theorems": [
    "C73_named_partial",
    "C73_next_partial",
    "C73_too_many",
    "C73_complete",
    "C73_steps",
    "C73_split_partial",
    "C73_default_refuted",
    "C73_base_refuted",
    "C73_unused_refuted",
    "C73_words_refuted",
    "C73_const_refuted",
    "C73_member_refuted",
    "C73_swap_refuted"
   ],
   "note": "Proved for any functions, nested classes and types, when the names of parameters are words and no argument has the name of a later parameter as a word; the arguments are one-word types. Template parameters without a name are left out. Refuted otherwise: default values, bases and the types defined in a class keep the name of the parameter; a template which does not use its parameter, or a type of several words, raises an exception; const T for a pointer is a pointer to a constant; Other::T is changed; an argument with the name of a later parameter is replaced too."
  },
  {
   "property": "C74",
   "status": "partial",
   "theorems": [
    "C74_method_partial",
    "C74_member_partial",
    "C74_order",
    "C74_nested_refuted",
    "C74_hidden_refuted",
    "C74_text_refuted",
    "C74_reopened_refuted",
    "C74_twice_refuted",
    "C74_order_refuted",
    "C74_function_refuted"
   ],
   "note": "Proved for any program whose scopes have different names, none with a member of its own name, any text and any order of the sets, for names which are in the outermost scope only or in none (for members also in the class itself). The Python names of elements are functions of their C++ names, taken as parameters; the conversion of types and values to Python text before this step is in other properties. Refuted otherwise: a method of a nested class which uses an enum of its own class, a name hidden by an inner scope, the text of strings, namespaces opened twice, two scopes of one name, a scope with a member of its own name (the result depends on the order of a set), functions of nested namespaces."
  },
  {
   "property": "C75",
   "status": "partial",
   "theorems": [
    "C75_end_partial",
    "C75_asked",
    "C75_stop_refuted",
    "C75_second_refuted",
    "C75_constructor_refuted",
    "C75_library_refuted",
    "C75_sentence_refuted"
   ],
   "note": "Proved for any comments, options and libraries, when the parts have no placeholder of the template and the last one does not end like a list with a missing element (as in C52). The callback of the options is left out; matching of names with the regexes of options is a parameter. Refuted otherwise: a full stop or parenthesis behind a policy is taken with it, only the first of several keep_alive arrives, constructors get none, numpy:: is changed by the change of library, a sentence which names a policy is taken for one."
  },
  {
   "property": "C76",
   "status": "partial",
   "theorems": [
    "C76_value_partial",
    "C76_again",
    "C76_default_partial",
    "C76_identifier_refuted",
    "C76_operator_refuted",
    "C76_unsigned_refuted",
    "C76_octal_refuted",
    "C76_string_refuted",
    "C76_macro_refuted",
    "C76_root_refuted",
    "C76_types_partial",
    "C76_standard_partial",
    "C76_product_refuted"
   ],
   "note": "Proved for expressions of any length whose names have no digit behind an underscore and do not start with std or void, whose groups of digits behind an apostrophe have two digits or more, and which have no quotes and no single colon. The theorem on the whole value with the standard rules for types (which are applied to values first) asks that no name is a word of these rules and that there is no * and no &. Refuted otherwise: View_2D is cut to View_2, the rules of types take away the operators * and &, 10u and 010 are left as they are, the text of strings is changed, macros and namespaces are replaced inside of longer names."
  },
  {
   "property": "C77",
   "status": "partial",
   "theorems": [
    "C77_scope_partial",
    "C77_again",
    "C77_order",
    "C77_elsewhere",
    "C77_default_partial",
    "C77_own_partial",
    "C77_word_refuted",
    "C77_same_name_refuted",
    "C77_qualified_refuted",
    "C77_prefix_refuted",
    "C77_method_refuted",
    "C77_own_scope_refuted",
    "C77_standard_partial"
   ],
   "note": "Proved for any declarations, scopes and expressions (in the sense of C76), when one name has one meaning among what is visible, the Python names are not names of other visible enum classes, values or functions, the C++ names have a letter which no number has, and no name of the expression contains the name of an enum class in front of something else. All declarations are read before values are written. The values of an enum may use each other; there the scope of the enum is not used. Refuted otherwise: ModeXOn and OldMode.On are changed by enum class Mode, a value with the name of its enum is replaced three times, values and functions of other scopes written with the name of the scope keep their C++ names, values of plain enums without the name of the enum in front are not changed, methods of other objects are renamed, the values given in an enum do not see the other enums of its scope."
  },
  {
   "property": "C78",
   "status": "partial",
   "theorems": [
    "C78_type_partial",
    "C78_passed",
    "C78_python",
    "C78_number_refuted",
    "C78_static_refuted",
    "C78_member_refuted",
    "C78_inside_refuted"
   ],
   "note": "Proved for types of any depth of the grammar (23 scalar types; classes with paths of names that are no words of the table and do not start with cha; four templates of the standard library and those of the user, with one argument), with const in front or not and &, && or * behind or not, with the standard replacements and no text static or constexpr followed by a space. Templates of two arguments (map, pair, array), functions, void and const char are in the model and shown by examples only; const inside of the angle brackets is left out. Refuted otherwise: unsigned char, long int and std::size_t become texts which are no types of Python, a name which ends with static is cut, Ns::size_t becomes Ns.int, a class named cha becomes str when it is constant, const and * inside of the brackets leave a space."
  },
  {
   "property": "C79",
   "status": "partial",
   "theorems": [
    "C79_words_partial",
    "C79_again",
    "C79_number_partial",
    "C79_numbers_partial",
    "C79_lines_partial",
    "C79_prose_refuted",
    "C79_dimension_refuted",
    "C79_name_refuted"
   ],
   "note": "Proved for every comment with no digit or point right before an f or a d, and for those with any number of decimal numbers with the suffix f or d, each at the start or after a space and followed by no letter, digit or underscore. Comments with such numbers after other characters are in the model only. Letters outside of ASCII are not modelled. The lines of the docstring are proved to be those of the comment for comments without numbers with a suffix and without the option which strips empty lines. Refuted otherwise: words of prose such as true are replaced too, a 3d plot becomes a 3 plot, the name View_2d is cut to View_2."
  }
 ]
}