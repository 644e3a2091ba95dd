{"id": "C01", "title": "Regenerating leaves hand-written text untouched", "statement": "When a target file holds one well-formed generated region (one line with the opening marker, a later line with the closing marker), writing generated code into it changes only the lines strictly between the two marker lines: every line before, the two marker lines themselves, and every line after are kept byte for byte and in order.", "quantifier": "every file text, marker token and code to insert with exactly one opening marker line followed by one closing marker line", "why_tests_cant": "the file content around the region is arbitrary user text; tests only try a few templates", "anchors": ["src/codemanip/code_utils.py: write_generated_code_between_markers"]}
{"id": "C02", "title": "Regenerating twice is the same as regenerating once", "statement": "Writing the same generated code a second time into the file produced by the first write leaves the file unchanged (and does not rewrite it on disk).", "quantifier": "every file text with one well-formed region and every inserted code that does not itself contain a marker", "why_tests_cant": "idempotence is a statement about two runs over any file", "anchors": ["src/codemanip/code_utils.py: write_generated_code_between_markers, write_text_file"]}
{"id": "C03", "title": "Malformed generated regions never destroy the file", "statement": "If the opening marker is missing, or is met again before the region is closed, an error is raised and the file is left as it was. Whatever the markers look like, no user line outside a generated region may be lost or duplicated.", "quantifier": "every file text, marker and inserted code", "why_tests_cant": "malformed inputs are unbounded (missing, swapped, repeated, same-line markers)", "anchors": ["src/codemanip/code_utils.py: write_generated_code_between_markers"]}
{"id": "C04", "title": "Limiting consecutive blank lines", "statement": "After limiting blank lines to n, no run of more than n consecutive blank lines remains, and the non-blank lines are the same, in the same order.", "quantifier": "every text and every n >= 0", "why_tests_cant": "quantifies over all texts and all bounds", "anchors": ["src/codemanip/code_utils.py: code_set_max_consecutive_empty_lines, run_length_encode"]}
{"id": "C05", "title": "Comments become valid one-line C string contents", "statement": "A C++ comment put into a C string literal on one line contains no raw newline, no quote that would end the literal early, and no backslash that would form an unintended escape with the closing quote.", "quantifier": "every comment text", "why_tests_cant": "needs every combination of backslashes, quotes and newlines", "anchors": ["src/codemanip/code_utils.py: format_cpp_comment_on_one_line, escape_backslash_in_comments, overlapping_pairs"]}
{"id": "C06", "title": "Aligning end-of-line comments only inserts spaces", "statement": "Aligning the end-of-line comments of a block keeps the number of lines, only inserts spaces before comment signs, and leaves lines without end-of-line comment untouched; all aligned comments start at the same column.", "quantifier": "every block of Python lines", "why_tests_cant": "any mix of quotes, comment signs and widths", "anchors": ["src/codemanip/code_utils.py: align_python_comments_in_block, line_python_comment_position"]}
{"id": "C07", "title": "Indenting and unindenting code", "statement": "Indenting prefixes every non-empty line with the indent string and keeps the number of lines; unindenting code that was indented by spaces gives back the code (up to trailing spaces) when its first non-empty line had no indentation.", "quantifier": "every code text and every indent width", "why_tests_cant": "all texts, all widths, nested relative indentation", "anchors": ["src/codemanip/code_utils.py: indent_code, unindent_code, compute_code_indent_size"]}
{"id": "C08", "title": "Stripping blank lines at both ends", "statement": "Stripping removes exactly the leading and trailing blank lines; the result neither starts nor ends with a blank line (or is empty), and stripping again changes nothing.", "quantifier": "every text", "why_tests_cant": "all texts", "anchors": ["src/codemanip/code_utils.py: strip_empty_lines, strip_empty_lines_in_list"]}
{"id": "C09", "title": "Space normalisation reaches a normal form", "statement": "Forcing single spaces terminates and yields a text without newline, tab or two adjacent spaces, keeping all other characters in order; doing it again changes nothing.", "quantifier": "every text (termination of an unbounded loop)", "why_tests_cant": "loop termination and all inputs", "anchors": ["src/codemanip/code_utils.py: force_one_space"]}
{"id": "C10", "title": "Adding a token before the trailing C++ comment", "statement": "Adding an item (such as a closing semicolon or a comma) to a line inserts it just after the last code character and before any trailing // comment; the rest of the line is unchanged, so the item is never commented out.", "quantifier": "every line and item", "why_tests_cant": "all placements of // inside and outside strings", "anchors": ["src/codemanip/code_utils.py: add_item_before_cpp_comment, last_code_position_before_cpp_comment, line_cpp_comment_position, join_lines_with_token_before_cpp_comment"]}
{"id": "C11", "title": "Amalgamation includes each local header once", "statement": "Amalgamating a header terminates even when headers include each other in cycles; each local header is expanded at most once, each external include is emitted at most once, and every other line of every reached header is emitted exactly once.", "quantifier": "every finite set of header files and every include graph, cycles included", "why_tests_cant": "all include graphs; termination on cycles", "anchors": ["src/codemanip/amalgamated_header.py: _amalgamate_one_file, write_amalgamate_header_file"]}
{"id": "C12", "title": "Preprocessor region filtering", "statement": "Filtering removes exactly the lines of conditional regions that are not acceptable (with nested regions following their parent), and keeps every line outside any conditional region; the output is a subsequence of the input.", "quantifier": "every source text and every acceptance rule for condition names", "why_tests_cant": "arbitrary nesting depth and malformed nesting", "anchors": ["src/srcmlcpp/internal/filter_preprocessor_regions.py"]}
{"id": "C13", "title": "No comment is lost or duplicated when attached to elements", "statement": "Attaching comments to the elements they document keeps every non-comment element once and in order, and every comment line ends up in exactly one place (previous-line comment, end-of-line comment or free comment).", "quantifier": "every sequence of elements, comments and blank lines with positions", "why_tests_cant": "arbitrary interleavings", "anchors": ["src/srcmlcpp/internal/srcml_comments.py"]}
{"id": "C14", "title": "Name replacement stops after a bounded number of passes", "statement": "Applying a replacement list runs at most a fixed number of passes, stops as soon as a pass changes nothing, and the result only depends on the input text and the list; if it stops early the result is a fixed point.", "quantifier": "every replacement list (any matcher) and text", "why_tests_cant": "arbitrary, possibly diverging, rules", "anchors": ["src/codemanip/code_replacements.py: RegexReplacementList.apply"]}
{"id": "C15", "title": "Scope hierarchy is the chain of enclosing scopes", "statement": "The hierarchy of a scope lists the scope itself, then each enclosing scope from inner to outer, ending with the global scope; a scope can access exactly the scopes of this chain; reading a scope back from its text gives the same text.", "quantifier": "every scope of any depth", "why_tests_cant": "any depth", "anchors": ["src/srcmlcpp/cpp_types/scope/cpp_scope.py: CppScope"]}
{"id": "C16", "title": "Qualifying names never alters string literals or comments", "statement": "When identifiers in a piece of C++ code are qualified, the contents of string literals and of // comments are left untouched and at the same place relative to the code around.", "quantifier": "every code text, scope and set of known identifiers", "why_tests_cant": "arbitrary code texts", "anchors": ["src/srcmlcpp/cpp_types/scope/cpp_scope_process.py: apply_scoped_identifiers_to_code, make_terse_code"]}
{"id": "C17", "title": "Qualifying names follows C++ lookup", "statement": "An identifier is replaced only by a known qualified name reachable from the current scope, and it is replaced by the one found in the innermost enclosing scope; identifiers that match nothing and identifiers starting with :: stay unchanged.", "quantifier": "every set of known names in any declaration order, every scope, every identifier", "why_tests_cant": "depends on declaration order and name sets", "anchors": ["src/srcmlcpp/cpp_types/scope/cpp_scope_process.py: apply_scoped_identifiers_to_code, current_token_matches_scoped_identifier", "src/srcmlcpp/cpp_types/scope/cpp_scope_identifiers.py"]}
{"id": "C18", "title": "Shortened names resolve back to the same entity", "statement": "When a qualified name is shortened relative to the current scope, looking the shortened name up from that scope designates the original name.", "quantifier": "every qualified name and current scope", "why_tests_cant": "all scope pairs", "anchors": ["src/srcmlcpp/cpp_types/scope/cpp_scope_process.py: _make_terse_scoped_identifier, make_terse_code"]}
{"id": "C19", "title": "Qualified declarations do not depend on earlier queries", "statement": "Asking for the qualified form of a declaration in a given scope gives a result that depends only on the declaration and that scope, not on queries made before with other scopes.", "quantifier": "every history of queries", "why_tests_cant": "history dependent", "anchors": ["src/srcmlcpp/cpp_types/decls_types/cpp_decl.py: CppDecl.with_qualified_types", "src/srcmlcpp/cpp_types/scope/scoped_element_cache.py"]}
{"id": "C20", "title": "Enum values follow C++", "statement": "Enumerators without an explicit value get 0 if first, otherwise the previous value plus one; explicit values are kept; when a previous value cannot be understood no wrong value is invented.", "quantifier": "every enum, any number of enumerators and any value texts", "why_tests_cant": "all sequences of explicit and implicit values", "anchors": ["src/srcmlcpp/cpp_types/cpp_enum.py: get_children_with_filled_decl_values"]}
{"id": "C21", "title": "Enumerator names stay usable in Python", "statement": "Removing the enum name prefix from an enumerator never yields an empty name nor a name starting with a digit, and distinct enumerators of an enum keep distinct Python names.", "quantifier": "every enum name and every list of enumerator names", "why_tests_cant": "all name combinations", "anchors": ["src/litgen/internal/adapted_types/adapted_enum.py: AdaptedEnumDecl._decl_name_cpp_without_enum_prefix, decl_name_python"]}
{"id": "C22", "title": "Grouping overloads only moves overloads", "statement": "Grouping overloaded functions yields a permutation of the elements in which all overloads of one function are adjacent, in their original relative order, starting where the first one was; the other elements keep their relative order.", "quantifier": "every list of elements", "why_tests_cant": "all interleavings of any number of overload groups", "anchors": ["src/litgen/internal/adapted_types/adapted_block.py: group_overloaded_functions"]}
{"id": "C23", "title": "Stub overloads are distinct and correctly decorated", "statement": "In a stub, no two emitted overloads have the same Python signature, every dropped overload has the signature of an emitted earlier one, nothing else is dropped, and @overload is kept exactly when at least two overloads of that Python name remain.", "quantifier": "every list of elements and signatures", "why_tests_cant": "all lists", "anchors": ["src/litgen/internal/adapted_types/stub_overload_dedup.py: dedup_stub_lines"]}
{"id": "C24", "title": "Layout spacing never changes content", "statement": "The blank lines inserted between elements are the only addition to the concatenation of the elements' lines; nothing is inserted before the first non-empty element, and at most two blank lines are inserted between two elements.", "quantifier": "every sequence of elements", "why_tests_cant": "stateful spacing over any history", "anchors": ["src/litgen/internal/adapted_types/line_spacer.py: LineSpacerCpp, LineSpacerPython"]}
{"id": "C25", "title": "Namespace code is emitted once, in its own submodule", "statement": "Every code fragment recorded for a namespace appears exactly once in the output, inside the block of its namespace, itself inside the blocks of its enclosing namespaces, after the fragments recorded earlier for the same namespace; opening and closing lines are balanced.", "quantifier": "every sequence of recorded (namespace, code) pairs of any depth", "why_tests_cant": "any nesting depth and order", "anchors": ["src/litgen/internal/context/namespaces_code_tree.py: NamespacesCodeTree"]}
{"id": "C26", "title": "Submodules are created exactly once, before use", "statement": "In the binding code of one header, a submodule variable is created exactly once per namespace even if the namespace is reopened, and before any code that uses it.", "quantifier": "every namespace structure, including reopened and nested namespaces", "why_tests_cant": "all reopenings and nestings", "anchors": ["src/litgen/internal/adapted_types/adapted_namespace.py: AdaptedNamespace", "src/litgen/internal/context/namespaces_code_tree.py"]}
{"id": "C27", "title": "Custom bindings for the main module are emitted once per generator", "statement": "Custom code added to the main module is emitted exactly once by a generator, however many headers it processes, and every new generator emits it.", "quantifier": "every sequence of generator creations and processed headers", "why_tests_cant": "history over several generators and files", "anchors": ["src/litgen/internal/custom_bindings.py: CustomBindings", "src/litgen/litgen_generator.py"]}
{"id": "C28", "title": "Custom bindings reach their target scope in order", "statement": "All custom codes registered for a class or submodule appear, in registration order, in the code of this scope and of no other scope, with the placeholder replaced everywhere.", "quantifier": "every sequence of registrations", "why_tests_cant": "any registration history", "anchors": ["src/litgen/internal/custom_bindings.py"]}
{"id": "C29", "title": "Python names are never reserved words", "statement": "The Python name published for a parameter, variable, function or namespace is never a Python reserved word.", "quantifier": "every C++ name", "why_tests_cant": "all names, interaction of case conversion and keywords", "anchors": ["src/litgen/internal/cpp_to_python.py: add_underscore_if_python_reserved_word, var_name_to_python, function_name_to_python, namespace_name_to_python"]}
{"id": "C30", "title": "Unnamed parameters get names", "statement": "After naming, every parameter has a non-empty name, parameters that had a name keep it, and all names are distinct if the given ones were.", "quantifier": "every parameter list", "why_tests_cant": "any mix of named and unnamed parameters", "anchors": ["src/litgen/internal/adapted_types/adapted_function.py: add_names_to_unnamed_params"]}
{"id": "C31", "title": "Snake case conversion", "statement": "Converting to snake case gives a name without upper-case letters, keeps the letters and digits in order (case aside), only adds or merges underscores, and converting again changes nothing.", "quantifier": "every identifier", "why_tests_cant": "all identifiers", "anchors": ["src/codemanip/code_utils.py: to_snake_case"]}
{"id": "C32", "title": "Template argument splitting", "statement": "Splitting a type around its outermost template brackets loses no character, is correct at any nesting depth, and translating a nested template type terminates with every template bracket pair turned into one square bracket pair.", "quantifier": "every type text with any nesting", "why_tests_cant": "arbitrary nesting", "anchors": ["src/litgen/internal/cpp_to_python.py: _split_cpp_type_template_args, _perform_cpp_type_replacements_recursively"]}
{"id": "C33", "title": "Published macros keep their value", "statement": "A macro published to Python denotes the same number or string in the Python stub as in C++.", "quantifier": "every macro value text", "why_tests_cant": "all literals (octal, hex, signs, suffixes)", "anchors": ["src/litgen/internal/adapted_types/adapted_define.py: _compute_define_value_type, AdaptedDefine"]}
{"id": "C34", "title": "Integer macros resolve like the preprocessor", "statement": "Resolving a macro name to an integer always terminates, even with cyclic definitions; a returned value is the value obtained by following definitions to an integer literal; the result does not depend on the order of definitions.", "quantifier": "every finite set of macro definitions, cyclic or not", "why_tests_cant": "cycles and arbitrary chains", "anchors": ["src/srcmlcpp/cpp_types/blocks/cpp_unit.py: _parse_c_int_literal, _resolve_int_token, int_value_from_define_name"]}
{"id": "C35", "title": "Docstrings are closed exactly once", "statement": "The docstring emitted for a comment is a single Python string literal: it opens at its first line and is closed only at its last line.", "quantifier": "every comment text", "why_tests_cant": "all texts, quotes included", "anchors": ["src/litgen/internal/cpp_to_python.py: docstring_lines"]}
{"id": "C36", "title": "Comments stay comments in Python", "statement": "Every line emitted for a C++ comment in a stub is a Python comment line (or blank), so no comment text becomes code.", "quantifier": "every comment text", "why_tests_cant": "multi-line and odd comments", "anchors": ["src/litgen/internal/cpp_to_python.py: comment_python_previous_lines, comment_python_end_of_line"]}
{"id": "C37", "title": "Operators map to the matching Python method", "statement": "A supported member operator with n parameters is published under the Python special method with the same meaning, unsupported ones are rejected, distinct operators of the same arity get distinct Python names, and the three-way comparison yields the five comparisons, each consistent with the sign of the C++ result.", "quantifier": "every operator and parameter count, and every three-way result", "why_tests_cant": "all operators and all comparison results", "anchors": ["src/litgen/internal/adapted_types/operators.py"]}
{"id": "C38", "title": "Function publishing rules", "statement": "Destructors, deleted functions and functions excluded by an exclusion rule are never published; a function not excluded and carrying an accepted API prefix is published.", "quantifier": "every function and every option setting", "why_tests_cant": "all option combinations", "anchors": ["src/litgen/internal/adapted_types/adapted_function.py: init_is_function_publishable"]}
{"id": "C39", "title": "Adapters always call the original function with one argument per parameter", "statement": "Whatever combination of adapters applies to a function, the generated chain of lambdas calls the original function exactly once, with one argument per original parameter, in order, and every name used in the generated code is bound at that point.", "quantifier": "every parameter list and every subset of adapters", "why_tests_cant": "all combinations of adapters and parameters", "anchors": ["src/litgen/internal/adapt_function_params/apply_all_adapters.py", "src/litgen/internal/adapt_function_params/_adapt_c_arrays.py", "src/litgen/internal/adapt_function_params/_adapt_exclude_params.py", "src/litgen/internal/adapt_function_params/adapt_modifiable_immutable.py", "src/litgen/internal/adapt_function_params/_adapt_c_string_list.py"]}
{"id": "C40", "title": "Fixed size arrays round trip through boxed values", "statement": "When a modifiable C array parameter is split into boxed values, the C++ function sees an array holding the boxed values, and after the call each box holds the array element written by the function.", "quantifier": "every array size up to the configured maximum, every value and every behaviour of the C++ function", "why_tests_cant": "all sizes and functions", "anchors": ["src/litgen/internal/adapt_function_params/_adapt_c_arrays.py: adapt_c_arrays", "src/litgen/internal/adapted_types/adapted_decl.py"]}
{"id": "C41", "title": "Excluded parameters receive their default value", "statement": "An excluded parameter disappears from the Python signature and the original function receives its default value; a parameter without default value is never excluded; the other parameters are passed through in order.", "quantifier": "every parameter list and exclusion rule", "why_tests_cant": "all parameter lists", "anchors": ["src/litgen/internal/adapt_function_params/_adapt_exclude_params.py: adapt_exclude_params"]}
{"id": "C42", "title": "Modified immutable values are returned", "statement": "When modified immutable parameters are returned, the result is the original return value (if any) followed by the final value of each such parameter in order, and a single value is returned without tuple.", "quantifier": "every parameter list, every behaviour of the C++ function", "why_tests_cant": "all parameter lists and behaviours", "anchors": ["src/litgen/internal/adapt_function_params/adapt_modifiable_immutable_to_return.py"]}
{"id": "C43", "title": "Boxed immutable values are updated in place", "statement": "When a modifiable immutable parameter is boxed, the C++ function reads and writes the boxed value; a null default is passed as a null pointer.", "quantifier": "every parameter list, every behaviour of the C++ function", "why_tests_cant": "all parameter lists and behaviours", "anchors": ["src/litgen/internal/adapt_function_params/adapt_modifiable_immutable.py"]}
{"id": "C44", "title": "String lists are passed with their size", "statement": "A (const char* const[], count) pair of parameters becomes one list of strings in Python; the C++ function receives pointers to these strings in order and their number; other parameters are unaffected.", "quantifier": "every parameter list and list of strings", "why_tests_cant": "any number of pairs in any position", "anchors": ["src/litgen/internal/adapt_function_params/_adapt_c_string_list.py"]}
{"id": "C45", "title": "Buffers are passed with their length", "statement": "A (pointer, count) pair of parameters becomes one Python buffer; the C++ function receives the buffer's data and its number of elements; a stride parameter defaults to the item size.", "quantifier": "every parameter list", "why_tests_cant": "any number and order of buffers, sizes and strides", "anchors": ["src/litgen/internal/adapt_function_params/_adapt_c_buffers.py"]}
{"id": "C46", "title": "Template names of distinct instantiations are distinct", "statement": "Two different handled instantiations of a template class or function are published under different Python names.", "quantifier": "every template name and pair of types", "why_tests_cant": "all pairs of types", "anchors": ["src/litgen/internal/template_options.py: _apply_template_naming"]}
{"id": "C47", "title": "Template handling options are decided consistently", "statement": "A template type is specialised, published as a synonym or excluded according to the first matching options, and a type that is specialised by some option is not left untranslated.", "quantifier": "every list of template options and every type", "why_tests_cant": "all option lists", "anchors": ["src/litgen/internal/template_options.py: TemplateSpecList, TemplateClassOptions"]}
{"id": "C48", "title": "Generator output is the concatenation of its headers", "statement": "The generated code is the code of each processed header, each exactly once, in processing order, preceded by the boxed types when needed; processing more headers never changes the code already generated for earlier ones.", "quantifier": "every sequence of headers", "why_tests_cant": "any history", "anchors": ["src/litgen/litgen_generator.py: LitgenGenerator"]}
{"id": "C49", "title": "Type text is built from its parts", "statement": "The text of a C++ type is its specifiers, names, template arguments and modifiers in C++ order, keeping each of them; removing an API prefix from a return type never changes the type itself.", "quantifier": "every combination of specifiers, names and modifiers", "why_tests_cant": "all combinations", "anchors": ["src/srcmlcpp/cpp_types/decls_types/cpp_type.py: str_code, str_return_type"]}
{"id": "C50", "title": "Parents are consistent after loading", "statement": "After a unit is loaded, each element's parent is the element that contains it, for every element of the tree, and the scope of an element is the list of the named scopes around it from outer to inner, where the values of an enum that is not an enum class belong to the scope around this enum.  Asking twice gives the same answer.", "quantifier": "every element tree", "why_tests_cant": "any tree", "anchors": ["src/srcmlcpp/cpp_types/base/cpp_element.py: fill_children_parents, cpp_scope, ancestors_list"]}
{"id": "C51", "title": "Class lookup finds the visible class", "statement": "Looking a class name up from a scope finds the class C++ name lookup would find; the published bases are those C++ does not inherit privately; walking up base classes terminates and yields every virtual method of the ancestors once, the most derived first.", "quantifier": "every set of classes and scopes", "why_tests_cant": "all class graphs", "anchors": ["src/srcmlcpp/cpp_types/blocks/cpp_block.py: find_struct_or_class", "src/srcmlcpp/cpp_types/classes/cpp_struct.py: virtual_methods"]}
{"id": "C52", "title": "Code templates are filled without interference", "statement": "Filling a code template replaces each placeholder by its value; the result does not depend on the values of other placeholders.", "quantifier": "every template and values", "why_tests_cant": "all values, including values that look like placeholders", "anchors": ["src/codemanip/code_utils.py: process_code_template, replace_in_string, replace_maybe_comma"]}
{"id": "C53", "title": "Sizes of C arrays match C++", "statement": "When a size is found for a C array, it is the size that the array has in C++; when the text of the size cannot be understood, no size is invented.", "quantifier": "every text of a size and every set of macros", "why_tests_cant": "all size texts: numbers in any base, macros, chains of macros", "anchors": ["src/srcmlcpp/cpp_types/decls_types/cpp_decl.py: c_array_size_as_int", "src/srcmlcpp/srcmlcpp_options.py: _int_from_str_or_named_number_macros"]}
{"id": "C54", "title": "Callable type hints contain only types", "statement": "In the type hints of callbacks, the names of the parameters are removed and their types are kept; other type hints are unchanged.", "quantifier": "every type hint with any number of callbacks and parameters", "why_tests_cant": "any number, order and nesting of callbacks and named or unnamed parameters", "anchors": ["src/litgen/internal/cpp_to_python.py: type_to_python"]}
{"id": "C55", "title": "Default values of template types become calls of their Python class", "statement": "A default value built by calling or brace-initialising an instantiation of a handled template is published as a call of the Python class of that instantiation, with the same arguments.", "quantifier": "every list of template options, type and arguments", "why_tests_cant": "all types and argument texts", "anchors": ["src/litgen/internal/template_options.py: specialized_type_python_default_value"]}
{"id": "C56", "title": "Dropping a root namespace changes no other name", "statement": "When a namespace is declared as root, its prefix disappears from the names of its members in published types and every other name is published unchanged.", "quantifier": "every type text and root namespace", "why_tests_cant": "all names, including names that resemble the root namespace", "anchors": ["src/litgen/internal/cpp_to_python.py: type_to_python"]}
{"id": "C57", "title": "One failing element does not hide the others", "statement": "Every element of a namespace that the options ask for is published, in its place, unless processing it fails; a failure removes that element, emits a warning for it and leaves all other elements as they are.", "quantifier": "every list of elements, option setting and set of failing elements", "why_tests_cant": "any combination of elements and failures", "anchors": ["src/litgen/internal/adapted_types/adapted_block.py: _fill_adapted_elements"]}
{"id": "C58", "title": "Queries over a whole tree miss nothing", "statement": "The recursive list of all elements of a unit holds every element of the unit once, in document order; the scope of an element taken with itself is its scope followed by its own name if it opens one; a scope asked for after the parents are filled again is the new one.", "quantifier": "every element tree and sequence of queries", "why_tests_cant": "any tree, any order of queries", "anchors": ["src/srcmlcpp/cpp_types/blocks/cpp_block.py: all_cpp_elements_recursive", "src/srcmlcpp/cpp_types/base/cpp_element.py: cpp_scope"]}
{"id": "C59", "title": "Modifiable default values are made anew for each call", "statement": "A parameter whose default value can be modified becomes optional in Python; when it is not given, the C++ function receives a new default value made for this call, and otherwise the value given.", "quantifier": "every parameter list, every subset of given arguments and every behaviour of the C++ function", "why_tests_cant": "all parameter lists and histories of calls", "anchors": ["src/litgen/internal/adapt_function_params/_adapt_mutable_param_with_default_value.py: adapt_mutable_param_with_default_value"]}
{"id": "C60", "title": "None stands for a null C string", "statement": "A const char * parameter with a null default becomes an optional string; None reaches the C++ function as a null pointer and a string as a pointer to its characters.", "quantifier": "every parameter list and every value", "why_tests_cant": "all parameter lists and values", "anchors": ["src/litgen/internal/adapt_function_params/adapt_const_char_pointer_with_default_null.py: adapt_const_char_pointer_with_default_null"]}
{"id": "C61", "title": "A Python text is never used as a format", "statement": "A function taking a C format followed by dots is published with a text instead: the C++ function receives the format %s and this text, after its other arguments.", "quantifier": "every parameter list and text", "why_tests_cant": "any number of parameters before the format, any text", "anchors": ["src/litgen/internal/adapt_function_params/_adapt_variadic_format.py: adapt_variadic_format"]}
{"id": "C62", "title": "Optional parameters stay optional and last", "statement": "After all adaptations of a function, the parameters which Python sees stand for those of C++ in the same order; each can be omitted if and only if the C++ parameter it stands for can be, and if the parameters which can be omitted are the last ones in C++, they are the last ones in Python, so that the published signature is valid.", "quantifier": "every parameter list, option setting and combination of adaptations", "why_tests_cant": "any number of parameters and any combination of adaptations", "anchors": ["src/litgen/internal/adapt_function_params/apply_all_adapters.py: apply_all_adapters"]}
{"id": "C63", "title": "The stub and the binding describe the same function", "statement": "For a published function, method or constructor, the stub and the binding list the same Python parameters in the same order, with the same names, and both or neither give a default value to each; what is bound in C++ takes exactly what Python gives it: the object, if the stub shows self for a method, then these parameters.", "quantifier": "every function, method or constructor, option setting and combination of adaptations, for both binding libraries", "why_tests_cant": "any parameter list and any combination of adaptations", "anchors": ["src/litgen/internal/adapted_types/adapted_function.py: _stub_params_list_signature, _pydef_pyarg_list, _pydef_without_lambda_str_impl, _pydef_with_lambda_str_impl", "src/litgen/internal/adapted_types/adapted_decl.py: _str_pydef_as_pyarg"]}
{"id": "C64", "title": "Cutting a long declaration does not change it", "statement": "Whatever the line length asked for, the declaration of a function in the stub is made of its name, its parameters and its result in this order, cut only inside its parentheses; it is on one line if and only if it is shorter than the length.", "quantifier": "every name, result, list of parameters, comment and line length", "why_tests_cant": "any number and length of parameters", "anchors": ["src/litgen/internal/adapted_types/adapted_function.py: stub_lines"]}
{"id": "C65", "title": "A class without constructor gets one made of its members", "statement": "A class which declares no constructor, if the options ask for it, is published with a constructor whose parameters are its public members which can be given a value, in order, each of which may be omitted; the stub and the binding show the same ones. In the object it makes, each of these members has its argument, or its initial value if none was given, and the other members what C++ gives them.", "quantifier": "every class, option setting, list of members and subset of given arguments, for both binding libraries", "why_tests_cant": "any list of members and any combination of options", "anchors": ["src/litgen/internal/adapted_types/adapted_class.py: PythonNamedConstructorHelper", "src/litgen/internal/adapt_function_params/_adapt_mutable_param_with_default_value.py: adapt_mutable_param_with_default_value"]}
{"id": "C66", "title": "An enum has the same values in the stub and in the binding", "statement": "For an enum, the stub has a class with its Python name, the base class which the options ask for, its documentation and one assignment for each published value, in order, and nothing else. The binding is one C++ statement which registers, in the same order, the same names with the right C++ values and documentation. The values published are all the values of the enum, except for the ones which count the others.", "quantifier": "every enum, with any number of values, comments and empty lines, any option setting, for both binding libraries", "why_tests_cant": "any list of values and comments, any text in the comments", "anchors": ["src/litgen/internal/adapted_types/adapted_enum.py: AdaptedEnum", "src/litgen/internal/cpp_to_python.py: enum_element_is_count"]}
{"id": "C67", "title": "The member variables of a class are the same attributes in the stub and in the binding", "statement": "The public members of a class which are not excluded, not bit fields and whose arrays are known are attributes of the Python class, in the same order in the stub and in the binding, under the same names. Both tell alike whether an attribute is static and whether it can be assigned: it cannot if the member is constant or if the options make it read-only. The binding reads and writes the right C++ member; an array of numbers is shown as a numpy array over its own elements, with the right type and length.", "quantifier": "every list of members, with any types, comments and array sizes, any option setting, for both binding libraries", "why_tests_cant": "any list of members, any text in types, values and comments", "anchors": ["src/litgen/internal/adapted_types/adapted_class.py: AdaptedClassMember, _init_add_adapted_class_member"]}
{"id": "C68", "title": "The C++ code of the lambdas is the one which was decided", "statement": "Each C++ lambda written around a function takes the parameters decided by the adapter and returns the type decided by it; it captures the object for a method, the lambda it calls if there is one, and nothing else. Its body declares what the adapter decided, line by line and in order, calls the function or the previous lambda with the right expressions, then executes what comes after the call, and returns the result of the function, unless it is void, or the modified parameters. Nothing else is written, for any number of lambdas around the same function.", "quantifier": "every function and method, every list of parameters, statements and lambdas, any indentation", "why_tests_cant": "any number and combination of parameters, statements and lambdas, any names, types and default values", "anchors": ["src/litgen/internal/adapt_function_params/apply_all_adapters.py: _make_adapted_lambda_code, _make_adapted_lambda_code_end", "src/litgen/internal/adapt_function_params/adapt_modifiable_immutable_to_return.py: fill_lambda_template_end"]}
{"id": "C69", "title": "Every class of the binding is made in its place, and its members are defined on it", "statement": "The C++ code written for the classes and enums of a header makes each class and each enum, at any depth of nesting, exactly once, in the Python object of the class or namespace which holds it, under its Python name, with its C++ type, its public and protected bases, its holder and its documentation; the methods, attributes and values are defined on that very object. Each C++ variable is declared once in its block and before it is used.", "quantifier": "every forest of classes and enums, of any depth and width, any option setting, for both binding libraries", "why_tests_cant": "any nesting depth, any names, any text in the comments", "anchors": ["src/litgen/internal/adapted_types/adapted_class.py: pydef_lines", "src/litgen/internal/cpp_to_python.py: cpp_scope_to_pybind_var_name, cpp_scope_to_pybind_parent_var_name"]}
{"id": "C70", "title": "Every class of the stub is in its place, and is the one of the binding", "statement": "The Python stub written for the classes and enums of a header is made of complete statements and blocks. It defines each class and each enum, at any depth of nesting, exactly once, in the class which holds it, with its Python name and its bases, and it defines no other class, whatever is in the comments and in the strings. The classes of the stub are those which the binding makes, in the same order and at the same places.", "quantifier": "every forest of classes and enums, of any depth and width, any option setting", "why_tests_cant": "any nesting depth, any names, any text in the comments, strings and members", "anchors": ["src/litgen/internal/adapted_types/adapted_class.py: stub_lines", "src/litgen/internal/adapted_types/adapted_element.py: _str_stub_layout_lines", "src/litgen/internal/adapted_types/line_spacer.py: LineSpacerPython"]}
{"id": "C71", "title": "The glue code defines the classes which Python needs to override and to call methods", "statement": "For each class whose virtual methods can be overridden in Python, the glue code defines exactly one C++ class, in the same namespaces, which derives from it and overrides each of its virtual methods, own or inherited, once, with the same parameters, result and constness; each override gives its arguments in order to the macro of the binding library, with the C++ and Python names, the result type and the class, and with the pure macro if and only if the method is pure. For nanobind the number of methods declared is the number of methods overridden. For each class whose protected methods are published, it defines exactly one class deriving from it with one using for each of them. Nothing else is defined.", "quantifier": "every list of classes, of virtual and protected methods and of parameters, any namespaces and indentation, for both binding libraries", "why_tests_cant": "any number of classes, methods, parameters and namespaces, any types and default values", "anchors": ["src/litgen/internal/adapted_types/adapted_class.py: _virt_store_glue_override, _prot_store_glue, _glue_scope_intro_outro", "src/litgen/internal/adapted_types/adapted_function.py: virt_glue_override_virtual_methods_in_python", "src/litgen/litgen_generator.py: glue_code"]}
{"id": "C72", "title": "The PImpl tool publishes each public method and forwards each call", "statement": "For a class whose name ends with one of the suffixes, the header written by the PImpl tool announces that class and defines one class, named without the suffix, which declares each public constructor and method once, in order, with its parameters, its default values, its constness and its result type without inline and constexpr, a destructor, and a private unique_ptr to the class. The C++ code defines each of them once, in order, and nothing else: a method calls the method of the same name, of the object or of the class if it is static, with the parameters in order, and returns its result unless it is void; a constructor makes the object from its parameters. Comments, empty lines and other members do not change this. An exception is raised if and only if no suffix fits.", "quantifier": "every class, any number of public blocks, methods and parameters, any comments, any options", "why_tests_cant": "any number of methods and parameters, any types, comments and settings", "anchors": ["src/srcmlcpp_tools/pimpl_my_class/pimpl_my_class.py: pimpl_my_class, PimplMyClass", "src/srcmlcpp/cpp_types/base/cpp_element_comments.py: top_comment_code"]}
{"id": "C73", "title": "An instance of a template is the template with its parameters replaced", "statement": "Publishing a template class or function for a list of types gives one instance for each type of the last option which fits its name, in order. In an instance each occurrence of the name of a template parameter, as a whole word of a type of a variable, of a parameter or of a result, at any depth of nested classes, is replaced by the argument, all parameters at once; nothing else is changed, names which merely contain the name of the parameter included, and the arguments are remembered. If the arguments do not use the parameters, no type of the instance does. Giving the arguments one after the other gives the same instance. More arguments than parameters raise an exception.", "quantifier": "every class with nested classes of any depth, every function, any types, any parameters and arguments", "why_tests_cant": "any nesting depth, any number of members, parameters and arguments, any text of types", "anchors": ["src/srcmlcpp/cpp_types/classes/cpp_struct.py: with_specialized_template", "src/srcmlcpp/cpp_types/functions/cpp_function_decl.py: with_specialized_template", "src/srcmlcpp/cpp_types/decls_types/cpp_type.py: with_specialized_template", "src/srcmlcpp/cpp_types/template/cpp_i_template_host.py: _store_template_specs", "src/litgen/internal/adapted_types/adapted_class.py: _tpl_split_into_template_instantiations"]}
{"id": "C74", "title": "The names of the stub are completed so that Python finds them", "statement": "In the stub, Python sees from inside a class only the names of this class and those of the module. In the types and default values of a method or member of a nested class, each name which does not come after a dot and which is one of the classes, enums or functions of a scope around is preceded by the name of the scope; names after a dot, longer names which contain it, and all the rest of the text are unchanged, whatever the order of the names. Python then finds what C++ means by the name.", "quantifier": "every program of nested classes and namespaces, every scope, every text of a type or value", "why_tests_cant": "any nesting of scopes, any sets of names, any texts", "anchors": ["src/litgen/internal/cpp_to_python.py: qualify_sibling_in_scope", "src/litgen/internal/adapted_types/adapted_class.py: _register_inner_python_names, _qualify_siblings", "src/litgen/internal/adapted_types/adapted_namespace.py: _register_namespace_python_names", "src/litgen/internal/adapted_types/adapted_function.py: _stub_params_list_signature, _stub_return_type_python"]}
{"id": "C75", "title": "The policies of return value, lifetime and calls arrive in the bindings", "statement": "The binding of a function ends with its arguments, its documentation, the policy of its return value, one policy of lifetime and the guards of calls, each only if asked for. The policy of the return value is reference if an option asks for it for functions of this name which return one pointer or one reference; otherwise it is the word behind return_value_policy:: (or, failing that, rv_policy::) in the comment behind the function, or, failing that, in the comment before. The policy of lifetime and the guard are the texts from py:: or nb::keep_alive (call_guard) to the first parentheses in the comments; the guard of the option is added behind. All are written for the library in use.", "quantifier": "every function with any comments, result type and options, both libraries", "why_tests_cant": "any texts of comments, any combination of options", "anchors": ["src/litgen/internal/adapted_types/adapted_function.py: _pydef_fill_return_value_policy, _pydef_fill_call_policy_from_function_comment, _pydef_end_arg_docstring_returnpolicy", "src/codemanip/code_utils.py: find_word_after_token"]}
{"id": "C76", "title": "Default values and constants keep their meaning in the stub", "statement": "A default value or the value of a constant which is made of names, decimal numbers and other signs is written in the stub so that Python reads the same value: true, false, NULL, nullptr and the limits FLT_MIN to LDBL_MAX become True, False, None and sys.float_info; a number keeps all its digits, its point and its exponent, the apostrophes between its digits become underscores and the letter f, F, d or D at its end is taken away; :: becomes a dot; all other names and signs are unchanged. To translate the result again changes nothing.", "quantifier": "every expression of names, numbers and signs of any length, any type replacements that leave it unchanged, any macros and namespaces which it does not name", "why_tests_cant": "any sequence of tokens, any number of groups of digits, any context of each of them", "anchors": ["src/litgen/internal/cpp_to_python.py: var_value_to_python, standard_value_replacements", "src/codemanip/code_replacements.py: RegexReplacementList.apply"]}
{"id": "C77", "title": "Enum values and function calls in default values get their Python names", "statement": "In the stub, a default value or constant of a scope names the values of enums and calls functions by their Python names: the value of an enum class written with the name of its enum becomes the Python enum, a dot and the Python value; the value of another enum which starts with the name of the enum becomes the same; the name of a function followed by white space and a parenthesis becomes its Python name. This holds for everything declared in the scope or in a scope around it, whatever the order of the declarations; all other names, numbers and signs are unchanged, and nothing declared in a scope which is not around has any effect. To translate the result again changes nothing.", "quantifier": "every program of enums and functions in any scopes, every scope, every expression of names, numbers and signs", "why_tests_cant": "any number of declarations and scopes, any sequence of tokens, any order", "anchors": ["src/litgen/internal/context/litgen_context.py: apply_scoped_var_value_replacements", "src/litgen/internal/adapted_types/adapted_enum.py: cpp_to_python_replacements", "src/litgen/internal/adapted_types/adapted_function.py: _register_function_name_replacement", "src/srcmlcpp/cpp_types/scope/cpp_scope.py: _make_scope_hierarchy_list"]}
{"id": "C78", "title": "The types of C++ are written in the stub as the types which Python knows", "statement": "A parameter, result or member whose type is built from the numbers, bool, std::string, classes of any namespaces and, at any depth, std::vector, std::optional, std::shared_ptr, std::unique_ptr and templates of the user with one argument, is written in the stub as the type which Python knows: all integers are int, all floating point numbers float, strings str, a vector List[...], an optional Optional[...], a smart pointer what it points to, a template of the user its name with the argument in square brackets, and a class its name with dots. It does not matter whether the value is constant, or passed by value, reference or pointer; no sign of C++ is left.", "quantifier": "every type of this grammar of any depth with any names of classes, each kind of constness, reference and pointer around it", "why_tests_cant": "any nesting of templates, any names and namespaces", "anchors": ["src/litgen/internal/cpp_to_python.py: type_to_python, _perform_cpp_type_replacements_recursively, standard_type_replacements", "src/codemanip/code_replacements.py: RegexReplacementList.apply"]}
{"id": "C79", "title": "Comments keep their text except the words and numbers which Python writes otherwise", "statement": "With the standard replacements of comments, the text of a comment reaches the docstring with true, false, void, NULL and nullptr written True, False, None, None and None where they are whole words, with the suffix f or d of a decimal number taken away, and with every other character kept in its place. To make the replacements once more changes nothing.", "quantifier": "every comment of any length with no digit or point right before an f or a d, and every such comment with any number of numbers with a suffix, each after a space", "why_tests_cant": "any text, any number of words, and several passes over the text", "anchors": ["src/litgen/internal/cpp_to_python.py: standard_comment_replacements, _comment_apply_replacements", "src/codemanip/code_replacements.py: RegexReplacementList.apply"]}
