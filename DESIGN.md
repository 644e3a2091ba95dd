# Formal model of litgen: design

Target: pthom/litgen sources in /repo (Python). Prover: Rocq / Coq 8.16.1, standard library only.

The code is read, never run. Each model function is a total Gallina function that mirrors one Python
function branch by branch; exceptions are values (`Err`/`None`), mutation is state passing, loops are
structural recursion or recursion on fuel with an explicit out-of-fuel value.

Layout of rocq/theories (one topic per group of files):

- `PyStr.v`: Python strings (`list ascii`) and the `str` methods used by the code.
- `<Topic>Model.v`: the model, each definition citing file and lines of /repo.
- `<Topic>Spec.v`: (when needed) small independent specification used in statements.
- `<Topic>Proofs.v`: lemmas.
- `<Topic>Props.v`: the property theorems only, each closed by `exact`, with `Print Assumptions` and
  an `Example` showing that the hypotheses are met by a concrete non-trivial case.

Naming: `..._partial` proves less than the property says (what is missing is in MANIFEST.json and in the
comment); `..._refuted` proves that the full property is false of the modelled code, with a witness.

## Plan per property

- **C01** Regenerating leaves hand-written text untouched. Regions: file text as a list of characters, split on newline; the loop is a fold over lines with the two flags and the (re-indented) insert text. Prove by splitting the line list at the marker lines.
- **C02** Regenerating twice is the same as regenerating once. Regions: two runs of the same function composed; uses C01 to expose the shape of the first output.
- **C03** Malformed generated regions never destroy the file. Regions: error cases by invariant on the fold; the loss/duplication half is false of the code, witnesses proved as refutations.
- **C04** Limiting consecutive blank lines. Blank lines: run length encoding as in the code; decode/encode round trip by induction. The bound is false when blank lines differ textually; proved for identical blank lines.
- **C05** Comments become valid one-line C string contents. Comments to C literals: model of the replace chain and the pairwise backslash scan, checked against an independent scanner of C string literals.
- **C06** Aligning end-of-line comments only inserts spaces. Comment alignment: character scan with quote state; per-line insertion of spaces.
- **C07** Indenting and unindenting code. Indentation functions over lines.
- **C08** Stripping blank lines at both ends. dropwhile/reverse model; idempotence and exact removal.
- **C09** Space normalisation reaches a normal form. Loop with measure = number of characters; model by fuel proved sufficient.
- **C10** Adding a token before the trailing C++ comment. Line scanner and insertion position.
- **C11** Amalgamation includes each local header once. Amalgamation: filesystem as a finite map oracle; recursion with the included-set; fuel bounded by number of files.
- **C12** Preprocessor region filtering. Preprocessor filter as a state machine on lines, compared with a recursive specification on a region tree.
- **C13** No comment is lost or duplicated when attached to elements. Comment attachment passes as list functions over (kind, line, text).
- **C14** Name replacement stops after a bounded number of passes. Replacement rules as arbitrary functions string -> string (regex engine abstracted); pass loop.
- **C15** Scope hierarchy is the chain of enclosing scopes. Scope as list of names; hierarchy as prefixes.
- **C16** Qualifying names never alters string literals or comments. Scanner over characters with (in_string, in_comment, token) state; compare with a lexical specification.
- **C17** Qualifying names follows C++ lookup. Token replacement loop over known names; reference lookup innermost first.
- **C18** Shortened names resolve back to the same entity. Shortening on lists of name parts.
- **C19** Qualified declarations do not depend on earlier queries. State machine of the cached declaration; refutation by a two-query history, positive for first query.
- **C20** Enum values follow C++. Enum value filling loop with Python int parsing; reference C++ evaluation.
- **C21** Enumerator names stay usable in Python. Prefix removal on characters.
- **C22** Grouping overloads only moves overloads. Grouping algorithm with dictionary of first positions and deferred inserts; compare with direct specification (stable grouping).
- **C23** Stub overloads are distinct and correctly decorated. Three passes modelled; set of signatures as list.
- **C24** Layout spacing never changes content. Stateful spacer; output interleaving.
- **C25** Namespace code is emitted once, in its own submodule. Tree of ordered dictionaries; store and full output; structural induction.
- **C26** Submodules are created exactly once, before use. Namespace traversal writing into the tree with the created set.
- **C27** Custom bindings for the main module are emitted once per generator. State machine over generators and headers with the emitted flags stored in the options; refutation for a second generator, exactly-once per options object.
- **C28** Custom bindings reach their target scope in order. Ordered registry; placeholder replacement.
- **C29** Python names are never reserved words. Keyword escaping over the keyword table.
- **C30** Unnamed parameters get names. Indexed renaming; refutation for clash with param_k.
- **C31** Snake case conversion. The three regexes hand-compiled to list functions following the leftmost greedy semantics.
- **C32** Template argument splitting. Bracket depth scanner, recursion on length.
- **C33** Published macros keep their value. Literal classifiers with Python int(s, base) grammar; C value semantics as specification.
- **C34** Integer macros resolve like the preprocessor. Define table resolution with seen-set; well-founded on unseen names.
- **C35** Docstrings are closed exactly once. Docstring construction against a Python triple-quote lexer.
- **C36** Comments stay comments in Python. Comment line prefixing against a line lexer.
- **C37** Operators map to the matching Python method. Finite tables, decision by computation lifted to all operators; comparison lambdas by sign.
- **C38** Function publishing rules. Decision function over abstract matchers.
- **C39** Adapters always call the original function with one argument per parameter. Mini C++: lambda chain as data (parameters, locals, call); scoping and arity by induction on the adapter list.
- **C40** Fixed size arrays round trip through boxed values. Value semantics of the generated lambda with a store of boxes.
- **C41** Excluded parameters receive their default value. As C39 with values.
- **C42** Modified immutable values are returned. Value semantics with tuple results; name capture refutation for a parameter called r.
- **C43** Boxed immutable values are updated in place. As C40.
- **C44** String lists are passed with their size. As C40.
- **C45** Buffers are passed with their length. As C40.
- **C46** Template names of distinct instantiations are distinct. String replacement chain; refuted by witness; injectivity on plain identifiers.
- **C47** Template handling options are decided consistently. Option lists with abstract name matcher.
- **C48** Generator output is the concatenation of its headers. Generator state machine with an abstract per-header translation.
- **C49** Type text is built from its parts. Record of specifiers/typenames/modifiers; string assembly.
- **C50** Parents are consistent after loading. Tree with ids; traversal with explicit stack.
- **C51** Class lookup finds the visible class. Class table lookup; non-termination witness by showing fuel is exhausted for every fuel.
- **C52** Code templates are filled without interference. Sequential replacement; interference refuted by witness; independence under disjointness.
- **C53** Sizes of C arrays match C++. Python's int(s, base) on the text between brackets, compared with the value of a C++ integer constant.
- **C54** Callable type hints contain only types. Scanner of std::function<...> and of the parameter list, compared with a grammar of callbacks.
- **C55** Default values of template types become calls of their Python class. Replacement of Foo<T>{...} and Foo<T>(...) over characters.
- **C56** Dropping a root namespace changes no other name. Removal of the root namespace prefix, compared with the removal in a list of names.
- **C57** One failing element does not hide the others. Loop over the children with failures as values; what is output is compared with a filter.
- **C58** Queries over a whole tree miss nothing. Tree with ids (as C50): the traversals are compared with the set of descendants.
- **C59** Modifiable default values are made anew for each call. As C40: the lambda run by the semantics of LambdaSpec.v, for every caller and callee.
- **C60** None stands for a null C string. As C59, with std::optional<std::string>.
- **C61** A Python text is never used as a format. As C59, with the dots.
- **C62** Optional parameters stay optional and last. Each adapter replaces each parameter by a group of parameters with the same optionality; groups compose along the chain, and a parameter list made of such groups keeps its default values last.
- **C63** The stub and the binding describe the same function. Each parameter left by the adapters is a Python parameter (name, optional or not, or all other arguments); the texts of the stub and of the binding are read as lists of those, by induction on the parameters. That the object made by a constructor of nanobind stays first, and that static is never gained, are invariants of the chain of adapters. What is bound is a C++ callable whose parameters are compared with what Python gives.
- **C64** Cutting a long declaration does not change it. The lines are compared with the text on one line: the pieces between the parentheses give back the joined parameters, by induction.
- **C65** A class without constructor gets one made of its members. The members which can be given a value are described by a predicate on the class, without the filters of the code. The constructor is the composition of the chain of adapters (C39) and of its assignments: these are run in an environment made from the parameters, and the object obtained is compared, by induction on the members, with the one wanted. What is shown reuses C63.
- **C66** An enum has the same values in the stub and in the binding. The lines of the stub are read back: the names assigned on them, and that each line is empty, a comment, pass or an assignment. The alignment of comments may insert spaces before the sharp of a value only, which is shown from the specification of C06. The lines of the binding are read as C++ tokens (characters outside of comments, and literals), so the comment telling the location, the spaces and the place of the semicolon are part of what is proved. The values registered are then compared with the names assigned.
- **C67** The member variables of a class are the same attributes in the stub and in the binding. The specification reads the lines back: the name before the colon and the marks at the end of the line for the stub, the C++ tokens for the binding. Whether a member is published, static or read-only is stated from the declaration and the options, not from the model. The views of arrays are compared token by token with the expected C++ code, which uses the member itself, its type and its size. The list theorem follows by induction on the members.
- **C68** The C++ code of the lambdas is the one which was decided. The specification gives the lines of C++ of each statement, expression and lambda, directly from the syntax of LambdaModel.v, without templates nor indentation. The proof shows that a text whose lines hold no placeholder, and whose last character is in none, is left as it is by the templates, that indentation and removal of empty lines keep this and the lines of code, then fills the templates. The list theorem follows by induction on the lambdas.
- **C69** Every class of the binding is made in its place, and its members are defined on it. ClassModel.v gives the text of a tree of classes and enums. The specification (ClassSpec.v) is an interpreter of C++: it reads lexemes outside of comments and literals, statements and blocks, then executes declarations and chains of calls with the variables of the blocks around; the events it must give are read on the tree. The proof shows that each piece of text is read on its own (a text is read then what follows it), that filled templates are read as expected, then goes by induction on the tree: the variables are told from each other by their scope. What a method, a member or a constructor writes is a parameter (C63 to C67 are about it) which must be a chain of calls.
- **C70** Every class of the stub is in its place, and is the one of the binding. StubTreeModel.v gives the stub of a tree of classes and enums. The specification (StubTreeSpec.v) is a reader of Python: it reads words, signs, strings and comments, then statements which go on between brackets and in strings between three quotes, then blocks from their indentation, and tells which classes are defined, where, and with which bases; it fails on what Python would refuse (a string which is not closed, a bracket which is closed twice, a block which is missing, an indentation which fits no block). The proof shows that reading is kept by the layout of lines (indentation, alignment of comments, empty lines) and by putting pieces one after the other, then goes by induction on the tree; the second theorem compares with the objects made by the binding (C69). The lines of the methods, members and constructors are parameters, which must be statements without classes.
- **C71** The glue code defines the classes which Python needs to override and to call methods. GlueModel.v gives the text of the glue code. The specification (GlueSpec.v) reads C++ lexemes (outside of comments) and is a small state machine over them: namespaces, classes with their base, methods, calls of macros with their arguments cut at the commas, using declarations; it fails on anything else. What must be read is told from the classes. The proof fills the templates, shows how each line is read, then goes through the state machine, by induction on the parameters, methods, namespaces and classes.
- **C72** The PImpl tool publishes each public method and forwards each call. PimplModel.v gives the texts of the header and of the C++ code from the children of the public blocks. The specification (PimplSpec.v) gives the C++ lexemes, outside of comments, which must be read in each. The proof fills the templates, shows that the comments add no lexeme and hide none, that the removal of empty lines changes nothing, and goes by induction on the children.
- **C73** An instance of a template is the template with its parameters replaced. InstanceModel.v has types, declarations, functions and nested classes with their template parameters, and the regex replacement as a scan of the text. The specification (InstanceSpec.v) cuts a text in words and replaces them all at once. The proof shows that the scan is this replacement, by induction on the words of a text, that one parameter after the other is all at once when arguments do not mention later parameters, and goes by induction on the nesting of classes.
- **C74** The names of the stub are completed so that Python finds them. QualifyModel.v has the regex replacement of one name as a scan of the text, the names of a scope from the longest to the shortest, the scopes from the outside, and the registration of names over a program of nested classes and namespaces. The specification (QualifySpec.v) completes all the words of a text at once, and has its own account of what a dotted name means in C++ (innermost scope first) and in Python (the class itself, then the module). The proof goes by induction on the words of a text, on the names, on the scopes and on the nesting of the program.
- **C75** The policies of return value, lifetime and calls arrive in the bindings. PolicyModel.v has the search of a token in comments, the choice of the policies, and the end of a binding made from them with FillModel.v. The specification (PolicySpec.v) says by relations on texts (first occurrence, word up to a white space, first parentheses) what is asked for. The proof shows that the searches compute these relations, that these are functional, and uses the theorem on the filling of the end of a binding (C52).
- **C76** Default values and constants keep their meaning in the stub. LiteralModel.v has the rules for values one by one: those of the form of a word between word boundaries are the substitution of InstanceModel.v, the others are matchers for the place where they are tried (the one for numbers reads sign, digits, point, exponent and letter), and the loop of at most three passes. The specification (LiteralSpec.v) cuts an expression in names, numbers with their groups of digits, :: and signs, and says what each is in Python. The proof shows for each rule what it does to the parts, by induction on the expression, composes them, and shows that the second pass changes nothing.
- **C77** Enum values and function calls in default values get their Python names. EnumRefModel.v has the three kinds of rules which enums and functions store for their scope, as matchers on the text (the rule of an enum class with its dot which is any character and without a word boundary in front), the loop of at most three passes, and the walk from the scope of the value to the outermost one. The specification (EnumRefSpec.v) works on the parts of an expression of LiteralSpec.v: what each name becomes, given the list of what is visible. The proof shows for each rule what it does to the parts, that one list after another is the same as both lists at once, that the conditions stay true, and that only the set of the declarations matters. It is assumed that all declarations have been read before the first value is written. The values which an enum gives to its own names are there too, with the rule that inside of the enum all of them are known. TypeValueSpec.v and TypeValueProps.v join this and the literals with the standard rules for types of C78: the theorems on whole values have no parameter left for these rules.
- **C78** The types of C++ are written in the stub as the types which Python knows. TypeRuleModel.v has the list of the standard replacements of types in its order, each rule as a matcher on the text (word boundaries, white space, lazy groups up to the first closing bracket), and the loop of at most three passes; the recursion over the angle brackets and the rest of the translation are those of TemplateModel.v, to which these rules are now given. The specification (TypeRuleSpec.v) is a grammar of types with the text of C++ and the text of Python of each, by recursion. The proof shows that a rule whose first word is not a word of the text changes nothing, which rule fits each template once its argument is translated, that the result has no word of the table left, and ends by induction on the length of the text.
- **C79** Comments keep their text except the words and numbers which Python writes otherwise. CommentWordModel.v has the six rules for comments in their order and the loop of at most three passes; the rule for numbers is the one of LiteralModel.v, restricted to the small letters f and d. The specification (CommentWordSpec.v) cuts the text into words and other characters and looks each word up in a table. Letters are ASCII. The proof shows that a match of the rule for numbers always ends with a digit or a point right before an f or a d, so that the rule is idle in the texts without such a pair, that the five rules for words together are the lookup, and that the lookup is idempotent, so that the second pass ends the loop.

## What is modelled

Extracted from the comments of the model files: each definition cites the file and the lines it follows.

- `AdapterModel.v`  (C40, C41, C42, C43, C44, C59, C60, C61)
  - src/codemanip/code_utils.py: `does_match_regex_or_matcher`
  - src/litgen/internal/adapt_function_params/_adapt_c_arrays.py: `adapt_c_arrays`
  - src/litgen/internal/adapt_function_params/_adapt_c_string_list.py
  - src/litgen/internal/adapt_function_params/_adapt_exclude_params.py: `adapt_exclude_params`, `shall_exclude`
  - src/litgen/internal/adapt_function_params/_adapt_force_lambda.py: `adapt_force_lambda`
  - src/litgen/internal/adapt_function_params/_adapt_mutable_param_with_default_value.py: `adapt_mutable_param_with_default_value`
  - src/litgen/internal/adapt_function_params/_adapt_variadic_format.py: `adapt_variadic_format`
  - src/litgen/internal/adapt_function_params/adapt_const_char_pointer_with_default_null.py: `adapt_const_char_pointer_with_default_null`
  - src/litgen/internal/adapt_function_params/adapt_modifiable_immutable.py: `adapt_modifiable_immutable`
  - src/litgen/internal/adapt_function_params/adapt_modifiable_immutable_to_return.py: `adapt_modifiable_immutable_to_return`
  - src/litgen/internal/adapted_types/adapted_decl.py: `c_array_fixed_size_to_const_std_array`, `c_array_fixed_size_to_mutable_new_boxed_decls`
  - src/litgen/internal/adapted_types/adapted_function.py: `is_const_char_pointer_with_default_null`, `is_modifiable_python_immutable_ref_or_pointer`, `is_modifiable_python_immutable_fixed_size_array`
  - src/litgen/internal/boxed_python_type.py: `boxed_type_name`
  - src/litgen/internal/cpp_to_python.py: `cpp_numeric_types`, `is_cpp_type_immutable_for_python`, `cpp_type_to_camel_case_no_space`
  - src/litgen/options.py
  - src/srcmlcpp/cpp_types/decls_types/cpp_decl.py: `c_array_size_as_int`, `is_c_string_list_ptr`
  - src/srcmlcpp/cpp_types/decls_types/cpp_type.py: `name_without_modifier_specifier`
  - src/srcmlcpp/cpp_types/functions/cpp_parameter.py: `_IMMUTABLE_VALUES_PATTERNS`, `_IMMUTABLE_VALUES_KEYWORDS`, `_BASE_IMMUTABLE_TYPES`, `_looks_like_mutable_default_value`, `seems_mutable_param_with_default_value`
- `BindModel.v`  (C63, C64)
  - src/litgen/internal/adapt_function_params/apply_all_adapters.py: `_apply_all_adapters_on_constructor`
  - src/litgen/internal/adapted_types/adapted_decl.py: `_str_pydef_as_pyarg`
  - src/litgen/internal/adapted_types/adapted_function.py: `_stub_params_list_signature`, `_pydef_adapt_param_if_using_inner_class`, `_pydef_pyarg_list`
  - src/srcmlcpp/cpp_types/decls_types/cpp_type.py: `is_optional`
  - src/srcmlcpp/cpp_types/functions/cpp_function_decl.py: `is_static`
  - src/srcmlcpp/cpp_types/functions/cpp_parameter_list.py: `str_types_only_for_overload`
- `BufferModel.v`  (C45)
  - src/codemanip/code_utils.py: `contains_word_boundary_left_only`, `contains_pointer_type`
  - src/litgen/internal/adapt_function_params/_adapt_c_buffers.py
  - src/litgen/internal/cpp_to_python.py: `function_name_to_python`, `_PY_ARRAY_TYPE_TO_CPP_TYPE`, `cpp_type_to_py_array_type`, `py_array_type_to_cpp_type`, `_NANOBIND_CPP_TYPE_TO_DTYPE_CODE`, `nanobind_cpp_type_to_dtype_code`, `nanobind_cpp_type_to_dtype_code_as_uint8`
  - src/litgen/options.py
- `ChainModel.v`  (C39)
  - src/litgen/internal/adapt_function_params/apply_all_adapters.py
  - src/litgen/internal/adapted_types/adapted_function.py: `add_names_to_unnamed_params`
- `ClassModel.v`  (C69)
  - src/litgen/internal/adapted_types/adapted_block.py
  - src/litgen/internal/adapted_types/adapted_class.py: `make_pyclass_creation_code`, `make_default_constructor_code`, `_cp_shall_create_copy_impl`, `_cp_pydef`, `make_iterable_code`, `make_public_children_code`, `make_inner_classes_code`, `make_protected_methods_code`, `make_all_children_code`, `pydef_lines`
  - src/litgen/internal/adapted_types/adapted_element.py: `str_pydef`
  - src/litgen/internal/cpp_to_python.py: `_scope_part_name`, `cpp_scope_to_pybind_scope`, `cpp_scope_to_pybind_var_name`, `cpp_scope_to_pybind_parent_var_name`, `comment_pydef_one_line`
  - src/srcmlcpp/cpp_types/classes/cpp_struct.py
  - src/srcmlcpp/cpp_types/scope/cpp_scope.py: `CppScopeType`, `CppScopePart`
  - src/srcmlcpp/cpp_types/template/cpp_i_template_host.py
- `CommentModel.v`  (C13, C35, C36, C79)
  - src/litgen/internal/adapted_types/adapted_comment.py: `stub_lines`
  - src/litgen/internal/adapted_types/adapted_condition_macro.py: `stub_lines`
  - src/litgen/internal/adapted_types/adapted_element.py: `_elm_stub_original_code_lines_info`, `_elm_str_stub_layout_lines`
  - src/litgen/internal/cpp_to_python.py: `_comment_apply_replacements`, `docstring_lines`, `comment_python_shall_place_at_end_of_line`, `comment_python_end_of_line`, `add_sharp`, `comment_python_previous_lines`
  - src/srcmlcpp/cpp_types/base/cpp_element_comments.py: `full_comment`, `eol_comment_code`
  - src/srcmlcpp/internal/cpp_types_parse.py: `parse_comment`
  - src/srcmlcpp/internal/srcml_comments.py: `mark_empty_lines`, `concat_comment`, `_group_consecutive_comments`, `_is_comment_end_of_line`, `is_group_comment`, `_is_comment_on_previous_line`, `_remove_comment_tokens`, `remove_comment_tokens`, `get_children_with_comments`
- `CommentWordModel.v`  (C79)
  - src/codemanip/code_replacements.py: `RegexReplacementList.apply`
  - src/litgen/internal/cpp_to_python.py: `standard_comment_replacements`
- `EnumModel.v`  (C66, C77)
  - src/codemanip/code_utils.py: `var_name_contains_word`
  - src/litgen/internal/adapted_types/adapted_comment.py
  - src/litgen/internal/adapted_types/adapted_enum.py: `_fill_children`, `decl_name_python`, `stub_lines`, `decl_name_cpp_decorated`, `pydef_lines`
  - src/litgen/internal/cpp_to_python.py: `enum_element_is_count`, `comment_pydef_one_line`
  - src/litgen/options.py
  - src/srcmlcpp/cpp_types/cpp_enum.py: `get_children_with_filled_decl_values`
- `EnumRefModel.v`  (C77)
  - src/codemanip/code_replacements.py: `RegexReplacementList.apply`
  - src/litgen/internal/adapted_types/adapted_enum.py: `cpp_to_python_replacements`, `decl_value_python`
  - src/litgen/internal/adapted_types/adapted_function.py: `_register_function_name_replacement`
  - src/litgen/internal/context/litgen_context.py: `get_scoped_replacements`, `apply_scoped_var_value_replacements`
  - src/srcmlcpp/cpp_types/scope/cpp_scope.py: `_make_scope_hierarchy_list`
- `FillModel.v`  (C52)
  - src/codemanip/code_utils.py: `replace_in_string`, `replace_in_string_remove_line_if_none`, `process_code_template`, `replace_maybe_comma`
  - src/litgen/internal/adapted_types/adapted_function.py: `_pydef_end_arg_docstring_returnpolicy`, `_pydef_constructor_str`
- `GlueModel.v`  (C71)
  - src/litgen/internal/adapted_types/adapted_class.py: `_prot_fill_methods`, `_virt_shall_override`, `_glue_scope_intro_outro`
  - src/litgen/internal/adapted_types/adapted_function.py: `virt_glue_override_virtual_methods_in_python`
  - src/litgen/litgen_generator.py: `glue_code`
  - src/srcmlcpp/cpp_types/classes/cpp_struct.py: `virtual_methods`
  - src/srcmlcpp/cpp_types/decls_types/cpp_type.py: `str_return_type`
  - src/srcmlcpp/cpp_types/functions/cpp_parameter_list.py: `list_types_names_default_for_signature`
  - src/srcmlcpp/cpp_types/scope/cpp_scope.py
- `HeaderModel.v`  (C11, C12)
  - src/codemanip/amalgamated_header.py: `AmalgamationOptions`, `_is_local_include_line`, `_is_external_include_line`, `_extract_local_include_file`, `_extract_external_include_file`, `_decorate_code_info`, `_amalgamate_one_file`, `amalgamation_content`, `_trim_trailing_spaces`
  - src/srcmlcpp/internal/filter_preprocessor_regions.py: `_extract_macro_name_from_if_expr`, `_CppConditionRegion`, `_SrcmlPreprocessorState`, `_content_is_excluded`, `_directive_is_excluded`, `process_tag`, `shall_ignore`, `filter_preprocessor_regions`
- `InstanceModel.v`  (C73)
  - src/litgen/internal/adapted_types/adapted_class.py: `_tpl_instantiate_template_for_type`
  - src/litgen/internal/adapted_types/adapted_function.py: `_tpl_split_into_template_instantiations`
  - src/litgen/internal/template_options.py: `_TemplateSpecializationSpec`
  - src/srcmlcpp/cpp_types/classes/cpp_struct.py: `with_specialized_template`
  - src/srcmlcpp/cpp_types/decls_types/cpp_decl.py: `with_specialized_template`
  - src/srcmlcpp/cpp_types/decls_types/cpp_decl_statement.py: `with_specialized_template`
  - src/srcmlcpp/cpp_types/decls_types/cpp_type.py: `with_specialized_template`
  - src/srcmlcpp/cpp_types/functions/cpp_function_decl.py: `with_specialized_template`
  - src/srcmlcpp/cpp_types/template/cpp_i_template_host.py: `CppITemplateHost`, `_store_template_specs`, `is_template_partially_specialized`
  - src/srcmlcpp/cpp_types/template/cpp_template_specialization.py: `CppTemplateSpecializationPart`
- `LambdaModel.v`  (C68)
  - src/litgen/internal/adapt_function_params/_lambda_adapter.py: `LambdaAdapter`
  - src/litgen/internal/adapt_function_params/adapt_modifiable_immutable_to_return.py: `new_return_type_and_names`, `fill_lambda_template_end`
  - src/litgen/internal/adapt_function_params/apply_all_adapters.py: `_make_adapted_lambda_code_end`, `_make_adapted_lambda_code`, `_apply_lambda_adapter`
  - src/litgen/internal/adapted_types/adapted_function.py
  - src/srcmlcpp/cpp_types/decls_types/cpp_decl.py: `CppDecl`, `type_name_default_for_signature`
  - src/srcmlcpp/cpp_types/decls_types/cpp_type.py: `str_code`
  - src/srcmlcpp/cpp_types/functions/cpp_function_decl.py: `str_full_return_type`, `returns_void`
  - src/srcmlcpp/cpp_types/functions/cpp_parameter.py: `CppParameter`, `has_default_value`
  - src/srcmlcpp/cpp_types/functions/cpp_parameter_list.py: `str_types_names_default_for_signature`
- `LiteralModel.v`  (C76)
  - src/codemanip/code_replacements.py: `RegexReplacementList.apply`
  - src/litgen/internal/cpp_to_python.py: `standard_value_replacements`, `standard_type_replacements`, `var_value_to_python`
- `LookupModel.v`  (C51)
  - src/litgen/internal/adapted_types/adapted_class.py
  - src/srcmlcpp/cpp_types/base/cpp_access_type.py: `from_name`
  - src/srcmlcpp/cpp_types/blocks/cpp_block.py: `find_struct_or_class`
  - src/srcmlcpp/cpp_types/classes/cpp_struct.py: `base_classes`, `is_method_already_present`, `virtual_methods`
  - src/srcmlcpp/cpp_types/functions/cpp_function_decl.py
  - src/srcmlcpp/internal/cpp_types_parse.py: `parse_super`
- `MemberModel.v`  (C67)
  - src/litgen/internal/adapted_types/adapted_class.py: `_is_numeric_c_array`, `check_can_publish`, `_check_can_add_c_array_known_fixed_size`, `_init_add_adapted_class_member`, `_is_published_readonly`, `comment_array`, `stub_lines`, `_str_pydef_lines_numeric_array`, `_str_pydef_lines_field`, `pydef_lines`
  - src/litgen/internal/adapted_types/adapted_decl.py: `decl_value_python`
  - src/litgen/internal/cpp_to_python.py: `comment_pydef_one_line`
  - src/litgen/options.py
  - src/srcmlcpp/cpp_types/decls_types/cpp_decl.py: `c_array_size_as_str`, `is_c_array_fixed_size_unparsable`
  - src/srcmlcpp/cpp_types/decls_types/cpp_type.py
- `ModuleModel.v`  (C25, C26, C27, C28, C48)
  - src/litgen/internal/adapted_types/adapted_block.py: `AdaptedBlock.pydef_lines`, `AdaptedBlock.stub_lines`
  - src/litgen/internal/adapted_types/adapted_namespace.py: `AdaptedNamespace._pydef_def_submodule_code`, `AdaptedNamespace.pydef_lines`, `AdaptedNamespace._stub_class_as_ns_creation_code`, `AdaptedNamespace.stub_lines`
  - src/litgen/internal/adapted_types/adapted_unit.py: `AdaptedUnit.str_pydef`, `AdaptedUnit.str_stub`
  - src/litgen/internal/context/namespaces_code_tree.py: `NamespacesCodeTree`, `NamespacesCodeTree.full_tree_code`, `NamespacesCodeTree._store_code_in_tree`, `NamespacesCodeTree.store_code`
  - src/litgen/internal/cpp_to_python.py: `namespace_name_to_python`, `cpp_scope_to_pybind_var_name`, `cpp_scope_to_pybind_parent_var_name`, `_surround_code_with_filename_impl`
  - src/litgen/internal/custom_bindings.py: `CustomBindings`, `CustomBindings._do_add_cleaned_code`, `CustomBindings._do_add_custom_bindings`, `CustomBindings._make_custom_code`, `CustomBindings._pub_make_class_custom_code`, `CustomBindings._pub_make_submodule_custom_code`, `CustomBindings._pub_make_main_module_custom_code`
  - src/litgen/litgen_generator.py: `LitgenGenerator.process_cpp_code`, `LitgenGenerator._boxed_types_cpp_code`, `LitgenGenerator._boxed_types_generated_code`, `LitgenGenerator._generated_codes_with_boxed_types`, `LitgenGenerator.pydef_code`, `LitgenGenerator.stub_code`
- `NamedModel.v`  (C65)
  - src/litgen/internal/adapt_function_params/_adapt_mutable_param_with_default_value.py: `was_mutable_param_with_default_value_made_optional`
  - src/litgen/internal/adapted_types/adapted_class.py: `flag_generate_named_ctor_params`, `flag_generate_void_constructor`, `can_be_set`, `compatible_members_list`, `get_all_params_set_values`, `make_default_constructor_code`, `pydef_code`, `stub_code`
  - src/litgen/internal/template_options.py: `shall_exclude_type`
  - src/litgen/options.py
  - src/srcmlcpp/cpp_types/classes/cpp_struct.py
  - src/srcmlcpp/cpp_types/decls_types/cpp_decl.py: `CppDecl`
  - src/srcmlcpp/cpp_types/functions/cpp_function_decl.py
- `NamesModel.v`  (C21, C29, C30, C31)
  - src/codemanip/code_utils.py: `to_snake_case`
  - src/litgen/internal/adapted_types/adapted_enum.py: `_decl_name_cpp_without_enum_prefix`, `decl_name_python`
  - src/litgen/internal/adapted_types/adapted_function.py: `AdaptedFunction.add_names_to_unnamed_params`
  - src/litgen/internal/cpp_to_python.py: `add_underscore_if_python_reserved_word`, `_class_name_to_python`, `enum_name_to_python`, `function_name_to_python`, `namespace_name_to_python`, `var_name_to_python`
- `NumberModel.v`  (C20, C33, C34, C53)
  - src/litgen/internal/adapted_types/adapted_define.py: `_compute_define_value_type`, `AdaptedDefine.is_publishable`, `AdaptedDefine.published_python_value`
  - src/srcmlcpp/cpp_types/blocks/cpp_unit.py: `_parse_c_int_literal`, `CppUnit._resolve_int_token`, `CppUnit._fill_int_defines_cache`, `CppUnit.int_value_from_define_name`
  - src/srcmlcpp/cpp_types/cpp_enum.py: `CppEnum.get_children_with_filled_decl_values`
  - src/srcmlcpp/cpp_types/decls_types/cpp_decl.py: `CppDecl.c_array_size_as_int`
  - src/srcmlcpp/srcmlcpp_options.py: `_int_from_str_or_named_number_macros`
- `OverloadModel.v`  (C22, C23, C24)
  - src/litgen/internal/adapted_types/adapted_block.py: `group_overloaded_functions`, `AdaptedBlock.pydef_lines`, `AdaptedBlock.stub_lines`
  - src/litgen/internal/adapted_types/adapted_class.py
  - src/litgen/internal/adapted_types/adapted_enum.py
  - src/litgen/internal/adapted_types/line_spacer.py: `LineSpacerCpp.spacing_lines`, `LineSpacerPython.spacing_lines`
  - src/litgen/internal/adapted_types/stub_overload_dedup.py: `dedup_stub_lines`
- `PimplModel.v`  (C72)
  - src/srcmlcpp/cpp_types/base/cpp_element_comments.py: `top_comment_code`
  - src/srcmlcpp/cpp_types/classes/cpp_struct.py: `get_access_blocks`
  - src/srcmlcpp/cpp_types/decls_types/cpp_type.py: `is_void`
  - src/srcmlcpp_tools/pimpl_my_class/pimpl_my_class.py: `PimplOptions`, `_published_class_name`, `_remove_published_incompatible_specifiers`, `_published_method_glue_impl`, `_published_method_decl`, `_published_constructor_impl`, `_published_constructor_decl`, `_glue_code`, `_published_method_decls`, `_header_code`, `pimpl_my_class`
- `PolicyModel.v`  (C75)
  - src/codemanip/code_utils.py: `word_after`, `find_word_after_token`
  - src/litgen/internal/adapted_types/adapted_function.py: `_pydef_fill_return_value_policy`, `_pydef_fill_call_policy_from_function_comment`, `_replace_py_or_nb_namespace`, `_pydef_fill_keep_alive_from_function_comment`, `_pydef_fill_call_guard_from_function_comment`, `_pydef_end_arg_docstring_returnpolicy`, `_pydef_constructor_str`
  - src/srcmlcpp/cpp_types/base/cpp_element_comments.py: `comments_as_str`
  - src/srcmlcpp/cpp_types/functions/cpp_function_decl.py: `returns_pointer`, `returns_reference`
- `PublishModel.v`  (C37, C38, C57)
  - src/codemanip/code_utils.py: `_compile_regex`, `does_match_regex`, `does_match_regex_or_matcher`, `split_string_by_pipe_char`
  - src/litgen/internal/adapted_types/adapted_block.py: `_fill_adapted_elements`
  - src/litgen/internal/adapted_types/adapted_function.py: `has_one_ok_prefix`, `init_is_function_publishable`, `init_add_warning_if_non_published_api`
  - src/litgen/internal/adapted_types/operators.py: `_cpp_operator_unsupported_message`, `_cpp_to_python_operator_one_param`, `_cpp_to_python_operator_zero_param`, `raise_if_unsupported_operator`, `cpp_to_python_operator_name`, `make_cmp`, `cpp_split_spaceship_operator`, `is_spaceship_operator`
  - src/srcmlcpp/cpp_types/decls_types/cpp_type.py
  - src/srcmlcpp/cpp_types/functions/cpp_function_decl.py: `is_destructor`, `is_operator`, `operator_name`
  - src/srcmlcpp/srcmlcpp_options.py: `functions_api_prefixes_list`
- `QualifyModel.v`  (C74)
  - src/litgen/internal/adapted_types/adapted_class.py: `_qualify_siblings`, `_register_inner_python_names`
  - src/litgen/internal/adapted_types/adapted_function.py
  - src/litgen/internal/adapted_types/adapted_namespace.py: `_register_namespace_python_names`
  - src/litgen/internal/context/litgen_context.py: `ScopeMembers`
  - src/litgen/internal/cpp_to_python.py: `qualify_sibling_in_scope`
- `RegionsModel.v`  (C01, C02, C03)
  - src/codemanip/code_utils.py: `spaces_or_tabs_at_line_start`, `indent_code`, `write_generated_code_between_markers`, `write_text_file`
- `ScopeModel.v`  (C15, C16, C17, C18, C19)
  - src/srcmlcpp/cpp_types/decls_types/cpp_decl.py: `CppDecl.with_qualified_types`, `CppDecl.with_terse_types`
  - src/srcmlcpp/cpp_types/decls_types/cpp_type.py: `CppType.with_qualified_types`, `CppType.with_terse_types`
  - src/srcmlcpp/cpp_types/functions/cpp_function_decl.py: `CppFunctionDecl.with_qualified_types`, `CppFunctionDecl.with_terse_types`
  - src/srcmlcpp/cpp_types/functions/cpp_parameter_list.py: `CppParameterList.with_qualified_types`
  - src/srcmlcpp/cpp_types/scope/cpp_scope.py: `CppScope`, `CppScope.__init__`, `_make_scope_hierarchy_list`, `from_string`, `__eq__`, `can_access_scope`, `make_child_scope`, `qualified_name`
  - src/srcmlcpp/cpp_types/scope/cpp_scope_identifiers.py: `qualify_cpp_code`, `fill_cache`
  - src/srcmlcpp/cpp_types/scope/cpp_scope_process.py: `apply_scoped_identifiers_to_code`, `make_terse_code`, `current_token_matches_scoped_identifier`, `_make_terse_scoped_identifier`
  - src/srcmlcpp/cpp_types/scope/scoped_element_cache.py: `ScopedElementCache`
- `StubTreeModel.v`  (C70)
  - src/litgen/internal/adapted_types/adapted_block.py
  - src/litgen/internal/adapted_types/adapted_class.py: `str_parent_classes_python`, `_cp_stub_comment`, `make_iterable_code`, `stub_lines`
  - src/litgen/internal/adapted_types/line_spacer.py
  - src/litgen/internal/adapted_types/stub_overload_dedup.py
  - src/litgen/internal/cpp_to_python.py
- `TemplateModel.v`  (C14, C32, C46, C47, C54, C55, C56)
  - src/codemanip/code_replacements.py: `RegexReplacement.apply`, `RegexReplacementList.apply`, `RegexReplacement.from_string`, `RegexReplacementList.from_string`
  - src/litgen/internal/adapted_types/adapted_class.py: `_tpl_split_into_template_instantiations`
  - src/litgen/internal/adapted_types/adapted_function.py: `_tpl_split_into_template_instantiations`
  - src/litgen/internal/cpp_to_python.py: `_split_cpp_type_template_args`, `normalize_whitespace`, `_perform_cpp_type_replacements_recursively`, `_strip_one_param`, `_strip_callable_param_names`, `type_to_python`
  - src/litgen/internal/template_options.py: `_apply_template_naming`, `_TemplateSpecializationSpec`, `_make_cpp_type_synonym_list`, `handles_type_instantiation`, `handles_type_synonym`, `shall_synonymize_type`, `shall_specialize_type`, `shall_exclude_type`, `specialized_type_python_name`, `TemplateSpecList`, `add_ignore`, `TemplateClassOptions.specialized_type_python_name`, `TemplateClassOptions.specialized_type_python_name_str`, `TemplateClassOptions.specialized_type_python_default_value`, `TemplateFunctionsOptions.specialized_function_python_name`
  - src/srcmlcpp/cpp_types/decls_types/cpp_type.py: `CppType.is_template`, `CppType.template_name`, `CppType.template_instantiated_unique_type`
- `TextModel.v`  (C04, C05, C06, C07, C08, C09, C10)
  - src/codemanip/code_utils.py: `run_length_encode`, `strip_empty_lines_in_list`, `code_set_max_consecutive_empty_lines`, `strip_empty_lines`, `strip_first_and_last_lines_if_empty`, `line_cpp_comment_position`, `line_python_comment_position`, `align_python_comments_in_block`, `align_python_comments_in_block_lines`, `last_code_position_before_cpp_comment`, `add_token_to_line`, `join_lines_with_token_before_cpp_comment`, `add_item_before_cpp_comment`, `count_spaces_at_start_of_line`, `compute_code_indent_size`, `remove_trailing_spaces`, `unindent_code`, `reindent_code`, `indent_code_lines`, `indent_code_force`, `format_python_comment`, `escape_backslash_in_comments`, `format_cpp_comment_on_one_line`, `format_cpp_comment_multiline`, `cpp_comment_remove_comment_markers`, `force_one_space`, `shorten_lines_containing_only_spaces`, `remove_end_of_line_cpp_comments`, `join_remove_empty`
- `TreeModel.v`  (C50, C58)
  - src/srcmlcpp/cpp_types/base/cpp_element.py: `CppElementsVisitorEvent`, `visit_cpp_breadth_first`, `fill_children_parents`, `visitor_fill_parent`, `ancestors_list`, `self_scope`, `cpp_scope`
  - src/srcmlcpp/cpp_types/blocks/cpp_block.py: `all_cpp_elements_recursive`
  - src/srcmlcpp/cpp_types/classes/cpp_struct.py
  - src/srcmlcpp/cpp_types/classes/cpp_super_list.py
  - src/srcmlcpp/cpp_types/cpp_enum.py
  - src/srcmlcpp/cpp_types/cpp_namespace.py
  - src/srcmlcpp/cpp_types/decls_types/cpp_decl.py: `parent_enum_if_applicable`
  - src/srcmlcpp/cpp_types/decls_types/cpp_decl_statement.py
  - src/srcmlcpp/cpp_types/functions/cpp_constructor.py
  - src/srcmlcpp/cpp_types/functions/cpp_function.py
  - src/srcmlcpp/cpp_types/functions/cpp_function_decl.py
  - src/srcmlcpp/cpp_types/functions/cpp_parameter.py
  - src/srcmlcpp/cpp_types/functions/cpp_parameter_list.py
  - src/srcmlcpp/cpp_types/template/cpp_template.py
  - src/srcmlcpp/internal/cpp_types_parse.py: `parse_decl`, `parse_namespace`, `parse_enum`, `parse_unit`
- `TypeRuleModel.v`  (C78)
  - src/codemanip/code_replacements.py: `RegexReplacementList.apply`
  - src/litgen/internal/cpp_to_python.py: `standard_type_replacements`
- `TypeTextModel.v`  (C49)
  - src/codemanip/code_utils.py: `join_remove_empty`
  - src/srcmlcpp/cpp_types/decls_types/cpp_type.py: `CppType`, `str_code`, `str_return_type`

## What is not modelled

- srcML and the reading of its XML (`code_to_srcml.py`, `srcml_wrapper.py`, most of `cpp_types_parse.py`): the models start
  from the elements it gives. `srcmlcpp_main.py`, the command line tools, the demos, `validate_bindings_compilation`,
  `html_code_viewer`.
- The assembly of the final text of classes, enums and functions (`adapted_class.py`, `adapted_enum.py`,
  `adapted_function.py`) outside the functions cited above.
- Regular expressions given by users and the matching of names against them: functions taken as parameters. The
  properties hold for any such function.
- Custom adapters given by the user as Python functions.
- Logging, progress bars, warnings, timing.

## Simplifications

- Characters are 8-bit (`ascii`); Python's Unicode strings are modelled on that alphabet. `str.isspace`, `isalnum`,
  `upper`, `lower`, `isdigit` are modelled for ASCII only.
- Exceptions are values (`None`, `Err`) without their message. A Python assertion counts as an exception.
- A file is its text; `open`/`write` are atomic. A set of files is a function from paths to texts.
- Mutation is state passing. Where the code relies on the identity of objects (trees, parents, classes), objects carry
  numbers.
- Loops of the code which are not structural run on fuel; theorems either show that the fuel is enough or conclude only
  when it is.

## Trusted base

- Coq's kernel, checked again by `coqchk`. No axiom: `Print Assumptions` says `Closed under the global context` under each
  theorem of the `*Props.v` files (each file prints it for all its theorems when it is compiled).
- The reading of /repo by hand into the model; nothing is extracted from the Python source, and nothing was run.
- Fixed regular expressions of the code are written by hand as functions on lists of characters.
- The specifications. The larger ones are: the lexers of C++ and Python texts (C05, C10, C16, C33, C35, C36), the values of
  C++ integer constants (C20, C34, C53), C++ name lookup (C17, C18, C51), and `LambdaSpec.v`, a semantics of the C++ which
  the adapters write (C39 to C45, C59 to C61).
- `LambdaSpec.v`: memory is a list of cells; a parameter whose type ends with `&` is received by reference, any other by
  value; names are looked up innermost first, redeclaring a name or using one which is not declared is `Stuck` (code which
  does not compile or has no meaning); `throw` is `Throw`; C++ values are opaque atoms, boxes, optionals, arrays, vectors,
  tuples, numpy buffers; conversions are recorded (`VCast`) and not computed; the default value written by the user is the
  opaque value `VDefault`, provided that its text does not use a name of the lambda. The type checker of C++, overload
  resolution and object lifetimes are not in it. The text of a lambda and its syntax tree are tied by `lambda_text` in
  `LambdaModel.v`, which is the model of the printing code, not by a parser of C++.


## Refuted claims

Each of these theorems gives inputs for which the modelled code breaks the claim; the condition of the matching
`_partial` theorem excludes them.

- C01: `C01_second_region_indented_twice_refuted`
- C03: `C03_unclosed_region_loses_lines_refuted`, `C03_orphan_closing_line_is_duplicated_refuted`
- C04: `C04_mixed_blank_lines_refuted`
- C05: `C05_single_backslash_refuted`, `C05_user_escape_refuted`
- C06: `C06_string_literal_changed_refuted`, `C06_comment_line_changed_refuted`, `C06_empty_block_refuted`
- C07: `C07_rstrip_option_ignored_refuted`, `C07_reindent_ignores_size_refuted`
- C10: `C10_escaped_backslash_refuted`
- C11: `C11_external_comment_refuted`, `C11_two_names_refuted`, `C11_local_comment_refuted`
- C12: `C12_comment_refuted`
- C13: `C13_slashes_refuted`, `C13_c_signs_refuted`
- C14: `C14_fixed_point_refuted`, `C14_empty_target_refuted`
- C15: `C15_global_scope_not_read_back_refuted`
- C16: `C16_prefixed_literal_refuted`, `C16_word_before_comment_refuted`, `C16_escaped_quote_refuted`, `C16_character_literal_refuted`
- C17: `C17_outer_declared_first_refuted`, `C17_chained_lookup_refuted`
- C18: `C18_homonym_scope_refuted`, `C18_hidden_short_name_refuted`, `C18_absolute_name_refuted`
- C19: `C19_declaration_history_refuted`, `C19_function_history_refuted`, `C19_shortened_method_history_refuted`
- C20: `C20_octal_value_refuted`
- C21: `C21_distinct_names_refuted`, `C21_distinct_prefixed_names_refuted`
- C23: `C23_dropped_for_an_invisible_twin_refuted`, `C23_element_with_two_definitions_refuted`
- C25: `C25_enclosing_block_refuted`
- C26: `C26_namespace_inside_and_outside_root_refuted`, `C26_nested_definition_variable_refuted`, `C26_two_headers_refuted`
- C27: `C27_second_generator_refuted`, `C27_late_registration_refuted`
- C28: `C28_reopened_namespace_refuted`
- C29: `C29_replacements_refuted`, `C29_names_stay_distinct_refuted`
- C30: `C30_distinct_refuted`
- C32: `C32_unmatched_refuted`, `C32_arrow_refuted`
- C33: `C33_signed_octal_refuted`, `C33_string_escapes_refuted`, `C33_more_than_a_literal_refuted`
- C34: `C34_only_constants_refuted`, `C34_unsigned_refuted`
- C35: `C35_quotes_refuted`, `C35_backslash_refuted`, `C35_escape_refuted`
- C36: `C36_behind_refuted`
- C37: `C37_ordinary_name_refuted`
- C38: `C38_empty_signature_refuted`, `C38_bar_refuted`
- C39: `C39_one_argument_each_refuted`, `C39_scoped_refuted`, `C39_well_named_refuted`, `C39_unnamed_refuted`
- C40: `C40_default_refuted`, `C40_pointers_refuted`, `C40_names_refuted`
- C41: `C41_capture_refuted`
- C42: `C42_named_r_refuted`, `C42_reference_refuted`
- C43: `C43_names_refuted`, `C43_size_t_refuted`
- C44: `C44_overlap_refuted`
- C45: `C45_lengths_refuted`, `C45_count_type_refuted`, `C45_long_double_refuted`, `C45_six_refuted`, `C45_undeclared_refuted`, `C45_stride_refuted`, `C45_names_refuted`
- C46: `C46_distinct_types_refuted`, `C46_std_refuted`, `C46_pointer_refuted`, `C46_distinct_templates_refuted`
- C47: `C47_two_options_refuted`, `C47_class_emitted_refuted`, `C47_synonym_target_refuted`, `C47_function_suffix_refuted`
- C49: `C49_api_prefix_refuted`, `C49_return_const_refuted`
- C51: `C51_innermost_refuted`, `C51_resembling_refuted`, `C51_between_refuted`, `C51_default_access_refuted`, `C51_virtual_base_refuted`, `C51_terminates_refuted`, `C51_const_refuted`
- C52: `C52_value_refuted`, `C52_docstring_refuted`, `C52_multiline_refuted`
- C53: `C53_octal_size_refuted`
- C54: `C54_two_words_refuted`, `C54_bracketed_type_refuted`
- C55: `C55_text_argument_refuted`
- C56: `C56_other_namespace_refuted`, `C56_inner_namespace_refuted`
- C57: `C57_declarations_refuted`
- C58: `C58_fill_all_refuted`, `C58_scope_self_refuted`, `C58_cached_refuted`, `C58_all_elements_refuted`
- C59: `C59_capture_refuted`
- C60: `C60_option_refuted`
- C61: `C61_mixed_refuted`
- C62: `C62_list_refuted`, `C62_array_refuted`
- C63: `C63_static_refuted`, `C63_static_overload_refuted`, `C63_static_stub_refuted`, `C63_value_refuted`, `C63_names_refuted`, `C63_vectorized_refuted`
- C64: `C64_length_refuted`
- C65: `C65_optional_refuted`, `C65_excluded_refuted`, `C65_self_refuted`, `C65_buffer_refuted`, `C65_abstract_refuted`, `C65_protected_refuted`
- C66: `C66_not_arithmetic_refuted`, `C66_flag_refuted`, `C66_count_refuted`, `C66_only_comments_refuted`
- C67: `C67_array_assign_refuted`, `C67_array_setter_refuted`, `C67_reference_refuted`, `C67_unsized_array_refuted`, `C67_pointer_to_const_refuted`
- C68: `C68_braces_refuted`
- C69: `C69_template_refuted`, `C69_variable_refuted`, `C69_argument_refuted`, `C69_comment_refuted`, `C69_holders_refuted`
- C70: `C70_empty_refuted`, `C70_enum_refuted`, `C70_private_refuted`, `C70_comment_refuted`
- C71: `C71_nested_refuted`, `C71_comma_refuted`, `C71_overload_refuted`, `C71_instances_refuted`, `C71_placeholder_refuted`
- C72: `C72_suffix_refuted`, `C72_default_refuted`, `C72_virtual_refuted`, `C72_unnamed_refuted`, `C72_brace_refuted`
- C73: `C73_default_refuted`, `C73_base_refuted`, `C73_unused_refuted`, `C73_words_refuted`, `C73_const_refuted`, `C73_member_refuted`, `C73_swap_refuted`
- C74: `C74_nested_refuted`, `C74_hidden_refuted`, `C74_text_refuted`, `C74_reopened_refuted`, `C74_twice_refuted`, `C74_order_refuted`, `C74_function_refuted`
- C75: `C75_stop_refuted`, `C75_second_refuted`, `C75_constructor_refuted`, `C75_library_refuted`, `C75_sentence_refuted`
- C76: `C76_identifier_refuted`, `C76_operator_refuted`, `C76_unsigned_refuted`, `C76_octal_refuted`, `C76_string_refuted`, `C76_macro_refuted`, `C76_root_refuted`, `C76_product_refuted`
- C77: `C77_word_refuted`, `C77_same_name_refuted`, `C77_qualified_refuted`, `C77_prefix_refuted`, `C77_method_refuted`, `C77_own_scope_refuted`
- C78: `C78_number_refuted`, `C78_static_refuted`, `C78_member_refuted`, `C78_inside_refuted`
- C79: `C79_prose_refuted`, `C79_dimension_refuted`, `C79_name_refuted`
