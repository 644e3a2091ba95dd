From Verif Require Import PyStr PyDict FillModel.
(** The policies of the return value, of lifetime and of calls, which come from comments and options. *)

(** The text from the first occurrence of [tok] on: [s[s.find(tok):]], [None] if there is none. *)
Fixpoint from_token (tok s : str) : option str :=
  if startswith tok s then Some s else match s with [] => None | _ :: r => from_token tok r end.
(** src/codemanip/code_utils.py 882-897 [word_after], [find_word_after_token]. *)
Definition word_after_token (s tok : str) : option str :=
  option_map (fun r => takewhile (fun c => negb (is_space c)) (skipn (length tok) r)) (from_token tok s).

(** The comments of a function: behind it on its line, and on the lines before. *)
Record comments := Comments { at_end : str; on_previous : str }.
(** src/srcmlcpp/cpp_types/base/cpp_element_comments.py 117-121 [comments_as_str]. *)
Definition comments_as_str (c : comments) : str :=
  match on_previous c, at_end c with
  | _ :: _, _ :: _ => on_previous c ++ [nl] ++ at_end c
  | p, e => p ++ e
  end.

(** src/litgen/internal/adapted_types/adapted_function.py 925-935. *)
Definition policy_in_comments (c : comments) (tok : str) : option str :=
  match word_after_token (at_end c) tok with
  | Some w => Some w
  | None => word_after_token (on_previous c) tok
  end.
(** src/litgen/internal/adapted_types/adapted_function.py 937-942. *)
Definition commented_policy (c : comments) : str :=
  match policy_in_comments c $"return_value_policy::" with
  | Some w => w
  | None => match policy_in_comments c $"rv_policy::" with Some w => w | None => [] end
  end.
(** src/litgen/internal/adapted_types/adapted_function.py 918-960 [_pydef_fill_return_value_policy], 
    src/srcmlcpp/cpp_types/functions/cpp_function_decl.py 448-458 [returns_pointer], [returns_reference]: [modifiers] are those of the type of the result ([None] for a
    constructor), [for_pointers] and [for_references] tell whether the name matches the two options. There is no callback. *)
Definition is_only (m : str) (modifiers : option (list str)) : bool := match modifiers with Some [x] => seqb x m | _ => false end.
Definition return_value_policy (for_pointers for_references : bool) (modifiers : option (list str)) (c : comments) : str :=
  if for_pointers && is_only $"*" modifiers || for_references && is_only $"&" modifiers then $"reference" else commented_policy c.

(** src/litgen/internal/adapted_types/adapted_function.py 962-971 [_pydef_fill_call_policy_from_function_comment]. *)
Fixpoint up_to_parens (s : str) : option str :=
  if startswith $"()" s then Some $"()" else match s with [] => None | c :: r => option_map (cons c) (up_to_parens r) end.
Definition call_policy (c : comments) (tok : str) : option str :=
  match from_token tok (comments_as_str c) with
  | Some rest => up_to_parens rest
  | None => None
  end.
(** src/litgen/internal/adapted_types/adapted_function.py 973-980 [_replace_py_or_nb_namespace]. *)
Definition for_library (nanobind : bool) (s : str) : str := if nanobind then replace $"py::" $"nb::" s else replace $"nb::" $"py::" s.
(** src/litgen/internal/adapted_types/adapted_function.py 982-990 [_pydef_fill_keep_alive_from_function_comment], [_pydef_fill_call_guard_from_function_comment]
    (a text which is found is not empty). *)
Definition policy_for (nanobind : bool) (c : comments) (name : str) : option str :=
  option_map (for_library nanobind) (match call_policy c ($"py::" ++ name) with Some k => Some k | None => call_policy c ($"nb::" ++ name) end).

(** src/litgen/internal/adapted_types/adapted_function.py 541-566: the three last parts of the end of a binding; [gil] tells whether the name of the function matches the
    option fn_add_gil_scoped_release_guard__regex. *)
Definition shown_policy (nanobind : bool) (policy : str) : option str :=
  match policy with
  | [] => None
  | _ => Some ((if nanobind then $"nb::rv_policy::" else $"py::return_value_policy::") ++ policy)
  end.
Definition shown_guard (nanobind gil : bool) (guard : option str) : option str :=
  let py := if nanobind then $"nb" else $"py" in
  let own := py ++ $"::call_guard<" ++ py ++ $"::gil_scoped_release>()" in
  if gil then match guard with None => Some own | Some g => Some (g ++ $", " ++ own) end else guard.
(** What is known of a function. *)
Record bound_function := BoundFunction {
  bf_args : option str; bf_doc : option str; bf_comments : comments; bf_modifiers : option (list str); bf_for_pointers : bool; bf_for_references : bool; bf_gil : bool }.
Definition end_of (nanobind : bool) (f : bound_function) : end_parts :=
  EndParts (bf_args f) (bf_doc f)
    (shown_policy nanobind (return_value_policy (bf_for_pointers f) (bf_for_references f) (bf_modifiers f) (bf_comments f)))
    (policy_for nanobind (bf_comments f) $"keep_alive") (shown_guard nanobind (bf_gil f) (policy_for nanobind (bf_comments f) $"call_guard")).
(** src/litgen/internal/adapted_types/adapted_function.py 509-579 [_pydef_end_arg_docstring_returnpolicy]. *)
Definition function_end (indent : str) (nanobind is_method : bool) (f : bound_function) : str := pydef_end indent is_method (end_of nanobind f).
(** src/litgen/internal/adapted_types/adapted_function.py 770-829 [_pydef_constructor_str]: a constructor without lambda has no other parts. *)
Definition constructor_text (indent location arg_types : str) (nanobind : bool) (f : bound_function) : str :=
  pydef_constructor indent (if nanobind then $"nb" else $"py") location arg_types (bf_args f) (bf_doc f).
