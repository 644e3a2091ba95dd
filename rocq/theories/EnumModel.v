From Verif Require Import PyStr NamesModel TextModel CommentModel OverloadModel.
(** The code written for an enum, in the stub and in the binding. *)

(** A value of an enum, after src/srcmlcpp/cpp_types/cpp_enum.py 80-122 [get_children_with_filled_decl_values]: [v_value] is its
    value, given or filled; [v_previous] and [v_eol] are its comments and [v_code] its verbatim text. *)
Record enumerator := Enumerator { v_name : str; v_value : str; v_previous : str; v_eol : str; v_code : str }.
Inductive enum_child := EValue (v : enumerator) | EComment (text : str) | EBlank.

(** [en_scope] is the scope around it, empty for the global one. *)
Record cpp_enum := CppEnum {
  en_name : str; en_scope : str; en_is_class : bool; en_children : list enum_child; en_previous : str; en_eol : str }.

(** The options and what is computed elsewhere: the regexes of src/litgen/options.py 620-648 are functions telling which names they
    match; [eo_enum_name] and [eo_value_name] are the Python names (NamesModel.v), [eo_value] the Python text of a value
    (adapted_enum.py 94-104), [eo_location_cpp] and [eo_location_py] the location comments (cpp_to_python.py 537-553), [eo_parent] the
    variable of the enclosing module or class. *)
Record enum_options := EnumOptions {
  eo_nanobind : bool; eo_skip_count : bool; eo_size_name : str -> bool; eo_arithmetic : str -> bool; eo_flag : str -> bool;
  eo_export : bool; eo_enum_name : str -> str; eo_value_name : bool -> str -> str -> str; eo_value : str -> str;
  eo_strip : bool; eo_layout : bool; eo_replacements : str -> str; eo_show_code : bool; eo_py_indent : str; eo_cpp_indent : str;
  eo_location_py : str; eo_location_cpp : str; eo_parent : str }.

(** src/codemanip/code_utils.py 698-707 [var_name_contains_word]. *)
Definition var_name_contains_word (var_name word : str) : bool :=
  let var_name := strip (to_snake_case var_name) in
  if contains [sp] var_name then false else existsb (fun part => seqb part (lower word)) (split_on "_" var_name).

Section Enum.
Variable o : enum_options.

(** src/litgen/internal/cpp_to_python.py 640-654 [enum_element_is_count]. *)
Definition is_count (e : cpp_enum) (v : enumerator) : bool :=
  if negb (eo_skip_count o) then false
  else if negb (eo_size_name o (v_name v)) then false
  else if en_is_class e then true
  else var_name_contains_word (lower (v_name v)) (lower (en_name e)).

(** src/litgen/internal/adapted_types/adapted_enum.py 190-202 [_fill_children]. *)
Definition enum_published (e : cpp_enum) : list enum_child :=
  filter (fun c => match c with EValue v => negb (is_count e v) | _ => true end) (en_children e).

(** src/litgen/internal/adapted_types/adapted_enum.py 89-92 [decl_name_python]. *)
Definition value_python (e : cpp_enum) (v : enumerator) : str := eo_value_name o (en_is_class e) (en_name e) (v_name v).

(** ** The stub *)

(** src/litgen/internal/adapted_types/adapted_enum.py 137-152 [stub_lines]. *)
Definition value_stub_lines (e : cpp_enum) (v : enumerator) : list str :=
  let decl_part := value_python e v ++ $" = enum.auto() # (= " ++ eo_value o (v_value v) ++ $")" in
  let ls :=
    if shall_place_at_end_of_line (eo_strip o) (eo_layout o) (eo_replacements o) (v_previous v) (v_eol v)
    then [decl_part ++ comment_python_end_of_line (eo_strip o) (eo_replacements o) (v_eol v)]
    else comment_python_previous_lines (eo_strip o) (eo_layout o) (eo_replacements o) (full_comment (v_previous v) (v_eol v)) ++ [decl_part] in
  original_code_lines (eo_show_code o) (v_code v) ++ ls.
(** src/litgen/internal/adapted_types/adapted_comment.py 22-26 and 43-54. *)
Definition child_stub_lines (e : cpp_enum) (c : enum_child) : ekind * list str :=
  match c with
  | EValue v => (KEnumDecl, value_stub_lines e v)
  | EComment t => (KComment, free_comment_lines (eo_strip o) (eo_layout o) (eo_replacements o) t)
  | EBlank => (KEmptyLine, if eo_layout o then [[]] else [])
  end.
Definition enum_scope_self (e : cpp_enum) : str := match en_scope e with [] => en_name e | s => s ++ $"::" ++ en_name e end.
(** src/litgen/internal/adapted_types/adapted_enum.py 211-238 [stub_lines]. *)
Definition enum_base (e : cpp_enum) : str :=
  let n := enum_scope_self e in
  if eo_arithmetic o n && eo_flag o n then $"enum.IntFlag"
  else if eo_arithmetic o n then $"enum.IntEnum"
  else if eo_flag o n then $"enum.Flag" else $"enum.Enum".
Definition enum_title (e : cpp_enum) : str := $"class " ++ eo_enum_name o (en_name e) ++ $"(" ++ enum_base e ++ $"):".
Definition enum_body (e : cpp_enum) : list str :=
  lines_with (spacing_python (eo_layout o)) None (map (child_stub_lines e) (enum_published e)).
Definition enum_stub (e : cpp_enum) : list str :=
  stub_layout_lines (eo_strip o) (eo_layout o) (eo_replacements o) (enum_title e) [] (eo_location_py o) (en_previous e) (en_eol e)
    (enum_body e) (eo_py_indent o).

(** ** The binding *)

(** src/litgen/internal/cpp_to_python.py 42-46 [comment_pydef_one_line]. *)
Definition comment_pydef_one_line (c : str) : str :=
  comment_apply_replacements (eo_strip o) (eo_replacements o)
    (format_cpp_comment_on_one_line (Some (comment_apply_replacements (eo_strip o) (eo_replacements o) c))).

(** src/litgen/internal/adapted_types/adapted_enum.py 33-43 [decl_name_cpp_decorated]. *)
Definition value_cpp (e : cpp_enum) (v : enumerator) : str :=
  match (if en_is_class e then enum_scope_self e else en_scope e) with [] => v_name v | s => s ++ $"::" ++ v_name v end.
(** src/litgen/internal/adapted_types/adapted_enum.py 155-160 [pydef_lines]. *)
Definition value_pydef_line (e : cpp_enum) (v : enumerator) : str :=
  $".value(" ++ [dq] ++ value_python e v ++ [dq] ++ $", " ++ value_cpp e v ++ $", " ++ [dq]
    ++ comment_pydef_one_line (full_comment (v_previous v) (v_eol v)) ++ [dq] ++ $")".
Definition enum_values (e : cpp_enum) : list enumerator :=
  flat_map (fun c => match c with EValue v => [v] | _ => [] end) (enum_published e).
(** src/litgen/internal/adapted_types/adapted_enum.py 241-290 [pydef_lines]. [None] is the UnboundLocalError raised for
    [enum_annotation]. *)
Definition enum_annotation (e : cpp_enum) : option str :=
  let n := enum_scope_self e in
  if eo_arithmetic o n then
    Some (if eo_nanobind o then $", nb::is_arithmetic()" ++ (if eo_flag o n then $", nb::is_flag()" else []) else $", py::arithmetic()")
  else None.
Definition enum_decl_line (e : cpp_enum) (annotation : str) : str :=
  (if eo_nanobind o then $"nb" else $"py") ++ $"::enum_<" ++ enum_scope_self e ++ $">(" ++ eo_parent o ++ $", " ++ [dq]
    ++ eo_enum_name o (en_name e) ++ [dq] ++ annotation ++ $", " ++ [dq] ++ comment_pydef_one_line (full_comment (en_previous e) (en_eol e))
    ++ [dq] ++ $")" ++ eo_location_cpp o.
Definition enum_pydef (e : cpp_enum) : option (list str) :=
  match enum_annotation e with
  | None => None
  | Some annotation =>
      let ls := [$"auto pyEnum" ++ eo_enum_name o (en_name e) ++ $" = "; enum_decl_line e annotation] in
      let children := map (value_pydef_line e) (enum_values e) in
      let ls := ls ++ indent_code_lines children 1 false (Some (eo_cpp_indent o)) true in
      let ls := if eo_export o then ls ++ [$".export_values()"] else ls in
      match rev ls with
      | [] => None
      | last :: r => Some (indent_code_lines (rev r ++ [add_item_before_cpp_comment last $";"]) 1 true (Some (eo_cpp_indent o)) true)
      end
  end.
End Enum.
