From Verif Require Import PyStr PyNum RegionsModel TextModel CommentModel TypeTextModel FillModel LambdaModel AdapterModel NamedModel OverloadModel.
(** The member variables of a class, in the stub and in the binding. *)

(** A member with its comments and its verbatim text. *)
Record documented := Documented { d_member : member; d_previous : str; d_eol : str; d_code : str }.

(** The options and what is computed elsewhere, for one class: the regexes of src/litgen/options.py 449-466 and 581 are functions
    telling which names they match; [mo_excluded] is template_options.py 179-185 [shall_exclude_type]; [mo_size] is the number
    written in an array size (NumberModel.v); [mo_name] the Python name of a variable (NamesModel.v), [mo_type] and [mo_value] the
    Python text of a type and of a value, with the names of the siblings qualified (adapted_class.py 156-171); [mo_class] is the
    qualified name of the class; the last two are the location comments. *)
Record member_options := MemberOptions {
  mo_nanobind : bool; mo_class : str; mo_exclude_in : str -> bool; mo_exclude_name : str -> bool; mo_exclude_type : str -> bool;
  mo_excluded : ctype -> bool; mo_readonly_type : str -> bool; mo_readonly_name : str -> bool; mo_array_types : list str;
  mo_array_replace : str -> bool; mo_size : str -> option nat; mo_name : str -> str; mo_type : str -> str; mo_value : str -> str;
  mo_strip : bool; mo_layout : bool; mo_replacements : str -> str; mo_show_code : bool; mo_location_py : str; mo_location_cpp : str }.

Section Member.
Variable o : member_options.

(** ** Which members *)

(** src/srcmlcpp/cpp_types/decls_types/cpp_decl.py 168-178 [c_array_size_as_str]. *)
Fixpoint after_bracket (s : str) : str := match s with [] => [] | c :: r => if ceqb c "[" then r else after_bracket r end.
Definition array_size_text (p : param) : str := removelast (after_bracket (p_array p)).
Definition array_size (p : param) : option nat := match p_array p with [] => None | _ => mo_size o (array_size_text p) end.
(** src/srcmlcpp/cpp_types/decls_types/cpp_decl.py 228-238 [is_c_array_fixed_size_unparsable]. *)
Definition unparsable_size (p : param) : bool :=
  match p_array p with
  | [] => false
  | _ => negb (blank (array_size_text p)) && match array_size p with None => true | _ => false end
  end.
(** src/litgen/internal/adapted_types/adapted_class.py 72-88 [_is_numeric_c_array]. *)
Definition is_numeric_array (m : member) : bool :=
  let p := m_decl m in
  smem (type_text (p_type p)) (mo_array_types o) && mo_array_replace o (p_name p) && match array_size p with None => false | _ => true end.
(** src/litgen/internal/adapted_types/adapted_class.py 130-154 [check_can_publish], with 90-128
    [_check_can_add_c_array_known_fixed_size]; the warnings are left out. *)
Definition can_publish (m : member) : bool :=
  let p := m_decl m in
  if 0 <? length (m_bits m) then false
  else if unparsable_size p then false
  else match array_size p with
  | Some _ => smem (type_text (p_type p)) (mo_array_types o) && mo_array_replace o (p_name p)
  | None => negb (mo_excluded o (p_type p))
  end.
(** src/litgen/internal/adapted_types/adapted_class.py 400-416 [_init_add_adapted_class_member], for the public members. *)
Definition member_published (m : member) : bool :=
  let p := m_decl m in
  is_public (m_access m) &&
  (negb (mo_exclude_in o (p_name p)) && negb (mo_exclude_name o (p_name p)) && negb (mo_exclude_type o (type_text (p_type p)))
   && can_publish m).
Definition members_published (ms : list documented) : list documented := filter (fun d => member_published (d_member d)) ms.

(** src/srcmlcpp/cpp_types/decls_types/cpp_type.py 133-140. *)
Definition is_const_type (t : ctype) : bool := smem $"const" (specifiers t) || smem $"constexpr" (specifiers t).
Definition is_static_type (t : ctype) : bool := smem $"static" (specifiers t).
(** src/litgen/internal/adapted_types/adapted_class.py 225-235 [_is_published_readonly]. *)
Definition is_readonly (m : member) : bool :=
  let p := m_decl m in
  is_const_type (p_type p) || mo_readonly_type o (type_text (p_type p)) || mo_readonly_name o (p_name p).

(** ** The stub *)

(** src/litgen/internal/adapted_types/adapted_decl.py 38-45 [decl_value_python]; a type without name would raise. *)
Definition value_text (p : param) : str :=
  let v := strip (p_default p) in
  let v := if startswith $"{" v && endswith $"}" v then hd [] (typenames (p_type p)) ++ $"(" ++ removelast (tl v) ++ $")" else v in
  mo_value o v.
(** src/litgen/internal/adapted_types/adapted_class.py 161-171. *)
Definition member_type (m : member) : str := if is_numeric_array m then $"np.ndarray" else mo_type o (type_text (p_type (m_decl m))).
Definition member_value (m : member) : str := if is_numeric_array m then [] else value_text (m_decl m).
(** src/litgen/internal/adapted_types/adapted_class.py 173-185 [comment_array]. *)
Definition comment_array (m : member) : str :=
  let p := m_decl m in
  if is_numeric_array m then
    $"  # ndarray[type=" ++ type_text (p_type p) ++ $", size=" ++ nat_text (match array_size p with Some n => n | None => 0 end) ++ $"]"
      ++ match value_text p with [] => [] | v => $" default:" ++ v end
  else [].
(** src/litgen/internal/adapted_types/adapted_class.py 261-303 [stub_lines]. *)
Definition member_line (d : documented) : str :=
  let m := d_member d in let p := m_decl m in let t := p_type p in
  let null := smem $"*" (modifiers t) && smem (strip (p_default p)) [$"nullptr"; $"NULL"] in
  let type := if null then $"Optional[" ++ member_type m ++ $"]" else member_type m in
  let value := if null then $"None" else member_value m in
  mo_name o (p_name p) ++ $": " ++ type ++ match value with [] => [] | v => $" = " ++ v end ++ comment_array m
    ++ (if shall_place_at_end_of_line (mo_strip o) (mo_layout o) (mo_replacements o) (d_previous d) (d_eol d)
        then comment_python_end_of_line (mo_strip o) (mo_replacements o) (d_eol d) else [])
    ++ (if is_static_type t then $" # (C++ static member)" else []) ++ (if is_const_type t then $" # (const)" else [])
    ++ (if is_readonly m && negb (is_const_type t) then $" # (read-only)" else []) ++ mo_location_py o.
Definition member_stub_lines (d : documented) : list str :=
  original_code_lines (mo_show_code o) (d_code d)
  ++ (if shall_place_at_end_of_line (mo_strip o) (mo_layout o) (mo_replacements o) (d_previous d) (d_eol d) then []
      else comment_python_previous_lines (mo_strip o) (mo_layout o) (mo_replacements o) (full_comment (d_previous d) (d_eol d)))
  ++ [member_line d].

(** ** The binding *)

(** src/litgen/internal/cpp_to_python.py 42-46 [comment_pydef_one_line]. *)
Definition member_doc (d : documented) : str :=
  comment_apply_replacements (mo_strip o) (mo_replacements o)
    (format_cpp_comment_on_one_line (Some (comment_apply_replacements (mo_strip o) (mo_replacements o) (full_comment (d_previous d) (d_eol d))))).
(** src/litgen/internal/adapted_types/adapted_class.py 187-223 [_str_pydef_lines_numeric_array]: the template after unindent_code;
    none of the texts put in it has a newline. *)
Definition array_lines (d : documented) : list str :=
  let p := m_decl (d_member d) in
  let t := type_text (p_type p) in
  let n := nat_text (match array_size p with Some n => n | None => 0 end) in
  let doc := [dq] ++ member_doc d ++ [dq] in
  if mo_nanobind o then
    [$".def_prop_ro(" ++ [dq] ++ mo_name o (p_name p) ++ [dq] ++ $"," ++ mo_location_cpp o;
     $"    [](" ++ mo_class o ++ $" &self) -> nb::ndarray<" ++ t ++ $", nb::numpy, nb::shape<" ++ n ++ $">, nb::c_contig>";
     $"    {";
     $"        return self." ++ p_name p ++ $";";
     $"    },";
     $"    " ++ doc ++ $")"]
  else
    [$".def_property(" ++ [dq] ++ mo_name o (p_name p) ++ [dq] ++ $"," ++ mo_location_cpp o;
     $"    [](" ++ mo_class o ++ $" &self) -> pybind11::array";
     $"    {";
     $"        auto dtype = pybind11::dtype(pybind11::format_descriptor<" ++ t ++ $">::format());";
     $"        auto base = pybind11::array(dtype, {" ++ n ++ $"}, {sizeof(" ++ t ++ $")});";
     $"        return pybind11::array(dtype, {" ++ n ++ $"}, {sizeof(" ++ t ++ $")}, self." ++ p_name p ++ $", base);";
     $"    }, [](" ++ mo_class o ++ $"& self) {},";
     $"    " ++ doc ++ $")"].
(** src/litgen/internal/adapted_types/adapted_class.py 237-254 [_str_pydef_lines_field]. *)
Definition field_line (d : documented) : str :=
  let m := d_member d in let p := m_decl m in
  let mode := if is_readonly m then (if mo_nanobind o then $"def_ro" else $"def_readonly") else (if mo_nanobind o then $"def_rw" else $"def_readwrite") in
  $"." ++ mode ++ (if is_static_type (p_type p) then $"_static" else []) ++ $"(" ++ [dq] ++ mo_name o (p_name p) ++ [dq] ++ $", &"
    ++ mo_class o ++ $"::" ++ p_name p ++ $", " ++ [dq] ++ member_doc d ++ [dq] ++ $")" ++ mo_location_cpp o.
(** src/litgen/internal/adapted_types/adapted_class.py 306-310 [pydef_lines]. *)
Definition member_pydef_lines (d : documented) : list str := if is_numeric_array (d_member d) then array_lines d else [field_line d].
End Member.
