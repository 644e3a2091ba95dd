From Verif Require Import PyStr RegionsModel TextModel CommentModel FillModel NamedModel EnumModel.
(** The binding of a class and of the classes and enums inside it. *)

(** ** Variables of the binding *)

(** A scope, src/srcmlcpp/cpp_types/scope/cpp_scope.py 8-12 [CppScopeType], [CppScopePart]. *)
Inductive part := NsPart (name : str) | ClassPart (name : str) | EnumPart (name : str).
(** src/litgen/internal/cpp_to_python.py 662-671 [_scope_part_name]. *)
Definition part_name (p : part) : str :=
  match p with NsPart n => $"Ns" ++ n | ClassPart n => $"Class" ++ n | EnumPart n => $"Enum" ++ n end.
(** src/litgen/internal/cpp_to_python.py 674-697 [cpp_scope_to_pybind_scope]. *)
Definition pybind_scope (roots : list str) (sc : list part) : list part :=
  filter (fun p => match p with NsPart n => negb (smem n roots) | _ => true end) sc.
(** src/litgen/internal/cpp_to_python.py 714-723: a template argument as a part of a name. *)
Definition param_name (t : str) : str :=
  replace $"::" $"_" (replace $"std::" [] (replace $" " $"_" (replace $"*" $"_ptr" (replace $" *" $"_ptr" t)))).
(** src/litgen/internal/cpp_to_python.py 707-726 [cpp_scope_to_pybind_var_name]; [params] are the template arguments. *)
Definition class_var (roots : list str) (sc : list part) (params : list str) : str :=
  match pybind_scope roots sc with
  | [] => $"m"
  | ps => $"py" ++ join $"_" (map part_name ps) ++ match params with [] => [] | _ => $"_" ++ join $"_" (map param_name params) end
  end.
(** src/litgen/internal/cpp_to_python.py 729-736 [cpp_scope_to_pybind_parent_var_name]; [sc] is the scope around the element. *)
Definition parent_var (roots : list str) (sc : list part) : str :=
  match pybind_scope roots sc with
  | [] => $"m"
  | ps => $"py" ++ join $"_" (map part_name ps)
  end.

(** ** Classes *)

(** What is known of one class: its name, its name in Python, its template arguments, the text between angle brackets which follows its
    name (src/srcmlcpp/cpp_types/template/cpp_i_template_host.py, str_template_specialization), the scope around it as C++ text, the
    bases (with their access) and those of the callback class_custom_inheritance__callback; whether its destructor is private, whether
    a trampoline is made (adapted_class.py 1110-1118), whether it is final, its comment (full_comment), its location comment; whether its
    default constructor is deleted, whether it declares a constructor, the text of the constructor made for it otherwise
    (adapted_class.py 1395-1495 [pydef_code], see NamedModel.v); whether it declares a copy constructor, and whether this one is part of
    the API. *)
Record head := Head {
  h_name : str; h_python : str; h_params : list str; h_special : str; h_scope : str; h_bases : list (access * str); h_custom : list str;
  h_nodelete : bool; h_trampoline : bool; h_final : bool; h_comment : str; h_location : str; h_deleted : bool; h_ctor : bool;
  h_ctor_text : str; h_copy : bool; h_copy_api : bool }.

(** What a class holds: any element which is neither a class nor an enum, with the lines it returns; an enum with its location comment; a
    class with its public children and the lines returned by its protected methods. A template class is represented by its instances
    (adapted_class.py 643-651 puts their lines one after the other). *)
Inductive child :=
  | COther (ls : list str)
  | CEnum (e : cpp_enum) (location : str)
  | CClass (h : head) (children : list child) (protected : list (list str)).

(** The options and what is computed elsewhere: regexes are functions telling which names they match; [cl_copy] and [cl_deepcopy] are
    those of copy and deepcopy; [cl_iterable] tells which Python names are iterable (class_iterable_info.py); [cl_custom] is the custom
    code for a qualified name and a variable (see ModuleModel.v); [cl_enum] holds the options about enums. *)
Record class_env := ClassEnv {
  cl_nanobind : bool; cl_roots : list str; cl_indent : str; cl_strip : bool; cl_replacements : str -> str; cl_dynamic : str -> bool;
  cl_shared : str -> bool; cl_copy : str -> bool; cl_deepcopy : str -> bool; cl_iterable : str -> bool;
  cl_custom : str -> str -> option str; cl_enum : enum_options }.

Section Class.
Variable o : class_env.

Definition lib : str := if cl_nanobind o then $"nb" else $"py".
(** src/srcmlcpp/cpp_types/classes/cpp_struct.py 104-112. *)
Definition qualified_name (h : head) : str := match h_scope h with [] => h_name h | s => s ++ $"::" ++ h_name h end.
Definition qualified_special (h : head) : str := qualified_name h ++ h_special h.

(** src/litgen/internal/cpp_to_python.py 42-46 [comment_pydef_one_line]. *)
Definition class_doc (h : head) : str :=
  comment_apply_replacements (cl_strip o) (cl_replacements o)
    (format_cpp_comment_on_one_line (Some (comment_apply_replacements (cl_strip o) (cl_replacements o) (h_comment h)))).

(** src/litgen/internal/adapted_types/adapted_class.py 676-707: the other arguments of class_. *)
Definition visible_base (b : access * str) : bool := match fst b with Private => false | _ => true end.
Definition other_params (h : head) : list str :=
  (match h_custom h with [] => map snd (filter visible_base (h_bases h)) | cs => cs end)
  ++ (if h_nodelete h && negb (cl_nanobind o) then [$"std::unique_ptr<" ++ qualified_special h ++ $", py::nodelete>"] else [])
  ++ (if h_trampoline h then [(match h_scope h with [] => [] | s => s ++ $"::" end) ++ h_name h ++ $"_trampoline"] else []).
Definition other_params_text (h : head) : str := match other_params h with [] => [] | ps => $", " ++ join $", " ps end.

(** src/litgen/internal/adapted_types/adapted_class.py 709-716: the template. *)
Definition creation_template : str := unlines
  [$"auto {pydef_class_var} =";
   $"{_i_}{py}::class_<{qualified_struct_name}{other_template_params}{maybe_shared_ptr_holder}>{location}";
   $"{_i_}{_i_}({pydef_class_var_parent}, " ++ [dq] ++ $"{class_name_python}" ++ [dq] ++ $"{maybe_py_is_final}{maybe_py_is_dynamic}, "
     ++ [dq] ++ $"{comment}" ++ [dq] ++ $")"].
(** src/litgen/internal/adapted_types/adapted_class.py 668-761 [make_pyclass_creation_code]; [sc] is the scope around the class. *)
Definition creation_values (sc : list part) (h : head) : list (str * str) :=
  [($"py", lib); ($"_i_", cl_indent o); ($"pydef_class_var", class_var (cl_roots o) (sc ++ [ClassPart (h_name h)]) (h_params h));
   ($"qualified_struct_name", qualified_special h); ($"other_template_params", other_params_text h); ($"location", h_location h);
   ($"class_name_python", h_python h); ($"pydef_class_var_parent", parent_var (cl_roots o) sc);
   ($"maybe_py_is_final", if h_final h then $", " ++ lib ++ $"::is_final()" else []);
   ($"maybe_py_is_dynamic", if cl_dynamic o (h_name h) then $", " ++ lib ++ $"::dynamic_attr()" else []); ($"comment", class_doc h);
   ($"maybe_shared_ptr_holder",
     if cl_shared o (h_name h) && negb (cl_nanobind o) then $", std::shared_ptr<" ++ qualified_special h ++ $">" else [])].
Definition creation_text (sc : list part) (h : head) : str :=
  process_code_template creation_template (creation_values sc h) [] true.

(** src/litgen/internal/adapted_types/adapted_element.py 107-112 [str_pydef]. *)
Definition str_pydef (ls : list str) : str := match ls with [] => [] | _ => unlines ls ++ [nl] end.
Definition indented (t : str) : str := indent_code t 4 false (Some (cl_indent o)) true.

(** src/litgen/internal/adapted_types/adapted_class.py 763-770 [make_default_constructor_code]. *)
Definition ctor_code (h : head) : str :=
  if h_deleted h then cl_indent o ++ $"// (default constructor explicitly deleted)" ++ [nl]
  else if negb (h_ctor h) then h_ctor_text h else [].

(** src/litgen/internal/adapted_types/adapted_class.py 883-897 [_cp_shall_create_copy_impl]. *)
Definition shall_copy (h : head) (deep : bool) : bool :=
  if negb ((if deep then cl_deepcopy o else cl_copy o) (h_name h)) then false
  else if h_copy h then h_copy_api h else true.
(** src/litgen/internal/adapted_types/adapted_class.py 921-954 [_cp_pydef]. *)
Definition copy_template : str := unlines
  [$".def(" ++ [dq] ++ $"__{copy_or_deep_copy}__" ++ [dq] ++ $",  [](const {qualified_class_name} &self{maybe_pydict}) {";
   $"{_i_}return {qualified_class_name}(self);"; $"}{maybe_memo})"].
Definition copy_text (h : head) (deep : bool) : str :=
  process_code_template copy_template
    [($"_i_", cl_indent o); ($"qualified_class_name", qualified_special h); ($"copy_or_deep_copy", if deep then $"deepcopy" else $"copy");
     ($"maybe_pydict", if deep then $", " ++ lib ++ $"::dict" else []);
     ($"maybe_memo", if deep then $", " ++ lib ++ $"::arg(" ++ [dq] ++ $"memo" ++ [dq] ++ $")" else [])] [] true.
Definition copies_text (h : head) : str :=
  let full := if shall_copy h false then copy_text h false else [] in
  if shall_copy h true then (match full with [] => [] | _ => full ++ [nl] end) ++ copy_text h true else full.

(** src/litgen/internal/adapted_types/adapted_class.py 807-844 [make_iterable_code]. *)
Definition iterable_template : str :=
  (if cl_nanobind o then unlines
     [$".def(" ++ [dq] ++ $"__iter__" ++ [dq] ++ $", [](const {qualified_struct_name} &v) {";
      $"        return nb::make_iterator(nb::type<{qualified_struct_name}>(), " ++ [dq] ++ $"iterator" ++ [dq] ++ $", v.begin(), v.end());";
      $"    }, nb::keep_alive<0, 1>())";
      $".def(" ++ [dq] ++ $"__len__" ++ [dq] ++ $", [](const {qualified_struct_name} &v) { return v.size(); })"]
   else unlines
     [$".def(" ++ [dq] ++ $"__iter__" ++ [dq]
        ++ $", [](const {qualified_struct_name} &v) { return py::make_iterator(v.begin(), v.end()); }, py::keep_alive<0, 1>())";
      $".def(" ++ [dq] ++ $"__len__" ++ [dq] ++ $", [](const {qualified_struct_name} &v) { return v.size(); })"]) ++ [nl].
Definition iterable_text (h : head) : str :=
  if cl_iterable o (h_python h) then
    indent_code (process_code_template iterable_template [($"_i_", cl_indent o); ($"qualified_struct_name", qualified_special h)] [] true)
      (length (cl_indent o)) false None true
  else [].

(** The options of an enum, with the variable of its parent and its location comment. *)
Definition enum_at (parent location : str) : enum_options :=
  let e := cl_enum o in
  EnumOptions (eo_nanobind e) (eo_skip_count e) (eo_size_name e) (eo_arithmetic e) (eo_flag e) (eo_export e) (eo_enum_name e)
    (eo_value_name e) (eo_value e) (eo_strip e) (eo_layout e) (eo_replacements e) (eo_show_code e) (eo_py_indent e) (eo_cpp_indent e)
    (eo_location_py e) location parent.

(** [None] if one of them is an exception. *)
Fixpoint sequence {A} (l : list (option A)) : option (list A) :=
  match l with
  | [] => Some []
  | None :: _ => None
  | Some x :: r => option_map (cons x) (sequence r)
  end.
Definition is_inner (c : child) : bool := match c with COther _ => false | _ => true end.

(** src/litgen/internal/adapted_types/adapted_class.py 772-777 [make_public_children_code], 779-787 [make_inner_classes_code] and 788-800
    [make_protected_methods_code], from the lines of the children. *)
Definition others_code (children : list child) : str :=
  concat (map (fun c => match c with COther ls => indented (str_pydef ls) | _ => [] end) children).
Definition protected_code (protected : list (list str)) : str := concat (map (fun ls => indented (str_pydef ls)) protected).
Definition inner_code (python : str) (inner : list (list str)) : str :=
  match inner with
  | [] => []
  | _ =>
      [nl] ++ $"{ // inner classes & enums of " ++ python ++ [nl] ++ concat (map (fun ls => indented (str_pydef ls)) inner)
      ++ $"} // end of inner classes & enums of " ++ python
  end.
(** src/litgen/internal/adapted_types/adapted_class.py 846-852 [make_all_children_code]. *)
Definition all_children_code (h : head) (children : list child) (protected : list (list str)) : str :=
  ctor_code h ++ others_code children ++ protected_code protected ++ indented (copies_text h) ++ iterable_text h.

(** src/litgen/internal/adapted_types/adapted_class.py 639-873 [pydef_lines]; the glue code of the virtual and protected methods is left
    out (HeaderModel.v and DESIGN.md). [None] is an exception. *)
Fixpoint child_pydef (sc : list part) (c : child) : option (list str) :=
  match c with
  | COther ls => Some ls
  | CEnum e location => enum_pydef (enum_at (parent_var (cl_roots o) sc) location) e
  | CClass h children protected =>
      let own := sc ++ [ClassPart (h_name h)] in
      match sequence (map snd (filter fst (map (fun c => (is_inner c, child_pydef own c)) children))) with
      | None => None
      | Some inner =>
          let inner_text := inner_code (h_python h) inner in
          let code := creation_text sc h in
          let code :=
            match inner_text with
            | [] => code ++ [nl] ++ all_children_code h children protected
            | _ => code ++ $";" ++ [nl] ++ inner_text ++ [nl; nl] ++ class_var (cl_roots o) own (h_params h) ++ [nl]
                     ++ all_children_code h children protected
            end in
          let code := code ++ cl_indent o ++ $";" in
          let code :=
            match cl_custom o (qualified_name h) (class_var (cl_roots o) own (h_params h)) with
            | None => code
            | Some custom => code ++ [nl] ++ custom ++ [nl]
            end in
          Some (lines code)
      end
  end.
(** Classes and enums at the same place, their lines one after the other (src/litgen/internal/adapted_types/adapted_block.py 190-206,
    without the spacing lines, which are empty). *)
Definition forest_pydef (sc : list part) (cs : list child) : option (list str) := option_map (@concat str) (sequence (map (child_pydef sc) cs)).
End Class.
