From Verif Require Import PyStr PyDict PyNum RegionsModel TextModel TypeTextModel FillModel LambdaModel AdapterModel BufferModel ChainModel BindModel.
(** The constructor made for a class which declares none: its parameters are members of the class. *)

(** ** Classes *)

Inductive access := Public | Protected | Private.

(** A member, src/srcmlcpp/cpp_types/decls_types/cpp_decl.py 39-441 [CppDecl], with the access of its zone and bitfield_range.
    Its type and its initial value are qualified as with_qualified_types makes them for the parameter (adapted_class.py 1378). *)
Record member := Member { m_access : access; m_decl : param; m_bits : str }.

(** A method, src/srcmlcpp/cpp_types/functions/cpp_function_decl.py 392-421: [me_values] are the default values of its
    parameters. *)
Record method := Method {
  me_constructor : bool; me_destructor : bool; me_access : access; me_values : list str; me_deleted : bool; me_pure : bool }.

(** [s_scope] is the qualified name, with its specialization. *)
Record struct := Struct {
  s_is_class : bool; s_name : str; s_scope : str; s_inner : list str; s_members : list member; s_methods : list method }.

(** src/srcmlcpp/cpp_types/classes/cpp_struct.py 138-166 and 185-193. *)
Definition no_param (m : method) : bool := match me_values m with [] => true | _ => false end.
Definition default_constructor (m : method) : bool :=
  me_constructor m && forallb (fun v => match v with [] => false | _ => true end) (me_values m).
Definition has_zero_param (s : struct) : bool := existsb (fun m => me_constructor m && no_param m) (s_methods s).
Definition has_non_zero_param (s : struct) : bool := existsb (fun m => me_constructor m && negb (no_param m)) (s_methods s).
Definition has_constructor (s : struct) : bool := existsb me_constructor (s_methods s).
Definition has_deleted_default (s : struct) : bool := existsb (fun m => default_constructor m && me_deleted m) (s_methods s).
Definition is_private (a : access) : bool := match a with Private => true | _ => false end.
Definition has_private_destructor (s : struct) : bool := existsb (fun m => me_destructor m && is_private (me_access m)) (s_methods s).

(** The options, src/litgen/options.py: a regex option is the function telling which names it matches; [co_excluded] is
    src/litgen/internal/template_options.py 179-185 [shall_exclude_type]; [co_optional] is
    fn_params_adapt_mutable_param_with_default_value__to_autogenerated_named_ctor. *)
Record class_options := ClassOptions {
  co_class_ctor : str -> bool; co_struct_ctor : str -> bool; co_excluded : ctype -> bool;
  co_exclude_type : str -> bool; co_exclude_name : str -> bool; co_exclude_in : str -> str -> bool; co_optional : bool }.

(** ** Which constructor *)

(** src/litgen/internal/adapted_types/adapted_class.py 1223-1239 [flag_generate_named_ctor_params],
    [flag_generate_void_constructor]. *)
Definition with_named_params (co : class_options) (s : struct) : bool :=
  let result := (if s_is_class s then co_class_ctor co else co_struct_ctor co) (s_name s) in
  let result := if has_private_destructor s then false else result in
  if has_non_zero_param s then false else result.
Definition void_constructor (co : class_options) (s : struct) : bool :=
  negb (has_constructor s) && negb (with_named_params co s).

(** ** Its parameters *)

(** src/litgen/internal/adapted_types/adapted_class.py 1263-1300 [can_be_set]. *)
Definition can_be_set (co : class_options) (s : struct) (m : member) : bool :=
  let p := m_decl m in
  let t := p_type p in
  if 1 <? list_count $"*" (modifiers t) then false
  else if smem $"const" (specifiers t) || smem $"constexpr" (specifiers t) || smem $"extern" (specifiers t) then false
  else if 0 <? length (m_bits m) then false
  else if 0 <? length (p_array p) then false
  else if 0 <? list_count $"*" (modifiers t) then false
  else if 0 <? list_count $"&" (modifiers t) then false
  else if contains $" " (type_text t) then false
  else if co_exclude_type co (type_text t) then false
  else if co_exclude_name co (p_name p) then false
  else if co_exclude_in co (s_name s) (p_name p) then false
  else true.

(** Lines 1251-1303 [compatible_members_list]. *)
Definition is_public (a : access) : bool := match a with Public => true | _ => false end.
Definition compatible_members (co : class_options) (s : struct) : list member :=
  if with_named_params co s then
    let ms := filter (fun m => is_public (m_access m)) (s_members s) in
    let ms := filter (fun m => negb (co_excluded co (p_type (m_decl m)))) ms in
    filter (can_be_set co s) ms
  else [].

(** Lines 1305-1319 and 1336-1389: the parameters are written, then parsed: here they are what was written. *)
Definition ctor_param (m : member) : param :=
  let p := m_decl m in
  Param (p_type p) (p_name p) [] (match p_default p with [] => type_text (p_type p) ++ $"()" | v => v end).
Definition ctor_params (co : class_options) (s : struct) : list param := map ctor_param (compatible_members co s).
Definition ctor_declared (co : class_options) (s : struct) : declared :=
  Declared (Func (s_name s) (s_scope s ++ $"::" ++ s_name s) (s_name s) true (ctor_params co s) (CType [] [] []) false None)
    true false false false (s_scope s) (s_name s) (s_inner s) false.

(** src/litgen/internal/adapt_function_params/_adapt_mutable_param_with_default_value.py 115-131: the adapter of mutable default
    values is applied because of the comment of the constructor (adapted_class.py 1366-1376), or of the regex. *)
Definition ctor_options (co : class_options) (o : options) (s : struct) : options :=
  let autogenerated := co_optional co && match ctor_params co s with [] => false | _ => true end in
  Options (o_nanobind o) (o_exclude_names o) (o_exclude_types o) (fun n => autogenerated || o_mutable_default o n) (o_known_type o)
    (o_known_value o) (o_literal o) (o_array_boxed o) (o_array_std o) (o_array_max o) (o_array_size o) (o_const_char_null o)
    (o_to_return o) (o_boxed o) (o_string_list o) (o_size_name o) (o_force_lambda o).
Definition ctor_adapted (i : str) (bo : buffer_options) (co : class_options) (o : options) (nanobind : bool) (s : struct)
  : option (list link * func) := adapted i bo (ctor_options co o s) nanobind (ctor_declared co s).

(** ** What it does *)

(** src/litgen/internal/adapted_types/adapted_class.py 1458-1488 [get_all_params_set_values]: a member of the new object is given
    the value of a parameter, or the value held by a parameter, if it holds one, or another value. *)
Inductive setting := Assign (member parameter : str) | AssignOr (member parameter initial : str).

(** src/litgen/internal/adapt_function_params/_adapt_mutable_param_with_default_value.py 103-112
    [was_mutable_param_with_default_value_made_optional]. *)
Definition made_optional (co : class_options) (o : options) (p : param) : bool := co_optional co && seems_mutable o p.
Definition setting_of (co : class_options) (o : options) (original modified : param) : setting :=
  if made_optional co o original then AssignOr (p_name modified) (p_name modified) (p_default original)
  else Assign (p_name original) (p_name original).
(** [None] is the AssertionError of line 1465. *)
Definition settings (co : class_options) (o : options) (original modified : list param) : option (list setting) :=
  let modified := match modified with p :: r => if seqb (p_name p) $"self" then r else modified | [] => [] end in
  if length original =? length modified
  then Some (map (fun pq => setting_of co o (fst pq) (snd pq)) (combine original modified)) else None.

(** The lines written for it, 1473-1482; an initial value is on one line. *)
Definition setting_lines (i : str) (x : setting) : list str :=
  match x with
  | Assign m p => [$"r_ctor_->" ++ m ++ $" = " ++ p ++ $";"]
  | AssignOr m p v =>
      [$"if (" ++ p ++ $".has_value())"; i ++ $"r_ctor_->" ++ m ++ $" = " ++ p ++ $".value();"; $"else";
       i ++ $"r_ctor_->" ++ m ++ $" = " ++ v ++ $";"]
  end.
Definition settings_text (i : str) (xs : list setting) : str := indent_code_str i true (unlines (flat_map (setting_lines i) xs)).

(** ** The code *)

(** Lines 1419-1446: the two templates. *)
Definition template_pybind : str := unlines
  [$".def(py::init<>([]("; $"{all_params_signature})"; $"{"; $"{_i_}auto r_ctor_ = std::make_unique<{qualified_struct_name}>();";
   $"{all_params_set_values}"; $"{_i_}return r_ctor_;"; $"})"; $", {maybe_pyargs}"; $")"].
Definition template_nanobind : str := unlines
  [$".def(" ++ [dq] ++ $"__init__" ++ [dq] ++ $", []({all_params_signature})"; $"{";
   $"{_i_}new (self) {qualified_struct_name}();  // placement new"; $"{_i_}auto r_ctor_ = self;"; $"{all_params_set_values}"; $"},";
   $"{maybe_pyargs}"; $")"].
(** Lines 1448-1495, before the last indentation. *)
Definition ctor_text (i : str) (nanobind : bool) (scope signature sets pyargs : str) : str :=
  process_code_template (if nanobind then template_nanobind else template_pybind)
    [($"_i_", i); ($"qualified_struct_name", scope); ($"all_params_signature", signature); ($"all_params_set_values", sets)]
    [($"maybe_pyargs", Some pyargs)] true.

(** What is made: nothing, a constructor without parameter, a constructor whose parameters are members. *)
Inductive made := Nothing | Init0 | InitNamed (ps : list param) (xs : list setting) (pyargs : list str).

(** src/litgen/internal/adapted_types/adapted_class.py 763-770 [make_default_constructor_code] and 1395-1495 [pydef_code].
    [None] is an exception. *)
Definition binding_made (i : str) (bo : buffer_options) (co : class_options) (o : options) (e : publisher) (s : struct) : option made :=
  if has_deleted_default s then Some Nothing
  else if negb (has_constructor s) then
    if void_constructor co s then Some Init0
    else if negb (with_named_params co s) then Some Nothing
    else
      match ctor_params co s with
      | [] => if has_zero_param s then Some Nothing else option_map (fun _ => Init0) (ctor_adapted i bo co o (e_nanobind e) s)
      | ps =>
          match ctor_adapted i bo co o (e_nanobind e) s with
          | None => None
          | Some (_, g) =>
              match settings co o ps (f_params g) with
              | None => None
              | Some xs => Some (InitNamed (f_params g) xs (binding_params e (ctor_declared co s) g))
              end
          end
      end
  else Some Nothing.
Definition binding_text (i : str) (e : publisher) (s : struct) (m : made) : str :=
  match m with
  | Nothing => []
  | Init0 => $".def(" ++ py e ++ $"::init<>()) // implicit default constructor"
  | InitNamed ps xs pyargs =>
      ctor_text i (e_nanobind e) (s_scope s) (join $", " (map param_text ps)) (settings_text i xs) (join $", " pyargs)
  end.

(** src/litgen/internal/adapted_types/adapted_class.py 569-577 and 1497-1520 [stub_code]: the parameters shown, if there is a constructor. *)
Definition stub_made (i : str) (bo : buffer_options) (co : class_options) (o : options) (e : publisher) (s : struct)
  : option (option (list str)) :=
  if negb (has_constructor s) && negb (has_deleted_default s) then
    if void_constructor co s then Some (Some [$"self"])
    else if negb (with_named_params co s) then Some None
    else if (match ctor_params co s with [] => true | _ => false end) && has_zero_param s then Some None
    else
      match ctor_adapted i bo co o (e_nanobind e) s with
      | None => None
      | Some (_, g) => Some (Some (stub_params e (ctor_declared co s) g))
      end
  else Some None.
