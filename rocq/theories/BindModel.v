From Verif Require Import PyStr PyDict PyNum TypeTextModel FillModel LambdaModel AdapterModel BufferModel ChainModel.
(** The binding of a function and its declaration in the stub: both are made from what remains of the function once the
    adapters are applied. *)

(** A function to publish: [d_func] is the function with qualified types and named parameters, not adapted yet (of a
    constructor, the return type is not used); [d_overloaded] tells whether it is overloaded or forced to be bound as such
    (adapted_function.py 641-645); [d_vectorized] whether this is the vectorized version (is_vectorize_impl); [d_scope] is
    _pydef_str_parent_cpp_scope(); [d_class] and [d_inner] are the name of the class and those of its inner structs and
    enums; [d_comparison] tells whether it is operator== or operator!=. *)
Record declared := Declared {
  d_func : func; d_constructor : bool; d_const : bool; d_overloaded : bool; d_vectorized : bool; d_scope : str;
  d_class : str; d_inner : list str; d_comparison : bool }.

(** What depends on the options and on the other declarations: the names of variables
    (cpp_to_python.py 238-246 [var_name_to_python]), the Python type of a C++ type
    (adapted_function.py 1292-1293, 1297 and 1313-1316), the Python value of a C++ default value
    (adapted_function.py 1310 and 1317-1319), shortened types and values
    (cpp_parameter_list.py 128-150 [with_terse_types], which keeps the name and the array). *)
Record publisher := Publisher {
  e_nanobind : bool; e_name : str -> str; e_type : str -> str; e_value : str -> str;
  e_terse_type : ctype -> ctype; e_terse_value : str -> str }.

(** src/srcmlcpp/cpp_types/functions/cpp_function_decl.py 463-466 [is_static]. *)
Definition static_type (t : ctype) : bool := smem $"static" (specifiers t).

(** src/litgen/internal/adapt_function_params/apply_all_adapters.py 78-148 [_apply_all_adapters_on_constructor]: the
    adapters see a function which makes the object.  Its text is parsed again: here the parameters are the same. *)
Definition constructor_wrapper (nanobind : bool) (d : declared) : func :=
  let name := $"ctor_wrapper" in
  Func name (d_scope d ++ $"::" ++ name) name true
    ((if nanobind then [Param (CType [d_scope d] [] [$"*"]) $"self" [] []] else []) ++ f_params (d_func d))
    (if nanobind then CType [$"void"] [] [] else CType [$"std::unique_ptr<" ++ d_scope d ++ $">"] [] []) false (Some name).

(** What the adapters leave: the lambdas and the function seen by Python.  [None] if an adapter raises. *)
Definition adapted (i : str) (bo : buffer_options) (o : options) (nanobind : bool) (d : declared) : option (list link * func) :=
  apply_all_adapters i bo o (if d_constructor d then constructor_wrapper nanobind d else d_func d).

Section Bind.
Variable e : publisher.

(** ** Parameters of the stub *)

(** src/litgen/internal/adapted_types/adapted_function.py 1279-1284 and 904-910: the type where args and kwargs are
    recognised. *)
Definition simplified (t : ctype) : str :=
  replace $"nanobind::" $"nb::" (replace $" &" [] (replace $"pybind11::" $"py::" (replace $"const " [] (type_text t)))).
Definition is_args (t : ctype) : bool := seqb (simplified t) $"py::args" || seqb (simplified t) $"nb::args".
Definition is_kwargs (t : ctype) : bool := seqb (simplified t) $"py::kwargs" || seqb (simplified t) $"nb::kwargs".

(** Lines 1264-1270 and 892-898: the object made by a constructor of nanobind. *)
Definition skipped (d : declared) (i : nat) (p : param) : bool :=
  e_nanobind e && d_constructor d && ((i =? 0) && seqb (p_name p) $"self").

Definition terse (p : param) : param := Param (e_terse_type e (p_type p)) (p_name p) (p_array p) (e_terse_value e (p_default p)).

(** Lines 1306-1310: the value of the stub; a value between braces is a call of the type.  (typenames[0] raises if there is no
    type name: here it is then empty.) *)
Definition stub_value (p : param) : str :=
  let v := strip (p_default p) in
  e_value e (if startswith $"{" (strip v) && endswith $"}" v
             then hd [] (typenames (p_type p)) ++ $"(" ++ firstn (length v - 2) (skipn 1 v) ++ $")" else v).
(** Lines 1292-1304. *)
Definition stub_type (d : declared) (p : param) : str :=
  if d_vectorized d then $"np.ndarray"
  else if d_comparison d then $"object"
  else
    let t := e_type e (type_text (p_type p)) in
    if smem $"*" (modifiers (p_type p)) && smem (p_default p) [$"NULL"; $"nullptr"] then $"Optional[" ++ t ++ $"]" else t.

(** Lines 1257-1329 [_stub_params_list_signature]. *)
Definition stub_param (d : declared) (i : nat) (p : param) : list str :=
  if skipped d i p then []
  else if is_args (p_type p) then [$"*args"]
  else if is_kwargs (p_type p) then [$"**kwargs"]
  else [e_name e (p_name p) ++ $": " ++ stub_type d p ++ match stub_value p with [] => [] | v => $" = " ++ v end].
Definition stub_params (d : declared) (g : func) : list str :=
  (if f_is_method (d_func d) && negb (static_type (f_return g)) then [$"self"] else [])
    ++ flat_map (fun ip => stub_param d (fst ip) (snd ip)) (enumerate (map terse (f_params g))).

(** ** Parameters of the binding *)

(** src/litgen/internal/adapted_types/adapted_function.py 835-887 [_pydef_adapt_param_if_using_inner_class]. *)
Definition inner_value (d : declared) (v : str) : str :=
  match split $"::" v with
  | first :: _ :: _ => if f_is_method (d_func d) && smem first (d_inner d) then join $"::" (d_class d :: split $"::" v) else v
  | _ => v
  end.

(** src/srcmlcpp/cpp_types/decls_types/cpp_type.py 156-159 [is_optional]. *)
Definition is_optional_type (t : ctype) : bool := startswith $"std::optional<" (join $" " (typenames t)).

(** src/litgen/internal/adapted_types/adapted_decl.py 122-155 [_str_pydef_as_pyarg]. *)
Definition py_colon : str := if e_nanobind e then $"nb::" else $"py::".
Definition binding_value (t : ctype) (v : str) : str :=
  let v := if startswith $"{" (strip v) then hd [] (typenames t) ++ v else v in
  if smem v [$"NULL"; $"nullptr"; $"std::nullopt"] then py_colon ++ $"none()" else v.
Definition pyarg (p : param) : str :=
  let v := binding_value (p_type p) (p_default p) in
  replace_in_string (py_colon ++ $"arg(" ++ [dq] ++ $"{argname_python}" ++ [dq] ++ $"){maybe_dot_none}{maybe_equal}{maybe_defaultvalue_cpp}")
    [($"argname_python", e_name e (p_name p)); ($"maybe_equal", match v with [] => [] | _ => $" = " end);
     ($"maybe_dot_none", if e_nanobind e && is_optional_type (p_type p) then $".none()" else []);
     ($"maybe_defaultvalue_cpp", v)].

(** src/litgen/internal/adapted_types/adapted_function.py 889-916 [_pydef_pyarg_list]. *)
Definition binding_param (d : declared) (i : nat) (p : param) : list str :=
  if skipped d i p then []
  else if is_args (p_type p) || is_kwargs (p_type p) then []
  else [pyarg (Param (p_type p) (p_name p) (p_array p) (inner_value d (p_default p)))].
Definition binding_params (d : declared) (g : func) : list str :=
  flat_map (fun ip => binding_param d (fst ip) (snd ip)) (enumerate (f_params g)).

(** ** What is bound *)

(** src/litgen/internal/adapted_types/adapted_function.py 604-606: the method of the module or class which binds it. *)
Definition binds_static (d : declared) : bool :=
  negb (d_constructor d) && f_is_method (d_func d) && static_type (f_return (d_func d)).

(** src/srcmlcpp/cpp_types/functions/cpp_parameter_list.py 76-85 [str_types_only_for_overload]. *)
Definition overload_type (p : param) : str := type_text (p_type p) ++ (if startswith $"[" (p_array p) then $" *" else []).
Definition overload_types (ps : list param) : str := join $", " (map overload_type ps).

(** The C++ callable given to the binding library: a pointer to the function, the same with the types of its overload, a lambda
    calling a method without parameter, a lambda around the adapters, a constructor given by its types. *)
Inductive callable :=
| Pointer (text : str)
| OfTypes (types : str) (text : str) (const : bool)
| CallsMethod (scope name : str)
| Adapted (self : option str) (ps : list param)
| Init (types : str).

(** Lines 626-661 of _pydef_without_lambda_str_impl; 718-725 of _pydef_with_lambda_str_impl; 790 of _pydef_constructor_str;
    462-471 of pydef_lines. *)
Definition function_pointer (d : declared) : str :=
  let prefix := match d_scope d with [] => [] | s => s ++ $"::" end in
  let name := prefix ++ f_specialized (d_func d) in
  (if f_is_method (d_func d) then $"&" else []) ++ (if d_vectorized d then $"py::vectorize(" ++ name ++ $")" else name).
Definition bound (d : declared) (ls : list link) (g : func) : callable :=
  match ls with
  | _ :: _ =>
      Adapted (if f_is_method (d_func d) && negb (d_constructor d)
               then Some ((if d_const d then $"const " else []) ++ d_scope d ++ $" & self") else None) (f_params g)
  | [] =>
      if d_constructor d then Init (overload_types (f_params (d_func d)))
      else if d_overloaded d then
        if f_is_method (d_func d) && match f_params (d_func d) with [] => true | _ => false end
        then CallsMethod (d_scope d) (f_specialized (d_func d))
        else OfTypes (overload_types (f_params (d_func d))) (function_pointer d) (d_const d)
      else Pointer (function_pointer d)
  end.
Definition py : str := if e_nanobind e then $"nb" else $"py".
Definition callable_text (c : callable) : str :=
  match c with
  | Pointer t => t
  | OfTypes types t const =>
      py ++ $"::overload_cast<" ++ types ++ $">(" ++ t ++ (if const then $", " ++ py ++ $"::const_" else []) ++ $")"
  | CallsMethod scope name => $"[](" ++ scope ++ $" & self) { return self." ++ name ++ $"(); }"
  | Adapted self ps =>
      $"[](" ++ join $", " (match self with Some s => [s] | None => [] end ++ map param_text ps) ++ $")"
  | Init types => py ++ $"::init<" ++ types ++ $">()"
  end.

(** ** The title of the stub *)

(** src/litgen/internal/adapted_types/adapted_function.py 1075-1114: [name] and [result] are the Python name and type of the
    result, [comment] is what is added for type checkers and virtual methods, [max] is python_max_line_length (0 if it is
    not limited). *)
Definition title_lines (max : nat) (name result comment : str) (ps : list str) : list str :=
  let start := $"def " ++ name ++ $"(" in
  let stop := $") -> " ++ result ++ $":" in
  let one_line := start ++ join $", " ps ++ stop ++ comment in
  if (max =? 0) || (length one_line <? max) then [one_line]
  else
    (start ++ comment)
      :: map (fun ip => snd ip ++ (if fst ip <? length ps - 1 then $", " else [])) (enumerate ps) ++ [stop].

(** Lines 1116-1137: the decorators, the last one added comes first. *)
Definition decorators (overload static : bool) : list str :=
  (if static then [$"@staticmethod"] else []) ++ (if overload then [$"@overload"] else []).
End Bind.
