(** Names published to Python. *)
From Verif Require Import PyStr PyNum.

(** *** Snake case *)

Definition head_is (f : ascii -> bool) (s : str) : bool := match s with c :: _ => f c | [] => false end.

(** src/codemanip/code_utils.py 245-258 [to_snake_case]: the three regular expressions, as scanners
    that read from left to right without overlap.

    "(.)([A-Z][a-z]+)" replaced by "\1_\2": after a match at [c], the upper-case letter is
    copied ([Copy]), then the lower-case letters that follow ([Tail]). *)
Inductive sub1_state := Scan | Copy | Tail.
Fixpoint sub1 (st : sub1_state) (s : str) : str :=
  match s with
  | [] => []
  | c :: s' =>
      match st with
      | Copy => c :: sub1 Tail s'
      | _ =>
          if (match st with Tail => is_lower c | _ => false end) then c :: sub1 Tail s'
          else if negb (ceqb c nl) && head_is is_upper s' && head_is is_lower (tl s')
          then c :: "_"%char :: sub1 Copy s'
          else c :: sub1 Scan s'
      end
  end.
(** "__([A-Z])" replaced by "_\1". *)
Fixpoint sub2 (s : str) : str :=
  match s with
  | [] => []
  | c :: s' =>
      match s' with
      | d :: u :: r => if ceqb c "_" && ceqb d "_" && is_upper u then "_"%char :: u :: sub2 r else c :: sub2 s'
      | _ => c :: sub2 s'
      end
  end.
(** "([a-z0-9])([A-Z])" replaced by "\1_\2". *)
Fixpoint sub3 (s : str) : str :=
  match s with
  | [] => []
  | c :: s' =>
      match s' with
      | u :: r => if (is_lower c || is_digit c) && is_upper u then c :: "_"%char :: u :: sub3 r else c :: sub3 s'
      | _ => c :: sub3 s'
      end
  end.
Definition to_snake_case (name : str) : str := lower (sub3 (sub2 (sub1 Scan name))).

(** *** Reserved words *)

(** [keyword.kwlist]. *)
Definition kwlist : list str :=
  map lit ["False"; "None"; "True"; "and"; "as"; "assert"; "async"; "await"; "break"; "class"; "continue"; "def";
    "del"; "elif"; "else"; "except"; "finally"; "for"; "from"; "global"; "if"; "import"; "in"; "is"; "lambda";
    "nonlocal"; "not"; "or"; "pass"; "raise"; "return"; "try"; "while"; "with"; "yield"]%string.

(** src/litgen/internal/cpp_to_python.py 198-201 [add_underscore_if_python_reserved_word]. *)
Definition add_underscore_if_python_reserved_word (name : str) : str :=
  if smem name kwlist then name ++ $"_" else name.

Section Names.
(** The replacement lists of the options; see ReplacementModel for [apply]. *)
Variable type_replacements function_names_replacements namespace_names_replacements var_names_replacements : str -> str.
(** [python_convert_to_snake_case]. *)
Variable snake : bool.

(** src/litgen/internal/cpp_to_python.py 204-207 [_class_name_to_python] and
    src/litgen/internal/cpp_to_python.py 210-213 [enum_name_to_python]. *)
Definition class_name_to_python (name : str) : str :=
  add_underscore_if_python_reserved_word (type_replacements name).

(** src/litgen/internal/cpp_to_python.py 216-224 [function_name_to_python]. *)
Definition function_name_to_python (name : str) : str :=
  let n := function_names_replacements name in
  function_names_replacements (add_underscore_if_python_reserved_word (if snake then to_snake_case n else n)).

(** src/litgen/internal/cpp_to_python.py 227-235 [namespace_name_to_python]. *)
Definition namespace_name_to_python (name : str) : str :=
  let n := namespace_names_replacements name in
  var_names_replacements (add_underscore_if_python_reserved_word (if snake then to_snake_case n else n)).

(** src/litgen/internal/cpp_to_python.py 238-246 [var_name_to_python]. *)
Definition var_name_to_python (name : str) : str :=
  let n := var_names_replacements name in
  var_names_replacements (add_underscore_if_python_reserved_word (if snake then to_snake_case n else n)).

(** *** Enumerators *)

(** [enum_flag_remove_values_prefix] and [enum_flag_remove_values_prefix_group_private]. *)
Variable remove_prefix group_private : bool.

(** The inner function of src/litgen/internal/adapted_types/adapted_enum.py 45-87
    [_decl_name_cpp_without_enum_prefix]. *)
Definition remove_case_insensitive_prefix (name prefix : str) : str :=
  if startswith (upper prefix ++ $"_") (upper name) then skipn (length prefix + 1) name
  else if startswith (upper prefix) (upper name) then skipn (length prefix) name
  else name.

(** src/litgen/internal/adapted_types/adapted_enum.py 45-87 [_decl_name_cpp_without_enum_prefix]. An
    empty enumerator name, which C++ does not allow, would raise [IndexError]: here it stays empty. *)
Definition name_without_enum_prefix (is_class : bool) (enum_name value_name : str) : str :=
  if negb remove_prefix || is_class then value_name
  else
    let r := remove_case_insensitive_prefix value_name enum_name in
    let r :=
      if group_private then
        if endswith $"Private_" enum_name
        then remove_case_insensitive_prefix r (firstn (length enum_name - 8) enum_name)
        else if endswith $"Private" enum_name
        then remove_case_insensitive_prefix r (firstn (length enum_name - 7) enum_name)
        else r
      else r in
    let r := match r with [] => value_name | _ => r end in
    if head_is is_digit r then "_"%char :: r else r.

(** src/litgen/internal/adapted_types/adapted_enum.py 89-92 [decl_name_python]. *)
Definition enumerator_name_python (is_class : bool) (enum_name value_name : str) : str :=
  var_name_to_python (name_without_enum_prefix is_class enum_name value_name).
End Names.

(** *** Parameters *)

(** src/litgen/internal/adapted_types/adapted_function.py 397-407
    [AdaptedFunction.add_names_to_unnamed_params], on the names of the parameters. *)
Fixpoint name_unnamed (i : nat) (names : list str) : list str :=
  match names with
  | [] => []
  | n :: names' => (match n with [] => $"param_" ++ py_str (Z.of_nat i) | _ => n end) :: name_unnamed (S i) names'
  end.
Definition add_names_to_unnamed_params (names : list str) : list str :=
  if existsb (fun n => seqb n []) names then name_unnamed 0 names else names.
