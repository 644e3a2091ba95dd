From Verif Require Import PyStr PyDict InstanceModel LiteralModel.
(** Names of enum values and functions inside of values: the replacements which are stored for each scope. *)

(** A stored replacement: of a value of an enum class, of a value of another enum, of the name of a function; with the new text. *)
Inductive vrule :=
  | ClassValue (enum member new : str)
  | Value (member new : str)
  | Call (name new : str).
(** src/litgen/internal/adapted_types/adapted_enum.py 106-134 [cpp_to_python_replacements]: the name of the enum, any character but the end of a line,
    and the name of the value up to a word boundary; the first alternative of the regex is a case of the second one. *)
Definition class_value (enum member new : str) : matcher := fun _ s =>
  if startswith enum s
  then match skipn (length enum) s with
       | c :: r => if negb (ceqb c nl) && startswith member r && negb (is_word_at (skipn (length member) r)) then Some (new, length enum + length member) else None
       | [] => None
       end
  else None.
(** src/litgen/internal/adapted_types/adapted_function.py 1343-1368 [_register_function_name_replacement]: the name, if white space and a parenthesis come
    after. *)
Definition call_name (name new : str) : matcher := fun previous s =>
  if negb (word_before previous) && startswith name s && startswith $"(" (skipn (spaces (skipn (length name) s)) (skipn (length name) s))
  then Some (new, length name - 1) else None.
Definition apply_rule (r : vrule) (s : str) : str :=
  match r with
  | ClassValue e m new => sub_with (class_value e m new) None 0 s
  | Value m new => word_rule m new s
  | Call f new => sub_with (call_name f new) None 0 s
  end.
(** src/codemanip/code_replacements.py 55-65 [RegexReplacementList.apply]. *)
Definition apply_rules (rs : list vrule) (s : str) : str := passes (fun s => fold_left (fun s r => apply_rule r s) rs s) 3 None s.

(** ** What is stored *)

(** An enum: its name, its name in Python, whether it is an enum class, its values with their names in Python. *)
Record venum := VEnum { ve_name : str; ve_python : str; ve_class : bool; ve_values : list (str * str) }.
(** src/litgen/internal/adapted_types/adapted_enum.py 106-134 and 204-208 [cpp_to_python_replacements]. [inside]: for the values of the enum itself. *)
Definition value_rules (inside : bool) (e : venum) (v : str * str) : list vrule :=
  let new := ve_python e ++ $"." ++ snd v in
  if ve_class e then [ClassValue (ve_name e) (fst v) new]
  else if startswith (lower (ve_name e)) (lower (fst v)) || inside then [Value (fst v) new] else [].
Definition enum_rules (inside : bool) (e : venum) : list vrule := flat_map (value_rules inside e) (ve_values e).
(** src/litgen/internal/adapted_types/adapted_function.py 1343-1368 [_register_function_name_replacement]; the names in C++ and in Python. *)
Definition function_rules (f : str * str) : list vrule := if seqb (fst f) (snd f) then [] else [Call (fst f) (snd f)].
(** The elements of a scope which store replacements, each with the names of its scope, the outermost first
    (src/litgen/internal/context/litgen_context.py 87-92 [get_scoped_replacements]). *)
Inductive velem := AnEnum (e : venum) | AFunction (f : str * str).
Definition elem_rules (x : velem) : list vrule := match x with AnEnum e => enum_rules false e | AFunction f => function_rules f end.
Definition stored (l : list (list str * velem)) (scope : list str) : list vrule :=
  flat_map (fun x => if list_eq_dec (list_eq_dec ascii_dec) (fst x) scope then elem_rules (snd x) else []) l.
(** src/srcmlcpp/cpp_types/scope/cpp_scope.py 47-54 [_make_scope_hierarchy_list]. *)
Fixpoint hierarchy (scope : list str) (n : nat) : list (list str) :=
  match n with
  | 0 => [[]]
  | S n' => firstn n scope :: hierarchy scope n'
  end.
(** src/litgen/internal/context/litgen_context.py 94-105 [apply_scoped_var_value_replacements]. *)
Definition scoped_value (l : list (list str * velem)) (scope : list str) (s : str) : str :=
  fold_left (fun s sc => apply_rules (stored l sc) s) (hierarchy scope (length scope)) s.
(** src/litgen/internal/adapted_types/adapted_enum.py 94-104 [decl_value_python], behind the replacements of literals: the value which is given to a value of the
    enum [e]. No scope is passed on, so that only the replacements of the outermost scope come before those of the enum itself. *)
Definition own_value (l : list (list str * velem)) (e : venum) (s : str) : str := apply_rules (enum_rules true e) (scoped_value l [] s).
