From Verif Require Import PyStr PyDict InstanceModel InstanceSpec QualifyModel.
(** What a name of the stub must become so that Python finds what C++ means. *)

(** ** The text *)

(** A scope of the stub: its name in Python and the names which it holds; the outermost first. *)
Definition chain : Type := list (str * list str).
(** The name [w] is completed by each scope which has the first name of what was obtained so far. *)
Fixpoint completed_from (ch : chain) (path : list str) : list str :=
  match ch with
  | [] => path
  | (p, names) :: r => completed_from r (if smem (hd [] path) names then p :: path else path)
  end.
Definition completed (ch : chain) (w : str) : list str := completed_from ch [w].
Fixpoint dotted (path : list str) : str :=
  match path with
  | [] => []
  | [w] => w
  | w :: r => w ++ lit "." ++ dotted r
  end.
(** In a text, each word which does not come after a dot is completed, all the rest stays. *)
Fixpoint completed_pieces (ch : chain) (after_dot : bool) (ps : list str) : str :=
  match ps with
  | [] => []
  | w :: r => (if is_word_at w && negb after_dot then dotted (completed ch w) else w) ++ completed_pieces ch (seqb w (lit ".")) r
  end.
Definition completed_text (ch : chain) (s : str) : str := completed_pieces ch false (pieces s).

(** ** What names mean *)

(** The path from the top of the module. In C++ a name is looked for in the innermost scope first. *)
Fixpoint found_in (ch : chain) (w : str) : option (list str) :=
  match ch with
  | [] => None
  | (p, names) :: r => match found_in r w with Some e => Some (p :: e) | None => if smem w names then Some [p; w] else None end
  end.
Definition cpp_means (ch : chain) (w : str) : list str := match found_in ch w with Some e => e | None => [w] end.
(** In the body of a Python class (and in the signatures of its methods) only the names of the class itself and those of the module are seen. *)
Definition python_means (ch : chain) (path : list str) : list str :=
  if smem (hd [] path) (snd (last ch ([], []))) then map fst ch ++ path else path.

(** ** When *)

Definition in_words (ch : chain) : Prop := forall p names, In (p, names) ch -> name_of p /\ Forall name_of names /\ smem p names = false.
Definition nowhere (ch : chain) (w : str) : Prop := forall p names, In (p, names) ch -> smem w names = false.
(** Two orders of the same names. *)
Definition same_names (a b : members) : Prop := m_prefix a = m_prefix b /\ forall n, In n (m_names a) <-> In n (m_names b).

(** ** The scopes of a program *)

Section Program.
Variables (roots : list str) (enum_name class_name function_name namespace_name : str -> str).
(** The names of all the scopes, at any depth. *)
Fixpoint scope_names (i : item) : list str :=
  match i with
  | IClass n l => n :: flat_map scope_names l
  | INamespace n l => n :: flat_map scope_names l
  | _ => []
  end.
Definition inside_of (i : item) : list item := match i with IClass _ l => l | INamespace _ l => l | _ => [] end.
Definition is_scope (n : str) (i : item) : bool := match i with IClass m _ => seqb m n | INamespace m _ => seqb m n | _ => false end.
(** The names in Python of what is directly inside: the types of a class; the types and functions of a namespace. *)
Fixpoint types_in (functions_too : bool) (l : list item) : list str :=
  match l with
  | [] => []
  | IEnum n :: r => enum_name n :: types_in functions_too r
  | IClass n _ :: r => class_name n :: types_in functions_too r
  | IFunction n :: r => (if functions_too then [function_name n] else []) ++ types_in functions_too r
  | _ :: r => types_in functions_too r
  end.
(** What the scope is in the stub; nothing for the namespaces which are not shown. *)
Definition shown (i : item) : chain :=
  match i with
  | IClass n l => [(class_name n, types_in false l)]
  | INamespace n l => if smem n roots then [] else [(namespace_name n, types_in true l)]
  | _ => []
  end.
Fixpoint chain_of (l : list item) (scope : list str) : option chain :=
  match scope with
  | [] => Some []
  | n :: r => match find (is_scope n) l with Some i => option_map (app (shown i)) (chain_of (inside_of i) r) | None => None end
  end.
(** No class has the name of a namespace which is not shown. *)
Fixpoint classes_shown (i : item) : Prop :=
  match i with
  | IClass n l => smem n roots = false /\ fold_right and True (map classes_shown l)
  | INamespace n l => fold_right and True (map classes_shown l)
  | _ => True
  end.
End Program.
