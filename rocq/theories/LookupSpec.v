From Verif Require Import PyStr ScopeModel LookupModel.
(** Names as C++ looks them up. *)

(** The class of a given name in a given scope. *)
Definition declared_in (classes : list class) (sc : scope) (name : str) : option class :=
  find (fun c => if list_eq_dec (list_eq_dec ascii_dec) (c_scope c) sc then seqb (c_name c) name else false) classes.
Fixpoint first_some {A} (l : list (option A)) : option A :=
  match l with
  | [] => None
  | Some x :: _ => Some x
  | None :: r => first_some r
  end.
(** The scopes around a place, from inner to outer. *)
Definition enclosing (current : scope) : list scope := map (fun n => firstn n current) (rev (seq 0 (S (length current)))).
(** The innermost scope in which the name, with its qualifiers, means a class. *)
Definition cpp_lookup (classes : list class) (current qualifiers : scope) (name : str) : option class :=
  first_some (map (fun sc => declared_in classes (sc ++ qualifiers) name) (enclosing current)).

(** The text of a qualified name. *)
Definition qualified (qualifiers : scope) (name : str) : str := join colons (qualifiers ++ [name]).

(** Names without colons, none of which is the start of another one. *)
Definition plain_name (n : str) : Prop := n <> [] /\ ~ In ":"%char n.
Definition distinct_names (names : list str) : Prop :=
  Forall plain_name names /\ forall x y, In x names -> In y names -> startswith x y = true -> x = y.
Definition prefix_of (a b : scope) : Prop := exists r, b = a ++ r.

(** Base classes as the program finds them. *)
Definition base_of (classes : list class) (c b : class) : Prop :=
  exists bases a, base_classes classes c = Some bases /\ In (a, b) bases.
Inductive inherits (classes : list class) : class -> class -> Prop :=
  | inherits_self c : inherits classes c c
  | inherits_base c b d : base_of classes c b -> inherits classes b d -> inherits classes c d.

(** What makes a method override another one, up to const. *)
Definition signature (m : method) : str * str := (m_name m, join $", " (m_types m)).

(** How a class inherits from a base in C++: the keyword that is there, else by the sort of class. *)
Definition cpp_access (c : class) (specifiers : list str) : access :=
  if smem $"public" specifiers then Public
  else if smem $"protected" specifiers then Protected
  else if smem $"private" specifiers then Private
  else if c_is_class c then Private else Public.
(** The specifiers of a base that the program reads as C++ does. *)
Definition usual_specifiers (c : class) (specifiers : list str) : Prop :=
  (specifiers = [] /\ c_is_class c = false) \/
  exists s v, specifiers = v ++ [s] /\ In s [$"public"; $"protected"; $"private"] /\ (v = [] \/ v = [$"virtual"]).
