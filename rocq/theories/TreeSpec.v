From Verif Require Import PyStr TreeModel.
(** What the parents and the scopes of a tree should be (independent of the way they are filled). *)

(** The elements of a tree. *)
Inductive within (t : tree) : tree -> Prop :=
  | within_self : within t t
  | within_child s r c : within t s -> In (r, c) (tree_children s) -> within t c.
(** Those the visitor reaches. *)
Inductive reached (t : tree) : tree -> Prop :=
  | reached_self : reached t t
  | reached_child s r c : reached t s -> In (r, c) (tree_children s) -> visited (tree_kind s) r = true -> reached t c.

(** Elements have different numbers. *)
Fixpoint ids (t : tree) : list nat :=
  match t with Node n _ children => n :: concat (map (fun rc => ids (snd rc)) children) end.
Definition unique (t : tree) : Prop := NoDup (ids t).

(** Every element but the root has the element that contains it as its parent. *)
Definition consistent (pm : parents) (t : tree) : Prop :=
  forall s r c, within t s -> In (r, c) (tree_children s) -> pm (tree_id c) = Some (Element (tree_id s)).

(** A tree that srcML can give: leaves have no children. *)
Definition leaf_ok (t : tree) : Prop := forall s, within t s -> tree_kind s = KLeaf -> tree_children s = [].

(** The elements from the root down to an element. *)
Inductive path : tree -> list tree -> Prop :=
  | path_here t : path t [t]
  | path_down t r c l : In (r, c) (tree_children t) -> path c l -> path t (t :: l).

(** The names of the namespaces, classes and enums among some elements. *)
Fixpoint scope_names (l : list tree) : list str :=
  match l with
  | [] => []
  | t :: r =>
      match tree_kind t with
      | KNamespace s | KStruct s | KEnum s _ => s :: scope_names r
      | _ => scope_names r
      end
  end.

(** An enumerator of an enum that is not an enum class: its name belongs to the scope around the enum. *)
Definition c_enumerator (l : list tree) (x : tree) : Prop :=
  exists l' e b name, l = l' ++ [e; b] /\ tree_kind e = KEnum name false /\ tree_kind b = KBlock /\ tree_kind x = KDecl.

(** Asking for the scopes of elements, one after the other. *)
Fixpoint ask (fuel : nat) (t : tree) (pm : parents) (c : scope_cache) (queries : list (nat * bool)) : list (option (list str)) :=
  match queries with
  | [] => []
  | (n, b) :: r => let (s, c') := cpp_scope_cached fuel t pm c n b in s :: ask fuel t pm c' r
  end.
Definition empty_cache : scope_cache := fun _ _ => None.
