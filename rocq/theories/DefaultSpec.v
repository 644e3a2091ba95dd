From Verif Require Import PyStr TypeTextModel LambdaModel AdapterSpec.
(** Default values come last, as C++ and Python ask. *)

(** The dots at the end of a parameter list, which C++ accepts after default values. *)
Definition dots (p : param) : Prop := p_type p = CType [] [] [$"..."] /\ p_array p = [] /\ p_default p = [].

(** What may follow a parameter with a default value. *)
Definition may_follow (p : param) : Prop := p_default p <> [] \/ dots p.

Definition trailing (ps : list param) : Prop :=
  forall a p b, ps = a ++ p :: b -> p_default p <> [] -> Forall may_follow b.

(** A default value is given neither to an array nor to a list of strings. *)
Definition plain_default (p : param) : Prop := p_default p <> [] -> p_array p = [] /\ ~ string_list p.

(** A parameter which stands for [p]: its name begins with the name of [p], and it is optional if and only if [p] is. *)
Definition stands_for (p q : param) : Prop :=
  (exists r, p_name q = p_name p ++ r) /\ (p_default q <> [] <-> p_default p <> []).

(** The parameters [qs] are made of those which stand for each of the parameters [ps], in the same order; there may be none. *)
Definition in_place (ps qs : list param) : Prop :=
  exists groups, qs = concat groups /\ Forall2 (fun p group => Forall (stands_for p) group) ps groups.
