From Verif Require Import PyStr LiteralSpec TypeRuleSpec.
(** The expressions which name no type. *)

(** No name is one of the words of types, and there is no [&] and no [*]. *)
Definition without_types (ts : list tok) : Prop :=
  Forall (fun t => match t with Name w => ~ In w type_words | Sign c => c <> "&"%char /\ c <> "*"%char | _ => True end) ts.
