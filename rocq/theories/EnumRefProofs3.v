From Verif Require Import PyStr PyDict PyStrLemmas InstanceModel LiteralModel LiteralSpec LiteralProofs LiteralProofs2 LiteralProofs3 EnumRefModel EnumRefSpec EnumRefProofs EnumRefProofs2.
From Coq Require Import Permutation.
(** What is stored for the scopes, and in which order. *)

Lemma flat_map_map (A B C : Type) (f : A -> list B) (g : B -> C) l : map g (flat_map f l) = flat_map (fun x => map g (f x)) l.
Proof. induction l as [|x l IH]; [reflexivity|]. cbn. rewrite map_app, IH. reflexivity. Qed.
Lemma flat_map_same (A B : Type) (f g : A -> list B) l : (forall x, In x l -> f x = g x) -> flat_map f l = flat_map g l.
Proof. induction l as [|x l IH]; intros H; [reflexivity|]. cbn. rewrite (H x) by (left; reflexivity). f_equal. apply IH. intros y Y. apply H. right. exact Y. Qed.
Lemma elem_is x : elem_rules x = map rule_of (entries x).
Proof.
  destruct x as [e|f]; cbn [elem_rules entries].
  - unfold enum_rules, enum_entries. rewrite flat_map_map. apply flat_map_same. intros v _. unfold value_rules. rewrite orb_false_r. destruct (ve_class e); [reflexivity|]. destruct (startswith (lower (ve_name e)) (lower (fst v))); reflexivity.
  - unfold function_rules. destruct (seqb (fst f) (snd f)); reflexivity.
Qed.
Definition at_scope (l : list (list str * velem)) (sc : list str) : list entry :=
  flat_map (fun x => if list_eq_dec (list_eq_dec ascii_dec) (fst x) sc then entries (snd x) else []) l.
Lemma stored_is l sc : stored l sc = map rule_of (at_scope l sc).
Proof. unfold stored, at_scope. rewrite flat_map_map. apply flat_map_same. intros x _. destruct (list_eq_dec _ (fst x) sc); [apply elem_is|reflexivity]. Qed.
Lemma hierarchy_app a b n : n <= length a -> hierarchy (a ++ b) n = hierarchy a n.
Proof. induction n as [|n IH]; intros H; [reflexivity|]. cbn [hierarchy]. rewrite IH by lia. f_equal. rewrite firstn_app. replace (S n - length a) with 0 by lia. cbn [firstn]. apply app_nil_r. Qed.
Lemma hierarchy_around_app scope outer : hierarchy (outer ++ scope) (length (outer ++ scope)) = around outer scope ++ match length outer with 0 => [] | S n => hierarchy outer n end.
Proof.
  revert outer. induction scope as [|n r IH]; intros outer.
  - rewrite app_nil_r. cbn [around app]. destruct (length outer) eqn:L; [destruct outer; [reflexivity|discriminate]|]. cbn [hierarchy]. rewrite <- L, firstn_all. reflexivity.
  - specialize (IH (outer ++ [n])). rewrite <- !app_assoc in IH. cbn [app] in IH. rewrite IH. rewrite app_length. cbn [length]. rewrite Nat.add_1_r. cbn [around]. rewrite <- app_assoc. f_equal. rewrite hierarchy_app by lia.
    cbn [app]. destruct (length outer) eqn:L; [destruct outer; [reflexivity|discriminate]|]. cbn [hierarchy]. rewrite <- L, firstn_all. reflexivity.
Qed.
Lemma hierarchy_is scope : hierarchy scope (length scope) = around [] scope.
Proof. pose proof (hierarchy_around_app scope []) as H. cbn [app length] in H. rewrite app_nil_r in H. exact H. Qed.
Lemma scopes_text all l scs ts : entries_ok all -> (forall sc, In sc scs -> incl (at_scope l sc) all) -> expression ts -> clear all ts ->
  fold_left (fun s sc => apply_rules (stored l sc) s) scs (text ts) = text (renamed (flat_map (at_scope l) scs) ts).
Proof.
  intros O. revert ts. induction scs as [|sc scs IH]; intros ts I E C.
  - cbn [fold_left flat_map]. symmetry. rewrite <- (once_text all [] ts O); auto. intros x [].
  - assert (I1 : incl (at_scope l sc) all) by (apply I; left; reflexivity). cbn [fold_left flat_map]. rewrite stored_is, (rules_text all) by auto.
    rewrite IH; [|intros x X; apply I; right; exact X|apply (expression_renamed all O); auto|apply (clear_renamed all O); auto]. f_equal. apply (renamed_twice all O); [exact I1|].
    intros x X. apply in_flat_map in X. destruct X as (y & Y & X). apply (I y); [right; exact Y|exact X].
Qed.
Lemma scoped_text l scope ts : entries_ok (visible l scope) -> expression ts -> clear (visible l scope) ts -> scoped_value l scope (text ts) = text (renamed (visible l scope) ts).
Proof.
  intros O E C. unfold scoped_value. rewrite hierarchy_is. apply (scopes_text (visible l scope)); auto. intros sc S x X. apply in_flat_map. exists sc. auto.
Qed.

(** ** The order does not matter *)

Definition same (r1 r2 : list entry) : Prop := forall x, In x r1 <-> In x r2.
Lemma flat_same (B : Type) (f : entry -> list B) r1 r2 y : same r1 r2 -> In y (flat_map f r1) <-> In y (flat_map f r2).
Proof. intros S. rewrite !in_flat_map. split; intros (x & X & Y); exists x; split; auto; apply S; exact X. Qed.
Lemma same_keys r1 r2 w : same r1 r2 -> In w (keys r1) <-> In w (keys r2).
Proof. intros S. unfold keys, enums, members, names. rewrite !in_app_iff, !(flat_same _ _ r1 r2 w S). reflexivity. Qed.
Lemma same_fresh r1 r2 w : same r1 r2 -> fresh (keys r1) w -> fresh (keys r2) w.
Proof. intros S (A & B). split; [exact A|]. intros X. apply B. apply (same_keys r1 r2 w S). exact X. Qed.
Lemma same_ok r1 r2 : same r1 r2 -> entries_ok r1 -> entries_ok r2.
Proof.
  intros S (A & B & C). split; [|split].
  - rewrite Forall_forall in *. intros x X. apply S in X. specialize (A x X). destruct x; cbn [entry_ok] in *.
    + destruct A as (A1 & A2 & A3). split; [exact A1|]. split; [exact A2|]. destruct A3 as [(P & [Q|Q])|(P & Q)]; [left; auto|left; split; [exact P|]; right; apply (same_fresh r1); auto|right; split; apply (same_fresh r1); auto].
    + destruct A as (A1 & A2 & A3). split; [exact A1|]. split; apply (same_fresh r1); auto.
    + destruct A as (A1 & A2). split; [exact A1|]. apply (same_fresh r1); auto.
  - intros x y X Y. apply B; apply S; auto.
  - intros e w X Y. apply C; [apply (flat_same _ _ r1 r2 e S); exact X|apply (flat_same _ _ r1 r2 w S); exact Y].
Qed.
Lemma same_clear r1 r2 ts : same r1 r2 -> clear r1 ts -> clear r2 ts.
Proof.
  intros S. assert (E : forall e, In e (enums r2) -> In e (enums r1)) by (intros e; apply (flat_same _ _ r1 r2 e S)). assert (M : forall e, In e (members r2) -> In e (members r1)) by (intros e; apply (flat_same _ _ r1 r2 e S)).
  induction ts as [|[a|gs l fr x y| |c] t IH]; auto. intros (C1 & C2 & C3). split; [intros e H; apply C1; auto|]. split; [|auto]. destruct t as [|[?|? ? ? ? ?| |?] [|[?|? ? ? ? ?| |?] t]]; auto.
Qed.
Lemma constant_none rs a : constant_of rs a = None -> forall pe pm, ~ In (Constant a pe pm) rs.
Proof. induction rs as [|[? ? ? ?|m x y|? ?] rs IH]; cbn [constant_of]; intros H p1 p2 X; [destruct X| | |]; (destruct X as [X|X]; [try discriminate|apply (IH) with p1 p2; auto]); [injection X as -> -> ->; rewrite seqb_refl in H; discriminate|destruct (seqb m a); [discriminate|exact H]]. Qed.
Lemma function_none rs a : function_of rs a = None -> forall g, ~ In (Function a g) rs.
Proof. induction rs as [|[? ? ? ?|? ? ?|f x] rs IH]; cbn [function_of]; intros H g1 X; [destruct X| | |]; (destruct X as [X|X]; [try discriminate|apply (IH) with g1; auto]); [injection X as -> ->; rewrite seqb_refl in H; discriminate|destruct (seqb f a); [discriminate|exact H]]. Qed.
Lemma same_lookups r1 r2 : same r1 r2 -> entries_ok r1 -> (forall a b, enumerator r1 a b = enumerator r2 a b) /\ (forall a, constant_of r1 a = constant_of r2 a) /\ (forall a, function_of r1 a = function_of r2 a).
Proof.
  intros S (_ & A & _). split; [|split].
  - intros a b. destruct (enumerator r1 a b) eqn:X, (enumerator r2 a b) eqn:Y; auto.
    + apply enumerator_some in X. apply enumerator_some in Y. destruct X as (p & q & X & ->). destruct Y as (p' & q' & Y & ->). apply S in Y. destruct (A _ _ X Y) as (_ & H). destruct (H eq_refl eq_refl) as (-> & ->). reflexivity.
    + apply enumerator_some in X. destruct X as (p & q & X & ->). apply S in X. destruct (enumerator_none _ _ _ Y _ _ X).
    + apply enumerator_some in Y. destruct Y as (p & q & Y & ->). apply S in Y. destruct (enumerator_none _ _ _ X _ _ Y).
  - intros a. destruct (constant_of r1 a) eqn:X, (constant_of r2 a) eqn:Y; auto.
    + apply constant_some in X. apply constant_some in Y. destruct X as (p & q & X & ->). destruct Y as (p' & q' & Y & ->). apply S in Y. destruct (A _ _ X Y eq_refl) as (-> & ->). reflexivity.
    + apply constant_some in X. destruct X as (p & q & X & ->). apply S in X. destruct (constant_none _ _ Y _ _ X).
    + apply constant_some in Y. destruct Y as (p & q & Y & ->). apply S in Y. destruct (constant_none _ _ X _ _ Y).
  - intros a. destruct (function_of r1 a) eqn:X, (function_of r2 a) eqn:Y; auto.
    + apply function_some in X. apply function_some in Y. apply S in Y. rewrite (A _ _ X Y eq_refl). reflexivity.
    + apply function_some in X. apply S in X. destruct (function_none _ _ Y _ X).
    + apply function_some in Y. apply S in Y. destruct (function_none _ _ X _ Y).
Qed.
Lemma same_renamed r1 r2 ts : same r1 r2 -> entries_ok r1 -> renamed r1 ts = renamed r2 ts.
Proof.
  intros S O. destruct (same_lookups r1 r2 S O) as (L1 & L2 & L3). remember (length ts) as n eqn:N. revert ts N. induction n as [n IH] using lt_wf_ind. intros ts N.
  destruct ts as [|[a|gs l fr x y| |c] t]; [reflexivity| | | |]; cbn [length] in N; try (cbn [renamed]; f_equal; apply (IH (length t)); auto; lia).
  rewrite !renamed_follows. unfold one_name. rewrite L2, L3, (IH (length t)) by (auto; lia). destruct (follows t) as [(b, t')|] eqn:F; [|reflexivity]. rewrite L1. apply follows_is in F. subst t. rewrite (IH (length t')) by (cbn [length] in N; auto; lia). reflexivity.
Qed.
Lemma visible_same l l' scope : Permutation l l' -> same (visible l scope) (visible l' scope).
Proof.
  intros P x. unfold visible. rewrite !in_flat_map. split; intros (sc & S & X); exists sc; (split; [exact S|]); rewrite in_flat_map in *; destruct X as (y & Y & X); exists y; (split; [|exact X]); [apply (Permutation_in y P); exact Y|apply (Permutation_in y (Permutation_sym P)); exact Y].
Qed.

(** ** Elsewhere *)

Lemma around_prefix scope : forall outer sc, In sc (around outer scope) -> exists r, outer ++ scope = sc ++ r.
Proof.
  induction scope as [|n r IH]; intros outer sc; cbn [around].
  - intros [<-|[]]. exists []. reflexivity.
  - rewrite in_app_iff. intros [H|[<-|[]]]; [|exists (n :: r); reflexivity]. apply IH in H. destruct H as (x & H). exists x. rewrite <- H, <- app_assoc. reflexivity.
Qed.
Lemma stored_elsewhere l x l' sc : fst x <> sc -> stored (l ++ x :: l') sc = stored (l ++ l') sc.
Proof. intros N. unfold stored. rewrite !flat_map_app. cbn [flat_map]. match goal with |- context [if ?d then _ else _] => destruct d end; [contradiction|reflexivity]. Qed.
Lemma fold_ext (A : Type) (f g : str -> A -> str) l : (forall s x, In x l -> f s x = g s x) -> forall s, fold_left f l s = fold_left g l s.
Proof. induction l as [|x l IH]; intros H s; [reflexivity|]. cbn. rewrite (H s x) by (left; reflexivity). apply IH. intros t y Y. apply H. right. exact Y. Qed.

(** ** The values of the enum itself *)

Lemma own_is e : enum_rules true e = map rule_of (own_entries e).
Proof.
  unfold enum_rules, own_entries. induction (ve_values e) as [|v l IH]; [reflexivity|]. cbn [flat_map map]. rewrite IH. unfold value_rules. rewrite orb_true_r. destruct (ve_class e); reflexivity.
Qed.
Lemma own_text l e ts : let all := visible l [] ++ own_entries e in entries_ok all -> expression ts -> clear all ts -> own_value l e (text ts) = text (renamed all ts).
Proof.
  intros all O E C. unfold own_value, scoped_value. rewrite hierarchy_is. assert (I1 : incl (visible l []) all) by (intros x X; apply in_app_iff; left; exact X). assert (I2 : incl (own_entries e) all) by (intros x X; apply in_app_iff; right; exact X).
  rewrite (scopes_text all); [|exact O|intros sc S x X; apply I1; apply in_flat_map; exists sc; auto|exact E|exact C]. change (flat_map (at_scope l) (around [] [])) with (visible l []). rewrite own_is, (rules_text all); [|exact O|exact I2|apply (expression_renamed all O); auto|apply (clear_renamed all O); auto].
  f_equal. apply (renamed_twice all O); auto.
Qed.
