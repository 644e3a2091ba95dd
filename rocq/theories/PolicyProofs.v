From Verif Require Import PyStr PyStrLemmas PyDict FillModel FillSpec PolicyModel PolicySpec.

Lemma starts_split p s : startswith p s = true <-> exists r, s = p ++ r.
Proof.
  split; [|intros (r & ->); apply startswith_app]. revert s. induction p as [|c p IH]; intros s; [exists s; auto|]. destruct s as [|d s]; [discriminate|]. cbn [startswith]. destruct (ceqb_spec c d) as [->|]; [|discriminate]. intros H. destruct (IH s H) as (r & ->). exists r. auto.
Qed.
Lemma from_token_None tok s : from_token tok s = None <-> absent tok s.
Proof.
  induction s as [|c s IH]; cbn [from_token].
  - destruct (startswith tok []) eqn:E; split; try discriminate.
    + apply starts_split in E. destruct E as (r & E). intros A. destruct (A [] r E).
    + intros _ a b X. destruct a; [|discriminate]. cbn [app] in X. assert (startswith tok [] = true) by (apply starts_split; eauto). congruence.
    + auto.
  - destruct (startswith tok (c :: s)) eqn:E; [split; [discriminate|]|].
    + apply starts_split in E. destruct E as (r & E). intros A. destruct (A [] r E).
    + rewrite IH. split; intros A a b X.
      * destruct a as [|d a]; [cbn [app] in X; assert (startswith tok (c :: s) = true) by (apply starts_split; eauto); congruence|]. cbn [app] in X. inversion X. eapply A; eauto.
      * apply (A (c :: a) b). cbn [app]. f_equal. exact X.
Qed.
Lemma from_token_Some tok s r : from_token tok s = Some r <-> exists b, r = tok ++ b /\ first_at tok s b.
Proof.
  revert r. induction s as [|c s IH]; intros r; cbn [from_token].
  - destruct (startswith tok []) eqn:E; split; try discriminate.
    + intros H. inversion H; subst. apply starts_split in E. destruct E as (b & E). exists b. split; auto. exists []. split; auto. intros; cbn; lia.
    + intros (b & -> & a & X & _). destruct a; [|discriminate]. cbn [app] in X. rewrite <- X. auto.
    + intros (b & -> & a & X & _). destruct a; [|discriminate]. cbn [app] in X. assert (startswith tok [] = true) by (apply starts_split; eauto). congruence.
  - destruct (startswith tok (c :: s)) eqn:E.
    + apply starts_split in E. destruct E as (b & E). split.
      * intros H. inversion H; subst. exists b. split; auto. exists []. split; auto. intros; cbn; lia.
      * intros (b' & -> & a & X & M). specialize (M [] b E). cbn in M. destruct a; [|cbn in M; lia]. rewrite X. reflexivity.
    + rewrite IH. split; intros (b & -> & a & X & M); exists b; split; auto.
      * exists (c :: a). split; [cbn [app]; f_equal; exact X|]. intros [|d a'] b' Y; [cbn [app] in Y; assert (startswith tok (c :: s) = true) by (apply starts_split; eauto); congruence|].
        cbn [app] in Y. inversion Y. cbn [length]. apply le_n_S. eapply M; eauto.
      * destruct a as [|d a]; [cbn [app] in X; assert (startswith tok (c :: s) = true) by (apply starts_split; eauto); congruence|]. cbn [app] in X. pose proof (f_equal (@tl ascii) X) as X'. cbn [tl] in X'. exists a. split; [exact X'|].
        intros a' b' Y. specialize (M (c :: a') b'). cbn [length] in M. apply le_S_n. apply M. cbn [app]. f_equal. exact Y.
Qed.
Lemma skip_app (a b : str) : skipn (length a) (a ++ b) = b.
Proof. rewrite skipn_app, skipn_all, Nat.sub_diag. reflexivity. Qed.
Definition no_space (c : ascii) : bool := negb (is_space c).
Lemma take_word w b : Forall (fun c => is_space c = false) w -> match b with [] => True | c :: _ => is_space c = true end -> takewhile no_space (w ++ b) = w.
Proof.
  intros F B. induction F as [|c w C F IH]; cbn [app takewhile]; [destruct b as [|c b]; auto; cbn [takewhile]; unfold no_space; rewrite B; reflexivity|]. unfold no_space at 1. rewrite C. cbn [negb]. f_equal. exact IH.
Qed.
Lemma take_is s : exists w b, s = w ++ b /\ takewhile no_space s = w /\ Forall (fun c => is_space c = false) w /\ match b with [] => True | c :: _ => is_space c = true end.
Proof.
  induction s as [|c s (w & b & E & T & F & B)]; [exists [], []; cbn; auto|]. cbn [takewhile]. unfold no_space at 1. destruct (is_space c) eqn:C; cbn [negb].
  - exists [], (c :: s). auto.
  - exists (c :: w), b. split; [cbn [app]; f_equal; auto|]. split; [f_equal; auto|]. split; auto.
Qed.
Lemma word_told s tok w : word_after_token s tok = Some w <-> told tok s w.
Proof.
  unfold word_after_token. split.
  - destruct (from_token tok s) as [r|] eqn:E; [|discriminate]. cbn [option_map]. intros H. apply from_token_Some in E. destruct E as (b & -> & F). rewrite skip_app in H. assert (H' : takewhile (fun c => negb (is_space c)) b = w) by congruence. clear H.
    destruct (take_is b) as (w' & b' & -> & T & W & B). unfold no_space in T. assert (w' = w) by (rewrite <- T; exact H'). subst w'. exists b'. auto.
  - intros (b & F & W & B). assert (E : from_token tok s = Some (tok ++ w ++ b)) by (apply from_token_Some; eauto). rewrite E. cbn [option_map]. rewrite skip_app. f_equal. apply take_word; auto.
Qed.
Lemma word_absent s tok : word_after_token s tok = None <-> absent tok s.
Proof.
  unfold word_after_token. destruct (from_token tok s) as [r|] eqn:E; cbn [option_map]; split; intros H; auto; try discriminate.
  - apply from_token_None in H. congruence.
  - apply from_token_None. exact E.
Qed.
Lemma commented_told c w : commented_policy c = w <-> policy_told c w.
Proof.
  unfold commented_policy, policy_in_comments. split.
  - intros <-. destruct (word_after_token (at_end c) $"return_value_policy::") as [w|] eqn:E1; [apply told_end; apply word_told; auto|].
    destruct (word_after_token (on_previous c) $"return_value_policy::") as [w|] eqn:E2; [apply told_before; [apply word_absent|apply word_told]; auto|].
    destruct (word_after_token (at_end c) $"rv_policy::") as [w|] eqn:E3; [apply told_end_nb; [apply word_absent|apply word_absent|apply word_told]; auto|].
    destruct (word_after_token (on_previous c) $"rv_policy::") as [w|] eqn:E4; [apply told_before_nb; [apply word_absent|apply word_absent|apply word_absent|apply word_told]; auto|].
    apply not_told; apply word_absent; auto.
  - intros H. destruct H as [w A|w A B|w A B C|w A B C D|A B C D]; repeat match goal with X : told _ _ _ |- _ => apply word_told in X; rewrite X | X : absent _ _ |- _ => apply word_absent in X; rewrite X end; reflexivity.
Qed.
Lemma is_only_spec m modifiers : is_only m modifiers = true <-> modifiers = Some [m].
Proof. unfold is_only. destruct modifiers as [[|x [|y l]]|]; split; try discriminate; [destruct (seqb_spec x m); congruence|intros H; inversion H; apply seqb_refl]. Qed.
Lemma policy_part_is nanobind f : policy_part nanobind f (shown_policy nanobind (return_value_policy (bf_for_pointers f) (bf_for_references f) (bf_modifiers f) (bf_comments f))).
Proof.
  unfold return_value_policy. destruct (bf_for_pointers f && is_only $"*" (bf_modifiers f) || bf_for_references f && is_only $"&" (bf_modifiers f)) eqn:E.
  - exists $"reference". split; [left; split; auto|reflexivity]. unfold forced. apply orb_true_iff in E. destruct E as [E|E]; apply andb_true_iff in E; destruct E as [A B]; apply is_only_spec in B; auto.
  - exists (commented_policy (bf_comments f)). split; [|reflexivity]. right. split; [|apply commented_told; auto]. intros [[A B]|[A B]]; apply is_only_spec in B; rewrite A, B, ?orb_true_r in E; discriminate.
Qed.
Lemma parens_None s : up_to_parens s = None <-> absent $"()" s.
Proof.
  rewrite <- from_token_None. induction s as [|c s IH]; [cbn; tauto|]. cbn [up_to_parens from_token]. destruct (startswith $"()" (c :: s)); [split; discriminate|]. rewrite <- IH. destruct (up_to_parens s); cbn [option_map]; split; intros H; auto; discriminate.
Qed.
Lemma parens_Some s k : up_to_parens s = Some k -> exists x b, s = x ++ $"()" ++ b /\ k = x ++ $"()" /\ forall a' b', s = a' ++ $"()" ++ b' -> length x <= length a'.
Proof.
  revert k. induction s as [|c s IH]; intros k; [discriminate|]. cbn [up_to_parens]. destruct (startswith $"()" (c :: s)) eqn:E.
  - intros H. inversion H; subst. apply starts_split in E. destruct E as (b & E). exists [], b. split; [exact E|]. split; auto. intros. cbn. lia.
  - destruct (up_to_parens s) as [k'|] eqn:U; [|discriminate]. cbn [option_map]. intros H. inversion H; subst. destruct (IH k' eq_refl) as (x & b & X & K & M). exists (c :: x), b. split; [cbn [app]; f_equal; exact X|]. split; [cbn [app]; f_equal; exact K|].
    intros [|d a'] b' Y; [cbn [app] in Y; assert (startswith $"()" (c :: s) = true) by (apply starts_split; exists b'; exact Y); congruence|]. pose proof (f_equal (@tl ascii) Y) as Y'. exact (le_n_S _ _ (M a' b' Y')).
Qed.
(** A token without parentheses. *)
Lemma parens_past tok s : ~ In "("%char tok -> up_to_parens (tok ++ s) = option_map (app tok) (up_to_parens s).
Proof.
  induction tok as [|c tok IH]; intros N; cbn [app]; [destruct (up_to_parens s); reflexivity|]. cbn [up_to_parens]. change $"()" with ["("%char; ")"%char]. cbn [startswith]. destruct (ceqb_spec "("%char c) as [<-|]; [destruct N; left; auto|]. cbn [andb].
  rewrite IH by (intros X; apply N; right; auto). destruct (up_to_parens s); reflexivity.
Qed.
Lemma call_told_is c s tok : comments_as_str c = s -> ~ In "("%char tok -> call_told tok s (call_policy c tok).
Proof.
  intros <- N. unfold call_policy, call_told. destruct (from_token tok (comments_as_str c)) as [r|] eqn:E; [|left; apply from_token_None in E; auto].
  apply from_token_Some in E. destruct E as (b & -> & F). destruct (up_to_parens (tok ++ b)) as [k|] eqn:U; [|left; split; auto; right; exists b; split; auto; apply parens_None; auto].
  right. rewrite parens_past in U by auto. destruct (up_to_parens b) as [k'|] eqn:U'; [|discriminate]. cbn [option_map] in U. inversion U; subst k. apply parens_Some in U'. destruct U' as (x & b' & -> & -> & M). exists x, b'. auto.
Qed.
Lemma whole_is c : whole c (comments_as_str c).
Proof.
  unfold whole, comments_as_str. destruct (on_previous c) as [|x p]; [left; auto|]. destruct (at_end c) as [|y e]; [right; left; split; [auto|apply app_nil_r]|]. right. right. split; [discriminate|]. split; [discriminate|auto].
Qed.
Lemma call_part_is nanobind c name : ~ In "("%char name -> call_part nanobind c name (policy_for nanobind c name).
Proof.
  intros N. exists (comments_as_str c), (call_policy c ($"py::" ++ name)), (call_policy c ($"nb::" ++ name)). split; [apply whole_is|].
  assert (P : forall p, In p [$"py::"; $"nb::"] -> ~ In "("%char (p ++ name)) by (intros p [<-|[<-|[]]] X; apply in_app_iff in X; destruct X as [X|X]; auto; cbn in X; intuition congruence).
  split; [apply call_told_is; auto; apply P; cbn; auto|]. split; [apply call_told_is; auto; apply P; cbn; auto|]. reflexivity.
Qed.
Lemma guard_part_is nanobind f : guard_part nanobind f (shown_guard nanobind (bf_gil f) (policy_for nanobind (bf_comments f) $"call_guard")).
Proof.
  exists (policy_for nanobind (bf_comments f) $"call_guard"). split; [apply call_part_is; cbn; intuition congruence|]. unfold shown_guard. destruct (bf_gil f); [|reflexivity].
  destruct (policy_for nanobind (bf_comments f) $"call_guard"), nanobind; rewrite <- ?app_assoc; reflexivity.
Qed.

(** ** What is asked for is unique *)

Lemma parens_intro x b : (forall a' b', x ++ $"()" ++ b = a' ++ $"()" ++ b' -> length x <= length a') -> up_to_parens (x ++ $"()" ++ b) = Some (x ++ $"()").
Proof.
  intros M. destruct (up_to_parens (x ++ $"()" ++ b)) as [k|] eqn:U; [|apply parens_None in U; destruct (U x b); reflexivity].
  apply parens_Some in U. destruct U as (x' & b' & E & -> & M'). pose proof (M _ _ E) as L1. pose proof (M' x b eq_refl) as L2.
  assert (X : x = x'); [|rewrite X; reflexivity]. assert (L : length x = length x') by lia. pose proof (f_equal (firstn (length x)) E) as F. rewrite firstn_app, firstn_all, Nat.sub_diag in F. cbn [firstn] in F. rewrite app_nil_r in F.
  rewrite F, L, firstn_app, firstn_all, Nat.sub_diag. cbn [firstn]. apply app_nil_r.
Qed.
Lemma call_told_unique c tok k : ~ In "("%char tok -> call_told tok (comments_as_str c) k -> k = call_policy c tok.
Proof.
  intros N [[[A|(b & F & A)] ->]|(x & b & F & M & ->)]; unfold call_policy.
  - apply from_token_None in A. rewrite A. reflexivity.
  - assert (E : from_token tok (comments_as_str c) = Some (tok ++ b)) by (apply from_token_Some; eauto). rewrite E. symmetry. apply parens_None. exact A.
  - assert (E : from_token tok (comments_as_str c) = Some (tok ++ x ++ $"()" ++ b)) by (apply from_token_Some; eauto). rewrite E. rewrite parens_past by auto. rewrite parens_intro by auto. reflexivity.
Qed.
Lemma whole_unique c s : whole c s -> s = comments_as_str c.
Proof.
  unfold whole, comments_as_str. intros [[P ->]|[[E ->]|(P & E & ->)]].
  - rewrite P. reflexivity.
  - rewrite E. destruct (on_previous c); [|rewrite app_nil_r]; reflexivity.
  - destruct (on_previous c); [congruence|]. destruct (at_end c); [congruence|]. reflexivity.
Qed.
Lemma call_part_unique nanobind c name k : ~ In "("%char name -> call_part nanobind c name k -> k = policy_for nanobind c name.
Proof.
  intros N (s & k1 & k2 & W & A & B & ->). apply whole_unique in W. subst s. assert (P : forall p, In p [$"py::"; $"nb::"] -> ~ In "("%char (p ++ name)) by (intros p [<-|[<-|[]]] X; apply in_app_iff in X; destruct X as [X|X]; auto; cbn in X; intuition congruence).
  apply call_told_unique in A; [|apply P; cbn; auto]. apply call_told_unique in B; [|apply P; cbn; auto]. subst. reflexivity.
Qed.
Lemma policy_part_unique nanobind f p : policy_part nanobind f p -> p = shown_policy nanobind (return_value_policy (bf_for_pointers f) (bf_for_references f) (bf_modifiers f) (bf_comments f)).
Proof.
  intros (w & H & ->). destruct (policy_part_is nanobind f) as (w' & H' & ->). destruct H as [[A ->]|[A B]], H' as [[A' ->]|[A' B']]; try contradiction; auto. apply commented_told in B. apply commented_told in B'. subst. reflexivity.
Qed.
Lemma guard_part_unique nanobind f g : guard_part nanobind f g -> g = shown_guard nanobind (bf_gil f) (policy_for nanobind (bf_comments f) $"call_guard").
Proof.
  intros (k & C & G). destruct (guard_part_is nanobind f) as (k' & C' & G'). apply call_part_unique in C; [|cbn; intuition congruence]. apply call_part_unique in C'; [|cbn; intuition congruence]. subst k k'. destruct (bf_gil f); congruence.
Qed.
