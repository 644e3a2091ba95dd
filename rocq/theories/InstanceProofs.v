From Verif Require Import PyStr PyStrLemmas PyDict TypeTextModel InstanceModel InstanceSpec.

(** ** Words *)

Lemma word_split s : exists w r, s = w ++ r /\ Forall (fun c => is_word c = true) w /\ is_word_at r = false.
Proof.
  induction s as [|c s (w & r & -> & W & R)]; [exists [], []; auto|]. destruct (is_word c) eqn:E; [exists (c :: w), r; auto|]. exists [], (c :: w ++ r). auto.
Qed.
Lemma word_rect (P : list ascii -> Prop) : P [] -> (forall (c : ascii) (r : list ascii), is_word c = false -> P r -> P (c :: r)) -> (forall (w r : list ascii), name_of w -> is_word_at r = false -> P r -> P (w ++ r)) -> forall s : list ascii, P s.
Proof.
  intros A B C s. remember (length s) as n eqn:N. revert s N. induction n as [n IH] using lt_wf_ind. intros s N. destruct s as [|c s]; [exact A|].
  destruct (is_word c) eqn:E; [|apply B; auto; apply (IH (length s)); cbn in *; auto; lia].
  destruct (word_split (c :: s)) as (w & r & X & W & R). assert (w <> []) by (intros ->; cbn [app] in X; subst r; cbn in R; congruence).
  rewrite X. apply C; [split; auto|auto|]. apply (IH (length r)); auto. assert (Y : length (c :: s) = length w + length r) by (rewrite X, app_length; auto). destruct w; [congruence|cbn in *; lia].
Qed.
Lemma pieces_sep c r : is_word c = false -> pieces (c :: r) = [c] :: pieces r.
Proof. intros E. cbn [pieces]. rewrite E. destruct (pieces r) as [|[|d w] ps]; reflexivity. Qed.
Lemma pieces_head r : is_word_at r = false -> pieces r = [] /\ r = [] \/ exists c r', r = c :: r' /\ is_word c = false /\ pieces r = [c] :: pieces r'.
Proof. destruct r as [|c r]; [left; auto|]. intros E. right. exists c, r. split; auto. split; auto. apply pieces_sep. exact E. Qed.
Lemma pieces_word w r : name_of w -> is_word_at r = false -> pieces (w ++ r) = w :: pieces r.
Proof.
  intros (N & W) R. destruct w as [|c w]; [congruence|]. clear N. revert c W. induction w as [|d w IH]; intros c W.
  - cbn [app pieces]. destruct (pieces_head r R) as [(-> & _)|(d & r' & _ & D & ->)]; auto. rewrite D, andb_false_r. reflexivity.
  - inversion W as [|? ? W1 W2]; subst. inversion W2 as [|? ? W3 W4]; subst. change ((c :: d :: w) ++ r) with (c :: ((d :: w) ++ r)). cbn [pieces]. specialize (IH d W2). cbn [app] in IH. cbn [app]. cbn [pieces] in IH. cbn [pieces]. rewrite IH, W1, W3. reflexivity.
Qed.
Lemma pieces_app x y : is_word_at y = false -> pieces (x ++ y) = pieces x ++ pieces y.
Proof.
  intros Y. induction x as [|c r C IH|w r W R IH] using word_rect; auto.
  - cbn [app]. rewrite (pieces_sep c (r ++ y) C), (pieces_sep c r C). cbn [app]. f_equal. exact IH.
  - assert (R' : is_word_at (r ++ y) = false) by (destruct r; auto). pose proof (pieces_word w (r ++ y) W R') as P. rewrite app_assoc in P. rewrite (pieces_word w r W R). etransitivity; [exact P|]. cbn [app]. f_equal. exact IH.
Qed.
Lemma pieces_concat s : concat (pieces s) = s.
Proof.
  induction s as [|c r C IH|w r W R IH] using word_rect; auto; [rewrite pieces_sep by auto|rewrite pieces_word by auto]; cbn [concat]; rewrite IH; reflexivity.
Qed.
Lemma piece_one w : name_of w -> pieces w = [w].
Proof. intros W. pose proof (pieces_word w [] W eq_refl) as P. rewrite app_nil_r in P. exact P. Qed.
Lemma name_not_sep n c : name_of n -> is_word c = false -> seqb n [c] = false.
Proof. intros (N & W) C. destruct (seqb_spec n [c]) as [->|]; auto. inversion W; congruence. Qed.

(** ** The replacement of a name *)

Section Sub.
Variables name new : str.
Hypothesis is_name : name_of name.
Let count (s : str) : nat := length (filter (seqb name) (pieces s)).
Let replaced (s : str) : str := substituted [(name, new)] s.

Lemma starts_word w r : Forall (fun c => is_word c = true) w -> is_word_at r = false -> startswith name (w ++ r) = true -> is_word_at (skipn (length name) (w ++ r)) = false -> name = w.
Proof.
  intros W R. destruct is_name as [_ F]. clear is_name. revert w W. induction F as [|c n C F IH]; intros w W.
  - cbn. intros _. destruct w; [auto|]. cbn. inversion W; congruence.
  - destruct w as [|d w]; cbn [app].
    + destruct r as [|d r]; [discriminate|]. cbn [startswith]. destruct (ceqb_spec c d) as [->|]; [cbn in R; congruence|discriminate].
    + cbn [startswith length skipn]. inversion W; subst. destruct (ceqb_spec c d) as [->|]; [|discriminate]. cbn [andb]. intros S K. f_equal. apply IH; auto.
Qed.
Lemma not_bounded_sep before c r : is_word c = false -> bounded name before (c :: r) = false.
Proof.
  intros C. unfold bounded. destruct is_name as [N W]. destruct name as [|d n]; [congruence|]. inversion W; subst. cbn [startswith]. destruct (ceqb_spec d c) as [->|]; [congruence|reflexivity].
Qed.
(** Inside a word nothing is replaced. *)
Lemma inside w r : Forall (fun c => is_word c = true) w -> subn name new true 0 (w ++ r) = (w ++ fst (subn name new true 0 r), snd (subn name new true 0 r)).
Proof.
  induction 1 as [|c w C F IH]; [cbn [app]; destruct (subn name new true 0 r); reflexivity|]. cbn [app subn]. unfold bounded. cbn [is_word_at]. rewrite C. cbn [xorb]. rewrite andb_false_r. cbn [andb]. rewrite IH. reflexivity.
Qed.
Lemma skipped w : Forall (fun c => is_word c = true) w -> forall b r, subn name new b (length w) (w ++ r) = subn name new (match w with [] => b | _ => true end) 0 r.
Proof. induction 1 as [|c w C F IH]; intros b r; [reflexivity|]. cbn [length app subn]. rewrite C, IH. destruct w; reflexivity. Qed.
Lemma any_before r : is_word_at r = false -> forall b, subn name new b 0 r = subn name new false 0 r.
Proof. destruct r as [|c r]; [reflexivity|]. intros C b. cbn [subn is_word_at] in *. rewrite !not_bounded_sep by exact C. reflexivity. Qed.
Lemma last_word : is_word_at (rev name) = true.
Proof. destruct is_name as [N W]. destruct (exists_last N) as (x & c & E). rewrite E in *. rewrite rev_app_distr. cbn. apply Forall_app in W. destruct W as [_ W]. inversion W; auto. Qed.
Lemma subn_is s : subn name new false 0 s = (replaced s, count s).
Proof.
  unfold replaced, count, substituted. induction s as [|c r C IH|w r W R IH] using word_rect; auto.
  - cbn [subn]. rewrite not_bounded_sep, C, IH, pieces_sep by exact C. cbn [map concat filter]. unfold argument at 2. cbn [find fst]. rewrite (name_not_sep name c is_name C). reflexivity.
  - rewrite pieces_word by auto. cbn [map concat filter]. unfold argument at 1. cbn [find fst]. destruct (seqb_spec name w) as [E|NE].
    + subst w. cbn [snd length]. pose proof is_name as [N F]. pose proof last_word as LW. assert (X : exists c n, name = c :: n) by (destruct name; [congruence|eauto]). destruct X as (c & n & En).
      assert (F1 : is_word c = true /\ Forall (fun c => is_word c = true) n) by (rewrite En in F; inversion F; auto). destruct F1 as [F1 F2].
      assert (B : bounded name false (c :: n ++ r) = true).
      { unfold bounded. change (c :: n ++ r) with ((c :: n) ++ r). rewrite <- En, startswith_app, skipn_app, skipn_all, Nat.sub_diag, LW. cbn [app skipn]. rewrite R. rewrite En. cbn [app is_word_at]. rewrite F1. reflexivity. }
      assert (E : subn name new false 0 (name ++ r) = subn name new false 0 (c :: n ++ r)) by (f_equal; rewrite En; reflexivity).
      etransitivity; [exact E|]. cbn [subn]. rewrite B. replace (length name - 1) with (length n) by (rewrite En; cbn; lia). rewrite F1, (skipped n F2). rewrite any_before, IH by auto. reflexivity.
    + destruct W as [N F]. destruct w as [|c w]; [congruence|]. cbn [app subn]. assert (B : bounded name false (c :: w ++ r) = false).
      { unfold bounded. change (c :: w ++ r) with ((c :: w) ++ r). destruct (startswith name ((c :: w) ++ r)) eqn:S; [|reflexivity]. rewrite last_word. destruct (is_word_at (skipn (length name) ((c :: w) ++ r))) eqn:K.
        - cbn [xorb]. rewrite andb_false_r. reflexivity.
        - destruct NE. apply (starts_word (c :: w) r); auto. }
      rewrite B. inversion F; subst. rewrite H1, inside, any_before, IH by auto. reflexivity.
Qed.
End Sub.
