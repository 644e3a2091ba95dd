From Verif Require Import PyStr PyStrLemmas EnumSpec ClassModel ClassSpec.
(** The template arguments as parts of the names of variables (C69). *)

Lemma argument_cons c t : c <> ":"%char -> argument_text (c :: t) <-> (is_word c || ceqb c " " || ceqb c "*") = true /\ argument_text t.
Proof. intros N. cbn [argument_text]. rewrite (proj2 (ceqb_false c ":"%char)) by exact N. reflexivity. Qed.
Lemma argument_app a b : argument_text a -> argument_text b -> argument_text (a ++ b).
Proof.
  revert a. assert (X : forall n a, length a <= n -> argument_text a -> argument_text b -> argument_text (a ++ b)).
  { induction n as [|n IH]; intros [|c a] L A B; try exact B; [cbn [length] in L; lia|]. cbn [app length] in *. destruct (ceqb_spec c ":"%char) as [->|N].
    - cbn [argument_text] in *. cbn [ceqb Ascii.eqb] in *. destruct a as [|d a]; [destruct A|]. cbn [app length] in *. change (d = ":"%char /\ argument_text a) in A. change (d = ":"%char /\ argument_text (a ++ b)).
      split; [apply A|]. apply IH; [lia|apply A|exact B].
    - apply argument_cons in A; [|exact N]. apply argument_cons; [exact N|]. split; [apply A|]. apply IH; [lia|apply A|exact B]. }
  intros a. apply (X (length a)). lia.
Qed.
Lemma argument_tail a b : argument_text (a ++ b) -> argument_text a -> argument_text b.
Proof.
  revert a. assert (X : forall n a, length a <= n -> argument_text (a ++ b) -> argument_text a -> argument_text b).
  { induction n as [|n IH]; intros [|c a] L A B; try exact A; [cbn [length] in L; lia|]. cbn [app length] in *. destruct (ceqb_spec c ":"%char) as [->|N].
    - destruct a as [|d a]; [destruct B|]. change (d = ":"%char /\ argument_text a) in B. change (d = ":"%char /\ argument_text (a ++ b)) in A. cbn [length] in L.
      apply (IH a); [lia|apply A|apply B].
    - apply argument_cons in A; [|exact N]. apply argument_cons in B; [|exact N]. apply (IH a); [lia|apply A|apply B]. }
  intros a. apply (X (length a)). lia.
Qed.
(** Replacing whole pieces keeps them. *)
Lemma replace_argument o old new t : argument_text (o :: old) -> argument_text new -> o <> ":"%char -> argument_text t -> argument_text (replace (o :: old) new t).
Proof.
  intros O N F. assert (X : forall n t, length t <= n -> argument_text t -> argument_text (replace (o :: old) new t)).
  { induction n as [|n IH]; intros [|c s] L A; try exact I; [cbn [length] in L; lia|]. cbn [length] in L. destruct (startswith (o :: old) (c :: s)) eqn:E.
    - apply startswith_true in E as [r E]. rewrite E in *. rewrite replace_occ by discriminate. apply argument_app; [exact N|]. apply IH.
      + assert (Y : length (c :: s) = length ((o :: old) ++ r)) by (rewrite E; reflexivity). cbn [app length] in Y. rewrite app_length in Y. lia.
      + apply (argument_tail (o :: old)); assumption.
    - rewrite replace_cons by exact E. destruct (ceqb_spec c ":"%char) as [->|M].
      + destruct s as [|d s]; [destruct A|]. change (d = ":"%char /\ argument_text s) in A. destruct A as [-> A]. cbn [length] in L.
        rewrite replace_cons by (cbn [startswith]; rewrite (proj2 (ceqb_false o ":"%char)) by exact F; reflexivity). split; [reflexivity|]. apply IH; [lia|exact A].
      + apply argument_cons in A; [|exact M]. apply argument_cons; [exact M|]. split; [apply A|]. apply IH; [lia|apply A]. }
  apply (X (length t)). lia.
Qed.
Lemma replace_gone c new t : ~ In c new -> ~ In c (replace [c] new t).
Proof.
  intros N. rewrite replace_single_char, in_flat_map. intros (x & I & J). destruct (ceqb_spec x c) as [->|M].
  - exact (N J).
  - destruct J as [->|[]]. exact (M eq_refl).
Qed.
Lemma replace_absent c old new t : old <> [] -> ~ In c new -> ~ In c t -> ~ In c (replace old new t).
Proof.
  intros O N. revert t. apply (replace_ind old (fun t => ~ In c t -> ~ In c (replace old new t))); [exact O|auto| |].
  - intros x s E IH F. rewrite replace_cons by exact E. intros [->|J]; [apply F; left; reflexivity|]. apply IH; [intros K; apply F; right; exact K|exact J].
  - intros r IH F. rewrite replace_occ by exact O. intros J. apply in_app_or in J as [J|J]; [exact (N J)|]. apply IH; [intros K; apply F; apply in_or_app; right; exact K|exact J].
Qed.
Lemma replace_colons t : argument_text t -> ~ In " "%char t -> ~ In "*"%char t -> Forall (fun c => is_word c = true) (replace $"::" $"_" t).
Proof.
  assert (X : forall n t, length t <= n -> argument_text t -> ~ In " "%char t -> ~ In "*"%char t -> Forall (fun c => is_word c = true) (replace $"::" $"_" t)).
  { induction n as [|n IH]; intros [|c s] L A B C; try constructor; [cbn [length] in L; lia|]. cbn [length] in L. destruct (ceqb_spec c ":"%char) as [->|N].
    - destruct s as [|d s]; [destruct A|]. change (d = ":"%char /\ argument_text s) in A. destruct A as [-> A]. change (":"%char :: ":"%char :: s) with ($"::" ++ s). rewrite replace_occ by discriminate.
      cbn [length] in L. apply Forall_app. split; [repeat constructor|]. apply IH; [lia|exact A| |]; intros K; [apply B|apply C]; right; right; exact K.
    - rewrite replace_cons by (change (ceqb ":" c && startswith [":"%char] s = false); rewrite (proj2 (ceqb_false ":"%char c)) by congruence; reflexivity).
      apply argument_cons in A; [|exact N]. destruct A as [W A]. apply Forall_cons.
      + rewrite (proj2 (ceqb_false c " "%char)), (proj2 (ceqb_false c "*"%char)) in W; [rewrite !orb_false_r in W; exact W| |]; intros ->; [apply C|apply B]; left; reflexivity.
      + apply IH; [lia|exact A| |]; intros K; [apply B|apply C]; right; exact K. }
  apply (X (length t)). lia.
Qed.
Lemma ends_cons c t : ends_well (c :: t) -> t = [] \/ ends_well t.
Proof. intros (u & d & E & W). destruct u as [|x u]; [injection E as <- <-; left; reflexivity|]. injection E as <- ->. right. exists u, d. auto. Qed.
Lemma ends_app a t : ends_well (a ++ t) -> t = [] \/ ends_well t.
Proof. induction a as [|c a IH]; [auto|]. intros E. cbn [app] in E. apply ends_cons in E as [E|E]; [apply app_eq_nil in E; left; apply E|auto]. Qed.
Lemma ends_front a t : ends_well t -> ends_well (a ++ t).
Proof. intros (u & c & -> & W). exists (a ++ u), c. rewrite app_assoc. auto. Qed.
Lemma replace_ends old new t : old <> [] -> (ends_well old -> ends_well new) -> ends_well t -> ends_well (replace old new t).
Proof.
  intros O N. revert t. apply (replace_ind old (fun t => ends_well t -> ends_well (replace old new t))); [exact O|auto| |].
  - intros c s E IH W. rewrite replace_cons by exact E. destruct (ends_cons c s W) as [->|F]; [exact W|]. exact (ends_front [c] _ (IH F)).
  - intros r IH W. rewrite replace_occ by exact O. destruct (ends_app old r W) as [->|F]; [|exact (ends_front new _ (IH F))]. rewrite app_nil_r in W. unfold replace. cbn [replace_aux].
    rewrite app_nil_r. exact (N W).
Qed.
Lemma no_end t c : (is_word c || ceqb c "*") = false -> ~ ends_well (t ++ [c]).
Proof. intros N (u & d & E & W). apply app_inj_tail in E as [_ <-]. congruence. Qed.

Lemma argument_word t : argument_text t -> ends_well t -> word (param_name t).
Proof.
  intros A E. unfold param_name.
  assert (S1 := replace_argument " "%char $"*" $"_ptr" t ltac:(cbn; auto) ltac:(cbn; auto 10) ltac:(discriminate) A). change (" "%char :: $"*") with $" *" in S1.
  assert (E1 : ends_well (replace $" *" $"_ptr" t)) by (apply replace_ends; [discriminate|intros _; exists $"_pt", "r"%char; auto|exact E]).
  set (t1 := replace $" *" $"_ptr" t) in *. clearbody t1.
  assert (S2 := replace_argument "*"%char [] $"_ptr" t1 ltac:(cbn; auto) ltac:(cbn; auto 10) ltac:(discriminate) S1). change ["*"%char] with $"*" in S2.
  assert (E2 : ends_well (replace $"*" $"_ptr" t1)) by (apply replace_ends; [discriminate|intros _; exists $"_pt", "r"%char; auto|exact E1]).
  assert (G2 : ~ In "*"%char (replace $"*" $"_ptr" t1)) by (apply (replace_gone "*"%char); cbn; intuition discriminate).
  set (t2 := replace $"*" $"_ptr" t1) in *. clearbody t2.
  assert (S3 := replace_argument " "%char [] $"_" t2 ltac:(cbn; auto) ltac:(cbn; auto) ltac:(discriminate) S2). change [" "%char] with $" " in S3.
  assert (E3 : ends_well (replace $" " $"_" t2)) by (apply replace_ends; [discriminate|intros _; exists [], "_"%char; auto|exact E2]).
  assert (G3 : ~ In " "%char (replace $" " $"_" t2)) by (apply (replace_gone " "%char); cbn; intuition discriminate).
  assert (H3 : ~ In "*"%char (replace $" " $"_" t2)) by (apply replace_absent; [discriminate|cbn; intuition discriminate|exact G2]).
  set (t3 := replace $" " $"_" t2) in *. clearbody t3.
  assert (S4 := replace_argument "s"%char $"td::" [] t3 ltac:(cbn; auto) I ltac:(discriminate) S3). change ("s"%char :: $"td::") with $"std::" in S4.
  assert (E4 : ends_well (replace $"std::" [] t3)) by (apply replace_ends; [discriminate|intros X; exfalso; exact (no_end $"std:" ":"%char eq_refl X)|exact E3]).
  assert (G4 : ~ In " "%char (replace $"std::" [] t3)) by (apply replace_absent; [discriminate|intros []|exact G3]).
  assert (H4 : ~ In "*"%char (replace $"std::" [] t3)) by (apply replace_absent; [discriminate|intros []|exact H3]).
  set (t4 := replace $"std::" [] t3) in *. clearbody t4.
  split; [|apply replace_colons; assumption].
  assert (E5 : ends_well (replace $"::" $"_" t4)) by (apply replace_ends; [discriminate|intros X; exfalso; exact (no_end $":" ":"%char eq_refl X)|exact E4]).
  destruct E5 as (u & c & -> & _). destruct u; discriminate.
Qed.
