(** Proofs: grouping and attaching comments. *)
From Coq Require Import ZArith.
From Verif Require Import PyStr PyStrLemmas CommentModel CommentSpec.

Lemma f2_length {A B} (R : A -> B -> Prop) l l' : Forall2 R l l' -> length l = length l'.
Proof. induction 1; cbn; auto. Qed.
Lemma pairs_app a b x y : length a = length x -> pairs (a ++ b) (x ++ y) = pairs a x ++ pairs b y.
Proof.
  revert x. induction a as [|g a IH]; destruct x; cbn; intros H; try discriminate; auto. f_equal. apply IH. lia.
Qed.
Lemma pairs_fst a x : length a = length x -> map fst (pairs a x) = x.
Proof.
  revert x. induction a as [|g a IH]; destruct x; cbn; intros H; try discriminate; auto. f_equal. apply IH. lia.
Qed.

Lemma last_cons_any {A} (g : list A) : forall x e, last (x :: g) e = last g x.
Proof. induction g as [|y g IH]; intros x e; auto. change (last (x :: y :: g) e) with (last (y :: g) e). rewrite !IH. auto. Qed.
Lemma consecutive_snoc g : forall e c, consecutive e g ->
  is_comment (last g e) = true -> is_comment c = true -> e_start c = (e_end (last g e) + 1)%Z ->
  contains empty_line_content (text_of (last g e)) = false -> contains empty_line_content (text_of c) = false ->
  consecutive e (g ++ [c]).
Proof.
  induction g as [|x g IH]; intros e c H H1 H2 H3 H4 H5.
  - cbn in *. repeat split; auto.
  - destruct H as (A & B & C & D & E & F). cbn [app consecutive]. repeat split; auto.
    rewrite last_cons_any in *. apply IH; auto.
Qed.
Lemma consecutive_last g : forall e, consecutive e g -> g <> [] ->
  is_comment (last g e) = true /\ contains empty_line_content (text_of (last g e)) = false.
Proof.
  induction g as [|x g IH]; intros e H Hn; [congruence|]. destruct H as (_ & B & _ & _ & E & F).
  rewrite last_cons_any. destruct g as [|y g]; [auto|]. apply IH; auto. discriminate.
Qed.
Lemma map_snoc_join c g x :
  join linefeed_token (text_of c :: map (fun x => without_slashes (text_of x)) (g ++ [x])) =
  join linefeed_token (text_of c :: map (fun x => without_slashes (text_of x)) g) ++ linefeed_token ++ without_slashes (text_of x).
Proof.
  rewrite map_app. cbn [map]. rewrite app_comm_cons, join_app by discriminate. auto.
Qed.

Lemma groups_apart_snoc l q f : groups_apart l ->
  (forall l0 p fp, l = l0 ++ [(p, fp)] -> apart (hd_error (rev (map fst l0))) p f) -> groups_apart (l ++ [(q, f)]).
Proof.
  intros H1 H2 a p fp q' f' b E. destruct b as [|y b _] using rev_ind.
  - change (a ++ [(p, fp); (q', f')]) with (a ++ [(p, fp)] ++ [(q', f')]) in E. rewrite app_assoc in E.
    apply app_inj_tail in E. destruct E as (E & E'). inversion E'; subst. eauto.
  - replace (a ++ (p, fp) :: (q', f') :: b ++ [y]) with ((a ++ (p, fp) :: (q', f') :: b) ++ [y]) in E
      by (rewrite <- app_assoc; auto).
    apply app_inj_tail in E. destruct E as (E & _). eauto.
Qed.
Lemma groups_apart_swap l q q' f : groups_apart (l ++ [(q, f)]) -> groups_apart (l ++ [(q', f)]).
Proof.
  intros H. apply groups_apart_snoc.
  - intros a p fp x fx b E. apply (H a p fp x fx (b ++ [(q, f)])). rewrite E, <- app_assoc. auto.
  - intros l0 p fp E. apply (H l0 p fp q f []). rewrite E, <- app_assoc. auto.
Qed.

Lemma group_from_spec cs : forall acc gs es,
  Forall2 merged gs (rev acc) -> Forall run gs -> groups_apart (pairs gs (rev acc)) -> group_from acc cs = Some es ->
  exists gs', concat gs' = concat gs ++ cs /\ Forall2 merged gs' es /\ Forall run gs' /\ groups_apart (pairs gs' es).
Proof.
  induction cs as [|c cs IH]; intros acc gs es HM HR HA H.
  - cbn in H. inversion H; subst. exists gs. rewrite app_nil_r. auto.
  - cbn [group_from] in H. destruct (shall_concat (hd_error (tl acc)) (hd_error acc) c) eqn:S.
    + destruct acc as [|p acc]; [discriminate|]. cbn [tl hd_error] in S.
      destruct (concat_comment p c) as [m|] eqn:Hm; [|discriminate].
      cbn [rev] in HM, HA.
      apply Forall2_app_inv_r in HM. destruct HM as (gs0 & g1 & HM0 & HM1 & ->).
      inversion HM1 as [|g ? ? ? Hg Hnil]; subst. inversion Hnil; subst. clear HM1 Hnil.
      apply Forall_app in HR. destruct HR as (HR0 & HR1). inversion HR1 as [|? ? Hrun _]; subst.
      assert (HL := f2_length _ _ _ HM0).
      destruct g as [|f g]; [destruct Hrun|].
      unfold concat_comment in Hm. destruct (etext c) as [tc|] eqn:Tc; [|discriminate].
      destruct (etext p) as [tp|] eqn:Tp; [|discriminate]. inversion Hm; subst m; clear Hm.
      cbn [merged] in Hg. destruct Hg as (G1 & G2 & G3 & G4 & G5 & G6).
      cbn [shall_concat] in S.
      destruct ((0 <=? e_start c) && (0 <=? e_end p))%Z; [|discriminate].
      destruct (is_comment p && is_comment c && (e_start c =? e_end p + 1)%Z) eqn:S1; [|discriminate].
      apply andb_true_iff in S1. destruct S1 as (S1 & S3). apply andb_true_iff in S1. destruct S1 as (S1 & S2).
      apply Z.eqb_eq in S3. apply andb_true_iff in S. destruct S as (_ & S). rewrite Tc, Tp in S.
      apply negb_true_iff, orb_false_iff in S. destruct S as (S4 & S5).
      destruct (IH (Elem (tag p) (Some (tp ++ linefeed_token ++ without_slashes tc)) (e_start p) (e_end c) (inner p) :: acc)
                  (gs0 ++ [f :: g ++ [c]]) es) as (gs' & C & R); auto.
      * cbn [rev]. apply Forall2_app; auto. constructor; auto. cbn [merged tag inner e_start e_end etext].
        rewrite last_last. repeat split; auto.
        -- intros E. destruct g; discriminate.
        -- intros _. f_equal. rewrite map_snoc_join.
           assert (T : tp = join linefeed_token (text_of f :: map (fun x => without_slashes (text_of x)) g)).
           { destruct g as [|x g].
             - cbn. unfold text_of. rewrite <- G5 by auto. rewrite Tp. auto.
             - rewrite G6 in Tp by discriminate. congruence. }
           rewrite <- T. unfold text_of. rewrite Tc. auto.
      * apply Forall_app. split; auto. constructor; auto. cbn [run].
        assert (Hlast : is_comment (last g f) = true /\ contains empty_line_content (text_of (last g f)) = false).
        { destruct g as [|x g].
          - cbn. unfold is_comment in *. rewrite <- G1. split; auto. unfold text_of. rewrite <- G5 by auto. rewrite Tp. auto.
          - apply consecutive_last; auto. discriminate. }
        apply consecutive_snoc; auto; try tauto.
        -- rewrite <- G4. auto.
        -- unfold text_of. rewrite Tc. auto.
      * cbn [rev]. rewrite pairs_app in HA |- * by auto. cbn [pairs first_of hd] in *.
        eapply groups_apart_swap; eauto.
      * exists gs'. split; auto. rewrite C. rewrite !concat_app. cbn [concat]. rewrite !app_nil_r, <- !app_assoc. cbn [app]. rewrite <- !app_assoc. auto.
    + destruct (IH (c :: acc) (gs ++ [[c]]) es) as (gs' & C & R); auto.
      * cbn [rev]. apply Forall2_app; auto. constructor; auto. cbn. repeat split; auto. congruence.
      * apply Forall_app. split; auto. constructor; auto. cbn. auto.
      * assert (HL := f2_length _ _ _ HM). cbn [rev]. rewrite pairs_app by auto. cbn [pairs first_of hd].
        apply groups_apart_snoc; auto. intros l0 p fp E. cbn [hd]. intros H1 H2 H3 H4.
        assert (Er : rev acc = map fst l0 ++ [p]).
        { rewrite <- (pairs_fst gs (rev acc)) by auto. rewrite E, map_app. auto. }
        apply (f_equal (@rev elem)) in Er. rewrite rev_involutive, rev_app_distr in Er. cbn in Er. subst acc.
        cbn [tl hd_error shall_concat] in S. rewrite H1, H2 in S.
        assert (B1 : (0 <=? e_start c)%Z = true) by (apply Z.leb_le; lia).
        assert (B2 : (0 <=? e_end p)%Z = true) by (apply Z.leb_le; lia).
        assert (B3 : (e_start c =? e_end p + 1)%Z = true) by (apply Z.eqb_eq; lia).
        rewrite B1, B2, B3 in S. cbn [andb] in S. apply andb_false_iff in S. destruct S as [S|S].
        -- right; right. apply negb_false_iff in S. destruct (hd_error (rev (map fst l0))) as [b|]; [|discriminate].
           exists b. rewrite !andb_true_iff, negb_true_iff in S. destruct S as ((_ & S1) & S2).
           apply Z.eqb_eq in S1. auto.
        -- apply negb_false_iff in S. unfold text_of. destruct (etext c), (etext p); try discriminate.
           apply orb_true_iff in S. destruct S; auto.
      * exists gs'. split; auto. rewrite C. rewrite concat_app. cbn. rewrite <- app_assoc. auto.
Qed.
Lemma grouped cs es : group_consecutive_comments cs = Some es ->
  exists gs, concat gs = cs /\ Forall2 merged gs es /\ Forall run gs /\ groups_apart (pairs gs es).
Proof.
  intros H. apply (group_from_spec cs [] [] es) in H; auto; cbn; auto.
  intros a p fp q f b E. destruct a; discriminate.
Qed.
(** Comments have a text: grouping never fails. *)
Lemma group_succeeds cs : Forall (fun e => is_comment e = true -> etext e <> None) cs ->
  exists es, group_consecutive_comments cs = Some es.
Proof.
  unfold group_consecutive_comments. intros H.
  assert (G : forall acc, Forall (fun e => is_comment e = true -> etext e <> None) acc -> exists es, group_from acc cs = Some es).
  { induction H as [|c cs Hc H IH]; intros acc Ha; [eexists; reflexivity|]. cbn [group_from].
    destruct (shall_concat (hd_error (tl acc)) (hd_error acc) c) eqn:S; [|apply IH; constructor; auto].
    destruct acc as [|p acc]; [discriminate|]. cbn [tl hd_error shall_concat] in S.
    destruct (_ && _)%Z; [|discriminate]. destruct (is_comment p && is_comment c && _) eqn:S1; [|discriminate].
    rewrite !andb_true_iff in S1. destruct S1 as ((S1 & S2) & _). inversion Ha; subst.
    unfold concat_comment. destruct (etext c) eqn:Tc; [|destruct (Hc S2); auto].
    destruct (etext p) eqn:Tp; [|destruct (H2 S1); auto]. apply IH. constructor; auto. cbn. discriminate. }
  apply G. auto.
Qed.

(** *** Attaching *)

Section Attach.
Variable cs : list elem.
Variable st : list bool.
Notation eol := (is_comment_end_of_line cs).
Notation prv := (is_comment_on_previous_line cs).

Lemma eol_inv i : eol i = true -> exists j p c, i = S j /\ nth_error cs j = Some p /\ nth_error cs i = Some c /\
  is_comment c = true /\ is_comment p = false /\ e_start c = e_end p.
Proof.
  unfold is_comment_end_of_line. destruct i as [|j]; [discriminate|].
  destruct (nth_error cs j) as [p|] eqn:Ep; [|discriminate]. destruct (nth_error cs (S j)) as [c|] eqn:Ec; [|discriminate].
  rewrite !andb_true_iff, !negb_true_iff, Z.eqb_eq. intros (((A & B) & _) & D). exists j, p, c. auto 10.
Qed.
Lemma prv_inv i : prv i = true -> exists c e, nth_error cs i = Some c /\ nth_error cs (S i) = Some e /\
  is_comment c = true /\ is_comment e = false /\ (e_end c + 1 = e_start e)%Z /\ eol i = false.
Proof.
  unfold is_comment_on_previous_line. destruct (eol i) eqn:E; [discriminate|].
  destruct (is_group_comment cs i); [discriminate|]. replace (i + 1) with (S i) by lia.
  destruct (nth_error cs i) as [c|] eqn:Ec; [|discriminate]. destruct (nth_error cs (S i)) as [e|] eqn:Ee; [|discriminate].
  rewrite !andb_true_iff, !negb_true_iff, Z.eqb_eq. intros ((((A & B) & _) & D) & _). exists c, e. auto 10.
Qed.
Definition from (k : nat) : list attached := flat_map (attach_at cs st) (seq k (length cs - k)).
Lemma from_step k e : nth_error cs k = Some e -> from k = attach_at cs st k ++ from (S k).
Proof.
  intros H. unfold from. assert (k < length cs) by (apply nth_error_Some; congruence).
  replace (length cs - k) with (S (length cs - S k)) by lia. auto.
Qed.
Lemma skipn_step k e : nth_error cs k = Some e -> skipn k cs = e :: skipn (S k) cs.
Proof.
  revert k. induction cs as [|x l IH]; intros [|k] H; try discriminate; cbn in *; [congruence|]. apply IH; auto.
Qed.
Lemma attach_from : forall n k, length cs - k <= n -> k <= length cs ->
  (forall j, k = S j -> prv j = false) -> eol k = false -> attaches (skipn k cs) (from k).
Proof.
  (* an element, with what is above it *)
  assert (EL : forall n, (forall k, length cs - k <= n -> k <= length cs ->
      (forall j, k = S j -> prv j = false) -> eol k = false -> attaches (skipn k cs) (from k)) ->
    forall k e above p, length cs - k <= S n -> nth_error cs k = Some e -> is_comment e = false ->
    (above = [] /\ p = [] \/
     exists c, above = [c] /\ is_comment c = true /\ (e_end c + 1 = e_start e)%Z /\ p = unmark (text_of c)) ->
    (forall s q r, attach_at cs st k = [Attached e p q s] -> attaches r (from (S k)) -> True) ->
    (exists s, attach_at cs st k = [Attached e p (if eol (S k) then match nth_error cs (S k) with Some c => text_of c | None => [] end else []) s]) ->
    attaches (above ++ skipn k cs) (from k)).
  { intros n IH k e above p Hk He Hc Ha _ (s & Hat).
    assert (Hlt : k < length cs) by (apply nth_error_Some; congruence).
    rewrite (skipn_step k e He), (from_step k e He), Hat. cbn [app].
    assert (Hpk : prv k = false).
    { destruct (prv k) eqn:E; auto. apply prv_inv in E. destruct E as (c & ? & E & _ & E1 & _). congruence. }
    destruct (eol (S k)) eqn:El.
    - pose proof El as El'. apply eol_inv in El'. destruct El' as (j & p0 & c & Ej & E1 & E2 & E3 & E4 & E5).
      injection Ej as <-. assert (p0 = e) by congruence. subst p0. rewrite E2.
      assert (Hlt2 : S k < length cs) by (apply nth_error_Some; congruence).
      assert (Hps : prv (S k) = false).
      { unfold is_comment_on_previous_line. rewrite El. auto. }
      assert (Hfk : from (S k) = from (S (S k))).
      { rewrite (from_step (S k) c E2). unfold attach_at at 1. rewrite E2, El, orb_true_r. auto. }
      rewrite Hfk, (skipn_step (S k) c E2).
      change (above ++ e :: c :: skipn (S (S k)) cs) with (above ++ [e] ++ [c] ++ skipn (S (S k)) cs).
      apply at_element; auto.
      + right. exists c. auto.
      + apply IH; [lia|lia| |].
        * intros j Hj. injection Hj as <-. auto.
        * destruct (eol (S (S k))) eqn:E; auto. apply eol_inv in E. destruct E as (j & p1 & ? & Ej & F1 & _ & _ & F2 & _).
          injection Ej as <-. congruence.
    - change (above ++ e :: skipn (S k) cs) with (above ++ [e] ++ [] ++ skipn (S k) cs).
      apply at_element; auto. apply IH; [lia|lia| |auto]. intros j Hj. injection Hj as <-. auto. }
  induction n as [|n IH]; intros k Hn Hk Hp He.
  - assert (k = length cs) by lia. subst k. rewrite skipn_all. unfold from. rewrite Nat.sub_diag. constructor.
  - destruct (nth_error cs k) as [e|] eqn:E.
    2:{ apply nth_error_None in E. assert (k = length cs) by lia. subst k. rewrite skipn_all. unfold from.
        rewrite Nat.sub_diag. constructor. }
    assert (Hlt : k < length cs) by (apply nth_error_Some; congruence).
    destruct (is_comment e) eqn:C.
    + assert (Hek : eol (S k) = false).
      { destruct (eol (S k)) eqn:X; auto. apply eol_inv in X. destruct X as (j & p1 & ? & Ej & F1 & _ & _ & F2 & _).
        injection Ej as <-. congruence. }
      destruct (prv k) eqn:P.
      * pose proof P as P'. apply prv_inv in P'. destruct P' as (c & e2 & P1 & P2 & P3 & P4 & P5 & P6).
        assert (c = e) by congruence. subst c.
        rewrite (skipn_step k e E), (from_step k e E). unfold attach_at at 1. rewrite E, P. cbn [orb app].
        change (e :: skipn (S k) cs) with ([e] ++ skipn (S k) cs).
        eapply (EL n IH (S k) e2 [e] (unmark (text_of e))); eauto; [lia|right; eauto 10|].
        unfold attach_at. rewrite P2, P, E, Hek.
        assert (Hpk : prv (S k) = false).
        { destruct (prv (S k)) eqn:X; auto. apply prv_inv in X. destruct X as (c & ? & X & _ & X1 & _). congruence. }
        rewrite Hpk. cbn [orb]. eexists; reflexivity.
      * rewrite (skipn_step k e E), (from_step k e E). unfold attach_at at 1. rewrite E, P, He, Hek. cbn [orb].
        assert (A : match k with 0 => None | S j => if prv j then Some j else None end = None).
        { destruct k; auto. rewrite Hp; auto. }
        rewrite A. cbn [app]. apply at_free; auto. apply IH; [lia|lia| |auto]. intros j Hj. injection Hj as <-. auto.
    + change (skipn k cs) with ([] ++ skipn k cs). eapply (EL n IH k e [] []); eauto.
      unfold attach_at. rewrite E.
      assert (A : match k with 0 => None | S j => if prv j then Some j else None end = None).
      { destruct k; auto. rewrite Hp; auto. }
      rewrite A, He.
      assert (Hpk : prv k = false).
      { destruct (prv k) eqn:X; auto. apply prv_inv in X. destruct X as (c & ? & X & _ & X1 & _). congruence. }
      rewrite Hpk. cbn [orb]. eexists; reflexivity.
Qed.
Lemma attach_spec : attaches cs (attach cs st).
Proof.
  change cs with (skipn 0 cs) at 1. unfold attach. replace (length cs) with (length cs - 0) by lia.
  apply (attach_from (length cs) 0); try lia; auto.
Qed.
End Attach.
