(** Proofs: what attaching gives, and the texts of grouped comments. *)
From Coq Require Import ZArith.
From Verif Require Import PyStr PyStrLemmas CommentModel CommentSpec CommentProofs.
From Verif Require TemplateProofs3.

Lemma attaches_elements cs r : attaches cs r ->
  map a_elem (filter (fun a => negb (is_comment (a_elem a))) r) = filter (fun e => negb (is_comment e)) cs.
Proof.
  induction 1 as [|c cs r s Hc H IH|above e behind cs r p q s He Ha Hb H IH]; auto.
  - cbn [filter a_elem]. rewrite Hc. auto.
  - assert (G : forall l, l = [] \/ (exists c, l = [c] /\ is_comment c = true) -> filter (fun e => negb (is_comment e)) l = []).
    { intros l [->|(c & -> & Hc)]; auto. cbn. rewrite Hc. auto. }
    rewrite !filter_app. cbn [filter a_elem]. rewrite He. cbn [negb map a_elem].
    rewrite (G above), (G behind).
    + cbn. f_equal. auto.
    + destruct Hb as [(-> & _)|(c & -> & Hc & _)]; eauto.
    + destruct Ha as [(-> & _)|(c & -> & Hc & _)]; eauto.
Qed.

Section Positive.
Variable cs : list elem.
Variable st : list bool.
Lemma attach_in i a : In a (attach_at cs st i) -> In a (attach cs st).
Proof.
  intros H. apply in_flat_map. exists i. split; auto. apply in_seq.
  assert (i < length cs); [|lia]. apply nth_error_Some. intros C. unfold attach_at in H. rewrite C in H. destruct H.
Qed.
Lemma not_prv_element i e : nth_error cs i = Some e -> is_comment e = false -> is_comment_on_previous_line cs i = false.
Proof.
  intros H C. destruct (is_comment_on_previous_line cs i) eqn:E; auto. apply prv_inv in E.
  destruct E as (c & ? & E & _ & E1 & _). congruence.
Qed.
Lemma not_eol_element i e : nth_error cs i = Some e -> is_comment e = false -> is_comment_end_of_line cs i = false.
Proof.
  intros H C. destruct (is_comment_end_of_line cs i) eqn:E; auto. apply eol_inv in E.
  destruct E as (? & ? & c & _ & _ & E & E1 & _). congruence.
Qed.
End Positive.
Lemma nth_mid {A} (a b : list A) x : nth_error (a ++ x :: b) (length a) = Some x.
Proof. rewrite nth_error_app2 by lia. rewrite Nat.sub_diag. auto. Qed.
Lemma nth_mid2 {A} (a b : list A) x y : nth_error (a ++ x :: y :: b) (S (length a)) = Some y.
Proof. rewrite nth_error_app2 by lia. replace (S (length a) - length a) with 1 by lia. auto. Qed.
Lemma nth_mid3 {A} (a b : list A) x y : nth_error (a ++ x :: y :: b) (S (S (length a))) = hd_error b.
Proof.
  rewrite nth_error_app2 by lia. replace (S (S (length a)) - length a) with 2 by lia. cbn. destruct b; auto.
Qed.

Lemma eol_attached pre e c post st :
  is_comment e = false -> is_comment c = true -> e_start c = e_end e ->
  contains empty_line_content (text_of c) = false ->
  exists p s, In (Attached e p (text_of c) s) (attach (pre ++ e :: c :: post) st).
Proof.
  intros He Hc Hp Hm. set (cs := pre ++ e :: c :: post).
  assert (N1 : nth_error cs (length pre) = Some e) by apply nth_mid.
  assert (N2 : nth_error cs (S (length pre)) = Some c) by apply nth_mid2.
  assert (E : is_comment_end_of_line cs (S (length pre)) = true).
  { unfold is_comment_end_of_line. rewrite N1, N2, He, Hc, Hm. cbn. apply Z.eqb_eq. auto. }
  eexists _, _. apply (attach_in _ _ (length pre)). unfold attach_at at 1. rewrite N1.
  rewrite (not_prv_element cs _ e N1 He), (not_eol_element cs _ e N1 He), E, N2. cbn [orb]. left. reflexivity.
Qed.
Lemma previous_attached pre c e post st :
  is_comment c = true -> is_comment e = false -> (e_end c + 1 = e_start e)%Z ->
  text_of c <> sp :: empty_line_content ->
  (forall x, hd_error (rev pre) = Some x -> is_comment x = true \/ e_end x <> e_start c) ->
  (forall x, hd_error post = Some x ->
     ~ (tag x = tag e /\ (e_end e + 1 = e_start x)%Z) /\ ~ (is_comment x = true /\ e_start x = e_end e)) ->
  exists q s, In (Attached e (unmark (text_of c)) q s) (attach (pre ++ c :: e :: post) st).
Proof.
  intros Hc He Hp Hm Hpre Hpost. set (cs := pre ++ c :: e :: post).
  assert (N1 : nth_error cs (length pre) = Some c) by apply nth_mid.
  assert (N2 : nth_error cs (S (length pre)) = Some e) by apply nth_mid2.
  assert (N3 : nth_error cs (S (S (length pre))) = hd_error post) by apply nth_mid3.
  assert (E : is_comment_end_of_line cs (length pre) = false).
  { unfold is_comment_end_of_line. destruct pre as [|x pre _] using rev_ind; auto.
    rewrite app_length in *. replace (length pre + length [x]) with (S (length pre)) in * by (cbn; lia).
    assert (N0 : nth_error cs (length pre) = Some x).
    { unfold cs. rewrite <- app_assoc. apply nth_mid. }
    rewrite N0, N1, Hc. specialize (Hpre x). rewrite rev_app_distr in Hpre. destruct (Hpre eq_refl) as [H|H].
    - rewrite H. auto.
    - assert (Z0 : (e_start c =? e_end x)%Z = false) by (apply Z.eqb_neq; auto). rewrite Z0, andb_false_r. auto. }
  assert (P : is_comment_on_previous_line cs (length pre) = true).
  { unfold is_comment_on_previous_line. rewrite E.
    replace (length pre + 1) with (S (length pre)) by lia. replace (length pre + 2) with (S (S (length pre))) by lia.
    assert (Gr : is_group_comment cs (length pre) = false).
    { unfold is_group_comment.
      replace (length pre + 1) with (S (length pre)) by lia. replace (length pre + 2) with (S (S (length pre))) by lia.
      rewrite N1, N2, N3. destruct (hd_error post) as [x|]; auto. destruct (Hpost x eq_refl) as (H1 & _).
      destruct (is_comment c && seqb (tag e) (tag x) && ((e_end c + 1 =? e_start e) && (e_end e + 1 =? e_start x))%Z) eqn:X; auto.
      rewrite !andb_true_iff, !Z.eqb_eq in X. destruct X as ((_ & X1) & (_ & X2)).
      destruct (seqb_spec (tag e) (tag x)); [|discriminate]. destruct H1. auto. }
    rewrite Gr, N1, N2, N3, Hc, He. cbn [negb andb].
    destruct (seqb_spec (text_of c) (sp :: empty_line_content)); [congruence|]. cbn [negb andb].
    assert (Z0 : (e_end c + 1 =? e_start e)%Z = true) by (apply Z.eqb_eq; auto). rewrite Z0. cbn [andb].
    destruct (hd_error post) as [x|]; auto. destruct (Hpost x eq_refl) as (_ & H2).
    destruct (is_comment x) eqn:Cx; auto. destruct (e_start x =? e_end e)%Z eqn:Zx; auto.
    apply Z.eqb_eq in Zx. destruct H2. auto. }
  eexists _, _. apply (attach_in _ _ (S (length pre))). unfold attach_at at 1. rewrite N2, P, N1.
  rewrite (not_prv_element cs _ e N2 He), (not_eol_element cs _ e N2 He). cbn [orb]. left. reflexivity.
Qed.
(** A comment above several elements of the same kind is free. *)
Lemma group_comment_free pre c e1 e2 post st :
  is_comment c = true -> is_comment e1 = false -> tag e1 = tag e2 ->
  (e_end c + 1 = e_start e1)%Z -> (e_end e1 + 1 = e_start e2)%Z ->
  (forall x, hd_error (rev pre) = Some x -> is_comment x = true \/ e_end x <> e_start c) ->
  exists p q s, In (Attached c p q s) (attach (pre ++ c :: e1 :: e2 :: post) st).
Proof.
  intros Hc He Ht H1 H2 Hpre. set (cs := pre ++ c :: e1 :: e2 :: post).
  assert (N1 : nth_error cs (length pre) = Some c) by apply nth_mid.
  assert (N2 : nth_error cs (S (length pre)) = Some e1) by apply nth_mid2.
  assert (N3 : nth_error cs (S (S (length pre))) = Some e2) by apply (nth_mid3 pre (e2 :: post)).
  assert (E : is_comment_end_of_line cs (length pre) = false).
  { unfold is_comment_end_of_line. destruct pre as [|x pre _] using rev_ind; auto.
    rewrite app_length in *. replace (length pre + length [x]) with (S (length pre)) in * by (cbn; lia).
    assert (N0 : nth_error cs (length pre) = Some x).
    { unfold cs. rewrite <- app_assoc. apply nth_mid. }
    rewrite N0, N1, Hc. specialize (Hpre x). rewrite rev_app_distr in Hpre. destruct (Hpre eq_refl) as [H|H].
    - rewrite H. auto.
    - assert (Z0 : (e_start c =? e_end x)%Z = false) by (apply Z.eqb_neq; auto). rewrite Z0, andb_false_r. auto. }
  assert (P : is_comment_on_previous_line cs (length pre) = false).
  { unfold is_comment_on_previous_line. rewrite E. unfold is_group_comment.
    replace (length pre + 1) with (S (length pre)) by lia. replace (length pre + 2) with (S (S (length pre))) by lia.
    rewrite N1, N2, N3, Hc, Ht, seqb_refl.
    assert (Z1 : (e_end c + 1 =? e_start e1)%Z = true) by (apply Z.eqb_eq; auto).
    assert (Z2 : (e_end e1 + 1 =? e_start e2)%Z = true) by (apply Z.eqb_eq; auto). rewrite Z1, Z2. auto. }
  eexists _, _, _. apply (attach_in _ _ (length pre)). unfold attach_at at 1. rewrite N1, P, E. cbn [orb]. left. reflexivity.
Qed.

(** *** Texts of grouped comments *)

Lemma replace_first old new a b : old <> [] -> contains old (a ++ removelast old) = false ->
  replace old new (a ++ old ++ b) = a ++ new ++ replace old new b.
Proof.
  intros Ho. induction a as [|c a IH]; intros H.
  - cbn [app]. apply replace_occ; auto.
  - cbn [app] in *. rewrite replace_cons.
    + rewrite IH; auto. apply contains_false. intros x y E. apply (proj1 (contains_false _ _)) with (a := c :: x) (b := y) in H.
      apply H. cbn. rewrite E. auto.
    + destruct (startswith old (c :: a ++ old ++ b)) eqn:S; auto. apply startswith_true in S. destruct S as (r & E).
      (* the occurrence ends before the last character of the next one *)
      exfalso. destruct (exists_last Ho) as (o & z & Eo).
      assert (R : removelast old = o) by (rewrite Eo, removelast_last; auto). rewrite R in H.
      assert (L : length old <= length (c :: a ++ o)).
      { rewrite Eo. cbn. rewrite !app_length. cbn. lia. }
      assert (F : firstn (length old) (c :: a ++ o) = old).
      { apply (f_equal (firstn (length old))) in E.
        rewrite (firstn_app (length old) old r), Nat.sub_diag, firstn_all in E. cbn [firstn] in E. rewrite app_nil_r in E.
        rewrite <- E at 2. 
        replace (c :: a ++ old ++ b) with ((c :: a ++ o) ++ z :: b) by (rewrite Eo; cbn; rewrite <- !app_assoc; auto).
        rewrite firstn_app. replace (length old - length (c :: a ++ o)) with 0 by lia. cbn [firstn]. rewrite app_nil_r. auto. }
      apply (proj1 (contains_false _ _)) with (a := []) (b := skipn (length old) (c :: a ++ o)) in H.
      apply H. cbn [app]. rewrite <- F at 1. symmetry. apply firstn_skipn.
Qed.
Lemma app_prefix {A} (q : list A) : forall a b y, a ++ b = q ++ y -> length q <= length a -> exists z, a = q ++ z.
Proof.
  induction q as [|c q IH]; intros a b y E L; [exists a; auto|].
  destruct a as [|d a]; [cbn in L; lia|]. cbn in E. inversion E; subst.
  destruct (IH a b y) as (z & ->); auto; [cbn in L; lia|]. exists z; auto.
Qed.
Lemma no_token a : contains $"_SRCML_LINEFEED" a = false -> contains linefeed_token (a ++ removelast linefeed_token) = false.
Proof.
  intros H. apply contains_false. intros x y E.
  assert (L : length x < length a).
  { apply (f_equal (@length ascii)) in E. rewrite !app_length in E. cbn in E. lia. }
  destruct (app_prefix _ _ _ _ E) as (a' & ->); [lia|]. rewrite <- app_assoc in E. apply app_inv_head in E.
  destruct (Nat.le_gt_cases (length $"_SRCML_LINEFEED") (length a')) as [G|G].
  - change (linefeed_token ++ y) with ($"_SRCML_LINEFEED" ++ $"_" ++ y) in E.
    destruct (app_prefix _ _ _ _ E G) as (z & ->).
    apply (proj1 (contains_false _ _)) with (a := x) (b := z) in H. apply H. auto.
  - rewrite app_length in L. cbn in E.
    do 15 (destruct a' as [|? a']; [cbn in L; (lia || discriminate E)|cbn in E; injection E as -> E]).
    cbn in G. lia.
Qed.
Lemma replace_tokens ts : Forall (fun t => contains $"_SRCML_LINEFEED" t = false) ts ->
  replace linefeed_token [nl] (join linefeed_token ts) = unlines ts.
Proof.
  assert (W : forall t, contains $"_SRCML_LINEFEED" t = false -> contains linefeed_token t = false).
  { intros t H. apply contains_false. intros a b ->. apply (proj1 (contains_false _ _)) with (a := a) (b := $"_" ++ b) in H.
    apply H. reflexivity. }
  induction 1 as [|t ts Ht H IH]; [reflexivity|]. destruct ts as [|t' ts].
  - cbn [join]. unfold unlines. cbn [join]. apply replace_no_occ. auto.
  - rewrite join_cons. unfold unlines. rewrite join_cons. rewrite replace_first by (discriminate || (apply no_token; auto)).
    rewrite IH. auto.
Qed.

Lemma cpp_texts b bs :
  ~ In nl b -> Forall (fun x => ~ In nl x /\ startswith $"//" (lstrip x) = false) bs ->
  Forall (fun x => contains $"_SRCML_LINEFEED" x = false) (b :: bs) ->
  remove_comment_tokens (join linefeed_token (($"//" ++ b) :: bs)) = unlines (b :: bs).
Proof.
  intros Hb Hbs Ht. unfold remove_comment_tokens.
  assert (Ht' : Forall (fun x => contains $"_SRCML_LINEFEED" x = false) (($"//" ++ b) :: bs)).
  { inversion Ht; subst. constructor; auto. }
  rewrite (replace_tokens _ Ht').
  assert (S : startswith $"/*" (unlines (($"//" ++ b) :: bs)) = false) by (destruct bs; reflexivity).
  rewrite S. cbn [andb]. rewrite lines_unlines.
  - cbn [map]. change (lstrip ($"//" ++ b)) with ($"//" ++ b). rewrite startswith_app. f_equal. cbn [app skipn]. f_equal.
    clear - Hbs. induction Hbs as [|x bs (_ & Hx) H IH]; auto. cbn [map]. rewrite Hx, IH. auto.
  - discriminate.
  - constructor.
    + intros [C|[C|C]]; try discriminate. auto.
    + eapply Forall_impl; [|exact Hbs]. cbn. tauto.
Qed.
Lemma c_text x : contains linefeed_token ($"/*" ++ x ++ $"*/") = false ->
  remove_comment_tokens ($"/*" ++ x ++ $"*/") = x.
Proof.
  intros H. unfold remove_comment_tokens. rewrite replace_no_occ by auto. rewrite startswith_app.
  replace ($"/*" ++ x ++ $"*/") with (($"/*" ++ x) ++ $"*/") by (rewrite <- app_assoc; auto).
  rewrite TemplateProofs3.endswith_app. cbn [andb]. rewrite <- app_assoc.
  change (skipn 2 ($"/*" ++ x ++ $"*/")) with (x ++ $"*/").
  replace (length ($"/*" ++ x ++ $"*/") - 2 - 2) with (length x) by (rewrite !app_length; cbn; lia).
  generalize $"*/". clear. intros y. induction x as [|c x IH]; cbn; auto. rewrite IH. auto.
Qed.

(** The whole: the children, in groups, attached. *)
Lemma children_attached cs r : get_children_with_comments cs = Some r ->
  exists gs es, concat gs = cs /\ Forall2 merged gs es /\ Forall run gs /\ groups_apart (pairs gs es) /\
    attaches (map cleaned es) r.
Proof.
  unfold get_children_with_comments. destruct (group_consecutive_comments cs) as [es|] eqn:E; [|discriminate].
  intros H. inversion H; subst. destruct (grouped cs es E) as (gs & A & B & C & D). exists gs, es. repeat split; auto.
  rewrite !map_map. apply attach_spec.
Qed.
Lemma cleaned_comment e : is_comment (cleaned e) = is_comment e.
Proof. unfold cleaned, clean. destruct (is_comment e) eqn:C; [destruct (etext e)|]; auto. Qed.
Lemma merged_comment g e : merged g e -> run g -> (is_comment e = false -> g = [e]) /\
  (is_comment e = true -> Forall (fun c => is_comment c = true) g).
Proof.
  destruct g as [|c g]; [intros []|]. intros (H1 & H2 & H3 & H4 & H5 & _) R.
  assert (T : is_comment e = is_comment c) by (unfold is_comment; rewrite H1; auto).
  split; intros E.
  - destruct g as [|x g].
    + cbn in H4. specialize (H5 eq_refl). destruct e, c. cbn in *. congruence.
    + destruct R as (R & _). congruence.
  - rewrite T in E. cbn in R. clear - R E. revert c R E. induction g as [|x g IH]; intros c R E; [auto|].
    destruct R as (_ & R1 & _ & _ & _ & R2). constructor; auto.
Qed.
Lemma children_elements cs r : get_children_with_comments cs = Some r ->
  map a_elem (filter (fun a => negb (is_comment (a_elem a))) r) = filter (fun e => negb (is_comment e)) cs.
Proof.
  intros H. destruct (children_attached cs r H) as (gs & es & A & B & C & _ & D).
  rewrite (attaches_elements _ _ D). subst cs. clear - B C.
  induction B as [|g e gs es M B IH]; auto. inversion C; subst. destruct (merged_comment g e M H1) as (M1 & M2).
  cbn [map filter concat]. rewrite cleaned_comment, filter_app. destruct (is_comment e) eqn:E; cbn [negb].
  - specialize (M2 eq_refl). rewrite IH by auto.
    assert (F : filter (fun e0 => negb (is_comment e0)) g = []).
    { clear - M2. induction M2 as [|x g Hx M2 IH]; auto. cbn. rewrite Hx. auto. }
    rewrite F. auto.
  - rewrite (M1 eq_refl). cbn. rewrite E. cbn. rewrite IH by auto. unfold cleaned, clean. rewrite E. auto.
Qed.
