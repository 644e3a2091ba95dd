(** Proofs: no comment line is lost; comments stay comments. *)
From Coq Require Import ZArith.
From Verif Require Import PyStr PyStrLemmas RegionsModel TextModel CommentModel CommentSpec CommentProofs CommentProofs2 CommentProofs3.

Definition all_texts (l : list elem) : list str :=
  flat_map (fun c => if is_comment c then lines (text_of c) else []) l.
Definition nz (l : list str) : list str := filter nonempty l.
Lemma nz_app a b : nz (a ++ b) = nz a ++ nz b.
Proof. apply filter_app. Qed.
Lemma all_texts_app a b : all_texts (a ++ b) = all_texts a ++ all_texts b.
Proof. unfold all_texts. apply flat_map_app. Qed.
Lemma attaches_texts l r : attaches l r ->
  Forall (fun c => is_comment c = true -> unmark (text_of c) = text_of c) l ->
  nz (flat_map comment_lines r) = nz (all_texts l).
Proof.
  induction 1 as [|c cs r st Hc A IH|above e behind cs r p q st He Ha Hb A IH]; intros F; auto.
  - inversion_clear F. cbn [flat_map all_texts]. rewrite !nz_app, IH by auto. unfold comment_lines at 1. cbn [a_elem].
    change (flat_map (fun c0 => if is_comment c0 then lines (text_of c0) else []) cs) with (all_texts cs).
    rewrite Hc. auto.
  - rewrite !Forall_app in F. destruct F as (F1 & F2 & F3 & F4).
    cbn [flat_map]. rewrite !all_texts_app, !nz_app, IH by auto.
    unfold comment_lines at 1. cbn [a_elem a_previous a_eol]. rewrite He, nz_app, <- !app_assoc.
    assert (E1 : nz (lines p) = nz (all_texts above)).
    { destruct Ha as [(-> & ->)|(c & -> & Hc & _ & ->)]; [reflexivity|]. inversion_clear F1. unfold all_texts. cbn [flat_map].
      rewrite H, Hc, app_nil_r by auto. auto. }
    assert (E2 : nz (lines q) = nz (all_texts behind)).
    { destruct Hb as [(-> & ->)|(c & -> & Hc & _ & ->)]; [reflexivity|]. unfold all_texts. cbn [flat_map].
      rewrite Hc, app_nil_r by auto. auto. }
    rewrite E1, E2. assert (E3 : all_texts [e] = []) by (unfold all_texts; cbn [flat_map]; rewrite He; auto).
    rewrite E3. reflexivity.
Qed.

Lemma contains_unlines sub ls : ~ In nl sub -> sub <> [] ->
  Forall (fun l => contains sub l = false) ls -> contains sub (unlines ls) = false.
Proof.
  intros Hn Hs H. induction H as [|l ls Hl H IH]; [destruct sub; [congruence|reflexivity]|].
  destruct ls as [|l' ls]; [cbn; auto|]. unfold unlines in *. rewrite join_cons. apply contains_sep; auto.
Qed.
Lemma mark_no_nl : ~ In nl empty_line_comment.
Proof. intros H. vm_compute in H. intuition discriminate. Qed.

Lemma group_text g e : merged g e -> run g -> is_comment e = true -> Forall simple_comment g ->
  text_of (cleaned e) = unlines (map comment_body g) /\ Forall (fun x => ~ In nl x) (map comment_body g) /\
  Forall (fun x => contains empty_line_comment x = false) (map comment_body g).
Proof.
  intros M R C S. destruct (merged_comment g e M R) as (_ & Hc). specialize (Hc C).
  destruct g as [|c g]; [destruct R|]. destruct M as (T1 & T2 & T3 & T4 & T5 & T6).
  assert (B : Forall (fun c => exists x, etext c = Some ($"//" ++ x) /\ comment_body c = x /\ ~ In nl x /\
     startswith $"//" (lstrip x) = false /\ contains $"_SRCML_LINEFEED" x = false /\ contains empty_line_comment x = false) (c :: g)).
  { clear - S Hc. rewrite Forall_forall in *. intros z I. destruct (S z I (Hc z I)) as (x & E & H). exists x.
    split; auto. split; auto. unfold comment_body, text_of. rewrite E. reflexivity. }
  assert (E : etext e = Some (join linefeed_token (($"//" ++ comment_body c) :: map comment_body g))).
  { inversion_clear B as [|? ? (x & Ex & Bx & _) B']. destruct g as [|c' g].
    - rewrite (T5 eq_refl), Ex, Bx. reflexivity.
    - rewrite T6 by discriminate. f_equal. f_equal. f_equal; [unfold text_of; rewrite Ex, Bx; auto|].
      apply map_ext_in. intros z I. rewrite Forall_forall in B'. destruct (B' z I) as (y & Ey & By & _).
      unfold text_of. rewrite Ey, By. unfold without_slashes. rewrite startswith_app. reflexivity. }
  assert (P : Forall (fun x => ~ In nl x /\ startswith $"//" (lstrip x) = false /\ contains $"_SRCML_LINEFEED" x = false /\
     contains empty_line_comment x = false) (map comment_body (c :: g))).
  { apply Forall_map. eapply Forall_impl; [|exact B]. intros z (x & _ & -> & H). exact H. }
  clear B. split; [|split; eapply Forall_impl; try exact P; cbn; tauto].
  unfold cleaned, clean. rewrite C, E. cbn [fst text_of etext].
  cbn [map] in *. inversion_clear P as [|? ? P1 P2]. apply cpp_texts.
  - tauto.
  - eapply Forall_impl; [|exact P2]. cbn. tauto.
  - constructor; [tauto|]. eapply Forall_impl; [|exact P2]. cbn. tauto.
Qed.

Lemma no_line_lost cs r : get_children_with_comments cs = Some r -> Forall simple_comment cs ->
  filter nonempty (flat_map comment_lines r) = filter nonempty (map comment_body (filter is_comment cs)).
Proof.
  intros H S. destruct (children_attached cs r H) as (gs & es & A & B & C & _ & D). subst cs.
  change (filter nonempty) with nz.
  assert (K : all_texts (map cleaned es) = map comment_body (filter is_comment (concat gs)) /\
     Forall (fun c => is_comment c = true -> unmark (text_of c) = text_of c) (map cleaned es)).
  { clear - B C S. revert C S. induction B as [|g e gs es M B IH]; intros C S; [split; [auto|constructor]|].
    cbn [concat] in S. apply Forall_app in S. destruct S as (S1 & S2). inversion_clear C as [|? ? C1 C2].
    destruct (IH C2 S2) as (I1 & I2). cbn [map concat]. rewrite filter_app, map_app, <- I1.
    change (cleaned e :: map cleaned es) with ([cleaned e] ++ map cleaned es). rewrite all_texts_app.
    destruct (merged_comment g e M C1) as (M1 & M2). destruct (is_comment e) eqn:E.
    - specialize (M2 eq_refl). destruct (group_text g e M C1 E S1) as (T & N & U).
      assert (F : filter is_comment g = g).
      { clear - M2. induction M2 as [|x l Hx M2 IH]; auto. cbn. rewrite Hx, IH. auto. }
      rewrite F. unfold all_texts at 1. cbn [flat_map]. rewrite cleaned_comment, E, app_nil_r, T. split.
      + f_equal. apply lines_unlines; auto. destruct g; [destruct C1|discriminate].
      + apply Forall_cons; auto. intros _. rewrite T. unfold unmark. destruct (contains [nl] (unlines _)); auto.
        apply replace_no_occ. apply contains_unlines; auto; [apply mark_no_nl|discriminate].
    - specialize (M1 eq_refl). subst g. cbn [filter]. rewrite E. unfold all_texts at 1. cbn [flat_map].
      rewrite cleaned_comment, E. split; auto. apply Forall_cons; auto. rewrite cleaned_comment. congruence. }
  destruct K as (K1 & K2). rewrite <- K1. apply attaches_texts; auto.
Qed.

(** *** Comment lines *)

Lemma rstrip_no_nl l : ~ In nl l -> ~ In nl (rstrip l).
Proof. intros Hl I. destruct (rstrip_split l) as (w & W & _). apply Hl. rewrite W. apply in_or_app; auto. Qed.
Lemma comment_line_rstrip l : comment_line l -> comment_line (rstrip l).
Proof.
  intros (a & b & -> & Ha & N). exists a, (rstrip b). split; [apply rstrip_keep; reflexivity|]. split; auto.
  apply rstrip_no_nl; auto.
Qed.
Lemma comment_line_indent i l : Forall (fun c => c = sp) i -> comment_line l -> comment_line (indent_line i true l).
Proof.
  intros Hi H. pose proof (comment_line_rstrip _ H) as (a & b & E & Ha & N).
  destruct l as [|c l]; [destruct H as (x & y & E1 & _); destruct x; discriminate|].
  cbn [indent_line]. exists (i ++ a), b. rewrite E, <- app_assoc. split; auto. split.
  - apply Forall_app. split; auto. eapply Forall_impl; [|exact Hi]. intros ? ->. reflexivity.
  - intros I. apply in_app_iff in I. rewrite <- E in I. destruct I as [I|I]; [|auto].
    rewrite Forall_forall in Hi. apply Hi in I. discriminate.
Qed.
Lemma comment_line_sharp l : ~ In nl l -> comment_line ("#"%char :: l).
Proof. intros N. exists [], l. repeat split; auto. intros [E|I]; [discriminate|auto]. Qed.
Lemma dropwhile_in {A} f (l : list A) x : In x (dropwhile f l) -> In x l.
Proof. destruct (dropwhile_split f l) as (a & E & _). intros I. rewrite E. apply in_or_app; auto. Qed.

Section C36.
Variable strip_empty reproduce : bool.
Variable replacements : str -> str.
Lemma add_sharp_line l : ~ In nl l -> comment_line (add_sharp reproduce l).
Proof.
  intros N. unfold add_sharp. destruct reproduce.
  - apply comment_line_sharp; auto.
  - change ($"# " ++ lstrip l) with ("#"%char :: sp :: lstrip l). apply comment_line_sharp.
    intros [E|I]; [discriminate|]. apply N. unfold lstrip in I. eapply dropwhile_in; eauto.
Qed.
Lemma free_lines c : Forall comment_line (free_comment_lines strip_empty reproduce replacements c).
Proof.
  unfold free_comment_lines. apply Forall_map. eapply Forall_impl; [|apply lines_no_nl]. intros. apply add_sharp_line; auto.
Qed.
Lemma previous_lines c : Forall comment_line (comment_python_previous_lines strip_empty reproduce replacements c).
Proof.
  unfold comment_python_previous_lines. destruct (comment_apply_replacements _ _ _) as [|x t]; auto.
  apply Forall_map, Forall_map. eapply Forall_impl; [|apply lines_no_nl]. intros. apply comment_line_rstrip, add_sharp_line; auto.
Qed.
Lemma original_lines show code : Forall comment_line (original_code_lines show code).
Proof.
  unfold original_code_lines. destruct show; auto. destruct (strip_empty_lines code) as [|x t]; auto.
  pose proof (lines_no_nl (x :: t)) as N. destruct (lines (x :: t)) as [|l ls]; [constructor|].
  change (Forall comment_line ((($"# " ++ l) ++ $"    /* original C++ signature */") :: map (fun l => $"# " ++ l) ls)).
  inversion_clear N. constructor.
  - apply (comment_line_sharp (sp :: l ++ _)). cbn [In]. rewrite in_app_iff. intros [E|[I|I]]; [discriminate|auto|].
    vm_compute in I. intuition discriminate.
  - apply Forall_map. eapply Forall_impl; [|exact H0]. intros a Ha. apply (comment_line_sharp (sp :: a)).
    intros [E|I]; [discriminate|auto].
Qed.
Lemma macro_lines code p e : Forall comment_line (condition_macro_lines strip_empty reproduce replacements code p e).
Proof.
  unfold condition_macro_lines. apply Forall_app. split; [apply previous_lines|]. apply Forall_map.
  eapply Forall_impl; [|apply lines_no_nl]. intros a Ha. apply (comment_line_sharp (sp :: a)).
  intros [E|I]; [discriminate|auto].
Qed.
Lemma unlines_single l : unlines [l] = l.
Proof. reflexivity. Qed.
Lemma eol_no_nl e : (forall s, ~ In nl s -> ~ In nl (replacements s)) -> ~ In nl e ->
  comment_python_end_of_line strip_empty replacements e = [] \/
  exists r, comment_python_end_of_line strip_empty replacements e = $"  #" ++ r /\ r <> [] /\ ~ In nl r.
Proof.
  intros Hr He. unfold comment_python_end_of_line.
  assert (N : ~ In nl (comment_apply_replacements strip_empty replacements e)).
  { unfold comment_apply_replacements.
    assert (L : lines e = [e]).
    { rewrite <- (unlines_single e) at 1. apply lines_unlines; [discriminate|auto]. }
    rewrite L.
    assert (S : exists k, (if strip_empty then strip_empty_lines_in_list [e] else [e]) = k /\ (k = [] \/ k = [e])).
    { destruct strip_empty; [|eauto]. eexists. split; [reflexivity|].
      unfold strip_empty_lines_in_list. cbn. destruct (blank e); cbn; auto; try (destruct (blank e); auto). }
    destruct S as (k & -> & [->| ->]); [auto|]. apply Hr. cbn. apply rstrip_no_nl; auto. }
  destruct (comment_apply_replacements _ _ _) as [|c t]; auto. right. exists (c :: t). split; auto. split; [discriminate|auto].
Qed.
End C36.

Lemma mark_lines code : exists ls, lines (mark_empty_lines code) = ls /\ length ls = length (lines code) /\
  forall i l, nth_error (lines code) i = Some l ->
    (blank l = true -> nth_error ls i = Some empty_line_comment) /\ (blank l = false -> nth_error ls i = Some l).
Proof.
  exists (map (fun l => if blank l then empty_line_comment else l) (lines code)). split; [|split].
  - unfold mark_empty_lines. apply lines_unlines.
    + intros E. apply map_eq_nil in E. destruct (lines_nonempty _ E).
    + apply Forall_map. eapply Forall_impl; [|apply lines_no_nl]. intros l H. destruct (blank l); auto. apply mark_no_nl.
  - apply map_length.
  - intros i l H. rewrite (map_nth_error _ _ _ H). destruct (blank l); split; congruence.
Qed.
