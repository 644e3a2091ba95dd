(** Proofs about the rewriting of generated regions. *)
From Verif Require Import PyStr PyStrLemmas RegionsModel RegionsSpec.

Definition put (ls : list str) : str := flat_map (fun l => l ++ [nl]) ls.

Lemma put_app a b : put (a ++ b) = put a ++ put b.
Proof. apply flat_map_app. Qed.

Lemma put_unlines ls : ls <> [] -> put ls = unlines ls ++ [nl].
Proof.
  unfold unlines. induction ls as [|x ls IH]; [congruence|]. intros _.
  destruct ls as [|y ls].
  - cbn. rewrite app_nil_r. auto.
  - rewrite join_cons. cbn [put flat_map] in *. unfold put in IH. rewrite IH by congruence.
    rewrite <- !app_assoc. reflexivity.
Qed.

Lemma put_lines s : put (lines s) = s ++ [nl].
Proof. rewrite put_unlines by apply lines_nonempty. rewrite unlines_lines. auto. Qed.

Lemma drop_final_put ls : ls <> [] -> drop_final_nl (put ls) = unlines ls.
Proof.
  intros H. rewrite put_unlines by auto. unfold drop_final_nl.
  rewrite rev_app_distr. cbn. apply rev_involutive.
Qed.

(** *** Membership in boolean form *)

Lemma occurs_contains m l : occurs m l <-> contains m l = true.
Proof. rewrite contains_true. reflexivity. Qed.

Lemma opens_b tok l : opens tok l <-> contains (marker_in tok) l = true.
Proof. apply occurs_contains. Qed.

Lemma closes_b tok l : closes tok l <-> contains (marker_out tok) l = true.
Proof. apply occurs_contains. Qed.

Lemma not_opens_b tok l : ~ opens tok l <-> contains (marker_in tok) l = false.
Proof. rewrite opens_b. destruct (contains _ _); split; congruence. Qed.

Lemma not_closes_b tok l : ~ closes tok l <-> contains (marker_out tok) l = false.
Proof. rewrite closes_b. destruct (contains _ _); split; congruence. Qed.

(** *** The loop *)

Lemma gloop_app tok pr s a b :
  gloop tok pr s (a ++ b) =
  match gloop tok pr s a with inl e => inl e | inr s' => gloop tok pr s' b end.
Proof.
  revert s; induction a as [|x a IH]; intros s; cbn [app gloop]; auto.
  destruct (gstep tok pr s x); auto.
Qed.

Lemma gloop_plain_out tok pr ls : Forall (plain tok) ls -> forall o d c,
  gloop tok pr {| g_out := o; g_inside := false; g_done := d; g_code := c |} ls
  = inr {| g_out := o ++ put ls; g_inside := false; g_done := d; g_code := c |}.
Proof.
  induction 1 as [|l ls [Hi Ho] _ IH]; intros o d c; cbn [gloop].
  - cbn. rewrite app_nil_r. auto.
  - unfold gstep. apply not_opens_b in Hi. apply not_closes_b in Ho.
    rewrite Hi. cbn [g_inside g_out g_done g_code]. rewrite Ho. rewrite IH.
    cbn [put flat_map]. rewrite <- !app_assoc. auto.
Qed.

Lemma gloop_plain_in tok pr ls : Forall (plain tok) ls -> forall o d c,
  gloop tok pr {| g_out := o; g_inside := true; g_done := d; g_code := c |} ls
  = inr {| g_out := o; g_inside := true; g_done := d; g_code := c |}.
Proof.
  induction 1 as [|l ls [Hi Ho] _ IH]; intros o d c; cbn [gloop]; auto.
  unfold gstep. apply not_opens_b in Hi. apply not_closes_b in Ho.
  rewrite Hi. cbn [g_inside g_out g_done g_code]. rewrite Ho. apply IH.
Qed.

(** The text inserted in a region whose opening line is [op], when the current text is [c]. *)
Definition inserted (pr : bool) (op c : str) : str :=
  if pr then indent_code c 1 false (Some (spaces_or_tabs_at_line_start op)) true else c.

Lemma gloop_region tok pr r : well_formed_region tok r -> forall o d c,
  gloop tok pr {| g_out := o; g_inside := false; g_done := d; g_code := c |}
        (before r ++ opening r :: generated r ++ [closing r])
  = inr {| g_out := o ++ put (before r ++ opening r :: lines (inserted pr (opening r) c)
                              ++ [closing r]);
           g_inside := false; g_done := true; g_code := inserted pr (opening r) c |}.
Proof.
  intros (Hb & Ho & Hnc & Hg & Hc & Hno) o d c.
  rewrite gloop_app, gloop_plain_out by auto.
  cbn [gloop]. unfold gstep at 1. apply opens_b in Ho. apply not_closes_b in Hnc.
  rewrite Ho, Hnc. cbn [g_inside g_out g_done g_code].
  rewrite gloop_app. fold (inserted pr (opening r) c).
  rewrite gloop_plain_in by auto.
  cbn [gloop]. unfold gstep. apply closes_b in Hc. apply not_opens_b in Hno.
  rewrite Hc, Hno. cbn [g_inside g_out g_done g_code].
  do 2 f_equal. rewrite put_app. change (put (opening r :: ?x)) with ((opening r ++ [nl]) ++ put x).
  rewrite put_app, put_lines. cbn [put flat_map]. rewrite <- !app_assoc. cbn [app].
  reflexivity.
Qed.

(** The regions after rewriting. *)
Fixpoint rewritten (pr : bool) (c : str) (rs : list region) : list region :=
  match rs with
  | [] => []
  | r :: rs' =>
      let c' := inserted pr (opening r) c in
      {| before := before r; opening := opening r; generated := lines c'; closing := closing r |}
        :: rewritten pr c' rs'
  end.

Lemma gloop_regions tok pr rs : Forall (well_formed_region tok) rs -> forall o d c,
  exists c',
  gloop tok pr {| g_out := o; g_inside := false; g_done := d; g_code := c |} (file_lines rs [])
  = inr {| g_out := o ++ put (file_lines (rewritten pr c rs) []); g_inside := false;
           g_done := match rs with [] => d | _ => true end; g_code := c' |}.
Proof.
  unfold file_lines. induction 1 as [|r rs Hr Hrs IH]; intros o d c.
  - exists c. cbn. rewrite app_nil_r. auto.
  - cbn [flat_map rewritten].
    destruct (IH (o ++ put (before r ++ opening r :: lines (inserted pr (opening r) c)
                              ++ [closing r])) true (inserted pr (opening r) c)) as [c' Hc'].
    exists c'. rewrite !app_nil_r in *. rewrite gloop_app, gloop_region by auto. rewrite Hc'.
    cbn [before opening generated closing]. do 2 f_equal.
    + rewrite !put_app, <- !app_assoc. reflexivity.
    + destruct rs; reflexivity.
Qed.

Lemma generated_text_regions tok pr code rs post input :
  rs <> [] -> Forall (well_formed_region tok) rs -> Forall (plain tok) post ->
  lines input = file_lines rs post ->
  generated_text tok code pr input = inr (unlines (file_lines (rewritten pr code rs) post)).
Proof.
  intros Hne Hwf Hpost Hin. unfold generated_text. rewrite Hin.
  unfold file_lines at 1. rewrite gloop_app.
  pose proof (gloop_regions tok pr rs Hwf [] false code) as [c' Hc'].
  unfold file_lines at 1 in Hc'. rewrite app_nil_r in Hc'. rewrite Hc'.
  rewrite gloop_plain_out by auto. cbn [g_done g_out].
  destruct rs as [|r rs]; [congruence|].
  f_equal. cbn [app]. rewrite <- put_app.
  assert (E : file_lines (rewritten pr code (r :: rs)) [] ++ post
              = file_lines (rewritten pr code (r :: rs)) post)
    by (unfold file_lines; rewrite app_nil_r; auto).
  rewrite E. apply drop_final_put. unfold file_lines. cbn [rewritten flat_map].
  destruct (before _); discriminate.
Qed.

Lemma rewritten_user pr c rs post : user_lines (rewritten pr c rs) post = user_lines rs post.
Proof.
  unfold user_lines. f_equal. revert c; induction rs as [|r rs IH]; intros c; cbn; auto.
  rewrite IH. auto.
Qed.

Lemma rewritten_no_nl pr c rs post :
  Forall (fun l => ~ In nl l) (file_lines rs post) ->
  Forall (fun l => ~ In nl l) (file_lines (rewritten pr c rs) post).
Proof.
  unfold file_lines. rewrite !Forall_app. intros [H Hp]. split; auto. revert c H. clear.
  induction rs as [|r rs IH]; intros c; cbn [rewritten flat_map]; auto.
  cbn [before opening generated closing].
  rewrite !Forall_app, !Forall_cons_iff, !Forall_app. intros ((H1 & H2 & _ & H3) & H4).
  repeat split; auto. apply lines_no_nl.
Qed.

Lemma file_lines_nonempty rs post : rs <> [] -> file_lines rs post <> [].
Proof.
  destruct rs as [|r rs]; [congruence|]. unfold file_lines. cbn [flat_map].
  destruct (before r); discriminate.
Qed.

Lemma rewritten_nonempty pr c rs : rs <> [] -> rewritten pr c rs <> [].
Proof. destruct rs; cbn; congruence. Qed.

Lemma seqb_if (a b : str) :
  (if seqb a b then {| r_error := None; r_file := Some b; r_written := false |}
   else {| r_error := None; r_file := Some a; r_written := true |})
  = {| r_error := None; r_file := Some a; r_written := negb (seqb a b) |}.
Proof. destruct (seqb_spec a b); subst; auto. Qed.

Lemma run_regions tok pr code rs post input :
  rs <> [] -> Forall (well_formed_region tok) rs -> Forall (plain tok) post ->
  lines input = file_lines rs post ->
  exists output,
    write_generated_code_between_markers (Some input) tok code pr
    = {| r_error := None; r_file := Some output; r_written := negb (seqb output input) |}
    /\ lines output = file_lines (rewritten pr code rs) post.
Proof.
  intros Hne Hwf Hpost Hin. unfold write_generated_code_between_markers.
  rewrite (generated_text_regions tok pr code rs post input) by auto.
  eexists. split; [apply seqb_if|].
  apply lines_unlines.
  - apply file_lines_nonempty, rewritten_nonempty; auto.
  - apply rewritten_no_nl. rewrite <- Hin. apply lines_no_nl.
Qed.

(** Any number of regions: the user's lines survive. *)
Lemma user_text_kept tok pr code rs post input :
  rs <> [] -> Forall (well_formed_region tok) rs -> Forall (plain tok) post ->
  lines input = file_lines rs post ->
  exists output rs',
    r_error (write_generated_code_between_markers (Some input) tok code pr) = None /\
    r_file (write_generated_code_between_markers (Some input) tok code pr) = Some output /\
    lines output = file_lines rs' post /\
    Forall2 (fun r r' => before r' = before r /\ opening r' = opening r /\ closing r' = closing r)
            rs rs'.
Proof.
  intros Hne Hwf Hpost Hin.
  destruct (run_regions tok pr code rs post input) as (out & E & L); auto.
  exists out, (rewritten pr code rs). rewrite E. cbn [r_error r_file].
  repeat split; auto.
  clear. revert code. induction rs as [|r rs IH]; intros c; cbn; constructor; auto.
Qed.

(** *** Indentation of the inserted code *)

Lemma takewhile_indentation l : is_indentation (spaces_or_tabs_at_line_start l) l.
Proof.
  unfold is_indentation, spaces_or_tabs_at_line_start.
  set (f := fun c => ceqb c sp || ceqb c tab).
  exists (dropwhile f l). repeat split.
  - symmetry. apply takewhile_dropwhile.
  - pose proof (takewhile_Forall f l) as H. eapply Forall_impl; [|exact H].
    intros c Hc. unfold f in Hc. apply orb_true_iff in Hc. rewrite !ceqb_true in Hc. auto.
  - pose proof (dropwhile_head f l) as H. destruct (dropwhile f l); auto.
    unfold f in H. apply orb_false_iff in H. rewrite !ceqb_false in H. tauto.
Qed.

Lemma is_indentation_unique a b l : is_indentation a l -> is_indentation b l -> a = b.
Proof.
  intros (ra & Ea & Fa & Ha) (rb & Eb & Fb & Hb). subst l. revert b rb Eb Fb Hb.
  induction a as [|x a IH]; intros [|y b] rb Eb Fb Hb; auto; cbn in Eb.
  - subst ra. inversion Fb; subst. intuition.
  - subst rb. inversion Fa; subst. intuition.
  - inversion Eb; subst. inversion Fa; inversion Fb; subst. f_equal. eapply IH; eauto.
Qed.

Lemma rstrip_decomp l : exists trailing, l = rstrip l ++ trailing /\
  Forall (fun c => is_space c = true) trailing /\
  match rev (rstrip l) with [] => True | c :: _ => is_space c = false end.
Proof.
  exists (rev (takewhile is_space (rev l))). unfold rstrip. repeat split.
  - rewrite <- rev_app_distr, takewhile_dropwhile, rev_involutive. auto.
  - apply rev_Forall, takewhile_Forall.
  - rewrite rev_involutive. apply dropwhile_head.
Qed.

Lemma indent_line_spec ind l : indented ind l (indent_line ind true l).
Proof.
  destruct l as [|c l]; [left; auto|]. right. split; [congruence|].
  destruct (rstrip_decomp (c :: l)) as (t & E & F & H).
  exists (rstrip (c :: l)), t. auto.
Qed.

Lemma Forall2_map_r {A B} (R : A -> B -> Prop) f l :
  (forall x, R x (f x)) -> Forall2 R l (map f l).
Proof. intros H. induction l; cbn; auto. Qed.

Lemma indent_line_no_nl ind b l : ~ In nl ind -> ~ In nl l -> ~ In nl (indent_line ind b l).
Proof.
  intros Hi Hl H. destruct l as [|c l]; [auto|]. cbn [indent_line] in H.
  apply in_app_or in H as [H|H]; [auto|]. destruct b; [|auto].
  destruct (rstrip_decomp (c :: l)) as (t & E & _). apply Hl. rewrite E. apply in_or_app. auto.
Qed.

Lemma lines_indent_code_str ind b s : ~ In nl ind ->
  lines (indent_code_str ind b s) = map (indent_line ind b) (lines s).
Proof.
  intros Hi. unfold indent_code_str. apply lines_unlines.
  - pose proof (lines_nonempty s). destruct (lines s); cbn; congruence.
  - apply Forall_map. eapply Forall_impl; [|apply lines_no_nl].
    intros l Hl. cbn. apply indent_line_no_nl; auto.
Qed.

Lemma indentation_no_nl l : ~ In nl (spaces_or_tabs_at_line_start l).
Proof.
  intros H. pose proof (takewhile_indentation l) as (r & _ & F & _).
  rewrite Forall_forall in F. destruct (F _ H) as [E|E]; discriminate.
Qed.

(** *** C01 *)

Lemma one_region_kept tok pr code pre op gen cl post input :
  Forall (plain tok) pre -> opens tok op -> ~ closes tok op -> Forall (plain tok) gen ->
  closes tok cl -> ~ opens tok cl -> Forall (plain tok) post ->
  lines input = one_region_lines pre op gen cl post ->
  exists output gen',
    r_error (write_generated_code_between_markers (Some input) tok code pr) = None /\
    r_file (write_generated_code_between_markers (Some input) tok code pr) = Some output /\
    lines output = one_region_lines pre op gen' cl post /\
    (if pr then exists ind, is_indentation ind op /\ Forall2 (indented ind) (lines code) gen'
     else gen' = lines code).
Proof.
  intros H1 H2 H3 H4 H5 H6 H7 Hin.
  set (r := {| before := pre; opening := op; generated := gen; closing := cl |}).
  assert (Hwf : well_formed_region tok r) by (repeat split; auto).
  assert (Hf : lines input = file_lines [r] post).
  { rewrite Hin. unfold file_lines, one_region_lines. cbn. rewrite <- !app_assoc. cbn.
    rewrite <- app_assoc. auto. }
  destruct (run_regions tok pr code [r] post input) as (out & E & L); auto; try discriminate.
  exists out, (lines (inserted pr op code)). rewrite E. cbn [r_error r_file].
  repeat split; auto.
  - rewrite L. unfold file_lines, one_region_lines. cbn. rewrite <- !app_assoc. cbn.
    rewrite <- app_assoc. auto.
  - destruct pr; [|reflexivity].
    exists (spaces_or_tabs_at_line_start op). split; [apply takewhile_indentation|].
    unfold inserted, indent_code. rewrite lines_indent_code_str by apply indentation_no_nl.
    apply Forall2_map_r. intros x. apply indent_line_spec.
Qed.

(** *** C02 *)

Lemma occurs_no_indent m c ind l :
  Forall (fun x => x = sp \/ x = tab) ind -> c <> sp -> c <> tab ->
  occurs (c :: m) (ind ++ l) -> occurs (c :: m) l.
Proof.
  intros F Hs Ht (a & b & E). revert a E. induction F as [|x ind Hx F IH]; intros a E; cbn in E.
  - exists a, b; auto.
  - destruct a as [|y a]; cbn in E; inversion E; subst; [intuition|].
    eapply IH; eauto.
Qed.

Lemma occurs_rstrip m l : occurs m (rstrip l) -> occurs m l.
Proof.
  intros (a & b & E). destruct (rstrip_decomp l) as (t & El & _).
  exists a, (b ++ t). rewrite El, E, <- !app_assoc. auto.
Qed.

Lemma plain_indent_line tok ind l :
  Forall (fun x => x = sp \/ x = tab) ind -> plain tok l -> plain tok (indent_line ind true l).
Proof.
  intros F [Ho Hc]. destruct l as [|c l]; [split; auto|]. cbn [indent_line]. split; intros H.
  - apply Ho. apply occurs_rstrip. eapply occurs_no_indent; eauto; discriminate.
  - apply Hc. apply occurs_rstrip. eapply occurs_no_indent; eauto; discriminate.
Qed.

Lemma plain_inserted tok pr op code :
  Forall (plain tok) (lines code) -> Forall (plain tok) (lines (inserted pr op code)).
Proof.
  intros H. destruct pr; auto. unfold inserted, indent_code.
  rewrite lines_indent_code_str by apply indentation_no_nl.
  apply Forall_map. eapply Forall_impl; [|exact H]. intros l Hl. cbn.
  apply plain_indent_line; auto.
  destruct (takewhile_indentation op) as (? & _ & F & _). auto.
Qed.

Lemma one_region_idempotent tok pr code pre op gen cl post input output :
  Forall (plain tok) pre -> opens tok op -> ~ closes tok op -> Forall (plain tok) gen ->
  closes tok cl -> ~ opens tok cl -> Forall (plain tok) post ->
  Forall (plain tok) (lines code) ->
  lines input = one_region_lines pre op gen cl post ->
  r_file (write_generated_code_between_markers (Some input) tok code pr) = Some output ->
  write_generated_code_between_markers (Some output) tok code pr
  = {| r_error := None; r_file := Some output; r_written := false |}.
Proof.
  intros H1 H2 H3 H4 H5 H6 H7 Hcode Hin Hout.
  set (r := {| before := pre; opening := op; generated := gen; closing := cl |}).
  assert (Hwf : well_formed_region tok r) by (repeat split; auto).
  assert (Hf : lines input = file_lines [r] post).
  { rewrite Hin. unfold file_lines, one_region_lines. cbn. rewrite <- !app_assoc. cbn.
    rewrite <- app_assoc. auto. }
  destruct (run_regions tok pr code [r] post input) as (out & E & L); auto; try discriminate.
  rewrite E in Hout. cbn [r_file] in Hout. inversion Hout; subst out. clear Hout.
  cbn [rewritten] in L.
  match type of L with _ = file_lines [?r0] _ => set (r' := r0) in * end.
  assert (Hwf' : well_formed_region tok r').
  { repeat split; auto. apply plain_inserted; auto. }
  destruct (run_regions tok pr code [r'] post output) as (out2 & E2 & L2); auto; try discriminate.
  rewrite E2. cbn [rewritten] in L2. cbn [before opening closing r'] in L2.
  assert (out2 = output).
  { rewrite <- (unlines_lines out2), <- (unlines_lines output), L, L2. reflexivity. }
  subst out2. rewrite seqb_refl. reflexivity.
Qed.

(** *** C03 *)

Lemma error_keeps_file file tok code pr e :
  r_error (write_generated_code_between_markers file tok code pr) = Some e ->
  r_file (write_generated_code_between_markers file tok code pr) = file /\
  r_written (write_generated_code_between_markers file tok code pr) = false.
Proof.
  unfold write_generated_code_between_markers. destruct file as [input|]; cbn; auto.
  destruct (generated_text tok code pr input); cbn; auto.
  rewrite seqb_if. cbn. discriminate.
Qed.

Lemma gloop_not_done tok pr ls : Forall (fun l => ~ opens tok l) ls -> forall s s',
  g_done s = false -> g_inside s = false ->
  gloop tok pr s ls = inr s' -> g_done s' = false.
Proof.
  induction 1 as [|l ls Hl _ IH]; intros s s' Hd Hi E; cbn [gloop] in E.
  - inversion E; subst; auto.
  - unfold gstep in E. apply not_opens_b in Hl. rewrite Hl, Hi in E.
    destruct (contains (marker_out tok) l); cbn in E; eapply IH; try exact E; cbn; auto.
Qed.

Lemma gloop_no_error tok pr ls : Forall (fun l => ~ opens tok l) ls -> forall s,
  g_inside s = false -> exists s', gloop tok pr s ls = inr s'.
Proof.
  induction 1 as [|l ls Hl _ IH]; intros s Hi; cbn [gloop]; [eauto|].
  unfold gstep. apply not_opens_b in Hl. rewrite Hl, Hi.
  destruct (contains (marker_out tok) l); apply IH; auto.
Qed.

Lemma missing_marker_error tok code pr input :
  Forall (fun l => ~ opens tok l) (lines input) ->
  write_generated_code_between_markers (Some input) tok code pr
  = {| r_error := Some MissingMarker; r_file := Some input; r_written := false |}.
Proof.
  intros H. unfold write_generated_code_between_markers, generated_text.
  destruct (gloop_no_error tok pr _ H
             {| g_out := []; g_inside := false; g_done := false; g_code := code |}) as [s' E]; auto.
  rewrite E. assert (Hd : g_done s' = false) by (eapply gloop_not_done; [exact H| | |exact E]; auto).
  rewrite Hd. reflexivity.
Qed.

Lemma reopened_marker_error tok code pr pre op mid op2 rest input :
  Forall (plain tok) pre -> opens tok op -> ~ closes tok op ->
  Forall (plain tok) mid -> opens tok op2 ->
  lines input = pre ++ op :: mid ++ op2 :: rest ->
  write_generated_code_between_markers (Some input) tok code pr
  = {| r_error := Some MoreThanOneMarker; r_file := Some input; r_written := false |}.
Proof.
  intros H1 H2 H3 H4 H5 Hin. unfold write_generated_code_between_markers, generated_text.
  rewrite Hin, gloop_app, gloop_plain_out by auto. cbn [gloop]. unfold gstep at 1.
  apply opens_b in H2, H5. apply not_closes_b in H3. rewrite H2, H3. cbn [g_inside].
  rewrite gloop_app. cbn [g_out g_done g_code].
  rewrite gloop_plain_in by auto. cbn [gloop]. unfold gstep at 1. rewrite H5. reflexivity.
Qed.

(** An unterminated region: everything after the opening line is lost. *)
Lemma unterminated_region_loses tok code pr pre op rest input :
  Forall (plain tok) pre -> opens tok op -> ~ closes tok op -> Forall (plain tok) rest ->
  lines input = pre ++ op :: rest ->
  let output := drop_final_nl (put (pre ++ [op]) ++ inserted pr op code) in
  write_generated_code_between_markers (Some input) tok code pr
  = {| r_error := None; r_file := Some output; r_written := negb (seqb output input) |}.
Proof.
  intros H1 H2 H3 H4 Hin. unfold write_generated_code_between_markers, generated_text.
  rewrite Hin, gloop_app, gloop_plain_out by auto. cbn [gloop]. unfold gstep at 1.
  apply opens_b in H2. apply not_closes_b in H3. rewrite H2, H3. cbn [g_inside g_out g_done g_code].
  rewrite gloop_plain_in by auto. cbn [g_done g_out]. cbv zeta.
  rewrite seqb_if. f_equal; rewrite put_app; cbn [put flat_map]; rewrite <- !app_assoc; reflexivity.
Qed.
