From Verif Require Import PyStr PyStrLemmas PyDict PyNum RegionsModel TextModel TextSpec TextProofs FillModel FillSpec FillProofs FillProofs2 FillProofs3 FillProofs4
  TypeTextModel LambdaModel LambdaTextSpec CommentProofs3 CommentProofs4 NumberProofs2 ChainProofs3 EnumProofs.
(** Proofs about the text of the lambdas. *)

(** ** Lines of code *)

Lemma clean_app a b : clean (a ++ b) = clean a ++ clean b.
Proof. unfold clean. rewrite map_app. apply filter_app. Qed.
Lemma clean_nil ls : Forall (fun l => strip l = []) ls -> clean ls = [].
Proof. intros F. induction F as [|l ls H F IH]; auto. unfold clean in *. cbn [map filter]. rewrite H. exact IH. Qed.
Lemma clean_same f ls : (forall l, In l ls -> strip (f l) = strip l) -> clean (map f ls) = clean ls.
Proof. intros H. unfold clean. f_equal. rewrite map_map. apply map_ext_in. exact H. Qed.
Lemma code_lines_is s : code_lines s = clean (lines s).
Proof. reflexivity. Qed.
Lemma code_lines_nl a b : code_lines (a ++ nl :: b) = code_lines a ++ code_lines b.
Proof. rewrite !code_lines_is, lines_render_app. apply clean_app. Qed.
Lemma code_lines_unlines L : code_lines (unlines L) = flat_map code_lines L.
Proof.
  destruct L as [|a L]; [reflexivity|]. rewrite code_lines_is, lines_unlines_concat by discriminate. generalize (a :: L). clear. intros L.
  induction L as [|l L IH]; auto. cbn [map concat flat_map]. rewrite clean_app, IH. reflexivity.
Qed.
Lemma code_lines_one l : ~ In nl l -> code_lines l = clean [l].
Proof. intros N. rewrite code_lines_is. rewrite <- (lines_unlines [l]); [|discriminate|repeat constructor; auto]. reflexivity. Qed.
Lemma flat_code_lines L : Forall (fun l => ~ In nl l) L -> flat_map code_lines L = clean L.
Proof.
  intros F. induction F as [|l L N F IH]; auto. cbn [flat_map]. rewrite IH, code_lines_one by auto. symmetry. exact (clean_app [l] L).
Qed.
Lemma strip_rstrip l : strip (rstrip l) = strip l.
Proof. destruct (rstrip_split l) as (w & E & W). rewrite E at 2. symmetry. apply strip_spaces_r. apply forallb_forall. apply Forall_forall. auto. Qed.
Lemma strip_indent i l : white i -> strip (indent_line i true l) = strip l.
Proof. intros [W _]. unfold indent_line. destruct l as [|c l]; auto. rewrite strip_spaces_l by auto. apply strip_rstrip. Qed.
Lemma indent_no_nl i l : white i -> ~ In nl l -> ~ In nl (indent_line i true l).
Proof.
  intros [_ W] N. unfold indent_line. destruct l as [|c l]; auto. rewrite in_app_iff. intros [I|I]; [auto|]. revert I. apply rstrip_no_nl. auto.
Qed.
Lemma code_lines_indent i t : white i -> code_lines (indent_code t 1 true (Some i) true) = code_lines t.
Proof.
  intros W. pose proof (lines_no_nl t) as N. pose proof (unlines_lines t) as U. unfold indent_code. destruct (lines t) as [|a r] eqn:E; [reflexivity|].
  destruct r as [|b r]; [reflexivity|]. inversion N as [|? ? Na Nr]; subst x l.
  cbn [app]. rewrite code_lines_nl. rewrite <- U. rewrite (code_lines_unlines (a :: b :: r)). cbn [flat_map]. apply (f_equal2 (@app str)).
  - rewrite !code_lines_one by auto using rstrip_no_nl. unfold clean. cbn [map]. rewrite strip_rstrip. reflexivity.
  - unfold indent_code_str. rewrite code_lines_unlines. rewrite lines_unlines by (auto; discriminate).
    rewrite flat_code_lines; [|apply Forall_map; eapply Forall_impl; [|exact Nr]; intros l H; apply indent_no_nl; auto].
    rewrite clean_same by (intros; apply strip_indent; auto). symmetry. exact (flat_code_lines (b :: r) Nr).
Qed.
Lemma code_lines_prefix i t : white i -> code_lines (i ++ t) = code_lines t.
Proof.
  intros [W N]. rewrite !code_lines_is. rewrite <- (unlines_lines t). destruct (lines t) as [|a r] eqn:E; [apply split_on_nonempty in E; tauto|].
  pose proof (lines_no_nl t) as F. rewrite E in F. inversion F as [|? ? Na Nr]; subst.
  replace (i ++ unlines (a :: r)) with (unlines ((i ++ a) :: r)).
  - rewrite !lines_unlines; try discriminate; [|auto|constructor; auto; rewrite in_app_iff; tauto].
    unfold clean. cbn [map]. rewrite strip_spaces_l by auto. reflexivity.
  - unfold unlines. destruct r; cbn [join]; rewrite <- ?app_assoc; reflexivity.
Qed.
Lemma blank_strip l : blank l = true -> strip l = [].
Proof. unfold blank. destruct (strip l); auto. discriminate. Qed.
Lemma code_lines_strip_empty t : code_lines (strip_empty_lines t) = code_lines t.
Proof.
  destruct (strip_empty_lines_spec t) as (pre & kept & post & E & B1 & B2 & _ & ->).
  assert (C : forall ls, Forall is_blank_line ls -> clean ls = []).
  { intros ls F. apply clean_nil. eapply Forall_impl; [|exact F]. intros l H. apply blank_strip. apply is_blank_iff. exact H. }
  rewrite (code_lines_is t), E, !clean_app, (C pre B1), (C post B2), app_nil_r. cbn [app].
  rewrite code_lines_unlines. apply flat_code_lines. pose proof (lines_no_nl t) as N. rewrite E, !Forall_app in N. tauto.
Qed.

(** ** Texts without placeholders *)

Lemma neutral_app K a b : neutral K a -> neutral K b -> neutral K (a ++ b).
Proof.
  intros A B x y k E I. destruct (app_compare a b x ("{"%char :: y) E) as [(r & ->)|(r & ->)].
  - rewrite <- app_assoc in E. apply app_inv_head in E. destruct r as [|c r]; cbn [app] in E.
    { apply (B [] y k); auto. }
    injection E as -> <-. destruct (A x r k eq_refl I) as (H1 & H2). split.
    + intros q Q. destruct (app_compare r b (k ++ ["}"%char]) q) as [(z & Z)|(z & Z)].
      * rewrite <- app_assoc. exact Q.
      * apply (H1 z). rewrite Z, <- app_assoc. reflexivity.
      * apply (H2 z). exact Z.
    + intros q Q. apply (H2 (b ++ q)). rewrite Q, app_assoc. reflexivity.
  - rewrite <- app_assoc in E. apply app_inv_head in E. apply (B r y k); auto.
Qed.
Definition hole_free (K : list str) (l : str) : Prop := forall k, In k K -> contains (placeholder k) l = false.
Lemma neutral_free K l : neutral K l -> hole_free K l.
Proof.
  intros N k I. destruct (contains (placeholder k) l) eqn:C; auto. apply contains_true in C. destruct C as (a & b & E).
  unfold placeholder in E. cbn [app] in E. rewrite <- app_assoc in E. destruct (N a _ k E I) as (H & _). exfalso. exact (H b eq_refl).
Qed.
Lemma free_part K a l b : hole_free K (a ++ l ++ b) -> hole_free K l.
Proof.
  intros H k I. specialize (H k I). destruct (contains (placeholder k) l) eqn:C; auto. rewrite (contains_app_r _ a) in H; [discriminate|]. apply contains_app_l. auto.
Qed.
Lemma lines_start sub y : ~ In nl sub -> exists r ls, lines (sub ++ y) = (sub ++ r) :: ls.
Proof.
  intros N. induction sub as [|c sub IH].
  - cbn [app]. destruct (lines y) as [|l ls] eqn:E; [apply split_on_nonempty in E; tauto|eauto].
  - destruct IH as (r & ls & E); [intros I; apply N; right; auto|]. unfold lines in *. cbn [app split_on].
    destruct (ceqb_spec c nl) as [->|D]; [exfalso; apply N; left; auto|]. rewrite E. exists r, ls. reflexivity.
Qed.
Lemma contains_line sub s : ~ In nl sub -> contains sub s = true -> exists l, In l (lines s) /\ contains sub l = true.
Proof.
  intros N C. apply contains_true in C. destruct C as (x & y & ->). induction x as [|c x IH].
  - destruct (lines_start sub y N) as (r & ls & E). exists (sub ++ r). cbn [app]. rewrite E. split; [left; auto|]. apply contains_true. exists [], r. reflexivity.
  - destruct IH as (l & I & L). cbn [app]. unfold lines in *. cbn [split_on]. destruct (ceqb_spec c nl) as [->|D].
    + exists l. split; [right; auto|auto].
    + destruct (split_on nl (x ++ sub ++ y)) as [|l0 ls] eqn:E; [apply split_on_nonempty in E; tauto|]. destruct I as [<-|I].
      * exists (c :: l0). split; [left; auto|]. change (c :: l0) with ([c] ++ l0). apply contains_app_r. auto.
      * exists l. split; [right; auto|auto].
Qed.
Definition outside (K : list str) (c : ascii) : Prop := Forall (fun k => ~ In c (placeholder k)) K.
Lemma neutral_text K s c : Forall (fun k => ~ In nl k) K -> Forall (hole_free K) (lines (s ++ [c])) -> outside K c -> neutral K (s ++ [c]).
Proof.
  intros NK F O a b k E I. unfold outside in O. rewrite Forall_forall in NK, O. split; intros r Er.
  - subst b. destruct (contains_line (placeholder k) (s ++ [c])) as (l & L & C).
    + unfold placeholder. intros [J|J]; [discriminate|]. apply in_app_iff in J. destruct J as [J|[J|[]]]; [|discriminate]. exact (NK k I J).
    + apply contains_true. exists a, r. rewrite E. unfold placeholder. cbn [app]. rewrite <- app_assoc. reflexivity.
    + rewrite Forall_forall in F. rewrite (F l L k I) in C. discriminate.
  - apply (O k I). assert (L : last (s ++ [c]) "{"%char = c) by apply last_last. rewrite E in L. unfold placeholder. rewrite Er. clear - L.
    destruct b as [|x b].
    + rewrite last_last in L. left. auto.
    + right. apply in_app_iff. left. rewrite <- L. assert (H : x :: b <> []) by discriminate. revert H L. generalize (x :: b). clear. intros b H _.
      destruct (exists_last H) as (b' & z & ->). replace (a ++ "{"%char :: b' ++ [z]) with ((a ++ "{"%char :: b') ++ [z]) by (rewrite <- app_assoc; reflexivity).
      rewrite last_last. apply in_app_iff. right. left. auto.
Qed.
Lemma free_rstrip K l : hole_free K l -> hole_free K (rstrip l).
Proof. intros H. destruct (rstrip_split l) as (w & E & _). rewrite E in H. exact (free_part K [] (rstrip l) w H). Qed.
Lemma free_indent K i l : white i -> hole_free K l -> hole_free K (indent_line i true l).
Proof.
  intros [W _] H. unfold indent_line. destruct l as [|c l]; auto. apply free_rstrip in H. intros k I. specialize (H k I).
  revert W. generalize (rstrip (c :: l)) H. clear. intros r H W. induction i as [|x i IH]; auto. cbn [forallb] in W. apply andb_prop in W. destruct W as [X W].
  cbn [app]. rewrite contains_step; auto. cbn [startswith placeholder]. destruct (ceqb_spec "{" x) as [<-|]; [discriminate|reflexivity].
Qed.
Lemma lines_indent i t : white i -> forall K, Forall (hole_free K) (lines t) -> Forall (hole_free K) (lines (indent_code t 1 true (Some i) true)).
Proof.
  intros W K F. pose proof (lines_no_nl t) as N. unfold indent_code. destruct (lines t) as [|a r] eqn:E; [apply split_on_nonempty in E; tauto|].
  destruct r as [|b r]; [rewrite E; auto|]. inversion N as [|? ? Na Nr]; subst x l. inversion F as [|? ? Fa Fr]; subst x l.
  cbn [app]. rewrite lines_render_app. apply Forall_app. split.
  - unfold lines. rewrite split_on_single by (apply rstrip_no_nl; auto). constructor; [apply free_rstrip; auto|constructor].
  - unfold indent_code_str. rewrite (lines_unlines (b :: r)) by (auto; discriminate). rewrite lines_unlines.
    + apply Forall_map. eapply Forall_impl; [|exact Fr]. intros l. apply free_indent. auto.
    + discriminate.
    + apply Forall_map. eapply Forall_impl; [|exact Nr]. intros l. apply indent_no_nl. auto.
Qed.
