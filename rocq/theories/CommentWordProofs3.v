From Verif Require Import PyStr PyDict PyStrLemmas InstanceModel InstanceSpec InstanceProofs InstanceProofs2 CommentModel CommentProofs CommentProofs2 CommentProofs3 CommentWordModel CommentWordSpec CommentWordProofs.
(** * The lines of a comment *)

Lemma calm_prefix u v : calm (u ++ v) = true -> calm u = true.
Proof. induction u as [|d u IH]; intros H; [reflexivity|]. cbn [app calm] in *. apply andb_prop in H. destruct H as (K1 & K2). rewrite (IH K2), andb_true_r. destruct u; [rewrite andb_false_r; reflexivity|exact K1]. Qed.
Lemma calm_lines ls : calm (unlines ls) = true -> Forall (fun l => calm l = true) ls.
Proof.
  induction ls as [|a ls IH]; intros H; [constructor|]. destruct ls as [|b ls]; [constructor; [exact H|constructor]|]. change (unlines (a :: b :: ls)) with (a ++ [nl] ++ unlines (b :: ls)) in H. constructor; [exact (calm_prefix _ _ H)|]. apply IH. apply (calm_suffix [nl]). apply (calm_suffix a). exact H.
Qed.
Lemma lines_calm ls : Forall (fun l => calm l = true) ls -> calm (unlines ls) = true.
Proof.
  induction ls as [|a ls IH]; intros H; [reflexivity|]. destruct ls as [|b ls]; [exact (Forall_inv H)|]. change (unlines (a :: b :: ls)) with (a ++ [nl] ++ unlines (b :: ls)). apply calm_app; [reflexivity|exact (Forall_inv H)|]. change ([nl] ++ unlines (b :: ls)) with (nl :: unlines (b :: ls)). cbn [calm]. rewrite (IH (Forall_inv_tail H)). reflexivity.
Qed.
Lemma python_lines ls : in_python (unlines ls) = unlines (map in_python ls).
Proof.
  induction ls as [|a ls IH]; [reflexivity|]. destruct ls as [|b ls]; [reflexivity|]. change (unlines (a :: b :: ls)) with (a ++ nl :: unlines (b :: ls)). rewrite python_app by reflexivity. rewrite python_sep by reflexivity. rewrite IH. reflexivity.
Qed.
Lemma python_no_line s : ~ In nl s -> ~ In nl (in_python s).
Proof.
  intros N H. apply N. clear N. unfold in_python in H. apply in_concat in H. destruct H as (w & W & H). apply in_map_iff in W. destruct W as (k & <- & K).
  destruct (find (fun p => seqb (fst p) k) python_words) as [p|] eqn:F.
  - exfalso. apply find_some in F. destruct F as (F & _). cbn [python_words In] in F. repeat (destruct F as [<-|F]; [vm_compute in H; repeat (destruct H as [H|H]; [discriminate|]); exact H|]). exact F.
  - rewrite <- (pieces_concat s). apply in_concat. exists k. split; assumption.
Qed.
Lemma rstrip_in s c : In c (rstrip s) -> In c s. Proof. intros H. destruct (rstrip_split s) as (w & E & _). rewrite E. apply in_app_iff. left. exact H. Qed.
Theorem comment_lines c : calm c = true -> lines (comment_apply_replacements false comment_replacements c) = map (fun l => in_python (rstrip l)) (lines c).
Proof.
  intros C. unfold comment_apply_replacements. rewrite <- (unlines_lines c) in C. apply calm_lines in C. assert (R : Forall (fun l => calm l = true) (map rstrip (lines c))).
  { apply Forall_map. eapply Forall_impl; [|exact C]. intros l L. cbn beta. destruct (rstrip_split l) as (w & E & _). rewrite E in L. exact (calm_prefix _ _ L). }
  apply lines_calm in R. pose proof (comment_words _ R) as W. rewrite python_lines, map_map in W. assert (NE : lines c <> []) by apply lines_nonempty. destruct (lines c) as [|l ls] eqn:L; [congruence|]. rewrite W. apply lines_unlines; [discriminate|].
  apply Forall_map. apply Forall_forall. intros x X. cbn beta. apply python_no_line. intros H. apply rstrip_in in H. revert H. rewrite <- L in X. pose proof (lines_no_nl c) as NL. rewrite Forall_forall in NL. apply NL. exact X.
Qed.
