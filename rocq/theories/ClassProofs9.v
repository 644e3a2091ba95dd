From Verif Require Import PyStr PyStrLemmas PyDict RegionsModel TextModel TextSpec TextProofs CommentModel CommentSpec CommentProofs3 NamesModel OverloadModel
  NamedModel NamedProofs3 EnumModel EnumSpec EnumProofs EnumProofs2 EnumProofs3 ClassModel ClassSpec ClassProofs ClassProofs2 ClassProofs3 ClassProofs4 ClassProofs5 ClassProofs6 ClassProofs7 ClassProofs8.
(** Classes and enums of a module. *)

Lemma read_unlines_app a b : read_text (unlines (a ++ b)) = read_text (unlines a) ++ read_text (unlines b).
Proof.
  destruct a as [|x a]; [reflexivity|]. destruct b as [|y b]; [rewrite app_nil_r; change (unlines []) with ([] : str); rewrite read_text_nil, app_nil_r; reflexivity|].
  rewrite unlines_app by discriminate. rewrite app_assoc. exact (reads_end _ _).
Qed.
Lemma read_unlines_concat lss : read_text (unlines (concat lss)) = flat_map (fun ls => read_text (unlines ls)) lss.
Proof. induction lss as [|ls lss IH]; [reflexivity|]. cbn [concat flat_map]. rewrite read_unlines_app, IH. reflexivity. Qed.
Lemma join_cons sep (x : str) y l : join sep (x :: y :: l) = x ++ sep ++ join sep (y :: l).
Proof. reflexivity. Qed.
Lemma module_variable_is o ns : parent_var (cl_roots o) (map NsPart ns) = module_variable o ns.
Proof.
  unfold parent_var, module_variable. assert (G : forall l, pybind_scope (cl_roots o) (map NsPart l) = map NsPart (filter (fun n => negb (smem n (cl_roots o))) l)).
  { induction l as [|x l IH]; [reflexivity|]. cbn [map pybind_scope filter]. destruct (negb (smem x (cl_roots o))); [cbn [map]; f_equal; exact IH|exact IH]. }
  rewrite G. destruct (filter _ ns) as [|x l]; [reflexivity|]. cbn [map]. change ($"pyNs") with ($"py" ++ $"Ns"). rewrite <- app_assoc. apply app_inv_head_iff.
  revert x. induction l as [|y l IH]; intros x; [reflexivity|]. cbn [map]. rewrite !join_cons, IH, (app_assoc $"Ns"). change ($"_Ns") with ($"_" ++ $"Ns"). rewrite <- !app_assoc. reflexivity.
Qed.

Section Forest.
Variable o : class_env.
Variable values : cpp_enum -> list enumerator.

(** The variable of a class or an enum. *)
Lemma forest_bound ns cs ls : Forall (eq sp) (cl_indent o) -> Forall word ns -> all_well_formed o values cs -> forest_pydef o (map NsPart ns) cs = Some ls ->
  forall path fr, exists f', meaning ([(module_variable o ns, path)] :: fr) (unlines ls) = Some (flat_map (events o values path) cs, f' :: fr) /\
    dict_get (module_variable o ns) f' = Some path /\ (forall c, In c cs -> dict_get (variable o (map NsPart ns) c) f' = Some (path ++ [shown_name o c])).
Proof.
  intros Ind N (WF & K & ND) E path fr. set (sc := map NsPart ns) in *. assert (F : Forall namespace_part sc).
  { unfold sc. apply Forall_map. exact N. }
  assert (I : Forall (fun c => is_inner c = true) cs) by (eapply Forall_impl; [|exact K]; intros [|?|?]; tauto).
  unfold forest_pydef in E. destruct (sequence (map (child_pydef o sc) cs)) as [lss|] eqn:S; [|discriminate]. apply some_inj in E. apply sequence_map in S.
  assert (Bs : Forall2 (bound o values sc) cs lss).
  { clear - S WF I F Ind. induction S as [|c l cs lss E S IH]; [constructor|]. inversion WF; inversion I; subst. constructor; auto. apply class_bound; auto. }
  destruct (all_whole o values sc _ _ Bs) as (itss & Wi & Di). unfold meaning. rewrite <- E, read_unlines_concat. rewrite <- (app_nil_r (flat_map _ lss)), Wi. cbn [items]. rewrite app_nil_r.
  assert (M : parent_var (cl_roots o) sc = module_variable o ns) by apply module_variable_is. rewrite M in Di.
  assert (NP : ~ In (module_variable o ns) (map (variable o sc) cs)).
  { intros J. apply in_map_iff in J as (c & Ec & J). rewrite Forall_forall in I. apply (module_parent o ns c F (I c J)). fold sc. rewrite M. exact Ec. }
  destruct (all_do o values sc _ _ _ Di NP (NoDup_variables o sc _ F I ND) [(module_variable o ns, path)] fr path) as (f' & R & Old & New).
  - cbn. destruct (seqb_spec (module_variable o ns) (module_variable o ns)); congruence.
  - intros c J. rewrite dict_get_other; [reflexivity|]. intros X. apply NP. rewrite <- X. apply in_map. exact J.
  - exists f'. split; [exact R|]. split; [|exact New]. rewrite Old by exact NP. cbn. destruct (seqb_spec (module_variable o ns) (module_variable o ns)); congruence.
Qed.

Lemma enum_made sc e l : child_pydef o sc (CEnum e l) <> None <-> arithmetic o (CEnum e l).
Proof.
  cbn [child_pydef arithmetic]. unfold enum_pydef, enum_annotation. assert (Q : enum_scope_self e = scoped_name (en_scope e) (en_name e)) by (unfold enum_scope_self, scoped_name; destruct (en_scope e); reflexivity). rewrite Q. cbn [eo_arithmetic enum_at].
  destruct (eo_arithmetic (cl_enum o) (scoped_name (en_scope e) (en_name e))); [|split; [congruence|discriminate]]. split; [reflexivity|]. intros _.
  match goal with |- match rev ?x with _ => _ end <> None => set (ls := x) end. assert (Nl : ls <> []) by (unfold ls; destruct (eo_export _); discriminate).
  destruct (rev ls) as [|y r] eqn:R; [|discriminate]. apply (f_equal (@rev str)) in R. rewrite rev_involutive in R. exfalso. exact (Nl R).
Qed.
Lemma class_made c : forall sc, child_pydef o sc c <> None <-> arithmetic o c.
Proof.
  induction c as [ls|e l|h children protected IH] using child_induction; intros sc.
  - cbn. split; [auto|discriminate].
  - apply enum_made.
  - cbn [child_pydef arithmetic]. rewrite inner_map, well_formed_all. transitivity (Forall (fun c => child_pydef o (sc ++ [ClassPart (h_name h)]) c <> None) (nested children)).
    + rewrite <- sequence_none. destruct (sequence _); split; intros; discriminate || congruence.
    + rewrite !Forall_forall in *. split; intros H c I.
      * destruct c as [ls|e l|h' cs' p'] eqn:Ec; [exact Logic.I| |]; rewrite <- Ec in *; apply (IH c I (sc ++ [ClassPart (h_name h)])); apply H; apply filter_In; rewrite Ec in *; auto.
      * apply filter_In in I as [I _]. apply IH; auto.
Qed.
Lemma forest_made sc cs : forest_pydef o sc cs <> None <-> Forall (arithmetic o) cs.
Proof.
  unfold forest_pydef. transitivity (sequence (map (child_pydef o sc) cs) <> None).
  - destruct (sequence (map (child_pydef o sc) cs)); cbn [option_map]; split; intros H; [discriminate|discriminate|contradiction|contradiction].
  - rewrite sequence_none. rewrite !Forall_forall. split; intros H c I; apply (class_made c sc); auto.
Qed.
End Forest.
