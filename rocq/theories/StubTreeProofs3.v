From Verif Require Import PyStr PyStrLemmas RegionsModel RegionsProofs TextModel TextSpec CommentModel CommentSpec CommentProofs2 CommentProofs3 CommentProofs4 OverloadModel EnumModel EnumSpec EnumProofs
  ClassModel StubTreeModel StubTreeSpec StubTreeProofs StubTreeProofs2.

(** ** Docstrings *)

Definition quiet (m : mode) : Prop := (exists n, m = InTriple dq n) \/ m = Escape dq.
Lemma steps_quiet l : forall n, n <= 2 -> contains tq (repeat dq n ++ l) = false -> exists m, steps (InTriple dq n) l = ([], m) /\ quiet m.
Proof.
  induction l as [l IH] using (well_founded_induction (Wf_nat.well_founded_ltof _ (@length ascii))). intros n L C. destruct l as [|c l]; [eexists; split; [reflexivity|left; eauto]|].
  assert (Cl : contains tq l = false).
  { destruct (contains tq l) eqn:E; auto. change (repeat dq n ++ c :: l) with (repeat dq n ++ [c] ++ l) in C. rewrite app_assoc in C. rewrite (contains_app_r _ _ _ E) in C. discriminate. }
  cbn [steps step]. destruct (ceqb_spec c bsl) as [->|Nb].
  - destruct l as [|d l]; [eexists; split; [reflexivity|right; reflexivity]|]. cbn [steps step].
    destruct (IH l) with (n := 0) as (m & E & Q); [unfold Wf_nat.ltof; cbn; lia|lia|exact (contains_cons_false _ _ _ Cl)|]. rewrite E. eexists. split; [reflexivity|exact Q].
  - destruct (ceqb_spec c dq) as [->|Nd].
    + destruct (Nat.ltb_spec n 2) as [L2|L2].
      * destruct (IH l) with (n := S n) as (m & E & Q); [unfold Wf_nat.ltof; cbn; lia|lia| |].
        { replace (repeat dq (S n) ++ l) with (repeat dq n ++ dq :: l); [exact C|]. clear. induction n; cbn in *; congruence. }
        rewrite E. eexists. split; [reflexivity|exact Q].
      * exfalso. assert (n = 2) by lia. subst. cbn in C. discriminate.
    + destruct (IH l) with (n := 0) as (m & E & Q); [unfold Wf_nat.ltof; cbn; lia|lia|exact Cl|]. rewrite E. eexists. split; [reflexivity|exact Q].
Qed.
Lemma quiet_scan l : contains tq l = false -> scan (Some dq) l = Some ([], Some dq).
Proof. intros C. rewrite scan_is. cbn [start]. destruct (steps_quiet l 0 (Nat.le_0_l _) C) as (m & -> & [(n & ->)| ->]); reflexivity. Qed.
Lemma opened l : steps (InCode []) (tq ++ l) = steps (InTriple dq 0) l.
Proof.
  rewrite steps_app. assert (E : steps (InCode []) tq = ([], InTriple dq 0)) by (vm_compute; reflexivity). rewrite E. destruct (steps _ l). reflexivity.
Qed.
(** Where a text ends. *)
Lemma escape_end l : contains tq l = false -> exists m, steps (InTriple dq 0) l = ([], m) /\ quiet m /\ (m = Escape dq <-> ends_escaping l = true) /\
  (endswith [dq] l = false -> m = Escape dq \/ m = InTriple dq 0).
Proof.
  induction l as [|c l IH] using rev_ind; intros C.
  - exists (InTriple dq 0). split; [reflexivity|]. split; [left; eauto|]. split; [split; discriminate|auto].
  - assert (Cl : contains tq l = false) by (destruct (contains tq l) eqn:E; auto; rewrite (contains_app_l _ _ [c] E) in C; discriminate).
    destruct (IH Cl) as (m & E & Q & G & _). destruct (steps_quiet (l ++ [c]) 0 (Nat.le_0_l _) C) as (m' & E' & Q'). exists m'. split; [exact E'|]. split; [exact Q'|].
    rewrite steps_app, E in E'. cbn [steps] in E'. rewrite endswith_last. destruct (ceqb_spec c bsl) as [->|Nb].
    + assert (X : ends_escaping (l ++ [bsl]) = negb (ends_escaping l)).
      { unfold ends_escaping. rewrite rev_app_distr. cbn [rev app takewhile]. change (ceqb "\" bsl) with true. cbn [length]. rewrite Nat.odd_succ. rewrite <- Nat.negb_odd. reflexivity. }
      rewrite X. destruct Q as [(n & ->)| ->].
      * assert (F : ends_escaping l = false) by (destruct (ends_escaping l); auto; destruct G as [_ G]; discriminate (G eq_refl)). rewrite F.
        assert (S : step (InTriple dq n) bsl = ([], Escape dq)) by reflexivity. rewrite S in E'. inversion E'. split; [split; auto|auto].
      * assert (F : ends_escaping l = true) by (apply G; reflexivity). rewrite F. cbn [step] in E'. inversion E'. split; [split; discriminate|auto].
    + rewrite ends_escaping_last by (destruct (ceqb_spec c "\") as [->|]; [exfalso; apply Nb; reflexivity|reflexivity]). destruct Q as [(n & ->)| ->].
      * cbn [step] in E'. destruct (ceqb_spec c bsl); [congruence|]. destruct (ceqb_spec c dq) as [->|Nd].
        { split; [|intros X; discriminate X]. destruct (n <? 2); inversion E'; split; discriminate. }
        inversion E'. split; [split; discriminate|auto].
      * cbn [step] in E'. inversion E'. split; [split; discriminate|auto].
Qed.
Lemma padded_contains t : contains tq t = false -> contains tq (padded t) = false.
Proof.
  intros H. assert (Ns : ~ In sp tq) by (intros [|[|[|[]]]]; discriminate). assert (Nq : tq <> []) by discriminate. assert (Z : contains tq [] = false) by reflexivity.
  unfold padded. set (d := if startswith [dq] t then sp :: t else t).
  assert (D : contains tq d = false).
  { unfold d. destruct (startswith [dq] t); [|exact H]. exact (contains_sep tq sp [] t Ns Nq Z H). }
  destruct (endswith [dq] d); auto. exact (contains_sep tq sp d [] Ns Nq D Z).
Qed.
Lemma reads_doc s r p e : let t := comment_apply_replacements s r (full_comment p e) in t <> [] ->
  contains tq t = false -> In nl t \/ ends_escaping t = false -> reads (docstring_lines s r p e) [] /\ states (docstring_lines s r p e).
Proof.
  intros t Ht C He. assert (S : statements None (docstring_lines s r p e) = Some [(0, [PStr])]).
  { unfold docstring_lines. fold t. change (if endswith [dq] _ then _ else _) with (padded t).
    destruct (padded t) as [|p0 ps] eqn:P; [destruct (padded_nonempty t Ht P)|]. rewrite <- P.
    assert (D : statements None match lines (padded t) with [] => [] | [l] => [tq ++ l ++ tq] | l :: ls => (tq ++ l) :: ls ++ [tq] end = Some [(0, [PStr])]); [|exact D].
    pose proof (padded_contains t C) as Cp. destruct (lines (padded t)) as [|l [|l' ls]] eqn:L; [destruct (lines_nonempty _ L)| |].
    - destruct (lines_single _ _ L) as (<- & N). assert (Hf : ends_escaping t = false) by (destruct He; auto; rewrite padded_nl in N; contradiction).
      apply (statement_line (tq ++ padded t ++ tq) [PStr]); [|discriminate|reflexivity]. rewrite scan_is. cbn [start]. rewrite opened, steps_app.
      destruct (escape_end (padded t) Cp) as (m & -> & _ & G & X). destruct (X (padded_end t)) as [->| ->].
      { destruct G as [G _]. rewrite (padded_escaping t Hf) in G. discriminate (G eq_refl). }
      vm_compute. reflexivity.
    - assert (A : Forall (fun l => contains tq l = false) (l :: l' :: ls)).
      { rewrite <- L. rewrite <- (unlines_lines (padded t)) in Cp. clear - Cp. induction (lines (padded t)) as [|x ls IH]; [constructor|].
        destruct ls as [|y ls]; [constructor; [exact Cp|constructor]|]. unfold unlines in Cp. rewrite join_cons in Cp. constructor.
        - destruct (contains tq x) eqn:E; auto. rewrite (contains_app_l _ _ _ E) in Cp. discriminate.
        - apply IH. unfold unlines. destruct (contains tq (join [nl] (y :: ls))) eqn:E; auto. rewrite app_assoc, (contains_app_r _ _ _ E) in Cp. discriminate. }
      inversion A as [|? ? A1 A2]; subst. cbn [statements]. assert (F : scan None (tq ++ l) = Some ([], Some dq)).
      { rewrite scan_is. cbn [start]. rewrite opened. pose proof (quiet_scan l A1) as Q. rewrite scan_is in Q. exact Q. }
      rewrite F. change (indent_of (tq ++ l)) with 0. assert (O : is_over ([] ++ []) (Some dq) = Some false) by reflexivity. rewrite O. cbn [app]. clear - A2.
      assert (G : forall ls, Forall (fun l => contains tq l = false) ls -> statements (Some (0, [], Some dq)) (ls ++ [tq]) = Some [(0, [PStr])]); [|exact (G (l' :: ls) A2)].
      clear. intros ls A. induction A as [|l ls Hl A IH]; [vm_compute; reflexivity|]. cbn [app statements]. rewrite (quiet_scan l Hl). cbn [app].
      assert (O : is_over [] (Some dq) = Some false) by reflexivity. rewrite O. exact IH. }
  split.
  - split; [|apply docstring_no_nl]. apply reads_statements. exists [(0, [PStr])], [(0, [])]. split; [exact S|reflexivity].
  - unfold states. rewrite S. discriminate.
Qed.

(** ** The layout of a class *)

Lemma align_nil_pass : align_python_comments_in_block_lines [$"pass"] = [$"pass"].
Proof. vm_compute. reflexivity. Qed.
Lemma reads_pass : reads [$"pass"] [] /\ states [$"pass"].
Proof. apply (reads_line $"pass" [PWord $"pass"]); try reflexivity; try discriminate. vm_compute. intuition discriminate. Qed.
Lemma comment_both a b : python_comment a -> python_comment b -> python_comment (a ++ b).
Proof.
  intros [->|(n & r & -> & N)] B; auto. right. exists n, (r ++ b). split; [rewrite <- !app_assoc; reflexivity|]. intros I. apply in_app_or in I. destruct I as [I|I]; auto.
  destruct B as [->|(m & q & -> & M)]; [destruct I|]. apply in_app_or in I. destruct I as [I|I]; [apply repeat_spec in I; discriminate|]. destruct I as [I|I]; [discriminate|auto].
Qed.
Lemma comment_no_nl a : python_comment a -> ~ In nl a.
Proof.
  intros [->|(n & r & -> & N)] I; [destruct I|]. apply in_app_or in I. destruct I as [I|I]; [apply repeat_spec in I; discriminate|]. destruct I as [I|I]; [discriminate|auto].
Qed.
Lemma reads_layout s re r c0 title note loc ks p e body i cs : Forall (eq sp) i -> i <> [] -> steps (InCode []) (c0 :: title) = (ks, InCode []) -> balance 0 ks = Some 0 ->
  is_space c0 = false -> opens_block ks = true -> ~ In nl (c0 :: title) -> python_comment note -> python_comment loc ->
  (let t := comment_apply_replacements s r (full_comment p e) in t = [] \/ (contains tq t = false /\ (In nl t \/ ends_escaping t = false))) ->
  reads body cs -> states body \/ body = [] \/ comment_apply_replacements s r (full_comment p e) <> [] ->
  reads (stub_layout_lines s re r ((c0 :: title) ++ note) [] loc p e body i) (defined [] ks ++ map (in_path (inside [] ks)) cs).
Proof.
  intros Hi Ni T B S0 O Nt Cn Cl D R W. pose proof (comment_both note loc Cn Cl) as C.
  assert (Nl : ~ In nl (((c0 :: title) ++ note) ++ loc)).
  { rewrite <- app_assoc. intros I. apply in_app_or in I. destruct I as [I|I]; [auto|exact (comment_no_nl _ C I)]. }
  destruct (layout_is s re r ((c0 :: title) ++ note) loc p e body i Nl Hi (proj2 R)) as (gap & G & ->).
  assert (E : rstrip (((c0 :: title) ++ note) ++ loc) = c0 :: rstrip (title ++ note ++ loc)).
  { rewrite <- app_assoc. exact (rstrip_keep [] c0 (title ++ note ++ loc) S0). }
  apply reads_class; auto.
  - rewrite scan_rstrip by exact I. rewrite <- app_assoc. apply scan_with_comment; auto.
  - rewrite E. unfold indent_of. cbn [takewhile]. destruct (ceqb_spec sp c0) as [<-|]; [discriminate S0|reflexivity].
  - apply rstrip_no_nl. exact Nl.
  - change cs with ([] ++ [] ++ cs). apply reads_app; [|apply reads_app; [apply reads_blanks; exact G|]].
    + destruct D as [D|[D1 D2]].
      * unfold docstring_lines. rewrite D. exact reads_nil.
      * destruct (comment_apply_replacements s r (full_comment p e)) as [|x y] eqn:Et; [unfold docstring_lines; rewrite Et; exact reads_nil|].
        rewrite <- Et in *. apply reads_doc; auto. rewrite Et. discriminate.
    + destruct body as [|b0 body].
      * assert (X : cs = []) by (destruct R as [R _]; cbn in R; inversion R; reflexivity). subst. rewrite align_nil_pass. exact (proj1 reads_pass).
      * destruct (align_lines_no_nl (b0 :: body) ltac:(discriminate) (proj2 R)) as (col & F). split; [exact (proj1 (reads_moved col _ _ _ F R))|].
        unfold align_python_comments_in_block_lines. apply lines_no_nl.
  - assert (Rd : reads (docstring_lines s r p e) []).
    { destruct D as [D|[D1 D2]]; [unfold docstring_lines; rewrite D; exact reads_nil|].
      destruct (comment_apply_replacements s r (full_comment p e)) as [|x y] eqn:Et; [unfold docstring_lines; rewrite Et; exact reads_nil|].
      rewrite <- Et in *. apply reads_doc; auto. rewrite Et. discriminate. }
    assert (Rb : reads (align_python_comments_in_block_lines match body with [] => [$"pass"] | _ => body end) cs /\
      (states body \/ body = [] -> states (align_python_comments_in_block_lines match body with [] => [$"pass"] | _ => body end))).
    { destruct body as [|b0 body].
      - assert (X : cs = []) by (destruct R as [R _]; cbn in R; inversion R; reflexivity). subst. rewrite align_nil_pass. split; [exact (proj1 reads_pass)|intros _; exact (proj2 reads_pass)].
      - destruct (align_lines_no_nl (b0 :: body) ltac:(discriminate) (proj2 R)) as (col & F). destruct (reads_moved col _ _ _ F R) as [F1 F2]. split; [split; [exact F1|]|].
        + unfold align_python_comments_in_block_lines. apply lines_no_nl.
        + intros [X|X]; [auto|discriminate]. }
    destruct Rb as [Rb Sb]. apply (states_app _ _ [] cs); auto; [apply (reads_app gap _ [] cs); [apply reads_blanks; exact G|exact Rb]|].
    destruct W as [W|[W|W]].
    + right. apply (states_app _ _ [] cs); auto. apply reads_blanks; exact G.
    + right. apply (states_app _ _ [] cs); auto. apply reads_blanks; exact G.
    + left. destruct D as [D|[D1 D2]]; [congruence|]. exact (proj2 (reads_doc s r p e W D1 D2)).
Qed.
