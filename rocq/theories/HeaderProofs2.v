(** Proofs about amalgamation. *)
From Verif Require Import PyStr PyStrLemmas HeaderModel HeaderSpec.
From Verif Require NumberProofs2.

Section Amalgamation.
Variable files : str -> option (list str).
Variable o : options.
Notation local_line := (is_local_include_line o).
Notation ext_line := (is_external_include_line o).
Notation ext_name := extract_external_include_file.
Notation loc_name := extract_local_include_file.
Notation res := (resolve files o).

Definition opens_line (s : str) : Prop := exists a, s = a ++ [nl].

(** The successful runs. *)
Inductive run1 : str -> list str -> list str -> list piece -> list str -> list str -> Prop :=
| r_again n p loc ext : res n = Some p -> In p loc -> run1 n loc ext [] loc ext
| r_file n p ls h ps loc ext loc' ext' :
    res n = Some p -> ~ In p loc -> files p = Some ls -> opens_line h ->
    runs p 0 ls false (loc ++ [p]) ext ps loc' ext' -> run1 n loc ext (Decor h :: ps) loc' ext'
with runs : str -> nat -> list str -> bool -> list str -> list str -> list piece -> list str -> list str -> Prop :=
| r_nil p i b loc ext : runs p i [] b loc ext [] loc ext
| r_decor p i l ls loc ext h ps loc' ext' :
    blank l = false -> local_line l = false -> opens_line h ->
    runs p i (l :: ls) false loc ext ps loc' ext' -> runs p i (l :: ls) true loc ext (Decor h :: ps) loc' ext'
| r_ext_again p i l ls b loc ext ps loc' ext' :
    ext_line l = true -> In (ext_name l) ext -> runs p (S i) ls b loc ext ps loc' ext' ->
    runs p i (l :: ls) b loc ext ps loc' ext'
| r_ext p i l ls b loc ext ps loc' ext' :
    ext_line l = true -> ~ In (ext_name l) ext -> b && negb (blank l) = false ->
    runs p (S i) ls b loc (ext ++ [ext_name l]) ps loc' ext' ->
    runs p i (l :: ls) b loc ext (Code p i l :: ps) loc' ext'
| r_local p i l ls b b' loc ext ps1 loc1 ext1 ps loc' ext' :
    ext_line l = false -> local_line l = true -> run1 (loc_name l) loc ext ps1 loc1 ext1 ->
    (b' = false -> ps1 = [] /\ b = false) ->
    runs p (S i) ls b' loc1 ext1 ps loc' ext' ->
    runs p i (l :: ls) b loc ext (ps1 ++ ps) loc' ext'
| r_pragma p i l ls b loc ext ps loc' ext' :
    ext_line l = false -> local_line l = false -> contains $"#pragma once" l = true ->
    runs p (S i) ls b loc ext ps loc' ext' -> runs p i (l :: ls) b loc ext ps loc' ext'
| r_plain p i l ls b loc ext ps loc' ext' :
    ext_line l = false -> local_line l = false -> contains $"#pragma once" l = false -> b && negb (blank l) = false ->
    runs p (S i) ls b loc ext ps loc' ext' -> runs p i (l :: ls) b loc ext (Code p i l :: ps) loc' ext'.

Scheme run1_mut := Induction for run1 Sort Prop
with runs_mut := Induction for runs Sort Prop.
Combined Scheme run_ind from run1_mut, runs_mut.

Lemma decorate_opens s : opens_line (decorate_code_info s).
Proof.
  unfold opens_line, decorate_code_info.
  exists (nl :: separator_line ++ nl :: ljust ($"//                       " ++ s) (length separator_line - 2) ++ $"//" ++
    nl :: separator_line).
  rewrite <- !app_comm_cons, <- !app_assoc, <- !app_comm_cons, <- !app_assoc. auto.
Qed.
Lemma opens_snoc s : opens_line (s ++ [nl]).
Proof. exists s; auto. Qed.
Lemma lines_cons_nl s : lines (nl :: s) = [] :: lines s.
Proof. apply (split_on_app_sep nl [] s). intros []. Qed.
Lemma in_lines_char c s : In c s -> c <> nl -> exists l, In l (lines s) /\ In c l.
Proof.
  intros H Hc. induction s as [|x s IH]; [destruct H|]. unfold lines in *. cbn [split_on].
  destruct (ceqb_spec x nl) as [->|Hx].
  - destruct H as [E|H]; [congruence|]. destruct (IH H) as (l & ? & ?). exists l. cbn; auto.
  - destruct (split_on nl s) as [|l0 ls0] eqn:E; [destruct (split_on_nonempty nl s E)|].
    destruct H as [->|H]; [exists (c :: l0); cbn; auto|]. destruct (IH H) as (l & [<-|Hl] & ?).
    + exists (x :: l0). cbn; auto.
    + exists l. cbn; auto.
Qed.
Lemma text_cons p ps : text (p :: ps) = piece_text p ++ text ps.
Proof. auto. Qed.
Lemma text_app a b : text (a ++ b) = text a ++ text b.
Proof. unfold text. rewrite map_app, concat_app. auto. Qed.
Lemma not_all_blank s : In "/"%char s -> forallb blank (lines s) = false.
Proof.
  intros H. destruct (in_lines_char "/"%char s H) as (l & Hl & Hc); [discriminate|].
  destruct (forallb blank (lines s)) eqn:E; auto. rewrite forallb_forall in E. specialize (E l Hl).
  apply blank_Forall in E. rewrite Forall_forall in E. specialize (E _ Hc). discriminate.
Qed.
Lemma decorate_slash s : In "/"%char (decorate_code_info s).
Proof. unfold decorate_code_info. right. apply in_or_app. left. left. auto. Qed.

(** A loop whose recursive calls are runs is a run. *)
Lemma lines_run rec path rel :
  (forall n inc loc ext ps loc' ext', rec n inc loc ext = Done ps loc' ext' -> run1 n loc ext ps loc' ext') ->
  forall ls i b loc ext ps loc' ext',
  amalgamate_lines o rec path rel i ls b loc ext = Done ps loc' ext' -> runs path i ls b loc ext ps loc' ext'.
Proof.
  intros Hrec. induction ls as [|l ls IH]; intros i b loc ext ps loc' ext' H.
  - cbn in H. inversion H; subst. constructor.
  - cbn [amalgamate_lines] in H.
    set (cont := b && negb (blank l) && negb (local_line l)) in H.
    (* without the decoration *)
    assert (G : forall b ps, b && negb (blank l) && negb (local_line l) = false ->
      (if ext_line l then
         if smem (ext_name l) ext then
           match amalgamate_lines o rec path rel (S i) ls b loc ext with Done ps' a c => Done ps' a c | e => e end
         else match amalgamate_lines o rec path rel (S i) ls b loc (ext ++ [ext_name l]) with
              | Done ps' a c => Done (Code path i l :: ps') a c | e => e end
       else if local_line l then
         match rec (loc_name l) rel loc ext with
         | Done ps1 a1 c1 =>
             match amalgamate_lines o rec path rel (S i) ls (match text ps1 with [] => b | _ => true end) a1 c1 with
             | Done ps' a c => Done (ps1 ++ ps') a c | e => e end
         | e => e
         end
       else if contains $"#pragma once" l then
         match amalgamate_lines o rec path rel (S i) ls b loc ext with Done ps' a c => Done ps' a c | e => e end
       else match amalgamate_lines o rec path rel (S i) ls b loc ext with
            | Done ps' a c => Done (Code path i l :: ps') a c | e => e end) = Done ps loc' ext' ->
      runs path i (l :: ls) b loc ext ps loc' ext').
    { clear H cont ps b. intros b ps Hb H.
      destruct (ext_line l) eqn:He.
      - assert (Hl : local_line l = false).
        { unfold is_external_include_line in He. apply andb_true_iff in He. destruct He as (_ & He).
          unfold is_local_include_line in *. rewrite negb_true_iff in He.
          rewrite NumberProofs2.strip_idem in He. auto. }
        rewrite Hl, andb_true_r in Hb.
        destruct (smem (ext_name l) ext) eqn:Hm.
        + destruct (amalgamate_lines o rec path rel (S i) ls b loc ext) eqn:E; inversion H; subst.
          apply r_ext_again; auto. apply smem_In; auto.
        + destruct (amalgamate_lines o rec path rel (S i) ls b loc (ext ++ [ext_name l])) eqn:E; inversion H; subst.
          apply r_ext; auto. apply smem_false; auto.
      - destruct (local_line l) eqn:Hl.
        + destruct (rec (loc_name l) rel loc ext) as [ps1 a1 c1| |] eqn:E1; try discriminate.
          destruct (amalgamate_lines o rec path rel (S i) ls (match text ps1 with [] => b | _ => true end) a1 c1) eqn:E;
            inversion H; subst.
          eapply r_local; eauto. intros Hf. specialize (Hrec _ _ _ _ _ _ _ E1). destruct (text ps1) eqn:T; [|discriminate].
          split; auto. inversion Hrec as [|? ? ? ? ? ? ? ? ? ? ? ? Ho]; subst; auto. destruct Ho as (a & ->).
          rewrite text_cons in T. cbn in T. destruct a; discriminate T.
        + destruct (contains $"#pragma once" l) eqn:Hp.
          * destruct (amalgamate_lines o rec path rel (S i) ls b loc ext) eqn:E; inversion H; subst.
            apply r_pragma; auto.
          * destruct (amalgamate_lines o rec path rel (S i) ls b loc ext) eqn:E; inversion H; subst.
            rewrite andb_true_r in Hb. apply r_plain; auto. }
    destruct cont eqn:C.
    + unfold cont in C. rewrite !andb_true_iff, !negb_true_iff in C. destruct C as ((-> & Hbl) & Hl).
      assert (E : exists ps', ps = Decor (decorate_code_info (rel ++ $" continued") ++ [nl]) :: ps' /\
         runs path i (l :: ls) false loc ext ps' loc' ext').
      { rewrite Hl in *.
        destruct (ext_line l) eqn:He.
        - destruct (smem (ext_name l) ext) eqn:Hm.
          + destruct (amalgamate_lines o rec path rel (S i) ls false loc ext) as [q a c| |] eqn:E; inversion H; subst.
            exists q. split; auto. apply G; auto. rewrite E; auto.
          + destruct (amalgamate_lines o rec path rel (S i) ls false loc (ext ++ [ext_name l])) as [q a c| |] eqn:E;
              inversion H; subst. exists (Code path i l :: q). split; auto. apply G; auto. rewrite E; auto.
        - destruct (contains $"#pragma once" l) eqn:Hp.
          + destruct (amalgamate_lines o rec path rel (S i) ls false loc ext) as [q a c| |] eqn:E; inversion H; subst.
            exists q. split; auto. apply G; auto. rewrite E; auto.
          + destruct (amalgamate_lines o rec path rel (S i) ls false loc ext) as [q a c| |] eqn:E; inversion H; subst.
            exists (Code path i l :: q). split; auto. apply G; auto. rewrite E; auto. }
      destruct E as (ps' & -> & R). apply r_decor; auto. apply opens_snoc.
    + apply G; auto.
Qed.

Lemma file_run fuel : forall n inc loc ext ps loc' ext',
  amalgamate_one_file files o fuel n inc loc ext = Done ps loc' ext' -> run1 n loc ext ps loc' ext'.
Proof.
  induction fuel as [|fuel IH]; intros n inc loc ext ps loc' ext' H; [discriminate|].
  cbn [amalgamate_one_file] in H. destruct (res n) as [p|] eqn:Hr; [|discriminate].
  destruct (smem p loc) eqn:Hm.
  - inversion H; subst. eapply r_again; eauto. apply smem_In; auto.
  - destruct (files p) as [ls|] eqn:Hf; [|discriminate].
    destruct (amalgamate_lines o _ p (relative_name o n) 0 ls false (loc ++ [p]) ext) as [q a c| |] eqn:E; try discriminate.
    apply lines_run in E; [|intros; eapply IH; eauto].
    rewrite not_all_blank in H.
    + inversion H; subst. eapply r_file; eauto; [apply smem_false; auto|destruct inc; apply decorate_opens].
    + rewrite text_cons. apply in_or_app. left. cbn. destruct inc; apply decorate_slash.
Qed.

(** *** Invariants of runs *)

Lemma nodup_snoc (l : list str) x : ~ In x l -> NoDup l -> NoDup (l ++ [x]).
Proof. intros Hx Hl. apply (NoDup_Add (Add_app x l [])). rewrite app_nil_r. auto. Qed.
Lemma run_grows :
  (forall n loc ext ps loc' ext', run1 n loc ext ps loc' ext' ->
     (exists new, loc' = loc ++ new /\ (NoDup loc -> NoDup loc')) /\ (exists new, ext' = ext ++ new /\ (NoDup ext -> NoDup ext')) /\
     (exists p, res n = Some p /\ In p loc')) /\
  (forall p i ls b loc ext ps loc' ext', runs p i ls b loc ext ps loc' ext' ->
     (exists new, loc' = loc ++ new /\ (NoDup loc -> NoDup loc')) /\ (exists new, ext' = ext ++ new /\ (NoDup ext -> NoDup ext'))).
Proof.
  pose proof nodup_snoc as N. apply run_ind; intros.
  - split; [exists []; rewrite app_nil_r; auto|]. split; [exists []; rewrite app_nil_r; auto|]. eauto.
  - destruct H as ((nw & -> & Hn) & (ne & -> & He)). split; [exists ([p] ++ nw); rewrite app_assoc; split; auto|].
    split; [eauto|]. exists p. split; auto. apply in_or_app. left. apply in_or_app. right. left; auto.
  - split; exists []; rewrite app_nil_r; auto.
  - auto.
  - auto.
  - destruct H as (Hl & (ne & -> & He)). split; auto. exists ([ext_name l] ++ ne). rewrite app_assoc. split; auto.
  - destruct H as ((n1 & -> & Hn1) & (e1 & -> & He1) & _). destruct H0 as ((n2 & -> & Hn2) & (e2 & -> & He2)).
    split; [exists (n1 ++ n2); rewrite app_assoc; auto|exists (e1 ++ e2); rewrite app_assoc; auto].
  - auto.
  - auto.
Qed.
Lemma run1_loc n loc ext ps loc' ext' : run1 n loc ext ps loc' ext' -> incl loc loc'.
Proof. intros H. apply (proj1 run_grows) in H. destruct H as ((nw & -> & _) & _). apply incl_appl, incl_refl. Qed.
Lemma runs_loc p i ls b loc ext ps loc' ext' : runs p i ls b loc ext ps loc' ext' -> incl loc loc'.
Proof. intros H. apply (proj2 run_grows) in H. destruct H as ((nw & -> & _) & _). apply incl_appl, incl_refl. Qed.
Lemma run1_ext n loc ext ps loc' ext' : run1 n loc ext ps loc' ext' -> incl ext ext'.
Proof. intros H. apply (proj1 run_grows) in H. destruct H as (_ & (nw & -> & _) & _). apply incl_appl, incl_refl. Qed.
Lemma runs_ext p i ls b loc ext ps loc' ext' : runs p i ls b loc ext ps loc' ext' -> incl ext ext'.
Proof. intros H. apply (proj2 run_grows) in H. destruct H as (_ & (nw & -> & _)). apply incl_appl, incl_refl. Qed.

(** Everything a new file includes is included. *)
Definition settled (q : str) (loc' ext' : list str) : Prop :=
  exists ls, files q = Some ls /\ forall l, In l ls ->
    (ext_line l = true -> In (ext_name l) ext') /\
    (local_line l = true -> exists p, res (loc_name l) = Some p /\ In p loc').
Lemma settled_mono q a b a' b' : settled q a b -> incl a a' -> incl b b' -> settled q a' b'.
Proof.
  intros (ls & Hf & H) Ha Hb. exists ls. split; auto. intros l Hl. destruct (H l Hl) as (H1 & H2). split; auto.
  intros Hll. destruct (H2 Hll) as (p & ? & ?). eauto.
Qed.
Lemma ext_not_local l : ext_line l = true -> local_line l = false.
Proof.
  unfold is_external_include_line, is_local_include_line. rewrite andb_true_iff, negb_true_iff, NumberProofs2.strip_idem.
  tauto.
Qed.
Lemma run_settled :
  (forall n loc ext ps loc' ext', run1 n loc ext ps loc' ext' ->
     forall q, In q loc' -> In q loc \/ settled q loc' ext') /\
  (forall p i ls b loc ext ps loc' ext', runs p i ls b loc ext ps loc' ext' ->
     (forall q, In q loc' -> In q loc \/ settled q loc' ext') /\
     (forall l, In l ls -> (ext_line l = true -> In (ext_name l) ext') /\
        (local_line l = true -> exists p, res (loc_name l) = Some p /\ In p loc'))).
Proof.
  apply run_ind; intros.
  - auto.
  - destruct H as (H1 & H2). destruct (H1 q H0) as [H|H]; auto. apply in_app_or in H. destruct H as [H|[<-|[]]]; auto.
    right. exists ls. split; auto.
  - split; [auto|intros l []].
  - auto.
  - destruct H as (H1 & H2). split; auto. intros x [<-|Hx]; auto. split.
    + intros _. eapply runs_ext; eauto.
    + rewrite ext_not_local by auto. discriminate.
  - destruct H as (H1 & H2). split; auto. intros x [<-|Hx]; auto. split.
    + intros _. eapply runs_ext; eauto. apply in_or_app; right; left; auto.
    + rewrite ext_not_local by auto. discriminate.
  - destruct H0 as (H1 & H2). split.
    + intros q Hq. destruct (H1 q Hq) as [H0|H0]; auto. destruct (H q H0) as [H3|H3]; auto.
      right. eapply settled_mono; eauto using runs_loc, runs_ext.
    + intros x [<-|Hx]; auto. split; [congruence|]. intros _.
      match goal with H : run1 _ _ _ _ _ _ |- _ => apply (proj1 run_grows) in H; destruct H as (_ & _ & p' & ? & ?) end.
      exists p'. split; auto. eapply runs_loc; eauto.
  - destruct H as (H1 & H2). split; auto. intros x [<-|Hx]; auto. split; congruence.
  - destruct H as (H1 & H2). split; auto. intros x [<-|Hx]; auto. split; congruence.
Qed.

(** New files are reached. *)
Inductive reaches (q0 : str) : str -> Prop :=
| reaches_refl : reaches q0 q0
| reaches_step q ls l p : reaches q0 q -> files q = Some ls -> In l ls -> local_line l = true ->
    res (loc_name l) = Some p -> reaches q0 p.
Lemma reaches_trans a b c : reaches a b -> reaches b c -> reaches a c.
Proof. induction 2; auto. eapply reaches_step; eauto. Qed.
Lemma reached_reaches n p q : res n = Some p -> reaches p q -> reached files o n q.
Proof. intros Hn. induction 1; [apply reached_main; auto|eapply reached_next; eauto]. Qed.
Lemma reached_inv n q : reached files o n q -> exists p, res n = Some p /\ reaches p q.
Proof.
  induction 1 as [p Hp|q ls l p H (p0 & Hp0 & IH) Hf Hl Hloc Hr].
  - exists p. split; auto. constructor.
  - exists p0. split; auto. eapply reaches_step; eauto.
Qed.
Lemma run_reached :
  (forall n loc ext ps loc' ext', run1 n loc ext ps loc' ext' ->
     forall q, In q loc' -> In q loc \/ exists p, res n = Some p /\ reaches p q) /\
  (forall p i ls b loc ext ps loc' ext', runs p i ls b loc ext ps loc' ext' ->
     forall ls0 pre, files p = Some ls0 -> ls0 = pre ++ ls ->
     forall q, In q loc' -> In q loc \/ reaches p q).
Proof.
  apply run_ind; intros.
  - auto.
  - specialize (H ls [] ltac:(auto) eq_refl q H0). destruct H as [H|H]; [|right; eauto].
    apply in_app_or in H. destruct H as [H|[<-|[]]]; auto. right. exists p. split; auto. constructor.
  - auto.
  - eapply H; eauto.
  - eapply (H ls0 (pre ++ [l])); eauto. subst. rewrite <- app_assoc. auto.
  - eapply (H ls0 (pre ++ [l])); eauto. subst. rewrite <- app_assoc. auto.
  - destruct (H0 ls0 (pre ++ [l]) ltac:(auto) ltac:(subst; rewrite <- app_assoc; auto) q ltac:(auto)) as [H5|H5]; auto.
    destruct (H q H5) as [H6|(p1 & Hp1 & H6)]; auto. right. eapply reaches_trans; [|exact H6].
    eapply reaches_step; eauto; [constructor|]. subst. apply in_or_app; right; left; auto.
  - eapply (H ls0 (pre ++ [l])); eauto. subst. rewrite <- app_assoc. auto.
  - eapply (H ls0 (pre ++ [l])); eauto. subst. rewrite <- app_assoc. auto.
Qed.

(** The plain lines. *)
Lemma plain_of_app q a b : plain_of o q (a ++ b) = plain_of o q a ++ plain_of o q b.
Proof. apply filter_app. Qed.
Lemma plain_of_decor q h ps : plain_of o q (Decor h :: ps) = plain_of o q ps.
Proof. auto. Qed.
Lemma plain_of_code q p i l ps :
  plain_of o q (Code p i l :: ps) = (if seqb q p && plain o l then [Code p i l] else []) ++ plain_of o q ps.
Proof. unfold plain_of. cbn [filter]. destruct (seqb q p && plain o l); auto. Qed.
Definition file_lines (q : str) : list str := match files q with Some ls => ls | None => [] end.
Lemma run_plain :
  (forall n loc ext ps loc' ext', run1 n loc ext ps loc' ext' -> NoDup loc ->
     forall q, plain_of o q ps =
       if smem q loc then [] else if smem q loc' then plain_lines o q 0 (file_lines q) else []) /\
  (forall p i ls b loc ext ps loc' ext', runs p i ls b loc ext ps loc' ext' -> NoDup loc -> In p loc ->
     forall q, plain_of o q ps =
       if seqb q p then plain_lines o p i ls
       else if smem q loc then [] else if smem q loc' then plain_lines o q 0 (file_lines q) else []).
Proof.
  assert (M : forall q a b, incl a b -> smem q a = true -> smem q b = true).
  { intros q a b H. rewrite !smem_In. auto. }
  apply run_ind; intros.
  - cbn. destruct (smem q loc); auto.
  - rewrite plain_of_decor, H; auto.
    + destruct (seqb_spec q p) as [->|Hq].
      * assert (E1 : smem p loc = false) by (apply smem_false; auto). rewrite E1.
        assert (E2 : smem p loc' = true).
        { apply smem_In. eapply runs_loc; eauto. apply in_or_app; right; left; auto. }
        rewrite E2. unfold file_lines. destruct (files p); congruence.
      * assert (E : smem q (loc ++ [p]) = smem q loc).
        { unfold smem. rewrite existsb_app. cbn. assert (seqb q p = false) as -> by (apply seqb_false; auto).
          rewrite !orb_false_r. auto. }
        rewrite E. auto.
    + apply nodup_snoc; auto.
    + apply in_or_app; right; left; auto.
  - cbn. destruct (seqb q p); auto. destruct (smem q loc); auto.
  - rewrite plain_of_decor. auto.
  - rewrite H by auto. destruct (seqb q p); auto. cbn. unfold plain. rewrite e. auto.
  - rewrite plain_of_code. cbn [plain_lines]. unfold plain at 1 2. rewrite e. cbn [negb andb]. rewrite andb_false_r. cbn [app].
    auto.
  - rewrite plain_of_app, H by auto. pose proof (run1_loc _ _ _ _ _ _ r) as I1. pose proof (runs_loc _ _ _ _ _ _ _ _ _ r0) as I2.
    assert (ND : NoDup loc1).
    { apply (proj1 run_grows) in r. destruct r as ((nw & -> & Hn) & _). auto. }
    rewrite H0 by auto. destruct (seqb_spec q p) as [->|Hq].
    + assert (E : smem p loc = true) by (apply smem_In; auto). rewrite E. cbn [app plain_lines].
      replace (plain o l) with false by (unfold plain; rewrite e, e0; auto). auto.
    + destruct (smem q loc) eqn:E1.
      * rewrite (M q loc loc1) by auto. auto.
      * destruct (smem q loc1) eqn:E2.
        -- rewrite (M q loc1 loc') by auto. rewrite app_nil_r. auto.
        -- auto.
  - rewrite H by auto. destruct (seqb q p); auto. cbn. unfold plain. rewrite e, e0, e1. auto.
  - rewrite plain_of_code, H by auto. destruct (seqb_spec q p) as [->|Hq]; cbn [andb]; auto.
Qed.

(** The external includes. *)
Lemma externals_app a b : externals o (a ++ b) = externals o a ++ externals o b.
Proof. apply flat_map_app. Qed.
Lemma run_externals :
  (forall n loc ext ps loc' ext', run1 n loc ext ps loc' ext' -> ext' = ext ++ externals o ps) /\
  (forall p i ls b loc ext ps loc' ext', runs p i ls b loc ext ps loc' ext' -> ext' = ext ++ externals o ps).
Proof.
  apply run_ind; intros; cbn [externals flat_map app]; try rewrite app_nil_r; auto.
  - rewrite H. unfold external. rewrite e. cbn. rewrite <- app_assoc. auto.
  - rewrite H0, H, externals_app, app_assoc. auto.
  - unfold external. rewrite e. auto.
Qed.
Lemma run_codes :
  (forall n loc ext ps loc' ext', run1 n loc ext ps loc' ext' ->
     forall q i l, In (Code q i l) ps -> In q loc' /\ nth_error (file_lines q) i = Some l /\ (plain o l = true \/ external o l = true)) /\
  (forall p i ls b loc ext ps loc' ext', runs p i ls b loc ext ps loc' ext' ->
     In p loc -> forall pre, files p = Some (pre ++ ls) -> length pre = i ->
     forall q j l, In (Code q j l) ps -> In q loc' /\ nth_error (file_lines q) j = Some l /\ (plain o l = true \/ external o l = true)).
Proof.
  assert (HL : forall p pre l ls, files p = Some (pre ++ l :: ls) -> nth_error (file_lines p) (length pre) = Some l).
  { intros p pre l ls H. unfold file_lines. rewrite H, nth_error_app2, Nat.sub_diag; auto. }
  assert (HS : forall (pre : list str) l ls, pre ++ l :: ls = (pre ++ [l]) ++ ls).
  { intros. rewrite <- app_assoc. auto. }
  apply run_ind; intros.
  - destruct H.
  - destruct H0 as [H0|H0]; [discriminate|]. eapply (H ltac:(apply in_or_app; right; left; auto) []); eauto.
  - destruct H2.
  - destruct H3 as [H3|H3]; [discriminate|]. eapply H; eauto.
  - rewrite HS in H1. eapply H; eauto. rewrite app_length; cbn; lia.
  - destruct H3 as [H3|H3].
    + inversion H3; subst. split; [eapply runs_loc; eauto|]. split; [eapply HL; eauto|]. right. auto.
    + rewrite HS in H1. eapply H; eauto. rewrite app_length; cbn; lia.
  - apply in_app_or in H4. destruct H4 as [H4|H4].
    + destruct (H _ _ _ H4) as (H5 & H6). split; auto. eapply runs_loc; eauto.
    + rewrite HS in H2. eapply H0; eauto; [eapply run1_loc; eauto|]. rewrite app_length; cbn; lia.
  - rewrite HS in H1. eapply H; eauto. rewrite app_length; cbn; lia.
  - destruct H3 as [H3|H3].
    + inversion H3; subst. split; [eapply runs_loc; eauto|]. split; [eapply HL; eauto|]. left. unfold plain.
      rewrite e, e0, e1. auto.
    + rewrite HS in H1. eapply H; eauto. rewrite app_length; cbn; lia.
Qed.

(** Lines stay lines. *)
Definition intact (start : Prop) (ps : list piece) : Prop :=
  forall a q i l b, ps = a ++ Code q i l :: b -> blank l = false ->
  match a with [] => start | _ => opens_line (text a) end.
Lemma opens_app a b : opens_line b -> opens_line (a ++ b).
Proof. intros (x & ->). exists (a ++ x). rewrite app_assoc. auto. Qed.
Lemma intact_cons (start : Prop) p ps (P : Prop) :
  (forall q i l, p = Code q i l -> blank l = false -> start) -> (P -> opens_line (piece_text p)) -> intact P ps ->
  intact start (p :: ps).
Proof.
  intros Hs Hp H a q i l b E Hb. destruct a as [|x a].
  - inversion E; subst. eauto.
  - inversion E; subst. specialize (H a q i l b eq_refl Hb). rewrite text_cons. destruct a as [|y a].
    + unfold text; cbn. rewrite app_nil_r. auto.
    + apply opens_app; auto.
Qed.
Lemma intact_app (start : Prop) a b (P : Prop) : intact start a -> (P -> start) -> intact P b ->
  (P -> a = [] \/ opens_line (text a)) -> intact start (a ++ b).
Proof.
  intros Ha HP Hb HPa x q i l y E Hbl. apply app_eq_app in E. destruct E as (z & [(-> & E)|(-> & E)]).
  - destruct z as [|c z].
    + rewrite app_nil_r in *. cbn in E. specialize (Hb [] q i l y). rewrite E in Hb.
      destruct x as [|c x]; [apply HP; apply Hb; auto|].
      destruct (HPa (Hb eq_refl Hbl)) as [C|C]; [discriminate|exact C].
    + inversion E; subst. exact (Ha x q i l z eq_refl Hbl).
  - specialize (Hb z q i l y E Hbl). destruct z as [|c z].
    + rewrite app_nil_r. destruct a as [|c a]; [auto|]. destruct (HPa Hb) as [C|C]; [discriminate|exact C].
    + rewrite text_app. destruct a as [|c' a]; [exact Hb|]. cbn [app]. apply opens_app. exact Hb.
Qed.
Lemma intact_weaken (P Q : Prop) ps : (P -> Q) -> intact P ps -> intact Q ps.
Proof. intros H Hi a q i l b E Hb. specialize (Hi a q i l b E Hb). destruct a; auto. Qed.
Lemma runs_intact : readable files ->
  (forall n loc ext ps loc' ext', run1 n loc ext ps loc' ext' -> intact False ps) /\
  (forall p i ls b loc ext ps loc' ext', runs p i ls b loc ext ps loc' ext' ->
     forall pre, files p = Some (pre ++ ls) -> intact (b = false) ps).
Proof.
  intros R. assert (HS : forall (pre : list str) l ls, pre ++ l :: ls = (pre ++ [l]) ++ ls).
  { intros. rewrite <- app_assoc. auto. }
  assert (Nil : forall P, intact P []) by (intros P a q i l b E; destruct a; discriminate).
  apply run_ind; intros.
  - apply Nil.
  - eapply (intact_cons _ _ _ (false = false)); [discriminate| |apply (H [] e0)]. auto.
  - apply Nil.
  - eapply (intact_cons _ _ _ (false = false)); [discriminate| |eapply H; eauto]. auto.
  - rewrite HS in H0. eauto.
  - rewrite HS in H0. destruct ls as [|l2 ls].
    + inversion r; subst. apply (intact_cons _ _ _ False); [|tauto|apply Nil].
      intros q i0 l0 E Hb. inversion E; subst. rewrite Hb, andb_true_r in e0. auto.
    + eapply (intact_cons _ _ _ (b = false)); [| |eapply H; eauto].
      * intros q i0 l0 E Hb. inversion E; subst. rewrite Hb, andb_true_r in e0. auto.
      * intros _. cbn. eapply (R p _ H0 pre l (l2 :: ls)); [rewrite <- app_assoc; auto|discriminate].
  - rewrite HS in H1. eapply (intact_app _ _ _ (b' = false)); [eapply intact_weaken; [|exact H]; tauto|tauto|eauto|].
    intros Hf. left. tauto.
  - rewrite HS in H0. eauto.
  - rewrite HS in H0. destruct ls as [|l2 ls].
    + inversion r; subst. apply (intact_cons _ _ _ False); [|tauto|apply Nil].
      intros q i0 l0 E Hb. inversion E; subst. rewrite Hb, andb_true_r in e2. auto.
    + eapply (intact_cons _ _ _ (b = false)); [| |eapply H; eauto].
      * intros q i0 l0 E Hb. inversion E; subst. rewrite Hb, andb_true_r in e2. auto.
      * intros _. cbn. eapply (R p _ H0 pre l (l2 :: ls)); [rewrite <- app_assoc; auto|discriminate].
Qed.
End Amalgamation.
