(** The lines of the amalgamated text. *)
From Verif Require Import PyStr PyStrLemmas HeaderModel HeaderSpec HeaderProofs2 HeaderProofs3.
From Verif Require NumberProofs2.

Lemma code_lines_nl a b : code_lines (a ++ nl :: b) = code_lines a ++ code_lines b.
Proof. unfold code_lines, lines. rewrite split_on_app, map_app, filter_app. auto. Qed.
Lemma code_lines_nil : code_lines [] = [].
Proof. reflexivity. Qed.
Lemma code_lines_end a : code_lines (a ++ [nl]) = code_lines a.
Proof. rewrite code_lines_nl, code_lines_nil, app_nil_r. auto. Qed.
Lemma split_last a : exists x y, lines a = x ++ [y] /\ forall b, ~ In nl b -> lines (a ++ b) = x ++ [y ++ b].
Proof.
  induction a as [|c a (x & y & E & H)].
  - exists [], []. split; auto. intros b Hb. cbn. unfold lines. apply split_on_single; auto.
  - unfold lines in *. cbn [split_on app]. destruct (ceqb c nl) eqn:C.
    + exists ([] :: x), y. rewrite E. split; auto. intros b Hb. rewrite (H b Hb). auto.
    + destruct x as [|x0 x].
      * exists [], (c :: y). rewrite E. split; auto. intros b Hb. rewrite (H b Hb). auto.
      * exists ((c :: x0) :: x), y. rewrite E. split; auto. intros b Hb. rewrite (H b Hb). auto.
Qed.
Lemma rstrip_spaces y b : Forall (fun x => is_space x = true) b -> rstrip (y ++ b) = rstrip y.
Proof.
  intros H. induction b as [|c b IH] using rev_ind; [rewrite app_nil_r; auto|].
  apply Forall_app in H. destruct H as (H1 & H2). inversion H2; subst.
  rewrite app_assoc, NumberProofs2.rstrip_snoc by auto. auto.
Qed.
Lemma code_lines_spaces a b : Forall (fun x => is_space x = true) b -> ~ In nl b -> code_lines (a ++ b) = code_lines a.
Proof.
  intros Hs Hn. destruct (split_last a) as (x & y & E & H). unfold code_lines. rewrite (H b Hn), E, !map_app. cbn [map].
  rewrite rstrip_spaces by auto. auto.
Qed.
(** A line that ends with a line feed or nowhere. *)
Definition lineish (l : str) : Prop := ~ In nl l \/ exists a, l = a ++ [nl] /\ ~ In nl a.
Lemma lineish_spec l : (forall a b, l = a ++ nl :: b -> b = []) -> lineish l.
Proof.
  intros H. destruct (in_dec ascii_dec nl l) as [Hi|Hi]; [|left; auto]. right.
  apply in_split in Hi. destruct Hi as (a & b & ->). specialize (H a b eq_refl) as E. subst. exists a. split; auto.
  intros Hi. apply in_split in Hi. destruct Hi as (x & y & ->).
  specialize (H x (y ++ [nl])). rewrite <- app_assoc in H. specialize (H eq_refl). destruct y; discriminate.
Qed.
Lemma code_lines_blank a l : lineish l -> blank l = true -> code_lines (a ++ l) = code_lines a.
Proof.
  intros [Hn|(x & -> & Hn)] Hb; apply blank_Forall in Hb.
  - apply code_lines_spaces; auto.
  - apply Forall_app in Hb. rewrite app_assoc, code_lines_end. apply code_lines_spaces; tauto.
Qed.

Definition decor_starts (ps : list piece) : Prop := forall s, In (Decor s) ps -> exists t, s = nl :: t.
Lemma decor_app a b : decor_starts a -> decor_starts b -> decor_starts (a ++ b).
Proof. intros Ha Hb s H. apply in_app_iff in H. destruct H; auto. Qed.

Section Decor.
Variable files : str -> option (list str).
Variable o : options.
Definition starts (r : outcome) : Prop := match r with Done ps _ _ => decor_starts ps | _ => True end.
Lemma lines_starts rec path rel : (forall n inc loc ext, starts (rec n inc loc ext)) ->
  forall ls i b loc ext, starts (amalgamate_lines o rec path rel i ls b loc ext).
Proof.
  intros Hrec. induction ls as [|l ls IH]; intros i b loc ext; [intros s []|]. cbn [amalgamate_lines].
  set (d := if b && negb (blank l) && negb (is_local_include_line o l) then [Decor _] else []).
  assert (Hd : decor_starts d).
  { unfold d. destruct (_ && _); intros s []; [|destruct H]. inversion H. eexists. cbn [app]. reflexivity. }
  assert (Hc : decor_starts [Code path i l]) by (intros s [C|[]]; discriminate C).
  assert (Hn : decor_starts []) by (intros s []).
  assert (G : forall ps b loc ext, decor_starts ps ->
    starts match amalgamate_lines o rec path rel (S i) ls b loc ext with
           | Done ps' a c => Done (d ++ ps ++ ps') a c | e => e end).
  { intros ps b0 loc0 ext0 Hp. specialize (IH (S i) b0 loc0 ext0).
    destruct (amalgamate_lines o rec path rel (S i) ls b0 loc0 ext0); cbn in *; auto.
    repeat apply decor_app; auto. }
  destruct (is_external_include_line o l); [destruct (smem _ ext); apply G; auto|].
  destruct (is_local_include_line o l).
  - specialize (Hrec (extract_local_include_file l) rel loc ext).
    destruct (rec (extract_local_include_file l) rel loc ext); auto.
  - destruct (contains _ l); apply G; auto.
Qed.
Lemma file_starts fuel : forall n inc loc ext, starts (amalgamate_one_file files o fuel n inc loc ext).
Proof.
  induction fuel as [|fuel IH]; intros n inc loc ext; [exact I|]. cbn [amalgamate_one_file].
  destruct (resolve files o n) as [p|]; [|exact I]. destruct (smem p loc); [intros s []|].
  destruct (files p) as [ls|]; [|exact I].
  pose proof (lines_starts (amalgamate_one_file files o fuel) p (relative_name o n) IH ls 0 false (loc ++ [p]) ext) as H.
  destruct (amalgamate_lines o _ p _ 0 ls false (loc ++ [p]) ext) as [ps a c| |]; auto.
  destruct (forallb blank _); [intros s []|]. cbn in *. intros s [E|Hs]; auto.
  destruct inc; inversion E; eexists; reflexivity.
Qed.
End Decor.

Lemma pieces_lines banner ps : terminated banner -> decor_starts ps ->
  (forall q i l, In (Code q i l) ps -> lineish l) ->
  (forall a q i l b, ps = a ++ Code q i l :: b -> blank l = false -> terminated (text a)) ->
  code_lines (banner ++ text ps) = code_lines banner ++ flat_map (fun p => code_lines (piece_text p)) ps.
Proof.
  intros (x & ->). induction ps as [|p ps IH] using rev_ind; intros Hd Hc Hi.
  - cbn. rewrite !app_nil_r. auto.
  - assert (IH' : code_lines ((x ++ [nl]) ++ text ps) =
      code_lines (x ++ [nl]) ++ flat_map (fun p => code_lines (piece_text p)) ps).
    { apply IH.
      - intros s Hs. apply Hd, in_or_app; auto.
      - intros q i l Hl. eapply Hc, in_or_app; eauto.
      - intros a q i l b E. apply (Hi a q i l (b ++ [p])). rewrite E, <- app_assoc. auto. }
    rewrite text_app, flat_map_app. cbn [flat_map]. rewrite app_nil_r, !app_assoc, <- IH'.
    unfold text at 2. cbn [map concat]. rewrite app_nil_r.
    destruct p as [s|q i l]; cbn [piece_text].
    + destruct (Hd s) as (t & ->); [apply in_or_app; right; left; auto|].
      rewrite code_lines_nl. auto.
    + assert (HL : lineish l) by (eapply Hc, in_or_app; right; left; auto).
      destruct (blank l) eqn:B.
      * rewrite code_lines_blank by auto. rewrite (code_lines_blank [] l HL B : code_lines l = _).
        rewrite code_lines_nil, app_nil_r. auto.
      * destruct (Hi ps q i l []) as (a & Ea); auto. rewrite Ea.
        rewrite (app_assoc (x ++ [nl]) a [nl]).
        rewrite <- (app_assoc ((x ++ [nl]) ++ a) [nl] l). cbn [app].
        rewrite code_lines_nl, code_lines_end. auto.
Qed.
Lemma rstrip_prefix s : exists b, s = rstrip s ++ b.
Proof.
  unfold rstrip. assert (H : forall r, exists a, r = a ++ dropwhile is_space r).
  { induction r as [|c r (a & E)]; [exists []; auto|]. cbn. destruct (is_space c); [|exists []; auto].
    exists (c :: a). cbn. rewrite <- E. auto. }
  destruct (H (rev s)) as (a & E). exists (rev a).
  rewrite <- rev_app_distr, <- E, rev_involutive. auto.
Qed.
Lemma rstrip_idem s : rstrip (rstrip s) = rstrip s.
Proof.
  induction s as [|c s IH] using rev_ind; auto.
  destruct (is_space c) eqn:E; [rewrite NumberProofs2.rstrip_snoc by auto; auto|].
  rewrite !NumberProofs2.rstrip_keep; auto.
Qed.
Lemma code_lines_trim s : code_lines (trim_trailing_spaces s) = code_lines s.
Proof.
  unfold trim_trailing_spaces, code_lines. rewrite lines_unlines.
  - rewrite map_map. rewrite (map_ext _ _ rstrip_idem). auto.
  - intros C. apply map_eq_nil in C. destruct (lines_nonempty _ C).
  - apply Forall_map. eapply Forall_impl; [|apply lines_no_nl]. cbn. intros l H C. apply H.
    destruct (rstrip_prefix l) as (b & ->). apply in_or_app; auto.
Qed.

Section Content.
Variable files : str -> option (list str).
Variable o : options.
Lemma content_lines fuel s : read_as_lines files -> amalgamation_content files o fuel = Some s ->
  exists ps loc ext, amalgamation files o fuel = Some (Done ps loc ext) /\
  code_lines s = $"// THIS FILE WAS GENERATED AUTOMATICALLY. DO NOT EDIT." ::
    flat_map (fun p => code_lines (piece_text p)) ps.
Proof.
  intros (R1 & R2) H. unfold amalgamation_content in H.
  destruct (amalgamation files o fuel) as [[ps loc ext| |]|] eqn:E; try discriminate.
  exists ps, loc, ext. split; auto. inversion H; subst. rewrite code_lines_trim.
  set (banner := $"// THIS FILE WAS GENERATED AUTOMATICALLY. DO NOT EDIT.").
  assert (EB : banner ++ nl :: text ps = (banner ++ [nl]) ++ text ps) by (rewrite <- app_assoc; auto).
  transitivity (code_lines ((banner ++ [nl]) ++ text ps)); [rewrite <- EB; reflexivity|clear EB].
  rewrite pieces_lines.
  - reflexivity.
  - exists banner; auto.
  - pose proof (amalgamation_one _ _ _ _ E) as E1.
    pose proof (file_starts files o fuel (main_header_file o) [] [] []) as D. rewrite E1 in D. auto.
  - intros q i l Hl. destruct (amalgamation_codes files o fuel ps loc ext E q i l Hl) as (_ & (ls & Hf & Hn) & _).
    apply lineish_spec. eapply R2; eauto. eapply nth_error_In; eauto.
  - eapply amalgamation_intact; eauto.
Qed.
Lemma code_lines_line l : lineish l -> blank l = false -> code_lines l = [rstrip l].
Proof.
  intros H B.
  assert (G : forall x, ~ In nl x -> blank x = false -> code_lines x = [rstrip x]).
  { intros x Hx Bx. unfold code_lines, lines. rewrite split_on_single by auto. cbn [map filter].
    destruct (seqb_spec (rstrip x) []) as [E|E]; auto. apply rstrip_nil, blank_Forall in E. congruence. }
  destruct H as [H|(a & -> & H)]; auto.
  rewrite code_lines_end, NumberProofs2.rstrip_snoc by reflexivity. apply G; auto.
  destruct (blank a) eqn:Ba; auto. apply blank_Forall in Ba.
  assert (C : blank (a ++ [nl]) = true) by (apply blank_Forall, Forall_app; split; auto). congruence.
Qed.
(** The non-blank plain lines of each file are lines of the result, in their order. *)
Lemma sub_app_l {A} (a b c : list A) : subsequence a b -> subsequence a (c ++ b).
Proof. induction c; cbn; auto. constructor; auto. Qed.
Lemma sub_app_r {A} (a b c d : list A) : subsequence a b -> subsequence c d -> subsequence (a ++ c) (b ++ d).
Proof. intros H G. induction H; cbn; [auto|apply sub_skip|apply sub_keep]; auto. Qed.
Lemma sub_nil_l {A} (b : list A) : subsequence [] b.
Proof. induction b; constructor; auto. Qed.
Lemma plain_of_sub q ps : subsequence (flat_map (fun p => code_lines (piece_text p)) (plain_of o q ps))
  (flat_map (fun p => code_lines (piece_text p)) ps).
Proof.
  induction ps as [|p ps IH]; [constructor|]. unfold plain_of in *. cbn [filter flat_map].
  assert (S : forall x : list str, subsequence x x) by (induction x; [apply sub_nil|apply sub_keep]; auto).
  destruct (match p with Decor _ => false | Code q' _ l => _ end); cbn [flat_map].
  - apply sub_app_r; auto.
  - apply sub_app_l; auto.
Qed.
Lemma plain_lines_code q ls : (forall l, In l ls -> lineish l) -> forall i,
  flat_map (fun p => code_lines (piece_text p)) (plain_lines o q i ls) =
  map rstrip (filter (fun l => plain o l && negb (blank l)) ls).
Proof.
  intros H. induction ls as [|l ls IH]; intros i; auto. cbn [plain_lines filter].
  assert (IH' := IH (fun x Hx => H x (or_intror Hx)) (S i)).
  destruct (plain o l); cbn [andb app flat_map piece_text]; auto.
  destruct (blank l) eqn:B; cbn [negb].
  - rewrite (code_lines_blank [] l (H l (or_introl eq_refl)) B : code_lines l = _). auto.
  - rewrite code_lines_line, IH'; auto. apply H; left; auto.
Qed.
Lemma content_file fuel s : read_as_lines files -> amalgamation_content files o fuel = Some s ->
  forall q ls, reached files o (main_header_file o) q -> files q = Some ls ->
  subsequence (map rstrip (filter (fun l => plain o l && negb (blank l)) ls)) (code_lines s).
Proof.
  intros R H q ls Hq Hf. destruct (content_lines _ _ R H) as (ps & loc & ext & E & ->).
  apply sub_skip. destruct (proj1 (amalgamation_lines files o _ _ _ _ E q) Hq) as (ls' & Hf' & Hp).
  assert (ls' = ls) by congruence. subst. rewrite <- (plain_lines_code q ls) with (i := 0).
  - rewrite <- Hp. apply plain_of_sub.
  - intros l Hl. apply lineish_spec. destruct R as (_ & R). eapply R; eauto.
Qed.
End Content.

(** A test for the lines of a file, for examples. *)
Fixpoint lines_ok (ls : list str) : bool :=
  match ls with
  | [] => true
  | l :: ls' =>
      forallb (fun c => negb (ceqb c nl)) (removelast l) &&
      match ls' with [] => true | _ => ceqb (last l "x"%char) nl end && lines_ok ls'
  end.
Lemma lines_ok_spec ls : lines_ok ls = true ->
  (forall a l b, ls = a ++ l :: b -> b <> [] -> terminated l) /\
  (forall l, In l ls -> forall a b, l = a ++ nl :: b -> b = []).
Proof.
  induction ls as [|x ls IH]; [intros; split; [intros [] ? ? ?; discriminate|intros ? []]|].
  cbn [lines_ok]. rewrite !andb_true_iff. intros ((H1 & H2) & H3). destruct (IH H3) as (I1 & I2). split.
  - intros [|y a] l b E Hb; inversion E; subst.
    + destruct b; [congruence|]. destruct (ceqb_spec (last l "x"%char) nl) as [E2|]; [|discriminate]. destruct l as [|c l]; [discriminate|].
      exists (removelast (c :: l)). rewrite (app_removelast_last "x"%char (l := c :: l)) at 1 by discriminate. rewrite E2. auto.
    + eapply I1; eauto.
  - intros l [->|Hl] a b E; [|eapply I2; eauto]. destruct b as [|c b]; auto. exfalso. subst l.
    rewrite removelast_app in H1 by discriminate. cbn [removelast] in H1. rewrite forallb_app in H1.
    apply andb_true_iff in H1. destruct H1 as (_ & H1). cbn in H1. discriminate.
Qed.
Lemma read_as_lines_ok files : (forall p ls, files p = Some ls -> lines_ok ls = true) -> read_as_lines files.
Proof.
  intros H. split.
  - intros p ls Hf. apply (lines_ok_spec ls (H p ls Hf)).
  - intros p ls l Hf. apply (lines_ok_spec ls (H p ls Hf)).
Qed.

(** *** Where a header is looked for *)
Lemma resolve_base files o name : isabs name = false -> files (path_join (base_dir o) name) <> None ->
  resolve files o name = Some (path_join (base_dir o) name).
Proof.
  intros A F. assert (I : isfile files (path_join (base_dir o) name) = true) by (unfold isfile; destruct (files _) eqn:Q; congruence).
  unfold resolve, search_dirs. cbn [find]. rewrite A, I, I. auto.
Qed.
Lemma find_first {A} f (l l' : list A) x : Forall (fun y => f y = false) l -> f x = true -> find f (l ++ x :: l') = Some x.
Proof. induction 1 as [|y l H HF IH]; cbn; intros E; [rewrite E; auto|]. rewrite H. auto. Qed.
Lemma resolve_subdir files o name pre d post : isabs name = false -> include_subdirs o = pre ++ d :: post ->
  files (path_join (base_dir o) name) = None ->
  Forall (fun s => files (path_join (header_dir o s) name) = None) pre ->
  files (path_join (header_dir o d) name) <> None ->
  resolve files o name = Some (path_join (header_dir o d) name).
Proof.
  intros A E B P F. unfold resolve, search_dirs. rewrite A, E, map_app. cbn [map].
  change (if isabs d then d else path_join (base_dir o) d) with (header_dir o d).
  assert (I : isfile files (path_join (header_dir o d) name) = true) by (unfold isfile; destruct (files (path_join (header_dir o d) name)) eqn:Q; [reflexivity|exfalso; exact (F eq_refl)]).
  rewrite app_comm_cons. rewrite find_first; [rewrite I; auto| |auto].
  constructor; [unfold isfile; rewrite B; auto|]. apply Forall_map. eapply Forall_impl; [|exact P].
  intros s H. cbn beta. change (if isabs s then s else path_join (base_dir o) s) with (header_dir o s).
  unfold isfile. rewrite H. auto.
Qed.
Lemma resolve_absolute files o name : isabs name = true -> files name <> None -> resolve files o name = Some name.
Proof.
  intros A F. unfold resolve. rewrite A. unfold isfile. destruct (files name) eqn:Q; congruence.
Qed.
