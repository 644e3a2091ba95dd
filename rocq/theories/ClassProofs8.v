From Verif Require Import PyStr PyStrLemmas PyDict RegionsModel TextModel TextSpec TextProofs CommentModel CommentSpec NamesModel OverloadModel
  NamedModel NamedProofs3 EnumModel EnumSpec EnumProofs EnumProofs2 EnumProofs3 ClassModel ClassSpec ClassProofs ClassProofs2 ClassProofs3 ClassProofs4 ClassProofs5 ClassProofs6 ClassProofs7.
(** The whole tree. *)

Section Induction.
Variable P : child -> Prop.
Hypothesis other : forall ls, P (COther ls).
Hypothesis enum : forall e l, P (CEnum e l).
Hypothesis class : forall h cs pr, Forall P cs -> P (CClass h cs pr).
Fixpoint child_induction (c : child) : P c :=
  match c with
  | COther ls => other ls
  | CEnum e l => enum e l
  | CClass h cs pr => class h cs pr ((fix go (l : list child) : Forall P l := match l with [] => Forall_nil P | x :: r => Forall_cons x (child_induction x) (go r) end) cs)
  end.
End Induction.

Lemma sequence_map {A B} (f : A -> option B) l : forall r, sequence (map f l) = Some r -> Forall2 (fun x y => f x = Some y) l r.
Proof.
  induction l as [|x l IH]; intros r E; cbn [map sequence] in E; [injection E as <-; constructor|]. destruct (f x) as [y|] eqn:Ef; [|discriminate]. cbn [option_map] in E.
  destruct (sequence (map f l)) as [r'|]; [|discriminate]. injection E as <-. constructor; auto.
Qed.
Lemma sequence_none {A B} (f : A -> option B) l : sequence (map f l) <> None <-> Forall (fun x => f x <> None) l.
Proof.
  induction l as [|x l IH]; cbn [map sequence]; [split; [constructor|discriminate]|]. rewrite Forall_cons_iff, <- IH. destruct (f x) as [y|]; [|split; [congruence|intros [H _]; congruence]].
  destruct (sequence (map f l)); cbn [option_map]; split; try congruence; try tauto. intros _. split; discriminate.
Qed.
Lemma nested_inner cs : Forall (fun c => is_inner c = true) (nested cs).
Proof. apply Forall_forall. intros c I. apply filter_In in I as [_ I]. destruct c; auto. Qed.
Lemma inner_map {B} (f : child -> B) cs : map snd (filter fst (map (fun c => (is_inner c, f c)) cs)) = map f (nested cs).
Proof. induction cs as [|c cs IH]; [reflexivity|]. cbn [map filter fst nested]. destruct c; cbn [is_inner]; [exact IH| |]; cbn [map snd]; f_equal; exact IH. Qed.

Section Tree.
Variable o : class_env.
Variable values : cpp_enum -> list enumerator.
Hypothesis indent : Forall (eq sp) (cl_indent o).

Lemma events_nested path cs : flat_map (events o values path) cs = flat_map (events o values path) (nested cs).
Proof. induction cs as [|c cs IH]; [reflexivity|]. cbn [flat_map nested filter]. destruct c; cbn [flat_map]; rewrite IH; reflexivity. Qed.
Lemma well_formed_all (Q : child -> Prop) cs : fold_right (fun c P => Q c /\ P) True cs <-> Forall Q cs.
Proof. induction cs as [|c cs IH]; cbn [fold_right]; [split; [constructor|auto]|]. rewrite IH, Forall_cons_iff. tauto. Qed.

Definition bound (sc : list part) (c : child) (ls : list str) : Prop :=
  exists its, whole (read_text (unlines ls)) its /\ does its (parent_var (cl_roots o) sc) (variable o sc c) (shown_name o c) (fun path => events o values path c).

Lemma all_whole sc cs lss : Forall2 (bound sc) cs lss -> exists itss,
  whole (flat_map (fun ls => read_text (unlines ls)) lss) (concat itss) /\
  Forall2 (fun c its => does its (parent_var (cl_roots o) sc) (variable o sc c) (shown_name o c) (fun path => events o values path c)) cs itss.
Proof.
  induction 1 as [|c ls cs lss (its & W & D) F (itss & Wh & Ds)]; [exists []; split; [exact whole_nil|constructor]|]. exists (its :: itss). split; [|constructor; auto]. cbn [flat_map concat]. apply whole_app; auto.
Qed.
Lemma NoDup_variables sc cs : Forall namespace_part sc -> Forall (fun c => is_inner c = true) cs -> NoDup (map (identity o) cs) -> NoDup (map (variable o sc) cs).
Proof.
  intros F I. induction I as [|c cs Hc I IH]; intros ND; [constructor|]. cbn [map] in *. inversion ND as [|? ? Nc ND']; subst. constructor; auto. intros J. apply in_map_iff in J as (d & E & J).
  apply Nc. apply in_map_iff. exists d. split; auto. rewrite Forall_forall in I. apply (variable_identity o sc d c F (I d J) Hc E).
Qed.

Lemma str_pydef_reads ls : reads (indented o (str_pydef ls)) (read_text (unlines ls)).
Proof.
  rewrite indented_is. destruct ls as [|l ls]; [exact reads_nil|]. change (str_pydef (l :: ls)) with (unlines (l :: ls) ++ [nl]). rewrite <- (reads_here _ _ (reads_end (unlines (l :: ls)))).
  apply reads_indented; auto. right. eauto.
Qed.
Lemma inner_reads python inner : word python -> inner <> [] ->
  reads (inner_code o python inner ++ [nl]) (Sign "{" :: flat_map (fun ls => read_text (unlines ls)) inner ++ [Sign "}"]).
Proof.
  intros Wp N. unfold inner_code. destruct inner as [|l inner]; [congruence|]. assert (Np : ~ In nl python).
  { destruct Wp as [_ F]. intros I. rewrite Forall_forall in F. apply F in I. discriminate. }
  assert (N1 : ~ In nl ($" inner classes & enums of " ++ python)) by (rewrite in_app_iff; intros [I|I]; [cbn in I; intuition discriminate|auto]).
  assert (N2 : ~ In nl ($" end of inner classes & enums of " ++ python)) by (rewrite in_app_iff; intros [I|I]; [cbn in I; intuition discriminate|auto]).
  refine (reads_eq _ (([nl] ++ $"{") ++ ($" " ++ $"//" ++ ($" inner classes & enums of " ++ python) ++ [nl]) ++ concat (map (fun ls => indented o (str_pydef ls)) (l :: inner))
    ++ $"}" ++ ($" " ++ $"//" ++ ($" end of inner classes & enums of " ++ python) ++ [nl])) _
    ([Sign "{"] ++ [] ++ flat_map (fun ls => read_text (unlines ls)) (l :: inner) ++ [Sign "}"] ++ []) _ _ _).
  - set (k := concat _). flatten_text. reflexivity.
  - reflexivity.
  - apply reads_app; [exact (reads_known [nl] "{" eq_refl eq_refl)|]. apply reads_app; [apply reads_comment; auto; repeat constructor|].
    apply reads_app; [apply reads_concat; intros ls _; apply str_pydef_reads|]. apply reads_app; [exact (reads_known [] "}" eq_refl eq_refl)|]. apply reads_comment; auto. repeat constructor.
Qed.

Lemma some_inj {A} (a b : A) : Some a = Some b -> a = b.
Proof. congruence. Qed.
Definition whole_code (sc : list part) (h : head) (children : list child) (protected : list (list str)) (inner : list (list str)) : str :=
  match inner with
  | [] => creation_text o sc h ++ [nl] ++ all_children_code o h children protected ++ cl_indent o ++ [";"%char]
  | _ => creation_text o sc h ++ [";"%char] ++ [nl] ++ (inner_code o (h_python h) inner ++ [nl]) ++ [nl]
      ++ (class_var (cl_roots o) (sc ++ [ClassPart (h_name h)]) (h_params h) ++ [nl]) ++ all_children_code o h children protected ++ cl_indent o ++ [";"%char]
  end.
Lemma class_code sc h children protected ls : writable o h -> child_pydef o sc (CClass h children protected) = Some ls ->
  exists inner, sequence (map (child_pydef o (sc ++ [ClassPart (h_name h)])) (nested children)) = Some inner /\ unlines ls = whole_code sc h children protected inner.
Proof.
  intros W E. cbn [child_pydef] in E. rewrite inner_map in E. destruct (sequence _) as [inner|]; [|discriminate]. exists inner. split; [reflexivity|].
  assert (Cu : forall x, cl_custom o (qualified_name h) x = None).
  { intros x. pose proof (wr_custom o h W x) as Cx. unfold qualified_name. unfold scoped_name in Cx. destruct (h_scope h); exact Cx. }
  rewrite Cu in E. clear Cu. apply some_inj in E. rewrite <- E. clear E. rewrite unlines_lines. unfold whole_code. destruct inner as [|l inner]; [cbn [inner_code]; rewrite <- ?app_assoc; reflexivity|].
  assert (N : inner_code o (h_python h) (l :: inner) <> []) by discriminate. destruct (inner_code o (h_python h) (l :: inner)) as [|c I]; [congruence|]. rewrite <- ?app_assoc. reflexivity.
Qed.
Local Opaque creation_text all_children_code inner_code class_var parent_var class_type class_arguments own_calls read_text unlines.
Lemma class_bound c : forall sc ls, Forall namespace_part sc -> well_formed o values c -> is_inner c = true -> child_pydef o sc c = Some ls -> bound sc c ls.
Proof.
  induction c as [ls0|e l|h children protected IH] using child_induction; intros sc ls F WF C E; [discriminate| |].
  - exact (enum_does o values (parent_var (cl_roots o) sc) l e ls (parent_var_letters _ _ F) WF E).
  - cbn [well_formed] in WF. destruct WF as (W & P & ND & Q & WF). apply well_formed_all in WF. apply class_code in E as (inner & S & E); [|exact W]. apply sequence_map in S.
    set (own := sc ++ [ClassPart (h_name h)]) in *. pose proof (own_scope o sc h F W) as Fo. fold own in Fo.
    pose proof (class_words o sc h F W) as V. pose proof V as [V1 V2]. fold own in V1.
    assert (B : gives (all_children_code o h children protected) (own_calls o h children protected)).
    { apply body_gives; auto. intros ls' I. rewrite Forall_forall in WF. exact (WF _ I). }
    destruct B as (ks & Rk & Ak). pose proof (creation_reads o indent sc h W V) as Rc. pose proof (reads_indent o indent) as Ri.
    pose proof (reads_known [] ";" eq_refl eq_refl) as Rs. cbn [app] in Rs. change (read_text [";"%char]) with [Sign ";"] in Rs.
    assert (Rn : reads [nl] []) by (apply reads_white; repeat constructor).
    pose proof (simple_dull _ (class_type_simple o h W)) as Dt.
    set (v := class_var (cl_roots o) own (h_params h)) in *.
    destruct inner as [|l0 inner].
    + (* nothing inside *)
      assert (N : nested children = []) by (inversion S; reflexivity).
      unfold bound. rewrite E. clear E. unfold whole_code.
      destruct (declaration_whole v _ (parent_var (cl_roots o) sc) (h_python h) _ ks _ Dt (arguments_level o h) Ak) as [Wh Ex].
      eexists. split.
      * match goal with |- whole (read_text ?t) _ => assert (R : reads t (head_lexemes o sc h ++ [] ++ ks ++ [] ++ [Sign ";"])) end.
        { repeat (apply reads_app; [assumption|]). exact Rs. }
        rewrite (reads_here _ _ R). unfold head_lexemes. fold own. fold v. match type of Wh with whole ?x _ => match goal with |- whole ?y _ => replace y with x; [exact Wh|] end end.
        cbn [app]. repeat (rewrite <- !app_assoc; cbn [app]). reflexivity.
      * intros f fr path Fp Fv. cbn [run]. rewrite (Ex f fr path Fp Fv), app_nil_r. cbn [events]. rewrite events_nested, N. reflexivity.
    + (* classes and enums inside *)
      assert (N : nested children <> []) by (intros N; rewrite N in S; inversion S). destruct Q as [Q|Q]; [|congruence].
      assert (Vp : parent_var (cl_roots o) own = v) by (unfold v, own; rewrite Q, class_var_is, parent_var_is, app_nil_r; reflexivity).
      unfold bound. rewrite E. clear E. unfold whole_code. fold own. fold v.
      assert (Bs : Forall2 (bound own) (nested children) (l0 :: inner)).
      { pose proof (nested_inner children) as NI. assert (NC : Forall (fun c => In c children) (nested children)) by (apply Forall_forall; intros c I; apply filter_In in I; tauto).
        clear - S IH WF Fo NI NC. induction S as [|c ls cs lss E S IHS]; [constructor|]. inversion NI; subst. inversion NC; subst. constructor; auto. rewrite Forall_forall in IH, WF. apply IH; auto. }
      destruct (all_whole own _ _ Bs) as (itss & Wi & Di).
      destruct (declaration_whole v _ (parent_var (cl_roots o) sc) (h_python h) _ [] [] Dt (arguments_level o h) eq_refl) as [Wh Ex].
      destruct (use_whole v ks _ Ak) as [Wu Eu].
      pose proof (whole_block _ _ Wi) as Wb.
      eexists. split.
      * match goal with |- whole (read_text ?t) _ => assert (R : reads t (head_lexemes o sc h ++ [Sign ";"] ++ [] ++ (Sign "{" :: flat_map (fun ls => read_text (unlines ls)) (l0 :: inner) ++ [Sign "}"]) ++ [] ++ [Word v] ++ ks ++ [] ++ [Sign ";"])) end.
        { pose proof (inner_reads (h_python h) (l0 :: inner) (wr_python o h W) ltac:(discriminate)) as Rin.
          refine (reads_eq _ (creation_text o sc h ++ [";"%char] ++ [nl] ++ (inner_code o (h_python h) (l0 :: inner) ++ [nl]) ++ [nl] ++ (v ++ [nl]) ++ all_children_code o h children protected ++ cl_indent o ++ [";"%char]) _ _ _ eq_refl _).
          - set (k := inner_code _ _ _). rewrite <- !app_assoc. reflexivity.
          - repeat (apply reads_app; [assumption|]). apply reads_app; [exact (reads_word v nl V1 (bare_one nl eq_refl) eq_refl)|]. repeat (apply reads_app; [assumption|]). exact Rs. }
        rewrite (reads_here _ _ R). unfold head_lexemes. fold own. fold v. pose proof (whole_app _ _ _ _ Wh (whole_app _ _ _ _ Wb Wu)) as Wa.
        match type of Wa with whole ?x _ => match goal with |- whole ?y _ => replace y with x; [exact Wa|] end end. set (k := flat_map _ _).
        cbn [app]. repeat (rewrite <- !app_assoc; cbn [app]). reflexivity.
      * intros f fr path Fp Fv. rewrite run_app. cbn [run]. rewrite (Ex f fr path Fp Fv).
        pose proof (nested_inner children) as NI.
        assert (NP : ~ In v (map (variable o own) (nested children))).
        { intros I. apply in_map_iff in I as (c & Ec & I). rewrite Forall_forall in NI. apply (variable_parent o sc (h_name h) c F (NI c I)). fold own. rewrite Vp. exact Ec. }
        rewrite Vp in Di.
        destruct (all_do o values own v _ _ Di NP (NoDup_variables own _ Fo NI ND) [] (((v, path ++ [h_python h]) :: f) :: fr) (path ++ [h_python h])) as (f' & R & Old & _).
        { cbn. destruct (seqb_spec v v); congruence. }
        { reflexivity. }
        cbn [app run]. rewrite <- app_assoc, run_app, R. cbn [app run].
        rewrite (Eu (((v, path ++ [h_python h]) :: f) :: fr) (path ++ [h_python h])) by (cbn; destruct (seqb_spec v v); congruence).
        rewrite !app_nil_r. cbn [events map app]. rewrite (events_nested (path ++ [h_python h]) children). reflexivity.
Qed.
End Tree.
