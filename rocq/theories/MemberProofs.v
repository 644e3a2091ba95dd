From Verif Require Import PyStr PyStrLemmas PyNum RegionsModel TextModel TextSpec CommentModel CommentSpec CommentProofs3 CommentProofs4 TypeTextModel FillModel LambdaModel
  AdapterModel NamedModel TemplateProofs3 FillProofs3 ChainProofs3 OverloadModel EnumModel EnumSpec EnumProofs EnumProofs2 MemberModel MemberSpec.

(** ** Which members are published *)

Lemma after_bracket_spec a s : ~ In "["%char a -> after_bracket (a ++ "["%char :: s) = s.
Proof.
  induction a as [|c a IH]; intros N; [reflexivity|]. cbn [app after_bracket]. destruct (ceqb_spec c "["%char) as [->|]; [destruct N; left; auto|].
  apply IH. intros I. apply N. right. auto.
Qed.
Lemma size_text p s : size_written p s -> array_size_text p = s /\ p_array p <> [].
Proof.
  intros (a & c & E & N). unfold array_size_text. rewrite E, after_bracket_spec by auto. rewrite removelast_app by discriminate. split; [apply app_nil_r|]. destruct a; discriminate.
Qed.
Lemma size_is o p s : size_written p s -> array_size o p = mo_size o s.
Proof. intros H. destruct (size_text p s H) as [E N]. unfold array_size. destruct (p_array p); [congruence|]. rewrite E. auto. Qed.
Lemma size_none o p : p_array p = [] -> array_size o p = None.
Proof. intros E. unfold array_size. rewrite E. auto. Qed.
Lemma blank_is s : blank s = true <-> is_blank_line s.
Proof. apply blank_Forall. Qed.
Lemma is_public_spec a : is_public a = true <-> a = Public.
Proof. destruct a; cbn; intuition discriminate. Qed.
Lemma published_spec o m : array_well_formed (m_decl m) -> member_published o m = true <-> publishable o m.
Proof.
  intros A. unfold member_published, publishable, can_publish. rewrite !andb_true_iff, !negb_true_iff, is_public_spec.
  assert (B : (0 <? length (m_bits m)) = false <-> m_bits m = []) by (destruct (m_bits m); cbn; intuition discriminate).
  assert (C : (if unparsable_size o (m_decl m) then false else match array_size o (m_decl m) with
      | Some _ => smem (type_text (p_type (m_decl m))) (mo_array_types o) && mo_array_replace o (p_name (m_decl m)) | None => negb (mo_excluded o (p_type (m_decl m))) end) = true <->
    ((p_array (m_decl m) = [] /\ mo_excluded o (p_type (m_decl m)) = false) \/
     exists s, size_written (m_decl m) s /\
     ((is_blank_line s /\ mo_size o s = None /\ mo_excluded o (p_type (m_decl m)) = false) \/
      (exists n, mo_size o s = Some n /\ In (type_text (p_type (m_decl m))) (mo_array_types o) /\ mo_array_replace o (p_name (m_decl m)) = true)))).
  { destruct A as [A|(s & A)].
    - rewrite (size_none o _ A). unfold unparsable_size. rewrite A, negb_true_iff. split; [auto|]. intros [[_ H]|(s & S & _)]; auto. destruct (size_text _ _ S); congruence.
    - destruct (size_text _ _ A) as [E N]. unfold unparsable_size. rewrite (size_is o _ s A), E.
      assert (U : forall s', size_written (m_decl m) s' -> s' = s) by (intros s' A'; destruct (size_text _ _ A') as [E' _]; congruence).
      destruct (p_array (m_decl m)) as [|c0 r0]; [congruence|]. destruct (mo_size o s) as [n|] eqn:Sz.
      + rewrite andb_false_r, andb_true_iff, smem_In. split.
        * intros [H1 H2]. right. exists s. split; auto. right. exists n. auto.
        * intros [[H _]|(s' & S & [(_ & H & _)|(n' & _ & H1 & H2)])]; [discriminate| |auto]. rewrite (U s' S) in H. congruence.
      + rewrite andb_true_r. destruct (blank s) eqn:Bl; cbn [negb].
        * rewrite negb_true_iff. split; [intros H; right; exists s; split; auto; left; split; [apply blank_is; auto|auto]|].
          intros [[H _]|(s' & S & [(_ & _ & H)|(n' & H & _)])]; [discriminate|auto|]. rewrite (U s' S) in H. congruence.
        * split; [discriminate|]. intros [[H _]|(s' & S & [(H & _)|(n' & H & _)])]; [discriminate| |]; rewrite (U s' S) in H; [|congruence].
          apply blank_is in H. congruence. }
  destruct (0 <? length (m_bits m)) eqn:D.
  - split; [intros (_ & _ & H); discriminate|]. intros (_ & H & _). apply B in H. discriminate.
  - rewrite C. intuition.
Qed.
Lemma kept_is o ms ks : Forall (fun d => array_well_formed (m_decl (d_member d))) ms -> members_kept o ms ks <-> ks = members_published o ms.
Proof.
  intros W. rewrite Forall_forall in W. split.
  - intros (keep & K & ->). unfold members_published. apply filter_ext_in. intros d I. specialize (K d I). rewrite <- (published_spec o _ (W d I)) in K.
    destruct (keep d), (member_published o (d_member d)); intuition discriminate.
  - intros ->. exists (fun d => member_published o (d_member d)). split; [|reflexivity]. intros d I. apply published_spec. auto.
Qed.
Lemma numeric_spec o m n : array_well_formed (m_decl m) -> numeric_array o m n <-> is_numeric_array o m = true /\ array_size o (m_decl m) = Some n.
Proof.
  intros A. unfold numeric_array, is_numeric_array. rewrite !andb_true_iff, smem_In. split.
  - intros (s & S & H1 & H2 & H3). rewrite (size_is o _ s S), H1. auto.
  - intros [[[H1 H2] _] H3]. destruct A as [A|(s & A)]; [rewrite (size_none o _ A) in H3; discriminate|]. exists s. rewrite (size_is o _ s A) in H3. auto.
Qed.

(** ** The line of the stub *)

Lemma until_colon_word n r : Forall (fun c => is_word c = true) n -> until_colon (n ++ ":"%char :: r) = Some n.
Proof.
  intros F. induction F as [|c n Hc F IH]; [reflexivity|]. cbn [app until_colon]. destruct (ceqb_spec c ":"%char) as [->|]; [discriminate|]. rewrite IH. auto.
Qed.
Lemma declared_word i n r : Forall (eq sp) i -> word n -> declared_on (i ++ n ++ ":"%char :: r) = [n].
Proof.
  intros Hi [N W]. unfold declared_on. rewrite lstrip_spaces by auto. destruct n as [|c n]; [congruence|]. assert (Wc : is_word c = true) by (inversion W; auto).
  unfold lstrip. cbn [app dropwhile]. rewrite (word_not_space c Wc). destruct (ceqb_spec c "#"%char) as [->|]; [discriminate|].
  pose proof (until_colon_word (c :: n) r W) as U. cbn [app] in U. rewrite U. auto.
Qed.
Lemma declared_comment l : comment_line l -> declared_on l = [].
Proof.
  intros (a & b & -> & F & _). unfold declared_on. assert (E : lstrip (a ++ "#"%char :: b) = "#"%char :: b).
  { unfold lstrip. induction F as [|c r Hc F IH]; auto. cbn [app dropwhile]. rewrite Hc. auto. }
  rewrite E. reflexivity.
Qed.
Lemma before_app suffix l : before suffix (l ++ suffix) = Some l.
Proof.
  unfold before. rewrite endswith_app, app_length. replace (length l + length suffix - length suffix) with (length l) by lia.
  rewrite firstn_app, Nat.sub_diag, firstn_all. cbn. rewrite app_nil_r. auto.
Qed.
Lemma before_none suffix l : endswith suffix l = false -> before suffix l = None.
Proof. intros E. unfold before. rewrite E. auto. Qed.

(** The end of a text which is followed by no mark. *)
Lemma split_end (a b x m : str) : a ++ b = x ++ m -> (exists y, b = y ++ m) \/ (exists y, y <> [] /\ m = y ++ b).
Proof.
  revert x. induction a as [|c a IH]; intros x E; [left; exists x; auto|]. destruct x as [|d x].
  - right. exists (c :: a). split; [discriminate|]. auto.
  - cbn in E. inversion E. destruct (IH x H1); auto.
Qed.
Lemma sharp_end (a b x y : str) : a ++ "#"%char :: b = x ++ "#"%char :: y -> ~ In "#"%char b -> ~ In "#"%char y -> b = y.
Proof.
  revert x. induction a as [|c a IH]; intros x E Nb Ny; destruct x as [|d x]; cbn in E; inversion E; auto.
  - subst. exfalso. apply Nb. apply in_or_app. right. left. auto.
  - subst. exfalso. apply Ny. apply in_or_app. right. left. auto.
  - eauto.
Qed.
Definition all_marks : list str := [$" # (const)"; $" # (read-only)"; $" # (C++ static member)"].
Lemma mark_shape m : In m all_marks -> exists r, m = $" # (" ++ r /\ ~ In "#"%char r.
Proof. intros [<-|[<-|[<-|[]]]]; eexists; (split; [reflexivity|vm_compute; intuition discriminate]). Qed.
Lemma not_in_mark m y b : In m all_marks -> m = y ++ $"  #" ++ b -> False.
Proof.
  intros I E. assert (C : contains $"  #" m = true) by (rewrite E; apply contains_app_r, contains_app_l; reflexivity).
  destruct I as [<-|[<-|[<-|[]]]]; vm_compute in C; discriminate.
Qed.
Lemma no_mark_comment a b : no_mark ($"  #" ++ b) -> no_mark (a ++ $"  #" ++ b).
Proof.
  intros N m I. destruct (endswith m (a ++ $"  #" ++ b)) eqn:E; auto. apply endswith_true in E. destruct E as [x E]. exfalso.
  destruct (split_end _ _ _ _ E) as [(y & Y)|(y & _ & Y)].
  - assert (T : endswith m ($"  #" ++ b) = true) by (rewrite Y; apply endswith_app). rewrite (N m I) in T. discriminate.
  - exact (not_in_mark m y b I Y).
Qed.
Lemma no_mark_plain a : ~ In "#"%char a -> no_mark a.
Proof.
  intros N m I. destruct (endswith m a) eqn:E; auto. apply endswith_true in E. destruct E as [x ->]. exfalso. apply N. apply in_or_app. right.
  destruct (mark_shape m I) as (r & -> & _). right. left. auto.
Qed.
Lemma no_mark_array b : ~ In "#"%char b -> no_mark ($"  # n" ++ b).
Proof.
  intros N m I. destruct (endswith m ($"  # n" ++ b)) eqn:E; auto. apply endswith_true in E. destruct E as [x E]. exfalso.
  destruct (mark_shape m I) as (r & -> & Nr).
  assert (E2 : $"  " ++ "#"%char :: ($" n" ++ b) = (x ++ $" ") ++ "#"%char :: ($" (" ++ r)) by (rewrite <- app_assoc; exact E).
  apply sharp_end in E2; [discriminate| |]; intros J; (apply in_app_or in J; destruct J as [J|J]; [vm_compute in J; intuition discriminate|auto]).
Qed.

Lemma nat_text_no_sharp n : ~ In "#"%char (nat_text n).
Proof. intros I. destruct (nat_text_digits n) as [_ D]. rewrite forallb_forall in D. apply D in I. discriminate. Qed.
(** The text before the marks. *)
Definition member_body (o : member_options) (d : documented) : str :=
  let m := d_member d in let p := m_decl m in let t := p_type p in
  let null := smem $"*" (modifiers t) && smem (strip (p_default p)) [$"nullptr"; $"NULL"] in
  let type := if null then $"Optional[" ++ member_type o m ++ $"]" else member_type o m in
  let value := if null then $"None" else member_value o m in
  mo_name o (p_name p) ++ $": " ++ type ++ match value with [] => [] | v => $" = " ++ v end ++ comment_array o m
    ++ (if shall_place_at_end_of_line (mo_strip o) (mo_layout o) (mo_replacements o) (d_previous d) (d_eol d)
        then comment_python_end_of_line (mo_strip o) (mo_replacements o) (d_eol d) else []).
Lemma member_line_is o d : let t := p_type (m_decl (d_member d)) in
  member_line o d = ((member_body o d ++ (if is_static_type t then $" # (C++ static member)" else [])) ++
    (if is_const_type t then $" # (const)" else if is_readonly o (d_member d) then $" # (read-only)" else [])) ++ mo_location_py o.
Proof.
  intros t. unfold member_line, member_body. cbv zeta. fold t.
  assert (E : (if is_const_type t then $" # (const)" else []) ++ (if is_readonly o (d_member d) && negb (is_const_type t) then $" # (read-only)" else []) =
    (if is_const_type t then $" # (const)" else if is_readonly o (d_member d) then $" # (read-only)" else [])).
  { destruct (is_const_type t); cbn [negb]; rewrite ?andb_false_r, ?andb_true_r; [apply app_nil_r|]. destruct (is_readonly o (d_member d)); reflexivity. }
  rewrite <- E, <- !app_assoc. reflexivity.
Qed.
Lemma word_sharp_free n : word n -> ~ In "#"%char n.
Proof. intros [_ W]. apply word_no_sharp. auto. Qed.
Lemma sharp_app a b : ~ In "#"%char a -> ~ In "#"%char b -> ~ In "#"%char (a ++ b).
Proof. intros A B I. apply in_app_or in I. tauto. Qed.
Lemma body_no_mark o d : member_showable o d -> no_mark (member_body o d).
Proof.
  intros (W & T & V & Ty & C & R & N). unfold member_body. cbv zeta. set (p := m_decl (d_member d)) in *.
  set (null := smem $"*" (modifiers (p_type p)) && smem (strip (p_default p)) [$"nullptr"; $"NULL"]).
  set (type := if null then _ else _). set (value := if null then _ else _).
  assert (Mt : ~ In "#"%char (member_type o (d_member d))).
  { unfold member_type. destruct (is_numeric_array o (d_member d)); [vm_compute; intuition discriminate|apply T; exact Ty]. }
  assert (Ht : ~ In "#"%char type).
  { unfold type. destruct null; auto. apply sharp_app; [vm_compute; intuition discriminate|]. apply sharp_app; auto. vm_compute; intuition discriminate. }
  assert (Hv : ~ In "#"%char value).
  { unfold value. destruct null; [vm_compute; intuition discriminate|]. unfold member_value. destruct (is_numeric_array o (d_member d)); [intros []|exact V]. }
  set (pre := mo_name o (p_name p) ++ $": " ++ type ++ match value with [] => [] | v => $" = " ++ v end).
  assert (Hp : ~ In "#"%char pre).
  { unfold pre. apply sharp_app; [apply word_sharp_free; auto|]. apply sharp_app; [vm_compute; intuition discriminate|]. apply sharp_app; auto.
    destruct value; [intros []|]. apply sharp_app; auto. vm_compute; intuition discriminate. }
  assert (Hc : no_mark (pre ++ comment_array o (d_member d))).
  { unfold comment_array. cbv zeta. fold p. destruct (is_numeric_array o (d_member d)); [|rewrite app_nil_r; apply no_mark_plain; auto].
    match goal with |- no_mark (pre ++ $"  # ndarray[type=" ++ ?x) => change (no_mark (pre ++ $"  #" ++ $" ndarray[type=" ++ x)); apply no_mark_comment;
      change (no_mark ($"  # n" ++ $"darray[type=" ++ x)); apply no_mark_array end.
    apply sharp_app; [vm_compute; intuition discriminate|]. apply sharp_app; auto. apply sharp_app; [vm_compute; intuition discriminate|].
    apply sharp_app; [apply nat_text_no_sharp|]. apply sharp_app; [vm_compute; intuition discriminate|]. destruct (value_text o p) as [|c v]; [intros []|].
    apply sharp_app; auto. vm_compute; intuition discriminate. }
  match goal with |- no_mark ?x => assert (E : x = (pre ++ comment_array o (d_member d)) ++ (if shall_place_at_end_of_line (mo_strip o) (mo_layout o) (mo_replacements o) (d_previous d) (d_eol d)
    then comment_python_end_of_line (mo_strip o) (mo_replacements o) (d_eol d) else [])) by (unfold pre; rewrite <- !app_assoc; reflexivity); rewrite E end.
  destruct (shall_place_at_end_of_line _ _ _ _ _); [|rewrite app_nil_r; exact Hc].
  destruct (eol_no_nl (mo_strip o) (mo_replacements o) (d_eol d) R N) as [E2|(r & E2 & _)]; rewrite E2 in *; [rewrite app_nil_r; exact Hc|]. apply no_mark_comment. exact C.
Qed.

(** ** Attributes *)

Definition attribute_of (o : member_options) (m : member) : attribute :=
  Attribute (mo_name o (p_name (m_decl m))) (negb (is_readonly o m)) (is_static_type (p_type (m_decl m))).
Lemma attribute_describes o m : describes o m (attribute_of o m).
Proof.
  unfold describes, attribute_of. cbn [a_name a_writable a_static]. split; [reflexivity|]. split.
  - unfold is_readonly, is_const_type. rewrite negb_true_iff, !orb_false_iff, !smem_false. tauto.
  - unfold is_static_type. apply smem_In.
Qed.
Lemma describes_unique o m a b : describes o m a -> describes o m b -> a = b.
Proof.
  intros (A1 & A2 & A3) (B1 & B2 & B3). destruct a as [an aw as_], b as [bn bw bs]. cbn in *. subst. f_equal.
  - destruct aw, bw; auto; [symmetry; apply B2, A2; auto|apply A2, B2; auto].
  - destruct as_, bs; auto; [symmetry; apply B3, A3; auto|apply A3, B3; auto].
Qed.
Lemma marks_is o d : member_showable o d ->
  marks (mo_location_py o) (member_line o d) = Some (is_static_type (p_type (m_decl (d_member d))), is_readonly o (d_member d)).
Proof.
  intros S. rewrite member_line_is. unfold marks. rewrite before_app. set (t := p_type (m_decl (d_member d))).
  pose proof (body_no_mark o d S) as B. set (body := member_body o d) in *.
  assert (St : endswith $" # (C++ static member)" (body ++ (if is_static_type t then $" # (C++ static member)" else [])) = is_static_type t).
  { destruct (is_static_type t); [apply endswith_app|rewrite app_nil_r; apply B; cbn; auto]. }
  assert (Rc : is_const_type t = true -> is_readonly o (d_member d) = true) by (unfold is_readonly; fold t; intros ->; reflexivity).
  destruct (is_const_type t) eqn:Ct.
  - rewrite before_app, St, (Rc eq_refl). reflexivity.
  - destruct (is_readonly o (d_member d)) eqn:Ro.
    + assert (E : before $" # (const)" ((body ++ (if is_static_type t then $" # (C++ static member)" else [])) ++ $" # (read-only)") = None).
      { apply before_none. rewrite <- (app_nil_r $" # (const)") at 1. change ($" # (const)" ++ []) with ($" # (const" ++ [")"%char]).
        change ($" # (read-only)") with ($" # (read-only" ++ [")"%char]). rewrite app_assoc, FillProofs3.endswith_snoc. cbn [ceqb andb].
        change ($" # (const") with ($" # (cons" ++ ["t"%char]). change ($" # (read-only") with ($" # (read-onl" ++ ["y"%char]). rewrite app_assoc, FillProofs3.endswith_snoc. reflexivity. }
      rewrite E, before_app, St. reflexivity.
    + rewrite app_nil_r.
      assert (E1 : before $" # (const)" (body ++ (if is_static_type t then $" # (C++ static member)" else [])) = None).
      { apply before_none. destruct (is_static_type t); [|rewrite app_nil_r; apply B; cbn; auto].
        change ($" # (const)") with (($" # (cons" ++ ["t"%char]) ++ [")"%char]). change ($" # (C++ static member)") with (($" # (C++ static membe" ++ ["r"%char]) ++ [")"%char]).
        rewrite !app_assoc, FillProofs3.endswith_snoc, FillProofs3.endswith_snoc. reflexivity. }
      assert (E2 : before $" # (read-only)" (body ++ (if is_static_type t then $" # (C++ static member)" else [])) = None).
      { apply before_none. destruct (is_static_type t); [|rewrite app_nil_r; apply B; cbn; auto].
        change ($" # (read-only)") with (($" # (read-onl" ++ ["y"%char]) ++ [")"%char]). change ($" # (C++ static member)") with (($" # (C++ static membe" ++ ["r"%char]) ++ [")"%char]).
        rewrite !app_assoc, FillProofs3.endswith_snoc, FillProofs3.endswith_snoc. reflexivity. }
      rewrite E1, E2, St. reflexivity.
Qed.
Lemma member_line_declares o d : word (mo_name o (p_name (m_decl (d_member d)))) -> declared_on (member_line o d) = [mo_name o (p_name (m_decl (d_member d)))].
Proof. intros W. exact (declared_word [] _ _ (Forall_nil _) W). Qed.
Lemma pre_comments o d : exists pre, member_stub_lines o d = pre ++ [member_line o d] /\ Forall comment_line pre.
Proof.
  unfold member_stub_lines. rewrite app_assoc. eexists. split; [reflexivity|]. apply Forall_app. split; [apply (original_lines (fun s => s))|].
  destruct (shall_place_at_end_of_line _ _ _ _ _); [constructor|apply previous_lines].
Qed.
Lemma member_stub_shows o d : member_showable o d -> stub_shows o (member_stub_lines o d) (attribute_of o (d_member d)).
Proof.
  intros S. destruct (pre_comments o d) as (pre & E & F). exists pre, (member_line o d). split; [exact E|]. split; [exact F|]. split.
  - apply member_line_declares, S.
  - rewrite (marks_is o d S). unfold attribute_of. cbn [a_static a_writable]. rewrite negb_involutive. reflexivity.
Qed.

(** ** The binding *)

Definition field_pieces (o : member_options) (d : documented) (a : attribute) : list cpp_piece :=
  [Text ($"." ++ def_name (mo_nanobind o) a ++ $"("); Quoted (a_name a);
    Text ($", &" ++ mo_class o ++ $"::" ++ p_name (m_decl (d_member d)) ++ $", "); Quoted (member_doc o d); Text $")"].
Lemma def_code nanobind a : code_text ($"." ++ def_name nanobind a ++ $"(").
Proof. unfold def_name. destruct nanobind, (a_writable a), (a_static a); apply code_by_check; reflexivity. Qed.
Lemma member_binding_shows o d : member_writable o d -> binding_shows o d [field_line o d] (attribute_of o (d_member d)).
Proof.
  intros (W & [_ Wn] & C & _ & D & L). unfold binding_shows. cbn [map]. f_equal. apply (shows_line _ (field_pieces o d (attribute_of o (d_member d)))).
  right. exists [], (mo_location_cpp o). split; [constructor|]. split; [exact L|]. split.
  { unfold field_pieces. apply Forall_cons; [apply def_code|]. apply Forall_cons; [apply word_literal, W|]. apply Forall_cons.
    { cbn [piece_fits]. apply code_app; [apply code_by_check; reflexivity|]. apply code_app; auto. apply code_app; [apply code_by_check; reflexivity|].
      apply code_app; [apply word_code; auto|apply code_by_check; reflexivity]. }
    apply Forall_cons; [exact D|]. apply Forall_cons; [apply code_by_check; reflexivity|constructor]. }
  split.
  { split; [eexists; eexists; split; [reflexivity|reflexivity]|apply pieces_end]. }
  split; [apply written_end|].
  unfold field_line, field_pieces, written, def_name, attribute_of. cbn [flat_map written_piece a_name a_writable a_static]. cbv zeta.
  destruct (is_readonly o (d_member d)), (mo_nanobind o), (is_static_type (p_type (m_decl (d_member d)))); cbn [negb]; rewrite app_nil_r, <- !app_assoc; reflexivity.
Qed.
(** A line without literal nor comment. *)
Lemma plain_line i s c r : Forall (eq sp) i -> code_text s -> s = c :: r -> is_space c = false -> (exists q z, s = q ++ [z] /\ is_space z = false) -> cpp_line (i ++ s) = pieces [Text s].
Proof.
  intros Hi C E Hc (q & z & Z & Nz). apply shows_line. right. exists i, []. split; auto. split; [left; auto|]. split; [constructor; [exact C|constructor]|].
  unfold pieces, written. cbn [flat_map written_piece]. rewrite !app_nil_r. split.
  - split; [exists (Code c), (map Code r); rewrite E; auto|]. exists (map Code q), (Code z). rewrite Z, map_app. auto.
  - split; [exists q, z; auto|]. reflexivity.
Qed.
