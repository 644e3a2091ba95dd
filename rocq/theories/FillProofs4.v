From Verif Require Import PyStr PyStrLemmas PyDict TextModel TemplateProofs3 FillModel FillSpec FillProofs FillProofs2 FillProofs3.

Lemma in_present v (l : list (option str)) : In (Some v) l -> In v (present l).
Proof.
  induction l as [|[w|] l IH]; intros I; [destruct I| |]; destruct I as [I|I]; cbn [present]; auto; try discriminate.
  - inversion I. left; reflexivity.
  - right; auto.
Qed.

Lemma smem_incl K K' : forallb (fun k => smem k K') K = true -> incl K K'.
Proof. intros H k I. rewrite forallb_forall in H. apply smem_In, H, I. Qed.

Lemma flat_name K k (d : list (str * option str)) : Forall (fun k => ~ In nl k) K -> In k K -> dict_get k d = None ->
  flat d (Hole k).
Proof. intros F I E. split; [rewrite Forall_forall in F; auto|]. intros v Q. congruence. Qed.

Lemma one_line_names K : forallb (fun k => negb (contains [nl] k)) K = true -> Forall (fun k => ~ In nl k) K.
Proof.
  intros H. apply Forall_forall. intros k I J. rewrite forallb_forall in H. specialize (H k I).
  apply negb_true_iff in H. apply contains_single in J. congruence.
Qed.

Lemma fill_none k d : dict_get k d = None -> fill d (Hole k) = Hole k.
Proof. intros E. cbn [fill]. rewrite E. reflexivity. Qed.

Lemma end_text indent m e : ~ In "{"%char indent -> ~ In nl indent ->
  let parts := present [py_args e; docstring e; return_policy e; keep_alive e; call_guard e] in
  Forall (neutral end_names) parts ->
  endswith $", )" (ending indent parts) = false -> endswith $", );" (ending indent parts) = false ->
  pydef_end indent m e = ending indent parts ++ (if m then $")" else $");").
Proof.
  intros B L parts V A1 A2. unfold pydef_end. f_equal.
  assert (P : process_code_template end_template [($"_i_", indent)] (end_lines e) false
            = render_lines (map (fun v => [Text indent; Text v; Hole comma]) parts)).
  { rewrite end_template_pieces, (process_ok end_names).
    - change (map (map (fill [($"_i_", indent)])) end_pieces)
        with (map (fun k => [Text indent; Hole k; Hole comma]) (map fst (end_lines e))).
      rewrite fill_end_lines; [reflexivity| |reflexivity].
      intros k o I. apply dict_In_get; [|exact I]. change (NoDup (map fst (end_lines (EndParts None None None None None)))).
      repeat constructor; apply smem_false; reflexivity.
    - apply smem_incl. reflexivity.
    - apply smem_incl. reflexivity.
    - apply names_ok. reflexivity.
    - constructor; [|constructor]. apply no_brace_neutral, B.
    - intros k v I. rewrite Forall_forall in V. apply V. apply in_present. apply (in_map snd) in I. exact I.
    - apply Forall_forall. intros l I. apply in_map_iff in I. destruct I as (n & <- & I). repeat constructor;
        try (apply (proj1 (Forall_forall _ _) (names_ok end_names eq_refl)); apply smem_In; reflexivity);
        apply (proj1 (Forall_forall _ _) (names_ok end_names eq_refl));
        revert n I; apply smem_incl; reflexivity.
    - apply Forall_forall. intros l I. apply in_map_iff in I. destruct I as (n & <- & I).
      assert (E : map (fill [($"_i_", indent)]) (end_line n) = [Text indent; Hole n; Hole comma]).
      { change (map (fill [($"_i_", indent)]) (end_line n)) with [Text indent; fill [($"_i_", indent)] (Hole n); Hole comma]. assert (G : dict_get n [($"_i_", indent)] = None).
        { apply dict_get_None. cbn [map fst]. intros [E|[]]. revert I. rewrite <- E. apply smem_false. reflexivity. }
        rewrite (fill_none _ _ G). reflexivity. }
      rewrite E. intros S. constructor; [exact L|]. constructor; [|constructor; [|constructor]].
      + split; [|intros v G].
        * assert (F : Forall (fun k => ~ In nl k) end_names) by (apply one_line_names; reflexivity).
          rewrite Forall_forall in F. apply F. revert n I S E; intros n I _ _. revert n I. apply smem_incl. reflexivity.
        * exfalso. unfold stays in S. apply negb_false_iff in S. cbn [existsb has_no_value] in S. rewrite G in S.
          assert (Q : dict_get comma (end_lines e) = None) by reflexivity. rewrite Q in S. discriminate.
      + apply (flat_name end_names); [apply one_line_names; reflexivity|apply smem_In; reflexivity|reflexivity]. }
  unfold process_code_template in *. cbv zeta in P |- *. etransitivity; [exact (f_equal settle_commas P)|]. destruct parts as [|p0 parts0] eqn:EP.
  - reflexivity.
  - rewrite <- EP in *. assert (N : parts <> []) by congruence. clearbody parts. clear EP p0 parts0 P.
    rewrite render_lines_commas by exact N. 
    set (items := match map (fun p => indent ++ p) parts with [] => [] | x :: r => x :: map (fun y => nl :: y) r end).
    assert (J : ending indent parts = join $", " items) by exact (join_prefixed $", " indent parts N).
    pose proof (commas_settled items []) as S. rewrite !app_nil_r in S. rewrite J. apply S.
    + unfold items. destruct parts; [congruence|discriminate].
    + assert (F : Forall (neutral [comma]) (map (fun p => indent ++ p) parts)).
      { rewrite Forall_map. eapply Forall_impl; [|exact V]. intros v Hv. apply neutral_app_no_brace; auto.
        apply neutral_incl with (2 := Hv). apply smem_incl. reflexivity. }
      unfold items. destruct (map (fun p => indent ++ p) parts) as [|x r]; auto. inversion F; subst. constructor; auto.
      rewrite Forall_map. eapply Forall_impl; [|eassumption]. intros y. apply neutral_cons_nl.
    + left. rewrite <- J. auto.
Qed.

(** A constructor. *)
Lemma no_nl_in s : contains [nl] s = false -> ~ In nl s.
Proof. intros H I. apply contains_single in I. congruence. Qed.

Ltac each := repeat match goal with
  | |- Forall _ [] => apply Forall_nil
  | |- Forall _ (_ :: _) => apply Forall_cons
  end.
Lemma comma_line_replace total skipped i line :
  comma_line total skipped i line = replace (placeholder comma) (if i + 1 + skipped =? total then [] else $",") line.
Proof.
  unfold comma_line. fold comma. destruct (contains (placeholder comma) line) eqn:E; auto. symmetry. apply replace_no_occ, E.
Qed.

Definition constructor_pieces : list (list piece) :=
  [[Text $".def("; Hole $"py"; Text $"::init<"; Hole $"arg_types"; Text $">()"; Hole comma; Hole $"location"];
   [Hole $"_i_"; Hole $"maybe_pyarg"; Hole comma]; [Hole $"_i_"; Hole $"maybe_docstring"]].

Lemma constructor_template_pieces : constructor_template = render_lines constructor_pieces.
Proof. reflexivity. Qed.

Lemma name_in k : smem k constructor_names = true -> is_name k.
Proof. intros H. apply smem_In in H. exact (proj1 (Forall_forall _ _) (names_ok constructor_names eq_refl) k H). Qed.

Lemma replace_line K v ps : In comma K -> Forall (piece_ok K) ps ->
  replace (placeholder comma) v (render ps) = render (map (fill1 comma v) ps).
Proof. intros I O. apply (replace_render K); auto. apply name_comma. Qed.

Lemma constructor_text indent py location arg_types pyarg docstring :
  Forall (neutral constructor_names) ([indent; py; location; arg_types] ++ present [pyarg; docstring]) ->
  Forall (fun s => ~ In nl s) ([indent; py; location; arg_types] ++ present [pyarg; docstring]) ->
  pydef_constructor indent py location arg_types pyarg docstring
  = add_item_before_cpp_comment (unlines (constructor_lines indent py location arg_types pyarg docstring)) $")".
Proof.
  intros V L. unfold pydef_constructor. f_equal. set (K := constructor_names) in *.
  assert (Vp : neutral K indent /\ neutral K py /\ neutral K location /\ neutral K arg_types).
  { inversion V as [|? ? V1 V']; subst. inversion V' as [|? ? V2 V'']; subst. inversion V'' as [|? ? V3 V3']; subst.
    inversion V3'; subst. auto. }
  assert (Lp : ~ In nl indent /\ ~ In nl py /\ ~ In nl location /\ ~ In nl arg_types).
  { inversion L as [|? ? V1 V']; subst. inversion V' as [|? ? V2 V'']; subst. inversion V'' as [|? ? V3 V3']; subst.
    inversion V3'; subst. auto. }
  assert (Vq : forall v, In (Some v) [pyarg; docstring] -> neutral K v).
  { intros v I. rewrite Forall_forall in V. apply V. apply in_app_iff. right. apply in_present, I. }
  assert (Lq : forall v, In (Some v) [pyarg; docstring] -> ~ In nl v).
  { intros v I. rewrite Forall_forall in L. apply L. apply in_app_iff. right. apply in_present, I. }
  clear V L. destruct Vp as (V1 & V2 & V3 & V4). destruct Lp as (L1 & L2 & L3 & L4).
  set (d := [($"_i_", indent); ($"py", py); ($"location", location); ($"arg_types", arg_types)]).
  set (dl := [($"maybe_docstring", docstring); ($"maybe_pyarg", pyarg)]).
  set (t := map (map (fill d)) constructor_pieces).
  assert (Et : t = [[Text $".def("; Text py; Text $"::init<"; Text arg_types; Text $">()"; Hole comma; Text location];
     [Text indent; Hole $"maybe_pyarg"; Hole comma]; [Text indent; Hole $"maybe_docstring"]]) by reflexivity.
  assert (Od : Forall (Forall (piece_ok K)) constructor_pieces).
  { unfold constructor_pieces. each; cbn [piece_ok]; try (apply neutralb_true; reflexivity); apply name_in; reflexivity. }
  assert (Ot : Forall (Forall (piece_ok K)) t).
  { rewrite Et. each; cbn [piece_ok]; auto; try (apply neutralb_true; reflexivity); apply name_in; reflexivity. }
  assert (P : replace_in_string_remove_line_if_none (replace_in_string constructor_template d) dl = render_lines (fill_lines dl t)).
  { rewrite constructor_template_pieces, (render_lines_fill K); auto.
    - apply (fill_lines_ok K); auto.
      + apply smem_incl. reflexivity.
      + apply names_ok. reflexivity.
      + intros k v I. apply Vq. apply (in_map snd) in I. destruct I as [I|[I|[]]]; cbn [snd] in I; rewrite I; cbn [In]; auto.
      + fold t. rewrite Et. constructor; [|constructor; [|constructor; [|constructor]]].
        * intros S. discriminate.
        * intros _. constructor; [exact L1|]. constructor; [|constructor; [|constructor]].
          -- split; [apply (proj1 (Forall_forall _ _) (one_line_names [$"maybe_pyarg"] eq_refl)); left; reflexivity|].
             intros v G. change (Some pyarg = Some (Some v)) in G. apply Lq. left. congruence.
          -- apply (flat_name K); [apply one_line_names; reflexivity|apply smem_In; reflexivity|reflexivity].
        * intros _. constructor; [exact L1|]. constructor; [|constructor].
          split; [apply (proj1 (Forall_forall _ _) (one_line_names [$"maybe_docstring"] eq_refl)); left; reflexivity|].
          intros v G. change (Some docstring = Some (Some v)) in G. apply Lq. right; left. congruence.
    - apply smem_incl. reflexivity.
    - apply names_ok. reflexivity.
    - unfold d. cbn [map snd]. each; auto. }
  cbv zeta. rewrite P. clear P.
  assert (F : fill_lines dl t = [Text $".def("; Text py; Text $"::init<"; Text arg_types; Text $">()"; Hole comma; Text location]
    :: match pyarg with Some a => [[Text indent; Text a; Hole comma]] | None => [] end
    ++ match docstring with Some s => [[Text indent; Text s]] | None => [] end).
  { rewrite Et. unfold dl. destruct pyarg, docstring; reflexivity. }
  rewrite F. clear F Et. clearbody dl. clear t Ot.
  assert (Hc : In comma K) by (apply smem_In; reflexivity).
  assert (N1 : ~ In nl (render [Text $".def("; Text py; Text $"::init<"; Text arg_types; Text $">()"; Hole comma; Text location])).
  { apply (flat_render []). each; cbn [flat]; auto; try (split; [|intros v Q; discriminate]);
      apply no_nl_in; reflexivity. }
  assert (O1 : Forall (piece_ok K) [Text $".def("; Text py; Text $"::init<"; Text arg_types; Text $">()"; Hole comma; Text location]).
  { each; cbn [piece_ok]; auto; try (apply neutralb_true; reflexivity); apply name_in; reflexivity. }
  assert (N2 : forall a, In (Some a) [pyarg; docstring] -> ~ In nl (render [Text indent; Text a; Hole comma])).
  { intros a I. apply (flat_render []). each; cbn [flat]; auto; try (split; [|intros v Q; discriminate]);
      apply no_nl_in; reflexivity. }
  assert (O2 : forall a, In (Some a) [pyarg; docstring] -> Forall (piece_ok K) [Text indent; Text a; Hole comma]).
  { intros a I. each; cbn [piece_ok]; auto; apply name_in; reflexivity. }
  assert (N3 : forall a, In (Some a) [pyarg; docstring] -> ~ In nl (render [Text indent; Text a])).
  { intros a I. apply (flat_render []). each; cbn [flat]; auto. }
  assert (O3 : forall a, In (Some a) [pyarg; docstring] -> Forall (piece_ok K) [Text indent; Text a]).
  { intros a I. each; cbn [piece_ok]; auto. }
  unfold replace_maybe_comma, render_lines, constructor_lines. f_equal.
  assert (X1 : forall v, render (map (fill1 comma v) [Text $".def("; Text py; Text $"::init<"; Text arg_types; Text $">()"; Hole comma; Text location])
    = $".def(" ++ py ++ $"::init<" ++ arg_types ++ $">()" ++ v ++ location).
  { intros v. cbn [map fill1]. rewrite seqb_refl. unfold render. cbn [map concat written]. rewrite app_nil_r. reflexivity. }
  assert (X2 : forall a v, render (map (fill1 comma v) [Text indent; Text a; Hole comma]) = indent ++ a ++ v).
  { intros a v. cbn [map fill1]. rewrite seqb_refl. unfold render. cbn [map concat written]. rewrite app_nil_r. reflexivity. }
  assert (X3 : forall a v, render (map (fill1 comma v) [Text indent; Text a]) = indent ++ a).
  { intros a v. unfold render. cbn [map fill1 concat written]. rewrite app_nil_r. reflexivity. }
  destruct pyarg as [a|], docstring as [s|]; cbn [app map option_map present].
  - rewrite lines_unlines; [|discriminate|each; auto; [apply N2; left; reflexivity|apply N3; right; left; reflexivity]].
    cbn [comma_lines length]. rewrite !comma_line_replace, !(replace_line K); auto; [|apply O3; right; left; reflexivity|apply O2; left; reflexivity].
    rewrite X1, X2, X3. reflexivity.
  - rewrite lines_unlines; [|discriminate|each; auto; apply N2; left; reflexivity].
    cbn [comma_lines length]. rewrite !comma_line_replace, !(replace_line K); auto; [|apply O2; left; reflexivity].
    rewrite X1, X2. reflexivity.
  - rewrite lines_unlines; [|discriminate|each; auto; apply N3; right; left; reflexivity].
    cbn [comma_lines length]. rewrite !comma_line_replace, !(replace_line K); auto; [|apply O3; right; left; reflexivity].
    rewrite X1, X3. reflexivity.
  - rewrite lines_unlines; [|discriminate|each; auto].
    cbn [comma_lines length]. rewrite !comma_line_replace, !(replace_line K); auto.
    rewrite X1. reflexivity.
Qed.

Lemma name_ok k : negb (contains $"{" k) && negb (contains $"}" k) = true -> is_name k.
Proof.
  intros H. assert (F : Forall is_name [k]) by (apply names_ok; cbn [forallb]; rewrite H; reflexivity). exact (Forall_inv F).
Qed.
