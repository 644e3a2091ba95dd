From Verif Require Import PyStr PyStrLemmas PyDict PyNum RegionsModel NumberProofs2 TypeTextModel FillModel FillSpec FillProofs FillProofs2 FillProofs3 FillProofs4 LambdaModel AdapterModel
  AdapterSpec BufferModel BufferSpec ChainModel BindModel BindSpec BindProofs NamedModel NamedSpec NamedProofs NamedProofs2.
(** What the stub and the binding show of the constructor, and its text. *)

Lemma replace_keeps old new c s : old <> [] -> startswith old (c :: s) = false -> exists r, replace old new (c :: s) = c :: r.
Proof.
  intros N S. exists (replace old new s). apply replace_cons. auto.
Qed.

Section Shown.
Variables (i : str) (bo : buffer_options) (co : class_options) (o : options) (e : publisher) (s : struct) (ms : list member).
Hypothesis is_implicit : implicit s.
Hypothesis is_wanted : wanted co s.
Hypothesis is_destructible : destructible s.
Hypothesis is_chosen : chosen co s ms.
Hypothesis not_hindered : unhindered bo co o s ms.
Hypothesis not_empty : ms <> [].

Lemma optional_not_args t : type_text t = optional_text (type_text (CType (typenames t) [] [])) \/ (exists x, type_text t = optional_text x) ->
  is_args t = false /\ is_kwargs t = false.
Proof.
  intros H. assert (E : exists x, type_text t = optional_text x) by (destruct H; eauto). clear H. destruct E as [x E].
  assert (S : exists r, simplified t = "s"%char :: r).
  { unfold simplified. rewrite E. unfold optional_text.
    assert (R : replace $"const " [] ($"const std::optional<const " ++ x ++ $"> &") = replace $"const " [] ($"std::optional<const " ++ x ++ $"> &")).
    { change ($"const std::optional<const " ++ x ++ $"> &") with ($"const " ++ ($"std::optional<const " ++ x ++ $"> &")). rewrite replace_occ by discriminate. auto. }
    rewrite R. destruct (replace_keeps $"const " [] "s" ($"td::optional<const " ++ x ++ $"> &")) as [r1 E1]; [discriminate|reflexivity|].
    change ($"std::optional<const " ++ x ++ $"> &") with ("s"%char :: ($"td::optional<const " ++ x ++ $"> &")). rewrite E1.
    destruct (replace_keeps $"pybind11::" $"py::" "s" r1) as [r2 E2]; [discriminate|reflexivity|]. rewrite E2.
    destruct (replace_keeps $" &" [] "s" r2) as [r3 E3]; [discriminate|reflexivity|]. rewrite E3.
    destruct (replace_keeps $"nanobind::" $"nb::" "s" r3) as [r4 E4]; [discriminate|reflexivity|]. eauto. }
  destruct S as [r S]. unfold is_args, is_kwargs. rewrite S. split; reflexivity.
Qed.

Lemma shown_python m : In m ms -> python_of e (finally o (active co o) (ctor_param m)) = Named (e_name e (name_of m)) true.
Proof.
  intros I. unfold python_of, finally. destruct (_ && _).
  - destruct (optional_not_args (p_type (optional_param (ctor_param m)))) as [A B].
    + right. eexists. eapply optional_param_text; eauto.
    + rewrite A, B. reflexivity.
  - destruct (uh_args _ _ _ _ _ not_hindered m I) as [A B]. cbn [ctor_param p_type p_name p_default]. rewrite A, B. f_equal.
    destruct (p_default (m_decl m)); auto. destruct (type_text _); auto.
Qed.

Lemma shown ps sets pyargs : binding_made i bo co o e s = Some (InitNamed ps sets pyargs) ->
  Forall (faithful e) (if e_nanobind e then tl ps else ps) ->
  exists params, stub_made i bo co o e s = Some (Some ($"self" :: params)) /\
    Forall2 stub_shows (map (fun m => Named (e_name e (name_of m)) true) ms) params /\
    Forall2 (binding_shows (py e)) (map (fun m => Named (e_name e (name_of m)) true) ms) pyargs.
Proof.
  intros B F. destruct (made_is i bo co o e s ms) as (ls & g & A & G & B' & S); auto.
  rewrite B in B'. injection B' as -> _ ->.
  assert (GV : given (e_nanobind e) (ctor_declared co s) g = if e_nanobind e then tl (f_params g) else f_params g).
  { unfold given. cbn [ctor_declared d_constructor]. rewrite andb_true_r. auto. }
  assert (PY : map (python_of e) (given (e_nanobind e) (ctor_declared co s) g) = map (fun m => Named (e_name e (name_of m)) true) ms).
  { rewrite GV, G. assert (E : (if e_nanobind e then tl (selfs (e_nanobind e) s ++ map (finally o (active co o)) (map ctor_param ms))
      else selfs (e_nanobind e) s ++ map (finally o (active co o)) (map ctor_param ms)) = map (finally o (active co o)) (map ctor_param ms)).
    { unfold selfs. destruct (e_nanobind e); auto. }
    rewrite E, !map_map. apply map_ext_in. apply shown_python. }
  destruct (described i bo (ctor_options co o s) e (ctor_declared co s) ls g) as (params & SP & H1 & H2).
  - apply (uh_size _ _ _ _ _ not_hindered).
  - intros _. destruct (uh_class _ _ _ _ _ not_hindered) as (X & Y & Z). split; auto.
  - exact A.
  - rewrite GV. auto.
  - discriminate.
  - exists params. split; [|split].
    + rewrite S, SP. cbn [ctor_declared d_constructor]. rewrite orb_true_r. auto.
    + rewrite <- PY. auto.
    + rewrite PY in H2. assert (E : filter is_named (map (fun m => Named (e_name e (name_of m)) true) ms) = map (fun m => Named (e_name e (name_of m)) true) ms).
      { clear. induction ms as [|m r IH]; auto. cbn. rewrite IH. auto. }
      rewrite E in H2. auto.
Qed.
End Shown.

(** ** The text *)

Lemma names_are : Forall is_name ctor_names.
Proof. apply names_ok. reflexivity. Qed.
Lemma name_is k : smem k ctor_names = true -> is_name k.
Proof. intros H. apply smem_In in H. pose proof names_are as F. rewrite Forall_forall in F. auto. Qed.

Definition pieces (nanobind : bool) : list FillSpec.piece :=
  if nanobind then
    [Text ($".def(" ++ [dq] ++ $"__init__" ++ [dq] ++ $", []("); Hole $"all_params_signature"; Text ($")" ++ [nl] ++ $"{" ++ [nl]); Hole $"_i_";
     Text $"new (self) "; Hole $"qualified_struct_name"; Text ($"();  // placement new" ++ [nl]); Hole $"_i_"; Text ($"auto r_ctor_ = self;" ++ [nl]);
     Hole $"all_params_set_values"; Text ([nl] ++ $"}," ++ [nl]); Hole $"maybe_pyargs"; Text ([nl] ++ $")")]
  else
    [Text ($".def(py::init<>([](" ++ [nl]); Hole $"all_params_signature"; Text ($")" ++ [nl] ++ $"{" ++ [nl]); Hole $"_i_";
     Text $"auto r_ctor_ = std::make_unique<"; Hole $"qualified_struct_name"; Text ($">();" ++ [nl]); Hole $"all_params_set_values"; Text [nl]; Hole $"_i_";
     Text ($"return r_ctor_;" ++ [nl] ++ $"})" ++ [nl] ++ $", "); Hole $"maybe_pyargs"; Text ([nl] ++ $")")].
Lemma template_pieces (nanobind : bool) : (if nanobind then template_nanobind else template_pybind) = render (pieces nanobind).
Proof. destruct nanobind; reflexivity. Qed.
Lemma pieces_ok (nanobind : bool) : Forall (piece_ok ctor_names) (pieces nanobind).
Proof.
  destruct nanobind; unfold pieces; repeat (apply Forall_cons; [first [apply name_is; reflexivity|apply neutralb_true; reflexivity]|]); constructor.
Qed.

Ltac flatten_text := repeat (rewrite <- ?app_assoc; cbn [app list_ascii_of_string]).
Lemma ctor_text_is i nanobind scope signature sets pyargs :
  Forall (neutral ctor_names) [i; scope; signature; sets; pyargs] ->
  ctor_text i nanobind scope signature sets pyargs = unlines (ctor_lines i nanobind scope signature sets pyargs).
Proof.
  intros N. rewrite !Forall_cons_iff in N. destruct N as (N1 & N2 & N3 & N4 & N5 & _).
  unfold ctor_text, process_code_template. rewrite template_pieces.
  set (d := [($"_i_", i); ($"qualified_struct_name", scope); ($"all_params_signature", signature); ($"all_params_set_values", sets)]).
  assert (V : Forall (neutral ctor_names) (map snd d)) by (unfold d; cbn [map snd]; repeat (apply Forall_cons; [assumption|]); apply Forall_nil).
  rewrite (fill_all ctor_names); auto; [|apply smem_incl; reflexivity|apply names_ok; reflexivity|apply pieces_ok].
  assert (O1 : Forall (piece_ok ctor_names) (map (fill d) (pieces nanobind))) by (apply fill_ok; auto; apply pieces_ok).
  cbv zeta. unfold replace_in_string_remove_line_if_none. cbn [fold_left]. unfold replace_or_remove. cbn [fst snd].
  rewrite (replace_render ctor_names); [|cbn; tauto|apply name_is; reflexivity|auto].
  assert (O2 : Forall (piece_ok ctor_names) (map (fill1 $"maybe_pyargs" pyargs) (map (fill d) (pieces nanobind)))) by (apply fill1_ok; auto).
  unfold settle_commas. rewrite (replace_render ctor_names); [|cbn; tauto|apply name_is; reflexivity|auto].
  set (ps := map _ (map _ (map _ (pieces nanobind)))). set (t := render ps).
  assert (T : exists a, t = a ++ [nl] ++ $")" /\ t = unlines (ctor_lines i nanobind scope signature sets pyargs)).
  { destruct nanobind.
    - assert (P : ps = [Text ($".def(" ++ [dq] ++ $"__init__" ++ [dq] ++ $", []("); Text signature; Text ($")" ++ [nl] ++ $"{" ++ [nl]); Text i;
        Text $"new (self) "; Text scope; Text ($"();  // placement new" ++ [nl]); Text i; Text ($"auto r_ctor_ = self;" ++ [nl]);
        Text sets; Text ([nl] ++ $"}," ++ [nl]); Text pyargs; Text ([nl] ++ $")")]) by reflexivity.
      unfold t. rewrite P. clear. unfold render. cbn [map concat written]. rewrite app_nil_r.
      exists ($".def(" ++ [dq] ++ $"__init__" ++ [dq] ++ $", [](" ++ signature ++ $")" ++ [nl] ++ $"{" ++ [nl] ++ i ++ $"new (self) " ++ scope ++
        $"();  // placement new" ++ [nl] ++ i ++ $"auto r_ctor_ = self;" ++ [nl] ++ sets ++ [nl] ++ $"}," ++ [nl] ++ pyargs).
      split; [|unfold unlines, ctor_lines; cbn [join]]; flatten_text; reflexivity.
    - assert (P : ps = [Text ($".def(py::init<>([](" ++ [nl]); Text signature; Text ($")" ++ [nl] ++ $"{" ++ [nl]); Text i;
        Text $"auto r_ctor_ = std::make_unique<"; Text scope; Text ($">();" ++ [nl]); Text sets; Text [nl]; Text i;
        Text ($"return r_ctor_;" ++ [nl] ++ $"})" ++ [nl] ++ $", "); Text pyargs; Text ([nl] ++ $")")]) by reflexivity.
      unfold t. rewrite P. clear. unfold render. cbn [map concat written]. rewrite app_nil_r.
      exists ($".def(py::init<>([](" ++ [nl] ++ signature ++ $")" ++ [nl] ++ $"{" ++ [nl] ++ i ++ $"auto r_ctor_ = std::make_unique<" ++ scope ++ $">();" ++ [nl]
        ++ sets ++ [nl] ++ i ++ $"return r_ctor_;" ++ [nl] ++ $"})" ++ [nl] ++ $", " ++ pyargs).
      split; [|unfold unlines, ctor_lines; cbn [join]]; flatten_text; reflexivity. }
  destruct T as (a & T & U). rewrite <- U.
  assert (T' : t = (a ++ [nl]) ++ [")"%char]) by (rewrite T, <- app_assoc; reflexivity).
  assert (E1 : endswith $", " t = false) by (rewrite T'; exact (endswith_snoc $"," " " (a ++ [nl]) ")")).
  assert (E2 : endswith $", );" t = false) by (rewrite T'; exact (endswith_snoc $", )" ";" (a ++ [nl]) ")")).
  assert (E3 : endswith $", )" t = false).
  { rewrite T'. rewrite (endswith_snoc $", " ")" (a ++ [nl]) ")" : endswith $", )" ((a ++ [nl]) ++ [")"%char]) = _).
    rewrite (endswith_snoc $"," " " a nl : endswith $", " (a ++ [nl]) = _). apply andb_false_r. }
  rewrite E1, E2, E3. auto.
Qed.

Lemma solid_line i x l : ~ In nl i -> Forall (fun w => ~ In nl w) (words_of x) -> In l (setting_lines i x) ->
  ~ In nl l /\ indent_line i true l = i ++ l.
Proof.
  intros NI F I. assert (E : (exists a c, l = a ++ [c] /\ is_space c = false) /\ ~ In nl l).
  { destruct x as [m p|m p d]; cbn [setting_lines words_of] in *; rewrite !Forall_cons_iff in F.
    - destruct F as (A & B & _). destruct I as [<-|[]]. split.
      + exists ($"r_ctor_->" ++ m ++ $" = " ++ p), ";"%char. split; auto. flatten_text. reflexivity.
      + rewrite !in_app_iff. cbn. intuition discriminate.
    - destruct F as (A & B & C & _). destruct I as [<-|[<-|[<-|[<-|[]]]]]; split.
      + exists ($"if (" ++ p ++ $".has_value()"), ")"%char. split; auto. flatten_text. reflexivity.
      + rewrite !in_app_iff. cbn. intuition discriminate.
      + exists (i ++ $"r_ctor_->" ++ m ++ $" = " ++ p ++ $".value()"), ";"%char. split; auto. flatten_text. reflexivity.
      + rewrite !in_app_iff. cbn. intuition discriminate.
      + exists $"els", "e"%char. split; auto.
      + cbn. intuition discriminate.
      + exists (i ++ $"r_ctor_->" ++ m ++ $" = " ++ d), ";"%char. split; auto. flatten_text. reflexivity.
      + rewrite !in_app_iff. cbn. intuition discriminate. }
  destruct E as [(a & c & -> & S) N]. split; auto. unfold indent_line. destruct (a ++ [c]) eqn:X; [destruct a; discriminate|]. rewrite <- X.
  rewrite rstrip_keep; auto.
Qed.
Lemma settings_text_is i xs : xs <> [] -> ~ In nl i -> Forall (fun x => Forall (fun w => ~ In nl w) (words_of x)) xs ->
  settings_text i xs = unlines (map (app i) (flat_map (statement i) xs)).
Proof.
  intros N NI F. unfold settings_text, indent_code_str. change (flat_map (statement i) xs) with (flat_map (setting_lines i) xs).
  assert (A : forall l, In l (flat_map (setting_lines i) xs) -> ~ In nl l /\ indent_line i true l = i ++ l).
  { intros l I. apply in_flat_map in I. destruct I as (x & I & J). rewrite Forall_forall in F. apply (solid_line i x); auto. }
  rewrite lines_unlines.
  - f_equal. apply map_ext_in. intros l I. apply A. auto.
  - destruct xs as [|[m p|m p d] xs]; [congruence|discriminate|discriminate].
  - apply Forall_forall. intros l I. apply A. auto.
Qed.
Lemma binding_text_is i e s ps xs pyargs : xs <> [] -> ~ In nl i -> Forall (fun x => Forall (fun w => ~ In nl w) (words_of x)) xs ->
  Forall (neutral ctor_names) [i; s_scope s; join $", " (map param_text ps); unlines (map (app i) (flat_map (statement i) xs)); join $", " pyargs] ->
  binding_text i e s (InitNamed ps xs pyargs) = unlines (ctor_lines i (e_nanobind e) (s_scope s) (join $", " (map param_text ps))
    (unlines (map (app i) (flat_map (statement i) xs))) (join $", " pyargs)).
Proof. intros N NI F T. cbn [binding_text]. rewrite settings_text_is by auto. apply ctor_text_is. auto. Qed.
