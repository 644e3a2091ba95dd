From Verif Require Import PyStr PyStrLemmas PyDict PyNum TypeTextModel FillModel FillSpec FillProofs FillProofs3 FillProofs4 LambdaModel
  AdapterModel AdapterSpec AdapterProofs4 BufferModel BufferSpec BufferProofs BufferProofs3 BufferProofs4 ChainModel ChainProofs
  BindModel BindSpec.
(** The stub and the binding describe the same function. *)

(** ** Texts *)

Definition equal_text : str := [" "%char; "="%char; " "%char].
Lemma contains_equal_r t c : c <> " "%char -> contains equal_text t = false -> contains equal_text (t ++ [c]) = false.
Proof.
  intros N. unfold equal_text. induction t as [|x t IH]; intros H.
  - cbn [app contains startswith]. destruct (ceqb_spec " " c); [congruence|]. reflexivity.
  - cbn [contains] in H. apply orb_false_iff in H. destruct H as [A B]. cbn [app contains]. rewrite IH by auto. rewrite orb_false_r.
    revert A. cbn [startswith]. destruct (ceqb " " x); auto. cbn [andb].
    destruct t as [|y t]; cbn [app startswith].
    + destruct (ceqb "=" c); auto.
    + destruct (ceqb "=" y); auto. cbn [andb]. destruct t as [|z t]; cbn [app startswith]; auto.
      intros _. destruct (ceqb_spec " " c); [congruence|]. auto.
Qed.
Lemma contains_equal_l a t : ~ In " "%char a -> contains equal_text (a ++ t) = contains equal_text t.
Proof.
  unfold equal_text. induction a as [|x a IH]; intros N; auto. cbn [app contains]. rewrite IH by (intros I; apply N; right; auto).
  cbn [startswith]. destruct (ceqb_spec " " x); [exfalso; apply N; left; auto|]. auto.
Qed.

Section Bind.
Variable e : publisher.

Lemma stub_type_equal d p : contains $" = " (e_type e (type_text (p_type p))) = false -> contains $" = " (stub_type e d p) = false.
Proof.
  intros H. unfold stub_type. destruct (d_vectorized d); auto. destruct (d_comparison d); auto.
  destruct (_ && _); auto. change ($" = ") with equal_text in *. rewrite contains_equal_l.
  - apply (contains_equal_r _ "]"); [discriminate|]. auto.
  - cbn. intuition discriminate.
Qed.

Lemma stub_value_empty p : (forall v, v = [] <-> e_value e v = []) -> (stub_value e p = [] <-> strip (p_default p) = []).
Proof.
  intros V. unfold stub_value. rewrite <- V. destruct (_ && _) eqn:E; [|tauto]. apply andb_true_iff in E. destruct E as [E _].
  split; intros H; exfalso.
  - destruct (hd [] (typenames (p_type p))); discriminate.
  - rewrite H in E. discriminate.
Qed.

Lemma binding_value_empty t v : binding_value e t v = [] <-> v = [].
Proof.
  unfold binding_value. split; intros H; [|subst; auto].
  destruct (startswith $"{" (strip v)) eqn:B.
  - destruct (smem _ _); [unfold py_colon in H; destruct (e_nanobind e); discriminate|]. apply app_eq_nil in H. tauto.
  - destruct (smem _ _); [unfold py_colon in H; destruct (e_nanobind e); discriminate|auto].
Qed.
Lemma inner_value_empty d v : inner_value d v = [] <-> v = [].
Proof.
  unfold inner_value. split; [|intros ->; reflexivity]. destruct (split $"::" v) as [|a [|b r]]; auto.
  destruct (_ && _); auto. rewrite join_cons. intros H. destruct (d_class d); discriminate.
Qed.

Definition arg_names : list str := [$"argname_python"; $"maybe_equal"; $"maybe_dot_none"; $"maybe_defaultvalue_cpp"].
Lemma pyarg_text p : ~ In "{"%char (e_name e (p_name p)) ->
  let v := binding_value e (p_type p) (p_default p) in
  pyarg e p = py e ++ $"::arg(" ++ [dq] ++ e_name e (p_name p) ++ [dq] ++ $")"
    ++ (if e_nanobind e && is_optional_type (p_type p) then $".none()" else [])
    ++ match v with [] => [] | _ => $" = " ++ v end.
Proof.
  intros N v. unfold pyarg. fold v.
  set (none := if e_nanobind e && is_optional_type (p_type p) then $".none()" else []).
  set (eq := match v with [] => [] | _ => $" = " end).
  set (ps := [Text (py_colon e ++ $"arg(" ++ [dq]); Hole $"argname_python"; Text ([dq] ++ $")"); Hole $"maybe_dot_none"; Hole $"maybe_equal";
              Hole $"maybe_defaultvalue_cpp"]).
  assert (R : py_colon e ++ $"arg(" ++ [dq] ++ $"{argname_python}" ++ [dq] ++ $"){maybe_dot_none}{maybe_equal}{maybe_defaultvalue_cpp}" = render ps).
  { unfold py_colon. destruct (e_nanobind e) eqn:B; subst ps; unfold py_colon; rewrite B; reflexivity. }
  rewrite R. set (d3 := [($"argname_python", e_name e (p_name p)); ($"maybe_equal", eq); ($"maybe_dot_none", none)]).
  change (replace (placeholder $"maybe_defaultvalue_cpp") v (replace_in_string (render ps) d3) =
    py e ++ $"::arg(" ++ [dq] ++ e_name e (p_name p) ++ [dq] ++ $")" ++ none ++ match v with [] => [] | _ => $" = " ++ v end).
  assert (NE : ~ In "{"%char eq). { subst eq. destruct v; cbn; intuition discriminate. }
  assert (NN : ~ In "{"%char none). { subst none. destruct (_ && _); cbn; intuition discriminate. }
  assert (NP : ~ In "{"%char (py_colon e ++ $"arg(" ++ [dq])). { unfold py_colon. destruct (e_nanobind e); cbn; intuition discriminate. }
  assert (ND : ~ In "{"%char ([dq] ++ $")")). { cbn. intuition discriminate. }
  assert (OK : Forall is_name arg_names) by (apply names_ok; reflexivity).
  rewrite (fill_all arg_names).
  - assert (F : map (fill d3) ps = [Text (py_colon e ++ $"arg(" ++ [dq]); Text (e_name e (p_name p)); Text ([dq] ++ $")"); Text none; Text eq;
              Hole $"maybe_defaultvalue_cpp"]) by reflexivity.
    rewrite F. rewrite (replace_render arg_names).
    + cbn [map fill1 seqb]. change (seqb $"maybe_defaultvalue_cpp" $"maybe_defaultvalue_cpp") with true. cbn [render map concat written].
      unfold render. cbn [map concat written]. unfold py_colon, py. subst eq. destruct (e_nanobind e), v as [|c v0]; cbn [app list_ascii_of_string];
        rewrite <- ?app_assoc; cbn [app list_ascii_of_string]; rewrite ?app_nil_r; reflexivity.
    + cbn. tauto.
    + rewrite Forall_forall in OK. apply OK. cbn. tauto.
    + rewrite Forall_forall in OK. repeat (apply Forall_cons; [first [apply no_brace_neutral; assumption|apply OK; cbn; tauto]|]). constructor.
  - apply smem_incl. reflexivity.
  - apply names_ok. reflexivity.
  - repeat (apply Forall_cons; [apply no_brace_neutral; assumption|]). constructor.
  - subst ps. rewrite Forall_forall in OK. repeat (apply Forall_cons; [first [apply no_brace_neutral; assumption|apply OK; cbn; tauto]|]). constructor.
Qed.

(** ** One parameter *)

Lemma stub_one d p : faithful e p -> exists text,
  (if is_args (p_type (terse e p)) then [$"*args"] else if is_kwargs (p_type (terse e p)) then [$"**kwargs"]
   else [e_name e (p_name (terse e p)) ++ $": " ++ stub_type e d (terse e p) ++ match stub_value e (terse e p) with [] => [] | v => $" = " ++ v end])
  = [text] /\ stub_shows (python_of e p) text.
Proof.
  intros F. unfold python_of. cbn [terse p_type p_name]. rewrite (fa_args _ _ F), (fa_kwargs _ _ F).
  destruct (is_args (p_type p)); [eexists; split; reflexivity|]. destruct (is_kwargs (p_type p)); [eexists; split; reflexivity|].
  eexists. split; [reflexivity|]. cbn [stub_shows]. eexists. eexists. split; [|split; [reflexivity|]].
  - apply stub_type_equal. apply (fa_type _ _ F).
  - fold (terse e p). pose proof (stub_value_empty (terse e p) (fa_value _ _ F)) as E. cbn [terse p_default] in E.
    rewrite <- (fa_terse _ _ F) in E. fold (terse e p) in E.
    destruct (p_default p) as [|c r]; destruct (stub_value e (terse e p)) as [|c' r'] eqn:S.
    + auto.
    + exfalso. assert (c' :: r' = []) by tauto. discriminate.
    + exfalso. assert (c :: r = []) by tauto. discriminate.
    + exists (c' :: r'). split; auto. discriminate.
Qed.

Lemma binding_one d p : faithful e p ->
  Forall2 (binding_shows (py e)) (filter is_named [python_of e p])
    (if is_args (p_type p) || is_kwargs (p_type p) then []
     else [pyarg e (Param (p_type p) (p_name p) (p_array p) (inner_value d (p_default p)))]).
Proof.
  intros F. unfold python_of. destruct (is_args (p_type p)); [constructor|]. destruct (is_kwargs (p_type p)); [constructor|].
  cbn [orb filter is_named]. constructor; [|constructor]. cbn [binding_shows]. rewrite pyarg_text by apply (fa_name _ _ F).
  cbn [p_name p_type p_default]. eexists. eexists. split; [|split; [reflexivity|]].
  - destruct (_ && _); cbn; auto.
  - pose proof (binding_value_empty (p_type p) (inner_value d (p_default p))) as E. rewrite inner_value_empty in E.
    destruct (p_default p) as [|c r]; destruct (binding_value _ _ _) as [|c' r'].
    + auto.
    + exfalso. assert (c' :: r' = []) by tauto. discriminate.
    + exfalso. assert (c :: r = []) by tauto. discriminate.
    + exists (c' :: r'). split; auto. discriminate.
Qed.

(** ** All parameters *)

Lemma stub_all d ps k : (forall i p, k <= i -> skipped e d i p = false) -> Forall (faithful e) ps ->
  Forall2 stub_shows (map (python_of e) ps)
    (flat_map (fun ip => stub_param e d (fst ip) (snd ip)) (combine (seq k (length ps)) (map (terse e) ps))).
Proof.
  intros S F. revert k S. induction F as [|p ps H F IH]; intros k S; [constructor|].
  cbn [length seq map combine flat_map fst snd]. unfold stub_param at 1. rewrite S by auto.
  destruct (stub_one d p H) as (text & E & T). rewrite E. cbn [app]. constructor; auto.
  apply IH. intros i q L. apply S. lia.
Qed.
Lemma binding_all d ps k : (forall i p, k <= i -> skipped e d i p = false) -> Forall (faithful e) ps ->
  Forall2 (binding_shows (py e)) (filter is_named (map (python_of e) ps))
    (flat_map (fun ip => binding_param e d (fst ip) (snd ip)) (combine (seq k (length ps)) ps)).
Proof.
  intros S F. revert k S. induction F as [|p ps H F IH]; intros k S; [constructor|].
  cbn [length seq combine flat_map fst snd]. unfold binding_param at 1. rewrite S by auto.
  change (map (python_of e) (p :: ps)) with ([python_of e p] ++ map (python_of e) ps). rewrite filter_app. apply Forall2_app.
  - apply binding_one. auto.
  - apply IH. intros i q L. apply S. lia.
Qed.

Lemma never_skipped d i p : e_nanobind e && d_constructor d = false -> skipped e d i p = false.
Proof. unfold skipped. intros ->. auto. Qed.
Lemma later_not_skipped d i p : 1 <= i -> skipped e d i p = false.
Proof. unfold skipped. destruct i; [lia|]. intros _. apply andb_false_r. Qed.

(** The object made by a constructor of nanobind is the first parameter. *)
Definition self_first (nanobind : bool) (d : declared) (g : func) : Prop :=
  nanobind && d_constructor d = true -> exists p r, f_params g = p :: r /\ p_name p = $"self".

Lemma bind_params d g : self_first (e_nanobind e) d g -> Forall (faithful e) (given (e_nanobind e) d g) ->
  exists shown, stub_params e d g = (if f_is_method (d_func d) && negb (static_type (f_return g)) then [$"self"] else []) ++ shown /\
    Forall2 stub_shows (map (python_of e) (given (e_nanobind e) d g)) shown /\
    Forall2 (binding_shows (py e)) (filter is_named (map (python_of e) (given (e_nanobind e) d g))) (binding_params e d g).
Proof.
  intros S F. eexists. split; [reflexivity|]. unfold binding_params, enumerate, given in *. rewrite map_length.
  destruct (e_nanobind e && d_constructor d) eqn:N.
  - destruct (S N) as (p & r & E & M). rewrite E in *. cbn [tl length seq map combine flat_map fst snd] in *.
    assert (K : skipped e d 0 p = true). { unfold skipped. rewrite N, M. reflexivity. }
    assert (K' : skipped e d 0 (terse e p) = true) by exact K.
    unfold stub_param at 1. unfold binding_param at 1. rewrite K, K'. cbn [app]. split.
    + apply stub_all; auto. intros. apply later_not_skipped. auto.
    + apply binding_all; auto. intros. apply later_not_skipped. auto.
  - split; [apply stub_all|apply binding_all]; auto; intros; apply never_skipped; auto.
Qed.
End Bind.

Lemma known_args e p : In (type_text (p_type p)) (written_as $"args") -> python_of e p = Args.
Proof.
  intros I. unfold python_of. assert (A : is_args (p_type p) = true); [|rewrite A; auto].
  unfold is_args, simplified. cbn [written_as flat_map map app fst snd In] in I.
  repeat destruct I as [<-|I]; try (vm_compute; reflexivity). destruct I.
Qed.
Lemma known_kwargs e p : In (type_text (p_type p)) (written_as $"kwargs") -> python_of e p = Kwargs.
Proof.
  intros I. unfold python_of. assert (A : is_args (p_type p) = false /\ is_kwargs (p_type p) = true); [|destruct A as [-> ->]; auto].
  unfold is_args, is_kwargs, simplified. cbn [written_as flat_map map app fst snd In] in I.
  repeat destruct I as [<-|I]; try (split; vm_compute; reflexivity). destruct I.
Qed.
Lemma other_named e p : simple_text (type_text (p_type p)) ->
  ~ In (type_text (p_type p)) [$"py::args"; $"nb::args"; $"py::kwargs"; $"nb::kwargs"] ->
  python_of e p = Named (e_name e (p_name p)) (match p_default p with [] => false | _ => true end).
Proof.
  intros S N. assert (E : simplified (p_type p) = type_text (p_type p)).
  { unfold simplified, simple_text in *. rewrite !Forall_cons_iff in S. destruct S as (A & B & C & D & _).
    rewrite (replace_no_occ _ _ _ A), (replace_no_occ _ _ _ C), (replace_no_occ _ _ _ B). apply replace_no_occ. auto. }
  unfold python_of, is_args, is_kwargs. rewrite E. cbn [In] in N.
  destruct (seqb_spec (type_text (p_type p)) $"py::args"); [exfalso; apply N; auto|].
  destruct (seqb_spec (type_text (p_type p)) $"nb::args"); [exfalso; apply N; auto|].
  destruct (seqb_spec (type_text (p_type p)) $"py::kwargs"); [exfalso; apply N; auto|].
  destruct (seqb_spec (type_text (p_type p)) $"nb::kwargs"); [exfalso; apply N; auto 6|]. reflexivity.
Qed.

(** ** Through the adapters *)

Lemma chain_inv i bo o (Inv : func -> Prop) f ls g :
  (forall a, In a (adapters i bo o) -> forall f l, Inv f -> a f = Some (Some l) -> Inv (apply_lambda_adapter f l)) ->
  (forall f, Inv f -> Inv (apply_lambda_adapter f (adapt_force_lambda f))) ->
  Inv f -> apply_all_adapters i bo o f = Some (ls, g) -> Inv g.
Proof.
  intros A F. unfold apply_all_adapters. revert A. generalize (adapters i bo o) as all. intros all A. revert f ls g.
  induction all as [|a all IH]; intros f ls g I H; cbn [apply_adapters] in H.
  - injection H as <- <-. unfold force. destruct (_ && _); cbn [snd]; auto.
  - specialize (IH (fun a' J => A a' (or_intror J))).
    destruct (a f) as [[l|]|] eqn:E; [| |discriminate]; [|eauto].
    pose proof (A a (or_introl eq_refl) f l I E) as I1.
    destruct (apply_adapters all (apply_lambda_adapter f l)) as [[ls' g']|] eqn:R; [|discriminate].
    injection H as <- <-. specialize (IH (apply_lambda_adapter f l)). rewrite R in IH. eauto.
Qed.

(** No lambda: nothing is changed. *)
Lemma no_link i bo o f g : apply_all_adapters i bo o f = Some ([], g) -> g = f.
Proof. intros H. apply chain_is_chained in H. inversion H. auto. Qed.

(** The object of a constructor stays first. *)
Definition object_param (scope : str) : param := Param (CType [scope] [] [$"*"]) $"self" [] [].
Lemma bare_one t s m : bare_name (CType [t] s m) = t.
Proof. reflexivity. Qed.

Section Object.
Variables (i : str) (bo : buffer_options) (o : options) (scope : str).
Hypothesis no_size : o_array_size o [] = None.
Hypothesis not_immutable : is_immutable scope = false.
Hypothesis not_numbers : ~ numbers bo (object_param scope).
Let first (f : func) : Prop := exists r, f_params f = object_param scope :: r.

Lemma object_map (pc : param -> piece) r : q_new (pc (object_param scope)) = [object_param scope] ->
  exists r', new_params (map pc (object_param scope :: r)) = object_param scope :: r'.
Proof. intros H. unfold new_params. cbn [map flat_map]. rewrite H. cbn [app]. eauto. Qed.
Lemma object_not_modifiable : is_modifiable (object_param scope) = false.
Proof. unfold is_modifiable. cbn [object_param p_type]. rewrite bare_one, not_immutable. apply andb_false_r. Qed.
Lemma object_not_list : is_string_list (object_param scope) = false.
Proof. reflexivity. Qed.

Lemma object_step a : In a (adapters i bo o) -> forall f l, first f -> a f = Some (Some l) -> first (apply_lambda_adapter f l).
Proof.
  revert a. apply (adapters_cases i bo o (fun a => forall f l, first f -> a f = Some (Some l) -> first (apply_lambda_adapter f l)));
    intros f l (r & E) H; unfold first; rewrite apply_params.
  { revert H. unfold adapt_c_buffers. destruct (shall_adapt bo f); [|discriminate]. destruct (1 <? _); [discriminate|].
    destruct (each_param _ _); [|discriminate]. destruct (each_param _ _); [|discriminate]. destruct (buffer_end i bo f); [|discriminate].
    intros H. injection H as <-. cbn [l_params]. rewrite E. unfold enumerate. cbn [length seq combine flat_map fst snd]. unfold new_of at 1.
    assert (B : is_buffer bo (object_param scope :: r) 0 = false).
    { unfold is_buffer. cbn [buffer_loop nth_error Nat.add]. destruct r; auto.
      destruct (looks_buffer bo (object_param scope)) eqn:L; auto. apply looks_buffer_spec in L. tauto. }
    rewrite B. change (is_stride (object_param scope)) with false. change (is_size bo (object_param scope :: r) 0) with false.
    cbn [app]. eexists. reflexivity. }
  all: injection H as H; revert H.
  + unfold adapt_exclude_params. destruct (existsb _ _); [|discriminate]. intros H. injection H as <-. cbn [make_lambda l_params].
    rewrite E. apply object_map. unfold exclude_piece, shall_exclude. cbn [has_default object_param p_default]. rewrite andb_false_r. auto.
  + unfold adapt_mutable_default. destruct (_ && _); [|discriminate]. intros H. injection H as <-. cbn [make_lambda l_params].
    rewrite E. apply object_map. reflexivity.
  + unfold adapt_c_arrays. destruct (existsb _ _); [|discriminate]. intros H. injection H as <-. cbn [make_lambda l_params].
    rewrite E. apply object_map. unfold array_piece. cbn [object_param p_array]. rewrite no_size. auto.
  + unfold adapt_const_char_null. destruct (_ && _); [|discriminate]. intros H. injection H as <-. cbn [make_lambda l_params].
    rewrite E. apply object_map. reflexivity.
  + unfold adapt_to_return. destruct (o_to_return o (f_name f)); [|discriminate].
    destruct (returned_params o (f_params f)) as [|out outs]; [discriminate|]. intros H. injection H as <-. cbn [l_params].
    rewrite E. apply object_map. unfold returned_piece, returned_param. rewrite object_not_modifiable. reflexivity.
  + unfold adapt_boxed. destruct (_ && _); [|discriminate]. intros H. injection H as <-. cbn [make_lambda l_params].
    rewrite E. apply object_map. unfold boxed_piece. rewrite object_not_modifiable. reflexivity.
  + unfold adapt_string_list. destruct (_ && _); [|discriminate]. intros H. injection H as <-. cbn [make_lambda l_params].
    rewrite E. unfold new_params. cbn [string_list_pieces flat_map]. unfold string_list_piece at 1.
    destruct (hd_error r); rewrite ?object_not_list; cbn [andb q_new pass app]; eauto.
  + unfold adapt_string_list_alone. destruct (_ && _); [|discriminate]. intros H. injection H as <-. cbn [make_lambda l_params].
    rewrite E. apply object_map. reflexivity.
  + unfold adapt_variadic. destruct (rev (f_params f)) as [|last [|text firsts]] eqn:R; try discriminate.
    assert (E' : f_params f = rev firsts ++ [text; last]).
    { rewrite <- (rev_involutive (f_params f)), R. cbn [rev]. rewrite <- app_assoc. auto. }
    destruct (_ && _); [|discriminate]. intros H. injection H as <-. cbn [make_lambda l_params]. unfold new_params.
    rewrite flat_map_app. rewrite E in E'. destruct (rev firsts) as [|p ps]; cbn [app] in E'; injection E' as <- _; cbn; eauto.
Qed.
Lemma object_first_stays f ls g : first f -> apply_all_adapters i bo o f = Some (ls, g) -> first g.
Proof.
  apply chain_inv; [apply object_step|]. intros f0 (r & E). unfold first. rewrite apply_params. unfold adapt_force_lambda. cbn [make_lambda l_params].
  rewrite E. apply object_map. reflexivity.
Qed.
End Object.

(** What the adapters do with static. *)
Lemma static_step i bo o a : In a (adapters i bo o) -> forall f l, a f = Some (Some l) ->
  l_return l = f_return f \/ (specifiers (l_return l) = [] /\ o_to_return o (f_name f) = true).
Proof.
  revert a. apply (adapters_cases i bo o (fun a => forall f l, a f = Some (Some l) ->
    l_return l = f_return f \/ (specifiers (l_return l) = [] /\ o_to_return o (f_name f) = true))); intros f l H.
  { left. revert H. unfold adapt_c_buffers. destruct (shall_adapt bo f); [|discriminate]. destruct (1 <? _); [discriminate|].
    destruct (each_param _ _); [|discriminate]. destruct (each_param _ _); [|discriminate]. destruct (buffer_end i bo f); [|discriminate].
    intros H. injection H as <-. reflexivity. }
  all: injection H as H; revert H.
  + unfold adapt_exclude_params. destruct (existsb _ _); [|discriminate]. intros H. injection H as <-. auto.
  + unfold adapt_mutable_default. destruct (_ && _); [|discriminate]. intros H. injection H as <-. auto.
  + unfold adapt_c_arrays. destruct (existsb _ _); [|discriminate]. intros H. injection H as <-. auto.
  + unfold adapt_const_char_null. destruct (_ && _); [|discriminate]. intros H. injection H as <-. auto.
  + unfold adapt_to_return. destruct (o_to_return o (f_name f)); [|discriminate].
    destruct (returned_params o (f_params f)) as [|out outs]; [discriminate|]. intros H. injection H as <-. auto.
  + unfold adapt_boxed. destruct (_ && _); [|discriminate]. intros H. injection H as <-. auto.
  + unfold adapt_string_list. destruct (_ && _); [|discriminate]. intros H. injection H as <-. auto.
  + unfold adapt_string_list_alone. destruct (_ && _); [|discriminate]. intros H. injection H as <-. auto.
  + unfold adapt_variadic. destruct (rev (f_params f)) as [|last [|text firsts]]; try discriminate.
    destruct (_ && _); [|discriminate]. intros H. injection H as <-. auto.
Qed.
Lemma static_never_gained i bo o f ls g : static_type (f_return f) = false -> apply_all_adapters i bo o f = Some (ls, g) ->
  static_type (f_return g) = false.
Proof.
  apply (chain_inv i bo o (fun f => static_type (f_return f) = false)); auto.
  intros a I f0 l S H. cbn [apply_lambda_adapter f_return]. destruct (static_step i bo o a I f0 l H) as [->|[E _]]; auto.
  unfold static_type. rewrite E. auto.
Qed.
Lemma static_kept i bo o f ls g : o_to_return o (f_name f) = false -> apply_all_adapters i bo o f = Some (ls, g) ->
  static_type (f_return g) = static_type (f_return f).
Proof.
  intros N H. assert (G : static_type (f_return g) = static_type (f_return f) /\ f_name g = f_name f); [|apply G].
  revert H. apply (chain_inv i bo o (fun f' => static_type (f_return f') = static_type (f_return f) /\ f_name f' = f_name f)); auto.
  intros a I f0 l [S M] H. cbn [apply_lambda_adapter f_return f_name]. split; auto.
  destruct (static_step i bo o a I f0 l H) as [->|[_ E]]; auto. congruence.
Qed.

(** ** The theorems *)

Lemma plain_self i bo o nb d ls g : o_array_size o [] = None -> (d_constructor d = true -> plain_class bo d) ->
  adapted i bo o nb d = Some (ls, g) -> self_first nb d g.
Proof.
  intros NS P H C. apply andb_true_iff in C. destruct C as [-> C]. unfold adapted in H. rewrite C in H.
  destruct (P C) as (_ & A & B & D).
  destruct (object_first_stays i bo o (d_scope d) NS) with (f := constructor_wrapper true d) (ls := ls) (g := g) as (r & E); auto.
  - unfold is_immutable. apply orb_false_iff. split; apply smem_false; auto.
  - exists (f_params (d_func d)). reflexivity.
  - rewrite E. exists (object_param (d_scope d)), r. auto.
Qed.

Lemma constructor_not_static nb d : static_type (f_return (constructor_wrapper nb d)) = false.
Proof. destruct nb; reflexivity. Qed.

Theorem described i bo o e d ls g : o_array_size o [] = None -> (d_constructor d = true -> plain_class bo d) ->
  adapted i bo o (e_nanobind e) d = Some (ls, g) -> Forall (faithful e) (given (e_nanobind e) d g) ->
  (static_type (f_return (d_func d)) = true -> d_constructor d = false -> o_to_return o (f_name (d_func d)) = false) ->
  exists shown, stub_params e d g = (if gives_object d || d_constructor d then [$"self"] else []) ++ shown /\
    Forall2 stub_shows (map (python_of e) (given (e_nanobind e) d g)) shown /\
    Forall2 (binding_shows (py e)) (filter is_named (map (python_of e) (given (e_nanobind e) d g))) (binding_params e d g).
Proof.
  intros NS P H F S. destruct (bind_params e d g) as (shown & E & A & B); auto.
  { eapply plain_self; eauto. }
  exists shown. split; auto. rewrite E. f_equal. unfold gives_object. unfold adapted in H.
  destruct (d_constructor d) eqn:C.
  - rewrite (static_never_gained i bo o _ ls g (constructor_not_static _ _) H). destruct (P eq_refl) as (M & _). rewrite M. reflexivity.
  - rewrite orb_false_r. cbn [negb]. rewrite andb_true_r. f_equal. destruct (static_type (f_return (d_func d))) eqn:T.
    + rewrite (static_kept i bo o _ ls g (S eq_refl eq_refl) H), T. auto.
    + rewrite (static_never_gained i bo o _ ls g T H). auto.
Qed.

Theorem called i bo o nb d ls g : o_array_size o [] = None -> (d_constructor d = true -> plain_class bo d) ->
  adapted i bo o nb d = Some (ls, g) ->
  (static_type (f_return (d_func d)) = true -> d_constructor d = false -> f_is_method (d_func d) = true ->
   ls = [] /\ (d_overloaded d = true -> f_params (d_func d) <> [])) ->
  receives d (bound d ls g) = gives nb d (bound d ls g) g.
Proof.
  intros NS P H S. pose proof (plain_self i bo o nb d ls g NS P H) as SF. unfold adapted in H. unfold bound, gives, gives_object, given.
  destruct ls as [|l ls].
  - apply no_link in H. subst g. destruct (d_constructor d) eqn:C.
    + rewrite andb_true_r, andb_false_r. cbn [receives andb object_first app]. destruct nb; reflexivity.
    + cbn [negb] in *. rewrite andb_true_r, !andb_false_r. destruct (d_overloaded d) eqn:O; [|reflexivity].
      destruct (f_is_method (d_func d)) eqn:M; cbn [andb]; [|cbn [receives andb object_first]; rewrite M; reflexivity].
      destruct (f_params (d_func d)) as [|p ps] eqn:Q; cbn [receives].
      * destruct (static_type (f_return (d_func d))) eqn:T; [|reflexivity]. exfalso. apply (proj2 (S eq_refl eq_refl eq_refl)); auto.
      * rewrite M, Q. reflexivity.
  - destruct (d_constructor d) eqn:C.
    + rewrite !andb_false_r. cbn [receives andb object_first app negb]. rewrite andb_true_r. destruct nb; auto.
      destruct (SF C) as (p & r & E & N). rewrite E. cbn [map tl app]. rewrite N. reflexivity.
    + cbn [negb]. rewrite !andb_true_r, andb_false_r. cbn [receives app].
      destruct (f_is_method (d_func d)) eqn:M; cbn [andb object_first app]; auto.
      destruct (static_type (f_return (d_func d))) eqn:T; [|reflexivity]. destruct (S eq_refl eq_refl eq_refl) as [E _]. discriminate.
Qed.

(** ** Long declarations *)

Lemma cut_params ps k n : k + length ps = n ->
  concat (map (fun ip => snd ip ++ (if fst ip <? n - 1 then $", " else [])) (combine (seq k (length ps)) ps)) = join $", " ps.
Proof.
  revert k. induction ps as [|p ps IH]; intros k E; auto. cbn [length seq combine map concat fst snd] in *. destruct ps as [|q ps].
  - cbn [length] in *. replace (k <? n - 1) with false by (symmetry; apply Nat.ltb_ge; lia). cbn. rewrite !app_nil_r. auto.
  - rewrite (IH (S k)) by (cbn [length] in *; lia). rewrite join_cons.
    replace (k <? n - 1) with true by (symmetry; apply Nat.ltb_lt; cbn [length] in *; lia). rewrite <- app_assoc. auto.
Qed.

Theorem title_declares max name result c ps : declares name result c (join $", " ps) (title_lines max name result c ps).
Proof.
  unfold title_lines. destruct (_ || _).
  - left. f_equal. rewrite <- ?app_assoc. reflexivity.
  - right. rewrite <- (app_assoc $"def "), <- (app_assoc name). eexists. split; [reflexivity|]. apply cut_params. auto.
Qed.
Theorem title_fits max name result c ps : max <> 0 ->
  let one := $"def " ++ name ++ $"(" ++ join $", " ps ++ $") -> " ++ result ++ $":" ++ c in
  title_lines max name result c ps = [one] <-> length one < max.
Proof.
  intros M one. unfold title_lines. apply Nat.eqb_neq in M. rewrite M. cbn [orb].
  assert (E : ($"def " ++ name ++ $"(") ++ join $", " ps ++ ($") -> " ++ result ++ $":") ++ c = one).
  { unfold one. rewrite <- !app_assoc. reflexivity. }
  rewrite E. destruct (Nat.ltb_spec (length one) max).
  - tauto.
  - split; [|lia]. intros H'. exfalso. injection H' as _ H'. symmetry in H'. apply app_cons_not_nil in H'. auto.
Qed.
