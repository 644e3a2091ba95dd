From Verif Require Import PyStr PyStrLemmas PyDict PyNum TypeTextModel LambdaModel AdapterModel AdapterSpec BufferModel BufferSpec BufferProofs BufferProofs3
  ChainModel ChainProofs BindModel BindSpec BindProofs NamedModel NamedSpec NamedProofs.
(** The parameters of the constructor through the adapters, and what the constructor does. *)

(** ** Parameters which the adapters leave alone *)

Record quiet (o : options) (p : param) : Prop := {
  qu_array : o_array_size o (p_array p) = None;
  qu_modifiable : is_modifiable p = false;
  qu_chars : is_const_char_null p = false;
  qu_list : is_string_list p = false;
  qu_variadic : is_variadic p = false }.

Lemma existsb_none {A} (f : A -> bool) l : Forall (fun x => f x = false) l -> existsb f l = false.
Proof. induction 1 as [|x l H F IH]; auto. cbn. rewrite H. auto. Qed.
Lemma flat_map_none {A B} (f : A -> list B) l : Forall (fun x => f x = []) l -> flat_map f l = [].
Proof. induction 1 as [|x l H F IH]; auto. cbn. rewrite H. auto. Qed.
Lemma Forall_weaken {A} (P Q : A -> Prop) l : (forall x, P x -> Q x) -> Forall P l -> Forall Q l.
Proof. intros H. apply Forall_impl. auto. Qed.

Section Adapters.
Variables (i : str) (bo : buffer_options) (o : options).

Lemma quiet_buffers f : Forall (fun p => looks_buffer bo p = false) (f_params f) -> adapt_c_buffers i bo f = Some None.
Proof.
  intros F. unfold adapt_c_buffers. assert (S : shall_adapt bo f = false); [|rewrite S; auto].
  unfold shall_adapt. apply andb_false_iff. right. apply existsb_none. apply Forall_forall. intros k _. unfold is_buffer. cbn [buffer_loop].
  destruct (nth_error (f_params f) k) as [p|] eqn:E; auto. destruct (nth_error (f_params f) (k + 1)); auto.
  rewrite Forall_forall in F. rewrite (F p); auto. apply nth_error_In in E. auto.
Qed.
Lemma quiet_rest f : Forall (quiet o) (f_params f) -> apply_adapters (skipn 3 (adapters i bo o)) f = Some ([], f).
Proof.
  intros F. cbn [adapters skipn apply_adapters].
  assert (A1 : adapt_c_arrays o f = None).
  { unfold adapt_c_arrays. rewrite existsb_none; auto. revert F. apply Forall_weaken. intros p Q. unfold array_wanted. rewrite (qu_array _ _ Q). auto. }
  assert (A2 : adapt_const_char_null o f = None).
  { unfold adapt_const_char_null. rewrite existsb_none, andb_false_r; auto. revert F. apply Forall_weaken. intros p Q. apply Q. }
  assert (A3 : adapt_to_return o f = None).
  { unfold adapt_to_return. assert (R : returned_params o (f_params f) = []); [|rewrite R; destruct (o_to_return o (f_name f)); auto].
    apply flat_map_none. revert F. apply Forall_weaken. intros p Q. unfold returned_param. rewrite (qu_modifiable _ _ Q).
    unfold is_modifiable_array. rewrite (qu_array _ _ Q). destruct (modifiers (p_type p)); auto. }
  assert (A4 : adapt_boxed o f = None).
  { unfold adapt_boxed. rewrite existsb_none, andb_false_r; auto. revert F. apply Forall_weaken. intros p Q. apply Q. }
  assert (A5 : adapt_string_list o f = None).
  { unfold adapt_string_list. assert (N : string_list_needed o (f_params f) = false); [|rewrite N, andb_false_r; auto].
    revert F. induction (f_params f) as [|p ps IH]; auto. intros F. inversion F as [|? ? Q F']; subst. cbn [string_list_needed].
    destruct ps; auto. rewrite (qu_list _ _ Q). cbn [andb orb]. auto. }
  assert (A6 : adapt_string_list_alone o f = None).
  { unfold adapt_string_list_alone. rewrite existsb_none, andb_false_r; auto. revert F. apply Forall_weaken. intros p Q. apply Q. }
  assert (A7 : adapt_variadic o f = None).
  { unfold adapt_variadic. apply Forall_rev in F. destruct F as [|p l Q F]; auto. destruct l; auto. rewrite (qu_variadic _ _ Q). auto. }
  rewrite A1, A2, A3, A4, A5, A6, A7. auto.
Qed.

Lemma new_pass ps : new_params (map pass ps) = ps.
Proof. unfold new_params. induction ps as [|p ps IH]; auto. cbn. f_equal. auto. Qed.
Lemma quiet_force g : f_params (snd (force o g)) = f_params g.
Proof. unfold force. destruct (_ && _); auto. cbn [snd]. rewrite apply_params. apply new_pass. Qed.

(** What becomes of a parameter with a mutable default value. *)
Definition optional_param (p : param) : param := with_default (with_type p (optional_type (const_noref (p_type p)))) $"std::nullopt".
Definition finally (active : bool) (p : param) : param := if active && seems_mutable o p then optional_param p else p.

Lemma mutable_params ps : new_params (map (mutable_piece o) ps) = map (finally true) ps.
Proof.
  unfold new_params. induction ps as [|p ps IH]; auto. cbn [map flat_map]. rewrite IH. unfold mutable_piece, finally. cbn [andb].
  destruct (seems_mutable o p); auto.
Qed.
Lemma finally_same ps : Forall (fun p => seems_mutable o p = false) ps -> forall b, map (finally b) ps = ps.
Proof. intros F b. induction F as [|p ps H F IH]; auto. cbn [map]. rewrite IH. unfold finally. rewrite H, andb_false_r. auto. Qed.

Lemma quiet_chain f : Forall (fun p => looks_buffer bo p = false) (f_params f) -> Forall (fun p => shall_exclude o p = false) (f_params f) ->
  (forall b, Forall (quiet o) (map (finally b) (f_params f))) ->
  exists ls g, apply_all_adapters i bo o f = Some (ls, g) /\ f_params g = map (finally (o_mutable_default o (f_name f))) (f_params f).
Proof.
  intros B X Q. unfold apply_all_adapters. change (adapters i bo o) with
    (adapt_c_buffers i bo :: (fun f => Some (adapt_exclude_params o f)) :: (fun f => Some (adapt_mutable_default o f)) :: skipn 3 (adapters i bo o)).
  cbn [apply_adapters]. rewrite quiet_buffers by auto.
  assert (E : adapt_exclude_params o f = None). { unfold adapt_exclude_params. rewrite existsb_none; auto. }
  rewrite E. unfold adapt_mutable_default.
  destruct (o_mutable_default o (f_name f)) eqn:M; [destruct (existsb (seems_mutable o) (f_params f)) eqn:S|]; cbn [andb].
  - set (l := make_lambda f _ _). assert (P : f_params (apply_lambda_adapter f l) = map (finally true) (f_params f)).
    { rewrite apply_params. apply mutable_params. }
    rewrite quiet_rest by (rewrite P; auto). eexists. eexists. split; [reflexivity|]. rewrite quiet_force. auto.
  - assert (P : Forall (fun p => seems_mutable o p = false) (f_params f)).
    { apply Forall_forall. intros p I. destruct (seems_mutable o p) eqn:N; auto. rewrite <- S. symmetry. apply existsb_exists. eauto. }
    rewrite quiet_rest by (rewrite <- (finally_same _ P true); auto). eexists. eexists. split; [reflexivity|].
    rewrite quiet_force, finally_same; auto.
  - assert (P : map (finally false) (f_params f) = f_params f). { apply map_id. }
    rewrite quiet_rest by (rewrite <- P; auto). eexists. eexists. split; [reflexivity|]. rewrite quiet_force. auto.
Qed.
End Adapters.

(** ** The constructor *)

Lemma not_looks bo p : ~ numbers bo p -> looks_buffer bo p = false.
Proof. intros N. destruct (looks_buffer bo p) eqn:E; auto. apply looks_buffer_spec in E. tauto. Qed.
Lemma numbers_type bo t n a d n' a' d' : numbers bo (Param t n a d) -> numbers bo (Param t n' a' d').
Proof. auto. Qed.

Section Ctor.
Variables (i : str) (bo : buffer_options) (co : class_options) (o : options) (e : publisher) (s : struct) (ms : list member).
Hypothesis is_implicit : implicit s.
Hypothesis is_wanted : wanted co s.
Hypothesis is_destructible : destructible s.
Hypothesis is_chosen : chosen co s ms.
Hypothesis not_hindered : unhindered bo co o s ms.
Hypothesis not_empty : ms <> [].

Let UH := not_hindered.
Definition selfs (nanobind : bool) (s : struct) : list param := if nanobind then [object_param (s_scope s)] else [].

Lemma named : with_named_params co s = true.
Proof. apply with_named_spec; auto. Qed.
Lemma params_are : ctor_params co s = map ctor_param ms.
Proof. unfold ctor_params. rewrite (chosen_members co s ms); auto; [apply (uh_proper _ _ _ _ _ UH)|apply named]. Qed.
Definition active : bool := co_optional co || o_mutable_default o $"ctor_wrapper".

Lemma word m : In m ms -> exists n, p_type (m_decl m) = CType [n] [] [] /\ type_of m = n /\ n <> [].
Proof.
  intros I. destruct (chosen_settable co s ms m is_chosen I) as [J S]. destruct (se_word _ _ _ S) as (n & T & _). exists n.
  pose proof (uh_proper _ _ _ _ _ UH m J) as [_ F]. rewrite T in F. cbn in F. inversion F; subst. unfold type_of. rewrite T, word_text; auto.
Qed.

Let o' := ctor_options co o s.
Lemma active_is : o_mutable_default o' $"ctor_wrapper" = active.
Proof.
  unfold o', ctor_options, active. cbn [o_mutable_default]. rewrite params_are. destruct ms; [congruence|]. cbn [map]. rewrite andb_true_r. auto.
Qed.

Lemma quiet_ctor m b : In m ms -> quiet o' (finally o' b (ctor_param m)).
Proof.
  intros I. destruct (word m I) as (n & T & _ & N). assert (Z : o_array_size o' [] = None) by apply (uh_size _ _ _ _ _ UH).
  unfold finally. destruct (_ && _); split; unfold is_modifiable, is_const_char_null, is_string_list, is_variadic, is_const_decl, is_pointer, ctor_param,
    optional_param, with_default, with_type; cbn [p_type p_name p_array p_default]; rewrite ?T; auto.
Qed.
Lemma quiet_self b : Forall (quiet o') (map (finally o' b) (selfs (e_nanobind e) s)).
Proof.
  unfold selfs. destruct (e_nanobind e) eqn:N; [|constructor]. cbn [map]. constructor; [|constructor].
  assert (M : finally o' b (object_param (s_scope s)) = object_param (s_scope s)).
  { unfold finally. change (seems_mutable o' (object_param (s_scope s))) with false. rewrite andb_false_r. auto. }
  rewrite M. pose proof (uh_class _ _ _ _ _ UH) as (A & B & _).
  split; try reflexivity.
  - apply (uh_size _ _ _ _ _ UH).
  - apply object_not_modifiable. unfold is_immutable. apply orb_false_iff. split; apply smem_false; auto.
Qed.

Lemma ctor_chain : exists ls g, ctor_adapted i bo co o (e_nanobind e) s = Some (ls, g) /\
  f_params g = selfs (e_nanobind e) s ++ map (finally o active) (map ctor_param ms).
Proof.
  unfold ctor_adapted, adapted. cbn [ctor_declared d_constructor].
  set (f := constructor_wrapper (e_nanobind e) (ctor_declared co s)). fold o'.
  assert (P : f_params f = selfs (e_nanobind e) s ++ map ctor_param ms).
  { unfold f, constructor_wrapper. cbn [ctor_declared f_params d_func d_scope]. rewrite params_are. reflexivity. }
  assert (N : f_name f = $"ctor_wrapper") by reflexivity.
  destruct (quiet_chain i bo o' f) as (ls & g & A & G).
  - rewrite P. apply Forall_app. split.
    + unfold selfs. destruct (e_nanobind e) eqn:NB; constructor; [|constructor]. apply not_looks. apply (uh_class _ _ _ _ _ UH).
    + apply Forall_forall. intros p I. apply in_map_iff in I. destruct I as (m & <- & I). apply not_looks.
      intros X. apply (uh_buffers _ _ _ _ _ UH m I). exact X.
  - rewrite P. apply Forall_app. split.
    + unfold selfs. destruct (e_nanobind e); constructor; [|constructor]. unfold shall_exclude. apply andb_false_r.
    + apply Forall_forall. intros p I. apply in_map_iff in I. destruct I as (m & <- & I). unfold shall_exclude.
      destruct (uh_excluded _ _ _ _ _ UH m I) as [X Y]. unfold name_of, type_of in X, Y. cbn [ctor_param p_name p_type o' ctor_options o_exclude_names o_exclude_types].
      rewrite X, Y. reflexivity.
  - intros b. rewrite P, map_app. apply Forall_app. split; [apply quiet_self|]. rewrite map_map. apply Forall_forall. intros p I.
    apply in_map_iff in I. destruct I as (m & <- & I). apply quiet_ctor. auto.
  - exists ls, g. split; auto. rewrite G, N, P, active_is, map_app. f_equal. unfold selfs. destruct (e_nanobind e); auto.
    cbn [map]. unfold finally at 1. change (seems_mutable o' (object_param (s_scope s))) with false. rewrite andb_false_r. auto.
Qed.

Lemma finally_name b p : p_name (finally o b p) = p_name p.
Proof. unfold finally. destruct (_ && _); auto. Qed.

Lemma ctor_settings : settings co o (map ctor_param ms) (selfs (e_nanobind e) s ++ map (finally o active) (map ctor_param ms)) =
  Some (map (fun m => setting_of co o (ctor_param m) (finally o active (ctor_param m))) ms).
Proof.
  unfold settings. set (l := match _ ++ _ with [] => [] | p :: r => _ end).
  assert (E : l = map (finally o active) (map ctor_param ms)).
  { unfold l, selfs. destruct (e_nanobind e); [reflexivity|]. cbn [app]. destruct ms as [|m r] eqn:M; auto. cbn [map]. rewrite finally_name.
    cbn [ctor_param p_name]. destruct (seqb_spec (p_name (m_decl m)) $"self") as [X|]; auto.
    exfalso. apply (uh_self _ _ _ _ _ UH m); [left; auto|]. exact X. }
  rewrite E, !map_length, Nat.eqb_refl. f_equal. clear. induction ms as [|m r IH]; auto. cbn [map combine fst snd]. f_equal. auto.
Qed.

Lemma made_is : exists ls g, ctor_adapted i bo co o (e_nanobind e) s = Some (ls, g) /\
  f_params g = selfs (e_nanobind e) s ++ map (finally o active) (map ctor_param ms) /\
  binding_made i bo co o e s = Some (InitNamed (f_params g) (map (fun m => setting_of co o (ctor_param m) (finally o active (ctor_param m))) ms)
    (binding_params e (ctor_declared co s) g)) /\
  stub_made i bo co o e s = Some (Some (stub_params e (ctor_declared co s) g)).
Proof.
  destruct ctor_chain as (ls & g & A & G). exists ls, g. split; [|split]; auto.
  assert (C : has_constructor s = false) by (apply implicit_spec; auto). destruct (no_constructor_facts s C) as (D & N & Z).
  unfold binding_made, stub_made, void_constructor. rewrite C, D, Z, named, params_are, A. cbn [negb andb]. rewrite andb_false_r. split; [|reflexivity].
  rewrite G. pose proof ctor_settings as S. destruct (map ctor_param ms) eqn:M; [apply map_eq_nil in M; congruence|]. rewrite S. auto.
Qed.

(** ** Running it *)

Variable V : Type.
Variable eval : str -> V.

Lemma optional_longer t : seqb (optional_text t) t = false.
Proof.
  destruct (seqb_spec (optional_text t) t) as [E|]; auto. exfalso. apply (f_equal (@length ascii)) in E. revert E. unfold optional_text.
  rewrite !app_length. cbn. lia.
Qed.
Lemma optional_param_text m : In m ms -> type_text (p_type (optional_param (ctor_param m))) = optional_text (type_of m).
Proof.
  intros I. destruct (word m I) as (n & T & E & N). rewrite E. unfold optional_param, with_default, with_type, ctor_param. cbn [p_type p_name p_array p_default].
  rewrite T. unfold optional_type, const_noref. cbn [typenames specifiers modifiers smem existsb app list_remove].
  assert (X : type_text (CType [n] [$"const"] []) = $"const " ++ n).
  { unfold type_text, str_code. cbn. destruct n; [congruence|]. reflexivity. }
  rewrite X. unfold optional_text. unfold type_text, str_code. cbn -[app]. cbn. rewrite <- !app_assoc. reflexivity.
Qed.
Lemma received_one m a : In m ms ->
  receive V eval (type_of m) (finally o active (ctor_param m)) a =
  Some (if active && seems_mutable o (ctor_param m) then Opt V a else Plain V (match a with Some v => v | None => eval (initial m) end)).
Proof.
  intros I. unfold finally, receive. destruct (active && seems_mutable o (ctor_param m)).
  - rewrite optional_param_text by auto. rewrite optional_longer. destruct (seqb_spec (optional_text (type_of m)) (optional_text (type_of m))); [|congruence].
    destruct a; auto.
  - cbn [ctor_param p_type p_default]. fold (type_of m). destruct (seqb_spec (type_of m) (type_of m)); [|congruence].
    destruct a as [v|]; auto. fold (type_of m). unfold initial. destruct (p_default (m_decl m)); [|reflexivity].
    destruct (type_of m); reflexivity.
Qed.
Lemma optional_agrees m : In m ms -> made_optional co o (ctor_param m) = active && seems_mutable o (ctor_param m).
Proof.
  intros I. unfold made_optional, active. destruct (co_optional co) eqn:C; auto. cbn [orb andb].
  destruct (o_mutable_default o $"ctor_wrapper") eqn:R; auto. symmetry. exact (uh_optional _ _ _ _ _ UH C R m I).
Qed.

Lemma get_combine (r : list member) (xs : list (option V)) m a : NoDup (map name_of r) -> length xs = length r -> (forall m, In m r -> In m ms) ->
  In (m, a) (combine r xs) ->
  dict_get (name_of m) (environment V eval r (map (finally o active) (map ctor_param r)) xs) =
    Some (receive V eval (type_of m) (finally o active (ctor_param m)) a).
Proof.
  revert xs. induction r as [|m' r IH]; intros xs ND L S J; [destruct J|]. destruct xs as [|x xs]; [discriminate|].
  cbn [map] in ND. inversion ND as [|? ? NI ND']; subst. unfold environment. cbn [map combine fst snd dict_get]. rewrite finally_name.
  cbn [ctor_param p_name]. fold (name_of m').
  destruct J as [J|J].
  - injection J as -> ->. destruct (seqb_spec (name_of m) (name_of m)); [auto|congruence].
  - destruct (seqb_spec (name_of m) (name_of m')) as [E|_].
    + exfalso. apply NI. rewrite <- E. apply in_map. apply in_combine_l in J. auto.
    + apply IH; auto. intros m0 K. apply S. right. auto.
Qed.

Lemma run_all (r : list member) (xs : list (option V)) env fresh : NoDup (map name_of r) -> length xs = length r -> (forall m, In m r -> In m ms) ->
  (forall m a, In (m, a) (combine r xs) -> dict_get (name_of m) env = Some (receive V eval (type_of m) (finally o active (ctor_param m)) a)) ->
  exists obj, run_settings V eval env (map (fun m => setting_of co o (ctor_param m) (finally o active (ctor_param m))) r) fresh = Some obj /\
    constructed V eval r xs fresh obj.
Proof.
  revert xs fresh. induction r as [|m r IH]; intros xs fresh ND L S G.
  - exists fresh. split; auto. split; auto. intros m a [].
  - destruct xs as [|x xs]; [discriminate|]. cbn [map] in ND. inversion ND as [|? ? NI ND']; subst.
    assert (I : In m ms) by (apply S; left; auto).
    assert (R : exists v, v = match x with Some v => v | None => eval (initial m) end /\
      run_setting V eval env (setting_of co o (ctor_param m) (finally o active (ctor_param m))) fresh = Some (put V (name_of m) v fresh)).
    { eexists. split; [reflexivity|]. specialize (G m x (or_introl eq_refl)). rewrite received_one in G by auto.
      unfold setting_of. rewrite optional_agrees by auto. destruct (active && seems_mutable o (ctor_param m)); cbn [run_setting].
      - rewrite finally_name. cbn [ctor_param p_name p_default]. fold (name_of m). rewrite G. destruct x; auto.
      - cbn [ctor_param p_name]. fold (name_of m). rewrite G. auto. }
    destruct R as (v & EV & R). destruct (IH xs (put V (name_of m) v fresh)) as (obj & O & C1 & C2).
    + auto.
    + cbn in L. lia.
    + intros m0 K. apply S. right. auto.
    + intros m0 a K. apply G. right. auto.
    + exists obj. split.
      * cbn [map run_settings]. rewrite R. auto.
      * split.
        -- intros m0 a [J|J]; [|auto]. injection J as <- <-. rewrite <- EV. rewrite C2 by auto. unfold put.
           destruct (seqb_spec (name_of m) (name_of m)); [auto|congruence].
        -- intros n N. rewrite C2 by (intros K; apply N; right; auto). unfold put.
           destruct (seqb_spec n (name_of m)) as [->|]; auto. exfalso. apply N. left. auto.
Qed.

Lemma built ps sets pyargs xs fresh : binding_made i bo co o e s = Some (InitNamed ps sets pyargs) -> length xs = length ms ->
  exists obj, run_settings V eval (environment V eval ms (if e_nanobind e then tl ps else ps) xs) sets fresh = Some obj /\
    constructed V eval ms xs fresh obj.
Proof.
  intros B L. destruct made_is as (ls & g & _ & G & B' & _). rewrite B in B'. injection B' as -> -> _. rewrite G.
  assert (E : (if e_nanobind e then tl (selfs (e_nanobind e) s ++ map (finally o active) (map ctor_param ms))
               else selfs (e_nanobind e) s ++ map (finally o active) (map ctor_param ms)) = map (finally o active) (map ctor_param ms)).
  { unfold selfs. destruct (e_nanobind e); auto. }
  rewrite E. apply run_all; auto; [apply (uh_distinct _ _ _ _ _ UH)|]. intros m a J. apply get_combine; auto. apply (uh_distinct _ _ _ _ _ UH).
Qed.
End Ctor.
