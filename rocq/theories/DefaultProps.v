From Verif Require Import PyStr PyStrLemmas PyDict PyNum TypeTextModel LambdaModel LambdaSpec AdapterModel AdapterSpec
  LambdaProofs AdapterProofs AdapterProofs2 AdapterProofs3 AdapterProofs4 AdapterProofs5 AdapterProps BufferModel BufferSpec BufferProofs BufferProofs5 BufferProofs6 BufferProps
  ChainModel ChainSpec ChainProofs ChainProps DefaultSpec DefaultProofs.
(** Default values through the adapters: C62.

    [apply_all_adapters i bo o f] is as in C39.  [o_array_size o []] is the size of what is no array. *)

(** If no parameter without default value follows one with a default value, it is so for each lambda and for what Python sees.
    Partial: a default value is given neither to an array nor to a list of strings. *)
Theorem C62_trailing_partial : forall i bo o f ls g,
  o_array_size o [] = None -> Forall plain_default (f_params f) -> trailing (f_params f) ->
  apply_all_adapters i bo o f = Some (ls, g) -> Forall (fun fl => trailing (l_params (snd fl))) ls /\ trailing (f_params g).
Proof. exact chain_defaults. Qed.
Print Assumptions C62_trailing_partial.

(** Whatever the order of the parameters, those which Python sees stand for those of C++, in the same order, and each is
    optional if and only if the one it stands for is.  Partial: as above. *)
Theorem C62_optional_partial : forall i bo o f ls g,
  o_array_size o [] = None -> Forall plain_default (f_params f) -> apply_all_adapters i bo o f = Some (ls, g) ->
  Forall (fun fl => in_place (f_params f) (l_params (snd fl))) ls /\ in_place (f_params f) (f_params g).
Proof. exact chain_in_place. Qed.
Print Assumptions C62_optional_partial.

(** Giving a name to the parameters without name keeps the default values last. *)
Theorem C62_named : forall ps, trailing ps -> trailing (name_params ps).
Proof. exact named_trailing. Qed.
Print Assumptions C62_named.

(** ** A function with default values *)

Definition check_last (ps : list param) : bool :=
  (fix go (ps : list param) := match ps with
   | [] => true
   | p :: r => match p_default p with [] => go r | _ => forallb (fun q => match p_default q with [] => false | _ => true end) r end
   end) ps.
Lemma trailing_by_check ps : check_last ps = true -> trailing ps.
Proof.
  induction ps as [|p ps IH]; intros H; [intros [|] ? ? E; discriminate E|]. cbn in H. apply trailing_cons.
  destruct (p_default p) eqn:D; [split; [congruence|auto]|]. assert (F : Forall may_follow ps).
  { apply Forall_forall. intros q I. rewrite forallb_forall in H. specialize (H q I). left. destruct (p_default q); congruence. }
  split; auto. apply all_trailing. auto.
Qed.
Lemma plain_by_check ps :
  forallb (fun p => match p_default p with [] => true | _ => match p_array p with [] => negb (is_string_list p) | _ => false end end) ps = true ->
  Forall plain_default ps.
Proof.
  rewrite forallb_forall. intros H. apply Forall_forall. intros p I D. specialize (H p I). destruct (p_default p) eqn:E; [congruence|].
  destruct (p_array p); [|discriminate]. split; auto. intros L. apply string_list_spec in L. rewrite L in H. discriminate.
Qed.
Lemma not_trailing a p b q c : p_default p <> [] -> p_default q = [] -> p_type q <> CType [] [] [$"..."] -> ~ trailing (a ++ p :: b ++ q :: c).
Proof.
  intros P Q D T. specialize (T a p (b ++ q :: c) eq_refl P). apply Forall_app in T. destruct T as [_ T]. inversion T as [|? ? [H|H] _]; auto.
  destruct H. auto.
Qed.

(** void f(const T * xs, size_t xs_count, int v[2], bool flag = true, const char * hint = NULL, int * value = nullptr,
    const Foo & foo = Foo()) *)
Definition with_defaults_last : func := a_function $"f" (plain $"void")
  [a_param (const_pointer $"T") $"xs"; a_param (plain $"size_t") $"xs_count"; Param (plain $"int") $"v" $"[2]" [];
   Param (plain $"bool") $"flag" [] $"true"; Param chars $"hint" [] $"NULL"; Param (pointer $"int") $"value" [] $"nullptr";
   Param (CType [$"Foo"] [$"const"] [$"&"]) $"foo" [] $"Foo()"].
Definition rest (f : func) : func := match apply_all_adapters spaces (buffers false) sample f with Some (_, g) => g | None => f end.
Example C62_trailing_case : let f := with_defaults_last in
  o_array_size sample [] = None /\ Forall plain_default (f_params f) /\ trailing (f_params f) /\
  apply_all_adapters spaces (buffers false) sample f <> None /\
  map (fun p => (p_name p, p_default p)) (f_params (rest f)) =
    [($"xs", []); ($"v_0", []); ($"v_1", []); ($"hint", $"std::nullopt"); ($"value", $"std::nullopt"); ($"foo", $"std::nullopt")].
Proof.
  cbv zeta. split; [reflexivity|]. split.
  { change (Forall plain_default (f_params with_defaults_last)). apply plain_by_check. vm_compute. reflexivity. }
  split; [apply trailing_by_check; reflexivity|]. split; [lazy; discriminate|]. lazy. reflexivity.
Qed.
(** void log(int level = 0, const char * format = NULL, ...): the dots may follow. *)
Example C62_dots_case : trailing
  [Param (plain $"int") $"level" [] $"0"; Param chars $"format" [] $"NULL"; Param (CType [] [] [$"..."]) [] [] []].
Proof.
  assert (D : may_follow (Param (CType [] [] [$"..."]) [] [] [])) by (right; split; auto).
  apply trailing_cons. split; [intros _|].
  { constructor; [left; discriminate|]. constructor; auto. }
  apply trailing_cons. split; [intros _; constructor; auto|]. apply trailing_cons. split; [intros H; exfalso; apply H; reflexivity|].
  intros [|] ? ? E; discriminate E.
Qed.

(** ** What breaks it *)

(** void f(int a = 0, const char ** items = NULL, int items_count = 0): the list of strings becomes mandatory. *)
Definition list_default : func := a_function $"f" (plain $"void")
  [Param (plain $"int") $"a" [] $"0"; Param (CType [$"char"] [$"const"] [$"*"; $"*"]) $"items" [] $"NULL"; Param (plain $"int") $"items_count" [] $"0"].
Theorem C62_list_refuted : exists i bo o f ls g, o_array_size o [] = None /\ trailing (f_params f) /\
  apply_all_adapters i bo o f = Some (ls, g) /\ ~ trailing (f_params g).
Proof.
  exists spaces, (buffers false), sample, list_default, (links list_default false). eexists. split; [reflexivity|].
  split; [apply trailing_by_check; reflexivity|]. split; [lazy; reflexivity|].
  apply (not_trailing [] (Param (plain $"int") $"a" [] $"0") [] (vector_param (Param (CType [$"char"] [$"const"] [$"*"; $"*"]) $"items" [] $"NULL")) []); [discriminate|reflexivity|discriminate].
Qed.
Print Assumptions C62_list_refuted.

(** void f(int a = 0, int v[2] = nullptr) with the modified parameters given back: the array becomes mandatory. *)
Definition array_default : func := a_function $"f" (plain $"void")
  [Param (plain $"int") $"a" [] $"0"; Param (plain $"int") $"v" $"[2]" $"nullptr"].
Definition sample_return : options :=
  Options false (startswith $"flag") (endswith $"Callback") yes no no no no no 4 sizes true yes yes yes (endswith $"_count") no.
Theorem C62_array_refuted : exists i bo o f ls g, o_array_size o [] = None /\ trailing (f_params f) /\
  apply_all_adapters i bo o f = Some (ls, g) /\ ~ trailing (f_params g).
Proof.
  exists spaces, (buffers false), sample_return, array_default. eexists. eexists. split; [reflexivity|].
  split; [apply trailing_by_check; reflexivity|]. split; [lazy; reflexivity|].
  apply (not_trailing [] (Param (plain $"int") $"a" [] $"0") [] (Param (plain $"std::array<int, 2>") $"v" [] []) []); [discriminate|reflexivity|discriminate].
Qed.
Print Assumptions C62_array_refuted.
