From Verif Require Import PyStr PyStrLemmas PyDict PyNum TypeTextModel LambdaModel LambdaSpec AdapterModel AdapterSpec
  LambdaProofs AdapterProofs AdapterProofs2 AdapterProofs3 AdapterProofs4 AdapterProofs5 AdapterProps BufferModel BufferSpec BufferProofs BufferProofs5 BufferProofs6 BufferProps
  ChainModel ChainSpec ChainProofs ChainProofs2 ChainProofs7 ChainProofs8.
(** All adapters one after the other: C39.

    [apply_all_adapters i bo o f] is the list of lambdas written for the function [f], each with the function it is written
    around, and the function which remains; it is [None] if an exception is raised. *)

(** Each lambda is written around what the previous one left: its parameters, its return type, its name. *)
Theorem C39_chain : forall i bo o f ls g, apply_all_adapters i bo o f = Some (ls, g) -> chained f ls g.
Proof. exact chain_is_chained. Qed.
Print Assumptions C39_chain.

(** For given arguments, either the lambdas give the same result whatever the original function [c] does, and it is an
    exception (or code which does not compile); or the original function is called once, with the same arguments and the
    same memory whatever it does, one argument for each of its parameters, and the result is made from what it returned. *)
Theorem C39_called_once : forall i bo o f ls g xs m, apply_all_adapters i bo o f = Some (ls, g) -> ls <> [] ->
  (exists r, (forall a, r <> Ok a) /\ forall c, run_chain ls c xs m = r) \/
  exists ys m1 k, length ys = length (f_params f) /\ forall c, run_chain ls c xs m = bind (c ys m1) k.
Proof. intros i bo o f ls g xs m H N. exact (chain_once f ls g (chain_is_chained i bo o f ls g H) N xs m). Qed.
Print Assumptions C39_called_once.

(** Each call written in a lambda has one argument for each parameter of the function it calls.
    Partial: no parameter is both a list of strings and named like a size. *)
Theorem C39_one_argument_each_partial : forall i bo o f ls g,
  no_list_of_sizes o (f_params f) -> apply_all_adapters i bo o f = Some (ls, g) -> Forall one_argument_each ls.
Proof. exact chain_arguments. Qed.
Print Assumptions C39_one_argument_each_partial.

(** Each statement and each call uses parameters of the lambda or names declared before.
    Partial: when the function has buffers, each parameter has a single role. *)
Theorem C39_scoped_partial : forall i bo o f ls g,
  single_roles bo f -> apply_all_adapters i bo o f = Some (ls, g) -> Forall (fun fl => scoped (snd fl)) ls.
Proof. exact chain_scoped. Qed.
Print Assumptions C39_scoped_partial.

(** In each lambda, no name is declared twice or hides something which is used: this is what C40 to C45 and C59 to C61 ask.
    Partial: the names of the parameters do not clash with those made from them; no parameter is both a list of strings and
    named like a size; when the function has buffers, each parameter has a single role. *)
Theorem C39_well_named_partial : forall i bo o f, clean bo f -> single_roles bo f -> no_list_of_sizes o (f_params f) ->
  f_to_call f = None -> forall ls g, apply_all_adapters i bo o f = Some (ls, g) ->
  Forall (fun fl => well_named (fst fl) (snd fl)) ls.
Proof. exact chain_named. Qed.
Print Assumptions C39_well_named_partial.

(** A simple condition for names not to clash: none is the beginning of another one.  Partial: sufficient only. *)
Theorem C39_clean_partial : forall bo f, plain_names f -> clean bo f.
Proof. exact plain_names_clean. Qed.
Print Assumptions C39_clean_partial.

(** ** A function for which seven adapters write a lambda *)

(** int do_all(const T * xs, size_t xs_count, bool flag = true, int v[2], const char * hint = NULL, int & value,
    const char * items[], int items_count, const Foo & foo = Foo()), with the parameter flag excluded. *)
Definition everything : func := a_function $"do_all" (plain $"int")
  [a_param (const_pointer $"T") $"xs"; a_param (plain $"size_t") $"xs_count"; Param (plain $"bool") $"flag" [] $"true";
   Param (plain $"int") $"v" $"[2]" []; Param chars $"hint" [] $"NULL"; a_param (reference $"int") $"value";
   Param chars $"items" $"[]" []; a_param (plain $"int") $"items_count";
   Param (CType [$"Foo"] [$"const"] [$"&"]) $"foo" [] $"Foo()"].
Definition links (f : func) (nanobind : bool) : list link :=
  match apply_all_adapters spaces (buffers nanobind) sample f with Some (ls, _) => ls | None => [] end.

Example C39_chain_case :
  map (fun fl => l_name (snd fl)) (links everything false) =
  [$"do_all_adapt_c_buffers"; $"do_all_adapt_exclude_params"; $"do_all_adapt_mutable_param_with_default_value";
   $"do_all_adapt_fixed_size_c_arrays"; $"do_all_adapt_const_char_pointer_with_default_null";
   $"do_all_adapt_modifiable_immutable_to_return"; $"do_all_adapt_c_string_list"].
Proof. lazy. reflexivity. Qed.
Definition every_slot (x : numpy) : list bslot :=
  let p k := nth k (f_params everything) (a_param (plain []) []) in
  [BSlot (p 0) (Template x) [AVal (buf x)]; BSlot (p 1) (Size x) []] ++ map (fun p => BSlot p Other []) (skipn 2 (f_params everything)).
Lemma arranged_other_check o prev last p xs ss :
  is_buffer o (p :: map b_param ss) 0 || looks_template o p || is_stride p || looks_buffer o p
    || b_size_name o (p_name p) && match prev with Some q => looks_buffer o q | None => false end = false ->
  arranged o (Some p) last ss -> arranged o prev last (BSlot p Other xs :: ss).
Proof.
  intros H AR. repeat (apply orb_false_iff in H; destruct H as [H ?]). eapply arranged_other; try exact AR.
  - intros B. apply (is_buffer_spec o [] (p :: map b_param ss)) in B. cbn [app length] in B. congruence.
  - intros T. apply looks_template_spec in T. congruence.
  - intros T. apply is_stride_spec in T. congruence.
  - intros (Z & q & E & N). apply looks_buffer_spec in N. unfold sized in Z. subst. rewrite Z, N in H0. discriminate.
  - intros N. apply looks_buffer_spec in N. congruence.
  - auto.
Qed.
Lemma everything_single_roles nano : single_roles (buffers nano) everything.
Proof.
  intros _. exists (every_slot (numpy_of $"d" $"Float" 8 3 0)). split; [reflexivity|].
  cbv [every_slot nth skipn map everything a_function f_params app].
  apply arranged_template; [decide_role..|].
  apply arranged_size; [decide_role..|].
  do 7 (apply arranged_other_check; [vm_compute; reflexivity|]). constructor.
Qed.
Lemma everything_sizes : no_list_of_sizes sample (f_params everything).
Proof.
  intros p I L. apply string_list_spec in L. cbn [everything a_function f_params In] in I.
  repeat destruct I as [<-|I]; try destruct I; try (vm_compute in L; discriminate L); reflexivity.
Qed.
Lemma everything_clean nano : clean (buffers nano) everything.
Proof. apply clean_by_check. destruct nano; vm_compute; reflexivity. Qed.

(** The hypotheses hold, and the original function gets its nine arguments; Python gets the modified value back. *)
Definition give_all : callee := fun ys m =>
  Ok (AVal (VTuple (map (fun y => match y with AVal v => v | ARef q => match read m q with Some v => v | None => VUnset end end) ys)), m).
Example C39_case : let f := everything in let bo := buffers false in let x := numpy_of $"d" $"Float" 8 3 0 in
  clean bo f /\ single_roles bo f /\ no_list_of_sizes sample (f_params f) /\ f_to_call f = None /\ links f false <> [] /\
  exists m', run_chain (links f false) give_all
    [AVal (buf x); ARef (0, []); ARef (1, []); AVal (VOpt None); AVal (VAtom $"7"); AVal (VVec [VAtom $"a"; VAtom $"b"]); AVal (VOpt None)]
    [VBox (VAtom $"3"); VBox (VAtom $"4")]
  = Ok (AVal (VTuple
      [VTuple [VCast $"const double *" (VPtr (0, [])); VCast $"size_t" (VSize 3); VDefault $"true"; VPtr (20, [Elem 0]); VNull; VAtom $"7";
               VItems [VCStr $"a"; VCStr $"b"]; VCast $"int" (VSize 2); VDefault $"Foo()"];
       VAtom $"7"]), m') /\ nth 20 m' VVoid = VRaw [VAtom $"3"; VAtom $"4"].
Proof.
  cbv zeta. split; [apply everything_clean|]. split; [apply everything_single_roles|]. split; [apply everything_sizes|]. split; [reflexivity|].
  split; [lazy; discriminate|]. eexists. split; [lazy; reflexivity|]. reflexivity.
Qed.

(** The parameters without name get one.  Partial: no other parameter has a name of this kind. *)
Theorem C39_unnamed_partial : forall ps,
  (forall a p b q c, ps = a ++ p :: b ++ q :: c -> p_name p <> [] -> p_name p <> p_name q) ->
  (forall p k, In p ps -> p_name p <> $"param_" ++ nat_text k) ->
  NoDup (map p_name (name_params ps)) /\ ~ In [] (map p_name (name_params ps)).
Proof. exact name_params_distinct. Qed.
Print Assumptions C39_unnamed_partial.
Theorem C39_unnamed_same : forall ps,
  Forall2 (fun p q => p_type q = p_type p /\ p_array q = p_array p /\ p_default q = p_default p /\ (p_name p <> [] -> q = p))
    ps (name_params ps).
Proof. exact name_params_same. Qed.
Print Assumptions C39_unnamed_same.
Example C39_unnamed_case : let ps := [a_param (plain $"int") []; a_param (plain $"int") $"n"; a_param (plain $"int") []] in
  (forall a p b q c, ps = a ++ p :: b ++ q :: c -> p_name p <> [] -> p_name p <> p_name q) /\
  (forall p k, In p ps -> p_name p <> $"param_" ++ nat_text k) /\
  map p_name (name_params ps) = [$"param_0"; $"n"; $"param_2"].
Proof.
  cbv zeta. split; [|split; [|reflexivity]].
  - intros a p b q c E N. destruct a as [|x [|y a]].
    + injection E as <- _. exfalso. apply N. reflexivity.
    + injection E as _ <- E. destruct b as [|z b]; [injection E as <- _; discriminate|]. injection E as _ E. destruct b; discriminate.
    + injection E as _ _ E. destruct a as [|z a]; [|injection E as _ E; destruct a; discriminate]. injection E as <- E. destruct b; discriminate.
  - intros p k [<-|[<-|[<-|[]]]]; discriminate.
Qed.

(** ** Refutations *)

(** A list of strings named like a size: four arguments for three parameters. *)
Definition overlap : func := a_function $"f" (plain $"void")
  [Param chars $"a" $"[]" []; Param chars $"a_count" $"[]" []; a_param (plain $"int") $"b_count"].
Theorem C39_one_argument_each_refuted : exists i bo o f ls g, single_roles bo f /\ apply_all_adapters i bo o f = Some (ls, g) /\
  ~ Forall one_argument_each ls.
Proof.
  exists spaces, (buffers false), sample, overlap, (links overlap false). eexists. split; [|split; [vm_compute; reflexivity|]].
  - intros A. apply shall_adapt_spec in A. vm_compute in A. discriminate A.
  - intros F. destruct (links overlap false) as [|x l] eqn:E; [vm_compute in E; discriminate E|]. vm_compute in E. injection E as <- _.
    inversion F as [|? ? H _]. vm_compute in H. inversion H. discriminate.
Qed.
Print Assumptions C39_one_argument_each_refuted.

(** A pointer of any type without size beside an array with its size: the call uses a name which nothing declares. *)
Theorem C39_scoped_refuted : exists i bo o f ls g, clean bo f /\ no_list_of_sizes o (f_params f) /\ f_to_call f = None /\
  apply_all_adapters i bo o f = Some (ls, g) /\ ~ Forall (fun fl => scoped (snd fl)) ls.
Proof.
  exists spaces, (buffers false), sample, undeclared, (links undeclared false). eexists.
  split; [apply clean_by_check; vm_compute; reflexivity|].
  split; [intros p [<-|[<-|[<-|[]]]] L; apply string_list_spec in L; discriminate L|]. split; [reflexivity|].
  split; [lazy; reflexivity|]. intros F. apply all_scoped_known in F. vm_compute in F. discriminate F.
Qed.
Print Assumptions C39_scoped_refuted.

(** A function which is not a method and has a parameter of its own name: the lambda calls the parameter. *)
Definition own_name : func := a_function $"value" (plain $"void") [a_param (reference $"int") $"value"].
Theorem C39_well_named_refuted : exists i bo o f ls g, apply_all_adapters i bo o f = Some (ls, g) /\ NoDup (map p_name (f_params f)) /\
  single_roles bo f /\ no_list_of_sizes o (f_params f) /\ f_to_call f = None /\ ls <> [] /\
  forall c, run_chain ls c [AVal (VAtom $"1")] [] = Stuck.
Proof.
  exists spaces, (buffers false), sample, own_name, (links own_name false). eexists. split; [vm_compute; reflexivity|].
  split; [apply distinct_NoDup; reflexivity|].
  split; [intros A; apply shall_adapt_spec in A; vm_compute in A; discriminate A|].
  split; [intros p [<-|[]] L; apply string_list_spec in L; discriminate L|]. split; [reflexivity|].
  split; [vm_compute; discriminate|]. intros c. vm_compute. reflexivity.
Qed.
Print Assumptions C39_well_named_refuted.

(** Two parameters, the first without name and the second named param_0: the same name twice. *)
Theorem C39_unnamed_refuted : exists ps, NoDup (map p_name ps) /\ ~ NoDup (map p_name (name_params ps)).
Proof.
  exists [a_param (plain $"int") []; a_param (plain $"int") $"param_0"]. split; [apply distinct_NoDup; reflexivity|].
  vm_compute. intros N. inversion N as [|? ? I _]. apply I. left. reflexivity.
Qed.
Print Assumptions C39_unnamed_refuted.
