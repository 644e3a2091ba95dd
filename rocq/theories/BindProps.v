From Verif Require Import PyStr PyStrLemmas PyDict PyNum NamesModel TypeTextModel LambdaModel AdapterModel AdapterProps BufferModel BufferSpec BufferProofs BufferProps
  ChainModel ChainProps BindModel BindSpec BindProofs.
(** The stub and the binding of a function: C63, C64.

    [adapted i bo o nanobind d = Some (ls, g)] says that the adapters write the lambdas [ls] around the function of [d] and
    leave the function [g] to Python; [e] is what depends on the other options. *)

(** ** C63: the stub and the binding describe the same function *)

(** The stub and the binding list the same parameters, in the same order, with the same names, and give a default value to the
    same ones: those of what the adapters left; the stub of what has an object begins with self.  Partial: the options are
    faithful to each parameter, a constructor is not the one of a class named like a type of the adapters, and the results of
    static methods are not replaced. *)
Theorem C63_described_partial : forall i bo o e d ls g,
  o_array_size o [] = None -> (d_constructor d = true -> plain_class bo d) ->
  adapted i bo o (e_nanobind e) d = Some (ls, g) -> Forall (faithful e) (given (e_nanobind e) d g) ->
  (static_type (f_return (d_func d)) = true -> d_constructor d = false -> o_to_return o (f_name (d_func d)) = false) ->
  exists shown, stub_params e d g = (if gives_object d || d_constructor d then [$"self"] else []) ++ shown /\
    Forall2 stub_shows (map (python_of e) (given (e_nanobind e) d g)) shown /\
    Forall2 (binding_shows (py e)) (filter is_named (map (python_of e) (given (e_nanobind e) d g))) (binding_params e d g).
Proof. exact described. Qed.
Print Assumptions C63_described_partial.

(** What is bound takes exactly what Python gives: the object if there is one, then the parameters above in this order.
    Partial: no lambda is bound for a static method. *)
Theorem C63_called_partial : forall i bo o nanobind d ls g,
  o_array_size o [] = None -> (d_constructor d = true -> plain_class bo d) ->
  adapted i bo o nanobind d = Some (ls, g) ->
  (static_type (f_return (d_func d)) = true -> d_constructor d = false -> f_is_method (d_func d) = true ->
   ls = [] /\ (d_overloaded d = true -> f_params (d_func d) <> [])) ->
  receives d (bound d ls g) = gives nanobind d (bound d ls g) g.
Proof. exact called. Qed.
Print Assumptions C63_called_partial.

(** Which parameters take all other arguments. *)
Theorem C63_args : forall e p,
  (In (type_text (p_type p)) (written_as $"args") -> python_of e p = Args) /\
  (In (type_text (p_type p)) (written_as $"kwargs") -> python_of e p = Kwargs) /\
  (simple_text (type_text (p_type p)) -> ~ In (type_text (p_type p)) [$"py::args"; $"nb::args"; $"py::kwargs"; $"nb::kwargs"] ->
   python_of e p = Named (e_name e (p_name p)) (match p_default p with [] => false | _ => true end)).
Proof. exact (fun e p => conj (known_args e p) (conj (known_kwargs e p) (other_named e p))). Qed.
Print Assumptions C63_args.

(** *** Samples *)

Example C63_args_case : written_as $"args" = [$"py::args"; $"const py::args"; $"py::args &"; $"const py::args &"; $"pybind11::args";
  $"const pybind11::args"; $"pybind11::args &"; $"const pybind11::args &"; $"nb::args"; $"const nb::args"; $"nb::args &"; $"const nb::args &";
  $"nanobind::args"; $"const nanobind::args"; $"nanobind::args &"; $"const nanobind::args &"] /\ simple_text $"std::vector<int>".
Proof. split; [reflexivity|]. repeat constructor. Qed.

Definition publishes (nanobind : bool) : publisher :=
  Publisher nanobind (var_name_to_python (fun n => n) true) (replace $"::" $".") (fun v => v) (fun t => t) (fun v => v).
Lemma faithful_by_check nanobind ps :
  forallb (fun p => negb (contains $"{" (e_name (publishes nanobind) (p_name p)))
    && negb (contains $" = " (e_type (publishes nanobind) (type_text (p_type p))))
    && match p_default p with [] => true | _ => match strip (p_default p) with [] => false | _ => true end end) ps = true ->
  Forall (faithful (publishes nanobind)) ps.
Proof.
  rewrite forallb_forall. intros H. apply Forall_forall. intros p I. specialize (H p I). rewrite !andb_true_iff, !negb_true_iff in H.
  destruct H as [[N T] V]. split; auto; try reflexivity.
  - intros J. apply contains_single in J. change ["{"%char] with ($"{") in J. congruence.
  - cbn [publishes e_terse_value]. destruct (p_default p); [split; reflexivity|]. destruct (strip _); [discriminate|]. split; discriminate.
Qed.
Definition declares_function (static method : bool) (name : str) (ps : list param) : declared :=
  Declared (Func name ($"Foo::" ++ name) name method ps (CType [$"int"] (if static then [$"static"] else []) []) false None)
    false false false false $"Foo" $"Foo" [$"Kind"] false.
Definition overloaded (d : declared) : declared :=
  Declared (d_func d) (d_constructor d) (d_const d) true (d_vectorized d) (d_scope d) (d_class d) (d_inner d) (d_comparison d).
Definition vectorized (d : declared) : declared :=
  Declared (d_func d) (d_constructor d) (d_const d) (d_overloaded d) true (d_scope d) (d_class d) (d_inner d) (d_comparison d).
Definition constructor (ps : list param) : declared :=
  Declared (Func $"Foo" $"Foo::Foo" $"Foo" true ps (plain []) false None) true false false false $"Foo" $"Foo" [] false.
Definition result (nanobind : bool) (d : declared) : list link * func :=
  match adapted spaces (buffers nanobind) sample nanobind d with Some r => r | None => ([], d_func d) end.
Definition quoted (a b : str) : str := a ++ [dq] ++ b.

(** int Foo::f(const T * xs, size_t xsCount, const char * theHint = NULL, Kind kind = Kind::a, py::args args, py::kwargs kwargs) *)
Definition a_method : declared := declares_function false true $"f"
  [a_param (const_pointer $"T") $"xs"; a_param (plain $"size_t") $"xs_count"; Param chars $"theHint" [] $"NULL";
   Param (CType [$"Kind"] [$"const"] []) $"kind" [] $"Kind::a"; a_param (plain $"py::args") $"args"; a_param (CType [$"py::kwargs"] [$"const"] [$"&"]) $"kwargs"].
Example C63_method_case : let d := a_method in let e := publishes false in let (ls, g) := result false d in
  adapted spaces (buffers false) sample false d = Some (ls, g) /\ length ls = 3 /\ Forall (faithful e) (given false d g) /\
  stub_params e d g = [$"self"; $"xs: const py.array &"; $"the_hint: std.optional<std.string> = std::nullopt";
    $"kind: const std.optional<const Kind> & = std::nullopt"; $"*args"; $"**kwargs"] /\
  binding_params e d g = [quoted $"py::arg(" $"xs" ++ quoted [] $")"; quoted $"py::arg(" $"the_hint" ++ quoted [] $") = py::none()";
    quoted $"py::arg(" $"kind" ++ quoted [] $") = py::none()"] /\
  receives d (bound d ls g) = [None; Some $"xs"; Some $"theHint"; Some $"kind"; Some $"args"; Some $"kwargs"].
Proof.
  cbv zeta. destruct (result false a_method) as [ls g] eqn:E. unfold result in E.
  destruct (adapted spaces (buffers false) sample false a_method) as [[ls' g']|] eqn:A; [|vm_compute in A; discriminate].
  injection E as -> ->. vm_compute in A. injection A as <- <-.
  repeat split; try (vm_compute; reflexivity). apply faithful_by_check. vm_compute. reflexivity.
Qed.

(** Foo::Foo(int v[2], bool flag = true, double ratio = 1.) with nanobind: the object comes first. *)
Definition a_constructor : declared := constructor
  [Param (plain $"int") $"v" $"[2]" []; Param (plain $"bool") $"flag" [] $"true"; Param (plain $"double") $"ratio" [] $"1."].
Lemma foo_plain nanobind d : d_scope d = $"Foo" -> f_is_method (d_func d) = true -> plain_class (buffers nanobind) d.
Proof.
  intros E M. unfold plain_class. rewrite E. split; auto. split; [apply smem_false; reflexivity|]. split; [apply smem_false; reflexivity|].
  rewrite <- looks_buffer_spec. destruct nanobind; vm_compute; discriminate.
Qed.
Definition literals : options := (* constants are not mutable *)
  Options true (startswith $"flag") no yes no no yes yes yes 4 sizes true yes yes yes (endswith $"_count") no.
Example C63_constructor_case : let d := a_constructor in let e := publishes true in exists ls g,
  adapted spaces (buffers true) literals true d = Some (ls, g) /\ length ls = 2 /\ plain_class (buffers true) d /\
  Forall (faithful e) (given true d g) /\
  stub_params e d g = [$"self"; $"v_0: BoxedInt &"; $"v_1: BoxedInt &"; $"ratio: double = 1."] /\
  binding_params e d g = [quoted $"nb::arg(" $"v_0" ++ quoted [] $")"; quoted $"nb::arg(" $"v_1" ++ quoted [] $")"; quoted $"nb::arg(" $"ratio" ++ quoted [] $") = 1."] /\
  receives d (bound d ls g) = [Some $"self"; Some $"v_0"; Some $"v_1"; Some $"ratio"] /\
  callable_text (publishes true) (bound d ls g) = $"[](Foo * self, BoxedInt & v_0, BoxedInt & v_1, double ratio = 1.)".
Proof.
  cbv zeta. destruct (adapted spaces (buffers true) literals true a_constructor) as [[ls g]|] eqn:A; [|vm_compute in A; discriminate].
  exists ls, g. split; auto. vm_compute in A. injection A as <- <-.
  repeat split; try (vm_compute; reflexivity); try (apply smem_false; reflexivity).
  - rewrite <- looks_buffer_spec. vm_compute. discriminate.
  - apply faithful_by_check. vm_compute. reflexivity.
Qed.

(** An overloaded static method with parameters. *)
Example C63_static_case : let d := overloaded (declares_function true true $"make" [a_param (plain $"int") $"theSize"]) in
  let e := publishes false in exists g,
  adapted spaces (buffers false) sample false d = Some ([], g) /\
  stub_params e d g = [$"the_size: int"] /\ receives d (bound d [] g) = [Some $"theSize"] /\ binds_static d = true /\
  callable_text e (bound d [] g) = $"py::overload_cast<int>(&Foo::make)".
Proof. eexists. repeat split; vm_compute; reflexivity. Qed.

(** *** What is false *)

(** The lambda around a static method takes an object which Python does not give. *)
Theorem C63_static_refuted : exists i bo o d ls g,
  adapted i bo o false d = Some (ls, g) /\ d_constructor d = false /\ binds_static d = true /\
  receives d (bound d ls g) = None :: gives false d (bound d ls g) g.
Proof.
  exists spaces, (buffers false), sample, (declares_function true true $"make" [Param (plain $"bool") $"flag" [] $"true"]).
  eexists. eexists. repeat split; vm_compute; reflexivity.
Qed.
Print Assumptions C63_static_refuted.

(** So does the lambda written for an overloaded method without parameter. *)
Theorem C63_static_overload_refuted : exists i bo o d g,
  adapted i bo o false d = Some ([], g) /\ d_constructor d = false /\ binds_static d = true /\
  receives d (bound d [] g) = [None] /\ gives false d (bound d [] g) g = [].
Proof.
  exists spaces, (buffers false), sample, (overloaded (declares_function true true $"make" [])).
  eexists. repeat split; vm_compute; reflexivity.
Qed.
Print Assumptions C63_static_overload_refuted.

(** The stub shows self for a static method whose result is replaced. *)
Theorem C63_static_stub_refuted : exists i bo o e d ls g,
  adapted i bo o (e_nanobind e) d = Some (ls, g) /\ Forall (faithful e) (given (e_nanobind e) d g) /\
  binds_static d = true /\ stub_params e d g = [$"self"; $"n: int"].
Proof.
  exists spaces, (buffers false), sample, (publishes false), (declares_function true true $"make" [a_param (reference $"int") $"n"]).
  eexists. eexists. split; [vm_compute; reflexivity|]. split; [apply faithful_by_check; vm_compute; reflexivity|].
  split; vm_compute; reflexivity.
Qed.
Print Assumptions C63_static_stub_refuted.

(** A value replaced by an empty text is missing in the stub only. *)
Theorem C63_value_refuted : exists i bo o e d g,
  adapted i bo o (e_nanobind e) d = Some ([], g) /\
  stub_params e d g = [$"x: int"] /\ binding_params e d g = [quoted $"py::arg(" $"x" ++ quoted [] $") = DEFAULT"].
Proof.
  exists spaces, (buffers false), literals, (Publisher false (fun n => n) (fun t => t) (replace $"DEFAULT" []) (fun t => t) (fun v => v)),
    (declares_function false false $"f" [Param (plain $"int") $"x" [] $"DEFAULT"]).
  eexists. repeat split; vm_compute; reflexivity.
Qed.
Print Assumptions C63_value_refuted.

(** Two parameters may have the same name for Python. *)
Theorem C63_names_refuted : exists i bo o e d g,
  adapted i bo o (e_nanobind e) d = Some ([], g) /\ NoDup (map p_name (f_params g)) /\
  stub_params e d g = [$"my_value: int"; $"my_value: float"].
Proof.
  exists spaces, (buffers false), sample, (publishes false),
    (declares_function false false $"f" [a_param (plain $"int") $"myValue"; a_param (plain $"float") $"my_value"]).
  eexists. split; [vm_compute; reflexivity|]. split; [|vm_compute; reflexivity]. repeat constructor; cbn; intuition discriminate.
Qed.
Print Assumptions C63_names_refuted.

(** The vectorized version of a function changed by an adapter is bound without being vectorized; that of a method is bound
    as the address of a value. *)
Theorem C63_vectorized_refuted : exists i bo o e d ls g d' g',
  adapted i bo o (e_nanobind e) d = Some (ls, g) /\ d_vectorized d = true /\
  contains $"vectorize" (callable_text e (bound d ls g)) = false /\ stub_params e d g = [$"x: np.ndarray"] /\
  adapted i bo o (e_nanobind e) d' = Some ([], g') /\ d_vectorized d' = true /\
  callable_text e (bound d' [] g') = $"&py::vectorize(Foo::f)".
Proof.
  exists spaces, (buffers false), sample, (publishes false),
    (vectorized (declares_function false false $"f" [a_param (plain $"double") $"x"; Param (plain $"bool") $"flag" [] $"true"])).
  eexists. eexists. exists (vectorized (declares_function false true $"f" [a_param (plain $"double") $"x"])). eexists.
  repeat split; vm_compute; reflexivity.
Qed.
Print Assumptions C63_vectorized_refuted.

(** ** C64: long declarations in the stub *)

(** Whatever the length allowed, the declaration is the one of the name, the parameters and the result, with the comment after
    the first line; it is only cut inside the parentheses. *)
Theorem C64_declares : forall max name result comment ps,
  declares name result comment (join $", " ps) (title_lines max name result comment ps).
Proof. exact title_declares. Qed.
Print Assumptions C64_declares.

(** It is on one line if and only if this line is shorter than the length. *)
Theorem C64_fits : forall max name result comment ps, max <> 0 ->
  let one := $"def " ++ name ++ $"(" ++ join $", " ps ++ $") -> " ++ result ++ $":" ++ comment in
  title_lines max name result comment ps = [one] <-> length one < max.
Proof. exact title_fits. Qed.
Print Assumptions C64_fits.

Example C64_case :
  title_lines 30 $"f" $"int" $" # overridable" [$"self"; $"x: int = 3"; $"*args"] =
    [$"def f( # overridable"; $"self, "; $"x: int = 3, "; $"*args"; $") -> int:"] /\
  title_lines 60 $"f" $"int" $" # overridable" [$"self"; $"x: int = 3"; $"*args"] =
    [$"def f(self, x: int = 3, *args) -> int: # overridable"].
Proof. split; reflexivity. Qed.

(** The lines after cutting may still be too long. *)
Theorem C64_length_refuted : exists max name result comment ps, max <> 0 /\
  length (title_lines max name result comment ps) > 1 /\ ~ Forall (fun l => length l < max) (title_lines max name result comment ps).
Proof.
  exists 20, $"f", $"None", [], [$"first_parameter: float"]. split; [discriminate|]. split; [cbn; lia|].
  intros F. inversion F as [|? ? _ F2]; subst. inversion F2 as [|? ? L _]; subst. cbn in L. lia.
Qed.
Print Assumptions C64_length_refuted.
