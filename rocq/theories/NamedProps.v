From Verif Require Import PyStr PyStrLemmas PyDict PyNum NamesModel TypeTextModel FillModel FillSpec FillProofs FillProofs3 LambdaModel AdapterModel AdapterProps BufferModel BufferSpec
  BufferProofs BufferProps ChainModel BindModel BindSpec BindProps NamedModel NamedSpec NamedProofs NamedProofs2 NamedProofs3.
(** The constructor made for a class which declares none: C65.

    [chosen co s ms] says that [ms] are the members of the class [s] which can be given a value, in order; [binding_made] is what
    is bound and [stub_made] what the stub shows. *)

(** ** C65: a class without constructor gets one, whose parameters are its members *)

(** The binding and the stub have a constructor for the classes to which C++ gives one, and for no other. *)
Theorem C65_exists : forall i bo co o e s b t, binding_made i bo co o e s = Some b -> stub_made i bo co o e s = Some t ->
  (b = Nothing <-> ~ implicit s) /\ (t = None <-> ~ implicit s).
Proof. exact (fun i bo co o e s b t B T => conj (binding_kind i bo co o e s b B) (stub_kind i bo co o e s t T)). Qed.
Print Assumptions C65_exists.

(** It takes members if the options ask for it and there are some, unless the destructor is private. *)
Theorem C65_named : forall i bo co o e s b ms, (forall m, In m (s_members s) -> proper (p_type (m_decl m))) -> chosen co s ms ->
  binding_made i bo co o e s = Some b ->
  ((exists ps xs pyargs, b = InitNamed ps xs pyargs) <-> implicit s /\ wanted co s /\ destructible s /\ ms <> []).
Proof. exact named_kind. Qed.
Print Assumptions C65_named.

(** The stub and the binding show one parameter for each of these members, with its name, which may be omitted.  Partial: nothing
    hinders the constructor and the options are faithful to its parameters. *)
Theorem C65_shown_partial : forall i bo co o e s ms, implicit s -> wanted co s -> destructible s -> chosen co s ms ->
  unhindered bo co o s ms -> ms <> [] -> forall ps sets pyargs,
  binding_made i bo co o e s = Some (InitNamed ps sets pyargs) -> Forall (faithful e) (if e_nanobind e then tl ps else ps) ->
  exists params, stub_made i bo co o e s = Some (Some ($"self" :: params)) /\
    Forall2 stub_shows (map (fun m => Named (e_name e (name_of m)) true) ms) params /\
    Forall2 (binding_shows (py e)) (map (fun m => Named (e_name e (name_of m)) true) ms) pyargs.
Proof. exact shown. Qed.
Print Assumptions C65_shown_partial.

(** There is one then: nothing is raised. *)
Theorem C65_made_partial : forall i bo co o e s ms, implicit s -> wanted co s -> destructible s -> chosen co s ms ->
  unhindered bo co o s ms -> ms <> [] -> exists ps sets pyargs, binding_made i bo co o e s = Some (InitNamed ps sets pyargs).
Proof.
  intros i bo co o e s ms A B C D E F. destruct (made_is i bo co o e s ms A B C D E F) as (ls & g & _ & _ & M & _). eauto.
Qed.
Print Assumptions C65_made_partial.

(** What it does: in a new object, each of these members gets its argument, or its initial value if there is none for it; the others
    keep what the default constructor gave them.  Partial: as above. *)
Theorem C65_constructed_partial : forall i bo co o e s ms, implicit s -> wanted co s -> destructible s -> chosen co s ms ->
  unhindered bo co o s ms -> ms <> [] -> forall V (eval : str -> V) ps sets pyargs xs fresh,
  binding_made i bo co o e s = Some (InitNamed ps sets pyargs) -> length xs = length ms ->
  exists obj, run_settings V eval (environment V eval ms (if e_nanobind e then tl ps else ps) xs) sets fresh = Some obj /\
    constructed V eval ms xs fresh obj.
Proof. exact built. Qed.
Print Assumptions C65_constructed_partial.

(** The text written for it.  Partial: the placeholders of the template are in none of the texts put in it. *)
Theorem C65_text_partial : forall i e s ps xs pyargs,
  xs <> [] -> ~ In nl i -> Forall (fun x => Forall (fun w => ~ In nl w) (words_of x)) xs ->
  Forall (neutral ctor_names) [i; s_scope s; join $", " (map param_text ps); unlines (map (app i) (flat_map (statement i) xs)); join $", " pyargs] ->
  binding_text i e s (InitNamed ps xs pyargs) = unlines (ctor_lines i (e_nanobind e) (s_scope s) (join $", " (map param_text ps))
    (unlines (map (app i) (flat_map (statement i) xs))) (join $", " pyargs)).
Proof. exact binding_text_is. Qed.
Print Assumptions C65_text_partial.

(** *** Samples *)

Definition a_member (a : access) (t : ctype) (n v : str) : member := Member a (Param t n [] v) [].
(** struct Foo { int theSize = 3; std::vector<int> values; const int k = 1; Color color = Color(2); unsigned int u; int cells[3];
    int bits : 4; private: int hidden; virtual void draw(); }; *)
Definition foo_struct : struct := Struct false $"Foo" $"ns::Foo" []
  [a_member Public (plain $"int") $"theSize" $"3"; a_member Public (plain $"std::vector<int>") $"values" [];
   a_member Public (CType [$"int"] [$"const"] []) $"k" $"1"; a_member Public (plain $"Color") $"color" $"Color(2)";
   a_member Public (CType [$"unsigned"; $"int"] [] []) $"u" []; Member Public (Param (plain $"int") $"cells" $"[3]" []) [];
   Member Public (a_param (plain $"int") $"bits") $"4"; a_member Private (plain $"int") $"hidden" []]
  [Method false false Public [] false false].
Definition foo_chosen : list member :=
  [a_member Public (plain $"int") $"theSize" $"3"; a_member Public (plain $"std::vector<int>") $"values" []; a_member Public (plain $"Color") $"color" $"Color(2)"].
Definition creates (optional : bool) : class_options := ClassOptions no yes (fun _ => false) no no (fun _ _ => false) optional.
Definition functions (mutable : str -> bool) (excluded : str -> bool) : options :=
  Options false excluded no mutable no no (fun v => smem v [$"3"]) yes yes 4 sizes true yes yes yes (endswith $"_count") no.

(** Whether a member can be given a value, computed. *)
Definition is_settable (co : class_options) (s : struct) (m : member) : bool :=
  is_public (m_access m) && negb (co_excluded co (p_type (m_decl m))) && can_be_set co s m.
Lemma proper_by_check s : forallb (fun m => match typenames (p_type (m_decl m)) with [] => false | _ => true end
    && forallb (fun w => match w with [] => false | _ => true end)
         (typenames (p_type (m_decl m)) ++ specifiers (p_type (m_decl m)) ++ modifiers (p_type (m_decl m)))) (s_members s) = true ->
  forall m, In m (s_members s) -> proper (p_type (m_decl m)).
Proof.
  rewrite forallb_forall. intros H m I. specialize (H m I). apply andb_true_iff in H. destruct H as [A B]. split.
  - destruct (typenames _); discriminate.
  - apply Forall_forall. intros w J. rewrite forallb_forall in B. specialize (B w J). destruct w; discriminate.
Qed.
Lemma chosen_by_check co s : (forall m, In m (s_members s) -> proper (p_type (m_decl m))) ->
  chosen co s (filter (is_settable co s) (s_members s)).
Proof.
  intros P. exists (is_settable co s). split; auto. intros m I. rewrite <- (can_be_set_spec co s m (P m I)). unfold is_settable.
  rewrite !andb_true_iff, negb_true_iff. destruct (m_access m); cbn; intuition discriminate.
Qed.
Lemma unhindered_by_check bo co o s ms :
  (forall m, In m (s_members s) -> proper (p_type (m_decl m))) -> nodup (list_eq_dec ascii_dec) (map name_of ms) = map name_of ms ->
  forallb (fun m => negb (looks_buffer bo (m_decl m)) && negb (o_exclude_names o (name_of m)) && negb (o_exclude_types o (type_of m))
    && negb (seqb (name_of m) $"self") && negb (is_args (p_type (m_decl m))) && negb (is_kwargs (p_type (m_decl m)))) ms = true ->
  is_immutable (s_scope s) = false -> looks_buffer bo (Param (CType [s_scope s] [] [$"*"]) $"self" [] []) = false ->
  o_array_size o [] = None ->
  co_optional co || negb (o_mutable_default o $"ctor_wrapper")
    || forallb (fun m => negb (seems_mutable o (Param (p_type (m_decl m)) (name_of m) [] (initial m)))) ms = true ->
  unhindered bo co o s ms.
Proof.
  intros P D F I B Z M. rewrite forallb_forall in F. apply orb_false_iff in I. destruct I as [I1 I2].
  assert (G : forall m, In m ms -> looks_buffer bo (m_decl m) = false /\ o_exclude_names o (name_of m) = false /\ o_exclude_types o (type_of m) = false /\
    name_of m <> $"self" /\ is_args (p_type (m_decl m)) = false /\ is_kwargs (p_type (m_decl m)) = false).
  { intros m J. specialize (F m J). rewrite !andb_true_iff, !negb_true_iff in F. destruct F as [[[[[F1 F2] F3] F4] F5] F6].
    repeat split; auto. destruct (seqb_spec (name_of m) $"self"); auto. discriminate. }
  split; auto.
  - rewrite <- D. apply NoDup_nodup.
  - intros m J X. apply looks_buffer_spec in X. destruct (G m J) as [Y _]. congruence.
  - intros m J. apply G in J. tauto.
  - intros m J. apply G in J. tauto.
  - intros m J. apply G in J. tauto.
  - rewrite smem_false in I1, I2. split; [|split]; auto. intros X. apply looks_buffer_spec in X. congruence.
  - intros C R m J. rewrite C, R in M. cbn [orb negb] in M. rewrite forallb_forall in M. specialize (M m J). apply negb_true_iff in M. auto.
Qed.

Definition foo_binding (optional nanobind : bool) : option made :=
  binding_made spaces (buffers nanobind) (creates optional) (functions no no) (publishes nanobind) foo_struct.

Example C65_foo_case : forall optional nanobind,
  let co := creates optional in let o := functions no no in
  (forall m, In m (s_members foo_struct) -> proper (p_type (m_decl m))) /\
  implicit foo_struct /\ wanted co foo_struct /\ destructible foo_struct /\ chosen co foo_struct foo_chosen /\
  unhindered (buffers nanobind) co o foo_struct foo_chosen /\
  exists ps sets pyargs, foo_binding optional nanobind = Some (InitNamed ps sets pyargs) /\
    Forall (faithful (publishes nanobind)) (if nanobind then tl ps else ps).
Proof.
  intros optional nanobind co o.
  assert (P : forall m, In m (s_members foo_struct) -> proper (p_type (m_decl m))) by (apply proper_by_check; reflexivity).
  split; auto. split; [intros m [<-|[]]; reflexivity|]. split; [reflexivity|]. split; [intros m [<-|[]]; discriminate|].
  split. { assert (E : foo_chosen = filter (is_settable co foo_struct) (s_members foo_struct)) by (destruct optional; vm_compute; reflexivity).
    rewrite E. apply chosen_by_check. auto. }
  split. { apply unhindered_by_check; auto; destruct optional, nanobind; vm_compute; reflexivity. }
  destruct (foo_binding optional nanobind) as [[| |ps sets pyargs]|] eqn:E; try (exfalso; destruct optional, nanobind; vm_compute in E; discriminate).
  exists ps, sets, pyargs. split; auto. apply faithful_by_check. destruct optional, nanobind; vm_compute in E; injection E as <- <- <-; vm_compute; reflexivity.
Qed.

(** The code with optional values, for the two libraries. *)
Definition joined (l : list str) : str := unlines l.
Example C65_text_case :
  option_map (binding_text spaces (publishes false) foo_struct) (foo_binding true false) = Some (joined
    [$".def(py::init<>([](";
     $"int theSize = 3, const std::optional<const std::vector<int>> & values = std::nullopt, const std::optional<const Color> & color = std::nullopt)"; $"{";
     $"    auto r_ctor_ = std::make_unique<ns::Foo>();"; $"    r_ctor_->theSize = theSize;"; $"    if (values.has_value())";
     $"        r_ctor_->values = values.value();"; $"    else"; $"        r_ctor_->values = std::vector<int>();"; $"    if (color.has_value())";
     $"        r_ctor_->color = color.value();"; $"    else"; $"        r_ctor_->color = Color(2);"; $"    return r_ctor_;"; $"})";
     $", " ++ quoted $"py::arg(" $"the_size" ++ quoted [] $") = 3, " ++ quoted $"py::arg(" $"values" ++ quoted [] $") = py::none(), "
       ++ quoted $"py::arg(" $"color" ++ quoted [] $") = py::none()"; $")"]) /\
  option_map (binding_text spaces (publishes true) foo_struct) (foo_binding false true) = Some (joined
    [$".def(" ++ quoted [] $"__init__" ++ quoted [] $", [](ns::Foo * self, int theSize = 3, std::vector<int> values = std::vector<int>(), Color color = Color(2))"; $"{";
     $"    new (self) ns::Foo();  // placement new"; $"    auto r_ctor_ = self;"; $"    r_ctor_->theSize = theSize;"; $"    r_ctor_->values = values;";
     $"    r_ctor_->color = color;"; $"},";
     quoted $"nb::arg(" $"the_size" ++ quoted [] $") = 3, " ++ quoted $"nb::arg(" $"values" ++ quoted [] $") = std::vector<int>(), "
       ++ quoted $"nb::arg(" $"color" ++ quoted [] $") = Color(2)"; $")"]) /\
  stub_made spaces (buffers true) (creates false) (functions no no) (publishes true) foo_struct =
    Some (Some [$"self"; $"the_size: int = 3"; $"values: std.vector<int> = std::vector<int>()"; $"color: Color = Color(2)"]).
Proof. repeat split; vm_compute; reflexivity. Qed.
Example C65_neutral_case : forallb (neutralb ctor_names) [spaces; $"ns::Foo"; $"std::vector<int> values = std::vector<int>{}"; $"r_ctor_->v = {1, 2};"] = true /\
  forall s, neutralb ctor_names s = true -> neutral ctor_names s.
Proof. split; [reflexivity|]. intros s. apply neutralb_true. Qed.

(** A class with a constructor gets no other one; without the option or with a private destructor, no parameter. *)
Definition with_methods (ms : list method) : struct := Struct false $"Foo" $"ns::Foo" [] (s_members foo_struct) ms.
Example C65_kinds_case : let made s := binding_made spaces (buffers false) (creates false) (functions no no) (publishes false) s in
  made (with_methods [Method true false Private [$"1"] false false]) = Some Nothing /\
  made (with_methods [Method true false Public [] true false]) = Some Nothing /\
  made (with_methods [Method false true Private [] false false]) = Some Init0 /\
  made (Struct true $"Foo" $"ns::Foo" [] (s_members foo_struct) []) = Some Init0 /\
  made (Struct false $"Foo" $"ns::Foo" [] [] []) = Some Init0 /\
  stub_made spaces (buffers true) (creates false) (functions no no) (publishes true) (Struct false $"Foo" $"ns::Foo" [] [] []) = Some (Some [$"self"]).
Proof. repeat split; vm_compute; reflexivity. Qed.

(** *** What is false *)

Definition one_member (t n v : str) : struct := Struct false $"Foo" $"Foo" [] [a_member Public (plain t) n v] [].
Lemma one_chosen optional t n v : (forall m, In m (s_members (one_member t n v)) -> proper (p_type (m_decl m))) ->
  chosen (creates optional) (one_member t n v) (filter (is_settable (creates optional) (one_member t n v)) (s_members (one_member t n v))).
Proof. apply chosen_by_check. Qed.

(** When the option of the functions matches but not the one of these constructors, the parameter may hold nothing and is given to the member as it
    is: this is not C++. *)
Theorem C65_optional_refuted : exists i bo co o e s ms ps sets pyargs,
  implicit s /\ wanted co s /\ destructible s /\ chosen co s ms /\ ms <> [] /\ binding_made i bo co o e s = Some (InitNamed ps sets pyargs) /\
  forall V (eval : str -> V) xs fresh, length xs = length ms -> run_settings V eval (environment V eval ms ps xs) sets fresh = None.
Proof.
  exists spaces, (buffers false), (creates false), (functions yes no), (publishes false), (one_member $"Color" $"color" []),
    [a_member Public (plain $"Color") $"color" []]. eexists. eexists. eexists.
  split; [intros m []|]. split; [reflexivity|]. split; [intros m []|].
  split. { apply (one_chosen false $"Color" $"color" []). apply proper_by_check. reflexivity. }
  split; [discriminate|]. split; [vm_compute; reflexivity|]. intros V eval [|a [|b xs]] fresh L; try discriminate. destruct a; reflexivity.
Qed.
Print Assumptions C65_optional_refuted.

(** A member named like the parameters to exclude: the binding cannot be made. *)
Theorem C65_excluded_refuted : exists i bo co o e s t, implicit s /\
  binding_made i bo co o e s = None /\ stub_made i bo co o e s = Some (Some t).
Proof.
  exists spaces, (buffers false), (creates false), (functions no (seqb $"size")), (publishes false), (one_member $"int" $"size" $"3"). eexists.
  split; [intros m []|]. split; vm_compute; reflexivity.
Qed.
Print Assumptions C65_excluded_refuted.

(** So is it for a first member named self. *)
Theorem C65_self_refuted : exists i bo co o e s t, implicit s /\ e_nanobind e = false /\
  binding_made i bo co o e s = None /\ stub_made i bo co o e s = Some (Some t).
Proof.
  exists spaces, (buffers false), (creates false), (functions no no), (publishes false), (one_member $"int" $"self" $"3"). eexists.
  split; [intros m []|]. repeat split; vm_compute; reflexivity.
Qed.
Print Assumptions C65_self_refuted.

(** And for a template of pointers followed by a size, taken for a buffer. *)
Theorem C65_buffer_refuted : exists i bo co o e s t, implicit s /\
  binding_made i bo co o e s = None /\ stub_made i bo co o e s = Some (Some t).
Proof.
  exists spaces, (buffers false), (creates false), (functions no no), (publishes false),
    (Struct false $"Foo" $"Foo" [] [a_member Public (plain $"std::vector<T*>") $"xs" []; a_member Public (plain $"int") $"xs_count" $"3"] []). eexists.
  split; [intros m []|]. split; vm_compute; reflexivity.
Qed.
Print Assumptions C65_buffer_refuted.

(** An abstract class gets a constructor, and so does a class with a protected destructor: C++ can make no object of them. *)
Theorem C65_abstract_refuted : exists i bo co o e s b, (exists m, In m (s_methods s) /\ me_pure m = true) /\
  binding_made i bo co o e s = Some b /\ b <> Nothing.
Proof.
  exists spaces, (buffers false), (creates false), (functions no no), (publishes false), (with_methods [Method false false Public [] false true]).
  eexists. split; [eexists; split; [left; reflexivity|reflexivity]|]. split; [vm_compute; reflexivity|discriminate].
Qed.
Print Assumptions C65_abstract_refuted.
Theorem C65_protected_refuted : exists i bo co o e s ps xs pyargs,
  (exists m, In m (s_methods s) /\ me_destructor m = true /\ me_access m = Protected) /\
  binding_made i bo co o e s = Some (InitNamed ps xs pyargs).
Proof.
  exists spaces, (buffers false), (creates false), (functions no no), (publishes false), (with_methods [Method false true Protected [] false false]).
  eexists. eexists. eexists. split; [eexists; split; [left; reflexivity|split; reflexivity]|]. vm_compute. reflexivity.
Qed.
Print Assumptions C65_protected_refuted.
