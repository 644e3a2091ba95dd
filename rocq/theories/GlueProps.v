From Verif Require Import PyStr PyStrLemmas FillSpec CommentModel CommentSpec TextSpec EnumSpec EnumProps ClassModel ClassSpec LookupModel LookupSpec LookupProps NamedProofs3 GlueModel GlueSpec GlueProofs GlueProofs5.
(** C71: the glue code lets Python override virtual methods and call protected ones. *)

(** The C++ code which is written defines, in the namespaces of each class, a derived class: for each virtual method, inherited ones too, a
    method with the same result, name, parameters and constness, which calls the macro of the library with what it needs; and a derived class
    which publishes each protected method. Partial: results without brackets and commas, methods and classes whose names are words. *)
Theorem C71_glue_partial o gs : Forall (eq sp) (ge_indent o) -> Forall good_class gs ->
  exists t, glue_code o gs = Some t /\ read_glue t = Some (flat_map (expected_trampoline o) gs ++ flat_map (expected_publicist o) gs).
Proof. exact (fun i => glue_read o i gs). Qed.
Print Assumptions C71_glue_partial.

Definition glue_opts (nanobind : bool) : glue_env := GlueEnv nanobind $"    " (fun _ => true) (fun _ => true).
Definition pen : glue_class := GlueClass $"Pen" [NsPart $"A"; NsPart $"B"]
  [VMethod $"int" $"draw" $"draw_" [($"int x = f({1, 2})", $"x"); ($"std::string s = ""a, }""", $"s")] true true; VMethod $"void" $"stop" $"stop" [] false false] [$"run"; $"go"].
Definition ink : glue_class := GlueClass $"Ink" [] [VMethod $"std::vector<float> &" $"dry" $"dry" [] false false] [].
Lemma pieces_text ps : Forall (fun p => match p with EnumSpec.Text s => forallb (fun c => negb (ceqb c dq) && negb (ceqb c "/") && negb (ceqb c nl)) s = true | Quoted s => closed_literal s end) ps ->
  cpp_text (concat (map (fun p => match p with EnumSpec.Text s => s | Quoted s => [dq] ++ s ++ [dq] end) ps)).
Proof.
  intros F. exists ps. split; [reflexivity|]. eapply Forall_impl; [|exact F]. intros [s|s] H; auto. apply Forall_forall. intros c I. rewrite forallb_forall in H. apply H in I.
  apply andb_true_iff in I as [I C]. apply andb_true_iff in I as [A B]. destruct (ceqb_spec c dq), (ceqb_spec c "/"%char), (ceqb_spec c nl); try discriminate. auto.
Qed.
Lemma result_by_check t : forallb simple_c t = true -> t <> [] -> existsb (ceqb ",") t = false -> read_text t <> [] ->
  existsb (fun k => match k with Word a => seqb a $"public" | _ => false end) (read_text t) = false -> result_text t.
Proof.
  intros S N C R P. split; [split; [exact N|apply Forall_forall; intros c I; rewrite forallb_forall in S; auto]|]. split.
  - intros I. assert (E : existsb (ceqb ",") t = true) by (apply existsb_exists; exists ","%char; split; [exact I|reflexivity]). congruence.
  - split; [exact R|]. intros I. assert (E : existsb (fun k => match k with Word a => seqb a $"public" | _ => false end) (read_text t) = true) by (apply existsb_exists; eexists; split; [exact I|apply seqb_refl]). congruence.
Qed.
Lemma pen_good : good_class pen.
Proof.
  constructor; cbn [pen g_name g_scope g_virtual g_protected].
  - apply word_by_check. reflexivity.
  - repeat constructor; try discriminate; reflexivity.
  - repeat apply Forall_cons; [..|apply Forall_nil]; constructor; cbn [v_return v_name v_python v_params]; try (apply word_by_check; reflexivity); try (apply result_by_check; (reflexivity || discriminate)); try apply Forall_nil.
    repeat apply Forall_cons; [..|apply Forall_nil]; (split; [|split; [vm_compute; auto|split; [apply FillProofs.neutralb_true; reflexivity|apply word_by_check; reflexivity]]]).
    + apply (pieces_text [EnumSpec.Text $"int x = f({1, 2})"]). repeat constructor.
    + apply (pieces_text [EnumSpec.Text $"std::string s = "; Quoted $"a, }"]). constructor; [reflexivity|constructor; [|constructor]]. apply (closed_by_check 9); [cbn; lia|reflexivity].
  - repeat constructor; try discriminate; reflexivity.
Qed.
Lemma ink_good : good_class ink.
Proof.
  constructor; cbn [ink g_name g_scope g_virtual g_protected].
  - apply word_by_check. reflexivity.
  - constructor.
  - repeat apply Forall_cons; [..|apply Forall_nil]; constructor; cbn [v_return v_name v_python v_params]; try (apply word_by_check; reflexivity); try apply Forall_nil; apply result_by_check; (reflexivity || discriminate).
  - constructor.
Qed.
(** Two classes, one in namespaces: what is read in the code for pybind11. *)
Example C71_glue_case : Forall good_class [pen; ink] /\ Forall (eq sp) (ge_indent (glue_opts false)) /\
  exists t, glue_code (glue_opts false) [pen; ink] = Some t /\ contains $"    PYBIND11_OVERRIDE_PURE_NAME(" t = true /\
  option_map (map (fun c : shown_class => (fst (fst c), length (snd c)))) (read_glue t) =
    Some [([$"A"; $"B"], $"Pen_trampoline", 3); ([], $"Ink_trampoline", 2); ([$"A"; $"B"], $"Pen_publicist", 2)].
Proof.
  split; [constructor; [exact pen_good|constructor; [exact ink_good|constructor]]|]. split; [repeat constructor|]. eexists. split; [vm_compute; reflexivity|]. split; vm_compute; reflexivity.
Qed.

(** It is written unless a class which needs it is inside of another class (or of an enum): then nothing is generated at all. *)
Theorem C71_written o gs : glue_code o gs <> None <-> Forall (fun g => glued o g -> Forall (fun p => exists n, p = NsPart n) (g_scope g)) gs.
Proof. exact (glue_some o gs). Qed.
Print Assumptions C71_written.
Example C71_written_case : glued (glue_opts true) pen /\ Forall (fun p => exists n, p = NsPart n) (g_scope pen) /\
  ~ glued (glue_opts true) (GlueClass $"Plain" [ClassPart $"Outer"] [] []) /\ glue_code (glue_opts true) [GlueClass $"Plain" [ClassPart $"Outer"] [] []; pen] <> None.
Proof.
  split; [left; split; [reflexivity|discriminate]|]. split; [repeat constructor; eauto|]. split; [intros [[_ H]|[_ H]]; apply H; reflexivity|]. vm_compute. discriminate.
Qed.

(** The number given to nanobind is that of the methods. *)
Theorem C71_count n : word (decimal n) /\ decimal_value (decimal n) = n.
Proof. exact (conj (decimal_word n) (decimal_read n)). Qed.
Print Assumptions C71_count.
Example C71_count_case : decimal 1207 = $"1207" /\ decimal 0 = $"0".
Proof. split; vm_compute; reflexivity. Qed.

(** Every virtual method of an ancestor can be overridden, when the methods are those found in the classes. *)
Theorem C71_complete o fuel cs c l (describe : method -> vmethod) gs g d m :
  Forall (eq sp) (ge_indent o) -> Forall good_class gs -> In g gs -> ge_override o (g_name g) = true ->
  virtual_methods fuel cs c = Some l -> g_virtual g = map describe l ->
  inherits cs c d -> In m (c_methods d) -> m_virtual m = true ->
  exists t k ms m', glue_code o gs = Some t /\ read_glue t = Some k /\
    In (namespaces (g_scope g), g_name g ++ $"_trampoline", [Word $"public"; Word (g_name g)], ms) k /\
    signature m' = signature m /\ In m' l /\ In (expected_override o g (describe m')) ms.
Proof.
  intros Ind F G V L E H I M. destruct (glue_read o Ind gs F) as (t & T & R). destruct (C51_virtual_methods fuel cs c l L) as (_ & _ & _ & _ & _ & A).
  specialize (A d m H I M). apply in_map_iff in A. destruct A as (m' & S & J).
  exists t, (flat_map (expected_trampoline o) gs ++ flat_map (expected_publicist o) gs), (Says (expected_first o g) :: map (expected_override o g) (g_virtual g)), m'.
  split; [exact T|]. split; [exact R|]. split.
  - apply in_app_iff. left. apply in_flat_map. exists g. split; [exact G|]. unfold expected_trampoline. rewrite V. destruct (g_virtual g) eqn:X; [|left; reflexivity].
    rewrite E in X. destruct l; [destruct J|discriminate].
  - split; [exact S|]. split; [exact J|]. right. rewrite E, map_map. apply in_map_iff. exists m'. auto.
Qed.
Print Assumptions C71_complete.
(** A method of a base, which the class does not declare. *)
Example C71_complete_case :
  let cs := [a_class 0 $"A" [] [] [a_method $"f" []]; a_class 1 $"B" [] [([], $"A")] [a_method $"g" []]] in
  let describe := fun m : method => VMethod $"int" (m_name m) (m_name m) [] false false in
  exists l, virtual_methods 2 cs (nth 1 cs (a_class 9 [] [] [] [])) = Some l /\ In (a_method $"f" []) (c_methods (nth 0 cs (a_class 9 [] [] [] []))) /\
  inherits cs (nth 1 cs (a_class 9 [] [] [] [])) (nth 0 cs (a_class 9 [] [] [] [])) /\ good_class (GlueClass $"B" [] (map describe l) []).
Proof.
  cbv zeta. eexists. split; [vm_compute; reflexivity|]. split; [left; reflexivity|]. split.
  - apply (inherits_base _ _ (a_class 0 $"A" [] [] [a_method $"f" []])); [|apply inherits_self]. eexists. eexists. split; [vm_compute; reflexivity|]. left. reflexivity.
  - constructor; cbn [g_name g_scope g_virtual g_protected map m_name].
    + apply word_by_check. reflexivity.
    + constructor.
    + repeat apply Forall_cons; [..|apply Forall_nil]; constructor; cbn [v_return v_name v_python v_params]; try (apply word_by_check; reflexivity); try apply Forall_nil; apply result_by_check; (reflexivity || discriminate).
    + constructor.
Qed.

(** The binding of the class names the class which is defined, from anywhere; and names one exactly if one is defined. *)
Theorem C71_named o e g h : h_name h = g_name g -> h_scope h = join $"::" (namespaces (g_scope g)) -> h_trampoline h = shall_override o g ->
  Forall (fun n => n <> []) (namespaces (g_scope g)) -> other_params e h = other_params e (without_trampoline h) ++ map found_as (expected_trampoline o g).
Proof. exact (trampoline_named o e g h). Qed.
Print Assumptions C71_named.
Example C71_named_case : map found_as (expected_trampoline (glue_opts false) pen) = [$"A::B::Pen_trampoline"] /\ Forall (fun n => n <> []) (namespaces (g_scope pen)).
Proof. split; [reflexivity|]. repeat constructor; discriminate. Qed.

(** *** Refutations *)

(** A class inside of another one: the generation fails, for all the classes. *)
Theorem C71_nested_refuted : exists o g, glued o g /\ g_scope g = [ClassPart $"Outer"] /\ glue_code o [pen; g] = None.
Proof.
  exists (glue_opts false), (GlueClass $"Inner" [ClassPart $"Outer"] [VMethod $"int" $"f" $"f" [] false false] []). split; [left; split; [reflexivity|discriminate]|]. split; [reflexivity|vm_compute; reflexivity].
Qed.
Print Assumptions C71_nested_refuted.

(** A result with a comma: the macro of pybind11 takes it as two arguments. *)
Theorem C71_comma_refuted : exists g t header macro arguments, g = GlueClass $"Pen" [] [VMethod $"std::map<int, int>" $"f" $"f" [] false false] [] /\ glue_code (glue_opts false) [g] = Some t /\
  read_glue t = Some [([], $"Pen_trampoline", [Word $"public"; Word $"Pen"], [Says (expected_first (glue_opts false) g); Calls header macro arguments])] /\
  macro = $"PYBIND11_OVERRIDE_NAME" /\ length arguments = 5 /\ nth 1 arguments [] = [Word $"int"; Sign ">"].
Proof. eexists. eexists. eexists. eexists. eexists. split; [reflexivity|]. split; [vm_compute; reflexivity|]. split; [vm_compute; reflexivity|]. repeat split. Qed.
Print Assumptions C71_comma_refuted.

(** Overloads of a protected method: the same declaration is there twice. *)
Theorem C71_overload_refuted : exists g t n b s, good_class g /\ g_protected g = [$"run"; $"run"] /\ glue_code (glue_opts false) [g] = Some t /\ read_glue t = Some [([], n, b, [Says s; Says s])] /\
  s = [Word $"using"; Word $"Pen"; Sign ":"; Sign ":"; Word $"run"].
Proof.
  exists (GlueClass $"Pen" [] [] [$"run"; $"run"]). eexists. eexists. eexists. eexists. split; [constructor; cbn; repeat constructor; try discriminate; reflexivity|].
  split; [reflexivity|]. split; [vm_compute; reflexivity|]. split; vm_compute; reflexivity.
Qed.
Print Assumptions C71_overload_refuted.

(** Two instances of a template class: the same class is defined twice (and derives from the bare name of the template). *)
Theorem C71_instances_refuted : exists g h t c d, good_class g /\ good_class h /\ g_virtual g <> g_virtual h /\ glue_code (glue_opts false) [g; h] = Some t /\ read_glue t = Some [c; d] /\ found_as c = found_as d.
Proof.
  assert (W : forall r, result_text r -> good_class (GlueClass $"Box" [] [VMethod r $"get" $"get" [] true false] [])).
  { intros r R. constructor; cbn [g_name g_scope g_virtual g_protected]; [apply word_by_check; reflexivity|constructor|constructor; [constructor; cbn; auto; apply word_by_check; reflexivity|constructor]|constructor]. }
  exists (GlueClass $"Box" [] [VMethod $"int" $"get" $"get" [] true false] []), (GlueClass $"Box" [] [VMethod $"float" $"get" $"get" [] true false] []). eexists. eexists. eexists.
  split; [apply W, result_by_check; (reflexivity || discriminate)|]. split; [apply W, result_by_check; (reflexivity || discriminate)|]. split; [discriminate|].
  split; [vm_compute; reflexivity|]. split; vm_compute; reflexivity.
Qed.
Print Assumptions C71_instances_refuted.

(** A default value which holds the name of a placeholder is changed. *)
Theorem C71_placeholder_refuted : exists g t, g_virtual g = [VMethod $"int" $"f" $"f" [($"std::string s = ""{maybe_comma}""", $"s")] false false] /\ glue_code (glue_opts false) [g] = Some t /\
  contains $"{maybe_comma}" t = false /\ read_glue t <> Some (expected_trampoline (glue_opts false) g).
Proof.
  eexists (GlueClass $"Pen" [] [_] []). eexists. split; [reflexivity|]. split; [vm_compute; reflexivity|]. split; [vm_compute; reflexivity|]. vm_compute. discriminate.
Qed.
Print Assumptions C71_placeholder_refuted.
