From Verif Require Import PyStr PyStrLemmas NamesModel RegionsModel TextModel TextSpec CommentModel
  CommentSpec OverloadModel EnumModel EnumSpec EnumProofs EnumProofs2 EnumProofs3.
(** C66: an enum in the stub and in the binding. *)

(** The class of the stub: its name, its base, its documentation, then one assignment for each published value, in order; the other
    lines are empty, comments or pass. *)
Theorem C66_stub_partial o e vs : well_formed_names e -> enum_kept o e vs -> enum_showable o e vs ->
  let scoped := match en_scope e with [] => en_name e | s => s ++ $"::" ++ en_name e end in
  exists body, enum_stub o e =
      rstrip ($"class " ++ eo_enum_name o (en_name e) ++ $"(" ++ python_base (eo_arithmetic o scoped) (eo_flag o scoped) ++ $"):" ++ eo_location_py o)
      :: map (indent_line (eo_py_indent o) true) (docstring_lines (eo_strip o) (eo_replacements o) (en_previous e) (en_eol e)) ++ body /\
    assignments body = map (fun v => eo_value_name o (en_is_class e) (en_name e) (v_name v)) vs /\ Forall nothing_else body.
Proof. exact (stub_read o e vs). Qed.
Print Assumptions C66_stub_partial.

(** The binding, read as C++ tokens, is the statement which publishes these values, and it registers the names which the stub
    assigns. *)
Theorem C66_binding_partial o e vs : well_formed_names e -> enum_kept o e vs -> enum_writable o e vs -> forall ls, enum_pydef o e = Some ls ->
  map cpp_line ls = map pieces (enum_statement o e vs) /\
  flat_map registered (map cpp_line ls) = map (fun v => eo_value_name o (en_is_class e) (en_name e) (v_name v)) vs.
Proof. exact (both_read o e vs). Qed.
Print Assumptions C66_binding_partial.

(** The values are determined: every enum has one list of published values. *)
Theorem C66_values o e : well_formed_names e -> exists vs, enum_kept o e vs /\ forall vs', enum_kept o e vs' -> vs' = vs.
Proof.
  intros W. exists (values_of (enum_published o e)). split; [exact (kept_exists o e W)|]. intros vs' K. symmetry. exact (kept_values o e vs' W K).
Qed.
Print Assumptions C66_values.

(** There is a binding when the enum is arithmetic. *)
Theorem C66_arithmetic o e vs : well_formed_names e -> enum_kept o e vs -> enum_writable o e vs ->
  let scoped := match en_scope e with [] => en_name e | s => s ++ $"::" ++ en_name e end in
  enum_pydef o e <> None <-> eo_arithmetic o scoped = true.
Proof. exact (binding_iff o e vs). Qed.
Print Assumptions C66_arithmetic.

(** *** Cases *)

Definition enum_opts (nanobind arithmetic flag export : bool) : enum_options :=
  EnumOptions nanobind true (fun n => contains $"count" (lower n)) (fun _ => arithmetic) (fun _ => flag) export (class_name_to_python (fun s => s)) (enumerator_name_python (fun s => s) true true true) (fun v => v)
    true false (fun s => s) false $"    " $"    " [] $"    // color.h:12" $"m".
Definition color : cpp_enum :=
  CppEnum $"Color" $"Paint" false
    [EComment $"The warm ones"; EValue (Enumerator $"Color_Red" $"1" [] $" as ""fire""" $"Color_Red = 1"); EBlank;
     EValue (Enumerator $"Color_Blue" $"2" $" // cold" [] $"Color_Blue = 2"); EValue (Enumerator $"Color_Count" $"3" [] [] $"Color_Count")]
    $"A color" [].
Definition red_blue : list enumerator := firstn 2 (values_of (en_children color)).
Definition wordb (s : str) : bool := match s with [] => false | _ => forallb is_word s end.
Lemma word_by_check s : wordb s = true -> word s.
Proof. unfold wordb. destruct s as [|c s]; [discriminate|]. intros H. split; [discriminate|]. apply Forall_forall. apply forallb_forall. exact H. Qed.
Fixpoint closedb (s : str) : bool :=
  match s with
  | [] => true
  | c :: r => if ceqb c bsl then match r with [] => false | d :: r' => negb (ceqb d nl) && closedb r' end
              else negb (ceqb c nl) && negb (ceqb c dq) && closedb r
  end.
Lemma closed_by_check n : forall s, length s <= n -> closedb s = true -> closed_literal s.
Proof.
  induction n as [|n IH]; intros s L H; destruct s as [|c r]; [constructor|cbn in L; lia|constructor|]. cbn [closedb length] in *. destruct (ceqb_spec c bsl) as [->|N].
  - destruct r as [|d r]; [discriminate|]. apply andb_true_iff in H as [A B]. destruct (ceqb_spec d nl); [discriminate|]. apply cl_escape; auto. apply IH; [cbn in *; lia|auto].
  - apply andb_true_iff in H as [A B]. apply andb_true_iff in A as [A1 A2]. destruct (ceqb_spec c nl), (ceqb_spec c dq); try discriminate. apply cl_plain; auto. apply IH; [lia|auto].
Qed.
Lemma sample_kept a b c d : enum_kept (enum_opts a b c d) color red_blue.
Proof.
  exists (fun v => negb (contains $"count" (lower (v_name v)))). split; [|reflexivity]. intros v I. unfold counts. cbn [eo_skip_count enum_opts eo_size_name en_is_class en_name color].
  destruct I as [<-|[<-|[<-|[]]]]; cbn [v_name]; split; try (intros _ (_ & H & _); vm_compute in H; discriminate); try (intros _; vm_compute; reflexivity).
  - intros H. vm_compute in H. discriminate.
  - intros H. exfalso. apply H. split; [reflexivity|]. split; [reflexivity|]. right. vm_compute. left. reflexivity.
Qed.
Lemma sample_named : well_formed_names color.
Proof. split; [apply word_by_check; reflexivity|]. repeat (apply Forall_cons; [apply word_by_check; reflexivity|]). constructor. Qed.
Lemma sample_showable a b c d : enum_showable (enum_opts a b c d) color red_blue.
Proof.
  split; [repeat constructor|]. split; [intros []|]. split; [apply word_by_check; reflexivity|]. split; [auto|].
  repeat (apply Forall_cons; [split; [apply word_by_check; vm_compute; reflexivity|split; vm_compute; intuition discriminate]|]). constructor.
Qed.
Lemma sample_writable a b c d : enum_writable (enum_opts a b c d) color red_blue.
Proof.
  split; [apply word_by_check; reflexivity|]. split; [apply code_by_check; reflexivity|]. split; [apply code_by_check; reflexivity|]. split; [repeat constructor|].
  split; [right; exists 4, $" color.h:12"; split; [reflexivity|vm_compute; intuition discriminate]|]. split; [apply (closed_by_check 100); vm_compute; [repeat constructor|reflexivity]|].
  repeat (apply Forall_cons; [split; [apply word_by_check; vm_compute; reflexivity|apply (closed_by_check 100); vm_compute; [repeat constructor|reflexivity]]|]). constructor.
Qed.
Example C66_stub_case : exists body,
  enum_stub (enum_opts false true false true) color = [$"class Color(enum.IntEnum):"; $"    " ++ [dq; dq; dq] ++ $"A color" ++ [dq; dq; dq]] ++ body /\
  assignments body = [$"red"; $"blue"] /\ Forall nothing_else body.
Proof.
  destruct (C66_stub_partial (enum_opts false true false true) color red_blue sample_named (sample_kept _ _ _ _) (sample_showable _ _ _ _)) as (body & E & A & N).
  exists body. split; [|split; auto]. vm_compute in E. vm_compute. exact E.
Qed.
Example C66_binding_case : exists ls, enum_pydef (enum_opts false true false true) color = Some ls /\ length ls = 5 /\
  flat_map registered (map cpp_line ls) = [$"red"; $"blue"].
Proof.
  destruct (enum_pydef (enum_opts false true false true) color) as [ls|] eqn:E; [|vm_compute in E; discriminate]. exists ls. split; [reflexivity|]. split.
  - vm_compute in E. injection E as <-. reflexivity.
  - exact (proj2 (C66_binding_partial _ _ red_blue sample_named (sample_kept _ _ _ _) (sample_writable _ _ _ _) ls E)).
Qed.
Example C66_binding_text : enum_pydef (enum_opts true true true false) color =
  Some [$"auto pyEnumColor ="; $"    nb::enum_<Paint::Color>(m, " ++ [dq] ++ $"Color" ++ [dq] ++ $", nb::is_arithmetic(), nb::is_flag(), " ++ [dq] ++ $"A color" ++ [dq] ++ $")    // color.h:12";
    $"        .value(" ++ [dq] ++ $"red" ++ [dq] ++ $", Paint::Color_Red, " ++ [dq] ++ $"as \""fire\""" ++ [dq] ++ $")";
    $"        .value(" ++ [dq] ++ $"blue" ++ [dq] ++ $", Paint::Color_Blue, " ++ [dq] ++ $"// cold" ++ [dq] ++ $");"].
Proof. vm_compute. reflexivity. Qed.

(** *** What does not hold *)

(** An enum which is not arithmetic is in the stub, but generating the binding fails. *)
Theorem C66_not_arithmetic_refuted : exists o e vs, well_formed_names e /\ enum_kept o e vs /\ enum_showable o e vs /\ enum_writable o e vs /\
  vs <> [] /\ enum_pydef o e = None.
Proof.
  exists (enum_opts false false false false), color, red_blue. split; [exact sample_named|]. split; [apply sample_kept|]. split; [apply sample_showable|].
  split; [apply sample_writable|]. split; [discriminate|reflexivity].
Qed.
Print Assumptions C66_not_arithmetic_refuted.
(** With pybind11, the flags of the stub are plain integers in the binding. *)
Theorem C66_flag_refuted : exists o e vs, well_formed_names e /\ enum_kept o e vs /\ enum_showable o e vs /\ enum_writable o e vs /\
  hd [] (enum_stub o e) = $"class Color(enum.IntFlag):" /\ ~ (exists ls, enum_pydef o e = Some ls /\ enum_pydef (enum_opts false true false false) e <> Some ls).
Proof.
  exists (enum_opts false true true false), color, red_blue. split; [exact sample_named|]. split; [apply sample_kept|]. split; [apply sample_showable|].
  split; [apply sample_writable|]. split; [vm_compute; reflexivity|]. intros (ls & E & N). apply N. rewrite <- E. vm_compute. reflexivity.
Qed.
Print Assumptions C66_flag_refuted.
(** When the name of the enum ends with an underscore, its count is published. *)
Theorem C66_count_refuted : exists o e v, well_formed_names e /\ eo_skip_count o = true /\ eo_size_name o (v_name v) = true /\ startswith (en_name e) (v_name v) = true /\
  enum_kept o e [v] /\ eo_value_name o false (en_name e) (v_name v) = $"count".
Proof.
  set (v := Enumerator $"Col_COUNT" $"0" [] [] []).
  exists (enum_opts false true false false), (CppEnum $"Col_" [] false [EValue v] [] []), v.
  split; [split; [apply word_by_check; reflexivity|constructor; [apply word_by_check; reflexivity|constructor]]|]. repeat (split; [reflexivity|]).
  split; [|vm_compute; reflexivity]. exists (fun _ => true). split; [|reflexivity]. intros u [<-|[]]. split; [|reflexivity]. intros _ (_ & _ & [H|H]); [discriminate|].
  vm_compute in H. destruct H as [H|[H|[]]]; discriminate.
Qed.
Print Assumptions C66_count_refuted.
(** The class of an enum which has only comments has no statement. *)
Theorem C66_only_comments_refuted : exists o e, well_formed_names e /\ enum_showable o e [] /\ enum_kept o e [] /\
  exists l, enum_stub o e = [l; $"    # soon"].
Proof.
  exists (enum_opts false true false false), (CppEnum $"Later" [] false [EComment $" soon"] [] []).
  split; [split; [apply word_by_check; reflexivity|constructor]|]. split.
  { split; [repeat constructor|]. split; [intros []|]. split; [apply word_by_check; reflexivity|]. split; [auto|constructor]. }
  split; [exists (fun _ => true); split; [intros v []|reflexivity]|]. eexists. vm_compute. reflexivity.
Qed.
Print Assumptions C66_only_comments_refuted.
