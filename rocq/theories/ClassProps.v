From Verif Require Import PyStr PyStrLemmas PyDict NamesModel RegionsModel TextModel TextSpec CommentModel CommentSpec FillSpec OverloadModel NamedModel EnumModel EnumSpec
  EnumProps FillProofs ClassModel ClassSpec ClassProofs9 ClassArgProofs.
(** C69: the classes of the binding, and what is inside them. *)

(** The C++ code of the classes and enums at the same place, read as statements and blocks and executed where the variable of their module
    is known, makes every class and every enum, at any depth, in the object of the class or module which holds it, with its name, its type,
    its documentation, and defines its methods, attributes and values on this very object; nothing else is made or called, every variable
    is declared before it is used, and once. *)
Theorem C69_binding_partial o values ns cs ls : Forall (eq sp) (cl_indent o) -> Forall word ns -> all_well_formed o values cs ->
  forest_pydef o (map NsPart ns) cs = Some ls ->
  forall path fr, exists f', meaning ([(module_variable o ns, path)] :: fr) (unlines ls) = Some (flat_map (events o values path) cs, f' :: fr) /\
    dict_get (module_variable o ns) f' = Some path.
Proof.
  intros I N W E path fr. destruct (forest_bound o values ns cs ls I N W E path fr) as (f' & M & D & _). exists f'. split; [exact M|exact D].
Qed.
Print Assumptions C69_binding_partial.

(** There is such code when all the enums, at any depth, are arithmetic for the options; the class which holds another enum is not written
    at all. *)
Theorem C69_written o sc cs : forest_pydef o sc cs <> None <-> Forall (arithmetic o) cs.
Proof. exact (forest_made o sc cs). Qed.
Print Assumptions C69_written.

(** A template argument made of words, spaces, stars and double colons is a part of the name of a variable. *)
Theorem C69_arguments t : argument_text t -> ends_well t -> word (param_name t).
Proof. exact (argument_word t). Qed.
Print Assumptions C69_arguments.
Example C69_arguments_case : word (param_name $"unsigned int *") /\ map param_name [$"unsigned int *"; $"std::string"; $"Im::Vec2"] = [$"unsigned_int_ptr"; $"string"; $"Im_Vec2"].
Proof. split; [apply C69_arguments; [cbn; auto 20|exists $"unsigned int ", "*"%char; auto]|vm_compute; reflexivity]. Qed.

(** *** Cases *)

Definition class_opts (nanobind arithmetic : bool) : class_env :=
  ClassEnv nanobind [$"Root"] $"    " true (fun s => s) (fun n => seqb n $"Brush") (fun n => seqb n $"Brush") (fun n => seqb n $"Brush") (fun n => seqb n $"Brush")
    (fun n => seqb n $"Brush") (fun _ _ => None) (enum_opts nanobind arithmetic false true).
Definition plain_head (name : str) (params : list str) (special : str) (bases : list (access * str)) : head :=
  Head name name params special $"Paint" bases [] false false false $"A class." [] false true [] false false.
Definition brush_head : head :=
  Head $"Brush" $"Brush" [] [] $"Paint" [(Public, $"Tool<int>"); (Private, $"Secret")] [] false true true $"A ""brush""." $"    // brush.h:3" false false
    $"    .def(py::init<>()) // implicit
" false false.
Definition brush : child :=
  CClass brush_head
    [COther [$".def_readwrite(""size"", &Paint::Brush::size, ""how ; large"")"]; CEnum color $"    // brush.h:5";
     CClass (plain_head $"Tip" [] [] []) [COther [$".def(""f"","; $"    &Paint::Brush::Tip::f)"]; CClass (plain_head $"Hair" [] [] []) [] []] []] [].
Definition boxes : list child := [CClass (plain_head $"Box" [$"int"] $"<int>" []) [] []; CClass (plain_head $"Box" [$"unsigned int"] $"<unsigned int>" []) [] []].
Definition simpleb (s : str) : bool := match s with [] => false | _ => forallb simple_c s end.
Lemma simple_by_check s : simpleb s = true -> simple_text s.
Proof. unfold simpleb. destruct s as [|c s]; [discriminate|]. intros H. split; [discriminate|]. apply Forall_forall. apply forallb_forall. exact H. Qed.
Definition brush_values (e : cpp_enum) : list enumerator := red_blue.
Ltac each_item t := match goal with |- Forall _ [] => apply Forall_nil | _ => apply Forall_cons; [t|each_item t] end.
Ltac head_ok := constructor; cbn [h_name h_python h_params h_special h_scope h_bases h_custom h_location plain_head brush_head map snd app];
  [apply word_by_check; reflexivity|apply word_by_check; reflexivity|each_item ltac:(apply word_by_check; vm_compute; reflexivity)
  |first [left; reflexivity|right; apply simple_by_check; reflexivity]|right; apply simple_by_check; reflexivity
  |each_item ltac:(apply simple_by_check; reflexivity)
  |split; [apply (closed_by_check 100); vm_compute; [repeat constructor|reflexivity]|apply neutralb_true; vm_compute; reflexivity]
  |first [left; reflexivity|right; exists 4, $" brush.h:3"; split; [reflexivity|split; vm_compute; intuition discriminate]]
  |first [left; reflexivity|right; split; [vm_compute; discriminate|right; exists $"    .def(py::init<>()) // implicit"; reflexivity]]|reflexivity].
Lemma brush_writable a b : writable (class_opts a b) brush_head.
Proof. destruct a, b; head_ok. Qed.
Lemma tip_writable a b : writable (class_opts a b) (plain_head $"Tip" [] [] []).
Proof. destruct a, b; head_ok. Qed.
Lemma hair_writable a b : writable (class_opts a b) (plain_head $"Hair" [] [] []).
Proof. destruct a, b; head_ok. Qed.
Lemma color_well_formed a b : well_formed (class_opts a b) brush_values (CEnum color $"    // brush.h:5").
Proof.
  split; [exact sample_named|]. split; [apply (sample_kept a b false true)|]. split; [|apply simple_by_check; reflexivity].
  destruct (sample_writable a b false true) as (A & B & C & D & _ & F). split; [exact A|]. split; [exact B|]. split; [exact C|]. split; [exact D|]. split; [|exact F].
  right. exists 4, $" brush.h:5". split; [reflexivity|vm_compute; intuition discriminate].
Qed.
Ltac nodup := repeat (apply NoDup_cons; [vm_compute; intuition discriminate|]); apply NoDup_nil.
Lemma brush_well_formed a b : well_formed (class_opts a b) brush_values brush.
Proof.
  split; [apply brush_writable|]. split; [constructor|]. split; [nodup|]. split; [left; reflexivity|]. split; [vm_compute; discriminate|]. split; [apply color_well_formed|]. split; [|exact I].
  split; [apply tip_writable|]. split; [constructor|]. split; [nodup|]. split; [left; reflexivity|]. split; [vm_compute; discriminate|]. split; [|exact I].
  split; [apply hair_writable|]. split; [constructor|]. split; [nodup|]. split; [left; reflexivity|]. exact I.
Qed.
Lemma sample_well_formed a b : all_well_formed (class_opts a b) brush_values (brush :: boxes).
Proof.
  split; [|split; [repeat constructor|nodup]]. constructor; [apply brush_well_formed|]. unfold boxes.
  repeat (apply Forall_cons; [split; [destruct a, b; head_ok|]; split; [constructor|]; split; [nodup|]; split; [right; reflexivity|exact I]|]). constructor.
Qed.
(** The objects which are made. *)
Definition made (es : list event) : list (list str) := flat_map (fun e => match e with Made p _ _ => [p] | Called _ _ => [] end) es.
Definition called (es : list event) : list (list str * list lexeme) := flat_map (fun e => match e with Made _ _ _ => [] | Called p c => [(p, fst c)] end) es.
Example C69_binding_case a : exists ls es f',
  forest_pydef (class_opts a true) (map NsPart [$"Root"; $"Paint"]) (brush :: boxes) = Some ls /\
  meaning [[($"pyNsPaint", [$"paint"])]] (unlines ls) = Some (es, [f']) /\
  made es = [[$"paint"; $"Brush"]; [$"paint"; $"Brush"; $"Color"]; [$"paint"; $"Brush"; $"Tip"]; [$"paint"; $"Brush"; $"Tip"; $"Hair"]; [$"paint"; $"Box"]; [$"paint"; $"Box"]] /\
  called es = map (fun x => ([$"paint"; $"Brush"; $"Color"], [Word x])) [$"value"; $"value"; $"export_values"] ++ [([$"paint"; $"Brush"; $"Tip"], [Word $"def"])]
    ++ map (fun x => ([$"paint"; $"Brush"], [Word x])) [$"def"; $"def_readwrite"; $"def"; $"def"; $"def"; $"def"] /\ length ls > 30.
Proof.
  destruct (forest_pydef (class_opts a true) (map NsPart [$"Root"; $"Paint"]) (brush :: boxes)) as [ls|] eqn:E; [|destruct a; vm_compute in E; discriminate].
  assert (Wn : Forall word [$"Root"; $"Paint"]) by (repeat (apply Forall_cons; [apply word_by_check; reflexivity|]); constructor).
  destruct (C69_binding_partial (class_opts a true) brush_values [$"Root"; $"Paint"] (brush :: boxes) ls ltac:(repeat constructor) Wn (sample_well_formed a true) E [$"paint"] []) as (f' & M & _).
  exists ls. eexists. exists f'. split; [reflexivity|]. split; [exact M|]. destruct a; (split; [vm_compute; reflexivity|]; split; [vm_compute; reflexivity|]); vm_compute in E; injection E as <-; cbn [length]; lia.
Qed.
Example C69_binding_text : option_map (firstn 7) (forest_pydef (class_opts false true) (map NsPart [$"Root"; $"Paint"]) [brush]) = Some
  [$"auto pyNsPaint_ClassBrush ="; $"    py::class_<Paint::Brush, Tool<int>, Paint::Brush_trampoline, std::shared_ptr<Paint::Brush>>    // brush.h:3";
   $"        (pyNsPaint, ""Brush"", py::is_final(), py::dynamic_attr(), ""A \""brush\""."");"; [];
   $"{ // inner classes & enums of Brush"; $"    auto pyEnumColor ="; $"        py::enum_<Paint::Color>(pyNsPaint_ClassBrush, ""Color"", py::arithmetic(), ""A color"")    // brush.h:5"].
Proof. vm_compute. reflexivity. Qed.
Example C69_written_case : forest_pydef (class_opts false true) [] (brush :: boxes) <> None /\ forest_pydef (class_opts false false) [] (brush :: boxes) = None /\
  forest_pydef (class_opts false false) [] boxes <> None.
Proof.
  split; [apply C69_written; repeat constructor|]. split; [|apply C69_written; repeat constructor].
  destruct (forest_pydef (class_opts false false) [] (brush :: boxes)) as [ls|] eqn:E; [|reflexivity]. assert (N : forest_pydef (class_opts false false) [] (brush :: boxes) <> None) by (rewrite E; discriminate).
  apply C69_written in N. inversion N as [|? ? H _]; subst. cbn in H. destruct H as (_ & H & _). discriminate.
Qed.

(** *** Refutations *)

(** A class inside an instance of a template class: it is made in a variable which does not exist. *)
Theorem C69_template_refuted : exists o h inner ls, writable o h /\ h_params h = [$"int"] /\ well_formed o brush_values inner /\
  forest_pydef o [] [CClass h [inner] []] = Some ls /\ meaning [[($"m", [])]] (unlines ls) = None.
Proof.
  exists (class_opts false true), (plain_head $"Box" [$"int"] $"<int>" []), (CClass (plain_head $"Lid" [] [] []) [] []). eexists.
  split; [head_ok|]. split; [reflexivity|]. split; [split; [head_ok|split; [constructor|split; [nodup|split; [left; reflexivity|exact I]]]]|]. split; [vm_compute; reflexivity|vm_compute; reflexivity].
Qed.
Print Assumptions C69_template_refuted.

(** Two classes whose C++ names and Python names are distinct, and one variable for both. *)
Theorem C69_variable_refuted : exists o c d ls, well_formed o brush_values c /\ well_formed o brush_values d /\
  made (events o brush_values [] c) <> made (events o brush_values [] d) /\
  forest_pydef o [] [c; d] = Some ls /\ meaning [[($"m", [])]] (unlines ls) = None.
Proof.
  exists (class_opts false true), (CClass (plain_head $"Box" [$"int"] $"<int>" []) [] []), (CClass (plain_head $"Box_int" [] [] []) [] []). eexists.
  split; [split; [head_ok|split; [constructor|split; [nodup|split; [right; reflexivity|exact I]]]]|].
  split; [split; [head_ok|split; [constructor|split; [nodup|split; [left; reflexivity|exact I]]]]|]. split; [vm_compute; discriminate|]. split; [vm_compute; reflexivity|vm_compute; reflexivity].
Qed.
Print Assumptions C69_variable_refuted.

(** A template argument which is itself an instance of a template: the variable is not an identifier. *)
Theorem C69_argument_refuted : exists o h ls, h_params h = [$"std::vector<int>"] /\ forest_pydef o [] [CClass h [] []] = Some ls /\
  class_var (cl_roots o) [ClassPart (h_name h)] (h_params h) = $"pyClassBox_vector<int>" /\ meaning [[($"m", [])]] (unlines ls) = None.
Proof.
  exists (class_opts false true), (plain_head $"Box" [$"std::vector<int>"] $"<std::vector<int>>" []). eexists. split; [reflexivity|]. split; [vm_compute; reflexivity|]. split; vm_compute; reflexivity.
Qed.
Print Assumptions C69_argument_refuted.

(** The comment of a class is part of the text which is filled: what looks like a placeholder is changed. *)
Theorem C69_comment_refuted : exists o h ls es f, h_comment h = $"Uses {maybe_shared_ptr_holder}." /\ closed_literal (class_doc o h) /\
  forest_pydef o [] [CClass h [] []] = Some ls /\ meaning [[($"m", [])]] (unlines ls) = Some (es, f) /\
  class_arguments o h = [Sign ","; Str $"Uses {maybe_shared_ptr_holder}."] /\
  exists p t, es = [Made p t [Sign ","; Str $"Uses ."]].
Proof.
  exists (class_opts false true), (Head $"Box" $"Box" [] [] [] [] [] false false false $"Uses {maybe_shared_ptr_holder}." [] false true [] false false). eexists. eexists. eexists.
  split; [reflexivity|]. split; [apply (closed_by_check 100); vm_compute; [repeat constructor|reflexivity]|]. split; [vm_compute; reflexivity|]. split; [vm_compute; reflexivity|]. split; [vm_compute; reflexivity|].
  eexists. eexists. reflexivity.
Qed.
Print Assumptions C69_comment_refuted.

(** A class with a private destructor which is held by shared pointers: two holders are given. *)
Theorem C69_holders_refuted : exists o h ls, writable o h /\ forest_pydef o [] [CClass h [] []] = Some ls /\
  nth 1 ls [] = $"    py::class_<Brush, std::unique_ptr<Brush, py::nodelete>, std::shared_ptr<Brush>>".
Proof.
  exists (class_opts false true), (Head $"Brush" $"Brush" [] [] [] [] [] true false false $"A brush." [] false true [] false false). eexists.
  split; [|split; vm_compute; reflexivity]. constructor.
  - apply word_by_check. reflexivity.
  - apply word_by_check. reflexivity.
  - constructor.
  - left. reflexivity.
  - left. reflexivity.
  - constructor.
  - split; [apply (closed_by_check 100); vm_compute; [repeat constructor|reflexivity]|apply neutralb_true; vm_compute; reflexivity].
  - left. reflexivity.
  - left. reflexivity.
  - reflexivity.
Qed.
Print Assumptions C69_holders_refuted.
