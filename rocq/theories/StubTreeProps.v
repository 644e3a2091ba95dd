From Verif Require Import PyStr PyStrLemmas NamesModel RegionsModel TextModel TextSpec CommentModel CommentSpec NamedModel OverloadModel EnumModel EnumSpec EnumProps ClassModel ClassSpec ClassProps
  StubTreeModel StubTreeSpec StubTreeProofs2 StubTreeProofs5.
(** C70: the classes of the stub, and what is inside them. *)

(** The stub of what is in a header, read as Python statements and blocks, defines every class and every enum, at any depth, in the class
    which holds it, with its bases, and no other class; all the blocks are there. *)
Theorem C70_stub_partial o copy_info values cs : Forall (eq sp) (cl_indent o) /\ cl_indent o <> [] -> Forall (eq sp) (eo_py_indent (cl_enum o)) /\ eo_py_indent (cl_enum o) <> [] ->
  Forall (showable o copy_info values) cs -> python_classes (forest_stub o copy_info cs) = Some (flat_map (shown_classes o []) cs).
Proof. intros I J F. exact (proj1 (forest_reads o copy_info values I J cs F)). Qed.
Print Assumptions C70_stub_partial.

(** The classes of the stub are those which the binding makes, in the same order and at the same places. *)
Theorem C70_same_partial o copy_info values ns cs ls : Forall (eq sp) (cl_indent o) /\ cl_indent o <> [] -> Forall (eq sp) (eo_py_indent (cl_enum o)) /\ eo_py_indent (cl_enum o) <> [] ->
  Forall (showable o copy_info values) cs -> Forall word ns -> all_well_formed o values (map to_child cs) -> forest_pydef o (map NsPart ns) (map to_child cs) = Some ls ->
  exists classes es f, python_classes (forest_stub o copy_info cs) = Some classes /\ meaning [[(module_variable o ns, [])]] (unlines ls) = Some (es, f) /\ map fst classes = objects es.
Proof.
  intros I J F N W E. destruct (C69_binding_partial o values ns (map to_child cs) ls (proj1 I) N W E [] []) as (f & M & _).
  eexists. eexists. eexists. split; [exact (C70_stub_partial o copy_info values cs I J F)|]. split; [exact M|]. clear. induction cs as [|c cs IH]; [reflexivity|]. cbn [flat_map map]. unfold objects in *.
  rewrite map_app, flat_map_app. apply f_equal2; [exact (made_shown o values c [])|exact IH].
Qed.
Print Assumptions C70_same_partial.

(** *** Cases *)

Definition brush_extra : extra :=
  Extra [(Public, $"Tool"); (Private, $"base.Secret")] [] [] $"A ""brush""." [] $"    # brush.h:3"
    (unlines [$"def __init__(self) -> None:"; $"    """"""Autogenerated default constructor"""""""; $"    pass"]) $"Tuple[int, str]" [].
Definition plain_extra (previous : str) : extra := Extra [] [] [] previous [] [] [] $"int" [].
Definition brush_node : node :=
  NClass brush_head brush_extra
    [NOther KClassMember [$"size: int = 3   # how # large"] [$".def_readwrite(""size"", &Paint::Brush::size, ""how ; large"")"]; NEnum color $"    // brush.h:5" $"    # brush.h:5";
     NClass (plain_head $"Tip" [] [] []) (plain_extra $"The tip:
    - of ""hair""")
      [NOther KFunction [$"@staticmethod"; $"def f("; $"    a: str = ""class X:"","; $"    ) -> None:"; $"    """""" class Y: """""""; $"    pass"] [$".def(""f"","; $"    &Paint::Brush::Tip::f)"];
       NClass (plain_head $"Hair" [] [] []) (plain_extra []) [] []] []] [].
Definition box_nodes : list node :=
  [NClass (plain_head $"Box" [$"int"] $"<int>" []) (Extra [] [] $"  # Python specialization for Box<int>" [] [] [] [] $"int" []) [] [];
   NClass (plain_head $"Box" [$"unsigned int"] $"<unsigned int>" []) (Extra [] [$"Generic[T]"; $"base.Thing"] [] [] [] [] [] $"int" [$"@overload"; $"def g(self) -> None: ..."]) [] []].
Definition goodb (o : class_env) (previous eol : str) : bool :=
  let t := comment_apply_replacements (eo_strip (cl_enum o)) (eo_replacements (cl_enum o)) (full_comment previous eol) in
  match t with [] => true | _ => negb (contains [dq; dq; dq] t) && (contains [nl] t || negb (ends_escaping t)) end.
Lemma good_by_check o previous eol : goodb o previous eol = true -> good_doc o previous eol.
Proof.
  unfold goodb, good_doc. destruct (comment_apply_replacements _ _ _) as [|c t]; [left; reflexivity|]. intros E. right. apply andb_true_iff in E as [A B]. apply negb_true_iff in A. split; [exact A|].
  apply orb_true_iff in B. destruct B as [B|B]; [left; apply contains_single; exact B|right; apply negb_true_iff; exact B].
Qed.
Lemma type_by_check t : forallb (fun c => is_word c || existsb (ceqb c) ["."; ","; " "; "["; "]"]%char) t && match balance 0 (py_read t) with Some 0 => true | _ => false end = true -> type_name t.
Proof. intros E. apply andb_true_iff in E as [A B]. split; [apply Forall_forall; apply forallb_forall; exact A|]. destruct (balance 0 (py_read t)) as [[|]|]; [reflexivity|discriminate|discriminate]. Qed.
Lemma no_class_by_check ls : match python_classes ls with Some [] => forallb (fun l => negb (contains [nl] l)) ls | _ => false end = true -> no_class ls.
Proof.
  intros E. destruct (python_classes ls) as [[|]|] eqn:P; try discriminate. split; [exact P|]. apply Forall_forall. intros l I J. rewrite forallb_forall in E. specialize (E l I). apply negb_true_iff in E.
  assert (X : contains [nl] l = true) by (apply contains_single; exact J). congruence.
Qed.
Ltac comment_ok := first [left; reflexivity|right; eexists; eexists; split; [reflexivity|vm_compute; intuition discriminate]].
Ltac class_ok := split; [apply word_by_check; reflexivity|]; split; [cbn [x_bases x_custom map snd app brush_extra plain_extra]; each_item ltac:(apply type_by_check; vm_compute; reflexivity)|];
  split; [first [left; reflexivity|right; exists 2, $" Python specialization for Box<int>"; split; [reflexivity|vm_compute; intuition discriminate]]|];
  split; [first [left; reflexivity|right; exists 4, $" brush.h:3"; split; [reflexivity|vm_compute; intuition discriminate]]|];
  split; [apply good_by_check; vm_compute; reflexivity|]; split; [apply no_class_by_check; vm_compute; reflexivity|];
  split; [cbn [map fst]; constructor|]; split; [apply type_by_check; vm_compute; reflexivity|]; split; [apply no_class_by_check; vm_compute; reflexivity|].
Lemma brush_showable a b : showable (class_opts a b) true brush_values brush_node.
Proof.
  class_ok. split; [left; destruct a, b; vm_compute; discriminate|]. split; [apply no_class_by_check; vm_compute; reflexivity|]. split.
  - split; [exact sample_named|]. split; [apply (sample_kept a b false true)|]. split; [|split].
    + destruct (sample_showable a b false true) as (A & _ & C & D). split; [exact A|]. split; [vm_compute; intuition discriminate|]. split; [exact C|exact D].
    + right. exists 4, $" brush.h:5". split; [reflexivity|vm_compute; intuition discriminate].
    + split; [apply good_by_check; destruct a, b; vm_compute; reflexivity|right; left; discriminate].
  - split; [|exact I]. class_ok. split; [left; destruct a, b; vm_compute; discriminate|]. split; [apply no_class_by_check; vm_compute; reflexivity|]. split; [|exact I].
    class_ok. split; [|exact I]. right. right. right. right. right. right. split; [constructor|]. auto.
Qed.
Lemma sample_showables a b : Forall (showable (class_opts a b) true brush_values) (brush_node :: box_nodes).
Proof.
  apply Forall_cons; [apply brush_showable|]. unfold box_nodes. apply Forall_cons; [|apply Forall_cons; [|constructor]].
  - class_ok. split; [|exact I]. right. right. right. right. right. right. split; [constructor|]. auto.
  - class_ok. split; [|exact I]. right. right. right. right. right. left. vm_compute. discriminate.
Qed.
Example C70_stub_case a b : python_classes (forest_stub (class_opts a b) true (brush_node :: box_nodes)) = Some
  [([$"Brush"], py_read $"(Tool, base.Secret)"); ([$"Brush"; $"Color"], py_read (if b then $"(enum.IntEnum)" else $"(enum.Enum)")); ([$"Brush"; $"Tip"], []); ([$"Brush"; $"Tip"; $"Hair"], []);
   ([$"Box"], []); ([$"Box"], py_read $"(Generic[T], base.Thing)")].
Proof. rewrite (C70_stub_partial _ _ brush_values); [destruct b; vm_compute; reflexivity|split; [repeat constructor|discriminate]|split; [repeat constructor|discriminate]|apply sample_showables]. Qed.
Example C70_stub_text : let ls := forest_stub (class_opts false true) true [brush_node] in
  firstn 6 ls = [$"class Brush(Tool, base.Secret):    # brush.h:3"; $"    """"""A ""brush""."; $"    (final class)"; $"    (has support for copy.copy and copy.deepcopy)"; $"    """""""; []] /\
  skipn 33 ls = [$"        class Hair:"; $"            pass"; $"    def __init__(self) -> None:"; $"        """"""Autogenerated default constructor"""""""; $"        pass";
    $"    def __iter__(self) -> Iterator[Tuple[int, str]]:"; $"        pass"; $"    def __len__(self) -> int:"; $"        pass"].
Proof. vm_compute. auto. Qed.
Example C70_same_case a : exists ls classes es f, forest_pydef (class_opts a true) [] (map to_child (brush_node :: box_nodes)) = Some ls /\
  python_classes (forest_stub (class_opts a true) true (brush_node :: box_nodes)) = Some classes /\ meaning [[($"m", [])]] (unlines ls) = Some (es, f) /\
  objects es = map fst classes /\ length classes = 6.
Proof.
  destruct (forest_pydef (class_opts a true) (map NsPart []) (map to_child (brush_node :: box_nodes))) as [ls|] eqn:E; [|destruct a; vm_compute in E; discriminate].
  destruct (C70_same_partial (class_opts a true) true brush_values [] (brush_node :: box_nodes) ls ltac:(split; [repeat constructor|discriminate]) ltac:(split; [repeat constructor|discriminate])
    (sample_showables a true) (Forall_nil _) (sample_well_formed a true) E) as (classes & es & f & A & B & C).
  exists ls, classes, es, f. split; [exact E|]. split; [exact A|]. split; [exact B|]. split; [symmetry; exact C|]. rewrite (C70_stub_case a true) in A. injection A as <-. reflexivity.
Qed.

(** What a class tells of itself: its comment, whether it is final and how it can be copied. *)
Theorem C70_told o copy_info h previous : lines (told o copy_info h previous) = told_lines o copy_info h previous.
Proof.
  assert (L : forall a b, ~ In nl b -> lines (a ++ [nl] ++ b) = lines a ++ [b]).
  { intros a b N. change (a ++ [nl] ++ b) with (a ++ nl :: b). rewrite FillProofs.lines_render_app. f_equal. unfold lines. apply split_on_single. exact N. }
  assert (P : forall t, lines t = lines previous ++ (if h_final h then [$"(final class)"] else []) ->
    lines (match copy_comment o copy_info h with [] => t | c => t ++ [nl] ++ c end) = told_lines o copy_info h previous).
  { intros t E. unfold told_lines, copy_comment, shall_copy, copies.
    assert (N : lines t = lines previous ++ (if h_final h then [$"(final class)"] else []) ++ []) by (rewrite app_nil_r; exact E).
    assert (M : forall c, contains [nl] c = false -> lines (t ++ [nl] ++ c) = lines previous ++ (if h_final h then [$"(final class)"] else []) ++ [c]).
    { intros c Q. rewrite (L t c (FillProofs4.no_nl_in c Q)), E, <- app_assoc. reflexivity. }
    destruct copy_info, (cl_copy o (h_name h)), (cl_deepcopy o (h_name h)), (h_copy h), (h_copy_api h);
      first [exact N | exact (M $"(has support for copy.copy and copy.deepcopy)" eq_refl) | exact (M $"(has support for copy.copy)" eq_refl)
        | exact (M $"(has support for copy.deepcopy)" eq_refl)]. }
  unfold told. apply P. destruct (h_final h); [|symmetry; apply app_nil_r]. apply L. apply FillProofs4.no_nl_in. vm_compute. reflexivity.
Qed.
Print Assumptions C70_told.
Example C70_told_case : told_lines (class_opts false true) true (Head $"Box" $"Box" [] [] [] [] [] false false true [] [] false true [] true false) $"A box" = [$"A box"; $"(final class)"].
Proof. vm_compute. reflexivity. Qed.

(** *** Refutations *)

Definition secret_head : head := Head $"Box" $"Box" [] [] [] [] [] false false false [] [] false true [] false false.
(** A class whose only constructor is private, and which has only a comment in its public part: its block is empty, and the stub is not
    valid Python. *)
Theorem C70_empty_refuted : exists o x children, Forall (showable o true brush_values) children /\ h_ctor secret_head = true /\ x_previous x = [] /\ x_eol x = [] /\
  forest_stub o true [NClass secret_head x children []] = [$"class Box:"; $"    # Nothing yet"] /\ python_classes (forest_stub o true [NClass secret_head x children []]) = None.
Proof.
  exists (class_opts false true), (plain_extra []), [NOther KComment [$"# Nothing yet"] []]. split; [repeat constructor; vm_compute; intuition discriminate|]. repeat (split; [reflexivity|]).
  split; vm_compute; reflexivity.
Qed.
Print Assumptions C70_empty_refuted.

(** An enum without values, and with a comment inside. *)
Theorem C70_enum_refuted : exists o e, well_formed_names e /\ enum_kept (cl_enum o) e [] /\ enum_showable (stub_enum_at o []) e [] /\
  forest_stub o true [NEnum e [] []] = [$"class Color(enum.IntEnum):"; $"    # None yet"] /\ python_classes (forest_stub o true [NEnum e [] []]) = None.
Proof.
  exists (class_opts false true), (CppEnum $"Color" [] true [EComment $"None yet"] [] []). split; [split; [apply word_by_check; reflexivity|constructor]|].
  split; [exists (fun _ => true); split; [intros v []|reflexivity]|]. split; [|split; vm_compute; reflexivity].
  split; [repeat constructor|]. split; [intros []|]. split; [apply word_by_check; reflexivity|]. split; [auto|constructor].
Qed.
Print Assumptions C70_enum_refuted.

(** A private base is a base in the stub, and not in the binding. *)
Theorem C70_private_refuted : exists o h x ls classes, h_bases h = [(Private, $"Secret")] /\ x_bases x = [(Private, $"Secret")] /\ showable o true brush_values (NClass h x [] []) /\
  python_classes (forest_stub o true [NClass h x [] []]) = Some classes /\ classes = [([$"Box"], py_read $"(Secret)")] /\
  forest_pydef o [] [to_child (NClass h x [] [])] = Some ls /\ contains $"Secret" (unlines ls) = false.
Proof.
  exists (class_opts false true), (plain_head $"Box" [] [] [(Private, $"Secret")]), (Extra [(Private, $"Secret")] [] [] [] [] [] [] $"int" []). eexists. eexists.
  split; [reflexivity|]. split; [reflexivity|]. split.
  { class_ok. split; [|exact I]. right. right. right. right. right. right. split; [constructor|]. auto. }
  split; [vm_compute; reflexivity|]. split; [vm_compute; reflexivity|]. split; [vm_compute; reflexivity|vm_compute; reflexivity].
Qed.
Print Assumptions C70_private_refuted.

(** A comment which ends with a backslash, as the C++ comments which draw things do: the string of the documentation is not closed. *)
Theorem C70_comment_refuted : exists o x, x_previous x = $"A box \" /\ forest_stub o true [NClass secret_head x [] []] = [$"class Box:"; $"    """"""A box \"""""""; $"    pass"] /\
  python_classes (forest_stub o true [NClass secret_head x [] []]) = None.
Proof. exists (class_opts false true), (plain_extra $"A box \"). split; [reflexivity|]. split; vm_compute; reflexivity. Qed.
Print Assumptions C70_comment_refuted.
