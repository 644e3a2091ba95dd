From Verif Require Import PyStr PyStrLemmas PyDict RegionsModel TextModel TextSpec TextProofs CommentModel CommentSpec FillModel FillSpec FillProofs FillProofs2 FillProofs3 FillProofs4
  LambdaTextSpec LambdaTextProofs ModuleModel TypeTextModel NamedModel NamedProofs3 EnumModel EnumSpec EnumProofs EnumProofs2 EnumProofs3 CommentProofs3 CommentProofs4 ClassModel ClassSpec ClassProofs ClassProofs2 ClassProofs3 ClassProofs5
  GlueModel GlueSpec GlueProofs GlueProofs2 PimplModel PimplSpec PimplProofs PimplProofs2 PimplProofs3 PimplProofs4 PimplProofs5 EnumProps GlueProps.
(** C72: the PImpl tool publishes each public method, and forwards each call. *)

(** The published class and the code which links it: from a class whose name ends with a suffix, without comments between slashes and stars, without
    opening braces in comments. *)
Theorem C72_pimpl_partial : forall o c published, good_pimpl o c published -> published_class_name (po_suffixes o) (p_name c) = Some published ->
  exists header glue, pimpl_my_class o c = Some (header, glue) /\
  read_text header = header_lex (p_name c) published (po_member o) (p_is_class c) (concat (p_public c)) /\
  read_text glue = glue_lex (p_name c) published (po_member o) (concat (p_public c)).
Proof. exact pimpl_written. Qed.
Print Assumptions C72_pimpl_partial.

(** The name: the first of the suffixes which ends it is taken away. *)
Lemma published_name suffixes name : Forall (fun s => s <> []) suffixes -> forall published, published_class_name suffixes name = Some published <->
  exists before s after, suffixes = before ++ s :: after /\ name = published ++ s /\ Forall (fun b => forall x, name <> x ++ b) before.
Proof.
  intros F published. induction F as [|s r N F IH]; cbn [published_class_name]; [split; [discriminate|intros (b & s & a & E & _); destruct b; discriminate]|].
  destruct (endswith s name) eqn:E.
  - apply TemplateProofs3.endswith_true in E. destruct E as (x & ->). assert (C : match s with [] => [] | _ => cut_end (length s) (x ++ s) end = x) by (destruct s as [|c s]; [congruence|apply cut_end_app; reflexivity]). rewrite C. clear C. split.
    + intros X. injection X as <-. exists [], s, r. repeat split; constructor.
    + intros (b & s' & a & E1 & E2 & B). destruct b as [|b0 b]; cbn [app] in E1; injection E1 as -> ->; [apply (f_equal (@rev ascii)) in E2; rewrite !rev_app_distr in E2; apply app_inv_head in E2; rewrite <- (rev_involutive x), E2, rev_involutive; reflexivity|]. inversion B as [|? ? B1 B2]. destruct (B1 x eq_refl).
  - assert (Z : forall x, name <> x ++ s) by (intros x X; assert (endswith s name = true) by (rewrite X; apply TemplateProofs3.endswith_app); congruence). rewrite IH. split.
    + intros (b & s' & a & -> & E2 & B). exists (s :: b), s', a. repeat split; auto.
    + intros (b & s' & a & E1 & E2 & B). destruct b as [|b0 b]; cbn [app] in E1; injection E1 as -> ->; [destruct (Z _ E2)|]. inversion B. exists b, s', a. auto.
Qed.
Theorem C72_name : forall suffixes name, Forall (fun s => s <> []) suffixes ->
  (forall published, published_class_name suffixes name = Some published <->
     exists before s after, suffixes = before ++ s :: after /\ name = published ++ s /\ Forall (fun b => forall x, name <> x ++ b) before) /\
  (published_class_name suffixes name = None <-> Forall (fun s => forall x, name <> x ++ s) suffixes).
Proof.
  intros suffixes name F. split; [apply published_name; auto|]. induction F as [|s r N F IH]; cbn [published_class_name]; [split; [constructor|reflexivity]|].
  destruct (endswith s name) eqn:E.
  - split; [discriminate|]. intros X. inversion X as [|? ? X1 X2]; subst. apply TemplateProofs3.endswith_true in E. destruct E as (x & E). destruct (X1 x E).
  - rewrite IH. split; intros X; [constructor; auto|inversion X; auto]. intros x Y. assert (endswith s name = true) by (rewrite Y; apply TemplateProofs3.endswith_app). congruence.
Qed.
Print Assumptions C72_name.

(** ** Example: a class with a constructor, a static method, a const one and a void one *)

Definition no_note : note := Note [] false [].
Definition shown (o : poptions) (c : pclass) : option (list lexeme * list lexeme) := option_map (fun hg => (read_text (fst hg), read_text (snd hg))) (pimpl_my_class o c).
Definition shape : pclass := PClass $"ShapeImpl" true (Note $" A shape" false $" shown")
  [[Remark $"// The sides"; Ctor [($"int sides = 3", $"sides")] no_note; Dtor; Blank;
    Method (Func (Some (CType [$"double"] [] [])) $"Area" [($"double unit", $"unit"); ($"bool exact = true", $"exact")] true (Note $" The area" false []))];
   [Method (Func (Some (CType [$"void"] [$"static"] [])) $"Reset" [] false no_note); Rest]].
Lemma one_piece t : forallb (fun c => negb (ceqb c dq) && negb (ceqb c "/") && negb (ceqb c nl)) t = true -> cpp_text t.
Proof. intros E. pose proof (pieces_text [EnumSpec.Text t]) as P. cbn [map concat] in P. rewrite app_nil_r in P. apply P. repeat constructor. exact E. Qed.
Ltac param := split; [apply one_piece; reflexivity|split; [apply neutralb_true; reflexivity|split; [discriminate|split; [reflexivity|apply word_by_check; reflexivity]]]].
Ltac params := repeat (apply Forall_cons; [param|]); apply Forall_nil.
Ltac no_char := let I := fresh in intros I; cbn in I; repeat (destruct I as [I|I]; [discriminate|]); exact I.
Ltac fine_note := split; [reflexivity|split; [no_char|split; [no_char|split; [no_char|repeat split]]]].
Lemma shape_good : good_pimpl default_options shape $"Shape".
Proof.
  split; try (apply word_by_check; reflexivity); try solve [repeat constructor]; try discriminate; [fine_note|]. cbn [concat p_public shape app]. repeat apply Forall_cons; try apply Forall_nil; cbn [good_child]; auto.
  - right. exists 0, $" The sides". repeat split; no_char.
  - split; [params|fine_note].
  - split; [|split; [apply plain_by_check; reflexivity|split; [params|fine_note]]]. split; [constructor|]. intros u. apply plain_by_check. reflexivity.
  - split; [|split; [apply plain_by_check; reflexivity|split; [params|fine_note]]]. split; [repeat constructor; intros []|]. intros u. unfold without. cbn [specifiers filter typenames modifiers f_result].
    destruct (negb (smem $"static" u)); apply plain_by_check; reflexivity.
Qed.
Example C72_pimpl_case : published_class_name (po_suffixes default_options) (p_name shape) = Some $"Shape" /\
  shown default_options shape = Some (read_text (unlines
    [$"class ShapeImpl; class Shape { public: Shape(int sides = 3); double Area(double unit, bool exact = true) const; static void Reset();"; $"~Shape(); private: std::unique_ptr<ShapeImpl> mPImpl; };"]),
   read_text (unlines
    [$"Shape::Shape(int sides = 3) : mPImpl(std::make_unique<ShapeImpl>(sides)) { }";
     $"double Shape::Area(double unit, bool exact = true) const { return mPImpl->Area(unit, exact); }"; $"void Shape::Reset() { ShapeImpl::Reset(); }"; $"Shape::~Shape() = default;"])).
Proof. split; vm_compute; reflexivity. Qed.
Example C72_name_case : published_class_name pimpl_suffixes $"Shape_impl" = Some $"Shape" /\ published_class_name pimpl_suffixes $"ShapePImpl" = Some $"Shape" /\ published_class_name pimpl_suffixes $"Shape" = None.
Proof. repeat split. Qed.

(** ** What does not hold *)

Definition one_method (name : str) (f : func) : pclass := PClass name true no_note [[Method f]].
(** With the default suffixes, FooPimpl is published as FooP: an earlier suffix is an end of Pimpl. *)
Theorem C72_suffix_refuted : exists name published s, In s pimpl_suffixes /\ name = published ++ s /\ (forall x, In x pimpl_suffixes -> (length x <= length s)%nat \/ endswith x name = false) /\
  exists other, published_class_name pimpl_suffixes name = Some other /\ other <> published.
Proof.
  exists $"FooPimpl", $"Foo", $"Pimpl". split; [cbn; tauto|]. split; [reflexivity|]. split.
  - intros x I. cbn [pimpl_suffixes map In] in I. repeat (destruct I as [<-|I]; [first [left; cbn; lia|right; reflexivity]|]). destruct I.
  - exists $"FooP". split; [reflexivity|discriminate].
Qed.
Print Assumptions C72_suffix_refuted.
(** The default values are repeated in the definition, which C++ refuses when the declaration has them. *)
Theorem C72_default_refuted : exists c published, good_pimpl default_options c published /\ published_class_name pimpl_suffixes (p_name c) = Some published /\
  exists h g, pimpl_my_class default_options c = Some (h, g) /\ In (Sign "=") (definition (p_name c) published $"mPImpl" (nth 1 (concat (p_public c)) Blank)) /\
  read_text g = glue_lex (p_name c) published $"mPImpl" (concat (p_public c)).
Proof.
  exists shape, $"Shape". split; [exact shape_good|]. split; [reflexivity|]. destruct (C72_pimpl_partial default_options shape $"Shape" shape_good eq_refl) as (h & g & E & _ & G). exists h, g. split; [exact E|].
  split; [|exact G]. vm_compute. tauto.
Qed.
Print Assumptions C72_default_refuted.
(** virtual is kept in the definition, outside of the class, which C++ refuses. *)
Theorem C72_virtual_refuted : exists c h g, good_pimpl default_options c $"Foo" /\ pimpl_my_class default_options c = Some (h, g) /\ firstn 3 (read_text g) = [Word $"virtual"; Word $"int"; Word $"Foo"].
Proof.
  exists (one_method $"FooImpl" (Func (Some (CType [$"int"] [$"virtual"] [])) $"f" [] false no_note)). eexists; eexists. split; [|split; vm_compute; reflexivity].
  split; try (apply word_by_check; reflexivity); try solve [repeat constructor]; try discriminate; try fine_note. cbn [concat p_public one_method app]. repeat constructor; cbn; auto; try tauto.
  intros u. unfold without. cbn [specifiers filter typenames modifiers]. destruct (negb (smem _ u)); apply plain_by_check; reflexivity.
Qed.
Print Assumptions C72_virtual_refuted.
(** A parameter without a name is not given to the method. *)
Theorem C72_unnamed_refuted : exists f h g, length (f_params f) = 1 /\ pimpl_my_class default_options (one_method $"FooImpl" f) = Some (h, g) /\
  read_text g = read_text $"int Foo::f(int) { return mPImpl->f(); } Foo::~Foo() = default;".
Proof. exists (Func (Some (CType [$"int"] [] [])) $"f" [($"int", [])] false no_note). eexists; eexists. repeat split; vm_compute; reflexivity. Qed.
Print Assumptions C72_unnamed_refuted.
(** If no line feed is asked for, the comment behind the class hides its opening brace. *)
Theorem C72_brace_refuted : exists o c h g, po_linefeed o = false /\ pimpl_my_class o c = Some (h, g) /\ ~ In (Sign "{") (read_text h) /\ In (Sign "}") (read_text h).
Proof.
  exists (POptions pimpl_suffixes $"    " $"  " (Some 2) false $"mPImpl"), (PClass $"FooImpl" true (Note [] false $" shown") []). eexists; eexists.
  split; [reflexivity|]. split; [vm_compute; reflexivity|]. split; [intros I; vm_compute in I; repeat (destruct I as [I|I]; [discriminate|]); exact I|vm_compute; tauto].
Qed.
Print Assumptions C72_brace_refuted.
