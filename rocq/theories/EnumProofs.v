From Verif Require Import PyStr PyStrLemmas NamesModel NamesProofs RegionsModel RegionsProofs TextModel TextSpec TextProofs TextProofs2 TextProofs3 CommentModel
  CommentSpec CommentProofs3 CommentProofs4 OverloadModel EnumModel EnumSpec.

(** ** Which values are published *)

Lemma lower_snake s : to_snake_case (lower s) = lower s.
Proof.
  rewrite snake_case_rule. apply rule_no_upper_id. unfold lower. rewrite forallb_forall. intros c I. apply in_map_iff in I.
  destruct I as (d & <- & _). rewrite lower_c_not_upper. reflexivity.
Qed.
Lemma word_not_space c : is_word c = true -> is_space c = false.
Proof. destruct c as [[] [] [] [] [] [] [] []]; cbn; auto; discriminate. Qed.
Lemma word_lower_c c : is_word c = true -> is_word (lower_c c) = true.
Proof. destruct c as [[] [] [] [] [] [] [] []]; cbn; auto; discriminate. Qed.
Lemma lower_idem s : lower (lower s) = lower s.
Proof. unfold lower. rewrite map_map. apply map_ext. intros c. apply lower_c_id, lower_c_not_upper. Qed.
Lemma strip_word s : Forall (fun c => is_word c = true) s -> strip s = s.
Proof.
  intros F. unfold strip. assert (G : Forall (fun c => is_space c = false) s) by (eapply Forall_impl; [|exact F]; intros; apply word_not_space; auto).
  assert (L : lstrip s = s) by (destruct G as [|c r Hc]; auto; unfold lstrip; cbn [dropwhile]; rewrite Hc; auto).
  rewrite L. unfold rstrip. destruct (rev s) as [|c r] eqn:E; cbn [dropwhile].
  - rewrite <- (rev_involutive s), E. auto.
  - assert (I : In c s) by (apply in_rev; rewrite E; left; auto). rewrite Forall_forall in G. rewrite (G c I), <- E. apply rev_involutive.
Qed.
Lemma contains_word_spec n w : Forall (fun c => is_word c = true) n ->
  var_name_contains_word (lower n) (lower w) = true <-> In (lower w) (split_on "_" (lower n)).
Proof.
  intros F. unfold var_name_contains_word. rewrite lower_snake, lower_idem.
  assert (G : Forall (fun c => is_word c = true) (lower n)).
  { unfold lower. apply Forall_map. eapply Forall_impl; [|exact F]. intros; apply word_lower_c; auto. }
  rewrite strip_word by auto.
  assert (C : contains [sp] (lower n) = false).
  { destruct (contains [sp] (lower n)) eqn:E; auto. apply contains_single in E. rewrite Forall_forall in G. apply G in E. discriminate. }
  rewrite C. rewrite existsb_exists. split.
  - intros (x & I & E). destruct (seqb_spec x (lower w)); [subst; auto|discriminate].
  - intros I. exists (lower w). split; auto. destruct (seqb_spec (lower w) (lower w)); auto.
Qed.
Lemma is_count_spec o e v : word (v_name v) -> is_count o e v = true <-> counts o e v.
Proof.
  intros [_ W]. unfold is_count, counts. destruct (eo_skip_count o); cbn [negb]; [|intuition discriminate].
  destruct (eo_size_name o (v_name v)); cbn [negb]; [|intuition discriminate]. destruct (en_is_class e); [intuition|].
  rewrite contains_word_spec by auto. intuition discriminate.
Qed.
Lemma values_filter o e cs : values_of (filter (fun c => match c with EValue v => negb (is_count o e v) | _ => true end) cs) =
  filter (fun v => negb (is_count o e v)) (values_of cs).
Proof.
  unfold values_of. induction cs as [|[v|t|] cs IH]; cbn [filter flat_map app]; auto. destruct (negb (is_count o e v)); cbn [flat_map app]; rewrite IH; auto.
Qed.
Lemma kept_values o e vs : well_formed_names e -> enum_kept o e vs -> values_of (enum_published o e) = vs.
Proof.
  intros [_ W] (keep & K & ->). unfold enum_published. rewrite values_filter. apply filter_ext_in. intros v I. specialize (K v I).
  rewrite Forall_forall in W. specialize (W v I). pose proof (is_count_spec o e v W) as S. destruct (keep v), (is_count o e v); cbn; auto; intuition discriminate.
Qed.
Lemma kept_exists o e : well_formed_names e -> enum_kept o e (values_of (enum_published o e)).
Proof.
  intros [_ W]. exists (fun v => negb (is_count o e v)). split; [|apply values_filter]. intros v I. rewrite Forall_forall in W.
  rewrite <- (is_count_spec o e v (W v I)). destruct (is_count o e v); cbn; intuition discriminate.
Qed.

(** ** Lines of the stub *)

Lemma rstrip_blank_app a b : is_blank_line b -> rstrip (a ++ b) = rstrip a.
Proof.
  intros B. unfold rstrip. rewrite rev_app_distr. f_equal. apply Forall_rev in B. induction (rev b) as [|c r IH]; auto. inversion B; subst.
  cbn [app dropwhile]. rewrite H1. auto.
Qed.

Lemma docstring_no_nl s r p e : Forall (fun l => ~ In nl l) (docstring_lines s r p e).
Proof.
  unfold docstring_lines.
  set (d := if endswith [dq] _ then _ else _). destruct d as [|c t]; [constructor|]. pose proof (lines_no_nl (c :: t)) as N.
  assert (Q : forall x, In x [dq; dq; dq] -> x <> nl) by (intros x [<-|[<-|[<-|[]]]]; discriminate).
  assert (Q2 : forall l, ~ In nl l -> ~ In nl ([dq; dq; dq] ++ l)).
  { intros l Hl I. apply in_app_or in I. destruct I as [I|I]; [apply Q in I; congruence|auto]. }
  destruct (lines (c :: t)) as [|l [|l2 ls]]; [constructor| |].
  - apply Forall_cons; [|constructor]. inversion N; subst. intros I. rewrite app_assoc in I. apply in_app_or in I. destruct I as [I|I]; [exact (Q2 l H1 I)|].
    apply Q in I. congruence.
  - inversion N; subst. apply Forall_cons; [apply Q2; auto|]. apply Forall_app. split; auto. apply Forall_cons; [|constructor]. intros I. apply Q in I. congruence.
Qed.
Lemma align_lines_no_nl body : body <> [] -> Forall (fun l => ~ In nl l) body ->
  exists col, Forall2 (fun l l' => moved_comment col l l' \/ l' = l) body (align_python_comments_in_block_lines body).
Proof.
  intros H N. unfold align_python_comments_in_block_lines. destruct (align_spec (unlines body)) as (col & F). exists col.
  rewrite lines_unlines in F by auto. clear H N. induction F as [|l l' ls ls' [A|[A _]] F IH]; constructor; auto.
Qed.
Lemma indent_skip_first i first rest : ~ In nl i -> ~ In nl first -> rest <> [] -> Forall (fun l => ~ In nl l) rest ->
  indent_code_lines (first :: rest) 1 true (Some i) true = rstrip first :: map (indent_line i true) rest.
Proof.
  intros Hi Hf Hr Nr. unfold indent_code_lines, indent_code. rewrite lines_unlines; [|discriminate|constructor; auto].
  destruct rest as [|r0 rest]; [congruence|]. unfold indent_code_str. rewrite lines_unlines by auto.
  change (rstrip first ++ [nl] ++ unlines (map (indent_line i true) (r0 :: rest))) with
    (unlines [rstrip first] ++ [nl] ++ unlines (map (indent_line i true) (r0 :: rest))).
  rewrite <- unlines_app by discriminate. apply lines_unlines; [discriminate|].
  apply Forall_cons; [apply rstrip_no_nl; auto|]. apply Forall_map. eapply Forall_impl; [|exact Nr].
  intros l Hl. apply indent_line_no_nl; auto.
Qed.
Lemma aligned_nonempty body : align_python_comments_in_block_lines body <> [].
Proof. unfold align_python_comments_in_block_lines. apply lines_nonempty. Qed.

(** The lines of a stub: the title, the documentation, perhaps an empty line and the body. *)
Lemma layout_is s re r title loc p e body i : ~ In nl (title ++ loc) -> Forall (eq sp) i -> Forall (fun l => ~ In nl l) body ->
  let body' := match body with [] => [$"pass"] | _ => body end in
  exists gap, Forall (fun l => l = []) gap /\
    stub_layout_lines s re r title [] loc p e body i = rstrip (title ++ loc) ::
      map (indent_line i true) (docstring_lines s r p e ++ gap ++ align_python_comments_in_block_lines body').
Proof.
  intros Nt Hi Nb body'. unfold stub_layout_lines. fold body'.
  match goal with |- context [_ :: [] ++ _ ++ ?g ++ _] => exists g end. split.
  - destruct (docstring_lines s r p e); auto. destruct (negb re && _); auto.
  - cbn [app]. apply indent_skip_first; auto.
    + intros I. rewrite Forall_forall in Hi. apply Hi in I. discriminate.
    + intros E. apply app_eq_nil in E. destruct E as [_ E]. apply app_eq_nil in E. destruct E as [_ E]. destruct (aligned_nonempty _ E).
    + apply Forall_app. split; [apply docstring_no_nl|]. apply Forall_app. split.
      * destruct (docstring_lines s r p e); auto. destruct (negb re && _); auto.
      * unfold align_python_comments_in_block_lines. apply lines_no_nl.
Qed.

(** ** Reading assignments *)

Lemma lstrip_spaces i l : Forall (eq sp) i -> lstrip (i ++ l) = lstrip l.
Proof. intros F. unfold lstrip. induction F as [|c r <- F IH]; auto. Qed.
Lemma until_equal_word n r : Forall (fun c => is_word c = true) n -> until_equal (n ++ $" = " ++ r) = Some n.
Proof.
  induction n as [|c n IH]; intros F; [reflexivity|]. inversion F; subst. cbn [app until_equal].
  assert (E : forall t, startswith $" = " (c :: t) = false).
  { intros t. change (ceqb " " c && startswith $"= " t = false). destruct (ceqb_spec " " c) as [<-|]; [discriminate H1|reflexivity]. }
  rewrite E. rewrite IH by auto. reflexivity.
Qed.
Lemma assigned_word i n r : Forall (eq sp) i -> word n -> assigned (i ++ n ++ $" = " ++ r) = Some n.
Proof.
  intros F [N W]. unfold assigned. rewrite lstrip_spaces by auto. destruct n as [|c n]; [congruence|].
  assert (Wc : is_word c = true) by (inversion W; auto). unfold lstrip. cbn [app dropwhile]. rewrite (word_not_space c Wc).
  destruct (ceqb_spec c "#"); [subst; discriminate|]. apply (until_equal_word (c :: n) r). auto.
Qed.
Lemma assigned_comment l : comment_line l -> assigned l = None.
Proof.
  intros (a & b & -> & F & _). unfold assigned. assert (E : lstrip (a ++ "#"%char :: b) = "#"%char :: b).
  { unfold lstrip. induction F as [|c r Hc F IH]; auto. cbn [app dropwhile]. rewrite Hc. auto. }
  rewrite E. reflexivity.
Qed.
Lemma assigned_blank l : is_blank_line l -> assigned l = None.
Proof.
  intros B. unfold assigned. assert (E : lstrip l = []) by (unfold lstrip; induction B as [|c r Hc B IH]; auto; cbn; rewrite Hc; auto).
  rewrite E. auto.
Qed.

Lemma assignments_app a b : assignments (a ++ b) = assignments a ++ assignments b.
Proof. apply flat_map_app. Qed.

(** What a line of the body becomes. *)
Definition value_line (n l : str) : Prop := word n /\ exists r, l = n ++ $" = enum.auto() # " ++ r /\ ~ In nl r.
Lemma word_no_sharp n : Forall (fun c => is_word c = true) n -> ~ In "#"%char n.
Proof. intros F I. rewrite Forall_forall in F. apply F in I. discriminate. Qed.
Lemma sharp_after a b x y : a ++ "#"%char :: b = x ++ "#"%char :: y -> ~ In "#"%char x -> exists z, a = x ++ z.
Proof.
  revert a. induction x as [|c x IH]; intros a E N; [exists a; auto|]. destruct a as [|d a].
  - cbn in E. inversion E; subst. exfalso. apply N. left. auto.
  - cbn in E. inversion E; subst. destruct (IH a H1) as [z ->]. { intros I. apply N. right. auto. } exists z. auto.
Qed.
Lemma value_line_aligned n l l' col : value_line n l -> moved_comment col l l' \/ l' = l ->
  exists r, l' = n ++ $" = enum.auto()" ++ r.
Proof.
  intros [[_ W] (r & -> & _)] [M| ->]; [|eexists; reflexivity]. destruct M as (a & b & k & E & -> & _).
  assert (E2 : a ++ "#"%char :: b = (n ++ $" = enum.auto() ") ++ "#"%char :: (sp :: r)).
  { rewrite <- app_assoc. symmetry. exact E. }
  destruct (sharp_after _ _ _ _ E2) as [z ->].
  - intros I. apply in_app_or in I. destruct I as [I|I]; [exact (word_no_sharp n W I)|]. vm_compute in I. intuition discriminate.
  - exists (sp :: z ++ spaces k ++ $"#" ++ b). rewrite <- !app_assoc. reflexivity.
Qed.
Lemma comment_line_aligned l l' col : comment_line l -> moved_comment col l l' \/ l' = l -> comment_line l'.
Proof.
  intros C [M| ->]; auto. destruct M as (a & b & k & E & -> & _ & B & _). destruct C as (x & y & E2 & F & N).
  rewrite E2 in E. change (a ++ $"#" ++ b) with (a ++ "#"%char :: b) in E. symmetry in E.
  assert (Nx : ~ In "#"%char x) by (intros I; rewrite Forall_forall in F; apply F in I; discriminate).
  destruct (sharp_after _ _ _ _ E Nx) as [z ->]. rewrite <- app_assoc in E. apply app_inv_head in E.
  destruct z as [|c z]. { exfalso. apply B. rewrite app_nil_r. exact F. }
  cbn in E. inversion E; subst. exists x, (z ++ spaces k ++ $"#" ++ b). split; [rewrite <- !app_assoc; reflexivity|]. split; auto.
  intros I. apply N. change ((x ++ "#"%char :: z) ++ spaces k ++ $"#" ++ b) with ((x ++ "#"%char :: z) ++ spaces k ++ "#"%char :: b) in I.
  rewrite <- app_assoc in I. apply in_app_or in I. apply in_or_app. destruct I as [I|I]; [auto|right]. cbn [app] in I. destruct I as [I|I]; [discriminate|].
  right. apply in_app_or in I. apply in_or_app. destruct I as [I|I]; auto. apply in_app_or in I. destruct I as [I|I]; auto. apply repeat_spec in I. discriminate.
Qed.
Lemma blank_aligned l l' col : is_blank_line l -> moved_comment col l l' \/ l' = l -> is_blank_line l'.
Proof.
  intros B [M| ->]; auto. destruct M as (a & b & k & E & _ & _ & _). exfalso. unfold is_blank_line in B. rewrite Forall_forall in B. specialize (B "#"%char).
  rewrite E in B. cbn in B. discriminate B. apply in_or_app. right. left. auto.
Qed.

(** The body of a stub: lines which assign the names [ns], in order, and other lines. *)
Inductive body_of : list str -> list str -> Prop :=
| bo_nil : body_of [] []
| bo_value n l ns ls : value_line n l -> body_of ns ls -> body_of (n :: ns) (l :: ls)
| bo_comment l ns ls : comment_line l -> body_of ns ls -> body_of ns (l :: ls)
| bo_blank l ns ls : l = [] -> body_of ns ls -> body_of ns (l :: ls).
Lemma body_app ns ls ms ks : body_of ns ls -> body_of ms ks -> body_of (ns ++ ms) (ls ++ ks).
Proof. intros A B. induction A; cbn [app]; auto; [apply bo_value|apply bo_comment|apply bo_blank]; auto. Qed.
Lemma body_comments ls : Forall comment_line ls -> body_of [] ls.
Proof. intros F. induction F; [constructor|apply bo_comment; auto]. Qed.
Lemma body_blanks ls : Forall (fun l => l = []) ls -> body_of [] ls.
Proof. intros F. induction F; [constructor|apply bo_blank; auto]. Qed.
Lemma body_no_nl ns ls : body_of ns ls -> Forall (fun l => ~ In nl l) ls.
Proof.
  intros B. induction B as [|n l ns ls [[_ W] (r & -> & N)] B IH|l ns ls (a & b & -> & _ & N) B IH|l ns ls -> B IH]; constructor; auto.
  intros I. apply in_app_or in I. destruct I as [I|I].
  - rewrite Forall_forall in W. apply W in I. discriminate.
  - change (In nl ($" = enum.auto() # " ++ r)) in I. apply in_app_or in I. destruct I as [I|I]; auto. vm_compute in I. intuition discriminate.
Qed.

(** After alignment and indentation. *)
Lemma body_read i ns ls ls' col : Forall (eq sp) i -> body_of ns ls -> Forall2 (fun l l' => moved_comment col l l' \/ l' = l) ls ls' ->
  assignments (map (indent_line i true) ls') = ns /\ Forall nothing_else (map (indent_line i true) ls').
Proof.
  intros Hi B F. revert ls' F. assert (Hi' : Forall (fun c => c = sp) i) by (eapply Forall_impl; [|exact Hi]; intros; auto).
  induction B as [|n l ns ls V B IH|l ns ls C B IH|l ns ls -> B IH]; intros ls' F; inversion F as [|? l' ? ls2 M F2]; subst; cbn [map].
  - split; [reflexivity|constructor].
  - destruct (IH ls2 F2) as [A D]. destruct (value_line_aligned n l l' col V M) as [r ->]. pose proof V as [Wn _].
    assert (E : exists q, indent_line i true (n ++ $" = enum.auto()" ++ r) = i ++ n ++ $" = " ++ q).
    { assert (X : n ++ $" = enum.auto()" ++ r = (n ++ $" = enum.auto(") ++ ")"%char :: r) by (rewrite <- app_assoc; reflexivity).
      destruct n as [|c n]; [destruct Wn as [Wn _]; congruence|]. cbn [indent_line app]. change (c :: n ++ $" = enum.auto()" ++ r) with ((c :: n) ++ $" = enum.auto()" ++ r).
      rewrite X, CommentProofs3.rstrip_keep by reflexivity. exists ($"enum.auto()" ++ rstrip r). f_equal. rewrite <- app_assoc. reflexivity. }
    destruct E as [q E]. rewrite E. unfold assignments in *. cbn [flat_map]. rewrite (assigned_word i n q Hi Wn), A. split; [reflexivity|].
    constructor; auto. right. right. right. rewrite (assigned_word i n q Hi Wn). discriminate.
  - destruct (IH ls2 F2) as [A D]. pose proof (comment_line_indent i l' Hi' (comment_line_aligned l l' col C M)) as C2.
    unfold assignments in *. cbn [flat_map]. rewrite (assigned_comment _ C2), A. split; [reflexivity|]. constructor; auto. right. left. auto.
  - destruct (IH ls2 F2) as [A D]. assert (B2 : is_blank_line (indent_line i true l')).
    { pose proof (blank_aligned [] l' col (Forall_nil _) M) as B2. destruct l' as [|c l']; [constructor|]. cbn [indent_line]. rewrite rstrip_blank by auto. rewrite app_nil_r.
      eapply Forall_impl; [|exact Hi]. intros ? <-. reflexivity. }
    unfold assignments in *. cbn [flat_map]. rewrite (assigned_blank _ B2), A. split; [reflexivity|]. constructor; auto. left. auto.
Qed.

(** ** The stub *)

Lemma eol_part o e : (forall s, ~ In nl s -> ~ In nl (eo_replacements o s)) -> ~ In nl e ->
  ~ In nl (comment_python_end_of_line (eo_strip o) (eo_replacements o) e).
Proof.
  intros R N. destruct (eol_no_nl (eo_strip o) (eo_replacements o) e R N) as [-> |(r & -> & _ & Nr)]; [intros []|].
  intros I. apply in_app_or in I. destruct I as [I|I]; auto. vm_compute in I. intuition discriminate.
Qed.
Lemma value_body o e v : (forall s, ~ In nl s -> ~ In nl (eo_replacements o s)) -> word (value_python o e v) -> ~ In nl (eo_value o (v_value v)) ->
  ~ In nl (v_eol v) -> body_of [value_python o e v] (value_stub_lines o e v).
Proof.
  intros R W N1 N2. unfold value_stub_lines. apply (body_app [] _ [value_python o e v]); [apply body_comments, (original_lines (fun s => s))|].
  assert (V : forall t, ~ In nl t -> value_line (value_python o e v) ((value_python o e v ++ $" = enum.auto() # (= " ++ eo_value o (v_value v) ++ $")") ++ t)).
  { intros t Nt. split; auto. exists ($"(= " ++ eo_value o (v_value v) ++ $")" ++ t). split; [rewrite <- !app_assoc; reflexivity|].
    intros I. apply in_app_or in I. destruct I as [I|I]; [vm_compute in I; intuition discriminate|]. apply in_app_or in I. destruct I as [I|I]; auto.
    apply in_app_or in I. destruct I as [I|I]; auto. vm_compute in I. intuition discriminate. }
  destruct (shall_place_at_end_of_line _ _ _ _ _).
  - apply bo_value; [|constructor]. apply V. apply eol_part; auto.
  - apply (body_app [] _ [value_python o e v]); [apply body_comments, previous_lines|]. apply bo_value; [|constructor].
    specialize (V []). rewrite app_nil_r in V. apply V. intros [].
Qed.
Lemma spacing_blank layout last k ls sp last' : spacing_python layout last k ls = (sp, last') -> Forall (fun l => l = []) sp.
Proof.
  unfold spacing_python. destruct layout; [intros E; inversion E; constructor|]. destruct ls; [intros E; inversion E; constructor|].
  destruct last; [|intros E; inversion E; constructor]. intros E. inversion E.
  repeat match goal with |- context [if ?b then _ else _] => destruct b end; repeat constructor.
Qed.
Lemma child_body o e c : (forall s, ~ In nl s -> ~ In nl (eo_replacements o s)) ->
  (forall v, c = EValue v -> word (value_python o e v) /\ ~ In nl (eo_value o (v_value v)) /\ ~ In nl (v_eol v)) ->
  body_of (map (value_python o e) (values_of [c])) (snd (child_stub_lines o e c)).
Proof.
  intros R H. destruct c as [v|t|]; cbn.
  - destruct (H v eq_refl) as (A & B & C). apply value_body; auto.
  - apply body_comments, free_lines.
  - destruct (eo_layout o); [apply bo_blank; [reflexivity|]|]; apply bo_nil.
Qed.
Lemma children_body o e : (forall s, ~ In nl s -> ~ In nl (eo_replacements o s)) -> forall cs last,
  (forall v, In v (values_of cs) -> word (value_python o e v) /\ ~ In nl (eo_value o (v_value v)) /\ ~ In nl (v_eol v)) ->
  body_of (map (value_python o e) (values_of cs)) (lines_with (spacing_python (eo_layout o)) last (map (child_stub_lines o e) cs)).
Proof.
  intros R. induction cs as [|c cs IH]; intros last H; [constructor|]. cbn [map lines_with].
  destruct (child_stub_lines o e c) as [k ls] eqn:E. destruct (spacing_python (eo_layout o) last k ls) as [s last'] eqn:S.
  change (values_of (c :: cs)) with (values_of ([c] ++ cs)). unfold values_of at 1. rewrite flat_map_app, map_app.
  apply (body_app [] s); [apply body_blanks; apply spacing_blank in S; auto|]. apply body_app.
  - pose proof (child_body o e c R) as B. rewrite E in B. apply B. intros v ->. apply H. left. auto.
  - apply IH. intros v I. apply H. unfold values_of. cbn [flat_map]. apply in_or_app. auto.
Qed.
Lemma base_no_nl o e : ~ In nl (enum_base o e).
Proof.
  unfold enum_base. intros I.
  destruct (eo_arithmetic o (enum_scope_self e) && eo_flag o (enum_scope_self e));
    [|destruct (eo_arithmetic o (enum_scope_self e)); [|destruct (eo_flag o (enum_scope_self e))]]; vm_compute in I; intuition discriminate.
Qed.

Lemma enum_stub_read o e vs : well_formed_names e -> enum_kept o e vs -> enum_showable o e vs ->
  let doc := docstring_lines (eo_strip o) (eo_replacements o) (en_previous e) (en_eol e) in
  exists body, enum_stub o e = rstrip (enum_title o e ++ eo_location_py o) :: map (indent_line (eo_py_indent o) true) doc ++ body /\
    assignments body = map (value_python o e) vs /\ Forall nothing_else body.
Proof.
  intros W K (Hi & Nl & We & R & F) doc. rewrite <- (kept_values o e vs W K) in *. unfold enum_stub.
  assert (Nt : ~ In nl (enum_title o e ++ eo_location_py o)).
  { intros I. apply in_app_or in I. destruct I as [I|I]; auto. unfold enum_title in I. apply in_app_or in I. destruct I as [I|I]; [vm_compute in I; intuition discriminate|].
    apply in_app_or in I. destruct I as [I|I]; [destruct We as [_ We]; rewrite Forall_forall in We; apply We in I; discriminate|].
    apply in_app_or in I. destruct I as [I|I]; [vm_compute in I; intuition discriminate|]. apply in_app_or in I. destruct I as [I|I]; [exact (base_no_nl o e I)|].
    vm_compute in I; intuition discriminate. }
  assert (B : body_of (map (value_python o e) (values_of (enum_published o e))) (enum_body o e)).
  { unfold enum_body. apply children_body; auto. rewrite Forall_forall in F. auto. }
  destruct (layout_is (eo_strip o) (eo_layout o) (eo_replacements o) (enum_title o e) (eo_location_py o) (en_previous e) (en_eol e) (enum_body o e) (eo_py_indent o) Nt Hi (body_no_nl _ _ B))
    as (gap & G & ->). fold doc. rewrite !map_app.
  eexists. split; [reflexivity|].
  assert (G2 : assignments (map (indent_line (eo_py_indent o) true) gap) = [] /\ Forall nothing_else (map (indent_line (eo_py_indent o) true) gap)).
  { clear - G. induction G as [|l gap -> G [IH1 IH2]]; [split; [reflexivity|constructor]|]. cbn [map]. split; [exact IH1|]. constructor; auto. left. constructor. }
  destruct G2 as [G1 G2].
  assert (AA : forall x P, assignments x = P -> assignments (map (indent_line (eo_py_indent o) true) gap ++ x) = P).
  { intros x P <-. rewrite assignments_app. exact (f_equal (fun q => q ++ assignments x) G1). }
  destruct (enum_body o e) as [|b0 bs] eqn:E.
  - inversion B. cbn [map].
    assert (P : align_python_comments_in_block_lines [$"pass"] = [$"pass"]) by (vm_compute; reflexivity).
    match goal with |- context [align_python_comments_in_block_lines ?x] => change x with [$"pass"] end.
    rewrite P. cbn [map]. change (indent_line (eo_py_indent o) true $"pass") with (eo_py_indent o ++ $"pass").
    assert (A : assigned (eo_py_indent o ++ $"pass") = None) by (unfold assigned; rewrite lstrip_spaces by auto; vm_compute; reflexivity).
    split; [apply AA; unfold assignments; cbn [flat_map]; rewrite A; reflexivity|]. apply Forall_app. split; auto. constructor; [|constructor]. right. right. left. unfold strip. rewrite lstrip_spaces by auto. vm_compute. reflexivity.
  - rewrite <- E in *. assert (Nb : enum_body o e <> []) by (rewrite E; discriminate).
    destruct (align_lines_no_nl (enum_body o e) Nb (body_no_nl _ _ B)) as (col & A).
    destruct (body_read (eo_py_indent o) _ _ _ col Hi B A) as [R1 R2]. split; [apply AA; exact R1|]. apply Forall_app. auto.
Qed.
