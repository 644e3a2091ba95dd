From Verif Require Import PyStr PyStrLemmas PyDict RegionsModel TextModel TextSpec TextProofs CommentModel CommentSpec FillModel FillSpec FillProofs FillProofs2 FillProofs3 FillProofs4
  LambdaTextSpec LambdaTextProofs NamedModel NamedProofs3 EnumModel EnumSpec EnumProofs EnumProofs2 EnumProofs3 CommentProofs3 CommentProofs4 ClassModel ClassSpec ClassProofs ClassProofs2 ClassProofs3 ClassProofs5
  GlueModel GlueSpec GlueProofs GlueProofs2 GlueProofs3 GlueProofs4.
(** All of the glue code. *)

Lemma opened_read sc : forall path rest, cpp_classes (Outside path []) (opened sc ++ rest) = cpp_classes (Outside (path ++ namespaces sc) []) rest.
Proof.
  unfold opened, namespaces. generalize (map (fun p => match p with NsPart n | ClassPart n | EnumPart n => n end) sc). intros ns. induction ns as [|n ns IH]; intros path rest; [rewrite app_nil_r; reflexivity|].
  replace (path ++ n :: ns) with ((path ++ [n]) ++ ns) by (rewrite <- app_assoc; reflexivity). rewrite <- IH. reflexivity.
Qed.
Lemma closed_read sc : forall path rest, cpp_classes (Outside (path ++ namespaces sc) []) (closed sc ++ rest) = cpp_classes (Outside path []) rest.
Proof.
  unfold closed, namespaces. induction sc as [|p sc IH] using rev_ind; intros path rest; [rewrite app_nil_r; reflexivity|].
  rewrite !map_app. replace (map (fun _ : part => Sign "}") sc ++ map (fun _ : part => Sign "}") [p]) with (Sign "}" :: map (fun _ : part => Sign "}") sc).
  2:{ clear. induction sc as [|q sc IH]; [reflexivity|]. cbn [map app] in *. rewrite <- IH. reflexivity. }
  cbn [map]. match goal with |- context [_ ++ [?z]] => set (n := z) end. rewrite app_assoc. match goal with |- context [Outside (?x ++ [n]) []] => set (q := x) end.
  transitivity (cpp_classes (Outside q []) (map (fun _ : part => Sign "}") sc ++ rest)); [|unfold q; apply IH].
  cbn [app cpp_classes]. change (is_sign "{" (Sign "}")) with false. change (is_sign "}" (Sign "}")) with true. cbv iota. destruct (q ++ [n]) as [|z zs] eqn:E; [destruct q; discriminate|]. rewrite <- E.
  rewrite removelast_last. reflexivity.
Qed.

Section Whole.
Variable o : glue_env.
Hypothesis indent : Forall (eq sp) (ge_indent o).

Lemma class_open suffix g path rest : cpp_classes (Outside path []) (class_lex suffix g ++ rest) = cpp_classes (Inside path (g_name g ++ suffix) [Word $"public"; Word (g_name g)] [] true 0 []) rest.
Proof. reflexivity. Qed.
Lemma class_close path n base ms pub rest :
  cpp_classes (Inside path n base ms pub 0 []) ([Sign "}"; Sign ";"] ++ rest) = option_map (cons (CppClass path n base ms)) (cpp_classes (Outside path []) rest).
Proof. reflexivity. Qed.
Lemma declared path n base ms ts rest : stay 0 ts = Some 0 -> not_public ts ->
  cpp_classes (Inside path n base ms true 0 []) (ts ++ [Sign ";"] ++ rest) = cpp_classes (Inside path n base (ms ++ [Declared true ts]) true 0 []) rest.
Proof. intros S P. rewrite (inside_stay _ _ _ _ _ ts 0 0 [] _ S P). reflexivity. Qed.
Definition defined_method (g : glue_class) (m : vmethod) : member := Defined true (header_lex m) (body_lex o (qualified g) m).
Lemma members_read g path n base rest : good_class g -> forall vs ms, Forall good_method vs ->
  cpp_classes (Inside path n base ms true 0 []) (flat_map (override_lex o g) vs ++ rest) = cpp_classes (Inside path n base (ms ++ map (defined_method g) vs) true 0 []) rest.
Proof.
  intros G vs. induction vs as [|m vs IH]; intros ms F; [rewrite app_nil_r; reflexivity|]. inversion F as [|? ? M F']; subst. cbn [flat_map map]. rewrite <- app_assoc, member_read by auto.
  rewrite IH by auto. rewrite <- app_assoc. reflexivity.
Qed.
Lemma trampoline_class g path rest : good_class g ->
  cpp_classes (Outside path []) (flat_map line_lex (trampoline_lines o g) ++ rest) =
  option_map (cons (CppClass path (g_name g ++ $"_trampoline") [Word $"public"; Word (g_name g)] (Declared true (expected_first o g) :: map (defined_method g) (g_virtual g)))) (cpp_classes (Outside path []) rest).
Proof.
  intros G. rewrite trampoline_lex by auto. rewrite <- !app_assoc. rewrite class_open, declared.
  - rewrite members_read by (auto; exact (gg_methods g G)). rewrite class_close. reflexivity.
  - unfold expected_first. destruct (ge_nanobind o); reflexivity.
  - unfold expected_first. destruct (ge_nanobind o); cbn; discriminate.
Qed.
Definition used (g : glue_class) (m : str) : list lexeme := [Word $"using"; Word (g_name g); Sign ":"; Sign ":"; Word m].
Lemma uses_read g path n base rest : forall vs ms,
  cpp_classes (Inside path n base ms true 0 []) (flat_map (using_lexemes g) vs ++ rest) = cpp_classes (Inside path n base (ms ++ map (fun m => Declared true (used g m)) vs) true 0 []) rest.
Proof.
  intros vs. induction vs as [|m vs IH]; intros ms; [rewrite app_nil_r; reflexivity|]. cbn [flat_map map]. rewrite <- app_assoc.
  change (using_lexemes g m ++ flat_map (using_lexemes g) vs ++ rest) with (used g m ++ [Sign ";"] ++ flat_map (using_lexemes g) vs ++ rest). rewrite declared; [|reflexivity|cbn; discriminate].
  rewrite IH, <- app_assoc. reflexivity.
Qed.
Lemma publicist_class g path rest : good_class g ->
  cpp_classes (Outside path []) (flat_map line_lex (publicist_lines o g) ++ rest) =
  option_map (cons (CppClass path (g_name g ++ $"_publicist") [Word $"public"; Word (g_name g)] (map (fun m => Declared true (used g m)) (g_protected g)))) (cpp_classes (Outside path []) rest).
Proof. intros G. rewrite publicist_lex by auto. rewrite <- !app_assoc. rewrite class_open, uses_read, class_close. reflexivity. Qed.

(** ** The classes of a header *)

Definition made (ks : list lexeme) (cs : list shown_class) : Prop := forall rest,
  option_map (map (fun c => (k_path c, k_name c, k_base c, map show (k_members c)))) (cpp_classes (Outside [] []) (ks ++ rest)) =
  option_map (app cs) (option_map (map (fun c => (k_path c, k_name c, k_base c, map show (k_members c)))) (cpp_classes (Outside [] []) rest)).
Lemma made_nil : made [] [].
Proof. intros rest. cbn [app]. destruct (cpp_classes _ rest); reflexivity. Qed.
Lemma made_app a b ca cb : made a ca -> made b cb -> made (a ++ b) (ca ++ cb).
Proof. intros A B rest. rewrite <- app_assoc, (A (b ++ rest)), (B rest). destruct (cpp_classes _ rest); [|reflexivity]. cbn. rewrite <- app_assoc. reflexivity. Qed.
Lemma made_scope g ks c : (forall path rest, cpp_classes (Outside path []) (ks ++ rest) = option_map (cons (c path)) (cpp_classes (Outside path []) rest)) ->
  made (opened (g_scope g) ++ ks ++ closed (g_scope g)) [(fun c => (k_path c, k_name c, k_base c, map show (k_members c))) (c (namespaces (g_scope g)))].
Proof.
  intros H rest. rewrite <- !app_assoc, opened_read. cbn [app]. rewrite H. change (namespaces (g_scope g)) with ([] ++ namespaces (g_scope g)) at 2. rewrite closed_read.
  destruct (cpp_classes _ rest); reflexivity.
Qed.
Lemma show_method g m : good_class g -> good_method m -> show (defined_method g m) = expected_override o g m.
Proof.
  intros G M. unfold show, defined_method, expected_override. rewrite body_call by auto. unfold override_macro. destruct (ge_nanobind o) eqn:N, (v_pure m); unfold header_lex, arguments_lex; rewrite ?N; reflexivity.
Qed.
Lemma show_methods g vs : good_class g -> Forall good_method vs -> map show (map (defined_method g) vs) = map (expected_override o g) vs.
Proof. intros G F. induction F as [|m vs M F IH]; auto. cbn [map]. rewrite IH, show_method by auto. reflexivity. Qed.
Definition found (t : str) (cs : list shown_class) : Prop := exists ks, reads t ks /\ made ks cs.
Lemma found_nil : found [] [].
Proof. exists []. split; [exact reads_nil|exact made_nil]. Qed.
Lemma found_app a b ca cb : found a ca -> found b cb -> found (a ++ b) (ca ++ cb).
Proof. intros (ka & R1 & M1) (kb & R2 & M2). exists (ka ++ kb). split; [apply reads_app|apply made_app]; auto. Qed.
Lemma found_read t cs : found t cs -> read_glue t = Some cs.
Proof.
  intros (ks & R & M). unfold read_glue. rewrite (reads_here _ _ R). specialize (M []). rewrite app_nil_r in M. rewrite M. cbn. rewrite app_nil_r. reflexivity.
Qed.
Lemma trampoline_found g : good_class g -> exists t, (if shall_override o g then in_scope g (trampoline_text o g) else Some []) = Some t /\ found t (expected_trampoline o g).
Proof.
  intros G. unfold shall_override, expected_trampoline. destruct (ge_override o (g_name g)); cbn [andb]; [|exists []; split; [reflexivity|exact found_nil]].
  destruct (g_virtual g) as [|m ms] eqn:E; cbn [negb]; [exists []; split; [reflexivity|exact found_nil]|]. rewrite trampoline_is by (auto; congruence).
  destruct (scope_reads g (trampoline_lines o g) (gg_scope g G)) as (t & S & R); [discriminate|apply trampoline_no_nl; auto|]. exists t. split; [exact S|].
  eexists. split; [exact R|]. pose proof (made_scope g _ _ (fun path rest => trampoline_class g path rest G)) as M. cbn [k_path k_name k_base k_members map] in M.
  rewrite show_methods in M by (auto; exact (gg_methods g G)). rewrite E in M. exact M.
Qed.
Lemma publicist_found g : good_class g -> exists t, (if shall_publish o g then in_scope g (publicist_text o g) else Some []) = Some t /\ found t (expected_publicist o g).
Proof.
  intros G. unfold shall_publish, expected_publicist. destruct (ge_publish o (g_name g)); cbn [andb]; [|exists []; split; [reflexivity|exact found_nil]].
  destruct (g_protected g) as [|m ms] eqn:E; cbn [negb]; [exists []; split; [reflexivity|exact found_nil]|]. rewrite publicist_is by (auto; congruence).
  destruct (scope_reads g (publicist_lines o g) (gg_scope g G)) as (t & S & R); [discriminate|apply publicist_no_nl; auto|]. exists t. split; [exact S|].
  eexists. split; [exact R|]. pose proof (made_scope g _ _ (fun path rest => publicist_class g path rest G)) as M. cbn [k_path k_name k_base k_members] in M.
  rewrite map_map in M. rewrite E in M. exact M.
Qed.
Lemma store_found gs : Forall good_class gs -> forall v p cv cp, found v cv -> found p cp ->
  exists v' p', store_all o gs (v, p) = Some (v', p') /\ found v' (cv ++ flat_map (expected_trampoline o) gs) /\ found p' (cp ++ flat_map (expected_publicist o) gs).
Proof.
  intros F. induction F as [|g gs G F IH]; intros v p cv cp V P.
  - exists v, p. cbn [flat_map store_all]. rewrite !app_nil_r. auto.
  - destruct (trampoline_found g G) as (t & T1 & T2). destruct (publicist_found g G) as (u & U1 & U2). cbn [store_all store_glue]. unfold store_glue. rewrite U1, T1.
    destruct (IH (v ++ t) (p ++ u) _ _ (found_app _ _ _ _ V T2) (found_app _ _ _ _ P U2)) as (v' & p' & S & A & B). exists v', p'. split; [exact S|]. cbn [flat_map]. rewrite !app_assoc in *. auto.
Qed.
Theorem glue_read gs : Forall good_class gs -> exists t, glue_code o gs = Some t /\ read_glue t = Some (flat_map (expected_trampoline o) gs ++ flat_map (expected_publicist o) gs).
Proof.
  intros F. destruct (store_found gs F [] [] [] [] found_nil found_nil) as (v & p & S & A & B). exists (v ++ p). split; [exact (f_equal (option_map (fun st : glue_state => fst st ++ snd st)) S)|].
  apply found_read. exact (found_app _ _ _ _ A B).
Qed.

(** ** When it fails *)

Definition written_class (g : glue_class) : Prop := shall_override o g = true \/ shall_publish o g = true.
Lemma in_scope_some g t : in_scope g t <> None <-> Forall (fun p => exists n, p = NsPart n) (g_scope g).
Proof. rewrite <- intro_some. unfold in_scope. destruct (scope_intro (g_scope g)); cbn; (split; [intros X|intros X]); first [discriminate|exfalso; apply X; reflexivity]. Qed.
Lemma store_some g st : store_glue o g st <> None <-> (written_class g -> Forall (fun p => exists n, p = NsPart n) (g_scope g)).
Proof.
  destruct st as [v p]. unfold store_glue, written_class. pose proof (in_scope_some g (publicist_text o g)) as A. pose proof (in_scope_some g (trampoline_text o g)) as B.
  destruct (shall_publish o g), (shall_override o g).
  - destruct (in_scope g (publicist_text o g)) as [a|]; [destruct (in_scope g (trampoline_text o g)) as [b|]|].
    + split; [intros _ _; apply A; discriminate|intros _; discriminate].
    + split; [intros N; exfalso; apply N; reflexivity|intros H _; apply (proj2 B); auto].
    + split; [intros N; exfalso; apply N; reflexivity|intros H _; apply (proj2 A); auto].
  - destruct (in_scope g (publicist_text o g)) as [a|].
    + split; [intros _ _; apply A; discriminate|intros _; discriminate].
    + split; [intros N; exfalso; apply N; reflexivity|intros H _; apply (proj2 A); auto].
  - destruct (in_scope g (trampoline_text o g)) as [a|].
    + split; [intros _ _; apply B; discriminate|intros _; discriminate].
    + split; [intros N; exfalso; apply N; reflexivity|intros H _; apply (proj2 B); auto].
  - split; [intros _ [D|D]; discriminate|discriminate].
Qed.
Lemma store_all_some gs : forall st, store_all o gs st <> None <-> Forall (fun g => written_class g -> Forall (fun p => exists n, p = NsPart n) (g_scope g)) gs.
Proof.
  induction gs as [|g gs IH]; intros st; cbn [store_all]; [split; [constructor|discriminate]|]. rewrite Forall_cons_iff, <- (store_some g st). destruct (store_glue o g st) as [st'|].
  - rewrite IH. split; [intros H; split; [discriminate|auto]|tauto].
  - split; [congruence|tauto].
Qed.
Lemma glue_some_model gs : glue_code o gs <> None <-> Forall (fun g => written_class g -> Forall (fun p => exists n, p = NsPart n) (g_scope g)) gs.
Proof.
  pose proof (store_all_some gs ([], [])) as S. unfold glue_code. rewrite <- S. match goal with |- option_map _ ?x <> None <-> ?y <> None => change y with x; destruct x end; cbn; (split; [intros X|intros X]); first [discriminate|exfalso; apply X; reflexivity].
Qed.
Lemma written_glued g : written_class g <-> glued o g.
Proof.
  unfold written_class, glued, shall_override, shall_publish. rewrite !andb_true_iff, !negb_true_iff.
  assert (A : match g_virtual g with [] => true | _ => false end = false <-> g_virtual g <> []) by (destruct (g_virtual g); split; congruence).
  assert (B : match g_protected g with [] => true | _ => false end = false <-> g_protected g <> []) by (destruct (g_protected g); split; congruence).
  rewrite A, B. reflexivity.
Qed.
Lemma glue_some gs : glue_code o gs <> None <-> Forall (fun g => glued o g -> Forall (fun p => exists n, p = NsPart n) (g_scope g)) gs.
Proof.
  rewrite glue_some_model. split; intros F; (eapply Forall_impl; [|exact F]); intros g H W; apply H; apply written_glued; auto.
Qed.
End Whole.

(** ** Numbers *)

Lemma value_app a c : decimal_value (a ++ [c]) = 10 * decimal_value a + (code c - 48).
Proof. unfold decimal_value. rewrite fold_left_app. reflexivity. Qed.
Lemma digits_value fuel : forall n, n < fuel -> decimal_value (digits fuel n) = n.
Proof.
  induction fuel as [|f IH]; intros n L; [lia|]. cbn [digits]. rewrite value_app.
  assert (C : code (chr (48 + n mod 10)) - 48 = n mod 10).
  { assert (M : n mod 10 < 10) by (apply Nat.mod_upper_bound; lia). revert M. generalize (n mod 10). intros k M. do 10 (destruct k as [|k]; [reflexivity|]). lia. }
  rewrite C. destruct (Nat.ltb_spec n 10) as [S|S].
  - cbn [decimal_value fold_left]. unfold decimal_value. cbn [fold_left]. rewrite Nat.mod_small by lia. lia.
  - rewrite IH; [symmetry; apply Nat.div_mod; lia|]. assert (n / 10 < n) by (apply Nat.div_lt; lia). lia.
Qed.
Lemma decimal_read n : decimal_value (decimal n) = n.
Proof. apply digits_value. lia. Qed.

(** ** Names *)

Lemma join_snoc_scope (l : list str) (n : str) : l <> [] -> join $"::" (l ++ [n]) = join $"::" l ++ $"::" ++ n.
Proof.
  induction l as [|a l IH]; [congruence|]. intros _. destruct l as [|b l]; [reflexivity|]. change (join $"::" ((a :: b :: l) ++ [n])) with (a ++ $"::" ++ join $"::" ((b :: l) ++ [n])).
  rewrite IH by discriminate. change (join $"::" (a :: b :: l)) with (a ++ $"::" ++ join $"::" (b :: l)). rewrite <- !app_assoc. reflexivity.
Qed.
Lemma trampoline_named o e g h : h_name h = g_name g -> h_scope h = join $"::" (namespaces (g_scope g)) -> h_trampoline h = shall_override o g ->
  Forall (fun n => n <> []) (namespaces (g_scope g)) -> other_params e h = other_params e (without_trampoline h) ++ map found_as (expected_trampoline o g).
Proof.
  intros N S T W. unfold other_params. cbn [without_trampoline h_custom h_bases h_nodelete h_trampoline h_name h_scope h_special]. rewrite app_nil_r, <- app_assoc.
  replace (qualified_special (without_trampoline h)) with (qualified_special h) by reflexivity. f_equal. f_equal. rewrite T. unfold shall_override, expected_trampoline.
  destruct (ge_override o (g_name g)); [|reflexivity]. destruct (g_virtual g) as [|m ms]; [reflexivity|]. cbn [andb negb map found_as fst snd]. unfold found_as. cbn [fst snd]. f_equal. rewrite N, S.
  destruct (namespaces (g_scope g)) as [|a l]; [reflexivity|]. rewrite join_snoc_scope by discriminate. inversion W as [|? ? A _]; subst.
  destruct a as [|c a]; [congruence|]. destruct l; reflexivity || (cbn [join app]; rewrite <- ?app_assoc; reflexivity).
Qed.
