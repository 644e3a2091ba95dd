(** Proofs for C27, C28 and C48: custom bindings and the generator. *)
From Verif Require Import PyStr PyStrLemmas TextModel ScopeModel OverloadModel ModuleModel ModuleSpec.

(** *** Custom bindings *)

Lemma replace_is_substitution old new s : old <> [] -> replace old new s = join new (split old s).
Proof.
  intros H. pattern s. revert s. apply (replace_ind old); auto.
  - intros c s E IH. destruct (split old s) as [|h t] eqn:Es; [destruct (split_nonempty _ _ H Es)|].
    rewrite (split_cons old c s h t), replace_cons, IH by auto. destruct t; reflexivity.
  - intros r IH. rewrite replace_occ, split_occ, IH by auto. rewrite join_cons_ne by (apply split_nonempty; auto). reflexivity.
Qed.

Lemma replace_join old new l : old <> [] -> ~ In nl old ->
  replace old new (join [nl] l) = join [nl] (map (replace old new) l).
Proof.
  intros H Hn. induction l as [|x l IH]; auto. destruct l as [|y l]; auto.
  rewrite join_cons. cbn [map]. rewrite join_cons. cbn [app]. rewrite replace_sep by auto.
  rewrite IH. reflexivity.
Qed.

Lemma from_string_text q : str_cpp (from_string q) = q.
Proof. apply join_split. discriminate. Qed.

Lemma scope_eqb_text a b : scope_eqb (from_string a) (from_string b) = seqb a b.
Proof. unfold scope_eqb. rewrite !from_string_text. auto. Qed.

Lemma codes_get_add d sc code q :
  codes_get (codes_add d sc code) q =
  if scope_eqb sc q then Some ((match codes_get d q with Some l => l | None => [] end) ++ [code])
  else codes_get d q.
Proof.
  induction d as [|[s l] d IH]; cbn [codes_add codes_get].
  - destruct (scope_eqb sc q); auto.
  - destruct (scope_eqb s sc) eqn:E; cbn [codes_get].
    + unfold scope_eqb in *. apply seqb_true in E. rewrite E. destruct (seqb (str_cpp sc) (str_cpp q)); auto.
    + rewrite IH. unfold scope_eqb in *. destruct (seqb (str_cpp s) (str_cpp q)) eqn:E1; auto.
      apply seqb_true in E1. rewrite <- E1.
      destruct (seqb_spec (str_cpp sc) (str_cpp s)) as [E2|E2]; auto.
      rewrite <- E2, seqb_refl in E. discriminate.
Qed.

Definition codes_of (cb : custom) (is_pydef : bool) : codes := if is_pydef then cb_pydefs cb else cb_stubs cb.
Definition opt_codes (l : list str) : option (list str) := match l with [] => None | _ => Some l end.

Lemma registered_snoc b q rs r : registered b q (rs ++ [r]) =
  registered b q rs ++ match (if b then r_pydef r else r_stub r) with
                       | Some c => if seqb (r_where r) q then [c] else []
                       | None => []
                       end.
Proof.
  induction rs as [|x rs IH]; cbn [registered app]; [rewrite app_nil_r; auto|]. rewrite IH, app_assoc. auto.
Qed.

Lemma register_all_snoc rs r : register_all (rs ++ [r]) =
  add_custom_bindings (register_all rs) (r_where r) (r_stub r) (r_pydef r).
Proof. unfold register_all. rewrite fold_left_app. reflexivity. Qed.

Lemma codes_registered b q rs :
  codes_get (codes_of (register_all rs) b) (from_string q) = opt_codes (map clean_code (registered b q rs)).
Proof.
  induction rs as [|r rs IH] using rev_ind; [destruct b; reflexivity|].
  rewrite register_all_snoc, registered_snoc, map_app.
  assert (E : codes_of (add_custom_bindings (register_all rs) (r_where r) (r_stub r) (r_pydef r)) b =
              add_cleaned_code (codes_of (register_all rs) b) (r_where r) (if b then r_pydef r else r_stub r))
    by (destruct b; reflexivity).
  rewrite E. unfold add_cleaned_code. destruct (if b then r_pydef r else r_stub r) as [c|].
  - rewrite codes_get_add, scope_eqb_text, IH. destruct (seqb (r_where r) q).
    + cbn [map]. destruct (map clean_code (registered b q rs)); reflexivity.
    + rewrite app_nil_r. auto.
  - cbn [map]. rewrite app_nil_r. auto.
Qed.

Lemma flags_registered rs : main_emitted_pydef (register_all rs) = false /\ main_emitted_stub (register_all rs) = false.
Proof. induction rs as [|r rs IH] using rev_ind; [auto|]. rewrite register_all_snoc. cbn. auto. Qed.

Lemma on_own_lines_eq r :
  (let r := if startswith [nl] r then r else nl :: r in if endswith [nl] r then r else r ++ [nl]) = on_own_lines r.
Proof.
  assert (E : forall r, r <> [] -> endswith [nl] r = ceqb (last r nl) nl).
  { intros x Hx. destruct (exists_last Hx) as (y & c & ->). rewrite last_last. unfold endswith.
    rewrite rev_app_distr. cbn [rev app startswith]. rewrite andb_true_r. apply ceqb_sym. }
  unfold on_own_lines. destruct r as [|c r]; [reflexivity|]. cbn [startswith].
  rewrite andb_true_r, (ceqb_sym nl c). destruct (ceqb c nl); rewrite E by discriminate; reflexivity.
Qed.

Lemma make_custom_registered b q rs target var : target <> [] -> ~ In nl target ->
  make_custom_code (register_all rs) (from_string q) b target var =
  expected_custom clean_code target var (registered b q rs).
Proof.
  intros H Hn. unfold make_custom_code. fold (codes_of (register_all rs) b). rewrite codes_registered.
  unfold expected_custom. destruct (registered b q rs) as [|x l]; [reflexivity|].
  cbn [map opt_codes]. f_equal. rewrite replace_join by auto. rewrite on_own_lines_eq. f_equal. f_equal.
  cbn [map]. rewrite map_map. unfold substituted. f_equal; [apply replace_is_substitution; auto|].
  apply map_ext. intros a. apply replace_is_substitution; auto.
Qed.

(** *** Sorted sets *)

Lemma ltb_trans a : forall b c, str_ltb a b = true -> str_ltb b c = true -> str_ltb a c = true.
Proof.
  induction a as [|x a IH]; intros [|y b] [|z c] H1 H2; cbn [str_ltb] in *; auto; try discriminate.
  destruct (ceqb_spec x y) as [->|N1].
  - destruct (ceqb_spec y z) as [->|N2]; eauto.
  - destruct (ceqb_spec y z) as [->|N2].
    + destruct (ceqb_spec x z) as [->|]; [congruence|]. auto.
    + apply Nat.ltb_lt in H1, H2. destruct (ceqb_spec x z) as [->|]; [lia|]. apply Nat.ltb_lt. lia.
Qed.
Lemma ltb_irrefl a : str_ltb a a = false.
Proof. induction a as [|x a IH]; cbn; auto. rewrite ceqb_refl. auto. Qed.
Lemma ltb_total a : forall b, a <> b -> str_ltb a b = false -> str_ltb b a = true.
Proof.
  induction a as [|x a IH]; intros [|y b] N H; cbn [str_ltb] in *; auto; try congruence.
  rewrite (ceqb_sym y x). destruct (ceqb_spec x y) as [->|N1].
  - apply IH; auto. congruence.
  - apply Nat.ltb_ge in H. apply Nat.ltb_lt.
    assert (PyStr.code x <> PyStr.code y); [|lia]. intros E. apply N1.
    unfold PyStr.code in E. rewrite <- (Ascii.ascii_nat_embedding x), <- (Ascii.ascii_nat_embedding y), E. auto.
Qed.

Lemma insert_In x l y : In y (insert_str x l) <-> y = x \/ In y l.
Proof.
  induction l as [|z l IH]; cbn; [intuition congruence|].
  destruct (seqb_spec x z) as [->|N]; cbn; [intuition congruence|].
  destruct (str_ltb x z); cbn; [intuition congruence|]. rewrite IH. intuition congruence.
Qed.
Lemma insert_increasing x l : increasing l -> increasing (insert_str x l).
Proof.
  induction l as [|z l IH]; intros H; cbn [insert_str].
  - constructor; [constructor|constructor].
  - inversion H as [|? ? Hz Hl]; subst. destruct (seqb_spec x z) as [->|N]; auto.
    destruct (str_ltb x z) eqn:E.
    + constructor; auto. constructor; auto. rewrite Forall_forall in *. intros y Hy. eapply ltb_trans; eauto.
    + constructor; auto. rewrite Forall_forall in *. intros y Hy. apply insert_In in Hy as [Hy|Hy]; auto.
      subst y. apply ltb_total; auto.
Qed.
Lemma sorted_set_spec l : increasing (sorted_set l) /\ forall x, In x (sorted_set l) <-> In x l.
Proof.
  induction l as [|y l [IH1 IH2]]; cbn [sorted_set fold_right]; [split; [constructor|tauto]|].
  split; [apply insert_increasing; auto|]. intros x. rewrite insert_In. unfold sorted_set in IH2. rewrite IH2.
  cbn. intuition congruence.
Qed.
Lemma increasing_unique a : forall b, increasing a -> increasing b -> (forall x, In x a <-> In x b) -> a = b.
Proof.
  induction a as [|x a IH]; intros [|y b] Ha Hb H; auto.
  - destruct (proj2 (H y)); left; auto.
  - destruct (proj1 (H x)); left; auto.
  - inversion Ha as [|? ? Hx Ha']; inversion Hb as [|? ? Hy Hb']; subst. rewrite Forall_forall in *.
    assert (x = y).
    { destruct (proj1 (H x) (or_introl eq_refl)) as [E|Hin]; auto.
      destruct (proj2 (H y) (or_introl eq_refl)) as [E|Hin2]; auto.
      specialize (Hx _ Hin2). specialize (Hy _ Hin). pose proof (ltb_trans _ _ _ Hx Hy) as C.
      rewrite ltb_irrefl in C. discriminate. }
    subst y. f_equal. apply IH; auto. intros z. specialize (H z). cbn in H. split; intros Hz.
    + destruct (proj1 H (or_intror Hz)) as [E|]; auto. subst z. specialize (Hx _ Hz). rewrite ltb_irrefl in Hx. discriminate.
    + destruct (proj2 H (or_intror Hz)) as [E|]; auto. subst z. specialize (Hy _ Hz). rewrite ltb_irrefl in Hy. discriminate.
Qed.

(** *** The generator *)

Section Gen.
Variable ctx : Type.
Variable boxed : ctx -> list str.
Variable adapt : ctx -> str -> str -> ctx * (str * str).
Variable boxed_struct : str -> str.
Variable boxed_unit : str -> str * str.
Variable short : str -> str.
Notation process_all := (process_all ctx adapt).
Notation generator := (generator ctx).

(** custom code that can still be emitted *)
Definition pending (cb : custom) (b : bool) : option str :=
  if (if b then main_emitted_pydef cb else main_emitted_stub cb) then None
  else make_custom_code cb (from_string []) b $"LG_MODULE" $"m".

Lemma main_code_eq cb b :
  exists cb', make_main_module_custom_code cb $"m" b = (pending cb b, cb') /\
  pending cb' b = None /\ pending cb' (negb b) = pending cb (negb b) .
Proof.
  unfold make_main_module_custom_code, pending.
  destruct b; cbn [negb];
  [destruct (main_emitted_pydef cb) eqn:E1; [exists cb; rewrite E1; auto|]
  |destruct (main_emitted_stub cb) eqn:E1; [exists cb; rewrite E1; auto|]].
  all: destruct (make_custom_code cb (from_string []) _ _ _) as [c|] eqn:Em.
  all: try (eexists; split; [reflexivity|]; cbn; auto; fail).
  all: exists cb; rewrite E1, Em; auto.
Qed.

Lemma append_opt t o : append_custom t o = t ++ opt_text o.
Proof. destruct o; auto. cbn. rewrite app_nil_r. auto. Qed.

Lemma add_nothing l : add_to_first None None l = l.
Proof. destruct l as [|g l]; auto. cbn. rewrite !app_nil_r. destruct g; auto. Qed.

Lemma process_all_codes hs : forall cb g,
  exists cb', process_all cb g hs =
    (cb', {| g_ctx := snd (adapted adapt (g_ctx g) hs);
             g_codes := g_codes g ++ add_to_first (pending cb false) (pending cb true) (fst (adapted adapt (g_ctx g) hs));
             omit_boxed := omit_boxed g |}) /\
    forall b, pending cb' b = match hs with [] => pending cb b | _ => None end.
Proof.
  induction hs as [|[code filename] hs IH]; intros cb g.
  - exists cb. cbn. rewrite app_nil_r. split; [destruct g; reflexivity|auto].
  - cbn [ModuleModel.process_all adapted]. unfold process_cpp_code.
    destruct (adapt (g_ctx g) code filename) as [c [stub pydef]].
    destruct (main_code_eq cb false) as (cb1 & -> & N1 & K1).
    destruct (main_code_eq cb1 true) as (cb2 & -> & N2 & K2). cbn [negb] in *.
    destruct (IH cb2 {| g_ctx := c;
      g_codes := g_codes g ++ [{| source_filename := filename; gen_pydef := append_custom pydef (pending cb1 true);
                                  gen_stub := append_custom stub (pending cb false) |}];
      omit_boxed := omit_boxed g |}) as (cb' & E & Hp).
    exists cb'. rewrite E. cbn [g_ctx g_codes omit_boxed].
    rewrite K1, K2, N1, N2, add_nothing, !append_opt. destruct (adapted adapt c hs) as [l c2]. cbn [fst snd add_to_first].
    rewrite <- app_assoc. split; [reflexivity|].
    intros b. rewrite Hp. destruct hs; auto. destruct b; [auto|congruence].
Qed.

Lemma adapted_app hs1 hs2 : forall c, fst (adapted adapt c (hs1 ++ hs2)) =
  fst (adapted adapt c hs1) ++ fst (adapted adapt (snd (adapted adapt c hs1)) hs2).
Proof.
  induction hs1 as [|[code f] hs1 IH]; intros c; [reflexivity|]. cbn [adapted app].
  destruct (adapt c code f) as [c1 [stub pydef]]. specialize (IH c1).
  destruct (adapted adapt c1 (hs1 ++ hs2)), (adapted adapt c1 hs1). cbn [fst snd] in *. rewrite IH. reflexivity.
Qed.

Lemma adapted_files hs : forall c, map source_filename (fst (adapted adapt c hs)) = map snd hs.
Proof.
  induction hs as [|[code f] hs IH]; intros c; [reflexivity|]. cbn [adapted].
  destruct (adapt c code f) as [c1 [stub pydef]]. specialize (IH c1).
  destruct (adapted adapt c1 hs). cbn in *. congruence.
Qed.

Lemma process_all_app hs1 : forall hs2 cb g,
  process_all cb g (hs1 ++ hs2) = let '(cb1, g1) := process_all cb g hs1 in process_all cb1 g1 hs2.
Proof.
  induction hs1 as [|[code f] hs1 IH]; intros hs2 cb g; [reflexivity|]. cbn [app ModuleModel.process_all].
  destruct (process_cpp_code ctx adapt cb g code f). apply IH.
Qed.

Lemma process_all_extends cb g hs : exists new,
  g_codes (snd (process_all cb g hs)) = g_codes g ++ new /\ map source_filename new = map snd hs.
Proof.
  destruct (process_all_codes hs cb g) as (cb' & E & _). rewrite E. cbn [snd g_codes].
  eexists. split; [reflexivity|]. rewrite <- (adapted_files hs (g_ctx g)).
  destruct (fst (adapted adapt (g_ctx g) hs)); reflexivity.
Qed.

Lemma headers_before cb g hs1 hs2 : exists new,
  g_codes (snd (process_all cb g (hs1 ++ hs2))) = g_codes (snd (process_all cb g hs1)) ++ new /\
  map source_filename new = map snd hs2.
Proof.
  rewrite process_all_app. destruct (process_all cb g hs1) as [cb1 g1]. apply process_all_extends.
Qed.

Lemma pending_registered rs b : pending (register_all rs) b =
  expected_custom clean_code $"LG_MODULE" $"m" (registered b [] rs).
Proof using.
  unfold pending. destruct (flags_registered rs) as [E1 E2]. rewrite E1, E2.
  replace (if b then false else false) with false by (destruct b; auto).
  apply make_custom_registered; [discriminate|cbn; intuition discriminate].
Qed.

Lemma main_code_once rs c omit hs :
  g_codes (snd (process_all (register_all rs) (new_generator ctx c omit) hs)) =
  add_to_first (expected_custom clean_code $"LG_MODULE" $"m" (registered false [] rs))
               (expected_custom clean_code $"LG_MODULE" $"m" (registered true [] rs))
               (fst (adapted adapt c hs)).
Proof.
  destruct (process_all_codes hs (register_all rs) (new_generator ctx c omit)) as (cb' & E & _). rewrite E.
  cbn [snd g_codes new_generator g_ctx]. rewrite !pending_registered. reflexivity.
Qed.

Lemma second_generator rs c c' omit hs1 hs2 : hs1 <> [] ->
  let '(cb, _) := process_all (register_all rs) (new_generator ctx c omit) hs1 in
  g_codes (snd (process_all cb (new_generator ctx c' omit) hs2)) = fst (adapted adapt c' hs2).
Proof.
  intros H. destruct (process_all_codes hs1 (register_all rs) (new_generator ctx c omit)) as (cb' & E & Hp).
  rewrite E.
  destruct (process_all_codes hs2 cb' (new_generator ctx c' omit)) as (cb2 & E2 & _). rewrite E2.
  cbn [snd g_codes new_generator g_ctx]. rewrite !Hp. destruct hs1; [congruence|]. apply add_nothing.
Qed.

(** *** Text of the output *)

Lemma tidy_app_nl a b : tidy_blank_lines (a ++ [nl] ++ b) = tidy_blank_lines a ++ [nl] ++ tidy_blank_lines b.
Proof.
  unfold tidy_blank_lines. cbn [app].
  assert (E : lines (a ++ nl :: b) = lines a ++ lines b).
  { unfold lines. clear. induction a as [|x a IH].
    - cbn [app split_on]. rewrite ceqb_refl. reflexivity.
    - cbn [app split_on]. rewrite IH. destruct (ceqb x nl); [reflexivity|].
      destruct (split_on nl a) as [|h t] eqn:E; [destruct (split_on_nonempty _ _ E)|]. reflexivity. }
  rewrite E, map_app. unfold unlines. rewrite join_app; [reflexivity| |].
  - intros C. apply map_eq_nil in C. destruct (split_on_nonempty _ _ C).
  - intros C. apply map_eq_nil in C. destruct (split_on_nonempty _ _ C).
Qed.

Lemma tidy_join l : tidy_blank_lines (join [nl; nl] l) = join [nl; nl] (map tidy_blank_lines l).
Proof.
  induction l as [|x l IH]; [reflexivity|]. destruct l as [|y l]; [reflexivity|].
  rewrite join_cons. cbn [map]. rewrite join_cons.
  change ([nl; nl] ++ join [nl; nl] (y :: l)) with ([nl] ++ [] ++ [nl] ++ join [nl; nl] (y :: l)).
  rewrite tidy_app_nl. rewrite (tidy_app_nl []). rewrite IH. reflexivity.
Qed.

Lemma surround_marked token g text :
  surround_code_with_filename short token (source_filename g) text = marked short token g text.
Proof.
  unfold surround_code_with_filename, marked, decorate_impl. destruct (source_filename g); auto.
  rewrite <- !app_assoc. reflexivity.
Qed.

Lemma pydef_text post g :
  pydef_code ctx boxed boxed_struct boxed_unit short post g =
  post (join [nl; nl] (map (fun c => tidy_blank_lines (marked short "/" c (gen_pydef c)))
                           (codes_with_boxed_types ctx boxed boxed_struct boxed_unit g))).
Proof.
  unfold pydef_code. f_equal. change shorten_lines_containing_only_spaces with tidy_blank_lines.
  rewrite tidy_join, map_map. f_equal. apply map_ext. intros c. rewrite surround_marked. auto.
Qed.
Lemma stub_text post g :
  stub_code ctx boxed boxed_struct boxed_unit short post g =
  post (join [nl; nl] (map (fun c => tidy_blank_lines (marked short "#" c (gen_stub c)))
                           (codes_with_boxed_types ctx boxed boxed_struct boxed_unit g))).
Proof.
  unfold stub_code. f_equal. change shorten_lines_containing_only_spaces with tidy_blank_lines.
  rewrite tidy_join, map_map. f_equal. apply map_ext. intros c. rewrite surround_marked. auto.
Qed.

Lemma boxed_struct_codes g : exists l, increasing l /\ (forall x, In x l <-> In x (boxed (g_ctx g))) /\
  boxed_types_cpp_code ctx boxed boxed_struct g = concat (map boxed_struct l).
Proof using. exists (sorted_set (boxed (g_ctx g))). destruct (sorted_set_spec (boxed (g_ctx g))). auto. Qed.

Lemma boxed_order_irrelevant g g' : (forall x, In x (boxed (g_ctx g)) <-> In x (boxed (g_ctx g'))) ->
  boxed_types_cpp_code ctx boxed boxed_struct g = boxed_types_cpp_code ctx boxed boxed_struct g'.
Proof using.
  intros H. unfold boxed_types_cpp_code. do 2 f_equal.
  destruct (sorted_set_spec (boxed (g_ctx g))) as [A1 A2], (sorted_set_spec (boxed (g_ctx g'))) as [B1 B2].
  apply increasing_unique; auto. intros x. rewrite A2, B2. auto.
Qed.

Lemma codes_boxed g : codes_with_boxed_types ctx boxed boxed_struct boxed_unit g =
  (if omit_boxed g then [] else
   match boxed (g_ctx g) with
   | [] => []
   | _ => let '(s, p) := boxed_unit (boxed_types_cpp_code ctx boxed boxed_struct g) in
          [{| source_filename := $"BoxedTypes"; gen_pydef := p; gen_stub := s |}]
   end) ++ g_codes g.
Proof.
  unfold codes_with_boxed_types, boxed_types_generated_code.
  destruct (omit_boxed g); [reflexivity|]. destruct (boxed (g_ctx g)); [reflexivity|].
  destruct (boxed_unit _). reflexivity.
Qed.

Lemma pydef_extends cb g hs : g_codes g <> [] -> hs <> [] ->
  let g' := snd (process_all cb g hs) in
  (forall x, In x (boxed (g_ctx g)) <-> In x (boxed (g_ctx g'))) ->
  exists more,
  pydef_code ctx boxed boxed_struct boxed_unit short (fun x => x) g' =
  pydef_code ctx boxed boxed_struct boxed_unit short (fun x => x) g ++ [nl; nl] ++ more.
Proof.
  intros Hg Hh g' Hb. rewrite !pydef_text, !codes_boxed.
  rewrite (boxed_order_irrelevant g g') by auto.
  destruct (process_all_extends cb g hs) as (new & E & Ef). fold g' in E. rewrite E.
  assert (Eo : omit_boxed g' = omit_boxed g).
  { unfold g'. destruct (process_all_codes hs cb g) as (cb' & E' & _). rewrite E'. reflexivity. }
  rewrite Eo.
  assert (Em : (match boxed (g_ctx g') with [] => true | _ => false end) = match boxed (g_ctx g) with [] => true | _ => false end).
  { destruct (boxed (g_ctx g')) as [|x ?], (boxed (g_ctx g)) as [|y ?]; auto.
    - destruct (proj1 (Hb y)); left; auto.
    - destruct (proj2 (Hb x)); left; auto. }
  assert (Ht : (if omit_boxed g then [] else match boxed (g_ctx g') with [] => [] | _ =>
      let '(s, p) := boxed_unit (boxed_types_cpp_code ctx boxed boxed_struct g') in
          [{| source_filename := $"BoxedTypes"; gen_pydef := p; gen_stub := s |}] end) =
     (if omit_boxed g then [] else match boxed (g_ctx g) with [] => [] | _ =>
      let '(s, p) := boxed_unit (boxed_types_cpp_code ctx boxed boxed_struct g') in
          [{| source_filename := $"BoxedTypes"; gen_pydef := p; gen_stub := s |}] end)).
  { destruct (omit_boxed g); auto. destruct (boxed (g_ctx g')), (boxed (g_ctx g)); auto; discriminate. }
  rewrite Ht. set (B := if omit_boxed g then [] else _).
  rewrite app_assoc, (map_app _ (B ++ g_codes g)). rewrite join_app; [eexists; reflexivity| |].
  - intros C. apply map_eq_nil, app_eq_nil in C. tauto.
  - intros C. apply map_eq_nil in C. subst new. destruct hs; [congruence|discriminate].
Qed.
End Gen.
