From Verif Require Import PyStr PyStrLemmas PyDict RegionsModel TextModel TextSpec TextProofs CommentModel CommentSpec FillModel FillSpec FillProofs FillProofs2 FillProofs3 FillProofs4
  LambdaTextSpec LambdaTextProofs NamedModel NamedProofs3 EnumModel EnumSpec EnumProofs EnumProofs2 EnumProofs3 CommentProofs3 CommentProofs4 ClassModel ClassSpec ClassProofs ClassProofs2 ClassProofs3 ClassProofs5
  GlueModel GlueSpec.
(** The text of the glue code: the templates, once filled. *)
Local Notation K := glue_names.
Local Notation T := FillSpec.Text.
Local Notation H := FillSpec.Hole.

Lemma names_are : Forall is_name K.
Proof. apply names_ok. reflexivity. Qed.
Lemma name_is k : smem k K = true -> is_name k.
Proof. intros M. apply smem_In in M. pose proof names_are as F. rewrite Forall_forall in F. auto. Qed.
Lemma comma_name : In $"maybe_comma" K.
Proof. apply smem_In. reflexivity. Qed.
(** A text without holes, which ends with a brace. *)
Lemma settled_id t z : contains (placeholder $"maybe_comma") (t ++ z) = false -> z = $"}" \/ z = $"};" -> settle_commas (t ++ z) = t ++ z.
Proof.
  intros C Z. unfold settle_commas. rewrite replace_no_occ by exact C.
  assert (E : forall p, endswith p (t ++ z) = startswith (rev p) (rev z ++ rev t)) by (intros p; unfold endswith; rewrite rev_app_distr; reflexivity).
  destruct Z as [-> | ->]; cbv zeta; rewrite !E; reflexivity.
Qed.

Lemma last_case (r : str) : r = [] \/ exists q c, r = q ++ [c].
Proof. induction r using rev_ind; eauto. Qed.
(** A text whose lines are without holes and which ends with a brace. *)
Lemma neutral_close s : Forall (hole_free K) (lines (s ++ $"}")) -> neutral K (s ++ $"}").
Proof.
  intros F.
  assert (W : forall k, In k K -> contains (placeholder k) (s ++ $"}") = false).
  { intros k I. destruct (contains (placeholder k) (s ++ $"}")) eqn:C; auto. destruct (contains_line (placeholder k) (s ++ $"}")) as (l & L & D); auto.
    - pose proof I as J. revert J. assert (A : forallb (fun k => negb (contains [nl] (placeholder k))) K = true) by reflexivity. rewrite forallb_forall in A. intros J. apply A in J.
      apply no_nl_in. apply negb_true_iff. exact J.
    - rewrite Forall_forall in F. rewrite (F l L k I) in D. discriminate. }
  intros a b k E I. assert (N : is_name k) by (pose proof names_are as N; rewrite Forall_forall in N; auto). assert (G : forall r, b <> k ++ "}"%char :: r).
  { intros r ->. specialize (W k I). rewrite E in W. rewrite (contains_app_r (placeholder k) a) in W; [discriminate|]. apply contains_true. exists [], r. unfold placeholder. cbn [app]. rewrite <- app_assoc. reflexivity. }
  split; auto. intros r Er. destruct (last_case r) as [->|(q & c & ->)]; [rewrite app_nil_r in Er; exact (G [] (eq_sym Er))|].
  rewrite app_assoc in Er. apply app_inj_tail in Er. destruct Er as [Ek _]. destruct N as [N1 N2].
  destruct (last_case b) as [->|(b' & x & ->)].
  - apply app_inj_tail in E. destruct E as [_ E]. discriminate.
  - rewrite app_comm_cons, app_assoc in E. apply app_inj_tail in E. destruct E as [_ E]. apply N2. rewrite Ek, E. rewrite !in_app_iff. left. right. left. auto.
Qed.

Section Text.
Variable o : glue_env.
Hypothesis indent : Forall (eq sp) (ge_indent o).
Notation i := (ge_indent o).

Definition override_pieces : list (list piece) :=
  [[H $"return_type"; T $" "; H $"function_name_cpp"; T $"("; H $"param_list"; T $")"; H $"maybe_const"; T $" override"];
   [T ($"{" ++ [nl]); H $"_i_"; H $"OVERRIDE_TYPE"; T $"("]] ++
  (if ge_nanobind o then [] else
   [[H $"_i_"; H $"_i_"; H $"return_type"; T $", // return type"];
    [H $"_i_"; H $"_i_"; H $"implemented_class"; T $", // parent class"]]) ++
  [[H $"_i_"; H $"_i_"; T [dq]; H $"function_name_python"; T ([dq] ++ $", // function name (python)")];
   [H $"_i_"; H $"_i_"; H $"function_name_cpp"; H $"maybe_comma_if_has_params"; T $" // function name (c++)"];
   [H $"_i_"; H $"_i_"; H $"param_names"; T $" // params"]; [H $"_i_"; T $");"]; [T $"}"]].
Lemma override_template_pieces : override_template o = render_lines override_pieces.
Proof. unfold override_template, override_pieces. destruct (ge_nanobind o); reflexivity. Qed.
Ltac pieces := repeat (apply Forall_cons; [first [apply name_is; reflexivity|apply neutralb_true; reflexivity]|]); apply Forall_nil.
Lemma override_pieces_ok : Forall (Forall (piece_ok K)) override_pieces.
Proof. unfold override_pieces. destruct (ge_nanobind o); cbn [app]; repeat (apply Forall_cons; [pieces|]); apply Forall_nil. Qed.

(** The lines of a method. *)
Definition const_text (m : vmethod) : str := if v_const m then $" const" else [].
Definition comma_text (m : vmethod) : str := match v_params m with [] => [] | _ => $"," end.
Definition method_lines (implemented : str) (m : vmethod) : list str :=
  [concat [v_return m; $" "; v_name m; $"("; join $", " (map fst (v_params m)); $")"; const_text m; $" override"]; $"{"; concat [i; override_macro o m; $"("]] ++
  (if ge_nanobind o then [] else [concat [i; i; v_return m; $", // return type"]; concat [i; i; implemented; $", // parent class"]]) ++
  [concat [i; i; [dq]; v_python m; [dq] ++ $", // function name (python)"]; concat [i; i; v_name m; comma_text m; $" // function name (c++)"]] ++
  (match v_params m with [] => [] | ps => [concat [i; i; join $", " (map snd ps); $" // params"]] end) ++ [concat [i; $");"]; $"}"].

Definition override_values (implemented : str) (m : vmethod) : list (str * str) :=
    [($"OVERRIDE_TYPE", override_macro o m); ($"_i_", i); ($"return_type", v_return m); ($"function_name_cpp", v_name m);
     ($"function_name_python", v_python m); ($"maybe_const", if v_const m then $" const" else []); ($"implemented_class", implemented);
     ($"param_list", join $", " (map fst (v_params m))); ($"maybe_comma_if_has_params", match v_params m with [] => [] | _ => $"," end)].
Lemma neutral_nil : neutral K [].
Proof. intros a b k E. destruct a; discriminate. Qed.
Lemma neutral_join sep ls : neutral K sep -> Forall (neutral K) ls -> neutral K (join sep ls).
Proof.
  intros S F. destruct ls as [|a ls]; [apply neutral_nil|]. inversion F as [|? ? A F']; subst. clear F. revert a A. induction F' as [|b ls B F IH]; intros a A.
  - exact A.
  - change (neutral K (a ++ sep ++ join sep (b :: ls))). repeat apply neutral_app; auto.
Qed.
Lemma indent_neutral : neutral K i.
Proof. apply no_brace_neutral. intros I. rewrite Forall_forall in indent. apply indent in I. discriminate. Qed.
Lemma macro_word m : word (override_macro o m).
Proof. unfold override_macro. destruct (ge_nanobind o), (v_pure m); split; try discriminate; repeat constructor. Qed.
Lemma names_text m : good_method m -> neutral K (join $", " (map snd (v_params m))).
Proof.
  intros G. apply neutral_join; [apply neutralb_true; reflexivity|]. apply Forall_map. eapply Forall_impl; [|exact (gm_params m G)]. intros p (_ & _ & _ & W). apply word_neutral. auto.
Qed.
Lemma params_text m : good_method m -> neutral K (join $", " (map fst (v_params m))).
Proof.
  intros G. apply neutral_join; [apply neutralb_true; reflexivity|]. apply Forall_map. eapply Forall_impl; [|exact (gm_params m G)]. intros p (_ & _ & W & _). auto.
Qed.
Lemma return_neutral m : good_method m -> neutral K (v_return m).
Proof. intros G. apply simple_neutral. exact (proj2 (proj1 (gm_return m G))). Qed.
Lemma neutral_concat ls : Forall (neutral K) ls -> neutral K (concat ls).
Proof. induction 1 as [|a ls A _ IH]; [apply neutral_nil|]. cbn [concat]. apply neutral_app; auto. Qed.
Lemma brace_free : hole_free K $"{".
Proof. intros k I. assert (A : forallb (fun k => negb (contains (placeholder k) $"{")) K = true) by reflexivity. rewrite forallb_forall in A. apply A in I. apply negb_true_iff. exact I. Qed.
Lemma join_not_in c sep (ls : list str) : ~ In c sep -> Forall (fun l => ~ In c l) ls -> ~ In c (join sep ls).
Proof. intros S F I. apply join_In in I. destruct I as [I|(x & J & I)]; auto. rewrite Forall_forall in F. exact (F x J I). Qed.
Lemma params_no_nl m : good_method m -> ~ In nl (join $", " (map fst (v_params m))).
Proof.
  intros G. apply join_not_in; [intros I; cbn in I; intuition discriminate|]. apply Forall_map. eapply Forall_impl; [|exact (gm_params m G)]. intros p ((ps & E & F) & _). rewrite E.
  rewrite <- flat_map_concat_map. exact (written_no_nl ps F).
Qed.
Lemma names_no_nl m : good_method m -> ~ In nl (join $", " (map snd (v_params m))).
Proof.
  intros G. apply join_not_in; [intros I; cbn in I; intuition discriminate|]. apply Forall_map. eapply Forall_impl; [|exact (gm_params m G)]. intros p (_ & _ & _ & W).
  apply simple_no_nl, word_simple, W.
Qed.
Definition plain (l : str) : Prop := hole_free K l /\ ~ In nl l.
Lemma plain_check l : neutralb K l && negb (contains [nl] l) = true -> neutral K l /\ ~ In nl l.
Proof. intros E. apply andb_prop in E. destruct E as [A B]. split; [apply neutralb_true; auto|apply no_nl_in, negb_true_iff; auto]. Qed.
Lemma plain_concat ls : Forall (fun l => neutral K l /\ ~ In nl l) ls -> plain (concat ls).
Proof.
  intros F. split; [apply neutral_free, neutral_concat; eapply Forall_impl; [|exact F]; intros l [A _]; exact A|]. induction F as [|a ls [_ A] _ IH]; [intros []|]. cbn [concat]. rewrite in_app_iff. tauto.
Qed.
Lemma word_fits s : word s -> neutral K s /\ ~ In nl s.
Proof. intros W. split; [apply word_neutral; auto|]. apply simple_no_nl, word_simple, W. Qed.
Lemma indent_fits : neutral K i /\ ~ In nl i.
Proof. split; [exact indent_neutral|]. apply sp_no_nl. exact indent. Qed.
Lemma return_fits m : good_method m -> neutral K (v_return m) /\ ~ In nl (v_return m).
Proof. intros G. split; [apply return_neutral; auto|]. apply simple_no_nl. exact (proj2 (proj1 (gm_return m G))). Qed.
Lemma method_plain implemented m : neutral K implemented /\ ~ In nl implemented -> good_method m -> Forall plain (method_lines implemented m).
Proof.
  intros Ni G. pose proof (conj (names_text m G) (names_no_nl m G)) as Nn. pose proof (conj (params_text m G) (params_no_nl m G)) as Np. pose proof (return_fits m G) as Nr.
  pose proof (word_fits _ (gm_name m G)) as Nc. pose proof (word_fits _ (gm_python m G)) as Ny. pose proof (word_fits _ (macro_word m)) as Nm. pose proof indent_fits as Nt.
  assert (N1 : neutral K (const_text m) /\ ~ In nl (const_text m)) by (unfold const_text; destruct (v_const m); apply plain_check; reflexivity).
  assert (N2 : neutral K (comma_text m) /\ ~ In nl (comma_text m)) by (unfold comma_text; destruct (v_params m); apply plain_check; reflexivity).
  unfold method_lines. destruct (ge_nanobind o); destruct (v_params m) as [|p ps]; cbn [app].
  all: repeat (apply Forall_cons; [first [apply plain_concat; repeat (apply Forall_cons; [first [assumption|apply plain_check; reflexivity]|]); apply Forall_nil|split; [exact brace_free|intros [E|[]]; discriminate]|idtac]|]); try apply Forall_nil.
  all: split; [intros k I|intros [E|[]]; discriminate].
  all: assert (A : forallb (fun k => negb (contains (placeholder k) $"}")) K = true) by reflexivity; rewrite forallb_forall in A; apply A in I; apply negb_true_iff; exact I.
Qed.
Lemma plain_lines ls : ls <> [] -> Forall plain ls -> Forall (hole_free K) (lines (unlines ls)).
Proof.
  intros N F. rewrite lines_unlines; auto; [eapply Forall_impl; [|exact F]; intros l [A _]; exact A|]. eapply Forall_impl; [|exact F]. intros l [_ A]. exact A.
Qed.
Lemma plain_text ls : Forall plain (ls ++ [$"}"]) -> neutral K (unlines (ls ++ [$"}"])).
Proof.
  intros F. apply plain_lines in F; [|destruct ls; discriminate]. destruct ls as [|a ls]; [apply (neutral_close []); exact F|].
  rewrite unlines_app, unlines_single, app_assoc in * by discriminate. apply neutral_close. exact F.
Qed.
Lemma method_end implemented m : exists ls, method_lines implemented m = ls ++ [$"}"].
Proof. unfold method_lines. rewrite !app_assoc. change [concat [i; $");"]; $"}"] with ([concat [i; $");"]] ++ [$"}"]). rewrite app_assoc. eauto. Qed.
Lemma method_is implemented m : neutral K implemented /\ ~ In nl implemented -> good_method m ->
  process_code_template (override_template o) (override_values implemented m)
    [($"param_names", match v_params m with [] => None | ps => Some (join $", " (map snd ps)) end)] true = unlines (method_lines implemented m).
Proof.
  intros Ni' G. pose proof (proj1 Ni') as Ni. pose proof (names_text m G) as Nn. pose proof (params_text m G) as Np. pose proof (return_neutral m G) as Nr.
  pose proof (word_neutral K _ (gm_name m G)) as Nc. pose proof (word_neutral K _ (gm_python m G)) as Ny. pose proof (word_neutral K _ (macro_word m)) as Nm.
  set (dl := [($"param_names", match v_params m with [] => None | ps => Some (join $", " (map snd ps)) end)]).
  assert (V : Forall (neutral K) (map snd (override_values implemented m))).
  { unfold override_values. cbn [map snd]. repeat (apply Forall_cons; [auto using indent_neutral|]); [..|apply Forall_nil].
    - destruct (v_const m); apply neutralb_true; reflexivity.
    - destruct (v_params m); apply neutralb_true; reflexivity. }
  assert (I : incl (map fst (override_values implemented m)) K) by (apply smem_incl; reflexivity).
  assert (D : incl (map fst dl) K) by (apply smem_incl; reflexivity).
  assert (DV : forall k v, In (k, Some v) dl -> neutral K v).
  { intros k v J. unfold dl in J. destruct (v_params m); destruct J as [J|[]]; inversion J; subst. exact Nn. }
  assert (P : process_code_template (override_template o) (override_values implemented m) dl false = unlines (method_lines implemented m)).
  { rewrite override_template_pieces. rewrite (process_ok K _ _ I D names_are V DV override_pieces override_pieces_ok).
    - unfold override_pieces, override_values, method_lines, dl, const_text, comma_text. destruct (ge_nanobind o), (v_params m); reflexivity.
    - pose proof (sp_no_nl i indent) as Ind. unfold override_pieces. destruct (ge_nanobind o); cbn [app]; repeat (apply Forall_cons; [intros S; first [discriminate S|idtac]|]); try apply Forall_nil.
      all: unfold dl in *; destruct (v_params m); [|discriminate S].
      all: repeat (apply Forall_cons; [|]); try apply Forall_nil; cbn.
      all: try exact Ind.
      all: first [split; [intuition discriminate|intros v E; discriminate]|intuition discriminate]. }
  change (settle_commas (process_code_template (override_template o) (override_values implemented m) dl false) = unlines (method_lines implemented m)).
  rewrite P. pose proof (method_plain implemented m Ni' G) as F. destruct (method_end implemented m) as (ls & E). rewrite E in *.
  pose proof (neutral_free _ _ (plain_text ls F) _ comma_name) as C. destruct ls as [|a ls]; [exact (settled_id [] _ C (or_introl eq_refl))|].
  rewrite unlines_app, unlines_single, app_assoc in * by discriminate. exact (settled_id _ _ C (or_introl eq_refl)).
Qed.
Lemma override_lines_is implemented m : neutral K implemented /\ ~ In nl implemented -> good_method m -> override_lines o implemented m = method_lines implemented m.
Proof.
  intros N G. transitivity (lines (unlines (method_lines implemented m))); [exact (f_equal lines (method_is implemented m N G))|].
  apply lines_unlines; [discriminate|]. eapply Forall_impl; [|exact (method_plain implemented m N G)]. intros l [_ A]. exact A.
Qed.

(** ** The classes *)

Lemma indent_no_nl_line l : ~ In nl l -> ~ In nl (indent_line i true l).
Proof. intros N. unfold indent_line. destruct l as [|c l]; auto. rewrite in_app_iff. intros [I|I]; [exact (sp_no_nl i indent I)|]. revert I. apply rstrip_no_nl. auto. Qed.
Lemma indented ls : ls <> [] -> Forall (fun l => ~ In nl l) ls -> indent_code (unlines ls) 4 false (Some i) true = unlines (map (indent_line i true) ls).
Proof. intros N F. unfold indent_code, indent_code_str. rewrite lines_unlines; auto. Qed.
Lemma indent_white : LambdaTextSpec.white i.
Proof. split; [|apply sp_no_nl; exact indent]. apply forallb_forall. intros c I. rewrite Forall_forall in indent. apply indent in I. subst c. reflexivity. Qed.
Lemma plain_indent l : plain l -> plain (indent_line i true l).
Proof. intros [A B]. split; [apply free_indent; auto; exact indent_white|apply indent_no_nl_line; auto]. Qed.
Lemma close_neutral l ls : (exists a, l = a ++ $"}") -> Forall plain (ls ++ [l]) -> neutral K (unlines (ls ++ [l])).
Proof.
  intros (a & ->) F. apply plain_lines in F; [|destruct ls; discriminate]. destruct ls as [|b ls]; [apply neutral_close; exact F|].
  rewrite unlines_app, unlines_single, !app_assoc in * by discriminate. apply neutral_close. exact F.
Qed.
Definition virtual_lines (g : glue_class) : list str := flat_map (method_lines (qualified g)) (g_virtual g).
Lemma qualified_simple g : good_class g -> Forall (fun c => simple_c c = true) (qualified g).
Proof.
  intros G. unfold qualified. apply simple_join; [apply simple_by_check; reflexivity|]. apply Forall_app. split.
  - apply Forall_map. eapply Forall_impl; [|exact (gg_scope g G)]. intros [n|n|n] W; try tauto. apply word_simple, W.
  - constructor; [|constructor]. apply word_simple, (gg_name g G).
Qed.
Lemma qualified_fits g : good_class g -> neutral K (qualified g) /\ ~ In nl (qualified g).
Proof. intros G. pose proof (qualified_simple g G) as S. split; [apply simple_neutral|apply simple_no_nl]; auto. Qed.
Lemma virtual_plain g : good_class g -> Forall plain (virtual_lines g).
Proof.
  intros G. unfold virtual_lines. apply Forall_flat_map. eapply Forall_impl; [|exact (gg_methods g G)]. intros m M. apply method_plain; auto. apply qualified_fits; auto.
Qed.
Lemma virtual_end g : g_virtual g <> [] -> exists ls, virtual_lines g = ls ++ [$"}"].
Proof.
  intros N. destruct (exists_last N) as (ms & m & E). unfold virtual_lines. rewrite E, flat_map_app. cbn [flat_map]. rewrite app_nil_r.
  destruct (method_end (qualified g) m) as (ls & ->). rewrite app_assoc. eauto.
Qed.
Lemma override_all g : good_class g -> flat_map (override_lines o (qualified g)) (g_virtual g) = virtual_lines g.
Proof.
  intros G. unfold virtual_lines. pose proof (gg_methods g G) as F. induction F as [|m ms M F IH]; auto. cbn [flat_map]. rewrite IH, override_lines_is; auto. apply qualified_fits; auto.
Qed.
Definition list_text (g : glue_class) : str := unlines (map (indent_line i true) (virtual_lines g)).
Lemma list_neutral g : good_class g -> g_virtual g <> [] -> neutral K (list_text g).
Proof.
  intros G N. pose proof (virtual_plain g G) as F. destruct (virtual_end g N) as (ls & E). unfold list_text. rewrite E in *. rewrite map_app. cbn [map]. apply close_neutral.
  - exists i. reflexivity.
  - change [indent_line i true $"}"] with (map (indent_line i true) [$"}"]). rewrite <- map_app. apply Forall_map. eapply Forall_impl; [|exact F]. exact plain_indent.
Qed.
Definition first_line (g : glue_class) : str :=
  if ge_nanobind o then concat [$"    NB_TRAMPOLINE("; g_name g; $", "; decimal (length (g_virtual g)); $");"] else concat [$"    using "; g_name g; $"::"; g_name g; $";"].
Definition class_line (suffix : str) (g : glue_class) : str := concat [$"class "; g_name g ++ suffix; $" : public "; g_name g].
Definition trampoline_lines (g : glue_class) : list str :=
  [$"// helper type to enable overriding virtual methods in python"; class_line $"_trampoline" g; $"{"; $"public:"; first_line g; []] ++
  map (indent_line i true) (virtual_lines g) ++ [$"};"].
Definition trampoline_pieces : list piece :=
  [T ($"// helper type to enable overriding virtual methods in python" ++ [nl] ++ $"class "); H $"trampoline_class_name"; T $" : public "; H $"class_name"] ++
  (if ge_nanobind o then [T ([nl] ++ $"{" ++ [nl] ++ $"public:" ++ [nl] ++ $"    NB_TRAMPOLINE("); H $"class_name"; T $", "; H $"nb_virtual_methods"; T ($");" ++ [nl] ++ [nl])]
   else [T ([nl] ++ $"{" ++ [nl] ++ $"public:" ++ [nl] ++ $"    using "); H $"class_name"; T $"::"; H $"class_name"; T ($";" ++ [nl] ++ [nl])]) ++
  [H $"trampoline_list"; T ([nl] ++ $"};")].
Lemma word_app a b : word a -> Forall (fun c => is_word c = true) b -> word (a ++ b).
Proof. intros [A1 A2] B. split; [destruct a; [congruence|discriminate]|apply Forall_app; auto]. Qed.
Lemma suffix_word (g : glue_class) s : good_class g -> forallb is_word s = true -> word (g_name g ++ s).
Proof. intros G F. apply word_app; [apply (gg_name g G)|]. rewrite forallb_forall in F. apply Forall_forall. auto. Qed.
Lemma digits_word fuel : forall n, Forall (fun c => is_word c = true) (digits fuel n).
Proof.
  induction fuel as [|f IH]; intros n; [constructor|]. cbn [digits]. apply Forall_app. split; [destruct (n <? 10); [constructor|apply IH]|]. constructor; [|constructor].
  assert (L : n mod 10 < 10) by (apply Nat.mod_upper_bound; lia). revert L. generalize (n mod 10). intros k L. do 10 (destruct k as [|k]; [reflexivity|]). lia.
Qed.
Lemma decimal_word n : word (decimal n).
Proof. split; [|apply digits_word]. unfold decimal. cbn [digits]. destruct (n <? 10); [discriminate|]. destruct (digits n (n / 10)); discriminate. Qed.
Lemma trampoline_is g : good_class g -> g_virtual g <> [] -> trampoline_text o g = unlines (trampoline_lines g).
Proof.
  intros G N. pose proof (virtual_plain g G) as F. destruct (virtual_end g N) as (ls & E). unfold trampoline_text. rewrite override_all by auto.
  rewrite indented; [|rewrite E; destruct ls; discriminate|eapply Forall_impl; [|exact F]; intros l [_ A]; exact A]. fold (list_text g).
  etransitivity; [apply (fill_plain K _ trampoline_pieces _
    ([$"// helper type to enable overriding virtual methods in python" ++ [nl] ++ $"class "; g_name g ++ $"_trampoline"; $" : public "; g_name g] ++
     (if ge_nanobind o then [[nl] ++ $"{" ++ [nl] ++ $"public:" ++ [nl] ++ $"    NB_TRAMPOLINE("; g_name g; $", "; decimal (length (g_virtual g)); $");" ++ [nl] ++ [nl]]
      else [[nl] ++ $"{" ++ [nl] ++ $"public:" ++ [nl] ++ $"    using "; g_name g; $"::"; g_name g; $";" ++ [nl] ++ [nl]]) ++ [list_text g; [nl] ++ $"};"]))|].
  - unfold trampoline_template, trampoline_pieces. destruct (ge_nanobind o); reflexivity.
  - unfold trampoline_pieces. destruct (ge_nanobind o); cbn [app]; pieces.
  - apply smem_incl. reflexivity.
  - apply names_ok. reflexivity.
  - cbn [map snd]. repeat (apply Forall_cons; [|]); [..|apply Forall_nil].
    + apply word_neutral. apply suffix_word; auto.
    + apply word_neutral, decimal_word.
    + apply word_neutral, (gg_name g G).
    + apply list_neutral; auto.
  - exact comma_name.
  - unfold trampoline_pieces. destruct (ge_nanobind o); reflexivity.
  - unfold endswith. destruct (ge_nanobind o); cbn [app concat]; repeat rewrite app_comm_cons; repeat rewrite app_assoc; rewrite app_nil_r, rev_app_distr; reflexivity.
  - unfold endswith. destruct (ge_nanobind o); cbn [app concat]; repeat rewrite app_comm_cons; repeat rewrite app_assoc; rewrite app_nil_r, rev_app_distr; reflexivity.
  - unfold endswith. destruct (ge_nanobind o); cbn [app concat]; repeat rewrite app_comm_cons; repeat rewrite app_assoc; rewrite app_nil_r, rev_app_distr; reflexivity.
  - unfold trampoline_lines. rewrite unlines_app by (try discriminate; destruct (map _ _); discriminate).
    rewrite (unlines_app (map _ _) [_]), unlines_single by (try discriminate; rewrite E, map_app; destruct (map _ ls); discriminate). fold (list_text g).
    unfold first_line, class_line. destruct (ge_nanobind o); cbn [app concat]; rewrite ?app_nil_r; unfold unlines; cbn [join app]; repeat (rewrite <- app_assoc; cbn [app]); reflexivity.
Qed.

Definition using_line (g : glue_class) (m : str) : str := $"using " ++ g_name g ++ $"::" ++ m ++ $";".
Definition publicist_lines (g : glue_class) : list str :=
  [$"// helper type for exposing protected functions"; class_line $"_publicist" g; $"{"; $"public:"] ++ map (indent_line i true) (map (using_line g) (g_protected g)) ++ [$"};"].
Definition publicist_pieces : list piece :=
  [T ($"// helper type for exposing protected functions" ++ [nl] ++ $"class "); H $"publicist_class_name"; T $" : public "; H $"class_name"; T ([nl] ++ $"{" ++ [nl] ++ $"public:" ++ [nl]);
   H $"using_list"; T ([nl] ++ $"};")].
Lemma using_fits g m : good_class g -> word m -> ~ In "{"%char (using_line g m) /\ ~ In nl (using_line g m).
Proof.
  intros G W. assert (N : forall c s, Forall (fun c => is_word c = true) s -> is_word c = false -> ~ In c s).
  { intros c s F E I. rewrite Forall_forall in F. apply F in I. congruence. }
  unfold using_line. split; rewrite !in_app_iff; intros [I|[I|[I|[I|I]]]]; try (cbn in I; intuition discriminate); revert I; apply N; try reflexivity; try exact (proj2 W); exact (proj2 (gg_name g G)).
Qed.
Lemma using_neutral g : good_class g -> neutral K (unlines (map (indent_line i true) (map (using_line g) (g_protected g)))).
Proof.
  intros G. apply no_brace_neutral. unfold unlines. apply join_not_in; [intros [E|[]]; discriminate|]. rewrite map_map. apply Forall_map. eapply Forall_impl; [|exact (gg_protected g G)].
  intros m W. destruct (using_fits g m G W) as [A _]. unfold indent_line. destruct (using_line g m) as [|c l] eqn:E; auto. rewrite in_app_iff. intros [I|I].
  - rewrite Forall_forall in indent. apply indent in I. discriminate.
  - apply A. destruct (rstrip_split (c :: l)) as (w & R & _). rewrite R. apply in_app_iff. auto.
Qed.
Lemma publicist_is g : good_class g -> g_protected g <> [] -> publicist_text o g = unlines (publicist_lines g).
Proof.
  intros G N. unfold publicist_text. change (map (fun m => $"using " ++ g_name g ++ $"::" ++ m ++ $";") (g_protected g)) with (map (using_line g) (g_protected g)).
  rewrite indented; [|destruct (g_protected g); [congruence|discriminate]|].
  2:{ apply Forall_map. eapply Forall_impl; [|exact (gg_protected g G)]. intros m W. apply (using_fits g m G W). }
  set (us := unlines (map (indent_line i true) (map (using_line g) (g_protected g)))).
  etransitivity; [apply (fill_plain K _ publicist_pieces _
    [$"// helper type for exposing protected functions" ++ [nl] ++ $"class "; g_name g ++ $"_publicist"; $" : public "; g_name g; [nl] ++ $"{" ++ [nl] ++ $"public:" ++ [nl]; us; [nl] ++ $"};"])|].
  - reflexivity.
  - unfold publicist_pieces. pieces.
  - apply smem_incl. reflexivity.
  - apply names_ok. reflexivity.
  - cbn [map snd]. repeat (apply Forall_cons; [|]); [..|apply Forall_nil].
    + apply word_neutral. apply suffix_word; auto.
    + apply word_neutral, (gg_name g G).
    + apply using_neutral; auto.
  - exact comma_name.
  - reflexivity.
  - unfold endswith. cbn [app concat]. repeat rewrite app_comm_cons. repeat rewrite app_assoc. rewrite app_nil_r, rev_app_distr. reflexivity.
  - unfold endswith. cbn [app concat]. repeat rewrite app_comm_cons. repeat rewrite app_assoc. rewrite app_nil_r, rev_app_distr. reflexivity.
  - unfold endswith. cbn [app concat]. repeat rewrite app_comm_cons. repeat rewrite app_assoc. rewrite app_nil_r, rev_app_distr. reflexivity.
  - unfold publicist_lines. rewrite unlines_app by (try discriminate; destruct (map _ _); discriminate).
    rewrite (unlines_app (map _ _) [_]), unlines_single by first [discriminate|destruct (g_protected g); [congruence|discriminate]]. fold us.
    unfold class_line. cbn [app concat]. rewrite ?app_nil_r. unfold unlines. cbn [join app]. repeat (rewrite <- app_assoc; cbn [app]). reflexivity.
Qed.
Lemma trampoline_no_nl g : good_class g -> Forall (fun l => ~ In nl l) (trampoline_lines g).
Proof.
  intros G. pose proof (word_fits _ (gg_name g G)) as N. pose proof (word_fits _ (suffix_word g $"_trampoline" G eq_refl)) as Nt. pose proof (word_fits _ (decimal_word (length (g_virtual g)))) as Nd.
  assert (C : forall ls, Forall (fun l => neutral K l /\ ~ In nl l) ls -> ~ In nl (concat ls)) by (intros ls F; apply (plain_concat ls F)).
  unfold trampoline_lines. rewrite !Forall_app. split; [|split].
  - repeat (apply Forall_cons; [|]); try apply Forall_nil; try (intros I; cbn in I; intuition discriminate).
    + apply C. repeat (apply Forall_cons; [first [assumption|apply plain_check; reflexivity]|]); apply Forall_nil.
    + unfold first_line. destruct (ge_nanobind o); apply C; repeat (apply Forall_cons; [first [assumption|apply plain_check; reflexivity]|]); apply Forall_nil.
  - apply Forall_map. eapply Forall_impl; [|exact (virtual_plain g G)]. intros l P. apply (plain_indent l P).
  - repeat constructor. intros I; cbn in I; intuition discriminate.
Qed.
Lemma publicist_no_nl g : good_class g -> Forall (fun l => ~ In nl l) (publicist_lines g).
Proof.
  intros G. pose proof (word_fits _ (gg_name g G)) as N. pose proof (word_fits _ (suffix_word g $"_publicist" G eq_refl)) as Nt.
  assert (C : forall ls, Forall (fun l => neutral K l /\ ~ In nl l) ls -> ~ In nl (concat ls)) by (intros ls F; apply (plain_concat ls F)).
  unfold publicist_lines. rewrite !Forall_app. split; [|split].
  - repeat (apply Forall_cons; [|]); try apply Forall_nil; try (intros I; cbn in I; intuition discriminate).
    apply C. repeat (apply Forall_cons; [first [assumption|apply plain_check; reflexivity]|]); apply Forall_nil.
  - rewrite map_map. apply Forall_map. eapply Forall_impl; [|exact (gg_protected g G)]. intros m W. apply indent_no_nl_line. apply (using_fits g m G W).
  - repeat constructor. intros I; cbn in I; intuition discriminate.
Qed.
End Text.
