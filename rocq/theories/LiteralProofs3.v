From Verif Require Import PyStr PyDict PyStrLemmas InstanceModel InstanceSpec InstanceProofs LiteralModel LiteralSpec LiteralProofs LiteralProofs2.
(** All the replacements of values. *)

Definition steps (ts : list tok) : list tok :=
  map dotted (map bare (map score
    (flat_map (one $"LDBL_MAX" (float_info $"max")) (flat_map (one $"LDBL_MIN" (float_info $"min"))
    (flat_map (one $"DBL_MAX" (float_info $"max")) (flat_map (one $"DBL_MIN" (float_info $"min"))
    (flat_map (one $"FLT_MAX" (float_info $"max")) (flat_map (one $"FLT_MIN" (float_info $"min"))
    (flat_map (one $"nullptr" [Name $"None"]) (flat_map (one $"NULL" [Name $"None"]) (flat_map (one $"void" [Name $"None"])
    (flat_map (one $"false" [Name $"False"]) (flat_map (one $"true" [Name $"True"]) ts))))))))))))).
Lemma known_name w : match w with [] => false | c :: _ => negb (is_digit c) end = true -> forallb is_word w = true -> startswith $"std" w = false -> startswith $"void" w = false -> contains $"_" w = false -> LiteralSpec.is_name w.
Proof.
  intros A B C D E. split; [destruct w; [discriminate|discriminate]|]. split; [|auto].
  assert (H : forall b, (b = true -> match w with c :: _ => is_digit c = false | [] => True end) -> digit_free b w).
  { clear A C D. revert B E. induction w as [|c w IH]; cbn [digit_free forallb]; auto. intros B E b H. apply andb_true_iff in B. destruct B as [B1 B2]. split; [exact B1|]. split; [exact H|].
    cbn [contains] in E. apply orb_false_iff in E. destruct E as [E1 E2]. cbn in E1. assert (U : ceqb c "_" = false) by (destruct (ceqb_spec c "_"%char) as [->|]; [cbn in E1; destruct w; discriminate|reflexivity]).
    rewrite U. apply IH; auto. discriminate. }
  apply H. intros _. destruct w as [|c w]; [exact I|]. apply negb_true_iff. exact A.
Qed.
Lemma nice_name w : LiteralSpec.is_name w -> nice [Name w].
Proof. intros W r A E. cbn [app expression]. auto. Qed.
Lemma nice_info w : LiteralSpec.is_name w -> nice (float_info w).
Proof.
  intros W r A E. cbn [app expression float_info apart]. split; [apply known_name; reflexivity|]. split; [exact I|]. split; [reflexivity|]. split; [discriminate|]. split; [discriminate|]. split; [discriminate|].
  split.
  - split; [discriminate|]. split; [|split; reflexivity]. cbn. repeat split; try discriminate; reflexivity.
  - split; [exact I|]. split; [reflexivity|]. split; [discriminate|]. split; [discriminate|]. split; [discriminate|]. auto.
Qed.
Lemma nice_none : nice [Name $"None"]. Proof. apply nice_name, known_name; reflexivity. Qed.
Lemma nice_true : nice [Name $"True"]. Proof. apply nice_name, known_name; reflexivity. Qed.
Lemma nice_false : nice [Name $"False"]. Proof. apply nice_name, known_name; reflexivity. Qed.
Lemma nice_min : nice (float_info $"min"). Proof. apply nice_info, known_name; reflexivity. Qed.
Lemma nice_max : nice (float_info $"max"). Proof. apply nice_info, known_name; reflexivity. Qed.
Lemma foreign_in k : forallb num_char k = false -> foreign k.
Proof. induction k as [|c k IH]; [discriminate|]. cbn. destruct (num_char c) eqn:N; [|intros _; exists c; split; [left; reflexivity|exact N]]. cbn. intros H. destruct (IH H) as (d & D & M). exists d. split; [right; exact D|exact M]. Qed.
Lemma name_word k : k <> [] -> forallb is_word k = true -> name_of k.
Proof. intros N F. split; [exact N|]. apply Forall_forall. apply forallb_forall. exact F. Qed.
Lemma rule_is k new out ts : k <> [] -> forallb is_word k = true -> forallb num_char k = false -> nice new -> out = text new -> expression ts ->
  word_rule k out (text ts) = text (flat_map (one k new) ts) /\ expression (flat_map (one k new) ts).
Proof. intros K W F N -> E. split; [apply words_one; auto; [apply name_word; auto|apply foreign_in; exact F]|apply expression_one; auto]. Qed.
Lemma once_steps ts : expression ts -> once (text ts) = text (steps ts) /\ expression (steps ts).
Proof.
  intros E. unfold once, steps.
  destruct (rule_is $"true" [Name $"True"] $"True" ts ltac:(discriminate) eq_refl eq_refl nice_true eq_refl E) as (R1 & E1). rewrite R1. cbv zeta. set (t1 := flat_map (one $"true" [Name $"True"]) ts) in *. clearbody t1.
  destruct (rule_is $"false" [Name $"False"] $"False" t1 ltac:(discriminate) eq_refl eq_refl nice_false eq_refl E1) as (R2 & E2). rewrite R2. set (t2 := flat_map (one $"false" [Name $"False"]) t1) in *. clearbody t2.
  rewrite void_none by exact E2.
  destruct (rule_is $"void" [Name $"None"] $"None" t2 ltac:(discriminate) eq_refl eq_refl nice_none eq_refl E2) as (R3 & E3). rewrite R3. set (t3 := flat_map (one $"void" [Name $"None"]) t2) in *. clearbody t3.
  destruct (rule_is $"NULL" [Name $"None"] $"None" t3 ltac:(discriminate) eq_refl eq_refl nice_none eq_refl E3) as (R4 & E4). rewrite R4. set (t4 := flat_map (one $"NULL" [Name $"None"]) t3) in *. clearbody t4.
  destruct (rule_is $"nullptr" [Name $"None"] $"None" t4 ltac:(discriminate) eq_refl eq_refl nice_none eq_refl E4) as (R5 & E5). rewrite R5. set (t5 := flat_map (one $"nullptr" [Name $"None"]) t4) in *. clearbody t5.
  rewrite nullopt_colons_none, nullopt_dot_none, string_colons_none, string_dot_none by exact E5.
  destruct (rule_is $"FLT_MIN" (float_info $"min") $"sys.float_info.min" t5 ltac:(discriminate) eq_refl eq_refl nice_min eq_refl E5) as (R6 & E6). rewrite R6. set (t6 := flat_map (one $"FLT_MIN" (float_info $"min")) t5) in *. clearbody t6.
  destruct (rule_is $"FLT_MAX" (float_info $"max") $"sys.float_info.max" t6 ltac:(discriminate) eq_refl eq_refl nice_max eq_refl E6) as (R7 & E7). rewrite R7. set (t7 := flat_map (one $"FLT_MAX" (float_info $"max")) t6) in *. clearbody t7.
  destruct (rule_is $"DBL_MIN" (float_info $"min") $"sys.float_info.min" t7 ltac:(discriminate) eq_refl eq_refl nice_min eq_refl E7) as (R8 & E8). rewrite R8. set (t8 := flat_map (one $"DBL_MIN" (float_info $"min")) t7) in *. clearbody t8.
  destruct (rule_is $"DBL_MAX" (float_info $"max") $"sys.float_info.max" t8 ltac:(discriminate) eq_refl eq_refl nice_max eq_refl E8) as (R9 & E9). rewrite R9. set (t9 := flat_map (one $"DBL_MAX" (float_info $"max")) t8) in *. clearbody t9.
  destruct (rule_is $"LDBL_MIN" (float_info $"min") $"sys.float_info.min" t9 ltac:(discriminate) eq_refl eq_refl nice_min eq_refl E9) as (R10 & E10). rewrite R10. set (t10 := flat_map (one $"LDBL_MIN" (float_info $"min")) t9) in *. clearbody t10.
  destruct (rule_is $"LDBL_MAX" (float_info $"max") $"sys.float_info.max" t10 ltac:(discriminate) eq_refl eq_refl nice_max eq_refl E10) as (R11 & E11). rewrite R11. set (t11 := flat_map (one $"LDBL_MAX" (float_info $"max")) t10) in *. clearbody t11.
  rewrite apostrophes_text by exact E11. apply expression_score in E11. change number_suffix with ns. rewrite scan_text; [|exact E11|left; reflexivity]. apply expression_bare in E11. rewrite colons_text by exact E11.
  split; [reflexivity|]. apply expression_dotted. exact E11.
Qed.

(** ** The steps are the translation *)

Lemma steps_app a b : steps (a ++ b) = steps a ++ steps b.
Proof. unfold steps. rewrite !flat_map_app, !map_app. reflexivity. Qed.
Lemma steps_name w : w <> $"void" -> steps [Name w] = constant w.
Proof.
  intros V. unfold constant, constants. cbn [find fst].
  destruct (seqb $"true" w) eqn:E1; [apply seqb_true in E1; subst w; reflexivity|].
  destruct (seqb $"false" w) eqn:E2; [apply seqb_true in E2; subst w; reflexivity|].
  destruct (seqb $"NULL" w) eqn:E4; [apply seqb_true in E4; subst w; reflexivity|].
  destruct (seqb $"nullptr" w) eqn:E5; [apply seqb_true in E5; subst w; reflexivity|].
  destruct (seqb $"FLT_MIN" w) eqn:E6; [apply seqb_true in E6; subst w; reflexivity|].
  destruct (seqb $"FLT_MAX" w) eqn:E7; [apply seqb_true in E7; subst w; reflexivity|].
  destruct (seqb $"DBL_MIN" w) eqn:E8; [apply seqb_true in E8; subst w; reflexivity|].
  destruct (seqb $"DBL_MAX" w) eqn:E9; [apply seqb_true in E9; subst w; reflexivity|].
  destruct (seqb $"LDBL_MIN" w) eqn:E10; [apply seqb_true in E10; subst w; reflexivity|].
  destruct (seqb $"LDBL_MAX" w) eqn:E11; [apply seqb_true in E11; subst w; reflexivity|].
  assert (E3 : seqb $"void" w = false) by (apply seqb_false; intros H; apply V; symmetry; exact H).
  unfold steps. repeat (cbn [flat_map one app]; first [rewrite E1|rewrite E2|rewrite E3|rewrite E4|rewrite E5|rewrite E6|rewrite E7|rewrite E8|rewrite E9|rewrite E10|rewrite E11]). reflexivity.
Qed.
Lemma steps_one t : (forall w, t = Name w -> w <> $"void") -> steps [t] = python_tok t.
Proof. destruct t as [w|g l f e x| |c]; intros H; [apply steps_name; apply H; reflexivity|reflexivity|reflexivity|reflexivity]. Qed.
Lemma expression_tok t r : expression (t :: r) -> (forall w, t = Name w -> w <> $"void") /\ expression r.
Proof.
  destruct t as [w|g l f e x| |c]; cbn [expression]; intros E; split; try tauto; intros ? X; try discriminate. injection X as <-. destruct E as ((_ & _ & _ & V) & _). intros ->. discriminate.
Qed.
Lemma steps_python ts : expression ts -> steps ts = python ts.
Proof.
  induction ts as [|t r IH]; [reflexivity|]. intros E. destruct (expression_tok t r E) as (V & E'). change (t :: r) with ([t] ++ r). rewrite steps_app, (steps_one t V), (IH E'). reflexivity.
Qed.
Lemma python_python ts : python (python ts) = python ts.
Proof.
  unfold python. induction ts as [|t r IH]; [reflexivity|]. cbn [flat_map]. rewrite flat_map_app, IH. f_equal. destruct t as [w|g l f e x| |c]; try reflexivity.
  - cbn [python_tok]. destruct (find (fun c => seqb (fst c) w) constants) as [(k, new)|] eqn:F.
    + unfold constant. rewrite F. cbn [snd]. apply find_some in F. destruct F as (F & _). cbn in F. repeat (destruct F as [F|F]; [injection F as _ <-; reflexivity|]). destruct F.
    + assert (C : constant w = [Name w]) by (unfold constant; rewrite F; reflexivity). rewrite C. cbn [flat_map python_tok]. rewrite C. reflexivity.
  - cbn [python_tok flat_map app]. rewrite map_map. cbn [fst]. reflexivity.
Qed.
Lemma value_is ts : expression ts -> value_replacements (text ts) = text (python ts).
Proof.
  intros E. destruct (once_steps ts E) as (H & X). rewrite steps_python in H, X by exact E. unfold value_replacements. cbn [passes]. rewrite H. destruct (seqb (text ts) (text (python ts))); [reflexivity|].
  destruct (once_steps (python ts) X) as (H' & _). rewrite steps_python, python_python in H' by exact X. rewrite H', seqb_refl. reflexivity.
Qed.
Lemma expression_python ts : expression ts -> expression (python ts).
Proof. intros E. destruct (once_steps ts E) as (_ & X). rewrite steps_python in X by exact E. exact X. Qed.
