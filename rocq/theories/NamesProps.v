(** C21 and C29 to C31: names in Python. *)
From Verif Require Import PyStr PyStrLemmas PyNum NamesModel NamesSpec NamesProofs.

(** *** C21: enumerators *)

Theorem C21_enumerator_is_a_name :
  forall snake remove_prefix group_private is_class enum_name value_name, identifier value_name ->
  let n := enumerator_name_python (fun x => x) snake remove_prefix group_private is_class enum_name value_name in
  identifier n /\ ~ In n kwlist.
Proof. exact enumerator_identifier. Qed.
Print Assumptions C21_enumerator_is_a_name.

(** Distinct names when the values are named after the enum in the same way, in a scoped enum, or when
    prefixes are kept, provided the case conversion keeps them distinct and none is a reserved word. *)
Theorem C21_distinct_names_partial :
  forall snake group_private is_class enum_name prefix rests,
  upper prefix = upper enum_name -> Forall (fun r => identifier_start r = true) rests ->
  NoDup (map (converted snake) rests) -> (forall r, In r rests -> ~ In (converted snake r) kwlist) ->
  NoDup (map (enumerator_name_python (fun x => x) snake true false false enum_name)
             (map (fun r => prefix ++ $"_" ++ r) rests)) /\
  NoDup (map (enumerator_name_python (fun x => x) snake true group_private true enum_name) rests) /\
  NoDup (map (enumerator_name_python (fun x => x) snake false group_private is_class enum_name) rests).
Proof. exact enumerators_distinct. Qed.
Print Assumptions C21_distinct_names_partial.

Example C21_case :
  map (enumerator_name_python (fun x => x) true true false false $"Color_")
    [$"Color_Red"; $"color__DarkBlue"; $"COLOR_2D"; $"Color_"; $"Other"; $"Color_None"]
  = [$"red"; $"dark_blue"; $"_2_d"; $"color_"; $"other"; $"none"] /\
  map (enumerator_name_python (fun x => x) false true true false $"FooPrivate_")
    [$"Foo_Bar"; $"FooPrivate__Baz"; $"Foo_None"] = [$"Bar"; $"Baz"; $"None_"] /\
  NoDup (map (converted true) [$"Red"; $"DarkBlue"]).
Proof.
  split; [vm_compute; reflexivity|]. split; [vm_compute; reflexivity|].
  vm_compute. repeat constructor; intros H; cbn in H; intuition discriminate.
Qed.

(** Values that C++ tells apart may get the same Python name. *)
Theorem C21_distinct_names_refuted :
  ~ (forall snake enum_name v w, identifier v -> identifier w -> v <> w ->
     enumerator_name_python (fun x => x) snake true false false enum_name v <>
     enumerator_name_python (fun x => x) snake true false false enum_name w).
Proof.
  intros H. apply (H false $"Foo" $"Foo_A" $"A"); [split; reflexivity|split; reflexivity|discriminate|reflexivity].
Qed.
Print Assumptions C21_distinct_names_refuted.

(** Three other ways: a digit after the prefix, letter case, reserved words. *)
Theorem C21_distinct_prefixed_names_refuted :
  ~ (forall snake enum_name v w, v <> w -> identifier (enum_name ++ $"_" ++ v) -> identifier (enum_name ++ $"_" ++ w) ->
     enumerator_name_python (fun x => x) snake true false false enum_name (enum_name ++ $"_" ++ v) <>
     enumerator_name_python (fun x => x) snake true false false enum_name (enum_name ++ $"_" ++ w)) /\
  enumerator_name_python (fun x => x) true true false false $"Foo" $"Foo_AB" =
  enumerator_name_python (fun x => x) true true false false $"Foo" $"Foo_Ab" /\
  enumerator_name_python (fun x => x) true true false false $"Foo" $"Foo_in" =
  enumerator_name_python (fun x => x) true true false false $"Foo" $"Foo_in_".
Proof.
  split; [|split; reflexivity].
  intros H. apply (H false $"Foo" $"1" $"_1"); [discriminate|split; reflexivity|split; reflexivity|reflexivity].
Qed.
Print Assumptions C21_distinct_prefixed_names_refuted.

(** *** C29: reserved words *)

Theorem C29_class_and_enum_names :
  forall type_replacements name, ~ In (class_name_to_python type_replacements name) kwlist.
Proof. exact (fun f name => add_underscore_safe (f name)). Qed.
Print Assumptions C29_class_and_enum_names.

(** For the other names, when the replacements of the options, applied last, do not give a reserved
    word; in particular when they do nothing. *)
Theorem C29_other_names_partial :
  forall (functions namespaces vars : str -> str) snake name,
  (forall x, In (functions x) kwlist -> In x kwlist) -> (forall x, In (vars x) kwlist -> In x kwlist) ->
  ~ In (function_name_to_python functions snake name) kwlist /\
  ~ In (namespace_name_to_python namespaces vars snake name) kwlist /\
  ~ In (var_name_to_python vars snake name) kwlist.
Proof.
  exact (fun f n v b name Hf Hv =>
    conj (fun H => add_underscore_safe _ (Hf _ H))
   (conj (fun H => add_underscore_safe _ (Hv _ H)) (fun H => add_underscore_safe _ (Hv _ H)))).
Qed.
Print Assumptions C29_other_names_partial.

Example C29_case :
  map (var_name_to_python (fun x => x) true) [$"from"; $"Lambda"; $"None"; $"x"] = [$"from_"; $"lambda_"; $"none"; $"x"] /\
  map (function_name_to_python (fun x => x) false) [$"None"; $"print"] = [$"None_"; $"print"] /\
  (forall x : str, In ((fun y => y) x) kwlist -> In x kwlist).
Proof. repeat split; auto. Qed.

(** Replacements are applied once more after the underscore is added. *)
Theorem C29_replacements_refuted :
  ~ (forall vars snake name, ~ In (var_name_to_python vars snake name) kwlist).
Proof.
  intros H. apply (H (fun x => if seqb x $"source" then $"from" else if seqb x $"from_" then $"from" else x) true $"source").
  cbn. intuition.
Qed.
Print Assumptions C29_replacements_refuted.

(** Two names that C++ tells apart can become equal. *)
Theorem C29_names_stay_distinct_refuted :
  ~ (forall snake a b, a <> b -> var_name_to_python (fun x => x) snake a <> var_name_to_python (fun x => x) snake b).
Proof. intros H. apply (H false $"from" $"from_"); [discriminate|reflexivity]. Qed.
Print Assumptions C29_names_stay_distinct_refuted.

(** *** C30: unnamed parameters *)

Theorem C30_names_of_parameters :
  forall names,
  length (add_names_to_unnamed_params names) = length names /\
  forall k n, nth_error names k = Some n ->
  nth_error (add_names_to_unnamed_params names) k = Some (match n with [] => generated_name k | _ => n end).
Proof. exact (fun names => conj (add_names_len names) (add_names_nth names)). Qed.
Print Assumptions C30_names_of_parameters.

Theorem C30_distinct_partial :
  forall names,
  (forall i j n, nth_error names i = Some n -> nth_error names j = Some n -> n <> [] -> i = j) ->
  (forall k, nth_error names k = Some [] -> ~ In (generated_name k) names) ->
  NoDup (add_names_to_unnamed_params names).
Proof. exact add_names_distinct. Qed.
Print Assumptions C30_distinct_partial.

Example C30_case :
  let names := [$"a"; []; $"b"; []] in
  add_names_to_unnamed_params names = [$"a"; $"param_1"; $"b"; $"param_3"] /\
  (forall i j n, nth_error names i = Some n -> nth_error names j = Some n -> n <> [] -> i = j) /\
  (forall k, nth_error names k = Some [] -> ~ In (generated_name k) names).
Proof.
  split; [reflexivity|]. split.
  - intros i j n Hi Hj Hn.
    do 4 (destruct i as [|i]; [do 4 (destruct j as [|j]; [cbn in *; congruence|]); destruct j; discriminate|]).
    destruct i; discriminate.
  - intros k Hk. do 4 (destruct k as [|k]; [cbn in *; try discriminate; cbn; intuition discriminate|]).
    destruct k; discriminate.
Qed.

Theorem C30_distinct_refuted :
  ~ (forall names,
     (forall i j n, nth_error names i = Some n -> nth_error names j = Some n -> n <> [] -> i = j) ->
     NoDup (add_names_to_unnamed_params names)).
Proof.
  intros H. specialize (H [$"param_1"; []]).
  assert (X : NoDup (add_names_to_unnamed_params [$"param_1"; []])).
  { apply H. intros i j n Hi Hj Hn.
    do 2 (destruct i as [|i]; [do 2 (destruct j as [|j]; [cbn in *; congruence|]); destruct j; discriminate|]).
    destruct i; discriminate. }
  vm_compute in X. inversion X as [|? ? Hx _]; subst. apply Hx. left. reflexivity.
Qed.
Print Assumptions C30_distinct_refuted.

(** *** C31: snake case *)

(** The exact result, character by character. *)
Theorem C31_snake_case_rule : forall s, to_snake_case s = snake_rule None s.
Proof. exact snake_case_rule. Qed.
Print Assumptions C31_snake_case_rule.

Theorem C31_no_upper_case : forall s c, In c (to_snake_case s) -> is_upper c = false.
Proof. exact snake_no_upper. Qed.
Print Assumptions C31_no_upper_case.

Theorem C31_letters_kept : forall s, letters (to_snake_case s) = lower (letters s).
Proof. exact snake_letters. Qed.
Print Assumptions C31_letters_kept.

Theorem C31_idempotent : forall s, to_snake_case (to_snake_case s) = to_snake_case s.
Proof. exact snake_idempotent. Qed.
Print Assumptions C31_idempotent.

Theorem C31_names_stay_names : forall s, identifier s -> identifier (to_snake_case s).
Proof. exact snake_identifier. Qed.
Print Assumptions C31_names_stay_names.

Example C31_case :
  map to_snake_case [$"HTTPServerError"; $"getX2Y"; $"__Private"; $"a__BC"; $"ImVec2"; $"myVec2dX"]
  = [$"http_server_error"; $"get_x2_y"; $"__private"; $"a_bc"; $"im_vec2"; $"my_vec2d_x"] /\
  identifier $"HTTPServerError".
Proof. repeat split; reflexivity. Qed.
