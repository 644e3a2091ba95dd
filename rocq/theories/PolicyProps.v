From Verif Require Import PyStr PyStrLemmas PyDict TextModel FillModel FillSpec FillProofs FillProofs4 PolicyModel PolicySpec PolicyProofs.

(** ** The end of a binding *)

(** The binding of a function has the parts which its comments and the options ask for, and no others. *)
Theorem C75_end_partial indent nanobind is_method f p k g :
  policy_part nanobind f p -> call_part nanobind (bf_comments f) $"keep_alive" k -> guard_part nanobind f g ->
  let parts := present [bf_args f; bf_doc f; p; k; g] in
  ~ In "{"%char indent -> ~ In nl indent -> Forall (neutral end_names) parts ->
  endswith $", )" (ending indent parts) = false -> endswith $", );" (ending indent parts) = false ->
  function_end indent nanobind is_method f = ending indent parts ++ (if is_method then $")" else $");").
Proof.
  intros P K G parts I L N A B. apply policy_part_unique in P. apply call_part_unique in K; [|cbn; intuition congruence]. apply guard_part_unique in G. unfold parts in *. subst p k g.
  unfold function_end. exact (end_text indent is_method (end_of nanobind f) I L N A B).
Qed.
Print Assumptions C75_end_partial.
(** Comments and options always ask for something, and for one thing only. *)
Theorem C75_asked nanobind f :
  (exists p, policy_part nanobind f p /\ forall p', policy_part nanobind f p' -> p' = p)
  /\ (exists k, call_part nanobind (bf_comments f) $"keep_alive" k /\ forall k', call_part nanobind (bf_comments f) $"keep_alive" k' -> k' = k)
  /\ (exists g, guard_part nanobind f g /\ forall g', guard_part nanobind f g' -> g' = g).
Proof.
  split; [|split].
  - eexists. split; [apply policy_part_is|]. intros p' H. apply policy_part_unique in H. exact H.
  - eexists. split; [apply call_part_is; cbn; intuition congruence|]. intros k' H. apply call_part_unique in H; [exact H|cbn; intuition congruence].
  - eexists. split; [apply guard_part_is|]. intros g' H. apply guard_part_unique in H. exact H.
Qed.
Print Assumptions C75_asked.

(** ** Cases *)

Definition c75_f : bound_function :=
  BoundFunction (Some $"py::arg(x)") None (Comments $" // py::return_value_policy::reference  py::keep_alive<0, 1>()" $"// gives the child") (Some [$"*"]) false false true.
Example C75_end_case :
  let p := Some $"nb::rv_policy::reference" in let k := Some $"nb::keep_alive<0, 1>()" in let g := Some $"nb::call_guard<nb::gil_scoped_release>()" in
  policy_part true c75_f p /\ call_part true (bf_comments c75_f) $"keep_alive" k /\ guard_part true c75_f g
  /\ (let parts := present [bf_args c75_f; bf_doc c75_f; p; k; g] in
      Forall (neutral end_names) parts /\ endswith $", )" (ending $"  " parts) = false /\ endswith $", );" (ending $"  " parts) = false)
  /\ function_end $"  " true true c75_f
     = $"  py::arg(x), " ++ [nl] ++ $"  nb::rv_policy::reference, " ++ [nl] ++ $"  nb::keep_alive<0, 1>(), " ++ [nl] ++ $"  nb::call_guard<nb::gil_scoped_release>())".
Proof.
  cbv zeta. split; [exact (policy_part_is true c75_f)|]. split; [exact (call_part_is true (bf_comments c75_f) $"keep_alive" ltac:(cbn; intuition congruence))|]. split; [exact (guard_part_is true c75_f)|]. split; [|vm_compute; reflexivity].
  split; [|split; vm_compute; reflexivity]. unfold c75_f. cbn [present bf_args bf_doc]. repeat (apply Forall_cons; [apply neutralb_true; reflexivity|]). apply Forall_nil.
Qed.

(** ** What is false *)

(** The policy goes up to a white space: a full stop or a parenthesis behind it is taken as a part of it, and the binding does not compile. *)
Theorem C75_stop_refuted :
  exists c, at_end c = $" // (py::return_value_policy::reference)." /\ on_previous c = [] /\ commented_policy c = $"reference)."
    /\ shown_policy false (commented_policy c) = Some $"py::return_value_policy::reference).".
Proof. exists (Comments $" // (py::return_value_policy::reference)." []). repeat split; vm_compute; reflexivity. Qed.
Print Assumptions C75_stop_refuted.
(** Only the first policy of lifetime arrives in the binding. *)
Theorem C75_second_refuted :
  exists f, at_end (bf_comments f) = $" // py::keep_alive<1, 2>(), py::keep_alive<1, 3>()" /\ call_part false (bf_comments f) $"keep_alive" (Some $"py::keep_alive<1, 2>()")
    /\ function_end $"  " false true f = $"  py::keep_alive<1, 2>())".
Proof.
  exists (BoundFunction None None (Comments $" // py::keep_alive<1, 2>(), py::keep_alive<1, 3>()" []) (Some []) false false false). split; [reflexivity|].
  split; [exact (call_part_is false _ $"keep_alive" ltac:(cbn; intuition congruence))|vm_compute; reflexivity].
Qed.
Print Assumptions C75_second_refuted.
(** A constructor gets no policy of lifetime, whatever its comments say. *)
Theorem C75_constructor_refuted :
  exists f, call_part false (bf_comments f) $"keep_alive" (Some $"py::keep_alive<1, 2>()")
    /\ constructor_text $"  " [] $"Parent *" false f = $".def(py::init<Parent *>()," ++ [nl] ++ $"  py::arg(p))".
Proof.
  exists (BoundFunction (Some $"py::arg(p)") None (Comments $" // py::keep_alive<1, 2>()" []) None false false false).
  split; [exact (call_part_is false _ $"keep_alive" ltac:(cbn; intuition congruence))|vm_compute; reflexivity].
Qed.
Print Assumptions C75_constructor_refuted.
(** For the other library, other names which end the same are changed too. *)
Theorem C75_library_refuted :
  exists c, at_end c = $" // py::call_guard<numpy::lock>()" /\ policy_for true c $"call_guard" = Some $"nb::call_guard<numnb::lock>()".
Proof. exists (Comments $" // py::call_guard<numpy::lock>()" []). split; vm_compute; reflexivity. Qed.
Print Assumptions C75_library_refuted.
(** A sentence of the documentation which names the policy is taken for one. *)
Theorem C75_sentence_refuted :
  exists c, on_previous c = $"// No py::keep_alive is needed: call close() first" /\ at_end c = [] /\ policy_for false c $"keep_alive" = Some $"py::keep_alive is needed: call close()".
Proof. exists (Comments [] $"// No py::keep_alive is needed: call close() first"). repeat split; vm_compute; reflexivity. Qed.
Print Assumptions C75_sentence_refuted.
