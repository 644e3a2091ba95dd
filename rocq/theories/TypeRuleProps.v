From Verif Require Import PyStr PyDict PyStrLemmas InstanceModel LiteralModel TemplateModel TypeRuleModel TypeRuleSpec TypeRuleProofs TypeRuleProofs2 TypeRuleProofs3 TypeRuleProofs4.

(** ** The types of C++ in the stub *)

(** A type of any depth, made of the numbers, strings, classes and templates of one argument, is written in the stub as the type which Python knows,
    whatever constness, reference or pointer is around it, unless it names a namespace which is renamed or left out. *)
Theorem C78_type_partial known roots q m t : In q constants_before -> In m marks_after -> ty_ok t ->
  contains $"static " (q ++ cpp_text t ++ m) = false -> contains $"constexpr " (q ++ cpp_text t ++ m) = false ->
  Forall (fun n => fst n = snd n \/ contains (fst n ++ $".") (python_type $"." t) = false) known -> Forall (fun n => contains (n ++ $".") (python_type $"." t) = false) roots ->
  type_to_python standard_types None known roots (q ++ cpp_text t ++ m) = Ok (python_type $"." t).
Proof. exact (type_translated known roots q m t). Qed.
Print Assumptions C78_type_partial.
(** How the value is passed does not change the type of the stub, whatever is done with namespaces. *)
Theorem C78_passed known roots q m q' m' t : In q constants_before -> In m marks_after -> In q' constants_before -> In m' marks_after -> ty_ok t ->
  contains $"static " (q ++ cpp_text t ++ m) = false -> contains $"constexpr " (q ++ cpp_text t ++ m) = false ->
  contains $"static " (q' ++ cpp_text t ++ m') = false -> contains $"constexpr " (q' ++ cpp_text t ++ m') = false ->
  type_to_python standard_types None known roots (q ++ cpp_text t ++ m) = type_to_python standard_types None known roots (q' ++ cpp_text t ++ m').
Proof.
  intros Q M Q' M' O A B C D. assert (G : forall q m, In q constants_before -> In m marks_after -> contains $"static " (q ++ cpp_text t ++ m) = false -> contains $"constexpr " (q ++ cpp_text t ++ m) = false ->
    type_to_python standard_types None known roots (q ++ cpp_text t ++ m) = Ok (strip_callable_param_names (drop_roots roots (translate_namespaces known (replace $"Optional[ " $"Optional[" (python_type $"." t)))))).
  { clear - O. intros q m Q M A B. unfold type_to_python. rewrite (replace_no_occ $"static ") by exact A. rewrite (replace_no_occ $"constexpr ") by exact B. destruct (performed q m t Q M O) as (r & E & sp1 & sp2 & S1 & S2 & X). rewrite E, X. destruct (python_clean t O) as (N & K). rewrite normalize_clean by auto. reflexivity. }
  rewrite (G q m Q M A B), (G q' m' Q' M' C D). reflexivity.
Qed.
Print Assumptions C78_passed.
(** No angle bracket, star, ampersand or space of C++ is left. *)
Theorem C78_python known roots q m t r : In q constants_before -> In m marks_after -> ty_ok t ->
  contains $"static " (q ++ cpp_text t ++ m) = false -> contains $"constexpr " (q ++ cpp_text t ++ m) = false ->
  Forall (fun n => fst n = snd n \/ contains (fst n ++ $".") (python_type $"." t) = false) known -> Forall (fun n => contains (n ++ $".") (python_type $"." t) = false) roots ->
  type_to_python standard_types None known roots (q ++ cpp_text t ++ m) = Ok r -> forall c, In c [" "%char; "<"%char; ">"%char; "&"%char; "*"%char] -> ~ In c r.
Proof.
  intros Q M O A B KN RT E c C X. rewrite (type_translated known roots q m t Q M O A B KN RT) in E. injection E as <-. destruct (python_clean t O) as (_ & K). rewrite Forall_forall in K. apply K in X. destruct X as (X1 & X2 & X3 & X4 & X5). cbn [In] in C.
  destruct C as [<-|[<-|[<-|[<-|[<-|[]]]]]]; try congruence. discriminate.
Qed.
Print Assumptions C78_python.

Definition grid : ty := Vector (Opt (Shared (Other [$"Ns"; $"Grid"] (Vector (Scalar $"unsigned long long" $"int"))))).
Ltac user_names := split; [discriminate|]; repeat (constructor; [split; [discriminate|]; split; [repeat constructor|]; split; [cbn; intuition discriminate|reflexivity]|]); constructor.
Lemma grid_ok : ty_ok grid.
Proof. unfold grid. cbn [ty_ok]. split; [user_names|]. cbn. tauto. Qed.
Example C78_type_case : cpp_text grid = $"std::vector<std::optional<std::shared_ptr<Ns::Grid<std::vector<unsigned long long>>>>>" /\ python_type $"." grid = $"List[Optional[Ns.Grid[List[int]]]]" /\
  type_to_python standard_types None [($"Far", $"far"); ($"Ns", $"Ns")] [$"Root"] ($"const " ++ cpp_text grid ++ $" &") = Ok $"List[Optional[Ns.Grid[List[int]]]]".
Proof.
  split; [reflexivity|]. split; [reflexivity|]. apply (C78_type_partial [($"Far", $"far"); ($"Ns", $"Ns")] [$"Root"] $"const " $" &" grid); [cbn; tauto|cbn; tauto|apply grid_ok|reflexivity|reflexivity| |].
  - constructor; [right; reflexivity|]. constructor; [left; reflexivity|constructor].
  - constructor; [reflexivity|constructor].
Qed.
Example C78_passed_case : type_to_python standard_types None [($"Ns", $"ns")] [] (cpp_text grid) = type_to_python standard_types None [($"Ns", $"ns")] [] ($"const " ++ cpp_text grid ++ $" *").
Proof. pose proof (C78_passed [($"Ns", $"ns")] [] [] [] $"const " $" *" grid) as H. cbn [app] in H. rewrite app_nil_r in H. apply H; [cbn; tauto|cbn; tauto|cbn; tauto|cbn; tauto|apply grid_ok|reflexivity|reflexivity|reflexivity|reflexivity]. Qed.
Example C78_python_case : ~ In "&"%char $"List[Optional[Ns.Grid[List[int]]]]".
Proof. apply (C78_python [($"Far", $"far"); ($"Ns", $"Ns")] [$"Root"] $"const " $" &" grid); [cbn; tauto|cbn; tauto|apply grid_ok|reflexivity|reflexivity| | |apply C78_type_case|cbn; tauto]; [constructor; [right; reflexivity|]; constructor; [left; reflexivity|constructor]|constructor; [reflexivity|constructor]]. Qed.
(** Texts of C, raw memory and functions. *)
Example C78_text_case : type_to_python standard_types None [] [] $"const char *" = Ok $"str" /\ type_to_python standard_types None [] [] $"void *" = Ok $"Any" /\ type_to_python standard_types None [] [] $"std::function<void(int)>" = Ok $"Callable[[int], None]".
Proof. repeat split; vm_compute; reflexivity. Qed.

(** Some types which C++ has are written with a text which is no type of Python. *)
Theorem C78_number_refuted : type_to_python standard_types None [] [] $"unsigned char" = Ok $"unsigned char" /\ type_to_python standard_types None [] [] $"long int" = Ok $"int int" /\ type_to_python standard_types None [] [] $"std::size_t" = Ok $"std.int".
Proof. repeat split; vm_compute; reflexivity. Qed.
Print Assumptions C78_number_refuted.
(** A class whose name ends with the word for a static variable loses it. *)
Theorem C78_static_refuted : type_to_python standard_types None [] [] $"Mystatic &" = Ok $"My".
Proof. vm_compute. reflexivity. Qed.
Print Assumptions C78_static_refuted.
(** A member of a namespace of the user which has the name of a type of the table gets the name of Python. *)
Theorem C78_member_refuted : type_to_python standard_types None [] [] $"Ns::size_t" = Ok $"Ns.int" /\ type_to_python standard_types None [] [] $"const charge" = Ok $"charge" /\ type_to_python standard_types None [] [] $"const cha &" = Ok $"str".
Proof. repeat split; vm_compute; reflexivity. Qed.
Print Assumptions C78_member_refuted.
(** What is taken away inside of the brackets of some templates leaves a space. *)
Theorem C78_inside_refuted : type_to_python standard_types None [] [] $"std::optional<Foo *>" = Ok $"Optional[Foo ]" /\ type_to_python standard_types None [] [] $"Box<const Foo>" = Ok $"Box[ Foo]".
Proof. split; vm_compute; reflexivity. Qed.
Print Assumptions C78_inside_refuted.
