(** Properties C22 to C24: grouping and deduplication of overloads, blank lines. *)
From Coq Require Import Permutation.
From Verif Require Import PyStr PyStrLemmas OverloadModel OverloadSpec OverloadProofs OverloadProofs2.

(** *** C22: grouping overloads *)

(** For any elements and any way of naming the overloads. *)
Theorem C22_grouping_only_moves_overloads :
  forall A (key : A -> option str) l, grouped A key l (group_overloaded_functions A key l).
Proof. exact group_grouped. Qed.
Print Assumptions C22_grouping_only_moves_overloads.

(** Elements without overloads to move are left as they are. *)
Theorem C22_already_grouped_unchanged :
  forall A (key : A -> option str) l,
  group_overloaded_functions A key (group_overloaded_functions A key l) = group_overloaded_functions A key l.
Proof. exact group_idempotent. Qed.
Print Assumptions C22_already_grouped_unchanged.

(** An element is its text and the name it is an overload of, if any. *)
Definition elt := (str * option str)%type.
Example C22_case :
  let f1 := ($"f1", Some $"f") in let f2 := ($"f2", Some $"f") in let f3 := ($"f3", Some $"f") in
  let g1 := ($"g1", Some $"g") in let g2 := ($"g2", Some $"g") in
  let c := ($"c", None) in let d := ($"d", None) in
  group_overloaded_functions elt snd [c; f1; g1; d; f2; g2; c; f3] = [c; f1; f2; f3; g1; g2; d; c] /\
  leaders elt snd [] [c; f1; g1; d; f2; g2; c; f3] = [c; f1; g1; d; c].
Proof. repeat split; reflexivity. Qed.

(** *** C23: deduplication *)

(** What is kept: everything except the overloads whose signature is the one of an earlier
    overload. *)
Theorem C23_only_repeated_overloads_dropped :
  forall A overloaded sig py_name text (l : list A),
  dedup_of A overloaded sig [] l (map fst (dedup_stub_lines A overloaded sig py_name text l)).
Proof. exact dedup_spec. Qed.
Print Assumptions C23_only_repeated_overloads_dropped.

Theorem C23_emitted_signatures_distinct :
  forall A overloaded sig py_name text (l : list A),
  NoDup (map sig (filter overloaded (map fst (dedup_stub_lines A overloaded sig py_name text l)))).
Proof.
  exact (fun A o s p t l => proj1 (dedup_of_nodup A o s [] l _ (dedup_spec A o s p t l))).
Qed.
Print Assumptions C23_emitted_signatures_distinct.

Theorem C23_dropped_has_emitted_earlier_twin :
  forall A overloaded sig py_name text (l : list A) e,
  let out := map fst (dedup_stub_lines A overloaded sig py_name text l) in
  In e l -> ~ In e out ->
  overloaded e = true /\
  exists a b c, l = a ++ e :: b /\ In c a /\ In c out /\ overloaded c = true /\ sig c = sig e.
Proof. exact dedup_cover. Qed.
Print Assumptions C23_dropped_has_emitted_earlier_twin.

(** [@overload] stays exactly when two emitted overloads of the Python name show something. *)
Theorem C23_decorator_needs_two_overloads :
  forall A overloaded sig py_name text (l : list A) e out,
  let res := dedup_stub_lines A overloaded sig py_name text l in
  In (e, out) res ->
  let visible := visible_overloads A overloaded py_name text (map fst res) (py_name e) in
  (overloaded e = false -> out = text e) /\
  (overloaded e = true -> 2 <= length visible -> out = text e) /\
  (overloaded e = true -> length visible < 2 -> without_decorators (text e) out).
Proof. exact dedup_lines. Qed.
Print Assumptions C23_decorator_needs_two_overloads.

(** A function as its signature, name and lines; all of them overloads. *)
Definition fn := (str * str * list str)%type.
Definition fn_dedup := dedup_stub_lines fn (fun _ => true) (fun f => fst (fst f)) (fun f => snd (fst f)) snd.
Example C23_case :
  let f1 := ($"f(int)", $"f", [$"@overload"; $"def f(x: int): ..."]) in
  let f2 := ($"f(str)", $"f", [$"@overload"; $"def f(x: str): ..."]) in
  let g := ($"g()", $"g", [$"@overload"; $"def g(): ..."]) in
  fn_dedup [f1; f2; f1; g; g] = [(f1, snd f1); (f2, snd f2); (g, [$"def g(): ..."])].
Proof. reflexivity. Qed.

(** An overload is dropped for the sake of an earlier one that itself shows nothing (a template
    without instantiation, for instance): the signature is lost from the stub. *)
Theorem C23_dropped_for_an_invisible_twin_refuted :
  exists l e, In e l /\ snd e <> [] /\
  forall x ls, In (x, ls) (fn_dedup l) -> fst (fst x) = fst (fst e) -> ls = [].
Proof.
  exists [($"f(int)", $"f", []); ($"f(int)", $"f", [$"def f(x: int): ..."])],
         ($"f(int)", $"f", [$"def f(x: int): ..."]).
  split; [cbn; auto|]. split; [discriminate|]. cbn. intros x ls [E|[]] _. inversion E. auto.
Qed.
Print Assumptions C23_dropped_for_an_invisible_twin_refuted.

(** One element that writes two definitions (instantiated template, vectorized function) is
    counted once: both lose their [@overload]. *)
Theorem C23_element_with_two_definitions_refuted :
  exists e a b, snd e = [$"@overload"; a; $"@overload"; b] /\
  a <> b /\ startswith $"def f(" a = true /\ startswith $"def f(" b = true /\
  fn_dedup [e] = [(e, [a; b])].
Proof.
  exists ($"f(x)", $"f", [$"@overload"; $"def f(x: int): ..."; $"@overload"; $"def f(x: float): ..."]),
    $"def f(x: int): ...", $"def f(x: float): ...".
  split; [reflexivity|]. split; [discriminate|]. repeat split; reflexivity.
Qed.
Print Assumptions C23_element_with_two_definitions_refuted.

(** *** C24: blank lines *)

Theorem C24_spacing_of_blocks :
  forall els, exists gaps,
  lines_with spacing_cpp None els = with_gaps gaps els /\ good_gaps gaps els /\ gaps_follow gap_cpp gaps els.
Proof. exact (fun els => spacing_spec gap_cpp spacing_cpp els spacing_cpp_ok gap_cpp_small). Qed.
Print Assumptions C24_spacing_of_blocks.

Theorem C24_spacing_of_stub_bodies :
  forall els, exists gaps,
  lines_with (spacing_python false) None els = with_gaps gaps els /\ good_gaps gaps els /\
  gaps_follow gap_python gaps els.
Proof. exact (fun els => spacing_spec gap_python (spacing_python false) els spacing_python_ok gap_python_small). Qed.
Print Assumptions C24_spacing_of_stub_bodies.

(** With the C++ layout reproduced nothing is added. *)
Theorem C24_reproduced_layout_adds_nothing :
  forall els last, lines_with (spacing_python true) last els = flat_map snd els /\
  block_stub_lines true els = flat_map snd els.
Proof. exact (fun els last => conj (spacing_layout els last) eq_refl). Qed.
Print Assumptions C24_reproduced_layout_adds_nothing.

Theorem C24_spacing_of_stub_blocks :
  forall els, exists gaps,
  block_stub_lines false els = with_gaps gaps els /\ good_gaps gaps els /\ gaps_follow gap_cpp gaps els.
Proof. exact (fun els => spacing_spec gap_cpp spacing_cpp els spacing_cpp_ok gap_cpp_small). Qed.
Print Assumptions C24_spacing_of_stub_blocks.

Example C24_case :
  lines_with spacing_cpp None
    [(KFunction, []); (KFunction, [$"f"]); (KFunction, [$"g"]); (KComment, [$"#"]); (KClass, []); (KClass, [$"C"]); (KDecl, [$"d"])]
  = [$"f"; []; $"g"; $"#"; []; []; $"C"; []; []; $"d"] /\
  lines_with (spacing_python false) None [(KComment, [$"#"]); (KClassMember, [$"x"]); (KFunction, [$"f"])]
  = [$"#"; []; $"x"; []; $"f"].
Proof. repeat split; reflexivity. Qed.
