From Verif Require Import PyStr PyStrLemmas PyDict TextModel FillModel FillSpec FillProofs FillProofs2 FillProofs3 FillProofs4.

(** Property C52: code templates are filled without interference. *)

(** Every hole which has a value receives this value, the rest is as it was.  Partial: no text and no value contains
    the placeholder of one of the keys, or the start of one at its end (see the refutations). *)
Theorem C52_fill_partial K d ps : incl (map fst d) K -> Forall is_name (map fst d) -> Forall (neutral K) (map snd d) ->
  Forall (piece_ok K) ps -> replace_in_string (render ps) d = render (map (fill d) ps).
Proof. intros I N V. exact (fill_all K d I N V ps). Qed.
Print Assumptions C52_fill_partial.

Example C52_fill_case :
  let K := [$"f"; $"args"] in
  let ps := [Text $"return "; Hole $"f"; Text $"({x}, "; Hole $"args"; Text $") { "; Hole $"later"] in
  let d := [($"args", $"{1, {2}}"); ($"f", $"g")] in
  incl (map fst d) K /\ Forall is_name (map fst d) /\ Forall (neutral K) (map snd d) /\ Forall (piece_ok K) ps /\
  render ps = $"return {f}({x}, {args}) { {later}" /\ replace_in_string (render ps) d = $"return g({x}, {1, {2}}) { {later}".
Proof.
  cbv zeta. split; [apply smem_incl; reflexivity|]. split; [apply names_ok; reflexivity|].
  split; [cbn [map snd]; each; apply neutralb_true; reflexivity|]. split; [|split; reflexivity].
  each; cbn [piece_ok];
    first [apply neutralb_true; reflexivity | apply name_ok; reflexivity].
Qed.

(** The result depends on nothing but the values of the holes of the template: neither on the other values nor on the
    order of the replacements. *)
Theorem C52_independent_partial K d d' ps : incl (map fst d ++ map fst d') K -> Forall is_name (map fst d ++ map fst d') ->
  Forall (neutral K) (map snd d ++ map snd d') -> Forall (piece_ok K) ps ->
  (forall k, In (Hole k) ps -> dict_get k d = dict_get k d') ->
  replace_in_string (render ps) d = replace_in_string (render ps) d'.
Proof.
  intros I N V O H. apply incl_app_inv in I. destruct I as (I & I'). apply Forall_app in N, V.
  rewrite (fill_all K d), (fill_all K d') by tauto. f_equal. exact (fill_same d d' ps H).
Qed.
Print Assumptions C52_independent_partial.

Example C52_independent_case :
  replace_in_string $"{a}-{b}" [($"a", $"1"); ($"b", $"{2}")] = $"1-{2}" /\
  replace_in_string $"{a}-{b}" [($"c", $"3"); ($"b", $"{2}"); ($"a", $"1")] = $"1-{2}".
Proof. split; reflexivity. Qed.

(** Optional lines: a line disappears when one of its holes has no value, the other lines are filled.  Partial: as
    above, and what stands on a line that disappears is on one line. *)
Theorem C52_lines_partial K d dl t : incl (map fst d) K -> incl (map fst dl) K -> Forall is_name K ->
  Forall (neutral K) (map snd d) -> (forall k v, In (k, Some v) dl -> neutral K v) ->
  Forall (Forall (piece_ok K)) t ->
  Forall (fun l => stays dl (map (fill d) l) = false -> Forall (flat dl) (map (fill d) l)) t ->
  process_code_template (render_lines t) d dl false = render_lines (fill_lines dl (map (map (fill d)) t)).
Proof. intros I I' N V V'. exact (process_ok K d dl I I' N V V' t). Qed.
Print Assumptions C52_lines_partial.

Example C52_lines_case :
  let t := [[Text $"f("; Hole $"a"; Text $","]; [Hole $"i"; Hole $"b"; Text $","]; [Hole $"c"; Text $")"]] in
  let dl := [($"b", None); ($"a", Some ($"x," ++ [nl] ++ $"y")); ($"c", Some $"z")] in
  fill_lines dl (map (map (fill [($"i", $"  ")])) t)
  = [[Text $"f("; Text ($"x," ++ [nl] ++ $"y"); Text $","]; [Text $"z"; Text $")"]] /\
  process_code_template (render_lines t) [($"i", $"  ")] dl false = $"f(x," ++ [nl] ++ $"y," ++ [nl] ++ $"z)".
Proof. split; reflexivity. Qed.

(** Optional commas stand between the parts, and not behind the last one, be it at the end or before a closing
    parenthesis.  Partial: no part contains the placeholder of the comma, and at the end of the text the parts do not
    end with a comma and a parenthesis. *)
Theorem C52_commas_partial items tail : items <> [] -> Forall (neutral [$"maybe_comma"]) items ->
  (tail = [] /\ endswith $", )" (join $", " items) = false /\ endswith $", );" (join $", " items) = false)
  \/ tail = $")" \/ tail = $");" ->
  process_code_template (concat (map (fun x => x ++ $"{maybe_comma}") items) ++ tail) [] [] true = join $", " items ++ tail.
Proof. exact (commas_settled items tail). Qed.
Print Assumptions C52_commas_partial.

Example C52_commas_case :
  process_code_template $"f{maybe_comma}{g}{maybe_comma});" [] [] true = $"f, {g});" /\
  process_code_template $"f{maybe_comma}" [] [] true = $"f".
Proof. split; reflexivity. Qed.

(** The end of a binding has its parts in order, on one line each, separated by commas, for any of the 32 combinations
    of parts.  Partial: the parts mention no placeholder of the template. *)
Theorem C52_ending_partial indent m e : ~ In "{"%char indent -> ~ In nl indent ->
  let parts := present [py_args e; docstring e; return_policy e; keep_alive e; call_guard e] in
  Forall (neutral end_names) parts ->
  endswith $", )" (ending indent parts) = false -> endswith $", );" (ending indent parts) = false ->
  pydef_end indent m e = ending indent parts ++ (if m then $")" else $");").
Proof. exact (end_text indent m e). Qed.
Print Assumptions C52_ending_partial.

Example C52_ending_case :
  let e := EndParts (Some $"py::arg(x) = A{}") None (Some $"py::return_value_policy::reference") None (Some $"guard()") in
  Forall (neutral end_names) (present [py_args e; docstring e; return_policy e; keep_alive e; call_guard e]) /\
  pydef_end $"  " false e = $"  py::arg(x) = A{}, " ++ [nl] ++ $"  py::return_value_policy::reference, " ++ [nl] ++ $"  guard());" /\
  pydef_end $"  " true (EndParts None None None None None) = $")".
Proof. split; [cbn [present py_args docstring return_policy keep_alive call_guard]; each; apply neutralb_true; reflexivity|split; reflexivity]. Qed.

(** The lines of the binding of a constructor. *)
Theorem C52_constructor_partial indent py location arg_types pyarg docstring :
  Forall (neutral constructor_names) ([indent; py; location; arg_types] ++ present [pyarg; docstring]) ->
  Forall (fun s => ~ In nl s) ([indent; py; location; arg_types] ++ present [pyarg; docstring]) ->
  pydef_constructor indent py location arg_types pyarg docstring
  = add_item_before_cpp_comment (unlines (constructor_lines indent py location arg_types pyarg docstring)) $")".
Proof. exact (constructor_text indent py location arg_types pyarg docstring). Qed.
Print Assumptions C52_constructor_partial.

Example C52_constructor_case :
  pydef_constructor $"  " $"py" $"    // a.h:1" $"int, A<B>" (Some $"py::arg(a), py::arg(b)") None
  = $".def(py::init<int, A<B>>(),    // a.h:1" ++ [nl] ++ $"  py::arg(a), py::arg(b))" /\
  pydef_constructor $"  " $"nb" $"    // a.h:1" $"" None None = $".def(nb::init<>())    // a.h:1".
Proof. split; reflexivity. Qed.

(** False: a value that looks like a placeholder is replaced in its turn. *)
Theorem C52_value_refuted : ~ (forall d d' ps,
  (forall k, In (Hole k) ps -> dict_get k d = dict_get k d') -> replace_in_string (render ps) d = replace_in_string (render ps) d').
Proof.
  intros H. specialize (H [($"doc", $"see {name}"); ($"name", $"f")] [($"doc", $"see {name}"); ($"name", $"g")] [Hole $"doc"]).
  assert (K : forall k, In (Hole k) [Hole $"doc"] -> dict_get k [($"doc", $"see {name}"); ($"name", $"f")] =
    dict_get k [($"doc", $"see {name}"); ($"name", $"g")]).
  { intros k [E|[]]. inversion E. reflexivity. }
  specialize (H K). discriminate H.
Qed.
Print Assumptions C52_value_refuted.

(** False: in the documentation of a constructor without parameters the name of a placeholder removes the
    documentation. *)
Theorem C52_docstring_refuted : exists docstring,
  pydef_constructor $"  " $"py" [] [] None (Some docstring) = pydef_constructor $"  " $"py" [] [] None None.
Proof. exists ([dq] ++ $"see {maybe_pyarg}" ++ [dq]). reflexivity. Qed.
Print Assumptions C52_docstring_refuted.

(** False: when a line without value holds a value of several lines, only one of these disappears. *)
Theorem C52_multiline_refuted : ~ (forall dl t,
  (forall k v, In (k, Some v) dl -> ~ In "{"%char v) -> Forall (Forall (piece_ok (map fst dl))) t ->
  process_code_template (render_lines t) [] dl false = render_lines (fill_lines dl t)).
Proof.
  intros H. specialize (H [($"a", Some ($"x" ++ [nl] ++ $"y")); ($"b", None)] [[Hole $"a"; Hole $"b"]]).
  match type of H with ?A -> ?B -> _ => assert (HA : A); [|assert (HB : B); [|specialize (H HA HB); discriminate H]] end.
  - intros k v [E|[E|[]]]; [|discriminate]. apply (f_equal snd) in E. apply (f_equal (fun o => match o with Some x => x | None => [] end)) in E.
    cbn [snd] in E. rewrite <- E. intros I. apply contains_single in I. discriminate.
  - each; apply name_ok; reflexivity.
Qed.
Print Assumptions C52_multiline_refuted.
