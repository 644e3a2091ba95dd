(** C25 to C28 and C48: submodules, custom bindings, generator. *)
From Verif Require Import PyStr PyStrLemmas TextModel ScopeModel ScopeSpec OverloadModel OverloadSpec ModuleModel
  ModuleSpec ModuleProofs ModuleProofs2 ModuleProofs3.

(** *** C25: the tree of namespace codes *)

(** Whatever is recorded, the output is the text of a document in which the fragments found at a path
    are exactly those recorded for it, in order; a document has one block per name and each fragment
    has one place in its text. *)
Theorem C25_fragments_once_in_their_block_partial :
  forall roots ct shown_name ind log,
  Forall (fun r => recordable roots (fst r)) log ->
  exists d, wf_doc d /\ (forall p, frags p d = recorded_at roots log p) /\
  full_tree_code roots ct shown_name ind (record_all roots log empty_tree) [] = doc_text ct shown_name ind [] d.
Proof. exact record_all_text. Qed.
Print Assumptions C25_fragments_once_in_their_block_partial.

Definition C25_log : list (list str * str) :=
  [([$"A"], $"a1"); ([$"Root"; $"A"; $"B"], $"b"); ([$"C"], $"c"); ([$"A"], $"a2")].

Example C25_case :
  Forall (fun r => recordable [$"Root"] (fst r)) C25_log /\
  recorded_at [$"Root"] C25_log [$"A"] = [$"a1"; $"a2"] /\
  recorded_at [$"Root"] C25_log [$"A"; $"B"] = [$"b"] /\
  lines (full_tree_code [$"Root"] Pydef (fun x => x) $"  " (record_all [$"Root"] C25_log empty_tree) []) =
  [[]; $"{ // <namespace A>"; $"a1"; $"a2"; $"  { // <namespace B>"; $"  b"; $"  } // </namespace B>"; [];
   $"} // </namespace A>"; []; $"{ // <namespace C>"; $"c"; $"} // </namespace C>"; []].
Proof.
  split; [|repeat split; reflexivity].
  repeat constructor; try discriminate; intros C; cbn in C; intuition discriminate.
Qed.

(** A namespace without text of its own gets no block: the blocks inside it are then at the level of
    the blocks around. *)
Theorem C25_enclosing_block_refuted :
  ~ (forall roots shown_name ind log sc code n,
     Forall (fun r => recordable roots (fst r)) log -> In (sc, code) log -> In n (path_of roots sc) ->
     contains ($"<namespace " ++ n ++ $">")
       (full_tree_code roots Pydef shown_name ind (record_all roots log empty_tree) []) = true).
Proof.
  intros H.
  assert (C : contains $"<namespace A>"
    (full_tree_code [] Pydef (fun x => x) $"  " (record_all [] [([$"A"; $"B"], $"b")] empty_tree) []) = true).
  { apply (H [] (fun x => x) $"  " [([$"A"; $"B"], $"b")] [$"A"; $"B"] $"b" $"A").
    - repeat constructor; try discriminate; intros C; cbn in C; intuition discriminate.
    - left. reflexivity.
    - left. reflexivity. }
  vm_compute in C. discriminate.
Qed.
Print Assumptions C25_enclosing_block_refuted.

(** *** C26: submodules *)

(** In the binding code of a header: each namespace has one block, inside the block of the namespace
    around it; the block starts with the creation of the submodule, followed by what the first opening
    holds, then by what the next openings hold, without creation. *)
Theorem C26_submodules_created_once_partial :
  forall roots shown_name py ind custom items,
  let os := unit_openings roots spacing_cpp [] items in
  clean_openings os -> no_clash roots os ->
  exists d, wf_doc d /\
  unit_pydef roots shown_name py ind custom items =
    (match direct_block roots spacing_cpp [] items with [] => [] | ls => unlines ls ++ [nl] end)
    ++ doc_text Pydef shown_name ind [] d /\
  (forall p, frags p d =
     created_once (pydef_frag ind custom roots (create_text py shown_name roots)) (at_path roots p os)) /\
  (forall p n, frags (p ++ [n]) d <> [] -> p <> [] -> frags p d <> []).
Proof. exact unit_pydef_final. Qed.
Print Assumptions C26_submodules_created_once_partial.

(** The same for the classes that stand for submodules in the stub of a header. *)
Theorem C26_stub_classes_created_once_partial :
  forall roots shown_name ind layout custom items,
  let os := unit_openings roots (stub_spacer layout) [[]] items in
  clean_openings os -> no_clash roots os ->
  exists d, wf_doc d /\
  unit_stub roots shown_name ind layout custom items =
    unlines (direct_block roots (stub_spacer layout) [[]] items) ++ doc_text Stub shown_name ind [] d /\
  (forall p, frags p d =
     created_once (stub_frag ind custom roots (header_lines shown_name ind)) (at_path roots p os)) /\
  (forall p n, frags (p ++ [n]) d <> [] -> p <> [] -> frags p d <> []).
Proof. exact unit_stub_final. Qed.
Print Assumptions C26_stub_classes_created_once_partial.

Definition C26_items : list item :=
  [ Elem KFunction [$"m.def(f);"];
    Ns $"Root" [] [] [Ns $"A" $"doc" [] [Ns $"B" [] [] [Elem KFunction [$"b"]]; Elem KFunction [$"a1"]]];
    Ns $"Root" [] [] [Ns $"A" [] [] [Elem KFunction [$"a2"]]] ].

Example C26_case :
  let os := unit_openings [$"Root"] spacing_cpp [] C26_items in
  clean_openings os /\ no_clash [$"Root"] os /\
  map o_body (at_path [$"Root"] [$"A"] os) = [[$"a1"]; [$"a2"]] /\
  lines (unit_pydef [$"Root"] (fun x => x) $"py" $"  " (fun _ _ => None) C26_items) =
  [$"m.def(f);"; []; $"{ // <namespace A>";
   $"  py::module_ pyNsA = m.def_submodule(" ++ [dq] ++ $"A" ++ [dq] ++ $", " ++ [dq] ++ $"doc" ++ [dq] ++ $");";
   $"  a1"; $"  a2"; $"  { // <namespace B>";
   $"    py::module_ pyNsA_NsB = pyNsA.def_submodule(" ++ [dq] ++ $"B" ++ [dq] ++ $", " ++ [dq; dq] ++ $");";
   $"    b"; $"  } // </namespace B>"; []; $"} // </namespace A>"; []].
Proof.
  cbv zeta. split; [|split; [|split; reflexivity]].
  - unfold clean_openings. cbn. repeat constructor; try discriminate; intros C; cbn in C; intuition discriminate.
  - intros a b Ha Hb. cbn in Ha, Hb. intuition subst; cbn; try reflexivity; cbn in *; discriminate.
Qed.

(** A namespace that is both at the top level and in a root namespace: its variable is created twice
    in the same block. *)
Theorem C26_namespace_inside_and_outside_root_refuted :
  ~ (forall roots shown_name py ind custom items line,
     let os := unit_openings roots spacing_cpp [] items in
     clean_openings os ->
     (forall o, In o os -> create_text py shown_name roots o = line) ->
     length (split line (unit_pydef roots shown_name py ind custom items)) <= 2).
Proof.
  intros H.
  pose (items := [Ns $"A" [] [] [Elem KFunction [$"f"]]; Ns $"Root" [] [] [Ns $"A" [] [] [Elem KFunction [$"g"]]]]).
  specialize (H [$"Root"] (fun x => x) $"py" $"  " (fun _ _ => None) items
    ($"py::module_ pyNsA = m.def_submodule(" ++ [dq] ++ $"A" ++ [dq] ++ $", " ++ [dq; dq] ++ $");")).
  cbv zeta in H.
  assert (Hc : clean_openings (unit_openings [$"Root"] spacing_cpp [] items)).
  { unfold clean_openings. cbn. repeat constructor; try discriminate; intros C; cbn in C; intuition discriminate. }
  specialize (H Hc).
  assert (Hl : forall o, In o (unit_openings [$"Root"] spacing_cpp [] items) ->
    create_text $"py" (fun x => x) [$"Root"] o =
    $"py::module_ pyNsA = m.def_submodule(" ++ [dq] ++ $"A" ++ [dq] ++ $", " ++ [dq; dq] ++ $");").
  { intros o Ho. cbn in Ho. intuition subst; reflexivity. }
  specialize (H Hl). vm_compute in H. lia.
Qed.
Print Assumptions C26_namespace_inside_and_outside_root_refuted.

(** A nested definition namespace A::B is one namespace named A::B: the variable is not an
    identifier. *)
Theorem C26_nested_definition_variable_refuted :
  ~ (forall items o, In o (unit_openings [] spacing_cpp [] items) ->
     forallb (fun c => is_alnum c || ceqb c "_") (module_var (path_of [] (o_scope o))) = true).
Proof.
  intros H.
  specialize (H [Ns $"A::B" [] [] []]
    {| o_around := []; o_name := $"A::B"; o_doc := []; o_docstring := []; o_body := [] |} (or_introl eq_refl)).
  vm_compute in H. discriminate.
Qed.
Print Assumptions C26_nested_definition_variable_refuted.

(** The trees are cleared between headers: a namespace opened by two headers gives two classes of the
    same name in the stub, the second hiding the first, and two creations of the submodule. *)
Theorem C26_two_headers_refuted :
  ~ (forall shown_name ind header1 header2 name,
     header1 = [Ns name [] [] [Elem KFunction [$"f"]]] -> header2 = [Ns name [] [] [Elem KFunction [$"g"]]] ->
     length (split ($"class " ++ shown_name name ++ $":")
       (unit_stub [] shown_name ind false (fun _ _ => None) header1
        ++ unit_stub [] shown_name ind false (fun _ _ => None) header2)) <= 2).
Proof.
  intros H. specialize (H (fun x => x) $"  " _ _ $"A" eq_refl eq_refl). vm_compute in H. lia.
Qed.
Print Assumptions C26_two_headers_refuted.

(** *** C27: custom code of the main module *)

(** One generator: the code registered for the main module ends the first header and no other. *)
Theorem C27_main_code_once :
  forall ctx adapt rs (c : ctx) omit hs,
  g_codes (snd (process_all ctx adapt (register_all rs) (new_generator ctx c omit) hs)) =
  add_to_first (expected_custom clean_code $"LG_MODULE" $"m" (registered false [] rs))
               (expected_custom clean_code $"LG_MODULE" $"m" (registered true [] rs))
               (fst (adapted adapt c hs)).
Proof. exact main_code_once. Qed.
Print Assumptions C27_main_code_once.

Definition C27_adapt (c : nat) (code _ : str) : nat * (str * str) := (S c, (code ++ $".pyi", code ++ $".cpp")).
Definition C27_rs : list registration :=
  [{| r_where := []; r_stub := Some $"def x"; r_pydef := Some $"LG_MODULE.def(x);" |};
   {| r_where := $"A"; r_stub := None; r_pydef := Some $"LG_CLASS.def(y);" |};
   {| r_where := []; r_stub := None; r_pydef := Some $"LG_MODULE.def(z, LG_MODULE);" |}].

Example C27_case :
  let g := snd (process_all nat C27_adapt (register_all C27_rs) (new_generator nat 0 false)
                  [($"a", $"a.h"); ($"b", $"b.h")]) in
  map gen_pydef (g_codes g) =
    [$"a.cpp" ++ [nl] ++ $"m.def(x);" ++ [nl] ++ $"m.def(z, m);" ++ [nl]; $"b.cpp"] /\
  map gen_stub (g_codes g) = [$"a.pyi" ++ [nl] ++ $"def x" ++ [nl]; $"b.pyi"].
Proof. split; reflexivity. Qed.

(** The marks are in the options: a second generator made with them emits nothing. *)
Theorem C27_second_generator_refuted :
  ~ (forall ctx adapt rs (c : ctx) omit hs1 hs2,
     let '(cb, _) := process_all ctx adapt (register_all rs) (new_generator ctx c omit) hs1 in
     g_codes (snd (process_all ctx adapt cb (new_generator ctx c omit) hs2)) =
     add_to_first (expected_custom clean_code $"LG_MODULE" $"m" (registered false [] rs))
                  (expected_custom clean_code $"LG_MODULE" $"m" (registered true [] rs))
                  (fst (adapted adapt c hs2))).
Proof.
  intros H. specialize (H nat C27_adapt C27_rs 0 false [($"a", $"a.h")] [($"b", $"b.h")]).
  vm_compute in H. discriminate.
Qed.
Print Assumptions C27_second_generator_refuted.

(** More precisely, a second generator never emits anything. *)
Theorem C27_second_generator_emits_nothing :
  forall ctx adapt rs (c c' : ctx) omit hs1 hs2, hs1 <> [] ->
  let '(cb, _) := process_all ctx adapt (register_all rs) (new_generator ctx c omit) hs1 in
  g_codes (snd (process_all ctx adapt cb (new_generator ctx c' omit) hs2)) = fst (adapted adapt c' hs2).
Proof. exact second_generator. Qed.
Print Assumptions C27_second_generator_emits_nothing.

(** Code registered after the first emission is lost. *)
Theorem C27_late_registration_refuted :
  ~ (forall ctx adapt rs r (c : ctx) omit h1 h2 code,
     r_where r = [] -> r_pydef r = Some code -> contains $"LG_MODULE" code = false ->
     let '(cb, g) := process_all ctx adapt (register_all rs) (new_generator ctx c omit) [h1] in
     let cb := add_custom_bindings cb (r_where r) (r_stub r) (r_pydef r) in
     existsb (fun g => contains code (gen_pydef g)) (g_codes (snd (process_all ctx adapt cb g [h2]))) = true).
Proof.
  intros H. specialize (H nat C27_adapt C27_rs {| r_where := []; r_stub := None; r_pydef := Some $"late;" |}
    0 false ($"a", $"a.h") ($"b", $"b.h") $"late;" eq_refl eq_refl eq_refl).
  vm_compute in H. discriminate.
Qed.
Print Assumptions C27_late_registration_refuted.

(** *** C28: custom code of classes and submodules *)

Theorem C28_class_code :
  forall rs q var is_pydef,
  make_class_custom_code (register_all rs) q var is_pydef =
  expected_custom clean_code $"LG_CLASS" var (registered is_pydef q rs).
Proof.
  exact (fun rs q var b => make_custom_registered b q rs $"LG_CLASS" var
           (fun H => ltac:(discriminate H)) (fun H => ltac:(cbn in H; intuition discriminate))).
Qed.
Print Assumptions C28_class_code.

Theorem C28_submodule_code :
  forall rs q var is_pydef,
  make_submodule_custom_code (register_all rs) q var is_pydef =
  expected_custom clean_code $"LG_SUBMODULE" var (registered is_pydef q rs).
Proof.
  exact (fun rs q var b => make_custom_registered b q rs $"LG_SUBMODULE" var
           (fun H => ltac:(discriminate H)) (fun H => ltac:(cbn in H; intuition discriminate))).
Qed.
Print Assumptions C28_submodule_code.

Example C28_case :
  make_class_custom_code (register_all C27_rs) $"A" $"cls" true = Some ([nl] ++ $"cls.def(y);" ++ [nl]) /\
  make_class_custom_code (register_all C27_rs) $"A" $"cls" false = None /\
  make_class_custom_code (register_all C27_rs) $"B" $"cls" true = None /\
  make_submodule_custom_code
    (register_all [{| r_where := $"N::M"; r_stub := None; r_pydef := Some ([nl] ++ $"  LG_SUBMODULE a LG_SUBMODULE;" ++ [nl]) |};
                   {| r_where := $"N::M"; r_stub := None; r_pydef := Some $"b;" |}]) $"N::M" $"v" true
  = Some ([nl] ++ $"v a v;" ++ [nl] ++ $"b;" ++ [nl]).
Proof. repeat split; reflexivity. Qed.

(** The custom code of a namespace follows each of its openings. *)
Theorem C28_reopened_namespace_refuted :
  ~ (forall roots shown_name py ind items code,
     clean_openings (unit_openings roots spacing_cpp [] items) ->
     no_clash roots (unit_openings roots spacing_cpp [] items) ->
     length (split code (unit_pydef roots shown_name py ind (fun _ _ => Some code) items)) <= 2).
Proof.
  intros H.
  specialize (H [] (fun x => x) $"py" $"  " [Ns $"A" [] [] [Elem KFunction [$"f"]]; Ns $"A" [] [] [Elem KFunction [$"g"]]]
                $"custom;").
  assert (X : 3 <= 2); [|lia]. apply H.
  - unfold clean_openings. cbn. repeat constructor; try discriminate; intros C; cbn in C; intuition discriminate.
  - intros a b Ha Hb. cbn in Ha, Hb. intuition subst; reflexivity.
Qed.
Print Assumptions C28_reopened_namespace_refuted.

(** *** C48: output of the generator *)

(** Each header gives one code, in order; the codes given before do not change. *)
Theorem C48_one_code_per_header :
  forall ctx adapt cb (g : generator ctx) hs, exists new,
  g_codes (snd (process_all ctx adapt cb g hs)) = g_codes g ++ new /\ map source_filename new = map snd hs.
Proof. exact process_all_extends. Qed.
Print Assumptions C48_one_code_per_header.

Theorem C48_headers_before_are_kept :
  forall ctx adapt cb (g : generator ctx) hs1 hs2, exists new,
  g_codes (snd (process_all ctx adapt cb g (hs1 ++ hs2))) =
  g_codes (snd (process_all ctx adapt cb g hs1)) ++ new /\ map source_filename new = map snd hs2.
Proof. exact headers_before. Qed.
Print Assumptions C48_headers_before_are_kept.

(** The output is made of the marked texts of these codes, in order, separated by two line breaks. *)
Theorem C48_binding_text :
  forall ctx boxed boxed_struct boxed_unit short post (g : generator ctx),
  pydef_code ctx boxed boxed_struct boxed_unit short post g =
  post (join [nl; nl] (map (fun c => tidy_blank_lines (marked short "/" c (gen_pydef c)))
                           (codes_with_boxed_types ctx boxed boxed_struct boxed_unit g))).
Proof. exact pydef_text. Qed.
Print Assumptions C48_binding_text.
Theorem C48_stub_text :
  forall ctx boxed boxed_struct boxed_unit short post (g : generator ctx),
  stub_code ctx boxed boxed_struct boxed_unit short post g =
  post (join [nl; nl] (map (fun c => tidy_blank_lines (marked short "#" c (gen_stub c)))
                           (codes_with_boxed_types ctx boxed boxed_struct boxed_unit g))).
Proof. exact stub_text. Qed.
Print Assumptions C48_stub_text.

(** The boxed types come first, once each and in a fixed order. *)
Theorem C48_boxed_types_first :
  forall ctx boxed boxed_struct boxed_unit (g : generator ctx),
  codes_with_boxed_types ctx boxed boxed_struct boxed_unit g =
  (if omit_boxed g then [] else
   match boxed (g_ctx g) with
   | [] => []
   | _ => let '(s, p) := boxed_unit (boxed_types_cpp_code ctx boxed boxed_struct g) in
          [{| source_filename := $"BoxedTypes"; gen_pydef := p; gen_stub := s |}]
   end) ++ g_codes g.
Proof. exact codes_boxed. Qed.
Print Assumptions C48_boxed_types_first.
Theorem C48_boxed_types_once_in_order :
  forall ctx boxed boxed_struct (g : generator ctx), exists l,
  increasing l /\ (forall x, In x l <-> In x (boxed (g_ctx g))) /\
  boxed_types_cpp_code ctx boxed boxed_struct g = concat (map boxed_struct l).
Proof. exact boxed_struct_codes. Qed.
Print Assumptions C48_boxed_types_once_in_order.
Theorem C48_boxed_types_order_irrelevant :
  forall ctx boxed boxed_struct (g g' : generator ctx),
  (forall x, In x (boxed (g_ctx g)) <-> In x (boxed (g_ctx g'))) ->
  boxed_types_cpp_code ctx boxed boxed_struct g = boxed_types_cpp_code ctx boxed boxed_struct g'.
Proof. exact boxed_order_irrelevant. Qed.
Print Assumptions C48_boxed_types_order_irrelevant.

(** More headers only add text at the end as long as no new boxed type is met. *)
Theorem C48_output_is_extended :
  forall ctx boxed adapt boxed_struct boxed_unit short cb (g : generator ctx) hs,
  g_codes g <> [] -> hs <> [] ->
  let g' := snd (process_all ctx adapt cb g hs) in
  (forall x, In x (boxed (g_ctx g)) <-> In x (boxed (g_ctx g'))) ->
  exists more,
  pydef_code ctx boxed boxed_struct boxed_unit short (fun x => x) g' =
  pydef_code ctx boxed boxed_struct boxed_unit short (fun x => x) g ++ [nl; nl] ++ more.
Proof. exact pydef_extends. Qed.
Print Assumptions C48_output_is_extended.

Example C48_case :
  let adapt := fun (c : list str) code (_ : str) => (c ++ [code], (code ++ $".pyi", code ++ $".cpp")) in
  let run hs := snd (process_all (list str) adapt no_custom (new_generator (list str) [] false) hs) in
  let hs := [($"b", $"b.h"); ($"a", []); ($"b", $"b.h")] in
  map source_filename (g_codes (run hs)) = [$"b.h"; []; $"b.h"] /\
  boxed_types_cpp_code (list str) (fun c => c) (fun t => t ++ $";") (run hs) = $"a;b;" /\
  lines (pydef_code (list str) (fun c => c) (fun t => t ++ $";") (fun c => (c, c)) (fun f => f) (fun x => x) (run [($"b", $"b.h")]))
  = [$"////////////////////    <generated_from:BoxedTypes>    ////////////////////";
     $"b;////////////////////    </generated_from:BoxedTypes>    ////////////////////"; []; [];
     $"////////////////////    <generated_from:b.h>    ////////////////////";
     $"b.cpp////////////////////    </generated_from:b.h>    ////////////////////"; []].
Proof. repeat split; reflexivity. Qed.
