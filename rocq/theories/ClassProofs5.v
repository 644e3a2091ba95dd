From Verif Require Import PyStr PyStrLemmas PyDict RegionsModel TextModel TextSpec TextProofs CommentModel CommentSpec FillModel FillSpec FillProofs FillProofs2 FillProofs3 FillProofs4
  NamedModel NamedProofs3 EnumModel EnumSpec EnumProofs EnumProofs2 EnumProofs3 CommentProofs3 CommentProofs4 ClassModel ClassSpec ClassProofs ClassProofs2 ClassProofs3 ClassProofs4.
(** The methods of a class, continued, and enums. *)

Definition checked (t : str) : bool := forallb bare_c t && match rev t with z :: _ => negb (is_word z) | [] => true end.
Lemma reads_as t ks : checked t = true -> read_text t = ks -> reads t ks.
Proof.
  intros C <-. unfold checked in C. apply andb_true_iff in C as [A B]. destruct (rev t) as [|z r] eqn:E; apply (f_equal (@rev ascii)) in E; rewrite rev_involutive in E; cbn [rev] in E; subst t; [exact reads_nil|].
  apply reads_known; auto. apply negb_true_iff. auto.
Qed.
Ltac known := apply reads_as; vm_compute; reflexivity.

Section Iterable.
Variable o : class_env.
Hypothesis indent : Forall (eq sp) (cl_indent o).

Definition iterable_names : list str := map lit ["_i_"; "qualified_struct_name"; "maybe_comma"]%string.
Definition iterable_pieces (nanobind : bool) : list piece :=
  if nanobind then
    [FillSpec.Text ($".def(" ++ [dq] ++ $"__iter__" ++ [dq] ++ $", [](const "); Hole $"qualified_struct_name"; FillSpec.Text ($" &v) {" ++ [nl] ++ $"        return nb::make_iterator(nb::type<"); Hole $"qualified_struct_name";
     FillSpec.Text ($">(), " ++ [dq] ++ $"iterator" ++ [dq] ++ $", v.begin(), v.end());" ++ [nl] ++ $"    }, nb::keep_alive<0, 1>())" ++ [nl] ++ $".def(" ++ [dq] ++ $"__len__" ++ [dq] ++ $", [](const ");
     Hole $"qualified_struct_name"; FillSpec.Text ($" &v) { return v.size(); })" ++ [nl])]
  else
    [FillSpec.Text ($".def(" ++ [dq] ++ $"__iter__" ++ [dq] ++ $", [](const "); Hole $"qualified_struct_name";
     FillSpec.Text ($" &v) { return py::make_iterator(v.begin(), v.end()); }, py::keep_alive<0, 1>())" ++ [nl] ++ $".def(" ++ [dq] ++ $"__len__" ++ [dq] ++ $", [](const ");
     Hole $"qualified_struct_name"; FillSpec.Text ($" &v) { return v.size(); })" ++ [nl])].
Definition iterable_out (q : str) (nanobind : bool) : list str :=
  if nanobind then
    [$".def(" ++ [dq] ++ $"__iter__" ++ [dq] ++ $", [](const "; q; $" &v) {" ++ [nl] ++ $"        return nb::make_iterator(nb::type<"; q;
     $">(), " ++ [dq] ++ $"iterator" ++ [dq] ++ $", v.begin(), v.end());" ++ [nl] ++ $"    }, nb::keep_alive<0, 1>())" ++ [nl] ++ $".def(" ++ [dq] ++ $"__len__" ++ [dq] ++ $", [](const ";
     q; $" &v) { return v.size(); })" ++ [nl]]
  else
    [$".def(" ++ [dq] ++ $"__iter__" ++ [dq] ++ $", [](const "; q;
     $" &v) { return py::make_iterator(v.begin(), v.end()); }, py::keep_alive<0, 1>())" ++ [nl] ++ $".def(" ++ [dq] ++ $"__len__" ++ [dq] ++ $", [](const ";
     q; $" &v) { return v.size(); })" ++ [nl]].
Lemma iterable_name_is k : smem k iterable_names = true -> is_name k.
Proof. intros H. apply smem_In in H. pose proof (names_ok iterable_names eq_refl) as F. rewrite Forall_forall in F. auto. Qed.
Lemma ends_nl p c x : ceqb c nl = false -> endswith (p ++ [c]) (x ++ [nl]) = false.
Proof. intros H. rewrite endswith_snoc, H. reflexivity. Qed.
Lemma iterable_is h : writable o h ->
  process_code_template (iterable_template o) [($"_i_", cl_indent o); ($"qualified_struct_name", qualified_special h)] [] true = concat (iterable_out (qualified_special h) (cl_nanobind o)).
Proof.
  intros W. pose proof (qualified_simple o h W) as Q.
  assert (X : exists x, concat (iterable_out (qualified_special h) (cl_nanobind o)) = x ++ [nl]).
  { unfold iterable_out. destruct (cl_nanobind o); cbn [concat]; rewrite app_nil_r, !app_assoc; eexists; reflexivity. }
  apply (fill_plain iterable_names _ (iterable_pieces (cl_nanobind o))).
  - unfold iterable_template. destruct (cl_nanobind o); reflexivity.
  - destruct (cl_nanobind o); unfold iterable_pieces; repeat (apply Forall_cons; [first [apply iterable_name_is; reflexivity|apply neutralb_true; reflexivity]|]); constructor.
  - apply smem_incl. reflexivity.
  - apply names_ok. reflexivity.
  - cbn [map snd]. repeat (apply Forall_cons; [|]); [..|apply Forall_nil].
    + apply no_brace_neutral. intros I. rewrite Forall_forall in indent. apply indent in I. discriminate.
    + apply simple_neutral; auto.
  - cbn; tauto.
  - destruct (cl_nanobind o); reflexivity.
  - destruct X as (x & ->). exact (ends_nl $"," " " x eq_refl).
  - destruct X as (x & ->). exact (ends_nl $", )" ";" x eq_refl).
  - destruct X as (x & ->). exact (ends_nl $", " ")" x eq_refl).
Qed.
Definition lex_iter (q : str) : list lexeme :=
  read_text $", [](const " ++ read_text q ++
  (if cl_nanobind o then read_text $"&v) { return nb::make_iterator(nb::type<" ++ (read_text q ++ [Sign ">"]) ++ read_text $"(), " ++ [Str $"iterator"] ++ read_text $", v.begin(), v.end()); }, nb::keep_alive<0, 1>()"
   else read_text $"&v) { return py::make_iterator(v.begin(), v.end()); }, py::keep_alive<0, 1>()").
Definition lex_len (q : str) : list lexeme := read_text $", [](const " ++ read_text q ++ read_text $"&v) { return v.size(); }".
Lemma iterable_calls_are h : writable o h -> iterable_calls o h =
  if cl_iterable o (h_python h) then [define $"__iter__" (lex_iter (qualified_special h)); define $"__len__" (lex_len (qualified_special h))] else [].
Proof.
  intros W. unfold iterable_calls. destruct (cl_iterable o (h_python h)); [|reflexivity]. cbv zeta. rewrite <- qualified_is. pose proof (simple_bare _ (qualified_simple o h W)) as B.
  set (q := qualified_special h) in *. clearbody q.
  pose proof (reads_then q " " B (bare_one " " eq_refl) eq_refl) as R1. change (read_text [" "%char]) with (@nil lexeme) in R1. rewrite app_nil_r in R1.
  pose proof (reads_then q ">" B (bare_one ">" eq_refl) eq_refl) as R2. change (read_text [">"%char]) with [Sign ">"] in R2.
  pose proof (reads_known $", [](const" " " eq_refl eq_refl) as R3.
  assert (L : read_text ($", [](const " ++ q ++ $" &v) { return v.size(); }") = lex_len q).
  { apply reads_here. refine (reads_eq _ ($", [](const " ++ (q ++ [" "%char]) ++ $"&v) { return v.size(); }") _ _ _ eq_refl _); [flatten_text; reflexivity|].
    apply reads_app; [exact R3|]. apply reads_app; [exact R1|]. exact (reads_known $"&v) { return v.size(); " "}" eq_refl eq_refl). }
  rewrite L. unfold lex_iter, define. destruct (cl_nanobind o).
  - assert (I : read_text ($", [](const " ++ q ++ $" &v) { return nb::make_iterator(nb::type<" ++ q ++ $">(), ") = read_text $", [](const " ++ read_text q ++ read_text $"&v) { return nb::make_iterator(nb::type<" ++ (read_text q ++ [Sign ">"]) ++ read_text $"(), ").
    { apply reads_here. refine (reads_eq _ ($", [](const " ++ (q ++ [" "%char]) ++ $"&v) { return nb::make_iterator(nb::type<" ++ (q ++ [">"%char]) ++ $"(), ") _ _ _ eq_refl _); [flatten_text; reflexivity|].
      apply reads_app; [exact R3|]. apply reads_app; [exact R1|]. apply reads_app; [exact (reads_known $"&v) { return nb::make_iterator(nb::type" "<" eq_refl eq_refl)|].
      apply reads_app; [exact R2|]. exact (reads_known $"()," " " eq_refl eq_refl). }
    rewrite I, <- ?app_assoc. reflexivity.
  - assert (I : read_text ($", [](const " ++ q ++ $" &v) { return py::make_iterator(v.begin(), v.end()); }, py::keep_alive<0, 1>()") = read_text $", [](const " ++ read_text q ++ read_text $"&v) { return py::make_iterator(v.begin(), v.end()); }, py::keep_alive<0, 1>()").
    { apply reads_here. refine (reads_eq _ ($", [](const " ++ (q ++ [" "%char]) ++ $"&v) { return py::make_iterator(v.begin(), v.end()); }, py::keep_alive<0, 1>()") _ _ _ eq_refl _); [flatten_text; reflexivity|].
      apply reads_app; [exact R3|]. apply reads_app; [exact R1|]. exact (reads_known $"&v) { return py::make_iterator(v.begin(), v.end()); }, py::keep_alive<0, 1>(" ")" eq_refl eq_refl). }
    rewrite I. reflexivity.
Qed.
Lemma iter_level q : Forall (fun c => simple_c c = true) q -> level 0 (lex_iter q) = Some 0 /\ level 0 (lex_len q) = Some 0.
Proof.
  intros F. pose proof (level_read_text q F) as L. split.
  - unfold lex_iter. erewrite level_app by reflexivity. erewrite level_app by apply L. destruct (cl_nanobind o); [|reflexivity].
    erewrite level_app by reflexivity. rewrite <- app_assoc. erewrite level_app by apply L. reflexivity.
  - unfold lex_len. erewrite level_app by reflexivity. erewrite level_app by apply L. reflexivity.
Qed.
Lemma iterable_gives h : writable o h -> gives (iterable_text o h) (iterable_calls o h).
Proof.
  intros W. rewrite (iterable_calls_are h W). unfold iterable_text. destruct (cl_iterable o (h_python h)); [|exact gives_nil]. rewrite (iterable_is h W).
  pose proof (qualified_simple o h W) as QS. pose proof (simple_bare _ QS) as B. set (q := qualified_special h) in *. clearbody q.
  assert (E : read_text (concat (iterable_out q (cl_nanobind o))) =
    ([Sign "."; Word $"def"; Sign "("; Str $"__iter__"] ++ lex_iter q ++ [Sign ")"]) ++ [Sign "."; Word $"def"; Sign "("; Str $"__len__"] ++ lex_len q ++ [Sign ")"]).
  { apply reads_here.
    pose proof (reads_then q " " B (bare_one " " eq_refl) eq_refl) as R1. change (read_text [" "%char]) with (@nil lexeme) in R1. rewrite app_nil_r in R1.
    pose proof (reads_then q ">" B (bare_one ">" eq_refl) eq_refl) as R2. change (read_text [">"%char]) with [Sign ">"] in R2.
    pose proof (reads_known $", [](const" " " eq_refl eq_refl) as R3. pose proof (reads_known $".def" "(" eq_refl eq_refl) as R4.
    assert (K1 : read_text $", v.begin(), v.end()); }, nb::keep_alive<0, 1>())" = read_text $", v.begin(), v.end()); }, nb::keep_alive<0, 1>()" ++ [Sign ")"]) by reflexivity.
    assert (K2 : read_text $"&v) { return v.size(); })" = read_text $"&v) { return v.size(); }" ++ [Sign ")"]) by reflexivity.
    assert (K3 : read_text $"&v) { return py::make_iterator(v.begin(), v.end()); }, py::keep_alive<0, 1>())" = read_text $"&v) { return py::make_iterator(v.begin(), v.end()); }, py::keep_alive<0, 1>()" ++ [Sign ")"]) by reflexivity.
    assert (Li : reads ([dq] ++ $"__iter__" ++ [dq]) [Str $"__iter__"]) by (apply reads_literal, word_literal; repeat constructor).
    assert (Ll : reads ([dq] ++ $"__len__" ++ [dq]) [Str $"__len__"]) by (apply reads_literal, word_literal; repeat constructor).
    assert (Lt : reads ([dq] ++ $"iterator" ++ [dq]) [Str $"iterator"]) by (apply reads_literal, word_literal; repeat constructor).
    assert (RL : reads ($".def(" ++ ([dq] ++ $"__len__" ++ [dq]) ++ $", [](const " ++ (q ++ [" "%char]) ++ $"&v) { return v.size(); })" ++ [nl])
      ([Sign "."; Word $"def"; Sign "("] ++ [Str $"__len__"] ++ read_text $", [](const " ++ read_text q ++ read_text $"&v) { return v.size(); })" ++ [])).
    { apply reads_app; [exact R4|]. apply reads_app; [exact Ll|]. apply reads_app; [exact R3|]. apply reads_app; [exact R1|]. apply reads_app; [exact (reads_known $"&v) { return v.size(); }" ")" eq_refl eq_refl)|].
      apply reads_white. repeat constructor. }
    unfold iterable_out, lex_iter. destruct (cl_nanobind o).
    - refine (reads_eq _ (($".def(" ++ ([dq] ++ $"__iter__" ++ [dq]) ++ $", [](const " ++ (q ++ [" "%char]) ++ ($"&v) {" ++ [nl] ++ $"        return nb::make_iterator(nb::type<") ++ (q ++ [">"%char]) ++ $"(), "
          ++ ([dq] ++ $"iterator" ++ [dq]) ++ ($", v.begin(), v.end());" ++ [nl] ++ $"    }, nb::keep_alive<0, 1>())" ++ [nl]))
          ++ ($".def(" ++ ([dq] ++ $"__len__" ++ [dq]) ++ $", [](const " ++ (q ++ [" "%char]) ++ $"&v) { return v.size(); })" ++ [nl])) _
        (([Sign "."; Word $"def"; Sign "("] ++ [Str $"__iter__"] ++ read_text $", [](const " ++ read_text q ++ read_text $"&v) { return nb::make_iterator(nb::type<" ++ (read_text q ++ [Sign ">"]) ++ read_text $"(), "
          ++ [Str $"iterator"] ++ read_text $", v.begin(), v.end()); }, nb::keep_alive<0, 1>())")
          ++ ([Sign "."; Word $"def"; Sign "("] ++ [Str $"__len__"] ++ read_text $", [](const " ++ read_text q ++ read_text $"&v) { return v.size(); })" ++ [])) _ _ _).
      + cbn [concat]. rewrite app_nil_r. flatten_text. reflexivity.
      + rewrite K2, K1, app_nil_r. unfold lex_len. change [Sign "."; Word $"def"; Sign "("; Str $"__iter__"] with ([Sign "."; Word $"def"; Sign "("] ++ [Str $"__iter__"]). change [Sign "."; Word $"def"; Sign "("; Str $"__len__"] with ([Sign "."; Word $"def"; Sign "("] ++ [Str $"__len__"]). rewrite <- !app_assoc. reflexivity.
      + apply reads_app; [|exact RL]. apply reads_app; [exact R4|]. apply reads_app; [exact Li|]. apply reads_app; [exact R3|]. apply reads_app; [exact R1|].
        apply reads_app; [known|]. apply reads_app; [exact R2|].
        apply reads_app; [known|]. apply reads_app; [exact Lt|].
        known.
    - refine (reads_eq _ (($".def(" ++ ([dq] ++ $"__iter__" ++ [dq]) ++ $", [](const " ++ (q ++ [" "%char]) ++ ($"&v) { return py::make_iterator(v.begin(), v.end()); }, py::keep_alive<0, 1>())" ++ [nl]))
          ++ ($".def(" ++ ([dq] ++ $"__len__" ++ [dq]) ++ $", [](const " ++ (q ++ [" "%char]) ++ $"&v) { return v.size(); })" ++ [nl])) _
        (([Sign "."; Word $"def"; Sign "("] ++ [Str $"__iter__"] ++ read_text $", [](const " ++ read_text q ++ read_text $"&v) { return py::make_iterator(v.begin(), v.end()); }, py::keep_alive<0, 1>())")
          ++ ([Sign "."; Word $"def"; Sign "("] ++ [Str $"__len__"] ++ read_text $", [](const " ++ read_text q ++ read_text $"&v) { return v.size(); })" ++ [])) _ _ _).
      + cbn [concat]. rewrite app_nil_r. flatten_text. reflexivity.
      + rewrite K2, K3, app_nil_r. unfold lex_len. change [Sign "."; Word $"def"; Sign "("; Str $"__iter__"] with ([Sign "."; Word $"def"; Sign "("] ++ [Str $"__iter__"]). change [Sign "."; Word $"def"; Sign "("; Str $"__len__"] with ([Sign "."; Word $"def"; Sign "("] ++ [Str $"__len__"]). rewrite <- !app_assoc. reflexivity.
      + apply reads_app; [|exact RL]. apply reads_app; [exact R4|]. apply reads_app; [exact Li|]. apply reads_app; [exact R3|]. apply reads_app; [exact R1|].
        known. }
  assert (X : exists x, concat (iterable_out q (cl_nanobind o)) = x ++ [nl]).
  { unfold iterable_out. destruct (cl_nanobind o); cbn [concat]; rewrite app_nil_r, !app_assoc; eexists; reflexivity. }
  eexists. split; [apply reads_indented; [apply spaces_all|right; exact X]|]. rewrite E. destruct (iter_level q QS) as [L1 L2].
  apply (applications_next _ _ [_] [_]); apply define_read; auto.
Qed.

(** ** What a class holds *)

Lemma calls_of_is t : calls_in t <> None -> applications Next (read_text t) = Some (calls_of t).
Proof. unfold calls_of, calls_in. destruct (applications Next (read_text t)); congruence. Qed.
Lemma other_gives ls : calls_in (unlines ls) <> None -> gives (indented o (str_pydef ls)) (calls_of (unlines ls)).
Proof.
  intros C. apply calls_of_is in C. exists (read_text (unlines ls)). split; [|exact C]. rewrite indented_is. destruct ls as [|l ls]; [exact reads_nil|].
  change (str_pydef (l :: ls)) with (unlines (l :: ls) ++ [nl]). rewrite <- (reads_here _ _ (reads_end (unlines (l :: ls)))). apply reads_indented; auto. right. eauto.
Qed.
Lemma ctor_gives h : writable o h -> gives (ctor_code o h) (if h_deleted h || h_ctor h then [] else calls_of (h_ctor_text h)).
Proof.
  intros W. unfold ctor_code. destruct (h_deleted h) eqn:D.
  - exists []. split; [|reflexivity]. apply (reads_comment (cl_indent o) $" (default constructor explicitly deleted)"); [apply space_eq, indent|]. cbn. intuition discriminate.
  - destruct (wr_ctor o h W) as [E|[C E]].
    + rewrite D in E. destruct (h_ctor h); [exact gives_nil|]. discriminate.
    + destruct (h_ctor h); [exact gives_nil|]. cbn [orb negb]. exists (read_text (h_ctor_text h)). split; [|apply calls_of_is; auto]. destruct E as [->|(t & ->)]; [exact reads_nil|].
      rewrite (reads_here _ _ (reads_end t)). apply reads_end.
Qed.
Lemma body_gives h children protected : writable o h -> Forall (fun ls => calls_in (unlines ls) <> None) protected ->
  (forall ls, In (COther ls) children -> calls_in (unlines ls) <> None) ->
  gives (all_children_code o h children protected) (own_calls o h children protected).
Proof.
  intros W P C. unfold all_children_code, own_calls. apply gives_app; [apply ctor_gives; auto|]. apply gives_app.
  - unfold others_code. apply gives_concat. intros [ls| |] I; [apply other_gives; auto|exact gives_nil|exact gives_nil].
  - apply gives_app; [|apply gives_app; [apply copies_gives|apply iterable_gives]; auto]. unfold protected_code. apply gives_concat. intros ls I. apply other_gives. rewrite Forall_forall in P. auto.
Qed.
End Iterable.
