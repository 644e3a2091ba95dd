From Verif Require Import PyStr PyStrLemmas PyDict RegionsModel TextModel TextSpec TextProofs CommentModel CommentSpec NamesModel OverloadModel
  NamedModel NamedProofs3 EnumModel EnumSpec EnumProofs EnumProofs2 EnumProofs3 ClassModel ClassSpec ClassProofs ClassProofs2 ClassProofs3 ClassProofs4 ClassProofs5.
(** What the binding of an enum does. *)

Lemma drop_white ts : exists x, Forall (fun t => white t = true) x /\ ts = x ++ dropwhile white ts.
Proof.
  induction ts as [|t ts (x & F & E)]; [exists []; auto|]. cbn [dropwhile]. destruct (white t) eqn:W; [|exists []; auto]. exists (t :: x). split; [constructor; auto|]. cbn [app]. f_equal. exact E.
Qed.
Lemma line_lex_cpp l : line_lex l = lexemes [] (cpp_line l ++ [Code nl]).
Proof.
  unfold line_lex, cpp_line. destruct (drop_white (cpp_tokens None l)) as (x & Fx & Ex). set (d := dropwhile white (cpp_tokens None l)) in *. rewrite Ex. clearbody d.
  destruct (drop_white (rev d)) as (y & Fy & Ey). set (c := dropwhile white (rev d)) in *. clearbody c. apply (f_equal (@rev token)) in Ey. rewrite rev_involutive, rev_app_distr in Ey. subst d.
  rewrite <- !app_assoc, (lexemes_white x Fx). assert (Fr : Forall (fun t => white t = true) (rev y)) by (apply Forall_rev; auto).
  rewrite (lexemes_flush (rev c) [] (rev y ++ [Code nl]) (white_nl (rev y) Fr)), (lexemes_white (rev y) Fr).
  rewrite (lexemes_flush (rev c) [] [Code nl]); [reflexivity|]. exists (Code nl), []. auto.
Qed.
Definition lexp (ps : list cpp_piece) : list lexeme := lexemes [] (pieces ps ++ [Code nl]).
Lemma lexp_is ps : lexp ps = lexemes [] (pieces ps).
Proof. unfold lexp. rewrite lexemes_flush by (exists (Code nl), []; auto). apply app_nil_r. Qed.
Lemma lexp_semicolon ps : lexp (ps ++ [Text $";"]) = lexp ps ++ [Sign ";"].
Proof. rewrite lexp_is, lexp_is, pieces_app. rewrite lexemes_flush by (exists (Code ";"), []; auto). reflexivity. Qed.
Lemma lexemes_literal ts s r : lexemes [] (ts ++ Literal s :: r) = lexemes [] ts ++ Str s :: lexemes [] r.
Proof. rewrite lexemes_flush by (exists (Literal s), r; auto). reflexivity. Qed.
Lemma lexemes_sign ts c r : is_word c = false -> is_space c = false -> lexemes [] (ts ++ Code c :: r) = lexemes [] ts ++ Sign c :: lexemes [] r.
Proof. intros W S. rewrite lexemes_flush by (exists (Code c), r; split; auto; cbn; rewrite W; auto). cbn [lexemes]. rewrite W, S. reflexivity. Qed.
Lemma lexemes_code s : bare s -> lexemes [] (map Code s) = read_text s.
Proof. intros B. symmetry. apply read_bare. auto. Qed.

(** The lines of a statement, whose last one is ended. *)
Lemma ended_lex L : L <> [] -> flat_map lexp (match rev L with [] => [] | x :: r => rev r ++ [x ++ [Text $";"]] end) = flat_map lexp L ++ [Sign ";"].
Proof.
  intros N. destruct (exists_last N) as (M & z & ->). rewrite rev_app_distr. cbn [rev app]. rewrite rev_involutive, !flat_map_app. cbn [flat_map]. rewrite !app_nil_r, lexp_semicolon, app_assoc. reflexivity.
Qed.

Section Enums.
Variable o : class_env.
Variable values : cpp_enum -> list enumerator.

Lemma enum_text eo e vs ls : well_formed_names e -> enum_kept eo e vs -> enum_writable eo e vs -> enum_pydef eo e = Some ls ->
  read_text (unlines ls) = flat_map lexp (enum_statement eo e vs).
Proof.
  intros W K H E. destruct (both_read eo e vs W K H ls E) as [R _].
  assert (N : Forall (fun l => ~ In nl l) ls).
  { unfold enum_pydef in E. destruct (enum_annotation eo e); [|discriminate]. cbv zeta in E. destruct (rev _) as [|l r]; [discriminate|]. injection E as <-. unfold indent_code_lines. apply lines_no_nl. }
  rewrite (read_text_unlines ls N). clear - R. revert R. generalize (enum_statement eo e vs). induction ls as [|l ls IH]; intros [|p ps] R; try discriminate; [reflexivity|].
  cbn [map] in R. injection R as R1 R2. cbn [flat_map]. rewrite line_lex_cpp, R1, (IH ps R2). reflexivity.
Qed.
Definition does (its : list item) (p v : str) (n : str) (es : list str -> list event) : Prop :=
  forall f fr path, find p (f :: fr) = Some path -> dict_get v f = None -> run (f :: fr) its = Some (es path, ((v, path ++ [n]) :: f) :: fr).

Lemma lex_three a s b t c : bare a -> bare b -> bare c -> lexp [Text a; Quoted s; Text b; Quoted t; Text c] = read_text a ++ Str s :: read_text b ++ Str t :: read_text c.
Proof.
  intros A B C. rewrite lexp_is. unfold pieces. cbn [flat_map]. rewrite app_nil_r. cbn [app]. rewrite lexemes_literal, lexemes_literal, !lexemes_code; auto.
Qed.
Lemma scope_simple e : simple_text (scoped_name (en_scope e) (en_name e)) -> Forall (fun c => simple_c c = true) (en_scope e).
Proof. unfold scoped_name. intros [_ F]. destruct (en_scope e); [constructor|]. apply Forall_app in F. tauto. Qed.
Lemma scoped_is e : match en_scope e with [] => en_name e | s => s ++ $"::" ++ en_name e end = scoped_name (en_scope e) (en_name e).
Proof. unfold scoped_name. destruct (en_scope e); reflexivity. Qed.
Lemma enum_does p loc e ls : word p -> well_formed o values (CEnum e loc) -> enum_pydef (enum_at o p loc) e = Some ls ->
  exists its, whole (read_text (unlines ls)) its /\ does its p ($"pyEnum" ++ eo_enum_name (cl_enum o) (en_name e)) (eo_enum_name (cl_enum o) (en_name e)) (fun path => enum_events o values path e).
Proof.
  intros Wp (W & K & H & S) E. set (eo := enum_at o p loc) in *. set (vs := values e) in *.
  assert (H' : enum_writable eo e vs).
  { destruct H as (H1 & H2 & _ & H4). unfold enum_writable, eo in *. repeat split; try tauto; try apply H1. apply word_code. apply Wp. }
  rewrite (enum_text eo e vs ls W K H' E). clear E.
  pose proof (scope_simple e S) as Sc. destruct S as [_ S]. destruct W as [Wn Wv].
  assert (Vw : Forall (fun v => word (v_name v)) vs).
  { destruct K as (keep & _ & ->). rewrite Forall_forall in *. intros v I. apply filter_In in I. apply Wv. tauto. }
  unfold enum_statement. cbv zeta. set (n := eo_enum_name eo (en_name e)).
  rewrite !scoped_is. set (sn := scoped_name (en_scope e) (en_name e)) in *.
  rewrite ended_lex by (cbn [app]; discriminate).
  set (l := if eo_nanobind eo then $"nb" else $"py").
  assert (Ll : word l) by (unfold l; destruct (eo_nanobind eo); (split; [discriminate|repeat constructor])).
  set (ann := if eo_nanobind eo then $", nb::is_arithmetic()" ++ (if eo_flag eo sn then $", nb::is_flag()" else []) else $", py::arithmetic()").
  assert (Fann : bare (ann ++ $", ") /\ read_text (ann ++ $", ") = read_text ann ++ [Sign ","] /\ level 0 (read_text ann) = Some 0).
  { unfold ann. destruct (eo_nanobind eo); [destruct (eo_flag eo sn)|]; (split; [apply bare_by_check; reflexivity|split; reflexivity]). }
  destruct Fann as (Ba & Ra & La).
  set (type := read_text (l ++ $"::enum_<" ++ sn ++ $">")).
  set (prefix := if en_is_class e then sn ++ $"::" else match en_scope e with [] => [] | s => s ++ $"::" end).
  assert (Fp : Forall (fun c => simple_c c = true) prefix) by (unfold prefix; destruct (en_is_class e); [simples|]; destruct (en_scope e); [constructor|simples]).
  assert (St : Forall (fun c => simple_c c = true) (l ++ $"::enum_<" ++ sn ++ $">")) by (destruct Ll as [_ Ll]; simples).
  (* the first line *)
  assert (L1 : lexp [Text ($"auto pyEnum" ++ n ++ $" =")] = [Word $"auto"; Word ($"pyEnum" ++ n); Sign "="]).
  { rewrite lexp_is. unfold pieces. cbn [flat_map]. rewrite app_nil_r. assert (Nw : word ($"pyEnum" ++ n)).
    { split; [discriminate|]. apply Forall_app. split; [repeat constructor|]. apply H. }
    assert (R : reads ($"auto " ++ (($"pyEnum" ++ n) ++ [" "%char]) ++ $"=") ([Word $"auto"] ++ [Word ($"pyEnum" ++ n)] ++ [Sign "="])).
    { apply reads_app; [exact (reads_known $"auto" " " eq_refl eq_refl)|]. apply reads_app; [exact (reads_word _ " " Nw (bare_one " " eq_refl) eq_refl)|exact (reads_known [] "=" eq_refl eq_refl)]. }
    apply reads_here in R. rewrite lexemes_code.
    - etransitivity; [|exact R]. f_equal. flatten_text. reflexivity.
    - apply bare_app; [apply bare_by_check; reflexivity|]. apply bare_app; [apply bare_word, H|apply bare_by_check; reflexivity]. }
  (* the second one *)
  assert (L2 : lexp [Text (l ++ $"::enum_<" ++ sn ++ $">(" ++ eo_parent eo ++ $", "); Quoted n; Text (ann ++ $", "); Quoted (comment_pydef_one_line eo (full_comment (en_previous e) (en_eol e))); Text $")"]
    = type ++ [Sign "("; Word p; Sign ","; Str n] ++ (read_text ann ++ [Sign ","; Str (comment_pydef_one_line eo (full_comment (en_previous e) (en_eol e)))]) ++ [Sign ")"]).
  { change (eo_parent eo) with p. assert (Bp : bare p) by (apply bare_word, Wp). pose proof (simple_bare _ St) as Bt. rewrite lex_three; auto; [| |apply bare_by_check; reflexivity].
    - assert (R : reads (((l ++ $"::enum_<" ++ sn ++ $">") ++ ["("%char]) ++ (p ++ [","%char]) ++ $" ") ((type ++ [Sign "("]) ++ [Word p; Sign ","] ++ [])).
      { apply reads_app; [exact (reads_then _ "(" Bt (bare_one "(" eq_refl) eq_refl)|]. apply reads_app; [exact (reads_word p "," Wp (bare_one "," eq_refl) eq_refl)|]. apply reads_white. repeat constructor. }
      apply reads_here in R. replace (l ++ $"::enum_<" ++ sn ++ $">(" ++ p ++ $", ") with (((l ++ $"::enum_<" ++ sn ++ $">") ++ ["("%char]) ++ (p ++ [","%char]) ++ $" ") by (flatten_text; reflexivity).
      rewrite R, Ra. change (read_text $")") with [Sign ")"]. rewrite <- !app_assoc. reflexivity.
    - replace (l ++ $"::enum_<" ++ sn ++ $">(" ++ p ++ $", ") with ((l ++ $"::enum_<" ++ sn ++ $">") ++ $"(" ++ p ++ $", ") by (flatten_text; reflexivity).
      apply bare_app; auto. apply bare_app; [apply bare_by_check; reflexivity|]. apply bare_app; [auto|apply bare_by_check; reflexivity]. }
  (* the values *)
  set (value := fun v : enumerator => [Text $".value("; Quoted (eo_value_name eo (en_is_class e) (en_name e) (v_name v)); Text ($", " ++ prefix ++ v_name v ++ $", ");
    Quoted (comment_pydef_one_line eo (full_comment (v_previous v) (v_eol v))); Text $")"]).
  set (args := fun v : enumerator => [Str (eo_value_name eo (en_is_class e) (en_name e) (v_name v)); Sign ","] ++ read_text (prefix ++ v_name v)
    ++ [Sign ","; Str (comment_pydef_one_line eo (full_comment (v_previous v) (v_eol v)))]).
  assert (LV : forall v, In v vs -> lexp (value v) = Sign "." :: Word $"value" :: Sign "(" :: args v ++ [Sign ")"] /\ level 0 (args v) = Some 0).
  { intros v I. rewrite Forall_forall in Vw. specialize (Vw v I). assert (Fs : Forall (fun c => simple_c c = true) (prefix ++ v_name v)) by (destruct Vw as [_ Vw]; simples).
    pose proof (simple_bare _ Fs) as Bs. split.
    - unfold value. rewrite lex_three; [|apply bare_by_check; reflexivity| |apply bare_by_check; reflexivity].
      + assert (R : reads ($", " ++ ((prefix ++ v_name v) ++ [","%char]) ++ $" ") ([Sign ","] ++ (read_text (prefix ++ v_name v) ++ [Sign ","]) ++ [])).
        { apply reads_app; [exact (reads_known $"," " " eq_refl eq_refl)|]. apply reads_app; [exact (reads_then _ "," Bs (bare_one "," eq_refl) eq_refl)|]. apply reads_white. repeat constructor. }
        apply reads_here in R. replace ($", " ++ prefix ++ v_name v ++ $", ") with ($", " ++ ((prefix ++ v_name v) ++ [","%char]) ++ $" ") by (flatten_text; reflexivity).
        rewrite R, app_nil_r. change (read_text $")") with [Sign ")"]. change (read_text $".value(") with [Sign "."; Word $"value"; Sign "("]. unfold args. rewrite <- !app_assoc. reflexivity.
      + replace ($", " ++ prefix ++ v_name v ++ $", ") with ($", " ++ (prefix ++ v_name v) ++ $", ") by (flatten_text; reflexivity).
        apply bare_app; [apply bare_by_check; reflexivity|]. apply bare_app; [auto|apply bare_by_check; reflexivity].
    - unfold args. erewrite level_app by reflexivity. erewrite level_app by apply (level_read_text _ Fs). reflexivity. }
  set (calls := flat_map lexp (match vs with [] => [[]] | _ => map value vs end) ++ flat_map lexp (if eo_export eo then [[Text $".export_values()"]] else [])).
  set (cs := map (fun v => ([Word $"value"], args v)) vs ++ (if eo_export eo then [([Word $"export_values"], [])] else [])).
  assert (A : applications Next calls = Some cs).
  { unfold calls, cs. apply applications_next; [|destruct (eo_export eo); reflexivity]. assert (G : applications Next (flat_map lexp (map value vs)) = Some (map (fun v => ([Word $"value"], args v)) vs)).
    { clear - LV. induction vs as [|v l IH]; [reflexivity|]. cbn [map flat_map]. destruct (LV v (or_introl eq_refl)) as [Ev Lv]. rewrite Ev.
      change (([Word $"value"], args v) :: ?x) with ([([Word $"value"], args v)] ++ x). apply applications_next; [apply call_read; auto|]. apply IH. intros u I. apply LV. right. auto. }
    destruct vs; [reflexivity|exact G]. }
  set (doc := Str (comment_pydef_one_line eo (full_comment (en_previous e) (en_eol e)))) in *.
  assert (La' : level 0 (read_text ann ++ [Sign ","; doc]) = Some 0) by (rewrite (level_app _ _ 0 0 La); reflexivity).
  destruct (declaration_whole ($"pyEnum" ++ n) type p n (read_text ann ++ [Sign ","; doc]) calls cs (simple_dull _ St) La' A) as [Wh Ex].
  eexists. split.
  - rewrite flat_map_app, flat_map_app. cbn [flat_map]. rewrite L1. match type of L2 with ?lhs = _ => match goal with |- context [lexp ?x] => change (lexp x) with lhs end end. rewrite L2, app_nil_r.
    match type of Wh with whole ?x _ => match goal with |- whole ?y _ => replace y with x end end; [exact Wh|]. unfold calls. fold value. cbn [app]. repeat (rewrite <- !app_assoc; cbn [app]). reflexivity.
  - intros f fr path Fp' Fv. cbn [run]. rewrite (Ex f fr path Fp' Fv). rewrite app_nil_r. unfold enum_events. cbv zeta.
    unfold cs. rewrite map_app, map_map. f_equal. f_equal. f_equal. f_equal.
    destruct (eo_export (cl_enum o)) eqn:Ee; change (eo_export eo) with (eo_export (cl_enum o)); rewrite Ee; reflexivity.
Qed.
End Enums.
