From Verif Require Import PyStr PyStrLemmas NamesModel NamesProofs RegionsModel RegionsProofs TextModel TextSpec CommentModel
  CommentSpec CommentProofs3 OverloadModel EnumModel EnumSpec EnumProofs EnumProofs2.
(** Both sides of an enum. *)

Lemma base_is o e : enum_base o e = python_base (eo_arithmetic o (enum_scope_self e)) (eo_flag o (enum_scope_self e)).
Proof. unfold enum_base, python_base. destruct (eo_arithmetic o (enum_scope_self e)), (eo_flag o (enum_scope_self e)); reflexivity. Qed.
Lemma stub_read o e vs : well_formed_names e -> enum_kept o e vs -> enum_showable o e vs ->
  let scoped := match en_scope e with [] => en_name e | s => s ++ $"::" ++ en_name e end in
  exists body, enum_stub o e =
      rstrip ($"class " ++ eo_enum_name o (en_name e) ++ $"(" ++ python_base (eo_arithmetic o scoped) (eo_flag o scoped) ++ $"):" ++ eo_location_py o)
      :: map (indent_line (eo_py_indent o) true) (docstring_lines (eo_strip o) (eo_replacements o) (en_previous e) (en_eol e)) ++ body /\
    assignments body = map (fun v => eo_value_name o (en_is_class e) (en_name e) (v_name v)) vs /\ Forall nothing_else body.
Proof.
  intros W K S scoped. destruct (enum_stub_read o e vs W K S) as (body & E & A & N). exists body. split; [|auto]. rewrite E. f_equal.
  unfold enum_title. rewrite base_is, <- !app_assoc. reflexivity.
Qed.

Lemma after_code_app s ts : after_code s (map Code s ++ ts) = Some ts.
Proof. induction s as [|c s IH]; [destruct ts; reflexivity|]. cbn [map app after_code]. destruct (ceqb_spec c c); [auto|congruence]. Qed.
Lemma registered_value o e v t : registered (pieces (value_pieces o e v ++ t)) = [value_python o e v].
Proof. unfold registered, value_pieces. rewrite pieces_app. unfold pieces at 1. cbn [flat_map]. rewrite <- app_assoc, after_code_app. reflexivity. Qed.
Lemma registered_decl o e a : registered (pieces (decl_pieces o e a)) = [].
Proof. unfold decl_pieces, pieces. cbn [flat_map]. destruct (eo_nanobind o); reflexivity. Qed.
Lemma registered_kids o e vs t : flat_map registered (map pieces (kid_pieces o e vs ++ t)) = map (value_python o e) vs ++ flat_map registered (map pieces t).
Proof.
  rewrite map_app, flat_map_app. f_equal. destruct vs as [|v vs]; [reflexivity|]. change (kid_pieces o e (v :: vs)) with (map (value_pieces o e) (v :: vs)).
  induction (v :: vs) as [|u us IH]; [reflexivity|]. cbn [map flat_map]. rewrite IH. rewrite <- (app_nil_r (value_pieces o e u)), registered_value. reflexivity.
Qed.
(** A semicolon after the last line changes nothing. *)
Lemma registered_semicolon o e vs ps p : kid_pieces o e vs ++ (if eo_export o then [[Text $".export_values()"]] else []) = ps ++ [p] ->
  flat_map registered (map pieces (ps ++ [p ++ [Text $";"]])) = map (value_python o e) vs.
Proof.
  intros E. assert (R : registered (pieces (p ++ [Text $";"])) = registered (pieces p)).
  { destruct (eo_export o).
    - apply app_inj_tail in E. destruct E as [_ <-]. reflexivity.
    - rewrite app_nil_r in E. destruct vs as [|v0 vs0].
      + destruct ps as [|q ps]; [|destruct ps; discriminate]. inversion E. reflexivity.
      + destruct (exists_last (l := v0 :: vs0)) as (vs & v & V); [discriminate|]. change (kid_pieces o e (v0 :: vs0)) with (map (value_pieces o e) (v0 :: vs0)) in E.
        rewrite V, map_app in E. apply app_inj_tail in E. destruct E as [_ <-]. rewrite registered_value. pose proof (registered_value o e v []) as N.
        rewrite app_nil_r in N. symmetry. exact N. }
  rewrite map_app, flat_map_app. change (map pieces [p ++ [Text $";"]]) with [pieces (p ++ [Text $";"])]. cbn [flat_map]. rewrite R.
  change ([] : list str) with (flat_map registered []).
  transitivity (flat_map registered (map pieces (ps ++ [p]))); [rewrite map_app, flat_map_app; reflexivity|]. rewrite <- E, registered_kids.
  destruct (eo_export o); [change (flat_map registered (map pieces [[Text $".export_values()"]])) with (@nil str)|]; apply app_nil_r.
Qed.
Lemma both_read o e vs : well_formed_names e -> enum_kept o e vs -> enum_writable o e vs -> forall ls, enum_pydef o e = Some ls ->
  map cpp_line ls = map pieces (enum_statement o e vs) /\
  flat_map registered (map cpp_line ls) = map (fun v => eo_value_name o (en_is_class e) (en_name e) (v_name v)) vs.
Proof.
  intros W K H ls E. destruct (eo_arithmetic o (enum_scope_self e)) eqn:A.
  - destruct (enum_pydef_read o e vs W K H A) as (ls' & E' & R). rewrite E in E'. inversion E'; subst ls'. split; auto. rewrite R.
    assert (a : { a | enum_annotation o e = Some a }) by (unfold enum_annotation; rewrite A; eauto). destruct a as [a Ea].
    assert (F : Forall (fun v => word (v_name v)) vs).
    { destruct W as [_ W]. destruct K as (keep & _ & ->). rewrite Forall_forall in *. intros v I. apply filter_In in I. apply W. tauto. }
    destruct (tail_shows o e vs W F H) as (xs & l & ps & p & _ & E2 & _). rewrite (statement_is o e vs (proj1 W) A a Ea ps p E2).
    cbn [map flat_map]. rewrite registered_decl. change (registered (pieces [Text ($"auto pyEnum" ++ eo_enum_name o (en_name e) ++ $" =")])) with (@nil str). cbn [app].
    apply (registered_semicolon o e vs ps p E2).
  - unfold enum_pydef, enum_annotation in E. rewrite A in E. discriminate.
Qed.
Lemma binding_iff o e vs : well_formed_names e -> enum_kept o e vs -> enum_writable o e vs ->
  let scoped := match en_scope e with [] => en_name e | s => s ++ $"::" ++ en_name e end in
  enum_pydef o e <> None <-> eo_arithmetic o scoped = true.
Proof.
  intros W K H scoped. split.
  - unfold enum_pydef, enum_annotation. change (enum_scope_self e) with scoped. destruct (eo_arithmetic o scoped); auto.
  - intros A. destruct (enum_pydef_read o e vs W K H A) as (ls & E & _). rewrite E. discriminate.
Qed.
