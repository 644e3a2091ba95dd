From Verif Require Import PyStr PyStrLemmas PyNum RegionsModel TextModel TextSpec CommentModel CommentSpec CommentProofs3 CommentProofs4 TypeTextModel FillModel LambdaModel
  AdapterModel NamedModel ChainProofs3 OverloadModel EnumModel EnumSpec EnumProofs EnumProofs2 EnumProofs3 MemberModel MemberSpec MemberProofs.

(** ** The view of an array *)

Lemma digits_code n : code_text (nat_text n).
Proof.
  destruct (nat_text_digits n) as [_ D]. rewrite forallb_forall in D. apply Forall_forall. intros c I. apply D in I.
  split; [|split]; intros ->; discriminate I.
Qed.
Definition prop_pieces (def n : str) : list cpp_piece := [Text def; Quoted n; Text $","].
Lemma prop_shows def c r n loc : def = c :: r -> is_space c = false -> code_text def -> word n -> comment_tail loc ->
  cpp_line (def ++ [dq] ++ n ++ [dq] ++ $"," ++ loc) = pieces (prop_pieces def n).
Proof.
  intros E Hc C [_ W] L. apply shows_line. right. exists [], loc. split; [constructor|]. split; [exact L|]. split.
  { unfold prop_pieces. apply Forall_cons; [exact C|]. apply Forall_cons; [apply word_literal; auto|]. apply Forall_cons; [apply code_by_check; reflexivity|constructor]. }
  split.
  { split; [rewrite E; exists (Code c); eexists; split; [reflexivity|exact Hc]|]. exists (pieces [Text def; Quoted n]), (Code ","). split; [exact (pieces_app [Text def; Quoted n] [Text $","])|reflexivity]. }
  split; [exists (written [Text def; Quoted n]), ","%char; split; [exact (written_app [Text def; Quoted n] [Text $","])|reflexivity]|].
  unfold written, prop_pieces. cbn [flat_map written_piece]. rewrite app_nil_r, <- !app_assoc. reflexivity.
Qed.
Lemma doc_shows i doc : Forall (eq sp) i -> closed_literal doc -> cpp_line (i ++ ([dq] ++ doc ++ [dq]) ++ $")") = pieces [Quoted doc; Text $")"].
Proof.
  intros Hi D. apply shows_line. right. exists i, []. split; auto. split; [left; auto|]. split.
  { apply Forall_cons; [exact D|]. apply Forall_cons; [apply code_by_check; reflexivity|constructor]. }
  split.
  { split; [eexists; eexists; split; reflexivity|]. exists (pieces [Quoted doc]), (Code ")"). split; [exact (pieces_app [Quoted doc] [Text $")"])|reflexivity]. }
  split; [exists (written [Quoted doc]), ")"%char; split; [exact (written_app [Quoted doc] [Text $")"])|reflexivity]|].
  unfold written. cbn [flat_map written_piece]. rewrite !app_nil_r, <- !app_assoc. reflexivity.
Qed.
(** A line of code which begins and ends with given texts. *)
Lemma code_line k c a b z : code_text (c :: a ++ b ++ [z]) -> is_space c = false -> is_space z = false ->
  cpp_line (spaces k ++ c :: a ++ b ++ [z]) = pieces [Text (c :: a ++ b ++ [z])].
Proof.
  intros C Hc Hz. apply (plain_line (spaces k) _ c (a ++ b ++ [z])); auto; [apply spaces_all|]. exists (c :: a ++ b), z. split; auto. rewrite app_assoc. reflexivity.
Qed.
Ltac code := repeat (apply code_app); auto using digits_code, word_code; apply code_by_check; reflexivity.
Lemma array_lines_show o d n : member_writable o d -> array_size o (m_decl (d_member d)) = Some n -> array_shows o d n (array_lines o d).
Proof.
  intros (W & [_ Wn] & C & T & D & L) N. unfold array_shows, array_lines. cbv zeta. rewrite N. set (p := m_decl (d_member d)) in *. set (t := type_text (p_type p)) in *.
  set (k := nat_text n). assert (K : code_text k) by apply digits_code. assert (P : code_text (p_name p)) by (apply word_code; auto).
  destruct (mo_nanobind o); cbn [map].
  - apply (f_equal2 cons); [apply (prop_shows $".def_prop_ro(" "." $"def_prop_ro("); auto; apply code_by_check; reflexivity|].
    apply (f_equal2 cons).
    { change ($"    [](" ++ mo_class o ++ $" &self) -> nb::ndarray<" ++ t ++ $", nb::numpy, nb::shape<" ++ k ++ $">, nb::c_contig>") with
        (spaces 4 ++ $"[](" ++ mo_class o ++ $" &self) -> nb::ndarray<" ++ t ++ $", nb::numpy, nb::shape<" ++ k ++ $">, nb::c_contig>").
      apply (plain_line (spaces 4) _ "[" ($"](" ++ mo_class o ++ $" &self) -> nb::ndarray<" ++ t ++ $", nb::numpy, nb::shape<" ++ k ++ $">, nb::c_contig>")); auto; [apply spaces_all|code|].
      exists ($"[](" ++ mo_class o ++ $" &self) -> nb::ndarray<" ++ t ++ $", nb::numpy, nb::shape<" ++ k ++ $">, nb::c_contig"), ">"%char.
      split; [rewrite <- !app_assoc; reflexivity|reflexivity]. }
    apply (f_equal2 cons); [reflexivity|]. apply (f_equal2 cons).
    { change ($"        return self." ++ p_name p ++ $";") with (spaces 8 ++ $"return self." ++ p_name p ++ $";").
      apply (plain_line (spaces 8) _ "r" ($"eturn self." ++ p_name p ++ $";")); auto; [apply spaces_all|code|].
      exists ($"return self." ++ p_name p), ";"%char. split; [rewrite <- !app_assoc; reflexivity|reflexivity]. }
    apply (f_equal2 cons); [reflexivity|]. apply (f_equal2 cons); [|reflexivity]. apply (doc_shows $"    "); auto. repeat constructor.
  - apply (f_equal2 cons); [apply (prop_shows $".def_property(" "." $"def_property("); auto; apply code_by_check; reflexivity|].
    apply (f_equal2 cons).
    { change ($"    [](" ++ mo_class o ++ $" &self) -> pybind11::array") with (spaces 4 ++ $"[](" ++ mo_class o ++ $" &self) -> pybind11::array").
      apply (plain_line (spaces 4) _ "[" ($"](" ++ mo_class o ++ $" &self) -> pybind11::array")); auto; [apply spaces_all|code|].
      exists ($"[](" ++ mo_class o ++ $" &self) -> pybind11::arra"), "y"%char. split; [rewrite <- !app_assoc; reflexivity|reflexivity]. }
    apply (f_equal2 cons); [reflexivity|]. apply (f_equal2 cons).
    { change ($"        auto dtype = pybind11::dtype(pybind11::format_descriptor<" ++ t ++ $">::format());") with
        (spaces 8 ++ $"auto dtype = pybind11::dtype(pybind11::format_descriptor<" ++ t ++ $">::format());").
      apply (plain_line (spaces 8) _ "a" ($"uto dtype = pybind11::dtype(pybind11::format_descriptor<" ++ t ++ $">::format());")); auto; [apply spaces_all|code|].
      exists ($"auto dtype = pybind11::dtype(pybind11::format_descriptor<" ++ t ++ $">::format())"), ";"%char. split; [rewrite <- !app_assoc; reflexivity|reflexivity]. }
    apply (f_equal2 cons).
    { change ($"        auto base = pybind11::array(dtype, {" ++ k ++ $"}, {sizeof(" ++ t ++ $")});") with
        (spaces 8 ++ $"auto base = pybind11::array(dtype, {" ++ k ++ $"}, {sizeof(" ++ t ++ $")});").
      apply (plain_line (spaces 8) _ "a" ($"uto base = pybind11::array(dtype, {" ++ k ++ $"}, {sizeof(" ++ t ++ $")});")); auto; [apply spaces_all|code|].
      exists ($"auto base = pybind11::array(dtype, {" ++ k ++ $"}, {sizeof(" ++ t ++ $")})"), ";"%char. split; [rewrite <- !app_assoc; reflexivity|reflexivity]. }
    apply (f_equal2 cons).
    { change ($"        return pybind11::array(dtype, {" ++ k ++ $"}, {sizeof(" ++ t ++ $")}, self." ++ p_name p ++ $", base);") with
        (spaces 8 ++ $"return pybind11::array(dtype, {" ++ k ++ $"}, {sizeof(" ++ t ++ $")}, self." ++ p_name p ++ $", base);").
      apply (plain_line (spaces 8) _ "r" ($"eturn pybind11::array(dtype, {" ++ k ++ $"}, {sizeof(" ++ t ++ $")}, self." ++ p_name p ++ $", base);")); auto; [apply spaces_all|code|].
      exists ($"return pybind11::array(dtype, {" ++ k ++ $"}, {sizeof(" ++ t ++ $")}, self." ++ p_name p ++ $", base)"), ";"%char. split; [rewrite <- !app_assoc; reflexivity|reflexivity]. }
    apply (f_equal2 cons).
    { change ($"    }, [](" ++ mo_class o ++ $"& self) {},") with (spaces 4 ++ $"}, [](" ++ mo_class o ++ $"& self) {},").
      apply (plain_line (spaces 4) _ "}" ($", [](" ++ mo_class o ++ $"& self) {},")); auto; [apply spaces_all|code|].
      exists ($"}, [](" ++ mo_class o ++ $"& self) {}"), ","%char. split; [rewrite <- !app_assoc; reflexivity|reflexivity]. }
    apply (f_equal2 cons); [|reflexivity]. apply (doc_shows $"    "); auto. repeat constructor.
Qed.

(** ** All the members of a class *)

Lemma defined_prop o d n : array_shows o d n (array_lines o d) -> flat_map defined_on (array_lines o d) = [mo_name o (p_name (m_decl (d_member d)))].
Proof.
  intros S. assert (E : flat_map defined_on (array_lines o d) = flat_map (fun ts => match after_code $".def" ts with Some r => first_literal r | None => [] end) (map cpp_line (array_lines o d))).
  { rewrite flat_map_concat_map, (flat_map_concat_map _ (map cpp_line _)), map_map. reflexivity. }
  rewrite E, S. destruct (mo_nanobind o); reflexivity.
Qed.
Lemma first_literal_code s ts : first_literal (map Code s ++ ts) = first_literal ts.
Proof. induction s; auto. Qed.
Lemma defined_field o d a : binding_shows o d [field_line o d] a -> flat_map defined_on [field_line o d] = [a_name a].
Proof.
  intros S. unfold binding_shows in S. cbn [map] in S. inversion S as [E]. cbn [flat_map]. rewrite app_nil_r. unfold defined_on. rewrite E.
  unfold pieces. cbn [flat_map]. unfold def_name. cbn [app map list_ascii_of_string after_code].
  destruct (mo_nanobind o), (a_writable a), (a_static a); reflexivity.
Qed.
Lemma all_declared o ds : Forall (member_showable o) ds -> flat_map declared_on (flat_map (member_stub_lines o) ds) = map (fun d => mo_name o (p_name (m_decl (d_member d)))) ds.
Proof.
  intros F. induction F as [|d ds S F IH]; [reflexivity|]. cbn [flat_map map]. rewrite flat_map_app, IH.
  change (flat_map declared_on (member_stub_lines o d) ++ map (fun d => mo_name o (p_name (m_decl (d_member d)))) ds = [mo_name o (p_name (m_decl (d_member d)))] ++ map (fun d => mo_name o (p_name (m_decl (d_member d)))) ds).
  apply (f_equal2 (@app str)); [|reflexivity].
  destruct (pre_comments o d) as (pre & -> & P). rewrite flat_map_app.
  assert (E : flat_map declared_on pre = []) by (clear - P; induction P as [|l ls H P IH]; [reflexivity|]; cbn [flat_map]; rewrite (declared_comment l H); auto).
  rewrite E. cbn [flat_map app]. rewrite (member_line_declares o d (proj1 S)). reflexivity.
Qed.
Lemma all_defined o ds : Forall (member_writable o) ds -> flat_map defined_on (flat_map (member_pydef_lines o) ds) = map (fun d => mo_name o (p_name (m_decl (d_member d)))) ds.
Proof.
  intros F. induction F as [|d ds S F IH]; [reflexivity|]. cbn [flat_map map]. rewrite flat_map_app, IH.
  change (flat_map defined_on (member_pydef_lines o d) ++ map (fun d => mo_name o (p_name (m_decl (d_member d)))) ds = [mo_name o (p_name (m_decl (d_member d)))] ++ map (fun d => mo_name o (p_name (m_decl (d_member d)))) ds).
  apply (f_equal2 (@app str)); [|reflexivity]. unfold member_pydef_lines.
  destruct (is_numeric_array o (d_member d)) eqn:N.
  - destruct (array_size o (m_decl (d_member d))) as [n|] eqn:Sz; [|unfold is_numeric_array in N; rewrite Sz, andb_false_r in N; discriminate].
    exact (defined_prop o d n (array_lines_show o d n S Sz)).
  - exact (defined_field o d _ (member_binding_shows o d S)).
Qed.
Lemma same_attributes o ms ks : Forall (fun d => array_well_formed (m_decl (d_member d))) ms -> members_kept o ms ks ->
  Forall (member_showable o) ks -> Forall (member_writable o) ks ->
  ks = members_published o ms /\
  flat_map declared_on (flat_map (member_stub_lines o) ks) = map (fun d => mo_name o (p_name (m_decl (d_member d)))) ks /\
  flat_map defined_on (flat_map (member_pydef_lines o) ks) = map (fun d => mo_name o (p_name (m_decl (d_member d)))) ks.
Proof. intros W K S P. split; [apply (kept_is o ms ks W); auto|]. split; [apply all_declared; auto|apply all_defined; auto]. Qed.
Lemma field_shown o d : array_well_formed (m_decl (d_member d)) -> (forall n, ~ numeric_array o (d_member d) n) -> member_showable o d -> member_writable o d ->
  exists a, describes o (d_member d) a /\ stub_shows o (member_stub_lines o d) a /\ binding_shows o d (member_pydef_lines o d) a.
Proof.
  intros A N S W. exists (attribute_of o (d_member d)). split; [apply attribute_describes|]. split; [apply member_stub_shows; auto|].
  unfold member_pydef_lines. destruct (is_numeric_array o (d_member d)) eqn:E; [|apply member_binding_shows; auto].
  destruct (array_size o (m_decl (d_member d))) as [n|] eqn:Sz; [|unfold is_numeric_array in E; rewrite Sz, andb_false_r in E; discriminate].
  exfalso. apply (N n). apply numeric_spec; auto.
Qed.
Lemma array_shown o d n : array_well_formed (m_decl (d_member d)) -> numeric_array o (d_member d) n -> member_showable o d -> member_writable o d ->
  (exists a, describes o (d_member d) a /\ stub_shows o (member_stub_lines o d) a) /\ array_shows o d n (member_pydef_lines o d).
Proof.
  intros A N S W. apply (numeric_spec o _ n A) in N. destruct N as [E Sz]. split.
  - exists (attribute_of o (d_member d)). split; [apply attribute_describes|apply member_stub_shows; auto].
  - unfold member_pydef_lines. rewrite E. apply array_lines_show; auto.
Qed.
