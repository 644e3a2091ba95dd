From Verif Require Import PyStr PyStrLemmas NamesModel NamesProofs RegionsModel RegionsProofs TextModel TextSpec TextProofs TextProofs2 TextProofs3 CommentModel
  CommentSpec CommentProofs3 CommentProofs4 OverloadModel EnumModel EnumSpec EnumProofs.
(** The binding of an enum, read as C++. *)

(** ** Reading C++ *)

Definition lexes (s : str) (ts : list token) : Prop := forall rest, cpp_tokens None (s ++ rest) = ts ++ cpp_tokens None rest.
Lemma lexes_app a b ta tb : lexes a ta -> lexes b tb -> lexes (a ++ b) (ta ++ tb).
Proof. intros A B rest. rewrite <- app_assoc, A, B, app_assoc. reflexivity. Qed.
Lemma tokens_code c r : c <> dq -> c <> "/"%char -> cpp_tokens None (c :: r) = Code c :: cpp_tokens None r.
Proof.
  intros A B. cbn [cpp_tokens]. destruct (ceqb_spec c dq); [congruence|].
  assert (E : startswith $"//" (c :: r) = false).
  { change (ceqb "/" c && startswith $"/" r = false). destruct (ceqb_spec "/" c); [congruence|reflexivity]. }
  rewrite E. reflexivity.
Qed.
Lemma lexes_code s : code_text s -> lexes s (map Code s).
Proof.
  intros F rest. induction F as [|c r (A & B & _) F IH]; [reflexivity|]. cbn [app map]. rewrite tokens_code, IH by auto. reflexivity.
Qed.
Lemma lexes_literal c : closed_literal c -> forall a rest, cpp_tokens (Some a) (c ++ dq :: rest) = Literal (a ++ c) :: cpp_tokens None rest.
Proof.
  intros H. induction H as [|c b N1 N2 N3 H IH|c b N H IH]; intros a rest.
  - rewrite app_nil_r. reflexivity.
  - cbn [app cpp_tokens]. destruct (ceqb_spec c bsl); [congruence|]. destruct (ceqb_spec c dq); [congruence|]. rewrite IH, <- app_assoc. reflexivity.
  - cbn [app cpp_tokens]. change (ceqb bsl bsl) with true. cbn match. rewrite IH, <- app_assoc. reflexivity.
Qed.
Definition written_piece (p : cpp_piece) : str := match p with Text s => s | Quoted s => [dq] ++ s ++ [dq] end.
Definition written (ps : list cpp_piece) : str := flat_map written_piece ps.
Definition piece_fits (p : cpp_piece) : Prop := match p with Text s => code_text s | Quoted s => closed_literal s end.
Lemma lexes_pieces ps : Forall piece_fits ps -> lexes (written ps) (pieces ps).
Proof.
  intros F. induction F as [|p ps H F IH]; [intros rest; reflexivity|]. unfold written, pieces. cbn [flat_map]. apply lexes_app; auto.
  destruct p; cbn in *; [apply lexes_code; auto|]. intros rest. cbn [app cpp_tokens]. change (ceqb dq dq) with true. cbn match.
  rewrite <- app_assoc. cbn [app]. apply (lexes_literal s H [] rest).
Qed.
Lemma literal_no_nl s : closed_literal s -> ~ In nl s.
Proof. intros H. induction H; [intros []| |]; intros I; cbn in I; intuition (try discriminate; auto). Qed.
Lemma written_no_nl ps : Forall piece_fits ps -> ~ In nl (written ps).
Proof.
  intros F. induction F as [|p ps H F IH]; [intros []|]. intros I. unfold written in I. cbn [flat_map] in I. apply in_app_or in I. destruct I as [I|I]; auto.
  destruct p; cbn in *.
  - unfold code_text in H. rewrite Forall_forall in H. apply H in I. tauto.
  - destruct I as [I|I]; [discriminate|]. apply in_app_or in I. destruct I as [I|[I|[]]]; [exact (literal_no_nl s H I)|discriminate].
Qed.

(** ** Spaces around a line *)

Lemma drop_spaces i ts : Forall (eq sp) i -> dropwhile white (map Code i ++ ts) = dropwhile white ts.
Proof. intros F. induction F as [|c r <- F IH]; auto. Qed.
Definition solid (ts : list token) : Prop := (exists a r, ts = a :: r /\ white a = false) /\ (exists r z, ts = r ++ [z] /\ white z = false).
Lemma trim_tokens s i ts w : Forall (eq sp) i -> Forall (eq sp) w -> solid ts -> cpp_tokens None s = map Code i ++ ts ++ map Code w -> cpp_line s = ts.
Proof.
  intros Hi Hw [(a & r & A & Na) (r' & z & Z & Nz)] E. unfold cpp_line. rewrite E, drop_spaces by auto.
  assert (D : dropwhile white (ts ++ map Code w) = ts ++ map Code w) by (rewrite A; cbn; rewrite Na; reflexivity).
  rewrite D, rev_app_distr, <- map_rev, drop_spaces by (apply Forall_rev; auto).
  rewrite Z, rev_app_distr. cbn [rev app dropwhile]. rewrite Nz. rewrite <- (rev_involutive (r' ++ [z])), rev_app_distr. reflexivity.
Qed.

(** A line of the binding with its pieces. *)
Definition comment_tail (t : str) : Prop := t = [] \/ exists n r, t = spaces n ++ $"//" ++ r /\ ~ In nl r.
Definition shows (l : str) (ps : list cpp_piece) : Prop :=
  (l = [] /\ ps = []) \/
  (exists i t, Forall (eq sp) i /\ comment_tail t /\ Forall piece_fits ps /\ solid (pieces ps) /\
    (exists r z, written ps = r ++ [z] /\ is_space z = false) /\ l = i ++ written ps ++ t).
Lemma spaces_all n : Forall (eq sp) (spaces n).
Proof. unfold spaces. induction n; constructor; auto. Qed.
Lemma tokens_spaces w rest : Forall (eq sp) w -> cpp_tokens None (w ++ rest) = map Code w ++ cpp_tokens None rest.
Proof. intros F. induction F as [|c r <- F IH]; [reflexivity|]. cbn [app map]. rewrite tokens_code, IH by discriminate. reflexivity. Qed.
Lemma shows_line l ps : shows l ps -> cpp_line l = pieces ps.
Proof.
  intros [[-> ->]|(i & t & Hi & T & F & S & _ & ->)]; [reflexivity|].
  assert (W : exists w, Forall (eq sp) w /\ cpp_tokens None t = map Code w).
  { destruct T as [-> |(n & r & -> & _)]; [exists []; split; [constructor|reflexivity]|]. exists (spaces n). split; [apply spaces_all|].
    rewrite tokens_spaces by apply spaces_all. change (cpp_tokens None ($"//" ++ r)) with (@nil token). rewrite app_nil_r. reflexivity. }
  destruct W as (w & Hw & W). apply (trim_tokens _ i _ w); auto. rewrite tokens_spaces by auto. rewrite (lexes_pieces ps F), W. reflexivity.
Qed.
Lemma sp_no_nl i : Forall (eq sp) i -> ~ In nl i.
Proof. intros F I. rewrite Forall_forall in F. apply F in I. discriminate. Qed.
Lemma shows_no_nl l ps : shows l ps -> ~ In nl l.
Proof.
  intros [[-> _]|(i & t & Hi & T & F & _ & _ & ->)]; [intros []|]. intros I. apply in_app_or in I. destruct I as [I|I]; [exact (sp_no_nl i Hi I)|].
  apply in_app_or in I. destruct I as [I|I]; [exact (written_no_nl ps F I)|]. destruct T as [-> |(n & r & -> & N)]; [destruct I|].
  apply in_app_or in I. destruct I as [I|I]; [exact (sp_no_nl _ (spaces_all n) I)|]. cbn in I. intuition discriminate.
Qed.
Lemma shows_indent j l ps : Forall (eq sp) j -> shows l ps -> shows (indent_line j true l) ps.
Proof.
  intros Hj [[-> ->]|(i & t & Hi & T & F & S & (r & z & Z & Nz) & ->)]; [left; auto|]. right.
  destruct (i ++ written ps ++ t) as [|c l] eqn:E. { rewrite Z in E. destruct i; [|discriminate]. destruct r; discriminate. }
  cbn [indent_line]. rewrite <- E, Z. exists (j ++ i).
  assert (R : i ++ (r ++ [z]) ++ t = (i ++ r) ++ z :: t) by (rewrite <- !app_assoc; reflexivity).
  rewrite R, rstrip_keep by auto.
  exists (rstrip t). split; [apply Forall_app; auto|]. split.
  - destruct T as [-> |(n & q & -> & N)]; [left; reflexivity|]. right. exists n, (rstrip q). split; [|apply rstrip_no_nl; auto].
    change (spaces n ++ $"//" ++ q) with (spaces n ++ [("/"%char : ascii)] ++ "/"%char :: q). rewrite app_assoc, rstrip_keep by reflexivity. rewrite <- app_assoc. reflexivity.
  - split; auto. split; auto. split; [exists r, z; auto|]. rewrite <- !app_assoc. reflexivity.
Qed.

(** ** Adding the semicolon *)

Lemma scan_no_slash s : ~ In "/"%char s -> forall i st last, cpp_comment_scan s i st last = None.
Proof.
  induction s as [|c s IH]; intros N i st last; [reflexivity|]. cbn [cpp_comment_scan].
  destruct (ceqb_spec c "/"%char) as [->|]; [destruct N; left; auto|]. cbn [andb]. apply IH. intros I. apply N. right. auto.
Qed.
Lemma scan_code a c rest : ~ In "/"%char (a ++ [c]) -> ~ In dq (a ++ [c]) -> forall i st last,
  exists i', cpp_comment_scan ((a ++ [c]) ++ rest) i st last = cpp_comment_scan rest i' st (Some c).
Proof.
  induction a as [|d a IH]; intros N M i st last; cbn [app cpp_comment_scan].
  - destruct (ceqb_spec c "/"%char) as [->|]; [destruct N; left; auto|]. destruct (ceqb_spec c dq) as [->|]; [destruct M; left; auto|].
    cbn [andb]. eauto.
  - destruct (ceqb_spec d "/"%char) as [->|]; [destruct N; left; auto|]. destruct (ceqb_spec d dq) as [->|]; [destruct M; left; auto|].
    cbn [andb]. apply IH; intros I; [apply N|apply M]; right; auto.
Qed.
Lemma scan_literal c rest : closed_literal c -> forall i last,
  exists i' last', cpp_comment_scan (c ++ rest) i true last = cpp_comment_scan rest i' true last'.
Proof.
  intros H. induction H as [|c b N1 N2 N3 H IH|c b N H IH]; intros i last; [cbn [app]; eauto| |].
  - cbn [app cpp_comment_scan]. destruct (ceqb_spec c dq); [congruence|]. cbn [andb negb]. rewrite andb_false_r. apply IH.
  - cbn [app cpp_comment_scan]. change (ceqb bsl dq) with false. change (ceqb bsl "/") with false. change (ceqb bsl bsl) with true. cbn [andb negb].
    rewrite andb_false_r. cbn [andb negb]. rewrite andb_false_r. apply IH.
Qed.
Lemma add_semicolon l r z : l = r ++ [z] -> is_space z = false -> ~ In nl l -> line_cpp_comment_position l = None ->
  add_item_before_cpp_comment l $";" = l ++ $";".
Proof.
  intros E S N C. assert (L : lines l = [] ++ [l]) by (apply (lines_unlines [l]); [discriminate|constructor; auto]).
  rewrite (add_item_last_line l $";" [] l); auto; [|rewrite E; destruct r; discriminate]. cbn [app unlines].
  unfold add_token_to_line, last_code_position_before_cpp_comment. rewrite C. assert (R : rstrip l = l) by (rewrite E; apply rstrip_solid_end; auto).
  rewrite R, firstn_all, skipn_all, app_nil_r. reflexivity.
Qed.
Lemma solid_last ts a r z : ts = a :: r -> white a = false -> white z = false -> solid (ts ++ [z]).
Proof.
  intros -> A Z. split; [exists a, (r ++ [z]); split; [reflexivity|auto]|]. exists (a :: r), z. auto.
Qed.
Lemma pieces_app a b : pieces (a ++ b) = pieces a ++ pieces b.
Proof. apply flat_map_app. Qed.
Lemma written_app a b : written (a ++ b) = written a ++ written b.
Proof. apply flat_map_app. Qed.
Lemma semi_fits : code_text $";".
Proof. repeat constructor; discriminate. Qed.
(** The line which ends the statement. *)
Lemma shows_semicolon i ps : Forall (eq sp) i -> Forall piece_fits ps -> solid (pieces ps) -> (exists r z, written ps = r ++ [z] /\ is_space z = false) ->
  line_cpp_comment_position (i ++ written ps) = None ->
  shows (add_item_before_cpp_comment (i ++ written ps) $";") (ps ++ [Text $";"]).
Proof.
  intros Hi F S (r & z & Z & Nz) C. rewrite (add_semicolon _ (i ++ r) z); auto.
  - right. exists i, []. split; auto. split; [left; auto|]. split; [apply Forall_app; split; auto; constructor; [apply semi_fits|constructor]|].
    split; [rewrite pieces_app; destruct S as [(a & q & A & Na) _]; exact (solid_last _ a q (Code ";") A Na eq_refl)|].
    split; [exists (written ps), ";"%char; split; [rewrite written_app; reflexivity|reflexivity]|].
    rewrite written_app, app_nil_r, <- app_assoc. reflexivity.
  - rewrite Z, app_assoc. reflexivity.
  - intros I. apply in_app_or in I. destruct I as [I|I]; [exact (sp_no_nl i Hi I)|exact (written_no_nl ps F I)].
Qed.

(** ** The lines of the binding *)

Lemma word_code s : Forall (fun c => is_word c = true) s -> code_text s.
Proof. intros F. eapply Forall_impl; [|exact F]. cbn. intros c H. split; [|split]; intros ->; discriminate H. Qed.
Lemma code_app a b : code_text a -> code_text b -> code_text (a ++ b).
Proof. intros A B. apply Forall_app. auto. Qed.
Definition code_c (c : ascii) : bool := negb (ceqb c dq) && negb (ceqb c "/") && negb (ceqb c nl).
Lemma code_by_check s : forallb code_c s = true -> code_text s.
Proof.
  intros H. rewrite forallb_forall in H. apply Forall_forall. intros c I. apply H in I. unfold code_c in I.
  apply andb_true_iff in I as [I C]. apply andb_true_iff in I as [A B]. destruct (ceqb_spec c dq), (ceqb_spec c "/"), (ceqb_spec c nl); auto; discriminate.
Qed.
Lemma scope_code e : word (en_name e) -> code_text (en_scope e) -> code_text (enum_scope_self e).
Proof.
  intros [_ W] S. unfold enum_scope_self. destruct (en_scope e) as [|c s] eqn:E; [apply word_code; auto|]. apply code_app; auto.
  apply code_app; [apply code_by_check; reflexivity|apply word_code; auto].
Qed.
Lemma scope_nonempty e : word (en_name e) -> enum_scope_self e <> [].
Proof. intros [N _]. unfold enum_scope_self. destruct (en_scope e); auto. discriminate. Qed.
Lemma code_no_slash s : code_text s -> ~ In "/"%char s.
Proof. intros F I. unfold code_text in F. rewrite Forall_forall in F. apply F in I. tauto. Qed.
Lemma code_no_dq s : code_text s -> ~ In dq s.
Proof. intros F I. unfold code_text in F. rewrite Forall_forall in F. apply F in I. tauto. Qed.

Lemma pieces_end a b c d : exists r z, pieces [a; b; c; d; Text $")"] = r ++ [z] /\ white z = false.
Proof. exists (pieces [a; b; c; d]), (Code ")"). split; [exact (pieces_app [a; b; c; d] [Text $")"])|reflexivity]. Qed.
Lemma written_end a b c d : exists r z, written [a; b; c; d; Text $")"] = r ++ [z] /\ is_space z = false.
Proof. exists (written [a; b; c; d]), ")"%char. split; [exact (written_app [a; b; c; d] [Text $")"])|reflexivity]. Qed.
Definition value_pieces (o : enum_options) (e : cpp_enum) (v : enumerator) : list cpp_piece :=
  [Text $".value("; Quoted (value_python o e v); Text ($", " ++ value_cpp e v ++ $", ");
   Quoted (comment_pydef_one_line o (full_comment (v_previous v) (v_eol v))); Text $")"].
Lemma value_line_written o e v : value_pydef_line o e v = written (value_pieces o e v).
Proof. unfold value_pydef_line, written, value_pieces. cbn [flat_map written_piece]. rewrite app_nil_r, <- !app_assoc. reflexivity. Qed.
Lemma word_literal s : Forall (fun c => is_word c = true) s -> closed_literal s.
Proof.
  intros F. induction F as [|c r H F IH]; constructor; auto; intros ->; discriminate H.
Qed.
Lemma value_cpp_code e v : well_formed_names e -> word (v_name v) -> code_text (en_scope e) -> code_text (value_cpp e v).
Proof.
  intros [W _] [_ V] S. unfold value_cpp. assert (A : code_text (if en_is_class e then enum_scope_self e else en_scope e)).
  { destruct (en_is_class e); auto. apply scope_code; auto. }
  destruct (if en_is_class e then enum_scope_self e else en_scope e); [apply word_code; auto|]. apply code_app; auto.
  apply code_app; [apply code_by_check; reflexivity|apply word_code; auto].
Qed.
Lemma value_shape o e v : well_formed_names e -> word (v_name v) -> code_text (en_scope e) -> word (value_python o e v) ->
  closed_literal (comment_pydef_one_line o (full_comment (v_previous v) (v_eol v))) ->
  Forall piece_fits (value_pieces o e v) /\ solid (pieces (value_pieces o e v)) /\
  (exists r z, written (value_pieces o e v) = r ++ [z] /\ is_space z = false) /\
  (forall i, Forall (eq sp) i -> line_cpp_comment_position (i ++ written (value_pieces o e v)) = None).
Proof.
  intros W V Sc [_ P] D. pose proof (value_cpp_code e v W V Sc) as C. split.
  { unfold value_pieces. apply Forall_cons; [apply code_by_check; reflexivity|]. apply Forall_cons; [apply word_literal; auto|].
    apply Forall_cons; [apply code_app; [apply code_by_check; reflexivity|apply code_app; [auto|apply code_by_check; reflexivity]]|].
    apply Forall_cons; [exact D|]. apply Forall_cons; [apply code_by_check; reflexivity|constructor]. }
  split.
  { split; [eexists; eexists; split; [reflexivity|reflexivity]|]. apply pieces_end. }
  split; [apply written_end|].
  intros i Hi. unfold line_cpp_comment_position. rewrite <- value_line_written. unfold value_pydef_line.
  assert (Ni : forall c, c <> sp -> ~ In c i) by (intros c Hc I; rewrite Forall_forall in Hi; apply Hi in I; congruence).
  assert (E1 : i ++ $".value(" ++ [dq] ++ value_python o e v ++ [dq] ++ $", " ++ value_cpp e v ++ $", " ++ [dq]
    ++ comment_pydef_one_line o (full_comment (v_previous v) (v_eol v)) ++ [dq] ++ $")" =
    ((i ++ $".value") ++ ["("%char]) ++ dq :: value_python o e v ++ dq :: (($", " ++ value_cpp e v ++ $",") ++ [" "%char]) ++ dq ::
      comment_pydef_one_line o (full_comment (v_previous v) (v_eol v)) ++ dq :: $")") by (rewrite <- !app_assoc; reflexivity).
  rewrite E1.
  destruct (scan_code (i ++ $".value") "(" (dq :: value_python o e v ++ dq :: (($", " ++ value_cpp e v ++ $",") ++ [" "%char]) ++ dq ::
      comment_pydef_one_line o (full_comment (v_previous v) (v_eol v)) ++ dq :: $")")) with (i := 0) (st := false) (last := @None ascii) as [i1 H1].
  { rewrite <- app_assoc. intros I. apply in_app_or in I. destruct I as [I|I]; [apply Ni in I; [auto|discriminate]|cbn in I; intuition discriminate]. }
  { rewrite <- app_assoc. intros I. apply in_app_or in I. destruct I as [I|I]; [apply Ni in I; [auto|discriminate]|cbn in I; intuition discriminate]. }
  rewrite H1. cbn [cpp_comment_scan]. change (ceqb dq dq) with true. change (ceqb "(" bsl) with false. change (ceqb dq "/") with false. cbn [andb negb].
  assert (Q : exists c r, value_python o e v = r ++ [c] \/ value_python o e v = []).
  { destruct (value_python o e v) as [|c l]; [exists "a"%char, []; auto|]. destruct (exists_last (l := c :: l)) as (r & z & ->); [discriminate|]. exists z, r; auto. }
  assert (H2 : exists i2 c2, c2 <> bsl /\ forall rest, cpp_comment_scan (value_python o e v ++ rest) (S i1) true (Some dq) = cpp_comment_scan rest i2 true (Some c2)).
  { generalize (S i1) as k. clear - P. intros k. assert (G : dq <> bsl) by discriminate. revert k G. generalize dq as d.
    induction P as [|c r Hc P IH]; intros d k G; [exists k, d; split; [auto|reflexivity]|].
    assert (Gc : c <> bsl) by (intros ->; discriminate Hc). destruct (IH c (S k) Gc) as (i2 & c2 & G2 & H2). exists i2, c2. split; auto. intros rest.
    cbn [app cpp_comment_scan]. destruct (ceqb_spec c dq) as [->|]; [discriminate Hc|]. cbn [andb negb]. rewrite andb_false_r. apply H2. }
  destruct H2 as (i2 & c2 & G2 & H2). rewrite H2. cbn [cpp_comment_scan]. change (ceqb dq dq) with true. destruct (ceqb_spec c2 bsl); [congruence|].
  change (ceqb dq "/") with false. cbn [andb negb].
  destruct (scan_code ($", " ++ value_cpp e v ++ $",") " " (dq :: comment_pydef_one_line o (full_comment (v_previous v) (v_eol v)) ++ dq :: $")"))
    with (i := S i2) (st := false) (last := Some dq) as [i3 H3].
  { apply code_no_slash. apply code_app; [apply code_app; [apply code_by_check; reflexivity|apply code_app; [auto|apply code_by_check; reflexivity]]|apply code_by_check; reflexivity]. }
  { apply code_no_dq. apply code_app; [apply code_app; [apply code_by_check; reflexivity|apply code_app; [auto|apply code_by_check; reflexivity]]|apply code_by_check; reflexivity]. }
  etransitivity; [exact H3|]. cbn [cpp_comment_scan]. change (ceqb dq dq) with true. change (ceqb " " bsl) with false. change (ceqb dq "/") with false. cbn [andb negb].
  destruct (scan_literal (comment_pydef_one_line o (full_comment (v_previous v) (v_eol v))) (dq :: $")") D (S i3) (Some dq)) as (i4 & l4 & H4).
  rewrite H4. apply scan_no_slash. cbn. intuition discriminate.
Qed.

Definition decl_pieces (o : enum_options) (e : cpp_enum) (annotation : str) : list cpp_piece :=
  [Text ((if eo_nanobind o then $"nb" else $"py") ++ $"::enum_<" ++ enum_scope_self e ++ $">(" ++ eo_parent o ++ $", "); Quoted (eo_enum_name o (en_name e));
   Text (annotation ++ $", "); Quoted (comment_pydef_one_line o (full_comment (en_previous e) (en_eol e))); Text $")"].
Lemma decl_shows o e vs a : well_formed_names e -> enum_writable o e vs -> enum_annotation o e = Some a -> shows (enum_decl_line o e a) (decl_pieces o e a).
Proof.
  intros [W _] (N & S & P & _ & L & D & _) A.
  assert (Ca : code_text a).
  { unfold enum_annotation in A. destruct (eo_arithmetic o (enum_scope_self e)); [|discriminate]. inversion A.
    destruct (eo_nanobind o); [destruct (eo_flag o (enum_scope_self e))|]; apply code_by_check; reflexivity. }
  right. exists [], (eo_location_cpp o). split; [constructor|]. split; [exact L|]. split.
  { unfold decl_pieces. apply Forall_cons.
    { cbn [piece_fits]. apply code_app; [destruct (eo_nanobind o); apply code_by_check; reflexivity|]. apply code_app; [apply code_by_check; reflexivity|].
      apply code_app; [apply scope_code; auto|]. apply code_app; [apply code_by_check; reflexivity|]. apply code_app; auto. apply code_by_check; reflexivity. }
    apply Forall_cons; [apply word_literal, N|]. apply Forall_cons; [apply code_app; [auto|apply code_by_check; reflexivity]|]. apply Forall_cons; [exact D|].
    apply Forall_cons; [apply code_by_check; reflexivity|constructor]. }
  split.
  { split.
    - unfold pieces, decl_pieces. cbn [flat_map]. destruct (eo_nanobind o); eexists; eexists; split; reflexivity.
    - apply pieces_end. }
  split; [apply written_end|].
  unfold enum_decl_line, written, decl_pieces. cbn [flat_map written_piece]. rewrite app_nil_r, <- !app_assoc. reflexivity.
Qed.

(** The lines after the first one, before the indentation, with their pieces. *)
Lemma indent_children i ls : ls <> [] -> Forall (fun l => ~ In nl l) ls -> ~ In nl i ->
  indent_code_lines ls 1 false (Some i) true = map (indent_line i true) ls.
Proof.
  intros H N Hi. unfold indent_code_lines, indent_code. unfold indent_code_str. rewrite (lines_unlines ls) by auto. apply lines_unlines.
  - destruct ls; [congruence|discriminate].
  - apply Forall_map. eapply Forall_impl; [|exact N]. intros l Hl. apply indent_line_no_nl; auto.
Qed.
Lemma shows_all_no_nl ls ps : Forall2 shows ls ps -> Forall (fun l => ~ In nl l) ls.
Proof. intros F. induction F as [|l p ls ps H F IH]; constructor; auto. exact (shows_no_nl l p H). Qed.
Lemma shows_all_indent j ls ps : Forall (eq sp) j -> Forall2 shows ls ps -> Forall2 shows (map (indent_line j true) ls) ps.
Proof. intros J F. induction F; constructor; auto. apply shows_indent; auto. Qed.
Lemma shows_all_lines ls ps : Forall2 shows ls ps -> map cpp_line ls = map pieces ps.
Proof. intros F. induction F as [|l p ls ps H F IH]; cbn [map]; auto. rewrite (shows_line l p H), IH. auto. Qed.

(** The values, indented. *)
Lemma values_show o e vs : well_formed_names e -> Forall (fun v => word (v_name v)) vs -> enum_writable o e vs ->
  Forall (fun v => shows (indent_line (eo_cpp_indent o) true (value_pydef_line o e v)) (value_pieces o e v) /\
    shows (add_item_before_cpp_comment (indent_line (eo_cpp_indent o) true (value_pydef_line o e v)) $";") (value_pieces o e v ++ [Text $";"])) vs.
Proof.
  intros W F (_ & Sc & _ & Hi & _ & _ & V). rewrite Forall_forall in *. intros v I. destruct (V v I) as [Pn D].
  destruct (value_shape o e v W (F v I) Sc Pn D) as (Fit & Sol & En & Pos). rewrite value_line_written.
  assert (E : indent_line (eo_cpp_indent o) true (written (value_pieces o e v)) = eo_cpp_indent o ++ written (value_pieces o e v)).
  { destruct En as (r & z & Z & Nz). destruct (written (value_pieces o e v)) as [|c l] eqn:L; [destruct r; discriminate|]. cbn [indent_line]. rewrite Z, rstrip_solid_end by auto. auto. }
  rewrite E. assert (Hi' : Forall (eq sp) (eo_cpp_indent o)) by (apply Forall_forall; auto). split.
  - right. exists (eo_cpp_indent o), []. rewrite app_nil_r. split; auto. split; [left; auto|]. auto.
  - apply shows_semicolon; auto.
Qed.
Lemma export_shape : Forall piece_fits [Text $".export_values()"] /\ solid (pieces [Text $".export_values()"]).
Proof. split; [constructor; [apply code_by_check; reflexivity|constructor]|]. split; [eexists; eexists; split; reflexivity|]. exists (pieces [Text $".export_values("]), (Code ")"). auto. Qed.

Definition kid_lines (o : enum_options) (e : cpp_enum) (vs : list enumerator) : list str :=
  match vs with [] => [[]] | _ => map (fun v => indent_line (eo_cpp_indent o) true (value_pydef_line o e v)) vs end.
Definition kid_pieces (o : enum_options) (e : cpp_enum) (vs : list enumerator) : list (list cpp_piece) := match vs with [] => [[]] | _ => map (value_pieces o e) vs end.
Lemma kids o e vs : well_formed_names e -> Forall (fun v => word (v_name v)) vs -> enum_writable o e vs ->
  indent_code_lines (map (value_pydef_line o e) vs) 1 false (Some (eo_cpp_indent o)) true = kid_lines o e vs.
Proof.
  intros W F H. destruct vs as [|v vs]; [reflexivity|]. destruct H as (_ & Sc & _ & Hi & _ & _ & V). unfold kid_lines. rewrite indent_children; [apply map_map|discriminate| |apply sp_no_nl; auto].
  apply Forall_map. rewrite Forall_forall in *. intros u I. rewrite value_line_written. apply written_no_nl. destruct (V u I) as [Pn D]. apply (value_shape o e u); auto.
Qed.

(** The end of the statement: at least a line, whose last one is ended. *)
Lemma tail_shows o e vs : well_formed_names e -> Forall (fun v => word (v_name v)) vs -> enum_writable o e vs ->
  exists ls l ps p, kid_lines o e vs ++ (if eo_export o then [$".export_values()"] else []) = ls ++ [l] /\
    kid_pieces o e vs ++ (if eo_export o then [[Text $".export_values()"]] else []) = ps ++ [p] /\
    Forall2 shows (ls ++ [add_item_before_cpp_comment l $";"]) (ps ++ [p ++ [Text $";"]]).
Proof.
  intros W F H. pose proof (values_show o e vs W F H) as S. assert (A : Forall2 shows (kid_lines o e vs) (kid_pieces o e vs)).
  { destruct vs as [|v vs]; [constructor; [left; auto|constructor]|]. unfold kid_lines, kid_pieces. clear - S. induction S as [|u us [A _] S IH]; constructor; auto. }
  destruct (eo_export o).
  - exists (kid_lines o e vs), $".export_values()", (kid_pieces o e vs), [Text $".export_values()"]. split; [reflexivity|]. split; [reflexivity|].
    apply Forall2_app; auto. constructor; [|constructor]. destruct export_shape as [E1 E2].
    refine (shows_semicolon [] [Text $".export_values()"] (Forall_nil _) E1 E2 _ _); [exists $".export_values(", ")"%char; auto|reflexivity].
  - rewrite !app_nil_r. destruct vs as [|v0 vs0].
    + exists [], [], [], []. split; [reflexivity|]. split; [reflexivity|]. cbn [app]. constructor; [|constructor].
      right. exists [], []. split; [constructor|]. split; [left; auto|]. split; [constructor; [apply semi_fits|constructor]|]. split.
      * split; [eexists; eexists; split; reflexivity|]. exists [], (Code ";"). auto.
      * split; [exists [], ";"%char; auto|reflexivity].
    + destruct (exists_last (l := v0 :: vs0)) as (vs & v & E); [discriminate|].
      assert (K : kid_lines o e (v0 :: vs0) = map (fun v => indent_line (eo_cpp_indent o) true (value_pydef_line o e v)) vs ++ [indent_line (eo_cpp_indent o) true (value_pydef_line o e v)]).
      { change (kid_lines o e (v0 :: vs0)) with (map (fun v => indent_line (eo_cpp_indent o) true (value_pydef_line o e v)) (v0 :: vs0)). rewrite E, map_app. reflexivity. }
      assert (Q : kid_pieces o e (v0 :: vs0) = map (value_pieces o e) vs ++ [value_pieces o e v]).
      { change (kid_pieces o e (v0 :: vs0)) with (map (value_pieces o e) (v0 :: vs0)). rewrite E, map_app. reflexivity. }
      rewrite K, Q. eexists _, _, _, _. split; [reflexivity|]. split; [reflexivity|]. rewrite E in S. apply Forall_app in S. destruct S as [S1 S2].
      apply Forall2_app; [clear - S1; induction S1 as [|u us [A _] S IH]; constructor; auto|]. inversion S2 as [|? ? [_ B] _]; subst. constructor; auto.
Qed.

Lemma value_prefix o e v : word (en_name e) ->
  value_pieces o e v = [Text $".value("; Quoted (eo_value_name o (en_is_class e) (en_name e) (v_name v));
    Text ($", " ++ (if en_is_class e then match en_scope e with [] => en_name e | s => s ++ $"::" ++ en_name e end ++ $"::" else match en_scope e with [] => [] | s => s ++ $"::" end)
      ++ v_name v ++ $", "); Quoted (comment_pydef_one_line o (full_comment (v_previous v) (v_eol v))); Text $")"].
Proof.
  intros W. unfold value_pieces, value_python. assert (E : value_cpp e v = (if en_is_class e then match en_scope e with [] => en_name e | s => s ++ $"::" ++ en_name e end ++ $"::"
    else match en_scope e with [] => [] | s => s ++ $"::" end) ++ v_name v).
  { unfold value_cpp. pose proof (scope_nonempty e W) as N. destruct (en_is_class e).
    - unfold enum_scope_self in *. destruct (en_scope e); [destruct (en_name e); [congruence|]|]; cbn [app]; rewrite <- ?app_assoc; reflexivity.
    - destruct (en_scope e); [reflexivity|]. rewrite <- app_assoc. reflexivity. }
  rewrite E. rewrite <- !app_assoc. reflexivity.
Qed.
Lemma statement_is o e vs : word (en_name e) -> eo_arithmetic o (enum_scope_self e) = true -> forall a, enum_annotation o e = Some a ->
  forall ps p, kid_pieces o e vs ++ (if eo_export o then [[Text $".export_values()"]] else []) = ps ++ [p] ->
  enum_statement o e vs = [Text ($"auto pyEnum" ++ eo_enum_name o (en_name e) ++ $" =")] :: decl_pieces o e a :: ps ++ [p ++ [Text $";"]].
Proof.
  intros W A a Ha ps p E. unfold enum_annotation in Ha. rewrite A in Ha. inversion Ha as [Ea]. clear Ha.
  assert (K : kid_pieces o e vs = match vs with [] => [[]] | _ => map (fun v => [Text $".value("; Quoted (eo_value_name o (en_is_class e) (en_name e) (v_name v));
    Text ($", " ++ (if en_is_class e then match en_scope e with [] => en_name e | s => s ++ $"::" ++ en_name e end ++ $"::" else match en_scope e with [] => [] | s => s ++ $"::" end)
      ++ v_name v ++ $", "); Quoted (comment_pydef_one_line o (full_comment (v_previous v) (v_eol v))); Text $")"]) vs end).
  { unfold kid_pieces. destruct vs as [|v vs]; [reflexivity|]. apply map_ext. intros u. apply value_prefix. auto. }
  unfold enum_statement. cbv zeta.
  match goal with |- context [?m ++ (if eo_export o then _ else _)] => replace m with (kid_pieces o e vs) by exact K end. rewrite E. unfold decl_pieces.
  match goal with |- match rev (?d ++ ps ++ [p]) with _ => _ end = _ => rewrite (app_assoc d ps [p]), (rev_app_distr (d ++ ps) [p]) end. cbn [rev app]. rewrite <- ?app_comm_cons.
  cbn [rev app]. rewrite !rev_app_distr, !rev_involutive. cbn [rev app]. reflexivity.
Qed.

Theorem enum_pydef_read o e vs : well_formed_names e -> enum_kept o e vs -> enum_writable o e vs ->
  eo_arithmetic o (enum_scope_self e) = true ->
  exists ls, enum_pydef o e = Some ls /\ map cpp_line ls = map pieces (enum_statement o e vs).
Proof.
  intros W K H A. assert (a : { a | enum_annotation o e = Some a }) by (unfold enum_annotation; rewrite A; eauto). destruct a as [a Ea].
  pose proof (kept_values o e vs W K) as V. assert (F : Forall (fun v => word (v_name v)) vs).
  { destruct W as [_ W]. destruct K as (keep & _ & ->). rewrite Forall_forall in *. intros v I. apply filter_In in I. apply W. tauto. }
  destruct (tail_shows o e vs W F H) as (ls & l & ps & p & E1 & E2 & S).
  rewrite (statement_is o e vs (proj1 W) A a Ea ps p E2). unfold enum_pydef. rewrite Ea.
  change (enum_values o e) with (values_of (enum_published o e)). rewrite V, (kids o e vs W F H).
  set (first := $"auto pyEnum" ++ eo_enum_name o (en_name e) ++ $" = ").
  assert (L : (if eo_export o then ([first; enum_decl_line o e a] ++ kid_lines o e vs) ++ [$".export_values()"] else [first; enum_decl_line o e a] ++ kid_lines o e vs)
    = ([first; enum_decl_line o e a] ++ ls) ++ [l]).
  { etransitivity; [|apply app_assoc]. refine (eq_trans _ (f_equal (app [first; enum_decl_line o e a]) E1)). destruct (eo_export o); [rewrite <- app_assoc; reflexivity|]. rewrite app_nil_r. reflexivity. }
  rewrite L. assert (R : forall (x : list str) y, rev (x ++ [y]) = y :: rev x) by (intros; rewrite rev_app_distr; reflexivity).
  rewrite R, rev_involutive.
  eexists. split; [reflexivity|].
  pose proof (decl_shows o e vs a W H Ea) as D. assert (All : Forall2 shows (enum_decl_line o e a :: ls ++ [add_item_before_cpp_comment l $";"]) (decl_pieces o e a :: ps ++ [p ++ [Text $";"]]))
    by (constructor; auto).
  destruct H as (Nn & _ & _ & Hi & _).
  change (([first; enum_decl_line o e a] ++ ls) ++ [add_item_before_cpp_comment l $";"]) with (first :: (enum_decl_line o e a :: ls ++ [add_item_before_cpp_comment l $";"])).
  assert (Nf : ~ In nl first).
  { intros I. unfold first in I. apply in_app_or in I. destruct I as [I|I]; [cbn in I; intuition discriminate|]. apply in_app_or in I. destruct I as [I|I]; [|cbn in I; intuition discriminate].
    destruct Nn as [_ Nn]. rewrite Forall_forall in Nn. apply Nn in I. discriminate. }
  rewrite indent_skip_first; auto; [|apply sp_no_nl; auto|discriminate|exact (shows_all_no_nl _ _ All)].
  assert (Fr : rstrip first = $"auto pyEnum" ++ eo_enum_name o (en_name e) ++ $" =").
  { unfold first. change ($" = ") with ([" "%char] ++ "="%char :: [" "%char]). rewrite !app_assoc, rstrip_keep by reflexivity. rewrite <- !app_assoc. reflexivity. }
  rewrite Fr.
  match goal with |- map cpp_line (?x :: ?y) = map pieces (?u :: ?w) => change (cpp_line x :: map cpp_line y = pieces u :: map pieces w) end. f_equal.
  - apply shows_line. right. exists [], []. split; [constructor|]. split; [left; auto|]. split.
    + constructor; [|constructor]. cbn [piece_fits]. apply code_app; [apply code_by_check; reflexivity|]. apply code_app; [apply word_code, Nn|apply code_by_check; reflexivity].
    + split.
      * split; [eexists; eexists; split; reflexivity|]. exists (map Code ($"auto pyEnum" ++ eo_enum_name o (en_name e) ++ $" ")), (Code "="). split; [|reflexivity].
        unfold pieces. cbn [flat_map]. rewrite app_nil_r. change ($" =") with ($" " ++ ["="%char]). rewrite !app_assoc, map_app. reflexivity.
      * split.
        -- exists ($"auto pyEnum" ++ eo_enum_name o (en_name e) ++ $" "), "="%char. split; [|reflexivity]. unfold written. cbn [flat_map written_piece]. rewrite app_nil_r, <- !app_assoc. reflexivity.
        -- unfold written. cbn [flat_map written_piece]. rewrite !app_nil_r. reflexivity.
  - apply shows_all_lines, (shows_all_indent (eo_cpp_indent o)); auto.
Qed.
