From Verif Require Import PyStr PyStrLemmas PyDict RegionsModel TextModel TextSpec TextProofs CommentModel CommentSpec FillModel FillSpec FillProofs FillProofs2 FillProofs3 FillProofs4
  NamedModel NamedProofs3 EnumModel EnumSpec EnumProofs EnumProofs2 CommentProofs3 CommentProofs4 ClassModel ClassSpec ClassProofs ClassProofs2.
(** The text which creates a class. *)

(** ** Reading pieces of text *)

Lemma bare_app a b : bare a -> bare b -> bare (a ++ b).
Proof. intros A B. apply Forall_app. auto. Qed.
Definition bare_c (c : ascii) : bool := negb (ceqb c dq) && negb (ceqb c "/").
Lemma bare_by_check s : forallb bare_c s = true -> bare s.
Proof.
  intros H. apply Forall_forall. intros c I. rewrite forallb_forall in H. apply H in I. unfold bare_c in I. apply andb_true_iff in I as [A B].
  destruct (ceqb_spec c dq), (ceqb_spec c "/"%char); try discriminate. auto.
Qed.
Lemma bare_word s : Forall (fun c => is_word c = true) s -> bare s.
Proof. apply Forall_impl. intros c H. split; intros ->; discriminate. Qed.
Lemma bare_white s : Forall (fun c => is_space c = true) s -> bare s.
Proof. apply Forall_impl. intros c H. split; intros ->; discriminate. Qed.
Lemma reads_bare s z : bare (s ++ [z]) -> is_word z = false -> reads (s ++ [z]) (lexemes [] (map Code (s ++ [z]))).
Proof. intros B W. rewrite map_app. apply (reads_toks _ (map Code s) (Code z)); [change [Code z] with (map Code [z]); rewrite <- map_app; apply toks_bare; auto|]. cbn. rewrite W. reflexivity. Qed.
(** Known text, ended by a sign or a space. *)
Lemma reads_known s z : forallb bare_c (s ++ [z]) = true -> is_word z = false -> reads (s ++ [z]) (read_text (s ++ [z])).
Proof. intros B W. pose proof (reads_bare s z (bare_by_check _ B) W) as R. rewrite (reads_here _ _ R). exact R. Qed.
Lemma reads_white s : Forall (fun c => is_space c = true) s -> reads s [].
Proof.
  intros F b. unfold read_text. rewrite (toks_bare s (bare_white s F) b). rewrite lexemes_white; [reflexivity|]. apply Forall_map. exact F.
Qed.
Lemma read_bare s : bare s -> read_text s = lexemes [] (map Code s).
Proof.
  intros B. unfold read_text. pose proof (toks_bare s B []) as T. rewrite app_nil_r in T. rewrite T. change (text_tokens []) with [Code nl]. rewrite lexemes_flush by (exists (Code nl), []; auto).
  cbn. apply app_nil_r.
Qed.
Lemma reads_then s c : bare s -> bare [c] -> is_word c = false -> reads (s ++ [c]) (read_text s ++ read_text [c]).
Proof.
  intros B C W. pose proof (reads_bare s c (bare_app _ _ B C) W) as R. rewrite map_app in R. rewrite lexemes_flush in R by (exists (Code c), []; split; auto; cbn; rewrite W; auto).
  rewrite (read_bare s B), (read_bare [c] C). exact R.
Qed.
Lemma lexemes_word s : Forall (fun c => is_word c = true) s -> forall cur, lexemes cur (map Code s) = flush (cur ++ s).
Proof.
  intros F. induction F as [|c s H F IH]; intros cur; [rewrite app_nil_r; reflexivity|]. cbn [map lexemes]. rewrite H, IH, <- app_assoc. reflexivity.
Qed.
Lemma read_word s : word s -> read_text s = [Word s].
Proof. intros [N F]. rewrite (read_bare s (bare_word s F)), (lexemes_word s F). destruct s; [congruence|reflexivity]. Qed.
Lemma reads_word s c : word s -> bare [c] -> is_word c = false -> reads (s ++ [c]) (Word s :: read_text [c]).
Proof. intros W B C. pose proof (reads_then s c (bare_word s (proj2 W)) B C) as R. rewrite (read_word s W) in R. exact R. Qed.
Lemma reads_literal s : closed_literal s -> reads ([dq] ++ s ++ [dq]) [Str s].
Proof. intros C. exact (reads_toks _ [] (Literal s) (toks_literal s C) eq_refl). Qed.
Lemma space_eq i : Forall (eq sp) i -> Forall (fun c => is_space c = true) i.
Proof. apply Forall_impl. intros c <-. reflexivity. Qed.
Lemma reads_comment w r : Forall (fun c => is_space c = true) w -> ~ In nl r -> reads (w ++ $"//" ++ r ++ [nl]) [].
Proof.
  intros F N. change (@nil lexeme) with (@nil lexeme ++ []). apply reads_app; [apply reads_white; auto|].
  exact (reads_toks _ [] (Code nl) (toks_comment r N) eq_refl).
Qed.
Lemma reads_location l : location_comment l -> reads (l ++ [nl]) [].
Proof.
  intros [->|(n & r & -> & N & _)]; [apply reads_white; repeat constructor|]. rewrite <- !app_assoc. apply reads_comment; auto. apply space_eq, spaces_all.
Qed.
Lemma reads_end t : reads (t ++ [nl]) (read_text t).
Proof.
  intros b. rewrite <- app_assoc. cbn [app]. unfold read_text. rewrite text_tokens_nl. destruct (lines_first t) as (l & r & E & _).
  assert (X : exists u, text_tokens t = u ++ [Code nl]).
  { unfold text_tokens. destruct (exists_last (l := lines t)) as (ls & z & ->); [rewrite E; discriminate|]. rewrite flat_map_app. cbn [flat_map]. rewrite app_nil_r, app_assoc. eauto. }
  destruct X as (u & ->). apply lexemes_after. reflexivity.
Qed.

(** Simple text is made of signs which are not brackets. *)
Lemma simple_bare s : Forall (fun c => simple_c c = true) s -> bare s.
Proof. apply Forall_impl. intros c H. split; intros ->; discriminate. Qed.
Lemma simple_dull_from s : Forall (fun c => simple_c c = true) s -> forall cur, forallb dull (lexemes cur (map Code s)) = true.
Proof.
  intros F. assert (Fl : forall cur, forallb dull (flush cur) = true) by (intros [|]; reflexivity). induction F as [|c s H F IH]; intros cur; [apply Fl|]. cbn [map lexemes].
  destruct (is_word c); auto. destruct (is_space c); rewrite forallb_app, Fl; cbn [andb]; [apply IH|]. cbn [forallb]. rewrite IH, andb_true_r.
  unfold simple_c in H. apply negb_true_iff in H. cbn [existsb] in H. repeat rewrite orb_false_iff in H. unfold dull, opens, closes, is_sign.
  assert (S : forall d, ceqb c d = false -> ceqb d c = false) by (intros d Q; destruct (ceqb_spec d c) as [->|]; auto; destruct (ceqb_spec c c); congruence).
  destruct H as (_ & _ & _ & H1 & H2 & H3 & H4 & H5 & H6 & H7 & _). rewrite !S by assumption. reflexivity.
Qed.
Lemma simple_dull s : Forall (fun c => simple_c c = true) s -> forallb dull (read_text s) = true.
Proof. intros F. rewrite (read_bare s (simple_bare s F)). apply simple_dull_from. auto. Qed.
Lemma word_simple s : Forall (fun c => is_word c = true) s -> Forall (fun c => simple_c c = true) s.
Proof.
  apply Forall_impl. intros c H. unfold simple_c. cbn [existsb]. repeat match goal with |- context [ceqb c ?d] => destruct (ceqb_spec c d) as [->|_]; [discriminate|] end. reflexivity.
Qed.
Lemma simple_by_check s : forallb simple_c s = true -> Forall (fun c => simple_c c = true) s.
Proof. intros H. apply Forall_forall. rewrite forallb_forall in H. exact H. Qed.
Lemma simple_neutral K s : Forall (fun c => simple_c c = true) s -> neutral K s.
Proof. intros F. apply no_brace_neutral. intros I. rewrite Forall_forall in F. apply F in I. discriminate. Qed.
Lemma simple_no_nl s : Forall (fun c => simple_c c = true) s -> ~ In nl s.
Proof. intros F I. rewrite Forall_forall in F. apply F in I. discriminate. Qed.
Lemma simple_all P a b : Forall P a -> Forall P b -> Forall P (a ++ b : str).
Proof. intros A B. apply Forall_app. auto. Qed.
Lemma simple_join sep ls : Forall (fun c => simple_c c = true) sep -> Forall (Forall (fun c => simple_c c = true)) ls -> Forall (fun c => simple_c c = true) (join sep ls).
Proof.
  intros S F. induction F as [|x l H F IH]; [constructor|]. destruct l as [|y l]; [exact H|]. change (join sep (x :: y :: l)) with (x ++ sep ++ join sep (y :: l)).
  apply simple_all; auto. apply simple_all; auto.
Qed.
Ltac simples := repeat first [assumption | (apply word_simple; assumption) | (apply simple_by_check; reflexivity) | apply simple_all].

(** ** The text *)

Section Creation.
Variable o : class_env.
Hypothesis indent : Forall (eq sp) (cl_indent o).

Lemma qualified_is h : qualified_special h = scoped_name (h_scope h) (h_name h) ++ h_special h.
Proof. unfold qualified_special, qualified_name, scoped_name. destruct (h_scope h); reflexivity. Qed.
Lemma qualified_simple h : writable o h -> Forall (fun c => simple_c c = true) (qualified_special h).
Proof.
  intros W. rewrite qualified_is. unfold scoped_name. destruct (wr_name o h W) as [_ Fn]. apply simple_all.
  - destruct (wr_scope o h W) as [->|[_ S]]; [apply word_simple; auto|]. destruct (h_scope h) as [|c s]; [apply word_simple; auto|]. simples.
  - destruct (wr_special o h W) as [->|[_ S]]; [constructor|auto].
Qed.
Lemma join_front sep (x : str) l : join sep (x :: l) = x ++ concat (map (fun y => sep ++ y) l).
Proof.
  revert x. induction l as [|y l IH]; intros x; [cbn; rewrite app_nil_r; reflexivity|]. change (join sep (x :: y :: l)) with (x ++ sep ++ join sep (y :: l)). rewrite IH.
  cbn [map concat]. rewrite <- !app_assoc. reflexivity.
Qed.
Definition shared_text (h : head) : str := if cl_shared o (h_name h) && negb (cl_nanobind o) then $", std::shared_ptr<" ++ qualified_special h ++ $">" else [].
Lemma class_type_is h : class_type o h = lib o ++ $"::class_<" ++ qualified_special h ++ other_params_text o h ++ shared_text h ++ $">".
Proof.
  unfold class_type, lib, library. cbv zeta. rewrite <- qualified_is. do 2 apply f_equal. change ([qualified_special h] ++ ?l) with (qualified_special h :: l). rewrite join_front, <- !app_assoc. apply f_equal.
  assert (O : other_params_text o h = concat (map (fun y => $", " ++ y) (other_params o h))).
  { unfold other_params_text. destruct (other_params o h) as [|p ps]; [reflexivity|]. rewrite join_front. cbn [map concat]. rewrite <- app_assoc. reflexivity. }
  rewrite O. unfold other_params, shared_text. rewrite (andb_comm (h_nodelete h)), (andb_comm (cl_shared o (h_name h))).
  change visible_base with (fun b : access * str => match fst b with Private => false | _ => true end).
  assert (T : (match h_scope h with [] => [] | s => s ++ $"::" end) ++ h_name h ++ $"_trampoline" = scoped_name (h_scope h) (h_name h ++ $"_trampoline")).
  { unfold scoped_name. destruct (h_scope h); [reflexivity|]. rewrite <- app_assoc. reflexivity. }
  rewrite T. rewrite !map_app, !concat_app, <- !app_assoc.
  do 3 apply f_equal. destruct (negb (cl_nanobind o) && cl_shared o (h_name h)); [|reflexivity]. cbn [map concat]. rewrite app_nil_r, <- !app_assoc. reflexivity.
Qed.
Lemma library_word : word (lib o).
Proof. unfold lib. destruct (cl_nanobind o); (split; [discriminate|repeat constructor]). Qed.
Lemma other_simple h : writable o h -> Forall (Forall (fun c => simple_c c = true)) (other_params o h).
Proof.
  intros W. pose proof (qualified_simple h W) as Q. unfold other_params. pose proof (wr_bases o h W) as B. apply Forall_app in B as [B C].
  assert (Cl : forall l, Forall simple_text l -> Forall (Forall (fun c => simple_c c = true)) l) by (intros l; apply Forall_impl; intros t [_ H]; exact H).
  apply Forall_app; split; [|apply Forall_app; split].
  - destruct (h_custom h) eqn:E; [|apply Cl; exact C]. apply Cl. apply Forall_forall. intros t I. apply in_map_iff in I as (b & <- & I). apply filter_In in I as [I _]. rewrite Forall_forall in B. apply B. apply in_map. auto.
  - destruct (h_nodelete h && negb (cl_nanobind o)); [|constructor]. constructor; [|constructor]. simples.
  - destruct (h_trampoline h); [|constructor]. constructor; [|constructor]. destruct (wr_name o h W) as [_ Fn]. apply simple_all; [|simples].
    destruct (wr_scope o h W) as [->|[_ S]]; [constructor|]. destruct (h_scope h); [constructor|]. simples.
Qed.
Lemma class_type_simple h : writable o h -> Forall (fun c => simple_c c = true) (class_type o h).
Proof.
  intros W. rewrite class_type_is. pose proof (qualified_simple h W) as Q. destruct library_word as [_ L]. apply simple_all; [simples|]. apply simple_all; [simples|]. apply simple_all; [auto|].
  apply simple_all.
  - unfold other_params_text. pose proof (other_simple h W) as O. destruct (other_params o h) as [|p ps]; [constructor|]. apply simple_all; [simples|]. apply simple_join; [simples|auto].
  - apply simple_all; [|simples]. unfold shared_text. destruct (_ && _); [|constructor]. simples.
Qed.

Definition final_text (h : head) : str := if h_final h then $", " ++ lib o ++ $"::is_final()" else [].
Definition dynamic_text (h : head) : str := if cl_dynamic o (h_name h) then $", " ++ lib o ++ $"::dynamic_attr()" else [].
Definition creation_pieces : list piece :=
  [FillSpec.Text $"auto "; Hole $"pydef_class_var"; FillSpec.Text ($" =" ++ [nl]); Hole $"_i_"; Hole $"py"; FillSpec.Text $"::class_<"; Hole $"qualified_struct_name"; Hole $"other_template_params"; Hole $"maybe_shared_ptr_holder";
   FillSpec.Text $">"; Hole $"location"; FillSpec.Text [nl]; Hole $"_i_"; Hole $"_i_"; FillSpec.Text $"("; Hole $"pydef_class_var_parent"; FillSpec.Text ($", " ++ [dq]); Hole $"class_name_python"; FillSpec.Text [dq];
   Hole $"maybe_py_is_final"; Hole $"maybe_py_is_dynamic"; FillSpec.Text ($", " ++ [dq]); Hole $"comment"; FillSpec.Text ([dq] ++ $")")].
Lemma creation_template_pieces : creation_template = render creation_pieces.
Proof. reflexivity. Qed.
Lemma creation_name_is k : smem k creation_names = true -> is_name k.
Proof. intros H. apply smem_In in H. pose proof (names_ok creation_names eq_refl) as F. rewrite Forall_forall in F. auto. Qed.
Lemma creation_pieces_ok : Forall (piece_ok creation_names) creation_pieces.
Proof. unfold creation_pieces. repeat (apply Forall_cons; [first [apply creation_name_is; reflexivity|apply neutralb_true; reflexivity]|]); constructor. Qed.

Lemma fill_none d : map (fill (d : list (str * str))) [] = [].
Proof. reflexivity. Qed.
(** Filling a template without optional parts, whose text ends so that no comma is cut. *)
Lemma fill_plain K t ps d out : t = render ps -> Forall (piece_ok K) ps -> incl (map fst d) K -> Forall is_name (map fst d) -> Forall (neutral K) (map snd d) ->
  In $"maybe_comma" K -> map (fill1 $"maybe_comma" $", ") (map (fill d) ps) = map FillSpec.Text out ->
  endswith $", " (concat out) = false -> endswith $", );" (concat out) = false -> endswith $", )" (concat out) = false ->
  process_code_template t d [] true = concat out.
Proof.
  intros -> O I N V M E E1 E2 E3. unfold process_code_template. rewrite (fill_all K) by auto. cbv zeta. unfold replace_in_string_remove_line_if_none. cbn [fold_left].
  unfold settle_commas. rewrite (replace_render K); auto; [|split; cbn; intuition discriminate|apply fill_ok; auto].
  rewrite E. assert (R : render (map FillSpec.Text out) = concat out) by (unfold render; rewrite map_map; cbn [written]; rewrite map_id; reflexivity).
  rewrite R, E1, E2, E3. reflexivity.
Qed.
Definition variable_words (roots : list str) (sc : list part) (h : head) : Prop :=
  word (class_var roots (sc ++ [ClassPart (h_name h)]) (h_params h)) /\ word (parent_var roots sc).
Lemma word_neutral K s : word s -> neutral K s.
Proof. intros [_ F]. apply simple_neutral, word_simple, F. Qed.
Lemma creation_is sc h : writable o h -> variable_words (cl_roots o) sc h ->
  creation_text o sc h = concat [$"auto "; class_var (cl_roots o) (sc ++ [ClassPart (h_name h)]) (h_params h); $" =" ++ [nl]; cl_indent o; lib o; $"::class_<"; qualified_special h; other_params_text o h;
    shared_text h; $">"; h_location h; [nl]; cl_indent o; cl_indent o; $"("; parent_var (cl_roots o) sc; $", " ++ [dq]; h_python h; [dq]; final_text h; dynamic_text h; $", " ++ [dq]; class_doc o h; [dq] ++ $")"].
Proof.
  intros W [V P]. unfold creation_text. pose proof (qualified_simple h W) as Q. pose proof library_word as L.
  assert (Nn : neutral creation_names []) by (intros a b k E; destruct a; discriminate).
  apply (fill_plain creation_names _ creation_pieces).
  - exact creation_template_pieces.
  - exact creation_pieces_ok.
  - apply smem_incl. reflexivity.
  - apply names_ok. reflexivity.
  - unfold creation_values. cbn [map snd]. repeat (apply Forall_cons; [|]); [..|apply Forall_nil].
    + apply word_neutral; auto.
    + apply no_brace_neutral. intros I. rewrite Forall_forall in indent. apply indent in I. discriminate.
    + apply word_neutral; auto.
    + apply simple_neutral; auto.
    + apply simple_neutral. unfold other_params_text. pose proof (other_simple h W) as O. destruct (other_params o h) as [|p ps]; [constructor|]. apply simple_all; [simples|]. apply simple_join; [simples|auto].
    + destruct (wr_location o h W) as [->|(n & r & -> & _ & B)]; [exact Nn|]. apply no_brace_neutral. rewrite !in_app_iff. intros [I|[I|I]]; auto.
      * pose proof (spaces_all n) as S. rewrite Forall_forall in S. apply S in I. discriminate.
      * cbn in I. intuition discriminate.
    + apply word_neutral. apply (wr_python o h W).
    + apply word_neutral; auto.
    + destruct (h_final h); [|exact Nn]. apply no_brace_neutral. unfold lib. destruct (cl_nanobind o); cbn; intuition discriminate.
    + destruct (cl_dynamic o (h_name h)); [|exact Nn]. apply no_brace_neutral. unfold lib. destruct (cl_nanobind o); cbn; intuition discriminate.
    + apply (wr_doc o h W).
    + apply simple_neutral. change (Forall (fun c => simple_c c = true) (shared_text h)). unfold shared_text. destruct (_ && _); [|constructor]. simples.
  - cbn; tauto.
  - reflexivity.
  - cbn [concat]. rewrite app_nil_r, !app_assoc. exact (endswith_snoc $"," " " _ ")").
  - cbn [concat]. rewrite app_nil_r, !app_assoc. exact (endswith_snoc $", )" ";" _ ")").
  - cbn [concat]. rewrite app_nil_r. change ([dq] ++ $")") with ([dq] ++ [")"%char]). rewrite !app_assoc. rewrite (endswith_snoc $", " ")" _ ")" : endswith $", )" _ = _).
    rewrite (endswith_snoc $"," " " _ dq : endswith $", " (_ ++ [dq]) = _). reflexivity.
Qed.
End Creation.
