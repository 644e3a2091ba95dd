From Verif Require Import PyStr PyStrLemmas PyDict RegionsModel TextModel TextSpec TextProofs CommentModel CommentSpec FillModel FillSpec FillProofs FillProofs2 FillProofs3 FillProofs4
  LambdaTextSpec LambdaTextProofs ModuleModel TypeTextModel NamedModel NamedProofs3 EnumModel EnumSpec EnumProofs EnumProofs2 EnumProofs3 CommentProofs3 CommentProofs4 ClassModel ClassSpec ClassProofs ClassProofs2 ClassProofs3 ClassProofs5
  GlueModel GlueSpec GlueProofs GlueProofs2 PimplModel PimplSpec PimplProofs PimplProofs2 PimplProofs3.
Local Notation K := pimpl_names.
Local Notation T := FillSpec.Text.
Local Notation H := FillSpec.Hole.
Ltac pieces := repeat (apply Forall_cons; [first [apply pimpl_name; reflexivity|apply neutralb_true; reflexivity]|]); apply Forall_nil.

(** ** The declarations *)

Definition decl_out (front : list str) (params const eol : str) : list str := front ++ [$"("; params; $")"; const; $";"; eol].
Lemma decl_kept front ps (const : bool) e : Forall good_param ps -> good_eol e ->
  kept (concat (decl_out front (params_code ps) (if const then $" const" else []) (eol_comment_code e))).
Proof.
  intros P G. unfold decl_out. rewrite concat_app. cbn [concat]. rewrite app_nil_r. destruct (eol_good e G) as (_ & _ & [(E & _)|((a & b & E & Kb) & _)]); rewrite E.
  - rewrite app_nil_r. destruct const.
    + replace (concat front ++ $"(" ++ params_code ps ++ $")" ++ $" const" ++ $";") with ((concat front ++ $"(" ++ params_code ps ++ $")") ++ $" const;") by (rewrite <- !app_assoc; reflexivity).
      unfold kept. rewrite !ends_in. repeat split; reflexivity.
    + destruct (params_last ps P) as [->|(t & c & Ep & C)].
      * replace (concat front ++ $"(" ++ params_code [] ++ $")" ++ [] ++ $";") with (concat front ++ $"();") by reflexivity. unfold kept. rewrite !ends_in. repeat split; reflexivity.
      * rewrite Ep. replace (concat front ++ $"(" ++ (t ++ [c]) ++ $")" ++ [] ++ $";") with ((concat front ++ $"(" ++ t) ++ [c; ")"; ";"]%char) by (rewrite <- !app_assoc; reflexivity).
        unfold kept. rewrite !ends_in. split; [reflexivity|]. split; [|reflexivity]. cbn. destruct c as [[] [] [] [] [] [] [] []]; try reflexivity. exfalso. apply C. reflexivity.
  - pose proof (kept_after (concat front ++ $"(" ++ params_code ps ++ $")" ++ (if const then $" const" else []) ++ $";" ++ a) b Kb) as X. rewrite <- !app_assoc in X. exact X.
Qed.
Definition decl_line (front : str) (ps : list (str * str)) (const : bool) (e : str) : str :=
  front ++ $"(" ++ params_code ps ++ $")" ++ (if const then $" const" else []) ++ $";" ++ eol_comment_code e.
Lemma decl_line_is front ps const e : concat (decl_out front (params_code ps) (if const : bool then $" const" else []) (eol_comment_code e)) = decl_line (concat front) ps const e.
Proof. unfold decl_out, decl_line. rewrite concat_app. cbn [concat]. rewrite app_nil_r. reflexivity. Qed.

(** Lines which can be put in the class: what they declare, and what the template makes of them. *)
Definition fine (i : str) (l : str) : Prop := ~ In nl l /\ neutral K (indent_line i true l).
Lemma fine_no_brace i l : Forall (eq sp) i -> ~ In nl l -> ~ In "{"%char l -> fine i l.
Proof.
  intros I N B. split; auto. unfold indent_line. destruct l as [|c l]; [apply neutral_empty|]. apply neutral_app; [apply spaces_neutral; exact I|]. apply no_brace_neutral. intros J. apply B.
  destruct (rstrip_split (c :: l)) as (w & E & _). rewrite E, in_app_iff. auto.
Qed.
Lemma noted_fine i l : Forall (eq sp) i -> noted l -> fine i l.
Proof. intros I (w & r & _ & _ & N & B). apply fine_no_brace; auto. Qed.
Lemma decl_no_nl front ps const e : ~ In nl front -> Forall good_param ps -> good_eol e -> ~ In nl (decl_line front ps const e).
Proof.
  intros F P G. unfold decl_line. pose proof (params_line ps P) as Np. destruct (eol_good e G) as (_ & Ne & _). cbv zeta in Ne.
  assert (Nc : ~ In nl (if const : bool then $" const" else [])) by (destruct const; apply no_nl_in; reflexivity).
  repeat (apply no_app; auto; try (apply no_nl_in; reflexivity)).
Qed.
Lemma decl_fine i front ps const e : Forall (eq sp) i -> neutral K front -> ~ In nl front -> Forall good_param ps -> good_eol e -> fine i (decl_line front ps const e).
Proof.
  intros I NF F P G. split; [apply decl_no_nl; auto|]. destruct (eol_good e G) as (Be & _ & _). cbv zeta in Be. unfold decl_line.
  assert (X : exists x, neutral K x /\ front ++ $"(" ++ params_code ps ++ $")" ++ (if const then $" const" else []) ++ $";" ++ eol_comment_code e = x ++ ";"%char :: eol_comment_code e).
  { exists (front ++ $"(" ++ params_code ps ++ $")" ++ (if const then $" const" else [])). split; [|rewrite <- !app_assoc; reflexivity].
    repeat apply neutral_app; auto; try (apply neutralb_true; reflexivity); [apply params_neutral; exact P|]. destruct const; apply neutralb_true; reflexivity. }
  destruct X as (x & Nx & ->). unfold indent_line. assert (E : rstrip (x ++ ";"%char :: eol_comment_code e) = x ++ ";"%char :: rstrip (eol_comment_code e)) by (apply rstrip_keep; reflexivity).
  assert (R : neutral K (i ++ rstrip (x ++ ";"%char :: eol_comment_code e))).
  { rewrite E. apply neutral_app; [apply spaces_neutral; exact I|]. apply neutral_app; auto. apply no_brace_neutral. intros [J|J]; [discriminate|]. apply Be.
    destruct (rstrip_split (eol_comment_code e)) as (w & W & _). rewrite W, in_app_iff. auto. }
  destruct x; exact R.
Qed.
Lemma decl_lex front ps const e kf : ~ In nl front -> reads (front ++ ["("%char]) (kf ++ [Sign "("]) -> Forall good_param ps -> good_eol e ->
  line_lex (decl_line front ps const e) = kf ++ params_lex ps ++ (if const then [Word $"const"] else []) ++ [Sign ";"].
Proof.
  intros F R P G. apply line_is; [apply decl_no_nl; auto|]. unfold decl_line, params_lex. destruct (eol_good e G) as (_ & Ne & Te). cbv zeta in Ne, Te.
  replace ((front ++ $"(" ++ params_code ps ++ $")" ++ (if const then $" const" else []) ++ $";" ++ eol_comment_code e) ++ [nl])
    with ((front ++ ["("%char]) ++ (params_code ps ++ $")") ++ ((if const then $" const" else []) ++ $";") ++ (eol_comment_code e ++ [nl])) by (rewrite <- !app_assoc; reflexivity).
  replace (kf ++ ([Sign "("] ++ commas (map (fun p => read_text (fst p)) ps) ++ [Sign ")"]) ++ (if const then [Word $"const"] else []) ++ [Sign ";"])
    with ((kf ++ [Sign "("]) ++ (commas (map (fun p => read_text (fst p)) ps) ++ [Sign ")"]) ++ ((if const then [Word $"const"] else []) ++ [Sign ";"]) ++ []) by (rewrite app_nil_r, <- !app_assoc; reflexivity).
  apply reads_app; auto. apply reads_app; [apply params_reads; exact P|]. apply reads_app; [destruct const; known|]. destruct Te as [(-> & _)|(_ & (w & r & E & W))]; [known|].
  rewrite E in *. replace ((w ++ $"//" ++ r) ++ [nl]) with (w ++ $"//" ++ r ++ [nl]) by (rewrite <- !app_assoc; reflexivity). apply reads_comment; auto.
  intros I. apply Ne. rewrite !in_app_iff. auto.
Qed.

Section Header.
Variable o : poptions.
Variables impl published : str.
Hypothesis indent : Forall (eq sp) (po_indent o).
Hypothesis name_word : word impl.
Hypothesis published_word : word published.
Hypothesis member_word : word (po_member o).
Notation i := (po_indent o).

Definition method_pieces : list piece :=
  [H $"top_comment"; H $"return_type"; T $" "; H $"method_name"; T $"("; H $"params_list"; T $")"; H $"maybe_const"; T $";"; H $"maybe_eol_comment"].
Definition method_front (f : func) : str := result_text_of (f_result f) header_only ++ $" " ++ f_name f.
Lemma notes_neutral n : good_note n -> neutral K (closed_lines (notes n)).
Proof. intros G. apply no_brace_neutral, no_brace_closed, notes_brace, G. Qed.
Lemma notes_alone n : good_note n -> neutral K (unlines (notes n)).
Proof. intros G. apply no_brace_neutral, notes_unlines_brace, notes_brace, G. Qed.
Lemma eol_neutral n : good_note n -> neutral K (eol_comment_code (n_eol n)).
Proof. intros (_ & _ & G). apply no_brace_neutral. apply (eol_good _ G). Qed.
Lemma method_decl_is f : good_child (Method f) ->
  method_decl f = Some (closed_lines (notes (f_note f)) ++ decl_line (method_front f) (f_params f) (f_const f) (n_eol (f_note f))).
Proof.
  intros (R & N & P & G). unfold method_decl.
  assert (E : option_map (fun t => remove_incompatible (remove_incompatible t)) (f_result f) = option_map (without header_only) (f_result f)).
  { destruct (f_result f) as [t|]; [|reflexivity]. cbn [option_map]. f_equal. apply declared_result. apply R. }
  rewrite E, (result_known _ header_only R). f_equal. rewrite (top_above _ G), (top_alone _ G).
  change [($"top_comment", Some (unlines (notes (f_note f))))] with (map (fun kv : str * str => (fst kv, Some (snd kv))) [($"top_comment", unlines (notes (f_note f)))]). rewrite fill_both. cbn [app].
  pose proof (decl_kept [closed_lines (notes (f_note f)); result_text_of (f_result f) header_only; $" "; f_name f] (f_params f) (f_const f) (n_eol (f_note f)) P (proj2 (proj2 G))) as Kp.
  transitivity (concat (decl_out [closed_lines (notes (f_note f)); result_text_of (f_result f) header_only; $" "; f_name f] (params_code (f_params f)) (if f_const f then $" const" else []) (eol_comment_code (n_eol (f_note f))))).
  - apply (filled _ method_pieces); auto.
    + unfold method_pieces. pieces.
    + cbn [map snd]. repeat apply Forall_cons; try apply Forall_nil; auto using notes_neutral, notes_alone, eol_neutral, params_neutral, plain_neutral, result_plain.
      destruct (f_const f); apply neutralb_true; reflexivity.
  - rewrite decl_line_is. unfold decl_line, method_front. cbn [concat]. rewrite app_nil_r, <- !app_assoc. reflexivity.
Qed.
Definition ctor_decl_pieces : list piece := [H $"top_comment"; H $"class_published"; T $"("; H $"param_list"; T $")"; T $";"; H $"maybe_eol_comment"].
Lemma ctor_decl_is ps n : Forall good_param ps -> good_note n -> constructor_decl published ps n = closed_lines (notes n) ++ decl_line published ps false (n_eol n).
Proof.
  intros P G. unfold constructor_decl. rewrite (top_above _ G), (top_alone _ G).
  change [($"top_comment", Some (unlines (notes n)))] with (map (fun kv : str * str => (fst kv, Some (snd kv))) [($"top_comment", unlines (notes n))]). rewrite fill_both. cbn [app].
  pose proof (decl_kept [closed_lines (notes n); published] ps false (n_eol n) P (proj2 (proj2 G))) as Kp.
  assert (X : concat (decl_out [closed_lines (notes n); published] (params_code ps) [] (eol_comment_code (n_eol n))) = concat [closed_lines (notes n); published; $"("; params_code ps; $")"; $";"; eol_comment_code (n_eol n)]) by reflexivity.
  cbv iota in Kp. rewrite X in Kp. transitivity (concat [closed_lines (notes n); published; $"("; params_code ps; $")"; $";"; eol_comment_code (n_eol n)]).
  - apply (filled _ ctor_decl_pieces); auto.
    + unfold ctor_decl_pieces. pieces.
    + cbn [map snd]. repeat apply Forall_cons; try apply Forall_nil; auto using notes_neutral, notes_alone, eol_neutral, params_neutral, word_neutral.
  - rewrite <- X. change [] with (if false then $" const" else []) at 2. rewrite decl_line_is. unfold decl_line. cbn [concat]. rewrite app_nil_r, <- !app_assoc. reflexivity.
Qed.

(** The lines of a child. *)
Definition child_lines (c : child) : list str :=
  match c with
  | Ctor ps n => notes n ++ [decl_line published ps false (n_eol n)]
  | Method f => notes (f_note f) ++ [decl_line (method_front f) (f_params f) (f_const f) (n_eol (f_note f))]
  | Blank => [[]]
  | Remark t => lines t
  | Dtor | Rest => []
  end.
Lemma closed_app a b : closed_lines (a ++ b) = closed_lines a ++ closed_lines b.
Proof. unfold closed_lines. rewrite map_app. apply concat_app. Qed.
Lemma child_decl_is c : good_child c -> child_decl published c = Some (closed_lines (child_lines c)).
Proof.
  destruct c as [ps n|f| | |t|]; intros G; cbn [child_decl child_lines]; try reflexivity.
  - rewrite ctor_decl_is by apply G. rewrite closed_app. unfold closed_lines at 3. cbn [map concat]. rewrite app_nil_r, <- app_assoc. reflexivity.
  - rewrite (method_decl_is f G). cbn [option_map]. rewrite closed_app. unfold closed_lines at 3. cbn [map concat]. rewrite app_nil_r, <- app_assoc. reflexivity.
  - f_equal. rewrite <- unlines_closed by apply lines_nonempty. rewrite unlines_lines. reflexivity.
Qed.
Lemma front_good f : good_child (Method f) -> neutral K (method_front f) /\ ~ In nl (method_front f) /\ free (method_front f) /\
  reads (method_front f ++ ["("%char]) ((result_lex header_only (f_result f) ++ read_text (f_name f)) ++ [Sign "("]).
Proof.
  intros (R & N & _ & _). pose proof (result_plain _ header_only R) as Pr. unfold method_front. split; [|split; [|split]].
  - repeat apply neutral_app; auto using plain_neutral. apply neutralb_true. reflexivity.
  - destruct (plain_is _ Pr) as (_ & _ & A). destruct (plain_is _ N) as (_ & _ & B). repeat apply no_app; auto. apply no_nl_in. reflexivity.
  - apply free_bare. destruct (plain_is _ Pr) as (A & _). destruct (plain_is _ N) as (B & _). repeat apply bare_app; auto. apply bare_by_check. reflexivity.
  - rewrite result_lex_is. set (r := result_text_of (f_result f) header_only) in *.
    replace ((r ++ $" " ++ f_name f) ++ ["("%char]) with ((r ++ [" "%char]) ++ (f_name f ++ ["("%char])) by (rewrite <- !app_assoc; reflexivity).
    replace ((read_text r ++ read_text (f_name f)) ++ [Sign "("]) with ((read_text r ++ read_text [" "%char]) ++ (read_text (f_name f) ++ read_text ["("%char])).
    2:{ change (read_text [" "%char]) with (@nil lexeme). change (read_text ["("%char]) with [Sign "("]. rewrite app_nil_r, <- app_assoc. reflexivity. }
    apply reads_app; [apply (plain_free _ Pr); apply cuts_check; reflexivity|apply (plain_free _ N); apply cuts_check; reflexivity].
Qed.
Lemma notes_lex n : good_note n -> flat_map line_lex (notes n) = [].
Proof. intros G. induction (notes_good n G) as [|l ls L F IH]; auto. cbn [flat_map]. rewrite (noted_lex l L). exact IH. Qed.
Lemma location_noted l : location_comment l -> l = [] \/ noted l.
Proof.
  intros [->|(n & r & -> & N & B)]; auto. right. exists (spaces n), r. assert (W : Forall (fun c => is_space c = true) (spaces n)) by (apply Forall_forall; intros c I; apply repeat_spec in I; subst; reflexivity).
  split; auto. split; auto. split; intros I; rewrite !in_app_iff in I; destruct I as [I|[I|I]]; auto.
  - apply repeat_spec in I. discriminate.
  - cbn in I. intuition discriminate.
  - apply repeat_spec in I. discriminate.
  - cbn in I. intuition discriminate.
Qed.
Lemma child_lines_good c : good_child c -> Forall (fine i) (child_lines c) /\ flat_map line_lex (child_lines c) = declaration published c.
Proof.
  assert (L : forall n, good_note n -> Forall (fine i) (notes n)).
  { intros n G. eapply Forall_impl; [|exact (notes_good n G)]. intros l. apply noted_fine. exact indent. }
  destruct c as [ps n|f| | |t|]; intros G; cbn [child_lines declaration]; try solve [split; [constructor|reflexivity]].
  - destruct G as [P G]. split.
    + apply Forall_app. split; auto. constructor; [|constructor]. apply decl_fine; auto; [apply word_is; auto|apply word_is; auto|apply G].
    + rewrite flat_map_app, (notes_lex n G). cbn [flat_map app]. rewrite app_nil_r. rewrite (decl_lex published ps false (n_eol n) [Word published]); auto; [apply word_is; auto| |apply G].
      exact (word_then published "("%char published_word eq_refl eq_refl).
  - pose proof (front_good f G) as (A & B & _ & R). destruct G as (_ & _ & P & G). split.
    + apply Forall_app. split; auto. constructor; [|constructor]. apply decl_fine; auto. apply G.
    + rewrite flat_map_app, (notes_lex _ G). cbn [flat_map app]. rewrite app_nil_r. rewrite (decl_lex _ _ _ _ _ B R P (proj2 (proj2 G))). rewrite <- !app_assoc. reflexivity.
  - split; [constructor; [apply fine_no_brace; auto; intros []|constructor]|reflexivity].
  - cbn in G. induction G as [|l ls A F (IH1 & IH2)]; [split; [constructor|reflexivity]|]. cbn [flat_map]. destruct (location_noted l A) as [->|N].
    + split; [constructor; auto; apply fine_no_brace; auto; intros []|]. exact IH2.
    + split; [constructor; auto; apply noted_fine; auto|]. rewrite (noted_lex l N). exact IH2.
Qed.
End Header.
