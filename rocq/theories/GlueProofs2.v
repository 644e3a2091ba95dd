From Verif Require Import PyStr PyStrLemmas PyDict RegionsModel TextModel TextSpec TextProofs CommentModel CommentSpec FillModel FillSpec FillProofs FillProofs2 FillProofs3 FillProofs4
  LambdaTextSpec LambdaTextProofs NamedModel NamedProofs3 EnumModel EnumSpec EnumProofs EnumProofs2 EnumProofs3 CommentProofs3 CommentProofs4 ClassModel ClassSpec ClassProofs ClassProofs2 ClassProofs3 ClassProofs5
  GlueModel GlueSpec GlueProofs.
(** Reading the text of the glue code. *)

(** ** Lines *)

Lemma line_read l : ~ In nl l -> line_lex l = read_text l.
Proof. intros N. pose proof (read_text_unlines [l] (Forall_cons l N (Forall_nil _))) as R. rewrite unlines_single in R. rewrite R. cbn. rewrite app_nil_r. reflexivity. Qed.
Lemma line_is l ks : ~ In nl l -> reads (l ++ [nl]) ks -> line_lex l = ks.
Proof. intros N R. rewrite (line_read l N). rewrite <- (reads_here _ _ (reads_end l)). exact (reads_here _ _ R). Qed.
(** A text which is not ended, followed by a sign. *)
Definition cuts (c : ascii) : Prop := is_word c = false /\ c <> dq /\ c <> "/"%char.
Definition free (t : str) : Prop := forall c, cuts c -> reads (t ++ [c]) (read_text t ++ read_text [c]).
Lemma free_bare t : bare t -> free t.
Proof. intros B c (C & D & E). apply reads_then; auto. constructor; [auto|constructor]. Qed.
Lemma free_word t : word t -> free t.
Proof. intros W. apply free_bare, bare_word, W. Qed.
Lemma free_toks t ts : toks t ts -> free t.
Proof.
  intros H c (C & D & E). assert (B : bare [c]) by (constructor; [auto|constructor]). pose proof (toks_app _ _ _ _ H (toks_bare [c] B)) as A.
  pose proof (reads_toks _ ts (Code c) A) as R. cbn [splits] in R. rewrite C in R. specialize (R eq_refl).
  rewrite lexemes_flush in R by (exists (Code c), []; split; auto; cbn; rewrite C; auto).
  assert (X : read_text t = lexemes [] ts).
  { unfold read_text. pose proof (H []) as P. rewrite app_nil_r in P. rewrite P. change (text_tokens []) with [Code nl]. rewrite lexemes_flush by (exists (Code nl), []; auto). cbn. apply app_nil_r. }
  rewrite X, (read_bare [c] B). exact R.
Qed.
Lemma cpp_written t : cpp_text t -> exists ps, t = written ps /\ Forall piece_fits ps.
Proof. intros (ps & -> & F). exists ps. split; auto. unfold written. rewrite flat_map_concat_map. reflexivity. Qed.
Lemma cpp_free t : cpp_text t -> free t.
Proof. intros C. destruct (cpp_written t C) as (ps & -> & F). apply (free_toks _ (pieces ps)). apply toks_lexes; [apply written_no_nl; auto|apply lexes_pieces; auto]. Qed.
Lemma cuts_check c : negb (is_word c) && negb (ceqb c dq) && negb (ceqb c "/") = true -> cuts c.
Proof. intros H. apply andb_prop in H. destruct H as [H A]. apply andb_prop in H. destruct H as [H B]. unfold cuts. destruct (is_word c); [discriminate|]. destruct (ceqb_spec c dq), (ceqb_spec c "/"%char); try discriminate. auto. Qed.
(** A text, then a known text which begins with a sign. *)
Lemma free_then t c s ks : free t -> cuts c -> reads ([c] ++ s) ks -> reads (t ++ [c] ++ s) (read_text t ++ ks).
Proof.
  intros F C R b. pose proof (F c C) as A. rewrite <- app_assoc. cbn [app]. specialize (A (s ++ b)). rewrite <- app_assoc in A. cbn [app] in A. rewrite A, <- app_assoc. rewrite <- app_assoc. f_equal.
  specialize (R b). cbn [app] in R. rewrite <- R. assert (B : bare [c]) by (constructor; [destruct C as (_ & D & E); auto|constructor]).
  pose proof (reads_then [] c (Forall_nil _) B (proj1 C) (s ++ b)) as X. cbn [app] in X. rewrite X. reflexivity.
Qed.

(** Parameters. *)
Lemma params_read (ps : list str) : Forall cpp_text ps -> reads (join $", " ps ++ $")") (commas (map read_text ps) ++ [Sign ")"]).
Proof.
  intros F. induction F as [|p ps P F IH]; [known|]. destruct ps as [|q ps].
  - exact (cpp_free p P ")"%char (cuts_check ")" eq_refl)).
  - change (join $", " (p :: q :: ps)) with (p ++ $", " ++ join $", " (q :: ps)).
    change (commas (map read_text (p :: q :: ps))) with (read_text p ++ Sign "," :: commas (map read_text (q :: ps))).
    replace ((p ++ $", " ++ join $", " (q :: ps)) ++ $")") with ((p ++ [","%char]) ++ [" "%char] ++ (join $", " (q :: ps) ++ $")")) by (rewrite <- !app_assoc; reflexivity).
    replace ((read_text p ++ Sign "," :: commas (map read_text (q :: ps))) ++ [Sign ")"]) with ((read_text p ++ [Sign ","]) ++ [] ++ (commas (map read_text (q :: ps)) ++ [Sign ")"])) by (rewrite <- !app_assoc; reflexivity).
    apply reads_app; [exact (cpp_free p P ","%char (cuts_check "," eq_refl))|]. apply reads_app; [known|exact IH].
Qed.
Lemma names_read (ps : list str) c : Forall word ps -> ps <> [] -> cuts c -> reads (join $", " ps ++ [c]) (commas (map (fun p => [Word p]) ps) ++ read_text [c]).
Proof.
  intros F N C. induction F as [|p ps P F IH]; [congruence|]. destruct ps as [|q ps].
  - cbn [join map commas]. rewrite <- (read_word p P). exact (free_word p P c C).
  - change (join $", " (p :: q :: ps)) with (p ++ $", " ++ join $", " (q :: ps)).
    change (commas (map (fun p => [Word p]) (p :: q :: ps))) with ([Word p] ++ Sign "," :: commas (map (fun p => [Word p]) (q :: ps))).
    replace ((p ++ $", " ++ join $", " (q :: ps)) ++ [c]) with ((p ++ [","%char]) ++ [" "%char] ++ (join $", " (q :: ps) ++ [c])) by (rewrite <- !app_assoc; reflexivity).
    rewrite <- (read_word p P).
    replace ((read_text p ++ Sign "," :: commas (map (fun p => [Word p]) (q :: ps))) ++ read_text [c]) with ((read_text p ++ [Sign ","]) ++ [] ++ (commas (map (fun p => [Word p]) (q :: ps)) ++ read_text [c])) by (rewrite <- !app_assoc; reflexivity).
    apply reads_app; [exact (free_word p P ","%char (cuts_check "," eq_refl))|]. apply reads_app; [known|]. apply IH. discriminate.
Qed.

Section Lines.
Variable o : glue_env.
Hypothesis indent : Forall (eq sp) (ge_indent o).
Notation i := (ge_indent o).
Lemma indent_reads : reads i [].
Proof. apply reads_white, space_eq, indent. Qed.
Definition header_lex (m : vmethod) : list lexeme :=
  read_text (v_return m) ++ [Word (v_name m)] ++ [Sign "("] ++ commas (map (fun p => read_text (fst p)) (v_params m)) ++ [Sign ")"] ++
     (if v_const m then [Word $"const"] else []) ++ [Word $"override"].
Definition arguments_lex (implemented : str) (m : vmethod) : list (list lexeme) :=
  (if ge_nanobind o then [] else [read_text (v_return m); read_text implemented]) ++ [[Str (v_python m)]; [Word (v_name m)]] ++ map (fun p => [Word (snd p)]) (v_params m).
Lemma params_cpp m : good_method m -> Forall cpp_text (map fst (v_params m)).
Proof. intros G. apply Forall_map. eapply Forall_impl; [|exact (gm_params m G)]. intros p (C & _). exact C. Qed.
Lemma return_free m : good_method m -> free (v_return m).
Proof. intros G. apply free_bare, simple_bare. exact (proj2 (proj1 (gm_return m G))). Qed.
Lemma comment_reads c : ~ In nl c -> reads ($" // " ++ c ++ [nl]) [].
Proof. intros N. change ($" // " ++ c ++ [nl]) with ([" "%char] ++ $"//" ++ ($" " ++ c) ++ [nl]). apply reads_comment; [repeat constructor|]. intros [E|E]; [discriminate|]. exact (N E). Qed.
Lemma header_read m : good_method m -> reads (concat [v_return m; $" "; v_name m; $"("; join $", " (map fst (v_params m)); $")"; const_text m; $" override"] ++ [nl]) (header_lex m).
Proof.
  intros G. replace (concat [v_return m; $" "; v_name m; $"("; join $", " (map fst (v_params m)); $")"; const_text m; $" override"] ++ [nl])
    with ((v_return m ++ [" "%char]) ++ (v_name m ++ ["("%char]) ++ (join $", " (map fst (v_params m)) ++ $")") ++ (const_text m ++ $" override" ++ [nl]))
    by (cbn [concat]; rewrite <- !app_assoc; reflexivity).
  replace (header_lex m) with ((read_text (v_return m) ++ read_text [" "%char]) ++ (Word (v_name m) :: read_text ["("%char]) ++ (commas (map read_text (map fst (v_params m))) ++ [Sign ")"]) ++
    ((if v_const m then [Word $"const"] else []) ++ [Word $"override"])).
  2:{ unfold header_lex. rewrite map_map. change (read_text [" "%char]) with (@nil lexeme). rewrite app_nil_r, <- !app_assoc. reflexivity. }
  apply reads_app; [apply (return_free m G); apply cuts_check; reflexivity|]. apply reads_app; [apply reads_word; [exact (gm_name m G)|repeat constructor; discriminate|reflexivity]|].
  apply reads_app; [exact (params_read _ (params_cpp m G))|]. unfold const_text. destruct (v_const m); known.
Qed.
Definition body_lex (implemented : str) (m : vmethod) : list lexeme :=
  [Word (override_macro o m); Sign "("] ++ commas (arguments_lex implemented m) ++ [Sign ")"; Sign ";"].
Lemma no_app c (a b : str) : ~ In c a -> ~ In c b -> ~ In c (a ++ b).
Proof. rewrite in_app_iff. tauto. Qed.
Ltac nonl := repeat first [assumption|apply no_nl_in; reflexivity|apply no_app].
Lemma stripped a ks : ~ In nl a -> reads (a ++ [nl]) ks -> line_lex (i ++ i ++ a) = ks.
Proof. intros N R. rewrite !line_lex_left by exact indent. apply line_is; auto. Qed.
Lemma argument_line a c : free a -> ~ In nl a -> ~ In nl c -> line_lex (concat [i; i; a; $", // " ++ c]) = read_text a ++ [Sign ","].
Proof.
  intros F Na Nc. cbn [concat]. rewrite app_nil_r. apply stripped; [nonl|].
  replace ((a ++ $", // " ++ c) ++ [nl]) with ((a ++ [","%char]) ++ ($" // " ++ c ++ [nl])) by (rewrite <- !app_assoc; reflexivity).
  replace (read_text a ++ [Sign ","]) with ((read_text a ++ read_text [","%char]) ++ []) by (rewrite app_nil_r; reflexivity). apply reads_app; [|apply comment_reads; auto].
  apply F. apply cuts_check. reflexivity.
Qed.
Lemma last_line a c : free a -> ~ In nl a -> ~ In nl c -> line_lex (concat [i; i; a; $" // " ++ c]) = read_text a.
Proof.
  intros F Na Nc. cbn [concat]. rewrite app_nil_r. apply stripped; [nonl|].
  replace ((a ++ $" // " ++ c) ++ [nl]) with ((a ++ [" "%char]) ++ ($"//" ++ ($" " ++ c) ++ [nl])) by (rewrite <- !app_assoc; reflexivity).
  replace (read_text a) with ((read_text a ++ read_text [" "%char]) ++ []) by (rewrite app_nil_r; change (read_text [" "%char]) with (@nil lexeme); apply app_nil_r).
  apply reads_app; [apply F, cuts_check; reflexivity|]. apply (reads_comment []); [constructor|]. nonl.
Qed.
Lemma commas_app a b : a <> [] -> b <> [] -> commas (a ++ b) = commas a ++ Sign "," :: commas b.
Proof.
  induction a as [|x a IH]; [congruence|]. intros _ B. destruct a as [|y a].
  - destruct b; [congruence|reflexivity].
  - change (commas ((x :: y :: a) ++ b)) with (x ++ Sign "," :: commas ((y :: a) ++ b)). rewrite IH by (auto; discriminate). cbn [commas]. rewrite <- app_assoc. reflexivity.
Qed.
Lemma names_lex ps : Forall word ps -> ps <> [] -> line_lex (concat [i; i; join $", " ps; $" // params"]) = commas (map (fun p => [Word p]) ps).
Proof.
  intros F N. cbn [concat]. rewrite app_nil_r. apply stripped.
  - apply no_app; [|apply no_nl_in; reflexivity]. apply join_not_in; [apply no_nl_in; reflexivity|]. eapply Forall_impl; [|exact F]. intros p W. apply simple_no_nl, word_simple, W.
  - replace ((join $", " ps ++ $" // params") ++ [nl]) with ((join $", " ps ++ [" "%char]) ++ ($"//" ++ $" params" ++ [nl])) by (rewrite <- !app_assoc; reflexivity).
    rewrite <- (app_nil_r (commas _)). rewrite <- (app_nil_r (_ ++ [])). apply reads_app; [exact (names_read ps " " F N (cuts_check " " eq_refl))|]. apply (reads_comment []); [constructor|]. apply no_nl_in. reflexivity.
Qed.
Lemma method_lex (implemented : str) (m : vmethod) : good_method m -> Forall (fun c => simple_c c = true) implemented ->
  flat_map line_lex (method_lines o implemented m) = header_lex m ++ Sign "{" :: body_lex implemented m ++ [Sign "}"].
Proof.
  intros G I. pose proof (method_plain o indent implemented m (conj (simple_neutral _ _ I) (simple_no_nl _ I)) G) as P.
  pose proof (proj2 (word_fits _ (gm_name m G))) as Nn. pose proof (proj2 (word_fits _ (gm_python m G))) as Ny. pose proof (proj2 (word_fits _ (macro_word o m))) as Nm. pose proof (proj2 (return_fits m G)) as Nr.
  assert (E1 := line_is _ _ (proj2 (Forall_inv P)) (header_read m G)). clear P.
  assert (E2 : line_lex (concat [i; override_macro o m; $"("]) = [Word (override_macro o m); Sign "("]).
  { cbn [concat]. rewrite line_lex_left, app_nil_r by exact indent. apply line_is; [nonl|]. rewrite <- (app_nil_r [Word _; _]). apply reads_app; [|known].
    apply (reads_word (override_macro o m) "("%char); [apply macro_word|repeat constructor; discriminate|reflexivity]. }
  assert (E3 : line_lex (concat [i; i; v_return m; $", // return type"]) = read_text (v_return m) ++ [Sign ","]) by exact (argument_line (v_return m) $"return type" (return_free m G) Nr ltac:(apply no_nl_in; reflexivity)).
  assert (E4 : line_lex (concat [i; i; implemented; $", // parent class"]) = read_text implemented ++ [Sign ","]) by exact (argument_line implemented $"parent class" (free_bare _ (simple_bare _ I)) (simple_no_nl _ I) ltac:(apply no_nl_in; reflexivity)).
  assert (E5 : line_lex (concat [i; i; [dq]; v_python m; [dq] ++ $", // function name (python)"]) = [Str (v_python m); Sign ","]).
  { cbn [concat]. rewrite app_nil_r. apply stripped; [nonl|].
    replace (([dq] ++ v_python m ++ [dq] ++ $", // function name (python)") ++ [nl]) with (([dq] ++ v_python m ++ [dq]) ++ ($", // function name (python)" ++ [nl])) by (rewrite <- !app_assoc; reflexivity).
    apply (reads_app _ _ [_] [_]); [apply reads_literal, word_literal, (gm_python m G)|]. change ($", // function name (python)" ++ [nl]) with ([","%char] ++ ($" // " ++ $"function name (python)" ++ [nl])).
    apply (reads_app _ _ [_] []); [known|apply comment_reads, no_nl_in; reflexivity]. }
  assert (E6 : line_lex (concat [i; i; v_name m; $", // function name (c++)"]) = read_text (v_name m) ++ [Sign ","]) by exact (argument_line (v_name m) $"function name (c++)" (free_word _ (gm_name m G)) Nn ltac:(apply no_nl_in; reflexivity)).
  assert (E7 : line_lex (concat [i; i; v_name m; $" // function name (c++)"]) = read_text (v_name m)) by exact (last_line (v_name m) $"function name (c++)" (free_word _ (gm_name m G)) Nn ltac:(apply no_nl_in; reflexivity)).
  assert (E9 : line_lex (concat [i; $");"]) = [Sign ")"; Sign ";"]) by (cbn [concat]; rewrite line_lex_left by exact indent; reflexivity).
  assert (W : Forall word (map snd (v_params m))) by (apply Forall_map; eapply Forall_impl; [|exact (gm_params m G)]; intros p (_ & _ & _ & X); exact X).
  assert (E8 := names_lex _ W). rewrite (read_word _ (gm_name m G)) in E6, E7.
  assert (E0 : line_lex $"{" = [Sign "{"]) by reflexivity. assert (EZ : line_lex $"}" = [Sign "}"]) by reflexivity.
  cbn [app] in E5. unfold method_lines, body_lex, arguments_lex, comma_text. destruct (v_params m) as [|p ps]; destruct (ge_nanobind o); cbn [flat_map app].
  all: rewrite E0, E1, E2, E5, E9, EZ, ?E3, ?E4.
  1,2: change (concat [i; i; v_name m; []; $" // function name (c++)"]) with (concat [i; i; v_name m; $" // function name (c++)"]); rewrite E7.
  3,4: rewrite E8 by discriminate; change (concat [i; i; v_name m; $","; $" // function name (c++)"]) with (concat [i; i; v_name m; $", // function name (c++)"]); rewrite E6.
  all: rewrite ?map_map; cbn [map app commas]; repeat (rewrite <- ?app_assoc; cbn [app]); rewrite ?app_nil_r; reflexivity.
Qed.
End Lines.
