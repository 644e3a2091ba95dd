From Verif Require Import PyStr PyStrLemmas PyDict RegionsModel TextModel TextSpec TextProofs CommentModel CommentSpec FillModel FillSpec FillProofs NamedModel EnumModel
  EnumSpec EnumProofs EnumProofs2 CommentProofs4 CommentProofs3 ClassModel ClassSpec.
(** Reading the text of a binding. *)

(** ** Tokens *)

Lemma text_tokens_nl a b : text_tokens (a ++ nl :: b) = text_tokens a ++ text_tokens b.
Proof. unfold text_tokens. rewrite lines_render_app. apply flat_map_app. Qed.
Lemma text_tokens_line l : ~ In nl l -> text_tokens l = cpp_tokens None l ++ [Code nl].
Proof. intros N. unfold text_tokens. change (lines l) with (split_on nl l). rewrite (split_on_single nl l N). cbn [flat_map]. apply app_nil_r. Qed.

Definition toks (t : str) (ts : list token) : Prop := forall b, text_tokens (t ++ b) = ts ++ text_tokens b.
Lemma toks_nil : toks [] [].
Proof. intros b. reflexivity. Qed.
Lemma toks_app a b ta tb : toks a ta -> toks b tb -> toks (a ++ b) (ta ++ tb).
Proof. intros A B x. rewrite <- app_assoc, A, B, app_assoc. reflexivity. Qed.
Lemma toks_line l : ~ In nl l -> toks (l ++ [nl]) (cpp_tokens None l ++ [Code nl]).
Proof. intros N b. rewrite <- app_assoc. cbn [app]. rewrite text_tokens_nl, (text_tokens_line l N). reflexivity. Qed.
(** What does not depend on the rest of the line. *)
Lemma lines_first b : exists l r, lines b = l :: r /\ ~ In nl l /\ forall a, ~ In nl a -> lines (a ++ b) = (a ++ l) :: r.
Proof.
  destruct (lines b) as [|l r] eqn:E; [apply split_on_nonempty in E; tauto|]. exists l, r. split; auto.
  pose proof (lines_no_nl b) as N. rewrite E in N. inversion N; subst. split; auto. intros a Na.
  rewrite <- (unlines_lines b), E. replace (a ++ unlines (l :: r)) with (unlines ((a ++ l) :: r)) by (unfold unlines; destruct r; cbn [join]; rewrite <- ?app_assoc; reflexivity).
  apply lines_unlines; [discriminate|]. constructor; auto. rewrite in_app_iff. tauto.
Qed.
Lemma toks_lexes a ts : ~ In nl a -> lexes a ts -> toks a ts.
Proof.
  intros N L b. destruct (lines_first b) as (l & r & E & _ & A). unfold text_tokens. rewrite E, (A a N). cbn [flat_map]. rewrite (L l), <- !app_assoc. reflexivity.
Qed.
(** Text without literals and comments. *)
Definition bare (s : str) : Prop := Forall (fun c => c <> dq /\ c <> "/"%char) s.
Lemma toks_bare s : bare s -> toks s (map Code s).
Proof.
  intros F. induction F as [|c s [A B] F IH]; [exact toks_nil|]. destruct (ceqb_spec c nl) as [->|N].
  - intros b. cbn [app map]. change (nl :: s ++ b) with ([] ++ nl :: (s ++ b)). rewrite text_tokens_nl, (IH b). reflexivity.
  - change (c :: s) with ([c] ++ s). rewrite map_app. apply toks_app; auto. apply toks_lexes; [intros [E|[]]; congruence|].
    intros r. apply (lexes_code [c]). repeat constructor; auto.
Qed.
Lemma toks_literal s : closed_literal s -> toks ([dq] ++ s ++ [dq]) [Literal s].
Proof.
  intros C. apply toks_lexes.
  - rewrite !in_app_iff. intros [[E|[]]|[I|[E|[]]]]; try discriminate. exact (literal_no_nl s C I).
  - intros r. cbn [app]. change (cpp_tokens None (dq :: (s ++ [dq]) ++ r)) with (cpp_tokens (Some []) ((s ++ [dq]) ++ r)). rewrite <- app_assoc. cbn [app].
    rewrite (lexes_literal s C []). reflexivity.
Qed.
Lemma toks_comment r : ~ In nl r -> toks ($"//" ++ r ++ [nl]) [Code nl].
Proof.
  intros N. replace ($"//" ++ r ++ [nl]) with (($"//" ++ r) ++ [nl]) by (rewrite <- app_assoc; reflexivity).
  change [Code nl] with (cpp_tokens None ($"//" ++ r) ++ [Code nl]). apply toks_line. rewrite in_app_iff. intros [[E|[E|[]]]|I]; try discriminate. auto.
Qed.

(** ** Lexemes *)

Definition splits (t : token) : bool := match t with Code c => negb (is_word c) | _ => true end.
Lemma lexemes_flush ts : forall cur rest, (exists t r, rest = t :: r /\ splits t = true) -> lexemes cur (ts ++ rest) = lexemes cur ts ++ lexemes [] rest.
Proof.
  induction ts as [|t ts IH]; intros cur rest H.
  - cbn [app lexemes]. destruct H as (t & r & -> & S). destruct t as [c|s|]; cbn [lexemes flush app].
    + cbn [splits] in S. apply negb_true_iff in S. rewrite S. destruct (is_space c); reflexivity.
    + reflexivity.
    + reflexivity.
  - cbn [app lexemes]. destruct t as [c|s|].
    + destruct (is_word c); [apply IH; auto|]. destruct (is_space c); rewrite (IH [] rest H); [rewrite <- app_assoc; reflexivity|]. rewrite <- app_assoc. reflexivity.
    + rewrite (IH [] rest H), <- app_assoc. reflexivity.
    + rewrite (IH [] rest H), <- app_assoc. reflexivity.
Qed.
Lemma lexemes_after ts z : splits z = true -> forall cur rest, lexemes cur ((ts ++ [z]) ++ rest) = lexemes cur (ts ++ [z]) ++ lexemes [] rest.
Proof.
  intros S. induction ts as [|t ts IH]; intros cur rest.
  - cbn [app lexemes]. destruct z as [c|s|]; cbn [lexemes].
    + cbn [splits] in S. apply negb_true_iff in S. rewrite S. destruct (is_space c); cbn [lexemes flush]; rewrite <- app_assoc; reflexivity.
    + rewrite <- app_assoc. reflexivity.
    + rewrite <- app_assoc. reflexivity.
  - cbn [app lexemes]. destruct t as [c|s|].
    + destruct (is_word c); [apply IH|]. destruct (is_space c); rewrite (IH [] rest), <- app_assoc; reflexivity.
    + rewrite (IH [] rest), <- app_assoc. reflexivity.
    + rewrite (IH [] rest), <- app_assoc. reflexivity.
Qed.

Definition reads (t : str) (ks : list lexeme) : Prop := forall b, read_text (t ++ b) = ks ++ read_text b.
Lemma reads_nil : reads [] [].
Proof. intros b. reflexivity. Qed.
Lemma reads_app a b ka kb : reads a ka -> reads b kb -> reads (a ++ b) (ka ++ kb).
Proof. intros A B x. rewrite <- app_assoc, A, B, app_assoc. reflexivity. Qed.
Lemma reads_toks t ts z : toks t (ts ++ [z]) -> splits z = true -> reads t (lexemes [] (ts ++ [z])).
Proof. intros T S b. unfold read_text. rewrite (T b), (lexemes_after ts z S []). reflexivity. Qed.
Lemma reads_concat {A} (f : A -> str) (g : A -> list lexeme) l : (forall x, In x l -> reads (f x) (g x)) -> reads (concat (map f l)) (flat_map g l).
Proof.
  induction l as [|x l IH]; intros H; [exact reads_nil|]. cbn [map concat flat_map]. apply reads_app; [apply H; left; auto|]. apply IH. intros y I. apply H. right. auto.
Qed.

(** Line by line. *)
Definition line_lex (l : str) : list lexeme := lexemes [] (cpp_tokens None l ++ [Code nl]).
Lemma reads_line l : ~ In nl l -> reads (l ++ [nl]) (line_lex l).
Proof. intros N. apply reads_toks; [apply toks_line; auto|reflexivity]. Qed.
Lemma read_text_lines t : read_text t = flat_map line_lex (lines t).
Proof.
  unfold read_text, text_tokens. induction (lines t) as [|l ls IH]; [reflexivity|]. cbn [flat_map]. rewrite lexemes_after by reflexivity. rewrite IH. reflexivity.
Qed.
Lemma read_text_nil : read_text [] = [].
Proof. reflexivity. Qed.
Lemma reads_here t ks : reads t ks -> read_text t = ks.
Proof. intros R. specialize (R []). rewrite app_nil_r in R. rewrite R, read_text_nil. apply app_nil_r. Qed.
Lemma read_text_unlines ls : Forall (fun l => ~ In nl l) ls -> read_text (unlines ls) = flat_map line_lex ls.
Proof.
  intros N. destruct ls as [|a ls]; [reflexivity|]. rewrite read_text_lines, lines_unlines; auto. discriminate.
Qed.

(** Spaces around a line are not read. *)
Lemma open_literal k : forall w, length w <= k -> Forall (fun c => is_space c = true) w -> forall l, cpp_tokens (Some l) w = [Unclosed].
Proof.
  induction k as [|k IH]; intros w' Hk F l; destruct w' as [|c w']; try reflexivity; [cbn in Hk; lia|]. inversion F as [|? ? Hc Fw]; subst. cbn [cpp_tokens].
  destruct (ceqb_spec c bsl) as [->|_]; [discriminate|]. destruct (ceqb_spec c dq) as [->|_]; [discriminate|]. apply IH; auto. cbn in Hk. lia.
Qed.
Lemma white_tokens w : Forall (fun c => is_space c = true) w -> forall a m, (exists x, Forall (fun t => white t = true) x /\ cpp_tokens m (a ++ w) = cpp_tokens m a ++ x).
Proof.
  intros W a. remember (length a) as n eqn:L. revert a L. induction n as [n IH] using (well_founded_induction lt_wf). intros a L m. destruct a as [|c a].
  - cbn [app]. destruct m as [l|].
    + exists []. split; [constructor|]. rewrite (open_literal (length w) w (le_n _) W l). reflexivity.
    + exists (map Code w). split; [apply Forall_map; eapply Forall_impl; [|exact W]; auto|]. cbn [cpp_tokens app].
      assert (F : lexes w (map Code w)).
      { intros r. clear IH. induction W as [|c w Hc W IH]; [reflexivity|]. cbn [app map]. rewrite tokens_code, IH; auto; intros ->; discriminate. }
      specialize (F []). rewrite !app_nil_r in F. exact F.
  - subst n. destruct m as [l|]; cbn [app cpp_tokens].
    + destruct (ceqb c bsl) eqn:Eb.
      * destruct a as [|d a].
        -- cbn [app]. destruct w as [|d w]; [exists []; split; [constructor|reflexivity]|]. exists []. split; [constructor|].
           inversion W as [|? ? Hd Ww]; subst. rewrite (open_literal (length w) w (le_n _) Ww). reflexivity.
        -- cbn [app]. apply (IH (length a) ltac:(cbn; lia) a eq_refl).
      * destruct (ceqb c dq).
        -- destruct (IH (length a) ltac:(cbn; lia) a eq_refl None) as (x & Fx & Ex). exists x. split; auto. cbn [app]. rewrite Ex. reflexivity.
        -- apply (IH (length a) ltac:(cbn; lia) a eq_refl).
    + destruct (ceqb c dq); [apply (IH (length a) ltac:(cbn; lia) a eq_refl)|].
      assert (S : startswith $"//" (c :: a ++ w) = startswith $"//" (c :: a)).
      { destruct a as [|d a]; [|reflexivity]. cbn [app]. destruct w as [|d w]; [reflexivity|]. inversion W; subst. cbn [startswith lit list_ascii_of_string]. destruct (ceqb "/" c); auto. cbn [andb]. destruct (ceqb_spec "/"%char d) as [<-|_]; [discriminate|reflexivity]. }
      rewrite S. destruct (startswith $"//" (c :: a)).
      * exists []. split; [constructor|reflexivity].
      * destruct (IH (length a) ltac:(cbn; lia) a eq_refl None) as (x & Fx & Ex). exists x. split; auto. cbn [app]. rewrite Ex. reflexivity.
Qed.
Lemma lexemes_white x : Forall (fun t => white t = true) x -> forall rest, lexemes [] (x ++ rest) = lexemes [] rest.
Proof.
  intros F. induction F as [|t x H F IH]; intros rest; [reflexivity|]. destruct t as [c|s|]; try discriminate. cbn [white] in H. cbn [app lexemes].
  destruct (is_word c) eqn:W; [rewrite (word_not_space c W) in H; discriminate|]. rewrite H. cbn [flush app]. apply IH.
Qed.
Lemma white_nl x : Forall (fun t => white t = true) x -> exists t r, x ++ [Code nl] = t :: r /\ splits t = true.
Proof.
  intros F. destruct F as [|t x H F]; [exists (Code nl), []; auto|]. exists t, (x ++ [Code nl]). split; auto. destruct t as [c|s|]; auto. cbn in *.
  destruct (is_word c) eqn:W; auto. rewrite (word_not_space c W) in H. discriminate.
Qed.
Lemma line_lex_right a w : Forall (fun c => is_space c = true) w -> line_lex (a ++ w) = line_lex a.
Proof.
  intros W. unfold line_lex. destruct (white_tokens w W a None) as (x & Fx & E). rewrite E, <- app_assoc.
  rewrite (lexemes_flush (cpp_tokens None a) [] (x ++ [Code nl]) (white_nl x Fx)), (lexemes_white x Fx).
  rewrite (lexemes_flush (cpp_tokens None a) [] [Code nl]); [reflexivity|]. exists (Code nl), []. auto.
Qed.
Lemma line_lex_left i a : Forall (eq sp) i -> line_lex (i ++ a) = line_lex a.
Proof.
  intros F. unfold line_lex. rewrite (tokens_spaces i a F), <- app_assoc. apply lexemes_white. apply Forall_map. eapply Forall_impl; [|exact F]. intros c <-. reflexivity.
Qed.
Lemma line_lex_indent i l : Forall (eq sp) i -> line_lex (indent_line i true l) = line_lex l.
Proof.
  intros F. unfold indent_line. destruct l as [|c l]; [reflexivity|]. rewrite (line_lex_left i _ F). destruct (rstrip_split (c :: l)) as (w & E & W).
  rewrite E at 2. symmetry. apply line_lex_right. exact W.
Qed.
Lemma unlines_close ls : ls <> [] -> unlines (ls ++ [[]]) = concat (map (fun l => l ++ [nl]) ls).
Proof.
  induction ls as [|x ls IH]; [congruence|]. intros _. destruct ls as [|y ls]; [cbn [app map concat]; rewrite app_nil_r; reflexivity|].
  specialize (IH ltac:(discriminate)). change (unlines ((x :: y :: ls) ++ [[]])) with (x ++ [nl] ++ unlines ((y :: ls) ++ [[]])). rewrite IH.
  cbn [map concat]. rewrite <- !app_assoc. reflexivity.
Qed.
Lemma reads_indented i t : Forall (eq sp) i -> t = [] \/ (exists s, t = s ++ [nl]) -> reads (indent_code_str i true t) (read_text t).
Proof.
  intros F [->|(s & ->)]; [exact reads_nil|]. unfold indent_code_str. change (s ++ [nl]) with (s ++ nl :: []). rewrite lines_render_app.
  pose proof (lines_no_nl s) as N. assert (E : read_text (s ++ nl :: []) = flat_map line_lex (lines s)).
  { unfold read_text. rewrite text_tokens_nl. change (text_tokens []) with [Code nl]. unfold text_tokens.
    assert (L : forall ls, lexemes [] (flat_map (fun l => cpp_tokens None l ++ [Code nl]) ls ++ [Code nl]) = flat_map line_lex ls).
    { induction ls as [|l ls IH]; [reflexivity|]. cbn [flat_map]. rewrite <- app_assoc, lexemes_after by reflexivity. rewrite IH. reflexivity. }
    apply L. }
  rewrite E. rewrite map_app. cbn [lines split_on map]. clear E. revert N. destruct (lines s) as [|a ls]; [intros _; exact reads_nil|].
  intros N. assert (J : unlines (map (indent_line i true) (a :: ls) ++ [[]]) = concat (map (fun l => indent_line i true l ++ [nl]) (a :: ls))).
  { rewrite unlines_close by discriminate. rewrite map_map. reflexivity. }
  refine (eq_ind_r (fun t => reads t _) _ J). apply reads_concat. intros l I. rewrite <- (line_lex_indent i l F). apply reads_line.
  rewrite Forall_forall in N. specialize (N l I). unfold indent_line. destruct l as [|c l]; auto. rewrite in_app_iff. intros [K|K]; [exact (sp_no_nl i F K)|].
  revert K. apply rstrip_no_nl. auto.
Qed.
