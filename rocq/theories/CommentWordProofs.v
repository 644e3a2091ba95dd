From Verif Require Import PyStr PyDict PyStrLemmas InstanceModel InstanceSpec InstanceProofs InstanceProofs2 LiteralModel LiteralSpec LiteralProofs LiteralProofs2 CommentWordModel CommentWordSpec.

Definition fd (c : ascii) : bool := ceqb c "f" || ceqb c "d".
Definition dp (c : ascii) : bool := is_digit c || ceqb c ".".
Lemma calm_pair u x c r : dp x = true -> fd c = true -> calm (u ++ x :: c :: r) = false.
Proof. intros X C. induction u as [|d u IH]; [cbn [app calm]; fold (dp x) (fd c); rewrite X, C; reflexivity|]. cbn [app calm]. rewrite IH. apply andb_false_r. Qed.
Lemma calm_suffix u v : calm (u ++ v) = true -> calm v = true.
Proof. induction u as [|c u IH]; [auto|]. cbn [app calm]. intros H. apply andb_prop in H. apply IH. apply H. Qed.
Lemma fd_word c : fd c = true -> is_word c = true.
Proof. unfold fd. destruct (ceqb_spec c "f") as [->|]; [reflexivity|]. destruct (ceqb_spec c "d") as [->|]; [reflexivity|discriminate]. Qed.
Lemma calm_app a b : is_word_at b = false -> calm a = true -> calm b = true -> calm (a ++ b) = true.
Proof.
  intros W A B. induction a as [|c a IH]; [exact B|]. cbn [app calm] in *. apply andb_prop in A. destruct A as (A1 & A2). rewrite IH by exact A2. rewrite andb_true_r. destruct a as [|d a]; [|exact A1]. cbn [app].
  destruct b as [|d b]; [rewrite andb_false_r; reflexivity|]. cbn [is_word_at] in W. assert (F : ceqb d "f" || ceqb d "d" = false) by (destruct (ceqb d "f" || ceqb d "d") eqn:F; [apply fd_word in F; congruence|reflexivity]). rewrite F, andb_false_r. reflexivity.
Qed.

(** ** Where a number ends *)

Definition ended (b : str) : Prop := exists u x, b = u ++ [x] /\ dp x = true.
Lemma ended_app a b : ended b -> ended (a ++ b). Proof. intros (u & x & -> & X). exists (a ++ u), x. split; [apply app_assoc|exact X]. Qed.
Lemma digits_of_split s : s = digits_of s ++ skipn (length (digits_of s)) s /\ Forall (fun c => is_digit c = true) (digits_of s).
Proof. induction s as [|c s IH]; [split; [reflexivity|constructor]|]. cbn [digits_of]. destruct (is_digit c) eqn:D; [|split; [reflexivity|constructor]]. cbn [length skipn app]. destruct IH as (A & B). split; [f_equal; exact A|constructor; auto]. Qed.
Lemma digits_ended d : d <> [] -> Forall (fun c => is_digit c = true) d -> ended d.
Proof. intros N F. destruct (exists_last N) as (u & x & ->). exists u, x. split; [reflexivity|]. apply Forall_app in F. destruct F as (_ & F). apply Forall_inv in F. unfold dp. rewrite F. reflexivity. Qed.
Lemma fraction_split s : s = fraction_of s ++ skipn (length (fraction_of s)) s /\ (fraction_of s = [] \/ ended (fraction_of s)).
Proof.
  destruct s as [|c s]; [split; [reflexivity|left; reflexivity]|]. cbn [fraction_of]. destruct (ceqb c ".") eqn:P; [|split; [reflexivity|left; reflexivity]]. destruct (digits_of_split s) as (A & B). cbn [length skipn app]. split; [f_equal; exact A|]. right.
  destruct (digits_of s) as [|d ds] eqn:D; [exists [], c; split; [reflexivity|]; unfold dp; rewrite P; apply orb_true_r|]. apply (ended_app [c]). apply digits_ended; [discriminate|exact B].
Qed.
Lemma sign_split s : s = sign_of s ++ skipn (length (sign_of s)) s.
Proof. destruct s as [|c s]; [reflexivity|]. cbn [sign_of]. destruct (is_sign c); reflexivity. Qed.
Lemma prefix_skip (s a t : str) : s = a ++ t -> s = a ++ skipn (length a) s. Proof. intros ->. rewrite skip_app. reflexivity. Qed.
Lemma exponent_split s : s = exponent_of s ++ skipn (length (exponent_of s)) s /\ (exponent_of s = [] \/ ended (exponent_of s)).
Proof.
  destruct s as [|c s]; [split; [reflexivity|left; reflexivity]|]. cbn [exponent_of]. destruct (is_e c); [|split; [reflexivity|left; reflexivity]]. pose proof (sign_split s) as G. set (r := skipn (length (sign_of s)) s) in *. destruct (digits_of_split r) as (A & B).
  destruct (digits_of r) as [|d ds] eqn:D; [split; [reflexivity|left; reflexivity]|]. rewrite <- D in *. assert (E : s = (sign_of s ++ digits_of r) ++ skipn (length (digits_of r)) r) by (rewrite <- app_assoc, <- A; exact G). split.
  - cbn [length skipn app]. f_equal. apply (prefix_skip s (sign_of s ++ digits_of r) _ E).
  - right. apply (ended_app (c :: sign_of s)). apply digits_ended; [rewrite D; discriminate|exact B].
Qed.
Lemma number_split s b : number_at s = Some b -> exists c r, s = b ++ c :: r /\ ended b.
Proof.
  unfold number_at. pose proof (sign_split s) as G. set (g := sign_of s) in *. set (s1 := skipn (length g) s) in *. destruct (digits_of_split s1) as (D & DF). destruct (digits_of s1) as [|d0 ds] eqn:DD; [discriminate|]. rewrite <- DD in *. cbv zeta. set (s2 := skipn (length (digits_of s1)) s1) in *.
  destruct (fraction_split s2) as (F & FE). set (s3 := skipn (length (fraction_of s2)) s2) in *. destruct (exponent_split s3) as (E & EE). destruct (skipn (length (exponent_of s3)) s3) as [|c r] eqn:R; [discriminate|]. destruct (is_suffix c && negb (is_word_at r)); [|discriminate]. intros H. injection H as <-.
  exists c, r. split.
  - rewrite G at 1. rewrite D at 1. rewrite F at 1. rewrite E at 1. rewrite <- !app_assoc. reflexivity.
  - apply ended_app. destruct EE as [-> |EE]; [|apply ended_app; apply ended_app; exact EE]. rewrite app_nil_r. destruct FE as [-> |FE]; [|apply ended_app; exact FE]. rewrite app_nil_r. apply digits_ended; [rewrite DD; discriminate|exact DF].
Qed.
Lemma comment_split p s b n : comment_number p s = Some (b, n) -> exists u x c r, s = u ++ x :: c :: r /\ b = u ++ [x] /\ dp x = true /\ fd c = true /\ number_at s = Some b.
Proof.
  unfold comment_number, number_suffix. destruct (alnum_before p); [discriminate|]. destruct (number_at s) as [body|] eqn:N; [|discriminate]. destruct (number_split s body N) as (c & r & E & u & x & B & X). rewrite E, skip_app. destruct (ceqb c "f" || ceqb c "d") eqn:C; [|discriminate]. intros H. injection H as <- <-.
  exists u, x, c, r. split; [rewrite B, <- app_assoc; reflexivity|]. rewrite E in N. auto.
Qed.
Lemma comment_none p s : calm s = true -> comment_number p s = None.
Proof. intros C. destruct (comment_number p s) as [(b, n)|] eqn:E; [|reflexivity]. destruct (comment_split p s b n E) as (u & x & c & r & -> & _ & X & F & _). rewrite calm_pair in C by auto. discriminate. Qed.
Lemma numbers_idle s : calm s = true -> forall p, sub_with comment_number p 0 s = s.
Proof. induction s as [|c s IH]; intros C p; [reflexivity|]. cbn [sub_with]. rewrite comment_none by exact C. f_equal. apply IH. apply (calm_suffix [c]). exact C. Qed.

(** ** Words *)

Lemma words_named : named python_words. Proof. unfold named, python_words. repeat (constructor; [split; [discriminate|repeat constructor]|]). constructor. Qed.
Lemma in_python_is s : in_python s = substituted python_words s. Proof. reflexivity. Qed.
Lemma word_steps s : word_rule $"nullptr" $"None" (word_rule $"NULL" $"None" (word_rule $"void" $"None" (word_rule $"false" $"False" (word_rule $"true" $"True" s)))) = in_python s.
Proof.
  pose proof words_named as N. unfold named, python_words in N. rewrite !word_rule_is by (split; [discriminate|repeat constructor]). rewrite in_python_is. unfold python_words.
  symmetry. etransitivity; [symmetry; exact (sub_steps ($"true", $"True") [($"false", $"False"); ($"void", $"None"); ($"NULL", $"None"); ($"nullptr", $"None")] s N eq_refl)|]. apply Forall_inv_tail in N.
  etransitivity; [symmetry; exact (sub_steps ($"false", $"False") [($"void", $"None"); ($"NULL", $"None"); ($"nullptr", $"None")] _ N eq_refl)|]. apply Forall_inv_tail in N.
  etransitivity; [symmetry; exact (sub_steps ($"void", $"None") [($"NULL", $"None"); ($"nullptr", $"None")] _ N eq_refl)|]. apply Forall_inv_tail in N.
  etransitivity; [symmetry; exact (sub_steps ($"NULL", $"None") [($"nullptr", $"None")] _ N eq_refl)|]. reflexivity.
Qed.
Lemma once_is s : comment_once s = sub_with comment_number None 0 (in_python s).
Proof. unfold comment_once. rewrite word_steps. reflexivity. Qed.
Lemma argument_cases w : argument python_words w = w \/ In (argument python_words w) [$"True"; $"False"; $"None"].
Proof.
  unfold argument. destruct (find (fun p => seqb (fst p) w) python_words) as [p|] eqn:F; [|left; reflexivity]. right. apply find_some in F. destruct F as (F & _). unfold python_words in F. cbn [In] in F. repeat (destruct F as [<-|F]; [cbn; tauto|]). destruct F.
Qed.
Lemma argument_head w : name_of w -> exists c x, argument python_words w = c :: x /\ (fd c = true -> exists y, w = c :: y) /\ name_of (argument python_words w).
Proof.
  intros N. destruct (argument_cases w) as [-> |H]; [destruct w as [|c w]; [destruct N; congruence|]; exists c, w; split; [reflexivity|]; split; [eauto|exact N]|].
  cbn [In] in H. repeat (destruct H as [<-|H]; [eexists; eexists; split; [reflexivity|]; split; [discriminate|]; split; [discriminate|repeat constructor]|]). destruct H.
Qed.
Lemma calm_python s : calm s = true -> calm (in_python s) = true.
Proof.
  rewrite in_python_is. induction s as [|c r C IH|w r W R IH] using word_rect; intros H; [reflexivity| |].
  - rewrite sub_sep by (auto; apply words_named). cbn [calm] in *. apply andb_prop in H. destruct H as (H1 & H2). rewrite (IH H2), andb_true_r. destruct (is_digit c || ceqb c "."); [|reflexivity]. cbn [andb negb] in *.
    destruct (substituted python_words r) as [|d t] eqn:E; [reflexivity|]. destruct (ceqb d "f" || ceqb d "d") eqn:F; [|reflexivity]. exfalso. clear IH H2.
    revert H1 E. induction r as [|e r2 E2 _|w r2 W2 R2 _] using word_rect; [discriminate| |].
    + rewrite sub_sep by (auto; apply words_named). intros _ X. injection X as -> _. apply fd_word in F. congruence.
    + rewrite sub_word by auto. destruct (argument_head w W2) as (x & y & -> & X & _). intros H1 Z. injection Z as -> _. destruct (X F) as (z & ->). cbn [app] in H1. rewrite F in H1. discriminate.
  - rewrite sub_word by auto. pose proof (sub_head python_words r words_named R) as S. apply calm_app; [exact S| |apply IH; apply (calm_suffix w); exact H]. destruct (argument_cases w) as [-> |X].
    + clear - H R. induction w as [|c w IH]; [reflexivity|]. cbn [app calm] in *. apply andb_prop in H. destruct H as (H1 & H2). rewrite (IH H2), andb_true_r. destruct w; [rewrite andb_false_r; reflexivity|exact H1].
    + cbn [In] in X. repeat (destruct X as [<-|X]; [reflexivity|]). destruct X.
Qed.
Lemma python_sep c r : is_word c = false -> in_python (c :: r) = c :: in_python r. Proof. intros C. exact (sub_sep python_words c r C words_named). Qed.
Lemma python_word w r : name_of w -> is_word_at r = false -> in_python (w ++ r) = argument python_words w ++ in_python r. Proof. intros W R. exact (sub_word python_words w r W R). Qed.
Lemma python_head r : is_word_at r = false -> is_word_at (in_python r) = false. Proof. intros R. exact (sub_head python_words r words_named R). Qed.
Lemma python_again s : in_python (in_python s) = in_python s.
Proof.
  induction s as [|c r C IH|w r W R IH] using word_rect; [reflexivity| |].
  - rewrite (python_sep c r C), (python_sep c (in_python r) C). f_equal. exact IH.
  - rewrite (python_word w r W R). destruct (argument_head w W) as (_ & _ & _ & _ & N). rewrite (python_word _ _ N (python_head r R)), IH. f_equal. destruct (argument_cases w) as [E|X]; [rewrite !E; reflexivity|]. cbn [In] in X. repeat (destruct X as [<-|X]; [reflexivity|]). destruct X.
Qed.
Lemma two_passes s t : comment_once s = t -> comment_once t = t -> comment_replacements s = t.
Proof. intros A B. unfold comment_replacements. cbn [passes]. rewrite A. destruct (seqb_spec s t) as [E|E]; [reflexivity|]. rewrite B, seqb_refl. reflexivity. Qed.
Lemma once_python s : calm s = true -> comment_once s = in_python s.
Proof. intros C. rewrite once_is. apply numbers_idle. apply calm_python. exact C. Qed.
Lemma comment_words s : calm s = true -> comment_replacements s = in_python s.
Proof. intros C. apply two_passes; [apply once_python; exact C|]. rewrite once_python by (apply calm_python; exact C). apply python_again. Qed.

(** ** A number *)

Definition no_space (s : str) : Prop := ~ In " "%char s.
Lemma no_space_app a b : no_space a -> no_space b -> no_space (a ++ b). Proof. intros A B X. apply in_app_iff in X. destruct X; [apply A|apply B]; auto. Qed.
Lemma digits_no_space d : Forall (fun c => is_digit c = true) d -> no_space d. Proof. intros F X. rewrite Forall_forall in F. apply F in X. discriminate. Qed.
Lemma sign_no_space s : no_space (sign_of s).
Proof. destruct s as [|c s]; [intros []|]. cbn [sign_of]. destruct (is_sign c) eqn:E; [|intros []]. intros [X|[]]. subst c. discriminate. Qed.
Lemma number_no_space s b : number_at s = Some b -> no_space b.
Proof.
  unfold number_at. set (s1 := skipn (length (sign_of s)) s). pose proof (proj2 (digits_of_split s1)) as D. destruct (digits_of s1) as [|d0 ds] eqn:DD; [discriminate|]. rewrite <- DD in *. cbv zeta. set (s2 := skipn (length (digits_of s1)) s1). set (s3 := skipn (length (fraction_of s2)) s2).
  destruct (skipn (length (exponent_of s3)) s3) as [|c r]; [discriminate|]. destruct (is_suffix c && negb (is_word_at r)); [|discriminate]. intros H. injection H as <-. apply no_space_app; [apply sign_no_space|]. apply no_space_app; [apply digits_no_space; exact D|]. apply no_space_app.
  - destruct s2 as [|x t]; [intros []|]. cbn [fraction_of]. destruct (ceqb_spec x ".") as [->|]; [|intros []]. intros [X|X]; [discriminate|]. exact (digits_no_space _ (proj2 (digits_of_split t)) X).
  - destruct s3 as [|x t]; [intros []|]. cbn [exponent_of]. destruct (is_e x) eqn:E; [|intros []]. pose proof (proj2 (digits_of_split (skipn (length (sign_of t)) t))) as F. destruct (digits_of (skipn (length (sign_of t)) t)) as [|y z]; [intros []|].
    intros [X|X]; [subst x; discriminate|]. revert X. apply no_space_app; [apply sign_no_space|apply digits_no_space; exact F].
Qed.
Lemma prefix_before (z : ascii) p : forall a b r, a ++ z :: b = p ++ r -> ~ In z p -> exists t, a = p ++ t.
Proof. induction p as [|c p IH]; intros a b r E N; [exists a; reflexivity|]. destruct a as [|d a]; [cbn in E; injection E as -> _; exfalso; apply N; left; reflexivity|]. cbn in E. injection E as -> E. destruct (IH a b r E) as (t & ->); [intros X; apply N; right; exact X|]. exists t. reflexivity. Qed.
Lemma seg_skip m x r : (forall x1 x2, x = x1 ++ x2 -> x2 <> [] -> forall p, m p (x2 ++ r) = None) -> forall p, exists q, sub_with m p 0 (x ++ r) = x ++ sub_with m q 0 r.
Proof.
  induction x as [|c x IH]; intros H p; [exists p; reflexivity|]. cbn [app sub_with]. assert (N : m p (c :: x ++ r) = None) by (apply (H [] (c :: x)); [reflexivity|discriminate]). rewrite N.
  destruct (IH) with (p := Some c) as (q & Q); [|exists q; rewrite Q; reflexivity]. intros x1 x2 X NE. apply (H (c :: x1) x2); [rewrite X; reflexivity|exact NE].
Qed.
Lemma scan_one n c y p : alnum_before p = false -> n <> [] -> number_at (n ++ c :: y) = Some n -> fd c = true -> calm y = true -> sub_with comment_number p 0 (n ++ c :: y) = n ++ y.
Proof.
  intros P N A C Y. assert (M : comment_number p (n ++ c :: y) = Some (n, length n)) by (unfold comment_number, number_suffix; rewrite P, A, skip_app; unfold fd in C; rewrite C; reflexivity).
  destruct n as [|d n]; [congruence|]. cbn [app] in *. cbn [sub_with]. rewrite M. cbn [length app]. f_equal. f_equal. destruct (sub_skip comment_number (n ++ [c]) y (Some d)) as (q & Q). rewrite <- app_assoc in Q. cbn [app] in Q. rewrite app_length in Q. cbn [length] in Q. rewrite Nat.add_1_r in Q. rewrite Q. apply numbers_idle. exact Y.
Qed.
Lemma scan_comment x n c y : calm x = true -> x = [] \/ (exists x', x = x' ++ $" ") -> n <> [] -> number_at (n ++ c :: y) = Some n -> fd c = true -> calm y = true ->
  sub_with comment_number None 0 (x ++ n ++ c :: y) = x ++ n ++ y.
Proof.
  intros CX X N A C Y. destruct X as [-> |(x' & ->)]; [cbn [app]; apply (scan_one n c y None); auto|]. rewrite <- !app_assoc. set (rest := n ++ c :: y) in *. change ($" " ++ rest) with (" "%char :: rest).
  destruct (seg_skip comment_number x' (" "%char :: rest)) with (p := @None ascii) as (q & Q).
  - intros x1 x2 E NE p. destruct (comment_number p (x2 ++ " "%char :: rest)) as [(b, k)|] eqn:M; [|reflexivity]. exfalso. destruct (comment_split _ _ _ _ M) as (u & z & c' & r & S & B & Z & F & NA). pose proof (number_no_space _ _ NA) as NS.
    destruct (prefix_before " "%char (u ++ [z; c']) x2 rest r) as (t & T); [rewrite <- app_assoc; exact S| |].
    + replace (u ++ [z; c']) with (b ++ [c']) by (rewrite B, <- app_assoc; reflexivity). apply no_space_app; [exact NS|]. intros [G|[]]. subst c'. discriminate.
    + assert (K : calm (x' ++ $" ") = false); [|congruence]. rewrite E, T. rewrite <- !app_assoc. cbn [app]. rewrite app_assoc. apply calm_pair; auto.
  - rewrite Q. f_equal. cbn [sub_with]. assert (M : comment_number q (" "%char :: rest) = None) by (unfold comment_number, number_suffix; rewrite number_at_none by reflexivity; destruct (alnum_before q); reflexivity). rewrite M. change ($" " ++ n ++ y) with (" "%char :: (n ++ y)). f_equal. apply (scan_one n c y (Some " "%char)); auto.
Qed.
Lemma number_found l f e c y : is_number [] l f e (Some c) -> fd c = true -> is_word_at y = false -> number_at (number_text l f e ++ c :: y) = Some (number_text l f e) /\ number_text l f e <> [].
Proof.
  intros (_ & _ & L & F & E & _) C Y. assert (T : number_text l f e = l ++ fraction_text f ++ exponent_text e) by (unfold number_text; cbn [tok_text map concat opt app]; rewrite !app_nil_r; reflexivity). rewrite T. clear T. split; [|destruct L as (L & _); destruct l; [congruence|discriminate]].
  assert (HC : is_digit c = false /\ is_e c = false /\ ceqb c "." = false) by (unfold fd in C; destruct (ceqb_spec c "f") as [->|]; [repeat split; reflexivity|]; destruct (ceqb_spec c "d") as [->|]; [repeat split; reflexivity|discriminate]). destruct HC as (HC1 & HC2 & HC3).
  assert (XE : exponent_of (exponent_text e ++ c :: y) = exponent_text e).
  { destruct e as [((e, g), d)|]; cbn [exponent_text].
    - destruct E as (A & B & D). cbn [app exponent_of]. assert (IE : is_e e = true) by (destruct A as [-> | ->]; reflexivity). rewrite IE. rewrite <- app_assoc.
      assert (SG : sign_of (opt g ++ d ++ c :: y) = opt g) by (destruct B as [-> |[-> | ->]]; [apply (sign_digits d (c :: y) D)|reflexivity|reflexivity]). rewrite SG, skip_app, digits_of_app; [|apply D|exact HC1]. destruct d as [|x d]; [destruct D; congruence|reflexivity].
    - cbn [app exponent_of]. rewrite HC2. reflexivity. }
  assert (DA : digit_at (exponent_text e ++ c :: y) = false /\ match exponent_text e ++ c :: y with c :: _ => ceqb c "." = false | [] => True end) by (destruct e as [((e, g), d)|]; cbn [exponent_text app]; [destruct E as ([-> | ->] & _); split; reflexivity|split; assumption]).
  assert (XF : fraction_of (fraction_text f ++ exponent_text e ++ c :: y) = fraction_text f).
  { destruct f as [f|]; cbn [fraction_text app]; [cbn [fraction_of]; rewrite ceqb_refl, digits_of_app; [reflexivity|exact F|apply DA]|]. unfold fraction_of. destruct (exponent_text e ++ c :: y) as [|x s]; [reflexivity|]. destruct DA as (_ & ->). reflexivity. }
  assert (DF : digit_at (fraction_text f ++ exponent_text e ++ c :: y) = false) by (destruct f; [reflexivity|apply DA]).
  rewrite <- !app_assoc. unfold number_at. rewrite sign_digits by exact L. cbv zeta. change (skipn (length (@nil ascii)) (l ++ fraction_text f ++ exponent_text e ++ c :: y)) with (l ++ fraction_text f ++ exponent_text e ++ c :: y).
  rewrite digits_of_app; [|apply L|exact DF]. destruct l as [|c0 l0] eqn:LL; [destruct L; congruence|]. cbv beta match. rewrite <- LL in *. clear LL. rewrite skip_app, XF, skip_app, XE, skip_app.
  assert (SX : is_suffix c = true) by (unfold fd in C; unfold is_suffix; destruct (ceqb c "f"); [reflexivity|]; cbn [orb] in C; rewrite C; rewrite orb_true_r; reflexivity). rewrite SX, Y. reflexivity.
Qed.
Lemma python_app a b : is_word_at b = false -> in_python (a ++ b) = in_python a ++ in_python b. Proof. intros B. exact (sub_app python_words a b B). Qed.
Lemma python_plain s : Forall (fun c => num_char c = true) s -> in_python s = s.
Proof.
  intros F. apply (sub_none python_words s). destruct (mentions python_words s) eqn:M; [|reflexivity]. exfalso. unfold mentions in M. apply existsb_exists in M. destruct M as (k & K & M). assert (FK : foreign k); [|exact (no_piece k s FK F K)].
  assert (G : In k [$"true"; $"false"; $"void"; $"NULL"; $"nullptr"]) by (unfold smem in M; apply existsb_exists in M; destruct M as (k' & K' & M); apply seqb_true in M; subst k'; exact K'). cbn [In] in G. repeat (destruct G as [<-|G]; [first [exists "t"%char; split; [cbn; tauto|reflexivity]|exists "l"%char; split; [cbn; tauto|reflexivity]|exists "v"%char; split; [cbn; tauto|reflexivity]|exists "N"%char; split; [cbn; tauto|reflexivity]]|]). destruct G.
Qed.
Lemma calm_plain s : (forall c, In c s -> fd c = false) -> calm s = true.
Proof. induction s as [|c s IH]; intros H; [reflexivity|]. cbn [calm]. rewrite IH by (intros d D; apply H; right; exact D). rewrite andb_true_r. destruct s as [|d s]; [rewrite andb_false_r; reflexivity|]. assert (F : ceqb d "f" || ceqb d "d" = false) by (apply H; right; left; reflexivity). rewrite F, andb_false_r. reflexivity. Qed.
Lemma number_calm l f e : is_number [] l f e None -> calm (number_text l f e) = true.
Proof.
  intros (_ & _ & (_ & L) & F & E & _). apply calm_plain. intros c C. unfold number_text in C. cbn [tok_text map concat opt app] in C. rewrite app_nil_r in C. assert (DG : forall d, is_digit d = true -> fd d = false) by (intros d D; destruct (fd d) eqn:X; [|reflexivity]; unfold fd in X; destruct (ceqb_spec d "f") as [->|]; [discriminate|]; destruct (ceqb_spec d "d") as [->|]; discriminate).
  apply in_app_iff in C. destruct C as [C|C]; [rewrite Forall_forall in L; apply DG; apply L; exact C|]. unfold tail in C. apply in_app_iff in C. destruct C as [C|C].
  - destruct f as [f|]; [|destruct C]. destruct C as [<-|C]; [reflexivity|]. rewrite Forall_forall in F. apply DG. apply F. exact C.
  - destruct e as [((e, g), d)|]; [|destruct C]. destruct E as (E1 & E2 & (_ & E3)). destruct C as [<-|C]; [destruct E1 as [-> | ->]; reflexivity|]. apply in_app_iff in C. destruct C as [C|C]; [destruct E2 as [-> |[-> | ->]]; cbn in C; [destruct C|destruct C as [<-|[]]; reflexivity|destruct C as [<-|[]]; reflexivity]|].
    rewrite Forall_forall in E3. apply DG. apply E3. exact C.
Qed.
Theorem comment_with_number x l f e c y : calm x = true -> calm y = true -> x = [] \/ (exists x', x = x' ++ $" ") -> is_word_at y = false -> is_number [] l f e (Some c) -> c = "f"%char \/ c = "d"%char ->
  comment_replacements (x ++ number_text l f e ++ c :: y) = in_python x ++ number_text l f e ++ in_python y.
Proof.
  intros CX CY X Y N C. assert (FC : fd c = true) by (destruct C as [-> | ->]; reflexivity). assert (N0 : is_number [] l f e None) by (destruct N as (A & B & D & E & F & _); repeat split; auto; apply D). pose proof (number_chars [] l f e (Some c) N) as NC. pose proof (number_chars [] l f e None N0) as NC0. fold (number_text l f e) in NC0.
  assert (T : tok_text (Number [] l f e (Some c)) = number_text l f e ++ [c]) by (unfold number_text; cbn [tok_text map concat opt app]; rewrite app_nil_r, <- app_assoc; reflexivity). rewrite T in NC. pose proof (python_head y Y) as PY.
  assert (PX : in_python x = [] \/ exists x', in_python x = x' ++ $" ") by (destruct X as [-> |(x' & ->)]; [left; reflexivity|right; exists (in_python x'); rewrite python_app by reflexivity; reflexivity]).
  assert (G : forall w, Forall (fun d => num_char d = true) w -> forall z, is_word_at z = false -> in_python (x ++ w ++ z) = in_python x ++ w ++ in_python z).
  { intros w W z Z. destruct X as [-> |(x' & ->)]; [cbn [app]; rewrite python_app by exact Z; rewrite (python_plain w W); reflexivity|]. rewrite <- !app_assoc. rewrite (python_app x' ($" " ++ w ++ z)) by reflexivity. rewrite (python_app x' $" ") by reflexivity. rewrite <- app_assoc. f_equal. change ($" " ++ w ++ z) with (" "%char :: (w ++ z)). rewrite python_sep by reflexivity. rewrite (python_app w z Z), (python_plain w W). reflexivity. }
  apply two_passes.
  - rewrite once_is. assert (E : in_python (x ++ number_text l f e ++ c :: y) = in_python x ++ number_text l f e ++ c :: in_python y).
    { replace (number_text l f e ++ c :: y) with ((number_text l f e ++ [c]) ++ y) by (rewrite <- app_assoc; reflexivity). rewrite (G _ NC y Y), <- app_assoc. reflexivity. }
    rewrite E. destruct (number_found l f e c (in_python y) N FC PY) as (A & B). apply scan_comment; auto; apply calm_python; auto.
  - rewrite once_python.
    + destruct PX as [PX|(x' & PX)].
      * rewrite PX. cbn [app]. rewrite python_app by exact PY. rewrite (python_plain _ NC0), python_again. reflexivity.
      * assert (AX : in_python (in_python x) = in_python x) by apply python_again. rewrite PX in *. rewrite <- !app_assoc. rewrite (python_app x' ($" " ++ number_text l f e ++ in_python y)) by reflexivity. rewrite (python_app x' $" ") in AX by reflexivity. change (in_python $" ") with ($" ") in AX.
        apply app_inj_tail in AX. destruct AX as (AX & _). rewrite AX. f_equal. change ($" " ++ number_text l f e ++ in_python y) with (" "%char :: (number_text l f e ++ in_python y)). rewrite python_sep by reflexivity. f_equal. rewrite (python_app _ _ PY), (python_plain _ NC0), python_again. reflexivity.
    + pose proof (calm_python x CX) as KX. pose proof (calm_python y CY) as KY. assert (KN : calm (number_text l f e ++ in_python y) = true) by (apply calm_app; auto; apply number_calm; exact N0).
      destruct PX as [-> |(x' & PX)]; [exact KN|]. rewrite PX in *. rewrite <- app_assoc. apply calm_app; [reflexivity| |].
      * clear - KX. induction x' as [|d x' IH]; [reflexivity|]. cbn [app calm] in *. apply andb_prop in KX. destruct KX as (K1 & K2). rewrite (IH K2), andb_true_r. destruct x'; [rewrite andb_false_r; reflexivity|exact K1].
      * change ($" " ++ number_text l f e ++ in_python y) with (" "%char :: (number_text l f e ++ in_python y)). cbn [calm]. rewrite KN. reflexivity.
Qed.
