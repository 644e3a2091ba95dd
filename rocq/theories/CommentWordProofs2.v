From Verif Require Import PyStr PyDict PyStrLemmas InstanceModel InstanceSpec InstanceProofs InstanceProofs2 LiteralModel LiteralSpec LiteralProofs LiteralProofs2 CommentWordModel CommentWordSpec CommentWordProofs.
(** * Comments with any number of numbers *)

Lemma scan_one_more n c y p : alnum_before p = false -> n <> [] -> number_at (n ++ c :: y) = Some n -> fd c = true -> exists q, sub_with comment_number p 0 (n ++ c :: y) = n ++ sub_with comment_number q 0 y.
Proof.
  intros P N A C. assert (M : comment_number p (n ++ c :: y) = Some (n, length n)) by (unfold comment_number, number_suffix; rewrite P, A, skip_app; unfold fd in C; rewrite C; reflexivity).
  destruct n as [|d n]; [congruence|]. cbn [app] in *. cbn [sub_with]. rewrite M. cbn [length app]. destruct (sub_skip comment_number (n ++ [c]) y (Some d)) as (q & Q). exists q. f_equal. f_equal. rewrite <- app_assoc in Q. cbn [app] in Q. rewrite app_length in Q. cbn [length] in Q. rewrite Nat.add_1_r in Q. exact Q.
Qed.
Lemma scan_more x n c y p : calm x = true -> (alnum_before p = false /\ x = []) \/ (exists x', x = x' ++ $" ") -> n <> [] -> number_at (n ++ c :: y) = Some n -> fd c = true ->
  exists q, sub_with comment_number p 0 (x ++ n ++ c :: y) = x ++ n ++ sub_with comment_number q 0 y.
Proof.
  intros CX X N A C. destruct X as [(P & ->)|(x' & ->)]; [exact (scan_one_more n c y p P N A C)|]. rewrite <- !app_assoc. set (rest := n ++ c :: y) in *. change ($" " ++ rest) with (" "%char :: rest).
  destruct (seg_skip comment_number x' (" "%char :: rest)) with (p := p) as (q & Q).
  - intros x1 x2 E NE p'. destruct (comment_number p' (x2 ++ " "%char :: rest)) as [(b, k)|] eqn:M; [|reflexivity]. exfalso. destruct (comment_split _ _ _ _ M) as (u & z & c' & r & S & B & Z & F & NA). pose proof (number_no_space _ _ NA) as NS.
    destruct (prefix_before " "%char (u ++ [z; c']) x2 rest r) as (t & T); [rewrite <- app_assoc; exact S| |].
    + replace (u ++ [z; c']) with (b ++ [c']) by (rewrite B, <- app_assoc; reflexivity). apply no_space_app; [exact NS|]. intros [G|[]]. subst c'. discriminate.
    + assert (K : calm (x' ++ $" ") = false); [|congruence]. rewrite E, T. rewrite <- !app_assoc. cbn [app]. rewrite app_assoc. apply calm_pair; auto.
  - destruct (scan_one_more n c y (Some " "%char)) as (q' & Q'); [reflexivity|exact N|exact A|exact C|]. exists q'. rewrite Q, <- app_assoc. f_equal. cbn [sub_with]. assert (M : comment_number q (" "%char :: rest) = None) by (unfold comment_number, number_suffix; rewrite number_at_none by reflexivity; destruct (alnum_before q); reflexivity). rewrite M. change ($" " ++ n ++ sub_with comment_number q' 0 y) with (" "%char :: (n ++ sub_with comment_number q' 0 y)). f_equal. exact Q'.
Qed.
Definition spaced (x : str) : Prop := x = [] \/ exists x', x = x' ++ $" ".
Lemma python_around x w z : spaced x -> Forall (fun d => num_char d = true) w -> is_word_at z = false -> in_python (x ++ w ++ z) = in_python x ++ w ++ in_python z.
Proof.
  intros X W Z. destruct X as [-> |(x' & ->)]; [cbn [app]; rewrite python_app by exact Z; rewrite (python_plain w W); reflexivity|]. rewrite <- !app_assoc. rewrite (python_app x' ($" " ++ w ++ z)) by reflexivity. rewrite (python_app x' $" ") by reflexivity. rewrite <- app_assoc. f_equal. change ($" " ++ w ++ z) with (" "%char :: (w ++ z)). rewrite python_sep by reflexivity. rewrite (python_app w z Z), (python_plain w W). reflexivity.
Qed.
Lemma spaced_python x : spaced x -> spaced (in_python x).
Proof. intros [-> |(x' & ->)]; [left; reflexivity|right; exists (in_python x'); rewrite python_app by reflexivity; reflexivity]. Qed.
Lemma head_word s : (forall c r, s = c :: r -> is_word c = false) -> is_word_at s = false.
Proof. destruct s as [|c r]; intros H; [reflexivity|]. cbn [is_word_at]. apply (H c r eq_refl). Qed.
Lemma spaced_calm x s : spaced x -> calm x = true -> calm s = true -> calm (x ++ s) = true.
Proof.
  intros [-> |(x' & ->)] CX CS; [exact CS|]. rewrite <- app_assoc. apply calm_app; [reflexivity| |].
  - clear - CX. induction x' as [|d x' IH]; [reflexivity|]. cbn [app calm] in *. apply andb_prop in CX. destruct CX as (K1 & K2). rewrite (IH K2), andb_true_r. destruct x'; [rewrite andb_false_r; reflexivity|exact K1].
  - change ($" " ++ s) with (" "%char :: s). cbn [calm]. rewrite CS. reflexivity.
Qed.
Definition middle (t : stretch) : str := let '(x, (l, f, e), c) := t in in_python x ++ number_text l f e ++ [c].
Definition all_of (g : stretch -> str) (l : list stretch) (y : str) : str := concat (map g l) ++ y.
Lemma all_cons g t l y : all_of g (t :: l) y = g t ++ all_of g l y. Proof. unfold all_of. cbn [map concat]. rewrite <- app_assoc. reflexivity. Qed.
Lemma word_at_app a b : a <> [] -> is_word_at (a ++ b) = is_word_at a. Proof. destruct a; [congruence|reflexivity]. Qed.
Lemma spaced_some x : (exists x', x = x' ++ $" ") -> x <> []. Proof. intros (x' & ->) E. apply app_eq_nil in E. destruct E. discriminate. Qed.
Lemma spaced_some_python x : (exists x', x = x' ++ $" ") -> exists x', in_python x = x' ++ $" ". Proof. intros (x' & ->). exists (in_python x'). rewrite python_app by reflexivity. reflexivity. Qed.
Lemma heads l y : stretches false l y -> is_word_at (all_of stretch_text l y) = false /\ is_word_at (all_of middle l (in_python y)) = false /\ is_word_at (all_of stretch_python l (in_python y)) = false.
Proof.
  destruct l as [|((x, ((n, f), e)), c) l]; cbn [stretches].
  - intros (_ & [A|A]); [discriminate|]. apply head_word in A. repeat split; [exact A|apply python_head; exact A|apply python_head; exact A].
  - intros (_ & [(A & _)|X] & [B|B] & _); try discriminate. apply head_word in B. pose proof (python_head x B) as B'. pose proof (spaced_some x X) as NX. pose proof (spaced_some _ (spaced_some_python x X)) as NP.
    rewrite !all_cons. cbn [stretch_text middle stretch_python]. rewrite <- !app_assoc. rewrite !word_at_app by assumption. auto.
Qed.
Lemma drop_suffix n f e c : is_number [] n f e (Some c) -> is_number [] n f e None. Proof. intros (A & B & D & E & F & _). repeat split; auto; apply D. Qed.
Lemma with_suffix n f e c : is_number [] n f e (Some c) -> Forall (fun d => num_char d = true) (number_text n f e ++ [c]).
Proof. intros N. pose proof (number_chars [] n f e (Some c) N) as NC. assert (T : tok_text (Number [] n f e (Some c)) = number_text n f e ++ [c]) by (unfold number_text; cbn [tok_text map concat opt app]; rewrite app_nil_r, <- app_assoc; reflexivity). rewrite T in NC. exact NC. Qed.
Lemma first_spaced (b : bool) x : (b = true /\ x = []) \/ (exists x', x = x' ++ $" ") -> spaced x. Proof. intros [(_ & H)|H]; [left|right]; exact H. Qed.
Lemma words_middle l y : forall b, stretches b l y -> in_python (all_of stretch_text l y) = all_of middle l (in_python y).
Proof.
  induction l as [|((x, ((n, f), e)), c) l IH]; intros b H; [reflexivity|]. cbn [stretches] in H. destruct H as (CX & X & _ & N & C & R). rewrite !all_cons. cbn [stretch_text middle]. destruct (heads l y R) as (H1 & _). rewrite <- (IH false R). rewrite <- (app_assoc x). rewrite python_around; [|apply (first_spaced b); exact X|apply with_suffix; exact N|exact H1]. rewrite <- !app_assoc. reflexivity.
Qed.
Lemma numbers_gone l y : forall b p, stretches b l y -> (b = true -> alnum_before p = false) -> sub_with comment_number p 0 (all_of middle l (in_python y)) = all_of stretch_python l (in_python y).
Proof.
  induction l as [|((x, ((n, f), e)), c) l IH]; intros b p H P; cbn [stretches] in H.
  - apply numbers_idle. apply calm_python. apply H.
  - destruct H as (CX & X & _ & N & C & R). rewrite !all_cons. cbn [middle stretch_python]. destruct (heads l y R) as (_ & H2 & _). assert (FC : fd c = true) by (destruct C as [-> | ->]; reflexivity). destruct (number_found n f e c _ N FC H2) as (A & B). rewrite <- !app_assoc. cbn [app].
    destruct (scan_more (in_python x) (number_text n f e) c (all_of middle l (in_python y)) p) as (q & Q); [apply calm_python; exact CX| |exact B|exact A|exact FC|].
    + destruct X as [(T & ->)|X]; [left; split; [apply P; exact T|reflexivity]|right; apply spaced_some_python; exact X].
    + rewrite Q. rewrite (IH false q R); [reflexivity|discriminate].
Qed.
Lemma result_calm l y : forall b, stretches b l y -> calm (all_of stretch_python l (in_python y)) = true.
Proof.
  induction l as [|((x, ((n, f), e)), c) l IH]; intros b H; cbn [stretches] in H; [apply calm_python; apply H|]. destruct H as (CX & X & _ & N & C & R). rewrite all_cons. cbn [stretch_python]. destruct (heads l y R) as (_ & _ & H3). rewrite <- app_assoc. apply spaced_calm; [apply spaced_python; apply (first_spaced b); exact X|apply calm_python; exact CX|]. apply calm_app; [exact H3|apply number_calm; exact (drop_suffix _ _ _ _ N)|exact (IH false R)].
Qed.
Lemma result_again l y : forall b, stretches b l y -> in_python (all_of stretch_python l (in_python y)) = all_of stretch_python l (in_python y).
Proof.
  induction l as [|((x, ((n, f), e)), c) l IH]; intros b H; cbn [stretches] in H; [apply python_again|]. destruct H as (CX & X & _ & N & C & R). rewrite all_cons. cbn [stretch_python]. destruct (heads l y R) as (_ & _ & H3). rewrite <- app_assoc. rewrite python_around; [|apply spaced_python; apply (first_spaced b); exact X|exact (number_chars [] n f e None (drop_suffix _ _ _ _ N))|exact H3]. rewrite python_again, (IH false R). reflexivity.
Qed.
Theorem comment_numbers l y : stretches true l y -> comment_replacements (concat (map stretch_text l) ++ y) = concat (map stretch_python l) ++ in_python y.
Proof.
  intros H. change (comment_replacements (all_of stretch_text l y) = all_of stretch_python l (in_python y)). apply two_passes.
  - rewrite once_is, (words_middle l y true H). apply (numbers_gone l y true None H). reflexivity.
  - rewrite once_python by (apply (result_calm l y true H)). apply (result_again l y true H).
Qed.
