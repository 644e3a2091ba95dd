From Verif Require Import PyStr PyDict PyStrLemmas InstanceModel InstanceSpec InstanceProofs LiteralModel LiteralSpec.
(** The replacements, on the parts of an expression: the names. *)

Lemma text_cons t r : text (t :: r) = tok_text t ++ text r. Proof. reflexivity. Qed.
Lemma text_app a b : text (a ++ b) = text a ++ text b. Proof. unfold text. rewrite map_app, concat_app. reflexivity. Qed.
Lemma digit_word c : is_digit c = true -> is_word c = true. Proof. unfold is_word, is_alnum. intros ->. reflexivity. Qed.
Lemma digit_alnum c : is_digit c = true -> is_alnum c = true. Proof. unfold is_alnum. intros ->. reflexivity. Qed.
Lemma free_word w : forall b, digit_free b w -> Forall (fun c => is_word c = true) w.
Proof. induction w as [|c w IH]; intros b H; constructor; [apply H|]. apply (IH (ceqb c "_")). apply H. Qed.
Lemma is_name_of w : LiteralSpec.is_name w -> name_of w. Proof. intros (N & F & _). split; auto. apply (free_word w true F). Qed.
Lemma apart_word r : expression r -> apart r -> is_word_at (text r) = false.
Proof. destruct r as [|[w|? ? ? ? ?| |c] r]; cbn; try tauto; auto. Qed.
(** What starts the text of an expression. *)
Lemma no_quote_at r : expression r -> match text r with c :: _ => c <> "'"%char | [] => True end.
Proof.
  destruct r as [|[w|g l f e x| |c] r]; cbn [expression]; auto; try tauto.
  - intros ((N & F & _) & _). rewrite text_cons. destruct w as [|c w]; [congruence|]. cbn. intros ->. destruct F as [F _]. discriminate.
  - intros ((G & _ & (L & L') & _) & _). rewrite text_cons. cbn [tok_text]. destruct g as [|(g, s) gs].
    + destruct l as [|c l]; [congruence|]. cbn. intros ->. inversion L'; discriminate.
    + inversion G as [|? ? G1 G2]; subst. destruct G1 as ((N & D) & _). cbn [fst] in *. destruct g as [|c g]; [congruence|]. cbn. intros ->. inversion D; discriminate.
  - cbn. intros _. discriminate.
Qed.

(** ** The characters of a number *)

Definition num_char (c : ascii) : bool := is_digit c || ceqb c "." || ceqb c "'" || ceqb c "_" || is_e c || is_sign c || is_suffix c.
Lemma digit_num c : is_digit c = true -> num_char c = true. Proof. unfold num_char. intros ->. reflexivity. Qed.
Lemma digits_num g : Forall (fun c => is_digit c = true) g -> Forall (fun c => num_char c = true) g.
Proof. apply Forall_impl. apply digit_num. Qed.
Lemma number_chars g l f e x : is_number g l f e x -> Forall (fun c => num_char c = true) (tok_text (Number g l f e x)).
Proof.
  intros (G & _ & (_ & L) & F & E & X). cbn [tok_text]. apply Forall_app. split; [|apply Forall_app; split; [apply digits_num; exact L|apply Forall_app; split]].
  - induction G as [|(d, s) g ((_ & D) & S) G IH]; [constructor|]. cbn [map concat fst snd] in *. apply Forall_app. split; [|exact IH]. apply Forall_app. split; [apply digits_num; exact D|].
    constructor; [|constructor]. destruct S as [-> | ->]; reflexivity.
  - unfold tail. apply Forall_app. split.
    + destruct f as [f|]; [|constructor]. constructor; [reflexivity|apply digits_num; exact F].
    + destruct e as [((e, s), d)|]; [|constructor]. destruct E as (A & B & (_ & D)). constructor; [destruct A as [-> | ->]; reflexivity|]. apply Forall_app. split; [|apply digits_num; exact D].
      destruct B as [-> |[-> | ->]]; cbn; repeat constructor.
  - destruct x as [x|]; [|constructor]. constructor; [|constructor]. destruct X as [-> |[-> |[-> | ->]]]; reflexivity.
Qed.

(** ** Names between word boundaries *)

Lemma substituted_app ps x y : is_word_at y = false -> substituted ps (x ++ y) = substituted ps x ++ substituted ps y.
Proof. intros Y. unfold substituted. rewrite pieces_app by exact Y. rewrite map_app, concat_app. reflexivity. Qed.
Lemma piece_in p s : In p (pieces s) -> forall c, In c p -> In c s.
Proof. intros P c C. rewrite <- (pieces_concat s). apply in_concat. exists p. auto. Qed.
Definition foreign (k : str) : Prop := exists c, In c k /\ num_char c = false.
Lemma no_piece k s : foreign k -> Forall (fun c => num_char c = true) s -> ~ In k (pieces s).
Proof. intros (c & C & N) F P. rewrite Forall_forall in F. rewrite (F c (piece_in k s P c C)) in N. discriminate. Qed.
Lemma substituted_none k new s : ~ In k (pieces s) -> substituted [(k, new)] s = s.
Proof.
  intros N. unfold substituted. rewrite <- (pieces_concat s) at 2. f_equal. etransitivity; [|apply map_id]. apply map_ext_in. intros p P. unfold argument. cbn [find fst].
  destruct (seqb_spec k p) as [->|]; [contradiction|reflexivity].
Qed.
Lemma word_rule_is k new s : name_of k -> word_rule k new s = substituted [(k, new)] s.
Proof. intros K. unfold word_rule. rewrite subn_is by exact K. reflexivity. Qed.

Definition one (k : str) (new : list tok) (t : tok) : list tok := match t with Name w => if seqb k w then new else [Name w] | t => [t] end.
Lemma apart_one k new r : apart r -> apart (flat_map (one k new) r). Proof. destruct r as [|[w|? ? ? ? ?| |c] r]; cbn; tauto. Qed.
Lemma no_point_one k new r : apart r -> no_point r -> no_point (flat_map (one k new) r). Proof. destruct r as [|[w|? ? ? ? ?| |c] r]; cbn; tauto. Qed.
Definition nice (new : list tok) : Prop := forall rest, apart rest -> expression rest -> expression (new ++ rest).
Lemma expression_one k new ts : nice new -> expression ts -> expression (flat_map (one k new) ts).
Proof.
  intros N. induction ts as [|[w|g l f e x| |c] r IH]; cbn [expression]; auto.
  - intros (W & A & E). cbn [flat_map one]. destruct (seqb k w); [apply N; [apply apart_one; exact A|auto]|]. cbn [app expression]. repeat split; auto; try apply W. apply apart_one. exact A.
  - intros (W & A & P & E). cbn [flat_map one app expression]. split; [exact W|]. split; [apply apart_one; exact A|]. split; [apply no_point_one; auto|auto].
  - cbn [flat_map one app expression]. intuition.
Qed.
Lemma words_one k new ts : name_of k -> foreign k -> expression ts -> word_rule k (text new) (text ts) = text (flat_map (one k new) ts).
Proof.
  intros K F E. rewrite word_rule_is by exact K. induction ts as [|[w|g l f e x| |c] r IH]; [reflexivity| | | |]; cbn [expression] in E.
  - destruct E as (W & A & E). rewrite text_cons. cbn [tok_text flat_map one]. rewrite substituted_app by (apply apart_word; auto). rewrite IH by exact E.
    rewrite text_app. f_equal. unfold substituted. rewrite piece_one by (apply is_name_of; exact W). cbn [map concat]. unfold argument. cbn [find fst].
    destruct (seqb k w); cbn [snd]; rewrite app_nil_r; [reflexivity|]. unfold text. cbn. rewrite app_nil_r. reflexivity.
  - destruct E as (W & A & P & E). rewrite text_cons. cbn [flat_map one]. rewrite substituted_app by (apply apart_word; auto). rewrite IH by exact E. rewrite text_app.
    rewrite substituted_none by (apply no_piece; [exact F|apply number_chars; exact W]). f_equal. unfold text. cbn [map concat]. rewrite app_nil_r. reflexivity.
  - rewrite text_cons. cbn [flat_map one app]. rewrite text_cons. cbn [tok_text]. change ($"::") with (":"%char :: [":"%char]). cbn [app]. unfold substituted in *. rewrite !pieces_sep by reflexivity.
    cbn [map concat]. rewrite (IH E). unfold argument. cbn [find fst]. rewrite name_not_sep by (auto; reflexivity). reflexivity.
  - destruct E as (W & _ & _ & _ & E). rewrite text_cons. cbn [flat_map one app]. rewrite text_cons. cbn [tok_text app]. unfold substituted in *. rewrite pieces_sep by exact W.
    cbn [map concat]. rewrite (IH E). unfold argument. cbn [find fst]. rewrite name_not_sep by (auto; exact W). reflexivity.
Qed.

(** ** The rules which start with a word that is not there *)

Section Absent.
Variables (k : str) (m : matcher).
Hypothesis is_word_k : name_of k.
Hypothesis starts : forall previous s, m previous s <> None -> word_before previous = false /\ startswith k s = true.
Lemma m_word previous s : word_before previous = true -> m previous s = None.
Proof. intros B. destruct (m previous s) eqn:E; [|reflexivity]. assert (N : m previous s <> None) by congruence. destruct (starts previous s N). congruence. Qed.
Lemma m_starts previous s : startswith k s = false -> m previous s = None.
Proof. intros B. destruct (m previous s) eqn:E; [|reflexivity]. assert (N : m previous s <> None) by congruence. destruct (starts previous s N). congruence. Qed.
Lemma absent_inside w r : Forall (fun c => is_word c = true) w -> forall previous, word_before previous = true ->
  exists p, word_before p = true /\ sub_with m previous 0 (w ++ r) = w ++ sub_with m p 0 r.
Proof.
  induction 1 as [|c w C F IH]; intros p P; [exists p; auto|]. cbn [app sub_with]. rewrite m_word by exact P. destruct (IH (Some c) C) as (p' & P' & E). exists p'. split; auto. rewrite E. reflexivity.
Qed.
Lemma starts_in w r : is_word_at r = false -> startswith k (w ++ r) = true -> startswith k w = true.
Proof.
  destruct is_word_k as (_ & F). clear is_word_k starts. intros R. revert w. induction F as [|c k' C F IH]; intros w; [intros _; destruct w; reflexivity|].
  destruct w as [|d w]; cbn [app].
  - destruct r as [|d r]; [auto|]. cbn [startswith]. destruct (ceqb_spec c d) as [->|]; [cbn in R; congruence|discriminate].
  - cbn [startswith]. destruct (ceqb c d); [apply IH|auto].
Qed.
Lemma absent_is s : Forall (fun p => startswith k p = false) (pieces s) -> forall previous, word_before previous = false \/ is_word_at s = false -> sub_with m previous 0 s = s.
Proof.
  induction s as [|c r C IH|w r W R IH] using word_rect; [reflexivity| |].
  - rewrite pieces_sep by exact C. intros F p _. inversion F; subst. cbn [sub_with]. rewrite m_starts.
    + f_equal. apply IH; auto.
    + destruct is_word_k as (N & K). destruct k as [|d k']; [congruence|]. cbn [startswith]. inversion K; subst. destruct (ceqb_spec d c) as [->|]; [congruence|reflexivity].
  - rewrite pieces_word by auto. intros F p P. inversion F as [|? ? F1 F2]; subst. destruct W as (N & W). destruct w as [|c w]; [congruence|]. inversion W as [|? ? C W']; subst.
    assert (B : word_before p = false) by (destruct P as [P|P]; [exact P|cbn in P; congruence]).
    change ((c :: w) ++ r) with (c :: (w ++ r)). cbn [sub_with]. rewrite m_starts.
    + destruct (absent_inside w r W' (Some c) C) as (p' & P' & E). rewrite E. rewrite IH; auto.
    + destruct (startswith k (c :: w ++ r)) eqn:E; [|reflexivity]. apply (starts_in (c :: w) r R) in E. congruence.
Qed.
End Absent.
Lemma starts_foreign k p : (match k with c :: _ => num_char c = false | [] => False end) -> Forall (fun c => num_char c = true) p -> startswith k p = false.
Proof. destruct k as [|c k]; [tauto|]. intros C F. destruct p as [|d p]; [reflexivity|]. cbn. inversion F; subst. destruct (ceqb_spec c d) as [->|]; [congruence|reflexivity]. Qed.
Lemma starts_pieces k ts : name_of k -> (match k with c :: _ => num_char c = false | [] => False end) -> (forall w, LiteralSpec.is_name w -> startswith k w = false) -> expression ts ->
  Forall (fun p => startswith k p = false) (pieces (text ts)).
Proof.
  intros K F N. assert (S : forall c, is_word c = false -> startswith k [c] = false).
  { intros c C. destruct K as (NE & W). destruct k as [|d k']; [congruence|]. inversion W; subst. cbn. destruct (ceqb_spec d c) as [->|]; [congruence|reflexivity]. }
  induction ts as [|[w|g l f e x| |c] r IH]; cbn [expression]; [intros _; constructor| | | |].
  - intros (W & A & E). rewrite text_cons. cbn [tok_text]. rewrite pieces_word; [|apply is_name_of; exact W|apply apart_word; auto]. constructor; auto.
  - intros (W & A & P & E). rewrite text_cons. rewrite pieces_app by (apply apart_word; auto). apply Forall_app. split; [|auto]. apply Forall_forall. intros p P'. apply starts_foreign; [exact F|].
    apply Forall_forall. intros c C. pose proof (number_chars g l f e x W) as X. rewrite Forall_forall in X. apply X. apply (piece_in p _ P' c C).
  - intros E. rewrite text_cons. cbn [tok_text]. change ($"::") with (":"%char :: [":"%char]). cbn [app]. rewrite !pieces_sep by reflexivity. constructor; [apply S; reflexivity|]. constructor; [apply S; reflexivity|auto].
  - intros (W & _ & _ & _ & E). rewrite text_cons. cbn [tok_text app]. rewrite pieces_sep by exact W. constructor; [apply S; exact W|auto].
Qed.
Lemma std_starts ts : expression ts -> Forall (fun p => startswith $"std" p = false) (pieces (text ts)).
Proof. intros E. apply starts_pieces; auto; [split; [discriminate|repeat constructor]|reflexivity|]. intros w W. apply W. Qed.
Lemma void_starts ts : expression ts -> Forall (fun p => startswith $"void" p = false) (pieces (text ts)).
Proof. intros E. apply starts_pieces; auto; [split; [discriminate|repeat constructor]|reflexivity|]. intros w W. apply W. Qed.
Lemma starts_longer a b s : startswith (a ++ b) s = true -> startswith a s = true.
Proof. revert s. induction a as [|c a IH]; intros s; [intros _; apply startswith_nil|]. destruct s as [|d s]; [auto|]. cbn. destruct (ceqb c d); [apply IH|auto]. Qed.
Lemma not_there m ts : (forall previous s, m previous s <> None -> word_before previous = false /\ (startswith $"std" s = true \/ startswith $"void" s = true)) -> expression ts ->
  (forall previous s, m previous s <> None -> startswith $"std" s = true) \/ (forall previous s, m previous s <> None -> startswith $"void" s = true) -> sub_with m None 0 (text ts) = text ts.
Proof.
  intros H E [X|X].
  - apply (absent_is $"std" m); [split; [discriminate|repeat constructor]| |apply std_starts; exact E|left; reflexivity]. intros p s N. split; [apply (H p s N)|apply (X p s N)].
  - apply (absent_is $"void" m); [split; [discriminate|repeat constructor]| |apply void_starts; exact E|left; reflexivity]. intros p s N. split; [apply (H p s N)|apply (X p s N)].
Qed.
Lemma void_none ts : expression ts -> sub_with void_pointer None 0 (text ts) = text ts.
Proof.
  intros E. assert (H : forall p s, void_pointer p s <> None -> word_before p = false /\ startswith $"void" s = true).
  { intros p s. unfold void_pointer. destruct (word_before p); cbn [negb andb]; [congruence|]. destruct (startswith $"void" s); [auto|congruence]. }
  apply not_there; auto; [intros p s N; destruct (H p s N); auto|right; intros p s N; apply (H p s N)].
Qed.
Lemma nullopt_colons_none ts : expression ts -> sub_with nullopt_colons None 0 (text ts) = text ts.
Proof.
  intros E. assert (H : forall p s, nullopt_colons p s <> None -> word_before p = false /\ startswith $"std" s = true).
  { intros p s. unfold nullopt_colons. destruct (word_before p); cbn [negb andb]; [congruence|]. destruct (startswith $"std::nullopt" s) eqn:X; [|cbn; congruence]. intros _. split; [auto|]. apply (starts_longer $"std" $"::nullopt" s X). }
  apply not_there; auto; [intros p s N; destruct (H p s N); auto|left; intros p s N; apply (H p s N)].
Qed.
Lemma string_colons_none ts : expression ts -> sub_with string_colons None 0 (text ts) = text ts.
Proof.
  intros E. assert (H : forall p s, string_colons p s <> None -> word_before p = false /\ startswith $"std" s = true).
  { intros p s. unfold string_colons. destruct (word_before p); cbn [negb andb]; [congruence|]. destruct (startswith $"std::string()" s) eqn:X; [|cbn; congruence]. intros _. split; [auto|]. apply (starts_longer $"std" $"::string()" s X). }
  apply not_there; auto; [intros p s N; destruct (H p s N); auto|left; intros p s N; apply (H p s N)].
Qed.
Lemma nullopt_dot_none ts : expression ts -> sub_with nullopt_dot None 0 (text ts) = text ts.
Proof.
  intros E. assert (H : forall p s, nullopt_dot p s <> None -> word_before p = false /\ startswith $"std" s = true).
  { intros p s. unfold nullopt_dot. destruct (word_before p); cbn [negb andb]; [congruence|]. destruct (startswith $"std" s) eqn:X; [auto|cbn; congruence]. }
  apply not_there; auto; [intros p s N; destruct (H p s N); auto|left; intros p s N; apply (H p s N)].
Qed.
Lemma string_dot_none ts : expression ts -> sub_with string_dot None 0 (text ts) = text ts.
Proof.
  intros E. assert (H : forall p s, string_dot p s <> None -> word_before p = false /\ startswith $"std" s = true).
  { intros p s. unfold string_dot. destruct (word_before p); cbn [negb andb]; [congruence|]. destruct (startswith $"std" s) eqn:X; [auto|cbn; congruence]. }
  apply not_there; auto; [intros p s N; destruct (H p s N); auto|left; intros p s N; apply (H p s N)].
Qed.
