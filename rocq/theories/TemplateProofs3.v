(** Proofs: callables, dotted names, names of instantiations. *)
From Verif Require Import PyStr PyStrLemmas TemplateModel TemplateSpec NumberProofs NumberProofs2 TemplateProofs TemplateProofs2.

(** *** Callables *)

Definition call : str := $"Callable[[".

Lemma strip_callable_skip a r : strip_callable_aux (a ++ r) (length a) = strip_callable_aux r 0.
Proof. induction a as [|x a IH]; cbn [app length strip_callable_aux]; auto. Qed.

Lemma callable_none s : contains call s = false -> strip_callable_param_names s = s.
Proof.
  unfold strip_callable_param_names. induction s as [|c s IH]; intros H; auto.
  cbn [contains] in H. apply orb_false_iff in H. destruct H as (H1 & H2).
  cbn [strip_callable_aux]. fold call. rewrite H1. cbn [andb]. rewrite IH; auto.
Qed.

Lemma takewhile_stop {A} (f : A -> bool) a c r : Forall (fun x => f x = true) a -> f c = false ->
  takewhile f (a ++ c :: r) = a.
Proof. intros Ha Hc. induction Ha as [|x a Hx Ha IH]; cbn; [rewrite Hc; auto|]. rewrite Hx, IH. auto. Qed.

Lemma callable_match params post : ~ In "]"%char params ->
  strip_callable_param_names (call ++ params ++ "]"%char :: post) =
  callable_params params ++ strip_callable_param_names post.
Proof.
  intros H. unfold strip_callable_param_names, call.
  change ($"Callable[[" ++ params ++ "]"%char :: post) with ("C"%char :: $"allable[[" ++ params ++ "]"%char :: post).
  cbn [strip_callable_aux].
  change (skipn 10 ("C"%char :: $"allable[[" ++ params ++ "]"%char :: post)) with (params ++ "]"%char :: post).
  change (startswith $"Callable[[" ("C"%char :: $"allable[[" ++ params ++ "]"%char :: post)) with true.
  rewrite takewhile_stop; [|apply Forall_forall; intros x Hx; apply negb_true_iff, ceqb_false; intros ->; auto|reflexivity].
  replace (contains $"]" (params ++ "]"%char :: post)) with true.
  - cbn [andb]. f_equal.
    replace ($"allable[[" ++ params ++ "]"%char :: post) with (($"allable[[" ++ params ++ ["]"%char]) ++ post).
    + replace (10 + length params) with (length ($"allable[[" ++ params ++ ["]"%char])).
      * apply strip_callable_skip.
      * rewrite !app_length. cbn. lia.
    + rewrite <- !app_assoc. auto.
  - symmetry. change $"]" with ["]"%char]. apply contains_single. apply in_or_app. right. left. auto.
Qed.

Lemma callable_pre pre r : contains call (pre ++ removelast call) = false ->
  strip_callable_param_names (pre ++ call ++ r) = pre ++ strip_callable_param_names (call ++ r).
Proof.
  unfold strip_callable_param_names. induction pre as [|c pre IH]; intros H; auto.
  pose proof (not_early call c pre r ltac:(discriminate) H) as Hn.
  cbn [app] in *. cbn [strip_callable_aux]. fold call. rewrite Hn. cbn [andb]. rewrite IH; auto.
  cbn [contains] in H. apply orb_false_iff in H. apply H.
Qed.

Definition no_space (s : str) : Prop := Forall (fun c => is_space c = false) s.
Lemma words_one w : w <> [] -> no_space w -> words w = [w].
Proof.
  intros Hw H. induction H as [|c w Hc H IH]; [congruence|]. rewrite words_cons by auto.
  destruct w as [|d w]; auto. inversion H; subst. rewrite H2. rewrite IH by discriminate. auto.
Qed.
Lemma is_word_not_space c : is_word c = true -> is_space c = false.
Proof.
  unfold is_word, is_alnum, is_digit, is_upper, is_lower, is_space, between. intros H.
  destruct (ceqb c "_") eqn:E; [apply ceqb_true in E; subst c; reflexivity|]. rewrite orb_false_r in H.
  rewrite !orb_true_iff, !andb_true_iff, !Nat.leb_le in H.
  rewrite orb_false_iff, !andb_false_iff, !Nat.leb_gt. lia.
Qed.
Lemma identifier_chars n : is_identifier n = true -> n <> [] /\ Forall (fun c => is_word c = true) n.
Proof.
  destruct n as [|c n]; [discriminate|]. cbn. rewrite !andb_true_iff. intros ((H1 & _) & H2). split; [discriminate|].
  constructor; auto. apply forallb_forall in H2 || idtac. rewrite forallb_forall in H2. apply Forall_forall. auto.
Qed.
Lemma strip_param p : simple_param p -> forall lead, forallb is_space lead = true ->
  strip_one_param (lead ++ param_text p) = fst p.
Proof.
  destruct p as [ty o]. intros (Hne & Hty & Ho) lead Hl. cbn [fst snd] in *.
  assert (Hs : no_space ty) by (unfold no_space; eapply Forall_impl; [|exact Hty]; cbn; tauto).
  assert (Est : strip ty = ty).
  { destruct (strip_split ty) as (a & b & E & Ha & Hb). 
    assert (a = []). { destruct a as [|c a]; auto. exfalso. rewrite E in Hs. inversion Hs; subst. cbn in Ha. rewrite H1 in Ha. discriminate. }
    assert (b = []). { destruct b as [|c b]; auto. exfalso. rewrite E in Hs. unfold no_space in Hs. rewrite !Forall_app in Hs.
      destruct Hs as (_ & _ & Hs). inversion Hs; subst. cbn in Hb. rewrite H2 in Hb. discriminate. }
    subst. rewrite app_nil_r in E. cbn in E. congruence. }
  unfold strip_one_param. rewrite strip_spaces_l by auto. destruct o as [n|]; cbn [param_text].
  - destruct (identifier_chars n Ho) as (Hn & Hw).
    assert (Hns : no_space n) by (unfold no_space; eapply Forall_impl; [|exact Hw]; apply is_word_not_space).
    assert (E : words (strip (ty ++ $" " ++ n)) = [ty; n]).
    { rewrite words_strip. change (ty ++ $" " ++ n) with (ty ++ sp :: n). rewrite words_app_space by reflexivity.
      rewrite !words_one; auto. }
    rewrite E. cbn [length Nat.leb last andb removelast join]. rewrite Ho. auto.
  - rewrite Est, words_one by auto. cbn. auto.
Qed.

Lemma split_comma l : Forall (fun x => ~ In ","%char x) l ->
  map strip_one_param (split_on "," (join $", " l)) =
  map strip_one_param (match l with [] => [[]] | x :: l' => x :: map (fun y => $" " ++ y) l' end).
Proof.
  intros H. f_equal. destruct H as [|x l Hx H]; auto. revert x Hx. induction H as [|y l Hy H IH]; intros x Hx.
  - cbn. apply split_on_single; auto.
  - rewrite join_cons. change (x ++ $", " ++ join $", " (y :: l)) with (x ++ ","%char :: ($" " ++ join $", " (y :: l))).
    rewrite split_on_app_sep by auto. cbn [map]. f_equal.
    assert (E : $" " ++ join $", " (y :: l) = join $", " (($" " ++ y) :: l)).
    { destruct l; cbn [join]; rewrite <- ?app_assoc; auto. }
    rewrite E. apply IH. intros [C|C]; [discriminate|auto].
Qed.

Lemma word_char_facts c : is_word c = true -> c <> ","%char /\ c <> "]"%char /\ c <> "."%char.
Proof. intros H. repeat split; intros ->; discriminate. Qed.

Lemma param_text_chars p : simple_param p -> ~ In ","%char (param_text p) /\ ~ In "]"%char (param_text p).
Proof.
  destruct p as [ty o]. intros (_ & Hty & Ho). cbn [fst snd] in *. rewrite Forall_forall in Hty.
  destruct o as [n|]; cbn [param_text].
  - destruct (identifier_chars n Ho) as (_ & Hw). rewrite Forall_forall in Hw.
    split; intros C; apply in_app_or in C; destruct C as [C|[C|C]];
      try (apply Hty in C; tauto); try discriminate; apply Hw in C; discriminate.
  - split; intros C; apply Hty in C; tauto.
Qed.

Lemma callable_simple ps : Forall simple_param ps ->
  callable_params (join $", " (map param_text ps)) = call ++ join $", " (map fst ps) ++ $"]".
Proof.
  intros H. unfold callable_params. fold call. f_equal. f_equal.
  rewrite split_comma.
  - destruct H as [|p ps Hp H]; [reflexivity|]. f_equal. cbn [map]. f_equal.
    + apply (strip_param p Hp []). auto.
    + rewrite !map_map. apply map_ext_in. intros q Hq. rewrite Forall_forall in H.
      apply (strip_param q (H q Hq) $" "). auto.
  - rewrite Forall_map. eapply Forall_impl; [|exact H]. intros p Hp. apply (param_text_chars p Hp).
Qed.

Lemma callable_clean pre ps post : Forall simple_param ps -> contains call (pre ++ removelast call) = false ->
  strip_callable_param_names (pre ++ call ++ join $", " (map param_text ps) ++ $"]" ++ post) =
  pre ++ call ++ join $", " (map fst ps) ++ $"]" ++ strip_callable_param_names post.
Proof.
  intros H Hpre. rewrite callable_pre by auto. f_equal.
  change ($"]" ++ post) with ("]"%char :: post). rewrite callable_match.
  - rewrite callable_simple by auto. rewrite <- !app_assoc. auto.
  - intros C. apply join_In in C. destruct C as [C|(x & Hx & C)]; [cbn in C; intuition discriminate|].
    apply in_map_iff in Hx. destruct Hx as (p & <- & Hp). rewrite Forall_forall in H.
    apply (param_text_chars p (H p Hp)). auto.
Qed.

(** *** Dotted names *)

Lemma split_on_app_any c a b : split_on c (a ++ c :: b) = split_on c a ++ split_on c b.
Proof.
  induction a as [|x a IH]; cbn [app split_on].
  - rewrite ceqb_refl. auto.
  - rewrite IH. destruct (ceqb x c); auto. destruct (split_on c a) as [|l ls] eqn:E; auto.
    destruct (split_on_nonempty c a E).
Qed.
Lemma split_on_last c a n : ~ In c n -> exists ls l, split_on c (a ++ n) = ls ++ [l ++ n].
Proof.
  intros Hn. induction a as [|x a (ls & l & IH)].
  - exists [], []. cbn. apply split_on_single; auto.
  - cbn [app split_on]. rewrite IH. destruct (ceqb x c).
    + exists ([] :: ls), l. auto.
    + destruct ls as [|h ls]; [exists [], (x :: l)|exists ((x :: h) :: ls), l]; auto.
Qed.
Lemma endswith_app l n : endswith n (l ++ n) = true.
Proof. unfold endswith. rewrite rev_app_distr. apply startswith_app. Qed.
Lemma endswith_true n x : endswith n x = true -> exists l, x = l ++ n.
Proof.
  unfold endswith. intros H. apply startswith_true in H. destruct H as (r & E). exists (rev r).
  rewrite <- (rev_involutive x), E, rev_app_distr, rev_involutive. auto.
Qed.

Lemma word_no_dot w : word w -> ~ In "."%char w.
Proof. intros (_ & H) C. rewrite forallb_forall in H. apply H in C. discriminate. Qed.

Lemma no_occurrence n q : word n -> q <> [] -> Forall word q -> Forall (fun y => endswith n y = false) (removelast q) ->
  contains (n ++ $".") (join $"." q) = false.
Proof.
  intros Hn Hq Hw H. apply contains_false. intros a b E.
  assert (Es : split_on "." (join $"." q) = q).
  { apply split_on_join; auto. eapply Forall_impl; [|exact Hw]. apply word_no_dot. }
  rewrite E in Es. replace (a ++ (n ++ $".") ++ b) with ((a ++ n) ++ "."%char :: b) in Es.
  - rewrite split_on_app_any in Es. destruct (split_on_last "." a n (word_no_dot n Hn)) as (ls & l & El).
    rewrite El in Es. assert (Hin : In (l ++ n) (removelast q)).
    { rewrite <- Es. rewrite removelast_app by apply split_on_nonempty. apply in_or_app. left. apply in_or_app. right. left. auto. }
    rewrite Forall_forall in H. apply H in Hin. rewrite endswith_app in Hin. discriminate.
  - rewrite <- !app_assoc. auto.
Qed.

Lemma drop_path n p : word n -> Forall word p -> clear_of n p ->
  replace (n ++ $".") [] (join $"." p) = join $"." (without_root n p).
Proof.
  intros Hn Hw Hc. destruct p as [|x [|y p]].
  - reflexivity.
  - cbn [without_root]. apply replace_no_occ. apply (no_occurrence n [x]); auto; [discriminate|]. cbn. auto.
  - cbn [without_root]. destruct Hc as (Hx & Hr). inversion Hw as [|? ? Hwx Hwr]; subst.
    destruct (seqb_spec x n) as [->|N].
    + rewrite join_cons, app_assoc, replace_occ by (destruct n; discriminate). cbn [app].
      apply replace_no_occ. apply no_occurrence; auto. discriminate.
    + apply replace_no_occ. apply no_occurrence; auto; [discriminate|].
      change (removelast (x :: y :: p)) with (x :: removelast (y :: p)). constructor; auto.
      destruct Hx as [->|Hx]; [congruence|auto].
Qed.

Lemma show_cons p c q l : show_text (p, (c, q) :: l) = join $"." p ++ c :: show_text (q, l).
Proof. unfold show_text. cbn. auto. Qed.

Lemma drop_text n t : word n -> well_formed t -> Forall (clear_of n) (names_of t) ->
  replace (n ++ $".") [] (show_text t) = show_text (map_names (without_root n) t).
Proof.
  destruct t as [p l]. intros Hn (Hp & Hl) Hc. unfold names_of in Hc. cbn [fst snd] in *.
  revert p Hp Hc. induction Hl as [|[c q] l (H1 & H2 & H3) Hl IH]; intros p Hp Hc.
  - unfold show_text, map_names. cbn. rewrite !app_nil_r. inversion Hc; subst. apply drop_path; auto.
  - rewrite show_cons. inversion Hc as [|? ? Hc1 Hc2]; subst. cbn [map snd] in Hc2.
    rewrite replace_sep.
    + unfold map_names. cbn [fst snd map]. rewrite show_cons. rewrite drop_path by auto.
      f_equal. f_equal. apply IH; auto.
    + destruct n; discriminate.
    + intros C. apply in_app_or in C. destruct C as [C|[C|[]]].
      * destruct Hn as (_ & Hn). rewrite forallb_forall in Hn. apply Hn in C. congruence.
      * congruence.
Qed.

(** *** Names of instantiations *)

Definition mod_words (m : modifier) : list str :=
  match m with NoMod => [] | Ptr => [$"ptr"] | Ref => [$"ref"] | URef => [$"uref"] end.

Lemma replace_skip_prefix old o new y z : hd_error old = Some o -> ~ In o y ->
  replace old new (y ++ z) = y ++ replace old new z.
Proof.
  intros Ho. induction y as [|c y IH]; intros H; auto. cbn [app]. rewrite replace_cons.
  - rewrite IH; auto. cbn in H. tauto.
  - destruct old as [|a old]; [discriminate|]. cbn in Ho. injection Ho as ->. cbn [startswith].
    destruct (ceqb_spec o c); auto. subst. cbn in H. tauto.
Qed.

Lemma split_colon parts m : Forall (fun w => ~ In ":"%char w) parts -> ~ In ":"%char m -> parts <> [] ->
  forall e, In e (split_on ":" (join $"::" parts ++ m)) -> e = [] \/ In e parts \/ exists w, In w parts /\ e = w ++ m.
Proof.
  intros H Hm. induction H as [|w parts Hw H IH]; intros Hne e He; [congruence|].
  destruct parts as [|v parts].
  - cbn [join] in He. rewrite split_on_single in He.
    + destruct He as [<-|[]]. right. right. exists w. split; auto. left; auto.
    + intros C. apply in_app_or in C. tauto.
  - rewrite join_cons in He. rewrite <- !app_assoc in He.
    change (w ++ $"::" ++ join $"::" (v :: parts) ++ m)
      with (w ++ ":"%char :: ([] ++ ":"%char :: (join $"::" (v :: parts) ++ m))) in He.
    rewrite split_on_app_sep in He by auto. rewrite split_on_app_sep in He by (intros []).
    destruct He as [<-|[<-|He]]; [right; left; left; auto|auto|].
    destruct (IH ltac:(discriminate) e He) as [->|[C|(u & C & ->)]]; [auto|right; left; right; auto|].
    right. right. exists u. split; auto. right; auto.
Qed.

Lemma alnum_chars w c : forallb is_alnum w = true -> In c w -> is_alnum c = true.
Proof. intros H Hc. rewrite forallb_forall in H. auto. Qed.

Lemma join_last_text sep l x m : join sep (l ++ [x]) ++ m = join sep (l ++ [x ++ m]).
Proof.
  induction l as [|y l IH]; auto.
  cbn [app]. destruct (l ++ [x]) as [|z t] eqn:E; [destruct l; discriminate|].
  destruct (l ++ [x ++ m]) as [|z' t'] eqn:E'; [destruct l; discriminate|].
  rewrite !join_cons, <- IH, <- !app_assoc. auto.
Qed.
