(** Proofs for C15 to C17: scopes and qualification. *)
From Verif Require Import PyStr PyStrLemmas ScopeModel ScopeSpec.

(** *** Scopes *)

Lemma parent_firstn sc n : n <= length sc ->
  parent_scope (firstn n sc) = match n with 0 => None | S k => Some (firstn k sc) end.
Proof.
  intros Hn. unfold parent_scope. destruct n as [|k]; [reflexivity|].
  destruct (firstn (S k) sc) as [|x l] eqn:E.
  - apply (f_equal (@length str)) in E. rewrite firstn_length_le in E by lia. discriminate.
  - rewrite <- E. f_equal. rewrite removelast_firstn_len, firstn_length_le by lia. cbn [pred].
    rewrite firstn_firstn. f_equal. lia.
Qed.

Lemma hierarchy_firstn sc n : n <= length sc ->
  hierarchy_from (S n) (Some (firstn n sc)) = map (fun i => firstn i sc) (rev (seq 0 (S n))).
Proof.
  induction n as [|k IH]; intros Hn; [reflexivity|].
  change (hierarchy_from (S (S k)) (Some (firstn (S k) sc)))
    with (firstn (S k) sc :: hierarchy_from (S k) (parent_scope (firstn (S k) sc))).
  rewrite parent_firstn by auto. rewrite IH by lia.
  rewrite (seq_S (S k) 0), rev_app_distr. reflexivity.
Qed.

Lemma hierarchy_eq sc :
  scope_hierarchy_list sc = map (fun i => firstn i sc) (rev (seq 0 (S (length sc)))).
Proof.
  unfold scope_hierarchy_list. rewrite <- (firstn_all sc) at 2. apply hierarchy_firstn. auto.
Qed.

Lemma hierarchy_length sc : length (scope_hierarchy_list sc) = S (length sc).
Proof. rewrite hierarchy_eq, map_length, rev_length, seq_length. auto. Qed.

Lemma hierarchy_nth sc i : i <= length sc ->
  nth_error (scope_hierarchy_list sc) i = Some (firstn (length sc - i) sc).
Proof.
  intros Hi. rewrite hierarchy_eq.
  rewrite (map_nth_error _ i (rev (seq 0 (S (length sc)))) (d := length sc - i)); auto.
  rewrite (nth_error_nth' _ 0) by (rewrite rev_length, seq_length; lia).
  rewrite rev_nth by (rewrite seq_length; lia). rewrite seq_length, seq_nth by lia.
  first [f_equal; lia | idtac].
Qed.

Lemma hierarchy_In sc a : In a (scope_hierarchy_list sc) <-> exists n, n <= length sc /\ a = firstn n sc.
Proof.
  rewrite hierarchy_eq, in_map_iff. split.
  - intros (n & E & Hn). rewrite <- in_rev, in_seq in Hn. exists n. split; [lia|auto].
  - intros (n & Hn & ->). exists n. rewrite <- in_rev, in_seq. split; [auto|lia].
Qed.

Lemma can_access_firstn sc other n : n <= length sc ->
  can_access_from (S n) (Some (firstn n sc)) other = true <->
  exists m, m <= n /\ str_cpp (firstn m sc) = str_cpp other.
Proof.
  induction n as [|k IH]; intros Hn.
  - cbn [can_access_from firstn parent_scope]. unfold scope_eqb.
    destruct (seqb_spec (str_cpp []) (str_cpp other)) as [E|E]; split; auto; try discriminate.
    + intros _. exists 0. split; auto.
    + intros (m & Hm & Em). replace m with 0 in Em by lia. contradiction.
  - change (can_access_from (S (S k)) (Some (firstn (S k) sc)) other)
      with (if scope_eqb (firstn (S k) sc) other then true
            else can_access_from (S k) (parent_scope (firstn (S k) sc)) other).
    rewrite parent_firstn by auto. unfold scope_eqb.
    destruct (seqb_spec (str_cpp (firstn (S k) sc)) (str_cpp other)) as [E|E].
    + split; auto. intros _. exists (S k). auto.
    + rewrite IH by lia. split; intros (m & Hm & Em).
      * exists m. split; [lia|auto].
      * exists m. split; auto. destruct (Nat.eq_dec m (S k)) as [->|]; [contradiction|lia].
Qed.

Lemma can_access_text sc other :
  can_access_scope sc other = true <-> exists m, m <= length sc /\ str_cpp (firstn m sc) = str_cpp other.
Proof.
  unfold can_access_scope. rewrite <- (firstn_all sc) at 2. apply can_access_firstn. auto.
Qed.

Lemma str_cpp_inj a b : Forall clean a -> Forall clean b -> str_cpp a = str_cpp b -> a = b.
Proof.
  intros Ha Hb E.
  assert (Hs : forall l, Forall clean l -> l <> [] -> split colons (str_cpp l) = l).
  { intros l Hl Hne. apply (split_join colons ":"%char); auto; [discriminate|].
    eapply Forall_impl; [|exact Hl]. intros p [_ H]. exact H. }
  assert (Hn : forall l, Forall clean l -> l <> [] -> str_cpp l <> []).
  { intros l Hl Hne E0. specialize (Hs l Hl Hne). rewrite E0 in Hs. cbn in Hs. subst l.
    inversion Hl as [|? ? [H _] _]. congruence. }
  destruct a as [|x a], b as [|y b]; auto.
  - symmetry in E. apply Hn in E; auto; [contradiction|discriminate].
  - apply Hn in E; auto; [contradiction|discriminate].
  - rewrite <- (Hs (x :: a)), <- (Hs (y :: b)); auto; try discriminate. congruence.
Qed.

Lemma Forall_firstn {A} (P : A -> Prop) n l : Forall P l -> Forall P (firstn n l).
Proof.
  intros H. revert n. induction H as [|x l Hx Hl IH]; intros [|n]; cbn; auto.
Qed.

Lemma can_access_clean sc other : Forall clean sc -> Forall clean other ->
  can_access_scope sc other = true <-> In other (scope_hierarchy_list sc).
Proof.
  intros Hs Ho. rewrite can_access_text, hierarchy_In. split; intros (m & Hm & E); exists m; split; auto.
  - symmetry. apply str_cpp_inj; auto using Forall_firstn.
  - subst; auto.
Qed.

Lemma from_string_text s : str_cpp (from_string s) = s.
Proof. apply join_split. discriminate. Qed.

Lemma from_string_parts sc : Forall clean sc -> sc <> [] -> from_string (str_cpp sc) = sc.
Proof.
  intros H Hne. apply (split_join colons ":"%char); auto; [discriminate|].
  eapply Forall_impl; [|exact H]. intros p [_ Hp]. exact Hp.
Qed.

(** *** The token reader *)

Lemma word_not_special c : is_word c = true ->
  ceqb c dq = false /\ ceqb c "/" = false /\ ceqb c nl = false /\ ceqb c ":" = false.
Proof.
  intros H. repeat split; apply ceqb_false; intros ->; discriminate H.
Qed.

Lemma scan_units f us : forall s tok,
  Forall (fun u => match u with UChar c => is_word c = true | UColons => True end) us ->
  scan_code f (word_text us ++ s) false false tok = scan_code f s false false (tok ++ word_text us).
Proof.
  induction us as [|u us IH]; intros s tok H.
  - cbn. rewrite app_nil_r. auto.
  - inversion H as [|? ? Hu Hus]; subst. destruct u as [c|]; cbn [word_text flat_map unit_text].
    + destruct (word_not_special c Hu) as (E1 & E2 & _).
      cbn [app scan_code]. rewrite E1, E2. cbn [andb orb negb].
      unfold is_word in Hu. rewrite Hu. rewrite IH by auto. rewrite <- app_assoc. reflexivity.
    + rewrite <- app_assoc. cbn [app scan_code].
      change (ceqb ":" dq) with false. change (ceqb ":" "/") with false.
      cbn [andb orb negb]. change (is_alnum ":" || ceqb ":" "_") with false.
      change (ceqb ":" ":" && ceqb ":" ":") with true. cbn iota.
      rewrite IH by auto. rewrite <- app_assoc. reflexivity.
Qed.

Lemma lit_body_no_dq s : lit_body s -> ~ In dq s.
Proof.
  induction 1 as [|c s H1 H2 H IH|c s H1 H IH]; cbn; auto.
  - intros [E|E]; auto.
  - intros [E|[E|E]]; auto. discriminate E.
Qed.

Lemma scan_lit f body s : ~ In dq body -> forall tok,
  scan_code f (body ++ [dq] ++ s) true false tok = body ++ flush f tok ++ [dq] ++ scan_code f s false false [].
Proof.
  intros H. induction body as [|c body IH]; intros tok.
  - cbn [app scan_code]. change (ceqb dq dq) with true. change (ceqb dq "/") with false.
    cbn [andb negb orb]. change (is_alnum dq || ceqb dq "_") with false. cbn iota.
    change (ceqb dq ":") with false. cbn [andb]. destruct s; reflexivity.
  - cbn [app scan_code]. cbn in H. destruct (ceqb_spec c dq) as [->|Hc]; [tauto|].
    cbn [andb negb orb]. rewrite !andb_false_r. cbn [negb andb].
    specialize (IH ltac:(tauto) tok). cbn [app] in IH. destruct (ceqb c nl); f_equal; exact IH.
Qed.

Lemma scan_comment f body s : ~ In nl body -> forall in_str tok,
  match s with [] => True | c :: _ => c = nl end ->
  scan_code f (body ++ s) in_str true tok =
  body ++ match s with [] => flush f tok | c :: s' => c :: scan_code f s' in_str false tok end.
Proof.
  intros H. induction body as [|c body IH]; intros in_str tok Hs.
  - cbn [app]. destruct s as [|c s]; [reflexivity|]. subst c. cbn [scan_code].
    rewrite andb_false_r. cbn [orb negb]. rewrite andb_false_r. reflexivity.
  - cbn [app scan_code]. rewrite andb_false_r. cbn [orb negb]. rewrite andb_false_r.
    cbn in H. destruct (ceqb_spec c nl) as [->|Hc]; [tauto|]. rewrite IH by tauto. reflexivity.
Qed.

Lemma scan_other f c s tok :
  is_word c = false -> c <> dq ->
  (c = ":"%char -> hd_error s <> Some ":"%char) -> (c = "/"%char -> hd_error s <> Some "/"%char) ->
  scan_code f (c :: s) false false tok = flush f tok ++ c :: scan_code f s false false [].
Proof.
  intros Hw Hd Hc Hs. cbn [scan_code].
  apply ceqb_false in Hd. rewrite Hd. cbn [andb negb orb]. rewrite andb_true_r.
  assert (E : ceqb c "/" && next_is "/" s = false).
  { destruct (ceqb_spec c "/") as [->|]; auto. destruct s as [|d s]; auto. cbn.
    apply ceqb_false. intros ->. apply (Hs eq_refl eq_refl). }
  rewrite E. cbn [negb andb]. unfold is_word in Hw. rewrite Hw.
  destruct s as [|d s]; auto.
  assert (E' : ceqb c ":" && ceqb d ":" = false).
  { destruct (ceqb_spec c ":") as [->|]; auto. cbn [andb].
    apply ceqb_false. intros ->. apply (Hc eq_refl eq_refl). }
  rewrite E'. auto.
Qed.

Lemma word_text_ne us : us <> [] -> exists c t, word_text us = c :: t.
Proof. destruct us as [|[c|] us]; intros H; [congruence| |]; cbn; eauto. Qed.

Lemma flush_word f us : us <> [] -> flush f (word_text us) = f (word_text us).
Proof. intros H. destruct (word_text_ne us H) as (c & t & ->). auto. Qed.

Lemma scan_text f ls : wf ls ->
  scan_code f (text ls) false false [] = flat_map (on_words f) ls /\
  (forall us, us <> [] -> match ls with [] | Other _ :: _ => True | _ => False end ->
   scan_code f (text ls) false false (word_text us) = f (word_text us) ++ flat_map (on_words f) ls).
Proof.
  induction ls as [|l ls IH]; intros H.
  - split; auto. intros us Hu _. cbn. rewrite app_nil_r. apply flush_word. auto.
  - destruct l as [us|c|body|body].
    + destruct H as (Hne & Hus & Hnext & Hr). destruct (IH Hr) as [_ IH2]. split; [|contradiction].
      change (text (Word us :: ls)) with (word_text us ++ text ls).
      rewrite scan_units by auto. cbn [app]. rewrite IH2; auto.
    + destruct H as (Hw & Hd & _ & Hc & Hs & Hr). destruct (IH Hr) as [IH1 _].
      change (text (Other c :: ls)) with (c :: text ls).
      split; [|intros us Hu _]; rewrite scan_other; auto; try (intros E; apply Hs; exact E).
      * rewrite IH1. auto.
      * rewrite IH1, flush_word; auto.
    + destruct H as (Hb & Hr). destruct (IH Hr) as [IH1 _]. split; [|contradiction].
      change (text (Lit body :: ls)) with (([dq] ++ body ++ [dq]) ++ text ls).
      rewrite <- !app_assoc. cbn [app].
      transitivity (dq :: scan_code f (body ++ [dq] ++ text ls) true false []).
      * cbn [scan_code]. change (ceqb dq dq) with true. change (ceqb dq "/") with false. reflexivity.
      * rewrite scan_lit by (apply lit_body_no_dq; auto). cbn [flush app]. rewrite IH1.
        cbn [flat_map on_words lexeme_text]. cbn [app]. rewrite <- app_assoc. reflexivity.
    + destruct H as (Hb & Hnext & Hr). destruct (IH Hr) as [IH1 _]. split; [|contradiction].
      change (text (Com body :: ls)) with ((["/"; "/"]%char ++ body) ++ text ls).
      assert (Hn : match text ls with [] => True | c :: _ => c = nl end).
      { destruct ls as [|[us|c|b|b] ls]; try contradiction; cbn; auto. }
      rewrite <- app_assoc. cbn [app].
      transitivity ("/"%char :: scan_code f ("/"%char :: body ++ text ls) false true []).
      * reflexivity.
      * rewrite (scan_comment f ("/"%char :: body) (text ls)); auto.
        2:{ intros [E|E]; [discriminate|auto]. }
        cbn [flat_map on_words lexeme_text app]. f_equal. f_equal.
        rewrite <- IH1. destruct (text ls) as [|c t] eqn:Et; auto. subst c.
        f_equal. symmetry. apply (scan_other f nl t []); auto; discriminate.
Qed.

Lemma scan_lexemes f ls : wf ls -> scan_code f (text ls) false false [] = flat_map (on_words f) ls.
Proof. intros H. apply scan_text. auto. Qed.

(** *** Lookup of one token *)

Lemma candidate_prefix sc n tok : n <= length sc ->
  candidate sc n tok = str_cpp_prefix (firstn n sc) ++ tok.
Proof.
  intros Hn. unfold candidate, str_cpp_prefix. destruct (firstn n sc) as [|x l]; [reflexivity|].
  rewrite join_app by discriminate. cbn [join]. unfold str_cpp, colons. rewrite <- app_assoc. auto.
Qed.

Lemma matches_iff id sc tok :
  token_matches id (scope_hierarchy_prefix_list sc) tok = true <->
  startswith colons tok = false /\ exists n, n <= length sc /\ id = candidate sc n tok.
Proof.
  unfold token_matches, scope_hierarchy_prefix_list. destruct (startswith colons tok) eqn:E.
  - split; [discriminate|]. intros [? _]. discriminate.
  - rewrite existsb_exists. split.
    + intros (p & Hp & Ep). split; auto. apply in_map_iff in Hp as (a & <- & Ha).
      apply hierarchy_In in Ha as (n & Hn & ->). exists n. split; auto.
      rewrite candidate_prefix by auto. symmetry. apply seqb_true. auto.
    + intros [_ (n & Hn & ->)]. exists (str_cpp_prefix (firstn n sc)). split.
      * apply in_map, hierarchy_In. eauto.
      * apply seqb_true. rewrite candidate_prefix; auto.
Qed.

Lemma fold_no_match {A} (f : A -> str -> bool) (g : A -> str) ids t :
  (forall id, In id ids -> f id t = false) ->
  fold_left (fun t id => if f id t then g id else t) ids t = t.
Proof.
  induction ids as [|id ids IH]; intros H; cbn; auto.
  rewrite H by (left; auto). apply IH. intros x Hx. apply H. right; auto.
Qed.

Lemma qualify_token_none ids sc tok : lookup_fails ids sc tok ->
  qualify_token ids (scope_hierarchy_prefix_list sc) tok = tok.
Proof.
  intros H. unfold qualify_token.
  apply (fold_no_match (fun id t => token_matches id (scope_hierarchy_prefix_list sc) t) (fun id => id)).
  intros id Hid. destruct (token_matches id _ tok) eqn:E; auto.
  apply matches_iff in E as (_ & n & Hn & ->). destruct (H n Hn Hid).
Qed.

Lemma qualify_token_absolute ids sc tok : startswith colons tok = true ->
  qualify_token ids (scope_hierarchy_prefix_list sc) tok = tok.
Proof.
  intros H. unfold qualify_token.
  apply (fold_no_match (fun id t => token_matches id (scope_hierarchy_prefix_list sc) t) (fun id => id)).
  intros id _. unfold token_matches. rewrite H. auto.
Qed.

Lemma qualify_token_cons id ids h tok :
  qualify_token (id :: ids) h tok = qualify_token ids h (if token_matches id h tok then id else tok).
Proof. reflexivity. Qed.

Lemma qualify_token_reached ids0 sc ids tok : incl ids ids0 ->
  reached ids0 sc tok (qualify_token ids (scope_hierarchy_prefix_list sc) tok).
Proof.
  revert tok. induction ids as [|id ids IH]; intros tok H; [constructor|]. rewrite qualify_token_cons.
  assert (Hi : incl ids ids0) by (intros x Hx; apply H; right; auto).
  destruct (token_matches id (scope_hierarchy_prefix_list sc) tok) eqn:E; [|apply IH; auto].
  apply matches_iff in E as (_ & n & Hn & ->).
  eapply reached_step; eauto. apply H. left; auto.
Qed.

Lemma candidate_0 sc t : candidate sc 0 t = t.
Proof. reflexivity. Qed.

Lemma no_chain_stable ids0 sc ids id : no_chain ids0 sc -> incl ids ids0 -> In id ids0 ->
  qualify_token ids (scope_hierarchy_prefix_list sc) id = id.
Proof.
  intros Hc. revert id. induction ids as [|x ids IH]; intros id Hi Hid; [reflexivity|]. rewrite qualify_token_cons.
  assert (Hi' : incl ids ids0) by (intros y Hy; apply Hi; right; auto).
  destruct (token_matches x (scope_hierarchy_prefix_list sc) id) eqn:E; [|apply IH; auto].
  apply matches_iff in E as (_ & n & Hn & E). destruct n as [|n].
  - rewrite candidate_0 in E. subst x. apply IH; auto.
  - destruct (Hc id (S n) Hid ltac:(lia)). rewrite <- E. apply Hi. left; auto.
Qed.

(** Without chains, the first known name (in declaration order) among the candidates is taken. *)
Lemma qualify_token_first ids sc tok before id after n :
  no_chain ids sc -> startswith colons tok = false ->
  ids = before ++ id :: after -> n <= length sc -> id = candidate sc n tok ->
  (forall m, m <= length sc -> ~ In (candidate sc m tok) before) ->
  qualify_token ids (scope_hierarchy_prefix_list sc) tok = id.
Proof.
  intros Hc Ha Hids Hn Hid Hb.
  unfold qualify_token. rewrite Hids at 1. rewrite fold_left_app.
  change (fold_left _ before tok) with (qualify_token before (scope_hierarchy_prefix_list sc) tok).
  rewrite qualify_token_none by exact Hb. cbn [fold_left].
  assert (E : token_matches id (scope_hierarchy_prefix_list sc) tok = true)
    by (apply matches_iff; eauto).
  rewrite E. apply (no_chain_stable ids sc after id Hc).
  - rewrite Hids. intros x Hx. apply in_or_app. right. right. auto.
  - rewrite Hids. apply in_or_app. right. left. auto.
Qed.

Lemma split_at_first (P : str -> Prop) (Pd : forall x, {P x} + {~ P x}) l x :
  In x l -> P x -> exists a y b, l = a ++ y :: b /\ P y /\ forall z, In z a -> ~ P z.
Proof.
  induction l as [|h l IH]; intros Hin Hx; [destruct Hin|].
  destruct (Pd h) as [Hh|Hh].
  - exists [], h, l. split; [reflexivity|]. split; [exact Hh|intros z []].
  - destruct Hin as [->|Hin]; [contradiction|].
    destruct (IH Hin Hx) as (a & y & b & -> & Hy & Hz).
    exists (h :: a), y, b. split; [reflexivity|]. split; [exact Hy|]. intros z [<-|Hz']; auto.
Qed.

Lemma qualify_token_lookup ids sc tok :
  no_chain ids sc -> startswith colons tok = false ->
  forall before id after, ids = before ++ id :: after ->
  (forall m, m <= length sc -> ~ In (candidate sc m tok) before) ->
  lookup_finds ids sc tok id ->
  qualify_token ids (scope_hierarchy_prefix_list sc) tok = id.
Proof.
  intros Hc Ha before id after Hids Hb (n & Hn & E & _ & _).
  eapply qualify_token_first; eauto.
Qed.

Lemma lookup_unique_candidate ids sc tok id :
  no_chain ids sc -> startswith colons tok = false ->
  lookup_finds ids sc tok id ->
  (forall m, m <= length sc -> In (candidate sc m tok) ids -> candidate sc m tok = id) ->
  qualify_token ids (scope_hierarchy_prefix_list sc) tok = id.
Proof.
  intros Hc Ha (n & Hn & E & Hin & _) Hu.
  destruct (split_at_first (fun x => x = id)
              (fun x => match seqb_spec x id with ReflectT _ e => left e | ReflectF _ e => right e end)
              ids id Hin eq_refl)
    as (a & y & b & Hids & -> & Hz).
  eapply qualify_token_first; eauto.
  intros m Hm Hin'. apply (Hz _ Hin'). apply Hu; auto. rewrite Hids. apply in_or_app. auto.
Qed.
