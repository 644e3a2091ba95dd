(** Proofs about trailing comments: C++ (insertion before //) and Python (alignment). *)
From Verif Require Import PyStr PyStrLemmas RegionsModel RegionsSpec RegionsProofs TextModel TextSpec
  TextProofs TextProofs2.

(** *** C++ comment position *)

Definition last_is (c : ascii) (last : option ascii) : bool :=
  match last with Some l => ceqb l c | None => false end.

Lemma scan_lex n : forall s i in_string last, length s <= n ->
  last_is bsl last = false ->
  (in_string = false -> last_is "/" last = true ->
     match s with c :: _ => c <> "/"%char | [] => True end) ->
  simple_escapes in_string s = true ->
  cpp_comment_scan s i in_string last = lex_comment in_string s i.
Proof.
  induction n as [|n IH]; intros s i st last Hl Hb Hs He.
  { destruct s; [reflexivity|cbn in Hl; lia]. }
  destruct s as [|c s]; [reflexivity|].
  assert (HB : match last with Some l => ceqb l bsl | None => false end = false) by exact Hb.
  cbn [cpp_comment_scan lex_comment]. cbn [simple_escapes] in He. rewrite HB. cbn [negb].
  rewrite andb_true_r. cbn [length] in Hl.
  destruct st.
  - (* inside a string *)
    destruct (ceqb_spec c bsl) as [->|Hcb].
    + change (ceqb bsl dq) with false. change (ceqb bsl "/") with false. cbn [negb andb].
      destruct s as [|d s]; [reflexivity|].
      apply andb_true_iff in He as [Hd He]. apply negb_true_iff in Hd.
      cbn [cpp_comment_scan]. rewrite ceqb_refl. cbn [negb]. rewrite andb_false_r.
      change (ceqb bsl "/") with false. rewrite andb_false_r. cbn [andb].
      cbn [length] in Hl. apply IH; [lia|exact Hd|discriminate|exact He].
    + destruct (ceqb_spec c dq) as [->|Hcd].
      * cbn [negb]. change (ceqb dq "/") with false. cbn [andb].
        apply IH; [lia|reflexivity|intros _ H; discriminate|exact He].
      * cbn [negb]. rewrite andb_false_r.
        apply IH; [lia|cbn; apply ceqb_false; auto|discriminate|exact He].
  - destruct (ceqb_spec c bsl) as [->|Hcb]; [discriminate|].
    destruct (ceqb_spec c dq) as [->|Hcd].
    + cbn [negb]. rewrite andb_false_r.
      destruct s as [|d s]; [reflexivity|].
      change (ceqb dq "/") with false in He. cbn [andb] in He.
      apply IH; [cbn in *; lia|reflexivity|discriminate|exact He].
    + cbn [negb]. rewrite andb_true_r.
      specialize (Hs eq_refl).
      assert (Hns : ceqb c "/" && match last with Some l => ceqb l "/" | None => false end = false).
      { destruct (ceqb_spec c "/"%char) as [->|]; [|reflexivity]. cbn [andb].
        fold (last_is "/" last). destruct (last_is "/" last); [|auto]. exfalso. apply Hs; auto. }
      rewrite Hns. destruct s as [|d s]; [reflexivity|].
      destruct (ceqb_spec c "/"%char) as [->|Hcs].
      * destruct (ceqb_spec d "/"%char) as [->|Hds]; cbn [andb].
        -- cbn [cpp_comment_scan]. change (ceqb "/" dq) with false. cbn [andb negb].
           rewrite ceqb_refl. cbn [andb]. f_equal. lia.
        -- cbn [andb] in He. apply IH; [cbn in *; lia|reflexivity|auto|exact He].
      * cbn [andb] in *. apply IH; [cbn in *; lia|cbn; apply ceqb_false; auto| |exact He].
        intros _ H. cbn in H. apply ceqb_true in H. congruence.
Qed.

Lemma comment_position_lex line : simple_escapes false line = true ->
  line_cpp_comment_position line = lex_comment false line 0.
Proof. intros H. eapply scan_lex; eauto. intros _ E. discriminate. Qed.

Lemma lex_bound n : forall s i st p, length s <= n -> lex_comment st s i = Some p -> i <= p < i + length s.
Proof.
  induction n as [|n IH]; intros s i st p Hl E.
  { destruct s; [discriminate|cbn in Hl; lia]. }
  destruct s as [|c s]; [discriminate|]. cbn [lex_comment length] in *.
  destruct st.
  - destruct (ceqb c bsl).
    + destruct s as [|d s]; [discriminate|]. apply IH in E; cbn in *; lia.
    + apply IH in E; lia.
  - destruct (ceqb c dq); [apply IH in E; lia|].
    destruct s as [|d s]; [discriminate|].
    destruct (ceqb c "/" && ceqb d "/"); [inversion E; lia|]. apply IH in E; cbn in *; lia.
Qed.

Lemma back_rstrip line n : n <= length line -> back line n = length (rstrip (firstn n line)).
Proof.
  induction n as [|n IH]; intros H; [reflexivity|]. cbn [back].
  assert (E : firstn (S n) line = firstn n line ++ [nth n line sp]).
  { clear IH. revert n H. induction line as [|x line IHl]; intros n H; [cbn in H; lia|].
    destruct n; [reflexivity|]. cbn [firstn nth app]. f_equal. apply IHl. cbn in H. lia. }
  rewrite E. unfold rstrip. rewrite rev_app_distr. cbn [rev app dropwhile].
  destruct (is_space (nth n line sp)).
  - rewrite IH by lia. reflexivity.
  - rewrite rev_length. cbn [length]. rewrite rev_length, firstn_length_le by lia. auto.
Qed.

Lemma rstrip_prefix l : exists ws, l = rstrip l ++ ws /\ is_blank_line ws.
Proof. destruct (rstrip_decomp l) as (t & E & F & _). exists t. split; auto. Qed.

Lemma add_token_spec line item : simple_escapes false line = true ->
  exists code comment ws,
    line = code ++ comment /\
    match lex_comment false line 0 with
    | Some p => length code = p /\ startswith ($"//") comment = true
    | None => comment = []
    end /\
    code = rstrip code ++ ws /\ is_blank_line ws /\
    add_token_to_line item line = rstrip code ++ item ++ ws ++ comment.
Proof.
  intros He. unfold add_token_to_line, last_code_position_before_cpp_comment.
  rewrite (comment_position_lex line He).
  destruct (lex_comment false line 0) as [p|] eqn:E.
  - assert (Hp : p < length line) by (apply (lex_bound _ _ _ _ _ (le_n _)) in E; lia).
    destruct (rstrip_prefix (firstn p line)) as (ws & Hws & Hb).
    exists (firstn p line), (skipn p line), ws. rewrite firstn_skipn.
    rewrite back_rstrip by lia. repeat split; auto.
    + apply firstn_length_le. lia.
    + clear -E. assert (G : forall n s i st, length s <= n -> lex_comment st s i = Some p ->
          startswith ($"//") (skipn (p - i) s) = true).
      { induction n as [|n IH]; intros s i st Hl H.
        { destruct s; [discriminate|cbn in Hl; lia]. }
        destruct s as [|c s]; [discriminate|].
        pose proof (lex_bound _ _ _ _ _ (le_n _) H) as Hb. cbn [lex_comment length] in *.
        assert (Hskip : forall st', lex_comment st' s (S i) = Some p ->
                startswith ($"//") (skipn (p - i) (c :: s)) = true).
        { intros st' H'. pose proof (lex_bound _ _ _ _ _ (le_n _) H') as Hb'.
          replace (p - i) with (S (p - S i)) by lia. cbn [skipn]. eapply IH; eauto. lia. }
        destruct st.
        - destruct (ceqb c bsl).
          + destruct s as [|d s]; [discriminate|].
            pose proof (lex_bound _ _ _ _ _ (le_n _) H) as Hb'.
            replace (p - i) with (S (S (p - S (S i)))) by lia. cbn [skipn]. eapply IH; eauto.
            cbn in Hl. lia.
          + eauto.
        - destruct (ceqb c dq); [eauto|].
          destruct s as [|d s]; [discriminate|].
          destruct (ceqb c "/" && ceqb d "/") eqn:Es; [|eauto].
          inversion H; subst. rewrite Nat.sub_diag. cbn [skipn].
          apply andb_true_iff in Es as [E1 E2]. apply ceqb_true in E1, E2. subst.
          reflexivity. }
      specialize (G _ line 0 false (le_n _) E). rewrite Nat.sub_0_r in G. exact G.
    + assert (Hl : length (rstrip (firstn p line)) <= p).
      { assert (Hx : length (firstn p line) = length (rstrip (firstn p line)) + length ws)
          by (rewrite Hws at 1; apply app_length).
        rewrite firstn_length_le in Hx by lia. lia. }
      assert (Hline : line = rstrip (firstn p line) ++ ws ++ skipn p line).
      { rewrite app_assoc, <- Hws, firstn_skipn. auto. }
      set (r := rstrip (firstn p line)) in *. clearbody r.
      f_equal; [|f_equal].
      * rewrite Hline at 1. rewrite firstn_app, Nat.sub_diag, firstn_all. cbn. apply app_nil_r.
      * rewrite Hline at 1. rewrite skipn_app, Nat.sub_diag, skipn_all. reflexivity.
  - destruct (rstrip_prefix line) as (ws & Hws & Hb).
    exists line, [], ws. rewrite app_nil_r. repeat split; auto.
    set (r := rstrip line) in *. clearbody r. subst line. rewrite app_nil_r. f_equal; [|f_equal].
    + rewrite firstn_app, Nat.sub_diag, firstn_all. cbn. apply app_nil_r.
    + rewrite skipn_app, Nat.sub_diag, skipn_all. reflexivity.
Qed.

Lemma add_item_last_line code item pre line :
  code <> [] -> lines code = pre ++ [line] ->
  add_item_before_cpp_comment code item = unlines (pre ++ [add_token_to_line item line]).
Proof.
  intros Hne E. unfold add_item_before_cpp_comment. destruct code as [|c code]; [congruence|].
  rewrite E, rev_app_distr. cbn [rev app]. rewrite rev_involutive. auto.
Qed.

Lemma join_lines_with_token_eq ls last token :
  join_lines_with_token_before_cpp_comment (ls ++ [last]) token
  = unlines (map (add_token_to_line token) ls ++ [last]).
Proof.
  unfold join_lines_with_token_before_cpp_comment. rewrite rev_app_distr. cbn [rev app].
  rewrite rev_involutive. auto.
Qed.

(** *** Python comment alignment *)

Definition same_class (a b : ascii) : Prop :=
  (a = "#"%char <-> b = "#"%char) /\ is_space a = is_space b.

Lemma same_class_refl a : same_class a a.
Proof. split; tauto. Qed.

Lemma Forall2_trans {A} (R : A -> A -> Prop) a b c :
  (forall x y z, R x y -> R y z -> R x z) -> Forall2 R a b -> Forall2 R b c -> Forall2 R a c.
Proof.
  intros Ht H. revert c. induction H as [|x y a b Hxy H IH]; intros c Hc; inversion Hc; subst;
    constructor; eauto.
Qed.

Lemma same_class_trans x y z : same_class x y -> same_class y z -> same_class x z.
Proof. unfold same_class. intuition congruence. Qed.

Lemma neutral_pointwise l : Forall2 same_class l (neutral_quotes l).
Proof.
  assert (H1 : same_class dq "_") by (split; [split; discriminate|reflexivity]).
  assert (H2 : same_class sq "_") by (split; [split; discriminate|reflexivity]).
  assert (H3 : same_class sq dq) by (split; [split; discriminate|reflexivity]).
  pose proof same_class_refl as Hr. unfold neutral_quotes.
  eapply Forall2_trans; [exact same_class_trans| |eapply Forall2_trans; [exact same_class_trans| |]];
    apply replace_pointwise; auto; try discriminate; repeat constructor; auto;
    try (apply same_class_refl); split; auto; discriminate.
Qed.

Lemma neutral_length l : length (neutral_quotes l) = length l.
Proof. symmetry. eapply Forall2_length, neutral_pointwise. Qed.

Lemma neutral_sep a c b : c <> dq -> c <> sq ->
  neutral_quotes (a ++ c :: b) = neutral_quotes a ++ c :: neutral_quotes b.
Proof.
  intros Hd Hs. unfold neutral_quotes.
  rewrite !replace_sep; auto; try discriminate; cbn; intuition.
Qed.

Lemma neutral_nil : neutral_quotes [] = []. Proof. reflexivity. Qed.

Lemma neutral_spaces k b : neutral_quotes (spaces k ++ b) = spaces k ++ neutral_quotes b.
Proof.
  induction k as [|k IH]; [reflexivity|].
  change (spaces (S k) ++ b) with ([] ++ sp :: (spaces k ++ b)).
  rewrite neutral_sep by discriminate. rewrite IH. reflexivity.
Qed.

(** State of the scan after reading [s]. *)
Fixpoint scan_state (s : str) (st seen : bool) : bool * bool :=
  match s with
  | [] => (st, seen)
  | c :: s' => scan_state s' (if ceqb c dq then negb st else st) (seen || negb (is_space c))
  end.

Lemma scan_app skip x y : forall i st seen,
  py_comment_scan skip (x ++ y) i st seen =
  match py_comment_scan skip x i st seen with
  | Some p => Some p
  | None => py_comment_scan skip y (i + length x) (fst (scan_state x st seen))
                                                  (snd (scan_state x st seen))
  end.
Proof.
  induction x as [|c x IH]; intros i st seen.
  - cbn. rewrite Nat.add_0_r. reflexivity.
  - cbn [app py_comment_scan scan_state length]. destruct (ceqb c "#" && _ && _); auto.
    rewrite IH. rewrite Nat.add_succ_r. reflexivity.
Qed.

Lemma scan_bound skip s : forall i st seen p,
  py_comment_scan skip s i st seen = Some p ->
  exists a b, s = a ++ "#"%char :: b /\ p = i + length a /\
    py_comment_scan skip a i st seen = None /\
    fst (scan_state a st seen) = false /\ negb skip || snd (scan_state a st seen) = true.
Proof.
  induction s as [|c s IH]; intros i st seen p E; [discriminate|].
  cbn [py_comment_scan] in E.
  destruct (ceqb c "#" && negb (if ceqb c dq then negb st else st) && (negb skip || seen)) eqn:Ec.
  - inversion E; subst. apply andb_true_iff in Ec as [Ec Hseen]. apply andb_true_iff in Ec as [Ec Hst].
    apply ceqb_true in Ec. subst c. exists [], s. cbn in *. apply negb_true_iff in Hst.
    repeat split; auto.
  - apply IH in E as (a & b & -> & -> & Hn & H1 & H2). exists (c :: a), b.
    repeat split; auto; [cbn; lia|]. cbn [py_comment_scan]. rewrite Ec. auto.
Qed.

Lemma Forall2_app_l {A B} (R : A -> B -> Prop) l a b :
  Forall2 R l (a ++ b) -> exists l1 l2, l = l1 ++ l2 /\ Forall2 R l1 a /\ Forall2 R l2 b.
Proof.
  revert l; induction a as [|x a IH]; intros l H; cbn in H.
  - exists [], l. auto.
  - inversion H as [|y ? l' ? Hx H']; subst. apply IH in H' as (l1 & l2 & -> & H1 & H2).
    exists (y :: l1), l2. auto.
Qed.

(** Where the position is, in terms of the line itself. *)
Lemma eol_position_split l p : line_python_comment_eol_position l = Some p ->
  exists a b, l = a ++ "#"%char :: b /\ length a = p /\
    py_comment_scan true (neutral_quotes a) 0 false false = None /\
    scan_state (neutral_quotes a) false false = (false, true).
Proof.
  unfold line_python_comment_eol_position, line_python_comment_position. intros H.
  apply scan_bound in H as (x & y & E & -> & Hn & H1 & H2).
  pose proof (neutral_pointwise l) as F. rewrite E in F.
  apply Forall2_app_l in F as (a & b0 & -> & Fa & Fb).
  inversion Fb as [|c ? b ? Hc Hb]; subst.
  assert (c = "#"%char) by (apply Hc; auto). subst c.
  rewrite neutral_sep in E by discriminate.
  assert (neutral_quotes a = x).
  { apply Forall2_length in Fa. rewrite <- (neutral_length a) in Fa.
    apply (f_equal (firstn (length x))) in E.
    rewrite <- Fa in E at 1. rewrite !firstn_app, !Nat.sub_diag, !firstn_all in E. cbn in E.
    rewrite !app_nil_r in E. auto. }
  subst x. exists a, b. rewrite neutral_length. repeat split; auto.
  cbn [negb orb] in H2. destruct (scan_state (neutral_quotes a) false false); cbn in *; congruence.
Qed.

Lemma scan_state_spaces k st : scan_state (spaces k) st true = (st, true).
Proof. induction k; cbn; auto. Qed.

Lemma scan_spaces k : forall i st, py_comment_scan true (spaces k) i st true = None.
Proof. induction k; intros; cbn; auto. Qed.

Lemma scan_at_hash skip b i : py_comment_scan skip ("#"%char :: b) i false true = Some i.
Proof. cbn [py_comment_scan]. cbn. rewrite orb_true_r. auto. Qed.

Lemma eol_position_padded a b k :
  py_comment_scan true (neutral_quotes a) 0 false false = None ->
  scan_state (neutral_quotes a) false false = (false, true) ->
  line_python_comment_eol_position (a ++ spaces k ++ "#"%char :: b) = Some (length a + k).
Proof.
  intros Hn Hs. unfold line_python_comment_eol_position, line_python_comment_position.
  assert (E : neutral_quotes (a ++ spaces k ++ "#"%char :: b)
              = neutral_quotes a ++ spaces k ++ "#"%char :: neutral_quotes b).
  { destruct k as [|k].
    - cbn [spaces repeat app]. apply neutral_sep; discriminate.
    - change (spaces (S k) ++ "#"%char :: b) with (sp :: (spaces k ++ "#"%char :: b)).
      rewrite neutral_sep by discriminate. rewrite neutral_spaces.
      pose proof (neutral_sep [] "#"%char b) as Hh. cbn [app] in Hh.
      rewrite Hh by discriminate. rewrite neutral_nil. reflexivity. }
  rewrite E, scan_app, Hn, Hs. cbn [fst snd]. rewrite scan_app, scan_spaces, scan_state_spaces.
  cbn [fst snd]. rewrite scan_at_hash. f_equal. rewrite neutral_length. unfold spaces.
  rewrite repeat_length. lia.
Qed.

Lemma opt_max_In ps p : In (Some p) ps -> exists m, opt_max ps = Some m /\ p <= m.
Proof.
  induction ps as [|q ps IH]; intros H; [destruct H|].
  destruct H as [->|H].
  - cbn. destruct (fold_right _ _ _) as [m|]; eexists; split; eauto; lia.
  - destruct (IH H) as (m & E & Hm). unfold opt_max in *. cbn [fold_right]. rewrite E.
    destruct q as [q|]; eexists; split; eauto; lia.
Qed.

Lemma opt_max_mem ps m : opt_max ps = Some m -> In (Some m) ps.
Proof.
  revert m; induction ps as [|q ps IH]; intros m E; [discriminate|].
  unfold opt_max in *. cbn [fold_right] in E.
  destruct (fold_right _ None ps) as [m'|].
  - specialize (IH m' eq_refl). destruct q as [q|]; [|inversion E; subst; right; auto].
    inversion E; subst. destruct (Nat.max_spec q m') as [[_ ->]|[_ ->]]; [right|left]; auto.
  - destruct q as [q|]; [|discriminate]. inversion E; subst. left; auto.
Qed.

Lemma opt_max_none ps : opt_max ps = None -> Forall (fun p => p = None) ps.
Proof.
  induction ps as [|q ps IH]; intros E; constructor.
  - unfold opt_max in E. cbn in E. destruct q; auto. destruct (fold_right _ None ps); discriminate.
  - apply IH. unfold opt_max in *. cbn in E. destruct q; auto.
    destruct (fold_right _ None ps); discriminate.
Qed.

Lemma align_line_some m l p : line_python_comment_eol_position l = Some p -> p <= m ->
  exists a b, l = a ++ "#"%char :: b /\ length a = p /\
    align_line m l = a ++ spaces (m - p) ++ "#"%char :: b /\
    py_comment_scan true (neutral_quotes a) 0 false false = None /\
    scan_state (neutral_quotes a) false false = (false, true).
Proof.
  intros E Hm. destruct (eol_position_split l p E) as (a & b & -> & Hp & Hn & Hs).
  exists a, b. repeat split; auto. unfold align_line. rewrite E. subst p.
  rewrite firstn_app, Nat.sub_diag, firstn_all. cbn [firstn]. rewrite app_nil_r.
  rewrite skipn_app. rewrite skipn_all2 by lia.
  replace (length a + 1 - length a) with 1 by lia. reflexivity.
Qed.

Lemma align_lines m code : opt_max (map line_python_comment_eol_position (lines code)) = Some m ->
  lines (align_python_comments_in_block code) = map (align_line m) (lines code).
Proof.
  intros E. unfold align_python_comments_in_block. rewrite E. apply lines_unlines.
  - apply map_nonempty, lines_nonempty.
  - apply Forall_map. apply Forall_forall. intros l Hl.
    pose proof (lines_no_nl code) as F. rewrite Forall_forall in F. specialize (F l Hl).
    destruct (line_python_comment_eol_position l) as [p|] eqn:Ep.
    + destruct (align_line_some m l p Ep) as (a & b & -> & _ & -> & _).
      { destruct (opt_max_In (map line_python_comment_eol_position (lines code)) p) as (m' & E' & Hm).
        - apply in_map_iff. eauto.
        - congruence. }
      intros H. apply F. apply in_app_or in H as [H|H]; [apply in_or_app; auto|].
      apply in_app_or in H as [H|H]; [apply repeat_spec in H; discriminate|].
      apply in_or_app. auto.
    + unfold align_line. rewrite Ep. auto.
Qed.

Lemma replace_id_fresh old new s c : In c old -> ~ In c s -> replace old new s = s.
Proof.
  intros Hc Hs. apply replace_no_occ. apply contains_false. intros a b ->. apply Hs.
  apply in_or_app. right. apply in_or_app. left. auto.
Qed.

Lemma neutral_plain a : Forall (fun c => c <> "#"%char /\ c <> dq /\ c <> "'"%char) a -> neutral_quotes a = a.
Proof.
  intros F. rewrite Forall_forall in F. unfold neutral_quotes.
  assert (Hd : ~ In dq a) by (intros H; apply F in H; tauto).
  assert (Hq : ~ In sq a) by (intros H; apply F in H; unfold sq in *; tauto).
  rewrite (replace_id_fresh [dq; dq; dq] _ a dq) by (cbn; auto).
  rewrite (replace_id_fresh [sq; sq; sq] _ a sq) by (cbn; auto).
  rewrite (replace_id_fresh [sq] _ a sq) by (cbn; auto). auto.
Qed.

Lemma scan_plain skip a : Forall (fun c => c <> "#"%char /\ c <> dq /\ c <> "'"%char) a ->
  forall i st seen, py_comment_scan skip a i st seen = None /\
    fst (scan_state a st seen) = st /\
    snd (scan_state a st seen) = seen || negb (blank a).
Proof.
  assert (Hb : forall c s, blank (c :: s) = is_space c && blank s).
  { intros c s. destruct (blank (c :: s)) eqn:E.
    - apply blank_Forall in E. inversion E as [|? ? Hc Hs]; subst. rewrite Hc.
      symmetry. apply blank_Forall. exact Hs.
    - symmetry. apply andb_false_iff. destruct (is_space c) eqn:Ec; auto. right.
      destruct (blank s) eqn:Es; auto. apply blank_Forall in Es.
      assert (blank (c :: s) = true) by (apply blank_Forall; constructor; auto). congruence. }
  induction 1 as [|c a (H1 & H2 & H3) _ IH]; intros i st seen.
  - cbn. rewrite orb_false_r. auto.
  - cbn [py_comment_scan scan_state]. apply ceqb_false in H1, H2. rewrite H1, H2. cbn [andb].
    destruct (IH (S i) st (seen || negb (is_space c))) as (I1 & I2 & I3).
    rewrite I1, I2, I3. repeat split; auto. rewrite Hb. rewrite negb_andb, orb_assoc. auto.
Qed.

Lemma plain_position l a b : plain_eol_comment l a b ->
  line_python_comment_eol_position l = Some (length a).
Proof.
  intros (-> & Hnb & F). change ($"#" ++ b) with ("#"%char :: b).
  destruct (scan_plain true a F 0 false false) as (H1 & H2 & H3).
  pose proof (eol_position_padded a b 0) as P. cbn [spaces repeat app] in P.
  rewrite Nat.add_0_r in P. apply P; rewrite neutral_plain by auto; auto.
  destruct (scan_state a false false); cbn in *. subst. f_equal.
  apply not_blank_iff in Hnb. rewrite Hnb. auto.
Qed.

Lemma scan_state_seen a : forall st, snd (scan_state a st false) = true -> ~ Forall (fun c => is_space c = true) a.
Proof.
  induction a as [|c a IH]; intros st H F; [discriminate|].
  inversion F as [|? ? Hc Ha]; subst. cbn [scan_state] in H. rewrite Hc in H. cbn in H.
  eapply IH; eauto.
Qed.

Lemma seen_not_blank a : scan_state (neutral_quotes a) false false = (false, true) -> ~ is_blank_line a.
Proof.
  intros H Hb. apply (scan_state_seen (neutral_quotes a) false); [rewrite H; auto|].
  pose proof (neutral_pointwise a) as F. unfold is_blank_line in Hb.
  clear H. induction F as [|x y a b [_ Hxy] F IH]; constructor; inversion Hb; subst.
  - congruence.
  - auto.
Qed.

Lemma align_spec code : exists col,
  Forall2 (fun l l' => moved_comment col l l' \/
                       (l' = l /\ forall a b, ~ plain_eol_comment l a b))
          (lines code) (lines (align_python_comments_in_block code)).
Proof.
  destruct (opt_max (map line_python_comment_eol_position (lines code))) as [m|] eqn:E.
  - exists m. rewrite (align_lines m) by auto.
    assert (G : forall l, In l (lines code) -> moved_comment m l (align_line m l) \/
                       (align_line m l = l /\ forall a b, ~ plain_eol_comment l a b)).
    { intros l Hl. destruct (line_python_comment_eol_position l) as [p|] eqn:Ep.
      - left. assert (Hm : p <= m).
        { destruct (opt_max_In (map line_python_comment_eol_position (lines code)) p) as (m' & E' & Hm).
          - apply in_map_iff. eauto.
          - congruence. }
        destruct (align_line_some m l p Ep Hm) as (a & b & El & Hp & Ea & Hn & Hs).
        exists a, b, (m - p). repeat split; auto; [lia|eapply seen_not_blank; eauto|].
        intros a0 b0 H0. pose proof (plain_position _ _ _ H0) as P. rewrite Ep in P.
        destruct H0 as (E0 & _). change ($"#" ++ b0) with ("#"%char :: b0) in E0.
        rewrite El in E0. inversion P as [P']. 
        apply (f_equal (firstn (length a))) in E0. rewrite firstn_app, Nat.sub_diag, firstn_all in E0.
        assert (Hlen : length a = length a0) by congruence.
        rewrite Hlen, firstn_app, Nat.sub_diag, firstn_all in E0. cbn in E0.
        rewrite !app_nil_r in E0. auto.
      - right. unfold align_line. rewrite Ep. split; auto.
        intros a b H. apply plain_position in H. congruence. }
    clear E. revert G. induction (lines code) as [|l ls IH]; intros G; cbn [map]; constructor.
    + apply G. left; auto.
    + apply IH. intros x Hx. apply G. right; auto.
  - exists 0. unfold align_python_comments_in_block. rewrite E.
    apply opt_max_none in E. rewrite Forall_map in E.
    induction E as [|l ls Hl _ IH]; constructor; auto.
    right. split; auto. intros a b H. apply plain_position in H. congruence.
Qed.

Lemma align_line_position m l p : line_python_comment_eol_position l = Some p -> p <= m ->
  line_python_comment_eol_position (align_line m l) = Some m.
Proof.
  intros E Hm. destruct (align_line_some m l p E Hm) as (a & b & _ & Hp & -> & Hn & Hs).
  rewrite eol_position_padded by auto. f_equal. lia.
Qed.

Lemma align_line_again m l p : line_python_comment_eol_position l = Some p -> p <= m ->
  align_line m (align_line m l) = align_line m l.
Proof.
  intros E Hm. pose proof (align_line_position m l p E Hm) as P.
  destruct (align_line_some m _ m P (le_n _)) as (a & b & El & Hp & Ea & _).
  rewrite Ea, Nat.sub_diag. cbn [spaces repeat app]. auto.
Qed.

Lemma align_idem code :
  align_python_comments_in_block (align_python_comments_in_block code) = align_python_comments_in_block code.
Proof.
  destruct (opt_max (map line_python_comment_eol_position (lines code))) as [m|] eqn:E.
  - assert (Hle : forall l p, In l (lines code) -> line_python_comment_eol_position l = Some p -> p <= m).
    { intros l p Hl Ep.
      destruct (opt_max_In (map line_python_comment_eol_position (lines code)) p) as (m' & E' & Hm).
      - apply in_map_iff. eauto.
      - congruence. }
    pose proof (align_lines m code E) as L.
    assert (E2 : opt_max (map line_python_comment_eol_position
                           (lines (align_python_comments_in_block code))) = Some m).
    { rewrite L, map_map.
      assert (Hm : map (fun x => line_python_comment_eol_position (align_line m x)) (lines code)
                   = map (fun x => match line_python_comment_eol_position x with
                                   | Some _ => Some m | None => None end) (lines code)).
      { apply map_ext_in. intros l Hl. destruct (line_python_comment_eol_position l) as [p|] eqn:Ep.
        - eapply align_line_position; eauto.
        - unfold align_line. rewrite Ep. auto. }
      rewrite Hm. apply opt_max_mem in E. apply in_map_iff in E as (l & El & Hl).
      destruct (opt_max_In (map (fun x => match line_python_comment_eol_position x with
                                   | Some _ => Some m | None => None end) (lines code)) m)
        as (m2 & E2 & Hm2).
      { apply in_map_iff. exists l. rewrite El. auto. }
      rewrite E2. apply opt_max_mem in E2. apply in_map_iff in E2 as (l2 & El2 & _).
      destruct (line_python_comment_eol_position l2); congruence. }
    rewrite <- (unlines_lines (align_python_comments_in_block (align_python_comments_in_block code))).
    rewrite (align_lines m _ E2). rewrite L.
    rewrite <- (unlines_lines (align_python_comments_in_block code)), L.
    f_equal. rewrite map_map. apply map_ext_in. intros l Hl.
    destruct (line_python_comment_eol_position l) as [p|] eqn:Ep.
    + eapply align_line_again; eauto.
    + unfold align_line. rewrite Ep, Ep. auto.
  - assert (align_python_comments_in_block code = code) as ->
      by (unfold align_python_comments_in_block; rewrite E; auto).
    unfold align_python_comments_in_block. rewrite E. auto.
Qed.
