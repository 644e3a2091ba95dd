(** Proofs about comments and spaces. *)
From Verif Require Import PyStr PyStrLemmas RegionsModel RegionsSpec RegionsProofs TextModel TextSpec
  TextProofs.

(** *** One-line C string literals *)

Definition lit_char (c : ascii) : str :=
  if ceqb c nl then [bsl; "n"%char] else if ceqb c dq then [bsl; dq] else [c].

Lemma replace_chain c : replace [dq] [bsl; dq] (replace [nl] [bsl; "n"%char] c) = flat_map lit_char c.
Proof.
  rewrite !replace_single_char. induction c as [|x c IH]; [reflexivity|].
  cbn [flat_map]. rewrite flat_map_app, IH. f_equal. unfold lit_char.
  destruct (ceqb x nl); cbn; [reflexivity|]. destruct (ceqb x dq); reflexivity.
Qed.

(** Quotes are preceded by a backslash. *)
Fixpoint guarded (prev : bool) (s : str) : bool :=
  match s with
  | [] => true
  | c :: s' => (if ceqb c dq then prev else true) && guarded (ceqb c bsl) s'
  end.

Lemma guarded_weaken s : guarded false s = true -> forall b, guarded b s = true.
Proof.
  destruct s as [|c s]; auto. cbn. intros H b. apply andb_true_iff in H as [H1 H2].
  rewrite H2. destruct (ceqb c dq); [discriminate|]. auto.
Qed.

Lemma guarded_lit c : forall b, guarded b (flat_map lit_char c) = true.
Proof.
  induction c as [|x c IH]; intros b; [reflexivity|]. cbn [flat_map]. unfold lit_char at 1.
  destruct (ceqb x nl); [cbn; apply IH|]. destruct (ceqb x dq) eqn:E; cbn; [apply IH|].
  rewrite E. cbn. apply IH.
Qed.

Lemma lit_no_nl c : ~ In nl (flat_map lit_char c).
Proof.
  rewrite in_flat_map. intros (x & _ & H). unfold lit_char in H.
  destruct (ceqb_spec x nl); [cbn in H; intuition discriminate|].
  destruct (ceqb_spec x dq); cbn in H; intuition (try discriminate; congruence).
Qed.

(** [closed_literal] where escaped characters are not white space. *)
Inductive closed2 : str -> Prop :=
| c2_nil : closed2 []
| c2_plain c b : c <> nl -> c <> dq -> c <> bsl -> closed2 b -> closed2 (c :: b)
| c2_escape c b : is_space c = false -> closed2 b -> closed2 (bsl :: c :: b).

Lemma closed2_closed b : closed2 b -> closed_literal b.
Proof.
  induction 1 as [| |c b Hc Hb IH]; [apply cl_nil|apply cl_plain; auto|apply cl_escape; auto].
  intros ->. discriminate.
Qed.

Lemma kept_not_bsl c : kept_escape c = true -> c <> bsl /\ is_space c = false.
Proof.
  unfold kept_escape. cbn. rewrite !orb_true_iff, !ceqb_true.
  intros H. repeat (destruct H as [->|H]; [split; [discriminate|reflexivity]|]). discriminate.
Qed.

Lemma escape_not_bsl c s : c <> bsl -> escape_pairs (c :: s) = c :: escape_pairs s.
Proof.
  intros H. apply ceqb_false in H. cbn [escape_pairs]. rewrite H. destruct s; reflexivity.
Qed.

Lemma escape_bsl c s :
  escape_pairs (bsl :: c :: s) = (if kept_escape c then [bsl] else [bsl; bsl]) ++ escape_pairs (c :: s).
Proof. cbn [escape_pairs]. rewrite ceqb_refl. cbn [andb]. destruct (kept_escape c); reflexivity. Qed.

Lemma escape_closed n s : length s <= n -> guarded false s = true -> ~ In nl s -> closed2 (escape_pairs s).
Proof.
  revert s; induction n as [|n IH]; intros s Hl Hg Hn.
  - destruct s; [constructor|cbn in Hl; lia].
  - destruct s as [|c s]; [constructor|].
    cbn [guarded] in Hg. apply andb_true_iff in Hg as [Hq Hg].
    assert (Hc : c <> dq) by (intros ->; discriminate).
    assert (Hcn : c <> nl) by (intros ->; apply Hn; left; auto).
    assert (Hn' : ~ In nl s) by (intros H; apply Hn; right; auto).
    cbn [length] in Hl.
    destruct (ceqb_spec c bsl) as [->|Hb].
    + destruct s as [|d s].
      * cbn. apply c2_escape; [reflexivity|constructor].
      * rewrite escape_bsl. destruct (kept_escape d) eqn:Ek.
        -- apply kept_not_bsl in Ek as [Hd Hs]. cbn [app]. rewrite escape_not_bsl by auto.
           apply c2_escape; auto. apply IH.
           ++ cbn [length] in *. lia.
           ++ cbn [guarded] in Hg. apply andb_true_iff in Hg as [_ Hg].
              apply ceqb_false in Hd. rewrite Hd in Hg. auto.
           ++ intros H. apply Hn'. right. auto.
        -- cbn [app]. apply c2_escape; [reflexivity|]. apply IH; auto; [lia|].
           cbn [guarded] in *. destruct (ceqb_spec d dq) as [->|Hd]; [discriminate|]. cbn in *. auto.
    + rewrite escape_not_bsl by auto. constructor; auto. apply IH; auto. lia.
Qed.

Lemma lstrip_closed2 b : closed2 b -> closed2 (lstrip b).
Proof.
  unfold lstrip. induction 1 as [|c b H1 H2 H3 Hb IH|c b Hc Hb IH]; cbn [dropwhile].
  - constructor.
  - destruct (is_space c); auto. constructor; auto.
  - cbn. apply c2_escape; auto.
Qed.

Lemma rstrip_cons c s : rstrip (c :: s) = if is_space c && match rstrip s with [] => true | _ => false end
                                        then [] else c :: rstrip s.
Proof.
  unfold rstrip. cbn [rev].
  destruct (dropwhile is_space (rev s)) as [|x t] eqn:E.
  - cbn [rev]. rewrite andb_true_r. apply dropwhile_nil in E. rewrite dropwhile_app_all by auto.
    cbn [dropwhile]. destruct (is_space c); reflexivity.
  - assert (H : dropwhile is_space (rev s ++ [c]) = (x :: t) ++ [c]).
    { pose proof (dropwhile_head is_space (rev s)) as Hh. rewrite E in Hh.
      pose proof (takewhile_dropwhile is_space (rev s)) as Ht. rewrite E in Ht.
      pose proof (takewhile_Forall is_space (rev s)) as Hf.
      rewrite <- Ht, <- app_assoc. rewrite dropwhile_app_all by auto.
      apply dropwhile_id. exact Hh. }
    rewrite H, rev_app_distr. cbn [rev app].
    destruct (rev t ++ [x]) eqn:E2; [destruct (rev t); discriminate|].
    rewrite andb_false_r. reflexivity.
Qed.

Lemma rstrip_cons_ns c s : is_space c = false -> rstrip (c :: s) = c :: rstrip s.
Proof. intros H. rewrite rstrip_cons, H. reflexivity. Qed.

Lemma rstrip_closed2 b : closed2 b -> closed2 (rstrip b).
Proof.
  induction 1 as [|c b H1 H2 H3 Hb IH|c b Hc Hb IH].
  - constructor.
  - rewrite rstrip_cons. destruct (is_space c && _); constructor; auto.
  - rewrite rstrip_cons_ns by reflexivity. rewrite rstrip_cons_ns by auto. apply c2_escape; auto.
Qed.

Lemma format_one_line_eq c :
  format_cpp_comment_on_one_line (Some c)
  = let b := escape_backslash_in_comments (flat_map lit_char c) in
    if contains [nl] c then b else strip b.
Proof. cbn [format_cpp_comment_on_one_line]. rewrite replace_chain. reflexivity. Qed.

Lemma escape_short s : s <> [bsl] -> escape_backslash_in_comments s = escape_pairs s.
Proof.
  destruct s as [|c [|d s]]; auto. intros H. cbn.
  destruct (ceqb_spec c bsl); [subst; congruence|auto].
Qed.

Lemma lit_not_bsl c : c <> [bsl] -> flat_map lit_char c <> [bsl].
Proof.
  intros H E. destruct c as [|x c]; [discriminate|]. cbn [flat_map] in E. unfold lit_char at 1 in E.
  destruct (ceqb x nl); [discriminate|]. destruct (ceqb x dq); [discriminate|].
  inversion E; subst. destruct c as [|y c]; [congruence|]. cbn [flat_map] in *. unfold lit_char at 1 in H2.
  destruct (ceqb y nl); [discriminate|]. destruct (ceqb y dq); discriminate.
Qed.

Lemma one_line_comment_closed c : c <> [bsl] -> closed_literal (format_cpp_comment_on_one_line (Some c)).
Proof.
  intros H. rewrite format_one_line_eq. rewrite escape_short by (apply lit_not_bsl; auto).
  assert (G : closed2 (escape_pairs (flat_map lit_char c))).
  { eapply escape_closed; [reflexivity|apply guarded_lit|apply lit_no_nl]. }
  cbv zeta. destruct (contains [nl] c); apply closed2_closed; auto.
  unfold strip. apply rstrip_closed2, lstrip_closed2. auto.
Qed.

(** No backslash of the comment is followed by a character that the code keeps as an escape. *)
Fixpoint no_user_escape (s : str) : Prop :=
  match s with
  | c1 :: ((c2 :: _) as s') =>
      (c1 = bsl -> ~ In c2 ["n"; "t"; "o"; "x"; "'"]%char) /\ no_user_escape s'
  | _ => True
  end.

Lemma escape_denotes c : no_user_escape c -> denotes (escape_pairs (flat_map lit_char c)) c.
Proof.
  induction c as [|x c IH]; intros H; [constructor|].
  assert (Hc : no_user_escape c) by (destruct c; [exact I|apply H]).
  specialize (IH Hc). cbn [flat_map]. unfold lit_char at 1.
  destruct (ceqb_spec x nl) as [->|Hn].
  - cbn [app]. rewrite escape_bsl. cbn [kept_escape existsb]. rewrite ceqb_refl. cbn [orb app].
    rewrite escape_not_bsl by discriminate. apply den_nl; auto.
  - destruct (ceqb_spec x dq) as [->|Hq].
    + cbn [app]. rewrite escape_bsl. change (kept_escape dq) with true. cbn [app].
      rewrite escape_not_bsl by discriminate. apply den_dq; auto.
    + cbn [app]. destruct (ceqb_spec x bsl) as [->|Hb].
      * destruct c as [|y c].
        -- cbn. apply den_bsl, den_nil.
        -- assert (E : exists z t, flat_map lit_char (y :: c) = z :: t /\ kept_escape z = false).
           { cbn [flat_map]. unfold lit_char at 1. destruct (ceqb_spec y nl) as [->|Hyn].
             - eexists _, _. split; [reflexivity|reflexivity].
             - destruct (ceqb_spec y dq) as [->|Hyq].
               + eexists _, _. split; [reflexivity|reflexivity].
               + eexists _, _. split; [reflexivity|].
                 cbn [no_user_escape] in H. destruct H as [H _]. specialize (H eq_refl).
                 unfold kept_escape. cbn in H |- *. unfold sq.
                 rewrite !orb_false_iff. repeat split; apply ceqb_false; intuition. }
           destruct E as (z & t & E & Hk). rewrite E in *. rewrite escape_bsl, Hk. cbn [app].
           apply den_bsl. auto.
      * rewrite escape_not_bsl by auto. apply den_plain; auto.
Qed.

Lemma denotes_nil_r b : denotes b [] -> b = [].
Proof. intros H. inversion H. auto. Qed.
Lemma denotes_nil_l t : denotes [] t -> t = [].
Proof. intros H. inversion H. auto. Qed.

Lemma denotes_lstrip b t : denotes b t -> ~ In nl t -> denotes (lstrip b) (lstrip t).
Proof.
  unfold lstrip.
  induction 1 as [|c b t H1 H2 H3 Hb IH|b t Hb IH|b t Hb IH|b t Hb IH]; intros Hn; cbn [dropwhile].
  - constructor.
  - destruct (is_space c); [apply IH; intros H; apply Hn; right; auto|]. constructor; auto.
  - cbn. apply den_bsl; auto.
  - cbn. apply den_dq; auto.
  - exfalso. apply Hn. left. auto.
Qed.

Lemma denotes_rstrip b t : denotes b t -> ~ In nl t -> denotes (rstrip b) (rstrip t).
Proof.
  induction 1 as [|c b t H1 H2 H3 Hb IH|b t Hb IH|b t Hb IH|b t Hb IH]; intros Hn.
  - constructor.
  - specialize (IH ltac:(intros H; apply Hn; right; auto)). rewrite !rstrip_cons.
    destruct (is_space c); cbn [andb]; [|constructor; auto].
    destruct (rstrip b) eqn:Eb, (rstrip t) eqn:Et.
    + constructor.
    + apply denotes_nil_l in IH. discriminate.
    + apply denotes_nil_r in IH. discriminate.
    + constructor; auto.
  - rewrite !rstrip_cons_ns by reflexivity. apply den_bsl. apply IH. intros H; apply Hn; right; auto.
  - rewrite !rstrip_cons_ns by reflexivity. apply den_dq. apply IH. intros H; apply Hn; right; auto.
  - exfalso. apply Hn. left. auto.
Qed.

Lemma lstrip_In x s : In x (lstrip s) -> In x s.
Proof.
  unfold lstrip. rewrite <- (takewhile_dropwhile is_space s) at 2. intros H. apply in_or_app. auto.
Qed.

Lemma one_line_comment_denotes c : no_user_escape c -> c <> [bsl] ->
  denotes (format_cpp_comment_on_one_line (Some c)) (if contains [nl] c then c else strip c).
Proof.
  intros H Hb. rewrite format_one_line_eq. rewrite escape_short by (apply lit_not_bsl; auto).
  cbv zeta. pose proof (escape_denotes c H) as G. destruct (contains [nl] c) eqn:E; auto.
  assert (Hn : ~ In nl c) by (intros Hin; apply contains_single in Hin; congruence).
  unfold strip. apply denotes_rstrip; [apply denotes_lstrip; auto|].
  intros Hin. apply Hn. apply lstrip_In. auto.
Qed.

(** *** Spaces *)

Definition ne (w : str) : bool := match w with [] => false | _ => true end.

Lemma words_eq s : words s = filter ne (split_on sp (map to_space s)).
Proof. reflexivity. Qed.

(** First piece and the other non-empty pieces. *)
Definition pieces (s : str) : str * list str :=
  match split_on sp s with [] => ([], []) | h :: t => (h, filter ne t) end.

Lemma pieces_words s : filter ne (split_on sp s) = filter ne [fst (pieces s)] ++ snd (pieces s).
Proof.
  unfold pieces. destruct (split_on sp s) as [|h t]; [reflexivity|].
  cbn. destruct h; reflexivity.
Qed.

Lemma pieces_sp s : pieces (sp :: s) = ([], filter ne (split_on sp s)).
Proof. unfold pieces. cbn [split_on]. rewrite ceqb_refl. reflexivity. Qed.

Lemma pieces_ns c s : c <> sp -> pieces (c :: s) = (c :: fst (pieces s), snd (pieces s)).
Proof.
  intros H. unfold pieces. destruct (split_on sp s) as [|h t] eqn:E; [destruct (split_on_nonempty _ _ E)|].
  rewrite (split_on_cons sp c s h t); auto.
Qed.

Definition two_spaces := [sp; sp].
Definition collapse (s : str) := replace two_spaces [sp] s.

Lemma two_ne : two_spaces <> []. Proof. discriminate. Qed.

Lemma pieces_collapse s : pieces (collapse s) = pieces s.
Proof.
  unfold collapse. pattern s. revert s. apply (replace_ind two_spaces); [discriminate|reflexivity| |].
  - intros c s H IH. rewrite replace_cons by auto.
    destruct (ceqb_spec c sp) as [->|Hn].
    + rewrite !pieces_sp. f_equal. rewrite !pieces_words, IH. auto.
    + rewrite !pieces_ns by auto. rewrite IH. auto.
  - intros r IH. rewrite replace_occ by discriminate. cbn [app two_spaces].
    rewrite !pieces_sp. f_equal. change (split_on sp (sp :: r)) with ([] :: split_on sp r).
    cbn [filter ne]. rewrite !pieces_words, IH. auto.
Qed.

Lemma words_collapse s : filter ne (split_on sp (collapse s)) = filter ne (split_on sp s).
Proof. rewrite !pieces_words, pieces_collapse. auto. Qed.

Definition ends_ns (s : str) : Prop := forall a, s <> a ++ [sp].

Lemma collapse_ne s : s <> [] -> collapse s <> [].
Proof.
  unfold collapse. pattern s. revert s. apply (replace_ind two_spaces); [discriminate|congruence| |].
  - intros c s H _ _. rewrite replace_cons by auto. discriminate.
  - intros r _ _. rewrite replace_occ by discriminate. discriminate.
Qed.

Lemma ends_ns_cons c s : s <> [] -> ends_ns (c :: s) -> ends_ns s.
Proof. intros Hs H a E. apply (H (c :: a)). rewrite E. reflexivity. Qed.

Lemma ends_ns_cons2 c s : s <> [] -> ends_ns s -> ends_ns (c :: s).
Proof.
  intros Hs H a E. destruct a as [|x a]; cbn in E; inversion E; subst; [congruence|].
  eapply H; eauto.
Qed.

Lemma ends_collapse s : ends_ns s -> ends_ns (collapse s).
Proof.
  unfold collapse. pattern s. revert s. apply (replace_ind two_spaces); [discriminate|auto| |].
  - intros c s H IH He. rewrite replace_cons by auto.
    destruct s as [|d s]; [exact He|].
    apply ends_ns_cons2; [apply (collapse_ne (d :: s)); congruence|].
    apply IH. apply (ends_ns_cons c); auto. congruence.
  - intros r IH He. rewrite replace_occ by discriminate. cbn [app two_spaces] in *.
    destruct r as [|d r]; [exfalso; apply (He [sp]); reflexivity|].
    apply ends_ns_cons2; [apply (collapse_ne (d :: r)); congruence|].
    apply IH. apply (ends_ns_cons sp); [congruence|]. apply (ends_ns_cons sp); [congruence|auto].
Qed.

Lemma collapse_length s : length (collapse s) <= length s /\
  (length (collapse s) = length s -> contains two_spaces s = false /\ collapse s = s).
Proof.
  unfold collapse. pattern s. revert s. apply (replace_ind two_spaces); [discriminate|cbn; auto| |].
  - intros c s H [IH1 IH2]. rewrite replace_cons by auto. cbn [length]. split; [lia|].
    intros E. destruct IH2 as [H1 H2]; [lia|]. rewrite H2. split; auto.
    cbn [contains]. rewrite H, H1. auto.
  - intros r [IH1 IH2]. rewrite replace_occ by discriminate. cbn [app two_spaces length].
    split; [lia|]. intros E. lia.
Qed.

Lemma tl_pieces_ne s : contains two_spaces s = false -> ends_ns s -> Forall (fun w => w <> []) (tl (split_on sp s)).
Proof.
  induction s as [|c s IH]; intros Hc He; [constructor|].
  cbn [contains] in Hc. apply orb_false_iff in Hc as [Hs Hc].
  destruct s as [|d s].
  - cbn. destruct (ceqb_spec c sp) as [->|Hn]; [exfalso; apply (He []); reflexivity|constructor].
  - specialize (IH Hc (ends_ns_cons c (d :: s) ltac:(congruence) He)).
    destruct (ceqb_spec c sp) as [->|Hn].
    + cbn [split_on] in *. rewrite ceqb_refl. cbn [tl].
      assert (Hd : d <> sp) by (intros ->; cbn in Hs; discriminate).
      apply ceqb_false in Hd. rewrite Hd in *.
      destruct (split_on sp s) as [|h t] eqn:E; [destruct (split_on_nonempty _ _ E)|].
      cbn [tl] in *. constructor; [congruence|auto].
    + destruct (split_on sp (d :: s)) as [|h t] eqn:E; [destruct (split_on_nonempty _ _ E)|].
      rewrite (split_on_cons sp c (d :: s) h t) by auto. cbn [tl] in *. auto.
Qed.

Lemma filter_ne_id l : Forall (fun w : str => w <> []) l -> filter ne l = l.
Proof. induction 1 as [|w l H _ IH]; auto. cbn. destruct w; [congruence|]. cbn. rewrite IH. auto. Qed.

Definition starts_ns (s : str) : Prop := match s with c :: _ => c <> sp | [] => True end.

Lemma normal_form s : contains two_spaces s = false -> starts_ns s -> ends_ns s ->
  s = join [sp] (filter ne (split_on sp s)).
Proof.
  intros Hc Hs He. destruct s as [|c s]; [reflexivity|].
  pose proof (tl_pieces_ne _ Hc He) as Ht.
  destruct (split_on sp s) as [|h t] eqn:E; [destruct (split_on_nonempty _ _ E)|].
  cbn [starts_ns] in Hs. rewrite (split_on_cons sp c s h t) in * by auto. cbn [tl] in Ht.
  rewrite filter_ne_id by (constructor; [congruence|auto]).
  rewrite <- (split_on_cons sp c s h t) by auto. symmetry. apply join_split_on.
Qed.

Lemma starts_collapse s : starts_ns s -> starts_ns (collapse s).
Proof.
  unfold collapse. destruct s as [|c s]; auto. cbn [starts_ns]. intros H.
  rewrite replace_cons; [exact H|]. unfold two_spaces; cbn [startswith]. apply ceqb_false in H. rewrite ceqb_sym, H. reflexivity.
Qed.

Lemma one_space_loop_ok n s : length s <= n -> starts_ns s -> ends_ns s ->
  forall fuel, n < fuel -> one_space_loop fuel s = Some (join [sp] (filter ne (split_on sp s))).
Proof.
  revert s; induction n as [|n IH]; intros s Hl Hs He fuel Hf; destruct fuel as [|fuel]; try lia;
    cbn [one_space_loop]; change (replace [sp; sp] [sp] s) with (collapse s).
  - destruct s; [reflexivity|cbn in Hl; lia].
  - destruct (seqb_spec (collapse s) s) as [E|E].
    + f_equal. apply normal_form; auto. apply collapse_length. rewrite E. auto.
    + rewrite IH with (s := collapse s); [rewrite words_collapse; auto| | | |lia].
      * destruct (collapse_length s) as [H1 H2].
        destruct (Nat.eq_dec (length (collapse s)) (length s)) as [Eq|]; [|lia].
        apply H2 in Eq. destruct Eq. congruence.
      * apply starts_collapse; auto.
      * apply ends_collapse; auto.
Qed.

Lemma start_eq code : force_one_space_start code = map to_space (strip code).
Proof.
  unfold force_one_space_start. rewrite !replace_single_char.
  induction (strip code) as [|c s IH]; [reflexivity|].
  cbn [flat_map map]. rewrite flat_map_app, IH. unfold to_space at 2.
  destruct (ceqb c nl); cbn; [reflexivity|]. destruct (ceqb c tab); reflexivity.
Qed.

Lemma strip_starts s : match strip s with c :: _ => is_space c = false | [] => True end.
Proof.
  unfold strip. pose proof (dropwhile_head is_space s) as H. fold (lstrip s) in H.
  destruct (lstrip s) as [|c t]; [exact I|]. rewrite rstrip_cons_ns; auto.
Qed.

Lemma strip_ends s a c : strip s = a ++ [c] -> is_space c = false.
Proof.
  intros E. unfold strip in E. destruct (rstrip_decomp (lstrip s)) as (t & _ & _ & H).
  rewrite E, rev_app_distr in H. exact H.
Qed.

Lemma to_space_sp c : to_space c = sp -> is_space c = true.
Proof.
  unfold to_space. destruct (ceqb_spec c nl) as [->|]; [reflexivity|].
  destruct (ceqb_spec c tab) as [->|]; [reflexivity|]. cbn. intros ->. reflexivity.
Qed.

Lemma force_one_space_spec code :
  exists fuel0, forall fuel, fuel0 <= fuel ->
  force_one_space fuel code = Some (join [sp] (words (strip code))).
Proof.
  exists (S (length (force_one_space_start code))). intros fuel Hf. unfold force_one_space.
  rewrite (one_space_loop_ok (length (force_one_space_start code))); auto.
  - rewrite start_eq. reflexivity.
  - rewrite start_eq. pose proof (strip_starts code) as H. destruct (strip code) as [|c s]; [exact I|].
    cbn. intros E. apply to_space_sp in E. congruence.
  - rewrite start_eq. intros a E.
    destruct (strip code) as [|c0 s0] eqn:Es using rev_ind.
    { destruct a; discriminate. }
    clear IHs0. rewrite map_app in E. cbn in E. apply app_inj_tail in E as [_ E].
    apply to_space_sp in E. apply strip_ends in Es. congruence.
Qed.
