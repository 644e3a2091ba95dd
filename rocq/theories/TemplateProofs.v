(** Proofs: replacement lists, bracketed texts. *)
From Verif Require Import PyStr PyStrLemmas TemplateModel TemplateSpec NumberProofs NumberProofs2.

(** *** Replacement lists *)

Lemma iterate_S n f s : iterate (S n) f s = f (iterate n f s).
Proof. revert s; induction n as [|n IH]; intros s; cbn; auto. cbn in IH. rewrite IH. auto. Qed.

Lemma iterate_fixed n f s : f s = s -> iterate n f s = s.
Proof. intros H. induction n; cbn; rewrite ?H; auto. Qed.

Section Rules.
Variable sub : str -> str -> str -> str.
Variable rs : list rule.
Let pass := apply_once sub rs.

Lemma passes_none s : apply_rules sub rs s =
  let s1 := pass s in
  if seqb s s1 then s1 else
  let s2 := pass s1 in
  if seqb s1 s2 then s2 else pass s2.
Proof. reflexivity. Qed.

Lemma rules_passes s : exists n, 1 <= n <= 3 /\ apply_rules sub rs s = iterate n pass s /\
  (forall k, S k < n -> iterate k pass s <> iterate (S k) pass s) /\
  (n < 3 -> pass (apply_rules sub rs s) = apply_rules sub rs s).
Proof.
  rewrite passes_none. cbn zeta.
  destruct (seqb_spec s (pass s)) as [E|N].
  - exists 1. cbn [iterate]. repeat split; try lia. intros _. rewrite <- !E. reflexivity.
  - destruct (seqb_spec (pass s) (pass (pass s))) as [E|N2].
    + exists 2. cbn [iterate]. repeat split; try lia.
      * intros k Hk. destruct k; [cbn; auto|lia].
      * intros _. rewrite <- !E. auto.
    + exists 3. cbn [iterate]. repeat split; try lia.
      intros [|[|k]] Hk; cbn; auto; lia.
Qed.

Lemma rules_settled k s : k <= 2 -> pass (iterate k pass s) = iterate k pass s -> apply_rules sub rs s = iterate k pass s.
Proof.
  intros Hk H. rewrite passes_none. cbn zeta.
  destruct k as [|[|[|k]]]; [| | |lia]; cbn [iterate] in *.
  - rewrite H, seqb_refl. auto.
  - rewrite H, !seqb_refl. destruct (seqb s (pass s)); auto.
  - destruct (seqb_spec s (pass s)) as [E|N].
    + rewrite <- !E. auto.
    + destruct (seqb (pass s) (pass (pass s))); auto.
Qed.
End Rules.

Lemma apply_once_app sub a b s : apply_once sub (a ++ b) s = apply_once sub b (apply_once sub a s).
Proof. revert s; induction a as [|r a IH]; intros s; cbn; auto. Qed.

Lemma startswith_firstn p s : startswith p s = true <-> firstn (length p) s = p.
Proof.
  split.
  - intros H. apply startswith_true in H. destruct H as (r & ->). rewrite firstn_app, firstn_all, Nat.sub_diag. cbn.
    apply app_nil_r.
  - intros H. rewrite <- (firstn_skipn (length p) s), H. apply startswith_app.
Qed.

Lemma not_early sep c a r : sep <> [] -> contains sep ((c :: a) ++ removelast sep) = false ->
  startswith sep ((c :: a) ++ sep ++ r) = false.
Proof.
  intros Hs H. destruct (startswith sep ((c :: a) ++ sep ++ r)) eqn:E; auto. exfalso.
  apply startswith_firstn in E.
  assert (E2 : firstn (length sep) ((c :: a) ++ removelast sep) = sep).
  { rewrite <- E at 3. pose proof (app_removelast_last nl Hs) as El.
    assert (Hl : length sep = S (length (removelast sep))).
    { rewrite El at 1. rewrite app_length. cbn. lia. }
    rewrite El at 4. rewrite !app_assoc, <- (app_assoc _ [_] r), <- app_assoc.
    rewrite (app_assoc (c :: a)).
    rewrite (firstn_app _ ((c :: a) ++ removelast sep) ([last sep nl] ++ r)).
    replace (length sep - length ((c :: a) ++ removelast sep)) with 0 by (rewrite app_length; cbn; lia).
    cbn [firstn]. rewrite app_nil_r. auto. }
  apply startswith_firstn in E2. cbn [app contains] in H. cbn [app] in E2. rewrite E2 in H. discriminate.
Qed.

Lemma split_first sep a r : sep <> [] -> contains sep (a ++ removelast sep) = false ->
  split sep (a ++ sep ++ r) = a :: split sep r.
Proof.
  intros Hs. induction a as [|c a IH]; intros H.
  - cbn [app]. apply split_occ; auto.
  - pose proof (not_early sep c a r Hs H) as Hn.
    cbn [app]. apply split_cons; auto. apply IH.
    cbn [app contains] in H. apply orb_false_iff in H. apply H.
Qed.

Lemma strip_fixed_head c s : strip (c :: s) = c :: s -> is_space c = false.
Proof.
  intros H. destruct (is_space c) eqn:E; auto. rewrite strip_space_l in H by auto.
  pose proof (strip_length s) as L. rewrite H in L. cbn in L. lia.
Qed.
Lemma strip_fixed_last s c : strip (s ++ [c]) = s ++ [c] -> is_space c = false.
Proof.
  intros H. destruct (is_space c) eqn:E; auto. rewrite strip_space_r in H by auto.
  pose proof (strip_length s) as L. rewrite H, app_length in L. cbn in L. lia.
Qed.
Lemma strip_around x m y : x <> [] -> y <> [] -> strip x = x -> strip y = y -> strip (x ++ m ++ y) = x ++ m ++ y.
Proof.
  intros Hx Hy Ex Ey. destruct x as [|c x]; [congruence|]. destruct (exists_last Hy) as (y' & d & ->).
  apply strip_fixed_head in Ex. apply strip_fixed_last in Ey.
  replace ((c :: x) ++ m ++ y' ++ [d]) with (c :: (x ++ m ++ y') ++ [d]).
  - apply strip_ends; auto.
  - cbn. rewrite <- !app_assoc. auto.
Qed.
Lemma Forall_forallb_space a : Forall (fun c => is_space c = true) a <-> forallb is_space a = true.
Proof. rewrite forallb_forall, Forall_forall. tauto. Qed.

Lemma rule_text_read r : writable r -> strip (rule_text r) = rule_text r /\ rule_text r <> [] /\ ~ In nl (rule_text r) /\
  rule_from_string (rule_text r) = Some r.
Proof.
  destruct r as [w b]. unfold writable, rule_text. cbn [replace_what by_what].
  intros (Hw & Sw & Nw & Cw & Sb & Nb & Cb & Rb).
  assert (Hb : exists b', (if seqb b [] then $"REMOVE" else b) = b' /\ b' <> [] /\ strip b' = b' /\ ~ In nl b' /\
            contains $" -> " b' = false /\ (if seqb b' $"REMOVE" then [] else b') = b).
  { destruct (seqb_spec b []) as [->|N].
    - eexists; split; [reflexivity|]. repeat split; try discriminate; try reflexivity. cbn. intuition discriminate.
    - exists b. repeat split; auto. destruct (seqb_spec b $"REMOVE"); congruence. }
  destruct Hb as (b' & Eb & Hb1 & Hb2 & Hb3 & Hb4 & Hb5). unfold str in *. rewrite Eb. repeat split.
  - apply strip_around; auto.
  - destruct w; [congruence|discriminate].
  - intros C. apply in_app_or in C. destruct C as [C|C]; [auto|]. apply in_app_or in C. destruct C as [C|C]; [|auto].
    cbn in C. intuition discriminate.
  - unfold rule_from_string. rewrite split_first; [|discriminate|exact Cw].
    rewrite split_no_occ; [|discriminate|exact Hb4]. cbn zeta. rewrite Sw, Hb2. unfold str in *. rewrite Hb5. auto.
Qed.

Lemma holds_read ls rs : holds ls rs ->
  rules_of_lines (filter (fun s => negb (seqb s [])) (map strip ls)) = Some rs.
Proof.
  induction 1 as [|b ls rs Hb Hn H IH|b a r ls rs Hb Hbn Ha Han Hr H IH]; auto.
  - cbn [map filter]. replace (strip b) with (@nil ascii).
    + cbn. auto.
    + symmetry. rewrite <- (app_nil_r b). rewrite strip_spaces_l; [reflexivity|]. apply Forall_forallb_space; auto.
  - cbn [map filter]. destruct (rule_text_read r Hr) as (E1 & E2 & _ & E4).
    rewrite strip_spaces_l by (apply Forall_forallb_space; auto).
    rewrite strip_spaces_r by (apply Forall_forallb_space; auto). rewrite E1.
    destruct (seqb_spec (rule_text r) []) as [C|_]; [contradiction|]. cbn [negb rules_of_lines]. rewrite E4, IH. auto.
Qed.
Lemma holds_lines ls rs : holds ls rs -> Forall (fun l => ~ In nl l) ls.
Proof.
  induction 1 as [|b ls rs Hb Hn H IH|b a r ls rs Hb Hbn Ha Han Hr H IH]; auto.
  constructor; auto. destruct (rule_text_read r Hr) as (_ & _ & E & _).
  intros C. apply in_app_or in C. destruct C as [C|C]; [auto|]. apply in_app_or in C. tauto.
Qed.
Lemma rules_read ls rs : ls <> [] -> holds ls rs -> rules_from_string (unlines ls) = Some rs.
Proof.
  intros Hne H. unfold rules_from_string. rewrite lines_unlines; auto.
  - apply holds_read; auto.
  - apply holds_lines in H. auto.
Qed.

(** *** Bracketed texts *)

Definition no_open (c : ascii) : bool := negb (ceqb c "<").

Lemma balanced_app a b : balanced a -> balanced b -> balanced (a ++ b).
Proof.
  induction 1 as [|c s H1 H2 H IH|i s Hi IHi Hs IHs]; intros Hb; auto; cbn [app].
  - apply bal_char; auto.
  - rewrite <- app_assoc. cbn [app]. apply bal_pair; auto.
Qed.

(** Scanning a balanced text does not change the depth. *)
Lemma find_close_balanced i : balanced i -> forall d rest, 1 <= d ->
  find_close d (i ++ rest) = match find_close d rest with Some (j, a) => Some (i ++ j, a) | None => None end.
Proof.
  induction 1 as [|c s H1 H2 H IH|i s Hi IHi Hs IHs]; intros d rest Hd.
  - cbn. destruct (find_close d rest) as [[]|]; auto.
  - cbn [app find_close]. apply ceqb_false in H1, H2. rewrite H1, H2, IH by auto.
    destruct (find_close d rest) as [[]|]; auto.
  - cbn [app find_close]. rewrite ceqb_refl, <- app_assoc. rewrite IHi by lia.
    cbn [app find_close]. change (ceqb ">" "<") with false. change (ceqb ">" ">") with true. cbv iota.
    destruct d as [|d]; [lia|]. rewrite IHs by lia.
    destruct (find_close (S d) rest) as [[j a]|]; auto. rewrite <- app_assoc. auto.
Qed.

Lemma find_close_pair i a : balanced i -> find_close 1 (i ++ ">"%char :: a) = Some (i, a).
Proof. intros H. rewrite find_close_balanced by auto. cbn. rewrite app_nil_r. auto. Qed.

(** Texts of which [d] brackets are missing at the end: the converse. *)
Fixpoint layers (d : nat) (i : str) : Prop :=
  match d with
  | 0 => False
  | S 0 => balanced i
  | S d' => exists j k, balanced j /\ i = j ++ ">"%char :: k /\ layers d' k
  end.
Lemma layers_char c d i : c <> "<"%char -> c <> ">"%char -> layers d i -> layers d (c :: i).
Proof.
  intros H1 H2. destruct d as [|[|d]]; cbn; auto.
  - apply bal_char; auto.
  - intros (j & k & Hj & -> & Hk). exists (c :: j), k. repeat split; auto. apply bal_char; auto.
Qed.
Lemma layers_open d i : 1 <= d -> layers (S d) i -> layers d ("<"%char :: i).
Proof.
  intros Hd H. destruct d as [|[|d]]; [lia| |]; destruct H as (j & k & Hj & -> & Hk).
  - cbn in *. apply bal_pair; auto.
  - destruct Hk as (j' & k' & Hj' & -> & Hk'). exists ("<"%char :: j ++ ">"%char :: j'), k'. repeat split; auto.
    + apply bal_pair; auto.
    + cbn. rewrite <- app_assoc. auto.
Qed.
Lemma find_close_sound s : forall d i a, 1 <= d -> find_close d s = Some (i, a) -> s = i ++ ">"%char :: a /\ layers d i.
Proof.
  induction s as [|c s IH]; intros d i a Hd H; [discriminate|]. cbn [find_close] in H.
  destruct (ceqb_spec c "<") as [->|N1].
  - destruct (find_close (S d) s) as [[i' a']|] eqn:E; [|discriminate]. injection H as <- <-.
    destruct (IH (S d) i' a' ltac:(lia) E) as (-> & L). split; auto. apply layers_open; auto.
  - destruct (ceqb_spec c ">") as [->|N2].
    + destruct d as [|[|d]]; [lia| |].
      * injection H as <- <-. split; auto. apply bal_nil.
      * destruct (find_close (S d) s) as [[i' a']|] eqn:E; [|discriminate]. injection H as <- <-.
        destruct (IH (S d) i' a' ltac:(lia) E) as (-> & L). split; auto.
        exists [], i'. repeat split; auto. apply bal_nil.
    + destruct (find_close d s) as [[i' a']|] eqn:E; [|discriminate]. injection H as <- <-.
      destruct (IH d i' a' ltac:(lia) E) as (-> & L). split; auto. apply layers_char; auto.
Qed.

Lemma split_complete b i a : ~ In "<"%char b -> balanced i ->
  split_cpp_type_template_args (b ++ "<"%char :: i ++ ">"%char :: a) = [b; i; a].
Proof.
  intros Hb Hi. unfold split_cpp_type_template_args.
  assert (E : forall r, takewhile no_open (b ++ "<"%char :: r) = b /\ dropwhile no_open (b ++ "<"%char :: r) = "<"%char :: r).
  { clear - Hb. induction b as [|c b IH]; intros r; cbn; auto.
    assert (Hc : no_open c = true). { unfold no_open. destruct (ceqb_spec c "<"); auto. subst. cbn in Hb. tauto. }
    rewrite Hc. destruct (IH ltac:(cbn in Hb; tauto) r) as (-> & ->). auto. }
  destruct (E (i ++ ">"%char :: a)) as (E1 & E2). unfold no_open in E1, E2. rewrite E1, E2.
  rewrite find_close_pair by auto. auto.
Qed.

Lemma split_sound s : split_cpp_type_template_args s = [s] \/
  exists b i a, split_cpp_type_template_args s = [b; i; a] /\ s = b ++ "<"%char :: i ++ ">"%char :: a /\
    ~ In "<"%char b /\ balanced i.
Proof.
  unfold split_cpp_type_template_args. fold no_open.
  destruct (dropwhile no_open s) as [|c r] eqn:E; auto.
  destruct (find_close 1 r) as [[i a]|] eqn:F; auto. right.
  exists (takewhile no_open s), i, a. split; auto.
  destruct (find_close_sound _ _ _ _ (le_n 1) F) as (-> & L). cbn in L.
  assert (Hc : c = "<"%char).
  { pose proof (dropwhile_head no_open s) as H. rewrite E in H. unfold no_open in H.
    apply negb_false_iff, ceqb_true in H. auto. }
  subst c. split; [|split]; auto.
  - rewrite <- E. symmetry. apply takewhile_dropwhile.
  - intros C. pose proof (takewhile_Forall no_open s) as T. rewrite Forall_forall in T. apply T in C. discriminate.
Qed.

(** A balanced text with an opening bracket splits. *)
Lemma balanced_split s : balanced s -> In "<"%char s -> exists b i a,
  s = b ++ "<"%char :: i ++ ">"%char :: a /\ ~ In "<"%char b /\ balanced i /\ balanced a.
Proof.
  induction 1 as [|c s H1 H2 H IH|i s Hi IHi Hs IHs]; intros C.
  - destruct C.
  - destruct C as [C|C]; [congruence|]. destruct (IH C) as (b & i & a & -> & Hb & Hi & Ha).
    exists (c :: b), i, a. repeat split; auto. cbn. intuition.
  - exists [], i, s. repeat split; auto.
Qed.
