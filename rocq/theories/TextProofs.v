(** Proofs about the text utilities. *)
From Verif Require Import PyStr PyStrLemmas RegionsModel RegionsSpec RegionsProofs TextModel TextSpec.

(** *** Blank lines *)

Lemma is_blank_iff l : blank l = true <-> is_blank_line l.
Proof. apply blank_Forall. Qed.

Lemma not_blank_iff l : blank l = false <-> ~ is_blank_line l.
Proof. rewrite <- is_blank_iff. destruct (blank l); split; congruence. Qed.

(** *** Run length encoding *)

Definition decode (r : list (str * nat)) : list str :=
  flat_map (fun p : str * nat => repeat (fst p) (snd p)) r.

Lemma decode_rle_from x n l : decode (rle_from x n l) = repeat x n ++ l.
Proof.
  revert x n; induction l as [|y l IH]; intros x n; cbn [rle_from].
  - cbn. auto.
  - destruct (seqb_spec y x) as [->|Hn].
    + rewrite IH. cbn [repeat app]. change (x :: repeat x n ++ l) with ((x :: repeat x n) ++ l).
      rewrite (repeat_cons n x). rewrite <- app_assoc. auto.
    + cbn [decode flat_map fst snd]. fold (decode (rle_from y 1 l)). rewrite IH. auto.
Qed.

Lemma decode_rle l : decode (run_length_encode l) = l.
Proof. destruct l as [|x l]; [reflexivity|]. cbn [run_length_encode]. rewrite decode_rle_from. auto. Qed.

(** Adjacent entries differ. *)
Fixpoint adjacent_distinct (r : list (str * nat)) : Prop :=
  match r with
  | p :: ((q :: _) as r') => fst p <> fst q /\ adjacent_distinct r'
  | _ => True
  end.

Lemma rle_from_head x n l : exists k r, rle_from x n l = (x, k) :: r.
Proof.
  revert x n; induction l as [|y l IH]; intros x n; cbn; eauto.
  destruct (seqb y x); eauto.
Qed.

Lemma rle_from_distinct x n l : adjacent_distinct (rle_from x n l).
Proof.
  revert x n; induction l as [|y l IH]; intros x n; cbn [rle_from]; [cbn; auto|].
  destruct (seqb_spec y x) as [->|Hn]; auto.
  destruct (rle_from_head y 1 l) as (k & r & E).
  specialize (IH y 1). rewrite E in *. cbn [adjacent_distinct fst]. split; [congruence|]. exact IH.
Qed.

Lemma rle_distinct l : adjacent_distinct (run_length_encode l).
Proof. destruct l; [exact I|]. apply rle_from_distinct. Qed.

Definition limit (m : nat) (r : list (str * nat)) : list str :=
  flat_map (fun p : str * nat =>
              let nb := if blank (fst p) && (m <=? snd p) then m else snd p in
              repeat (fst p) nb) r.

Lemma limit_entry m (p : str * nat) :
  (if blank (fst p) && (m <=? snd p) then m else snd p) =
  if blank (fst p) then Nat.min m (snd p) else snd p.
Proof.
  destruct (blank (fst p)); cbn [andb]; auto.
  destruct (Nat.leb_spec m (snd p)); lia.
Qed.

Lemma max_empty_lines_eq m code :
  code_set_max_consecutive_empty_lines code (Some m) = unlines (limit m (run_length_encode (lines code))).
Proof. reflexivity. Qed.

Lemma limit_In m r x : In x (limit m r) -> In x (decode r).
Proof.
  unfold limit, decode. rewrite !in_flat_map. intros (p & Hp & Hx). exists p. split; auto.
  cbv zeta in Hx. pose proof (repeat_spec _ _ _ Hx). subst x.
  rewrite limit_entry in Hx.
  destruct (snd p) as [|k] eqn:E.
  - destruct (blank (fst p)); [rewrite Nat.min_0_r in Hx|]; auto.
  - cbn. auto.
Qed.

Lemma obr_app a b c d :
  only_blank_removed a b -> only_blank_removed c d -> only_blank_removed (a ++ c) (b ++ d).
Proof. intros H1 H2. induction H1; cbn; auto using only_blank_removed. Qed.

Lemma obr_refl a : only_blank_removed a a.
Proof. induction a; auto using only_blank_removed. Qed.

Lemma obr_repeat x n k : is_blank_line x -> k <= n -> only_blank_removed (repeat x n) (repeat x k).
Proof.
  intros Hx. revert k. induction n as [|n IH]; intros k Hk.
  - assert (k = 0) by lia. subst. constructor.
  - destruct k as [|k].
    + cbn. apply obr_skip; auto. apply (IH 0). lia.
    + cbn. apply obr_keep. apply IH. lia.
Qed.

Lemma limit_obr m r : only_blank_removed (decode r) (limit m r).
Proof.
  induction r as [|p r IH]; [constructor|].
  cbn [decode limit flat_map]. apply obr_app; auto. cbv zeta. rewrite limit_entry.
  destruct (blank (fst p)) eqn:E.
  - apply obr_repeat; [apply is_blank_iff; auto|lia].
  - apply obr_refl.
Qed.

(** Counting form of [max_blank_run]: at most [n], [k] blank lines already seen. *)
Fixpoint bounded (n k : nat) (ls : list str) : Prop :=
  match ls with
  | [] => True
  | l :: ls' => if blank l then S k <= n /\ bounded n (S k) ls' else bounded n 0 ls'
  end.

Lemma bounded_mono n k k' ls : k' <= k -> bounded n k ls -> bounded n k' ls.
Proof.
  revert k k'; induction ls as [|l ls IH]; intros k k' Hk H; cbn in *; auto.
  destruct (blank l); auto. destruct H as [H1 H2]. split; [lia|]. apply (IH (S k)); auto; lia.
Qed.

Lemma bounded_skip n k a ls : bounded n k (a ++ ls) -> bounded n 0 ls.
Proof.
  revert k; induction a as [|x a IH]; intros k H; cbn in H.
  - apply (bounded_mono n k); auto; lia.
  - destruct (blank x); eapply IH; [apply H|exact H].
Qed.

Lemma bounded_run n k b c : Forall is_blank_line b -> bounded n k (b ++ c) -> b <> [] -> k + length b <= n.
Proof.
  intros Hb. revert k. induction Hb as [|x b Hx Hb IH]; intros k H Hne; [congruence|].
  cbn [app bounded] in H. apply is_blank_iff in Hx. rewrite Hx in H. destruct H as [H1 H2].
  cbn [length]. destruct b as [|y b]; [cbn; lia|].
  specialize (IH (S k) H2 ltac:(congruence)). cbn [length] in *. lia.
Qed.

Lemma bounded_max n ls : bounded n 0 ls -> max_blank_run n ls.
Proof.
  intros H a b c E Hb. subst ls. apply bounded_skip in H.
  destruct b as [|x b]; [cbn; lia|].
  pose proof (bounded_run n 0 (x :: b) c Hb H ltac:(congruence)). lia.
Qed.

Lemma bounded_repeat_blank n k x j ls :
  blank x = true -> k + j <= n -> bounded n (k + j) ls -> bounded n k (repeat x j ++ ls).
Proof.
  intros Hx. revert k. induction j as [|j IH]; intros k Hk H.
  - rewrite Nat.add_0_r in H. auto.
  - cbn [repeat app bounded]. rewrite Hx. split; [lia|]. apply IH; [lia|].
    replace (S k + j) with (k + S j) by lia. auto.
Qed.

Lemma bounded_repeat_nonblank n k x j ls :
  blank x = false -> 1 <= j -> bounded n 0 ls -> bounded n k (repeat x j ++ ls).
Proof.
  intros Hx. revert k. induction j as [|j IH]; intros k Hj H; [lia|].
  cbn [repeat app bounded]. rewrite Hx. destruct j as [|j]; auto.
  apply IH; auto; lia.
Qed.

Lemma rle_from_positive x n l : 1 <= n -> Forall (fun p : str * nat => 1 <= snd p) (rle_from x n l).
Proof.
  revert x n; induction l as [|y l IH]; intros x n Hn; cbn [rle_from].
  - constructor; auto.
  - destruct (seqb y x); [apply IH; lia|]. constructor; auto.
Qed.

Lemma rle_positive l : Forall (fun p : str * nat => 1 <= snd p) (run_length_encode l).
Proof. destruct l; [constructor|]. apply rle_from_positive. auto. Qed.

Lemma bounded_limit m r :
  adjacent_distinct r -> Forall (fun p : str * nat => 1 <= snd p) r ->
  (forall x y, In x (map fst r) -> In y (map fst r) -> blank x = true -> blank y = true -> x = y) ->
  forall k, (k = 0 \/ match r with p :: _ => blank (fst p) = false | [] => True end) -> k <= m ->
  bounded m k (limit m r).
Proof.
  induction r as [|p r IH]; intros Hd Hp Huniq k Hk Hkm; [exact I|].
  inversion Hp as [|? ? Hp1 Hpr]; subst.
  cbn [limit flat_map]. cbv zeta. rewrite limit_entry.
  assert (Hd' : adjacent_distinct r) by (destruct r; cbn in Hd; tauto).
  assert (Hu' : forall x y, In x (map fst r) -> In y (map fst r) -> blank x = true -> blank y = true -> x = y)
    by (intros; apply Huniq; cbn; auto).
  destruct (blank (fst p)) eqn:Eb.
  - destruct Hk as [->|Hk]; [|congruence].
    apply bounded_repeat_blank; auto; [lia|].
    apply IH; auto; [|lia]. right. destruct r as [|q r]; auto.
    destruct (blank (fst q)) eqn:Eq; auto. exfalso. cbn in Hd. destruct Hd as [Hd _].
    apply Hd. apply Huniq; cbn; auto.
  - apply bounded_repeat_nonblank; auto. apply IH; auto; lia.
Qed.

Lemma rle_In x l : In x (map fst (run_length_encode l)) -> In x l.
Proof.
  intros H. rewrite <- (decode_rle l). apply in_map_iff in H as (p & E & Hp). subst x.
  unfold decode. apply in_flat_map. exists p. split; auto.
  pose proof (rle_positive l) as F. rewrite Forall_forall in F. specialize (F _ Hp).
  destruct (snd p); [lia|]. cbn. auto.
Qed.

Lemma lines_unlines_gen l : Forall (fun x => ~ In nl x) l -> l = [] \/ lines (unlines l) = l.
Proof. intros H. destruct l; [auto|right]. apply lines_unlines; auto. congruence. Qed.

Lemma limit_no_nl m code :
  Forall (fun x => ~ In nl x) (limit m (run_length_encode (lines code))).
Proof.
  apply Forall_forall. intros x Hx. apply limit_In in Hx. rewrite decode_rle in Hx.
  pose proof (lines_no_nl code) as F. rewrite Forall_forall in F. auto.
Qed.

Lemma max_blank_only_blank_removed code m out :
  code_set_max_consecutive_empty_lines code (Some m) = out ->
  (out = [] /\ Forall is_blank_line (lines code)) \/ only_blank_removed (lines code) (lines out).
Proof.
  intros <-. rewrite max_empty_lines_eq.
  pose proof (limit_obr m (run_length_encode (lines code))) as H. rewrite decode_rle in H.
  destruct (lines_unlines_gen _ (limit_no_nl m code)) as [E|E].
  - left. rewrite E in *. split; auto. remember [] as e eqn:He. clear -H He.
    induction H; try discriminate; constructor; auto.
  - right. rewrite E. auto.
Qed.

Lemma obr_filter a b : only_blank_removed a b ->
  filter (fun l => negb (blank l)) b = filter (fun l => negb (blank l)) a.
Proof.
  induction 1 as [|x a b Hx H IH|x a b H IH]; cbn; auto.
  - apply is_blank_iff in Hx. rewrite Hx. auto.
  - rewrite IH. auto.
Qed.

Lemma max_blank_bound code m :
  (forall x y, In x (lines code) -> In y (lines code) -> is_blank_line x -> is_blank_line y -> x = y) ->
  let out := code_set_max_consecutive_empty_lines code (Some m) in
  out = [] \/ max_blank_run m (lines out).
Proof.
  intros Hu out. subst out. rewrite max_empty_lines_eq.
  destruct (lines_unlines_gen _ (limit_no_nl m code)) as [E|E].
  - left. rewrite E. reflexivity.
  - right. rewrite E. apply bounded_max. apply bounded_limit; auto.
    + apply rle_distinct.
    + apply rle_positive.
    + intros x y Hx Hy Bx By. apply Hu; auto using rle_In; apply is_blank_iff; auto.
    + lia.
Qed.

Lemma decode_entry r p : In p r -> exists a c, decode r = a ++ repeat (fst p) (snd p) ++ c.
Proof.
  induction r as [|q r IH]; intros H; [destruct H|]. destruct H as [->|H].
  - exists [], (decode r). reflexivity.
  - destruct (IH H) as (a & c & E). exists (repeat (fst q) (snd q) ++ a), c.
    cbn [decode flat_map]. fold (decode r). rewrite E, <- app_assoc. auto.
Qed.

Lemma max_blank_noop code m :
  max_blank_run m (lines code) -> code_set_max_consecutive_empty_lines code (Some m) = code.
Proof.
  intros H. rewrite max_empty_lines_eq.
  assert (E : limit m (run_length_encode (lines code)) = decode (run_length_encode (lines code))).
  { unfold limit, decode. rewrite !flat_map_concat_map. f_equal. apply map_ext_in.
    intros p Hp. cbv zeta. rewrite limit_entry. f_equal.
    destruct (blank (fst p)) eqn:Eb; auto.
    destruct (decode_entry _ _ Hp) as (a & c & Ed). rewrite decode_rle in Ed.
    pose proof (H _ _ _ Ed) as Hlen. rewrite repeat_length in Hlen.
    enough (Forall is_blank_line (repeat (fst p) (snd p))) by (specialize (Hlen ltac:(auto)); lia).
    apply Forall_forall. intros x Hx. apply repeat_spec in Hx. subst. apply is_blank_iff; auto. }
  rewrite E, decode_rle. apply unlines_lines.
Qed.

(** *** Stripping blank lines *)

Lemma strip_list_decomp ls : exists pre post,
  ls = pre ++ strip_empty_lines_in_list ls ++ post /\
  Forall is_blank_line pre /\ Forall is_blank_line post /\
  (strip_empty_lines_in_list ls = [] \/
   exists x y m, (strip_empty_lines_in_list ls = [x] /\ y = x /\ m = [] \/
                strip_empty_lines_in_list ls = x :: m ++ [y]) /\
               ~ is_blank_line x /\ ~ is_blank_line y).
Proof.
  unfold strip_empty_lines_in_list. set (a := dropwhile blank ls).
  set (b := dropwhile blank (rev a)).
  exists (takewhile blank ls), (rev (takewhile blank (rev a))).
  assert (Hblank : forall l, Forall (fun x => blank x = true) l -> Forall is_blank_line l)
    by (intros l; apply Forall_impl; intros ?; apply is_blank_iff).
  split; [|split; [|split]].
  - rewrite <- rev_app_distr. unfold b. rewrite takewhile_dropwhile, rev_involutive.
    unfold a. rewrite takewhile_dropwhile. auto.
  - apply Hblank, takewhile_Forall.
  - apply rev_Forall, Hblank, takewhile_Forall.
  - pose proof (dropwhile_head blank ls) as Ha. fold a in Ha.
    pose proof (dropwhile_head blank (rev a)) as Hb. fold b in Hb.
    destruct b as [|y bt] eqn:Eb; [left; reflexivity|right].
    destruct a as [|x at_] eqn:Ea; [subst b; cbn in Eb; discriminate|].
    assert (Hr : exists t, x :: at_ = rev (y :: bt) ++ t).
    { exists (rev (takewhile blank (rev (x :: at_)))).
      rewrite <- rev_app_distr. rewrite <- Eb. unfold b. rewrite takewhile_dropwhile, rev_involutive. auto. }
    destruct Hr as [t Ht]. cbn [rev] in *.
    destruct (rev bt) as [|x' m] eqn:Er.
    + exists y, y, []. cbn in *. split; [left; auto|]. split; apply not_blank_iff; auto.
    + exists x', y, m. cbn [app] in *. split; [right; auto|]. inversion Ht; subst x'.
      split; apply not_blank_iff; auto.
Qed.

Lemma strip_list_fixed ls :
  (ls = [] \/ exists x y m, (ls = [x] /\ y = x /\ m = [] \/ ls = x :: m ++ [y]) /\
                        ~ is_blank_line x /\ ~ is_blank_line y) ->
  strip_empty_lines_in_list ls = ls.
Proof.
  unfold strip_empty_lines_in_list. intros [->|(x & y & m & H & Hx & Hy)]; [reflexivity|].
  apply not_blank_iff in Hx, Hy. destruct H as [(-> & -> & _)| ->].
  - cbn. rewrite Hx. cbn. rewrite Hx. auto.
  - rewrite (dropwhile_id blank (x :: m ++ [y])) by auto.
    change (x :: m ++ [y]) with ((x :: m) ++ [y]). rewrite rev_app_distr. cbn [rev app].
    rewrite dropwhile_id by auto. cbn [rev]. rewrite rev_app_distr. cbn [rev app].
    rewrite rev_involutive. auto.
Qed.

Lemma strip_list_idem ls :
  strip_empty_lines_in_list (strip_empty_lines_in_list ls) = strip_empty_lines_in_list ls.
Proof.
  destruct (strip_list_decomp ls) as (pre & post & _ & _ & _ & H). apply strip_list_fixed. exact H.
Qed.

Lemma sub_Forall {A} (P : A -> Prop) a b c : Forall P (a ++ b ++ c) -> Forall P b.
Proof. rewrite !Forall_app. tauto. Qed.

Lemma strip_empty_lines_spec code : exists pre kept post,
  lines code = pre ++ kept ++ post /\ Forall is_blank_line pre /\ Forall is_blank_line post /\
  (kept = [] \/
   exists x y m, (kept = [x] /\ y = x /\ m = [] \/ kept = x :: m ++ [y]) /\
               ~ is_blank_line x /\ ~ is_blank_line y) /\
  strip_empty_lines code = unlines kept.
Proof.
  destruct (strip_list_decomp (lines code)) as (pre & post & H1 & H2 & H3 & H4).
  exists pre, (strip_empty_lines_in_list (lines code)), post. repeat split; auto.
Qed.

Lemma strip_empty_lines_idem code : strip_empty_lines (strip_empty_lines code) = strip_empty_lines code.
Proof.
  destruct (strip_list_decomp (lines code)) as (pre & post & H1 & _ & _ & H4).
  unfold strip_empty_lines at 2 3.
  assert (F : Forall (fun x => ~ In nl x) (strip_empty_lines_in_list (lines code))).
  { apply (sub_Forall _ pre _ post). rewrite <- H1. apply lines_no_nl. }
  destruct (lines_unlines_gen _ F) as [E|E].
  - rewrite E. reflexivity.
  - unfold strip_empty_lines. rewrite E. rewrite strip_list_idem. auto.
Qed.

(** *** Indentation *)

Lemma map_nonempty {A B} (f : A -> B) l : l <> [] -> map f l <> [].
Proof. destruct l; cbn; congruence. Qed.

Lemma indent_code_lines_spec code n : Forall2 (indented (spaces n)) (lines code)
  (lines (indent_code code n false None true)).
Proof.
  cbn [indent_code]. rewrite lines_indent_code_str.
  - apply Forall2_map_r. intros; apply indent_line_spec.
  - intros H. apply repeat_spec in H. discriminate.
Qed.

Lemma rstrip_trailing l : remove_trailing_spaces (rstrip l) = rstrip l.
Proof.
  unfold remove_trailing_spaces.
  destruct (rstrip_decomp l) as (t & _ & _ & H).
  rewrite dropwhile_id; [apply rev_involutive|].
  destruct (rev (rstrip l)); auto. apply ceqb_false. intros ->. discriminate.
Qed.

Lemma startswith_spaces n l : startswith (spaces n) (spaces n ++ l) = true.
Proof. apply startswith_app. Qed.

Lemma skipn_spaces n l : skipn n (spaces n ++ l) = l.
Proof.
  rewrite skipn_app. unfold spaces. rewrite repeat_length, Nat.sub_diag.
  rewrite skipn_all2 by (rewrite repeat_length; auto). reflexivity.
Qed.

Lemma only_spaces_spaces n : only_spaces (spaces n) = true.
Proof. unfold only_spaces. induction n; cbn; auto. Qed.

Lemma only_spaces_app a b : only_spaces (a ++ b) = only_spaces a && only_spaces b.
Proof. apply forallb_app. Qed.

Lemma count_spaces_app n l :
  match l with c :: _ => c <> sp | [] => False end ->
  count_spaces_at_start_of_line (spaces n ++ l) = n.
Proof.
  unfold count_spaces_at_start_of_line. intros H. induction n as [|n IH]; cbn.
  - destruct l as [|c l]; [tauto|]. cbn. apply ceqb_false in H. rewrite H. auto.
  - f_equal. exact IH.
Qed.

Lemma rstrip_head_keep c l : is_space c = false -> exists r, rstrip (c :: l) = c :: r.
Proof.
  intros H. destruct (rstrip_decomp (c :: l)) as (t & E & F & _).
  destruct (rstrip (c :: l)) as [|d r] eqn:Er.
  - cbn in E. rewrite <- E in F. inversion F; subst. congruence.
  - cbn in E. inversion E. eauto.
Qed.

(** First line that is not blank. *)
Definition first_nonblank (ls : list str) : option str :=
  match dropwhile blank ls with [] => None | l :: _ => Some l end.

Lemma rstrip_blank l : is_blank_line l -> rstrip l = [].
Proof. intros H. apply rstrip_nil. exact H. Qed.

Lemma rstrip_head l : ~ is_blank_line l -> exists c t u, l = c :: t /\ rstrip l = c :: u.
Proof.
  intros Hnb. destruct (rstrip_decomp l) as (t & E & F & _).
  destruct (rstrip l) as [|c u] eqn:Er.
  - exfalso. apply Hnb. rewrite E. exact F.
  - exists c, (u ++ t), u. split; auto.
Qed.

Lemma not_all_space_rstrip l c u : rstrip l = c :: u -> Exists (fun x => is_space x = false) (c :: u).
Proof.
  intros H. destruct (rstrip_decomp l) as (t & _ & _ & Hl). rewrite H in Hl.
  destruct (rev (c :: u)) as [|d v] eqn:E.
  - apply (f_equal (@rev ascii)) in E. rewrite rev_involutive in E. discriminate.
  - apply Exists_exists. exists d. split; auto. apply in_rev. rewrite E. left; auto.
Qed.

Lemma only_spaces_indent n l : only_spaces (indent_line (spaces n) true l) = blank l.
Proof.
  destruct (blank l) eqn:E.
  - apply is_blank_iff in E. destruct l as [|c l]; [reflexivity|].
    cbn [indent_line]. rewrite rstrip_blank by auto. rewrite app_nil_r. apply only_spaces_spaces.
  - apply not_blank_iff in E. destruct (rstrip_head l E) as (c & t & u & El & Er).
    subst l. cbn [indent_line]. rewrite only_spaces_app. apply andb_false_iff. right.
    rewrite Er. pose proof (not_all_space_rstrip _ _ _ Er) as H.
    destruct (only_spaces (c :: u)) eqn:F; auto. unfold only_spaces in F.
    rewrite forallb_forall in F. apply Exists_exists in H as (x & Hx & Hs).
    apply F in Hx. apply ceqb_true in Hx. subst x. discriminate.
Qed.

Lemma dropwhile_map_indent n ls :
  dropwhile only_spaces (map (indent_line (spaces n) true) ls)
  = map (indent_line (spaces n) true) (dropwhile blank ls).
Proof.
  induction ls as [|l ls IH]; [reflexivity|].
  cbn [map dropwhile]. rewrite only_spaces_indent. destruct (blank l); auto.
Qed.

Lemma unindent_indent_line n l : unindent_line n (indent_line (spaces n) true l) = rstrip l.
Proof.
  destruct l as [|c l].
  - cbn [indent_line]. unfold unindent_line. destruct n; reflexivity.
  - cbn [indent_line]. unfold unindent_line. rewrite startswith_spaces, skipn_spaces.
    apply rstrip_trailing.
Qed.

Lemma unindent0_indent_blank n l : is_blank_line l ->
  unindent_line 0 (indent_line (spaces n) true l) = rstrip l.
Proof.
  intros H. rewrite rstrip_blank by auto. destruct l as [|c l]; [reflexivity|].
  cbn [indent_line]. rewrite rstrip_blank by auto. rewrite app_nil_r.
  unfold unindent_line. cbn [spaces repeat startswith skipn].
  unfold remove_trailing_spaces. rewrite (proj2 (dropwhile_nil _ _)); auto.
  apply rev_Forall. apply Forall_forall. intros x Hx. apply repeat_spec in Hx. subst. reflexivity.
Qed.

Lemma unindent_indent code n :
  (forall pre l post, lines code = pre ++ l :: post -> Forall is_blank_line pre ->
     ~ is_blank_line l -> match l with c :: _ => c <> sp | [] => True end) ->
  lines (unindent_code (indent_code code n false None true) false) = map rstrip (lines code).
Proof.
  intros Hfirst. unfold unindent_code. cbn [indent_code].
  assert (Hnl : ~ In nl (spaces n)) by (intros H; apply repeat_spec in H; discriminate).
  rewrite lines_indent_code_str by auto.
  unfold compute_code_indent_size. rewrite lines_indent_code_str by auto.
  rewrite dropwhile_map_indent, map_map.
  assert (G : map (fun x => unindent_line
      match map (indent_line (spaces n) true) (dropwhile blank (lines code)) with
      | [] => 0
      | l :: _ => count_spaces_at_start_of_line l
      end (indent_line (spaces n) true x)) (lines code) = map rstrip (lines code)).
  { pose proof (takewhile_dropwhile blank (lines code)) as Ht.
    pose proof (takewhile_Forall blank (lines code)) as Hf.
    pose proof (dropwhile_head blank (lines code)) as Hh.
    destruct (dropwhile blank (lines code)) as [|l ls] eqn:E.
    - cbn [map]. apply map_ext_in. intros x Hx. apply unindent0_indent_blank.
      apply dropwhile_nil in E. rewrite Forall_forall in E. apply is_blank_iff; auto.
    - cbn [map].
      assert (Hl : match l with c :: _ => c <> sp | [] => True end).
      { apply (Hfirst (takewhile blank (lines code)) l ls); auto.
        - apply Forall_forall. intros x Hx. rewrite Forall_forall in Hf. apply is_blank_iff; auto.
        - apply not_blank_iff; auto. }
      apply not_blank_iff in Hh. destruct (rstrip_head l Hh) as (c & t & u & El & Er).
      subst l. cbn [indent_line]. rewrite Er, count_spaces_app by exact Hl.
      apply map_ext. intros x. apply unindent_indent_line. }
  rewrite G. apply lines_unlines.
  - apply map_nonempty, lines_nonempty.
  - apply Forall_map. eapply Forall_impl; [|apply lines_no_nl]. intros l Hl Hin. cbn in Hin.
    destruct (rstrip_decomp l) as (t & E & _). apply Hl. rewrite E. apply in_or_app; auto.
Qed.

(** Unindenting removes the same leading spaces everywhere it can and trailing spaces, nothing
    else. *)
Lemma remove_trailing_decomp l : exists t, l = remove_trailing_spaces l ++ t /\ Forall (eq sp) t.
Proof.
  exists (rev (takewhile (fun c => ceqb c sp) (rev l))). unfold remove_trailing_spaces. split.
  - rewrite <- rev_app_distr, takewhile_dropwhile, rev_involutive. auto.
  - apply rev_Forall. eapply Forall_impl; [|apply takewhile_Forall]. intros c H.
    apply ceqb_true in H. auto.
Qed.

Lemma unindent_line_decomp n l : exists k t, l = spaces k ++ unindent_line n l ++ t /\
  Forall (eq sp) t /\ (k = n \/ k = 0).
Proof.
  unfold unindent_line. destruct (startswith (spaces n) l) eqn:E.
  - apply startswith_true in E as [r ->]. rewrite skipn_spaces.
    destruct (remove_trailing_decomp r) as (t & Er & F). exists n, t. rewrite <- Er. auto.
  - destruct (remove_trailing_decomp l) as (t & Er & F). exists 0, t. cbn. auto.
Qed.

Lemma unindent_only_removes_spaces code :
  exists n, Forall2 (fun l l' => exists k t, l = spaces k ++ l' ++ t /\ Forall (eq sp) t /\
                                      (k = n \/ k = 0))
                    (lines code) (lines (unindent_code code false)).
Proof.
  exists (compute_code_indent_size code). unfold unindent_code.
  set (n := compute_code_indent_size code). rewrite lines_unlines.
  - apply Forall2_map_r. intros l. apply unindent_line_decomp.
  - apply map_nonempty, lines_nonempty.
  - apply Forall_map. eapply Forall_impl; [|apply lines_no_nl]. intros l Hl Hin. cbn in Hin.
    destruct (unindent_line_decomp n l) as (k & t & E & _). apply Hl. rewrite E.
    apply in_or_app. right. apply in_or_app. auto.
Qed.
