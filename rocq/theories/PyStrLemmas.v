(** Lemmas on [PyStr]. *)
From Verif Require Import PyStr.

Lemma ceqb_spec a b : reflect (a = b) (ceqb a b).
Proof. unfold ceqb. apply Ascii.eqb_spec. Qed.

Lemma ceqb_refl a : ceqb a a = true.
Proof. destruct (ceqb_spec a a); congruence. Qed.

Lemma ceqb_true a b : ceqb a b = true <-> a = b.
Proof. destruct (ceqb_spec a b); split; congruence. Qed.

Lemma ceqb_false a b : ceqb a b = false <-> a <> b.
Proof. destruct (ceqb_spec a b); split; congruence. Qed.

Lemma ceqb_sym a b : ceqb a b = ceqb b a.
Proof. destruct (ceqb_spec a b), (ceqb_spec b a); congruence. Qed.

Lemma seqb_spec a b : reflect (a = b) (seqb a b).
Proof.
  revert b; induction a as [|x a IH]; intros [|y b]; cbn; try (constructor; congruence).
  destruct (ceqb_spec x y) as [->|Hn]; cbn; [|constructor; congruence].
  destruct (IH b); constructor; congruence.
Qed.

Lemma seqb_refl a : seqb a a = true.
Proof. destruct (seqb_spec a a); congruence. Qed.

Lemma seqb_true a b : seqb a b = true <-> a = b.
Proof. destruct (seqb_spec a b); split; congruence. Qed.

Lemma seqb_false a b : seqb a b = false <-> a <> b.
Proof. destruct (seqb_spec a b); split; congruence. Qed.

Lemma smem_In x l : smem x l = true <-> In x l.
Proof.
  unfold smem. rewrite existsb_exists. split.
  - intros (y & Hy & E). apply seqb_true in E. subst; auto.
  - intros H. exists x. split; auto. apply seqb_refl.
Qed.

Lemma smem_false x l : smem x l = false <-> ~ In x l.
Proof. rewrite <- smem_In. destruct (smem x l); split; congruence. Qed.

(** *** Prefixes *)

Lemma startswith_app p s : startswith p (p ++ s) = true.
Proof. induction p as [|x p IH]; cbn; auto. rewrite ceqb_refl; auto. Qed.

Lemma startswith_true p s : startswith p s = true <-> exists r, s = p ++ r.
Proof.
  split.
  - revert s; induction p as [|x p IH]; intros s H; cbn in *.
    + exists s; auto.
    + destruct s as [|y s]; [discriminate|].
      apply andb_true_iff in H as [Hx H]. apply ceqb_true in Hx. subst y.
      destruct (IH _ H) as [r ->]. exists r; auto.
  - intros [r ->]. apply startswith_app.
Qed.

Lemma startswith_refl p : startswith p p = true.
Proof. rewrite <- (app_nil_r p) at 2. apply startswith_app. Qed.

Lemma startswith_nil s : startswith [] s = true.
Proof. destruct s; reflexivity. Qed.

Lemma startswith_length p s : startswith p s = true -> length p <= length s.
Proof. rewrite startswith_true. intros [r ->]. rewrite app_length; lia. Qed.

Lemma contains_true sub s : contains sub s = true <-> exists a b, s = a ++ sub ++ b.
Proof.
  split.
  - induction s as [|c s IH]; cbn [contains]; intros H; apply orb_true_iff in H as [H|H].
    + apply startswith_true in H as [r Hr]. exists [], r. auto.
    + discriminate.
    + apply startswith_true in H as [r Hr]. exists [], r. auto.
    + destruct (IH H) as (a & b & ->). exists (c :: a), b. auto.
  - intros (a & b & ->). induction a as [|c a IH]; cbn [app].
    + destruct (sub ++ b) as [|x t] eqn:E; cbn [contains].
      * apply app_eq_nil in E as [-> ->]. reflexivity.
      * rewrite <- E, startswith_app. reflexivity.
    + cbn [contains]. rewrite IH. apply orb_true_r.
Qed.

Lemma contains_false sub s : contains sub s = false <-> forall a b, s <> a ++ sub ++ b.
Proof.
  split.
  - intros H a b E. assert (contains sub s = true) by (apply contains_true; eauto). congruence.
  - intros H. destruct (contains sub s) eqn:E; auto.
    apply contains_true in E as (a & b & E). destruct (H _ _ E).
Qed.

Lemma contains_app_l sub a b : contains sub a = true -> contains sub (a ++ b) = true.
Proof.
  rewrite !contains_true. intros (x & y & ->). exists x, (y ++ b). rewrite <- !app_assoc. auto.
Qed.

Lemma contains_app_r sub a b : contains sub b = true -> contains sub (a ++ b) = true.
Proof.
  rewrite !contains_true. intros (x & y & ->). exists (a ++ x), y. rewrite <- !app_assoc. auto.
Qed.

Lemma contains_single c s : contains [c] s = true <-> In c s.
Proof.
  rewrite contains_true. split.
  - intros (a & b & ->). apply in_or_app. right. left. auto.
  - intros H. apply in_split in H as (a & b & ->). exists a, b. auto.
Qed.

(** *** dropwhile / strip *)

Lemma dropwhile_id {A} f (l : list A) :
  match l with [] => True | x :: _ => f x = false end -> dropwhile f l = l.
Proof. destruct l as [|x l]; cbn; auto. intros ->. auto. Qed.

Lemma dropwhile_head {A} f (l : list A) :
  match dropwhile f l with [] => True | x :: _ => f x = false end.
Proof. induction l as [|x l IH]; cbn; auto. destruct (f x) eqn:E; auto. Qed.

Lemma dropwhile_idem {A} f (l : list A) : dropwhile f (dropwhile f l) = dropwhile f l.
Proof. apply dropwhile_id, dropwhile_head. Qed.

Lemma takewhile_dropwhile {A} f (l : list A) : takewhile f l ++ dropwhile f l = l.
Proof. induction l as [|x l IH]; cbn; auto. destruct (f x); cbn; congruence. Qed.

Lemma takewhile_Forall {A} f (l : list A) : Forall (fun x => f x = true) (takewhile f l).
Proof. induction l as [|x l IH]; cbn; auto. destruct (f x) eqn:E; auto. Qed.

Lemma dropwhile_nil {A} f (l : list A) : dropwhile f l = [] <-> Forall (fun x => f x = true) l.
Proof.
  induction l as [|x l IH]; cbn; split; auto.
  - destruct (f x) eqn:E; [|discriminate]. rewrite IH. auto.
  - intros H. inversion H as [|? ? Hx Hl]; subst. rewrite Hx. tauto.
Qed.

Lemma dropwhile_app_all {A} f (a b : list A) :
  Forall (fun x => f x = true) a -> dropwhile f (a ++ b) = dropwhile f b.
Proof. induction 1 as [|x a Hx Ha IH]; cbn; auto. rewrite Hx; auto. Qed.

Lemma dropwhile_app_stop {A} f (a b : list A) x :
  f x = false -> dropwhile f (a ++ x :: b) = dropwhile f (a ++ [x]) ++ b.
Proof.
  intros Hx. induction a as [|y a IH]; cbn.
  - rewrite Hx. auto.
  - destruct (f y); cbn; auto. rewrite <- app_assoc. auto.
Qed.

Lemma rev_Forall {A} (P : A -> Prop) l : Forall P (rev l) <-> Forall P l.
Proof. rewrite !Forall_forall. split; intros H x Hx; apply H; rewrite <- in_rev in *; auto. Qed.

Lemma rstrip_nil s : rstrip s = [] <-> Forall (fun x => is_space x = true) s.
Proof.
  unfold rstrip. rewrite <- (rev_Forall _ s), <- dropwhile_nil.
  split; intros H.
  - apply (f_equal (@rev ascii)) in H. rewrite rev_involutive in H. auto.
  - rewrite H. auto.
Qed.

Lemma blank_Forall s : blank s = true <-> Forall (fun x => is_space x = true) s.
Proof.
  unfold blank, strip. split; intros H.
  - destruct (rstrip (lstrip s)) eqn:E; [|discriminate].
    apply rstrip_nil in E. unfold lstrip in E.
    pose proof (dropwhile_head is_space s) as Hh.
    destruct (dropwhile is_space s) as [|x t] eqn:E2.
    + apply dropwhile_nil; auto.
    + inversion E; subst. congruence.
  - assert (E : lstrip s = []) by (apply dropwhile_nil; auto).
    rewrite E. reflexivity.
Qed.

Lemma blank_nil : blank [] = true.
Proof. reflexivity. Qed.

(** *** split / join *)

Lemma split_on_nonempty c s : split_on c s <> [].
Proof.
  destruct s as [|x s]; cbn; [congruence|].
  destruct (ceqb x c); [congruence|]. destruct (split_on c s); congruence.
Qed.

Lemma split_on_cons c x s l ls :
  split_on c s = l :: ls -> x <> c -> split_on c (x :: s) = (x :: l) :: ls.
Proof. intros H Hn. cbn. apply ceqb_false in Hn. rewrite Hn, H. auto. Qed.

Lemma split_on_no_sep c s : Forall (fun l => ~ In c l) (split_on c s).
Proof.
  induction s as [|x s IH]; cbn; [repeat constructor; auto|].
  destruct (ceqb_spec x c) as [->|Hn]; [constructor; auto|].
  destruct (split_on c s) as [|l ls]; [repeat constructor; cbn; intuition|].
  inversion IH; subst. constructor; auto. cbn. intuition.
Qed.

Lemma join_cons sep x y l : join sep (x :: y :: l) = x ++ sep ++ join sep (y :: l).
Proof. reflexivity. Qed.

Lemma join_split_on c s : join [c] (split_on c s) = s.
Proof.
  induction s as [|x s IH]; cbn [split_on]; auto.
  destruct (ceqb_spec x c) as [->|Hn].
  - destruct (split_on c s) as [|l ls] eqn:E; [destruct (split_on_nonempty _ _ E)|].
    rewrite join_cons, IH. reflexivity.
  - destruct (split_on c s) as [|l ls] eqn:E; [destruct (split_on_nonempty _ _ E)|].
    destruct ls as [|l2 ls].
    + cbn in *. congruence.
    + rewrite join_cons in *. cbn [app]. f_equal. rewrite <- IH. reflexivity.
Qed.

Lemma split_on_single c s : ~ In c s -> split_on c s = [s].
Proof.
  induction s as [|x s IH]; cbn; auto. intros H.
  destruct (ceqb_spec x c) as [->|Hn]; [tauto|].
  rewrite IH by tauto. auto.
Qed.

Lemma split_on_app_sep c a b : ~ In c a -> split_on c (a ++ c :: b) = a :: split_on c b.
Proof.
  induction a as [|x a IH]; cbn [app]; intros H.
  - cbn. rewrite ceqb_refl. auto.
  - cbn in H. erewrite split_on_cons; [reflexivity| |]; [apply IH; tauto|].
    intros ->. tauto.
Qed.

Lemma split_on_join c l :
  l <> [] -> Forall (fun x => ~ In c x) l -> split_on c (join [c] l) = l.
Proof.
  intros Hne H. induction H as [|x l Hx Hl IH]; [congruence|].
  destruct l as [|y l].
  - cbn [join]. apply split_on_single; auto.
  - rewrite join_cons. cbn [app].
    rewrite split_on_app_sep by auto. f_equal. apply IH. congruence.
Qed.

Lemma split_on_app c a b :
  split_on c (a ++ c :: b) = split_on c a ++ split_on c b.
Proof.
  induction a as [|x a IH]; cbn [app split_on].
  - rewrite ceqb_refl. auto.
  - rewrite IH. destruct (ceqb x c); [reflexivity|].
    destruct (split_on c a) as [|l ls] eqn:E; [destruct (split_on_nonempty _ _ E)|]. reflexivity.
Qed.

Lemma lines_nonempty s : lines s <> [].
Proof. apply split_on_nonempty. Qed.

Lemma unlines_lines s : unlines (lines s) = s.
Proof. apply join_split_on. Qed.

Lemma lines_unlines l : l <> [] -> Forall (fun x => ~ In nl x) l -> lines (unlines l) = l.
Proof. apply split_on_join. Qed.

Lemma lines_no_nl s : Forall (fun l => ~ In nl l) (lines s).
Proof. apply split_on_no_sep. Qed.

Lemma join_app sep a b : a <> [] -> b <> [] -> join sep (a ++ b) = join sep a ++ sep ++ join sep b.
Proof.
  intros Ha Hb. induction a as [|x a IH]; [congruence|].
  destruct a as [|y a].
  - cbn [app]. destruct b as [|z b]; [congruence|]. reflexivity.
  - cbn [app] in *. rewrite !join_cons. rewrite IH by congruence. rewrite <- !app_assoc. auto.
Qed.

Lemma join_In c sep l : In c (join sep l) -> In c sep \/ exists x, In x l /\ In c x.
Proof.
  induction l as [|x l IH]; cbn [join]; [intros []|].
  destruct l as [|y l].
  - intros H. right. exists x. cbn; auto.
  - intros H. apply in_app_or in H as [H|H].
    + right. exists x. cbn; auto.
    + apply in_app_or in H as [H|H]; auto.
      destruct (IH H) as [?|(z & Hz & ?)]; auto. right. exists z. cbn; auto.
Qed.

(** *** replace *)

Lemma replace_aux_no_occ old new s :
  contains old s = false -> replace_aux old new s 0 = s.
Proof.
  induction s as [|c s IH]; intros H; [reflexivity|].
  cbn [contains] in H. apply orb_false_iff in H as [H1 H2].
  cbn [replace_aux]. rewrite H1, IH; auto.
Qed.

Lemma replace_no_occ old new s : contains old s = false -> replace old new s = s.
Proof. apply replace_aux_no_occ. Qed.

Lemma replace_single_char c new s :
  replace [c] new s = flat_map (fun x => if ceqb x c then new else [x]) s.
Proof.
  unfold replace. induction s as [|x s IH]; [reflexivity|].
  cbn [replace_aux startswith flat_map]. rewrite andb_true_r, (ceqb_sym c x).
  destruct (ceqb x c); cbn [length Nat.sub app]; rewrite IH; auto.
Qed.

(** *** More on [replace] *)

Lemma replace_aux_skip old new a r : replace_aux old new (a ++ r) (length a) = replace_aux old new r 0.
Proof. induction a as [|x a IH]; cbn [app length replace_aux]; auto. Qed.

Lemma replace_nil old new : replace old new [] = [].
Proof. reflexivity. Qed.

Lemma replace_occ old new r : old <> [] -> replace old new (old ++ r) = new ++ replace old new r.
Proof.
  unfold replace. intros H. destruct old as [|o old]; [congruence|].
  cbn [app]. cbn [replace_aux].
  change (o :: old ++ r) with ((o :: old) ++ r). rewrite startswith_app.
  f_equal. cbn [length]. rewrite Nat.sub_succ, Nat.sub_0_r. apply replace_aux_skip.
Qed.

Lemma replace_cons old new c s :
  startswith old (c :: s) = false -> replace old new (c :: s) = c :: replace old new s.
Proof. unfold replace. intros H. cbn [replace_aux]. rewrite H. auto. Qed.

(** Induction along the way [replace] reads its argument. *)
Lemma replace_ind (old : str) (P : str -> Prop) :
  old <> [] ->
  P [] ->
  (forall c s, startswith old (c :: s) = false -> P s -> P (c :: s)) ->
  (forall r, P r -> P (old ++ r)) ->
  forall s, P s.
Proof.
  intros Hne H0 H1 H2 s. remember (length s) as n eqn:Hn. assert (Hle : length s <= n) by lia. clear Hn.
  revert s Hle. induction n as [|n IH]; intros s Hle.
  - destruct s; [auto|cbn in Hle; lia].
  - destruct s as [|c s]; auto.
    destruct (startswith old (c :: s)) eqn:E.
    + apply startswith_true in E as [r E]. rewrite E. apply H2. apply IH.
      apply (f_equal (@length ascii)) in E. rewrite app_length in E. cbn in *.
      destruct old; [congruence|]. cbn in E. lia.
    + apply H1; auto. apply IH. cbn in Hle. lia.
Qed.

Lemma startswith_app_sep old a c b :
  ~ In c old -> startswith old (a ++ c :: b) = startswith old a.
Proof.
  revert a; induction old as [|o old IH]; intros a H; [reflexivity|].
  destruct a as [|x a]; cbn.
  - destruct (ceqb_spec o c); [subst; cbn in H; tauto|]. auto.
  - rewrite IH; [auto|]. cbn in H. tauto.
Qed.

Lemma replace_sep old new a c b :
  old <> [] -> ~ In c old -> replace old new (a ++ c :: b) = replace old new a ++ c :: replace old new b.
Proof.
  intros Hne Hc. revert a. apply (replace_ind old); auto.
  - cbn [app]. rewrite replace_cons; auto. pose proof (startswith_app_sep old [] c b Hc) as E. cbn [app] in E. rewrite E.
    destruct old; [congruence|auto].
  - intros x s Hx IH. cbn [app]. rewrite !replace_cons; auto.
    + rewrite IH. auto.
    + change (x :: s ++ c :: b) with ((x :: s) ++ c :: b). rewrite startswith_app_sep; auto.
  - intros r IH. rewrite <- app_assoc, !replace_occ by auto. rewrite IH, app_assoc. auto.
Qed.

Lemma replace_pointwise (R : ascii -> ascii -> Prop) old new s :
  (forall c, R c c) -> old <> [] -> Forall2 R old new -> Forall2 R s (replace old new s).
Proof.
  intros Hr Hne H. revert s. apply (replace_ind old); [auto|constructor| |].
  - intros c s Hc IH. rewrite replace_cons; auto.
  - intros r IH. rewrite replace_occ by auto. apply Forall2_app; auto.
Qed.

Lemma Forall2_length {A B} (R : A -> B -> Prop) l l' : Forall2 R l l' -> length l = length l'.
Proof. induction 1; cbn; congruence. Qed.

(** *** [split] with a longer separator *)

Lemma split_aux_skip sep a r : split_aux sep (a ++ r) (length a) = split_aux sep r 0.
Proof. induction a as [|x a IH]; cbn [app length split_aux]; auto. Qed.

Lemma split_occ sep r : sep <> [] -> split sep (sep ++ r) = [] :: split sep r.
Proof.
  unfold split. intros H. destruct sep as [|o sep]; [congruence|].
  cbn [app]. cbn [split_aux].
  change (o :: sep ++ r) with ((o :: sep) ++ r). rewrite startswith_app.
  f_equal. cbn [length]. rewrite Nat.sub_succ, Nat.sub_0_r. apply split_aux_skip.
Qed.

Lemma split_nonempty sep s : sep <> [] -> split sep s <> [].
Proof.
  intros H. pattern s. revert s. apply (replace_ind sep); auto; [discriminate| |].
  - intros c s E IH. unfold split. cbn [split_aux]. rewrite E. destruct (split_aux sep s 0); discriminate.
  - intros r _. rewrite split_occ by auto. discriminate.
Qed.

Lemma split_cons sep c s h t :
  startswith sep (c :: s) = false -> split sep s = h :: t -> split sep (c :: s) = (c :: h) :: t.
Proof. unfold split. intros H E. cbn [split_aux]. rewrite H, E. auto. Qed.

Lemma join_cons_ne sep x l : l <> [] -> join sep (x :: l) = x ++ sep ++ join sep l.
Proof. destruct l; [congruence|]. reflexivity. Qed.

Lemma join_split sep s : sep <> [] -> join sep (split sep s) = s.
Proof.
  intros H. pattern s. revert s. apply (replace_ind sep); auto.
  - intros c s E IH. destruct (split sep s) as [|h t] eqn:Es; [destruct (split_nonempty _ _ H Es)|].
    rewrite (split_cons sep c s h t) by auto.
    destruct t as [|y t]; cbn [join] in *; [congruence|]. rewrite <- IH. reflexivity.
  - intros r IH. rewrite split_occ by auto. rewrite join_cons_ne by (apply split_nonempty; auto).
    rewrite IH. reflexivity.
Qed.

Lemma split_no_occ sep s : sep <> [] -> contains sep s = false -> split sep s = [s].
Proof.
  intros Hne. induction s as [|c s IH]; intros H; [reflexivity|].
  cbn [contains] in H. apply orb_false_iff in H as [H1 H2].
  apply split_cons; auto.
Qed.

(** Splitting what was joined, when the first character of the separator does not occur in the
    parts. *)
Lemma split_part sep o a r : sep <> [] -> hd_error sep = Some o -> ~ In o a ->
  split sep (a ++ sep ++ r) = a :: split sep r.
Proof.
  intros Hne Ho. induction a as [|x a IH]; intros Ha.
  - cbn [app]. apply split_occ. auto.
  - cbn [app]. apply split_cons.
    + destruct sep as [|o' sep]; [congruence|]. cbn in Ho. inversion Ho; subst o'.
      cbn [startswith]. destruct (ceqb_spec o x); [subst; cbn in Ha; tauto|]. reflexivity.
    + apply IH. cbn in Ha. tauto.
Qed.

Lemma split_last sep o a : sep <> [] -> hd_error sep = Some o -> ~ In o a -> split sep a = [a].
Proof.
  intros Hne Ho Ha. apply split_no_occ; auto. apply contains_false. intros x y ->.
  apply Ha. apply in_or_app. right. apply in_or_app. left.
  destruct sep; [congruence|]. cbn in Ho. inversion Ho. left; auto.
Qed.

Lemma split_join sep o l : sep <> [] -> hd_error sep = Some o -> l <> [] ->
  Forall (fun p => ~ In o p) l -> split sep (join sep l) = l.
Proof.
  intros Hne Ho Hl F. induction F as [|x l Hx F IH]; [congruence|].
  destruct l as [|y l].
  - cbn [join]. eapply split_last; eauto.
  - rewrite join_cons. rewrite (split_part sep o) by auto. f_equal. apply IH. congruence.
Qed.
