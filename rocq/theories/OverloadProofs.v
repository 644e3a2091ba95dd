(** Proofs for C22: grouping overloads. *)
From Coq Require Import Permutation Sorted.
From Verif Require Import PyStr PyStrLemmas OverloadModel OverloadSpec.

(** *** Lists *)

Lemma filter_false {A} (f : A -> bool) l : (forall x, In x l -> f x = false) -> filter f l = [].
Proof.
  induction l as [|x l IH]; intros H; auto. cbn. rewrite H by (left; auto). apply IH.
  intros y Hy. apply H. right; auto.
Qed.

Lemma filter_nil_In {A} (f : A -> bool) l : filter f l = [] -> forall x, In x l -> f x = false.
Proof.
  intros H x Hx. destruct (f x) eqn:E; auto.
  assert (Hin : In x (filter f l)) by (apply filter_In; auto). rewrite H in Hin. destruct Hin.
Qed.

Lemma filter_single {A} (f : A -> bool) l x : filter f l = [x] ->
  exists a b, l = a ++ x :: b /\ filter f a = [] /\ filter f b = [] /\ f x = true.
Proof.
  induction l as [|y l IH]; cbn; [discriminate|]. destruct (f y) eqn:E; intros H.
  - inversion H; subst. exists [], l. auto.
  - destruct (IH H) as (a & b & -> & Ha & Hb & Hx). exists (y :: a), b. cbn. rewrite E. auto.
Qed.

(** *** Association lists *)

Lemma assoc_In {V} (d : list (str * V)) k v : assoc d k = Some v -> In (k, v) d.
Proof.
  induction d as [|[k' v'] d IH]; cbn; [discriminate|].
  destruct (seqb_spec k' k) as [->|Hn]; intros H; [inversion H; auto|auto].
Qed.

Lemma assoc_None {V} (d : list (str * V)) k : assoc d k = None <-> ~ In k (map fst d).
Proof.
  induction d as [|[k' v'] d IH]; cbn; [tauto|].
  destruct (seqb_spec k' k) as [->|Hn]; [|rewrite IH]; intuition congruence.
Qed.

Lemma In_assoc {V} (d : list (str * V)) k v : NoDup (map fst d) -> In (k, v) d -> assoc d k = Some v.
Proof.
  induction d as [|[k' v'] d IH]; cbn; intros Hn H; [destruct H|].
  inversion Hn as [|? ? Hnot Hn']; subst. destruct H as [E|H].
  - inversion E; subst. rewrite seqb_refl. auto.
  - destruct (seqb_spec k' k) as [->|]; auto.
    destruct Hnot. apply (in_map fst) in H. auto.
Qed.

Lemma assoc_app_new {V} (d : list (str * V)) k v n : assoc d k = None ->
  assoc (d ++ [(k, v)]) n = if seqb k n then Some v else assoc d n.
Proof.
  induction d as [|[k' v'] d IH]; cbn; intros H; [auto|].
  destruct (seqb_spec k' k) as [->|Hk]; [discriminate|].
  destruct (seqb_spec k' n) as [->|Hn].
  - destruct (seqb_spec k n); congruence.
  - apply IH. auto.
Qed.

Lemma assoc_update {V} (d : list (str * V)) k f v0 n :
  assoc (update d k f v0) n =
  if seqb k n then Some match assoc d k with Some v => f v | None => v0 end else assoc d n.
Proof.
  induction d as [|[k' v'] d IH]; cbn.
  - destruct (seqb k n); auto.
  - destruct (seqb_spec k' k) as [->|Hk]; cbn.
    + destruct (seqb_spec k n); auto.
    + rewrite IH. destruct (seqb_spec k' n) as [->|Hn]; auto.
      destruct (seqb_spec k n); [congruence|auto].
Qed.

Lemma update_keys {V} (d : list (str * V)) k f v0 : NoDup (map fst d) -> NoDup (map fst (update d k f v0)).
Proof.
  induction d as [|[k' v'] d IH]; cbn; intros H; [repeat constructor; auto|].
  inversion H as [|? ? Hn Hd]; subst. destruct (seqb_spec k' k) as [->|Hk]; cbn; [constructor; auto|].
  constructor; auto. intros Hin. apply Hn.
  apply in_map_iff in Hin as ([x y] & E & Hin). cbn in E. subst x.
  destruct (assoc d k') as [v|] eqn:Ea; [apply assoc_In in Ea; apply (in_map fst) in Ea; auto|].
  assert (Ha : assoc (update d k f v0) k' = None).
  { rewrite assoc_update. destruct (seqb_spec k k'); [congruence|auto]. }
  apply assoc_None in Ha. destruct Ha. apply (in_map fst) in Hin. auto.
Qed.

(** *** Sorting by decreasing index *)

Definition desc {V} (p q : nat * V) : Prop := fst q < fst p.

Lemma insert_desc_perm {V} x (l : list (nat * V)) : Permutation (x :: l) (insert_desc x l).
Proof.
  induction l as [|y l IH]; cbn [insert_desc]; [auto|]. destruct (fst y <? fst x); [auto|].
  apply perm_trans with (y :: x :: l); [apply perm_swap|]. apply perm_skip. exact IH.
Qed.

Lemma sort_desc_perm {V} (l : list (nat * V)) : Permutation l (sort_desc l).
Proof.
  induction l as [|x l IH]; cbn; auto. apply perm_trans with (x :: sort_desc l); [apply perm_skip; exact IH|apply insert_desc_perm].
Qed.

Lemma insert_desc_sorted {V} x (l : list (nat * V)) :
  StronglySorted desc l -> ~ In (fst x) (map fst l) -> StronglySorted desc (insert_desc x l).
Proof.
  induction 1 as [|y l Hl IH Hy]; cbn [insert_desc map In]; intros Hn; [repeat constructor|].
  destruct (Nat.ltb_spec (fst y) (fst x)) as [Hlt|Hge].
  - constructor; [constructor; auto|]. constructor; auto.
    eapply Forall_impl; [|exact Hy]. unfold desc. intros z Hz. lia.
  - constructor; [apply IH; tauto|].
    eapply Permutation_Forall; [apply insert_desc_perm|]. constructor; auto.
    unfold desc. destruct (Nat.eq_dec (fst y) (fst x)); [tauto|lia].
Qed.

Lemma sort_desc_sorted {V} (l : list (nat * V)) : NoDup (map fst l) -> StronglySorted desc (sort_desc l).
Proof.
  induction l as [|x l IH]; cbn; intros H; [constructor|].
  inversion H; subst. apply insert_desc_sorted; auto.
  intros Hin. apply H2. eapply Permutation_in; [|exact Hin].
  apply Permutation_map, Permutation_sym, sort_desc_perm.
Qed.

(** *** Insertions *)

Section Group.
Variable A : Type.
Variable key : A -> option str.
Notation has_name := (has_name A key).
Notation leaders := (leaders A key).

Lemma insert_elems_eq elems : forall a b, insert_elems A (length a) elems (a ++ b) = a ++ elems ++ b.
Proof.
  induction elems as [|x elems IH]; intros a b; cbn [insert_elems]; auto.
  assert (E : list_insert A (length a) x (a ++ b) = (a ++ [x]) ++ b).
  { unfold list_insert. rewrite firstn_app, skipn_app, Nat.sub_diag, firstn_all, skipn_all.
    cbn. rewrite app_nil_r, <- app_assoc. auto. }
  rewrite E. replace (S (length a)) with (length (a ++ [x])) by (rewrite app_length; cbn; lia).
  rewrite IH. rewrite <- app_assoc. auto.
Qed.

Fixpoint look (ins : list (nat * list A)) (k : nat) : list A :=
  match ins with
  | [] => []
  | (i, l) :: ins' => if i =? k then l else look ins' k
  end.
Fixpoint expand (ins : list (nat * list A)) (k : nat) (R : list A) : list A :=
  match R with
  | [] => []
  | x :: R' => x :: look ins k ++ expand ins (S k) R'
  end.

Lemma look_none ins k : ~ In k (map fst ins) -> look ins k = [].
Proof.
  induction ins as [|[i l] ins IH]; cbn; auto. intros H.
  destruct (Nat.eqb_spec i k); [tauto|]. apply IH. tauto.
Qed.

Lemma look_some ins k l : NoDup (map fst ins) -> In (k, l) ins -> look ins k = l.
Proof.
  induction ins as [|[i l'] ins IH]; cbn; intros Hn H; [destruct H|].
  inversion Hn; subst. destruct H as [E|H].
  - inversion E; subst. rewrite Nat.eqb_refl. auto.
  - destruct (Nat.eqb_spec i k) as [->|]; auto. destruct H2. apply (in_map fst) in H. auto.
Qed.

Lemma expand_app ins R : forall k S_, expand ins k (R ++ S_) = expand ins k R ++ expand ins (k + length R) S_.
Proof.
  induction R as [|x R IH]; intros k S_; cbn [app expand length].
  - rewrite Nat.add_0_r. auto.
  - rewrite IH, <- app_assoc. cbn. do 3 f_equal. f_equal. lia.
Qed.

Lemma expand_ext ins ins' R : forall k,
  (forall i, k <= i < k + length R -> look ins i = look ins' i) -> expand ins k R = expand ins' k R.
Proof.
  induction R as [|x R IH]; intros k H; cbn; auto. cbn [length] in H.
  rewrite (H k) by lia. rewrite (IH (S k)); auto. intros i Hi. apply H. lia.
Qed.

Lemma expand_none ins R : forall k,
  (forall i, k <= i < k + length R -> look ins i = []) -> expand ins k R = R.
Proof.
  induction R as [|x R IH]; intros k H; cbn; auto. cbn [length] in H.
  rewrite (H k) by lia. cbn. rewrite (IH (S k)); auto. intros i Hi. apply H. lia.
Qed.

Lemma insertions_eq ins : StronglySorted desc ins -> forall a T,
  Forall (fun p => fst p < length a) ins ->
  fold_left (fun l p => insert_elems A (fst p + 1) (snd p) l) ins (a ++ T) = expand ins 0 a ++ T.
Proof.
  induction 1 as [|[i elems] ins Hs IH Hd]; intros a T Hlt.
  - cbn. f_equal. symmetry. apply expand_none. auto.
  - inversion Hlt as [|? ? Hi Hlt']; subst. cbn [fst snd] in *. cbn [fold_left fst snd].
    destruct (nth_error a i) as [x|] eqn:Ex; [|apply nth_error_None in Ex; lia].
    apply nth_error_split in Ex as (a1 & a2 & -> & Hl). subst i.
    assert (E : insert_elems A (length a1 + 1) elems ((a1 ++ x :: a2) ++ T)
                = a1 ++ (x :: elems ++ a2 ++ T)).
    { replace (length a1 + 1) with (length (a1 ++ [x])) by (rewrite app_length; cbn; lia).
      replace ((a1 ++ x :: a2) ++ T) with ((a1 ++ [x]) ++ a2 ++ T)
        by (rewrite <- !app_assoc; reflexivity).
      rewrite insert_elems_eq, <- app_assoc. reflexivity. }
    rewrite E, IH.
    2:{ eapply Forall_impl; [|exact Hd]. intros p Hp. exact Hp. }
    rewrite expand_app. cbn [expand]. rewrite Nat.add_0_l.
    change (look ((length a1, elems) :: ins) (length a1))
      with (if length a1 =? length a1 then elems else look ins (length a1)).
    rewrite Nat.eqb_refl.
    rewrite (expand_none _ a2).
    2:{ intros k Hk. cbn [look]. destruct (Nat.eqb_spec (length a1) k); [lia|].
        apply look_none. intros Hin. apply in_map_iff in Hin as (p & <- & Hp).
        rewrite Forall_forall in Hd. specialize (Hd p Hp). unfold desc in Hd. cbn in Hd. lia. }
    rewrite (expand_ext ((length a1, elems) :: ins) ins a1).
    2:{ intros k Hk. cbn [look]. destruct (Nat.eqb_spec (length a1) k); [lia|auto]. }
    rewrite <- !app_assoc. cbn [app]. rewrite <- app_assoc. auto.
Qed.

(** *** Leaders *)

Lemma has_name_true n e : has_name n e = true <-> key e = Some n.
Proof.
  unfold has_name. destruct (key e) as [m|]; [|split; discriminate].
  rewrite seqb_true. split; congruence.
Qed.

Lemma has_name_eq n e : has_name n e = match key e with Some m => seqb m n | None => false end.
Proof. reflexivity. Qed.

Lemma leaders_filter n l : forall seen,
  filter (has_name n) (leaders seen l) = if smem n seen then [] else firstn 1 (filter (has_name n) l).
Proof.
  induction l as [|e l IH]; intros seen; cbn [leaders filter]; [destruct (smem n seen); auto|].
  rewrite (has_name_eq n e). destruct (key e) as [m|] eqn:E.
  - destruct (smem m seen) eqn:Em.
    + rewrite IH. destruct (seqb_spec m n) as [->|]; [rewrite Em; auto|auto].
    + cbn [filter]. rewrite (has_name_eq n e), E. rewrite IH. cbn [smem existsb].
      destruct (seqb_spec m n) as [->|Hn].
      * rewrite seqb_refl. cbn [orb]. rewrite Em. reflexivity.
      * destruct (seqb_spec n m) as [->|]; [congruence|]. cbn [orb]. auto.
  - cbn [filter]. rewrite (has_name_eq n e), E. apply IH.
Qed.

Lemma leaders_snoc l e : forall seen,
  leaders seen (l ++ [e]) = leaders seen l ++
  match key e with
  | None => [e]
  | Some n => if smem n seen then [] else match filter (has_name n) l with [] => [e] | _ => [] end
  end.
Proof.
  induction l as [|x l IH]; intros seen; cbn [app leaders].
  - destruct (key e) as [n|] eqn:E; cbn; auto.
  - destruct (key x) as [m|] eqn:Ex.
    + destruct (smem m seen) eqn:Em.
      * rewrite IH. f_equal. destruct (key e) as [n|]; auto. cbn [filter].
        rewrite (has_name_eq n x), Ex. destruct (seqb_spec m n) as [->|]; auto.
        rewrite Em. auto.
      * rewrite IH. cbn [app]. f_equal. f_equal. destruct (key e) as [n|]; auto. cbn [filter smem existsb].
        rewrite (has_name_eq n x), Ex.
        destruct (seqb_spec m n) as [->|Hn].
        { rewrite seqb_refl. cbn [orb]. rewrite Em. auto. }
        { destruct (seqb_spec n m) as [->|]; [congruence|]. cbn [orb]. auto. }
    + rewrite IH. cbn [app]. f_equal. f_equal. destruct (key e) as [n|]; auto. cbn [filter].
      rewrite (has_name_eq n x), Ex. auto.
Qed.

Lemma leaders_incl l : forall seen, incl (leaders seen l) l.
Proof.
  induction l as [|x l IH]; intros seen; cbn; [intros y []|].
  assert (forall s, incl (leaders s l) (x :: l)) by (intros s y Hy; right; apply (IH s y Hy)).
  destruct (key x) as [m|]; [destruct (smem m seen)|]; auto;
    intros y [->|Hy]; [left; auto|apply (H _ y Hy)|left; auto|apply (H _ y Hy)].
Qed.

(** The overloads that follow a leader. *)
Definition ext (l : list A) (e : A) : list A :=
  match key e with Some n => tl (filter (has_name n) l) | None => [] end.
Definition closed_form (l : list A) : list A := flat_map (fun e => e :: ext l e) (leaders [] l).

(** *** The loop *)

Definition inv (P : list A) (s : gstate A) : Prop :=
  result A s = leaders [] P /\
  (forall n, assoc (first_index A s) n = None <-> filter (has_name n) P = []) /\
  (forall n i, assoc (first_index A s) n = Some i ->
     exists e, nth_error (result A s) i = Some e /\ key e = Some n) /\
  NoDup (map fst (deferred A s)) /\
  (forall n, assoc (deferred A s) n =
     match tl (filter (has_name n) P) with [] => None | l => Some l end).

Lemma nth_error_app_Some {B} (l l' : list B) i x : nth_error l i = Some x -> nth_error (l ++ l') i = Some x.
Proof. intros H. rewrite nth_error_app1; auto. apply nth_error_Some. congruence. Qed.

Lemma tl_app_ne {B} (l : list B) x : l <> [] -> tl (l ++ [x]) = tl l ++ [x].
Proof. destruct l; [congruence|]. auto. Qed.

Lemma inv_step P s e : inv P s -> inv (P ++ [e]) (group_step A key s e).
Proof.
  intros (Hr & Hf0 & Hf & Hnd & Hd). unfold group_step. destruct (key e) as [n|] eqn:Ek.
  - assert (Hfil : forall m, filter (has_name m) (P ++ [e]) =
              filter (has_name m) P ++ (if seqb n m then [e] else [])).
    { intros m. rewrite filter_app. cbn [filter]. rewrite (has_name_eq m e), Ek.
      destruct (seqb n m); auto. }
    destruct (assoc (first_index A s) n) as [i0|] eqn:Ea.
    + assert (Hne : filter (has_name n) P <> []) by (intros E; apply Hf0 in E; congruence).
      split; [|split; [|split; [|split]]]; cbn [first_index result deferred].
      * rewrite leaders_snoc, Ek. cbn [smem existsb].
        destruct (filter (has_name n) P) eqn:E; [congruence|]. rewrite app_nil_r. auto.
      * intros m. rewrite Hf0, Hfil. destruct (seqb_spec n m) as [->|]; [|rewrite app_nil_r; tauto].
        destruct (filter (has_name m) P); [congruence|]. split; discriminate.
      * auto.
      * apply update_keys. auto.
      * intros m. rewrite assoc_update, Hfil. destruct (seqb_spec n m) as [->|Hn].
        { rewrite tl_app_ne by auto. rewrite Hd.
          destruct (tl (filter (has_name m) P)) as [|y t]; reflexivity. }
        { rewrite app_nil_r. apply Hd. }
    + assert (He : filter (has_name n) P = []) by (apply Hf0; auto).
      split; [|split; [|split; [|split]]]; cbn [first_index result deferred].
      * rewrite leaders_snoc, Ek, He. cbn [smem existsb]. congruence.
      * intros m. rewrite assoc_app_new, Hfil by auto.
        destruct (seqb_spec n m) as [->|Hn].
        { split; [discriminate|]. intros E. apply app_eq_nil in E as [_ E]. discriminate. }
        { rewrite app_nil_r. apply Hf0. }
      * intros m i. rewrite assoc_app_new by auto. destruct (seqb_spec n m) as [->|Hn]; intros H.
        { inversion H; subst. exists e. split; auto. rewrite nth_error_app2, Nat.sub_diag; auto. }
        { destruct (Hf m i H) as (e' & H1 & H2). exists e'. split; auto using nth_error_app_Some. }
      * auto.
      * intros m. rewrite Hfil, Hd. destruct (seqb_spec n m) as [->|Hn].
        { rewrite He. auto. }
        { rewrite app_nil_r. auto. }
  - assert (Hfil : forall m, filter (has_name m) (P ++ [e]) = filter (has_name m) P).
    { intros m. rewrite filter_app. cbn [filter]. rewrite (has_name_eq m e), Ek.
      apply app_nil_r. }
    split; [|split; [|split; [|split]]]; cbn [first_index result deferred].
    + rewrite leaders_snoc, Ek. congruence.
    + intros m. rewrite Hfil. auto.
    + intros m i H. destruct (Hf m i H) as (e' & H1 & H2). exists e'. split; auto using nth_error_app_Some.
    + auto.
    + intros m. rewrite Hfil. auto.
Qed.

Lemma inv_fold l : inv l (fold_left (group_step A key) l {| first_index := []; result := []; deferred := [] |}).
Proof.
  induction l as [|e l IH] using rev_ind.
  - cbn. split; [auto|]. split; [tauto|]. split; [discriminate|]. split; [constructor|auto].
  - rewrite fold_left_app. cbn [fold_left]. apply inv_step. auto.
Qed.

Lemma expand_flat_map ins R f : forall k,
  (forall i e, nth_error R i = Some e -> look ins (k + i) = f e) ->
  expand ins k R = flat_map (fun e => e :: f e) R.
Proof.
  induction R as [|x R IH]; intros k H; cbn; auto.
  pose proof (H 0 x eq_refl) as H0. rewrite Nat.add_0_r in H0. rewrite H0. f_equal. f_equal.
  apply IH. intros i e He. rewrite <- (H (S i) e He). f_equal. lia.
Qed.

Lemma flat_map_self l f : (forall e, In e l -> f e = []) -> flat_map (fun e : A => e :: f e) l = l.
Proof.
  induction l as [|x l IH]; cbn; intros H; auto. rewrite H by auto. cbn. f_equal. auto.
Qed.

Lemma leaders_all l : (forall n, tl (filter (has_name n) l) = []) -> leaders [] l = l.
Proof.
  induction l as [|e l IH] using rev_ind; intros H; auto.
  assert (H' : forall n, tl (filter (has_name n) l) = []).
  { intros n. specialize (H n). rewrite filter_app in H. destruct (filter (has_name n) l) as [|x t]; auto.
    cbn in *. apply app_eq_nil in H. tauto. }
  rewrite leaders_snoc, (IH H'). f_equal. destruct (key e) as [n|] eqn:E; auto. cbn [smem existsb].
  specialize (H n). rewrite filter_app in H. cbn [filter] in H.
  assert (En : has_name n e = true) by (apply has_name_true; auto). rewrite En in H.
  destruct (filter (has_name n) l) as [|x t]; auto. cbn in H. apply app_eq_nil in H as [_ H]. discriminate.
Qed.

Lemma group_closed_form l : group_overloaded_functions A key l = closed_form l.
Proof.
  unfold group_overloaded_functions, closed_form.
  pose proof (inv_fold l) as (Hr & Hf0 & Hf & Hnd & Hd).
  set (s := fold_left _ _ _) in *. cbn zeta.
  assert (Hdef : forall n els, In (n, els) (deferred A s) ->
            els = tl (filter (has_name n) l) /\ els <> [] /\
            exists i, assoc (first_index A s) n = Some i).
  { intros n els Hin. apply In_assoc in Hin; auto. rewrite Hd in Hin.
    destruct (tl (filter (has_name n) l)) as [|y t] eqn:E; [discriminate|]. inversion Hin; subst.
    split; auto. split; [discriminate|].
    destruct (assoc (first_index A s) n) as [i|] eqn:Ea; [eauto|].
    apply Hf0 in Ea. rewrite Ea in E. discriminate. }
  destruct (deferred A s) as [|p0 d0] eqn:Ed.
  - assert (H0 : forall n, tl (filter (has_name n) l) = []).
    { intros n. specialize (Hd n). cbn in Hd.
      destruct (tl (filter (has_name n) l)); [auto|discriminate]. }
    rewrite leaders_all by auto. symmetry. apply flat_map_self.
    intros e _. unfold ext. destruct (key e); auto.
  - rewrite <- Ed in *. clear Ed p0 d0.
    set (idx := fun p : str * list A =>
                  (match assoc (first_index A s) (fst p) with Some i => i | None => 0 end, snd p)).
    set (ins := map idx (deferred A s)).
    assert (Hins : forall i els, In (i, els) ins ->
              exists n e, In (n, els) (deferred A s) /\ nth_error (leaders [] l) i = Some e /\
              key e = Some n /\ els = ext l e).
    { intros i els Hin. apply in_map_iff in Hin as ([n els'] & E & Hin). unfold idx in E. cbn in E.
      inversion E; subst. destruct (Hdef n els Hin) as (E1 & _ & i & Ei).
      rewrite Ei in *. destruct (Hf n i Ei) as (e & He & Hk). rewrite Hr in He.
      exists n, e. repeat split; auto. unfold ext. rewrite Hk. auto. }
    assert (Hnd' : NoDup (map fst ins)).
    { unfold ins. rewrite map_map. apply NoDup_nth_error. intros i j Hi Eij.
      rewrite map_length in Hi.
      assert (Hp : forall k p, nth_error (deferred A s) k = Some p ->
                nth_error (map (fun x => fst (idx x)) (deferred A s)) k = Some (fst (idx p))).
      { intros k p Hk. apply (map_nth_error (fun x => fst (idx x))). auto. }
      destruct (nth_error (deferred A s) i) as [[n1 e1]|] eqn:E1;
        [|apply nth_error_None in E1; lia].
      rewrite (Hp _ _ E1) in Eij. symmetry in Eij.
      destruct (nth_error (deferred A s) j) as [[n2 e2]|] eqn:E2.
      2:{ apply nth_error_None in E2.
          assert (Hj : nth_error (map (fun x => fst (idx x)) (deferred A s)) j <> None) by congruence.
          apply nth_error_Some in Hj. rewrite map_length in Hj. lia. }
      rewrite (Hp _ _ E2) in Eij. inversion Eij as [Eidx]. clear Eij.
      apply nth_error_In in E1 as I1. apply nth_error_In in E2 as I2.
      destruct (Hdef _ _ I1) as (_ & _ & k1 & K1). destruct (Hdef _ _ I2) as (_ & _ & k2 & K2).
      cbn [fst] in Eidx. rewrite K1, K2 in Eidx. subst k2.
      destruct (Hf _ _ K1) as (x1 & X1 & Y1). destruct (Hf _ _ K2) as (x2 & X2 & Y2).
      assert (n1 = n2) by congruence. subst n2.
      apply (proj1 (NoDup_nth_error (map fst (deferred A s))) Hnd); [rewrite map_length; auto|].
      rewrite (map_nth_error fst i _ E1), (map_nth_error fst j _ E2). auto. }
    pose proof (sort_desc_perm ins) as Hperm.
    assert (Hnd2 : NoDup (map fst (sort_desc ins))).
    { eapply Permutation_NoDup; [|exact Hnd']. apply Permutation_map. auto. }
    rewrite <- (app_nil_r (result A s)).
    rewrite insertions_eq.
    + rewrite app_nil_r, Hr. apply expand_flat_map. intros i e He. cbn [plus].
      destruct (in_dec Nat.eq_dec i (map fst (sort_desc ins))) as [Hin|Hin].
      * apply in_map_iff in Hin as ([i' els] & E & Hin). cbn in E. subst i'.
        rewrite (look_some _ i els) by auto.
        apply (Permutation_in _ (Permutation_sym Hperm)) in Hin.
        destruct (Hins i els Hin) as (n & e' & _ & He' & _ & ->). congruence.
      * rewrite look_none by auto. unfold ext. destruct (key e) as [n|] eqn:Ek; auto.
        destruct (tl (filter (has_name n) l)) as [|y t] eqn:Et; auto. exfalso. apply Hin.
        pose proof (Hd n) as Ha. rewrite Et in Ha. apply assoc_In in Ha.
        destruct (Hdef _ _ Ha) as (_ & _ & k & Hk).
        assert (Hkin : In (k, y :: t) ins).
        { unfold ins. apply in_map_iff. exists (n, y :: t). split; auto. unfold idx. cbn. rewrite Hk. auto. }
        destruct (Hins _ _ Hkin) as (n' & e' & Hn' & He' & Hke' & _).
        destruct (Hf _ _ Hk) as (e2 & He2 & Hk2). rewrite Hr in He2.
        assert (Hki : k = i).
        { assert (Hu := leaders_filter n l []). cbn [smem existsb] in Hu.
          destruct (filter (has_name n) (leaders [] l)) as [|z [|z' zs]] eqn:Ez.
          - pose proof (filter_nil_In _ _ Ez e (nth_error_In _ _ He)) as C.
            assert (has_name n e = true) by (apply has_name_true; auto). congruence.
          - apply filter_single in Ez as (a & b & Eab & Ha' & Hb' & _).
            assert (Hone : forall j x, nth_error (leaders [] l) j = Some x -> key x = Some n -> j = length a).
            { intros j x Hj Hx. rewrite Eab in Hj. apply has_name_true in Hx.
              destruct (lt_eq_lt_dec j (length a)) as [[Hlt|Heq]|Hgt]; [|exact Heq|].
              - rewrite nth_error_app1 in Hj by auto. apply nth_error_In in Hj.
                pose proof (filter_nil_In _ _ Ha' _ Hj). congruence.
              - rewrite nth_error_app2 in Hj by lia.
                destruct (j - length a) as [|q] eqn:Eq; [lia|]. cbn in Hj. apply nth_error_In in Hj.
                pose proof (filter_nil_In _ _ Hb' _ Hj). congruence. }
            rewrite (Hone _ _ He Ek), (Hone _ _ He2 Hk2). auto.
          - destruct (filter (has_name n) l); cbn in Hu; discriminate. }
        subst k. apply (in_map fst) in Hkin. eapply Permutation_in; [|exact Hkin].
        apply Permutation_map. auto.
    + apply sort_desc_sorted. auto.
    + eapply Permutation_Forall; [exact Hperm|]. rewrite Forall_forall. intros [i els] Hin. cbn [fst].
      destruct (Hins i els Hin) as (n & e & _ & He & _). rewrite Hr. apply nth_error_Some. congruence.
Qed.

(** *** The closed form meets the specification *)

Lemma closed_perm l : Permutation l (closed_form l).
Proof.
  induction l as [|e l IH] using rev_ind; [auto|].
  unfold closed_form in *. rewrite leaders_snoc.
  assert (Hext : forall x, (forall n, key e = Some n -> key x <> Some n) -> ext (l ++ [e]) x = ext l x).
  { intros x Hx. unfold ext. destruct (key x) as [m|] eqn:Em; auto.
    rewrite filter_app. cbn [filter]. destruct (has_name m e) eqn:En; [|rewrite app_nil_r; auto].
    apply has_name_true in En. destruct (Hx m En). auto. }
  assert (Hsame : forall L, (forall x n, In x L -> key e = Some n -> key x <> Some n) ->
            flat_map (fun x => x :: ext (l ++ [e]) x) L = flat_map (fun x => x :: ext l x) L).
  { intros L HL. induction L as [|x L IHL]; auto. cbn [flat_map].
    rewrite Hext, IHL; auto.
    - intros y n Hy. apply HL. right; auto.
    - intros n. apply HL. left; auto. }
  rewrite flat_map_app. destruct (key e) as [n|] eqn:Ek.
  - cbn [smem existsb]. pose proof (leaders_filter n l []) as Hu. cbn [smem existsb] in Hu.
    destruct (filter (has_name n) l) as [|x0 t] eqn:Ef.
    + rewrite Hsame.
      2:{ intros x m Hx Em Hkx. inversion Em; subst m. apply leaders_incl in Hx.
          pose proof (filter_nil_In _ _ Ef _ Hx) as C. apply has_name_true in Hkx. congruence. }
      apply Permutation_app; auto. cbn [flat_map]. unfold ext. rewrite Ek, filter_app, Ef. cbn [app filter].
      assert (En : has_name n e = true) by (apply has_name_true; auto). rewrite En. auto.
    + cbn [firstn] in Hu. apply filter_single in Hu as (a & b & Eab & Ha & Hb & Hx0).
      rewrite Eab in *. rewrite app_nil_r. rewrite !flat_map_app in *. cbn [flat_map] in *.
      assert (Hn : forall L, filter (has_name n) L = [] ->
                (forall x m, In x L -> Some n = Some m -> key x <> Some m)).
      { intros L HL x m Hx E Hk. inversion E; subst m. apply has_name_true in Hk.
        pose proof (filter_nil_In _ _ HL _ Hx). congruence. }
      rewrite (Hsame a), (Hsame b) by (apply Hn; auto).
      assert (E0 : ext (l ++ [e]) x0 = ext l x0 ++ [e]).
      { unfold ext. apply has_name_true in Hx0. rewrite Hx0, filter_app, Ef. cbn [app filter].
        assert (En : has_name n e = true) by (apply has_name_true; auto). rewrite En. auto. }
      rewrite E0.
      set (Fa := flat_map (fun x => x :: ext l x) a) in *.
      set (Fb := flat_map (fun x => x :: ext l x) b) in *.
      assert (Hp2 : Permutation ((Fa ++ (x0 :: ext l x0) ++ Fb) ++ [e]) (Fa ++ (x0 :: ext l x0 ++ [e]) ++ Fb)).
      { rewrite <- !app_assoc. apply Permutation_app_head. cbn [app]. constructor.
        rewrite <- !app_assoc. apply Permutation_app_head. cbn [app].
        apply Permutation_sym, Permutation_cons_append. }
      eapply perm_trans; [|exact Hp2]. apply Permutation_app_tail. exact IH.
  - rewrite Hsame by discriminate. apply Permutation_app; auto.
    cbn [flat_map]. unfold ext. rewrite Ek. auto.
Qed.

Lemma ext_names l e x : In x (ext l e) -> exists n, key e = Some n /\ key x = Some n.
Proof.
  unfold ext. destruct (key e) as [n|]; [|intros []]. intros H. exists n. split; auto.
  apply has_name_true. assert (Hin : In x (filter (has_name n) l)).
  { destruct (filter (has_name n) l); [destruct H|right; auto]. }
  apply filter_In in Hin. tauto.
Qed.

Lemma closed_no_name l L n : filter (has_name n) L = [] ->
  filter (has_name n) (flat_map (fun e => e :: ext l e) L) = [].
Proof.
  intros H. apply filter_false. intros x Hx. apply in_flat_map in Hx as (e & He & Hx).
  pose proof (filter_nil_In _ _ H _ He) as C. destruct Hx as [E|Hx]; [subst x|]; auto.
  apply ext_names in Hx as (m & Em & Ex). unfold OverloadSpec.has_name in *. rewrite Em in C. rewrite Ex. auto.
Qed.

Lemma closed_adjacent l n : exists a b,
  closed_form l = a ++ filter (has_name n) l ++ b /\
  filter (has_name n) a = [] /\ filter (has_name n) b = [].
Proof.
  pose proof (leaders_filter n l []) as Hu. cbn [smem existsb] in Hu. unfold closed_form.
  destruct (filter (has_name n) l) as [|x0 t] eqn:Ef.
  - cbn in Hu. exists (closed_form l), []. cbn. rewrite app_nil_r. repeat split; auto.
    apply closed_no_name. auto.
  - cbn [firstn] in Hu. apply filter_single in Hu as (a & b & Eab & Ha & Hb & Hx0).
    exists (flat_map (fun e => e :: ext l e) a), (flat_map (fun e => e :: ext l e) b).
    rewrite Eab, flat_map_app. cbn [flat_map].
    assert (E0 : ext l x0 = t).
    { unfold ext. apply has_name_true in Hx0. rewrite Hx0, Ef. auto. }
    rewrite E0. repeat split; auto using closed_no_name.
Qed.

Lemma leaders_skip seen n X Y : In n seen -> (forall x, In x X -> key x = Some n) ->
  leaders seen (X ++ Y) = leaders seen Y.
Proof.
  intros Hn. induction X as [|x X IH]; intros H; auto. cbn [app leaders].
  rewrite (H x) by (left; auto). apply smem_In in Hn. rewrite Hn. apply IH.
  intros y Hy. apply H. right; auto.
Qed.

Lemma leaders_flat l L : forall seen,
  (forall n, In n seen -> filter (has_name n) L = []) ->
  (forall n, length (filter (has_name n) L) <= 1) ->
  leaders seen (flat_map (fun e => e :: ext l e) L) = L.
Proof.
  induction L as [|e L IH]; intros seen Hs Hu; auto. cbn [flat_map]. cbn [app leaders].
  destruct (key e) as [n|] eqn:Ek.
  - assert (En : has_name n e = true) by (apply has_name_true; auto).
    destruct (smem n seen) eqn:Em.
    + apply smem_In in Em. specialize (Hs n Em). cbn [filter] in Hs. rewrite En in Hs. discriminate.
    + f_equal. rewrite (leaders_skip _ n) by
        (try (left; auto); intros x Hx; apply ext_names in Hx as (m & E1 & E2); congruence).
      apply IH.
      * intros m [E|Hm]; [subst m|].
        { specialize (Hu n). cbn [filter] in Hu. rewrite En in Hu.
          destruct (filter (has_name n) L); [auto|cbn in Hu; lia]. }
        { specialize (Hs m Hm). cbn [filter] in Hs. destruct (has_name m e); [discriminate|auto]. }
      * intros m. specialize (Hu m). cbn [filter] in Hu. destruct (has_name m e); cbn in Hu; lia.
  - f_equal. unfold ext at 1. rewrite Ek. cbn [app]. apply IH.
    + intros m Hm. specialize (Hs m Hm). cbn [filter] in Hs. destruct (has_name m e); [discriminate|auto].
    + intros m. specialize (Hu m). cbn [filter] in Hu. destruct (has_name m e); cbn in Hu; lia.
Qed.

Lemma closed_leaders l : leaders [] (closed_form l) = leaders [] l.
Proof.
  unfold closed_form. apply leaders_flat; [intros n []|].
  intros n. rewrite leaders_filter. cbn [smem existsb]. apply firstn_le_length.
Qed.

Lemma group_grouped l : grouped A key l (group_overloaded_functions A key l).
Proof.
  rewrite group_closed_form. constructor.
  - apply closed_perm.
  - apply closed_adjacent.
  - apply closed_leaders.
Qed.
End Group.

(** *** Grouping twice *)

Section Idem.
Variable A : Type.
Variable key : A -> option str.
Lemma group_idempotent (l : list A) :
  group_overloaded_functions A key (group_overloaded_functions A key l) = group_overloaded_functions A key l.
Proof.
  rewrite (group_closed_form A key (group_overloaded_functions A key l)).
  destruct (group_grouped A key l) as [Hp Ha Hl].
  set (g := group_overloaded_functions A key l) in *.
  unfold closed_form at 1. rewrite Hl. unfold g. rewrite group_closed_form. unfold closed_form.
  assert (Hf : forall n, filter (has_name A key n) g = filter (has_name A key n) l).
  { intros n. destruct (Ha n) as (a & b & E & H1 & H2). rewrite E.
    rewrite !filter_app, H1, H2, app_nil_r. cbn. 
    clear. induction l as [|x l IH]; cbn; auto. destruct (has_name A key n x) eqn:En; cbn; auto.
    rewrite En, IH. auto. }
  fold (closed_form A key l). rewrite <- group_closed_form. fold g.
  assert (He : forall e, ext A key g e = ext A key l e).
  { intros e. unfold ext. destruct (key e); auto. rewrite Hf. auto. }
  unfold g at 2. rewrite group_closed_form. unfold closed_form.
  apply flat_map_ext. intros e. rewrite He. auto.
Qed.
End Idem.
