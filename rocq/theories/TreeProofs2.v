From Verif Require Import PyStr TreeModel TreeSpec TreeProofs.
From Coq Require Import Permutation.

(** The loop of [load], by itself. *)
Fixpoint attach (n : nat) (k : kind) (done todo : list (role * tree)) (pm : parents) : option parents :=
  match todo with
  | [] => Some pm
  | (r, c) :: todo' =>
      match load (Some (given_parent k r n)) c pm with
      | None => None
      | Some pm1 =>
          let done' := done ++ [(r, c)] in
          if assignment_fills k r
          then match fill_children_parents (Node n k done') pm1 with
               | None => None
               | Some pm2 => attach n k done' todo' pm2
               end
          else attach n k done' todo' pm1
      end
  end.
Lemma load_eq given n k l pm : load given (Node n k l) pm = attach n k [] l (set_parent pm n given).
Proof.
  cbn [load]. match goal with |- ?f [] l ?p = _ =>
    cut (forall d q, f d l q = attach n k d l q); [intros Q; apply Q|] end.
  induction l as [|(r, c) l IH]; intros d p; [reflexivity|]. cbn [attach].
  destruct (load (Some (given_parent k r n)) c p) as [p1|]; [|reflexivity]. cbv zeta.
  destruct (assignment_fills k r); [|apply IH].
  destruct (fill_children_parents (Node n k (d ++ [(r, c)])) p1) as [p2|]; [apply IH|reflexivity].
Qed.

Lemma given_or_filled k r n : given_parent k r n = Element n \/ (assignment_fills k r = true /\ visited k r = true).
Proof. destruct k, r; cbn; auto. Qed.

Lemma consistent_ext pm pm' t : (forall m, In m (ids t) -> m <> tree_id t -> pm' m = pm m) -> unique t -> consistent pm t -> consistent pm' t.
Proof.
  intros E U C s r c W I. assert (Wc : within t c) by (eapply within_child; eauto). rewrite E; auto.
  - apply C with (r := r); auto.
  - apply (ids_within t c Wc), ids_self.
  - intros Q. destruct t as [n k l]. destruct (unique_inv n k l U) as (N & _). cbn [tree_id] in Q. apply N. rewrite <- Q.
    assert (W' : s = Node n k l \/ exists r' c', In (r', c') l /\ within c' s).
    { clear -W. induction W as [|s r c R IH I]; auto. right. destruct IH as [->|(r' & c' & A & B)].
      - exists r, c. split; [exact I|]. apply within_self.
      - exists r', c'. split; [exact A|]. eapply within_child; eauto. }
    destruct W' as [->|(r' & c' & A & W')].
    + apply (in_ids_list r c); [exact I|apply ids_self].
    + apply (in_ids_list r' c'); [exact A|]. apply (ids_within c' c); [eapply within_child; eauto|apply ids_self].
Qed.

Lemma ids_list_app a b : ids_list (a ++ b) = ids_list a ++ ids_list b.
Proof. unfold ids_list. rewrite map_app, concat_app. reflexivity. Qed.

Lemma leaf_child n k l r c : leaf_ok (Node n k l) -> In (r, c) l -> leaf_ok c.
Proof. intros L I s W. apply L. exact (within_step (Node n k l) r c s I W). Qed.

Lemma load_ok t : unique t -> leaf_ok t -> forall given pm, exists pm',
  load given t pm = Some pm' /\ pm' (tree_id t) = given /\ consistent pm' t /\ forall m, ~ In m (ids t) -> pm' m = pm m.
Proof.
  induction t as [n k l IH] using tree_ind'. intros U L given pm. rewrite load_eq. cbn [tree_id].
  assert (G : forall todo done p, done ++ todo = l -> p n = given ->
     (forall r c, In (r, c) done -> consistent p c) -> (forall r c, In (r, c) done -> p (tree_id c) = Some (Element n)) ->
     exists pm', attach n k done todo p = Some pm' /\ pm' n = given /\ consistent pm' (Node n k l) /\
       forall m, ~ In m (ids (Node n k l)) -> pm' m = p m).
  { induction todo as [|(r, c) todo IHt]; intros done p E Pn Cd Rd.
    - rewrite app_nil_r in E. subst done. exists p. cbn [attach]. split; auto. split; auto. split; auto.
      intros s r c W I. assert (W' : s = Node n k l \/ exists r' c', In (r', c') l /\ within c' s).
      { clear -W. induction W as [|s r c R IH I]; auto. right. destruct IH as [->|(r' & c' & A & B)].
        - exists r, c. split; [exact I|]. apply within_self.
        - exists r', c'. split; [exact A|]. eapply within_child; eauto. }
      destruct W' as [->|(r' & c' & A & B)]; [exact (Rd r c I)|exact (Cd r' c' A s r c B I)].
    - assert (Ic : In (r, c) l) by (rewrite <- E; apply in_elt).
      assert (Uc : unique c) by exact (unique_child n k l r c U Ic).
      destruct (unique_inv n k l U) as (Nn & D).
      rewrite Forall_forall in IH.
      destruct (IH (r, c) Ic Uc (leaf_child n k l r c L Ic) (Some (given_parent k r n)) p) as (p1 & E1 & R1 & C1 & O1).
      cbn [snd] in *. cbn [attach]. rewrite E1. cbv zeta.
      assert (Out : forall m, ~ In m (ids (Node n k l)) -> p1 m = p m).
      { intros m Hm. apply O1. intros M. apply Hm. right. exact (in_ids_list r c l m Ic M). }
      assert (Pn1 : p1 n = given).
      { rewrite O1; auto. intros M. apply Nn. exact (in_ids_list r c l n Ic M). }
      assert (Dis : forall r' c' m, In (r', c') done -> In m (ids c') -> ~ In m (ids c)).
      { intros r' c' m I' M M'. rewrite <- E, ids_list_app in D. apply NoDup_app_inv in D. destruct D as (_ & _ & D).
        apply (D m); [exact (in_ids_list r' c' done m I' M)|]. apply (in_ids_list r c); [left; reflexivity|exact M']. }
      assert (Cd1 : forall r' c', In (r', c') done -> consistent p1 c').
      { intros r' c' I'. apply (consistent_ext p); [|apply (unique_child n k l r' c' U); rewrite <- E; apply in_app_iff; auto|exact (Cd r' c' I')].
        intros m M _. apply O1. exact (Dis r' c' m I' M). }
      assert (Rd1 : forall r' c', In (r', c') done -> p1 (tree_id c') = Some (Element n)).
      { intros r' c' I'. rewrite O1; [exact (Rd r' c' I')|]. exact (Dis r' c' _ I' (ids_self c')). }
      assert (E' : (done ++ [(r, c)]) ++ todo = l) by (rewrite <- app_assoc; exact E).
      assert (Cd2 : forall r' c', In (r', c') (done ++ [(r, c)]) -> consistent p1 c').
      { intros r' c' I'. apply in_app_iff in I'. destruct I' as [I'|[I'|[]]]; [exact (Cd1 r' c' I')|]. inversion I'; subst. exact C1. }
      destruct (assignment_fills k r) eqn:A.
      + assert (Ud : unique (Node n k (done ++ [(r, c)]))).
        { unfold unique. cbn [ids]. fold (ids_list (done ++ [(r, c)])). constructor.
          - intros M. apply Nn. rewrite <- E', ids_list_app. apply in_app_iff. auto.
          - rewrite <- E', ids_list_app in D. apply NoDup_app_inv in D. tauto. }
        assert (Ld : leaf_ok (Node n k (done ++ [(r, c)]))).
        { intros s W K. assert (W' : s = Node n k (done ++ [(r, c)]) \/ exists r' c', In (r', c') (done ++ [(r, c)]) /\ within c' s).
          { clear -W. induction W as [|s r0 c0 R IH I]; auto. right. destruct IH as [->|(r' & c' & A & B)].
            - exists r0, c0. split; [exact I|]. apply within_self.
            - exists r', c'. split; [exact A|]. eapply within_child; eauto. }
          destruct W' as [->|(r' & c' & I' & W')].
          - cbn [tree_kind] in K. subst k. destruct r; discriminate.
          - apply L; auto. apply (within_step (Node n k l) r' c'); auto. cbn [tree_children]. rewrite <- E'. apply in_app_iff. auto. }
        rewrite fill_assign by exact Ld. cbn [tree_kind tree_id].
        set (top := match k with KUnit => None | _ => p1 n end).
        assert (Ht : top = given) by (unfold top; destruct k; auto; destruct r; discriminate).
        set (p2 := assign top (Node n k (done ++ [(r, c)])) p1).
        assert (C2 : consistent p2 (Node n k (done ++ [(r, c)]))).
        { unfold p2. apply assign_fixes; auto. intros r' c' I' V. apply in_app_iff in I'.
          destruct I' as [I'|[I'|[]]]; [exact (Rd1 r' c' I')|]. inversion I'; subst r' c'. rewrite R1.
          destruct (given_or_filled k r n) as [->|(_ & V')]; [reflexivity|congruence]. }
        destruct (IHt (done ++ [(r, c)]) p2) as (pm' & F1 & F2 & F3 & F4); auto.
        * unfold p2. change n with (tree_id (Node n k (done ++ [(r, c)]))) at 2. rewrite assign_root by exact Ud. exact Ht.
        * intros r' c' I' s r'' c'' W I''. apply (C2 s r'' c''); [|exact I''].
          exact (within_step (Node n k (done ++ [(r, c)])) r' c' s I' W).
        * intros r' c' I'. exact (C2 _ r' c' (within_self _) I').
        * exists pm'. split; auto. split; auto. split; auto. intros m Hm. rewrite F4 by exact Hm. unfold p2.
          rewrite assign_other; [apply Out, Hm|]. intros [M|M]; apply Hm; [left; exact M|right].
          fold (ids_list l). rewrite <- E', ids_list_app. apply in_app_iff. left. exact M.
      + destruct (IHt (done ++ [(r, c)]) p1) as (pm' & F1 & F2 & F3 & F4); auto.
        * intros r' c' I'. apply in_app_iff in I'. destruct I' as [I'|[I'|[]]]; [exact (Rd1 r' c' I')|].
          inversion I'; subst r' c'. rewrite R1. destruct (given_or_filled k r n) as [->|(A' & _)]; [reflexivity|congruence].
        * exists pm'. split; auto. split; auto. split; auto. intros m Hm. rewrite F4 by exact Hm. apply Out, Hm. }
  destruct (G l [] (set_parent pm n given) eq_refl (set_same _ _ _)) as (pm' & A & B & C & D); [intros ? ? []|intros ? ? []|].
  exists pm'. split; auto. split; auto. split; auto. intros m M. rewrite D by exact M. apply set_other.
  intros ->. apply M. left; reflexivity.
Qed.

Lemma fill_consistent t pm : unique t -> leaf_ok t -> consistent pm t ->
  exists pm', fill_children_parents t pm = Some pm' /\ consistent pm' t /\
    pm' (tree_id t) = match tree_kind t with KUnit => None | _ => pm (tree_id t) end.
Proof.
  intros U L C. rewrite fill_assign by exact L. eexists. split; [reflexivity|]. split; [|apply assign_root, U].
  apply (consistent_ext pm); auto. intros m _ N. apply assign_consistent; auto.
Qed.

Lemma parse_unit_ok t : unique t -> leaf_ok t -> exists pm,
  parse_unit t = Some pm /\ pm (tree_id t) = None /\ consistent pm t.
Proof.
  intros U L. unfold parse_unit. destruct (load_ok t U L None (fun _ => None)) as (p & -> & R & C & _).
  destruct (fill_consistent t p U L C) as (pm & E & C' & R'). exists pm. rewrite E. split; auto. split; auto.
  rewrite R'. destruct (tree_kind t); auto.
Qed.

(** Filling by itself. *)
Lemma reached_within t s : reached t s -> within t s.
Proof. induction 1; [apply within_self|eapply within_child; eauto]. Qed.

Lemma assign_unreached t : unique t -> forall top pm m, ~ (exists s, reached t s /\ tree_id s = m) -> assign top t pm m = pm m.
Proof.
  induction t as [n k l IH] using tree_ind'. intros U top pm m N. rewrite assign_eq. destruct (unique_inv n k l U) as (Nn & D).
  assert (Nm : m <> n) by (intros ->; apply N; exists (Node n k l); split; [apply reached_self|reflexivity]).
  destruct (in_dec Nat.eq_dec m (ids_list l)) as [I|I].
  - unfold ids_list in I. apply in_concat in I. destruct I as (x & Ix & Im). apply in_map_iff in Ix.
    destruct Ix as ((r, c) & <- & Ic). cbn [snd] in Im.
    destruct (assign_list_keep n k l (set_parent pm n top) r c m D Ic Im) as (q & Q & E). rewrite E.
    assert (E0 : q m = pm m) by (rewrite Q by exact Im; apply set_other, Nm).
    destruct (visited k r) eqn:V; [|exact E0]. rewrite Forall_forall in IH.
    rewrite (IH (r, c) Ic (unique_child n k l r c U Ic)); [exact E0|]. intros (s & R & Es). apply N. exists s. split; auto.
    clear -R V Ic. cbn [snd] in R. induction R as [|s r' c' R IH I' V']; [|eapply reached_child; eauto].
    apply (reached_child _ (Node n k l) r); [apply reached_self|exact Ic|exact V].
  - rewrite assign_list_other by exact I. apply set_other, Nm.
Qed.

Lemma fill_reached t pm : unique t -> leaf_ok t -> exists pm', fill_children_parents t pm = Some pm' /\
  pm' (tree_id t) = (match tree_kind t with KUnit => None | _ => pm (tree_id t) end) /\
  (forall s r c, reached t s -> In (r, c) (tree_children s) -> visited (tree_kind s) r = true ->
     pm' (tree_id c) = Some (Element (tree_id s))) /\
  (forall m, ~ (exists s, reached t s /\ tree_id s = m) -> pm' m = pm m).
Proof.
  intros U L. rewrite fill_assign by exact L. eexists. split; [reflexivity|]. split; [apply assign_root, U|]. split.
  - intros s r c R I V. exact (assign_reached t U _ pm s r c R I V).
  - intros m N. exact (assign_unreached t U _ pm m N).
Qed.

(** The elements met. *)
Lemma all_elements_ids t : leaf_ok t -> (forall s r c, within t s -> In (r, c) (tree_children s) -> visited (tree_kind s) r = true) ->
  all_elements t = ids t.
Proof.
  induction t as [n k l IH] using tree_ind'. intros L V. unfold all_elements.
  assert (G : concat (map (fun e => match e with OnElement n => [n] | _ => [] end)
      (OnElement n :: OnBeforeChildren n :: concat (map (fun rc => if visited k (fst rc) then visit (snd rc) else []) l) ++ [OnAfterChildren n]))
    = n :: ids_list l).
  { cbn [map concat app]. f_equal. rewrite map_app, concat_app. cbn [map concat]. rewrite app_nil_r.
    assert (Vl : forall rc, In rc l -> visited k (fst rc) = true) by (intros (r, c) I; exact (V _ r c (within_self _) I)).
    assert (Il : forall rc, In rc l -> all_elements (snd rc) = ids (snd rc)).
    { intros (r, c) I. rewrite Forall_forall in IH. apply (IH (r, c) I); [exact (leaf_child n k l r c L I)|].
      intros s r' c' W I'. apply (V s r' c'); [exact (within_step (Node n k l) r c s I W)|exact I']. }
    clear IH L V. unfold ids_list. induction l as [|rc l IHl]; auto. cbn [map concat]. rewrite map_app, concat_app.
    rewrite (Vl rc) by (left; reflexivity). rewrite <- (Il rc) by (left; reflexivity). unfold all_elements at 1. f_equal.
    apply IHl; intros x I; [apply Vl|apply Il]; right; exact I. }
  destruct k; try exact G.
  specialize (L (Node n KLeaf l) (within_self _) eq_refl). cbn in L. subst l. reflexivity.
Qed.
