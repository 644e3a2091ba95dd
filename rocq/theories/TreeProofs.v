From Verif Require Import PyStr TreeModel TreeSpec.

Section TreeInd.
Variable P : tree -> Prop.
Hypothesis H : forall n k children, Forall (fun rc => P (snd rc)) children -> P (Node n k children).
Fixpoint tree_ind' (t : tree) : P t :=
  match t with
  | Node n k children => H n k children
      ((fix all (l : list (role * tree)) : Forall (fun rc => P (snd rc)) l :=
          match l with [] => Forall_nil _ | rc :: r => Forall_cons rc (tree_ind' (snd rc)) (all r) end) children)
  end.
End TreeInd.

(** What filling does, as a function on the tree. *)
Fixpoint assign (top : option owner) (t : tree) (pm : parents) : parents :=
  match t with
  | Node n k children =>
      (fix all (l : list (role * tree)) (pm : parents) : parents :=
         match l with
         | [] => pm
         | (r, c) :: l' => all l' (if visited k r then assign (Some (Element n)) c pm else pm)
         end) children (set_parent pm n top)
  end.
Fixpoint assign_list (n : nat) (k : kind) (l : list (role * tree)) (pm : parents) : parents :=
  match l with
  | [] => pm
  | (r, c) :: l' => assign_list n k l' (if visited k r then assign (Some (Element n)) c pm else pm)
  end.
Lemma assign_eq top n k children pm : assign top (Node n k children) pm = assign_list n k children (set_parent pm n top).
Proof.
  cbn [assign]. generalize (set_parent pm n top) as p. induction children as [|(r, c) l IH]; intros p; auto.
  cbn [assign_list]. rewrite <- IH. reflexivity.
Qed.

Lemma visit_fill t : forall top rest pm, (rest <> [] -> top <> None) -> (forall s, within t s -> tree_kind s = KLeaf -> tree_children s = []) ->
  fold_left fill_event (visit t) (Some (top :: rest, pm)) = Some (top :: rest, assign top t pm).
Proof.
  induction t as [n k children IH] using tree_ind'. intros top rest pm T L.
  assert (E1 : fill_event (Some (top :: rest, pm)) (OnElement n) = Some (top :: rest, set_parent pm n top)).
  { cbn [fill_event]. destruct rest as [|x rest]; destruct top; auto. exfalso. apply T; [discriminate|reflexivity]. }
  assert (C : forall l p, Forall (fun rc => forall top rest pm, (rest <> [] -> top <> None) ->
      (forall s, within (snd rc) s -> tree_kind s = KLeaf -> tree_children s = []) ->
      fold_left fill_event (visit (snd rc)) (Some (top :: rest, pm)) = Some (top :: rest, assign top (snd rc) pm)) l ->
      (forall rc s, In rc l -> within (snd rc) s -> tree_kind s = KLeaf -> tree_children s = []) ->
    fold_left fill_event (concat (map (fun rc => if visited k (fst rc) then visit (snd rc) else []) l))
      (Some (Some (Element n) :: top :: rest, p))
    = Some (Some (Element n) :: top :: rest, assign_list n k l p)).
  { clear. induction l as [|(r, c) l IHl]; intros p F L; auto. inversion F as [|? ? Fc Fl]; subst. cbn [map concat fst snd].
    rewrite fold_left_app. cbn [assign_list].
    destruct (visited k r).
    - cbn [snd] in Fc. rewrite Fc; [|discriminate|].
      + apply IHl; auto. intros rc s I. apply L. right. exact I.
      + intros s. apply (L (r, c)). left; reflexivity.
    - cbn [fold_left]. apply IHl; auto. intros rc s I. apply L. right. exact I. }
  assert (Lc : forall rc s, In rc children -> within (snd rc) s -> tree_kind s = KLeaf -> tree_children s = []).
  { intros (r, c) s I W. apply L. clear -I W. cbn [snd] in W. induction W; [|eapply within_child; eauto].
    apply (within_child _ (Node n k children) r); [apply within_self|exact I]. }
  rewrite assign_eq. 
  assert (G : fold_left fill_event (OnElement n :: OnBeforeChildren n ::
     concat (map (fun rc => if visited k (fst rc) then visit (snd rc) else []) children) ++ [OnAfterChildren n])
     (Some (top :: rest, pm)) = Some (top :: rest, assign_list n k children (set_parent pm n top))).
  { cbn [fold_left]. rewrite E1. cbn [fill_event]. rewrite fold_left_app, C by auto. reflexivity. }
  destruct k; try exact G.
  specialize (L (Node n KLeaf children) (within_self _) eq_refl). cbn in L. subst children. cbn [visit fold_left assign_list].
  exact E1.
Qed.

Lemma fill_assign t pm : leaf_ok t -> fill_children_parents t pm
  = Some (assign (match tree_kind t with KUnit => None | _ => pm (tree_id t) end) t pm).
Proof.
  intros L. unfold fill_children_parents. rewrite visit_fill; [reflexivity|congruence|exact L].
Qed.

(** Numbers. *)
Lemma ids_self t : In (tree_id t) (ids t).
Proof. destruct t. left; reflexivity. Qed.
Lemma ids_within t s : within t s -> incl (ids s) (ids t).
Proof.
  induction 1 as [|s r c W IH I]; [apply incl_refl|]. intros m M. apply IH. destruct s as [n k ch]. cbn [ids]. right.
  apply in_concat. exists (ids c). split; auto. apply in_map_iff. exists (r, c). auto.
Qed.
Lemma within_trans t s u : within t s -> within s u -> within t u.
Proof. intros A. induction 1; auto. eapply within_child; eauto. Qed.
Lemma within_step t r c u : In (r, c) (tree_children t) -> within c u -> within t u.
Proof. intros I W. eapply within_trans; [|exact W]. eapply within_child; [apply within_self|exact I]. Qed.

(** Lists of children: their numbers do not overlap. *)
Definition ids_list (l : list (role * tree)) : list nat := concat (map (fun rc => ids (snd rc)) l).
Lemma unique_inv n k l : unique (Node n k l) -> ~ In n (ids_list l) /\ NoDup (ids_list l).
Proof. intros U. inversion U; subst. auto. Qed.
Lemma NoDup_app_inv {A} (a b : list A) : NoDup (a ++ b) -> NoDup a /\ NoDup b /\ forall x, In x a -> ~ In x b.
Proof.
  induction a as [|x a IH]; cbn [app]; intros N.
  - split; [constructor|]. split; auto.
  - inversion N as [|? ? Nx Na]; subst. destruct (IH Na) as (A1 & A2 & A3). split; [|split; auto].
    + constructor; auto. intros I. apply Nx. apply in_app_iff. auto.
    + intros y [->|I] J; [apply Nx; apply in_app_iff; auto|exact (A3 y I J)].
Qed.
Lemma in_ids_list r c l m : In (r, c) l -> In m (ids c) -> In m (ids_list l).
Proof. intros I M. apply in_concat. exists (ids c). split; auto. apply in_map_iff. exists (r, c). auto. Qed.
Lemma unique_child n k l r c : unique (Node n k l) -> In (r, c) l -> unique c.
Proof.
  intros U I. destruct (unique_inv n k l U) as (_ & N). clear U. induction l as [|(r', c') l IH]; [destruct I|].
  unfold ids_list in N. cbn [map concat snd] in N. apply NoDup_app_inv in N. destruct N as (A & B & _).
  destruct I as [E|I]; [inversion E; subst; exact A|apply IH; auto].
Qed.

Lemma set_same pm n o : set_parent pm n o n = o.
Proof. unfold set_parent. rewrite Nat.eqb_refl. reflexivity. Qed.
Lemma set_other pm n o m : m <> n -> set_parent pm n o m = pm m.
Proof. intros H. unfold set_parent. destruct (Nat.eqb_spec n m); congruence. Qed.

(** Filling changes the parents of the tree only. *)
Lemma assign_other t : forall top pm m, ~ In m (ids t) -> assign top t pm m = pm m.
Proof.
  induction t as [n k children IH] using tree_ind'. intros top pm m N. rewrite assign_eq.
  assert (Nn : m <> n) by (intros ->; apply N; left; reflexivity).
  assert (Nl : ~ In m (ids_list children)) by (intros I; apply N; right; exact I). clear N.
  rewrite <- (set_other pm n top m Nn). generalize (set_parent pm n top). clear -IH Nl.
  induction children as [|(r, c) l IHl]; intros p; auto. inversion IH as [|? ? Hc Hl]; subst. cbn [assign_list].
  unfold ids_list in Nl. cbn [map concat snd] in Nl. rewrite in_app_iff in Nl.
  rewrite IHl by (auto || (intros I; apply Nl; right; exact I)). destruct (visited k r); [|reflexivity].
  apply Hc. intros I. apply Nl. left; exact I.
Qed.
Lemma assign_list_other n k l m : ~ In m (ids_list l) -> forall p, assign_list n k l p m = p m.
Proof.
  induction l as [|(r, c) l IHl]; intros N p; auto. cbn [assign_list].
  unfold ids_list in N. cbn [map concat snd] in N. rewrite in_app_iff in N.
  rewrite IHl by tauto. destruct (visited k r); auto. apply assign_other. tauto.
Qed.
Lemma assign_root top t pm : unique t -> assign top t pm (tree_id t) = top.
Proof.
  destruct t as [n k l]. intros U. destruct (unique_inv n k l U) as (N & _). rewrite assign_eq, assign_list_other by exact N.
  apply set_same.
Qed.

Lemma assign_list_keep n k l p r c (m : nat) : NoDup (ids_list l) -> In (r, c) l -> In m (ids c) ->
  exists q, (forall j, In j (ids c) -> q j = p j) /\
  assign_list n k l p m = (if visited k r then assign (Some (Element n)) c q else q) m.
Proof.
  revert p; induction l as [|(r', c') l IH]; intros p N I M; [destruct I|]. unfold ids_list in N. cbn [map concat snd] in N.
  apply NoDup_app_inv in N. destruct N as (A & B & D). cbn [assign_list]. destruct I as [E|I].
  - inversion E; subst. exists p. split; auto. apply assign_list_other. exact (D m M).
  - destruct (IH (if visited k r' then assign (Some (Element n)) c' p else p) B I M) as (q & Q1 & Q2).
    exists q. split; auto. intros j J. rewrite (Q1 j J). destruct (visited k r'); auto. apply assign_other.
    intros J'. apply (D j J'). exact (in_ids_list r c l j I J).
Qed.

(** Everything the visitor reaches has its container as parent. *)
Lemma assign_reached t : unique t -> forall top pm s r c, reached t s -> In (r, c) (tree_children s) ->
  visited (tree_kind s) r = true -> assign top t pm (tree_id c) = Some (Element (tree_id s)).
Proof.
  induction t as [n k l IH] using tree_ind'. intros U top pm s r c R I V. rewrite assign_eq.
  destruct (unique_inv n k l U) as (N & D).
  assert (R' : s = Node n k l \/ exists r' c', In (r', c') l /\ visited k r' = true /\ reached c' s).
  { clear -R. induction R as [|s r c R IH I V]; auto. right. destruct IH as [->|(r' & c' & A & B & C)].
    - exists r, c. split; [exact I|]. split; [exact V|]. apply reached_self.
    - exists r', c'. split; [exact A|]. split; [exact B|]. eapply reached_child; eauto. }
  destruct R' as [->|(r' & c' & A & B & C)].
  - cbn [tree_children tree_kind tree_id] in *.
    destruct (assign_list_keep n k l (set_parent pm n top) r c (tree_id c) D I (ids_self c)) as (q & _ & E).
    rewrite E, V. apply assign_root. exact (unique_child n k l r c U I).
  - assert (M : In (tree_id c) (ids c')).
    { assert (W : within c' c).
      { clear -C I. eapply within_child; [|exact I]. clear I. induction C; [apply within_self|eapply within_child; eauto]. }
      apply (ids_within c' c W), ids_self. }
    destruct (assign_list_keep n k l (set_parent pm n top) r' c' (tree_id c) D A M) as (q & _ & E). rewrite E, B.
    rewrite Forall_forall in IH. exact (IH (r', c') A (unique_child n k l r' c' U A) _ q s r c C I V).
Qed.

(** What is consistent stays so. *)
Lemma assign_consistent t : unique t -> forall top pm, consistent pm t -> forall m, m <> tree_id t -> assign top t pm m = pm m.
Proof.
  induction t as [n k l IH] using tree_ind'. intros U top pm C m Nm. cbn [tree_id] in Nm. rewrite assign_eq.
  destruct (unique_inv n k l U) as (N & D).
  destruct (in_dec Nat.eq_dec m (ids_list l)) as [I|I].
  - unfold ids_list in I. apply in_concat in I. destruct I as (x & Ix & Im). apply in_map_iff in Ix.
    destruct Ix as ((r, c) & <- & Ic). cbn [snd] in Im.
    assert (E0 : forall j, In j (ids c) -> set_parent pm n top j = pm j).
    { intros j J. apply set_other. intros ->. apply N. exact (in_ids_list r c l n Ic J). }
    destruct (assign_list_keep n k l (set_parent pm n top) r c m D Ic Im) as (q & Q & E). rewrite E.
    destruct (visited k r); [|rewrite Q by exact Im; apply E0, Im].
    destruct (Nat.eq_dec m (tree_id c)) as [->|Nc].
    + rewrite assign_root by exact (unique_child n k l r c U Ic). symmetry.
      exact (C (Node n k l) r c (within_self _) Ic).
    + rewrite Forall_forall in IH. rewrite (IH (r, c) Ic (unique_child n k l r c U Ic)); auto.
      * rewrite Q by exact Im. apply E0, Im.
      * intros s r' c' W I'. cbn [snd] in W.
        rewrite Q, E0; [apply (C s r' c'); [apply (within_step (Node n k l) r c); auto|exact I']| |];
          apply (ids_within c c'); try apply ids_self; eapply within_child; eauto.
  - rewrite assign_list_other by exact I. apply set_other, Nm.
Qed.

(** One level may be wrong where the visitor goes. *)
Lemma assign_fixes n k l pm top : unique (Node n k l) -> (forall r c, In (r, c) l -> consistent pm c) ->
  (forall r c, In (r, c) l -> visited k r = false -> pm (tree_id c) = Some (Element n)) ->
  consistent (assign top (Node n k l) pm) (Node n k l).
Proof.
  intros U C F. destruct (unique_inv n k l U) as (N & D).
  assert (E0 : forall r c, In (r, c) l -> forall j, In j (ids c) -> set_parent pm n top j = pm j).
  { intros r c Ic j J. apply set_other. intros ->. apply N. exact (in_ids_list r c l n Ic J). }
  assert (Top : forall r c, In (r, c) l -> assign top (Node n k l) pm (tree_id c) = Some (Element n)).
  { intros r c I. rewrite assign_eq.
    destruct (assign_list_keep n k l (set_parent pm n top) r c (tree_id c) D I (ids_self c)) as (q & Q & E). rewrite E.
    destruct (visited k r) eqn:V.
    - apply assign_root. exact (unique_child n k l r c U I).
    - rewrite Q, (E0 r c I) by apply ids_self. exact (F r c I V). }
  intros s r c W I. assert (W' : s = Node n k l \/ exists r' c', In (r', c') l /\ within c' s).
  { clear -W. induction W as [|s r c R IH I]; auto. right. destruct IH as [->|(r' & c' & A & B)].
    - exists r, c. split; [exact I|]. apply within_self.
    - exists r', c'. split; [exact A|]. eapply within_child; eauto. }
  destruct W' as [->|(r' & c' & A & B)]; [exact (Top r c I)|].
  assert (Bc : within c' c) by (eapply within_child; eauto).
  assert (M : In (tree_id c) (ids c')) by (apply (ids_within c' c Bc), ids_self).
  rewrite assign_eq. destruct (assign_list_keep n k l (set_parent pm n top) r' c' (tree_id c) D A M) as (q & Q & E). rewrite E.
  assert (Cq : consistent q c').
  { intros s' r'' c'' W' I'. rewrite Q, (E0 r' c' A).
    - exact (C r' c' A s' r'' c'' W' I').
    - apply (ids_within c' c''); [eapply within_child; eauto|apply ids_self].
    - apply (ids_within c' c''); [eapply within_child; eauto|apply ids_self]. }
  destruct (visited k r'); [|exact (Cq s r c B I)].
  rewrite assign_consistent; [exact (Cq s r c B I)|exact (unique_child n k l r' c' U A)|exact Cq|].
  intros E'. pose proof (Cq s r c B I) as H. pose proof (unique_child n k l r' c' U A) as Uc.
  (* a strict descendant has another number *)
  clear -E' B I Uc. destruct c' as [n' k' l']. destruct (unique_inv n' k' l' Uc) as (Nn & _). cbn [tree_id] in E'. apply Nn.
  rewrite <- E'. assert (W' : s = Node n' k' l' \/ exists r' c', In (r', c') l' /\ within c' s).
  { clear -B. induction B as [|s r c R IH I]; auto. right. destruct IH as [->|(r' & c' & A & B)].
    - exists r, c. split; [exact I|]. apply within_self.
    - exists r', c'. split; [exact A|]. eapply within_child; eauto. }
  destruct W' as [->|(r' & c' & A & W)].
  - apply (in_ids_list r c); [exact I|apply ids_self].
  - apply (in_ids_list r' c'); [exact A|]. apply (ids_within c' c); [eapply within_child; eauto|apply ids_self].
Qed.
