From Verif Require Import PyStr PyStrLemmas ScopeModel LookupModel LookupSpec.
From Coq Require Import Lia.

Lemma present_iff l m : is_method_already_present l m = true <-> In (signature m) (map signature l).
Proof.
  unfold is_method_already_present. rewrite existsb_exists, in_map_iff. split.
  - intros (p & I & H). apply andb_true_iff in H. rewrite !seqb_true in H. destruct H as (A & B).
    exists p. split; auto. unfold signature. congruence.
  - intros (p & E & I). exists p. split; auto. unfold signature in E.
    assert (m_name p = m_name m /\ join $", " (m_types p) = join $", " (m_types m)) as (A & B)
      by (split; [exact (f_equal fst E)|exact (f_equal snd E)]).
    rewrite A, B, !seqb_refl. reflexivity.
Qed.

(** Adding the methods of one base. *)
Definition extends (own t : list method) : Prop :=
  NoDup (map signature t) /\ forall m, In m t -> ~ In (signature m) (map signature own).
Lemma add_all ms : forall own t, extends own t -> exists t', fold_left add_base_method ms (own ++ t) = own ++ t ++ t' /\
  extends own (t ++ t') /\ incl t' ms /\ (forall m, In m ms -> In (signature m) (map signature (own ++ t ++ t'))).
Proof.
  induction ms as [|m ms IH]; intros own t X.
  - exists []. rewrite !app_nil_r. split; auto. split; auto. split; [intros ? []|intros ? []].
  - cbn [fold_left]. unfold add_base_method at 2. destruct (is_method_already_present (own ++ t) m) eqn:P.
    + destruct (IH own t X) as (t' & E & X' & S & C). exists t'. split; auto. split; auto. split.
      * intros z I. right. auto.
      * intros z [<-|I]; auto. apply present_iff in P. rewrite app_assoc, map_app. apply in_app_iff. auto.
    + assert (Np : ~ In (signature m) (map signature (own ++ t))) by (rewrite <- present_iff; congruence).
      rewrite map_app, in_app_iff in Np. destruct X as (X1 & X2).
      destruct (IH own (t ++ [m])) as (t' & E & X' & S & C).
      { split.
        - rewrite map_app. cbn [map].
          clear -X1 Np. assert (Nt : ~ In (signature m) (map signature t)) by tauto. clear Np.
          induction (map signature t) as [|y l IHl]; cbn [app]; [repeat constructor; auto|].
          inversion X1; subst. constructor.
          + rewrite in_app_iff. cbn [In]. intros [H|[H|[]]]; [auto|]. apply Nt. left; auto.
          + apply IHl; auto. intros H. apply Nt. right; auto.
        - intros z I. apply in_app_iff in I. destruct I as [I|[<-|[]]]; [auto|tauto]. }
      rewrite <- app_assoc in E, X', C. exists (m :: t'). cbn [app] in *. split; [rewrite <- app_assoc; exact E|].
      split; auto. split.
      * intros z [<-|I]; [left; reflexivity|right; auto].
      * intros z [<-|I]; auto. rewrite map_app, map_app. cbn [map]. apply in_app_iff. right. apply in_app_iff. right. left. reflexivity.
Qed.

(** The methods of all bases. *)
Definition step (f : nat) (cs : list class) (acc : option (list method)) (ab : access * class) : option (list method) :=
  match acc, virtual_methods f cs (snd ab) with
  | Some l, Some ms => Some (fold_left add_base_method ms l)
  | _, _ => None
  end.
Lemma step_none f cs bases : fold_left (step f cs) bases None = None.
Proof. induction bases; auto. Qed.
Lemma virtual_methods_step f cs c : virtual_methods (S f) cs c =
  match base_classes cs c with
  | None => None
  | Some bases => fold_left (step f cs) bases (Some (filter m_virtual (c_methods c)))
  end.
Proof. reflexivity. Qed.

Lemma bases_all f cs bases : forall own t l, extends own t -> fold_left (step f cs) bases (Some (own ++ t)) = Some l ->
  exists t', l = own ++ t ++ t' /\ extends own (t ++ t') /\
    (forall m, In m t' -> exists a b ms, In (a, b) bases /\ virtual_methods f cs b = Some ms /\ In m ms) /\
    (forall a b, In (a, b) bases -> exists ms, virtual_methods f cs b = Some ms /\
       forall m, In m ms -> In (signature m) (map signature l)).
Proof.
  induction bases as [|(a, b) bases IH]; intros own t l X E.
  - cbn in E. exists []. rewrite !app_nil_r. split; [congruence|]. split; auto. split; [intros ? []|intros ? ? []].
  - cbn [fold_left] in E. unfold step at 2 in E. cbn [snd] in E.
    destruct (virtual_methods f cs b) as [ms|] eqn:V; [|rewrite step_none in E; discriminate].
    destruct (add_all ms own t X) as (t1 & E1 & X1 & S1 & C1). rewrite E1 in E.
    destruct (IH own (t ++ t1) l X1 E) as (t2 & -> & X2 & S2 & C2). rewrite <- app_assoc in X2.
    exists (t1 ++ t2). split; [rewrite <- app_assoc; reflexivity|]. split; auto. split.
    + intros m I. apply in_app_iff in I. destruct I as [I|I].
      * exists a, b, ms. split; [left; reflexivity|]. auto.
      * destruct (S2 m I) as (a' & b' & ms' & I' & V' & M). exists a', b', ms'. split; [right; exact I'|auto].
    + intros a' b' [Q|I'].
      * inversion Q; subst a' b'. exists ms. split; auto. intros m I. specialize (C1 m I).
        rewrite !map_app in *. rewrite !in_app_iff in *. tauto.
      * destruct (C2 a' b' I') as (ms' & V' & C). exists ms'. split; auto.
Qed.

Lemma virtual_methods_ok fuel cs : forall c l, virtual_methods fuel cs c = Some l ->
  exists t, l = filter m_virtual (c_methods c) ++ t /\ extends (filter m_virtual (c_methods c)) t /\
    (forall m, In m l -> exists d, inherits cs c d /\ In m (c_methods d) /\ m_virtual m = true) /\
    (forall d m, inherits cs c d -> In m (c_methods d) -> m_virtual m = true -> In (signature m) (map signature l)).
Proof.
  induction fuel as [|f IH]; intros c l E; [discriminate|]. rewrite virtual_methods_step in E.
  destruct (base_classes cs c) as [bases|] eqn:B; [|discriminate].
  rewrite <- (app_nil_r (filter m_virtual (c_methods c))) in E.
  destruct (bases_all f cs bases _ [] l (conj (NoDup_nil _) (fun m (H : In m []) => match H with end)) E) as (t & -> & X & S & C).
  cbn [app] in *. exists t. split; auto. split; auto. split.
  - intros m I. apply in_app_iff in I. destruct I as [I|I].
    + apply filter_In in I. exists c. split; [apply inherits_self|exact I].
    + destruct (S m I) as (a & b & ms & Ib & V & M). destruct (IH b ms V) as (_ & _ & _ & So & _).
      destruct (So m M) as (d & H & Q). exists d. split; auto. eapply inherits_base; [|exact H]. exists bases, a. auto.
  - intros d m H I V. destruct H as [c|c b d (bs & a & B' & Ib) H].
    + rewrite map_app, in_app_iff. left. apply in_map. apply filter_In. auto.
    + rewrite B in B'. injection B' as <-. destruct (C a b Ib) as (ms & Vb & Cov). destruct (IH b ms Vb) as (_ & _ & _ & _ & Co).
      specialize (Co d m H I V). apply in_map_iff in Co. destruct Co as (m' & E' & M). rewrite <- E'. exact (Cov m' M).
Qed.

(** Termination. *)
Lemma virtual_methods_total cs (rank : class -> nat) : forall fuel c,
  (forall d, inherits cs c d -> base_classes cs d <> None) ->
  (forall d b, inherits cs c d -> base_of cs d b -> rank b < rank d) ->
  rank c < fuel -> exists l, virtual_methods fuel cs c = Some l.
Proof.
  induction fuel as [|f IH]; intros c A R L; [lia|]. rewrite virtual_methods_step.
  destruct (base_classes cs c) as [bases|] eqn:B; [|destruct (A c (inherits_self cs c) B)].
  assert (T : forall a b, In (a, b) bases -> exists l, virtual_methods f cs b = Some l).
  { intros a b I. assert (O : base_of cs c b) by (exists bases, a; auto). apply IH.
    - intros d H. apply A. eapply inherits_base; eauto.
    - intros d x H. apply R. eapply inherits_base; eauto.
    - specialize (R c b (inherits_self cs c) O). lia. }
  clear B. generalize (filter m_virtual (c_methods c)). induction bases as [|(a, b) bases IHb]; intros l; [exists l; reflexivity|].
  cbn [fold_left]. unfold step at 2. cbn [snd]. destruct (T a b (or_introl eq_refl)) as (ms & ->).
  apply IHb. intros a' b' I. apply (T a'). right. exact I.
Qed.

Lemma virtual_methods_more cs : forall fuel fuel' c l, virtual_methods fuel cs c = Some l -> fuel <= fuel' ->
  virtual_methods fuel' cs c = Some l.
Proof.
  induction fuel as [|f IH]; intros fuel' c l E L; [discriminate|]. destruct fuel' as [|f']; [lia|].
  rewrite virtual_methods_step in *. destruct (base_classes cs c) as [bases|]; [|discriminate].
  revert E. generalize (Some (filter m_virtual (c_methods c))). induction bases as [|(a, b) bases IHb]; intros acc E; auto.
  cbn [fold_left] in *. destruct acc as [acc|]; [|rewrite step_none in E; discriminate].
  unfold step at 2 in E. unfold step at 2. cbn [snd] in *.
  destruct (virtual_methods f cs b) as [ms|] eqn:V; [|rewrite step_none in E; discriminate].
  rewrite (IH f' b ms V) by lia. apply IHb, E.
Qed.

(** Access. *)
Lemma bases_access cs cur : forall supers bases, base_classes_of cs cur supers = Some bases ->
  bases = concat (map (fun s => match find_struct_or_class cs (snd s) cur, from_name (super_specifier (fst s)) with
                                | Some b, Some a => [(a, b)]
                                | _, _ => [] end) supers).
Proof.
  induction supers as [|(sp, name) supers IH]; intros bases E; [cbn in E; cbn; congruence|].
  cbn [base_classes_of] in E. cbn [map concat fst snd]. destruct (from_name (super_specifier sp)) as [a|]; [|discriminate].
  cbv zeta in E. destruct (find_struct_or_class cs name cur) as [b|]; [|cbn [app]; auto].
  destruct (base_classes_of cs cur supers) as [r|]; [|discriminate]. cbn in E. rewrite <- (IH r eq_refl). cbn. congruence.
Qed.
Lemma usual_access c sp : usual_specifiers c sp -> from_name (super_specifier sp) = Some (cpp_access c sp).
Proof.
  intros [(-> & E)|(s & v & -> & I & [->| ->])]; unfold cpp_access, super_specifier.
  - rewrite E. reflexivity.
  - repeat (destruct I as [<-|I]; [reflexivity|]). destruct I.
  - rewrite last_last. repeat (destruct I as [<-|I]; [reflexivity|]). destruct I.
Qed.
Lemma bases_some cs c : Forall (fun s => usual_specifiers c (fst s)) (c_supers c) -> base_classes cs c =
  Some (concat (map (fun s => match find_struct_or_class cs (snd s) (c_scope c) with
                              | Some b => [(cpp_access c (fst s), b)]
                              | None => [] end) (c_supers c))).
Proof.
  unfold base_classes. intros F. induction F as [|(sp, name) l U F IH]; auto.
  cbn [base_classes_of map concat fst snd] in *. rewrite (usual_access c sp U). cbv zeta. rewrite IH.
  destruct (find_struct_or_class cs name (c_scope c)); reflexivity.
Qed.
Lemma find_struct_in cs n cur b : find_struct_or_class cs n cur = Some b -> In b cs.
Proof.
  unfold find_struct_or_class. cbv zeta. destruct (contains colons n); intros F; apply find_some in F; tauto.
Qed.
