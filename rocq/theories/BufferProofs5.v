From Verif Require Import PyStr PyStrLemmas PyDict TypeTextModel TypeTextProofs LambdaModel LambdaSpec AdapterModel AdapterSpec
  LambdaProofs AdapterProofs BufferModel BufferSpec BufferProofs BufferProofs2 BufferProofs3 BufferProofs4.
(** The call of a function with buffers: the type of the items. *)

(** ** Letters *)

Definition letter (nanobind : bool) (n : numpy) : result str :=
  if nanobind then
    match find (fun r => seqb (fst (fst r)) (n_kind n) && (snd (fst r) =? n_itemsize n)) nanobind_letters with
    | Some r => Ok (snd r)
    | None => Throw
    end
  else Ok (n_letter n).

Lemma letter_of_spec nano e m x n : named_value e m (x, buf n) -> letter_of nano e m x = letter nano n.
Proof. intros (q & L & R). cbn [fst snd] in L, R. unfold letter_of. rewrite L, R. reflexivity. Qed.

Lemma letter_not_stuck nano n : letter nano n <> Stuck.
Proof. unfold letter. destruct nano; [|discriminate]. destruct (find _ _); discriminate. Qed.

Lemma letter_chosen nano t k n : In t (map type_name item_types) -> array_letter t = Some k ->
  (letter nano n = Ok k <-> chosen nano t n).
Proof.
  intros I H. unfold chosen. destruct nano.
  - unfold letter, holds. generalize (n_kind n), (n_itemsize n). clear n. intros c z. split.
    + destruct (find _ nanobind_letters) as [[[c' z'] k']|] eqn:F; [|discriminate]. cbn [snd]. intros E.
      assert (k' = k) by congruence. subst k'. clear E.
      apply find_some in F. cbn [fst snd] in F. destruct F as [J B]. apply andb_true_iff in B. rewrite seqb_true, Nat.eqb_eq in B.
      destruct B as [-> ->]. apply in_map_iff in I. destruct I as ([[[u l] kind] size] & <- & I). cbn [type_name fst] in *.
      cut (In (u, k, c, z) item_types /\ u <> $"long long"). { intros [A B]. split; eauto. }
      cbn [In item_types] in I.
      repeat (destruct I as [E|I]; [injection E as <- <- <- <-; vm_compute in H; injection H as <-;
        vm_compute in J; repeat (destruct J as [E|J]; [first [discriminate E|injection E as <- <-; split;
          [vm_compute; tauto|discriminate]]|]); destruct J|]). destruct I.
    + intros [(l & J) NL]. specialize (NL eq_refl). cbn [In item_types] in J.
      repeat (destruct J as [E|J]; [injection E as <- _ <- <-; vm_compute in H; injection H as <-; try (exfalso; apply NL; reflexivity); vm_compute; reflexivity|]).
      destruct J.
  - cbn [letter]. rewrite <- (letter_holds _ _ _ I H). split.
    + intros E. split; [congruence|discriminate].
    + intros [-> _]. auto.
Qed.

Lemma array_type_letter t k : In t (map type_name item_types) -> array_letter t = Some k -> array_type k = t.
Proof.
  intros I H. apply in_map_iff in I. destruct I as ([[[u l] kind] size] & <- & I). cbn [type_name fst] in *. cbn [In item_types] in I.
  repeat (destruct I as [E|I]; [injection E as <- <- <- <-; vm_compute in H; injection H as <-; reflexivity|]). destruct I.
Qed.

Lemma allowed_letter o t k : allowed o -> In t (b_types o) -> array_letter t = Some k -> In t (map type_name item_types).
Proof. intros A I H. destruct (A t I) as [->|J]; auto. vm_compute in H. discriminate. Qed.

Lemma same_letters_spec nano e m k ns : (forall x, In x ns -> exists n, named_value e m (x, buf n)) ->
  ((forall x n, In x ns -> named_value e m (x, buf n) -> letter nano n = Ok k) /\ same_letters nano e m k ns = Ok tt) \/
  (exists x n, In x ns /\ named_value e m (x, buf n) /\ letter nano n <> Ok k) /\ same_letters nano e m k ns = Throw.
Proof.
  induction ns as [|x ns IH]; intros H.
  - left. split; [intros x n []|reflexivity].
  - destruct (H x (or_introl eq_refl)) as (n & N). cbn [same_letters]. rewrite (letter_of_spec nano _ _ _ _ N).
    pose proof (letter_not_stuck nano n) as NS. destruct (letter nano n) as [k'| |] eqn:L; [|right|exfalso; apply NS; reflexivity].
    + cbn [bind]. destruct (seqb k' k) eqn:B.
      * apply seqb_true in B. subst k'. destruct IH as [[A E]|[(x' & n' & I & N' & D) E]].
        { intros x' I. apply H. right. auto. }
        { left. split; auto. intros x' n' [<-|I] N'; [|eapply A; eauto].
          rewrite <- (letter_of_spec nano _ _ _ _ N'), (letter_of_spec nano _ _ _ _ N). auto. }
        { right. split; auto. exists x', n'. split; [right; auto|]. auto. }
      * right. split; auto. exists x, n. split; [left; auto|]. split; auto. rewrite L. intros C. injection C as ->.
        rewrite seqb_refl in B. discriminate.
    + split; auto. exists x, n. split; [left; auto|]. split; auto. rewrite L. discriminate.
Qed.

(** ** The calls *)

Lemma typed_calls_get o ps calls t : allowed o -> typed_calls o ps = Some calls -> In t (b_types o) ->
  exists k xs, array_letter t = Some k /\ dict_get k calls = Some xs /\ each_param (typed_arg_of o ps t) ps = Some xs.
Proof.
  intros A H I. unfold typed_calls in H. apply sequence_Forall2 in H.
  destruct (Forall2_In_l _ _ _ _ H I) as ([k xs] & _ & E). unfold typed_call in E.
  destruct (array_letter t) as [k'|] eqn:L; [|discriminate]. exists k'.
  assert (T : array_type k' = t). { apply array_type_letter; auto. eapply allowed_letter; eauto. }
  rewrite T in E. destruct (each_param (typed_arg_of o ps t) ps) as [xs'|] eqn:X; [|discriminate]. exists xs'.
  split; auto. split; auto. clear E k xs. revert I. induction H as [|u c us cs C H IH]; intros I; [destruct I|].
  unfold typed_call in C. destruct (array_letter u) as [j|] eqn:J; [|discriminate].
  destruct (each_param (typed_arg_of o ps (array_type j)) ps) as [ys|] eqn:Y; [|discriminate]. cbn [option_map] in C.
  injection C as <-. cbn [dict_get]. destruct (seqb k' j) eqn:B.
  - apply seqb_true in B. subst j. rewrite T in Y. congruence.
  - destruct I as [->|I]; [|auto]. rewrite L in J. injection J as ->. rewrite seqb_refl in B. discriminate.
Qed.

Lemma typed_calls_none o ps calls k : allowed o -> typed_calls o ps = Some calls ->
  (forall t, In t (b_types o) -> array_letter t <> Some k) -> dict_get k calls = None.
Proof.
  intros A H. unfold typed_calls in H. apply sequence_Forall2 in H. induction H as [|u c us cs C H IH]; intros N; auto.
  unfold typed_call in C. destruct (array_letter u) as [j|] eqn:J; [|discriminate].
  destruct (each_param (typed_arg_of o ps (array_type j)) ps) as [ys|] eqn:Y; [|discriminate]. cbn [option_map] in C.
  injection C as <-. cbn [dict_get]. destruct (seqb k j) eqn:B.
  - apply seqb_true in B. subst j. exfalso. apply (N u); [left; auto|auto].
  - apply IH. intros t I. apply N. right. auto.
Qed.

(** ** The templates *)

Definition is_template_slot (s : bslot) : Prop := exists n, b_role s = Template n.

Lemma template_param_slot o ss p : Forall (fun k => slot_fact o ss (fst k) (snd k)) (enumerate ss) ->
  In p (template_params o (map b_param ss)) -> exists s n, In s ss /\ b_param s = p /\ b_role s = Template n.
Proof.
  intros F I. unfold template_params in I. apply filter_In in I. destruct I as [I L]. apply in_map_iff in I.
  destruct I as (s & <- & I). apply enumerate_In in I. destruct I as [i I]. rewrite Forall_forall in F.
  pose proof (F _ I) as SF. apply enumerate_In_inv in I. unfold slot_fact in SF. cbv zeta in SF. cbn [fst snd] in SF.
  exists s. destruct (b_role s) as [n|n|n|n|] eqn:R; try (exfalso; destruct SF as (? & SF); decompose [and] SF; congruence).
  exists n. auto.
Qed.

Lemma template_slot_param o ss s n : Forall (fun k => slot_fact o ss (fst k) (snd k)) (enumerate ss) ->
  In s ss -> b_role s = Template n -> In (b_param s) (template_params o (map b_param ss)).
Proof.
  intros F I R. apply filter_In. split; [apply in_map; auto|]. apply enumerate_In in I. destruct I as [i I].
  rewrite Forall_forall in F. pose proof (F _ I) as SF. unfold slot_fact in SF. cbn [fst snd] in SF. cbv zeta in SF. rewrite R in SF. tauto.
Qed.

Definition of_items (o : buffer_options) (t : str) (ss : list bslot) : Prop :=
  forall s n, In s ss -> b_role s = Template n -> In t (b_types o) /\ chosen (b_nanobind o) t n.

Lemma accepted_parts o t ss : Forall (accepted o t) ss <-> Forall (checks o) ss /\ of_items o t ss.
Proof.
  rewrite !Forall_forall. unfold of_items, accepted, checks. split.
  - intros H. split.
    + intros s I. specialize (H s I). destruct (b_role s); tauto.
    + intros s n I R. specialize (H s I). rewrite R in H. tauto.
  - intros [H1 H2] s I. specialize (H1 s I). destruct (b_role s) eqn:R; auto. specialize (H2 s n I R). tauto.
Qed.

Lemma sequence_ext {A B} (g h : A -> option B) l : (forall a, In a l -> g a = h a) -> sequence (map g l) = sequence (map h l).
Proof. intros H. f_equal. apply map_ext_in. auto. Qed.

Lemma choose_spec i o f l ss b e m :
  adapt_c_buffers i o f = Some (Some l) -> well_named f l -> f_params f = map b_param ss -> allowed o ->
  Forall (fun k => slot_fact o ss (fst k) (snd k)) (enumerate ss) ->
  (forall s, In s ss -> slot_env b e m s) -> (forall n, In n (map fst e) -> In n (names_of f l)) ->
  (forall t, of_items o t ss -> exists xs, choose l e m = Ok xs /\ each_param (typed_arg_of o (f_params f) t) (f_params f) = Some xs) /\
  ((forall t, ~ of_items o t ss) -> choose l e m = Throw).
Proof.
  intros H WN P AL FA SE NM. pose proof (adapter_shape _ _ _ _ H) as (ins & xs & en & _ & AR & BE & LE).
  destruct WN as [_ _ _ _ WR].
  assert (EN : l_end l = en). { rewrite LE. auto. }
  assert (LA : l_args l = xs). { rewrite LE. auto. }
  unfold buffer_end in BE. destruct (rev (template_params o (f_params f))) as [|p0 rest] eqn:RV.
  - injection BE as <-. unfold choose. rewrite EN.
    assert (NT : forall s n, In s ss -> b_role s <> Template n).
    { intros s n I R. pose proof (template_slot_param o ss s n FA I R) as C. rewrite <- P in C. apply in_rev in C.
      rewrite RV in C. destruct C. }
    split.
    + intros t _. exists xs. rewrite LA. split; auto. rewrite <- AR. unfold each_param. apply sequence_ext.
      intros [j p] I. cbn [fst snd]. unfold typed_arg_of.
      assert (looks_template o p = false) as ->; auto. apply not_true. intros LT.
      assert (C : In p (template_params o (f_params f))).
      { apply filter_In. split; auto. eapply enumerate_In_inv; eauto. }
      apply in_rev in C. rewrite RV in C. destruct C.
    + intros N. exfalso. apply (N []). intros s n I R. exfalso. eapply NT; eauto.
  - cbv zeta in BE.
    set (others := filter (fun n => negb (seqb n (p_name p0))) (map p_name (template_params o (f_params f)))) in *.
    destruct (typed_calls o (f_params f)) as [calls|] eqn:TC; [|discriminate]. cbn [option_map] in BE. injection BE as <-.
    assert (I0 : In p0 (template_params o (f_params f))). { apply in_rev. rewrite RV. left. auto. }
    rewrite P in I0. destruct (template_param_slot o ss p0 FA I0) as (s0 & n0 & IS0 & E0 & R0).
    assert (NVT : forall s n, In s ss -> b_role s = Template n -> named_value e m (p_name (b_param s), buf n)).
    { intros s n I R. pose proof (SE s I) as C. unfold slot_env in C. cbv zeta in C. rewrite R in C. auto. }
    assert (N0 : named_value e m (p_name p0, buf n0)). { rewrite <- E0. auto. }
    assert (OT : forall x, In x others -> exists s n, In s ss /\ p_name (b_param s) = x /\ b_role s = Template n).
    { intros x I. apply filter_In in I. destruct I as [I _]. apply in_map_iff in I. destruct I as (p & <- & I). rewrite P in I.
      destruct (template_param_slot o ss p FA I) as (s & n & J & <- & R). eauto. }
    assert (ALLT : forall s n, In s ss -> b_role s = Template n -> p_name (b_param s) = p_name p0 \/ In (p_name (b_param s)) others).
    { intros s n I R. destruct (seqb (p_name (b_param s)) (p_name p0)) eqn:B; [left; apply seqb_true; auto|]. right.
      apply filter_In. rewrite B. split; auto. apply in_map. rewrite P. eapply template_slot_param; eauto. }
    assert (FUN : forall x n n', named_value e m (x, buf n) -> named_value e m (x, buf n') ->
                    letter (b_nanobind o) n = letter (b_nanobind o) n').
    { intros x n n' A1 A2. rewrite <- (letter_of_spec _ _ _ _ _ A1), <- (letter_of_spec _ _ _ _ _ A2). auto. }
    rewrite EN in WR. cbv iota in WR. destruct WR as [WD WI].
    unfold choose. rewrite EN. cbv iota.
    set (nms := end_names _) in *.
    destruct (declare_all_ok (map (fun n : str => (n, VVoid)) nms) e m) as (l' & x' & DA & _).
    { rewrite map_map. cbn [fst]. rewrite map_id. auto. }
    { intros n I. rewrite map_map in I. cbn [fst] in I. rewrite map_id in I. split.
      - intros ->. unfold nms, end_names in I. rewrite !in_app_iff in I.
        destruct I as [I|[I|[I|I]]].
        + cbn in I. repeat (destruct I as [I|I]; [discriminate|]). destruct I.
        + destruct (b_nanobind o); [|destruct I]. cbn in I. repeat (destruct I as [I|I]; [discriminate|]). destruct I.
        + destruct others; [destruct I|]. destruct (b_nanobind o); cbn in I; (destruct I as [I|I]; [discriminate|destruct I]).
        + apply in_map_iff in I. destruct I as (y & E & _). destruct y; discriminate.
      - intros C. apply (WI n I). auto. }
    rewrite DA. rewrite (letter_of_spec _ _ _ _ _ N0).
    split.
    + intros t OI. destruct (OI s0 n0 IS0 R0) as [IT C0].
      destruct (typed_calls_get o _ _ _ AL TC IT) as (k & ys & LK & DG & EP).
      pose proof (allowed_letter _ _ _ AL IT LK) as KN. exists ys. split; auto.
      assert (letter (b_nanobind o) n0 = Ok k) as -> by (apply (letter_chosen _ t); auto). cbn [bind].
      destruct (same_letters_spec (b_nanobind o) e m k others) as [[_ ->]|[(x & n & I & N & D) _]].
      { intros x I. destruct (OT x I) as (s & n & J & <- & R). eauto. }
      { cbn [bind]. rewrite DG. auto. }
      { exfalso. apply D. destruct (OT x I) as (s & n' & J & E & R). rewrite (FUN x n n'); auto.
        - apply (letter_chosen _ t); auto. apply (OI s n' J R).
        - rewrite <- E. auto. }
    + intros NO. pose proof (letter_not_stuck (b_nanobind o) n0) as NS.
      destruct (letter (b_nanobind o) n0) as [k| |] eqn:L0; [|reflexivity|exfalso; apply NS; reflexivity]. cbn [bind].
      destruct (same_letters_spec (b_nanobind o) e m k others) as [[ALL ->]|[_ ->]]; [| |reflexivity].
      { intros x I. destruct (OT x I) as (s & n & J & <- & R). eauto. }
      cbn [bind]. rewrite (typed_calls_none o _ _ _ AL TC); auto.
      intros t IT LK. apply (NO t). intros s n I R. split; auto. apply (letter_chosen _ t k); auto.
      { eapply allowed_letter; eauto. }
      destruct (ALLT s n I R) as [E|E].
      * rewrite <- L0. apply (FUN (p_name p0)); auto. rewrite <- E. auto.
      * eapply ALL; eauto.
Qed.

(** ** The whole call *)

Lemma given_all o ss t xs b e m :
  Forall (fun k => slot_fact o ss (fst k) (snd k)) (enumerate ss) -> Forall one_word ss ->
  each_param (typed_arg_of o (map b_param ss) t) (map b_param ss) = Some xs ->
  (forall j s, In (j, s) (enumerate ss) -> slot_done o ss j b e m s) ->
  (forall s, In s ss -> b_role s = Other -> forall a, b_args s = [a] -> forall v, a = AVal v -> forall l, v <> VRaw l) ->
  exists ys, give e m (map b_param ss) xs = Some ys /\ Forall2 (given m t) ss ys.
Proof.
  intros FA OW EP DN NR. apply each_param_slots in EP. rewrite Forall_forall in FA, OW.
  assert (EX : forall k x, In k (enumerate ss) -> typed_arg_of o (map b_param ss) t (fst k) (b_param (snd k)) = Some x ->
     exists y, give1 e m (b_param (snd k)) x = Some y /\ given m t (snd k) y).
  { intros [j s] x I TA. cbn [fst snd] in *. pose proof (enumerate_In_inv _ _ _ I) as IS.
    eapply slot_give; eauto. apply (FA _ I). }
  assert (G : exists ys, Forall3 (fun p x y => give1 e m p x = Some y) (map b_param (map snd (enumerate ss))) xs ys /\
     Forall2 (given m t) (map snd (enumerate ss)) ys).
  { clear FA OW DN NR. induction EP as [|k x ks xs' T EP IH].
    - exists []. split; constructor.
    - destruct IH as (ys & G1 & G2). { intros k' x' I. apply EX. right. auto. }
      destruct (EX k x (or_introl eq_refl) T) as (y & Y1 & Y2). exists (y :: ys). split; constructor; auto. }
  rewrite enumerate_snd in G. destruct G as (ys & G1 & G2). exists ys. split; auto. apply give_Forall3. auto.
Qed.

Lemma buffer_finish i o f l e r m : adapt_c_buffers i o f = Some (Some l) -> well_named f l ->
  f_returns_ref f = ref_type (return_text f) -> (forall n, In n (map fst e) -> In n (names_of f l)) ->
  finish f l e r m = handed_back f (r, m).
Proof.
  intros H WN RR NM. pose proof (adapter_shape _ _ _ _ H) as (ins & xs & en & _ & _ & BE & LE).
  assert (RF : result_fits f). { intros E. congruence. }
  assert (LR : l_return l = f_return f). { rewrite LE. auto. }
  assert (EN : l_end l = en). { rewrite LE. auto. }
  unfold buffer_end in BE. destruct (rev _) as [|p0 rest].
  - apply Some_eq in BE. subst en. apply finish_plain; auto.
  - cbv zeta in BE. destruct (typed_calls o (f_params f)) as [calls|]; [|discriminate]. cbn [option_map] in BE.
    apply Some_eq in BE. subst en. unfold finish. rewrite EN. unfold handed_back. cbn [fst snd].
    assert (lambda_return_text l = return_text f) as ->. { unfold lambda_return_text, return_text. rewrite LR. auto. }
    rewrite RR. destruct (returns_void f); auto. destruct (ref_type (return_text f)), r; auto.
Qed.

Theorem buffer_receives i o f l ss t m :
  adapt_c_buffers i o f = Some (Some l) -> well_named f l -> f_returns_ref f = ref_type (return_text f) -> allowed o ->
  f_params f = map b_param ss -> arranged o None None ss -> Forall one_word ss -> Forall (fits_slot m) ss ->
  Forall (accepted o t) ss ->
  exists x ys, Forall2 (given (m ++ x) t) ss ys /\
    forall c, call f l c (flat_map b_args ss) m = bind (c ys (m ++ x)) (handed_back f).
Proof.
  intros H WN RR AL P AR OW FT AC. apply accepted_parts in AC. destruct AC as [CH OI].
  destruct (buffer_run i o f l ss m H WN P AR FT OW) as [[(s & I & C) _]|[_ (e & x & DN & SE & NM & CALL)]].
  { exfalso. rewrite Forall_forall in CH. auto. }
  pose proof (arranged_all _ _ AR) as FA.
  destruct (choose_spec i o f l ss (length m) e (m ++ x) H WN P AL FA SE NM) as [CS _].
  destruct (CS t OI) as (xs & EC & EP). rewrite P in EP.
  destruct (given_all o ss t xs (length m) e (m ++ x) FA OW EP DN) as (ys & G & GV).
  { intros s I R a E v -> lst. rewrite Forall_forall in FT. pose proof (FT s I) as F. unfold fits_slot in F. cbv zeta in F. rewrite R in F.
    destruct F as (a & E' & F). rewrite E in E'. injection E' as <-. apply F. }
  exists x, ys. split; auto. intros c. rewrite CALL, EC, P. cbn [bind]. rewrite G. cbn [of_option bind].
  destruct (c ys (m ++ x)) as [[r m']| |]; auto. cbn [bind fst snd]. apply (buffer_finish i o f l); auto.
Qed.

Theorem buffer_refuses i o f l ss m :
  adapt_c_buffers i o f = Some (Some l) -> well_named f l -> allowed o ->
  f_params f = map b_param ss -> arranged o None None ss -> Forall one_word ss -> Forall (fits_slot m) ss ->
  (forall t, ~ Forall (accepted o t) ss) ->
  forall c, call f l c (flat_map b_args ss) m = Throw.
Proof.
  intros H WN AL P AR OW FT NA c.
  destruct (buffer_run i o f l ss m H WN P AR FT OW) as [[_ C]|[CH (e & x & DN & SE & NM & CALL)]]; auto.
  pose proof (arranged_all _ _ AR) as FA.
  destruct (choose_spec i o f l ss (length m) e (m ++ x) H WN P AL FA SE NM) as [_ CS].
  rewrite CALL, CS; auto. intros t OI. apply (NA t). apply accepted_parts. auto.
Qed.
