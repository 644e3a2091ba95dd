From Verif Require Import PyStr PyStrLemmas PyDict TypeTextModel TypeTextProofs LambdaModel LambdaSpec AdapterModel AdapterSpec
  LambdaProofs AdapterProofs BufferModel BufferSpec BufferProofs BufferProofs2 BufferProofs3.
(** The lambda of a function with buffers. *)

(** ** Lists *)

Lemma flat_Forall2 {A B C} (P : A -> B -> Prop) (h : C -> list A) (g : C -> list B) l :
  Forall (fun c => Forall2 P (h c) (g c)) l -> Forall2 P (flat_map h l) (flat_map g l).
Proof. intros F. induction F; cbn; [constructor|]. apply Forall2_app; auto. Qed.

Lemma Forall2_split {A B} (P : A -> B -> Prop) a1 : forall b1 a2 b2, length a1 = length b1 ->
  Forall2 P (a1 ++ a2) (b1 ++ b2) -> Forall2 P a1 b1 /\ Forall2 P a2 b2.
Proof.
  induction a1 as [|a a1 IH]; intros [|b b1] a2 b2 L F; cbn in *; try discriminate; auto.
  inversion F; subst. destruct (IH b1 a2 b2) as [F1 F2]; auto.
Qed.

Lemma flat_Forall2_inv {A B C} (P : A -> B -> Prop) (h : C -> list A) (g : C -> list B) l :
  Forall (fun c => length (h c) = length (g c)) l -> Forall2 P (flat_map h l) (flat_map g l) ->
  Forall (fun c => Forall2 P (h c) (g c)) l.
Proof.
  intros L. induction L as [|c l E L IH]; intros F; constructor; cbn in F; apply Forall2_split in F; tauto.
Qed.

Lemma Forall2_In_l {A B} (P : A -> B -> Prop) l r a : Forall2 P l r -> In a l -> exists b, In b r /\ P a b.
Proof. intros F. induction F; [intros []|]. intros [<-|I]; [eexists; split; [left; auto|auto]|]. destruct (IHF I) as (b & J & Q). exists b. split; [right|]; auto. Qed.
Lemma Forall2_In_r {A B} (P : A -> B -> Prop) l r b : Forall2 P l r -> In b r -> exists a, In a l /\ P a b.
Proof. intros F. induction F; [intros []|]. intros [<-|I]; [eexists; split; [left; auto|auto]|]. destruct (IHF I) as (a & J & Q). exists a. split; [right|]; auto. Qed.

Lemma flat_map_enumerate {A B} (h : A -> list B) l : flat_map (fun k => h (snd k)) (enumerate l) = flat_map h l.
Proof. rewrite <- (enumerate_snd l) at 2. rewrite flat_map_map. auto. Qed.

(** ** The adapter *)

Lemma adapter_shape i o f l : adapt_c_buffers i o f = Some (Some l) ->
  exists ins xs e, each_param (input_of o (f_params f)) (f_params f) = Some ins /\
    each_param (arg_of o (f_params f)) (f_params f) = Some xs /\ buffer_end i o f = Some e /\
    l = Lambda (f_name f ++ $"_adapt_c_buffers")
          (flat_map (fun ip => new_of o (f_params f) (fst ip) (snd ip)) (enumerate (f_params f))) (f_return f) (spaced ins) xs e.
Proof.
  unfold adapt_c_buffers. cbv zeta. destruct (shall_adapt o f); [|discriminate]. destruct (1 <? _); [discriminate|].
  destruct (each_param (input_of o (f_params f)) (f_params f)) as [ins|]; [|discriminate].
  destruct (each_param (arg_of o (f_params f)) (f_params f)) as [xs|]; [|discriminate].
  destruct (buffer_end i o f) as [e|]; [|discriminate]. intros E. injection E as <-. exists ins, xs, e. auto.
Qed.

(** The lambda receives its arguments and runs its statements: either it throws, or everything is ready for the call. *)
Lemma buffer_run i o f l ss m :
  adapt_c_buffers i o f = Some (Some l) -> well_named f l -> f_params f = map b_param ss ->
  arranged o None None ss -> Forall (fits_slot m) ss -> Forall one_word ss ->
  ((exists s, In s ss /\ ~ checks o s) /\ forall c, call f l c (flat_map b_args ss) m = Throw) \/
  Forall (checks o) ss /\
  exists e x, (forall j s, In (j, s) (enumerate ss) -> slot_done o ss j (length m) e (m ++ x) s) /\
    (forall s, In s ss -> slot_env (length m) e (m ++ x) s) /\
    (forall n, In n (map fst e) -> In n (names_of f l)) /\
    forall c, call f l c (flat_map b_args ss) m
      = bind (choose l e (m ++ x)) (fun xs => bind (of_option (give e (m ++ x) (f_params f) xs)) (fun ys =>
          bind (c ys (m ++ x)) (fun rm => finish f l e (fst rm) (snd rm)))).
Proof.
  intros H WN P AR FT OW. pose proof (adapter_shape _ _ _ _ H) as (ins & xs & en & IN & _ & _ & LE).
  pose proof (arranged_all _ _ AR) as FA. rewrite P in IN. apply each_param_slots in IN.
  assert (LP : l_params l = flat_map (fun k => new_of o (map b_param ss) (fst k) (b_param (snd k))) (enumerate ss)).
  { rewrite LE. cbn [l_params]. rewrite P, enumerate_map, flat_map_map. auto. }
  assert (LI : l_input l = spaced ins). { rewrite LE. auto. }
  assert (XS : flat_map b_args ss = flat_map (fun k => b_args (snd k)) (enumerate ss)). { rewrite flat_map_enumerate. auto. }
  destruct WN as [WD WE WT WC WR]. unfold names_of in *. rewrite LI in *.
  pose proof (NoDup_app_parts _ _ WD) as (ND1 & ND2 & D1). pose proof (NoDup_app_parts _ _ ND2) as (ND3 & ND4 & D2).
  rewrite Forall_forall in FA, FT, OW.
  assert (RC : Forall (fun k => Forall2 receivable (new_of o (map b_param ss) (fst k) (b_param (snd k))) (b_args (snd k))) (enumerate ss)).
  { apply Forall_forall. intros [j s] I. apply (slot_receivable _ _ _ _ m); [apply (FA _ I)|]. apply FT. eapply enumerate_In_inv; eauto. }
  destruct (receive_ok (length m) (l_params l) (flat_map b_args ss)) with (e := start_env f) (m := m)
    as (l1 & x1 & E1 & L1 & H1 & _); auto.
  { rewrite LP, XS. apply flat_Forall2. auto. }
  { intros n I. split.
    - intros ->. apply WE. rewrite !in_app_iff. auto.
    - rewrite start_env_names. intros C. apply (D1 n); auto. apply in_app_iff. auto. }
  assert (SE : forall s, In s ss -> slot_env (length m) (l1 ++ start_env f) (m ++ x1) s).
  { intros s I. apply enumerate_In in I. destruct I as [j I]. rewrite LP, XS in H1. apply flat_Forall2_inv in H1.
    - rewrite Forall_forall in H1. apply (slot_held o ss j); [apply (FA _ I)| |apply (H1 _ I)].
      apply FT. eapply enumerate_In_inv; eauto.
    - eapply Forall_impl; [|exact RC]. cbv beta. intros k. apply Forall2_length. }
  assert (NEW : forall n, In n (flat_map decls (spaced ins)) -> n <> [] /\ ~ In n (map fst (l1 ++ start_env f))).
  { intros n I. split.
    - intros ->. apply WE. rewrite !in_app_iff. auto.
    - rewrite map_app, in_app_iff, L1, start_env_names. intros [C|C].
      + apply (D2 n); auto.
      + apply (D1 n); auto. apply in_app_iff. auto. }
  assert (SI : forall j s st, In (j, s) (enumerate ss) -> In st ins ->
     input_of o (map b_param ss) j (b_param s) = Some st ->
     (forall u, In u st -> effect u (l1 ++ start_env f) (m ++ x1) <> Stuck) /\
     (fine (l1 ++ start_env f) (m ++ x1) st <-> checks o s)).
  { intros j s st I J E. apply (slot_input o ss j s st (length m)); auto.
    - apply (FA _ I).
    - apply OW. eapply enumerate_In_inv; eauto.
    - eapply enumerate_In_inv; eauto. }
  assert (SRC : forall u, In u (concat ins) -> exists j s st, In (j, s) (enumerate ss) /\ In st ins /\ In u st /\
     input_of o (map b_param ss) j (b_param s) = Some st).
  { intros u I. apply in_concat in I. destruct I as (st & J & I). destruct (Forall2_In_r _ _ _ _ IN J) as ([j s] & K & E).
    exists j, s, st. auto. }
  destruct (run_effects (spaced ins) (l1 ++ start_env f) (m ++ x1)) as [[(st & I & T) R]|[ALL (l2 & x2 & R & L2 & F2)]]; auto.
  { intros st I. apply spaced_In_inv in I. destruct I as [->|I]; [discriminate|].
    destruct (SRC st I) as (j & s & st' & K & J & U & E). apply (proj1 (SI j s st' K J E)). auto. }
  - left. split.
    + apply spaced_In_inv in I. destruct I as [->|I]; [discriminate|].
      destruct (SRC st I) as (j & s & st' & K & J & U & E). exists s. split; [eapply enumerate_In_inv; eauto|].
      intros C. apply (proj2 (SI j s st' K J E)) in C. destruct (C st U) as (nvs & E'). congruence.
    + intros c. unfold call. rewrite E1. cbn [of_option bind fst snd]. rewrite LI, R. auto.
  - right. split.
    + apply Forall_forall. intros s I. apply enumerate_In in I. destruct I as [j I].
      destruct (Forall2_In_l _ _ _ _ IN I) as (st & J & E). apply (proj2 (SI j s st I J E)).
      intros u U. apply ALL. apply spaced_In. apply in_concat. eauto.
    + assert (NT : new_to l2 (l1 ++ start_env f)).
      { intros n I. apply L2 in I. apply NEW. auto. }
      exists (l2 ++ l1 ++ start_env f), (x1 ++ x2). rewrite (app_assoc m).
      assert (SE2 : forall s, In s ss -> slot_env (length m) (l2 ++ l1 ++ start_env f) ((m ++ x1) ++ x2) s).
      { intros s I. apply slot_env_app; auto. }
      split; [|split; [|split]]; auto.
      * intros j s I. pose proof (enumerate_In_inv _ _ _ I) as IS.
        destruct (Forall2_In_l _ _ _ _ IN I) as (st & J & E). cbn [fst snd] in E.
        assert (VAL : forall u nvs, In u st -> effect u (l1 ++ start_env f) (m ++ x1) = Ok nvs ->
                  Forall (named_value (l2 ++ l1 ++ start_env f) ((m ++ x1) ++ x2)) nvs).
        { intros u nvs U. apply F2. apply spaced_In. apply in_concat. eauto. }
        assert (FN : fine (l1 ++ start_env f) (m ++ x1) st).
        { intros u U. apply ALL. apply spaced_In. apply in_concat. eauto. }
        pose proof (input_of_fact _ _ _ _ _ (FA _ I) E) as IO. pose proof (FA _ I) as FC. cbn [snd fst] in IO, FC.
        pose proof (SE s IS) as SS. pose proof (SE2 s IS) as SS2. pose proof (FT s IS) as FS.
        unfold slot_env in SS, SS2. unfold slot_done. unfold fits_slot in FS. unfold slot_fact in FC. cbv zeta in *.
        destruct (b_role s) as [n|n|n|n|]; auto.
        -- destruct IO as (cs & _ & ->). pose proof (effect_convert o _ _ _ _ SS) as EC.
           destruct (FN _ (or_introl eq_refl)) as (nvs & EV). rewrite EC in EV. destruct (_ && _); [|discriminate].
           pose proof (VAL _ _ (or_introl eq_refl) EC) as V. inversion V as [|? ? V1 V2]; subst. inversion V2; subst. auto.
        -- subst st. pose proof (effect_convert o _ _ _ _ SS) as EC.
           destruct (FN _ (or_introl eq_refl)) as (nvs & EV). rewrite EC in EV. destruct (_ && _); [|discriminate].
           pose proof (VAL _ _ (or_introl eq_refl) EC) as V. inversion V as [|? ? V1 V2]; subst. inversion V2; subst. auto.
        -- destruct FS as (v & EA & VR). destruct SS as (v' & EA' & (q & LK & RD)). rewrite EA in EA'. injection EA' as <-.
           cbn [fst snd] in LK, RD. destruct FC as (FB & _ & FST & FT' & b & IB & AB & LB).
           exists v, b. split; auto. split; auto. split; auto.
           unfold input_of, is_standard in E. rewrite FB, FST in E. cbn [andb] in E. unfold stride_part in E. rewrite LB in E.
           cbn [option_map] in E. apply Some_eq in E. subst st.
           assert (BE : named_value (l1 ++ start_env f) (m ++ x1) (p_name (b_param b), buf n)).
           { pose proof (SE b IB) as SE'. unfold slot_env in SE'. cbv zeta in SE'. destruct AB as [AB|AB]; rewrite AB in SE'; auto. }
           destruct BE as (q' & LK' & RD'). cbn [fst snd] in LK', RD'.
           assert (EC : effect (SStride (stride_name (b_param b)) (p_name (b_param s)) (p_name (b_param b)))
                    (l1 ++ start_env f) (m ++ x1)
                  = Ok [(stride_name (b_param b), if is_minus_one v then VSize (n_itemsize n) else v)]).
           { unfold effect. rewrite LK, LK', RD, RD'. reflexivity. }
           pose proof (VAL _ _ (or_introl eq_refl) EC) as V. inversion V; subst. auto.
      * intros n I. rewrite !map_app, !in_app_iff, L1, L2, start_env_names in I. rewrite !in_app_iff. tauto.
      * intros c. unfold call. rewrite E1. cbn [of_option bind fst snd]. rewrite LI, R. cbn [bind fst snd].
        rewrite (app_assoc l2). assert (callee_visible f ((l2 ++ l1) ++ start_env f) = true) as ->; auto.
        apply visible; auto.
        -- intros n I C. apply (D1 n I). apply in_app_iff. rewrite map_app, in_app_iff, L1, L2 in C. tauto.
        -- intros C1 C2 C. apply (WC C1 C2). rewrite !map_app, !in_app_iff, L1, L2, start_env_names in C.
           rewrite !in_app_iff. tauto.
Qed.
