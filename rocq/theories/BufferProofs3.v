From Verif Require Import PyStr PyStrLemmas PyDict TypeTextModel TypeTextProofs LambdaModel LambdaSpec AdapterModel AdapterSpec
  LambdaProofs AdapterProofs BufferModel BufferSpec BufferProofs BufferProofs2.
(** One parameter of a function with buffers. *)

(** ** Lists *)

Lemma sequence_Forall2 {A B} (g : A -> option B) l r : sequence (map g l) = Some r -> Forall2 (fun a b => g a = Some b) l r.
Proof.
  revert r. induction l as [|a l IH]; intros r; cbn [map sequence].
  - intros E. injection E as <-. constructor.
  - destruct (g a) as [b|] eqn:G; [|discriminate]. destruct (sequence (map g l)) as [bs|]; [|discriminate].
    intros E. injection E as <-. constructor; auto.
Qed.

Lemma enumerate_map {A B} (g : A -> B) l : enumerate (map g l) = map (fun k => (fst k, g (snd k))) (enumerate l).
Proof.
  unfold enumerate. rewrite map_length. generalize 0. induction l as [|a l IH]; intros n; cbn; auto. f_equal. auto.
Qed.

Lemma each_param_slots {A} (h : nat -> param -> option A) ss r : each_param h (map b_param ss) = Some r ->
  Forall2 (fun k x => h (fst k) (b_param (snd k)) = Some x) (enumerate ss) r.
Proof. unfold each_param. rewrite enumerate_map, map_map. cbn [fst snd]. apply sequence_Forall2. Qed.

Lemma enumerate_snd {A} (l : list A) : map snd (enumerate l) = l.
Proof. unfold enumerate. generalize 0. induction l as [|a l IH]; intros n; cbn; auto. f_equal. auto. Qed.

Lemma enumerate_In {A} (l : list A) a : In a l -> exists i, In (i, a) (enumerate l).
Proof. rewrite <- (enumerate_snd l) at 1. rewrite in_map_iff. intros ([i b] & <- & I). eauto. Qed.

Lemma enumerate_In_inv {A} (l : list A) i a : In (i, a) (enumerate l) -> In a l.
Proof. intros I. rewrite <- (enumerate_snd l). apply in_map_iff. exists (i, a). auto. Qed.

(** ** What the adapter makes of a parameter *)

Lemma new_of_fact o all i s : slot_fact o all i s ->
  new_of o (map b_param all) i (b_param s)
  = match b_role s with
    | Array _ | Template _ => [array_param o (b_param s)]
    | Size _ => []
    | Stride _ => [stride_param (b_param s)]
    | Other => [b_param s]
    end.
Proof.
  unfold slot_fact, new_of. cbv zeta. destruct (b_role s).
  - intros (-> & _). auto.
  - intros (-> & _). auto.
  - intros (-> & -> & -> & _). auto.
  - intros (-> & -> & -> & _). auto.
  - intros (-> & -> & -> & _). auto.
Qed.

Lemma input_of_fact o all i s ss : slot_fact o all i s -> input_of o (map b_param all) i (b_param s) = Some ss ->
  match b_role s with
  | Array _ => exists cs, check_part o i (b_param s) = Some cs /\ ss = convert_part o (b_param s) ++ cs
  | Template _ => ss = convert_part o (b_param s)
  | Stride n =>
      exists b, In b all /\ is_array b n /\
        ss = [SStride (stride_name (b_param b)) (p_name (b_param s)) (p_name (b_param b))]
  | _ => ss = []
  end.
Proof.
  unfold slot_fact, input_of, is_standard, is_template. cbv zeta. destruct (b_role s).
  - intros (-> & ->). cbn [andb negb]. destruct (check_part o i (b_param s)) as [cs|]; [|discriminate].
    intros E. injection E as <-. eauto.
  - intros (-> & -> & ->). cbn [andb negb]. intros E. injection E as <-. auto.
  - intros (-> & _ & -> & -> & _). cbn [andb]. intros E. injection E as <-. auto.
  - intros (-> & _ & -> & -> & b & I & A & L). cbn [andb]. unfold stride_part. rewrite L. cbn [option_map].
    intros E. injection E as <-. eauto.
  - intros (-> & _ & -> & ->). cbn [andb]. intros E. injection E as <-. auto.
Qed.

Lemma typed_arg_fact o all i s t x : slot_fact o all i s -> typed_arg_of o (map b_param all) t i (b_param s) = Some x ->
  match b_role s with
  | Array _ => x = data_arg (raw_type (b_param s)) (b_param s)
  | Template _ => x = data_arg t (b_param s)
  | Size n =>
      exists b, In b all /\ is_array b n /\ x = ECast (raw_type (b_param s)) (EName (count_name (b_param b)))
  | Stride n =>
      exists b, last_buffer o (map b_param all) i = Some (b_param b) /\ In b all /\ is_array b n /\
        x = if seqb (raw_type (b_param s)) $"int" then EName (stride_name (b_param b))
            else ECast (raw_type (b_param s)) (EName (stride_name (b_param b)))
  | Other => x = EName (p_name (b_param s))
  end.
Proof.
  unfold slot_fact, typed_arg_of, arg_of, is_standard, is_template. cbv zeta. destruct (b_role s).
  - intros (-> & ->). cbn [andb negb]. intros E. injection E as <-. auto.
  - intros (-> & -> & _). intros E. injection E as <-. auto.
  - intros (-> & -> & _ & -> & b & I & A & L). cbn [andb]. rewrite L. cbn [option_map]. intros E. injection E as <-. eauto.
  - intros (-> & -> & -> & -> & b & I & A & L). cbn [andb]. unfold stride_arg. rewrite L. cbn [option_map].
    intros E. injection E as <-. exists b. auto.
  - intros (-> & -> & -> & ->). cbn [andb]. intros E. injection E as <-. auto.
Qed.

(** ** Receiving the argument of a parameter *)

Lemma array_by_ref o p : p_array p = [] -> by_ref (array_param o p) = true.
Proof.
  intros E. unfold by_ref, array_param, with_type. cbn [p_array p_type]. rewrite E.
  destruct (b_nanobind o), (is_const_decl p); reflexivity.
Qed.

Lemma slot_receivable o all i s m : slot_fact o all i s -> fits_slot m s ->
  Forall2 receivable (new_of o (map b_param all) i (b_param s)) (b_args s).
Proof.
  intros F FT. rewrite (new_of_fact _ _ _ _ F). unfold fits_slot in FT. cbv zeta in FT. destruct (b_role s).
  - destruct FT as (PA & a & -> & AA). constructor; auto. destruct a; cbn; auto. apply array_by_ref. auto.
  - destruct FT as (PA & a & -> & AA). constructor; auto. destruct a; cbn; auto. apply array_by_ref. auto.
  - rewrite FT. constructor.
  - destruct FT as (v & -> & _). constructor; auto. exact I.
  - destruct FT as (a & -> & FA). constructor; auto. eapply fits_receivable; eauto.
Qed.

(** What is known of the names of the parameters in the lambda. *)
Definition slot_env (b : nat) (e : env) (m : mem) (s : bslot) : Prop :=
  let p := b_param s in
  match b_role s with
  | Array n | Template n => named_value e m (p_name p, buf n)
  | Size _ => True
  | Stride _ => exists v, b_args s = [AVal v] /\ named_value e m (p_name p, v)
  | Other => exists a, b_args s = [a] /\ held b e m p a
  end.

Lemma slot_held o all i s m e x : slot_fact o all i s -> fits_slot m s ->
  Forall2 (held (length m) e (m ++ x)) (new_of o (map b_param all) i (b_param s)) (b_args s) -> slot_env (length m) e (m ++ x) s.
Proof.
  intros F FT. rewrite (new_of_fact _ _ _ _ F). unfold fits_slot in FT. unfold slot_env. cbv zeta in FT |- *. destruct (b_role s).
  - destruct FT as (PA & a & -> & AA). intros H. inversion H as [|? ? ? ? (q & L & Q) _]; subst. exists q. split; [exact L|].
    cbn [snd]. destruct a; cbn in AA.
    + destruct Q as [_ ->]. apply read_app. tauto.
    + subst v. tauto.
  - destruct FT as (PA & a & -> & AA). intros H. inversion H as [|? ? ? ? (q & L & Q) _]; subst. exists q. split; [exact L|].
    cbn [snd]. destruct a; cbn in AA.
    + destruct Q as [_ ->]. apply read_app. tauto.
    + subst v. tauto.
  - auto.
  - destruct FT as (v & -> & _). intros H. inversion H as [|? ? ? ? (q & L & Q) _]; subst. exists v. split; auto.
    exists q. cbn [fst snd]. split; [exact L|]. tauto.
  - destruct FT as (a & -> & FA). intros H. inversion H; subst. eauto.
Qed.

Lemma slot_env_app b l e m x s : new_to l e -> slot_env b e m s -> slot_env b (l ++ e) (m ++ x) s.
Proof.
  intros N. unfold slot_env. cbv zeta. destruct (b_role s); auto.
  - apply named_value_app; auto.
  - apply named_value_app; auto.
  - intros (v & E & H). exists v. split; auto. apply named_value_app; auto.
  - intros (a & E & H). exists a. split; auto. apply held_app; auto.
Qed.

(** ** The checks *)

Definition checks (o : buffer_options) (s : bslot) : Prop :=
  match b_role s with
  | Array n => flat n /\ exists u, of_type (b_param s) u /\ holds (b_nanobind o) u n
  | Template n => flat n
  | _ => True
  end.

Lemma flat_spec n : (n_ndim n =? 1) && n_contiguous n = true <-> flat n.
Proof. unfold flat. rewrite andb_true_iff, Nat.eqb_eq. tauto. Qed.

Lemma of_type_raw p t : of_type p t -> raw_type p = t.
Proof. unfold of_type, raw_type. intros ->. auto. Qed.

Lemma letter_holds t letter n : In t (map type_name item_types) -> array_letter t = Some letter ->
  (n_letter n = letter <-> holds false t n).
Proof.
  intros I H. unfold holds. generalize (n_letter n). intros k. split.
  - intros <-. apply in_map_iff in I. destruct I as ([[[u letter'] kind] size] & <- & I). cbn [type_name fst] in *.
    exists kind, size. cbn [In item_types] in I.
    repeat (destruct I as [E|I]; [injection E as <- <- <- <-; vm_compute in H; injection H as <-; vm_compute; tauto|]). destruct I.
  - intros (kind & size & J). cbn [In item_types] in J.
    repeat (destruct J as [E|J]; [injection E as <- E _ _; rewrite <- E; vm_compute in H; injection H as <-; reflexivity|]). destruct J.
Qed.

Lemma kind_holds t code n : In t (map type_name item_types) -> dict_get t dtype_codes = Some code ->
  (n_kind n = code /\ n_itemsize n = sizeof t <-> holds true t n).
Proof.
  intros I H. unfold holds. split.
  - intros [-> ->]. apply in_map_iff in I. destruct I as ([[[u letter] kind] size] & <- & I). cbn [type_name fst] in *.
    exists letter. cbn [In item_types] in I.
    repeat (destruct I as [E|I]; [injection E as <- <- <- <-; vm_compute in H; try discriminate H; injection H as <-;
      match goal with |- context [sizeof ?t] => let v := eval vm_compute in (sizeof t) in change (sizeof t) with v end; vm_compute; tauto|]).
    destruct I.
  - intros (letter & J). cbn [In item_types] in J.
    repeat (destruct J as [E|J]; [injection E as <- _ E1 E2; rewrite <- E1, <- E2; vm_compute in H; try discriminate H;
      injection H as <-; split; reflexivity|]). destruct J.
Qed.

Lemma effect_convert o p n e m : named_value e m (p_name p, buf n) ->
  effect (SBuffer (b_nanobind o) (is_const_decl p) (p_name p) (from_array p) (count_name p)) e m
  = if (n_ndim n =? 1) && n_contiguous n then Ok [(from_array p, VPtr (n_data n)); (count_name p, VSize (n_length n))] else Throw.
Proof. intros (q & L & R). cbn [fst snd] in L, R. unfold effect. rewrite L, R. reflexivity. Qed.

Definition fine (e : env) (m : mem) (ss : list stmt) : Prop := forall st, In st ss -> exists nvs, effect st e m = Ok nvs.

Lemma slot_input o all i s ss b e m : slot_fact o all i s -> one_word s ->
  input_of o (map b_param all) i (b_param s) = Some ss -> (forall s', In s' all -> slot_env b e m s') -> In s all ->
  (forall st, In st ss -> effect st e m <> Stuck) /\ (fine e m ss <-> checks o s).
Proof.
  intros F OW IO EV IN. pose proof (input_of_fact _ _ _ _ _ F IO) as H. pose proof (EV s IN) as SE.
  unfold slot_env in SE. unfold checks, one_word in *. cbv zeta in SE. unfold fine. destruct (b_role s) as [n|n|n|n|].
  - destruct H as (cs & CP & ->). pose proof (effect_convert o _ _ _ _ SE) as EC.
    destruct OW as (t & OT & KN).
    assert (CH : exists st, cs = [st] /\ effect st e m <> Stuck /\
               ((exists nvs, effect st e m = Ok nvs) <-> holds (b_nanobind o) t n)).
    { destruct SE as (q & L & R). cbn [fst snd] in L, R. unfold check_part in CP. rewrite (of_type_raw _ _ OT) in CP.
      destruct (b_nanobind o).
      - destruct (dict_get t dtype_codes) as [code|] eqn:D; [|discriminate]. cbn [option_map] in CP. injection CP as <-.
        eexists. split; [reflexivity|]. unfold effect. rewrite L, R. cbn [buf]. cbv zeta.
        pose proof (kind_holds t code n KN D) as KH.
        destruct (seqb (n_kind n) code && (n_itemsize n =? sizeof t)) eqn:B.
        + apply andb_true_iff in B. rewrite seqb_true, Nat.eqb_eq in B. split; [discriminate|]. split; eauto.
          intros _. apply KH. auto.
        + split; [discriminate|]. split; [intros (? & ?); discriminate|]. intros HO. apply KH in HO. destruct HO as [H1 H2].
          rewrite H1, H2, seqb_refl, Nat.eqb_refl in B. discriminate.
      - destruct (array_letter t) as [letter|] eqn:D; [|discriminate]. cbn [option_map] in CP. injection CP as <-.
        eexists. split; [reflexivity|]. unfold effect. rewrite L, R. cbn [buf].
        pose proof (letter_holds t letter n KN D) as KH.
        destruct (seqb (n_letter n) letter) eqn:B.
        + apply seqb_true in B. split; [discriminate|]. split; eauto. intros _. apply KH. auto.
        + split; [discriminate|]. split; [intros (? & ?); discriminate|]. intros HO. apply KH in HO. subst letter.
          rewrite seqb_refl in B. discriminate. }
    destruct CH as (st & -> & NS & CH). cbn [convert_part app]. split.
    + intros u [<-|[<-|[]]]; auto. rewrite EC. destruct (_ && _); discriminate.
    + split.
      * intros FI. split.
        { apply flat_spec. destruct (FI _ (or_introl eq_refl)) as (nvs & E). rewrite EC in E. destruct (_ && _); auto. discriminate. }
        { exists t. split; auto. apply CH. apply FI. right. left. auto. }
      * intros [FL (u & OU & HO)]. assert (u = t) as -> by (unfold of_type in *; congruence).
        intros st' [<-|[<-|[]]].
        { rewrite EC. apply flat_spec in FL. rewrite FL. eauto. }
        { apply CH. auto. }
  - subst ss. pose proof (effect_convert o _ _ _ _ SE) as EC. cbn [convert_part]. split.
    + intros u [<-|[]]. rewrite EC. destruct (_ && _); discriminate.
    + rewrite <- flat_spec. split.
      * intros FI. destruct (FI _ (or_introl eq_refl)) as (nvs & E). rewrite EC in E. destruct (_ && _); auto. discriminate.
      * intros FL u [<-|[]]. rewrite EC, FL. eauto.
  - subst ss. split; [intros st []|]. split; auto. intros _ st [].
  - destruct H as (b' & I & A & ->). destruct SE as (v & EA & (q & L & R)). cbn [fst snd] in L, R.
    assert (BE : named_value e m (p_name (b_param b'), buf n)).
    { pose proof (EV b' I) as SE'. unfold slot_env in SE'. cbv zeta in SE'. destruct A as [A|A]; rewrite A in SE'; auto. }
    destruct BE as (q' & L' & R'). cbn [fst snd] in L', R'.
    split.
    + intros st [<-|[]]. unfold effect. rewrite L, L', R, R'. discriminate.
    + split; auto. intros _ st [<-|[]]. unfold effect. rewrite L, L', R, R'. cbn [buf]. eauto.
  - subst ss. split; [intros st []|]. split; auto. intros _ st [].
Qed.

(** ** The argument given for a parameter *)

(** What is known of the names once the statements have run. *)
Definition slot_done (o : buffer_options) (all : list bslot) (i : nat) (b : nat) (e : env) (m : mem) (s : bslot) : Prop :=
  let p := b_param s in
  match b_role s with
  | Array n | Template n =>
      named_value e m (from_array p, VPtr (n_data n)) /\ named_value e m (count_name p, VSize (n_length n))
  | Size _ => True
  | Stride n =>
      exists v bs, b_args s = [AVal v] /\ (forall l, v <> VRaw l) /\ last_buffer o (map b_param all) i = Some (b_param bs) /\
        named_value e m (stride_name (b_param bs), if is_minus_one v then VSize (n_itemsize n) else v)
  | Other => exists a, b_args s = [a] /\ held b e m p a
  end.

Lemma const_text p t : pointer_text p t (const_space p ++ t ++ $" *").
Proof.
  unfold pointer_text, const_space, is_const_decl. split; intros H.
  - apply smem_In in H. rewrite H. auto.
  - rewrite <- smem_In in H. apply not_true in H. rewrite H. auto.
Qed.

Lemma minus_one_spec v : is_minus_one v = true <-> minus_one v.
Proof.
  unfold minus_one. split.
  - destruct v; try discriminate; cbn; rewrite seqb_true; intros ->; auto.
  - intros [-> | ->]; reflexivity.
Qed.

Lemma eval_name e m n v : (forall l, v <> VRaw l) -> named_value e m (n, v) ->
  exists q, eval_place e m (EName n) = Some q /\ read m q = Some v /\ eval_value e m (EName n) = Some v.
Proof.
  intros NR (q & L & R). cbn [fst snd] in L, R. exists q. cbn [eval_place eval_value]. rewrite L. split; auto. split; auto.
  apply load_not_raw; auto.
Qed.

Lemma give_cast e m p t x v : eval_value e m x = Some v -> give1 e m p (ECast t x) = Some (AVal (VCast t v)).
Proof.
  intros E. unfold give1. cbn [eval_place]. destruct (by_ref p); cbn [eval_value]; rewrite E; auto.
Qed.

Lemma give_name e m p n v : (forall l, v <> VRaw l) -> named_value e m (n, v) ->
  exists y, give1 e m p (EName n) = Some y /\ same m p (AVal v) y.
Proof.
  intros NR NV. destruct (eval_name e m n v NR NV) as (q & P & R & V). unfold give1, same. destruct (by_ref p).
  - rewrite P. exists (ARef q). split; auto. exists q. auto.
  - rewrite V. exists (AVal v). auto.
Qed.

Lemma slot_give o all i s t x b e m : slot_fact o all i s -> one_word s ->
  typed_arg_of o (map b_param all) t i (b_param s) = Some x ->
  (forall j s', In (j, s') (enumerate all) -> slot_done o all j b e m s') -> In (i, s) (enumerate all) ->
  (b_role s = Other -> forall a, b_args s = [a] -> forall v, a = AVal v -> forall l, v <> VRaw l) ->
  exists y, give1 e m (b_param s) x = Some y /\ given m t s y.
Proof.
  intros F OW TA DN IN NR. pose proof (typed_arg_fact _ _ _ _ _ _ F TA) as H. pose proof (DN i s IN) as D.
  unfold slot_done in D. unfold given, one_word in *. cbv zeta in *. destruct (b_role s) as [n|n|n|n|].
  - subst x. destruct D as [D _]. destruct OW as (u & OT & _). rewrite (of_type_raw _ _ OT). unfold data_arg.
    destruct (eval_name e m (from_array (b_param s)) (VPtr (n_data n))) as (q & _ & _ & V); [discriminate|auto|].
    eexists. split; [apply give_cast; eauto|]. exists u. eexists. split; auto. split; [apply const_text|]. auto.
  - subst x. destruct D as [D _]. unfold data_arg.
    destruct (eval_name e m (from_array (b_param s)) (VPtr (n_data n))) as (q & _ & _ & V); [discriminate|auto|].
    eexists. split; [apply give_cast; eauto|]. eexists. split; [apply const_text|]. auto.
  - destruct H as (bs & I & A & ->). destruct OW as (u & OT). rewrite (of_type_raw _ _ OT).
    assert (NV : named_value e m (count_name (b_param bs), VSize (n_length n))).
    { apply enumerate_In in I. destruct I as [j I]. pose proof (DN j bs I) as D'. unfold slot_done in D'. cbv zeta in D'.
      destruct A as [A|A]; rewrite A in D'; tauto. }
    destruct (eval_name e m (count_name (b_param bs)) (VSize (n_length n))) as (q & _ & _ & V); [discriminate|auto|].
    eexists. split; [apply give_cast; eauto|]. eauto.
  - destruct H as (bs & LB & _ & _ & ->). destruct D as (v & bs' & EA & VR & LB' & NV).
    rewrite LB in LB'. apply Some_eq in LB'. rewrite <- LB' in NV. destruct OW as (u & OT). rewrite (of_type_raw _ _ OT).
    set (w := if is_minus_one v then VSize (n_itemsize n) else v) in *.
    assert (WR : forall l, w <> VRaw l). { unfold w. destruct (is_minus_one v); auto. discriminate. }
    assert (W1 : minus_one v -> w = VSize (n_itemsize n)). { unfold w. intros M. apply minus_one_spec in M. rewrite M. auto. }
    assert (W2 : ~ minus_one v -> w = v). { unfold w. intros M. rewrite <- minus_one_spec in M. apply not_true in M. rewrite M. auto. }
    destruct (seqb u $"int") eqn:S.
    + apply seqb_true in S. destruct (give_name e m (b_param s) _ w WR NV) as (y & G & SA). exists y. split; auto.
      exists u, v, w. split; auto. split; auto. split; auto. split; auto. split; auto. intros C. congruence.
    + destruct (eval_name e m _ w WR NV) as (q & _ & _ & V). eexists. split; [apply give_cast; eauto|].
      exists u, v, w. split; auto. split; auto. split; auto. split; auto. split; auto. intros ->. discriminate.
  - subst x. destruct D as (a & EA & (q & L & Q)). specialize (NR eq_refl a EA). unfold give1.
    cbn [eval_place]. rewrite L. destruct a as [r|v].
    + destruct Q as [BR ->]. rewrite BR. exists (ARef r). split; auto. exists (ARef r). split; auto. reflexivity.
    + destruct Q as (RD & _ & _). destruct (by_ref (b_param s)) eqn:BR.
      * exists (ARef q). split; auto. exists (AVal v). split; auto. unfold same. rewrite BR. exists q. auto.
      * cbn [eval_value eval_place]. rewrite L, (load_not_raw _ _ _ (NR v eq_refl) RD). exists (AVal v). split; auto.
        exists (AVal v). split; auto. unfold same. rewrite BR. auto.
Qed.
