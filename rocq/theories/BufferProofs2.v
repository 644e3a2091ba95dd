From Verif Require Import PyStr PyStrLemmas PyDict TypeTextModel LambdaModel LambdaSpec AdapterModel AdapterSpec LambdaProofs
  BufferModel BufferSpec BufferProofs.
(** The statements of the lambda only declare names, after checks which depend on the parameters only. *)

(** ** Declarations *)

Definition named_value (e : env) (m : mem) (nv : str * value) : Prop :=
  exists q, lookup (fst nv) e = Some q /\ read m q = Some (snd nv).

Lemma named_value_app l e m x nv : new_to l e -> named_value e m nv -> named_value (l ++ e) (m ++ x) nv.
Proof. intros N (q & L & R). exists q. split; [apply lookup_app; auto|apply read_app; auto]. Qed.

Lemma alloc_str (n : str) v e m : n <> [] -> ~ In n (map fst e) ->
  alloc n v e m = Some ((n, Some (length m, [])) :: e, m ++ [v]).
Proof. apply alloc_new. Qed.

Lemma declare_all_ok (nvs : list (str * value)) : forall e m, NoDup (map fst nvs) ->
  (forall n : str, In n (map fst nvs) -> n <> [] /\ ~ In n (map fst e)) ->
  exists l x, declare_all nvs e m = Some (l ++ e, m ++ x) /\
    (forall n, In n (map fst l) <-> In n (map fst nvs)) /\ Forall (named_value (l ++ e) (m ++ x)) nvs.
Proof.
  induction nvs as [|(n, v) nvs IH]; intros e m ND N.
  - exists [], []. cbn. rewrite app_nil_r. split; auto. split; [tauto|auto].
  - cbn [map fst] in ND, N. inversion ND as [|? ? N1 N2]; subst. destruct (N n (or_introl eq_refl)) as [NE NI].
    cbn [declare_all]. rewrite alloc_str by auto.
    destruct (IH ((n, Some (length m, [])) :: e) (m ++ [v])) as (l & x & E & L & F); auto.
    { intros k I. destruct (N k (or_intror I)) as [KE KI]. split; auto. cbn [map fst]. intros [<-|C]; auto. }
    exists (l ++ [(n, Some (length m, []))]), (v :: x). rewrite E. rewrite <- !app_assoc in *. cbn [app] in *.
    split; auto. split.
    + intros k. rewrite map_app, in_app_iff, L. cbn. tauto.
    + constructor; auto. change ((n, Some (length m, [])) :: e) with ([(n, Some (length m, []))] ++ e).
      replace (m ++ v :: x) with ((m ++ [v]) ++ x) by (rewrite <- app_assoc; auto).
      apply named_value_app.
      * intros k I [C|C].
        { cbn in C. subst k. apply L in I. contradiction. }
        { apply L in I. apply (N k (or_intror I)). auto. }
      * exists (length m, []). cbn [app fst snd]. rewrite lookup_head, read_last. auto.
Qed.

(** ** What a statement declares *)

Definition effect (s : stmt) (e : env) (m : mem) : result (list (str * value)) :=
  match s with
  | SBlank => Ok []
  | SBuffer _ _ n data count =>
      match lookup n e with
      | Some p =>
          match read m p with
          | Some (VBuf ndim contiguous _ _ _ len q) =>
              if (ndim =? 1) && contiguous then Ok [(data, VPtr q); (count, VSize len)] else Throw
          | _ => Stuck
          end
      | None => Stuck
      end
  | SCheckType n char _ _ =>
      match lookup n e with
      | Some p =>
          match read m p with
          | Some (VBuf _ _ letter _ _ _ _) => if seqb letter char then Ok [(n ++ $"_type", VAtom letter)] else Throw
          | _ => Stuck
          end
      | None => Stuck
      end
  | SCheckTypeNano idx n code _ raw =>
      match lookup n e with
      | Some p =>
          match read m p with
          | Some (VBuf _ _ _ code' itemsize _ _) =>
              let k := nat_text idx in
              if seqb code' code && (itemsize =? sizeof raw)
              then Ok [($"dtype_code_python_" ++ k, VAtom code'); ($"dtype_code_cpp_" ++ k, VAtom code);
                       ($"size_python_" ++ k, VSize itemsize); ($"size_cpp_" ++ k, VSize (sizeof raw))]
              else Throw
          | _ => Stuck
          end
      | None => Stuck
      end
  | SStride stride name buffer =>
      match lookup name e, lookup buffer e with
      | Some p, Some q =>
          match read m p, read m q with
          | Some v, Some (VBuf _ _ _ _ itemsize _ _) => Ok [(stride, if is_minus_one v then VSize itemsize else v)]
          | _, _ => Stuck
          end
      | _, _ => Stuck
      end
  | _ => Stuck
  end.

Lemma effect_names s e m nvs : effect s e m = Ok nvs -> map fst nvs = decls s.
Proof.
  destruct s; cbn [effect decls]; try discriminate.
  - intros E. injection E as <-. auto.
  - destruct (lookup n e); [|discriminate]. destruct (read m p) as [[]|]; try discriminate.
    destruct (_ && _); [|discriminate]. intros E. injection E as <-. auto.
  - destruct (lookup n e); [|discriminate]. destruct (read m p) as [[]|]; try discriminate.
    destruct (seqb _ _); [|discriminate]. intros E. injection E as <-. auto.
  - destruct (lookup n e); [|discriminate]. destruct (read m p) as [[]|]; try discriminate.
    cbv zeta. destruct (_ && _); [|discriminate]. intros E. injection E as <-. auto.
  - destruct (lookup param_name e); [|discriminate]. destruct (lookup buffer e); [|discriminate].
    destruct (read m p); try discriminate. destruct (read m p0) as [[]|]; try discriminate. intros E. injection E as <-. auto.
Qed.

Lemma effect_app s l e m x : new_to l e -> effect s e m <> Stuck -> effect s (l ++ e) (m ++ x) = effect s e m.
Proof.
  intros N. destruct s; cbn [effect]; auto.
  - destruct (lookup n e) eqn:L; [|tauto]. rewrite (lookup_app _ _ _ _ N L). destruct (read m p) eqn:R; [|tauto].
    rewrite (read_app _ x _ _ R). auto.
  - destruct (lookup n e) eqn:L; [|tauto]. rewrite (lookup_app _ _ _ _ N L). destruct (read m p) eqn:R; [|tauto].
    rewrite (read_app _ x _ _ R). auto.
  - destruct (lookup n e) eqn:L; [|tauto]. rewrite (lookup_app _ _ _ _ N L). destruct (read m p) eqn:R; [|tauto].
    rewrite (read_app _ x _ _ R). auto.
  - destruct (lookup param_name e) eqn:L; [|tauto]. rewrite (lookup_app _ _ _ _ N L).
    destruct (lookup buffer e) eqn:L2; [|tauto]. rewrite (lookup_app _ _ _ _ N L2).
    destruct (read m p) eqn:R; [|tauto]. rewrite (read_app _ x _ _ R).
    destruct (read m p0) eqn:R2; [|tauto]. rewrite (read_app _ x _ _ R2). auto.
Qed.

Lemma run1_effect s e m : effect s e m <> Stuck -> NoDup (decls s) ->
  (forall n, In n (decls s) -> n <> [] /\ ~ In n (map fst e)) ->
  run1 s e m = bind (effect s e m) (fun nvs => of_option (declare_all nvs e m)).
Proof.
  intros NS ND N. destruct s; cbn [effect] in *; try (exfalso; apply NS; reflexivity); cbn [run1].
  - reflexivity.
  - destruct (lookup n e); [|tauto]. destruct (read m p) as [[]|]; try tauto.
    destruct (_ && _); cbn [bind]; auto. cbn [declare_all]. destruct (alloc data _ e m) as [[e1 m1]|]; auto.
    destruct (alloc count _ e1 m1) as [[e2 m2]|]; auto.
  - destruct (lookup n e); [|tauto]. destruct (read m p) as [[]|]; try tauto. cbn [decls] in N.
    destruct (N (n ++ $"_type")) as [NE NI]; [left; auto|]. rewrite alloc_str by auto.
    destruct (seqb letter char); cbn [bind]; auto. cbn [declare_all]. rewrite alloc_str by auto. auto.
  - destruct (lookup n e); [|tauto]. destruct (read m p) as [[]|]; try tauto. cbv zeta.
    set (nvs := [_; _; _; _]). destruct (declare_all_ok nvs e m) as (l & x & E & _); [exact ND|exact N|].
    rewrite E. destruct (_ && _); cbn [bind]; auto. fold nvs. rewrite E. auto.
  - destruct (lookup param_name e); [|tauto]. destruct (lookup buffer e); [|tauto].
    destruct (read m p); try tauto. destruct (read m p0) as [[]|]; try tauto. cbn [bind declare_all].
    destruct (alloc _ _ e m) as [[e1 m1]|]; auto.
Qed.

(** ** Several statements *)

Definition throws (e : env) (m : mem) (ss : list stmt) : Prop := exists s, In s ss /\ effect s e m = Throw.

Lemma run_effects ss : forall e m, NoDup (flat_map decls ss) ->
  (forall n, In n (flat_map decls ss) -> n <> [] /\ ~ In n (map fst e)) ->
  (forall s, In s ss -> effect s e m <> Stuck) ->
  (throws e m ss /\ run ss e m = Throw) \/
  (forall s, In s ss -> exists nvs, effect s e m = Ok nvs) /\
  exists l x, run ss e m = Ok (l ++ e, m ++ x) /\ (forall n, In n (map fst l) <-> In n (flat_map decls ss)) /\
    forall s nvs, In s ss -> effect s e m = Ok nvs -> Forall (named_value (l ++ e) (m ++ x)) nvs.
Proof.
  induction ss as [|s ss IH]; intros e m ND N NS.
  - right. split; [intros s []|]. exists [], []. cbn. rewrite app_nil_r. split; auto. split; [tauto|]. intros s nvs [].
  - cbn [flat_map] in ND, N. apply NoDup_app_parts in ND. destruct ND as (ND1 & ND2 & D).
    assert (NS1 : effect s e m <> Stuck) by (apply NS; left; auto).
    cbn [run]. rewrite run1_effect; auto; [|intros n I; apply N; apply in_app_iff; auto].
    destruct (effect s e m) as [nvs| |] eqn:E; [| |congruence].
    2:{ left. split; auto. exists s. split; [left|]; auto. }
    cbn [bind]. pose proof (effect_names _ _ _ _ E) as EN.
    destruct (declare_all_ok nvs e m) as (l & x & DE & L & F).
    { rewrite EN. auto. }
    { intros n I. rewrite EN in I. apply N. apply in_app_iff. auto. }
    rewrite DE. cbn [of_option bind fst snd].
    assert (NT : new_to l e). { intros n I. apply L in I. rewrite EN in I. apply N. apply in_app_iff. auto. }
    assert (SAME : forall t, In t ss -> effect t (l ++ e) (m ++ x) = effect t e m).
    { intros t I. apply effect_app; auto. apply NS. right. auto. }
    destruct (IH (l ++ e) (m ++ x)) as [[T R]|[ALL (l2 & x2 & R & L2 & F2)]]; auto.
    { intros n I. destruct (N n) as [NE NI]; [apply in_app_iff; auto|]. split; auto. rewrite map_app, in_app_iff, L, EN.
      intros [C|C]; auto. apply (D n); auto. }
    { intros t I. rewrite SAME by auto. apply NS. right. auto. }
    + left. split; auto. destruct T as (t & I & ET). exists t. split; [right; auto|]. rewrite <- SAME; auto.
    + right. split.
      * intros t [<-|I]; eauto. destruct (ALL t I) as [nv EV]. exists nv. rewrite <- SAME; auto.
      * exists (l2 ++ l), (x ++ x2). rewrite <- (app_assoc l2), (app_assoc m). split; [|split].
        { exact R. }
        { intros n. rewrite map_app, !in_app_iff, L2, L, EN. cbn [flat_map]. rewrite in_app_iff. tauto. }
        { intros t nv [<-|I] EV.
          - rewrite E in EV. injection EV as <-. eapply Forall_impl; [|exact F]. intros a. apply named_value_app.
            intros n I C. apply L2 in I. rewrite map_app, in_app_iff, L, EN in C. destruct C as [C|C].
            + apply (D n); auto.
            + apply (N n); [apply in_app_iff; auto|auto].
          - apply (F2 t); auto. rewrite SAME; auto. }
Qed.

(** ** The blank lines do nothing *)

Lemma spaced_In l s : In s (concat l) -> In s (spaced l).
Proof.
  induction l as [|ss l IH]; cbn [concat spaced]; [intros []|]. rewrite in_app_iff.
  destruct ss as [|t ss]; [intros [[]|I]; auto|].
  intros [I|I]; apply in_app_iff; [left; auto|]. right. specialize (IH I). destruct (spaced l); [destruct IH|right; auto].
Qed.
Lemma spaced_In_inv l s : In s (spaced l) -> s = SBlank \/ In s (concat l).
Proof.
  induction l as [|ss l IH]; cbn [concat spaced]; [intros []|]. rewrite in_app_iff.
  destruct ss as [|t ss]; [intros I; destruct (IH I); auto|].
  intros I. apply in_app_iff in I. destruct I as [I|I]; auto. destruct (spaced l) as [|u r] eqn:E; [destruct I|].
  destruct I as [<-|I]; auto. rewrite <- E in *. destruct (IH I); auto.
Qed.

(** ** Giving the arguments *)

Lemma give_Forall3 e m ps xs ys : Forall3 (fun p x y => give1 e m p x = Some y) ps xs ys -> give e m ps xs = Some ys.
Proof. intros F. induction F as [|p x y ps xs ys G F IH]; auto. cbn [give]. rewrite G, IH. auto. Qed.
