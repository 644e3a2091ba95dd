From Verif Require Import PyStr PyStrLemmas PyDict PyNum TypeTextModel TypeTextProofs LambdaModel LambdaSpec AdapterModel AdapterSpec
  LambdaProofs AdapterProofs.
(** Arrays of fixed size. *)

(** ** Writing at places *)

Lemma update_get {A} (l : list A) i x l' : update l i x = Some l' ->
  nth_error l' i = Some x /\ (forall j, j <> i -> nth_error l' j = nth_error l j) /\ length l' = length l.
Proof.
  revert i l'. induction l as [|y l IH]; intros i l' H; [discriminate|]. destruct i as [|i]; cbn in H.
  - injection H as <-. split; auto. split; auto. intros [|j] N; [congruence|auto].
  - destruct (update l i x) as [r|] eqn:E; [|discriminate]. injection H as <-. destruct (IH _ _ E) as (A1 & A2 & A3).
    split; auto. split; [|cbn; congruence]. intros [|j] N; auto. cbn. apply A2. congruence.
Qed.
Lemma update_some {A} (l : list A) i x y : nth_error l i = Some y -> exists l', update l i x = Some l'.
Proof.
  revert i. induction l as [|z l IH]; intros [|i] H; cbn in *; try discriminate; eauto.
  destruct (IH _ H) as [l' ->]. cbn. eauto.
Qed.

Lemma set_some v ps x w : get_path v ps = Some w -> exists v', set_path v ps x = Some v'.
Proof.
  revert v. induction ps as [|s r IH]; intros v H; cbn in *; eauto.
  destruct v; try discriminate; destruct s; try discriminate.
  - destruct (IH _ H) as [v' ->]. cbn. eauto.
  - destruct v; discriminate.
  - destruct v; discriminate.
  - destruct v as [v|]; [|discriminate]. destruct (IH _ H) as [v' ->]. cbn. eauto.
  - destruct (nth_error l i) eqn:E; [|discriminate]. destruct (IH _ H) as [v' ->].
    destruct (update_some _ _ v' _ E) as [l' ->]. cbn. eauto.
  - destruct (nth_error l i) eqn:E; [|discriminate]. destruct (IH _ H) as [v' ->].
    destruct (update_some _ _ v' _ E) as [l' ->]. cbn. eauto.
Qed.

Lemma get_set v ps x v' : set_path v ps x = Some v' -> get_path v' ps = Some x.
Proof.
  revert v v'. induction ps as [|s r IH]; intros v v' H; cbn in *.
  - injection H as <-. auto.
  - destruct v; try discriminate; destruct s; try discriminate.
    + destruct (set_path v r x) eqn:E; [|discriminate]. injection H as <-. eauto.
    + destruct v; discriminate.
    + destruct v; discriminate.
    + destruct v as [v|]; [|discriminate]. destruct (set_path v r x) eqn:E; [|discriminate]. injection H as <-. eauto.
    + destruct (nth_error l i) eqn:E; [|discriminate]. destruct (set_path v r x) eqn:E2; [|discriminate].
      destruct (update l i v0) eqn:U; [|discriminate]. injection H as <-. apply update_get in U. destruct U as (-> & _). eauto.
    + destruct (nth_error l i) eqn:E; [|discriminate]. destruct (set_path v r x) eqn:E2; [|discriminate].
      destruct (update l i v0) eqn:U; [|discriminate]. injection H as <-. apply update_get in U. destruct U as (-> & _). eauto.
Qed.

Lemma get_set_apart v ps x v' qs : set_path v ps x = Some v' ->
  (forall r, qs <> ps ++ r) -> (forall r, ps <> qs ++ r) -> get_path v' qs = get_path v qs.
Proof.
  revert v v' qs. induction ps as [|s r IH]; intros v v' qs H A B.
  - exfalso. apply (A qs). auto.
  - destruct qs as [|t qs]; [exfalso; apply (B (s :: r)); auto|].
    assert (TL : s = t -> (forall k, qs <> r ++ k) /\ (forall k, r <> qs ++ k)).
    { intros ->. split; intros k C.
      - apply (A k). cbn. congruence.
      - apply (B k). cbn. congruence. }
    cbn [set_path] in H. destruct v; try discriminate; destruct s; try discriminate.
    + destruct (set_path v r x) eqn:E; [|discriminate]. injection H as <-. destruct t; auto.
      destruct (TL eq_refl). cbn. eauto.
    + destruct v; discriminate.
    + destruct v; discriminate.
    + destruct v as [v|]; [|discriminate]. destruct (set_path v r x) eqn:E; [|discriminate]. injection H as <-.
      destruct t; auto. destruct (TL eq_refl). cbn. eauto.
    + destruct (nth_error l i) eqn:E; [|discriminate]. destruct (set_path v r x) eqn:E2; [|discriminate].
      destruct (update l i v0) eqn:U; [|discriminate]. injection H as <-. apply update_get in U.
      destruct U as (U1 & U2 & _). destruct t as [|j|]; auto. cbn. destruct (Nat.eq_dec j i) as [->|NJ].
      * rewrite U1, E. destruct (TL eq_refl). eauto.
      * rewrite U2; auto.
    + destruct (nth_error l i) eqn:E; [|discriminate]. destruct (set_path v r x) eqn:E2; [|discriminate].
      destruct (update l i v0) eqn:U; [|discriminate]. injection H as <-. apply update_get in U.
      destruct U as (U1 & U2 & _). destruct t as [|j|]; auto. cbn. destruct (Nat.eq_dec j i) as [->|NJ].
      * rewrite U1, E. destruct (TL eq_refl). eauto.
      * rewrite U2; auto.
Qed.

Lemma write_ok m p x : read m p <> None -> exists m', write m p x = Some m' /\ read m' p = Some x /\
  (forall q, apart q p -> read m' q = read m q).
Proof.
  unfold read, write. destruct (nth_error m (fst p)) as [v|] eqn:E; [|congruence]. intros R.
  destruct (get_path v (snd p)) as [w|] eqn:G; [|congruence]. destruct (set_some v (snd p) x w G) as [v' S]. rewrite S.
  destruct (update_some m (fst p) v' v E) as [m' U]. rewrite U. exists m'. split; auto.
  destruct (update_get _ _ _ _ U) as (U1 & U2 & _). split.
  - rewrite U1. eapply get_set; eauto.
  - intros q [N|[A B]].
    + rewrite U2; auto.
    + destruct (Nat.eq_dec (fst q) (fst p)) as [->|N]; [|rewrite U2; auto].
      rewrite U1, E. eapply get_set_apart; eauto.
Qed.

(** Assignments to places that are apart. *)
Record copy := Copy { c_left : expr; c_right : expr; c_to : place; c_value : value }.
Definition copy_stmt (k : copy) : stmt := SAssign (c_left k) (c_right k).

Lemma apart_sym p q : apart p q -> apart q p.
Proof. intros [A|[A B]]; [left; auto|right; split; auto]. Qed.

Lemma run_copies e ks : forall m,
  ForallOrdPairs apart (map c_to ks) -> Forall (fun k => read m (c_to k) <> None) ks ->
  (forall k, In k ks -> forall m', read m' (c_to k) = read m (c_to k) ->
     (forall q, Forall (apart q) (map c_to ks) -> read m' q = read m q) ->
     eval_place e m' (c_left k) = Some (c_to k) /\ eval_value e m' (c_right k) = Some (c_value k)) ->
  exists m2, run (map copy_stmt ks) e m = Ok (e, m2) /\ put m (map c_to ks) (map c_value ks) m2.
Proof.
  induction ks as [|k ks IH]; intros m FP FR H.
  - exists m. split; auto. split; [constructor|auto].
  - cbn [map] in FP. inversion FP as [|? ? FK FP']; subst. inversion FR as [|? ? RK FR']; subst.
    destruct (write_ok m (c_to k) (c_value k) RK) as (m1 & W & R1 & AP).
    destruct (H k (or_introl eq_refl) m eq_refl) as [EL ER]; auto.
    destruct (IH m1) as (m2 & RN & PU & PF); auto.
    { apply Forall_forall. intros j J. rewrite AP.
      - rewrite Forall_forall in FR'. auto.
      - rewrite Forall_forall in FK. apply apart_sym. apply FK. apply in_map. auto. }
    { intros j J m' A B.
      assert (RJ : read m' (c_to j) = read m (c_to j)).
      { rewrite A. apply AP. rewrite Forall_forall in FK. apply apart_sym. apply FK. apply in_map. auto. }
      apply H; auto; [right; auto|]. intros q Q. cbn [map] in Q. inversion Q; subst. rewrite B by auto. apply AP. auto. }
    exists m2. split.
    + cbn [map run]. unfold copy_stmt at 1. cbn [run1]. unfold assign. rewrite EL, ER, W. cbn [option_map of_option bind fst snd]. auto.
    + split.
      * cbn [map]. constructor; auto. rewrite PF; auto. 
      * intros q Q. cbn [map] in Q. inversion Q; subst. rewrite PF by auto. auto.
Qed.

(** ** Filling the array *)

Lemma update_mid {A} (pre : list A) x post y : update (pre ++ x :: post) (length pre) y = Some (pre ++ y :: post).
Proof. induction pre; cbn; auto. rewrite IHpre. auto. Qed.

Lemma nth_mid {A} (pre : list A) x post : nth_error (pre ++ x :: post) (length pre) = Some x.
Proof. rewrite nth_error_app2, Nat.sub_diag by lia. auto. Qed.

Lemma fill_array e m raw (acc : nat -> expr) j : forall k pre vs,
  length pre = k -> lookup raw e = Some (length m, []) ->
  Forall2 (fun i v => forall x, eval_value e (m ++ [x]) (acc i) = Some v) (seq k j) vs ->
  run (map (fun i => SAssign (EIndex raw i) (acc i)) (seq k j)) e (m ++ [VRaw (pre ++ repeat VUnset j)])
    = Ok (e, m ++ [VRaw (pre ++ vs)]).
Proof.
  induction j as [|j IH]; intros k pre vs LP LK F; cbn [seq map run repeat] in *.
  - inversion F; subst. auto.
  - inversion F as [|? v ? vs' FV F']; subst. cbn [run1]. unfold assign. cbn [eval_place]. rewrite LK.
    unfold read at 1. cbn [fst snd]. rewrite nth_mid. cbn [get_path]. rewrite FV.
    replace (length pre <? length (pre ++ VUnset :: repeat VUnset j)) with true
      by (symmetry; apply Nat.ltb_lt; rewrite app_length; cbn; lia).
    unfold write, at_. cbn [fst snd app]. rewrite nth_mid. cbn [set_path]. rewrite nth_mid, update_mid. cbn [option_map].
    rewrite update_last. cbn [option_map of_option bind fst snd].
    change (v :: vs') with ([v] ++ vs'). change (v :: repeat VUnset j) with ([v] ++ repeat VUnset j).
    rewrite !app_assoc. apply IH; auto. rewrite app_length. cbn. lia.
Qed.

Lemma type_text_bare t : modifiers t = [] -> specifiers t = [] -> type_text t = bare_name t.
Proof.
  intros M S. unfold type_text, str_code. rewrite M, S. cbn [list_count filter length Nat.ltb Nat.leb Nat.eqb].
  unfold join_remove_empty. cbn [filter join]. unfold bare_name. destruct (join $" " (typenames t)) eqn:E; auto.
Qed.

Lemma boxed_item_ref p i : specifiers (p_type p) = [] -> by_ref (boxed_item p i) = true.
Proof. intros S. unfold by_ref, boxed_item. cbn [p_array p_type]. apply reference_is_ref; auto. cbn. rewrite S. auto. Qed.

Lemma read_field m q v : read m q = Some (VBox v) <-> read m (at_ q Field) = Some v.
Proof.
  unfold read, at_. cbn [fst snd]. destruct (nth_error m (fst q)) as [w|]; [|split; discriminate].
  revert w. induction (snd q) as [|s r IH]; intros w.
  - cbn. destruct w; try (split; discriminate); try (split; congruence).
    match goal with x : option value |- _ => destruct x; split; discriminate end.
  - cbn. destruct w; try (split; discriminate); destruct s; try (split; discriminate); auto;
      try (match goal with x : option value |- _ => destruct x; try (split; discriminate); auto end);
      match goal with |- context [nth_error ?l ?i] => destruct (nth_error l i); try (split; discriminate); auto end.
Qed.

Lemma immutable_false p : is_immutable (bare_name (p_type p)) = false -> ~ boxed_items p.
Proof. intros H C. apply immutable_spec in C. unfold bare_name in H. congruence. Qed.

(** The element [i] is at the place [c]. *)
Lemma access_place e m p i q c v : lookup (item_name p i) e = Some q -> element p q c -> read m c = Some v ->
  eval_place e m (item_access p i) = Some c.
Proof.
  intros LK [E1 E2] R. unfold item_access. destruct (is_immutable (bare_name (p_type p))) eqn:I.
  - rewrite (E1 (proj1 (immutable_spec _) I)) in *. cbn [eval_place]. rewrite LK. apply read_field in R. rewrite R. auto.
  - rewrite (E2 (immutable_false _ I)) in *. exact LK.
Qed.
Lemma access_value e m p i q c v : lookup (item_name p i) e = Some q -> element p q c -> read m c = Some v ->
  (forall l, v <> VRaw l) -> eval_value e m (item_access p i) = Some v.
Proof.
  intros LK EL R N. pose proof (access_place e m p i q c v LK EL R) as P. unfold item_access in *.
  destruct (is_immutable (bare_name (p_type p))).
  - change (match eval_place e m (EField (item_name p i)) with Some p => load m p | None => None end = Some v).
    rewrite P. apply load_not_raw; auto.
  - change (match eval_place e m (EName (item_name p i)) with Some p => load m p | None => None end = Some v).
    rewrite P. apply load_not_raw; auto.
Qed.

(** ** What is known of each parameter *)

Definition array_knows (o : options) (fname : str) (m0 : mem) : knows := fun p g lo hi e m y =>
  forall k cs, mode o fname p k -> fits_array m0 (Slot p k g cs) ->
    exists r, array_given m0 m (Slot p k g cs) r y /\
      match r with
      | None => True
      | Some b => lo <= b < hi /\ lookup (raw_name p) e = Some (b, []) /\
          Forall2 (fun i a => exists q, a = ARef q /\ lookup (item_name p i) e = Some q) (seq 0 (length g)) g
      end.

Lemma array_given_app m0 m x s r y : array_given m0 m s r y -> array_given m0 (m ++ x) s r y.
Proof.
  unfold array_given. destruct (s_mode s).
  - intros (A & a & B & C). split; auto. exists a. split; auto. apply same_lasting. auto.
  - intros (A & l & q & B & C & D). split; auto. exists l, q. split; auto. split; auto. apply read_app. auto.
  - intros (b & vs & A & B & C & D & E & F). exists b, vs. split; auto. split; auto. split; auto. split; auto.
    rewrite nth_error_app1; auto. apply nth_error_Some. congruence.
Qed.

Lemma array_lasting o fname m0 : lasting (array_knows o fname m0).
Proof.
  intros p g lo hi l e m y a N H k cs MO FI. destruct (H k cs MO FI) as (r & AG & RR). exists r.
  split; [apply array_given_app; auto|]. destruct r as [b|]; auto. destruct RR as (A & B & C). split; auto.
  split; [apply lookup_app; auto|]. eapply Forall2_impl; [|exact C]. cbv beta. intros i x (q & E & L). exists q. split; auto.
  apply lookup_app; auto.
Qed.

Lemma mode_unique o fname p k k' : mode o fname p k -> mode o fname p k' -> k = k'.
Proof.
  unfold mode. destruct (o_array_size o (p_array p)) as [n|]; [|congruence].
  intros [A B] [A' B']. destruct (is_const_decl p) eqn:C.
  - apply const_spec in C. rewrite (A C), (A' C). auto.
  - assert (NC : ~ In $"const" (specifiers (p_type p))) by (rewrite <- const_spec, C; discriminate).
    destruct (B NC) as [B1 B2], (B' NC) as [B1' B2']. destruct (o_array_boxed o fname).
    + destruct (le_lt_dec n (o_array_max o)).
      * rewrite B1, B1'; auto.
      * rewrite B2, B2'; auto.
    + rewrite B2, B2'; auto.
Qed.

(** The piece of a parameter, by its mode. *)
Lemma array_piece_mode o fname p k : mode o fname p k ->
  array_piece o fname p =
  match k with
  | Untouched => pass p
  | Std n => Piece [std_array_param n p] [] [EData (p_name p)] []
  | Boxes n =>
      Piece (map (boxed_item p) (seq 0 n))
        (SArray (type_text (p_type p)) (raw_name p) (p_array p) n (p_default p)
           :: map (fun i => SAssign (EIndex (raw_name p) i) (item_access p i)) (seq 0 n))
        [EName (raw_name p)]
        (map (fun i => SAssign (item_access p i) (EIndex (raw_name p) i)) (seq 0 n))
  end.
Proof.
  unfold mode, array_piece. destruct (o_array_size o (p_array p)) as [n|]; [|intros ->; auto].
  intros [A B]. destruct (is_const_decl p) eqn:C.
  - apply const_spec in C. rewrite (A C). cbn [andb negb]. destruct (o_array_std o fname); auto.
  - assert (NC : ~ In $"const" (specifiers (p_type p))) by (rewrite <- const_spec, C; discriminate).
    cbn [andb negb]. destruct (B NC) as [B1 B2]. destruct (o_array_boxed o fname).
    + cbn [andb]. destruct (n <=? o_array_max o) eqn:L.
      * apply Nat.leb_le in L. rewrite B1; auto.
      * apply Nat.leb_gt in L. rewrite B2; auto.
    + rewrite B2; auto.
Qed.

Lemma mode_exists o fname p : exists k, mode o fname p k.
Proof.
  unfold mode. destruct (o_array_size o (p_array p)) as [n|]; [|eauto].
  destruct (is_const_decl p) eqn:C.
  - apply const_spec in C. exists (if o_array_std o fname then Std n else Untouched). split; auto. contradiction.
  - assert (NC : ~ In $"const" (specifiers (p_type p))) by (rewrite <- const_spec, C; discriminate).
    destruct (o_array_boxed o fname) eqn:B.
    + destruct (le_lt_dec n (o_array_max o)).
      * exists (Boxes n). split; [contradiction|]. intros _. split; auto. intros [D|D]; [discriminate|lia].
      * exists Untouched. split; [contradiction|]. intros _. split; auto. lia.
    + exists Untouched. split; [contradiction|]. intros _. split; auto. discriminate.
Qed.

Lemma array_ok o fname m0 s : mode o fname (s_param s) (s_mode s) -> fits_array m0 s ->
  piece_ok m0 (array_knows o fname m0) (array_piece o fname (s_param s)) (s_param s) (s_args s) /\
  Forall2 receivable (q_new (array_piece o fname (s_param s))) (s_args s).
Proof.
  destruct s as [p k g cs]. cbn [s_param s_mode s_args]. intros MO FI.
  assert (UN : forall lo hi e m y r, array_given m0 m (Slot p k g cs) r y ->
     match r with
     | None => True
     | Some b => lo <= b < hi /\ lookup (raw_name p) e = Some (b, []) /\
         Forall2 (fun i a => exists q, a = ARef q /\ lookup (item_name p i) e = Some q) (seq 0 (length g)) g
     end -> array_knows o fname m0 p g lo hi e m y).
  { intros lo hi e m y r AG RR k' cs' MO' FI'. pose proof (mode_unique _ _ _ _ _ MO MO') as <-.
    assert (cs' = cs) as ->; [|eauto].
    clear - FI FI'. unfold fits_array in *. cbn [s_mode s_args s_param s_places] in *. destruct k.
    - destruct FI as [_ ->], FI' as [_ ->]. auto.
    - destruct FI as (_ & _ & _ & ->), FI' as (_ & _ & _ & ->). auto.
    - destruct FI as (_ & _ & _ & _ & _ & F), FI' as (_ & _ & _ & _ & _ & F').
      revert cs' F'. induction F as [|a c g cs (q & v & -> & [E1 E2] & _) F IH]; intros cs' F'; inversion F' as [|? c' ? ? (q' & v' & EQ & [E1' E2'] & _)]; subst; auto.
      injection EQ as <-. f_equal; auto. destruct (is_immutable (bare_name (p_type p))) eqn:I.
      + apply immutable_spec in I. rewrite E1, E1'; auto.
      + rewrite E2, E2'; auto using immutable_false. }
  rewrite (array_piece_mode _ _ _ _ MO). unfold fits_array in FI. cbn [s_mode s_args s_param s_places] in FI.
  destruct k as [|n|n].
  - destruct FI as [(a & -> & FA) ->]. split.
    + intros e m A B C D E. destruct (pass_ok m0 p a (fits_not_raw _ _ _ FA) e m A B C D E) as (l & x & y & P1 & P2 & P3 & P4).
      exists l, x, y. split; auto. split; auto. split; auto. apply UN with (r := None); [|exact I].
      unfold array_given. cbn [s_mode s_args s_param]. split; [reflexivity|]. exists a. split; [reflexivity|]. eapply same_passed; eauto.
    + constructor; auto. eapply fits_receivable; eauto.
  - destruct FI as ((l & ->) & MD & NA & ->). split; [|constructor; [exact I|auto]].
    intros e m H ND NN TT GR. inversion H as [|? ? ? ? [c [LK HC]] _]; subst. cbn [std_array_param p_name] in LK.
    destruct HC as (RD & SC & BC). exists [], [], (AVal (VPtr (at_ c (Elem 0)))). cbn [app]. rewrite app_nil_r.
    cbn [q_input q_args run give]. split; auto. split; [intros j []|]. split.
    + unfold give1. cbn [eval_value eval_place]. rewrite LK, RD. destruct (by_ref p); auto.
    + apply UN with (r := None); [|exact I]. unfold array_given. cbn [s_mode s_args s_param]. split; [reflexivity|].
      exists l, c. auto.
  - destruct FI as (MD & SP & DF & NA & LG & FG). split.
    2:{ clear - FG LG SP. cbn [q_new]. subst n. revert FG. generalize 0. revert cs.
        induction g as [|a g IH]; intros cs k F; cbn; constructor; inversion F as [|? ? ? ? (q & v & -> & _)]; subst; eauto.
        cbn [receivable]. apply boxed_item_ref. auto. }
    intros e m H ND NN TT GR. cbn [q_new] in H.
    destruct (NN (raw_name p)) as [NE NI]; [cbn; auto|].
    set (e' := (raw_name p, Some (length m, [])) :: e).
    assert (LI : Forall2 (fun i a => exists q, a = ARef q /\ lookup (item_name p i) e = Some q) (seq 0 n) g).
    { clear - H FG LG SP. subst n. revert H FG. generalize 0. revert cs.
      induction g as [|a g IH]; intros cs k H F; cbn in *; constructor.
      - inversion H as [|? ? ? ? [q [LK HC]] _]; subst. inversion F as [|? ? ? ? (q' & v & -> & _)]; subst.
        destruct HC as [_ ->]. exists q'. auto.
      - inversion H; subst. inversion F; subst. eauto. }
    assert (LI' : Forall2 (fun i a => exists q, a = ARef q /\ lookup (item_name p i) e' = Some q) (seq 0 n) g).
    { eapply Forall2_impl; [|exact LI]. cbv beta. intros i a (q & E & L). exists q. split; auto. apply lookup_after; auto. }
    assert (exists vs, length vs = n /\ Forall2 (fun c v => read m0 c = Some v) cs vs /\
              Forall2 (fun i v => forall x, eval_value e' (m ++ [x]) (item_access p i) = Some v) (seq 0 n) vs) as (vs & LV & FV & EV).
    { clear - LI' FG GR LG. clearbody e'. subst n. revert LI' FG. generalize 0. revert cs.
      induction g as [|a g IH]; intros cs k L F; inversion F as [|? c ? cs' (q & v & -> & EL & RD & NR) F']; subst.
      - exists []. split; [auto|]. split; constructor.
      - cbn in L. inversion L as [|? ? ? ? (q' & EQ & LK) L']; subst. injection EQ as <-.
        destruct (IH cs' (S k)) as (vs & A & B & C); auto.
        exists (v :: vs). cbn. split; auto. split; [constructor; auto|]. constructor; auto.
        intros x. eapply access_value; eauto. apply read_app. eapply grown_read; eauto. }
    exists [(raw_name p, Some (length m, []))], [VRaw vs], (AVal (VPtr (length m, [Elem 0]))).
    cbn [app]. fold e'. split; [|split; [|split]].
    + cbn [q_input run run1]. rewrite DF. rewrite alloc_new by auto. cbn [of_option bind fst snd]. fold e'.
      apply (fill_array e' m (raw_name p) (item_access p) n 0 [] vs); auto.
      unfold e'. apply lookup_head.
    + intros j [<-|[]]. cbn. auto.
    + cbn [q_args give]. unfold give1, by_ref. destruct (p_array p) eqn:PA; [congruence|].
      cbn [eval_value eval_place]. unfold e'. rewrite lookup_head. unfold load. rewrite read_last. auto.
    + apply UN with (r := Some (length m)).
      * unfold array_given. cbn [s_mode s_args s_param s_places]. exists (length m), vs.
        split; auto. split; [apply grown_length; auto|]. split; auto. split; [|auto].
        rewrite nth_error_app2, Nat.sub_diag by lia. auto.
      * rewrite app_length. cbn [length]. split; [lia|]. split; [unfold e'; apply lookup_head|]. rewrite LG. auto.
Qed.

Definition known_names (e : env) (s : slot) (r : option nat) : Prop :=
  match r with
  | None => True
  | Some b => lookup (raw_name (s_param s)) e = Some (b, []) /\
      Forall2 (fun i a => exists q, a = ARef q /\ lookup (item_name (s_param s) i) e = Some q)
        (seq 0 (length (s_args s))) (s_args s)
  end.

Lemma arrays_each o fname m0 e m ss : forall lo ys,
  each (array_knows o fname m0) e m lo (map s_param ss) (map s_args ss) ys ->
  Forall (fun s => mode o fname (s_param s) (s_mode s) /\ fits_array m0 s) ss ->
  exists rs, Forall3 (array_given m0 m) ss rs ys /\ NoDup (cells rs) /\ Forall (fun b => lo <= b) (cells rs) /\
    Forall2 (known_names e) ss rs.
Proof.
  induction ss as [|s ss IH]; intros lo ys EA F; cbn in EA; inversion EA as [|? hi ? ? ? ? y ys' LE K EA']; subst.
  - exists []. split; [constructor|]. split; [constructor|]. split; [constructor|constructor].
  - inversion F as [|? ? [MO FI] F']; subst. destruct (IH _ _ EA' F') as (rs & A & B & C & D).
    destruct s as [p k g cs]. cbn [s_param s_mode s_args] in *. destruct (K k cs MO FI) as (r & AG & RR).
    exists (r :: rs). split; [constructor; auto|]. destruct r as [b|].
    + destruct RR as (LB & LK & LI). cbn [cells flat_map app]. fold (cells rs). split; [|split].
      * constructor; auto. intros I. rewrite Forall_forall in C. apply C in I. lia.
      * constructor; [lia|]. eapply Forall_impl; [|exact C]. cbv beta. intros. lia.
      * constructor; auto. split; auto.
    + cbn [cells flat_map app]. fold (cells rs). split; auto. split; [|constructor; [exact I|auto]].
      eapply Forall_impl; [|exact C]. cbv beta. intros. lia.
Qed.

Lemma read_elem m b l i w : nth_error m b = Some (VRaw l) -> nth_error l i = Some w -> read m (b, [Elem i]) = Some w.
Proof. intros A B. unfold read. cbn [fst snd]. rewrite A. cbn. rewrite B. auto. Qed.

Lemma array_copies e m0 m m1 ss : forall rs ys wss,
  Forall (fits_array m0) ss -> Forall3 (array_given m0 m) ss rs ys -> Forall2 (known_names e) ss rs ->
  Forall3 (array_left m1) ss rs wss ->
  exists ks, flat_map (fun s => match s_mode s with
                                | Boxes n => map (fun i => SAssign (item_access (s_param s) i) (EIndex (raw_name (s_param s)) i)) (seq 0 n)
                                | _ => []
                                end) ss = map copy_stmt ks /\
    map c_to ks = flat_map s_places ss /\ map c_value ks = concat wss /\
    forall k, In k ks -> read m1 (c_to k) <> None -> forall m', read m' (c_to k) = read m1 (c_to k) ->
      (forall b, length m0 <= b -> read m' (b, []) = read m1 (b, [])) ->
      eval_place e m' (c_left k) = Some (c_to k) /\ eval_value e m' (c_right k) = Some (c_value k).
Proof.
  induction ss as [|s ss IH]; intros rs ys wss FI AG KN AL; inversion AG as [|? r y ? rs' ys' A1 AG']; subst;
    inversion AL as [|? ? c0 ? ? wss' L1 AL']; subst; inversion KN as [|? ? ? ? K1 KN']; subst.
  - exists []. split; auto. split; auto. split; auto. intros k [].
  - inversion FI as [|? ? F1 FI']; subst. destruct (IH rs' ys' wss') as (ks & E1 & E2 & E3 & E4); auto. clear IH.
    assert (exists k1, match s_mode s with
                       | Boxes n => map (fun i => SAssign (item_access (s_param s) i) (EIndex (raw_name (s_param s)) i)) (seq 0 n)
                       | _ => []
                       end = map copy_stmt k1 /\ map c_to k1 = s_places s /\ map c_value k1 = c0 /\
              forall k, In k k1 -> read m1 (c_to k) <> None -> forall m', read m' (c_to k) = read m1 (c_to k) ->
                (forall b, length m0 <= b -> read m' (b, []) = read m1 (b, [])) ->
                eval_place e m' (c_left k) = Some (c_to k) /\ eval_value e m' (c_right k) = Some (c_value k)) as (k1 & G1 & G2 & G3 & G4).
    { unfold array_given in A1. unfold fits_array in F1. destruct (s_mode s) as [|n|n].
      - destruct A1 as [-> _]. cbn in L1. subst c0. destruct F1 as [_ ->]. exists []. split; auto. split; auto. split; auto. intros k [].
      - destruct A1 as [-> _]. cbn in L1. subst c0. destruct F1 as (_ & _ & _ & ->). exists []. split; auto. split; auto. split; auto. intros k [].
      - destruct A1 as (b & vs & -> & LB & _ & _ & _ & _). cbn in L1, K1. destruct L1 as (NB & LW & NW).
        destruct K1 as [LR LI]. destruct F1 as (_ & _ & _ & _ & LG & FG).
        assert (EXT : forall g cs ws k0,
          Forall2 (fun i a => exists q, a = ARef q /\ lookup (item_name (s_param s) i) e = Some q) (seq k0 (length g)) g ->
          Forall2 (fun a c => exists q v, a = ARef q /\ element (s_param s) q c /\ read m0 c = Some v /\ (forall l, v <> VRaw l)) g cs ->
          length ws = length cs -> Forall (fun w => forall l, w <> VRaw l) ws ->
          (forall i w, nth_error ws i = Some w -> nth_error c0 (k0 + i) = Some w) ->
          exists k1, map (fun i => SAssign (item_access (s_param s) i) (EIndex (raw_name (s_param s)) i)) (seq k0 (length g)) = map copy_stmt k1 /\
            map c_to k1 = cs /\ map c_value k1 = ws /\
            forall k, In k k1 -> read m1 (c_to k) <> None -> forall m', read m' (c_to k) = read m1 (c_to k) ->
                (forall b, length m0 <= b -> read m' (b, []) = read m1 (b, [])) ->
                eval_place e m' (c_left k) = Some (c_to k) /\ eval_value e m' (c_right k) = Some (c_value k)).
        { induction g as [|a g IHg]; intros cs ws k0 FL FC LE NR NT; cbn [length seq] in FL.
          - inversion FC; subst. destruct ws; [|discriminate]. exists []. split; auto. split; auto. split; auto. intros k [].
          - inversion FL as [|? ? ? ? (q & -> & LK) FL']; subst. inversion FC as [|? c ? cs' (q' & v & EQ & EL & RD & _) FC']; subst.
            injection EQ as <-. destruct ws as [|w ws]; [discriminate|]. inversion NR as [|? ? NRW NR']; subst.
            destruct (IHg cs' ws (S k0)) as (k1 & P1 & P2 & P3 & P4); auto.
            { intros i x X. rewrite <- (NT (S i) x X). f_equal. lia. }
            exists (Copy (item_access (s_param s) k0) (EIndex (raw_name (s_param s)) k0) c w :: k1).
            cbn [length seq map]. split; [unfold copy_stmt at 1; cbn [c_left c_right]; congruence|].
            split; [cbn; congruence|]. split; [cbn; congruence|].
            intros k [<-|I]; [|apply P4; auto]. cbn [c_to c_left c_right c_value]. intros RN m' RS RB.
            assert (NK : nth_error c0 k0 = Some w). { rewrite <- (NT 0 w eq_refl). f_equal. lia. }
            split.
            + destruct (read m1 c) as [u|] eqn:RU; [|congruence]. eapply access_place; eauto.
            + assert (RB' : nth_error m' b = Some (VRaw c0)).
              { specialize (RB b LB). unfold read in RB. cbn [fst snd get_path] in RB. rewrite NB in RB.
                destruct (nth_error m' b); congruence. }
              change (match eval_place e m' (EIndex (raw_name (s_param s)) k0) with Some p => load m' p | None => None end = Some w).
              cbn [eval_place]. rewrite LR. unfold read at 1. cbn [fst snd get_path]. rewrite RB'.
              replace (k0 <? length c0) with true.
              2:{ symmetry. apply Nat.ltb_lt. apply nth_error_Some. congruence. }
              apply load_not_raw; auto. unfold at_. cbn [fst snd app]. eapply read_elem; eauto. }
        rewrite LG in LI. specialize (EXT (s_args s) (s_places s) c0 0). rewrite LG in EXT. apply EXT; auto. }
    exists (k1 ++ ks). cbn [flat_map concat]. rewrite !map_app, E1, E2, E3, G1, G2, G3. split; auto. split; auto. split; auto.
    intros k I. apply in_app_iff in I. destruct I; auto.
Qed.

Lemma places_old m0 ss : Forall (fits_array m0) ss -> Forall (fun c => fst c < length m0) (flat_map s_places ss).
Proof.
  intros F. induction F as [|s ss FI F IH]; cbn; auto. apply Forall_app. split; auto.
  unfold fits_array in FI. destruct (s_mode s).
  - destruct FI as [_ ->]. auto.
  - destruct FI as (_ & _ & _ & ->). auto.
  - destruct FI as (_ & _ & _ & _ & _ & FG). clear - FG. induction FG as [|a c g cs (q & v & _ & _ & RD & _) F IH]; constructor; auto.
    unfold read in RD. destruct (nth_error m0 (fst c)) eqn:E; [|discriminate]. apply nth_error_Some. congruence.
Qed.

(** ** The call *)

Lemma arrays_call o f l m ss :
  adapt_c_arrays o f = Some l -> well_named f l -> result_fits f ->
  f_params f = map s_param ss -> Forall (fun s => mode o (f_name f) (s_param s) (s_mode s) /\ fits_array m s) ss ->
  exists x rs ys, Forall3 (array_given m (m ++ x)) ss rs ys /\ NoDup (cells rs) /\
    forall c, let xs := flat_map s_args ss in
      (c ys (m ++ x) = Throw -> call f l c xs m = Throw) /\
      (forall r m1 v wss, c ys (m ++ x) = Ok (r, m1) -> handed_back f (r, m1) = Ok (v, m1) ->
         Forall3 (array_left m1) ss rs wss -> ForallOrdPairs apart (flat_map s_places ss) ->
         Forall (fun q => read m1 q <> None) (flat_map s_places ss) ->
         exists m2, call f l c xs m = Ok (v, m2) /\ put m1 (flat_map s_places ss) (concat wss) m2).
Proof.
  unfold adapt_c_arrays. destruct (existsb _ _); [|discriminate]. intros H WN RF PS F. apply Some_eq in H. subst l.
  set (l := make_lambda _ _ _) in *.
  assert (FF : Forall (fits_array m) ss). { eapply Forall_impl; [|exact F]. cbv beta. tauto. }
  destruct (call_each (array_knows o (f_name f) m) (array_piece o (f_name f)) (map s_args ss) f l m)
    as (e & lo & x & ys & LO & EA & HE & NM & OW & CA); auto.
  - apply array_lasting.
  - rewrite PS. clear - F. induction F as [|s ss [MO FI] F IH]; cbn; constructor; auto. apply array_ok; auto.
  - discriminate.
  - rewrite PS. clear - F. induction F as [|s ss [MO FI] F IH]; cbn; constructor; auto. eapply array_ok; eauto.
  - rewrite PS in EA. destruct (arrays_each _ _ _ _ _ _ _ _ EA F) as (rs & AG & ND & _ & KN).
    exists x, rs, ys. split; auto. split; auto. intros c. cbv zeta. rewrite (flat_map_concat_map s_args), CA. split.
    + intros ->. auto.
    + intros r m1 v wss -> HB AL AP RN. cbn [bind fst snd].
      destruct (array_copies e m (m ++ x) m1 ss rs ys wss FF AG KN AL) as (ks & E1 & E2 & E3 & E4).
      assert (OUT : outputs (map (array_piece o (f_name f)) (f_params f)) = map copy_stmt ks).
      { rewrite <- E1, PS. unfold outputs. rewrite map_map, flat_map_map. clear - F.
        induction F as [|s ss [MO FI] F IH]; auto. cbn [flat_map]. rewrite IH. f_equal.
        rewrite (array_piece_mode _ _ _ _ MO). destruct (s_mode s); auto. }
      pose proof (places_old m ss FF) as PO.
      destruct (run_copies e ks m1) as (m2 & RUN & PUT).
      * rewrite E2. auto.
      * rewrite <- E2 in RN. clear - RN. induction ks; cbn in *; constructor; inversion RN; auto.
      * intros k I m' RS FR. apply E4; auto.
        -- rewrite Forall_forall in RN. apply RN. rewrite <- E2. apply in_map. auto.
        -- intros b LB. apply FR. rewrite E2. eapply Forall_impl; [|exact PO]. cbv beta. intros q Q. left. cbn. lia.
      * rewrite E2, E3 in PUT. exists m2. split; auto.
        unfold finish. change (l_end l) with (Ordinary (outputs (map (array_piece o (f_name f)) (f_params f)))). rewrite OUT, RUN.
        cbn [bind fst snd]. unfold handed_back in HB. cbn [fst snd] in HB.
        destruct (returns_void f) eqn:V; [congruence|].
        rewrite bound_not_In.
        2:{ intros C. apply NM in C. destruct WN as [_ _ _ _ WR]. apply (WR V). auto. }
        destruct (f_returns_ref f) eqn:RR; [destruct r; congruence|].
        assert (ref_type (lambda_return_text l) = false) as -> by (apply RF; auto).
        destruct r; cbn [value_of] in *; [destruct (load m1 p); congruence|congruence].
Qed.

Lemma arrays_apply o f :
  (exists p n, In p (f_params f) /\ o_array_size o (p_array p) = Some n /\
     (In $"const" (specifiers (p_type p)) -> o_array_std o (f_name f) = true) /\
     (~ In $"const" (specifiers (p_type p)) -> o_array_boxed o (f_name f) = true)) <->
  exists l, adapt_c_arrays o f = Some l.
Proof.
  unfold adapt_c_arrays. destruct (existsb _ _) eqn:E.
  - split; [eauto|]. intros _. apply existsb_exists in E. destruct E as (p & I & H). unfold array_wanted in H.
    destruct (o_array_size o (p_array p)) as [n|] eqn:S; [|discriminate]. exists p, n. split; auto. split; auto.
    destruct (is_const_decl p) eqn:C.
    + apply const_spec in C. split; intros; [auto|contradiction].
    + assert (NC : ~ In $"const" (specifiers (p_type p))) by (rewrite <- const_spec, C; discriminate).
      split; intros; [contradiction|auto].
  - split; [|intros [l H]; discriminate]. intros (p & n & I & S & A & B). exfalso.
    assert (existsb (array_wanted o (f_name f)) (f_params f) = true); [|congruence].
    apply existsb_exists. exists p. split; auto. unfold array_wanted. rewrite S. destruct (is_const_decl p) eqn:C.
    + apply A. apply const_spec. auto.
    + apply B. rewrite <- const_spec, C. discriminate.
Qed.
