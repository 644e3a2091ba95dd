From Verif Require Import PyStr PyStrLemmas PyDict TypeTextModel TypeTextProofs LambdaModel LambdaSpec AdapterModel.
(** Running a lambda made of one piece of code for each parameter. *)

Lemma read_app m x p v : read m p = Some v -> read (m ++ x) p = Some v.
Proof.
  unfold read. destruct (nth_error m (fst p)) eqn:E; [|discriminate].
  rewrite nth_error_app1 by (apply nth_error_Some; congruence). rewrite E. auto.
Qed.

Lemma load_app m x p v : load m p = Some v -> load (m ++ x) p = Some v.
Proof.
  unfold load. destruct (read m p) eqn:E; [|discriminate]. rewrite (read_app _ x _ _ E). auto.
Qed.

Lemma bound_In n e : bound n e = true <-> In n (map fst e).
Proof.
  unfold bound, dict_has. split; intros H.
  - destruct (dict_get n e) eqn:E; [|discriminate]. apply dict_get_In in E. apply in_map_iff. exists (n, o). auto.
  - destruct (dict_get n e) eqn:E; auto. apply dict_get_None in E. contradiction.
Qed.

Lemma bound_not_In n e : ~ In n (map fst e) -> bound n e = false.
Proof. intros H. destruct (bound n e) eqn:E; auto. apply bound_In in E. contradiction. Qed.

Lemma lookup_fst n e p : lookup n e = Some p -> In n (map fst e).
Proof. unfold lookup. destruct (dict_get n e) eqn:E; [|discriminate]. intros _. apply dict_get_In in E.
  apply in_map_iff. exists (n, o). auto. Qed.

Lemma dict_get_app {A} k (l d : list (str * A)) : ~ In k (map fst l) -> dict_get k (l ++ d) = dict_get k d.
Proof.
  induction l as [|[k' v] l IH]; cbn; auto. intros H. rewrite IH by tauto.
  destruct (seqb k k') eqn:E; auto. apply seqb_true in E. subst. tauto.
Qed.

(** [l] adds names that are new to [e]. *)
Definition new_to (l e : env) : Prop := forall n, In n (map fst l) -> ~ In n (map fst e).

Lemma lookup_app l e n p : new_to l e -> lookup n e = Some p -> lookup n (l ++ e) = Some p.
Proof.
  intros N H. pose proof (lookup_fst _ _ _ H) as I. unfold lookup in *. rewrite dict_get_app; auto.
  intros C. apply (N n); auto.
Qed.

Lemma eval_place_app l e m x y p : new_to l e -> eval_place e m x = Some p -> eval_place (l ++ e) (m ++ y) x = Some p.
Proof.
  intros N. induction x; cbn; try discriminate; intros H;
    try (destruct (lookup n e) eqn:L; [|discriminate]; rewrite (lookup_app _ _ _ _ N L)).
  - exact H.
  - destruct (read m p0) eqn:R; [|discriminate]. rewrite (read_app _ y _ _ R). auto.
  - destruct (read m p0) eqn:R; [|discriminate]. rewrite (read_app _ y _ _ R). auto.
  - destruct (read m p0) eqn:R; [|discriminate]. rewrite (read_app _ y _ _ R).
    destruct v; try discriminate. destruct (read m p1) eqn:R1; [|discriminate]. rewrite (read_app _ y _ _ R1). auto.
  - destruct (read m p0) eqn:R; [|discriminate]. rewrite (read_app _ y _ _ R). auto.
  - destruct (read m p0) eqn:R; [|discriminate]. rewrite (read_app _ y _ _ R). auto.
  - auto.
Qed.

(** No name added is a word of one of the texts. *)
Definition safe (l : env) (ts : list str) : Prop := forall t n, In t ts -> In n (map fst l) -> ~ In n (words t).

Lemma captured_app l e t : safe l [t] -> captured t (l ++ e) = captured t e.
Proof.
  intros S. unfold captured. apply eq_true_iff_eq. rewrite !existsb_exists.
  split; intros [w [W B]]; exists w; split; auto; apply bound_In; apply bound_In in B.
  - rewrite map_app in B. apply in_app_iff in B. destruct B as [B|B]; auto.
    exfalso. exact (S t w (or_introl eq_refl) B W).
  - rewrite map_app. apply in_app_iff. auto.
Qed.

Lemma eval_value_app l e m x y v : new_to l e -> safe l (expr_texts x) ->
  eval_value e m x = Some v -> eval_value (l ++ e) (m ++ y) x = Some v.
Proof.
  intros N. revert v. induction x; intros w S H;
    try (cbn in H |- *; destruct (lookup n e) eqn:L; [|discriminate]; rewrite (lookup_app _ _ _ _ N L);
         destruct (read m p) eqn:R; [|discriminate]; rewrite (read_app _ y _ _ R); exact H).
  - cbn in H |- *. destruct (lookup n e) eqn:L; [|discriminate]. rewrite (lookup_app _ _ _ _ N L).
    apply load_app. auto.
  - cbn in H |- *. rewrite captured_app by exact S. auto.
  - auto.
  - auto.
  - change (match eval_place (l ++ e) (m ++ y) (EIndex n i) with Some p => load (m ++ y) p | None => None end = Some w).
    change (match eval_place e m (EIndex n i) with Some p => load m p | None => None end = Some w) in H.
    destruct (eval_place e m (EIndex n i)) eqn:P; [|discriminate]. rewrite (eval_place_app _ _ _ _ y _ N P).
    apply load_app; auto.
  - change (match eval_place (l ++ e) (m ++ y) (EField n) with Some p => load (m ++ y) p | None => None end = Some w).
    change (match eval_place e m (EField n) with Some p => load m p | None => None end = Some w) in H.
    destruct (eval_place e m (EField n)) eqn:P; [|discriminate]. rewrite (eval_place_app _ _ _ _ y _ N P).
    apply load_app; auto.
  - change (match eval_place (l ++ e) (m ++ y) (EArrow n) with Some p => load (m ++ y) p | None => None end = Some w).
    change (match eval_place e m (EArrow n) with Some p => load m p | None => None end = Some w) in H.
    destruct (eval_place e m (EArrow n)) eqn:P; [|discriminate]. rewrite (eval_place_app _ _ _ _ y _ N P).
    apply load_app; auto.
  - change (match eval_place (l ++ e) (m ++ y) (EDeref n) with Some p => load (m ++ y) p | None => None end = Some w).
    change (match eval_place e m (EDeref n) with Some p => load m p | None => None end = Some w) in H.
    destruct (eval_place e m (EDeref n)) eqn:P; [|discriminate]. rewrite (eval_place_app _ _ _ _ y _ N P).
    apply load_app; auto.
  - change (match eval_place (l ++ e) (m ++ y) (EOptValue n) with Some p => load (m ++ y) p | None => None end = Some w).
    change (match eval_place e m (EOptValue n) with Some p => load m p | None => None end = Some w) in H.
    destruct (eval_place e m (EOptValue n)) eqn:P; [|discriminate]. rewrite (eval_place_app _ _ _ _ y _ N P).
    apply load_app; auto.
  - cbn in *. auto.
  - cbn in *. destruct (eval_place e m x) eqn:P; [|discriminate]. rewrite (eval_place_app _ _ _ _ y _ N P). auto.
  - cbn in *. destruct (eval_place e m x) eqn:P; [|discriminate]. rewrite (eval_place_app _ _ _ _ y _ N P).
    destruct (read m p) eqn:R; [|discriminate]. rewrite (read_app _ y _ _ R). auto.
  - cbn in *. destruct (eval_value e m x) eqn:P; [|discriminate]. rewrite (IHx _ S eq_refl). auto.
Qed.

Lemma eval_place_none_app l e m x y v :
  eval_value e m x = Some v -> eval_place e m x = None -> eval_place (l ++ e) (m ++ y) x = None.
Proof.
  revert v. induction x; intros w V P; auto.
  - cbn in V. cbn in P. rewrite P in V. discriminate.
  - change (match eval_place e m (EIndex n i) with Some p => load m p | None => None end = Some w) in V.
    rewrite P in V. discriminate.
  - change (match eval_place e m (EField n) with Some p => load m p | None => None end = Some w) in V.
    rewrite P in V. discriminate.
  - change (match eval_place e m (EArrow n) with Some p => load m p | None => None end = Some w) in V.
    rewrite P in V. discriminate.
  - change (match eval_place e m (EDeref n) with Some p => load m p | None => None end = Some w) in V.
    rewrite P in V. discriminate.
  - change (match eval_place e m (EOptValue n) with Some p => load m p | None => None end = Some w) in V.
    rewrite P in V. discriminate.
  - cbn in *. eauto.
Qed.

Lemma give1_app l e m y p x a : new_to l e -> safe l (expr_texts x) ->
  give1 e m p x = Some a -> give1 (l ++ e) (m ++ y) p x = Some a.
Proof.
  intros N S. unfold give1. destruct (by_ref p).
  - destruct (eval_place e m x) eqn:P.
    + rewrite (eval_place_app _ _ _ _ y _ N P). auto.
    + destruct (eval_value e m x) eqn:V; [|discriminate].
      rewrite (eval_place_none_app l _ _ _ y _ V P), (eval_value_app _ _ _ _ y _ N S V). auto.
  - destruct (eval_value e m x) eqn:V; [|discriminate]. rewrite (eval_value_app _ _ _ _ y _ N S V). auto.
Qed.

Lemma give_app l e m y ps xs ys : new_to l e -> safe l (flat_map expr_texts xs) ->
  give e m ps xs = Some ys -> give (l ++ e) (m ++ y) ps xs = Some ys.
Proof.
  intros N. revert xs ys. induction ps as [|p ps IH]; intros [|x xs] ys S H; cbn in *; auto; try discriminate.
  destruct (give1 e m p x) eqn:G1; [|discriminate]. destruct (give e m ps xs) eqn:G; [|discriminate].
  erewrite give1_app; eauto. erewrite IH; eauto.
  - intros t n I. apply S. cbn. apply in_app_iff. auto.
  - intros t n I. apply S. cbn. apply in_app_iff. auto.
Qed.

Lemma give_concat e m ps1 xs1 ys1 ps2 xs2 ys2 :
  give e m ps1 xs1 = Some ys1 -> give e m ps2 xs2 = Some ys2 -> give e m (ps1 ++ ps2) (xs1 ++ xs2) = Some (ys1 ++ ys2).
Proof.
  revert xs1 ys1. induction ps1 as [|p ps IH]; intros [|x xs] ys1 H1 H2; cbn in *; try discriminate.
  - injection H1 as <-. auto.
  - destruct (give1 e m p x); [|discriminate]. destruct (give e m ps xs) eqn:G; [|discriminate].
    injection H1 as <-. rewrite (IH _ _ G H2). auto.
Qed.

Lemma run_app ss1 ss2 e m : run (ss1 ++ ss2) e m = bind (run ss1 e m) (fun em => run ss2 (fst em) (snd em)).
Proof.
  revert e m. induction ss1 as [|s r IH]; intros e m; cbn; auto.
  destruct (run1 s e m) as [[e' m']| |]; cbn; auto.
Qed.

(** ** Declarations *)

Lemma declare_new n p e : n <> [] -> ~ In n (map fst e) -> declare n p e = Some ((n, Some p) :: e).
Proof. intros E N. unfold declare. rewrite (bound_not_In _ _ N). destruct n; [contradiction|reflexivity]. Qed.

Lemma alloc_new n v e m : n <> [] -> ~ In n (map fst e) ->
  alloc n v e m = Some ((n, Some (length m, [])) :: e, m ++ [v]).
Proof. intros. unfold alloc. rewrite declare_new by auto. auto. Qed.

Lemma lookup_head n p e : lookup n ((n, Some p) :: e) = Some p.
Proof. unfold lookup. cbn. rewrite seqb_refl. auto. Qed.

Lemma read_last m v : read (m ++ [v]) (length m, []) = Some v.
Proof. unfold read. cbn. rewrite nth_error_app2, Nat.sub_diag by lia. auto. Qed.

Lemma new_to_one n p e : ~ In n (map fst e) -> new_to [(n, p)] e.
Proof. intros H k [<-|[]]. auto. Qed.

Lemma new_to_nil e : new_to [] e.
Proof. intros k []. Qed.

Lemma new_to_app a b e : new_to b e -> new_to a (b ++ e) -> new_to (a ++ b) e.
Proof.
  intros B A n I. rewrite map_app in I. apply in_app_iff in I. destruct I as [I|I]; auto.
  intros C. apply (A n I). rewrite map_app. apply in_app_iff. auto.
Qed.

(** ** Receiving the arguments *)

(** A parameter of the lambda stands for its argument; a value is in a cell of its own, at [b] or after. *)
Definition held (b : nat) (e : env) (m : mem) (p : param) (a : arg) : Prop :=
  exists q, lookup (p_name p) e = Some q /\
            match a with
            | ARef r => by_ref p = true /\ q = r
            | AVal v => read m q = Some v /\ snd q = [] /\ b <= fst q < length m
            end.

Lemma held_app b l e m y p a : new_to l e -> held b e m p a -> held b (l ++ e) (m ++ y) p a.
Proof.
  intros N [q [L H]]. exists q. split; [apply lookup_app; auto|]. destruct a; auto.
  destruct H as (H & Q & B). split; [apply read_app; auto|]. split; auto. rewrite app_length. lia.
Qed.
Lemma held_le b b' e m p a : b' <= b -> held b e m p a -> held b' e m p a.
Proof.
  intros N [q [L H]]. exists q. split; auto. destruct a; auto. destruct H as (H & Q & B). split; auto. split; auto. lia.
Qed.

Lemma Forall2_impl {A B} (P Q : A -> B -> Prop) l1 l2 :
  (forall a b, P a b -> Q a b) -> Forall2 P l1 l2 -> Forall2 Q l1 l2.
Proof. intros H F. induction F; constructor; auto. Qed.

Definition receivable (p : param) (a : arg) : Prop := match a with ARef _ => by_ref p = true | AVal _ => True end.
(** The places passed by reference exist. *)
Definition older (b : nat) (a : arg) : Prop := match a with ARef q => fst q < b | AVal _ => True end.

(** The cells at [b] or after have one name only. *)
Definition own_cells (b : nat) (e : env) : Prop :=
  forall n1 n2 q, lookup n1 e = Some q -> lookup n2 e = Some q -> b <= fst q -> n1 = n2.

Lemma lookup_cons n k p e : lookup n ((k, Some p) :: e) = if seqb n k then Some p else lookup n e.
Proof. unfold lookup. cbn. destruct (seqb n k); auto. Qed.

Lemma receive_ok b ps xs : Forall2 receivable ps xs -> forall e m, b <= length m ->
  NoDup (map p_name ps) -> (forall n, In n (map p_name ps) -> n <> [] /\ ~ In n (map fst e)) ->
  exists l x, receive ps xs e m = Some (l ++ e, m ++ x) /\
    (forall n, In n (map fst l) <-> In n (map p_name ps)) /\ Forall2 (held b (l ++ e) (m ++ x)) ps xs /\
    (Forall (older b) xs -> own_cells b e -> (forall n q, lookup n e = Some q -> fst q < length m) ->
     own_cells b (l ++ e)).
Proof.
  intros F. induction F as [|p a ps xs R F IH]; intros e m LE ND N.
  - exists [], []. cbn. rewrite app_nil_r. split; [auto|]. split; [tauto|]. split; [constructor|auto].
  - cbn [map] in ND. inversion ND; subst. cbn [receive].
    assert (exists l x, receive1 p a e m = Some (l ++ e, m ++ x) /\ map fst l = [p_name p] /\ held b (l ++ e) (m ++ x) p a /\
      (older b a -> own_cells b e -> (forall n q, lookup n e = Some q -> fst q < length m) ->
       own_cells b (l ++ e) /\ (forall n q, lookup n (l ++ e) = Some q -> fst q < length (m ++ x)))) as
      (l1 & x1 & E1 & L1 & H3 & O1).
    { destruct (N (p_name p) (or_introl eq_refl)) as [NE NI]. unfold receive1.
      destruct a as [q|v].
      - cbn in R. rewrite R, declare_new by auto. exists [(p_name p, Some q)], []. cbn [app]. rewrite app_nil_r.
        split; auto. split; auto. split; [exists q; rewrite lookup_head; auto|].
        intros OL OC LT. cbn [older] in OL. split.
        + intros n1 n2 r. rewrite !lookup_cons. destruct (seqb n1 (p_name p)) eqn:S1, (seqb n2 (p_name p)) eqn:S2; intros A B C;
            try (apply Some_eq in A; subst); try (apply Some_eq in B; subst); try lia.
          exact (OC _ _ _ A B C).
        + intros n r. rewrite lookup_cons. destruct (seqb n (p_name p)); intros A; [apply Some_eq in A; subst; lia|eauto].
      - exists [(p_name p, Some (length m, []))], [v].
        assert (HH : held b ([(p_name p, Some (length m, []))] ++ e) (m ++ [v]) p (AVal v)).
        { exists (length m, []). cbn [app]. rewrite lookup_head, read_last, app_length. cbn. split; auto. split; auto. split; auto. lia. }
        assert (OO : older b (AVal v) -> own_cells b e -> (forall n q, lookup n e = Some q -> fst q < length m) ->
            own_cells b ([(p_name p, Some (length m, []))] ++ e) /\
            (forall n q, lookup n ([(p_name p, Some (length m, []))] ++ e) = Some q -> fst q < length (m ++ [v]))).
        { intros _ OC LT. cbn [app]. split.
          + intros n1 n2 r. rewrite !lookup_cons.
            destruct (seqb n1 (p_name p)) eqn:S1, (seqb n2 (p_name p)) eqn:S2; intros A B C.
            * apply seqb_true in S1. apply seqb_true in S2. congruence.
            * apply Some_eq in A. subst r. apply LT in B. cbn in B. lia.
            * apply Some_eq in B. subst r. apply LT in A. cbn in A. lia.
            * exact (OC _ _ _ A B C).
          + intros n r. rewrite lookup_cons, app_length. cbn [length].
            destruct (seqb n (p_name p)); intros A; [apply Some_eq in A; subst; cbn; lia|].
            apply LT in A. lia. }
        destruct (by_ref p); cbn [value_of]; rewrite alloc_new by auto; auto. }
    rewrite E1.
    assert (NT : new_to l1 e).
    { intros n I. rewrite L1 in I. destruct I as [<-|[]]. apply N. left. auto. }
    destruct (IH (l1 ++ e) (m ++ x1)) as (l2 & x2 & E2 & L2 & H4 & O2); auto.
    { rewrite app_length. lia. }
    { intros n I. destruct (N n (or_intror I)) as [NE NI]. split; auto. rewrite map_app, L1. cbn. intros [<-|C]; auto. }
    exists (l2 ++ l1), (x1 ++ x2). rewrite !app_assoc in *. rewrite <- app_assoc in E2.
    split; [rewrite E2, app_assoc; auto|]. split; [|split].
    + intros n. rewrite map_app, in_app_iff, L1, L2. cbn. tauto.
    + rewrite <- app_assoc in H4 |- *. constructor; auto. apply held_app; auto.
      intros n I C. apply L2 in I. rewrite map_app, L1 in C. cbn in C. destruct C as [<-|C]; [contradiction|].
      apply (N n (or_intror I)). auto.
    + intros OL OC LT. inversion OL; subst. destruct (O1 H5 OC LT) as [OC1 LT1]. rewrite <- app_assoc. 
      rewrite <- app_assoc in O2. auto.
Qed.

(** ** One piece after the other *)

Record item := Item { i_old : list param; i_piece : piece; i_args : list arg }.
Definition q_decls (q : piece) : list str := flat_map decls (q_input q).
Definition q_texts (q : piece) : list str := flat_map stmt_texts (q_input q) ++ flat_map expr_texts (q_args q).

(** What is known of the arguments an item gives, which stays true when more is declared; the new cells of the item are
    between the two numbers. *)
Definition relation := item -> nat -> nat -> env -> mem -> list arg -> Prop.
Definition stable (R : relation) : Prop :=
  forall it lo hi l e m y ys, new_to l e -> R it lo hi e m ys -> R it lo hi (l ++ e) (m ++ y) ys.

(** The memory only grew. *)
Definition grown (m0 m : mem) : Prop := exists x, m = m0 ++ x.
Lemma grown_refl m : grown m m.
Proof. exists []. rewrite app_nil_r. auto. Qed.
Lemma grown_app m0 m x : grown m0 m -> grown m0 (m ++ x).
Proof. intros [y ->]. exists (y ++ x). rewrite app_assoc. auto. Qed.
Lemma grown_length m0 m : grown m0 m -> length m0 <= length m.
Proof. intros [y ->]. rewrite app_length. lia. Qed.
Lemma grown_read m0 m p v : grown m0 m -> read m0 p = Some v -> read m p = Some v.
Proof. intros [y ->]. apply read_app. Qed.

Definition item_ok (m0 : mem) (R : relation) (it : item) : Prop :=
  let q := i_piece it in
  forall e m, Forall2 (held (length m0) e m) (q_new q) (i_args it) ->
    NoDup (q_decls q) -> (forall n, In n (q_decls q) -> n <> [] /\ ~ In n (map fst e)) ->
    (forall t n, In t (q_texts q) -> In n (map fst e ++ q_decls q) -> ~ In n (words t)) -> grown m0 m ->
    exists l x ys, run (q_input q) e m = Ok (l ++ e, m ++ x) /\
      (forall n, In n (map fst l) -> In n (q_decls q)) /\
      give (l ++ e) (m ++ x) (i_old it) (q_args q) = Some ys /\ R it (length m) (length (m ++ x)) (l ++ e) (m ++ x) ys.

Definition pieces (its : list item) : list piece := map i_piece its.

Inductive all_items (R : relation) (e : env) (m : mem) : nat -> list item -> list (list arg) -> Prop :=
| all_nil lo : lo <= length m -> all_items R e m lo [] []
| all_cons lo hi it its ys yss : lo <= hi -> R it lo hi e m ys -> all_items R e m hi its yss ->
    all_items R e m lo (it :: its) (ys :: yss).

Lemma NoDup_app_parts {A} (a b : list A) : NoDup (a ++ b) -> NoDup a /\ NoDup b /\ (forall x, In x a -> ~ In x b).
Proof.
  induction a as [|x a IH]; cbn; intros H.
  - split; [constructor|]. split; auto.
  - inversion H; subst. destruct (IH H3) as (A1 & B1 & D). split.
    + constructor; auto. intros C. apply H2. apply in_app_iff. auto.
    + split; auto. intros y [<-|I] J; [|eapply D; eauto]. apply H2. apply in_app_iff. auto.
Qed.

Lemma run_items m0 R its : stable R -> Forall (item_ok m0 R) its -> forall e m, grown m0 m ->
  Forall (fun it => Forall2 (held (length m0) e m) (q_new (i_piece it)) (i_args it)) its ->
  NoDup (flat_map q_decls (pieces its)) ->
  (forall n, In n (flat_map q_decls (pieces its)) -> n <> [] /\ ~ In n (map fst e)) ->
  (forall t n, In t (flat_map q_texts (pieces its)) -> In n (map fst e ++ flat_map q_decls (pieces its)) -> ~ In n (words t)) ->
  exists l x yss, run (inputs (pieces its)) e m = Ok (l ++ e, m ++ x) /\
    (forall n, In n (map fst l) -> In n (flat_map q_decls (pieces its))) /\
    give (l ++ e) (m ++ x) (flat_map i_old its) (args (pieces its)) = Some (concat yss) /\
    all_items R (l ++ e) (m ++ x) (length m) its yss.
Proof.
  intros ST F. induction F as [|it its OK F IH]; intros e m LE H ND N T.
  - exists [], [], []. cbn. rewrite app_nil_r. split; auto. split; auto. split; auto. constructor. auto.
  - inversion H as [|? ? H1 H2]; subst. cbn [pieces map flat_map] in ND, N, T.
    apply NoDup_app_parts in ND. destruct ND as (ND1 & ND2 & D).
    destruct (OK e m) as (l1 & x1 & ys1 & E1 & L1 & G1 & R1); auto.
    { intros n I. apply N. apply in_app_iff. auto. }
    { intros t n I J. apply T; [apply in_app_iff; auto|]. rewrite !in_app_iff in *. tauto. }
    assert (NT1 : new_to l1 e). { intros n I. apply N. apply in_app_iff. auto. }
    destruct (IH (l1 ++ e) (m ++ x1)) as (l2 & x2 & yss & E2 & L2 & G2 & R2); auto.
    { apply grown_app. auto. }
    { clear - H2 NT1. induction H2; constructor; auto. eapply Forall2_impl; [|eassumption].
      intros. apply held_app; auto. }
    { intros n I. destruct (N n) as [NE NI]; [apply in_app_iff; auto|]. split; auto.
      rewrite map_app, in_app_iff. intros [C|C]; auto. apply (D n); auto. }
    { intros t n I J. apply T; [apply in_app_iff; auto|]. rewrite map_app, !in_app_iff in *.
      destruct J as [[J|J]|J]; auto. }
    assert (NT2 : new_to l2 (l1 ++ e)).
    { intros n I C. rewrite map_app, in_app_iff in C. apply L2 in I. destruct C as [C|C].
      - apply (D n); auto.
      - apply (N n); [apply in_app_iff; auto|auto]. }
    exists (l2 ++ l1), (x1 ++ x2), (ys1 :: yss). rewrite <- !app_assoc. rewrite <- app_assoc in E2, G2.
    split; [|split; [|split]].
    + unfold inputs, pieces in *. cbn [map flat_map]. rewrite run_app, E1. cbn [bind fst snd]. rewrite E2. auto.
    + intros n I. cbn [pieces map flat_map]. rewrite map_app in I. rewrite !in_app_iff in *. destruct I; auto.
    + unfold args, pieces in *. cbn [map flat_map concat]. apply give_concat; auto. rewrite (app_assoc m).
      apply give_app; auto. intros t n I J. apply T; [|apply in_app_iff; right; apply in_app_iff; auto].
      apply in_app_iff. left. unfold q_texts. apply in_app_iff. auto.
    + apply all_cons with (hi := length (m ++ x1)).
      * rewrite app_length. lia.
      * rewrite (app_assoc m). apply ST; auto.
      * rewrite (app_assoc m). exact R2.
Qed.

(** ** The whole lambda *)

Lemma concat_held b e m its :
  Forall2 (held b e m) (new_params (pieces its)) (flat_map i_args its) ->
  Forall (fun it => length (q_new (i_piece it)) = length (i_args it)) its ->
  Forall (fun it => Forall2 (held b e m) (q_new (i_piece it)) (i_args it)) its.
Proof.
  induction its as [|it its IH]; intros F L; constructor; inversion L; subst; cbn in F.
  - apply Forall2_app_inv_l in F. destruct F as (a & b' & Fa & Fb & E).
    assert (a = i_args it) as ->; auto.
    apply Forall2_length in Fa. rewrite H1 in Fa. clear - E Fa.
    revert a E Fa. generalize (i_args it). induction l as [|x l I]; intros [|y a] E Fa; cbn in *; try discriminate; auto.
    injection E as -> E. f_equal. apply I; auto.
  - apply Forall2_app_inv_l in F. destruct F as (a & b' & Fa & Fb & E).
    apply IH; auto. assert (b' = flat_map i_args its) as <-; auto.
    apply Forall2_length in Fa. rewrite H1 in Fa. clear - E Fa.
    revert a E Fa. generalize (i_args it). induction l as [|x l I]; intros [|y a] E Fa; cbn in *; try discriminate; auto.
    injection E as -> E. eapply I; eauto.
Qed.

Lemma flat_map_map {A B C} (g : A -> B) (h : B -> list C) l : flat_map h (map g l) = flat_map (fun a => h (g a)) l.
Proof. induction l; cbn; congruence. Qed.
Lemma flat_map_flat_map {A B C} (g : A -> list B) (h : B -> list C) l :
  flat_map h (flat_map g l) = flat_map (fun a => flat_map h (g a)) l.
Proof. induction l; cbn; auto. rewrite flat_map_app. congruence. Qed.

Lemma start_env_names f : map fst (start_env f) = captures f.
Proof. unfold start_env. rewrite map_map. cbn. apply map_id. Qed.

Lemma start_env_lookup f n : lookup n (start_env f) = None.
Proof.
  unfold lookup, start_env. induction (captures f) as [|c l IH]; cbn; auto. destruct (seqb n c); auto.
Qed.

Lemma start_env_get f n : In n (captures f) -> dict_get n (start_env f) = Some None.
Proof.
  unfold start_env. induction (captures f) as [|c l IH]; cbn; [intros []|]. destruct (seqb n c) eqn:E; auto.
  intros [->|I]; auto. rewrite seqb_refl in E. discriminate.
Qed.

Lemma visible f l : (forall n, In n (captures f) -> ~ In n (map fst l)) ->
  (f_to_call f = None -> f_is_method f = false -> ~ In (f_qualified f) (map fst (l ++ start_env f))) ->
  callee_visible f (l ++ start_env f) = true.
Proof.
  intros D Q. unfold callee_visible. cbv zeta.
  assert (G : forall n, In n (captures f) -> dict_get n (l ++ start_env f) = Some None).
  { intros n I. rewrite dict_get_app by auto. apply start_env_get. auto. }
  unfold captures in G. destruct (f_to_call f) eqn:FC.
  - rewrite G; cbn; auto.
  - destruct (f_is_method f) eqn:FM.
    + rewrite G; cbn; auto.
    + rewrite bound_not_In; auto.
Qed.

Lemma texts_pieces qs t : In t (flat_map q_texts qs) ->
  In t (flat_map stmt_texts (inputs qs) ++ flat_map expr_texts (args qs)).
Proof.
  intros I. apply in_flat_map in I. destruct I as (q & Q & I). unfold q_texts in I. rewrite in_app_iff in *.
  unfold inputs, args. rewrite !flat_map_flat_map.
  destruct I as [I|I]; [left|right]; apply in_flat_map; eauto.
Qed.

Lemma call_items R its f l m :
  stable R -> Forall (item_ok m R) its -> well_named f l ->
  l_params l = new_params (pieces its) -> l_input l = inputs (pieces its) -> l_args l = args (pieces its) ->
  f_params f = flat_map i_old its -> (forall a b c d e, l_end l <> ByType a b c d e) ->
  Forall (fun it => Forall2 receivable (q_new (i_piece it)) (i_args it)) its ->
  exists e lo x yss, length m <= lo /\ all_items R e (m ++ x) lo its yss /\
    Forall (fun it => Forall2 (held (length m) e (m ++ x)) (q_new (i_piece it)) (i_args it)) its /\
    (forall n, In n (map fst e) -> In n (names_of f l)) /\
    (forall n q, In n (map p_name (l_params l)) -> lookup n e = Some q ->
       Forall (fun it => Forall (older (length m)) (i_args it)) its -> fst q < lo /\
       forall n', In n' (map p_name (l_params l)) -> lookup n' e = Some q -> length m <= fst q -> n = n') /\
    forall c, call f l c (flat_map i_args its) m
              = bind (c (concat yss) (m ++ x)) (fun rm => finish f l e (fst rm) (snd rm)).
Proof.
  intros ST OK [WD WE WT WC WR] LP LI LA FP NB F.
  assert (LEN : Forall (fun it => length (q_new (i_piece it)) = length (i_args it)) its).
  { clear - F. induction F; constructor; auto. eapply Forall2_length; eauto. }
  unfold names_of, texts_of in *. rewrite LP, LI in WD, WE, WC. rewrite LI, LP, LA in WT.
  pose proof (NoDup_app_parts _ _ WD) as (ND1 & ND2 & D1). pose proof (NoDup_app_parts _ _ ND2) as (ND3 & ND4 & D2).
  destruct (receive_ok (length m) (new_params (pieces its)) (flat_map i_args its)) with (e := start_env f) (m := m)
    as (l1 & x1 & E1 & L1 & H1 & O1); auto.
  { clear - F. induction F; cbn; [constructor|]. apply Forall2_app; auto. }
  { intros n I. split.
    - intros ->. apply WE. rewrite !in_app_iff. auto.
    - rewrite start_env_names. intros C. apply (D1 n); auto. apply in_app_iff. auto. }
  assert (DE : flat_map decls (inputs (pieces its)) = flat_map q_decls (pieces its)).
  { unfold inputs. rewrite flat_map_flat_map. auto. }
  rewrite DE in *.
  assert (LM : length m <= length (m ++ x1)). { rewrite app_length. lia. }
  assert (GR : grown m (m ++ x1)). { exists x1. auto. }
  destruct (run_items m R its ST OK (l1 ++ start_env f) (m ++ x1)) as (l2 & x2 & yss & E2 & L2 & G & RR); auto.
  { apply concat_held; auto. }
  { intros n I. split.
    - intros ->. apply WE. rewrite !in_app_iff. auto.
    - rewrite map_app, in_app_iff, start_env_names, L1. intros [C|C].
      + apply (D2 n); auto.
      + apply (D1 n); auto. apply in_app_iff. auto. }
  { intros t n I J. apply WT; [apply texts_pieces; auto|].
    rewrite map_app, !in_app_iff, start_env_names, L1 in J. rewrite !in_app_iff. tauto. }
  assert (NT : new_to l2 (l1 ++ start_env f)).
  { intros n I C. apply L2 in I. rewrite map_app, in_app_iff, start_env_names, L1 in C. destruct C as [C|C].
    + apply (D2 n); auto.
    + apply (D1 n); auto. apply in_app_iff. auto. }
  exists (l2 ++ l1 ++ start_env f), (length (m ++ x1)), (x1 ++ x2), yss. rewrite (app_assoc m).
  assert (NI : forall n, In n (map fst (l2 ++ l1 ++ start_env f)) ->
     In n (captures f ++ map p_name (new_params (pieces its)) ++ flat_map q_decls (pieces its))).
  { intros n I. rewrite !map_app, !in_app_iff, start_env_names, L1 in I. rewrite !in_app_iff.
    destruct I as [I|[I|I]]; auto. }
  split; [auto|]. split; [exact RR|]. split; [|split; [|split]].
  - apply concat_held; auto. eapply Forall2_impl; [|exact H1]. intros. apply held_app; auto.
  - intros n I. unfold names_of. rewrite LP, LI, DE. auto.
  - rewrite LP. intros n q I LK OL.
    assert (OLD : Forall (older (length m)) (flat_map i_args its)).
    { clear - OL. induction OL; cbn; auto. apply Forall_app. auto. }
    assert (back : forall k, In k (map p_name (new_params (pieces its))) ->
              lookup k (l2 ++ l1 ++ start_env f) = lookup k (l1 ++ start_env f)).
    { intros k K. unfold lookup. rewrite dict_get_app; auto. intros C. apply L2 in C. apply (D2 k); auto. }
    split.
    + rewrite back in LK by auto. clear - LK H1 OLD I ND3 LM.
      revert H1 OLD I ND3. generalize (flat_map i_args its). generalize (new_params (pieces its)).
      intros ps xs HF OL. induction HF as [|p a ps xs [r [Lr Hr]] HF IH]; intros I ND; [destruct I|].
      inversion OL; subst. inversion ND; subst. destruct I as [<-|I]; auto.
      rewrite LK in Lr. apply Some_eq in Lr. subst r. destruct a.
      * destruct Hr as [_ ->]. cbn in H1. lia.
      * tauto.
    + intros n' I' LK' GE. rewrite back in LK, LK' by auto.
      apply (O1 OLD) with (q := q); auto.
      * intros a c r A. rewrite start_env_lookup in A. discriminate.
      * intros a r A. rewrite start_env_lookup in A. discriminate.
  - intros c. unfold call. rewrite LP, E1. cbn [of_option bind fst snd]. rewrite LI, E2. cbn [bind fst snd].
    rewrite (app_assoc l2). assert (callee_visible f ((l2 ++ l1) ++ start_env f) = true) as ->.
    { apply visible; auto.
      - intros n I C. apply (D1 n I). apply in_app_iff. rewrite map_app, in_app_iff, L1 in C. destruct C; auto.
      - rewrite <- app_assoc. intros F1 F2 C. apply (WC F1 F2). auto. }
    rewrite <- (app_assoc l2). assert (choose l (l2 ++ l1 ++ start_env f) ((m ++ x1) ++ x2) = Ok (l_args l)) as ->.
    { unfold choose. destruct (l_end l); auto. exfalso. eapply NB; eauto. }
    cbn [bind]. rewrite LA, FP, G. cbn [of_option bind]. auto.
Qed.

(** ** One argument for each parameter *)

Definition knows := param -> list arg -> nat -> nat -> env -> mem -> arg -> Prop.
Definition lasting (Q : knows) : Prop :=
  forall p g lo hi l e m y a, new_to l e -> Q p g lo hi e m a -> Q p g lo hi (l ++ e) (m ++ y) a.

Definition piece_ok (m0 : mem) (Q : knows) (q : piece) (p : param) (g : list arg) : Prop :=
  forall e m, Forall2 (held (length m0) e m) (q_new q) g ->
    NoDup (q_decls q) -> (forall n, In n (q_decls q) -> n <> [] /\ ~ In n (map fst e)) ->
    (forall t n, In t (q_texts q) -> In n (map fst e ++ q_decls q) -> ~ In n (words t)) -> grown m0 m ->
    exists l x y, run (q_input q) e m = Ok (l ++ e, m ++ x) /\
      (forall n, In n (map fst l) -> In n (q_decls q)) /\
      give (l ++ e) (m ++ x) [p] (q_args q) = Some [y] /\ Q p g (length m) (length (m ++ x)) (l ++ e) (m ++ x) y.

Inductive each (Q : knows) (e : env) (m : mem) : nat -> list param -> list (list arg) -> list arg -> Prop :=
| each_nil lo : lo <= length m -> each Q e m lo [] [] []
| each_cons lo hi p ps g gs y ys : lo <= hi -> Q p g lo hi e m y -> each Q e m hi ps gs ys ->
    each Q e m lo (p :: ps) (g :: gs) (y :: ys).

Definition item_of (pc : param -> piece) (pg : param * list arg) : item := Item [fst pg] (pc (fst pg)) (snd pg).
Definition items_of (pc : param -> piece) (ps : list param) (gs : list (list arg)) : list item :=
  map (item_of pc) (combine ps gs).

Lemma items_pieces pc ps gs : length ps = length gs -> pieces (items_of pc ps gs) = map pc ps.
Proof.
  revert gs. induction ps as [|p ps IH]; intros [|g gs] L; cbn in *; try discriminate; auto.
  f_equal. apply IH. lia.
Qed.
Lemma items_args pc ps gs : length ps = length gs -> flat_map i_args (items_of pc ps gs) = concat gs.
Proof.
  revert gs. induction ps as [|p ps IH]; intros [|g gs] L; cbn in *; try discriminate; auto.
  f_equal. apply IH. lia.
Qed.
Lemma items_old pc ps gs : length ps = length gs -> flat_map i_old (items_of pc ps gs) = ps.
Proof.
  revert gs. induction ps as [|p ps IH]; intros [|g gs] L; cbn in *; try discriminate; auto.
  f_equal. apply IH. lia.
Qed.
Lemma items_Forall2 pc (P : item -> Prop) (Q : param -> list arg -> Prop) ps gs :
  (forall p g, Q p g -> P (Item [p] (pc p) g)) -> Forall2 Q ps gs -> Forall P (items_of pc ps gs).
Proof. intros H F. induction F; [constructor|]. change (Forall P (Item [x] (pc x) y :: items_of pc l l')). constructor; auto. Qed.
Lemma items_Forall2_inv pc (P : item -> Prop) ps gs : length ps = length gs ->
  Forall P (items_of pc ps gs) -> Forall2 (fun p g => P (Item [p] (pc p) g)) ps gs.
Proof.
  revert gs. induction ps as [|p ps IH]; intros [|g gs] L F; cbn in *; try discriminate; constructor; inversion F; auto.
Qed.

Lemma call_each Q pc gs f l m :
  lasting Q -> Forall2 (fun p g => piece_ok m Q (pc p) p g) (f_params f) gs -> well_named f l ->
  l_params l = new_params (map pc (f_params f)) -> l_input l = inputs (map pc (f_params f)) ->
  l_args l = args (map pc (f_params f)) -> (forall a b c d e, l_end l <> ByType a b c d e) ->
  Forall2 (fun p g => Forall2 receivable (q_new (pc p)) g) (f_params f) gs ->
  exists e lo x ys, length m <= lo /\ each Q e (m ++ x) lo (f_params f) gs ys /\
    Forall2 (fun p g => Forall2 (held (length m) e (m ++ x)) (q_new (pc p)) g) (f_params f) gs /\
    (forall n, In n (map fst e) -> In n (names_of f l)) /\
    (forall n q, In n (map p_name (l_params l)) -> lookup n e = Some q ->
       Forall (Forall (older (length m))) gs -> fst q < lo /\
       forall n', In n' (map p_name (l_params l)) -> lookup n' e = Some q -> length m <= fst q -> n = n') /\
    forall c, call f l c (concat gs) m
              = bind (c ys (m ++ x)) (fun rm => finish f l e (fst rm) (snd rm)).
Proof.
  intros LA OK WN HP HI HA NB RC.
  assert (LEN : length (f_params f) = length gs). { eapply Forall2_length; eauto. }
  set (R := fun it lo hi e m ys =>
              exists p y, i_old it = [p] /\ ys = [y] /\ Q p (i_args it) lo hi e m y).
  destruct (call_items R (items_of pc (f_params f) gs) f l m) as (e & lo & x & yss & LO & AL & HE & NM & OW & CA).
  - intros it lo hi l' e m' y ys N (p & a & E1 & E2 & H). exists p, a. split; auto.
  - eapply items_Forall2; [|exact OK]. intros p g H e m' A B C D E.
    destruct (H e m' A B C D E) as (l' & x & y & F1 & F2 & F3 & F4).
    exists l', x, [y]. split; auto. split; auto. split; auto. exists p, y. auto.
  - auto.
  - rewrite items_pieces; auto.
  - rewrite items_pieces; auto.
  - rewrite items_pieces; auto.
  - rewrite items_old; auto.
  - auto.
  - eapply items_Forall2; [|exact RC]. auto.
  - exists e, lo, x, (concat yss). split; auto. split; [|split; [|split; [|split]]].
    + clear - AL LEN. revert gs lo yss LEN AL.
      induction (f_params f) as [|p ps IH]; intros [|g gs] lo yss LEN AL; cbn in LEN; try discriminate.
      * inversion AL; subst. constructor; auto.
      * cbn in AL. inversion AL as [|? ? ? ? ys yss' H1 H2 H3]; subst. destruct H2 as (p' & y & E1 & E2 & H).
        cbn in E1. injection E1 as <-. subst ys. cbn. apply each_cons with (hi := hi); auto.
    + apply items_Forall2_inv in HE; auto.
    + auto.
    + intros n q I LK OL. apply OW; auto.
      clear - OL LEN. revert gs LEN OL. induction (f_params f) as [|p ps IH]; intros [|g gs] LEN OL;
        cbn in LEN; try discriminate; [constructor|]. inversion OL; subst.
      change (Forall (fun it => Forall (older (length m)) (i_args it)) (Item [p] (pc p) g :: items_of pc ps gs)).
      constructor; auto.
    + intros c. rewrite <- CA, items_args; auto.
Qed.

(** ** Parameters passed as they are *)

Definition passed_on (p : param) (g : list arg) (lo hi : nat) (e : env) (m : mem) (y : arg) : Prop :=
  exists a, g = [a] /\
    match a with
    | ARef q => y = ARef q
    | AVal v => if by_ref p then exists q, y = ARef q /\ read m q = Some v else y = AVal v
    end.
Lemma passed_on_lasting : lasting passed_on.
Proof.
  intros p g lo hi l e m y a N (x & -> & H). exists x. split; auto. destruct x; auto. destruct (by_ref p); auto.
  destruct H as (q & H1 & H2). exists q. split; auto. apply read_app; auto.
Qed.

Lemma load_not_raw m q v : (forall l, v <> VRaw l) -> read m q = Some v -> load m q = Some v.
Proof. intros N R. unfold load. rewrite R. destruct v; auto. exfalso. eapply N; eauto. Qed.

Lemma pass_ok m0 p a : (forall v, a = AVal v -> forall l, v <> VRaw l) -> piece_ok m0 passed_on (pass p) p [a].
Proof.
  intros NR e m H _ _ _ _. cbn in H. inversion H as [|? ? ? ? [q [LK HQ]] _]; subst.
  exists [], []. cbn. rewrite app_nil_r. unfold give1. cbn [eval_place]. rewrite LK.
  destruct a as [r|v].
  - destruct HQ as [BR ->]. rewrite BR. exists (ARef r). split; auto. split; auto. split; auto.
    exists (ARef r). auto.
  - destruct HQ as (RD & _ & _). destruct (by_ref p) eqn:BR.
    + exists (ARef q). split; auto. split; auto. split; auto. exists (AVal v). split; auto. rewrite BR. exists q. auto.
    + cbn [eval_value eval_place]. rewrite LK, (load_not_raw _ _ _ (NR v eq_refl) RD).
      exists (AVal v). cbn. split; auto. split; auto. split; auto. exists (AVal v). split; auto. rewrite BR. auto.
Qed.
