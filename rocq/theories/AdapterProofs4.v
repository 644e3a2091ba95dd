From Verif Require Import PyStr PyStrLemmas PyDict PyNum TypeTextModel TypeTextProofs LambdaModel LambdaSpec AdapterModel AdapterSpec
  LambdaProofs AdapterProofs AdapterProofs3.
(** Lists of strings. *)

Lemma string_list_spec p : is_string_list p = true <-> string_list p.
Proof.
  unfold is_string_list, string_list. rewrite !andb_true_iff, const_spec, one_spec, Nat.eqb_eq, smem_In.
  unfold list_count. tauto.
Qed.

Lemma vector_by_ref p : by_ref (vector_param p) = true.
Proof. reflexivity. Qed.

Lemma all_c_strings ss : all_some (map c_string (map VAtom ss)) = Some (map VCStr ss).
Proof. induction ss; cbn; auto. rewrite IHss. auto. Qed.

Lemma held_strings b e m0 m p a ss : held b e m p a -> grown m0 m -> strings m0 a ss ->
  exists q, lookup (p_name p) e = Some q /\ read m q = Some (VVec (map VAtom ss)).
Proof.
  intros [q [LK HQ]] GR ST. exists q. split; auto. destruct a; cbn in ST.
  - destruct HQ as [_ ->]. eapply grown_read; eauto.
  - subst v. tauto.
Qed.

Lemma strings_app m x a ss : strings m a ss -> strings (m ++ x) a ss.
Proof. destruct a; cbn; auto. apply read_app. Qed.
Lemma strings_grown m m' a ss : grown m m' -> strings m a ss -> strings m' a ss.
Proof. intros [x ->]. apply strings_app. Qed.

(** The vector of pointers. *)
Lemma run_ptrs o p e m q ss : ptrs_name p <> [] -> ~ In (ptrs_name p) (map fst e) ->
  lookup (p_name p) e = Some q -> read m q = Some (VVec (map VAtom ss)) ->
  run (ptrs_input o p) e m = Ok ((ptrs_name p, Some (length m, [])) :: e, m ++ [VVec (map VCStr ss)]).
Proof.
  intros NE NI LK RD. unfold ptrs_input. cbn [run run1]. rewrite alloc_new by auto. cbn [of_option bind fst snd].
  set (e' := (ptrs_name p, Some (length m, [])) :: e).
  assert (L1 : lookup (ptrs_name p) e' = Some (length m, [])) by apply lookup_head.
  assert (L2 : lookup (p_name p) e' = Some q) by (apply lookup_after; auto).
  assert (R2 : read (m ++ [VVec []]) q = Some (VVec (map VAtom ss))) by (apply read_app; auto).
  assert (P : run [SForPush (ptrs_name p) (p_name p)] e' (m ++ [VVec []]) = Ok (e', m ++ [VVec (map VCStr ss)])).
  { clearbody e'. cbn [run]. unfold run1. rewrite L1, L2, read_last, R2, all_c_strings, write_last.
    cbn [option_map of_option bind fst snd app]. auto. }
  destruct (o_nanobind o); cbn [app]; auto.
  transitivity (bind (run1 (SReserve (ptrs_name p) (p_name p)) e' (m ++ [VVec []]))
                  (fun em => run [SForPush (ptrs_name p) (p_name p)] (fst em) (snd em))); [reflexivity|].
  unfold run1. clearbody e'. cbn [eval_value eval_place]. rewrite L1, L2, read_last, R2. cbn [bind fst snd]. exact P.
Qed.

(** ** With a size *)

Definition pair_piece (o : options) (p s : param) : piece :=
  Piece [vector_param p] (ptrs_input o p ++ [SDecl (first_typename s) (p_name s) (casted_size (first_typename s) p)])
    [EData (ptrs_name p); EName (p_name s)] [].
Definition empty_piece : piece := Piece [] [] [] [].

Lemma followed_hd o r : match hd_error r with Some s => o_size_name o (p_name s) | None => false end = true <-> followed o r.
Proof.
  destruct r as [|t r]; cbn.
  - split; [discriminate|]. intros (u & r' & E & _). discriminate.
  - split; [intros H; exists t, r; auto|]. intros (u & r' & E & H). injection E as <- _. auto.
Qed.

Lemma pieces_grouped o ps gs : grouped o ps gs -> forall prev,
  (forall q, prev = Some q -> ~ (string_list q /\ followed o ps)) ->
  string_list_pieces o prev ps =
    flat_map (fun g => match g with Pair p s => [pair_piece o p s; empty_piece] | Alone p => [pass p] end) gs.
Proof.
  intros G. induction G as [|p s r gs SL SN CL G IH|p r gs NF G IH]; intros prev PV; cbn [string_list_pieces flat_map]; auto.
  - cbn [app]. f_equal; [|f_equal].
    + unfold string_list_piece. cbn [hd_error]. rewrite (proj2 (string_list_spec p) SL), SN. cbn [andb]. auto.
    + unfold string_list_piece. rewrite (proj2 (string_list_spec p) SL), SN. cbn [andb].
      destruct (hd_error r) as [t|] eqn:HD; auto.
      destruct (is_string_list s && o_size_name o (p_name t)) eqn:B; auto.
      exfalso. apply CL. apply andb_true_iff in B. destruct B as [B1 B2]. split; [apply string_list_spec; auto|].
      apply followed_hd. rewrite HD. auto.
    + apply IH. intros q E. injection E as <-. auto.
  - cbn [app]. f_equal.
    + unfold string_list_piece.
      assert (E1 : match hd_error r with Some s => is_string_list p && o_size_name o (p_name s) | None => false end = false).
      { destruct (hd_error r) as [t|] eqn:HD; auto. apply not_true_is_false. intros B. apply NF.
        apply andb_true_iff in B. destruct B as [B1 B2]. split; [apply string_list_spec; auto|].
        apply followed_hd. rewrite HD. auto. }
      assert (E2 : match prev with Some q => is_string_list q && o_size_name o (p_name p) | None => false end = false).
      { destruct prev as [q|]; auto. apply not_true_is_false. intros B. apply (PV q); auto.
        apply andb_true_iff in B. destruct B as [B1 B2]. split; [apply string_list_spec; auto|]. exists p, r. auto. }
      rewrite E1, E2. destruct (hd_error r); auto.
    + apply IH. intros q E. injection E as <-. auto.
Qed.

Definition group_item (o : options) (ga : group * arg) : item :=
  match fst ga with
  | Pair p s => Item [p; s] (pair_piece o p s) [snd ga]
  | Alone p => Item [p] (pass p) [snd ga]
  end.

Definition group_knows : relation := fun it lo hi e m ys =>
  exists g a, i_args it = [a] /\ i_old it = (match g with Pair p s => [p; s] | Alone p => [p] end) /\
    strings_given m [g] [a] ys.

Lemma strings_given_app m x gs xs ys : strings_given m gs xs ys -> strings_given (m ++ x) gs xs ys.
Proof. intros H. induction H; econstructor; eauto using strings_app, same_lasting. Qed.

Lemma size_decl p s e m q ss : lookup (p_name p) e = Some q -> read m q = Some (VVec (map VAtom ss)) ->
  eval_value e m (casted_size (first_typename s) p) = Some (size_value s (length ss)).
Proof.
  intros LK RD. unfold casted_size, size_value, first_typename.
  destruct (_ || _); cbn [eval_value eval_place]; rewrite LK, RD, map_length; auto.
Qed.

Lemma size_not_raw s n l : size_value s n <> VRaw l.
Proof. unfold size_value. destruct (_ || _); discriminate. Qed.

Lemma group_ok o m0 g a : fits_group m0 g a ->
  item_ok m0 group_knows (group_item o (g, a)) /\
  Forall2 receivable (q_new (i_piece (group_item o (g, a)))) (i_args (group_item o (g, a))).
Proof.
  destruct g as [p s|p]; cbn [group_item fst snd fits_group i_piece i_args]; intros F.
  - destruct F as [[ss ST] NR]. split.
    2:{ constructor; auto. destruct a; cbn [receivable]; auto. }
    intros e m H ND NN TT GR. cbn [i_piece i_args i_old pair_piece q_new q_input q_args] in *.
    inversion H as [|? ? ? ? HA _]; subst. destruct (held_strings _ _ _ _ _ _ _ HA GR ST) as (q & LK & RD).
    cbn [vector_param p_name] in LK.
    assert (DE : q_decls (pair_piece o p s) = [ptrs_name p; p_name s]).
    { unfold q_decls, pair_piece, ptrs_input. cbn [q_input]. destruct (o_nanobind o); reflexivity. }
    rewrite DE in *. destruct (NN (ptrs_name p)) as [NE1 NI1]; [cbn; auto|]. destruct (NN (p_name s)) as [NE2 NI2]; [cbn; auto|].
    inversion ND as [|? ? ND1 _]; subst.
    set (e1 := (ptrs_name p, Some (length m, [])) :: e). set (m1 := m ++ [VVec (map VCStr ss)]).
    assert (NI3 : ~ In (p_name s) (map fst e1)).
    { cbn. intros [C|C]; [apply ND1; left; auto|auto]. }
    set (v := size_value s (length ss)).
    exists [(p_name s, Some (length m1, [])); (ptrs_name p, Some (length m, []))], ([VVec (map VCStr ss)] ++ [v]).
    exists [AVal (VItems (map VCStr ss)); if by_ref s then ARef (length m1, []) else AVal v].
    assert (L1 : lookup (p_name p) e1 = Some q) by (apply lookup_after; auto).
    assert (E2 : eval_value e1 m1 (casted_size (first_typename s) p) = Some v).
    { eapply size_decl; eauto. apply read_app. auto. }
    rewrite app_assoc. fold m1. cbn [app]. fold e1. split; [|split; [|split]].
    + cbn [pair_piece q_input]. rewrite run_app, (run_ptrs o p e m q ss) by auto. cbn [bind fst snd]. fold e1 m1.
      cbn [run run1]. unfold first_typename in *. rewrite NR, E2, alloc_new by auto. auto.
    + intros n [<-|[<-|[]]]; cbn; auto.
    + cbn [give]. unfold give1. cbn [eval_value eval_place]. fold e1.
      assert (L2 : lookup (ptrs_name p) ((p_name s, Some (length m1, [])) :: e1) = Some (length m, [])).
      { apply lookup_after; auto. apply lookup_head. }
      assert (R2 : read (m1 ++ [v]) (length m, []) = Some (VVec (map VCStr ss))).
      { apply read_app. apply read_last. }
      match goal with |- context [lookup (ptrs_name p) ?x] => change (lookup (ptrs_name p) x) with (lookup (ptrs_name p) ((p_name s, Some (length m1, [])) :: e1)) end. rewrite L2, R2, lookup_head. replace (if by_ref p then None else None) with (@None place) by (destruct (by_ref p); auto).
      cbn [option_map].
      assert (LV : load (m1 ++ [v]) (length m1, []) = Some v).
      { apply load_not_raw; [apply size_not_raw|apply read_last]. }
      rewrite LV. destruct (by_ref s); auto.
    + exists (Pair p s), a. split; auto. split; auto. econstructor.
      * eapply strings_grown; [|exact ST]. unfold m1. apply grown_app. apply grown_app. auto.
      * cbn [same]. destruct (by_ref s); auto. exists (length m1, []). split; auto. apply read_last.
      * constructor.
  - split.
    + intros e m A B C D E. cbn [i_piece i_args i_old] in *.
      destruct (pass_ok m0 p a (fits_not_raw _ _ _ F) e m A B C D E) as (l & x & y & P1 & P2 & P3 & P4).
      exists l, x, [y]. split; auto. split; auto. split; auto. exists (Alone p), a. split; auto. split; auto.
      constructor; [|constructor]. eapply same_passed; eauto.
    + constructor; auto. eapply fits_receivable; eauto.
Qed.

Lemma grouped_params o ps gs : grouped o ps gs -> ps = flat_map (fun g => match g with Pair p s => [p; s] | Alone p => [p] end) gs.
Proof. intros G. induction G; cbn; congruence. Qed.

Lemma strings_given_cat m g a ys gs xs yss : strings_given m [g] [a] ys -> strings_given m gs xs yss ->
  strings_given m (g :: gs) (a :: xs) (ys ++ yss).
Proof.
  intros H1 H2. inversion H1; subst.
  - match goal with H : strings_given m [] [] _ |- _ => inversion H; subst end. cbn [app]. econstructor; eauto.
  - match goal with H : strings_given m [] [] _ |- _ => inversion H; subst end. cbn [app]. econstructor; eauto.
Qed.

Lemma combine_Forall2 {A B} (P : A -> B -> Prop) (Q : A * B -> Prop) l1 l2 :
  (forall a b, P a b -> Q (a, b)) -> Forall2 P l1 l2 -> Forall Q (combine l1 l2).
Proof. intros H F. induction F; cbn; constructor; auto. Qed.

Lemma string_list_call o f l gs xs m :
  adapt_string_list o f = Some l -> well_named f l -> result_fits f ->
  grouped o (f_params f) gs -> Forall2 (fits_group m) gs xs ->
  exists x ys, strings_given (m ++ x) gs xs ys /\ forall c, call f l c xs m = bind (c ys (m ++ x)) (handed_back f).
Proof.
  unfold adapt_string_list. destruct (_ && _); [|discriminate]. intros H WN RF G F. apply Some_eq in H. subst l.
  set (l := make_lambda _ _ _) in *. set (its := map (group_item o) (combine gs xs)).
  assert (PG : string_list_pieces o None (f_params f) =
     flat_map (fun g => match g with Pair p s => [pair_piece o p s; empty_piece] | Alone p => [pass p] end) gs).
  { apply pieces_grouped; auto. discriminate. }
  assert (LEN : length gs = length xs) by (eapply Forall2_length; eauto).
  assert (FL : forall T (h : piece -> list T), h empty_piece = [] ->
     flat_map h (string_list_pieces o None (f_params f)) = flat_map h (pieces its)).
  { intros T h HE. rewrite PG. unfold pieces, its. rewrite map_map. clear - HE LEN.
    revert xs LEN. induction gs as [|g gs IH]; intros [|x xs] LEN; cbn in LEN; try discriminate; auto.
    cbn [flat_map map combine]. rewrite flat_map_app, (IH xs) by lia. f_equal.
    destruct g; cbn; rewrite ?HE, ?app_nil_r; auto. }
  destruct (call_items group_knows its f l m) as (e & lo & x & yss & LO & AL & HE & NM & OW & CA).
  - intros it lo hi l' e m' y ys N (g & a & E1 & E2 & S). exists g, a. split; auto. split; auto. apply strings_given_app; auto.
  - unfold its. apply Forall_map. eapply combine_Forall2; [|exact F]. intros g a FG. apply group_ok; auto.
  - auto.
  - unfold l, make_lambda. cbn [l_params]. unfold new_params. apply FL. auto.
  - unfold l, make_lambda. cbn [l_input]. unfold inputs. apply FL. auto.
  - unfold l, make_lambda. cbn [l_args]. unfold args. apply FL. auto.
  - rewrite (grouped_params _ _ _ G). unfold its. clear - LEN. revert xs LEN.
    induction gs as [|g gs IH]; intros [|x xs] LEN; cbn in LEN; try discriminate; auto.
    cbn [flat_map map combine]. rewrite (IH xs) by lia. destruct g; auto.
  - discriminate.
  - unfold its. apply Forall_map. eapply combine_Forall2; [|exact F]. intros g a FG. eapply group_ok; eauto.
  - assert (XS : flat_map i_args its = xs).
    { unfold its. clear - LEN. revert xs LEN. induction gs as [|g gs IH]; intros [|x xs] LEN; cbn in LEN; try discriminate; auto.
      cbn [flat_map map combine]. rewrite (IH xs) by lia. destruct g; auto. }
    exists x, (concat yss). split.
    + unfold its in AL. clear - AL LEN. revert xs lo yss LEN AL.
      induction gs as [|g gs IH]; intros [|a xs] lo yss LEN AL; cbn in LEN; try discriminate; cbn [combine map] in AL; inversion AL as [|? hi ? ? ys yss' ? K AL']; subst.
      * constructor.
      * cbn [concat]. destruct K as (g' & a' & E1 & E2 & S).
        assert (g' = g /\ a' = a) as [-> ->].
        { destruct g; cbn in E1, E2; injection E1 as ->; destruct g'; try discriminate; injection E2; intros; subst; auto. }
        apply strings_given_cat; auto. eapply IH; eauto.
    + intros c. rewrite <- XS at 1. rewrite CA. destruct (c (concat yss) (m ++ x)) as [[r m']| |]; cbn [bind fst snd]; auto.
      apply finish_plain; auto. unfold l, make_lambda. cbn [l_end]. f_equal.
      unfold outputs. rewrite FL by auto. unfold its, pieces. rewrite map_map. clear.
      induction (combine gs xs) as [|[g a] r IH]; auto. cbn [map flat_map]. rewrite IH. destruct g; auto.
Qed.

(** ** Without size *)

Definition alone_knows : knows := fun p g lo hi e m y => exists a, g = [a] /\ strings_alone m p a y.

Lemma alone_lasting : lasting alone_knows.
Proof.
  intros p g lo hi l e m y a N (x & -> & U1 & U2). exists x. split; auto. split.
  - intros S. destruct (U1 S) as (ss & A & B). exists ss. split; auto. apply strings_app; auto.
  - intros NM. apply same_lasting; auto.
Qed.

Lemma alone_ok o m0 p a : fits_strings m0 p a ->
  piece_ok m0 alone_knows (string_list_alone_piece o p) p [a] /\ Forall2 receivable (q_new (string_list_alone_piece o p)) [a].
Proof.
  intros [F1 F2]. unfold string_list_alone_piece. destruct (is_string_list p) eqn:M.
  2:{ assert (NM : ~ string_list p). { rewrite <- string_list_spec, M. discriminate. }
      specialize (F2 NM). split.
      - intros e m A B C D E. destruct (pass_ok m0 p a (fits_not_raw _ _ _ F2) e m A B C D E) as (l & x & y & P1 & P2 & P3 & P4).
        exists l, x, y. split; auto. split; auto. split; auto. exists a. split; auto. split; [intros; contradiction|].
        intros _. eapply same_passed; eauto.
      - constructor; auto. eapply fits_receivable; eauto. }
  apply string_list_spec in M. destruct (F1 M) as (ss & ST). clear F1 F2. split.
  2:{ constructor; auto. destruct a; cbn [receivable]; auto. }
  intros e m H ND NN TT GR. inversion H as [|? ? ? ? HA _]; subst.
  destruct (held_strings _ _ _ _ _ _ _ HA GR ST) as (q & LK & RD). cbn [vector_param p_name] in LK.
  set (pc := Piece [vector_param p] (ptrs_input o p) [EData (ptrs_name p)] []) in *.
  assert (DE : q_decls pc = [ptrs_name p]).
  { unfold q_decls, pc, ptrs_input. cbn [q_input]. destruct (o_nanobind o); reflexivity. }
  rewrite DE in *. destruct (NN (ptrs_name p)) as [NE1 NI1]; [cbn; auto|].
  exists [(ptrs_name p, Some (length m, []))], [VVec (map VCStr ss)], (AVal (VItems (map VCStr ss))).
  cbn [app]. split; [apply (run_ptrs o p e m q ss); auto|]. split; [intros n [<-|[]]; cbn; auto|]. split.
  - cbn [pc q_args give]. unfold give1. cbn [eval_value eval_place]. rewrite lookup_head, read_last.
    destruct (by_ref p); auto.
  - exists a. split; auto. split; [|intros; contradiction]. intros _. exists ss. split; auto.
    eapply strings_grown; [|exact ST]. apply grown_app. auto.
Qed.

Lemma string_list_alone_call o f l xs m :
  adapt_string_list_alone o f = Some l -> well_named f l -> result_fits f -> Forall2 (fits_strings m) (f_params f) xs ->
  exists x ys, Forall3 (strings_alone (m ++ x)) (f_params f) xs ys /\
    forall c, call f l c xs m = bind (c ys (m ++ x)) (handed_back f).
Proof.
  unfold adapt_string_list_alone. destruct (_ && _); [|discriminate]. intros H WN RF F. apply Some_eq in H. subst l.
  apply call_singles with (Q := alone_knows); auto.
  - apply alone_lasting.
  - intros p. unfold string_list_alone_piece. destruct (is_string_list p); auto.
  - intros p a lo hi e m' y _ (b & E & U). injection E as <-. auto.
  - eapply Forall2_impl; [|exact F]. intros p a. apply alone_ok.
Qed.
