From Verif Require Import PyStr PyStrLemmas PyDict TypeTextModel TypeTextProofs LambdaModel LambdaSpec AdapterModel AdapterSpec
  LambdaProofs NumberProofs2 AdapterProofs.
(** Null strings, default values, and modified values given back as results. *)

(** ** Null strings *)

Lemma const_char_null_spec p : is_const_char_null p = true <-> null_string p.
Proof.
  unfold is_const_char_null, null_string. rewrite !andb_true_iff, !one_spec, const_spec, null_default_spec. tauto.
Qed.

Definition chars_knows : knows := fun p g lo hi e m y => exists a, g = [a] /\ null_or_chars m p a y.

Lemma chars_lasting : lasting chars_knows.
Proof.
  intros p g lo hi l e m y a N (x & -> & U1 & U2). exists x. split; auto. split; auto.
  intros NM. apply same_lasting; auto.
Qed.

Lemma optional_string_not_ref p :
  by_ref (with_default (with_type p (CType [$"std::optional<std::string>"] [] [])) $"std::nullopt") = false.
Proof. unfold by_ref. cbn [with_default with_type p_array p_type]. destruct (p_array p); reflexivity. Qed.

Lemma chars_ok m0 p a : fits_null_string m0 p a ->
  piece_ok m0 chars_knows (const_char_piece p) p [a] /\ Forall2 receivable (q_new (const_char_piece p)) [a].
Proof.
  intros [F1 F2]. unfold const_char_piece. destruct (is_const_char_null p) eqn:M.
  2:{ assert (NM : ~ null_string p). { rewrite <- const_char_null_spec, M. discriminate. }
      specialize (F1 NM). split.
      - intros e m A B C D E. destruct (pass_ok m0 p a (fits_not_raw _ _ _ F1) e m A B C D E) as (l & x & y & P1 & P2 & P3 & P4).
        exists l, x, y. split; auto. split; auto. split; auto. exists a. split; auto. split; [|intros; contradiction].
        intros _. eapply same_passed; eauto.
      - constructor; auto. eapply fits_receivable; eauto. }
  apply const_char_null_spec in M. specialize (F2 M). destruct F2 as (NA & FO). clear F1.
  set (n := p_name p ++ $"_adapt_default_null").
  assert (NR : ref_type (type_text (p_type p)) = false) by (apply pointer_not_ref; apply M).
  assert (BR : by_ref p = false). { unfold by_ref. rewrite NA. auto. }
  split.
  2:{ constructor; auto. cbn [receivable]. destruct FO as [->|(q & ->)]; exact I. }
  intros e m H ND NN TT GR. inversion H as [|? ? ? ? [c [LK HC]] _]; subst. cbn [p_name with_default with_type] in LK.
  destruct (NN n) as [NE NI]; [cbn; auto|].
  assert (L1 : lookup n ((n, Some (length m, [])) :: e) = Some (length m, [])) by apply lookup_head.
  assert (L2 : lookup (p_name p) ((n, Some (length m, [])) :: e) = Some c) by (apply lookup_after; auto).
  assert (G : forall w, load (m ++ [w]) (length m, []) = Some w ->
              give ((n, Some (length m, [])) :: e) (m ++ [w]) [p] [EName n] = Some [AVal w]).
  { intros w W. cbn [give]. unfold give1. rewrite BR. cbn [eval_value eval_place]. rewrite L1, W. auto. }
  cbn [q_input q_args run]. unfold run1 at 1. rewrite NR. cbn [eval_value]. rewrite alloc_new by auto.
  cbn [of_option bind fst snd run1 eval_cond]. rewrite L2.
  destruct FO as [->|(s & ->)]; destruct HC as (RD & SC & BC).
  - rewrite (read_app _ [VNull] _ _ RD). cbn [bind fst snd].
    exists [(n, Some (length m, []))], [VNull], (AVal VNull). split; auto. split; [intros k [<-|[]]; cbn; auto|].
    split; [apply G; unfold load; rewrite read_last; auto|].
    exists (AVal (VOpt None)). split; auto. split; [intros; contradiction|]. intros _. split; auto. intros q E; discriminate.
  - rewrite (read_app _ [VNull] _ _ RD). unfold assign. cbn [eval_place eval_value].
    rewrite L1, L2, (read_app _ [VNull] _ _ RD).
    assert (RD' : read (m ++ [VNull]) (at_ c Content) = Some (VAtom s)).
    { unfold read, at_. cbn [fst snd]. rewrite SC. apply (read_app _ [VNull]) in RD. unfold read in RD.
      destruct (nth_error (m ++ [VNull]) (fst c)); [|discriminate]. rewrite SC in RD. cbn in RD. apply Some_eq in RD. subst v. auto. }
    rewrite RD'. rewrite write_last. cbn [option_map of_option bind fst snd].
    exists [(n, Some (length m, []))], [VCStr s], (AVal (VCStr s)).
    split; auto. split; [intros k [<-|[]]; cbn; auto|]. split; [apply G; unfold load; rewrite read_last; auto|].
    eexists. split; [reflexivity|]. split; [intros; contradiction|]. intros _. split; [discriminate|].
    intros s' E. injection E as <-. auto.
Qed.

Lemma chars_call o f l xs m :
  adapt_const_char_null o f = Some l -> well_named f l -> result_fits f -> Forall2 (fits_null_string m) (f_params f) xs ->
  exists x ys, Forall3 (null_or_chars (m ++ x)) (f_params f) xs ys /\
    forall c, call f l c xs m = bind (c ys (m ++ x)) (handed_back f).
Proof.
  unfold adapt_const_char_null. destruct (_ && _); [|discriminate]. intros H WN RF F. apply Some_eq in H. subst l.
  apply call_singles with (Q := chars_knows); auto.
  - apply chars_lasting.
  - intros p. unfold const_char_piece. destruct (is_const_char_null p); auto.
  - intros p a lo hi e m' y _ (b & E & U). injection E as <-. auto.
  - eapply Forall2_impl; [|exact F]. intros p a. apply chars_ok.
Qed.

(** ** Default values *)

Lemma captured_false t e : (forall n, In n (map fst e) -> ~ In n (words t)) -> captured t e = false.
Proof.
  intros T. apply not_true_is_false. intros C. apply existsb_exists in C. destruct C as (w & W & B).
  apply bound_In in B. eapply T; eauto.
Qed.

Lemma before_spec c t r : ~ In c t -> before c (t ++ c :: r) = t.
Proof.
  unfold before. induction t as [|x t IH]; intros N; cbn [app split_on].
  - unfold ceqb. rewrite Ascii.eqb_refl. auto.
  - destruct (ceqb x c) eqn:E. { apply Ascii.eqb_eq in E. exfalso. apply N. left. auto. }
    pose proof (split_on_nonempty c (t ++ c :: r)) as NE. specialize (IH ltac:(intros I; apply N; right; auto)).
    destruct (split_on c (t ++ c :: r)); [congruence|]. cbn in *. congruence.
Qed.

Lemma first_occurrence (c : ascii) s : In c s -> exists t r, s = t ++ c :: r /\ ~ In c t.
Proof.
  induction s as [|x s IH]; intros I; [destruct I|]. destruct (Ascii.ascii_dec x c) as [->|N].
  - exists [], s. split; auto.
  - destruct I as [I|I]; [congruence|]. destruct (IH I) as (t & r & -> & NI). exists (x :: t), r. split; auto.
    intros [J|J]; congruence.
Qed.

Lemma without_state_spec o t : (smem t base_immutable_types || o_known_type o t) = true <-> without_state o t.
Proof. unfold without_state. rewrite orb_true_iff, smem_In. reflexivity. Qed.

Lemma is_void_spec t : is_void t = true <-> t = CType [$"void"] [] [].
Proof.
  unfold is_void. destruct t as [ns ss ms]. cbn. destruct ns as [|n [|n2 ns]], ss, ms; try (split; discriminate).
  rewrite seqb_true. split; [intros ->; auto|]. intros E. injection E. auto.
Qed.

Lemma not_true (b : bool) : b = false <-> ~ b = true.
Proof. destruct b; split; congruence. Qed.

Lemma looks_spec o w (v := strip w) : looks_like_mutable_default_value o w = true <->
  o_known_value o v = false /\ o_literal o v = false /\ ~ In v immutable_keywords /\
  (forall u, constructs v u -> ~ without_state o u).
Proof.
  unfold looks_like_mutable_default_value. fold v. destruct (o_known_value o v). { split; [discriminate|]. intros (C & _). discriminate. }
  destruct (o_literal o v). { split; [discriminate|]. intros (_ & C & _). discriminate. }
  destruct (smem v immutable_keywords) eqn:K. { apply smem_In in K. split; [discriminate|]. intros (_ & _ & C & _). contradiction. }
  assert (K' : ~ In v immutable_keywords). { rewrite <- smem_In, K. discriminate. } clear K.
  assert (G : forall t, (forall u, constructs v u <-> u = t) ->
     negb (smem t base_immutable_types || o_known_type o t) = true <->
     false = false /\ false = false /\ ~ In v immutable_keywords /\ (forall u, constructs v u -> ~ without_state o u)).
  { intros t T. rewrite negb_true_iff, not_true, without_state_spec. split.
    - intros N. repeat split; auto. intros u U. apply T in U. subst u. auto.
    - intros (_ & _ & _ & N). apply N. apply T. auto. }
  destruct (contains ["{"%char] v) eqn:B.
  - apply contains_single in B. destruct (first_occurrence _ _ B) as (t & r & E & N).
    assert (BE : before "{" v = t) by (rewrite E; apply before_spec; auto). rewrite BE. apply G. intros u. split.
    + intros (c & r' & E' & N' & [->|[-> C]]); [|contradiction]. rewrite <- BE, E'. symmetry. apply before_spec. auto.
    + intros ->. exists "{"%char, r. auto.
  - assert (B' : ~ In "{"%char v). { rewrite <- contains_single, B. discriminate. } clear B.
    destruct (contains ["("%char] v) eqn:P.
    + apply contains_single in P. destruct (first_occurrence _ _ P) as (t & r & E & N).
      assert (BE : before "(" v = t) by (rewrite E; apply before_spec; auto). rewrite BE. apply G. intros u. split.
      * intros (c & r' & E' & N' & [->|[-> C]]).
        -- exfalso. apply B'. rewrite E'. apply in_or_app. right. left. auto.
        -- rewrite <- BE, E'. symmetry. apply before_spec. auto.
      * intros ->. exists "("%char, r. auto.
    + assert (P' : ~ In "("%char v). { rewrite <- contains_single, P. discriminate. }
      split; auto. intros _. repeat split; auto. intros u (c & r & E & _ & [->|[-> _]]) _; [apply B'|apply P'];
        rewrite E; apply in_or_app; right; left; auto.
Qed.

Lemma seems_mutable_spec o p : seems_mutable o p = true <-> fresh_default o p.
Proof.
  unfold seems_mutable, fresh_default. set (t := p_type p). destruct (strip (p_default p)) as [|c v] eqn:S.
  { split; [discriminate|]. intros (C & _). congruence. }
  rewrite <- S. destruct (smem $"&&" (modifiers t) || smem $"*" (modifiers t) || smem $"..." (modifiers t) || is_void t) eqn:M.
  { split; [discriminate|]. intros (_ & A1 & A2 & A3 & A4 & _). rewrite !orb_true_iff, !smem_In, is_void_spec in M. tauto. }
  rewrite !orb_false_iff, !not_true, !smem_In, is_void_spec in M.
  destruct (negb (is_reference t && is_const_type t || negb (is_reference t))) eqn:R.
  { split; [discriminate|]. intros (_ & _ & _ & _ & _ & A & _). unfold is_reference, is_const_type in R.
    rewrite negb_true_iff, orb_false_iff, negb_false_iff, smem_In in R. destruct R as [R1 R2]. specialize (A R2).
    rewrite <- !smem_In in A. rewrite <- orb_true_iff in A. rewrite A in R1. apply smem_In in R2. rewrite R2 in R1. discriminate. }
  assert (R' : In $"&" (modifiers t) -> In $"const" (specifiers t) \/ In $"constexpr" (specifiers t)).
  { intros I. unfold is_reference, is_const_type in R. apply smem_In in I. rewrite I in R. cbn [negb andb orb] in R.
    rewrite orb_false_r, negb_false_iff, orb_true_iff, !smem_In in R. auto. }
  destruct (smem (type_text t) base_immutable_types || o_known_type o (type_text t)) eqn:W.
  { apply without_state_spec in W. split; [discriminate|]. tauto. }
  apply not_true in W. rewrite without_state_spec in W. rewrite looks_spec, strip_idem. unfold immutable_keywords. split.
  - intros H. split; [rewrite S; discriminate|]. tauto.
  - tauto.
Qed.

Definition default_knows (o : options) (m0 : mem) : knows := fun p g lo hi e m y =>
  exists a, g = [a] /\ given_or_default o m0 m p a y.

Lemma default_lasting o m0 : lasting (default_knows o m0).
Proof.
  intros p g lo hi l e m y a N (x & -> & U1 & U2). exists x. split; auto. split; auto.
  - intros NM. apply same_lasting; auto.
  - intros S v E. specialize (U2 S v E). cbv zeta in *. destruct (by_ref p); auto.
    destruct U2 as (q & A & B & C). exists q. split; auto. split; auto. apply read_app. auto.
Qed.

Lemma default_ok o m0 p a : fits_fresh o m0 p a ->
  piece_ok m0 (default_knows o m0) (mutable_piece o p) p [a] /\ Forall2 receivable (q_new (mutable_piece o p)) [a].
Proof.
  intros [F1 F2]. unfold mutable_piece. pose proof (seems_mutable_spec o p) as SM. destruct (seems_mutable o p) eqn:M.
  2:{ assert (NM : ~ fresh_default o p) by (rewrite <- SM; discriminate). specialize (F1 NM). split.
      - intros e m A B C D E. destruct (pass_ok m0 p a (fits_not_raw _ _ _ F1) e m A B C D E) as (l & x & y & P1 & P2 & P3 & P4).
        exists l, x, y. split; auto. split; auto. split; auto. exists a. split; auto. split; [|intros FR; contradiction].
        intros _. eapply same_passed; eauto.
      - constructor; auto. eapply fits_receivable; eauto. }
  assert (FR : fresh_default o p) by (apply SM; auto). destruct (F2 FR) as (v & -> & NRAW). clear F1 F2. split; [|constructor; [exact I|auto]].
  set (n := p_name p ++ $"_or_default").
  intros e m H ND NN TT GR. inversion H as [|? ? ? ? [c [LK HC]] _]; subst. cbn [p_name with_default with_type] in LK.
  destruct (NN n) as [NE NI]; [cbn; auto|]. destruct HC as (RD & SC & BC).
  assert (CP : captured (p_default p) e = false).
  { apply captured_false. intros k K. apply TT; [cbn; auto|]. apply in_app_iff. auto. }
  set (w := match v with Some w => w | None => VDefault (p_default p) end).
  assert (NW : forall l, w <> VRaw l).
  { unfold w. destruct v as [v|]; [|discriminate]. intros l ->. eapply NRAW. eauto. }
  cbn [q_input q_args run run1]. rewrite LK, RD.
  assert (E : (match v with
               | Some v => alloc n v e m
               | None => if captured (p_default p) e then None else alloc n (VDefault (p_default p)) e m
               end) = Some ((n, Some (length m, [])) :: e, m ++ [w])).
  { rewrite CP. unfold w. destruct v; apply alloc_new; auto. }
  assert (E' : (match (VOpt v) with
                | VOpt (Some v) => alloc n v e m
                | VOpt None => if captured (p_default p) e then None else alloc n (VDefault (p_default p)) e m
                | _ => None
                end) = Some ((n, Some (length m, [])) :: e, m ++ [w])).
  { destruct v; exact E. }
  cbn [p_name with_default with_type]. rewrite E'. cbn [of_option bind fst snd].
  assert (LW : load (m ++ [w]) (length m, []) = Some w).
  { apply load_not_raw; auto. apply read_last. }
  exists [(n, Some (length m, []))], [w]. cbn [app give]. unfold give1. cbn [eval_value eval_place]. rewrite lookup_head, LW.
  exists (if by_ref p then ARef (length m, []) else AVal w).
  split; auto. split; [intros k [<-|[]]; cbn; auto|]. split; [destruct (by_ref p); auto|].
  eexists. split; [reflexivity|]. split; [intros C; contradiction|]. intros _ v' E1. injection E1 as <-. fold w. cbv zeta.
  destruct (by_ref p); auto. exists (length m, []). split; auto. split; [apply read_last|]. cbn. apply grown_length. auto.
Qed.

Lemma default_call o f l xs m :
  adapt_mutable_default o f = Some l -> well_named f l -> result_fits f ->
  Forall2 (fits_fresh o m) (f_params f) xs ->
  exists x ys, Forall3 (given_or_default o m (m ++ x)) (f_params f) xs ys /\
    forall c, call f l c xs m = bind (c ys (m ++ x)) (handed_back f).
Proof.
  unfold adapt_mutable_default. destruct (_ && _); [|discriminate]. intros H WN RF F. apply Some_eq in H. subst l.
  apply call_singles with (Q := default_knows o m) (K := fun m' => given_or_default o m m'); auto.
  - apply default_lasting.
  - intros p. unfold mutable_piece. destruct (seems_mutable o p); auto.
  - intros p a lo hi e m' y _ (b & E & U). injection E as <-. auto.
  - eapply Forall2_impl; [|exact F]. intros p a. apply default_ok.
Qed.

(** ** Modified values given back *)

Lemma modifiable_array_spec o p n : is_modifiable_array o p = Some n <-> returned_array o p n.
Proof.
  unfold is_modifiable_array, returned_array. destruct (modifiers (p_type p)) as [|x l].
  2:{ split; [discriminate|]. intros (_ & _ & A & _). discriminate. }
  destruct (o_array_size o (p_array p)) as [k|].
  2:{ split; [discriminate|]. intros (_ & _ & _ & A). discriminate. }
  destruct (_ && _) eqn:E.
  - apply andb_true_iff in E. destruct E as [E1 E2]. apply immutable_spec in E1. rewrite (negb_spec _ _ (const_spec p)) in E2.
    split; [|tauto]. intros H. auto.
  - split; [discriminate|]. intros (A & B & _ & _). apply immutable_spec in A. rewrite <- (negb_spec _ _ (const_spec p)) in B.
    unfold bare_name in E. rewrite A, B in E. discriminate.
Qed.

Lemma modified_not_array o p n : modified p -> returned_array o p n -> False.
Proof.
  intros (_ & _ & [A|A]) (_ & _ & B & _); unfold to_pointer, to_reference in A; rewrite B in A; discriminate.
Qed.

Lemma returned_spec o p : (exists np, returned_param o p = Some np) <-> given_back o p.
Proof.
  unfold returned_param, given_back. destruct (is_modifiable p) eqn:M.
  - apply modifiable_spec in M. split; eauto.
  - assert (~ modified p). { rewrite <- modifiable_spec, M. discriminate. }
    destruct (is_modifiable_array o p) as [n|] eqn:A.
    + apply modifiable_array_spec in A. split; eauto.
    + split; [intros [np C]; discriminate|]. intros [C|[n C]]; [contradiction|].
      apply modifiable_array_spec in C. congruence.
Qed.

Lemma returned_name o p np : returned_param o p = Some np -> p_name np = p_name p.
Proof.
  unfold returned_param. destruct (is_modifiable p).
  - intros H. apply Some_eq in H. subst np. destruct (is_optional p); auto.
  - destruct (is_modifiable_array o p); [|discriminate]. intros H. apply Some_eq in H. subst np. auto.
Qed.

Definition return_knows (o : options) (m0 : mem) : knows := fun p g lo hi e m y =>
  exists a, g = [a] /\ (~ given_back o p -> same m p a y) /\
    (given_back o p -> exists c, lookup (p_name p) e = Some c /\ snd c = [] /\ length m0 <= fst c /\ shares m p a c y).

Lemma shares_app m x p a c y : shares m p a c y -> shares (m ++ x) p a c y.
Proof. intros (v & E & R & H). exists v. split; auto. split; [apply read_app; auto|auto]. Qed.

Lemma return_lasting o m0 : lasting (return_knows o m0).
Proof.
  intros p g lo hi l e m y a N (x & -> & U1 & U2). exists x. split; auto. split.
  - intros NM. apply same_lasting; auto.
  - intros G. destruct (U2 G) as (c & L & SC & LE & S). exists c. split; [apply lookup_app; auto|].
    split; auto. split; auto. apply shares_app. auto.
Qed.

Lemma star_not_ref t : ref_type (t ++ $" *") = false.
Proof. change ($" *") with ([" "%char] ++ ["*"%char]). rewrite app_assoc, ref_type_snoc. auto. Qed.

Lemma returned_ok o m0 p a : fits_returned o m0 p a ->
  piece_ok m0 (return_knows o m0) (returned_piece o p) p [a] /\ Forall2 receivable (q_new (returned_piece o p)) [a].
Proof.
  intros [F1 F2]. unfold returned_piece. destruct (returned_param o p) as [np|] eqn:RP.
  2:{ assert (NM : ~ given_back o p). { rewrite <- returned_spec. intros [np C]. congruence. }
      specialize (F1 NM). split.
      - intros e m A B C D E. destruct (pass_ok m0 p a (fits_not_raw _ _ _ F1) e m A B C D E) as (l & x & y & P1 & P2 & P3 & P4).
        exists l, x, y. split; auto. split; auto. split; auto. exists a. split; auto. split; [|intros; contradiction].
        intros _. eapply same_passed; eauto.
      - constructor; auto. eapply fits_receivable; eauto. }
  assert (GB : given_back o p). { apply returned_spec. eauto. }
  destruct (F2 GB) as [FA FM]. clear F1 F2. set (n := p_name p ++ $"_adapt_modifiable"). cbv zeta.
  assert (AV : exists v, a = AVal v).
  { destruct GB as [GB|[k GB]].
    - destruct (FM GB) as (_ & O1 & O2). destruct (is_optional p) eqn:O.
      + apply optional_spec in O. destruct (O1 O) as [v ->]. eauto.
      + assert (NO : ~ nullable p) by (rewrite <- optional_spec, O; discriminate). destruct (O2 NO) as (v & -> & _). eauto.
    - destruct (FA k GB) as [_ [l ->]]. eauto. }
  destruct AV as [v ->].
  split; [|constructor; [exact I|auto]].
  intros e m H ND NN TT GR. inversion H as [|? ? ? ? [c [LK HC]] _]; subst. rewrite (returned_name _ _ _ RP) in LK.
  destruct HC as (RD & SC & BC).
  assert (KN : forall l y x, new_to l e ->
     ((modified p -> ~ nullable p -> to_pointer p -> y = AVal (VPtr c)) /\
      (modified p -> to_reference p -> y = ARef c) /\
      (modified p -> nullable p -> v = VOpt None -> y = AVal VNull) /\
      (modified p -> nullable p -> (exists w, v = VOpt (Some w)) -> y = AVal (VPtr (at_ c Content))) /\
      (~ modified p -> y = AVal (VPtr (at_ c (Elem 0))))) ->
     return_knows o m0 p [AVal v] (length m) (length (m ++ x)) (l ++ e) (m ++ x) y).
  { intros l y x NT S. exists (AVal v). split; auto. split; [intros; contradiction|]. intros _.
    exists c. split; [apply lookup_app; auto|]. split; auto. split; [lia|]. exists v. split; auto. split; [|exact S].
    apply read_app. auto. }
  destruct (is_modifiable p) eqn:M.
  - apply modifiable_spec in M. destruct (FM M) as (NA & FO & FN). clear FA FM.
    destruct (is_optional p) eqn:O.
    + apply optional_spec in O. destruct (FO O) as [w EW]. injection EW as ->. clear FN FO.
      assert (PT : to_pointer p) by apply O.
      assert (NR : ref_type (type_text (p_type p)) = false) by (apply pointer_not_ref; auto).
      assert (BR : by_ref p = false). { unfold by_ref. rewrite NA. auto. }
      destruct (NN n) as [NE NI]; [cbn; auto|].
      assert (L1 : lookup n ((n, Some (length m, [])) :: e) = Some (length m, [])) by apply lookup_head.
      assert (L2 : lookup (p_name p) ((n, Some (length m, [])) :: e) = Some c) by (apply lookup_after; auto).
      assert (G : forall w, load (m ++ [w]) (length m, []) = Some w ->
                  give ((n, Some (length m, [])) :: e) (m ++ [w]) [p] [EName n] = Some [AVal w]).
      { intros w' W. cbn [give]. unfold give1. rewrite BR. cbn [eval_value eval_place]. rewrite L1, W. auto. }
      cbn [q_input q_args run]. unfold run1 at 1. rewrite NR. cbn [eval_value]. rewrite alloc_new by auto.
      cbn [of_option bind fst snd run1 eval_cond]. rewrite L2, (read_app _ [VNull] _ _ RD).
      destruct w as [w|].
      * unfold assign. cbn [eval_place eval_value]. rewrite L1, L2, (read_app _ [VNull] _ _ RD). cbn [option_map].
        rewrite write_last. cbn [option_map of_option bind fst snd].
        exists [(n, Some (length m, []))], [VPtr (at_ c Content)], (AVal (VPtr (at_ c Content))).
        split; auto. split; [intros k [<-|[]]; cbn; auto|]. split; [apply G; unfold load; rewrite read_last; auto|].
        apply KN; [apply new_to_one; auto|].
        split; [intros; contradiction|]. split; [intros _ R; destruct (not_both p); auto|].
        split; [discriminate|]. split; auto. contradiction.
      * cbn [bind fst snd].
        exists [(n, Some (length m, []))], [VNull], (AVal VNull).
        split; auto. split; [intros k [<-|[]]; cbn; auto|]. split; [apply G; unfold load; rewrite read_last; auto|].
        apply KN; [apply new_to_one; auto|].
        split; [intros; contradiction|]. split; [intros _ R; destruct (not_both p); auto|].
        split; auto. split; [intros _ _ [w C]; discriminate|]. contradiction.
    + assert (NO : ~ nullable p) by (rewrite <- optional_spec, O; discriminate).
      destruct (NN n) as [NE NI]; [destruct (is_pointer p); cbn; auto|].
      destruct (is_pointer p) eqn:PT.
      * apply pointer_spec in PT.
        assert (NR : ref_type (type_text (p_type p)) = false) by (apply pointer_not_ref; auto).
        assert (BR : by_ref p = false). { unfold by_ref. rewrite NA. auto. }
        cbn [q_input q_args run]. unfold run1 at 1. rewrite NR. cbn [eval_value eval_place]. rewrite LK. cbn [option_map].
        rewrite alloc_new by auto. cbn [of_option bind fst snd].
        exists [(n, Some (length m, []))], [VPtr c], (AVal (VPtr c)).
        split; auto. split; [intros k [<-|[]]; cbn; auto|]. split.
        { cbn [give app]. unfold give1. rewrite BR. cbn [eval_value eval_place]. rewrite lookup_head. unfold load.
          rewrite read_last. auto. }
        apply KN; [apply new_to_one; auto|].
        split; auto. split; [intros _ R; destruct (not_both p); auto|].
        split; [intros; contradiction|]. split; intros; contradiction.
      * assert (RF : to_reference p).
        { destruct M as (_ & _ & [M|M]); auto. apply pointer_spec in M. congruence. }
        assert (NR : ref_type (type_text (p_type p)) = true). { apply reference_is_ref; auto. apply M. }
        assert (BR : by_ref p = true). { unfold by_ref. rewrite NA. auto. }
        cbn [q_input q_args run]. unfold run1 at 1. rewrite NR. cbn [eval_place]. rewrite LK. rewrite declare_new by auto.
        cbn [option_map of_option bind fst snd].
        exists [(n, Some c)], [], (ARef c). cbn [app].
        split; [rewrite app_nil_r; auto|]. split; [intros k [<-|[]]; cbn; auto|]. split.
        { cbn [give]. unfold give1. rewrite BR. cbn [eval_place]. rewrite lookup_head. auto. }
        apply (KN [(n, Some c)]); [apply new_to_one; auto|].
        split; [intros _ _ R; destruct (not_both p); auto|]. split; auto.
        split; [intros; contradiction|]. split; intros; contradiction.
  - assert (NM : ~ modified p). { rewrite <- modifiable_spec, M. discriminate. }
    destruct GB as [GB|[k GB]]; [contradiction|]. destruct (FA k GB) as [NA [l EL]]. injection EL as ->. clear FA FM.
    destruct (NN n) as [NE NI]; [cbn; auto|].
    assert (NR : ref_type (type_text (p_type p) ++ $" *") = false) by apply star_not_ref.
    cbn [q_input q_args run]. unfold run1 at 1. rewrite NR. cbn [eval_value]. rewrite LK, RD. rewrite alloc_new by auto.
    cbn [of_option bind fst snd].
    exists [(n, Some (length m, []))], [VPtr (at_ c (Elem 0))].
    assert (LD : load (m ++ [VPtr (at_ c (Elem 0))]) (length m, []) = Some (VPtr (at_ c (Elem 0)))).
    { unfold load. rewrite read_last. auto. }
    cbn [app give]. unfold give1. cbn [eval_value eval_place]. rewrite lookup_head, LD. cbn [option_map].
    exists (if by_ref p then ARef (length m, []) else AVal (VPtr (at_ c (Elem 0)))).
    split; auto. split; [intros j [<-|[]]; cbn; auto|]. split; [destruct (by_ref p); auto|].
    apply (KN [(n, Some (length m, []))]); [apply new_to_one; auto|].
    split; [intros; contradiction|]. split; [intros; contradiction|]. split; [intros; contradiction|].
    split; [intros; contradiction|]. intros _.
    assert (by_ref p = false) as ->; auto. unfold by_ref. destruct (p_array p); congruence.
Qed.

Lemma returned_outs o f e m ys gs lo (l : lambda) m0 :
  each (return_knows o m0) e m lo (f_params f) gs ys -> 
  exists cs, through_cells (given_back o) m (f_params f) (concat gs) ys cs /\
    map (fun n => lookup n e) (map p_name (returned_params o (f_params f))) = map Some cs /\
    Forall (fun c => snd c = [] /\ length m0 <= fst c) cs.
Proof.
  revert lo gs ys. induction (f_params f) as [|p ps IH]; intros lo gs ys EA;
    inversion EA as [|? hi ? ? g gs' y ys' LE K EA']; subst.
  - exists []. split; [constructor|]. split; auto.
  - destruct (IH _ _ _ EA') as (cs & T & MP & FC). destruct K as (a & -> & K1 & K2).
    unfold returned_params in *. cbn [flat_map]. destruct (returned_param o p) as [np|] eqn:RP.
    + assert (GB : given_back o p) by (apply returned_spec; eauto).
      destruct (K2 GB) as (c & LK & SC & LC & SH). exists (c :: cs). split; [|split].
      * apply tc_cell; auto.
      * cbn [app map]. rewrite (returned_name _ _ _ RP), LK, MP. auto.
      * constructor; auto.
    + assert (NG : ~ given_back o p). { rewrite <- returned_spec. intros [np C]. congruence. }
      exists cs. split; [|split]; auto. apply tc_same; auto.
Qed.

Lemma all_lookups e m outs cs : map (fun n => lookup n e) outs = map Some cs ->
  map (fun n => match lookup n e with Some p => load m p | None => None end) outs = map (load m) cs.
Proof.
  revert cs. induction outs as [|n outs IH]; intros [|c cs] H; cbn in *; try discriminate; auto.
  injection H as H1 H2. rewrite H1, (IH _ H2). auto.
Qed.

Lemma returned_call o f l xs m :
  adapt_to_return o f = Some l -> well_named f l -> (returns_void f = false -> ref_type (return_text f) = false) ->
  Forall2 (fits_returned o m) (f_params f) xs ->
  exists x ys cs, through_cells (given_back o) (m ++ x) (f_params f) xs ys cs /\
    NoDup cs /\ Forall (fun c => snd c = [] /\ length m <= fst c) cs /\
    forall c, call f l c xs m = bind (c ys (m ++ x)) (with_cells f cs).
Proof.
  unfold adapt_to_return. destruct (o_to_return o (f_name f)); [|discriminate].
  destruct (returned_params o (f_params f)) as [|p0 ps0] eqn:RP; [discriminate|]. rewrite <- RP. intros H WN RF F.
  apply Some_eq in H. set (qs := map (returned_piece o) (f_params f)) in *.
  assert (WP : l_params l = new_params qs) by (subst l; auto).
  assert (WI : l_input l = inputs qs) by (subst l; auto).
  assert (WA : l_args l = args qs) by (subst l; auto).
  assert (WE : l_end l = ReturnAll (map p_name (returned_params o (f_params f)))) by (subst l; auto).
  assert (F' : Forall2 (fun p a => piece_ok m (return_knows o m) (returned_piece o p) p [a] /\ Forall2 receivable (q_new (returned_piece o p)) [a]) (f_params f) xs).
  { eapply Forall2_impl; [|exact F]. intros p a. apply returned_ok. }
  destruct (call_each (return_knows o m) (returned_piece o) (map (fun a => [a]) xs) f l m)
    as (e & lo & x & ys & LO & EA & HE & NM & OW & CA); auto.
  - apply return_lasting.
  - apply Forall2_singles. eapply Forall2_impl; [|exact F']. cbv beta. tauto.
  - rewrite WE. discriminate.
  - apply Forall2_singles. eapply Forall2_impl; [|exact F']. cbv beta. tauto.
  - destruct (returned_outs o f e (m ++ x) ys _ lo l m EA) as (cs & TC & MP & FC).
    exists x, ys, cs. rewrite concat_singles in *. split; auto. split; [|split]; auto.
    + (* distinct cells *)
      assert (OLD : Forall (Forall (older (length m))) (map (fun a => [a]) xs)).
      { clear - F. induction F as [|p a ps xs FP F IH]; cbn; constructor; auto. constructor; auto.
        destruct FP as [F1 F2]. destruct (returned_param o p) as [np|] eqn:RP.
        - assert (GB : given_back o p) by (apply returned_spec; eauto). destruct (F2 GB) as [FA FM].
          destruct GB as [GB|[k GB]].
          + destruct (FM GB) as (_ & O1 & O2). destruct (is_optional p) eqn:O.
            * apply optional_spec in O. destruct (O1 O) as [v ->]. exact I.
            * assert (NO : ~ nullable p) by (rewrite <- optional_spec, O; discriminate). destruct (O2 NO) as (v & -> & _). exact I.
          + destruct (FA k GB) as [_ [l ->]]. exact I.
        - assert (NG : ~ given_back o p). { rewrite <- returned_spec. intros [np C]. congruence. }
          eapply fits_older. exact (F1 NG). }
      assert (NDP : NoDup (map p_name (f_params f)) /\ map p_name (l_params l) = map p_name (f_params f)).
      { assert (E : map p_name (l_params l) = map p_name (f_params f)).
        { rewrite WP. unfold qs. rewrite new_params_map. clear. induction (f_params f) as [|p ps IH]; auto.
          cbn [flat_map map]. rewrite map_app, IH. unfold returned_piece.
          destruct (returned_param o p) as [np|] eqn:RP; cbn; auto. rewrite (returned_name _ _ _ RP). auto. }
        split; auto. destruct WN as [WD _ _ _ _]. unfold names_of in WD. apply NoDup_app_parts in WD.
        destruct WD as (_ & WD & _). apply NoDup_app_parts in WD. destruct WD as (WD & _ & _). rewrite <- E. auto. }
      destruct NDP as [NDP EN].
      assert (SUB : forall n, In n (map p_name (returned_params o (f_params f))) -> In n (map p_name (f_params f))).
      { intros n I. apply in_map_iff in I. destruct I as (q & <- & I). apply in_flat_map in I.
        destruct I as (p & I & J). destruct (returned_param o p) as [np|] eqn:R2; [|destruct J].
        destruct J as [<-|[]]. rewrite (returned_name _ _ _ R2). apply in_map. auto. }
      assert (NDO : NoDup (map p_name (returned_params o (f_params f)))).
      { clear - NDP. induction (f_params f) as [|p ps IH]; [constructor|]. cbn [map] in NDP. inversion NDP; subst.
        unfold returned_params in *. cbn [flat_map]. destruct (returned_param o p) as [np|] eqn:R2; auto.
        cbn [app map]. constructor; auto. rewrite (returned_name _ _ _ R2). intros I. apply H1.
        apply in_map_iff in I. destruct I as (q & <- & I). apply in_flat_map in I.
        destruct I as (p' & I & J). destruct (returned_param o p') as [np'|] eqn:R3; [|destruct J].
        destruct J as [<-|[]]. rewrite (returned_name _ _ _ R3). apply in_map. auto. }
      rewrite <- EN in SUB. clear - OW OLD MP FC NDO SUB.
      revert cs MP FC NDO SUB. induction (map p_name (returned_params o (f_params f))) as [|n outs IH];
        intros [|c cs] MP FC NDO SUB; cbn in MP; try discriminate; [constructor|].
      injection MP as M1 M2. inversion FC; subst. inversion NDO; subst.
      constructor; [|apply IH; auto; intros k K; apply SUB; right; auto].
      intros IC. assert (exists n', In n' outs /\ lookup n' e = Some c) as (n' & I' & L').
      { clear - M2 IC. revert cs M2 IC. induction outs as [|k outs IH]; intros [|d cs] M2 IC; cbn in M2; try discriminate; [destruct IC|].
        injection M2 as A B. destruct IC as [<-|IC]; [exists k; split; [left|]; auto|].
        destruct (IH _ B IC) as (n' & I' & L'). exists n'. split; [right|]; auto. }
      destruct (OW n c (SUB n (or_introl eq_refl)) M1 OLD) as [_ U].
      rewrite (U n' (SUB n' (or_intror I')) L' (proj2 H1)) in H3. contradiction.
    + intros c. rewrite CA. destruct (c ys (m ++ x)) as [[r m']| |]; cbn [bind fst snd]; auto.
      unfold finish, with_cells. rewrite WE. cbn [fst snd]. rewrite (all_lookups e m' _ _ MP).
      destruct (all_some (map (load m') cs)); auto. destruct (returns_void f) eqn:V; auto.
      rewrite (RF eq_refl), orb_false_r. rewrite bound_not_In; auto.
      intros C. apply NM in C. destruct WN as [_ _ _ _ WR]. rewrite WE in WR. apply (WR V). auto.
Qed.

(** ** The statements which hold the default values *)

Lemma holder_of o p : seems_mutable o p = true -> exists s, q_input (mutable_piece o p) = [s] /\ holder p s.
Proof.
  intros M. unfold mutable_piece. rewrite M. eexists. split; [reflexivity|]. eexists. split; [reflexivity|]. intros w specs mods E NE Sp Mo. unfold const_noref. rewrite E.
  cbn [typenames specifiers modifiers]. cbn [In] in Sp, Mo. destruct Sp as [<-|[<-|[]]], Mo as [<-|[<-|[]]]; destruct w as [|c w]; try congruence; reflexivity.
Qed.
Lemma default_holders o f l : adapt_mutable_default o f = Some l -> exists keep,
  (forall p, In p (f_params f) -> (keep p = true <-> fresh_default o p)) /\ Forall2 holder (filter keep (f_params f)) (l_input l).
Proof.
  unfold adapt_mutable_default. destruct (_ && _); [|discriminate]. intros E. injection E as <-. exists (seems_mutable o). split; [intros p _; apply seems_mutable_spec|].
  cbn [make_lambda l_input]. unfold inputs. induction (f_params f) as [|p ps IH]; [constructor|]. cbn [map flat_map filter]. destruct (seems_mutable o p) eqn:M.
  - destruct (holder_of o p M) as (s & Es & H). rewrite Es. constructor; auto.
  - unfold mutable_piece at 1. rewrite M. exact IH.
Qed.
