From Verif Require Import PyStr PyStrLemmas PyDict TypeTextModel TypeTextProofs LambdaModel LambdaSpec AdapterModel AdapterSpec LambdaProofs.
(** The adapters which give one argument for each parameter, and do nothing after the call. *)

Lemma finish_plain f l e r m :
  l_end l = Ordinary [] -> l_return l = f_return f -> result_fits f -> well_named f l ->
  (forall n, In n (map fst e) -> In n (names_of f l)) -> finish f l e r m = handed_back f (r, m).
Proof.
  intros E RT RF [_ _ _ _ WR] NM. unfold finish, handed_back. rewrite E in *. cbn [run bind fst snd].
  destruct (returns_void f) eqn:V; auto.
  rewrite bound_not_In by (intros C; apply (WR eq_refl); auto).
  destruct (f_returns_ref f) eqn:RR; [destruct r; auto|].
  assert (ref_type (lambda_return_text l) = false) as ->.
  { unfold lambda_return_text. rewrite RT. apply RF. auto. }
  destruct r; auto.
Qed.

Lemma same_passed p a m e lo hi y : passed_on p [a] lo hi e m y -> same m p a y.
Proof. intros (x & E & H). injection E as <-. auto. Qed.

Lemma fits_receivable m p a : fits m p a -> receivable p a.
Proof. destruct a; cbn; tauto. Qed.
Lemma fits_older m p a : fits m p a -> older (length m) a.
Proof. destruct a; cbn; tauto. Qed.
Lemma fits_not_raw m p a : fits m p a -> forall v, a = AVal v -> forall l, v <> VRaw l.
Proof. intros F v ->. exact F. Qed.

Lemma group_args {P : param -> arg -> Prop} (h : param -> list param) ps xs : Forall2 P (flat_map h ps) xs ->
  exists gs, xs = concat gs /\ Forall2 (fun p g => Forall2 P (h p) g) ps gs.
Proof.
  revert xs. induction ps as [|p ps IH]; cbn; intros xs F.
  - inversion F. exists []. split; auto.
  - apply Forall2_app_inv_l in F. destruct F as (a & b & Fa & Fb & ->).
    destruct (IH _ Fb) as (gs & -> & G). exists (a :: gs). split; auto.
Qed.

Lemma new_params_map (pc : param -> piece) ps : new_params (map pc ps) = flat_map (fun p => q_new (pc p)) ps.
Proof. unfold new_params. apply flat_map_map. Qed.

Lemma no_outputs (pc : param -> piece) ps : (forall p, q_output (pc p) = []) -> outputs (map pc ps) = [].
Proof. intros H. unfold outputs. induction ps; cbn; auto. rewrite H. auto. Qed.

Lemma concat_singles {A} (xs : list A) : concat (map (fun a => [a]) xs) = xs.
Proof. induction xs; cbn; congruence. Qed.

Lemma Forall2_singles {A B} (P : A -> list B -> Prop) l xs :
  Forall2 (fun p a => P p [a]) l xs -> Forall2 P l (map (fun a => [a]) xs).
Proof. intros F. induction F; cbn; constructor; auto. Qed.

(** A lambda made of one piece with one new parameter for each parameter. *)
Lemma call_singles Q pc suffix f m xs (K : mem -> param -> arg -> arg -> Prop) :
  let l := make_lambda f suffix (map pc (f_params f)) in
  lasting Q -> (forall p, q_output (pc p) = []) ->
  (forall p a lo hi e m' y, length m <= lo -> Q p [a] lo hi e m' y -> K m' p a y) ->
  Forall2 (fun p a => piece_ok m Q (pc p) p [a] /\ Forall2 receivable (q_new (pc p)) [a]) (f_params f) xs ->
  well_named f l -> result_fits f ->
  exists x ys, Forall3 (K (m ++ x)) (f_params f) xs ys /\
    forall c, call f l c xs m = bind (c ys (m ++ x)) (handed_back f).
Proof.
  intros l LA NO KQ F WN RF.
  destruct (call_each Q pc (map (fun a => [a]) xs) f l m) as (e & lo & x & ys & LO & EA & HE & NM & OW & CA); auto.
  - apply Forall2_singles. eapply Forall2_impl; [|exact F]. cbv beta. tauto.
  - discriminate.
  - apply Forall2_singles. eapply Forall2_impl; [|exact F]. cbv beta. tauto.
  - exists x, ys. split.
    + assert (L : length (f_params f) = length xs) by (eapply Forall2_length; eauto).
      clear - EA KQ L LO. revert xs ys lo L LO EA. induction (f_params f) as [|p ps IH]; intros [|a xs] ys lo L LO EA;
        cbn in L; try discriminate; inversion EA; subst; constructor.
      * eapply KQ; [|eassumption]. lia.
      * eapply IH with (lo := hi); [lia|lia|auto].
    + intros c. rewrite <- (concat_singles xs) at 1. rewrite CA.
      destruct (c ys (m ++ x)) as [[r m']| |]; cbn [bind fst snd]; auto.
      apply finish_plain; auto. unfold l, make_lambda. cbn [l_end]. rewrite no_outputs; auto.
Qed.

(** ** Excluded parameters *)

Lemma shall_exclude_spec o p : shall_exclude o p = true <-> hidden o p.
Proof.
  unfold shall_exclude, hidden, has_default. rewrite andb_true_iff, orb_true_iff.
  destruct (p_default p); split; intros [A B]; split; auto; try discriminate; congruence.
Qed.

Lemma without_filter {A} (P : A -> Prop) b l : (forall a, b a = true <-> P a) -> without P l (filter (fun a => negb (b a)) l).
Proof.
  intros H. induction l as [|a l IH]; cbn; [constructor|]. destruct (b a) eqn:E; cbn.
  - apply without_in; auto. apply H. auto.
  - apply without_out; auto. rewrite <- H, E. discriminate.
Qed.

Lemma exclude_signature o f l : adapt_exclude_params o f = Some l -> without (hidden o) (f_params f) (l_params l).
Proof.
  unfold adapt_exclude_params. destruct (existsb _ _); [|discriminate]. intros H. apply Some_eq in H. subst l.
  cbn [l_params make_lambda]. rewrite new_params_map.
  replace (flat_map (fun p => q_new (exclude_piece o p)) (f_params f))
    with (filter (fun p => negb (shall_exclude o p)) (f_params f)).
  - apply without_filter. apply shall_exclude_spec.
  - induction (f_params f) as [|p ps IH]; auto. cbn [filter flat_map]. unfold exclude_piece at 1.
    destruct (shall_exclude o p); cbn; congruence.
Qed.

Lemma exclude_applies o f : (exists p, In p (f_params f) /\ hidden o p) <-> exists l, adapt_exclude_params o f = Some l.
Proof.
  unfold adapt_exclude_params. destruct (existsb _ _) eqn:E.
  - split; [eauto|]. intros _. apply existsb_exists in E. destruct E as (p & I & H). exists p. split; auto.
    apply shall_exclude_spec. auto.
  - split; [|intros [l H]; discriminate]. intros (p & I & H). apply shall_exclude_spec in H.
    assert (existsb (shall_exclude o) (f_params f) = true) by (apply existsb_exists; eauto). congruence.
Qed.

Definition exclude_knows (o : options) : knows := fun p g lo hi e m y =>
  if shall_exclude o p then g = [] /\ y = AVal (VDefault (p_default p)) else passed_on p g lo hi e m y.

Lemma exclude_call o f l xs m :
  adapt_exclude_params o f = Some l -> well_named f l -> result_fits f -> Forall2 (fits m) (l_params l) xs ->
  exists x ys, with_defaults (hidden o) (m ++ x) (f_params f) xs ys /\
    forall c, call f l c xs m = bind (c ys (m ++ x)) (handed_back f).
Proof.
  unfold adapt_exclude_params. destruct (existsb _ _); [|discriminate]. intros H WN RF F. apply Some_eq in H. subst l.
  set (l := make_lambda _ _ _) in *. cbn [l l_params make_lambda] in F. rewrite new_params_map in F.
  destruct (group_args _ _ _ F) as (gs & -> & G).
  destruct (call_each (exclude_knows o) (exclude_piece o) gs f l m) as (e & lo & x & ys & LO & EA & HE & NM & OW & CA); auto.
  - intros p g lo hi l' e m' y a N. unfold exclude_knows. destruct (shall_exclude o p); auto.
    apply passed_on_lasting. auto.
  - eapply Forall2_impl; [|exact G]. cbv beta. intros p g FG. unfold exclude_piece in *.
    destruct (shall_exclude o p) eqn:S.
    + cbn in FG. inversion FG; subst. intros e m' _ _ _ T _. exists [], [], (AVal (VDefault (p_default p))).
      cbn [app]. rewrite app_nil_r. cbn [q_input run q_args give]. split; auto. split; [intros n []|]. split.
      * assert (V : eval_value e m' (EText (p_default p)) = Some (VDefault (p_default p))).
        { cbn. assert (captured (p_default p) e = false) as ->; auto.
          unfold captured. apply not_true_is_false. intros C. apply existsb_exists in C. destruct C as (w & W & B).
          apply bound_In in B. apply (T (p_default p) w); auto.
          - cbn. auto.
          - apply in_app_iff. auto. }
        unfold give1. rewrite V. cbn [eval_place]. destruct (by_ref p); auto.
      * unfold exclude_knows. rewrite S. auto.
    + cbn in FG. inversion FG as [|? a ? ? FA FN]; subst. inversion FN; subst.
      pose proof (pass_ok m p a (fits_not_raw _ _ _ FA)) as PO.
      intros e m' A B C D E. destruct (PO e m' A B C D E) as (l' & x & y & P1 & P2 & P3 & P4).
      exists l', x, y. split; auto. split; auto. split; auto. unfold exclude_knows. rewrite S. auto.
  - discriminate.
  - eapply Forall2_impl; [|exact G]. cbv beta. intros p g FG. eapply Forall2_impl; [|exact FG]. intros. eapply fits_receivable; eauto.
  - exists x, ys. split.
    + clear - EA. revert gs ys lo EA. induction (f_params f) as [|p ps IH]; intros gs ys lo EA;
        inversion EA as [|? ? ? ? ? ? ? ? ? H5 ?]; subst; cbn [concat]; [constructor|]. unfold exclude_knows in H5. destruct (shall_exclude o p) eqn:S.
      * destruct H5 as [-> ->]. apply wd_hidden; eauto. apply shall_exclude_spec. auto.
      * destruct H5 as (a & -> & H5). apply wd_shown; eauto.
        -- rewrite <- shall_exclude_spec, S. discriminate.
    + intros c. rewrite CA. destruct (c ys (m ++ x)) as [[r m']| |]; cbn [bind fst snd]; auto.
      apply finish_plain; auto. unfold l, make_lambda. cbn [l_end]. rewrite no_outputs; auto.
      intros p. unfold exclude_piece. destruct (shall_exclude o p); auto.
Qed.

(** ** Boxes *)

Lemma immutable_spec t : is_immutable t = true <-> In t immutable_types.
Proof.
  unfold is_immutable. rewrite orb_true_iff, !smem_In. change immutable_types with (numeric_types ++ [$"string"; $"std::string"; $"bool"]).
  rewrite in_app_iff. tauto.
Qed.
Lemma one_spec l x : one l x = true <-> l = [x].
Proof.
  destruct l as [|y [|z l]]; cbn; try (split; [discriminate|intros H; discriminate H]).
  split; intros H.
  - apply seqb_true in H. congruence.
  - injection H as ->. apply seqb_refl.
Qed.
Lemma const_spec p : is_const_decl p = true <-> In $"const" (specifiers (p_type p)).
Proof. unfold is_const_decl. apply smem_In. Qed.
Lemma negb_spec b P : (b = true <-> P) -> negb b = true <-> ~ P.
Proof. destruct b; cbn; intros H; split; try discriminate; intuition congruence. Qed.
Lemma pointer_spec p : is_pointer p = true <-> to_pointer p.
Proof. apply one_spec. Qed.
Lemma modifiable_spec p : is_modifiable p = true <-> modified p.
Proof.
  unfold is_modifiable, modified, bare_name. rewrite !andb_true_iff, orb_true_iff, immutable_spec, pointer_spec, one_spec.
  rewrite (negb_spec _ _ (const_spec p)). unfold to_reference. tauto.
Qed.
Lemma null_default_spec p : null_default p = true <-> p_default p = $"NULL" \/ p_default p = $"nullptr".
Proof. unfold null_default. rewrite smem_In. cbn [In]. intuition. Qed.
Lemma optional_spec p : is_optional p = true <-> nullable p.
Proof. unfold is_optional, nullable. rewrite andb_true_iff, pointer_spec, null_default_spec. tauto. Qed.

Lemma not_both p : to_pointer p -> to_reference p -> False.
Proof. unfold to_pointer, to_reference. intros A B. rewrite A in B. discriminate. Qed.

(** *** Which types are references *)

Lemma ref_type_snoc s c : ref_type (s ++ [c]) = Ascii.eqb c "&"%char.
Proof.
  unfold ref_type, endswith. rewrite rev_app_distr. change (rev $"&") with ["&"%char]. cbn [rev app startswith].
  rewrite andb_true_r. apply Ascii.eqb_sym.
Qed.

Lemma joined_ends sep l x : x <> [] -> exists pre, join_remove_empty sep (l ++ [x]) = pre ++ x.
Proof.
  intros NE. unfold join_remove_empty. rewrite filter_app. cbn [filter]. destruct x as [|c x]; [congruence|].
  generalize (filter (fun s => match s with [] => false | _ => true end) l). intros k.
  induction k as [|a k IH].
  - exists []. auto.
  - destruct IH as [pre IH]. destruct k as [|b k].
    + exists (a ++ sep). cbn. rewrite app_assoc. auto.
    + exists (a ++ sep ++ pre). cbn [app join] in *. rewrite IH, !app_assoc. auto.
Qed.

Lemma pointer_not_ref t : modifiers t = [$"*"] -> ref_type (type_text t) = false.
Proof.
  intros M. unfold type_text, str_code. cbv zeta. destruct (2 <? _); [reflexivity|].
  destruct (list_count $"const" (specifiers t) =? 2).
  - change ($" const") with ($" cons" ++ ["t"%char]). rewrite app_assoc, ref_type_snoc. auto.
  - rewrite M. change (join_remove_empty $" " [$"*"]) with $"*".
    destruct (joined_ends $" " [join_remove_empty $" " (specifiers t); join $" " (typenames t)] $"*") as [pre E]; [discriminate|].
    cbn [app] in E. etransitivity; [exact (f_equal ref_type E)|]. change $"*" with ["*"%char]. rewrite ref_type_snoc. auto.
Qed.

Lemma count_not_In l : ~ In $"const" l -> list_count $"const" l = 0.
Proof.
  unfold list_count. induction l as [|a l IH]; cbn [filter]; auto. intros H.
  destruct (seqb $"const" a) eqn:E.
  - apply seqb_true in E. subst. cbn in H. tauto.
  - apply IH. cbn in H. tauto.
Qed.

Lemma reference_is_ref t : ~ In $"const" (specifiers t) -> modifiers t = [$"&"] -> ref_type (type_text t) = true.
Proof.
  intros NC M. unfold type_text, str_code. cbv zeta. rewrite count_not_In by auto. cbn [Nat.ltb Nat.leb Nat.eqb].
  rewrite M. change (join_remove_empty $" " [$"&"]) with $"&".
  destruct (joined_ends $" " [join_remove_empty $" " (specifiers t); join $" " (typenames t)] $"&") as [pre E]; [discriminate|].
  cbn [app] in E. etransitivity; [exact (f_equal ref_type E)|]. change $"&" with ["&"%char]. rewrite ref_type_snoc. auto.
Qed.

Lemma update_last {A} (l : list A) v w : update (l ++ [v]) (length l) w = Some (l ++ [w]).
Proof. induction l; cbn; auto. rewrite IHl. auto. Qed.
Lemma write_last m v w : write (m ++ [v]) (length m, []) w = Some (m ++ [w]).
Proof.
  unfold write. cbn [fst snd]. rewrite nth_error_app2, Nat.sub_diag by lia. cbn [nth_error set_path]. apply update_last.
Qed.

Lemma same_lasting p m y a b : same m p a b -> same (m ++ y) p a b.
Proof.
  unfold same. destruct a; auto. destruct (by_ref p); auto. intros (q & E & R). exists q. split; auto.
  apply read_app. auto.
Qed.

(** The name of a parameter is still its name after a declaration. *)
Lemma lookup_after n p e k q : ~ In n (map fst e) -> lookup k e = Some q -> lookup k ((n, Some p) :: e) = Some q.
Proof. intros N L. apply (lookup_app [(n, Some p)]); auto. apply new_to_one. auto. Qed.

Definition boxed_knows : knows := fun p g lo hi e m y => exists a, g = [a] /\ unboxed m p a y.

Lemma boxed_ok m0 p a : fits_boxed m0 p a ->
  piece_ok m0 boxed_knows (boxed_piece p) p [a] /\ Forall2 receivable (q_new (boxed_piece p)) [a].
Proof.
  intros [F1 F2]. unfold boxed_piece. destruct (is_modifiable p) eqn:M.
  2:{ assert (NM : ~ modified p). { rewrite <- modifiable_spec, M. discriminate. }
      specialize (F1 NM). split.
      - intros e m A B C D E. destruct (pass_ok m0 p a (fits_not_raw _ _ _ F1) e m A B C D E) as (l & x & y & P1 & P2 & P3 & P4).
        exists l, x, y. split; auto. split; auto. split; auto. exists a. split; auto. split; [|intros; contradiction].
        intros _. eapply same_passed; eauto.
      - constructor; auto. eapply fits_receivable; eauto. }
  apply modifiable_spec in M. specialize (F2 M). destruct F2 as (NA & FO & FR). clear F1.
  set (n := p_name p ++ $"_boxed_value").
  destruct (is_optional p) eqn:O.
  - apply optional_spec in O. specialize (FO O). clear FR. destruct O as [PT _].
    assert (NR : ref_type (type_text (p_type p)) = false) by (apply pointer_not_ref; auto).
    assert (BR : by_ref p = false). { unfold by_ref. rewrite NA. auto. }
    split.
    2:{ constructor; auto. cbn [receivable]. destruct FO as [->|(q & -> & _)]; exact I. }
    intros e m H ND NN TT GR. inversion H as [|? ? ? ? [c [LK HC]] _]; subst. cbn [p_name with_default with_type] in LK.
    destruct (NN n) as [NE NI]; [cbn; auto|].
    assert (L1 : lookup n ((n, Some (length m, [])) :: e) = Some (length m, [])) by apply lookup_head.
    assert (L2 : lookup (p_name p) ((n, Some (length m, [])) :: e) = Some c) by (apply lookup_after; auto).
    assert (G : forall w, load (m ++ [w]) (length m, []) = Some w ->
                give ((n, Some (length m, [])) :: e) (m ++ [w]) [p] [EName n] = Some [AVal w]).
    { intros w W. cbn [give]. unfold give1. rewrite BR. cbn [eval_value eval_place]. rewrite L1, W. auto. }
    cbn [q_input q_args run]. unfold run1 at 1. rewrite NR. cbn [eval_value]. rewrite alloc_new by auto.
    cbn [of_option bind fst snd run1 eval_cond]. rewrite L2.
    destruct FO as [->|(q & -> & [v BX])].
    + destruct HC as (RD & _ & _). rewrite (read_app _ [VNull] _ _ RD). cbn [bind fst snd].
      exists [(n, Some (length m, []))], [VNull], (AVal VNull). split; auto. split; [intros k [<-|[]]; cbn; auto|].
      split; [apply G; unfold load; rewrite read_last; auto|].
      exists (AVal VNull). split; auto. split; [intros; contradiction|]. intros _. split; auto. intros q [E|E]; discriminate.
    + destruct HC as (RD & _ & _). rewrite (read_app _ [VNull] _ _ RD). unfold assign. cbn [eval_place eval_value].
      rewrite L1, L2, (read_app _ [VNull] _ _ RD), (read_app _ [VNull] _ _ (grown_read _ _ _ _ GR BX)). cbn [option_map].
      rewrite write_last. cbn [option_map of_option bind fst snd].
      exists [(n, Some (length m, []))], [VPtr (at_ q Field)], (AVal (VPtr (at_ q Field))).
      split; auto. split; [intros k [<-|[]]; cbn; auto|]. split; [apply G; unfold load; rewrite read_last; auto|].
      exists (AVal (VPtr q)). split; auto. split; [intros; contradiction|]. intros _. split; [discriminate|].
      intros q' [E|E]; [|discriminate]. injection E as <-. split; auto. intros R. destruct (not_both p); auto.
  - assert (NO : ~ nullable p). { rewrite <- optional_spec, O. discriminate. }
    specialize (FR NO). destruct FR as (q & -> & [v BX]). clear FO.
    assert (NB : by_ref (with_type p (CType [boxed_type_name (bare_name (p_type p))] [] [$"&"])) = true).
    { unfold by_ref, with_type. cbn [p_array p_type]. rewrite NA. apply reference_is_ref; auto. }
    split.
    2:{ constructor; auto. }
    intros e m H ND NN TT GR. inversion H as [|? ? ? ? [c [LK HC]] _]; subst. cbn [p_name with_type] in LK.
    destruct HC as [_ ->]. destruct (NN n) as [NE NI]; [cbn; auto|].
    assert (BX' : read m q = Some (VBox v)) by (eapply grown_read; eauto).
    cbn [q_input q_args run]. destruct M as (M1 & M2 & M3).
    destruct (is_pointer p) eqn:PT.
    + apply pointer_spec in PT.
      assert (NR : ref_type (type_text (p_type p)) = false) by (apply pointer_not_ref; auto).
      assert (BR : by_ref p = false). { unfold by_ref. rewrite NA. auto. }
      unfold run1 at 1. rewrite NR. cbn [eval_value eval_place]. rewrite LK, BX'. cbn [option_map].
      rewrite alloc_new by auto. cbn [of_option bind fst snd].
      exists [(n, Some (length m, []))], [VPtr (at_ q Field)], (AVal (VPtr (at_ q Field))).
      split; auto. split; [intros k [<-|[]]; cbn; auto|]. split.
      { cbn [give app]. unfold give1. rewrite BR. cbn [eval_value eval_place]. rewrite lookup_head. unfold load.
        rewrite read_last. auto. }
      exists (ARef q). split; auto. split; [intros C; exfalso; apply C; repeat split; auto|]. intros _. split; [discriminate|].
      intros q' [E|E]; [discriminate|]. injection E as <-. split; auto. intros R. destruct (not_both p); auto.
    + assert (RF : to_reference p).
      { destruct M3 as [M3|M3]; auto. apply pointer_spec in M3. congruence. }
      assert (NR : ref_type (type_text (p_type p)) = true) by (apply reference_is_ref; auto).
      assert (BR : by_ref p = true). { unfold by_ref. rewrite NA. auto. }
      unfold run1 at 1. rewrite NR. cbn [eval_place]. rewrite LK, BX'. rewrite declare_new by auto.
      cbn [option_map of_option bind fst snd].
      exists [(n, Some (at_ q Field))], [], (ARef (at_ q Field)). cbn [app]. rewrite app_nil_r.
      split; auto. split; [intros k [<-|[]]; cbn; auto|]. split.
      { cbn [give]. unfold give1. rewrite BR. cbn [eval_place]. rewrite lookup_head. auto. }
      exists (ARef q). split; auto. split; [intros C; exfalso; apply C; repeat split; auto|]. intros _. split; [discriminate|].
      intros q' [E|E]; [discriminate|]. injection E as <-. split; auto. intros R. destruct (not_both p); auto.
Qed.

Lemma boxed_lasting : lasting boxed_knows.
Proof.
  intros p g lo hi l e m y a N (x & -> & U1 & U2). exists x. split; auto. split; auto.
  intros NM. apply same_lasting; auto.
Qed.

Lemma boxed_call o f l xs m :
  adapt_boxed o f = Some l -> well_named f l -> result_fits f -> Forall2 (fits_boxed m) (f_params f) xs ->
  exists x ys, Forall3 (unboxed (m ++ x)) (f_params f) xs ys /\
    forall c, call f l c xs m = bind (c ys (m ++ x)) (handed_back f).
Proof.
  unfold adapt_boxed. destruct (_ && _); [|discriminate]. intros H WN RF F. apply Some_eq in H. subst l.
  apply call_singles with (Q := boxed_knows); auto.
  - apply boxed_lasting.
  - intros p. unfold boxed_piece. destruct (is_modifiable p); auto. destruct (is_optional p); auto.
  - intros p a lo hi e m' y _ (b & E & U). injection E as <-. auto.
  - eapply Forall2_impl; [|exact F]. intros p a. apply boxed_ok.
Qed.

Lemma boxed_applies o f : (o_boxed o (f_name f) = true /\ exists p, In p (f_params f) /\ modified p) <->
  exists l, adapt_boxed o f = Some l.
Proof.
  unfold adapt_boxed. destruct (o_boxed o (f_name f)); cbn [andb].
  2:{ split; [intros [A _]; discriminate|intros [l A]; discriminate]. }
  destruct (existsb _ _) eqn:E.
  - split; [eauto|]. intros _. split; auto. apply existsb_exists in E. destruct E as (p & I & H). exists p.
    split; auto. apply modifiable_spec. auto.
  - split; [|intros [l H]; discriminate]. intros (_ & p & I & H). apply modifiable_spec in H.
    assert (existsb is_modifiable (f_params f) = true) by (apply existsb_exists; eauto). congruence.
Qed.
