From Verif Require Import PyStr PyStrLemmas PyDict PyNum TypeTextModel TypeTextProofs LambdaModel LambdaSpec AdapterModel AdapterSpec
  LambdaProofs AdapterProofs AdapterProofs3 AdapterProofs4.
(** Forced lambdas and variadic functions. *)

Lemma force_call f xs m : well_named f (adapt_force_lambda f) -> result_fits f -> Forall2 (fits m) (f_params f) xs ->
  exists x ys, Forall3 (same (m ++ x)) (f_params f) xs ys /\
    forall c, call f (adapt_force_lambda f) c xs m = bind (c ys (m ++ x)) (handed_back f).
Proof.
  intros WN RF F. apply call_singles with (Q := passed_on); auto.
  - apply passed_on_lasting.
  - intros p a lo hi e m' y _ U. eapply same_passed; eauto.
  - eapply Forall2_impl; [|exact F]. cbv beta. intros p a FA. split; [apply pass_ok; eapply fits_not_raw; eauto|].
    constructor; auto. eapply fits_receivable; eauto.
Qed.

Lemma dots_not_ref t : modifiers t = [$"..."] -> ref_type (type_text t) = false.
Proof.
  intros M. unfold type_text, str_code. cbv zeta. destruct (2 <? _); [reflexivity|].
  destruct (list_count $"const" (specifiers t) =? 2).
  - change ($" const") with ($" cons" ++ ["t"%char]). rewrite app_assoc, ref_type_snoc. auto.
  - rewrite M. change (join_remove_empty $" " [$"..."]) with $"...".
    destruct (joined_ends $" " [join_remove_empty $" " (specifiers t); join $" " (typenames t)] $"...") as [pre E]; [discriminate|].
    cbn [app] in E. etransitivity; [exact (f_equal ref_type E)|]. change $"..." with ($".." ++ ["."%char]).
    rewrite app_assoc, ref_type_snoc. auto.
Qed.

Lemma chars_not_ref t : In (type_text t) [$"const char *"; $"const char * const"] -> ref_type (type_text t) = false.
Proof. intros [<-|[<-|[]]]; reflexivity. Qed.

Lemma by_value p : ref_type (type_text (p_type p)) = false -> by_ref p = false.
Proof. unfold by_ref. destruct (p_array p); auto. Qed.

Lemma variadic_shape o f l : adapt_variadic o f = Some l ->
  exists firsts b v, like_printf f firsts b v /\
    l = make_lambda f $"_adapt_variadic_format"
          (map pass firsts ++ [Piece [b] [] [ELit $"%s"] []; Piece [] [] [EName (p_name b)] []]).
Proof.
  unfold adapt_variadic. destruct (rev (f_params f)) as [|v [|b r]] eqn:R; try discriminate.
  destruct (_ && _) eqn:B; [|discriminate]. intros H. apply Some_eq in H. subst l. exists (rev r), b, v. split; auto.
  apply andb_true_iff in B. destruct B as [B1 B2]. rewrite smem_In in B2.
  split; [|split; auto]. { rewrite <- (rev_involutive (f_params f)), R. cbn [rev]. rewrite <- app_assoc. auto. }
  unfold is_variadic in B1. destruct (typenames (p_type v)); [|discriminate]. split; auto. apply one_spec. auto.
Qed.

Lemma variadic_applies o f : (exists firsts b v, like_printf f firsts b v) <-> exists l, adapt_variadic o f = Some l.
Proof.
  split.
  - intros (firsts & b & v & E & B & T & M). unfold adapt_variadic. rewrite E, rev_app_distr. cbn [rev app].
    unfold is_variadic. rewrite T, M. cbn [one]. rewrite seqb_refl, (proj2 (smem_In _ _) B). cbn [andb]. eauto.
  - intros (l & H). apply variadic_shape in H. destruct H as (a & b & v & H & _). eauto.
Qed.

Definition format_item (b v : param) (a : arg) : item :=
  Item [b; v] (Piece [b] [] [ELit $"%s"; EName (p_name b)] []) [a].

Definition format_knows : relation := fun it lo hi e m ys =>
  match i_old it with
  | [p] => exists a y, i_args it = [a] /\ ys = [y] /\ same m p a y
  | _ => exists a, i_args it = [a] /\ ys = [AVal (VLit $"%s"); a]
  end.

Lemma variadic_call o f l xs a m :
  adapt_variadic o f = Some l -> well_named f l -> result_fits f ->
  forall firsts b v, like_printf f firsts b v ->
  Forall2 (fits m) firsts xs -> fits m b a ->
  exists x ys, Forall3 (same (m ++ x)) firsts xs ys /\
    forall c, call f l c (xs ++ [a]) m = bind (c (ys ++ [AVal (VLit $"%s"); a]) (m ++ x)) (handed_back f).
Proof.
  intros H WN RF firsts b v P F FA. apply variadic_shape in H. destruct H as (firsts' & b' & v' & P' & ->).
  destruct P as (E & B & T & M). destruct P' as (E' & _).
  assert (firsts' = firsts /\ b' = b /\ v' = v) as (-> & -> & ->).
  { rewrite E in E'. change [b; v] with ([b] ++ [v]) in E'. change [b'; v'] with ([b'] ++ [v']) in E'.
    rewrite !app_assoc in E'. apply app_inj_tail in E'. destruct E' as [E' ->]. apply app_inj_tail in E'. destruct E'; auto. }
  assert (NB : by_ref b = false). { apply by_value, chars_not_ref. auto. }
  assert (NV : by_ref v = false). { apply by_value, dots_not_ref. auto. }
  assert (AV : exists w, a = AVal w).
  { destruct a as [q|w]; eauto. cbn in FA. rewrite NB in FA. destruct FA. discriminate. }
  destruct AV as [w ->]. cbn in FA.
  set (l := make_lambda _ _ _) in *.
  set (its := map (fun pa => Item [fst pa] (pass (fst pa)) [snd pa]) (combine firsts xs) ++ [format_item b v (AVal w)]).
  assert (LEN : length firsts = length xs) by (eapply Forall2_length; eauto).
  assert (PI : pieces its = map pass firsts ++ [Piece [b] [] [ELit $"%s"; EName (p_name b)] []]).
  { unfold its, pieces. rewrite map_app, map_map. f_equal. clear - LEN. revert xs LEN.
    induction firsts as [|p r IH]; intros [|x xs] LEN; cbn in LEN; try discriminate; auto.
    cbn. f_equal. apply (IH xs). lia. }
  assert (AR : flat_map i_args its = xs ++ [AVal w]).
  { unfold its. rewrite flat_map_app. f_equal. clear - LEN. revert xs LEN.
    induction firsts as [|p r IH]; intros [|x xs] LEN; cbn in LEN; try discriminate; auto.
    cbn. f_equal. apply (IH xs). lia. }
  destruct (call_items format_knows its f l m) as (e & lo & x & yss & LO & AL & HE & NM & OW & CA).
  - intros it lo hi l' e m' y ys N K. unfold format_knows in *. destruct (i_old it) as [|p [|p' r]]; auto.
    destruct K as (a & y' & E1 & E2 & S). exists a, y'. split; auto. split; auto. apply same_lasting; auto.
  - unfold its. apply Forall_app. split.
    + apply Forall_map. eapply combine_Forall2; [|exact F]. intros p a FP e m' A1 A2 A3 A4 A5. cbn [fst snd i_piece i_args i_old] in *.
      destruct (pass_ok m p a (fits_not_raw _ _ _ FP) e m' A1 A2 A3 A4 A5) as (l' & x & y & P1 & P2 & P3 & P4).
      exists l', x, [y]. split; auto. split; auto. split; auto. unfold format_knows. cbn [i_old i_args].
      exists a, y. split; auto. split; auto. eapply same_passed; eauto.
    + constructor; auto. intros e m' A1 A2 A3 A4 A5. cbn [format_item i_piece i_args i_old q_new q_input q_args] in *.
      inversion A1 as [|? ? ? ? HA _]; subst. destruct HA as (q & LK & RD & _).
      exists [], [], [AVal (VLit $"%s"); AVal w]. cbn [app run]. rewrite app_nil_r. split; auto. split; [intros n []|]. split.
      * cbn [give]. unfold give1. rewrite NB, NV. cbn [eval_value eval_place option_map]. rewrite LK, (load_not_raw _ _ _ FA RD). auto.
      * unfold format_knows. cbn [i_old i_args]. exists (AVal w). split; reflexivity.
  - auto.
  - unfold l, make_lambda. cbn [l_params]. rewrite PI. unfold new_params. rewrite !flat_map_app. auto.
  - unfold l, make_lambda. cbn [l_input]. rewrite PI. unfold inputs. rewrite !flat_map_app. auto.
  - unfold l, make_lambda. cbn [l_args]. rewrite PI. unfold args. rewrite !flat_map_app. auto.
  - rewrite E. unfold its. rewrite flat_map_app. f_equal. clear - LEN. revert xs LEN.
    induction firsts as [|p r IH]; intros [|x xs] LEN; cbn in LEN; try discriminate; auto. cbn. f_equal. apply (IH xs). lia.
  - discriminate.
  - unfold its. apply Forall_app. split.
    + apply Forall_map. eapply combine_Forall2; [|exact F]. intros p a FP. cbn [fst snd i_piece i_args pass q_new].
      constructor; auto. eapply fits_receivable; eauto.
    + constructor; auto. cbn [format_item i_piece i_args q_new]. constructor; auto. exact I.
  - assert (SH : exists ys, concat yss = ys ++ [AVal (VLit $"%s"); AVal w] /\ Forall3 (same (m ++ x)) firsts xs ys).
    { unfold its in AL. clear - AL LEN. revert xs lo yss LEN AL.
      induction firsts as [|p r IH]; intros [|a xs] lo yss LEN AL; cbn in LEN; try discriminate;
        cbn [combine map app] in AL; inversion AL as [|? hi ? ? ys yss' ? K AL']; subst.
      - inversion AL'; subst. exists []. unfold format_knows in K. cbn in K. destruct K as (a & E & ->). injection E as <-.
        cbn. split; auto. constructor.
      - unfold format_knows in K. cbn in K. destruct K as (a' & y & E1 & -> & S). injection E1 as <-.
        destruct (IH xs hi yss') as (ys & E & F); auto. exists (y :: ys). split; [|constructor; auto].
        cbn [concat app]. rewrite E. reflexivity. }
    destruct SH as (ys & SH & SF). exists x, ys. split; auto. intros c. rewrite <- AR, CA, <- SH.
    destruct (c (concat yss) (m ++ x)) as [[r m']| |]; cbn [bind fst snd]; auto.
    apply finish_plain; auto. unfold l, make_lambda. cbn [l_end]. f_equal. unfold outputs. rewrite flat_map_app.
    cbn [flat_map q_output app]. rewrite app_nil_r. clear. induction firsts; auto.
Qed.

(** ** Checking the names of a lambda by computation *)

Fixpoint distinct (l : list str) : bool := match l with [] => true | a :: r => negb (smem a r) && distinct r end.
Lemma distinct_NoDup l : distinct l = true -> NoDup l.
Proof.
  induction l as [|a r IH]; cbn; [constructor|]. rewrite andb_true_iff, negb_true_iff. intros [A B]. constructor; auto.
  rewrite <- smem_In, A. discriminate.
Qed.

Definition well_named_check (f : func) (l : lambda) : bool :=
  let ns := names_of f l in
  distinct ns && negb (smem [] ns) && forallb (fun t => forallb (fun n => negb (smem n (words t))) ns) (texts_of l)
  && negb (smem (f_qualified f) ns) && negb (smem $"lambda_result" ns) && negb (smem $"r" ns)
  && distinct (end_names (l_end l)) && forallb (fun n => negb (smem n ns)) (end_names (l_end l)).

Lemma not_smem a l : negb (smem a l) = true -> ~ In a l.
Proof. rewrite negb_true_iff, <- smem_In. congruence. Qed.

Lemma well_named_by_check f l : well_named_check f l = true -> well_named f l.
Proof.
  unfold well_named_check. cbv zeta. rewrite !andb_true_iff. intros (((((((A & B) & C) & D) & E) & G) & H) & J).
  apply not_smem in B, D, E, G. apply distinct_NoDup in A. split; auto.
  - intros t n T N. rewrite forallb_forall in C. specialize (C t T). rewrite forallb_forall in C. specialize (C n N).
    apply not_smem in C. auto.
  - destruct (l_end l) eqn:L; auto. rewrite <- L in *. split; [apply distinct_NoDup; auto|].
    intros n N. rewrite forallb_forall in J. apply not_smem. auto.
Qed.
