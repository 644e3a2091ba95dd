From Verif Require Import PyStr PyStrLemmas PyNum TypeTextModel TypeTextProofs LambdaModel LambdaSpec AdapterModel AdapterSpec
  LambdaProofs NumberProofs2 AdapterProofs AdapterProofs2 AdapterProofs3 AdapterProofs4 AdapterProofs5 SignatureSpec.
(** The parameters of the lambdas. *)

Lemma each_shown_map (shown : param -> list param -> Prop) (pc : param -> piece) ps : (forall p, In p ps -> shown p (q_new (pc p))) ->
  each_shown shown ps (new_params (map pc ps)).
Proof.
  intros H. exists (map (fun p => q_new (pc p)) ps). split.
  - induction ps; cbn; constructor; auto. apply H. left. auto. apply IHps. intros p I. apply H. right. auto.
  - rewrite new_params_map, flat_map_concat_map. auto.
Qed.

Lemma text_plus t m : t <> [] -> type_text (CType [t] [] [m]) = match m with [] => t | _ => t ++ $" " ++ m end.
Proof. intros N. destruct t; [congruence|]. destruct m; reflexivity. Qed.

Lemma text_bare t : type_text (CType [t] [] []) = t.
Proof. destruct t; reflexivity. Qed.

Lemma text_words ns : type_text (CType ns [] []) = join $" " ns.
Proof. unfold type_text, str_code. cbn [specifiers modifiers typenames]. cbn. destruct (join [" "%char] ns); reflexivity. Qed.

(** ** Boxes *)

Lemma box_name_spec t b : In (t, b) box_names -> boxed_type_name t = b.
Proof.
  intros I. cbn [In box_names] in I.
  repeat (destruct I as [E|I]; [injection E as <- <-; vm_compute; reflexivity|]). destruct I.
Qed.
Lemma box_name_not_empty t b : In (t, b) box_names -> b <> [].
Proof.
  intros I. cbn [In box_names] in I.
  repeat (destruct I as [E|I]; [injection E as <- <-; discriminate|]). destruct I.
Qed.
Lemma box_name_immutable t b : In (t, b) box_names -> is_immutable t = true.
Proof.
  intros I. cbn [In box_names] in I.
  repeat (destruct I as [E|I]; [injection E as <- <-; vm_compute; reflexivity|]). destruct I.
Qed.

Theorem boxed_signature o f l : adapt_boxed o f = Some l -> each_shown shown_boxed (f_params f) (l_params l).
Proof.
  unfold adapt_boxed. destruct (_ && _); [|discriminate]. intros H. apply Some_eq in H. subst l. cbn [l_params make_lambda].
  apply each_shown_map. intros p _. unfold boxed_piece. split.
  - intros N. rewrite <- modifiable_spec in N. apply not_true_is_false in N. rewrite N. auto.
  - intros M b I. apply modifiable_spec in M. rewrite M. unfold bare_name. fold (words_of p). rewrite (box_name_spec _ _ I).
    destruct (is_optional p) eqn:O.
    + eexists. split; [reflexivity|]. split.
      * intros _. repeat split. cbn [p_type with_default with_type]. rewrite text_plus; auto. eapply box_name_not_empty; eauto.
      * intros C. exfalso. apply C. apply optional_spec. auto.
    + eexists. split; [reflexivity|]. split.
      * intros C. apply optional_spec in C. congruence.
      * intros _. repeat split. cbn [p_type with_default with_type]. rewrite text_plus; auto. eapply box_name_not_empty; eauto.
Qed.

(** ** Parameters given back *)

Lemma returned_param_spec o p : match returned_param o p with
  | None => ~ given_back o p
  | Some q => given_back o p /\ p_name q = p_name p /\ returned_type o p (type_text (p_type q)) /\
     (modified p -> p_array q = p_array p /\ (nullable p -> p_default q = $"std::nullopt") /\ (~ nullable p -> p_default q = p_default p)) /\
     (forall n, returned_array o p n -> p_array q = [] /\ p_default q = [])
  end.
Proof.
  unfold returned_param, given_back, returned_type. destruct (is_modifiable p) eqn:M.
  - apply modifiable_spec in M. split; auto.
    assert (NA : forall n, ~ returned_array o p n). { intros n (_ & _ & E & _). destruct M as (_ & _ & [M|M]); unfold to_pointer, to_reference in M; congruence. }
    destruct (is_optional p) eqn:O.
    + apply optional_spec in O. cbn [p_name p_type p_array p_default with_default with_type]. split; auto. split.
      * split; [|intros n C; exfalso; eapply NA; eauto]. intros _. split; [|tauto]. intros _. rewrite text_bare, text_words. auto.
      * split; [|intros n C; exfalso; eapply NA; eauto]. tauto.
    + assert (NO : ~ nullable p). { rewrite <- optional_spec, O. discriminate. }
      cbn [p_name p_type p_array p_default with_default with_type]. split; auto. split.
      * split; [|intros n C; exfalso; eapply NA; eauto]. intros _. split; [tauto|]. intros _. apply text_words.
      * split; [|intros n C; exfalso; eapply NA; eauto]. tauto.
  - assert (NM : ~ modified p). { rewrite <- modifiable_spec, M. discriminate. }
    destruct (is_modifiable_array o p) as [n|] eqn:A.
    + assert (RA : forall k, returned_array o p k <-> k = n).
      { unfold is_modifiable_array in A. unfold returned_array. destruct (modifiers (p_type p)); [|discriminate].
        destruct (o_array_size o (p_array p)) as [k0|]; [|discriminate].
        destruct (is_immutable (bare_name (p_type p)) && negb (is_const_decl p)) eqn:B; [|discriminate]. apply Some_eq in A. subst k0.
        apply andb_true_iff in B. destruct B as [B1 B2]. apply immutable_spec in B1. apply (negb_spec _ _ (const_spec p)) in B2.
        intros k. split; [intros (_ & _ & _ & E); congruence|]. intros ->. auto. }
      split; [right; exists n; apply RA; auto|]. split; auto. split.
      * split; [tauto|]. intros k K. apply RA in K. subst k. cbn [p_type]. rewrite text_bare. auto.
      * split; [tauto|]. auto.
    + intros [C|[n C]]; [auto|]. unfold is_modifiable_array in A. destruct C as (C1 & C2 & C3 & C4). rewrite C3, C4 in A.
      assert (is_immutable (bare_name (p_type p)) = true) as E by (apply immutable_spec; auto). rewrite E in A.
      apply (negb_spec _ _ (const_spec p)) in C2. rewrite C2 in A. discriminate.
Qed.

Lemma to_return_shape o f l : adapt_to_return o f = Some l ->
  l_params l = new_params (map (returned_piece o) (f_params f)) /\
  l_return l = new_return_type f (returned_params o (f_params f)).
Proof.
  unfold adapt_to_return. destruct (o_to_return o (f_name f)); [|discriminate].
  destruct (returned_params o (f_params f)) as [|r rs] eqn:E; [discriminate|]. intros H. apply Some_eq in H. subst l. auto.
Qed.

Theorem returned_signature o f l : adapt_to_return o f = Some l -> each_shown (shown_returned o) (f_params f) (l_params l).
Proof.
  intros H. apply to_return_shape in H. destruct H as [-> _]. apply each_shown_map. intros p _. unfold returned_piece.
  pose proof (returned_param_spec o p) as S. destruct (returned_param o p) as [q|].
  - split; [tauto|]. intros _. exists q. cbn [q_new]. tauto.
  - split; auto. tauto.
Qed.

Theorem returned_result o f l : adapt_to_return o f = Some l ->
  exists ts, types_back o (f_params f) ts /\ ts <> [] /\
    one_or_tuple (if returns_void f then ts else type_text (f_return f) :: ts) (type_text (l_return l)).
Proof.
  intros H. exists (map (fun p => type_text (p_type p)) (returned_params o (f_params f))). split; [|split].
  - clear H. unfold returned_params. induction (f_params f) as [|p ps IH]; cbn [flat_map map]; [constructor|].
    pose proof (returned_param_spec o p) as S. destruct (returned_param o p) as [q|]; cbn [app map].
    + apply types_back_take; tauto.
    + apply types_back_skip; auto.
  - unfold adapt_to_return in H. destruct (o_to_return o (f_name f)); [|discriminate].
    destruct (returned_params o (f_params f)); discriminate.
  - apply to_return_shape in H. destruct H as [_ ->]. unfold new_return_type. rewrite text_bare. unfold one_or_tuple.
    set (us := map _ _). destruct (returns_void f).
    + cbn [app]. destruct us as [|a [|b us]]; auto; right; cbn; auto.
    + cbn [app]. destruct us as [|b us]; auto. right. cbn. auto.
Qed.

(** ** Strings *)

Theorem chars_signature o f l : adapt_const_char_null o f = Some l -> each_shown shown_null_string (f_params f) (l_params l).
Proof.
  unfold adapt_const_char_null. destruct (_ && _); [|discriminate]. intros H. apply Some_eq in H. subst l. cbn [l_params make_lambda].
  apply each_shown_map. intros p _. unfold const_char_piece. split.
  - intros N. rewrite <- const_char_null_spec in N. apply not_true_is_false in N. rewrite N. auto.
  - intros M. apply const_char_null_spec in M. rewrite M. eexists. split; [reflexivity|]. repeat split.
Qed.

Theorem strings_signature o f l gs : adapt_string_list o f = Some l -> grouped o (f_params f) gs ->
  Forall2 shown_group gs (l_params l).
Proof.
  unfold adapt_string_list. destruct (_ && _); [|discriminate]. intros H G. apply Some_eq in H. subst l. cbn [l_params make_lambda].
  rewrite (pieces_grouped _ _ _ G) by discriminate. unfold new_params. clear G.
  induction gs as [|g gs IH]; cbn [flat_map]; [constructor|]. destruct g; cbn [app flat_map q_new pair_piece empty_piece pass]; constructor; auto.
  repeat split. reflexivity.
Qed.

Theorem strings_alone_signature o f l : adapt_string_list_alone o f = Some l -> each_shown shown_strings (f_params f) (l_params l).
Proof.
  unfold adapt_string_list_alone. destruct (_ && _); [|discriminate]. intros H. apply Some_eq in H. subst l. cbn [l_params make_lambda].
  apply each_shown_map. intros p _. unfold string_list_alone_piece. split.
  - intros N. rewrite <- string_list_spec in N. apply not_true_is_false in N. rewrite N. auto.
  - intros M. apply string_list_spec in M. rewrite M. eexists. split; [reflexivity|]. repeat split.
Qed.

Theorem variadic_signature o f l firsts text dots : adapt_variadic o f = Some l -> like_printf f firsts text dots ->
  l_params l = firsts ++ [text].
Proof.
  unfold adapt_variadic. intros H (E & _). rewrite E, !rev_app_distr in H. cbn [rev app] in H.
  destruct (_ && _); [|discriminate]. apply Some_eq in H. subst l. cbn [l_params make_lambda].
  rewrite rev_involutive. unfold new_params. rewrite flat_map_app, flat_map_map. cbn [flat_map q_new pass app].
  f_equal. clear E. induction firsts; cbn; congruence.
Qed.

(** ** Default values *)

Theorem fresh_applies o f : (o_mutable_default o (f_name f) = true /\ exists p, In p (f_params f) /\ fresh_default o p) <->
  exists l, adapt_mutable_default o f = Some l.
Proof.
  unfold adapt_mutable_default. destruct (o_mutable_default o (f_name f)); cbn [andb].
  - destruct (existsb (seems_mutable o) (f_params f)) eqn:E.
    + apply existsb_exists in E. destruct E as (p & I & E). apply seems_mutable_spec in E. split; eauto.
    + split; [|intros [l C]; discriminate]. intros (_ & p & I & M). apply seems_mutable_spec in M.
      assert (existsb (seems_mutable o) (f_params f) = true) by (apply existsb_exists; eauto). congruence.
  - split; [intros [C _]|intros [l C]]; discriminate.
Qed.

Theorem fresh_signature o f l : adapt_mutable_default o f = Some l -> each_shown (shown_fresh o) (f_params f) (l_params l).
Proof.
  unfold adapt_mutable_default. destruct (_ && _); [|discriminate]. intros H. apply Some_eq in H. subst l. cbn [l_params make_lambda].
  apply each_shown_map. intros p _. unfold mutable_piece. split.
  - intros N. rewrite <- seems_mutable_spec in N. apply not_true_is_false in N. rewrite N. auto.
  - intros M. apply seems_mutable_spec in M. rewrite M. eexists. split; [reflexivity|]. repeat split.
    intros S R W. cbn [p_type with_default with_type]. unfold optional_type, const_noref, words_of in *.
    destruct (p_type p) as [ns ss ms]. cbn [typenames specifiers modifiers] in *.
    destruct S as [-> | ->], R as [-> | ->]; cbn [list_remove smem seqb]; unfold type_text, str_code; cbn in *;
      destruct (join [" "%char] ns); try congruence; cbn; rewrite <- !app_assoc; auto.
Qed.

(** ** Arrays *)

Lemma nth_seq_map {A} (g : nat -> A) n k q : nth_error (map g (seq 0 n)) k = Some q -> q = g k.
Proof.
  intros H. rewrite nth_error_map in H. destruct (nth_error (seq 0 n) k) as [j|] eqn:E; [|discriminate].
  cbn in H. apply Some_eq in H. subst q. f_equal. assert (L : k < n). { rewrite <- (seq_length n 0). apply nth_error_Some. congruence. }
  rewrite (nth_error_nth' _ 0) in E by (rewrite seq_length; auto). apply Some_eq in E. rewrite seq_nth in E; auto.
Qed.

Theorem array_signature o f l : adapt_c_arrays o f = Some l -> each_shown (shown_array o (f_name f)) (f_params f) (l_params l).
Proof.
  unfold adapt_c_arrays. destruct (existsb _ _); [|discriminate]. intros H. apply Some_eq in H. subst l. cbn [l_params make_lambda].
  apply each_shown_map. intros p _. destruct (mode_exists o (f_name f) p) as [k K]. exists k. split; auto.
  rewrite (array_piece_mode _ _ _ _ K). destruct k as [|n|n]; cbn [q_new pass].
  - auto.
  - eexists. split; [reflexivity|]. unfold std_array_param. cbn [p_name p_array p_default p_type]. repeat split.
    intros S M W. rewrite S, M. unfold words_of, type_text, str_code in *. cbn in *.
    destruct (join [" "%char] (typenames (p_type p))); [congruence|]. auto.
  - rewrite map_length, seq_length. split; auto. intros j q N. apply nth_seq_map in N. subst q. unfold shown_item, boxed_item.
    cbn [p_name p_array p_default p_type]. repeat split.
    + intros b I. rewrite H. replace (type_text (p_type p)) with (words_of p).
      2: { unfold words_of. destruct (p_type p) as [ns ss ms]. cbn in *. subst. symmetry. apply text_words. }
      rewrite (box_name_immutable _ _ I), (box_name_spec _ _ I). rewrite text_plus; auto. eapply box_name_not_empty; eauto.
    + intros N. rewrite H. replace (type_text (p_type p)) with (words_of p).
      2: { unfold words_of. destruct (p_type p) as [ns ss ms]. cbn in *. subst. symmetry. apply text_words. }
      destruct (is_immutable (words_of p)) eqn:I. { apply immutable_spec in I. contradiction. }
      apply text_plus. auto.
Qed.
