From Verif Require Import PyStr PyStrLemmas PyDict TypeTextModel TypeTextProofs LambdaModel LambdaSpec AdapterModel AdapterSpec
  LambdaProofs AdapterProofs BufferModel BufferSpec BufferProofs BufferProofs2 BufferProofs3 BufferProofs4 BufferProofs5.
(** When the lambda of a function with buffers is written, and its parameters. *)

Lemma array_param_shown o p : exists q, [array_param o p] = [q] /\ p_name q = p_name p /\ p_default q = p_default p /\
  (In $"const" (specifiers (p_type p)) -> type_text (p_type q) = if b_nanobind o then $"nb::ndarray<nb::ro> &" else $"const py::array &") /\
  (~ In $"const" (specifiers (p_type p)) -> type_text (p_type q) = if b_nanobind o then $"nb::ndarray<> &" else $"py::array &").
Proof.
  exists (array_param o p). split; auto. split; auto. split; auto. unfold array_param, with_type. cbn [p_type].
  unfold is_const_decl. rewrite <- smem_In. destruct (smem $"const" (specifiers (p_type p))), (b_nanobind o);
    split; intros H; try reflexivity; try discriminate; exfalso; apply H; reflexivity.
Qed.

Theorem buffer_signature i o f l ss : adapt_c_buffers i o f = Some (Some l) -> f_params f = map b_param ss ->
  arranged o None None ss -> exists qss, Forall2 (shown (b_nanobind o)) ss qss /\ l_params l = concat qss.
Proof.
  intros H P AR. pose proof (adapter_shape _ _ _ _ H) as (ins & xs & en & _ & _ & _ & LE).
  pose proof (arranged_all _ _ AR) as FA.
  exists (map (fun k => new_of o (map b_param ss) (fst k) (b_param (snd k))) (enumerate ss)). split.
  - rewrite <- (enumerate_snd ss) at 1. set (ks := enumerate ss) in *. clearbody ks. induction FA as [|[j s] ks SF FA IH]; cbn [map]; constructor; auto.
    cbn [fst snd] in *. rewrite (new_of_fact _ _ _ _ SF). unfold shown. cbv zeta. destruct (b_role s); auto using array_param_shown.
    exists (stride_param (b_param s)). auto.
  - rewrite LE. cbn [l_params]. rewrite P, enumerate_map, flat_map_map, flat_map_concat_map. auto.
Qed.

(** ** When it applies *)

Lemma shall_adapt_spec o f : shall_adapt o f = true <-> adapted_params o f.
Proof.
  unfold shall_adapt, adapted_params. rewrite andb_true_iff, existsb_exists. split.
  - intros [F (j & I & B)]. split; auto. exists (firstn j (f_params f)), (skipn j (f_params f)). rewrite firstn_skipn. split; auto.
    apply buffer_spec in B. auto.
  - intros [F (a & r & E & B)]. split; auto. exists (length a). rewrite E. split; [|apply is_buffer_spec; auto].
    apply in_seq. rewrite app_length. inversion B; subst; cbn [length]; lia.
Qed.

Theorem buffer_applies i o f : adapt_c_buffers i o f <> Some None <-> adapted_params o f.
Proof.
  rewrite <- shall_adapt_spec. unfold adapt_c_buffers. cbv zeta. destruct (shall_adapt o f); [|split; congruence].
  split; auto. intros _. destruct (1 <? _); [discriminate|].
  destruct (each_param (input_of o (f_params f)) (f_params f)); [|discriminate].
  destruct (each_param (arg_of o (f_params f)) (f_params f)); [|discriminate].
  destruct (buffer_end i o f); discriminate.
Qed.

(** ** The code is written *)

Lemma sequence_total {A B} (g : A -> option B) l : (forall a, In a l -> g a <> None) -> exists r, sequence (map g l) = Some r.
Proof.
  induction l as [|a l IH]; intros H; cbn [map sequence]; [eauto|].
  destruct (g a) as [b|] eqn:G; [|exfalso; apply (H a (or_introl eq_refl)); auto].
  destruct IH as [r ->]. { intros a' I. apply H. right. auto. } cbn. eauto.
Qed.

Lemma each_param_total {A} (h : nat -> param -> option A) ss :
  (forall j s, In (j, s) (enumerate ss) -> h j (b_param s) <> None) -> exists r, each_param h (map b_param ss) = Some r.
Proof.
  intros H. unfold each_param. rewrite enumerate_map, map_map. cbn [fst snd]. apply sequence_total. intros [j s] I. cbn [fst snd]. auto.
Qed.

Lemma filter_two {A} (h : A -> bool) l : 1 < length (filter h l) ->
  exists a x b y c, l = a ++ x :: b ++ y :: c /\ h x = true /\ h y = true.
Proof.
  induction l as [|x l IH]; cbn [filter length]; [lia|]. destruct (h x) eqn:X; cbn [length].
  - intros L. destruct (filter h l) as [|y r] eqn:F; [cbn in L; lia|].
    assert (I : In y (filter h l)). { rewrite F. left. auto. }
    apply filter_In in I. destruct I as [I Y]. apply in_split in I. destruct I as (b & c & ->).
    exists [], x, b, y, c. auto.
  - intros L. destruct (IH L) as (a & y & b & z & c & -> & Y & Z). exists (x :: a), y, b, z, c. auto.
Qed.

Lemma item_letter t : In t (map type_name item_types) -> array_letter t <> None.
Proof.
  intros I. apply in_map_iff in I. destruct I as ([[[u l] kind] size] & <- & I). cbn [type_name fst] in *. cbn [In item_types] in I.
  repeat (destruct I as [E|I]; [injection E as <- <- <- <-; vm_compute; discriminate|]). destruct I.
Qed.

Lemma item_code t : In t (map type_name item_types) -> t <> $"np_uint_l" -> t <> $"np_int_l" -> dict_get t dtype_codes <> None.
Proof.
  intros I N1 N2. apply in_map_iff in I. destruct I as ([[[u l] kind] size] & <- & I). cbn [type_name fst] in *. cbn [In item_types] in I.
  repeat (destruct I as [E|I]; [injection E as <- <- <- <-; try (exfalso; apply N1; reflexivity); try (exfalso; apply N2; reflexivity);
    vm_compute; discriminate|]). destruct I.
Qed.

Theorem buffer_adapts i o f ss : b_functions o (f_name f) = true -> f_params f = map b_param ss -> arranged o None None ss ->
  Forall one_word ss -> allowed o -> (exists s, In s ss /\ has_array s) -> one_stride ss -> Forall (known_items o) ss ->
  exists l, adapt_c_buffers i o f = Some (Some l).
Proof.
  intros BF P AR OW AL (s0 & I0 & n0 & R0) ST KI. pose proof (arranged_all _ _ AR) as FA. rewrite Forall_forall in FA, OW, KI.
  unfold adapt_c_buffers. cbv zeta.
  assert (shall_adapt o f = true) as ->.
  { unfold shall_adapt. rewrite BF. cbn [andb]. apply existsb_exists. rewrite P. apply enumerate_In in I0. destruct I0 as [j I0].
    exists j. split.
    - unfold enumerate in I0. apply in_combine_l in I0. rewrite map_length. auto.
    - pose proof (FA _ I0) as SF. unfold slot_fact in SF. cbn [fst snd] in SF. cbv zeta in SF.
      destruct R0 as [R0|R0]; rewrite R0 in SF; tauto. }
  assert ((1 <? length (filter is_stride (f_params f))) = false) as ->.
  { apply not_true. intros L. apply Nat.ltb_lt in L. apply filter_two in L. destruct L as (a & x & b & y & c & E & X & Y).
    rewrite P in E. apply is_stride_spec in X, Y.
    apply map_eq_app in E. destruct E as (a' & r & -> & <- & E). apply map_eq_cons in E. destruct E as (s & r' & -> & <- & E).
    apply map_eq_app in E. destruct E as (b' & r'' & -> & <- & E). apply map_eq_cons in E. destruct E as (s' & c' & -> & <- & <-).
    apply (ST _ _ _ _ _ eq_refl X Y). }
  assert (IN : exists ins, each_param (input_of o (f_params f)) (f_params f) = Some ins).
  { rewrite P. apply each_param_total. intros j s I. pose proof (FA _ I) as SF. apply enumerate_In_inv in I.
    pose proof (OW _ I) as O. pose proof (KI _ I) as K. unfold slot_fact, one_word, known_items, input_of, is_standard, is_template in *.
    cbn [fst snd] in SF. cbv zeta in SF. destruct (b_role s).
    - destruct SF as (-> & ->). cbn [andb negb]. destruct O as (t & OT & IT). unfold check_part. rewrite (of_type_raw _ _ OT).
      destruct (b_nanobind o).
      + destruct (K t OT eq_refl) as [K1 K2]. pose proof (item_code t IT K1 K2) as C. destruct (dict_get t dtype_codes); [discriminate|tauto].
      + pose proof (item_letter t IT) as C. destruct (array_letter t); [discriminate|tauto].
    - destruct SF as (-> & -> & ->). discriminate.
    - destruct SF as (-> & _ & -> & -> & _). discriminate.
    - destruct SF as (-> & _ & -> & -> & b & _ & _ & L). cbn [andb]. unfold stride_part. rewrite L. discriminate.
    - destruct SF as (-> & _ & -> & ->). discriminate. }
  assert (TA : forall t j s, In (j, s) (enumerate ss) -> typed_arg_of o (map b_param ss) t j (b_param s) <> None /\
                 arg_of o (map b_param ss) j (b_param s) <> None).
  { intros t j s I. pose proof (FA _ I) as SF. unfold slot_fact, typed_arg_of, arg_of, is_standard, is_template in *.
    cbn [fst snd] in SF. cbv zeta in SF. destruct (b_role s).
    - destruct SF as (-> & ->). split; discriminate.
    - destruct SF as (-> & -> & ->). cbn [andb negb]. destruct (is_size _ _ _) eqn:Z; [|split; discriminate]. split; [discriminate|].
      assert (LB : exists b, last_buffer o (map b_param ss) j = Some b); [|destruct LB as [b ->]; discriminate].
      unfold last_buffer. unfold is_size in Z. destruct j as [|j']; [discriminate|].
      destruct (nth_error (map b_param ss) (S j')) eqn:N1; [|discriminate].
      destruct (nth_error (map b_param ss) j') as [p'|] eqn:N2; [|discriminate]. apply andb_true_iff in Z. destruct Z as [_ Z].
      destruct (find (looks_buffer o) (rev (firstn (S (S j')) (map b_param ss)))) eqn:F; eauto.
      exfalso. assert (looks_buffer o p' = false); [|congruence]. apply (find_none _ _ F). rewrite <- in_rev.
      assert (C : nth_error (firstn (S (S j')) (map b_param ss)) j' = Some p'); [|apply nth_error_In in C; auto].
      rewrite <- (firstn_skipn (S (S j')) (map b_param ss)) in N2. rewrite nth_error_app1 in N2; auto.
      rewrite firstn_length. assert (N3 : nth_error (map b_param ss) (S j') <> None) by congruence. apply nth_error_Some in N3. lia.
    - destruct SF as (-> & -> & _ & -> & b & _ & _ & L). cbn [andb]. rewrite L. split; discriminate.
    - destruct SF as (-> & -> & -> & -> & b & _ & _ & L). cbn [andb]. unfold stride_arg. rewrite L. split; discriminate.
    - destruct SF as (-> & -> & -> & ->). split; discriminate. }
  destruct IN as [ins ->].
  assert (AA : exists xs, each_param (arg_of o (f_params f)) (f_params f) = Some xs).
  { rewrite P. apply each_param_total. intros j s I. apply (TA [] j s I). }
  destruct AA as [xs ->].
  assert (BE : exists e, buffer_end i o f = Some e); [|destruct BE as [e ->]; eauto].
  unfold buffer_end. destruct (rev (template_params o (f_params f))) as [|p0 rest] eqn:RV; [eauto|]. cbv zeta.
  assert (TP : In p0 (template_params o (map b_param ss))). { rewrite <- P. apply in_rev. rewrite RV. left. auto. }
  apply template_param_slot in TP; [|apply Forall_forall; auto]. destruct TP as (s & n & I & _ & R).
  pose proof (KI s I) as K. unfold known_items in K. rewrite R in K.
  assert (TC : exists calls, typed_calls o (f_params f) = Some calls); [|destruct TC as [calls ->]; cbn; eauto].
  unfold typed_calls. apply sequence_total. intros t IT. unfold typed_call.
  destruct (AL t IT) as [->|KN]; [tauto|]. pose proof (item_letter t KN) as C. destruct (array_letter t) as [k|]; [|tauto].
  destruct (each_param_total (typed_arg_of o (f_params f) (array_type k)) ss) as [ys E].
  { rewrite P. intros j s' I'. apply (TA (array_type k) j s' I'). }
  rewrite P in *. rewrite E. discriminate.
Qed.
