From Coq Require Import Permutation.
From Verif Require Import PyStr PyStrLemmas PyDict PyNum TypeTextModel LambdaModel LambdaSpec AdapterModel AdapterSpec
  LambdaProofs AdapterProofs AdapterProofs2 AdapterProofs3 AdapterProofs4 AdapterProofs5 BufferModel BufferSpec BufferProofs
  BufferProofs2 BufferProofs3 BufferProofs4 BufferProofs5 BufferProofs6 ChainModel ChainSpec ChainProofs ChainProofs2 ChainProofs3
  ChainProofs4 ChainProofs5 ChainProofs6.
(** The lambda of the buffers, then the whole chain: no name clashes. *)

Lemma NoDup_map_eq {A B} (key : A -> B) l a b : NoDup (map key l) -> In a l -> In b l -> key a = key b -> a = b.
Proof.
  induction l as [|x l IH]; cbn; [tauto|]. intros D. inversion D as [|? ? NI D']; subst. intros [<-|I] [<-|J] E; auto.
  - exfalso. apply NI. rewrite E. apply in_map. auto.
  - exfalso. apply NI. rewrite <- E. apply in_map. auto.
Qed.

Lemma arg_of_texts o ps j p x : arg_of o ps j p = Some x -> expr_texts x = [].
Proof.
  unfold arg_of, stride_arg, data_arg. destruct (is_standard _ _ _ _); [intros E; injection E as <-; auto|].
  destruct (is_size _ _ _); [destruct (last_buffer _ _ _); [|discriminate]; intros E; injection E as <-; auto|].
  destruct (is_stride p); [destruct (last_buffer _ _ _); [|discriminate]; intros E; injection E as <-; destruct (seqb _ _); auto|].
  destruct (is_template _ _ _ _); intros E; injection E as <-; auto.
Qed.

Section Buffers.
Variables (i : str) (o : buffer_options) (f : func) (l : lambda) (ss : list bslot).
Hypotheses (H : adapt_c_buffers i o f = Some (Some l)) (P : f_params f = map b_param ss) (AR : arranged o None None ss).
Hypotheses (CL : clean o f) (TC : f_to_call f = None).

Lemma buffer_texts : texts_of l = [].
Proof.
  unfold texts_of. destruct (lambda_decls _ _ _ _ _ H P AR) as [_ ->]. cbn [app].
  destruct (adapter_shape _ _ _ _ H) as (ins & xs & e & _ & XS & _ & ->). cbn [l_args]. rewrite P in XS. apply each_param_slots in XS. clear H.
  induction XS as [|k x ks xs' E XS IH]; auto. cbn [flat_map]. rewrite IH, (arg_of_texts _ _ _ _ _ E). auto.
Qed.

Lemma named_type_free s n : In s ss -> b_role s = Template n ->
  ~ In (p_name (b_param s) ++ $"_type") (map p_name (l_params l) ++ flat_map decls (l_input l)).
Proof.
  intros IS R I. rewrite (lambda_params _ _ _ _ _ H P AR) in I. destruct (lambda_decls _ _ _ _ _ H P AR) as [E _]. rewrite E in I. clear E.
  assert (J : In (p_name (b_param s) ++ $"_type") (flat_map (fun a => slot_params a ++ slot_decls o ss a) (enumerate ss))) by (eapply Permutation_in; [apply flat_map_both|auto]).
  apply in_flat_map in J. destruct J as (k & K & J).
  assert (KS : kept o f (p_name (b_param s))) by (apply (array_kept _ _ _ P AR s n IS); right; auto).
  assert (T : In $"_type" endings) by (cbn; auto 12).
  assert (MT : made_from o f (p_name (b_param s)) (p_name (b_param s) ++ $"_type")).
  { apply array_made; [|cbn; auto]. eapply (array_named _ _ _ _ _ H P AR s n IS). right. auto. }
  destruct (slot_kinds _ _ _ _ _ H P AR k _ K J) as [[KX X]|[X|X]].
  - destruct X as [X|(_ & e & EE & X)].
    + symmetry in X. revert X. apply (current_apart o f (kept o f) (cl_apart _ _ CL) (p_name (b_param (snd k))) (p_name (b_param s))); auto; try (left; auto; fail).
    + apply endings_inj in X; auto; [|apply buffer_ending, first_endings; auto]. destruct X as [X <-]. apply enumerate_In in IS. destruct IS as (j & IS).
      assert (D : NoDup (map (fun k => p_name (b_param (snd k))) (enumerate ss))).
      { pose proof (cl_distinct _ _ CL) as D. rewrite P in D. rewrite <- (enumerate_snd ss), !map_map in D. auto. }
      assert (EQ : k = (j, s)) by (eapply (NoDup_map_eq (fun k => p_name (b_param (snd k)))); eauto). subst k.
      unfold slot_params, slot_decls in J. cbn [fst snd] in J. rewrite R in J. cbn [app] in J. destruct J as [J|[J|[J|[]]]].
      * apply (f_equal (@length _)) in J. rewrite app_length in J. cbn in J. lia.
      * apply endings_inj in J; auto; [|cbn; auto 12]. destruct J as [_ J]. discriminate.
      * apply endings_inj in J; auto; [|cbn; auto 12]. destruct J as [_ J]. discriminate.
  - destruct (cl_free _ _ CL (p_name (b_param s)) (p_name (b_param s) ++ $"_type") KS) as [TK _]; [auto|].
    apply TK. right. left. eapply check_taken; eauto.
  - destruct X as (_ & b & KB & _ & X). apply endings_inj in X; auto; [|cbn; auto 12]. destruct X as [_ X]. discriminate.
Qed.

Lemma distinct_others b (names : list str) : NoDup names -> In b names -> NoDup (b :: filter (fun n => negb (seqb n b)) names).
Proof.
  intros D I. constructor; [|apply NoDup_filter; auto]. intros J. apply filter_In in J. destruct J as [_ J]. rewrite seqb_refl in J. discriminate.
Qed.

Lemma end_apart : match l_end l with
  | Ordinary _ => ~ In $"lambda_result" (names_of f l)
  | ReturnAll _ => False
  | ByType _ _ _ _ _ => NoDup (end_names (l_end l)) /\ forall n, In n (end_names (l_end l)) -> ~ In n (names_of f l)
  end.
Proof.
  destruct (buffer_names _ _ _ _ _ H P AR CL) as [_ MF].
  assert (CAP : forall n, In n (captures f) -> n = $"self").
  { unfold captures. rewrite TC. destruct (f_is_method f); [intros n [<-|[]]; auto|intros n []]. }
  assert (ORD : forall n, In n (tl other_names) -> ~ In n (names_of f l)).
  { intros n I J. unfold names_of in J. apply in_app_iff in J. destruct J as [J|J].
    - apply CAP in J. subst. cbn in I. repeat destruct I as [I|I]; try discriminate. destruct I.
    - destruct (MF n J) as [(x & KX & M)|(j & t & T & ->)].
      + destruct (cl_free _ _ CL x n KX M) as [TK _]. apply TK. left. right. auto.
      + cbn in T, I. repeat destruct T as [<-|T]; try destruct T; repeat destruct I as [I|I]; try discriminate; destruct I. }
  pose proof named_type_free as NT.
  destruct (adapter_shape _ _ _ _ H) as (ins & xs & e & _ & _ & EN & EL).
  assert (EE : l_end l = e) by (rewrite EL; auto). rewrite EE. clear EE EL. unfold buffer_end in EN.
  destruct (rev (template_params o (f_params f))) as [|b bs] eqn:RV. { injection EN as <-. apply ORD. cbn. auto. }
  destruct (typed_calls o (f_params f)) as [calls|]; [|discriminate]. injection EN as <-.
  set (names := map p_name (template_params o (f_params f))).
  assert (DN : NoDup names).
  { unfold names, template_params. pose proof (cl_distinct _ _ CL) as D. revert D. generalize (f_params f) as ps. induction ps as [|p ps IH]; cbn; auto. intros D.
    inversion D as [|? ? NI D']; subst. destruct (looks_template o p); auto. cbn. constructor; auto. intros J. apply NI.
    apply in_map_iff in J. destruct J as (q & <- & J). apply filter_In in J. apply in_map. tauto. }
  assert (IB : In (p_name b) names) by (unfold names; apply in_map; apply in_rev; rewrite RV; left; auto).
  pose proof (distinct_others _ _ DN IB) as DO. set (others := filter _ _) in *.
  assert (TN : forall n, In n (p_name b :: others) -> In n names).
  { intros n [<-|I]; auto. unfold others in I. apply filter_In in I. tauto. }
  assert (TS : forall n, In n names -> exists s k, In s ss /\ p_name (b_param s) = n /\ b_role s = Template k).
  { intros n I. unfold names in I. apply in_map_iff in I. destruct I as (p & <- & I). rewrite P in I.
    destruct (template_param_slot _ _ _ (arranged_all _ _ AR) I) as (s & k & A & <- & B). eauto. }
  assert (KN : forall n, In n names -> kept o f n).
  { intros n I. destruct (TS n I) as (s & k & A & <- & B). apply (array_kept _ _ _ P AR s k A). right. auto. }
  assert (MT : forall n, In n names -> made_from o f n (n ++ $"_type")).
  { intros n I. destruct (TS n I) as (s & k & A & <- & B). apply array_made; [|cbn; auto]. apply (array_named _ _ _ _ _ H P AR s k A). right. auto. }
  assert (TT : forall n, In n (map (fun n => n ++ $"_type") (p_name b :: others)) -> ~ taken f n /\ ~ In n (names_of f l)).
  { intros n I. apply in_map_iff in I. destruct I as (x & <- & I). apply TN in I. destruct (cl_free _ _ CL x _ (KN x I) (MT x I)) as [TK _]. split; auto.
    unfold names_of. rewrite in_app_iff. intros [J|J].
    - apply CAP in J. apply TK. left. left. auto.
    - destruct (TS x I) as (s & k & A & EX & B). rewrite <- EX in J. exact (NT s k A B J). }
  assert (DT : NoDup (map (fun n => n ++ $"_type") (p_name b :: others))).
  { apply FinFun.Injective_map_NoDup; auto. intros x y E. apply app_inv_tail in E. auto. }
  assert (CK : forall t, In t [$"dtype_code_"; $"sizeof_item_"] -> ~ In (t ++ p_name b) (names_of f l)).
  { intros t T J. unfold names_of in J. apply in_app_iff in J. destruct J as [J|J].
    - apply CAP in J. destruct T as [<-|[<-|[]]]; discriminate.
    - destruct (MF _ J) as [(x & KX & M)|(j & t' & T' & E)].
      + destruct (cl_free _ _ CL x _ KX M) as [TK _]. apply TK. right. left. exists t, (p_name b). split; auto. destruct T as [<-|[<-|[]]]; cbn; auto.
      + destruct (fun r => cl_checks _ _ CL (p_name b) r (KN _ IB)) with (r := nat_text j) as [C1 C2].
        destruct T as [<-|[<-|[]]]; cbn in T'; destruct T' as [<-|[<-|[<-|[<-|[]]]]]; try (cbn in E; discriminate E).
        * apply C1. apply (app_inv_head $"dtype_code_"). exact E.
        * apply C2. apply (app_inv_head $"dtype_code_"). exact E. }
  assert (TO : forall n, In n other_names -> taken f n) by (intros n I; left; auto).
  assert (TD : forall t, In t [$"dtype_code_"; $"sizeof_item_"] -> taken f (t ++ p_name b)).
  { intros t T. right. left. exists t, (p_name b). split; auto. destruct T as [<-|[<-|[]]]; cbn; auto. }
  set (fixed := [$"np_uint_l"; $"np_int_l"]
      ++ (if b_nanobind o then [$"_nanobind_buffer_type_to_letter_code"; $"dtype_code_" ++ p_name b; $"sizeof_item_" ++ p_name b] else [])
      ++ (match others with
          | [] => []
          | _ => [if b_nanobind o then $"_nanobind_dtype_letter_to_name" else $"_pybind_dtype_letter_to_name"]
          end)).
  assert (EQ : forall A B C D : list str, A ++ B ++ C ++ D = (A ++ B ++ C) ++ D) by (intros; rewrite <- !app_assoc; auto).
  assert (FX : forall n, In n fixed -> taken f n /\ ~ In n (names_of f l)).
  { intros n I. assert (X : In n (tl other_names) \/ exists t, In t [$"dtype_code_"; $"sizeof_item_"] /\ n = t ++ p_name b).
    { unfold fixed in I. destruct (b_nanobind o), others; cbn [app] in I; repeat destruct I as [<-|I]; try (left; cbn; auto 10; fail);
        try (right; eexists; split; [|reflexivity]; cbn; auto; fail); try destruct I. }
    destruct X as [X|(t & T & ->)]; [|auto]. split; [apply TO; right; auto|auto]. }
  assert (DF : NoDup fixed).
  { unfold fixed. destruct (b_nanobind o), others; cbn [app]; repeat constructor; cbn; intros I; repeat destruct I as [I|I]; try discriminate; try destruct I. }
  unfold end_names. rewrite EQ. fold fixed. split.
  - apply NoDup_app_intro; auto. intros n I J. destruct (TT n J) as [TK _]. apply TK. apply FX. auto.
  - intros n I. apply in_app_iff in I. destruct I as [I|I]; [apply FX; auto|apply TT; auto].
Qed.

Theorem buffer_step : step_named o f false false f l.
Proof.
  destruct (buffer_names _ _ _ _ _ H P AR CL) as [ND MF].
  assert (CAP : forall n, In n (captures f) -> n = $"self").
  { unfold captures. rewrite TC. destruct (f_is_method f); [intros n [<-|[]]; auto|intros n []]. }
  split; split.
  - unfold names_of. apply NoDup_app_intro; auto.
    + unfold captures. rewrite TC. destruct (f_is_method f); repeat constructor; auto.
    + intros n I J. apply CAP in I. subst. destruct (MF _ J) as [(x & KX & M)|(j & t & T & E)].
      * destruct (cl_free _ _ CL x _ KX M) as [TK _]. apply TK. left. left. auto.
      * cbn in T. repeat destruct T as [<-|T]; try discriminate. destruct T.
  - unfold names_of. rewrite in_app_iff. intros [I|I]; [apply CAP in I; discriminate|]. destruct (MF _ I) as [(x & KX & M)|(j & t & T & E)].
    + eapply (made_not_empty o f CL); eauto.
    + cbn in T. repeat destruct T as [<-|T]; try discriminate. destruct T.
  - rewrite buffer_texts. intros t n [].
  - intros _ NM. unfold names_of, captures. rewrite TC, NM. cbn [app]. intros I. destruct (MF _ I) as [(x & KX & M)|(j & t & T & E)].
    + destruct (cl_free _ _ CL x _ KX M) as [_ Q]. auto.
    + apply (cl_qualified _ _ CL). rewrite E. apply (check_taken (j, BSlot (Param (CType [] [] []) [] [] []) Other [])). exists t. split; auto.
  - pose proof end_apart as E. destruct (l_end l); auto.
  - reflexivity.
  - reflexivity.
  - right. exists $"_adapt_c_buffers". destruct (adapter_shape _ _ _ _ H) as (ins & xs & e & _ & _ & _ & ->). cbn. auto.
  - cbn [apply_lambda_adapter f_params]. intros p I.
    assert (J : In (p_name p) (map p_name (l_params l))) by (apply in_map; auto). rewrite (lambda_params _ _ _ _ _ H P AR) in J.
    apply in_flat_map in J. destruct J as ([j s] & J1 & J2). apply enumerate_In_inv in J1. unfold slot_params in J2. cbn [snd] in J2.
    assert (X : p_name p = p_name (b_param s) /\ kept o f (p_name (b_param s))).
    { pose proof (slot_kept _ _ _ P AR s J1) as SK. destruct (b_role s); try (destruct J2 as [<-|[]]; split; auto; apply SK; discriminate). destruct J2. }
    destruct X as [X KX]. exists (p_name p). rewrite X. split; auto. split; [left; auto|auto].
  - cbn [apply_lambda_adapter f_params]. apply NoDup_app_parts in ND. tauto.
  - cbn [apply_lambda_adapter f_params]. intros p w I W. destruct (adapter_shape _ _ _ _ H) as (ins & xs & e & _ & _ & _ & EL).
    rewrite EL in I. cbn [l_params] in I. apply in_flat_map in I. destruct I as ([j q] & I1 & I2). apply enumerate_In_inv in I1. cbn [fst snd] in I2.
    assert (D : p_default p = p_default q \/ p_default p = $"-1").
    { unfold new_of in I2. repeat match type of I2 with In _ (if ?b then _ else _) => destruct b end; cbn [In] in I2; try (destruct I2; fail); destruct I2 as [<-|[]]; auto. }
    destruct D as [D|D]; rewrite D in W.
    + eapply (cl_defaults _ _ CL); eauto.
    + eapply (new_default_words o f CL $"-1"); eauto. cbn. auto.
Qed.
End Buffers.

(** ** The whole chain *)

Section Chain.
Variables (i : str) (bo : buffer_options) (o : options) (f0 : func).
Hypotheses (CL : clean bo f0) (SR : single_roles bo f0) (NL : no_list_of_sizes o (f_params f0)) (TC : f_to_call f0 = None).

Lemma start_current : ~ adapted_params bo f0 -> current bo f0 false f0.
Proof.
  intros N. split; auto.
  - intros p I. exists (p_name p). split; [|split; [left; auto|auto]]. apply in_split in I. destruct I as (a & b & E). exists a, p, b. split; auto. split; auto. tauto.
  - apply (cl_distinct _ _ CL).
  - intros p w I W. apply (cl_defaults _ _ CL p w I W).
Qed.

(** The function before each adapter, and what it does to the names. *)
Definition phase (items items' : bool) (a : adapter) : Prop := forall f l,
  current bo f0 items f -> no_list_of_sizes o (f_params f) -> a f = Some (Some l) -> step_named bo f0 items items' f l.

Lemma to_return_step items f l : current bo f0 items f -> adapt_to_return o f = Some l -> step_named bo f0 items items f l.
Proof.
  intros C. unfold adapt_to_return. destruct (o_to_return o (f_name f)); [|discriminate].
  destruct (returned_params o (f_params f)) as [|out outs]; [discriminate|]. intros E. injection E as <-. split.
  - destruct (keeps_names bo f0 CL items f (returned_piece o) C (returned_keeps bo f0 o)) as (ND & MF & TX). eapply lambda_named; eauto; cbn [l_end l_params l_input]; auto.
    + eapply Permutation_NoDup; [apply Permutation_sym, pieces_perm|auto].
    + intros n I. apply MF. eapply Permutation_in; [apply pieces_perm|]. auto.
  - assert (E : In $"_adapt_modifiable_immutable_to_return" lambda_endings) by (cbn; auto 12).
    exact (keeps_current bo f0 CL items f _ _ (new_return_type f (out :: outs)) C (returned_keeps bo f0 o) E).
Qed.

Lemma phases : Forall (phase false false) [fun f => Some (adapt_exclude_params o f); fun f => Some (adapt_mutable_default o f)] /\
  phase false true (fun f => Some (adapt_c_arrays o f)) /\
  Forall (phase true true)
    [fun f => Some (adapt_const_char_null o f); fun f => Some (adapt_to_return o f); fun f => Some (adapt_boxed o f);
     fun f => Some (adapt_string_list o f); fun f => Some (adapt_string_list_alone o f); fun f => Some (adapt_variadic o f)].
Proof.
  split; [|split].
  - repeat (apply Forall_cons; [intros f l C N H; injection H as H; revert H|]); [..|apply Forall_nil].
    + unfold adapt_exclude_params. destruct (existsb _ _); [|discriminate]. intros E. injection E as <-. apply (keeps_step bo f0 CL); [exact C|intros p; apply exclude_keeps; auto|cbn; auto 12].
    + unfold adapt_mutable_default. destruct (_ && _); [|discriminate]. intros E. injection E as <-. apply (keeps_step bo f0 CL); [exact C|intros p; apply mutable_keeps; auto|cbn; auto 12].
  - intros f l C N H. injection H as H. eapply arrays_step; eauto.
  - repeat (apply Forall_cons; [intros f l C N H; injection H as H; revert H|]); [..|apply Forall_nil].
    + unfold adapt_const_char_null. destruct (_ && _); [|discriminate]. intros E. injection E as <-. apply (keeps_step bo f0 CL); [exact C|intros p; apply const_char_keeps; auto|cbn; auto 12].
    + apply to_return_step. auto.
    + unfold adapt_boxed. destruct (_ && _); [|discriminate]. intros E. injection E as <-. apply (keeps_step bo f0 CL); [exact C|intros p; apply boxed_keeps; auto|cbn; auto 12].
    + apply list_step; auto.
    + unfold adapt_string_list_alone. destruct (_ && _); [|discriminate]. intros E. injection E as <-. apply (keeps_step bo f0 CL); [exact C|intros p; apply alone_keeps; auto|cbn; auto 12].
    + apply variadic_step. auto.
Unshelve. all: auto.
Qed.

Lemma force_step items f : current bo f0 items f -> well_named f (adapt_force_lambda f).
Proof.
  intros C. unfold adapt_force_lambda. destruct (keeps_names bo f0 CL items f pass C (pass_keeps bo f0)) as (A & B & D). eapply made_lambda_named; eauto.
Qed.

Definition named_links (ls : list link) : Prop := Forall (fun fl => well_named (fst fl) (snd fl)) ls.
Definition sizes_kept (a : adapter) : Prop := forall f l, no_list_of_sizes o (f_params f) -> a f = Some (Some l) ->
  no_list_of_sizes o (f_params (apply_lambda_adapter f l)).

Lemma one_adapter items a r f ls g : items = true \/ items = false -> forall items',
  phase items items' a -> sizes_kept a -> (forall f', current bo f0 items f' -> current bo f0 items' f') ->
  current bo f0 items f -> no_list_of_sizes o (f_params f) -> apply_adapters (a :: r) f = Some (ls, g) ->
  exists h ls', current bo f0 items' h /\ no_list_of_sizes o (f_params h) /\ apply_adapters r h = Some (ls', g) /\ (named_links ls' -> named_links ls).
Proof.
  intros _ items' PH SK W C N H. cbn [apply_adapters] in H. destruct (a f) as [[l|]|] eqn:E; [| |discriminate].
  - destruct (apply_adapters r (apply_lambda_adapter f l)) as [[ls' g']|] eqn:R; [|discriminate]. injection H as <- <-.
    destruct (PH f l C N E) as [WN C']. exists (apply_lambda_adapter f l), ls'. split; auto. split; [eapply SK; eauto|]. split; auto.
    intros NL'. constructor; auto.
  - exists f, ls. auto.
Qed.

Lemma last_phase all : Forall (phase true true) all -> Forall sizes_kept all -> forall f ls g, current bo f0 true f ->
  no_list_of_sizes o (f_params f) -> apply_adapters all f = Some (ls, g) -> named_links ls /\ current bo f0 true g.
Proof.
  intros F S. induction F as [|a all PH F IH]; intros f ls g C N H.
  - injection H as <- <-. split; [constructor|auto].
  - inversion S as [|? ? SA SR']; subst. cbn [apply_adapters] in H. destruct (a f) as [[l|]|] eqn:E; [| |discriminate]; [|eauto].
    destruct (apply_adapters all (apply_lambda_adapter f l)) as [[ls' g']|] eqn:R; [|discriminate]. injection H as <- <-.
    destruct (PH f l C N E) as [WN C']. destruct (IH SR' _ _ _ C' ltac:(eapply SA; eauto) R) as [A B]. split; auto. constructor; auto.
Qed.

Theorem chain_named ls g : apply_all_adapters i bo o f0 = Some (ls, g) -> Forall (fun fl => well_named (fst fl) (snd fl)) ls.
Proof.
  assert (SA : Forall sizes_kept (adapters i bo o)).
  { apply Forall_forall. intros a I f l N H. eapply (step_arguments i bo o a I f l N H). }
  destruct phases as (P1 & P2 & P3). unfold apply_all_adapters. destruct (apply_adapters (adapters i bo o) f0) as [[ls' g']|] eqn:AP; [|discriminate].
  intros E. injection E as <- <-. unfold adapters in *.
  inversion SA as [|? ? S1 SA1]; subst. inversion SA1 as [|? ? S2 SA2]; subst. inversion SA2 as [|? ? S3 SA3]; subst. inversion SA3 as [|? ? S4 SA4]; subst.
  inversion P1 as [|? ? Q2 P1']; subst. inversion P1' as [|? ? Q3 _]; subst.
  assert (ST : exists h ls1, current bo f0 false h /\ no_list_of_sizes o (f_params h) /\ apply_adapters (tl (adapters i bo o)) h = Some (ls1, g') /\ (named_links ls1 -> named_links ls')).
  { cbn [adapters tl]. cbn [apply_adapters] in AP. cbn [apply_adapters]. destruct (adapt_c_buffers i bo f0) as [[l|]|] eqn:B; [| |discriminate].
    - assert (AD : adapted_params bo f0) by (apply (buffer_applies i); rewrite B; discriminate). destruct (SR AD) as (ss & P & AR).
      destruct (buffer_step i bo f0 l ss B P AR CL TC) as [WN C]. match type of AP with match ?X with _ => _ end = _ => destruct X as [[ls1 g1]|] eqn:R end; [|discriminate].
      injection AP as <- <-. exists (apply_lambda_adapter f0 l), ls1. split; auto. split; [eapply S1; eauto|]. split; auto. intros NN. constructor; auto.
    - exists f0, ls'. split; [|auto]. apply start_current. intros AD. apply (buffer_applies i) in AD. auto. }
  destruct ST as (h1 & ls1 & C1 & N1 & A1 & W1). cbn [adapters tl] in A1.
  destruct (one_adapter false _ _ _ _ _ (or_intror eq_refl) false Q2 S2 (fun _ X => X) C1 N1 A1) as (h2 & ls2 & C2 & N2 & A2 & W2).
  destruct (one_adapter false _ _ _ _ _ (or_intror eq_refl) false Q3 S3 (fun _ X => X) C2 N2 A2) as (h3 & ls3 & C3 & N3 & A3 & W3).
  destruct (one_adapter false _ _ _ _ _ (or_intror eq_refl) true P2 S4 (fun f' => current_weaken bo f0 f' false) C3 N3 A3) as (h4 & ls4 & C4 & N4 & A4 & W4).
  destruct (last_phase _ P3 SA4 _ _ _ C4 N4 A4) as [WF CG].
  apply Forall_app. split; [apply W1, W2, W3, W4, WF|]. unfold force. destruct (_ && _); cbn [fst]; [|constructor]. constructor; [|constructor]. cbn [fst snd]. eapply force_step; eauto.
Qed.
End Chain.
