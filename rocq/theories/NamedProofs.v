From Verif Require Import PyStr PyStrLemmas PyDict PyNum TypeTextModel LambdaModel AdapterModel AdapterSpec BufferModel BufferSpec BufferProofs BufferProofs3
  ChainModel ChainProofs BindModel BindSpec BindProofs NamedModel NamedSpec.
(** The constructor made for a class: which one, and what its parameters become. *)

(** ** Types of one word *)

Lemma join_space a b r : In " "%char (join $" " (a :: b :: r)).
Proof. rewrite join_cons. apply in_or_app. right. cbn. auto. Qed.
Lemma join_in sep x c l : In x l -> In c x -> In c (join sep l).
Proof.
  induction l as [|y [|z l] IH]; intros I J; [destruct I| |].
  - destruct I as [->|[]]. auto.
  - rewrite join_cons. apply in_or_app. destruct I as [->|I]; [auto|]. right. apply in_or_app. right. auto.
Qed.
Lemma remove_empty l : Forall (fun w : str => w <> []) l -> join_remove_empty $" " l = join $" " l.
Proof.
  intros F. unfold join_remove_empty. f_equal. induction F as [|w l N F IH]; auto. cbn [filter]. destruct w; [congruence|]. f_equal. auto.
Qed.
Lemma join_ne l : l <> [] -> Forall (fun w : str => w <> []) l -> join $" " l <> [].
Proof. intros N F. destruct F as [|w [|x l] W F]; [congruence|auto|]. rewrite join_cons. destruct w; [congruence|discriminate]. Qed.
Lemma list_count_0 x l : list_count x l = 0 <-> ~ In x l.
Proof.
  unfold list_count. induction l as [|y l IH]; cbn; [tauto|]. destruct (seqb_spec x y) as [->|N]; cbn [length].
  - split; [discriminate|]. intros H. exfalso. auto.
  - rewrite IH. intuition congruence.
Qed.

Lemma word_type t : proper t -> smem $"const" (specifiers t) = false -> contains $" " (type_text t) = false ->
  exists n, t = CType [n] [] [] /\ ~ In " "%char n.
Proof.
  intros [NE F] C S. destruct t as [names specs mods]. cbn [typenames specifiers modifiers] in *.
  rewrite !Forall_app in F. destruct F as (FN & FS & FM). apply smem_false in C. apply list_count_0 in C.
  assert (S' : ~ In " "%char (type_text (CType names specs mods))).
  { intros I. apply contains_single in I. change [" "%char] with ($" ") in I. congruence. }
  clear S. unfold type_text, str_code in S'. cbn [typenames specifiers modifiers] in S'. rewrite C in S'. cbn [Nat.ltb Nat.leb Nat.eqb] in S'.
  rewrite (remove_empty specs FS), (remove_empty mods FM) in S'.
  destruct names as [|n names]; [congruence|]. inversion FN as [|? ? N1 N2]; subst.
  assert (NJ : join $" " (n :: names) <> []) by (apply join_ne; auto).
  unfold join_remove_empty in S'. cbn [filter] in S'.
  destruct specs as [|sp specs].
  2:{ exfalso. apply S'. pose proof (join_ne (sp :: specs)) as J. destruct (join $" " (sp :: specs)) eqn:E1; [exfalso; apply J; auto; discriminate|].
      destruct (join $" " (n :: names)) eqn:E2; [congruence|]. apply join_space. }
  destruct mods as [|m mods].
  2:{ exfalso. apply S'. pose proof (join_ne (m :: mods)) as J. destruct (join $" " (m :: mods)) eqn:E1; [exfalso; apply J; auto; discriminate|].
      change (join $" " []) with (@nil ascii). destruct (join $" " (n :: names)) eqn:E2; [congruence|]. apply join_space. }
  change (join $" " []) with (@nil ascii) in S'. destruct names as [|n' names].
  - exists n. split; auto. change (join $" " [n]) with n in *. destruct n; [congruence|]. exact S'.
  - exfalso. apply S'. pose proof (join_space n n' names) as J. destruct (join $" " (n :: n' :: names)); [congruence|]. exact J.
Qed.
Lemma word_text n : n <> [] -> type_text (CType [n] [] []) = n.
Proof. intros N. unfold type_text, str_code. cbn. destruct n; [congruence|]. reflexivity. Qed.

(** ** Which members *)

Lemma can_be_set_spec co s m : proper (p_type (m_decl m)) ->
  (m_access m = Public /\ co_excluded co (p_type (m_decl m)) = false /\ can_be_set co s m = true <-> settable co s m).
Proof.
  intros P. split.
  - intros (A & X & H). revert H. unfold can_be_set.
    destruct (1 <? _); [discriminate|]. destruct (_ || _) eqn:C; [discriminate|]. rewrite !orb_false_iff in C.
    destruct (0 <? length (m_bits m)) eqn:B; [discriminate|]. destruct (0 <? length (p_array (m_decl m))) eqn:AR; [discriminate|].
    destruct (0 <? list_count $"*" _); [discriminate|]. destruct (0 <? list_count $"&" _); [discriminate|].
    destruct (contains _ _) eqn:S; [discriminate|]. destruct (co_exclude_type co _) eqn:T; [discriminate|].
    destruct (co_exclude_name co _) eqn:N; [discriminate|]. destruct (co_exclude_in co _ _) eqn:I; [discriminate|]. intros _.
    split; auto.
    + apply word_type; auto. tauto.
    + apply Nat.ltb_ge in AR. destruct (p_array (m_decl m)); auto. cbn in AR. lia.
    + apply Nat.ltb_ge in B. destruct (m_bits m); auto. cbn in B. lia.
  - intros [A (n & T & S) AR B X Y N I]. split; [|split]; auto. unfold can_be_set. rewrite AR, B, Y, N, I, T.
    cbn [modifiers specifiers list_count filter length smem existsb orb Nat.ltb Nat.leb].
    assert (NE : n <> []). { destruct P as [_ F]. rewrite T in F. cbn in F. inversion F; auto. }
    rewrite word_text by auto. destruct (contains $" " n) eqn:C; auto. apply contains_single in C. tauto.
Qed.
Lemma filter_filter {A} (f g : A -> bool) l : filter f (filter g l) = filter (fun x => g x && f x) l.
Proof. induction l as [|x l IH]; auto. cbn. destruct (g x); cbn; rewrite IH; auto. Qed.

Lemma chosen_members co s ms : (forall m, In m (s_members s) -> proper (p_type (m_decl m))) -> with_named_params co s = true ->
  chosen co s ms -> compatible_members co s = ms.
Proof.
  intros P W (keep & -> & K). unfold compatible_members. rewrite W, !filter_filter. apply filter_ext_in. intros m I.
  specialize (K m I). rewrite <- (can_be_set_spec co s m (P m I)) in K. apply eq_true_iff_eq. rewrite K, !andb_true_iff, negb_true_iff.
  unfold is_public. destruct (m_access m); intuition discriminate.
Qed.
Lemma chosen_settable co s ms m : chosen co s ms -> In m ms -> In m (s_members s) /\ settable co s m.
Proof. intros (keep & -> & K) I. apply filter_In in I. destruct I as [I H]. split; auto. apply K; auto. Qed.

(** ** Which constructor *)

Lemma implicit_spec s : implicit s <-> has_constructor s = false.
Proof.
  unfold implicit, has_constructor. split; intros H.
  - destruct (existsb _ _) eqn:E; auto. apply existsb_exists in E. destruct E as (m & I & J). rewrite (H m I) in J. discriminate.
  - intros m I. destruct (me_constructor m) eqn:C; auto. rewrite <- H. symmetry. apply existsb_exists. eauto.
Qed.
Lemma destructible_spec s : destructible s <-> has_private_destructor s = false.
Proof.
  unfold destructible, has_private_destructor. split; intros H.
  - destruct (existsb _ _) eqn:E; auto. apply existsb_exists in E. destruct E as (m & I & J). apply andb_true_iff in J. destruct J as [D A].
    specialize (H m I D). destruct (m.(me_access)); [discriminate|discriminate|congruence].
  - intros m I D A. assert (X : existsb (fun m => me_destructor m && is_private (me_access m)) (s_methods s) = true); [|congruence].
    apply existsb_exists. exists m. rewrite D, A. auto.
Qed.
Lemma no_constructor_facts s : has_constructor s = false ->
  has_deleted_default s = false /\ has_non_zero_param s = false /\ has_zero_param s = false.
Proof.
  intros H. rewrite <- implicit_spec in H. unfold has_deleted_default, has_non_zero_param, has_zero_param.
  assert (E : forall f : method -> bool, (forall m, me_constructor m = false -> f m = false) -> existsb f (s_methods s) = false).
  { intros f F. destruct (existsb f (s_methods s)) eqn:X; auto. apply existsb_exists in X. destruct X as (m & I & J). rewrite (F m) in J by auto. discriminate. }
  repeat split; apply E; intros m C; unfold default_constructor; rewrite C; reflexivity.
Qed.
Lemma with_named_spec co s : implicit s -> (with_named_params co s = true <-> wanted co s /\ destructible s).
Proof.
  intros H. rewrite implicit_spec in H. destruct (no_constructor_facts s H) as (_ & N & _). unfold with_named_params, wanted.
  rewrite N, destructible_spec. destruct (s_is_class s), (has_private_destructor s); intuition discriminate.
Qed.

Section Made.
Variables (i : str) (bo : buffer_options) (co : class_options) (o : options) (e : publisher) (s : struct).

Lemma binding_kind b : binding_made i bo co o e s = Some b -> (b = Nothing <-> ~ implicit s).
Proof.
  rewrite implicit_spec. unfold binding_made, void_constructor. destruct (has_constructor s) eqn:C.
  - destruct (has_deleted_default s); intros H; injection H as <-; intuition congruence.
  - destruct (no_constructor_facts s C) as (D & N & Z). rewrite D, Z. cbn [negb andb].
    destruct (with_named_params co s); cbn [negb].
    + destruct (ctor_params co s).
      * destruct (ctor_adapted _ _ _ _ _ _); [|discriminate]. intros H. injection H as <-. intuition congruence.
      * destruct (ctor_adapted _ _ _ _ _ _) as [[ls g]|]; [|discriminate]. destruct (settings _ _ _ _); [|discriminate].
        intros H. injection H as <-. intuition congruence.
    + intros H. injection H as <-. intuition congruence.
Qed.
Lemma stub_kind b : stub_made i bo co o e s = Some b -> (b = None <-> ~ implicit s).
Proof.
  rewrite implicit_spec. unfold stub_made, void_constructor. destruct (has_constructor s) eqn:C.
  - intros H. injection H as <-. intuition congruence.
  - destruct (no_constructor_facts s C) as (D & N & Z). rewrite D, Z. cbn [negb andb].
    destruct (with_named_params co s); cbn [negb]; rewrite ?andb_false_r.
    + destruct (ctor_adapted _ _ _ _ _ _) as [[ls g]|]; [|discriminate]. intros H. injection H as <-. intuition congruence.
    + intros H. injection H as <-. intuition congruence.
Qed.
Lemma named_kind b ms : (forall m, In m (s_members s) -> proper (p_type (m_decl m))) -> chosen co s ms ->
  binding_made i bo co o e s = Some b ->
  ((exists ps xs pyargs, b = InitNamed ps xs pyargs) <-> implicit s /\ wanted co s /\ destructible s /\ ms <> []).
Proof.
  intros P C H. pose proof (binding_kind b H) as K. revert H. unfold binding_made, void_constructor.
  destruct (has_constructor s) eqn:HC.
  - assert (NI : ~ implicit s). { rewrite implicit_spec. congruence. }
    apply K in NI. subst b. intros _. rewrite implicit_spec. split; [intros (ps & xs & a & E); discriminate|intuition congruence].
  - assert (I : implicit s) by (rewrite implicit_spec; auto). destruct (no_constructor_facts s HC) as (D & N & Z). rewrite D, Z. cbn [negb andb].
    pose proof (with_named_spec co s I) as W. destruct (with_named_params co s) eqn:WN; cbn [negb].
    + pose proof (chosen_members co s ms P WN C) as E. unfold ctor_params. rewrite E.
      destruct ms as [|m ms]; cbn [map].
      * destruct (ctor_adapted _ _ _ _ _ _); [|discriminate]. intros H. injection H as <-.
        split; [intros (ps & xs & a & X); discriminate|intros (_ & _ & _ & X); congruence].
      * destruct (ctor_adapted _ _ _ _ _ _) as [[ls g]|]; [|discriminate]. destruct (settings _ _ _ _); [|discriminate].
        intros H. injection H as <-. split; [|eauto]. intros _. destruct W as [W _]. destruct (W eq_refl). repeat split; auto. discriminate.
    + intros H. injection H as <-. split; [intros (ps & xs & a & X); discriminate|]. intros (_ & A & B & _).
      exfalso. assert (false = true) by tauto. discriminate.
Qed.
End Made.
