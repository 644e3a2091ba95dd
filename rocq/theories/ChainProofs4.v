From Coq Require Import Permutation.
From Verif Require Import PyStr PyStrLemmas PyDict PyNum TypeTextModel LambdaModel LambdaSpec AdapterModel AdapterSpec
  LambdaProofs AdapterProofs AdapterProofs2 AdapterProofs3 AdapterProofs4 AdapterProofs5 BufferModel BufferSpec BufferProofs
  BufferProofs2 BufferProofs3 BufferProofs4 BufferProofs5 BufferProofs6 ChainModel ChainSpec ChainProofs ChainProofs2 ChainProofs3.
(** The names of the lambdas of the adapters which follow that of the buffers. *)

Lemma long_ending e : In e lambda_endings -> 13 < length e.
Proof.
  intros I. assert (H : forallb (fun e => 13 <? length e) lambda_endings = true) by reflexivity.
  rewrite forallb_forall in H. apply Nat.ltb_lt. apply H. auto.
Qed.
Lemma short_not_lambda w e n : In e lambda_endings -> length w <= 13 -> w <> n ++ e.
Proof. intros I L E. apply long_ending in I. rewrite E, app_length in L. lia. Qed.

Section Chain.
Variables (bo : buffer_options) (f0 : func).
Hypothesis CL : clean bo f0.
Let K := kept bo f0.

(** What is known of the function in the chain. *)
Record current (items : bool) (f : func) : Prop := {
  cu_name : f_name f = f_name f0;
  cu_qualified : f_qualified f = f_qualified f0;
  cu_call : f_to_call f = None \/ exists e, In e lambda_endings /\ f_to_call f = Some (f_name f0 ++ e);
  cu_names : forall p, In p (f_params f) -> exists x, K x /\ item_of x (p_name p) /\ (items = false -> p_name p = x);
  cu_distinct : NoDup (map p_name (f_params f));
  cu_defaults : forall p w, In p (f_params f) -> In w (words (p_default p)) ->
    w <> $"self" /\ (forall e, In e lambda_endings -> w <> f_name f0 ++ e) /\ forall x, K x -> ~ made_from bo f0 x w }.

Lemma current_weaken f items : current items f -> current true f.
Proof.
  intros [C1 C2 C3 C4 C5 C6]. split; auto. intros p I. destruct (C4 p I) as (x & A & B & _). exists x. split; [auto|]. split; [auto|]. discriminate.
Qed.

Lemma made_not_empty x n : K x -> made_from bo f0 x n -> n <> [].
Proof.
  intros KX M E. assert (X : x <> []) by (intros ->; apply (cl_not_empty _ _ CL); auto).
  destruct M as [(y & I & H)|(_ & e & _ & ->)]; [|apply app_eq_nil in E; tauto]. apply item_length in I. destruct H as [->|(e & _ & ->)].
  - subst. destruct x; [auto|cbn in I; lia].
  - apply app_eq_nil in E. destruct E as [-> _]. destruct x; [auto|cbn in I; lia].
Qed.

Lemma captures_taken items f n : current items f -> In n (captures f) -> n = $"self" \/ exists e, In e lambda_endings /\ n = f_name f0 ++ e.
Proof.
  intros C. unfold captures. destruct (cu_call _ _ C) as [->|(e & E & ->)].
  - destruct (f_is_method f); [intros [<-|[]]; auto|intros []].
  - intros [<-|[]]. eauto.
Qed.

(** A lambda whose names are made from those of the parameters, and whose texts are default values. *)
Lemma lambda_named items f l : current items f -> (match l_end l with ByType _ _ _ _ _ => False | _ => True end) ->
  NoDup (map p_name (l_params l) ++ flat_map decls (l_input l)) ->
  (forall n, In n (map p_name (l_params l) ++ flat_map decls (l_input l)) -> exists x, K x /\ made_from bo f0 x n) ->
  (forall t, In t (texts_of l) -> exists p, In p (f_params f) /\ t = p_default p) -> well_named f l.
Proof.
  intros C EN ND MF TX.
  assert (CAP : forall n, In n (captures f) -> n = $"self" \/ exists e, In e lambda_endings /\ n = f_name f0 ++ e) by (intros n; eapply captures_taken; eauto).
  assert (FREE : forall x n, K x -> made_from bo f0 x n -> ~ taken f0 n /\ n <> f_qualified f0) by (apply (cl_free _ _ CL)).
  split.
  - unfold names_of. apply NoDup_app_intro; auto.
    + unfold captures. destruct (f_to_call f); [repeat constructor; auto|]. destruct (f_is_method f); repeat constructor; auto.
    + intros n I J. destruct (MF n J) as (x & KX & M). destruct (FREE x n KX M) as [T _]. apply T. unfold taken.
      destruct (CAP n I) as [->|H]; [left; left; auto|right; right; auto].
  - unfold names_of. rewrite in_app_iff. intros [I|I].
    + destruct (CAP [] I) as [H|(e & E & H)]; [discriminate|]. exact (short_not_lambda [] e (f_name f0) E ltac:(cbn; lia) H).
    + destruct (MF [] I) as (x & KX & M). apply (made_not_empty x [] KX M). auto.
  - intros t n T I W. destruct (TX t T) as (p & P & ->). destruct (cu_defaults _ _ C p n P W) as (D1 & D2 & D3).
    unfold names_of in I. apply in_app_iff in I. destruct I as [I|I].
    + destruct (CAP n I) as [->|(e & E & ->)]; [auto|]. apply (D2 e E). auto.
    + destruct (MF n I) as (x & KX & M). apply (D3 x KX M).
  - intros TC ME. unfold names_of, captures. rewrite TC, ME. cbn [app]. intros I. destruct (MF _ I) as (x & KX & M).
    destruct (FREE x _ KX M) as [_ Q]. apply Q. apply (cu_qualified _ _ C).
  - assert (R : forall w, In w [$"lambda_result"; $"r"] -> ~ In w (names_of f l)).
    { intros w W I. unfold names_of in I. apply in_app_iff in I. destruct I as [I|I].
      - destruct (CAP w I) as [->|(e & E & EQ)].
        + destruct W as [W|[W|[]]]; discriminate.
        + revert EQ. apply short_not_lambda; auto. destruct W as [<-|[<-|[]]]; cbn; lia.
      - destruct (MF w I) as (x & KX & M). destruct (FREE x w KX M) as [T _]. apply T. left.
        destruct W as [<-|[<-|[]]]; cbn; auto. }
    destruct (l_end l); [| |contradiction]; intros _; apply R; cbn; auto.
Qed.

(** The same with pieces. *)
Lemma made_lambda_named items f s qs : current items f -> NoDup (flat_map own qs) ->
  (forall n, In n (flat_map own qs) -> exists x, K x /\ made_from bo f0 x n) ->
  (forall t, In t (flat_map stmt_texts (inputs qs) ++ flat_map expr_texts (args qs)) -> exists p, In p (f_params f) /\ t = p_default p) ->
  well_named f (make_lambda f s qs).
Proof.
  intros C ND MF TX. eapply lambda_named; eauto; cbn.
  - auto.
  - eapply Permutation_NoDup; [apply Permutation_sym, pieces_perm|auto].
  - intros n I. apply MF. eapply Permutation_in; [apply pieces_perm|]. auto.
Qed.

(** A parameter keeps its name, and the piece has other names with endings, all different. *)
Definition keeps (p : param) (q : piece) : Prop :=
  NoDup (own q) /\ (forall n, In n (own q) -> own_names (p_name p) n) /\
  (forall np, In np (q_new q) -> p_name np = p_name p) /\
  (forall np, In np (q_new q) -> In (p_default np) [p_default p; []; $"-1"; $"std::nullopt"; $"nullptr"]) /\
  (forall t, In t (flat_map stmt_texts (q_input q) ++ flat_map expr_texts (q_args q)) -> t = p_default p).

Lemma own_flat (pc : param -> piece) ps : flat_map own (map pc ps) = flat_map (fun p => own (pc p)) ps.
Proof. rewrite !flat_map_concat_map, map_map. auto. Qed.

Lemma keeps_names items f (pc : param -> piece) : current items f -> (forall p, keeps p (pc p)) ->
  NoDup (flat_map own (map pc (f_params f))) /\
  (forall n, In n (flat_map own (map pc (f_params f))) -> exists x, K x /\ made_from bo f0 x n) /\
  (forall t, In t (flat_map stmt_texts (inputs (map pc (f_params f))) ++ flat_map expr_texts (args (map pc (f_params f)))) ->
     exists p, In p (f_params f) /\ t = p_default p).
Proof.
  intros C KP. rewrite own_flat. split; [|split].
  - apply NoDup_flat_names; [apply (cu_distinct _ _ C)| |].
    + intros p _. apply (KP p).
    + intros p q n I J A B. apply KP in A, B. destruct (cu_names _ _ C p I) as (x & KX & IX & _). destruct (cu_names _ _ C q J) as (y & KY & IY & _).
      eapply (own_apart bo f0 K (cl_apart _ _ CL) x y); eauto.
  - intros n I. apply in_flat_map in I. destruct I as (p & I & J). apply KP in J. destruct (cu_names _ _ C p I) as (x & KX & IX & _).
    exists x. split; auto. left. exists (p_name p). auto.
  - intros t I. assert (X : exists p, In p (f_params f) /\ In t (flat_map stmt_texts (q_input (pc p)) ++ flat_map expr_texts (q_args (pc p)))).
    { apply in_app_iff in I. unfold inputs, args in I. destruct I as [I|I]; apply in_flat_map in I; destruct I as (s & I1 & I2);
        apply in_flat_map in I1; destruct I1 as (q & I1 & I3); apply in_map_iff in I1; destruct I1 as (p & <- & I1);
        exists p; split; auto; apply in_app_iff; [left|right]; apply in_flat_map; eauto. }
    destruct X as (p & I1 & I2). exists p. split; auto. apply (KP p). auto.
Qed.

(** The defaults given by the adapters. *)
Lemma new_default_words d w : In d [[]; $"-1"; $"std::nullopt"; $"nullptr"] -> In w (words d) ->
  w <> $"self" /\ (forall e, In e lambda_endings -> w <> f_name f0 ++ e) /\ forall x, K x -> ~ made_from bo f0 x w.
Proof.
  intros D W. assert (X : w = [] \/ In w [$"1"; $"std"; $"nullopt"; $"nullptr"]).
  { cbn in D. repeat destruct D as [<-|D]; try destruct D; vm_compute in W; cbn; intuition. }
  split; [|split].
  - intros ->. destruct X as [X|X]; [discriminate|]. cbn in X. repeat destruct X as [X|X]; try discriminate. destruct X.
  - intros e E. apply short_not_lambda; auto. destruct X as [->|X]; [cbn; lia|]. cbn in X. repeat destruct X as [<-|X]; cbn; first [lia | destruct X].
  - intros x KX M. destruct X as [->|X]; [apply (made_not_empty x [] KX M); auto|]. eapply (cl_words _ _ CL); eauto.
Qed.

Lemma keeps_current items f e pc t : current items f -> (forall p, keeps p (pc p)) -> In e lambda_endings ->
  let l := make_lambda f e (map pc (f_params f)) in
  current items (apply_lambda_adapter f (Lambda (l_name l) (l_params l) t (l_input l) (l_args l) (l_end l))).
Proof.
  intros C KP E. cbn. split; cbn [apply_lambda_adapter f_name f_qualified f_to_call f_params l_name l_params].
  - apply (cu_name _ _ C).
  - apply (cu_qualified _ _ C).
  - right. exists e. rewrite (cu_name _ _ C). auto.
  - intros np I. unfold new_params in I. apply in_flat_map in I. destruct I as (q & I1 & I2). apply in_map_iff in I1. destruct I1 as (p & <- & I1).
    assert (N : p_name np = p_name p) by (apply (KP p); auto). rewrite N. apply (cu_names _ _ C p I1).
  - destruct (keeps_names items f pc C KP) as (ND & _ & _). apply NoDup_app_parts with (b := flat_map decls (inputs (map pc (f_params f)))).
    eapply Permutation_NoDup; [apply Permutation_sym, pieces_perm|auto].
  - intros np w I W. unfold new_params in I. apply in_flat_map in I. destruct I as (q & I1 & I2). apply in_map_iff in I1. destruct I1 as (p & <- & I1).
    destruct (KP p) as (_ & _ & _ & D & _). specialize (D np I2). destruct D as [D|D].
    + rewrite <- D in W. eapply (cu_defaults _ _ C); eauto.
    + eapply new_default_words; eauto.
Qed.

(** ** The pieces *)

Lemma keeps_one p q n e : q_new q = [n] -> p_name n = p_name p -> In e late_endings -> flat_map decls (q_input q) = [p_name p ++ e] ->
  In (p_default n) [p_default p; []; $"-1"; $"std::nullopt"; $"nullptr"] ->
  (forall t, In t (flat_map stmt_texts (q_input q) ++ flat_map expr_texts (q_args q)) -> t = p_default p) -> keeps p q.
Proof.
  intros Q N E D DF T. split; [|split; [|split; [|split]]]; auto.
  - unfold own. rewrite Q, D. cbn. rewrite N. constructor; [|repeat constructor; auto]. intros [H|[]].
    apply (f_equal (@length _)) in H. rewrite app_length in H. destruct e; [eapply endings_not_empty; [apply late_ending; eauto|auto]|]. cbn in H. lia.
  - unfold own. rewrite Q, D. cbn. intros m [<-|[<-|[]]]; [left; auto|right; eauto].
  - rewrite Q. intros np [<-|[]]. auto.
  - rewrite Q. intros np [<-|[]]. auto.
Qed.
Lemma pass_keeps p : keeps p (pass p).
Proof.
  unfold pass. split; [|split; [|split; [|split]]]; cbn.
  - repeat constructor; auto.
  - intros n [<-|[]]. left. auto.
  - intros np [<-|[]]. auto.
  - intros np [<-|[]]. auto.
  - tauto.
Qed.
Lemma exclude_keeps o p : keeps p (exclude_piece o p).
Proof.
  unfold exclude_piece. destruct (shall_exclude o p); [|apply pass_keeps]. split; [|split; [|split; [|split]]]; cbn; try tauto; try constructor.
  intros t [<-|[]]. auto.
Qed.
Lemma mutable_keeps o p : keeps p (mutable_piece o p).
Proof.
  unfold mutable_piece. destruct (seems_mutable o p); [|apply pass_keeps]. eapply (keeps_one p _ _ $"_or_default"); cbn; auto 10.
  intros t [<-|[]]. auto.
Qed.
Lemma const_char_keeps p : keeps p (const_char_piece p).
Proof.
  unfold const_char_piece. destruct (is_const_char_null p); [|apply pass_keeps]. eapply (keeps_one p _ _ $"_adapt_default_null"); cbn; auto 10. tauto.
Qed.
Lemma returned_keeps o p : keeps p (returned_piece o p).
Proof.
  unfold returned_piece, returned_param. destruct (is_modifiable p).
  - destruct (is_optional p); [|destruct (is_pointer p)]; eapply (keeps_one p _ _ $"_adapt_modifiable"); cbn; auto 11; tauto.
  - destruct (is_modifiable_array o p); [|apply pass_keeps]. eapply (keeps_one p _ _ $"_adapt_modifiable"); cbn; auto 11; tauto.
Qed.
Lemma boxed_keeps p : keeps p (boxed_piece p).
Proof.
  unfold boxed_piece. destruct (is_modifiable p); [|apply pass_keeps].
  destruct (is_optional p); [|destruct (is_pointer p)]; eapply (keeps_one p _ _ $"_boxed_value"); cbn; auto 12; tauto.
Qed.
Lemma alone_keeps o p : keeps p (string_list_alone_piece o p).
Proof.
  unfold string_list_alone_piece. destruct (is_string_list p); [|apply pass_keeps].
  eapply (keeps_one p _ _ $"_ptrs"); cbn [q_new q_input q_args q_output]; [reflexivity|reflexivity|cbn; auto 12|apply ptrs_decls|cbn; auto|].
  unfold ptrs_input. destruct (o_nanobind o); cbn; tauto.
Qed.
End Chain.
