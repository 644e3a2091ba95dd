From Verif Require Import PyStr PyStrLemmas PyDict PyNum TypeTextModel LambdaModel LambdaSpec AdapterModel AdapterSpec
  LambdaProofs AdapterProofs AdapterProofs2 AdapterProofs3 AdapterProofs4 AdapterProofs5 BufferModel BufferSpec BufferProofs
  BufferProofs2 BufferProofs3 BufferProofs4 BufferProofs5 BufferProofs6 ChainModel ChainSpec ChainProofs.
(** The names used in the lambdas are declared before. *)

Fixpoint scope (known : list str) (ss : list stmt) : list str :=
  match ss with [] => known | s :: r => scope (decls s ++ known) r end.

Lemma scope_In ss : forall known n, In n (scope known ss) <-> In n known \/ In n (flat_map decls ss).
Proof.
  induction ss as [|s ss IH]; intros known n; cbn [scope flat_map].
  - cbn. tauto.
  - rewrite IH, !in_app_iff. tauto.
Qed.

(** Every statement uses what is known or was declared before. *)
Definition declared_before (known : list str) (ss : list stmt) : Prop :=
  forall a s b, ss = a ++ s :: b -> incl (stmt_names s) (known ++ flat_map decls a).

Lemma in_scope_intro ss : forall known, declared_before known ss -> in_scope known ss (scope known ss).
Proof.
  induction ss as [|s ss IH]; intros known H; cbn [scope]; constructor.
  - specialize (H [] s ss eq_refl). cbn in H. rewrite app_nil_r in H. auto.
  - apply IH. intros a s' b E n I. specialize (H (s :: a) s' b ltac:(cbn; congruence) n I). cbn [flat_map] in H.
    rewrite !in_app_iff in H |- *. tauto.
Qed.

Lemma flat_map_split {A B} (g : A -> list B) l : forall a x b, flat_map g l = a ++ x :: b ->
  exists l1 y l2 a' b', l = l1 ++ y :: l2 /\ g y = a' ++ x :: b' /\ a = flat_map g l1 ++ a'.
Proof.
  induction l as [|y l IH]; intros a x b E; cbn [flat_map] in E; [destruct a; discriminate|].
  apply app_eq_app in E. destruct E as (c & [[E1 E2]|[E1 E2]]).
  - destruct c as [|z c].
    + cbn in E2. symmetry in E2. destruct (IH [] x b) as (l1 & y' & l2 & a' & b' & -> & G & N); auto.
      symmetry in N. apply app_eq_nil in N. destruct N as [N ->].
      exists (y :: l1), y', l2, [], b'. rewrite app_nil_r in E1. cbn. rewrite N, !app_nil_r. auto.
    + injection E2 as <- ->. exists [], y, l, a, c. auto.
  - destruct (IH c x b) as (l1 & y' & l2 & a' & b' & -> & G & ->); auto.
    exists (y :: l1), y', l2, a', b'. cbn. rewrite E1, app_assoc. auto.
Qed.

(** A piece uses its own names. *)
Record local (q : piece) : Prop := {
  loc_input : declared_before (map p_name (q_new q)) (q_input q);
  loc_args : incl (flat_map expr_names (q_args q)) (map p_name (q_new q) ++ flat_map decls (q_input q));
  loc_output : Forall (fun s => incl (stmt_names s) (map p_name (q_new q) ++ flat_map decls (q_input q))) (q_output q) }.

Lemma pieces_input qs : Forall local qs -> declared_before (map p_name (new_params qs)) (inputs qs).
Proof.
  intros L a s b E. unfold inputs in E. apply flat_map_split in E. destruct E as (l1 & q & l2 & a' & b' & -> & G & ->).
  rewrite Forall_forall in L. intros n I. assert (J : In q (l1 ++ q :: l2)) by (apply in_app_iff; cbn; auto).
  pose proof (loc_input q (L q J) a' s b' G n I) as H. apply in_app_iff. apply in_app_iff in H.
  rewrite flat_map_app, in_app_iff. destruct H as [H|H]; [|auto]. left. apply in_map_iff in H. destruct H as (p & <- & H). apply in_map. unfold new_params. apply in_flat_map. eauto.
Qed.

Lemma local_In qs q n : In q qs -> In n (map p_name (q_new q) ++ flat_map decls (q_input q)) ->
  In n (map p_name (new_params qs) ++ flat_map decls (inputs qs)).
Proof.
  intros J. rewrite !in_app_iff. intros [H|H].
  - left. apply in_map_iff in H. destruct H as (p & <- & H). apply in_map. unfold new_params. apply in_flat_map. eauto.
  - right. apply in_flat_map in H. destruct H as (s & H1 & H2). apply in_flat_map. exists s. split; auto.
    unfold inputs. apply in_flat_map. eauto.
Qed.

Lemma pieces_args qs : Forall local qs ->
  incl (flat_map expr_names (args qs)) (map p_name (new_params qs) ++ flat_map decls (inputs qs)).
Proof.
  intros L n I. apply in_flat_map in I. destruct I as (x & I & J). unfold args in I. apply in_flat_map in I.
  destruct I as (q & I1 & I2). eapply local_In; eauto. rewrite Forall_forall in L. apply (loc_args q (L q I1)).
  apply in_flat_map. eauto.
Qed.

Lemma pieces_output qs : Forall local qs ->
  Forall (fun s => incl (stmt_names s) (map p_name (new_params qs) ++ flat_map decls (inputs qs))) (outputs qs).
Proof.
  intros L. apply Forall_forall. intros s I n J. unfold outputs in I. apply in_flat_map in I. destruct I as (q & I1 & I2).
  eapply local_In; eauto. rewrite Forall_forall in L. pose proof (loc_output q (L q I1)) as H. rewrite Forall_forall in H.
  apply (H s I2). auto.
Qed.

Lemma scope_incl known ss l : incl l (known ++ flat_map decls ss) -> incl l (scope known ss).
Proof. intros H n I. apply scope_In. apply H in I. apply in_app_iff in I. auto. Qed.

Lemma make_lambda_scoped f s qs : Forall local qs -> scoped (make_lambda f s qs).
Proof.
  intros L. exists (scope (map p_name (new_params qs)) (inputs qs)). cbn. split; [|split].
  - apply in_scope_intro, pieces_input. auto.
  - constructor; auto. apply scope_incl. apply pieces_args. auto.
  - eexists. apply in_scope_intro. intros a st b E n I. apply in_app_iff. left. revert n I. apply scope_incl.
    pose proof (pieces_output qs L) as H. rewrite Forall_forall in H. apply H. rewrite E. apply in_app_iff. cbn. auto.
Qed.

(** ** The pieces of the adapters *)

Lemma local_simple q : Forall (fun s => incl (stmt_names s) (map p_name (q_new q))) (q_input q) ->
  incl (flat_map expr_names (q_args q)) (map p_name (q_new q) ++ flat_map decls (q_input q)) -> q_output q = [] -> local q.
Proof.
  intros H A O. split; auto; [|rewrite O; auto]. intros a s b E n I. apply in_app_iff. left.
  rewrite Forall_forall in H. apply (H s); auto. rewrite E. apply in_app_iff. cbn. auto.
Qed.

Lemma declared_cons known s ss : incl (stmt_names s) known -> declared_before (known ++ decls s) ss -> declared_before known (s :: ss).
Proof.
  intros H1 H2 a st b E. destruct a as [|x a]; cbn in E; injection E as E1 E2; subst.
  - cbn. rewrite app_nil_r. auto.
  - specialize (H2 a st b eq_refl). cbn [flat_map]. rewrite app_assoc. auto.
Qed.
Lemma declared_nil known : declared_before known [].
Proof. intros a s b E. destruct a; discriminate. Qed.

Ltac names := intros ?n; cbn; rewrite ?in_app_iff; cbn; tauto.

Lemma pass_local p : local (pass p).
Proof. apply local_simple; cbn; auto. names. Qed.
Lemma exclude_local o p : local (exclude_piece o p).
Proof. unfold exclude_piece. destruct (shall_exclude o p); [|apply pass_local]. apply local_simple; cbn; auto. names. Qed.
Lemma mutable_local o p : local (mutable_piece o p).
Proof.
  unfold mutable_piece. destruct (seems_mutable o p); [|apply pass_local]. apply local_simple; cbn [q_new q_input q_args q_output]; auto.
  - constructor; auto. names.
  - names.
Qed.
Lemma array_local o n p : local (array_piece o n p).
Proof.
  unfold array_piece. destruct (o_array_size o (p_array p)) as [k|]; [|apply pass_local].
  destruct (is_const_decl p && o_array_std o n). { apply local_simple; cbn; auto. names. }
  destruct (_ && _); [|apply pass_local].
  assert (N : forall i, In i (seq 0 k) -> forall m, In m (expr_names (item_access p i)) -> In m (map p_name (map (boxed_item p) (seq 0 k)))).
  { intros i I m J. rewrite map_map. apply in_map_iff. exists i. split; auto. unfold item_access in J. cbn.
    destruct (is_immutable _) in J; cbn in J; tauto. }
  split; cbn [q_new q_input q_args q_output].
  - apply declared_cons; [names|]. cbn [decls]. intros a s b E m I. rewrite !in_app_iff. left.
    assert (J : In s (map (fun i => SAssign (EIndex (raw_name p) i) (item_access p i)) (seq 0 k))).
    { rewrite E. apply in_app_iff. cbn. auto. }
    apply in_map_iff in J. destruct J as (i & <- & J). cbn in I. destruct I as [<-|I]; [cbn; auto|]. left. eauto.
  - names.
  - apply Forall_forall. intros s J m I. apply in_map_iff in J. destruct J as (i & <- & J). cbn [stmt_names] in I.
    apply in_app_iff in I. rewrite in_app_iff. cbn. destruct I as [I|[<-|[]]]; eauto.
Qed.
Lemma const_char_local p : local (const_char_piece p).
Proof.
  unfold const_char_piece. destruct (is_const_char_null p); [|apply pass_local]. split; cbn [q_new q_input q_args q_output]; auto.
  - apply declared_cons; [names|]. apply declared_cons; [names|apply declared_nil].
  - names.
Qed.
Lemma returned_local o p : local (returned_piece o p).
Proof.
  unfold returned_piece, returned_param. destruct (is_modifiable p).
  - destruct (is_optional p); [|destruct (is_pointer p)]; split; cbn [q_new q_input q_args q_output]; auto; try names.
    all: repeat (apply declared_cons; [names|]); apply declared_nil.
  - destruct (is_modifiable_array o p); [|apply pass_local]. split; cbn [q_new q_input q_args q_output]; auto; try names.
    apply declared_cons; [names|apply declared_nil].
Qed.
Lemma boxed_local p : local (boxed_piece p).
Proof.
  unfold boxed_piece. destruct (is_modifiable p); [|apply pass_local].
  destruct (is_optional p); [|destruct (is_pointer p)]; split; cbn [q_new q_input q_args q_output]; auto; try names.
  all: repeat (apply declared_cons; [names|]); apply declared_nil.
Qed.
Lemma ptrs_declared o p r : declared_before ([p_name p] ++ [ptrs_name p]) r -> declared_before [p_name p] (ptrs_input o p ++ r).
Proof.
  intros H. unfold ptrs_input. destruct (o_nanobind o); cbn [app]; repeat (apply declared_cons; [names|]); cbn [decls]; rewrite ?app_nil_r; auto.
Qed.
Lemma ptrs_decls o p : flat_map decls (ptrs_input o p) = [ptrs_name p].
Proof. unfold ptrs_input. destruct (o_nanobind o); auto. Qed.
Lemma string_list_local o prev p next : local (string_list_piece o prev p next).
Proof.
  unfold string_list_piece.
  assert (P : local (if match prev with Some q => is_string_list q && o_size_name o (p_name p) | None => false end
                     then Piece [] [] [] [] else pass p)).
  { destruct (match prev with Some _ => _ | None => _ end); [|apply pass_local]. apply local_simple; cbn; auto. names. }
  destruct next as [s|]; auto. destruct (is_string_list p && o_size_name o (p_name s)); auto. clear P.
  split; cbn [q_new q_input q_args q_output vector_param map p_name]; auto.
  - apply ptrs_declared. apply declared_cons; [|apply declared_nil]. unfold casted_size. destruct (_ || _); names.
  - rewrite flat_map_app, ptrs_decls. names.
Qed.
Lemma alone_local o p : local (string_list_alone_piece o p).
Proof.
  unfold string_list_alone_piece. destruct (is_string_list p); [|apply pass_local].
  split; cbn [q_new q_input q_args q_output vector_param map p_name]; auto.
  - rewrite <- (app_nil_r (ptrs_input o p)). apply ptrs_declared, declared_nil.
  - rewrite ptrs_decls. names.
Qed.
Lemma list_local o ps : forall prev, Forall local (string_list_pieces o prev ps).
Proof. induction ps as [|p ps IH]; intros prev; cbn [string_list_pieces]; constructor; auto. apply string_list_local. Qed.

Lemma all_local (pc : param -> piece) ps : (forall p, local (pc p)) -> Forall local (map pc ps).
Proof. intros H. induction ps; constructor; auto. Qed.

(** ** The buffers *)

Lemma params_scoped l : 
  Forall (fun s => incl (stmt_names s) (map p_name (l_params l))) (l_input l) ->
  Forall (fun xs => incl (flat_map expr_names xs) (map p_name (l_params l) ++ flat_map decls (l_input l))) (calls_of l) ->
  match l_end l with
  | Ordinary output => output = []
  | ReturnAll outs => incl outs (map p_name (l_params l))
  | ByType _ b others _ _ => incl (b :: others) (map p_name (l_params l))
  end -> scoped l.
Proof.
  intros I C E. exists (scope (map p_name (l_params l)) (l_input l)). split; [|split].
  - apply in_scope_intro. intros a s b H n J. apply in_app_iff. left. rewrite Forall_forall in I. apply (I s); auto.
    rewrite H. apply in_app_iff. cbn. auto.
  - eapply Forall_impl; [|exact C]. intros xs H. apply scope_incl. auto.
  - assert (W : forall x, incl x (map p_name (l_params l)) -> incl x (scope (map p_name (l_params l)) (l_input l))).
    { intros x H. apply scope_incl. intros n J. apply in_app_iff. auto. }
    destruct (l_end l); auto. subst. eexists. constructor.
Qed.

Lemma Forall2_In_l {A B} (R : A -> B -> Prop) l r a : Forall2 R l r -> In a l -> exists b, In b r /\ R a b.
Proof. intros F. induction F; cbn; [tauto|]. intros [<-|I]; eauto. destruct (IHF I) as (b & J & H'). eauto. Qed.
Lemma Forall2_In_r {A B} (R : A -> B -> Prop) l r b : Forall2 R l r -> In b r -> exists a, In a l /\ R a b.
Proof. intros F. induction F; cbn; [tauto|]. intros [<-|I]; eauto. destruct (IHF I) as (a & J & H'). eauto. Qed.

Section Slots.
Variables (i : str) (o : buffer_options) (f : func) (l : lambda) (ss : list bslot).
Hypotheses (H : adapt_c_buffers i o f = Some (Some l)) (P : f_params f = map b_param ss) (AR : arranged o None None ss).

Let facts : forall j s, In (j, s) (enumerate ss) -> slot_fact o ss j s.
Proof. pose proof (arranged_all _ _ AR) as F. rewrite Forall_forall in F. intros j s I. apply (F (j, s) I). Qed.

(** The parameters which remain, and what is declared. *)
Lemma slot_param s : In s ss -> (forall n, b_role s <> Size n) -> In (p_name (b_param s)) (map p_name (l_params l)).
Proof.
  intros I R. destruct (adapter_shape _ _ _ _ H) as (ins & xs & e & _ & _ & _ & ->). cbn [l_params]. rewrite P.
  apply enumerate_In in I. destruct I as [j I]. rewrite enumerate_map, flat_map_map. apply in_map_iff.
  pose proof (new_of_fact _ _ _ _ (facts j s I)) as N. destruct (b_role s) as [n|n|n|n|] eqn:E; try (exfalso; eapply R; eauto; fail);
    eexists; (split; [|apply in_flat_map; exists (j, s); split; [exact I|]; cbn [fst snd]; rewrite N; left; reflexivity]); reflexivity.
Qed.

Lemma slot_statement s j ins st : In (j, s) (enumerate ss) -> input_of o (map b_param ss) j (b_param s) = Some ins -> In st ins -> In st (l_input l).
Proof.
  intros I E J. destruct (adapter_shape _ _ _ _ H) as (all & xs & e & IN & _ & _ & ->). cbn [l_input].
  apply spaced_In. apply in_concat. rewrite P in IN. apply each_param_slots in IN.
  destruct (Forall2_In_l _ _ _ _ IN I) as (b & K & E'). cbn [fst snd] in E'. exists b. split; auto. congruence.
Qed.

Lemma slot_inputs s j : In (j, s) (enumerate ss) -> exists ins, input_of o (map b_param ss) j (b_param s) = Some ins.
Proof.
  intros I. destruct (adapter_shape _ _ _ _ H) as (all & xs & e & IN & _). rewrite P in IN. apply each_param_slots in IN.
  destruct (Forall2_In_l _ _ _ _ IN I) as (b & K & E'). eauto.
Qed.

Lemma array_declares s n x : In s ss -> is_array s n -> In x [from_array (b_param s); count_name (b_param s)] -> In x (flat_map decls (l_input l)).
Proof.
  intros I A X. apply enumerate_In in I. destruct I as [j I]. destruct (slot_inputs s j I) as (ins & E).
  apply in_flat_map. exists (SBuffer (b_nanobind o) (is_const_decl (b_param s)) (p_name (b_param s)) (from_array (b_param s)) (count_name (b_param s))).
  split; [|exact X]. eapply slot_statement; eauto. pose proof (input_of_fact _ _ _ _ _ (facts j s I) E) as F.
  destruct A as [A|A]; rewrite A in F; [destruct F as (cs & _ & ->)|subst ins]; left; reflexivity.
Qed.

Lemma slot_inputs_known : Forall (fun s => incl (stmt_names s) (map p_name (l_params l))) (l_input l).
Proof.
  apply Forall_forall. intros st J. destruct (adapter_shape _ _ _ _ H) as (all & xs & e & IN & _ & _ & LE).
  assert (LI : l_input l = spaced all) by (rewrite LE; auto). rewrite LI in J. apply spaced_In_inv in J.
  destruct J as [->|J]; [intros n []|]. apply in_concat in J. destruct J as (ins & J1 & J2). rewrite P in IN. apply each_param_slots in IN.
  destruct (Forall2_In_r _ _ _ _ IN J1) as ([j s] & K & E). cbn [fst snd] in E.
  pose proof (input_of_fact _ _ _ _ _ (facts j s K) E) as F. pose proof (enumerate_In_inv _ _ _ K) as KS.
  assert (SP : (forall n, b_role s <> Size n) -> In (p_name (b_param s)) (map p_name (l_params l))) by (apply slot_param; auto).
  destruct (b_role s) as [n|n|n|n|] eqn:R.
  - specialize (SP ltac:(discriminate)). destruct F as (cs & C & ->). destruct J2 as [<-|J2]; [intros x [<-|[]]; auto|].
    unfold check_part in C. destruct (b_nanobind o).
    + destruct (dict_get _ _); [|discriminate]. injection C as <-. destruct J2 as [<-|[]]. intros x [<-|[]]; auto.
    + destruct (array_letter _); [|discriminate]. injection C as <-. destruct J2 as [<-|[]]. intros x [<-|[]]; auto.
  - specialize (SP ltac:(discriminate)). subst ins. destruct J2 as [<-|[]]. intros x [<-|[]]; auto.
  - subst ins. destruct J2.
  - specialize (SP ltac:(discriminate)). destruct F as (b & B & A & ->). destruct J2 as [<-|[]]. intros x [<-|[<-|[]]]; auto.
    apply slot_param; auto. intros k. destruct A as [A|A]; rewrite A; discriminate.
  - subst ins. destruct J2.
Qed.

Lemma slot_args_known t xs : each_param (typed_arg_of o (map b_param ss) t) (map b_param ss) = Some xs ->
  incl (flat_map expr_names xs) (map p_name (l_params l) ++ flat_map decls (l_input l)).
Proof.
  intros E n I. apply in_flat_map in I. destruct I as (x & I & J). apply each_param_slots in E.
  destruct (Forall2_In_r _ _ _ _ E I) as ([j s] & K & X). cbn [fst snd] in X.
  pose proof (typed_arg_fact _ _ _ _ _ _ (facts j s K) X) as F. pose proof (enumerate_In_inv _ _ _ K) as KS.
  apply in_app_iff. destruct (b_role s) as [a|a|a|a|] eqn:R.
  - right. subst x. destruct J as [<-|[]]. eapply (array_declares s a); [auto|left; auto|cbn; auto].
  - right. subst x. destruct J as [<-|[]]. eapply (array_declares s a); [auto|right; auto|cbn; auto].
  - right. destruct F as (b & B & A & ->). destruct J as [<-|[]]. eapply (array_declares b a); [auto|auto|cbn; auto].
  - right. destruct F as (b & L & B & A & ->). assert (n = stride_name (b_param b)) as ->.
    { destruct (seqb _ _) in J; destruct J as [<-|[]]; auto. }
    apply in_flat_map. exists (SStride (stride_name (b_param b)) (p_name (b_param s)) (p_name (b_param b))). split; [|left; auto].
    destruct (slot_inputs s j K) as (ins & EI). eapply slot_statement; eauto. pose proof (facts j s K) as SF.
    unfold slot_fact in SF. rewrite R in SF. cbv zeta in SF. destruct SF as (S1 & S2 & S3 & S4 & _).
    unfold input_of, is_standard in EI. rewrite S1, S3 in EI. cbn [andb] in EI. unfold stride_part in EI. rewrite L in EI.
    injection EI as <-. left. auto.
  - left. subst x. destruct J as [<-|[]]. apply slot_param; auto. intros k. rewrite R. discriminate.
Qed.

Theorem buffer_scoped : scoped l.
Proof.
  assert (FA : Forall (fun k => slot_fact o ss (fst k) (snd k)) (enumerate ss)) by (apply arranged_all; auto).
  assert (TP : forall p, In p (template_params o (map b_param ss)) -> In (p_name p) (map p_name (l_params l))).
  { intros p I. destruct (template_param_slot _ _ _ FA I) as (s & n & I1 & <- & R). apply slot_param; auto. intros k. rewrite R. discriminate. }
  pose proof slot_inputs_known as SK. pose proof slot_args_known as SA.
  destruct (adapter_shape _ _ _ _ H) as (ins & xs & e & _ & X & E & LE). rewrite P in X.
  unfold buffer_end in E. rewrite P in E. destruct (rev (template_params o (map b_param ss))) as [|p r] eqn:R.
  - injection E as E. apply params_scoped; auto.
    + unfold calls_of. rewrite LE in SA |- *. cbn [l_end l_args] in SA |- *. rewrite <- E. constructor; auto. apply (SA []). rewrite <- X.
      unfold each_param. f_equal. apply map_ext_in. intros [j p] I. cbn [fst snd]. unfold typed_arg_of.
      destruct (looks_template o p) eqn:L; auto. exfalso. apply enumerate_In_inv in I.
      assert (T : In p (rev (template_params o (map b_param ss)))) by (apply in_rev; rewrite rev_involutive; apply filter_In; auto).
      rewrite R in T. destruct T.
    + rewrite LE. cbn [l_end]. rewrite <- E. auto.
  - destruct (typed_calls o (map b_param ss)) as [calls|] eqn:C; [|discriminate]. injection E as E.
    apply params_scoped; auto.
    + unfold calls_of. rewrite LE in SA |- *. cbn [l_end l_args] in SA |- *. rewrite <- E. apply Forall_map. apply Forall_forall. intros [letter zs] I. cbn [snd].
      unfold typed_calls in C. apply sequence_Forall2 in C. destruct (Forall2_In_r _ _ _ _ C I) as (t & _ & TC).
      unfold typed_call in TC. destruct (array_letter t) as [s|]; [|discriminate]. destruct (each_param (typed_arg_of o (map b_param ss) (array_type s)) (map b_param ss)) as [ys|] eqn:Y; [|discriminate].
      injection TC as <- <-. eapply SA; eauto.
    + rewrite LE in TP |- *. cbn [l_end l_params] in TP |- *. rewrite <- E. intros n [<-|I].
      * apply TP. apply in_rev. rewrite R. left. auto.
      * apply filter_In in I. destruct I as [I _]. apply in_map_iff in I. destruct I as (q & <- & I). apply TP. auto.
Qed.
End Slots.

(** ** The chain *)

Theorem chain_scoped i bo o f ls g : single_roles bo f -> apply_all_adapters i bo o f = Some (ls, g) ->
  Forall (fun fl => scoped (snd fl)) ls.
Proof.
  intros SR H.
  assert (REST : forall a, In a (tl (adapters i bo o)) -> forall f l, a f = Some (Some l) -> scoped l).
  { intros a. cbn [adapters tl In]. intros I f0 l. repeat destruct I as [<-|I]; try destruct I; intros E; injection E as E; revert E.
    - unfold adapt_exclude_params. destruct (existsb _ _); [|discriminate]. intros E. injection E as <-. apply make_lambda_scoped, all_local, exclude_local.
    - unfold adapt_mutable_default. destruct (_ && _); [|discriminate]. intros E. injection E as <-. apply make_lambda_scoped, all_local, mutable_local.
    - unfold adapt_c_arrays. destruct (existsb _ _); [|discriminate]. intros E. injection E as <-. apply make_lambda_scoped, all_local. apply array_local.
    - unfold adapt_const_char_null. destruct (_ && _); [|discriminate]. intros E. injection E as <-. apply make_lambda_scoped, all_local. apply const_char_local.
    - unfold adapt_to_return. destruct (o_to_return o (f_name f0)); [|discriminate].
      destruct (returned_params o (f_params f0)) as [|out outs] eqn:R; [discriminate|]. intros E. injection E as <-.
      assert (L : Forall local (map (returned_piece o) (f_params f0))) by (apply all_local, returned_local).
      eexists. split; [apply in_scope_intro, pieces_input; auto|]. split.
      + cbn. constructor; auto. apply scope_incl, pieces_args. auto.
      + cbn [l_end l_params l_input]. intros n I. apply scope_In. left. change (In n (map p_name (out :: outs))) in I. rewrite <- R in I. apply in_map_iff in I. destruct I as (q & <- & I). apply in_map. 
        unfold returned_params in I. apply in_flat_map in I. destruct I as (p & I1 & I2). unfold new_params. apply in_flat_map.
        exists (returned_piece o p). split; [apply in_map; auto|]. unfold returned_piece. destruct (returned_param o p); [exact I2|destruct I2].
    - unfold adapt_boxed. destruct (_ && _); [|discriminate]. intros E. injection E as <-. apply make_lambda_scoped, all_local. apply boxed_local.
    - unfold adapt_string_list. destruct (_ && _); [|discriminate]. intros E. injection E as <-. apply make_lambda_scoped, list_local.
    - unfold adapt_string_list_alone. destruct (_ && _); [|discriminate]. intros E. injection E as <-. apply make_lambda_scoped, all_local. apply alone_local.
    - unfold adapt_variadic. destruct (rev (f_params f0)) as [|last [|text firsts]] eqn:R; try discriminate.
      destruct (_ && _); [|discriminate]. intros E. injection E as <-.
      change (scoped (make_lambda f0 $"_adapt_variadic_format" (map pass (rev firsts) ++ [Piece [text] [] [ELit $"%s"] []; Piece [] [] [EName (p_name text)] []]))).
      assert (L : Forall local (map pass (rev firsts) ++ [Piece [text] [] [ELit $"%s"; EName (p_name text)] []])).
      { apply Forall_app. split; [apply all_local, pass_local|]. constructor; auto. apply local_simple; cbn; auto. names. }
      replace (make_lambda f0 _ (map pass (rev firsts) ++ [Piece [text] [] [ELit $"%s"] []; Piece [] [] [EName (p_name text)] []]))
        with (make_lambda f0 $"_adapt_variadic_format" (map pass (rev firsts) ++ [Piece [text] [] [ELit $"%s"; EName (p_name text)] []])).
      { apply make_lambda_scoped. auto. }
      unfold make_lambda, new_params, inputs, args, outputs. rewrite !flat_map_app. auto. }
  assert (FORCE : forall f, scoped (adapt_force_lambda f)) by (intros; apply make_lambda_scoped, all_local, pass_local).
  assert (FIRST : forall l, adapt_c_buffers i bo f = Some (Some l) -> scoped l).
  { intros l E. assert (AP : adapted_params bo f).
    { apply shall_adapt_spec. revert E. unfold adapt_c_buffers. destruct (shall_adapt bo f); [auto|discriminate]. }
    destruct (SR AP) as (ss & P & AR). eapply buffer_scoped; eauto. }
  assert (ALL : forall all, (forall a, In a all -> forall f l, a f = Some (Some l) -> scoped l) -> forall f ls g,
    apply_adapters all f = Some (ls, g) -> Forall (fun fl => scoped (snd fl)) ls).
  { clear. induction all as [|a all IH]; intros A f ls g E; cbn [apply_adapters] in E; [injection E as <- <-; auto|].
    specialize (IH (fun a' I => A a' (or_intror I))). destruct (a f) as [[l|]|] eqn:B; [| |discriminate]; eauto.
    destruct (apply_adapters all (apply_lambda_adapter f l)) as [[ls' g']|] eqn:C; [|discriminate]. injection E as <- <-.
    constructor; [cbn; eapply A; [left; reflexivity|eauto]|eauto]. }
  unfold apply_all_adapters in H. destruct (apply_adapters (adapters i bo o) f) as [[ls0 g0]|] eqn:E; [|discriminate]. injection H as <- <-.
  apply Forall_app. split.
  2:{ unfold force. destruct (_ && _); cbn [fst]; auto. constructor; auto. apply FORCE. }
  change (adapters i bo o) with (adapt_c_buffers i bo :: tl (adapters i bo o)) in E. cbn [apply_adapters] in E.
  destruct (adapt_c_buffers i bo f) as [[l|]|] eqn:B; [| |discriminate]; [|eapply ALL; eauto].
  destruct (apply_adapters (tl (adapters i bo o)) (apply_lambda_adapter f l)) as [[ls' g']|] eqn:C; [|discriminate]. injection E as <- <-.
  constructor; [cbn; auto|]. eapply ALL; eauto.
Qed.
