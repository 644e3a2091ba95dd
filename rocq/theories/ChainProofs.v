From Verif Require Import PyStr PyStrLemmas PyDict PyNum TypeTextModel LambdaModel LambdaSpec AdapterModel AdapterSpec
  LambdaProofs AdapterProofs AdapterProofs2 AdapterProofs3 AdapterProofs4 AdapterProofs5 BufferModel BufferSpec BufferProofs
  BufferProofs2 BufferProofs3 BufferProofs4 BufferProofs5 BufferProofs6 ChainModel ChainSpec.
(** The chain of lambdas: one argument per parameter, names in scope, one call. *)

(** ** Induction along the chain *)

Lemma chain_forall i bo o (Inv : func -> Prop) (Q : func -> lambda -> Prop) f ls g :
  (forall a, In a (adapters i bo o) -> forall f l, Inv f -> a f = Some (Some l) -> Q f l /\ Inv (apply_lambda_adapter f l)) ->
  (forall f, Inv f -> Q f (adapt_force_lambda f)) ->
  Inv f -> apply_all_adapters i bo o f = Some (ls, g) -> Forall (fun fl => Q (fst fl) (snd fl)) ls.
Proof.
  intros A F. unfold apply_all_adapters. revert A. generalize (adapters i bo o) as all. intros all A. revert f ls g.
  induction all as [|a all IH]; intros f ls g I H; cbn [apply_adapters] in H.
  - injection H as <- <-. unfold force. destruct (_ && _); cbn [fst app]; repeat constructor; cbn [fst snd]; auto.
  - specialize (IH (fun a' J => A a' (or_intror J))).
    destruct (a f) as [[l|]|] eqn:E; [| |discriminate]; [|eauto].
    destruct (A a (or_introl eq_refl) f l I E) as [Q1 I1].
    destruct (apply_adapters all (apply_lambda_adapter f l)) as [[ls' g']|] eqn:R; [|discriminate].
    injection H as <- <-. cbn [app]. constructor; auto.
    specialize (IH (apply_lambda_adapter f l)). rewrite R in IH. eauto.
Qed.

Lemma adapters_cases i bo o (P : adapter -> Prop) :
  P (adapt_c_buffers i bo) -> P (fun f => Some (adapt_exclude_params o f)) -> P (fun f => Some (adapt_mutable_default o f)) ->
  P (fun f => Some (adapt_c_arrays o f)) -> P (fun f => Some (adapt_const_char_null o f)) ->
  P (fun f => Some (adapt_to_return o f)) -> P (fun f => Some (adapt_boxed o f)) -> P (fun f => Some (adapt_string_list o f)) ->
  P (fun f => Some (adapt_string_list_alone o f)) -> P (fun f => Some (adapt_variadic o f)) ->
  forall a, In a (adapters i bo o) -> P a.
Proof. intros. cbn [adapters In] in H9. repeat destruct H9 as [<-|H9]; auto. destruct H9. Qed.

Theorem chain_is_chained i bo o f ls g : apply_all_adapters i bo o f = Some (ls, g) -> chained f ls g.
Proof.
  unfold apply_all_adapters. generalize (adapters i bo o) as all. intros all. revert f ls g.
  assert (C : forall f l ls g, chained (apply_lambda_adapter f l) ls g -> chained f ((f, l) :: ls) g).
  { intros f l ls g H. econstructor; [..|exact H]; reflexivity. }
  induction all as [|a all IH]; intros f ls g H; cbn [apply_adapters] in H.
  - injection H as <- <-. unfold force. destruct (_ && _); cbn [fst snd app]; [apply C|]; constructor.
  - destruct (a f) as [[l|]|] eqn:E; [| |discriminate]; auto.
    destruct (apply_adapters all (apply_lambda_adapter f l)) as [[ls' g']|] eqn:R; [|discriminate].
    injection H as <- <-. cbn [app]. apply C. apply IH. rewrite R. auto.
Qed.

(** ** One call *)

Lemma give_length e m ps : forall xs ys, give e m ps xs = Some ys -> length ys = length ps.
Proof.
  induction ps as [|p ps IH]; intros [|x xs] ys H; cbn in H; try discriminate; [injection H as <-; auto|].
  destruct (give1 e m p x); [|discriminate]. destruct (give e m ps xs) eqn:G; [|discriminate]. injection H as <-. cbn. f_equal. eauto.
Qed.

Lemma call_once f l xs m : (exists r, (forall a, r <> Ok a) /\ forall c, call f l c xs m = r) \/
  exists ys m1 k, length ys = length (f_params f) /\ forall c, call f l c xs m = bind (c ys m1) k.
Proof.
  unfold call. destruct (of_option _) as [[e0 m0]| |]; [|left; exists Throw|left; exists Stuck]; try (split; [discriminate|auto]; fail).
  cbn [bind fst snd]. destruct (run (l_input l) e0 m0) as [[e1 m1]| |]; [|left; exists Throw|left; exists Stuck]; try (split; [discriminate|auto]; fail).
  cbn [bind fst snd]. destruct (callee_visible f e1); [|left; exists Stuck; split; [discriminate|auto]].
  destruct (choose l e1 m1) as [zs| |]; [|left; exists Throw|left; exists Stuck]; try (split; [discriminate|auto]; fail).
  cbn [bind]. destruct (give e1 m1 (f_params f) zs) as [ys|] eqn:G; [|left; exists Stuck; split; [discriminate|auto]].
  right. exists ys, m1, (fun rm => finish f l e1 (fst rm) (snd rm)). split; [eapply give_length; eauto|]. intros c. auto.
Qed.

Lemma bind_assoc {A B C} (r : result A) (g : A -> result B) (h : B -> result C) : bind (bind r g) h = bind r (fun a => bind (g a) h).
Proof. destruct r; auto. Qed.

Theorem chain_once f ls g : chained f ls g -> ls <> [] -> forall xs m,
  (exists r, (forall a, r <> Ok a) /\ forall c, run_chain ls c xs m = r) \/
  exists ys m1 k, length ys = length (f_params f) /\ forall c, run_chain ls c xs m = bind (c ys m1) k.
Proof.
  intros C. induction C as [|f l ls g h _ _ _ _ _ P _ _ C IH]; intros N xs m; [congruence|]. cbn [run_chain].
  destruct ls as [|fl ls]; [inversion C; subst; apply call_once|].
  destruct (IH ltac:(discriminate) xs m) as [(r & R & H)|(ys & m1 & k & L & H)]; [left; eauto|].
  destruct (call_once f l ys m1) as [(r & R & H1)|(zs & m2 & k2 & L2 & H2)].
  - left. exists (bind r k). split. { intros a. destruct r; [exfalso; eapply R; eauto| |]; discriminate. }
    intros c. rewrite H, H1. auto.
  - right. exists zs, m2, (fun rm => bind (k2 rm) k). split; auto. intros c. rewrite H, H2. apply bind_assoc.
Qed.

(** ** One argument per parameter *)

Lemma args_map (pc : param -> piece) ps : (forall p, In p ps -> length (q_args (pc p)) = 1) -> length (args (map pc ps)) = length ps.
Proof.
  unfold args. induction ps as [|p ps IH]; intros H; auto. cbn [map flat_map]. rewrite app_length, H by (left; auto). cbn. f_equal.
  apply IH. intros q I. apply H. right. auto.
Qed.

Lemma each_param_length {A} (h : nat -> param -> option A) ps r : each_param h ps = Some r -> length r = length ps.
Proof.
  intros H. unfold each_param in H. apply sequence_Forall2 in H. apply Forall2_length in H. rewrite <- H.
  rewrite <- (map_length snd), enumerate_snd. auto.
Qed.


(** The lists of strings are never made by an adapter. *)
Definition same_lists (ps qs : list param) : Prop := forall q, In q qs -> string_list q -> In q ps.

Lemma not_list q : typenames (p_type q) <> [$"char"] \/ ~ In $"const" (specifiers (p_type q)) -> ~ string_list q.
Proof. unfold string_list. tauto. Qed.

Lemma same_lists_map (pc : param -> piece) ps :
  (forall p q, In p ps -> In q (q_new (pc p)) -> string_list q -> q = p) -> same_lists ps (new_params (map pc ps)).
Proof.
  intros H q I S. unfold new_params in I. rewrite flat_map_concat_map, map_map, <- flat_map_concat_map in I.
  apply in_flat_map in I. destruct I as (p & I1 & I2). rewrite (H p q); auto.
Qed.

Lemma list_sizes_same o ps qs : same_lists ps qs -> no_list_of_sizes o ps -> no_list_of_sizes o qs.
Proof. unfold no_list_of_sizes. intros S N q I L. auto. Qed.

Ltac not_a_list := intros HS; exfalso; revert HS; apply not_list; cbn; (left; discriminate) || (right; tauto).

Lemma exclude_lists o p q : In q (q_new (exclude_piece o p)) -> string_list q -> q = p.
Proof. unfold exclude_piece, pass. destruct (shall_exclude o p); cbn; intuition. Qed.
Lemma mutable_lists o p q : In q (q_new (mutable_piece o p)) -> string_list q -> q = p.
Proof. unfold mutable_piece, pass. destruct (seems_mutable o p); cbn [q_new In]; intros [<-|[]]; auto. not_a_list. Qed.
Lemma array_lists o n p q : In q (q_new (array_piece o n p)) -> string_list q -> q = p.
Proof.
  unfold array_piece, pass. destruct (o_array_size o (p_array p)) as [k|]; [|cbn; intuition].
  destruct (is_const_decl p && o_array_std o n). { cbn [q_new In]. intros [<-|[]]. not_a_list. }
  destruct (negb (is_const_decl p) && o_array_boxed o n && (k <=? o_array_max o)) eqn:B; [|cbn; intuition].
  cbn [q_new]. intros I. apply in_map_iff in I. destruct I as (j & <- & _).
  apply andb_true_iff in B. destruct B as [B _]. apply andb_true_iff in B. destruct B as [B _].
  intros HS. exfalso. revert HS. apply not_list. right. intros C.
  apply smem_In in C. change (is_const_decl p = true) in C. rewrite C in B. discriminate.
Qed.
Lemma const_char_lists p q : In q (q_new (const_char_piece p)) -> string_list q -> q = p.
Proof. unfold const_char_piece, pass. destruct (is_const_char_null p); cbn [q_new In]; intros [<-|[]]; auto. not_a_list. Qed.
Lemma returned_lists o p q : In q (q_new (returned_piece o p)) -> string_list q -> q = p.
Proof.
  unfold returned_piece, pass, returned_param.
  destruct (is_modifiable p); [destruct (is_optional p)|destruct (is_modifiable_array o p)]; cbn [q_new In]; intros [<-|[]]; auto; not_a_list.
Qed.
Lemma boxed_lists p q : In q (q_new (boxed_piece p)) -> string_list q -> q = p.
Proof.
  unfold boxed_piece, pass. destruct (is_modifiable p); [destruct (is_optional p)|]; cbn [q_new In]; intros [<-|[]]; auto; not_a_list.
Qed.
Lemma alone_lists o p q : In q (q_new (string_list_alone_piece o p)) -> string_list q -> q = p.
Proof. unfold string_list_alone_piece, pass. destruct (is_string_list p); cbn [q_new In]; intros [<-|[]]; auto; not_a_list. Qed.
Lemma list_lists o : forall ps prev, same_lists ps (new_params (string_list_pieces o prev ps)).
Proof.
  induction ps as [|p ps IH]; intros prev q I S; [destruct I|]. cbn [string_list_pieces] in I.
  unfold new_params in I. cbn [flat_map] in I. apply in_app_iff in I. destruct I as [I|I].
  2:{ right. apply (IH (Some p)); auto. }
  left. symmetry. revert I S. unfold string_list_piece.
  destruct (hd_error ps) as [s|]; [destruct (is_string_list p && _)|].
  { cbn [q_new In]. intros [<-|[]]. not_a_list. }
  all: destruct (match prev with Some _ => _ | None => _ end); cbn; intuition.
Qed.
Lemma buffer_lists bo ps : same_lists ps (flat_map (fun ip => new_of bo ps (fst ip) (snd ip)) (enumerate ps)).
Proof.
  intros q I. apply in_flat_map in I. destruct I as ((k & p) & J & I). cbn [fst snd] in I.
  assert (P : In p ps). { rewrite <- (enumerate_snd ps). apply in_map_iff. exists (k, p). auto. }
  revert I. unfold new_of. destruct (is_buffer bo ps k).
  { cbn [In]. intros [<-|[]]. intros HS. exfalso. revert HS. apply not_list. left. cbn.
    destruct (b_nanobind bo); [destruct (is_const_decl p)|]; discriminate. }
  destruct (is_stride p). { cbn [In]. intros [<-|[]]. not_a_list. }
  destruct (is_size bo ps k); [intros []|]. intros [<-|[]]. auto.
Qed.

(** ** One argument per parameter *)

Lemma make_lambda_calls f s qs : length (args qs) = length (f_params f) -> one_argument_each (f, make_lambda f s qs).
Proof. intros H. unfold one_argument_each, calls_of. cbn. auto. Qed.

Lemma string_list_args o : forall ps prev, no_list_of_sizes o ps ->
  length (args (string_list_pieces o prev ps))
    + (match prev, ps with Some q, p :: _ => if is_string_list q && o_size_name o (p_name p) then 1 else 0 | _, _ => 0 end)
  = length ps.
Proof.
  induction ps as [|p ps IH]; intros prev N; [destruct prev; auto|]. cbn [string_list_pieces]. unfold args. cbn [flat_map].
  fold (args (string_list_pieces o (Some p) ps)). rewrite app_length.
  assert (N' : no_list_of_sizes o ps) by (intros q I; apply N; right; auto).
  specialize (IH (Some p) N'). unfold string_list_piece.
  assert (X : forall b : bool, (match prev with Some q => is_string_list q && o_size_name o (p_name p) | None => false end) = b ->
    match prev with Some q => if is_string_list q && o_size_name o (p_name p) then 1 else 0 | None => 0 end = if b then 1 else 0).
  { intros b <-. destruct prev; auto. }
  assert (Y : is_string_list p = true -> (match prev with Some q => is_string_list q && o_size_name o (p_name p) | None => false end) = false).
  { intros L. destruct prev; auto. rewrite (N p) by (left || apply string_list_spec; auto). apply andb_false_r. }
  destruct (match prev with Some q => is_string_list q && o_size_name o (p_name p) | None => false end) eqn:B; rewrite (X _ eq_refl); clear X.
  - assert (L : is_string_list p = false) by (destruct (is_string_list p); auto; discriminate (Y eq_refl)).
    destruct ps as [|s ps]; [cbn in IH |- *; lia|]. cbn [hd_error]. rewrite L in IH |- *. cbn in IH |- *; lia.
  - destruct ps as [|s ps]; cbn [hd_error]; [cbn; auto|]. destruct (is_string_list p && o_size_name o (p_name s)); cbn in IH |- *; lia.
Qed.

Lemma pass_args ps : length (args (map pass ps)) = length ps.
Proof. apply args_map. auto. Qed.

Lemma apply_params f l : f_params (apply_lambda_adapter f l) = l_params l.
Proof. reflexivity. Qed.

Lemma buffer_calls i bo f l : adapt_c_buffers i bo f = Some (Some l) -> one_argument_each (f, l).
Proof.
  unfold adapt_c_buffers. destruct (shall_adapt bo f); [|discriminate]. destruct (1 <? _); [discriminate|].
  destruct (each_param (input_of bo (f_params f)) (f_params f)) as [ins|]; [|discriminate].
  destruct (each_param (arg_of bo (f_params f)) (f_params f)) as [xs|] eqn:X; [|discriminate].
  destruct (buffer_end i bo f) as [e|] eqn:E; [|discriminate]. intros H. injection H as <-.
  unfold one_argument_each, calls_of. cbn [snd fst l_end l_args]. apply each_param_length in X. revert E. unfold buffer_end.
  destruct (rev (template_params bo (f_params f))) as [|p r]; [intros E; injection E as <-; auto|].
  destruct (typed_calls bo (f_params f)) as [calls|] eqn:C; [|discriminate]. intros E. injection E as <-.
  unfold typed_calls in C. apply sequence_Forall2 in C. rewrite Forall_map. clear -C.
  induction C as [|t d ts ds H C IH]; constructor; auto.
  unfold typed_call in H. destruct (array_letter t); [|discriminate].
  destruct (each_param _ _) as [zs|] eqn:Z; [|discriminate]. injection H as <-. cbn. eapply each_param_length; eauto.
Qed.

Lemma step_arguments i bo o a : In a (adapters i bo o) -> forall f l, no_list_of_sizes o (f_params f) -> a f = Some (Some l) ->
  one_argument_each (f, l) /\ no_list_of_sizes o (f_params (apply_lambda_adapter f l)).
Proof.
  revert a. apply (adapters_cases i bo o (fun a => forall f0 l, no_list_of_sizes o (f_params f0) -> a f0 = Some (Some l) ->
    one_argument_each (f0, l) /\ no_list_of_sizes o (f_params (apply_lambda_adapter f0 l)))); intros f l N H.
  { split; [eapply buffer_calls; eauto|]. rewrite apply_params. eapply list_sizes_same; [|exact N].
    revert H. unfold adapt_c_buffers. destruct (shall_adapt bo f); [|discriminate]. destruct (1 <? _); [discriminate|].
    destruct (each_param _ _); [|discriminate]. destruct (each_param _ _); [|discriminate]. destruct (buffer_end i bo f); [|discriminate].
    intros H. injection H as <-. apply buffer_lists. }
  all: injection H as H; revert H; rewrite apply_params.
  + unfold adapt_exclude_params. destruct (existsb _ _); [|discriminate]. intros H. injection H as <-. split.
    { apply make_lambda_calls, args_map. intros p _. unfold exclude_piece. destruct (shall_exclude o p); auto. }
    eapply list_sizes_same; eauto. apply same_lists_map. intros p q _. apply exclude_lists.
  + unfold adapt_mutable_default. destruct (_ && _); [|discriminate]. intros H. injection H as <-. split.
    { apply make_lambda_calls, args_map. intros p _. unfold mutable_piece. destruct (seems_mutable o p); auto. }
    eapply list_sizes_same; eauto. apply same_lists_map. intros p q _. apply mutable_lists.
  + unfold adapt_c_arrays. destruct (existsb _ _); [|discriminate]. intros H. injection H as <-. split.
    { apply make_lambda_calls, args_map. intros p _. unfold array_piece. destruct (o_array_size o (p_array p)); auto.
      destruct (_ && _); auto. destruct (_ && _); auto. }
    eapply list_sizes_same; eauto. apply same_lists_map. intros p q _. apply array_lists.
  + unfold adapt_const_char_null. destruct (_ && _); [|discriminate]. intros H. injection H as <-. split.
    { apply make_lambda_calls, args_map. intros p _. unfold const_char_piece. destruct (is_const_char_null p); auto. }
    eapply list_sizes_same; eauto. apply same_lists_map. intros p q _. apply const_char_lists.
  + unfold adapt_to_return. destruct (o_to_return o (f_name f)); [|discriminate].
    destruct (returned_params o (f_params f)) as [|out outs]; [discriminate|]. intros H. injection H as <-. split.
    { unfold one_argument_each, calls_of. cbn. repeat constructor. apply args_map. intros p _. unfold returned_piece.
      destruct (returned_param o p); auto. }
    eapply list_sizes_same; eauto. apply same_lists_map. intros p q _. apply returned_lists.
  + unfold adapt_boxed. destruct (_ && _); [|discriminate]. intros H. injection H as <-. split.
    { apply make_lambda_calls, args_map. intros p _. unfold boxed_piece. destruct (is_modifiable p); auto. destruct (is_optional p); auto. }
    eapply list_sizes_same; eauto. apply same_lists_map. intros p q _. apply boxed_lists.
  + unfold adapt_string_list. destruct (_ && _); [|discriminate]. intros H. injection H as <-. split.
    { apply make_lambda_calls. pose proof (string_list_args o (f_params f) None N) as L. cbv beta iota in L. rewrite Nat.add_0_r in L. exact L. }
    eapply list_sizes_same; eauto. apply list_lists.
  + unfold adapt_string_list_alone. destruct (_ && _); [|discriminate]. intros H. injection H as <-. split.
    { apply make_lambda_calls, args_map. intros p _. unfold string_list_alone_piece. destruct (is_string_list p); auto. }
    eapply list_sizes_same; eauto. apply same_lists_map. intros p q _. apply alone_lists.
  + unfold adapt_variadic. destruct (rev (f_params f)) as [|last [|text firsts]] eqn:R; try discriminate.
    assert (E : f_params f = rev firsts ++ [text; last]).
    { rewrite <- (rev_involutive (f_params f)), R. cbn [rev]. rewrite <- app_assoc. auto. }
    destruct (_ && _); [|discriminate]. intros H. injection H as <-. split.
    { apply make_lambda_calls. unfold args. rewrite flat_map_app, app_length. fold (args (map pass (rev firsts))).
      rewrite pass_args, E, app_length. auto. }
    eapply list_sizes_same; eauto. intros q I _. unfold new_params, make_lambda in I. cbn [l_params] in I. unfold new_params in I.
    rewrite flat_map_app in I. apply in_app_iff in I. rewrite E. apply in_app_iff.
    rewrite flat_map_concat_map, map_map in I. destruct I as [I|I].
    { left. rewrite <- flat_map_concat_map in I. apply in_flat_map in I. destruct I as (p & I1 & [<-|[]]). auto. }
    right. cbn in I |- *. tauto.
Qed.

Theorem chain_arguments i bo o f ls g : no_list_of_sizes o (f_params f) -> apply_all_adapters i bo o f = Some (ls, g) ->
  Forall one_argument_each ls.
Proof.
  intros N H. eapply Forall_impl; [|eapply (chain_forall i bo o (fun f => no_list_of_sizes o (f_params f)) (fun f l => one_argument_each (f, l))); eauto].
  { intros [f1 l1]. auto. }
  - apply step_arguments.
  - intros f0 N0. apply make_lambda_calls, pass_args.
Qed.
