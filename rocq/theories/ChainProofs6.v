From Coq Require Import Permutation.
From Verif Require Import PyStr PyStrLemmas PyDict PyNum TypeTextModel LambdaModel LambdaSpec AdapterModel AdapterSpec
  LambdaProofs AdapterProofs AdapterProofs2 AdapterProofs3 AdapterProofs4 AdapterProofs5 BufferModel BufferSpec BufferProofs
  BufferProofs2 BufferProofs3 BufferProofs4 BufferProofs5 BufferProofs6 ChainModel ChainSpec ChainProofs ChainProofs2 ChainProofs3
  ChainProofs4 ChainProofs5.
(** The names of the lambda of the buffers, and of the whole chain. *)

Lemma NoDup_flat_key {A} (key : A -> str) (g : A -> list str) l : NoDup (map key l) -> (forall a, In a l -> NoDup (g a)) ->
  (forall a b n, In a l -> In b l -> In n (g a) -> In n (g b) -> key a = key b) -> NoDup (flat_map g l).
Proof.
  induction l as [|p ps IH]; intros D N H; cbn [flat_map]; [constructor|]. cbn [map] in D. inversion D as [|? ? NI D']; subst.
  apply NoDup_app_intro.
  - apply N. left. auto.
  - apply IH; auto; [intros; apply N; right; auto|]. intros p' q n I J. apply H; right; auto.
  - intros n I J. apply in_flat_map in J. destruct J as (q & J1 & J2). apply NI. rewrite (H p q n); auto; [apply in_map; auto|left; auto|right; auto].
Qed.

Lemma flat_map_both {A B} (g h : A -> list B) l : Permutation (flat_map g l ++ flat_map h l) (flat_map (fun a => g a ++ h a) l).
Proof.
  induction l as [|a l IH]; cbn [flat_map]; auto. rewrite <- !app_assoc. apply Permutation_app_head. rewrite Permutation_app_swap_app.
  apply Permutation_app_head. auto.
Qed.

(** ** Which parameters are kept *)

Lemma arranged_kept o : forall ss prev last pre, arranged o prev last ss -> prev = last_of pre ->
  forall a s b, ss = a ++ s :: b -> (forall n, b_role s <> Size n) -> ~ dropped o (pre ++ map b_param a) (b_param s) (map b_param b).
Proof.
  intros ss prev last pre AR. revert pre.
  induction AR as [|prev last p n xs ss B T AR IH|prev last p n xs ss B T ST AR IH|p0 p n xs ss N Z ST NN AR IH|prev p n xs ss ST NN SZ AR IH|prev last last' p xs ss B T ST SZ L1 L2 AR IH];
    intros pre EP a s b E R.
  - destruct a; discriminate.
  - destruct a as [|x a]; cbn [app] in E; injection E as E1 E2.
    + rewrite <- E1 in R |- *. rewrite <- E2. unfold dropped. cbn [b_param b_role map app] in R |- *. rewrite ?app_nil_r. intros (D1 & D2 & D3 & a' & q & D4 & D5). auto.
    + rewrite <- E1; cbn [map b_param]; specialize (IH (pre ++ [p]) ltac:(rewrite last_of_snoc; auto) a s b E2 R); rewrite <- app_assoc in IH; exact IH.
  - destruct a as [|x a]; cbn [app] in E; injection E as E1 E2.
    + rewrite <- E1 in R |- *. rewrite <- E2. unfold dropped. cbn [b_param b_role map app] in R |- *. rewrite ?app_nil_r. intros (D1 & D2 & D3 & a' & q & D4 & D5). auto.
    + rewrite <- E1; cbn [map b_param]; specialize (IH (pre ++ [p]) ltac:(rewrite last_of_snoc; auto) a s b E2 R); rewrite <- app_assoc in IH; exact IH.
  - destruct a as [|x a]; cbn [app] in E; injection E as E1 E2.
    + rewrite <- E1 in R |- *. rewrite <- E2. unfold dropped. cbn [b_param b_role map app] in R |- *. rewrite ?app_nil_r. intros (D1 & D2 & D3 & a' & q & D4 & D5). apply (R n); auto.
    + rewrite <- E1; cbn [map b_param]; specialize (IH (pre ++ [p]) ltac:(rewrite last_of_snoc; auto) a s b E2 R); rewrite <- app_assoc in IH; exact IH.
  - destruct a as [|x a]; cbn [app] in E; injection E as E1 E2.
    + rewrite <- E1 in R |- *. rewrite <- E2. unfold dropped. cbn [b_param b_role map app] in R |- *. rewrite ?app_nil_r. intros (D1 & D2 & D3 & a' & q & D4 & D5). auto.
    + rewrite <- E1; cbn [map b_param]; specialize (IH (pre ++ [p]) ltac:(rewrite last_of_snoc; auto) a s b E2 R); rewrite <- app_assoc in IH; exact IH.
  - destruct a as [|x a]; cbn [app] in E; injection E as E1 E2.
    + rewrite <- E1 in R |- *. rewrite <- E2. unfold dropped. cbn [b_param b_role map app] in R |- *. rewrite ?app_nil_r. intros (D1 & D2 & D3 & a' & q & D4 & D5). apply SZ; split; auto; exists q; split; auto; rewrite EP, D4; apply last_of_snoc.
    + rewrite <- E1; cbn [map b_param]; specialize (IH (pre ++ [p]) ltac:(rewrite last_of_snoc; auto) a s b E2 R); rewrite <- app_assoc in IH; exact IH.
Qed.

Section Buffers.
Variables (i : str) (o : buffer_options) (f : func) (l : lambda) (ss : list bslot).
Hypotheses (H : adapt_c_buffers i o f = Some (Some l)) (P : f_params f = map b_param ss) (AR : arranged o None None ss).
Hypotheses (CL : clean o f) (TC : f_to_call f = None).

Let facts : forall j s, In (j, s) (enumerate ss) -> slot_fact o ss j s.
Proof. pose proof (arranged_all _ _ AR) as F. rewrite Forall_forall in F. intros j s I. apply (F (j, s) I). Qed.

Lemma slot_kept s : In s ss -> (forall n, b_role s <> Size n) -> kept o f (p_name (b_param s)).
Proof.
  intros I R. apply in_split in I. destruct I as (a & b & E). exists (map b_param a), (b_param s), (map b_param b).
  rewrite P, E, map_app. split; [auto|]. split; [auto|]. intros [_ D]. revert D.
  exact (arranged_kept o ss None None [] AR eq_refl a s b E R).
Qed.
Lemma arranged_numbers : forall prev last rs, arranged o prev last rs -> forall s n, In s rs -> is_array s n -> numbers o (b_param s).
Proof.
  intros prev last rs A. induction A; intros s k I R; (destruct I as [<-|I]; [|eauto]) || destruct I; destruct R as [R|R]; try discriminate R;
    match goal with B : buffer _ _ _ |- _ => inversion B; subst; auto end.
Qed.
Lemma array_named s n : In s ss -> is_array s n -> array_name o f (p_name (b_param s)).
Proof.
  intros I A. split; [apply (buffer_applies i); rewrite H; discriminate|]. exists (b_param s). split; [rewrite P; apply in_map; auto|].
  split; auto. eapply arranged_numbers; eauto.
Qed.
Lemma array_kept s n : In s ss -> is_array s n -> kept o f (p_name (b_param s)).
Proof. intros I A. apply slot_kept; auto. intros k. destruct A as [A|A]; rewrite A; discriminate. Qed.

Definition four : list str := [$"dtype_code_python_"; $"dtype_code_cpp_"; $"size_python_"; $"size_cpp_"].
Definition slot_params (k : nat * bslot) : list str := match b_role (snd k) with Size _ => [] | _ => [p_name (b_param (snd k))] end.
Definition slot_decls (k : nat * bslot) : list str :=
  let p := b_param (snd k) in
  match b_role (snd k) with
  | Array _ => [from_array p; count_name p] ++ (if b_nanobind o then map (fun t => t ++ nat_text (fst k)) four else [p_name p ++ $"_type"])
  | Template _ => [from_array p; count_name p]
  | Stride _ => match last_buffer o (map b_param ss) (fst k) with Some b => [stride_name b] | None => [] end
  | _ => []
  end.

Lemma spaced_flat (g : stmt -> list str) all : g SBlank = [] -> flat_map g (spaced all) = flat_map (flat_map g) all.
Proof.
  intros B. induction all as [|x all IH]; cbn [spaced flat_map]; auto. rewrite <- IH. destruct x as [|st x]; auto.
  rewrite flat_map_app. f_equal. destruct (spaced all) as [|st' r]; auto. cbn [flat_map]. rewrite B. auto.
Qed.

Lemma slot_input_decls j s ins : In (j, s) (enumerate ss) -> input_of o (map b_param ss) j (b_param s) = Some ins ->
  flat_map decls ins = slot_decls (j, s) /\ flat_map stmt_texts ins = [].
Proof.
  intros I E. pose proof (facts j s I) as SF. pose proof (input_of_fact _ _ _ _ _ SF E) as F. unfold slot_decls. cbn [fst snd].
  unfold slot_fact in SF. cbv zeta in SF. destruct (b_role s).
  - destruct F as (cs & C & ->). unfold check_part in C. destruct (b_nanobind o).
    + destruct (dict_get _ _); [|discriminate]. injection C as <-. auto.
    + destruct (array_letter _); [|discriminate]. injection C as <-. auto.
  - subst. auto.
  - subst. auto.
  - destruct SF as (S1 & S2 & S3 & S4 & b & B & A & L). rewrite L. unfold input_of, is_standard in E. rewrite S1, S3 in E. cbn [andb] in E.
    unfold stride_part in E. rewrite L in E. injection E as <-. auto.
  - subst. auto.
Qed.

Lemma lambda_params : map p_name (l_params l) = flat_map slot_params (enumerate ss).
Proof.
  destruct (adapter_shape _ _ _ _ H) as (ins & xs & e & _ & _ & _ & ->). cbn [l_params]. rewrite P, enumerate_map, flat_map_map. cbn [fst snd].
  assert (F : forall k, In k (enumerate ss) -> slot_fact o ss (fst k) (snd k)) by (intros [j s] I; apply facts; auto).
  revert F. generalize (enumerate ss) as ks. induction ks as [|k ks IH]; intros F; auto. cbn [flat_map]. rewrite map_app, IH by (intros; apply F; right; auto).
  f_equal. rewrite (new_of_fact _ _ _ _ (F k (or_introl eq_refl))). unfold slot_params. destruct (b_role (snd k)); auto.
Qed.
Lemma lambda_decls : flat_map decls (l_input l) = flat_map slot_decls (enumerate ss) /\ flat_map stmt_texts (l_input l) = [].
Proof.
  destruct (adapter_shape _ _ _ _ H) as (ins & xs & e & IN & _ & _ & ->). cbn [l_input]. rewrite !spaced_flat by auto. rewrite P in IN. apply each_param_slots in IN.
  assert (F : forall k z, In k (enumerate ss) -> input_of o (map b_param ss) (fst k) (b_param (snd k)) = Some z -> flat_map decls z = slot_decls k /\ flat_map stmt_texts z = [])
    by (intros [j s] z I; apply slot_input_decls; auto).
  clear H. revert IN F. generalize (enumerate ss) as ks. intros ks IN. induction IN as [|k z ks zs E IN IH]; intros F; auto.
  destruct (F k z (or_introl eq_refl) E) as [F1 F2]. destruct (IH (fun k' z' I => F k' z' (or_intror I))) as [I1 I2]. cbn [flat_map].
  rewrite F1, F2, I1, I2. auto.
Qed.

(** The three kinds of names. *)
Definition plain (k : nat * bslot) (n : str) : Prop :=
  kept o f (p_name (b_param (snd k))) /\
  (n = p_name (b_param (snd k)) \/
   array_name o f (p_name (b_param (snd k))) /\ exists e, In e [$"_from_pyarray"; $"_count"; $"_type"] /\ n = p_name (b_param (snd k)) ++ e).
Definition check (k : nat * bslot) (n : str) : Prop := exists t, In t four /\ n = t ++ nat_text (fst k).
Definition stride (k : nat * bslot) (n : str) : Prop :=
  is_stride (b_param (snd k)) = true /\ exists b, kept o f (p_name b) /\ array_name o f (p_name b) /\ n = p_name b ++ $"_stride".

Lemma slot_kinds k n : In k (enumerate ss) -> In n (slot_params k ++ slot_decls k) -> plain k n \/ check k n \/ stride k n.
Proof.
  destruct k as [j s]. intros I J. pose proof (enumerate_In_inv _ _ _ I) as IS. pose proof (facts j s I) as SF.
  unfold slot_fact in SF. cbv zeta in SF. pose proof (slot_kept s IS) as SK.
  apply in_app_iff in J. unfold slot_params, slot_decls in J. cbn [fst snd] in J. unfold plain, check, stride. cbn [fst snd].
  pose proof (array_named s) as AN. unfold is_array in AN. destruct (b_role s) as [a|a|a|a|].
  - specialize (SK ltac:(discriminate)). specialize (AN a IS (or_introl eq_refl)). destruct J as [[<-|[]]|[<-|[<-|J]]].
    + left. auto.
    + left. split; auto. right. split; auto. exists $"_from_pyarray". cbn. auto.
    + left. split; auto. right. split; auto. exists $"_count". cbn. auto.
    + destruct (b_nanobind o).
      * right. left. apply in_map_iff in J. destruct J as (t & <- & J). eauto.
      * destruct J as [<-|[]]. left. split; auto. right. split; auto. exists $"_type". cbn. auto.
  - specialize (SK ltac:(discriminate)). specialize (AN a IS (or_intror eq_refl)). destruct J as [[<-|[]]|[<-|[<-|[]]]].
    + left. auto.
    + left. split; auto. right. split; auto. exists $"_from_pyarray". cbn. auto.
    + left. split; auto. right. split; auto. exists $"_count". cbn. auto.
  - destruct J as [[]|[]].
  - specialize (SK ltac:(discriminate)). destruct J as [[<-|[]]|J]; [left; auto|]. right. right.
    destruct SF as (_ & _ & S3 & _ & b & B & A & L). rewrite L in J. destruct J as [<-|[]]. split; auto. exists (b_param b). split; [|split; auto].
    + eapply array_kept; eauto.
    + eapply array_named; eauto.
  - specialize (SK ltac:(discriminate)). destruct J as [[<-|[]]|[]]. left. auto.
Qed.

Lemma first_endings e : In e [$"_from_pyarray"; $"_count"; $"_type"] -> In e buffer_endings.
Proof. cbn. tauto. Qed.
Lemma stride_ending : In $"_stride" buffer_endings.
Proof. cbn. auto. Qed.
Lemma plain_made k n : plain k n -> made_from o f (p_name (b_param (snd k))) n.
Proof.
  intros [_ [->|(A & e & E & ->)]]; [apply item_made; left; auto|]. apply array_made; auto. apply first_endings. auto.
Qed.
Lemma stride_made k n : stride k n -> exists x, kept o f x /\ made_from o f x n.
Proof. intros (_ & b & B & A & ->). exists (p_name b). split; auto. apply array_made; auto. apply stride_ending. Qed.
Lemma check_taken k n : check k n -> checks_of n.
Proof.
  intros (t & T & ->). cbn in T. destruct T as [<-|[<-|[<-|[<-|[]]]]].
  - exists $"dtype_code_", ($"python_" ++ nat_text (fst k)). split; [cbn; auto 6|reflexivity].
  - exists $"dtype_code_", ($"cpp_" ++ nat_text (fst k)). split; [cbn; auto 6|reflexivity].
  - exists $"size_python_", (nat_text (fst k)). split; [cbn; auto 6|reflexivity].
  - exists $"size_cpp_", (nat_text (fst k)). split; [cbn; auto 6|reflexivity].
Qed.

Lemma free x n : kept o f x -> made_from o f x n -> ~ taken f n /\ n <> f_qualified f.
Proof. apply (cl_free _ _ CL). Qed.

Lemma four_inj t t' j k : In t four -> In t' four -> t ++ nat_text j = t' ++ nat_text k -> t = t' /\ j = k.
Proof.
  intros T T' E. assert (F : forall a b : str, length a = length b -> a = b -> True) by auto. clear F. cbn in T, T'.
  destruct T as [<-|[<-|[<-|[<-|[]]]]], T' as [<-|[<-|[<-|[<-|[]]]]]; try (split; [reflexivity|]; apply app_inv_head in E; apply nat_text_inj; auto; fail);
    exfalso; cbn in E; discriminate.
Qed.

Lemma enumerate_same j s s' : In (j, s) (enumerate ss) -> In (j, s') (enumerate ss) -> s = s'.
Proof.
  unfold enumerate. generalize 0. generalize ss as r. induction r as [|x r IH]; intros n; cbn; [tauto|].
  assert (G : forall m y z, In (y, z) (combine (seq m (length r)) r) -> m <= y).
  { clear. intros m y z I. apply in_combine_l in I. apply in_seq in I. lia. }
  intros [E1|I1] [E2|I2].
  - congruence.
  - injection E1 as <- <-. apply G in I2. lia.
  - injection E2 as <- <-. apply G in I1. lia.
  - eauto.
Qed.

Lemma one_stride_only j k s s' : In (j, s) (enumerate ss) -> In (k, s') (enumerate ss) ->
  is_stride (b_param s) = true -> is_stride (b_param s') = true -> s = s'.
Proof.
  assert (L : length (filter is_stride (map b_param ss)) <= 1).
  { revert H. unfold adapt_c_buffers. destruct (shall_adapt o f); [|discriminate]. rewrite P. destruct (1 <? length (filter is_stride (map b_param ss))) eqn:B; [discriminate|].
    intros _. apply Nat.ltb_ge in B. auto. }
  intros I J. apply enumerate_In_inv in I, J. revert L I J. generalize ss as r. induction r as [|x r IH]; cbn [map filter]; [intros _ []|].
  destruct (is_stride (b_param x)) eqn:B; cbn [length].
  - intros L. assert (Z : forall y, In y r -> is_stride (b_param y) = false).
    { intros y Y. destruct (is_stride (b_param y)) eqn:BY; auto. assert (M : In (b_param y) (filter is_stride (map b_param r))) by (apply filter_In; split; auto; apply in_map; auto).
      destruct (filter is_stride (map b_param r)); [destruct M|cbn in L; lia]. }
    intros [<-|I] [<-|J] S1 S2; auto; [rewrite Z in S2 by auto|rewrite Z in S1 by auto|rewrite Z in S1 by auto]; discriminate.
  - intros L [<-|I] [<-|J] S1 S2; auto; congruence.
Qed.

Lemma kinds_apart a b n : In a (enumerate ss) -> In b (enumerate ss) -> (plain a n \/ check a n \/ stride a n) ->
  (plain b n \/ check b n \/ stride b n) -> p_name (b_param (snd a)) = p_name (b_param (snd b)).
Proof.
  intros IA IB.
  assert (PC : forall a b, plain a n -> check b n -> False).
  { intros x y PX CY. destruct (free _ n (proj1 PX) (plain_made _ _ PX)) as [T _]. apply T. right. left. eapply check_taken; eauto. }
  assert (PS : forall a b, plain a n -> stride b n -> False).
  { intros x y [KX PX] (_ & z & KZ & AZ & E). destruct PX as [PX|(_ & e & EE & PX)].
    - eapply (current_apart o f (kept o f) (cl_apart _ _ CL) (p_name (b_param (snd x))) (p_name z) _ _ $"_stride");
        [exact KX|exact KZ|left; reflexivity|left; reflexivity| | |rewrite <- PX; exact E].
      + apply buffer_ending, stride_ending.
      + apply array_made; auto. apply stride_ending.
    - rewrite E in PX. apply endings_inj in PX; [|apply buffer_ending, stride_ending|apply buffer_ending, first_endings; auto]. destruct PX as [_ <-]. cbn in EE.
      destruct EE as [EE|[EE|[EE|[]]]]; discriminate. }
  assert (CS : forall a b, check a n -> stride b n -> False).
  { intros x y CX SY. destruct (stride_made _ _ SY) as (z & KZ & M). destruct (free z n KZ M) as [T _]. apply T. right. left. eapply check_taken; eauto. }
  intros [A|[A|A]] [B|[B|B]]; try (exfalso; eauto; fail).
  - destruct A as [KA A], B as [KB B]. apply (names_apart o f (kept o f) (cl_apart _ _ CL) _ _ _ _ n KA KB (or_introl eq_refl) (or_introl eq_refl)).
    + destruct A as [A|(AN & e & E & A)]; [left; auto|right]. exists e. apply first_endings in E. split; [apply buffer_ending; auto|]. split; auto. apply array_made; auto.
    + destruct B as [B|(BN & e & E & B)]; [left; auto|right]. exists e. apply first_endings in E. split; [apply buffer_ending; auto|]. split; auto. apply array_made; auto.
  - destruct A as (t & T & ->), B as (t' & T' & E). apply four_inj in E; auto. destruct E as [_ E]. destruct a as [j s], b as [k s']. cbn [fst snd] in *.
    subst. rewrite (enumerate_same k s s'); auto.
  - destruct A as (SA & _), B as (SB & _). destruct a as [j s], b as [k s']. cbn [fst snd] in *. rewrite (one_stride_only j k s s'); auto.
Qed.

Lemma slot_distinct k : In k (enumerate ss) -> NoDup (slot_params k ++ slot_decls k).
Proof.
  destruct k as [j s]. intros I. unfold slot_params, slot_decls. cbn [fst snd].
  assert (EN : forall e, In e endings -> p_name (b_param s) <> p_name (b_param s) ++ e).
  { intros e E EQ. apply (f_equal (@length _)) in EQ. rewrite app_length in EQ. destruct e; [eapply endings_not_empty; eauto|]. cbn in EQ. lia. }
  assert (EE : forall e e', In e endings -> In e' endings -> e <> e' -> p_name (b_param s) ++ e <> p_name (b_param s) ++ e').
  { intros e e' E E' N EQ. apply endings_inj in EQ; tauto. }
  assert (F : In $"_from_pyarray" endings) by (cbn; auto 12). assert (C : In $"_count" endings) by (cbn; auto 12). assert (T : In $"_type" endings) by (cbn; auto 12).
  assert (B3 : NoDup [p_name (b_param s); from_array (b_param s); count_name (b_param s)]).
  { constructor; [intros [E|[E|[]]]; symmetry in E; revert E; apply EN; auto|]. constructor; [intros [E|[]]; revert E; apply EE; auto; discriminate|]. repeat constructor; auto. }
  pose proof (enumerate_In_inv _ _ _ I) as IS. pose proof (slot_kept s IS) as SK.
  destruct (b_role s) as [a|a|a|a|] eqn:R; cbn [app].
  - specialize (SK ltac:(discriminate)). destruct (b_nanobind o).
    + change (NoDup ([p_name (b_param s); from_array (b_param s); count_name (b_param s)] ++ map (fun t => t ++ nat_text j) four)).
      apply NoDup_app_intro; auto.
      * apply FinFun.Injective_map_NoDup; [intros x y E; apply app_inv_tail in E; auto|]. repeat constructor; cbn; intuition discriminate.
      * intros n N M. apply in_map_iff in M. destruct M as (t & E & M).
        assert (PL : plain (j, s) n).
        { split; auto. cbn [snd]. assert (AN : array_name o f (p_name (b_param s))) by (apply (array_named s a); auto; left; auto).
          destruct N as [<-|[<-|[<-|[]]]]; auto; right; (split; [exact AN|]); eexists; (split; [|reflexivity]); cbn; auto. }
        destruct (free _ n (proj1 PL) (plain_made _ _ PL)) as [TK _]. apply TK. right. left. apply (check_taken (j, s)). exists t. split; auto.
    + change (NoDup ([p_name (b_param s); from_array (b_param s); count_name (b_param s)] ++ [p_name (b_param s) ++ $"_type"])).
      apply NoDup_app_intro; auto; [repeat constructor; auto|]. intros n N [<-|[]]. destruct N as [E|[E|[E|[]]]]; revert E.
      * apply EN. auto.
      * apply EE; auto; discriminate.
      * apply EE; auto; discriminate.
  - auto.
  - constructor.
  - specialize (SK ltac:(discriminate)). pose proof (facts j s I) as SF. unfold slot_fact in SF. cbv zeta in SF. rewrite R in SF.
    destruct SF as (_ & _ & S3 & _ & b & B & A & L). rewrite L. constructor; [|repeat constructor; auto]. intros [E|[]].
    assert (KB : kept o f (p_name (b_param b))) by (eapply array_kept; eauto). symmetry in E.
    eapply (current_apart o f (kept o f) (cl_apart _ _ CL)) with (e := $"_stride"); [exact SK|exact KB|left; auto|left; auto|apply buffer_ending, stride_ending| |exact E].
    apply array_made; [eapply array_named; eauto|apply stride_ending].
  - repeat constructor. auto.
Qed.

Lemma buffer_names : NoDup (map p_name (l_params l) ++ flat_map decls (l_input l)) /\
  forall n, In n (map p_name (l_params l) ++ flat_map decls (l_input l)) -> (exists x, kept o f x /\ made_from o f x n) \/ exists j t, In t four /\ n = t ++ nat_text j.
Proof.
  rewrite lambda_params. destruct lambda_decls as [-> _]. split.
  - eapply Permutation_NoDup; [apply Permutation_sym, flat_map_both|]. apply (NoDup_flat_key (fun k => p_name (b_param (snd k)))).
    + pose proof (cl_distinct _ _ CL) as D. rewrite P in D. rewrite <- (enumerate_snd ss), !map_map in D. auto.
    + intros k K. apply slot_distinct; auto.
    + intros a b n IA IB NA NB. apply (kinds_apart a b n IA IB); apply slot_kinds; auto.
  - intros n I. assert (J : In n (flat_map (fun a => slot_params a ++ slot_decls a) (enumerate ss))) by (eapply Permutation_in; [apply flat_map_both|auto]).
    apply in_flat_map in J. destruct J as (k & K & J). destruct (slot_kinds k n K J) as [A|[A|A]].
    + left. exists (p_name (b_param (snd k))). split; [apply A|apply plain_made; auto].
    + right. destruct A as (t & T & ->). exists (fst k), t. auto.
    + left. apply (stride_made k). auto.
Qed.
End Buffers.
