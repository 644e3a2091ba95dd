From Verif Require Import PyStr PyStrLemmas PyDict PyNum TypeTextModel LambdaModel LambdaSpec AdapterModel AdapterSpec
  LambdaProofs AdapterProofs AdapterProofs2 AdapterProofs3 AdapterProofs4 AdapterProofs5 BufferModel BufferSpec BufferProofs
  BufferProofs2 BufferProofs3 BufferProofs4 BufferProofs5 BufferProofs6 ChainModel ChainSpec ChainProofs ChainProofs2 ChainProofs3.
(** A check which is enough for names not to clash: none is the beginning of another one. *)

Lemma made_begins bo f x n : made_from bo f x n -> exists r, n = x ++ r.
Proof.
  intros [(y & I & H)|(_ & e & _ & ->)]; [|eauto]. assert (Y : exists r, y = x ++ r) by (destruct I as [->|(k & ->)]; [exists []; rewrite app_nil_r; auto|eauto]).
  destruct Y as [r ->]. destruct H as [->|(e & _ & ->)]; [eauto|]. exists (r ++ e). rewrite app_assoc. auto.
Qed.
Lemma kept_name bo f x : kept bo f x -> In x (map p_name (f_params f)).
Proof. intros (a & p & b & -> & <- & _). apply in_map. apply in_app_iff. right. left. auto. Qed.

Lemma two_beginnings (a b : str) : forall r s, a ++ r = b ++ s -> (exists t, a = b ++ t) \/ exists t, b = a ++ t.
Proof.
  revert b. induction a as [|x a IH]; intros b r s E; [right; exists b; auto|]. destruct b as [|y b]; [left; exists (x :: a); auto|].
  injection E as <- E. destruct (IH _ _ _ E) as [(t & ->)|(t & ->)]; [left|right]; exists t; auto.
Qed.

Theorem plain_names_clean bo f : plain_names f -> clean bo f.
Proof.
  intros (D & NE & AP & FR & CK & QU & PY & WD & SF). cbv zeta in *.
  split.
  - auto.
  - intros K. apply kept_name in K. auto.
  - intros x y KX KY M. apply kept_name in KX, KY. apply made_begins in M. destruct M as [r ->]. eauto.
  - intros x n KX M. apply kept_name in KX. apply made_begins in M. destruct M as [r ->]. split.
    + intros [T|[(t & s & T & E)|(e & T & E)]].
      * eapply (FR x (x ++ r) r KX); auto. right. apply in_app_iff. auto.
      * destruct (two_beginnings _ _ _ _ E) as [(u & ->)|(u & ->)].
        -- destruct (CK (t ++ u) t u KX T) as [_ Z]. auto.
        -- destruct (CK x (x ++ u) u KX T) as [Z _]. auto.
      * eapply (FR x (x ++ r) r KX); auto. right. apply in_app_iff. right. rewrite E. apply in_map. auto.
    + intros E. eapply (FR x (x ++ r) r KX); auto. left. auto.
  - intros x r KX. apply kept_name in KX. apply PY. auto.
  - intros (t & r & T & E). eapply QU; eauto.
  - intros p w I W. assert (J : In w (flat_map (fun p => words (p_default p)) (f_params f))) by (apply in_flat_map; eauto). split; [|split].
    + intros ->. apply (SF _ J). left. auto.
    + intros e E ->. apply (SF _ J). right. apply in_map. auto.
    + intros x KX M. apply kept_name in KX. apply made_begins in M. destruct M as [r E]. eapply (WD x w r KX); auto. apply in_app_iff. auto.
  - intros x w KX W M. apply kept_name in KX. apply made_begins in M. destruct M as [r E]. eapply (WD x w r KX); auto. apply in_app_iff. auto.
Qed.

Definition plain_names_check (f : func) : bool :=
  let names := map p_name (f_params f) in
  let checks := [$"dtype_code_"; $"sizeof_item_"; $"size_python_"; $"size_cpp_"] in
  let ws := flat_map (fun p => words (p_default p)) (f_params f) in
  let mem w l := existsb (seqb w) l in
  distinct names && negb (mem [] names) &&
  forallb (fun x => forallb (fun y => negb (startswith x y) || seqb y x) names) names &&
  forallb (fun x => forallb (fun n => negb (startswith x n)) (f_qualified f :: other_names ++ map (app (f_name f)) lambda_endings)) names &&
  forallb (fun x => forallb (fun t => negb (startswith x t) && negb (startswith t x)) checks) names &&
  forallb (fun t => negb (startswith t (f_qualified f))) checks &&
  forallb (fun x => negb (startswith $"python_" x) && negb (startswith $"cpp_" x)) names &&
  forallb (fun x => forallb (fun w => negb (startswith x w)) ([$"1"; $"std"; $"nullopt"; $"nullptr"] ++ ws)) names &&
  forallb (fun w => negb (mem w ($"self" :: map (app (f_name f)) lambda_endings))) ws.

Lemma mem_false w l : negb (existsb (seqb w) l) = true -> ~ In w l.
Proof.
  intros H I. apply negb_true_iff in H. assert (E : existsb (seqb w) l = true) by (apply existsb_exists; exists w; split; auto; apply seqb_refl).
  congruence.
Qed.

Lemma plain_names_by_check f : plain_names_check f = true -> plain_names f.
Proof.
  unfold plain_names_check, plain_names. cbv zeta. intros H.
  repeat (apply andb_true_iff in H; destruct H as [H ?]). rewrite forallb_forall in *.
  assert (SW : forall x y r, negb (startswith x y) = true -> y <> x ++ r).
  { intros x y r E ->. apply negb_true_iff in E. rewrite startswith_app in E. discriminate. }
  repeat match goal with |- _ /\ _ => split end.
  - apply distinct_NoDup. auto.
  - apply mem_false. auto.
  - intros x y r I J E. specialize (H6 x I). rewrite forallb_forall in H6. specialize (H6 y J). apply orb_true_iff in H6. destruct H6 as [K|K].
    + exfalso. eapply SW; eauto.
    + apply seqb_true. auto.
  - intros x n r I J. specialize (H5 x I). rewrite forallb_forall in H5. apply SW. auto.
  - intros x t r I J. specialize (H4 x I). rewrite forallb_forall in H4. specialize (H4 t J). apply andb_true_iff in H4. destruct H4. split; apply SW; auto.
  - intros t r J. apply SW. auto.
  - intros x r I. specialize (H2 x I). apply andb_true_iff in H2. destruct H2. split; apply SW; auto.
  - intros x w r I J. specialize (H1 x I). rewrite forallb_forall in H1. apply SW. auto.
  - intros w J. apply mem_false. auto.
Qed.

(** ** A sharper check *)

Definition kept_names (o : buffer_options) (f : func) : list str :=
  let ps := f_params f in
  if shall_adapt o f
  then flat_map (fun jp => if is_size o ps (fst jp) && negb (is_stride (snd jp)) && negb (is_buffer o ps (fst jp)) then [] else [p_name (snd jp)])
         (enumerate ps)
  else map p_name ps.

Lemma enumerate_at {A} (a b : list A) p : In (length a, p) (enumerate (a ++ p :: b)).
Proof.
  unfold enumerate. change (length a) with (0 + length a). generalize 0. induction a as [|x a IH]; intros n; cbn [app length seq combine].
  - left. f_equal. lia.
  - right. replace (n + S (length a)) with (S n + length a) by lia. apply IH.
Qed.
Lemma kept_listed o f x : kept o f x -> In x (kept_names o f).
Proof.
  intros K. pose proof (kept_name _ _ _ K) as IN. destruct K as (a & p & b & E & <- & D). unfold kept_names. destruct (shall_adapt o f) eqn:S; [|auto].
  apply shall_adapt_spec in S. rewrite E. apply in_flat_map. exists (length a, p). cbn [fst snd]. split.
  - apply enumerate_at.
  - destruct (is_size o (a ++ p :: b) (length a)) eqn:Z; [|left; auto]. destruct (is_stride p) eqn:T; [left; auto|].
    destruct (is_buffer o (a ++ p :: b) (length a)) eqn:B; [left; auto|]. exfalso. apply D. split; auto. apply is_size_spec in Z.
    destruct Z as (Z & p0 & L & N). split; auto. split; [intros X; apply is_stride_spec in X; congruence|].
    split; [intros X; apply (is_buffer_spec o a) in X; congruence|]. unfold last_of in L. destruct (rev a) as [|q r] eqn:R; [discriminate|].
    injection L as ->. exists (rev r), p0. split; auto. rewrite <- (rev_involutive a), R. auto.
Qed.

(** What follows the name [x] in a name made from it. *)
Definition suspect (arrays : bool) (r : str) : bool :=
  match r with [] => true | "_"%char :: d :: _ => is_digit d | _ => false end
  || existsb (seqb r) late_endings || arrays && existsb (seqb r) buffer_endings.
Definition arrays_of (o : buffer_options) (f : func) : list str :=
  if shall_adapt o f then map p_name (filter (looks_buffer o) (f_params f)) else [].
Definition made_check (arrays : list str) (x n : str) : bool :=
  startswith x n && suspect (existsb (seqb x) arrays) (skipn (length x) n).

Lemma made_checked o f x n : made_from o f x n -> made_check (arrays_of o f) x n = true.
Proof.
  assert (SK : forall a b : str, skipn (length a) (a ++ b) = b) by (induction a; cbn; auto).
  assert (MEM : forall (e : str) l, In e l -> existsb (seqb e) l = true) by (intros e l I; apply existsb_exists; exists e; split; auto; apply seqb_refl).
  unfold made_check. intros [(y & I & H)|(A & e & E & ->)].
  - assert (DG : forall k r, suspect (existsb (seqb x) (arrays_of o f)) ($"_" ++ nat_text k ++ r) = true).
    { intros k r. destruct (nat_text_digits k) as [N D]. destruct (nat_text k) as [|d t]; [congruence|]. cbn [forallb] in D. apply andb_true_iff in D. destruct D as [D _].
      change ($"_" ++ (d :: t) ++ r) with ("_"%char :: d :: t ++ r). unfold suspect. rewrite D. auto. }
    destruct I as [->|(k & ->)], H as [->|(e & E & ->)].
    + rewrite startswith_refl, skipn_all. auto.
    + rewrite startswith_app, SK. unfold suspect. rewrite (MEM _ _ E), orb_true_r. auto.
    + rewrite startswith_app, SK. rewrite <- (app_nil_r (nat_text k)). apply DG.
    + rewrite <- !app_assoc. rewrite startswith_app, SK. apply DG.
  - rewrite startswith_app, SK. destruct A as (AD & p & I & EX & N). apply shall_adapt_spec in AD.
    assert (EB : existsb (seqb x) (arrays_of o f) = true).
    { apply MEM. unfold arrays_of. rewrite AD. apply in_map_iff. exists p. split; auto. apply filter_In. split; auto. apply looks_buffer_spec. auto. }
    rewrite EB. unfold suspect. rewrite (MEM _ _ E). cbn [andb]. apply orb_true_r.
Qed.

Definition clean_check (o : buffer_options) (f : func) : bool :=
  let names := kept_names o f in
  let arrays := arrays_of o f in
  let checks := [$"dtype_code_"; $"sizeof_item_"; $"size_python_"; $"size_cpp_"] in
  let ws := flat_map (fun p => words (p_default p)) (f_params f) in
  let mem w l := existsb (seqb w) l in
  distinct (map p_name (f_params f)) && negb (mem [] names) &&
  forallb (fun x => forallb (fun y => negb (made_check arrays x y) || seqb y x) names) names &&
  forallb (fun x => forallb (fun n => negb (made_check arrays x n)) (f_qualified f :: other_names ++ map (app (f_name f)) lambda_endings)) names &&
  forallb (fun x => forallb (fun t => negb (startswith x t) && negb (startswith t x)) checks) names &&
  forallb (fun t => negb (startswith t (f_qualified f))) checks &&
  forallb (fun x => negb (startswith $"python_" x) && negb (startswith $"cpp_" x)) names &&
  forallb (fun x => forallb (fun w => negb (made_check arrays x w)) ([$"1"; $"std"; $"nullopt"; $"nullptr"] ++ ws)) names &&
  forallb (fun w => negb (mem w ($"self" :: map (app (f_name f)) lambda_endings))) ws.

Theorem clean_by_check o f : clean_check o f = true -> clean o f.
Proof.
  unfold clean_check. cbv zeta. intros H.
  repeat (apply andb_true_iff in H; destruct H as [H ?]). rewrite forallb_forall in *.
  assert (SW : forall x y r, negb (startswith x y) = true -> y <> x ++ r).
  { intros x y r E ->. apply negb_true_iff in E. rewrite startswith_app in E. discriminate. }
  assert (MC : forall x y, negb (made_check (arrays_of o f) x y) = true -> ~ made_from o f x y).
  { intros x y E M. apply made_checked in M. rewrite M in E. discriminate. }
  split.
  - apply distinct_NoDup. auto.
  - intros K. apply kept_listed in K. revert K. apply mem_false. auto.
  - intros x y KX KY M. apply kept_listed in KX, KY. specialize (H6 x KX). rewrite forallb_forall in H6. specialize (H6 y KY).
    apply orb_true_iff in H6. destruct H6 as [K|K]; [exfalso; eapply MC; eauto|apply seqb_true; auto].
  - intros x n KX M. apply kept_listed in KX. specialize (H5 x KX). rewrite forallb_forall in H5. split.
    + intros [T|[(t & s & T & E)|(e & T & E)]].
      * apply (MC x n); auto. apply H5. right. apply in_app_iff. auto.
      * apply made_begins in M. destruct M as [r ->]. specialize (H4 x KX). rewrite forallb_forall in H4. specialize (H4 t T). apply andb_true_iff in H4. destruct H4 as [A B].
        destruct (two_beginnings _ _ _ _ E) as [(u & U)|(u & U)]; [apply (SW t x u B U)|apply (SW x t u A U)].
      * apply (MC x n); auto. apply H5. right. apply in_app_iff. right. rewrite E. apply in_map. auto.
    + intros E. apply (MC x n); auto. apply H5. left. auto.
  - intros x r KX. apply kept_listed in KX. specialize (H2 x KX). apply andb_true_iff in H2. destruct H2. split; apply SW; auto.
  - intros (t & r & T & E). apply (SW t (f_qualified f) r); auto.
  - intros p w I W. assert (J : In w (flat_map (fun p => words (p_default p)) (f_params f))) by (apply in_flat_map; eauto).
    pose proof (mem_false _ _ (H0 w J)) as SF. split; [|split].
    + intros ->. apply SF. left. auto.
    + intros e E ->. apply SF. right. apply in_map. auto.
    + intros x KX. apply kept_listed in KX. specialize (H1 x KX). rewrite forallb_forall in H1. apply MC, H1, in_app_iff. auto.
  - intros x w KX W. apply kept_listed in KX. specialize (H1 x KX). rewrite forallb_forall in H1. apply MC, H1, in_app_iff. auto.
Qed.

(** The names known at the end are those known at the beginning and those declared. *)
Lemma in_scope_names known ss after : in_scope known ss after -> forall n, In n after -> In n known \/ In n (flat_map decls ss).
Proof.
  intros S. induction S as [known|known s r after I S IH]; intros n J; auto. cbn [flat_map]. rewrite in_app_iff.
  destruct (IH n J) as [K|K]; auto. apply in_app_iff in K. tauto.
Qed.

(** A check which every lambda whose names are declared passes. *)
Definition known_check (l : lambda) : bool :=
  forallb (fun n => existsb (seqb n) (map p_name (l_params l) ++ flat_map decls (l_input l)))
    (flat_map (flat_map expr_names) (calls_of l) ++ match l_end l with ByType _ b others _ _ => b :: others | _ => [] end).
Lemma scoped_known l : scoped l -> known_check l = true.
Proof.
  intros (after & S & A & E). unfold known_check. apply forallb_forall. intros n I.
  assert (J : In n after).
  { apply in_app_iff in I. destruct I as [I|I].
    - apply in_flat_map in I. destruct I as (xs & IX & I). rewrite Forall_forall in A. exact (A xs IX n I).
    - destruct (l_end l); cbn in I; try tauto. apply E. exact I. }
  apply existsb_exists. exists n. split; [|apply seqb_refl]. apply in_app_iff. eapply in_scope_names; eauto.
Qed.
Lemma all_scoped_known ls : Forall (fun fl : link => scoped (snd fl)) ls -> forallb (fun fl => known_check (snd fl)) ls = true.
Proof. intros F. apply forallb_forall. intros fl I. rewrite Forall_forall in F. apply scoped_known. auto. Qed.

(** ** Names of the parameters without name *)

Lemma named_names : forall ps a, map p_name (map (fun ip => named (fst ip) (snd ip)) (combine (seq a (length ps)) ps))
  = map (fun kp => match p_name (snd kp) with [] => $"param_" ++ nat_text (fst kp) | n => n end) (combine (seq a (length ps)) ps).
Proof.
  induction ps as [|p ps IH]; intros a; auto. cbn [length seq combine map fst snd]. rewrite IH. f_equal. unfold named. destruct (p_name p) eqn:E; auto.
Qed.

Theorem name_params_distinct ps :
  (forall a p b q c, ps = a ++ p :: b ++ q :: c -> p_name p <> [] -> p_name p <> p_name q) ->
  (forall p k, In p ps -> p_name p <> $"param_" ++ nat_text k) ->
  NoDup (map p_name (name_params ps)) /\ ~ In [] (map p_name (name_params ps)).
Proof.
  intros D N. unfold name_params, enumerate. rewrite named_names. generalize 0 as a. split.
  - revert a. induction ps as [|p ps IH]; intros a; cbn [length seq combine map fst snd]; constructor.
    + intros I. apply in_map_iff in I. destruct I as ([k q] & E & I). cbn [fst snd] in E.
      assert (IQ : In q ps) by (apply in_combine_r in I; auto). assert (IK : S a <= k) by (apply in_combine_l, in_seq in I; lia).
      destruct (p_name p) as [|c n] eqn:EP, (p_name q) as [|c' n'] eqn:EQ.
      * apply app_inv_head in E. apply nat_text_inj in E. lia.
      * apply (N q a (or_intror IQ)). rewrite EQ. auto.
      * apply (N p k (or_introl eq_refl)). rewrite EP. auto.
      * apply in_split in IQ. destruct IQ as (b & c0 & ->). apply (D [] p b q c0 eq_refl); congruence.
    + apply IH.
      * intros a' p' b q c -> NE. apply (D (p :: a') p' b q c eq_refl NE).
      * intros q k I. apply N. right. auto.
  - intros I. apply in_map_iff in I. destruct I as ([k q] & E & I). cbn [fst snd] in E. destruct (p_name q); [|discriminate]. discriminate.
Qed.

(** Only the names change, and only if there is none. *)
Theorem name_params_same ps : Forall2 (fun p q => p_type q = p_type p /\ p_array q = p_array p /\ p_default q = p_default p /\ (p_name p <> [] -> q = p))
  ps (name_params ps).
Proof.
  unfold name_params, enumerate. generalize 0. induction ps as [|p ps IH]; intros a; cbn [length seq combine map fst snd]; constructor; auto.
  unfold named. destruct (p_name p) eqn:E; cbn; repeat split; auto. congruence.
Qed.
