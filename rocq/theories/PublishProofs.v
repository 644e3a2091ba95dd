(** Proofs on publishing and operators. *)
From Coq Require Import ZArith.
From Verif Require Import PyStr PyStrLemmas PyDict TextModel PublishModel PublishSpec.
From Verif Require Import NumberProofs NumberProofs2.

Section Publish.
Variable search : str -> str -> bool.
Variable template : ctype -> bool.
Variable o : options.
Let publishable := is_function_publishable search template o.
Let excl := excluded search template o.

Lemma prefixes_in p : In p (functions_api_prefixes_list o) <-> accepted_prefix o p.
Proof.
  unfold functions_api_prefixes_list, split_string_by_pipe_char, accepted_prefix. rewrite filter_In. split.
  - intros (I & N). split; auto. intros ->. discriminate.
  - intros (N & I). split; auto. destruct p; auto.
Qed.
Lemma prefix_true t : has_one_ok_prefix o t = true <-> has_prefix o t.
Proof.
  unfold has_one_ok_prefix, has_prefix. rewrite existsb_exists. split; intros (p & A & B); exists p.
  - rewrite prefixes_in in A. rewrite smem_In in B. auto.
  - rewrite prefixes_in. rewrite smem_In. auto.
Qed.
Lemma prefixes_none : length (functions_api_prefixes_list o) = 0 <-> forall p, ~ accepted_prefix o p.
Proof.
  split.
  - intros L p H. apply prefixes_in in H. destruct (functions_api_prefixes_list o); [destruct H|discriminate].
  - intros H. destruct (functions_api_prefixes_list o) as [|p l] eqn:E; auto. destruct (H p). apply prefixes_in. rewrite E. left. auto.
Qed.
Lemma dict_get_first {A} k (v : A) d : dict_get k d = Some v <-> exists a b, d = a ++ (k, v) :: b /\ ~ In k (map fst a).
Proof.
  induction d as [|(k', v') d IH]; cbn [dict_get].
  - split; [discriminate|]. intros ([|] & b & E & _); discriminate.
  - destruct (seqb_spec k k') as [<-|N].
    + split.
      * intros H. injection H as ->. exists [], d. auto.
      * intros ([|(k1, v1) a] & b & E & I); cbn in E.
        -- injection E as -> _. auto.
        -- injection E as -> -> _. cbn in I. tauto.
    + rewrite IH. split; intros (a & b & E & I).
      * exists ((k', v') :: a), b. rewrite E. split; auto. cbn. intros [E'|E']; [congruence|auto].
      * destruct a as [|(k1, v1) a]; cbn in E; injection E as; [congruence|]. exists a, b. cbn in I. tauto.
Qed.
Definition excluded_b (f : func) : bool :=
  startswith $"~" (f_name f) || smem $"delete" (f_specifiers f) || contains $"::" (f_name f) ||
  existsb template (f_params f) || match f_return f with Some t => template t | None => false end ||
  does_match search (fn_exclude_by_name o) (f_name f) ||
  match f_return f with Some t => does_match search (fn_exclude_by_param_type o) (ty_code t) | None => false end ||
  existsb (fun t => does_match search (fn_exclude_by_param_type o) (ty_code t)) (f_params f) ||
  match dict_get (f_name f) (fn_exclude_by_name_and_signature o) with
  | Some (c :: target) => seqb (c :: target) (join $", " (map ty_code (f_params f)))
  | _ => false
  end.
Lemma excluded_iff f : excluded_b f = true <-> excl f.
Proof.
  unfold excluded_b. rewrite !orb_true_iff, !existsb_exists. split.
  - intros [[[[[[[[H|H]|H]|(t & I & H)]|H]|H]|H]|(t & I & H)]|H].
    + apply ex_destructor; auto.
    + apply ex_deleted. apply smem_In; auto.
    + apply ex_qualified; auto.
    + apply (ex_template _ _ _ _ t); auto. unfold types_of. destruct (f_return f); [right|]; auto.
    + destruct (f_return f) as [t|] eqn:E; [|discriminate]. apply (ex_template _ _ _ _ t); auto. unfold types_of. rewrite E. left; auto.
    + apply ex_name; auto.
    + destruct (f_return f) as [t|] eqn:E; [|discriminate]. apply (ex_type _ _ _ _ t); auto. unfold types_of. rewrite E. left; auto.
    + apply (ex_type _ _ _ _ t); auto. unfold types_of. destruct (f_return f); [right|]; auto.
    + destruct (dict_get (f_name f) _) as [[|c target]|] eqn:E; [discriminate| |discriminate].
      apply (ex_signature _ _ _ _ (c :: target)); [discriminate| |apply seqb_true; auto].
      apply dict_get_first in E. exact E.
  - intros [H|H|H|t I H|H|t I H|target N S E]; try tauto.
    + left; left; left; left; left; left; left; right. apply smem_In; auto.
    + unfold types_of in I. destruct (f_return f) as [t0|]; [destruct I as [->|I]|].
      * left; left; left; left; right. auto.
      * left; left; left; left; left; right. eauto.
      * left; left; left; left; left; right. eauto.
    + unfold types_of in I. destruct (f_return f) as [t0|]; [destruct I as [->|I]|].
      * left; left; right. auto.
      * left; right. eauto.
      * left; right. eauto.
    + right. apply dict_get_first in S. rewrite S. destruct target; [congruence|]. apply seqb_true. auto.
Qed.
Lemma publishable_eq f e : publishable f e =
  if startswith $"~" (f_name f) && negb (f_is_method f) then None
  else Some (negb (excluded_b f) && 
    match f_return f with
    | None => true
    | Some t => if (negb (fn_exclude_non_api o) && negb e) || Nat.eqb (length (functions_api_prefixes_list o)) 0 then true
                else has_one_ok_prefix o t
    end).
Proof.
  unfold publishable, is_function_publishable, excluded_b. destruct (startswith $"~" (f_name f) && _); auto. f_equal.
  repeat match goal with |- (if ?x then false else _) = _ => destruct x; [rewrite ?orb_true_r; auto|] end.
  cbn [orb negb andb]. destruct (f_return f) as [t|]; auto.
  destruct (negb (fn_exclude_non_api o) && negb e); auto. cbn [orb]. destruct (Nat.eqb _ 0); auto.
Qed.
Lemma publishable_exact f e b : publishable f e = Some b ->
  (b = true <-> ~ excl f /\ (fn_exclude_non_api o = false /\ e = false \/ in_api o f)).
Proof.
  rewrite publishable_eq. destruct (startswith $"~" (f_name f) && _); [discriminate|]. intros H. injection H as <-.
  rewrite andb_true_iff, negb_true_iff, <- not_true_iff_false, excluded_iff. unfold in_api.
  destruct (f_return f) as [t|]; [|intuition].
  destruct (negb (fn_exclude_non_api o) && negb e) eqn:E.
  - apply andb_true_iff in E. rewrite !negb_true_iff in E. cbn [orb]. intuition.
  - assert (E' : ~ (fn_exclude_non_api o = false /\ e = false)).
    { intros (X & ->). rewrite X in E. discriminate. }
    cbn [orb]. rewrite <- prefixes_none. destruct (Nat.eqb _ 0) eqn:L.
    + apply Nat.eqb_eq in L. intuition.
    + apply Nat.eqb_neq in L. rewrite prefix_true. intuition.
Qed.
Lemma publishable_total f e : startswith $"~" (f_name f) = false \/ f_is_method f = true -> exists b, publishable f e = Some b.
Proof.
  rewrite publishable_eq. intros [->| ->]; [|rewrite andb_false_r]; cbn; eauto.
Qed.

Lemma comment_exact f comment : startswith $"~" (f_name f) = false \/ f_is_method f = true ->
  fn_non_api_comment o <> [] -> ~ excl f ->
  comment_if_non_published_api search template o f comment =
    match comment with [] => fn_non_api_comment o | _ => comment ++ nl :: fn_non_api_comment o end /\
    fn_exclude_non_api o = false /\ ~ in_api o f \/
  comment_if_non_published_api search template o f comment = comment /\ (fn_exclude_non_api o = true \/ in_api o f).
Proof.
  intros M C X. unfold comment_if_non_published_api. destruct (publishable_total f true M) as (b & B).
  pose proof (publishable_exact f true b B) as E. unfold publishable in B. rewrite B.
  destruct (fn_exclude_non_api o) eqn:NA; cbn [negb andb]; [right; auto|].
  destruct (Nat.eqb (length (functions_api_prefixes_list o)) 0) eqn:L; cbn [negb].
  - right. split; auto. right. apply Nat.eqb_eq in L. pose proof (proj1 prefixes_none L) as L2. unfold in_api. destruct (f_return f); auto.
  - destruct b.
    + right. split; auto. right. destruct (proj1 E eq_refl) as (_ & [(_ & ?)|?]); [discriminate|auto].
    + left. destruct (fn_non_api_comment o) as [|c0 c] eqn:FC; [congruence|]. split; auto. split; auto.
      intros I. assert (false = true) by (apply E; auto). discriminate.
Qed.

(** *** Blocks *)
Variable succeeds : adapted -> bool.
Let P := wanted search template o.

Lemma fill_append c cs r w : parts c = [AChild c] -> P (AChild c) -> filled P succeeds cs r w ->
  match append succeeds (AChild c) with
  | Continue l => filled P succeeds (c :: cs) (l ++ r) w
  | Warned l => filled P succeeds (c :: cs) (l ++ r) (c :: w)
  | Failed => False
  end.
Proof.
  intros E H F. unfold append. destruct (succeeds (AChild c)) eqn:S.
  - apply fill_ok; auto.
    + rewrite E. intros a [<-|[]] _. auto.
    + rewrite E. apply sel_keep; auto. constructor.
  - apply (fill_warned P succeeds c cs [] (AChild c) []); auto; try constructor; intros ? [].
Qed.
Lemma fill_skip c cs r w : parts c = [AChild c] -> ~ P (AChild c) -> filled P succeeds cs r w ->
  filled P succeeds (c :: cs) ([] ++ r) w.
Proof.
  intros E H F. apply fill_ok; auto.
  - rewrite E. intros a [<-|[]] X. contradiction.
  - rewrite E. apply sel_drop; auto. constructor.
Qed.
Lemma decls_spec names :
  match append_decls search o succeeds names with
  | Continue l => (forall a, In a (map ADecl names) -> P a -> succeeds a = true) /\ selected P (map ADecl names) l
  | Warned l => exists pre a post, map ADecl names = pre ++ a :: post /\ P a /\ succeeds a = false /\
      (forall a', In a' pre -> P a' -> succeeds a' = true) /\ selected P pre l
  | Failed => False
  end.
Proof.
  induction names as [|n names IH]; cbn [append_decls map].
  - split; [intros ? []|constructor].
  - destruct (does_match search (globals_vars_include_by_name o) n) eqn:D.
    + destruct (succeeds (ADecl n)) eqn:S.
      * destruct (append_decls search o succeeds names) as [l|l|]; auto.
        -- destruct IH as (A & B). split.
           ++ intros a [<-|I]; auto.
           ++ apply sel_keep; auto.
        -- destruct IH as (pre & a & post & E & H1 & H2 & H3 & H4). exists (ADecl n :: pre), a, post.
           rewrite E. repeat split; auto.
           ++ intros a' [<-|I]; auto.
           ++ apply sel_keep; auto.
      * exists [], (ADecl n), (map ADecl names). repeat split; auto; try constructor; intros ? [].
    + assert (N : ~ P (ADecl n)) by (cbn; congruence).
      destruct (append_decls search o succeeds names) as [l|l|]; auto.
      * destruct IH as (A & B). split.
        -- intros a [<-|I] X; [contradiction|auto].
        -- apply sel_drop; auto.
      * destruct IH as (pre & a & post & E & H1 & H2 & H3 & H4). exists (ADecl n :: pre), a, post.
        rewrite E. repeat split; auto.
        -- intros a' [<-|I] X; [contradiction|auto].
        -- apply sel_drop; auto.
Qed.
Lemma child_spec c cs r w : filled P succeeds cs r w ->
  match adapt_child search template o succeeds c with
  | Continue l => filled P succeeds (c :: cs) (l ++ r) w
  | Warned l => filled P succeeds (c :: cs) (l ++ r) (c :: w)
  | Failed => True
  end.
Proof.
  intros F.
  assert (W : forall b : bool, parts c = [AChild c] -> (b = true <-> P (AChild c)) ->
    match (if b then append succeeds (AChild c) else Continue []) with
    | Continue l => filled P succeeds (c :: cs) (l ++ r) w
    | Warned l => filled P succeeds (c :: cs) (l ++ r) (c :: w)
    | Failed => True
    end).
  { intros b E H. destruct b.
    - pose proof (fill_append c cs r w E (proj1 H eq_refl) F) as G. destruct (append _ _); auto.
    - apply fill_skip; auto. rewrite <- H. discriminate. }
  destruct c as [|t|t|n|f|n p|n|n b|names|]; cbn [adapt_child].
  - apply (W true); [auto|cbn; tauto].
  - apply (W true); [auto|cbn; tauto].
  - apply (W true); [auto|cbn; tauto].
  - apply W; [auto|]. cbn. rewrite negb_true_iff. tauto.
  - fold publishable. destruct (publishable f false) as [b|] eqn:B; auto.
    pose proof (publishable_exact f false b B) as E. specialize (W b eq_refl). destruct b; apply W; rewrite E; cbn; tauto.
  - apply W; [auto|]. cbn. rewrite andb_true_iff. tauto.
  - apply W; [auto|]. cbn. rewrite negb_true_iff. tauto.
  - apply W; [auto|]. cbn. rewrite !andb_true_iff, !negb_true_iff. rewrite seqb_false. tauto.
  - pose proof (decls_spec names) as D. destruct (append_decls search o succeeds names) as [l|l|]; auto.
    + destruct D as (A & B). apply fill_ok; auto.
    + destruct D as (pre & a & post & E & H1 & H2 & H3 & H4). apply (fill_warned P succeeds _ _ pre a post); auto.
  - apply fill_skip; auto.
Qed.
Lemma fill_spec cs : forall r w, fill_adapted_elements search template o succeeds cs = Some (r, w) -> filled P succeeds cs r w.
Proof.
  induction cs as [|c cs IH]; intros r w H; cbn [fill_adapted_elements] in H.
  - injection H as <- <-. constructor.
  - destruct (adapt_child _ _ _ _ c) as [l|l|] eqn:A; [| |discriminate];
      (destruct (fill_adapted_elements _ _ _ _ cs) as [(r', w')|]; [|discriminate]); injection H as <- <-;
      pose proof (child_spec c cs r' w' (IH _ _ eq_refl)) as C; rewrite A in C; exact C.
Qed.
Lemma fill_succeeds cs :
  (forall f, In (CFunction f) cs -> startswith $"~" (f_name f) = false \/ f_is_method f = true) ->
  exists r w, fill_adapted_elements search template o succeeds cs = Some (r, w).
Proof.
  induction cs as [|c cs IH]; intros H; cbn [fill_adapted_elements]; [eauto|].
  destruct IH as (r & w & ->); [intros; apply H; right; auto|].
  assert (N : adapt_child search template o succeeds c <> Failed).
  { assert (A : forall a, append succeeds a <> Failed) by (intros a; unfold append; destruct (succeeds a); discriminate).
    destruct c as [|t|t|n|f|n p|n|n b|names|]; cbn [adapt_child];
      try (match goal with |- context [if ?b then _ else _] => destruct b end); auto; try discriminate.
    - destruct (publishable_total f false) as (b & B); [apply H; left; auto|]. unfold publishable in B. rewrite B.
      destruct b; auto. discriminate.
    - pose proof (decls_spec names) as D. destruct (append_decls _ _ _ names); auto; discriminate. }
  destruct (adapt_child _ _ _ _ c); [eauto|eauto|congruence].
Qed.
Lemma fill_app a b r w : fill_adapted_elements search template o succeeds (a ++ b) = Some (r, w) ->
  exists ra wa rb wb, fill_adapted_elements search template o succeeds a = Some (ra, wa) /\
    fill_adapted_elements search template o succeeds b = Some (rb, wb) /\ r = ra ++ rb /\ w = wa ++ wb.
Proof.
  revert r w. induction a as [|c a IH]; intros r w H; cbn [app fill_adapted_elements] in *.
  - exists [], [], r, w. auto.
  - destruct (adapt_child _ _ _ _ c) as [l|l|]; [| |discriminate];
      (destruct (fill_adapted_elements _ _ _ _ (a ++ b)) as [(r', w')|]; [|discriminate]); injection H as <- <-;
      destruct (IH _ _ eq_refl) as (ra & wa & rb & wb & -> & -> & -> & ->);
      [exists (l ++ ra), wa, rb, wb|exists (l ++ ra), (c :: wa), rb, wb]; rewrite <- app_assoc; auto.
Qed.
End Publish.

(** *** Operators *)


Lemma forallb_spaces a : Forall (fun c => is_space c = true) a -> forallb is_space a = true.
Proof. intros H. apply forallb_forall. rewrite Forall_forall in H. auto. Qed.
Lemma operator_sign f s : declares f s -> strip s = s ->
  is_operator (f_name f) = true /\ f_is_method f = true /\ operator_name (f_name f) = s.
Proof.
  intros (a & b & E & M & A & B) S. rewrite E. split; [unfold is_operator; apply startswith_app|split; [exact M|]].
  unfold operator_name. rewrite skipn_app. rewrite skipn_all. cbn [app length Nat.sub].
    change (length $"operator" - length $"operator") with 0. cbn [skipn].
    rewrite strip_spaces_l by (apply forallb_spaces; auto). rewrite strip_spaces_r by (apply forallb_spaces; auto). auto.
Qed.
Lemma operator_declares f : is_operator (f_name f) = true -> f_is_method f = true -> declares f (operator_name (f_name f)).
Proof.
  unfold is_operator, operator_name. intros H M. apply startswith_true in H. destruct H as (r & E).
  rewrite E. rewrite skipn_app, skipn_all. change (length $"operator" - length $"operator") with 0. cbn [skipn app].
  destruct (strip_split r) as (a & b & R & A & B). exists a, b. rewrite forallb_forall in A, B.
  rewrite E. repeat split; auto; try (apply Forall_forall; auto). f_equal. auto.
Qed.
Lemma operator_meaning f op : declares f (cpp_sign op) -> length (f_params f) = operands op ->
  cpp_to_python_operator_name f = PyName (python_method op).
Proof.
  intros D L. destruct (operator_sign f _ D) as (H1 & H2 & H3); [destruct op; reflexivity|].
  unfold cpp_to_python_operator_name, supported_operator. rewrite H1, H2, H3, L. destruct op; reflexivity.
Qed.
Lemma operator_call f : declares f $"()" -> cpp_to_python_operator_name f = PyName $"__call__".
Proof.
  intros D. destruct (operator_sign f _ D) as (H1 & H2 & H3); [reflexivity|].
  unfold cpp_to_python_operator_name, supported_operator. rewrite H1, H2, H3. reflexivity.
Qed.
Lemma operator_only f m : cpp_to_python_operator_name f = PyName m ->
  (exists op, declares f (cpp_sign op) /\ length (f_params f) = operands op /\ m = python_method op) \/
  declares f $"()" /\ m = $"__call__" \/
  declares f $"<=>" /\ length (f_params f) = 1 /\ m = $"<=>".
Proof.
  unfold cpp_to_python_operator_name. destruct (is_operator (f_name f)) eqn:H1; [|discriminate].
  destruct (f_is_method f) eqn:H2; [|discriminate]. cbn [andb negb].
  destruct (supported_operator f) eqn:S; [|discriminate]. cbn [negb].
  pose proof (operator_declares f H1 H2) as D. set (n := operator_name (f_name f)) in *.
  destruct (seqb_spec n $"()") as [E|N]; [intros H; injection H as <-; rewrite E in D; auto|].
  intros H.
  assert (T : (exists op, n = cpp_sign op /\ length (f_params f) = operands op /\ m = python_method op) \/
     n = $"<=>" /\ length (f_params f) = 1 /\ m = $"<=>").
  { destruct (length (f_params f)) as [|[|k]]; [| |discriminate].
    - destruct (dict_get n zero_param) as [v|] eqn:G; [|discriminate]. injection H as ->. apply dict_get_In in G.
      destruct G as [G|[G|[G|[]]]]; injection G as <- <-; left;
        [exists Negate|exists Plus|exists Truth]; auto.
    - destruct (dict_get n one_param) as [v|] eqn:G; [|discriminate]. injection H as ->. apply dict_get_In in G.
      unfold one_param in G. cbn [In] in G.
      repeat (destruct G as [G|G]; [injection G as <- <-; try (left; match goal with |- exists op, ?s = _ /\ _ =>
        first [exists Add; repeat split; reflexivity | exists Subtract; repeat split; reflexivity
          | exists Multiply; repeat split; reflexivity | exists Divide; repeat split; reflexivity
          | exists Remainder; repeat split; reflexivity | exists Item; repeat split; reflexivity
          | exists Less; repeat split; reflexivity | exists LessEqual; repeat split; reflexivity
          | exists Equal; repeat split; reflexivity | exists Different; repeat split; reflexivity
          | exists Greater; repeat split; reflexivity | exists GreaterEqual; repeat split; reflexivity
          | exists AddTo; repeat split; reflexivity | exists SubtractFrom; repeat split; reflexivity
          | exists MultiplyBy; repeat split; reflexivity | exists DivideBy; repeat split; reflexivity
          | exists RemainderBy; repeat split; reflexivity] end); try (right; auto; fail)|]).
      destruct G. }
  destruct T as [(op & -> & L & ->)|(-> & L & ->)]; eauto 10.
Qed.
Lemma python_method_inj a b : python_method a = python_method b -> a = b.
Proof. destruct a, b; intros H; try reflexivity; discriminate H. Qed.
Lemma declares_name f s : declares f s -> strip s = s -> operator_name (f_name f) = s.
Proof. intros D S. apply (operator_sign f s D S). Qed.
Lemma operator_distinct f g m : cpp_to_python_operator_name f = PyName m -> cpp_to_python_operator_name g = PyName m ->
  exists sign, declares f sign /\ declares g sign /\
  (length (f_params f) = length (f_params g) \/ sign = $"()").
Proof.
  intros F G. apply operator_only in F, G.
  destruct F as [(a & Fa & La & ->)|[(Fa & ->)|(Fa & La & ->)]]; destruct G as [(b & Gb & Lb & E)|[(Gb & E)|(Gb & Lb & E)]];
    try (apply python_method_inj in E; subst b); try (destruct a; discriminate E); try (destruct b; discriminate E); try discriminate E.
  - exists (cpp_sign a). repeat split; auto. left. congruence.
  - exists $"()". auto.
  - exists $"<=>". repeat split; auto. left. congruence.
Qed.
Lemma free_operator f : is_operator (f_name f) = true -> f_is_method f = false -> supported_operator f = false.
Proof. unfold supported_operator. intros -> ->. auto. Qed.

(** *** Three-way comparison *)
Lemma spaceship f : declares f $"<=>" -> length (f_params f) = 1 ->
  forall r, exists codes,
    python_methods f = map (fun p => (PyName (python_method (fst p)), Some (snd p))) codes /\
    map fst codes = [Less; LessEqual; Equal; GreaterEqual; Greater] /\
    Forall (fun p => lambda_value (snd p) r = holds (fst p) r) codes.
Proof.
  intros D L r. destruct (operator_sign f _ D) as (H1 & H2 & H3); [reflexivity|].
  unfold python_methods, is_spaceship_operator. rewrite H1, H2, H3. cbn [andb].
  change (seqb $"<=>" $"<=>") with true. cbn iota.
  exists (combine [Less; LessEqual; Equal; GreaterEqual; Greater] (map snd (split_spaceship_operator f))).
  split; [|split; [reflexivity|]].
  - unfold split_spaceship_operator. cbn [map combine fst snd make_cmp].
    repeat (apply f_equal2; [apply f_equal2; [apply operator_meaning; [exists [], []; rewrite app_nil_r; auto|exact L]|reflexivity]|]).
    reflexivity.
  - repeat constructor; vm_compute; reflexivity.
Qed.

Lemma prefixes_joined o ps : Forall (fun p => p <> [] /\ ~ In "|"%char p) ps -> ps <> [] ->
  functions_api_prefixes o = join $"|" ps -> forall p, accepted_prefix o p <-> In p ps.
Proof.
  intros H N E p. unfold accepted_prefix. rewrite E.
  assert (S : split_on "|" (join $"|" ps) = ps).
  { apply (split_on_join "|"%char); auto. eapply Forall_impl; [|exact H]. cbn. tauto. }
  rewrite S. split; [tauto|]. intros I. split; auto. rewrite Forall_forall in H. apply (H p I).
Qed.
Lemma fill_middle search template o succeeds before c after r w :
  fill_adapted_elements search template o succeeds (before ++ c :: after) = Some (r, w) ->
  exists rb wb rc wc ra wa,
    fill_adapted_elements search template o succeeds before = Some (rb, wb) /\
    fill_adapted_elements search template o succeeds [c] = Some (rc, wc) /\
    fill_adapted_elements search template o succeeds after = Some (ra, wa) /\
    r = rb ++ rc ++ ra /\ w = wb ++ wc ++ wa.
Proof.
  intros H. apply fill_app in H. destruct H as (rb & wb & r2 & w2 & H1 & H2 & -> & ->).
  change (c :: after) with ([c] ++ after) in H2. apply fill_app in H2. destruct H2 as (rc & wc & ra & wa & H3 & H4 & -> & ->).
  exists rb, wb, rc, wc, ra, wa. auto.
Qed.

Lemma operator_named f : is_operator (f_name f) = true -> supported_operator f = true ->
  exists m, cpp_to_python_operator_name f = PyName m.
Proof.
  intros O S. unfold cpp_to_python_operator_name. rewrite S, O. cbn [negb andb].
  unfold supported_operator in S. rewrite O in S. cbn [negb] in S. destruct (f_is_method f); [|discriminate].
  cbn [negb] in *. cbv zeta in *. destruct (smem _ known_unsupported); [discriminate|].
  destruct (seqb (operator_name (f_name f)) $"()"); [eauto|].
  destruct (length (f_params f)) as [|[|n]]; [| |discriminate].
  - unfold dict_has in S. destruct (dict_get _ zero_param); [eauto|discriminate].
  - unfold dict_has in S. destruct (dict_get _ one_param); [eauto|discriminate].
Qed.
