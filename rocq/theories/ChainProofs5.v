From Coq Require Import Permutation.
From Verif Require Import PyStr PyStrLemmas PyDict PyNum TypeTextModel LambdaModel LambdaSpec AdapterModel AdapterSpec
  LambdaProofs AdapterProofs AdapterProofs2 AdapterProofs3 AdapterProofs4 AdapterProofs5 BufferModel BufferSpec BufferProofs
  BufferProofs2 BufferProofs3 BufferProofs4 BufferProofs5 BufferProofs6 ChainModel ChainSpec ChainProofs ChainProofs2 ChainProofs3
  ChainProofs4.
(** The names of the adapters of arrays, lists of strings and variadic functions. *)

Section Chain.
Variables (bo : buffer_options) (f0 : func).
Hypothesis CL : clean bo f0.

Definition step_named (items items' : bool) (f : func) (l : lambda) : Prop :=
  well_named f l /\ current bo f0 items' (apply_lambda_adapter f l).

Lemma keeps_step items f e pc : current bo f0 items f -> (forall p, keeps p (pc p)) -> In e lambda_endings ->
  step_named items items f (make_lambda f e (map pc (f_params f))).
Proof.
  intros C KP E. split; [|exact (keeps_current bo f0 CL items f e pc (f_return f) C KP E)].
  destruct (keeps_names bo f0 CL items f pc C KP) as (A & B & D). eapply made_lambda_named; eauto.
Qed.

(** ** Arrays *)

Lemma array_own o fn p : exists items : bool,
  own (array_piece o fn p) = (if items then map (item_name p) (seq 0 (match o_array_size o (p_array p) with Some n => n | None => 0 end)) ++ [raw_name p] else [p_name p]) /\
  map p_name (q_new (array_piece o fn p)) = (if items then map (item_name p) (seq 0 (match o_array_size o (p_array p) with Some n => n | None => 0 end)) else [p_name p]) /\
  (forall np, In np (q_new (array_piece o fn p)) -> p_default np = p_default p) /\
  flat_map stmt_texts (q_input (array_piece o fn p)) ++ flat_map expr_texts (q_args (array_piece o fn p)) = [].
Proof.
  unfold array_piece. destruct (o_array_size o (p_array p)) as [n|]; [|exists false; cbn; split; [auto|]; split; [auto|]; split; auto; intros np [<-|[]]; auto].
  destruct (is_const_decl p && o_array_std o fn). { exists false; cbn; split; [auto|]; split; [auto|]; split; auto; intros np [<-|[]]; auto. }
  destruct (_ && _); [|exists false; cbn; split; [auto|]; split; [auto|]; split; auto; intros np [<-|[]]; auto].
  exists true. cbn [q_new q_input q_args].
  assert (NM : map p_name (map (boxed_item p) (seq 0 n)) = map (item_name p) (seq 0 n)) by (rewrite map_map; auto).
  split; [|split; [|split]]; auto.
  - unfold own. cbn [q_new q_input flat_map decls]. rewrite NM. f_equal. cbn [app]. f_equal. generalize (seq 0 n). induction l; cbn; auto.
  - intros np I. apply in_map_iff in I. destruct I as (k & <- & _). auto.
  - cbn [flat_map stmt_texts app expr_texts]. rewrite app_nil_r. clear NM. induction (seq 0 n) as [|k l IH]; cbn [map flat_map]; auto.
    rewrite IH, app_nil_r. cbn. unfold item_access. destruct (is_immutable _); auto.
Qed.

Lemma array_texts o fn ps : flat_map stmt_texts (inputs (map (array_piece o fn) ps)) = [] /\ flat_map expr_texts (args (map (array_piece o fn) ps)) = [].
Proof.
  unfold inputs, args. induction ps as [|p ps [E1 E2]]; auto. cbn [map flat_map]. rewrite !flat_map_app, E1, E2.
  destruct (array_own o fn p) as (_ & _ & _ & _ & T). apply app_eq_nil in T. destruct T as [-> ->]. auto.
Qed.

Lemma arrays_step o f l : current bo f0 false f -> adapt_c_arrays o f = Some l -> step_named false true f l.
Proof.
  intros C. unfold adapt_c_arrays. destruct (existsb _ _); [|discriminate]. intros H. injection H as <-.
  set (pc := array_piece o (f_name f)).
  assert (CN : forall p, In p (f_params f) -> kept bo f0 (p_name p)).
  { intros p I. destruct (cu_names _ _ _ _ C p I) as (x & KX & _ & E). rewrite (E eq_refl). auto. }
  assert (OW : forall p n, In n (own (pc p)) -> own_names (p_name p) n \/ item_of (p_name p) n).
  { intros p n I. destruct (array_own o (f_name f) p) as (b & E & _). unfold pc in I. rewrite E in I. destruct b.
    - apply in_app_iff in I. destruct I as [I|[<-|[]]].
      + right. right. apply in_map_iff in I. destruct I as (k & <- & _). exists k. auto.
      + left. right. exists $"_raw". split; [cbn; auto 10|reflexivity].
    - destruct I as [<-|[]]. left. left. auto. }
  assert (ND : NoDup (flat_map own (map pc (f_params f)))).
  { rewrite own_flat. apply NoDup_flat_names; [apply (cu_distinct _ _ _ _ C)| |].
    - intros p _. destruct (array_own o (f_name f) p) as (b & E & _). unfold pc. rewrite E. destruct b; [|repeat constructor; auto].
      apply NoDup_app_intro; [|repeat constructor; auto|].
      + apply FinFun.Injective_map_NoDup; [|apply seq_NoDup]. intros j k EQ. apply (item_inj (p_name p) (p_name p) j k EQ).
      + intros n I [J|[]]. apply in_map_iff in I. destruct I as (k & EK & _). rewrite <- EK in J. symmetry in J. unfold raw_name, item_name in J.
        revert J. apply item_not_ending. cbn. auto 10.
    - intros p q n I J A B. apply (made_apart bo f0 (kept bo f0) (cl_apart _ _ CL) (p_name p) (p_name q) n); auto. }
  assert (MF : forall n, In n (flat_map own (map pc (f_params f))) -> exists x, kept bo f0 x /\ made_from bo f0 x n).
  { intros n I. rewrite own_flat in I. apply in_flat_map in I. destruct I as (p & I & J). exists (p_name p). split; auto.
    destruct (OW p n J) as [H|H]; [|apply item_made; auto]. left. exists (p_name p). split; [left; auto|]. auto. }
  split.
  - eapply made_lambda_named; eauto. intros t I. exfalso.
    destruct (array_texts o (f_name f) (f_params f)) as [E1 E2]. unfold pc in I. rewrite E1, E2 in I. destruct I.
  - split; cbn [apply_lambda_adapter f_name f_qualified f_to_call f_params l_name l_params make_lambda].
    + apply (cu_name _ _ _ _ C).
    + apply (cu_qualified _ _ _ _ C).
    + right. exists $"_adapt_fixed_size_c_arrays". rewrite (cu_name _ _ _ _ C). split; auto. cbn. auto 10.
    + intros np I. unfold new_params in I. apply in_flat_map in I. destruct I as (q & I1 & I2). apply in_map_iff in I1. destruct I1 as (p & <- & I1).
      exists (p_name p). split; auto. split; [|discriminate]. destruct (array_own o (f_name f) p) as (b & _ & E & _).
      assert (J : In (p_name np) (map p_name (q_new (pc p)))) by (apply in_map; auto). unfold pc in J. rewrite E in J. destruct b.
      * apply in_map_iff in J. destruct J as (k & <- & _). right. exists k. auto.
      * destruct J as [<-|[]]. left. auto.
    + apply NoDup_app_parts with (b := flat_map decls (inputs (map pc (f_params f)))).
      eapply Permutation_NoDup; [apply Permutation_sym, pieces_perm|auto].
    + intros np w I W. unfold new_params in I. apply in_flat_map in I. destruct I as (q & I1 & I2). apply in_map_iff in I1. destruct I1 as (p & <- & I1).
      destruct (array_own o (f_name f) p) as (_ & _ & _ & D & _). rewrite (D np I2) in W. eapply (cu_defaults _ _ _ _ C); eauto.
Qed.

(** ** Lists of strings *)

Definition with_ptrs (p : param) : list str := p_name p :: (if is_string_list p then [ptrs_name p] else []).
Definition head_size (o : options) (prev : option param) (ps : list param) : list str :=
  match prev, ps with Some q, p :: _ => if is_string_list q && o_size_name o (p_name p) then [p_name p] else [] | _, _ => [] end.

Lemma list_own o : forall ps prev, no_list_of_sizes o ps -> exists extra,
  Permutation ((flat_map own (string_list_pieces o prev ps) ++ head_size o prev ps) ++ extra) (flat_map with_ptrs ps).
Proof.
  induction ps as [|p ps IH]; intros prev N; [exists []; destruct prev; cbn; auto|].
  assert (N' : no_list_of_sizes o ps) by (intros q I; apply N; right; auto).
  destruct (IH (Some p) N') as (ex & IHp). cbn [string_list_pieces flat_map].
  set (F := flat_map own (string_list_pieces o (Some p) ps)) in *. set (G := flat_map with_ptrs ps) in *. clearbody F G. clear IH.
  assert (HS : head_size o prev (p :: ps) = if (match prev with Some q => is_string_list q && o_size_name o (p_name p) | None => false end) then [p_name p] else [])
    by (destruct prev; auto).
  rewrite HS. clear HS. unfold string_list_piece.
  assert (Y : is_string_list p = true -> (match prev with Some q => is_string_list q && o_size_name o (p_name p) | None => false end) = false).
  { intros L. destruct prev; auto. rewrite (N p) by (left || apply string_list_spec; auto). apply andb_false_r. }
  destruct (match prev with Some q => is_string_list q && o_size_name o (p_name p) | None => false end).
  - assert (L : is_string_list p = false) by (destruct (is_string_list p); auto; discriminate (Y eq_refl)).
    rewrite L. exists ex. unfold with_ptrs. rewrite L.
    assert (HE : head_size o (Some p) ps = []) by (unfold head_size; rewrite L; destruct ps; auto). rewrite HE, app_nil_r in IHp.
    assert (X : Permutation ((F ++ [p_name p]) ++ ex) ([p_name p] ++ G)).
    { rewrite <- app_assoc. cbn. eapply Permutation_trans; [apply Permutation_sym, Permutation_middle|]. constructor. auto. }
    destruct (hd_error ps); exact X.
  - destruct ps as [|s ps]; cbn [hd_error].
    + cbn in IHp. rewrite app_nil_r in IHp. unfold with_ptrs at 1. exists (if is_string_list p then ptrs_name p :: ex else ex).
      rewrite app_nil_r. destruct (is_string_list p); cbn; constructor; auto.
      eapply Permutation_trans; [apply Permutation_sym, Permutation_middle|]. constructor. auto.
    + cbn [head_size] in IHp. destruct (is_string_list p) eqn:L; cbn [andb] in IHp |- *.
      * destruct (o_size_name o (p_name s)).
        -- exists ex. unfold with_ptrs at 1. rewrite L, app_nil_r. unfold own at 1. cbn [q_new q_input map vector_param p_name].
           rewrite flat_map_app, ptrs_decls. cbn. constructor. constructor. eapply Permutation_trans; [|exact IHp].
           rewrite <- app_assoc. cbn. apply Permutation_middle.
        -- exists (ptrs_name p :: ex). unfold with_ptrs at 1. rewrite L, app_nil_r. cbn. constructor. rewrite app_nil_r in IHp.
           eapply Permutation_trans; [apply Permutation_sym, Permutation_middle|]. constructor. auto.
      * exists ex. unfold with_ptrs at 1. rewrite L, app_nil_r. cbn. constructor. rewrite app_nil_r in IHp. auto.
Qed.

Lemma list_new o : forall ps prev np, In np (new_params (string_list_pieces o prev ps)) ->
  exists p, In p ps /\ p_name np = p_name p /\ (p_default np = p_default p \/ p_default np = []).
Proof.
  induction ps as [|p ps IH]; intros prev np I; [destruct I|]. cbn [string_list_pieces] in I. unfold new_params in I. cbn [flat_map] in I.
  apply in_app_iff in I. destruct I as [I|I].
  - exists p. split; [left; auto|]. unfold string_list_piece in I. destruct (hd_error ps); [destruct (_ && _)|].
    + destruct I as [<-|[]]. auto.
    + destruct (match prev with Some _ => _ | None => _ end); [destruct I|]. destruct I as [<-|[]]. auto.
    + destruct (match prev with Some _ => _ | None => _ end); [destruct I|]. destruct I as [<-|[]]. auto.
  - destruct (IH (Some p) np I) as (q & J & H). exists q. split; [right; auto|auto].
Qed.

Lemma list_texts o : forall ps prev,
  flat_map stmt_texts (inputs (string_list_pieces o prev ps)) = [] /\ flat_map expr_texts (args (string_list_pieces o prev ps)) = [].
Proof.
  induction ps as [|p ps IH]; intros prev; auto. cbn [string_list_pieces]. unfold inputs, args in *. cbn [flat_map]. rewrite !flat_map_app.
  destruct (IH (Some p)) as [-> ->]. rewrite !app_nil_r. unfold string_list_piece, ptrs_input, casted_size.
  destruct (hd_error ps); [destruct (is_string_list p && _)|]; try (destruct (match prev with Some _ => _ | None => _ end); auto; fail).
  cbn [q_input q_args]. rewrite flat_map_app. destruct (o_nanobind o), (_ || _); auto.
Qed.

Lemma list_step items o f l : current bo f0 items f -> no_list_of_sizes o (f_params f) -> adapt_string_list o f = Some l -> step_named items items f l.
Proof.
  intros C N. unfold adapt_string_list. destruct (_ && _); [|discriminate]. intros H. injection H as <-.
  set (qs := string_list_pieces o None (f_params f)).
  destruct (list_own o (f_params f) None N) as (ex & PM). cbn [head_size] in PM. rewrite app_nil_r in PM. fold qs in PM.
  assert (WP : forall p n, In n (with_ptrs p) -> own_names (p_name p) n).
  { intros p n I. unfold with_ptrs in I. destruct (is_string_list p).
    - destruct I as [<-|[<-|[]]]; [left; auto|right]. exists $"_ptrs". split; auto. cbn. auto 12.
    - destruct I as [<-|[]]. left. auto. }
  assert (NW : NoDup (flat_map with_ptrs (f_params f))).
  { apply NoDup_flat_names; [apply (cu_distinct _ _ _ _ C)| |].
    - intros p _. unfold with_ptrs. destruct (is_string_list p); repeat constructor; auto. intros [E|[]].
      apply (f_equal (@length _)) in E. unfold ptrs_name in E. rewrite app_length in E. cbn in E. lia.
    - intros p q n I J A B. apply WP in A, B. destruct (cu_names _ _ _ _ C p I) as (x & KX & IX & _). destruct (cu_names _ _ _ _ C q J) as (y & KY & IY & _).
      eapply (own_apart bo f0 (kept bo f0) (cl_apart _ _ CL) x y); eauto. }
  assert (ND : NoDup (flat_map own qs)).
  { apply NoDup_app_parts with (b := ex). eapply Permutation_NoDup; [apply Permutation_sym; exact PM|auto]. }
  assert (MF : forall n, In n (flat_map own qs) -> exists x, kept bo f0 x /\ made_from bo f0 x n).
  { intros n I. assert (J : In n (flat_map with_ptrs (f_params f))) by (eapply Permutation_in; [exact PM|apply in_app_iff; auto]).
    apply in_flat_map in J. destruct J as (p & J & M). apply WP in M. destruct (cu_names _ _ _ _ C p J) as (x & KX & IX & _).
    exists x. split; auto. left. exists (p_name p). auto. }
  split.
  - eapply made_lambda_named; eauto. intros t I. exfalso. unfold qs in I. destruct (list_texts o (f_params f) None) as [E1 E2]. rewrite E1, E2 in I. destruct I.
  - split; cbn [apply_lambda_adapter f_name f_qualified f_to_call f_params l_name l_params make_lambda].
    + apply (cu_name _ _ _ _ C).
    + apply (cu_qualified _ _ _ _ C).
    + right. exists $"_adapt_c_string_list". rewrite (cu_name _ _ _ _ C). split; auto. cbn. auto 12.
    + intros np I. destruct (list_new o _ _ _ I) as (p & J & E & _). rewrite E. apply (cu_names _ _ _ _ C). auto.
    + apply NoDup_app_parts with (b := flat_map decls (inputs qs)). eapply Permutation_NoDup; [apply Permutation_sym, pieces_perm|auto].
    + intros np w I W. destruct (list_new o _ _ _ I) as (p & J & _ & [D|D]); rewrite D in W.
      * eapply (cu_defaults _ _ _ _ C); eauto.
      * eapply (new_default_words bo f0 CL []); eauto. left. auto.
Qed.

(** ** Variadic functions *)

Lemma pass_new ps : flat_map q_new (map pass ps) = ps.
Proof. induction ps; cbn; congruence. Qed.
Lemma pass_inputs ps : flat_map q_input (map pass ps) = [].
Proof. induction ps; cbn; auto. Qed.
Lemma pass_texts ps : flat_map expr_texts (flat_map q_args (map pass ps)) = [].
Proof. induction ps; cbn; auto. Qed.

Lemma variadic_step items o f l : current bo f0 items f -> adapt_variadic o f = Some l -> step_named items items f l.
Proof.
  intros C. unfold adapt_variadic. destruct (rev (f_params f)) as [|last [|text firsts]] eqn:R; try discriminate.
  assert (E : f_params f = (rev firsts ++ [text]) ++ [last]).
  { rewrite <- (rev_involutive (f_params f)), R. cbn [rev]. auto. }
  destruct (_ && _); [|discriminate]. intros H. injection H as <-.
  set (ps := rev firsts ++ [text]) in *.
  set (qs := map pass (rev firsts) ++ _).
  assert (NP : new_params qs = ps).
  { unfold qs, new_params, ps. rewrite flat_map_app, pass_new. auto. }
  assert (IN : inputs qs = []). { unfold qs, inputs. rewrite flat_map_app, pass_inputs. auto. }
  assert (ND : NoDup (map p_name ps)). { pose proof (cu_distinct _ _ _ _ C) as D. rewrite E, map_app in D. apply NoDup_app_parts in D. tauto. }
  assert (PS : forall p, In p ps -> In p (f_params f)) by (intros p I; rewrite E; apply in_app_iff; auto).
  split.
  - eapply lambda_named; eauto; cbn [make_lambda l_end l_params l_input]; auto; rewrite ?NP, ?IN; cbn [flat_map]; rewrite ?app_nil_r; auto.
    + intros n I. apply in_map_iff in I. destruct I as (p & <- & I). destruct (cu_names _ _ _ _ C p (PS p I)) as (x & KX & IX & _).
      exists x. split; auto. apply item_made. auto.
    + intros t I. exfalso. unfold texts_of in I. cbn [make_lambda l_input l_args] in I. rewrite IN in I. cbn [flat_map app] in I.
      assert (Z : flat_map expr_texts (args qs) = []).
      { unfold qs, args. rewrite !flat_map_app, pass_texts. auto. }
      rewrite Z in I. destruct I.
  - split; cbn [apply_lambda_adapter f_name f_qualified f_to_call f_params l_name l_params make_lambda]; rewrite ?NP.
    + apply (cu_name _ _ _ _ C).
    + apply (cu_qualified _ _ _ _ C).
    + right. exists $"_adapt_variadic_format". rewrite (cu_name _ _ _ _ C). split; auto. cbn. auto 12.
    + intros p I. apply (cu_names _ _ _ _ C). auto.
    + auto.
    + intros p w I W. eapply (cu_defaults _ _ _ _ C); eauto.
Qed.
End Chain.
