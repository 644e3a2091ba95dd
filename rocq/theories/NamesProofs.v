(** Proofs for C21 and C29 to C31. *)
From Verif Require Import PyStr PyStrLemmas PyNum NamesModel NamesSpec.

(** *** Snake case *)

Lemma sub1_head st s : head_is (fun _ => true) s = head_is (fun _ => true) (sub1 st s).
Proof.
  destruct s as [|c s]; auto. cbn [sub1]. destruct st; cbn;
  repeat match goal with |- context [if ?b then _ else _] => destruct b end; auto.
Qed.
Lemma sub1_hd f st s : head_is f (sub1 st s) = head_is f s.
Proof.
  destruct s as [|c s]; auto. cbn [sub1]. destruct st; cbn [head_is];
  repeat match goal with |- context [if ?b then _ else _] => destruct b end; auto.
Qed.

(** Forms of the last two scanners that read one character at a time. *)
Fixpoint sub2' (s : str) : str :=
  match s with
  | [] => []
  | c :: s' => (if ceqb c "_" && head_is (fun d => ceqb d "_") s' && head_is is_upper (tl s') then [] else [c]) ++ sub2' s'
  end.
Lemma upper_not_us u : is_upper u = true -> ceqb u "_" = false.
Proof. destruct u as [[] [] [] [] [] [] [] []]; cbn; auto; discriminate. Qed.
Lemma sub2_eq_len n : forall s, length s <= n -> sub2 s = sub2' s.
Proof.
  induction n as [|n IH]; intros s Hn; [destruct s; [auto|cbn in Hn; lia]|].
  destruct s as [|c s]; auto. cbn [length] in Hn. cbn [sub2 sub2'].
  destruct s as [|d s]; [cbn [head_is tl]; rewrite andb_false_r; reflexivity|].
  destruct s as [|u r].
  - cbn [head_is tl sub2 sub2']. destruct (ceqb c "_"), (ceqb d "_"); reflexivity.
  - cbn [head_is tl]. destruct (ceqb c "_" && ceqb d "_" && is_upper u) eqn:E.
    + apply andb_true_iff in E as [E1 E3]. apply andb_true_iff in E1 as [E1 E2].
      cbn [app]. cbn [sub2']. cbn [head_is tl].
      rewrite (upper_not_us _ E3), andb_false_r. cbn [andb app].
      destruct (ceqb_spec d "_"); [subst d|discriminate].
      rewrite IH by (cbn in Hn; lia). auto.
    + cbn [app]. f_equal. apply (IH (d :: u :: r)). cbn in *; lia.
Qed.
Lemma sub2_eq s : sub2 s = sub2' s.
Proof. apply (sub2_eq_len (length s)). auto. Qed.

Fixpoint sub3' (prev : option ascii) (s : str) : str :=
  match s with
  | [] => []
  | u :: r => (if is_upper u && match prev with Some p => is_lower p || is_digit p | None => false end then $"_" else [])
              ++ u :: sub3' (Some u) r
  end.
Lemma upper_not_ld u : is_upper u = true -> is_lower u || is_digit u = false.
Proof. destruct u as [[] [] [] [] [] [] [] []]; cbn; auto; discriminate. Qed.
Lemma sub3_eq_len n : forall c s, length s <= n -> sub3 (c :: s) = c :: sub3' (Some c) s.
Proof.
  induction n as [|n IH]; intros c s Hn; [destruct s; [auto|cbn in Hn; lia]|].
  destruct s as [|u r]; [reflexivity|]. cbn [length] in Hn.
  change (sub3 (c :: u :: r)) with
    (if (is_lower c || is_digit c) && is_upper u then c :: "_"%char :: u :: sub3 r else c :: sub3 (u :: r)).
  cbn [sub3']. rewrite (andb_comm (is_upper u)).
  destruct ((is_lower c || is_digit c) && is_upper u) eqn:E.
  - apply andb_true_iff in E as [_ E]. cbn [app]. change ($"_") with ["_"%char]. cbn [app]. do 3 f_equal.
    destruct r as [|v r]; [reflexivity|]. rewrite IH by (cbn in Hn; lia). cbn [sub3'].
    rewrite (upper_not_ld _ E), andb_false_r. reflexivity.
  - cbn [app]. f_equal. apply IH. lia.
Qed.
Lemma sub3_eq s : sub3 s = sub3' None s.
Proof.
  destruct s as [|c s]; auto. rewrite (sub3_eq_len (length s)) by auto. cbn [sub3']. rewrite andb_false_r. auto.
Qed.

Definition T (prev : option ascii) (s : str) : str := lower (sub3' prev (sub2' s)).

Lemma T_cons prev c s : ceqb c "_" && head_is (fun d => ceqb d "_") s && head_is is_upper (tl s) = false ->
  T prev (c :: s) =
  (if is_upper c && match prev with Some p => is_lower p || is_digit p | None => false end then $"_" else [])
  ++ lower_c c :: T (Some c) s.
Proof.
  intros H. unfold T. cbn [sub2']. rewrite H. cbn [app sub3']. unfold lower. rewrite map_app. f_equal.
  destruct (is_upper c && _); reflexivity.
Qed.
Lemma T_drop prev s : head_is (fun d => ceqb d "_") s && head_is is_upper (tl s) = true ->
  T prev ("_"%char :: s) = T prev s.
Proof.
  intros H. unfold T. cbn [sub2']. change (ceqb "_" "_") with true. cbn [andb]. rewrite H. reflexivity.
Qed.

Lemma sub1_len_step st c s : st <> Copy -> (match st with Tail => is_lower c | _ => false end) = false ->
  sub1 st (c :: s) = if negb (ceqb c nl) && head_is is_upper s && head_is is_lower (tl s)
                     then c :: "_"%char :: sub1 Copy s else c :: sub1 Scan s.
Proof. intros H1 H2. cbn [sub1]. destruct st; try congruence; auto. rewrite H2. auto. Qed.

Definition inv (st : sub1_state) (prev : option ascii) (s : str) : Prop :=
  match st with
  | Scan => match prev with
            | None => True
            | Some p => p = nl \/ (head_is is_upper s && head_is is_lower (tl s)) = false
            end
  | Tail => (exists p, prev = Some p /\ is_lower p = true) \/ head_is is_lower s = true
  | Copy => False
  end.

Lemma lower_not_upper c : is_lower c = true -> is_upper c = false.
Proof. destruct c as [[] [] [] [] [] [] [] []]; cbn; auto; discriminate. Qed.
Lemma lower_not_us c : is_lower c = true -> ceqb c "_" = false.
Proof. destruct c as [[] [] [] [] [] [] [] []]; cbn; auto; discriminate. Qed.

Lemma acronym_hd r : acronym r = head_is is_upper r && negb (head_is is_lower (tl r)).
Proof. destruct r as [|u [|n r]]; cbn; auto. rewrite andb_true_r. auto. Qed.

(** the separator written before [c] is the one of the rule *)
Lemma sep_eq st prev c s : inv st prev (c :: s) ->
  (is_upper c && match prev with Some p => is_lower p || is_digit p | None => false end) =
  (is_upper c && starts_word prev s).
Proof.
  intros H. destruct (is_upper c) eqn:Ec; auto. cbn [andb]. destruct prev as [p|]; auto. cbn [starts_word].
  destruct (is_lower p || is_digit p) eqn:E; auto. cbn [orb]. symmetry.
  destruct st; cbn [inv] in H.
  - destruct H as [->|H]; [rewrite andb_false_r; auto|]. cbn [head_is tl] in H. rewrite Ec in H. cbn [andb] in H.
    destruct s; cbn [head_is] in H; rewrite ?H; rewrite ?andb_false_r; auto.
  - destruct H.
  - destruct H as [(q & Hq & Hl)|H].
    + inversion Hq; subst. rewrite Hl in E. discriminate.
    + cbn [head_is] in H. rewrite (lower_not_upper _ H) in Ec. discriminate.
Qed.

Lemma snake_scan n : forall s st prev, length s <= n -> inv st prev s -> T prev (sub1 st s) = snake_rule prev s.
Proof.
  induction n as [|n IH]; intros s st prev Hn Hi; [destruct s; [reflexivity|cbn in Hn; lia]|].
  destruct s as [|c s]; [reflexivity|]. cbn [length] in Hn. cbn [snake_rule].
  rewrite <- (sep_eq st prev c s Hi).
  assert (Hst : st <> Copy) by (intros ->; destruct Hi).
  destruct (match st with Tail => is_lower c | _ => false end) eqn:Et.
  - (* in a tail *)
    destruct st; try discriminate. cbn [sub1]. rewrite Et.
    rewrite T_cons by (rewrite (lower_not_us _ Et); auto).
    assert (El : lost c s = false) by (destruct s; cbn; auto; rewrite (lower_not_us _ Et); auto).
    rewrite El. cbn [app]. do 2 f_equal. apply IH; [lia|]. left. eauto.
  - rewrite sub1_len_step by auto.
    destruct (negb (ceqb c nl) && head_is is_upper s && head_is is_lower (tl s)) eqn:Em.
    + (* a match *)
      apply andb_true_iff in Em as [Em Hl]. apply andb_true_iff in Em as [Hnl Hu].
      destruct s as [|u s]; [discriminate|]. destruct s as [|l r]; [discriminate|]. cbn [head_is tl] in Hu, Hl.
      assert (Hlost : lost c (u :: l :: r) = false).
      { cbn. rewrite (upper_not_us _ Hu), andb_false_r. auto. }
      rewrite Hlost. cbn [snake_rule]. rewrite Hu. cbn [andb].
      assert (Hlost2 : lost u (l :: r) = false) by (cbn; rewrite (upper_not_us _ Hu); auto).
      rewrite Hlost2.
      change (sub1 Copy (u :: l :: r)) with (u :: sub1 Tail (l :: r)).
      assert (Erest : forall p, T p (u :: sub1 Tail (l :: r)) =
        (if match p with Some p => is_lower p || is_digit p | None => false end then $"_" else []) ++
        lower_c u :: snake_rule (Some u) (l :: r)).
      { intros p. rewrite T_cons by (rewrite (upper_not_us _ Hu); auto). rewrite Hu. cbn [andb].
        do 2 f_equal. apply IH; [cbn in *; lia|]. right. auto. }
      assert (Hh : head_is is_upper (u :: sub1 Tail (l :: r)) = true) by auto.
      destruct (ceqb_spec c "_") as [->|Hc].
      * (* an underscore is already there *)
        rewrite T_drop by (cbn [head_is tl]; rewrite Hu; reflexivity).
        rewrite T_cons by (cbn [head_is tl]; rewrite (upper_not_us _ Hu); auto).
        rewrite Erest. reflexivity.
      * rewrite T_cons by (destruct (ceqb_spec c "_"); [congruence|auto]).
        rewrite T_cons by (cbn [head_is tl]; rewrite (upper_not_us _ Hu); auto).
        rewrite Erest.
        assert (Esw : starts_word (Some c) (l :: r) = true).
        { cbn [starts_word]. rewrite Hl, Hnl. destruct (ceqb_spec c "_"); [congruence|]. cbn. apply orb_true_r. }
        rewrite Esw. reflexivity.
    + (* no match *)
      assert (Hi' : inv Scan (Some c) s).
      { cbn. destruct (ceqb_spec c nl); [left; auto|]. right. cbn [negb andb] in Em. auto. }
      assert (El : lost c s = ceqb c "_" && head_is (fun d => ceqb d "_") (sub1 Scan s) && head_is is_upper (tl (sub1 Scan s))).
      { rewrite sub1_hd. destruct s as [|d r]; [cbn; rewrite andb_false_r; auto|]. cbn [lost head_is].
        destruct (ceqb_spec c "_") as [->|]; auto. destruct (ceqb_spec d "_") as [->|]; auto. cbn [andb].
        rewrite sub1_len_step by (auto; discriminate). rewrite acronym_hd. change (ceqb "_" nl) with false. cbn [negb andb].
        destruct (head_is is_upper r) eqn:Eu, (head_is is_lower (tl r)) eqn:Ew; cbn [andb negb]; cbn [tl];
          try (rewrite sub1_hd; congruence). reflexivity. }
      rewrite El.
      destruct (ceqb c "_" && head_is (fun d => ceqb d "_") (sub1 Scan s) && head_is is_upper (tl (sub1 Scan s))) eqn:Ed.
      * (* dropped *)
        apply andb_true_iff in Ed as [Ed E3]. apply andb_true_iff in Ed as [E1 E2].
        destruct (ceqb_spec c "_") as [->|]; [|discriminate].
        rewrite T_drop by (rewrite E2, E3; auto). cbn [andb app].
        change (is_upper "_") with false. cbn [andb app].
        rewrite <- (IH s Scan (Some "_"%char)) by (auto; lia).
        destruct s as [|d r]; [discriminate|]. rewrite sub1_hd in E2. cbn [head_is] in E2.
        destruct (ceqb_spec d "_") as [->|]; [|discriminate].
        assert (Hr : exists x, sub1 Scan ("_"%char :: r) = "_"%char :: x).
        { rewrite sub1_len_step by (auto; discriminate).
          match goal with |- context [if ?b then _ else _] => destruct b end; eauto. }
        destruct Hr as [x Ex]. rewrite Ex in *. cbn [tl] in E3.
        assert (Hx : head_is (fun d => ceqb d "_") x = false).
        { destruct x; auto. cbn in *. apply upper_not_us; auto. }
        rewrite !T_cons by (rewrite Hx, andb_false_r; auto). reflexivity.
      * rewrite T_cons by auto. cbn [app]. do 2 f_equal. apply IH; auto. lia.
Qed.

Lemma snake_case_rule s : to_snake_case s = snake_rule None s.
Proof.
  unfold to_snake_case. rewrite sub2_eq, sub3_eq. apply (snake_scan (length s) s Scan None); auto. exact I.
Qed.

Lemma lower_c_not_upper c : is_upper (lower_c c) = false.
Proof. destruct c as [[] [] [] [] [] [] [] []]; reflexivity. Qed.
Lemma lower_c_id c : is_upper c = false -> lower_c c = c.
Proof. intros H. unfold lower_c. rewrite H. auto. Qed.
Lemma lower_c_us c : ceqb (lower_c c) "_" = ceqb c "_".
Proof. destruct c as [[] [] [] [] [] [] [] []]; reflexivity. Qed.

Lemma rule_no_upper s : forall prev, forallb (fun c => negb (is_upper c)) (snake_rule prev s) = true.
Proof.
  induction s as [|c s IH]; intros prev; auto. cbn [snake_rule]. rewrite !forallb_app, IH, andb_true_r.
  destruct (is_upper c && starts_word prev s), (lost c s); cbn [forallb]; rewrite ?lower_c_not_upper; reflexivity.
Qed.
Lemma rule_letters s : forall prev, letters (snake_rule prev s) = lower (letters s).
Proof.
  induction s as [|c s IH]; intros prev; auto. cbn [snake_rule]. unfold letters in *. rewrite !filter_app, IH.
  assert (E1 : filter (fun c => negb (ceqb c "_")) (if is_upper c && starts_word prev s then $"_" else []) = [])
    by (destruct (is_upper c && starts_word prev s); reflexivity).
  rewrite E1. cbn [app filter]. destruct (ceqb c "_") eqn:E; cbn [negb].
  - destruct (lost c s); cbn [filter]; rewrite ?lower_c_us, ?E; reflexivity.
  - assert (El : lost c s = false) by (destruct s; cbn; auto; rewrite E; auto).
    rewrite El. cbn [filter]. rewrite lower_c_us, E. reflexivity.
Qed.
Lemma rule_no_upper_id s : forall prev, forallb (fun c => negb (is_upper c)) s = true -> snake_rule prev s = s.
Proof.
  induction s as [|c s IH]; intros prev H; auto. cbn [forallb] in H. apply andb_true_iff in H as [H1 H2].
  apply negb_true_iff in H1. cbn [snake_rule]. rewrite H1, (lower_c_id _ H1), IH by auto.
  assert (El : lost c s = false).
  { destruct s as [|d s]; auto. cbn [lost]. rewrite acronym_hd. cbn [forallb] in H2. apply andb_true_iff in H2 as [_ H2].
    destruct s as [|u s]; [cbn; rewrite andb_false_r; auto|]. cbn [head_is forallb] in *.
    apply andb_true_iff in H2 as [H2 _]. apply negb_true_iff in H2. rewrite H2. cbn [andb]. rewrite andb_false_r. auto. }
  rewrite El. reflexivity.
Qed.
Lemma snake_idempotent s : to_snake_case (to_snake_case s) = to_snake_case s.
Proof. rewrite !snake_case_rule. apply rule_no_upper_id, rule_no_upper. Qed.
Lemma snake_no_upper s c : In c (to_snake_case s) -> is_upper c = false.
Proof.
  rewrite snake_case_rule. intros H. pose proof (rule_no_upper s None) as E. rewrite forallb_forall in E.
  apply negb_true_iff. auto.
Qed.
Lemma snake_letters s : letters (to_snake_case s) = lower (letters s).
Proof. rewrite snake_case_rule. apply rule_letters. Qed.

(** *** Reserved words *)

Lemma add_underscore_safe name : ~ In (add_underscore_if_python_reserved_word name) kwlist.
Proof.
  unfold add_underscore_if_python_reserved_word. destruct (smem name kwlist) eqn:E.
  - apply smem_In in E. intros H.
    assert (F : forallb (fun k => negb (smem (k ++ $"_") kwlist)) kwlist = true) by (vm_compute; reflexivity).
    rewrite forallb_forall in F. specialize (F _ E). apply negb_true_iff, smem_false in F. auto.
  - apply smem_false in E. auto.
Qed.
Lemma add_underscore_other name : ~ In name kwlist -> add_underscore_if_python_reserved_word name = name.
Proof. intros H. unfold add_underscore_if_python_reserved_word. apply smem_false in H. rewrite H. auto. Qed.

(** *** Unnamed parameters *)

Lemma name_unnamed_nth names : forall i k n, nth_error names k = Some n ->
  nth_error (name_unnamed i names) k = Some (match n with [] => generated_name (i + k) | _ => n end).
Proof.
  induction names as [|m names IH]; intros i [|k] n H; try discriminate; cbn [name_unnamed nth_error] in *.
  - inversion H; subst. rewrite Nat.add_0_r. destruct n; reflexivity.
  - rewrite (IH (S i) k n H). replace (S i + k) with (i + S k) by lia. auto.
Qed.
Lemma name_unnamed_len names : forall i, length (name_unnamed i names) = length names.
Proof. induction names as [|m names IH]; intros i; cbn; auto. Qed.

Lemma add_names_nth names k n : nth_error names k = Some n ->
  nth_error (add_names_to_unnamed_params names) k = Some (match n with [] => generated_name k | _ => n end).
Proof.
  intros H. unfold add_names_to_unnamed_params. destruct (existsb _ names) eqn:E.
  - apply (name_unnamed_nth names 0 k n H).
  - rewrite H. destruct n; auto. exfalso.
    assert (X : existsb (fun n => seqb n []) names = true); [|congruence].
    apply existsb_exists. exists []. split; [|reflexivity]. eapply nth_error_In; eauto.
Qed.
Lemma add_names_len names : length (add_names_to_unnamed_params names) = length names.
Proof. unfold add_names_to_unnamed_params. destruct (existsb _ names); auto. apply name_unnamed_len. Qed.

Lemma generated_inj i j : generated_name i = generated_name j -> i = j.
Proof. unfold generated_name. intros H. apply app_inv_head, py_str_inj, Nat2Z.inj in H. exact H. Qed.

Lemma add_names_distinct names :
  (forall i j n, nth_error names i = Some n -> nth_error names j = Some n -> n <> [] -> i = j) ->
  (forall k, nth_error names k = Some [] -> ~ In (generated_name k) names) ->
  NoDup (add_names_to_unnamed_params names).
Proof.
  intros Hd Hg. apply NoDup_nth_error. intros i j Hi E. rewrite add_names_len in Hi.
  destruct (nth_error names i) as [a|] eqn:Ea; [|apply nth_error_None in Ea; unfold str in *; lia].
  rewrite (add_names_nth _ _ _ Ea) in E.
  destruct (nth_error names j) as [b|] eqn:Eb.
  - rewrite (add_names_nth _ _ _ Eb) in E.
    assert (E' : match a with [] => generated_name i | _ => a end = match b with [] => generated_name j | _ => b end)
      by congruence.
    clear E. destruct a as [|x a], b as [|y b].
    + apply generated_inj; auto.
    + exfalso. apply (Hg i Ea). rewrite E'. eapply nth_error_In; eauto.
    + exfalso. apply (Hg j Eb). rewrite <- E'. eapply nth_error_In; eauto.
    + eapply Hd; [exact Ea| |discriminate]. rewrite E'. exact Eb.
  - exfalso. assert (Eb' : nth_error (add_names_to_unnamed_params names) j = None).
    { apply nth_error_None. apply nth_error_None in Eb. pose proof (add_names_len names). unfold str in *. lia. }
    rewrite Eb' in E. destruct a; discriminate.
Qed.

(** *** Enumerators *)

Lemma without_prefix_ok rp gp cl e v : v <> [] -> head_is is_digit v = false ->
  name_without_enum_prefix rp gp cl e v <> [] /\ head_is is_digit (name_without_enum_prefix rp gp cl e v) = false.
Proof.
  intros Hv Hd. unfold name_without_enum_prefix. destruct (negb rp || cl); [auto|].
  cbv zeta. match goal with |- context [match ?x with [] => v | _ => _ end] => generalize x end.
  intros r. assert (Hr : forall r', r' <> [] -> (if head_is is_digit r' then "_"%char :: r' else r') <> [] /\
    head_is is_digit (if head_is is_digit r' then "_"%char :: r' else r') = false).
  { intros r' H. destruct (head_is is_digit r') eqn:E; split; auto; discriminate. }
  apply Hr. destruct r; [auto|discriminate].
Qed.
Lemma without_prefix_kept gp cl e v rp : negb rp || cl = true -> name_without_enum_prefix rp gp cl e v = v.
Proof. intros H. unfold name_without_enum_prefix. rewrite H. auto. Qed.

Lemma upper_len s : length (upper s) = length s.
Proof. apply map_length. Qed.
Lemma upper_app a b : upper (a ++ b) = upper a ++ upper b.
Proof. apply map_app. Qed.
Lemma remove_exact prefix rest p : upper p = upper prefix ->
  remove_case_insensitive_prefix (p ++ $"_" ++ rest) prefix = rest.
Proof.
  intros E. unfold remove_case_insensitive_prefix. rewrite upper_app, E.
  change (upper ($"_" ++ rest)) with ($"_" ++ upper rest). rewrite app_assoc, startswith_app.
  assert (L : length p = length prefix) by (rewrite <- (upper_len p), E; apply upper_len).
  rewrite <- L. rewrite app_assoc. rewrite skipn_app. rewrite app_length. cbn [length lit list_ascii_of_string].
  rewrite Nat.sub_diag. rewrite skipn_all2; [reflexivity|]. rewrite app_length. cbn. lia.
Qed.

Lemma without_prefix_named e p rest : upper p = upper e -> identifier_start rest = true ->
  name_without_enum_prefix true false false e (p ++ $"_" ++ rest) = rest.
Proof.
  intros E H. unfold name_without_enum_prefix. cbn [negb orb]. cbv zeta. rewrite remove_exact by auto.
  destruct rest as [|c rest]; [discriminate|]. cbn [head_is]. cbn in H.
  destruct (is_digit c) eqn:Ed; auto. exfalso.
  destruct c as [[] [] [] [] [] [] [] []]; cbn in *; discriminate.
Qed.

Lemma identifier_digit s : identifier s -> s <> [] /\ head_is is_digit s = false.
Proof.
  intros [H _]. destruct s as [|c s]; [discriminate|]. split; [discriminate|]. cbn in H |- *.
  destruct c as [[] [] [] [] [] [] [] []]; cbn in *; auto; discriminate.
Qed.
Lemma word_start s : forallb is_word s = true -> s <> [] -> head_is is_digit s = false -> identifier s.
Proof.
  intros H Hn Hd. split; auto. destruct s as [|c s]; [congruence|]. cbn [forallb] in H. apply andb_true_iff in H as [H _].
  cbn in Hd |- *. destruct c as [[] [] [] [] [] [] [] []]; cbn in *; auto; discriminate.
Qed.
Lemma word_skipn n s : forallb is_word s = true -> forallb is_word (skipn n s) = true.
Proof.
  intros H. rewrite <- (firstn_skipn n s), forallb_app in H. apply andb_true_iff in H. tauto.
Qed.
Lemma remove_word name p : forallb is_word name = true -> forallb is_word (remove_case_insensitive_prefix name p) = true.
Proof.
  intros H. unfold remove_case_insensitive_prefix.
  destruct (startswith (upper p ++ $"_") (upper name)); [apply word_skipn; auto|].
  destruct (startswith (upper p) (upper name)); [apply word_skipn; auto|auto].
Qed.
Lemma without_prefix_identifier rp gp cl e v : identifier v -> identifier (name_without_enum_prefix rp gp cl e v).
Proof.
  intros Hv. pose proof (identifier_digit v Hv) as [Hn Hd].
  destruct (without_prefix_ok rp gp cl e v Hn Hd) as [H1 H2]. apply word_start; auto.
  destruct Hv as [_ Hw]. clear H1 H2 Hn Hd.
  unfold name_without_enum_prefix. destruct (negb rp || cl); auto. cbv zeta.
  match goal with |- context [match ?x with [] => v | _ => _ end] => set (r := x) end.
  assert (Hr : forallb is_word r = true).
  { subst r. pose proof (remove_word v e Hw). destruct gp; auto.
    destruct (endswith $"Private_" e); [apply remove_word; auto|].
    destruct (endswith $"Private" e); [apply remove_word; auto|auto]. }
  assert (P : forall x, forallb is_word x = true -> forallb is_word (if head_is is_digit x then "_"%char :: x else x) = true).
  { intros x Hx. destruct (head_is is_digit x); auto. }
  apply P. destruct r; auto.
Qed.

Lemma lower_c_word c : is_word c = true -> is_word (lower_c c) = true.
Proof. destruct c as [[] [] [] [] [] [] [] []]; cbn; auto; discriminate. Qed.
Lemma rule_word s : forall prev, forallb is_word s = true -> forallb is_word (snake_rule prev s) = true.
Proof.
  induction s as [|c s IH]; intros prev H; auto. cbn [forallb] in H. apply andb_true_iff in H as [H1 H2].
  cbn [snake_rule]. rewrite !forallb_app, IH by auto. rewrite andb_true_r.
  destruct (is_upper c && starts_word prev s), (lost c s); cbn [forallb]; rewrite ?(lower_c_word c H1); reflexivity.
Qed.
Lemma rule_start s : identifier_start s = true -> identifier_start (snake_rule None s) = true.
Proof.
  destruct s as [|c s]; [discriminate|]. intros H. cbn [snake_rule]. cbn [starts_word]. rewrite andb_false_r. cbn [app].
  destruct (lost c s) eqn:E.
  - destruct s as [|d r]; [discriminate|]. cbn [lost] in E. apply andb_true_iff in E as [E Ea].
    apply andb_true_iff in E as [E1 E2]. cbn [snake_rule].
    destruct (ceqb_spec d "_") as [->|]; [|discriminate]. change (is_upper "_") with false. cbn [andb app].
    assert (El : lost "_" r = false).
    { destruct r as [|u r]; auto. cbn [lost]. rewrite acronym_hd in Ea. cbn [head_is] in Ea.
      apply andb_true_iff in Ea as [Ea _]. rewrite (upper_not_us _ Ea), andb_false_r. auto. }
    rewrite El. reflexivity.
  - cbn [app]. cbn [identifier_start] in *. destruct c as [[] [] [] [] [] [] [] []]; cbn in *; auto; discriminate.
Qed.
Lemma snake_identifier s : identifier s -> identifier (to_snake_case s).
Proof. intros [H1 H2]. rewrite snake_case_rule. split; [apply rule_start; auto|apply rule_word; auto]. Qed.
Lemma underscore_identifier s : identifier s -> identifier (add_underscore_if_python_reserved_word s).
Proof.
  intros [H1 H2]. unfold add_underscore_if_python_reserved_word. destruct (smem s kwlist); [|split; auto].
  split; [destruct s; [discriminate|exact H1]|]. rewrite forallb_app, H2. reflexivity.
Qed.

Lemma enumerator_identifier snake rp gp cl e v : identifier v ->
  identifier (enumerator_name_python (fun x => x) snake rp gp cl e v) /\
  ~ In (enumerator_name_python (fun x => x) snake rp gp cl e v) kwlist.
Proof.
  intros Hv. unfold enumerator_name_python, var_name_to_python. split; [|apply add_underscore_safe].
  apply underscore_identifier. pose proof (without_prefix_identifier rp gp cl e v Hv). destruct snake; auto using snake_identifier.
Qed.

Lemma NoDup_map_ext {A B} (f g : A -> B) l : (forall x, In x l -> f x = g x) -> NoDup (map g l) -> NoDup (map f l).
Proof. intros H. rewrite (map_ext_in f g); auto. Qed.

Lemma enumerators_distinct snake gp cl e p rests :
  upper p = upper e -> Forall (fun r => identifier_start r = true) rests ->
  NoDup (map (converted snake) rests) -> (forall r, In r rests -> ~ In (converted snake r) kwlist) ->
  NoDup (map (enumerator_name_python (fun x => x) snake true false false e) (map (fun r => p ++ $"_" ++ r) rests)) /\
  NoDup (map (enumerator_name_python (fun x => x) snake true gp true e) rests) /\
  NoDup (map (enumerator_name_python (fun x => x) snake false gp cl e) rests).
Proof.
  intros Ep Hr Hd Hk. rewrite Forall_forall in Hr. rewrite map_map. split; [|split].
  all: eapply NoDup_map_ext; [|exact Hd]; intros r Hin; unfold enumerator_name_python, var_name_to_python.
  - rewrite without_prefix_named by auto. apply add_underscore_other. apply Hk; auto.
  - rewrite without_prefix_kept by apply orb_true_r. apply add_underscore_other. apply Hk; auto.
  - rewrite without_prefix_kept by auto. apply add_underscore_other. apply Hk; auto.
Qed.
