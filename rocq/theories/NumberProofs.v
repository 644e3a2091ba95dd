(** Proofs for integer constants. *)
From Verif Require Import PyStr PyStrLemmas PyNum PyDict NumberModel NumberSpec.

Ltac char c := destruct c as [[] [] [] [] [] [] [] []]; cbn in *; try congruence; auto.

(** *** Enumerators *)
Section Enum.
Variable ev : str -> Z.
Variable named : macros.

Lemma fill_shown children : forall last prev,
  (forall n v z, In (EDecl n v) children -> v <> [] -> dict_get v named = Some z -> ev v = z) ->
  (forall n v z, In (EDecl n v) children -> v <> [] -> py_int Base10 v = Some z -> ev v = z) ->
  match last, prev with None, None => True | Some l, Some z => forall x, py_int Base10 l = Some x -> x = z | _, _ => False end ->
  all_shown ev named children (cpp_enum_values ev prev children) (fill_values named last children).
Proof.
  induction children as [|[n v|t] children IH]; intros last prev H1 H2 HL; cbn [fill_values cpp_enum_values].
  - constructor.
  - destruct v as [|c v].
    + destruct last as [l|], prev as [p|]; try contradiction.
      * destruct (py_int Base10 l) as [x|] eqn:E.
        -- assert (x = p) by auto. subst x.
           constructor; [apply shown_implicit|]. apply IH; [intros; eapply H1; eauto; right; eauto|intros; eapply H2; eauto; right; eauto|].
           intros y. rewrite py_int_str. congruence.
        -- constructor; [apply shown_unknown|]. apply IH; [intros; eapply H1; eauto; right; eauto|intros; eapply H2; eauto; right; eauto|].
           discriminate.
      * constructor; [apply shown_implicit with (z := 0%Z)|].
        apply IH; [intros; eapply H1; eauto; right; eauto|intros; eapply H2; eauto; right; eauto|].
        intros x Hx. vm_compute in Hx. congruence.
    + set (w := c :: v) in *. assert (Hw : w <> []) by discriminate.
      assert (E0 : (match w with [] => match prev with Some p => (p + 1)%Z | None => 0%Z end | _ => ev w end) = ev w) by auto.
      destruct (dict_get w named) as [z|] eqn:E.
      * assert (ev w = z) by (eapply H1; eauto; left; eauto).
        assert (G : all_shown ev named (EDecl n w :: children) (Some (ev w) :: cpp_enum_values ev (Some (ev w)) children)
                      (EDecl n (py_str z) :: fill_values named (Some (py_str z)) children)).
        { constructor; [rewrite H; constructor; auto|].
          apply IH; [intros; eapply H1; eauto; right; eauto|intros; eapply H2; eauto; right; eauto|].
          intros x. rewrite py_int_str. congruence. }
        exact G.
      * assert (G : all_shown ev named (EDecl n w :: children) (Some (ev w) :: cpp_enum_values ev (Some (ev w)) children)
                      (EDecl n w :: fill_values named (Some w) children)).
        { constructor; [constructor; auto|].
          apply IH; [intros; eapply H1; eauto; right; eauto|intros; eapply H2; eauto; right; eauto|].
          intros x Hx. symmetry. eapply H2; eauto. left; eauto. }
        exact G.
  - constructor; [constructor|]. apply IH; auto; [intros; eapply H1; eauto; right; eauto|intros; eapply H2; eauto; right; eauto].
Qed.

Lemma fill_known children : forall last,
  (forall n v, In (EDecl n v) children -> v <> [] -> dict_get v named <> None \/ py_int Base10 v <> None) ->
  match last with None => True | Some l => py_int Base10 l <> None end ->
  forall n v, In (EDecl n v) (fill_values named last children) -> v <> [].
Proof.
  assert (N0 : forall z, py_str z <> []).
  { intros z C. pose proof (py_int_str z) as E. rewrite C in E. discriminate. }
  induction children as [|[m w|t] children IH]; intros last H HL n v Hi; cbn [fill_values] in Hi.
  - destruct Hi.
  - assert (HH : forall n v, In (EDecl n v) children -> v <> [] -> dict_get v named <> None \/ py_int Base10 v <> None)
      by (intros; eapply H; eauto; right; eauto).
    set (w' := match w with
               | [] => match last with None => $"0" | Some l => match py_int Base10 l with Some z => py_str (z + 1) | None => w end end
               | _ => match dict_get w named with Some z => py_str z | None => w end end) in *.
    assert (HR : w' <> [] /\ py_int Base10 w' <> None).
    { subst w'. destruct w as [|c w].
      - destruct last as [l|]; [|split; discriminate].
        destruct (py_int Base10 l); [|congruence]. split; [apply N0|rewrite py_int_str; discriminate].
      - destruct (dict_get (c :: w) named) eqn:E; [split; [apply N0|rewrite py_int_str; discriminate]|].
        split; [discriminate|]. destruct (H m (c :: w)); [left; auto|discriminate|congruence|auto]. }
    destruct HR as [HR1 HR2]. destruct Hi as [Hi|Hi].
    + inversion Hi; subst n v. exact HR1.
    + exact (IH (Some w') HH HR2 n v Hi).
  - destruct Hi as [Hi|Hi]; [discriminate|]. eapply IH; eauto. intros; eapply H; eauto; right; eauto.
Qed.
End Enum.

(** *** Reading integers *)

Lemma underscore_app_l (a b : str) : ~ In "_"%char (a ++ b) -> ~ In "_"%char a.
Proof. intros H X. apply H. apply in_or_app. auto. Qed.
Lemma underscore_app_r (a b : str) : ~ In "_"%char (a ++ b) -> ~ In "_"%char b.
Proof. intros H X. apply H. apply in_or_app. auto. Qed.

Lemma digit_in_10 c : digit_in 10 c = is_digit c.
Proof. char c. Qed.
Lemma digit_in_8 c : digit_in 8 c = is_octal c.
Proof. char c. Qed.
Lemma digit_in_2 c : digit_in 2 c = bin_digit c.
Proof. char c. Qed.
Lemma digit_in_16 c : digit_in 16 c = hex_digit c.
Proof. char c. Qed.
Lemma forallb_ext' {A} (f g : A -> bool) l : (forall x, f x = g x) -> forallb f l = forallb g l.
Proof. intros H. induction l as [|x l IH]; cbn; auto. rewrite H, IH. auto. Qed.

Definition good (base : Z) (f : ascii -> bool) := forall c, digit_in base c = f c.
Lemma read_ok base f s : good base f -> s <> [] -> forallb f s = true -> read_digits base 0 true s = Some (pos_value base s).
Proof.
  intros G Hs H. rewrite read_digits_plain; [f_equal; lia| |auto]. rewrite (forallb_ext' _ f) by apply G. auto.
Qed.
Lemma read_inv base f s z : good base f -> ~ In "_"%char s -> read_digits base 0 true s = Some z ->
  s <> [] /\ forallb f s = true /\ z = pos_value base s.
Proof.
  intros G Hu H. destruct (read_digits_inv _ _ _ _ _ Hu H) as [H1 H2].
  assert (Hs : s <> []) by (destruct H2; congruence). rewrite (forallb_ext' _ f) in H1 by apply G. split; auto. split; auto.
  rewrite (read_ok base f) in H by auto. congruence.
Qed.
Lemma after_prefix_ok base f s : good base f -> s <> [] -> forallb f s = true -> read_after_prefix base s = Some (pos_value base s).
Proof.
  intros G Hs H. destruct s as [|c s]; [congruence|]. cbn [read_after_prefix].
  assert (ceqb c "_" = false).
  { cbn [forallb] in H. apply andb_true_iff in H as [H _]. rewrite <- G in H.
    destruct (ceqb_spec c "_"); auto. subst. discriminate. }
  rewrite H0. apply (read_ok base f); auto.
Qed.
Lemma after_prefix_inv base f s z : good base f -> ~ In "_"%char s -> read_after_prefix base s = Some z ->
  s <> [] /\ forallb f s = true /\ z = pos_value base s.
Proof.
  intros G Hu H. destruct s as [|c s]; [discriminate|]. cbn [read_after_prefix] in H.
  destruct (ceqb_spec c "_") as [->|]; [destruct Hu; left; auto|]. apply (read_inv base f) in H; auto.
Qed.

(** No spaces and no sign at the start of an integer. *)
Lemma py_int_unsigned b c s : (forall x, In x (c :: s) -> is_space x = false) -> is_digit c = true ->
  py_int b (c :: s) = read_unsigned b (c :: s).
Proof.
  intros H Hc. unfold py_int. rewrite strip_no_space by auto.
  assert (N : ceqb c "-" = false /\ ceqb c "+" = false) by (clear -Hc; char c).
  destruct N as [-> ->]. auto.
Qed.

Lemma hex_no_space c : hex_digit c = true -> is_space c = false.
Proof. char c. Qed.
Lemma word_no_space c : is_word c = true -> is_space c = false.
Proof. char c. Qed.
Lemma no_space_all (f : ascii -> bool) s : (forall c, f c = true -> is_space c = false) -> forallb f s = true ->
  forall c, In c s -> is_space c = false.
Proof. intros H Hs c Hc. rewrite forallb_forall in Hs. auto. Qed.
Lemma c_int_word t z : c_int t z -> forallb is_word t = true /\ exists c s, t = c :: s /\ is_digit c = true.
Proof.
  assert (W : forall (f : ascii -> bool) s, (forall c, f c = true -> is_word c = true) -> forallb f s = true -> forallb is_word s = true).
  { intros f s H. rewrite !forallb_forall. auto. }
  destruct 1 as [d s Hd _ Hs|s Hs|x s Hx _ Hs|x s Hx _ Hs]; (split; [|eexists; eexists; split; [reflexivity|auto]]); cbn [forallb].
  - assert (is_word d = true) by char d. rewrite H. apply (W is_digit); auto. intros c; char c.
  - apply (W is_octal); auto. intros c; char c.
  - assert (is_word x = true) by (destruct Hx as [<-|[<-|[]]]; auto). rewrite H. apply (W hex_digit); auto. intros c; char c.
  - assert (is_word x = true) by (destruct Hx as [<-|[<-|[]]]; auto). rewrite H. apply (W bin_digit); auto. intros c; char c.
Qed.

Lemma pos_value_zero base s : pos_value base ("0"%char :: s) = pos_value base s.
Proof. cbn [pos_value]. change (digit_val "0") with (Some 0%Z). lia. Qed.

(** *** [_parse_c_int_literal] on C++ constants *)

Lemma drop_suffix b s : In s c_suffixes -> (forall c, In c b -> is_suffix_char c = false) -> 
  rev (dropwhile is_suffix_char (rev (b ++ s))) = b.
Proof.
  intros Hs Hb. assert (Ha : Forall (fun c => is_suffix_char c = true) (rev s)).
  { apply rev_Forall. unfold c_suffixes in Hs. cbn [map] in Hs.
    repeat (destruct Hs as [<-|Hs]; [repeat constructor|]). destruct Hs. }
  rewrite rev_app_distr, dropwhile_app_all by exact Ha.
  rewrite <- (rev_involutive b) at 2. f_equal. destruct (rev b) as [|c r] eqn:E; auto.
  cbn [dropwhile]. rewrite Hb; auto. apply in_rev. rewrite E. left; auto.
Qed.
Lemma c_int_no_suffix t z c : c_int t z -> In c t -> is_suffix_char c = false.
Proof.
  assert (W : forall (f : ascii -> bool) s, (forall c, f c = true -> is_suffix_char c = false) -> forallb f s = true ->
              In c s -> is_suffix_char c = false).
  { intros f s H. rewrite forallb_forall. auto. }
  destruct 1 as [d s Hd _ Hs|s Hs|x s Hx _ Hs|x s Hx _ Hs]; intros Hc.
  - apply (W is_digit (d :: s)); [intros a; char a| |auto]. cbn [forallb]. rewrite Hd, Hs. auto.
  - apply (W is_octal ("0"%char :: s)); [intros a; char a| |auto]. cbn [forallb]. rewrite Hs. auto.
  - destruct Hc as [<-|[<-|Hc]]; [auto|destruct Hx as [<-|[<-|[]]]; auto|]. apply (W hex_digit s); auto. intros a; char a.
  - destruct Hc as [<-|[<-|Hc]]; [auto|destruct Hx as [<-|[<-|[]]]; auto|]. apply (W bin_digit s); auto. intros a; char a.
Qed.

Definition g10 : good 10 is_digit := digit_in_10.
Definition g8 : good 8 is_octal := digit_in_8.
Definition g2 : good 2 bin_digit := digit_in_2.
Definition g16 : good 16 hex_digit := digit_in_16.

Lemma c_int_value t z : c_int t z ->
  (if octal_text t then py_int Base8 t else py_int Base0 t) = Some z.
Proof.
  intros H. pose proof (c_int_word t z H) as (Hw & c & s & -> & Hc).
  assert (Hsp : forall x, In x (c :: s) -> is_space x = false) by (apply (no_space_all is_word); auto using word_no_space).
  rewrite !py_int_unsigned by auto. clear Hw Hsp.
  inversion H as [d s' Hd H0 Hs|s' Hs|x s' Hx Hn Hs|x s' Hx Hn Hs]; subst; clear H.
  - assert (octal_text (c :: s) = false).
    { unfold octal_text. destruct s; auto. destruct (ceqb_spec c "0"); [congruence|auto]. }
    rewrite H. cbn [read_unsigned]. assert (E : forall a b, has_prefix a b (c :: s) = None).
    { intros a b. unfold has_prefix. destruct s; auto. destruct (ceqb_spec c "0"); [congruence|auto]. }
    rewrite !E. destruct (ceqb_spec c "0"); [congruence|]. apply (read_ok 10 is_digit); [exact g10|discriminate|].
    cbn [forallb]. rewrite Hd. auto.
  - destruct s as [|c s]; [reflexivity|]. assert (E : octal_text ("0"%char :: c :: s) = true) by exact Hs. rewrite E.
    cbn [read_unsigned]. assert (E' : has_prefix "o" "O" ("0"%char :: c :: s) = None).
    { cbn [forallb] in Hs. apply andb_true_iff in Hs as [Hs _]. unfold has_prefix. clear -Hs. destruct c as [[] [] [] [] [] [] [] []]; cbn in *; try discriminate; reflexivity. }
    rewrite E', (read_ok 8 is_octal); [f_equal; apply pos_value_zero|exact g8|discriminate|exact Hs].
  - assert (E : octal_text ("0"%char :: x :: s') = false) by (destruct Hx as [<-|[<-|[]]]; reflexivity). rewrite E.
    cbn [read_unsigned]. assert (E' : has_prefix "x" "X" ("0"%char :: x :: s') = Some s') by (destruct Hx as [<-|[<-|[]]]; reflexivity).
    rewrite E'. apply (after_prefix_ok 16 hex_digit); auto. exact g16.
  - assert (E : octal_text ("0"%char :: x :: s') = false) by (destruct Hx as [<-|[<-|[]]]; reflexivity). rewrite E.
    cbn [read_unsigned].
    assert (E1 : has_prefix "x" "X" ("0"%char :: x :: s') = None) by (destruct Hx as [<-|[<-|[]]]; reflexivity).
    assert (E2 : has_prefix "o" "O" ("0"%char :: x :: s') = None) by (destruct Hx as [<-|[<-|[]]]; reflexivity).
    assert (E3 : has_prefix "b" "B" ("0"%char :: x :: s') = Some s') by (destruct Hx as [<-|[<-|[]]]; reflexivity).
    rewrite E1, E2, E3. apply (after_prefix_ok 2 bin_digit); auto. exact g2.
Qed.

Lemma suffix_no_space s : In s c_suffixes -> forall c, In c s -> is_space c = false.
Proof.
  intros Hs c Hc. unfold c_suffixes in Hs. cbn [map] in Hs.
  repeat (destruct Hs as [<-|Hs]; [cbn in Hc; repeat (destruct Hc as [<-|Hc]; [reflexivity|]); destruct Hc|]). destruct Hs.
Qed.
Lemma c_constant_no_space t z c : c_constant t z -> In c t -> is_space c = false.
Proof.
  intros (b & s & -> & Hb & Hs) Hc. apply in_app_or in Hc as [Hc|Hc]; [|eapply suffix_no_space; eauto].
  destruct (c_int_word _ _ Hb) as [Hw _]. rewrite forallb_forall in Hw. auto using word_no_space.
Qed.
Lemma parse_constant t z : c_constant t z -> parse_c_int_literal t = Some z.
Proof.
  intros H. unfold parse_c_int_literal. rewrite strip_no_space by (intros c; apply (c_constant_no_space t z c H)).
  destruct H as (b & s & -> & Hb & Hs). rewrite drop_suffix by (auto; intros c; apply (c_int_no_suffix b z c Hb)).
  destruct (c_int_word _ _ Hb) as (_ & c & r & -> & _). apply c_int_value; auto.
Qed.

(** *** What is accepted *)

Lemma read_unsigned_inv s z : ~ In "_"%char s -> read_unsigned Base0 s = Some z -> lenient_body s z.
Proof.
  intros Hu H. cbn [read_unsigned] in H.
  assert (P : forall a b r, has_prefix a b s = Some r -> exists x, In x [a; b] /\ s = "0"%char :: x :: r).
  { intros a b r Hp. unfold has_prefix in Hp. destruct s as [|z0 [|x s']]; try discriminate.
    destruct (ceqb_spec z0 "0") as [->|]; [|discriminate]. cbn [andb] in Hp.
    destruct (ceqb_spec x a) as [->|]; [inversion Hp; subst; exists a; split; [left; auto|auto]|].
    destruct (ceqb_spec x b) as [->|]; [inversion Hp; subst; exists b; split; [right; left; auto|auto]|discriminate]. }
  destruct (has_prefix "x" "X" s) as [r|] eqn:Ex.
  { destruct (P _ _ _ Ex) as (x & Hx & ->).
    apply (after_prefix_inv 16 hex_digit) in H as (H1 & H2 & ->); [|exact g16|intros C; apply Hu; right; right; auto].
    apply len_c, c_hex; auto. }
  destruct (has_prefix "o" "O" s) as [r|] eqn:Eo.
  { destruct (P _ _ _ Eo) as (x & Hx & ->).
    apply (after_prefix_inv 8 is_octal) in H as (H1 & H2 & ->); [|exact g8|intros C; apply Hu; right; right; auto].
    apply len_o; auto. }
  destruct (has_prefix "b" "B" s) as [r|] eqn:Eb.
  { destruct (P _ _ _ Eb) as (x & Hx & ->).
    apply (after_prefix_inv 2 bin_digit) in H as (H1 & H2 & ->); [|exact g2|intros C; apply Hu; right; right; auto].
    apply len_c, c_bin; auto. }
  destruct s as [|c s]; [discriminate|]. destruct (ceqb_spec c "0") as [->|N].
  - destruct (read_digits 10 0 true ("0"%char :: s)) as [[| |]|] eqn:E; try discriminate. inversion H; subst z.
    apply (read_inv 10 is_digit) in E as (_ & E2 & E3); [|exact g10|auto].
    rewrite pos_value_zero in E3. cbn [forallb] in E2.
    assert (A : forallb is_octal s = true /\ pos_value 8 s = 0%Z).
    { clear -E2 E3. change (is_digit "0") with true in E2. cbn [andb] in E2.
      assert (NN : forall s, forallb is_digit s = true -> (0 <= pos_value 10 s)%Z).
      { induction s0 as [|c s0 IH]; intros Hs; [cbn; lia|]. cbn [forallb] in Hs. apply andb_true_iff in Hs as [Hc Hs].
        cbn [pos_value]. specialize (IH Hs). assert (0 <= match digit_val c with Some d => d | None => 0 end)%Z.
        { unfold digit_val. rewrite Hc. lia. }
        assert (0 <= 10 ^ Z.of_nat (length s0))%Z by (apply Z.pow_nonneg; lia). nia. }
      induction s as [|c s IH]; [split; auto|]. cbn [forallb] in E2. apply andb_true_iff in E2 as [Hc Hs].
      cbn [pos_value] in E3. assert (Hd : digit_val c = Some (Z.of_nat (code c - 48))) by (unfold digit_val; rewrite Hc; auto).
      rewrite Hd in E3. pose proof (NN s Hs).
      assert (0 < 10 ^ Z.of_nat (length s))%Z by (apply Z.pow_pos_nonneg; lia).
      assert (Z.of_nat (code c - 48) = 0)%Z by nia.
      assert (Ec : c = "0"%char).
      { assert (K : code c = 48). { unfold is_digit, between in Hc. apply andb_true_iff in Hc as [A B]. apply Nat.leb_le in A, B. lia. }
        unfold code in K. rewrite <- (ascii_nat_embedding c), K. reflexivity. }
      assert (Hp : (0 = pos_value 10 s)%Z) by nia. subst c. destruct IH as [A B]; [exact Hs|exact Hp|]. cbn [forallb]. rewrite A. split; auto. }
    destruct A as [A B]. rewrite <- B. apply len_c, c_oct. exact A.
  - apply (read_inv 10 is_digit) in H as (_ & H2 & ->); [|exact g10|auto].
    cbn [forallb] in H2. apply andb_true_iff in H2 as [H2 H3]. apply len_c, c_dec; auto.
Qed.

Lemma strip_split s : exists a b, s = a ++ strip s ++ b /\ forallb is_space a = true /\ forallb is_space b = true.
Proof.
  assert (A : forall s, exists a, s = a ++ lstrip s /\ forallb is_space a = true).
  { intros t. exists (takewhile is_space t). split; [symmetry; apply takewhile_dropwhile|].
    pose proof (takewhile_Forall is_space t) as H. rewrite Forall_forall in H. apply forallb_forall. auto. }
  assert (B : forall s, exists b, s = rstrip s ++ b /\ forallb is_space b = true).
  { intros t. destruct (A (rev t)) as (b & E & Hb). exists (rev b). split.
    - apply (f_equal (@rev _)) in E. rewrite rev_involutive, rev_app_distr in E. exact E.
    - rewrite forallb_forall in *. intros x Hx. apply Hb. apply in_rev. auto. }
  destruct (A s) as (a & E & Ha). destruct (B (lstrip s)) as (b & E' & Hb).
  exists a, b. split; [|auto]. rewrite E at 1. rewrite E' at 1. auto.
Qed.

Notation wu := without_underscores.
Lemma wu_app a b : wu (a ++ b) = wu a ++ wu b.
Proof. unfold without_underscores. apply filter_app. Qed.
Lemma wu_id (f : ascii -> bool) s : f "_"%char = false -> forallb f s = true -> wu s = s.
Proof.
  intros Hf. induction s as [|c s IH]; auto. cbn [forallb]. intros H. apply andb_true_iff in H as [H1 H2].
  unfold without_underscores. cbn [filter]. destruct (ceqb_spec c "_") as [->|]; [congruence|]. cbn [negb]. f_equal. apply IH; auto.
Qed.
Lemma wu_no s : ~ In "_"%char (wu s).
Proof. intros H. unfold without_underscores in H. apply filter_In in H as [_ H]. discriminate. Qed.

Lemma read_wu base s : forall acc gap z, read_digits base acc gap s = Some z ->
  read_digits base acc gap (wu s) = Some z /\ (gap = true -> exists c r, wu s = c :: r /\ digit_in base c = true).
Proof.
  induction s as [|c s IH]; intros acc gap z H.
  - split; [exact H|]. intros ->. discriminate.
  - unfold without_underscores. cbn [read_digits filter] in *. fold (wu s). destruct (ceqb c "_") eqn:E; cbn [negb].
    + destruct gap; [discriminate|]. destruct (IH _ _ _ H) as [H1 H2]. split; [|discriminate].
      destruct (H2 eq_refl) as (x & r & Er & Hx). rewrite Er in *.
      assert (ceqb x "_" = false). { destruct (ceqb_spec x "_"); auto. subst. discriminate. }
      cbn [read_digits] in *. rewrite H0 in *. auto.
    + cbn [read_digits]. rewrite E. destruct (digit_val c) as [d|] eqn:Ed; [|discriminate].
      destruct (d <? base)%Z eqn:El; [|discriminate]. destruct (IH _ _ _ H) as [H1 _]. split; auto.
      intros _. exists c, (wu s). split; auto. unfold digit_in. rewrite Ed. auto.
Qed.
Lemma after_prefix_wu base s z : read_after_prefix base s = Some z -> read_after_prefix base (wu s) = Some z.
Proof.
  destruct s as [|c s]; [discriminate|]. cbn [read_after_prefix]. unfold without_underscores. cbn [filter]. fold (wu s).
  assert (A : forall t, read_digits base 0 true t = Some z -> read_after_prefix base (wu t) = Some z).
  { intros t H. apply read_wu in H as [H1 H2]. destruct (H2 eq_refl) as (x & r & Er & Hx). rewrite Er in *.
    cbn [read_after_prefix]. destruct (ceqb_spec x "_"); [subst; discriminate|auto]. }
  destruct (ceqb c "_") eqn:E; cbn [negb]; intros H; [apply A; auto|].
  apply A in H. unfold without_underscores in H. cbn [filter] in H. rewrite E in H. exact H.
Qed.
Lemma read_unsigned_wu s z : read_unsigned Base0 s = Some z -> read_unsigned Base0 (wu s) = Some z.
Proof.
  intros H. cbn [read_unsigned] in H |- *.
  assert (P : forall a b r, a <> "_"%char -> b <> "_"%char -> has_prefix a b s = Some r -> has_prefix a b (wu s) = Some (wu r)).
  { intros a b r Na Nb Hp. unfold has_prefix in Hp. destruct s as [|z0 [|x s']]; try discriminate.
    destruct (ceqb_spec z0 "0") as [->|]; [|discriminate]. cbn [andb] in Hp.
    destruct (ceqb x a || ceqb x b) eqn:Ex; [|discriminate]. inversion Hp; subst r.
    assert (ceqb x "_" = false).
    { destruct (ceqb_spec x "_"); auto. subst. apply orb_true_iff in Ex as [Ex|Ex]; apply ceqb_true in Ex; congruence. }
    unfold without_underscores. cbn [filter]. rewrite H0. change (negb (ceqb "0" "_")) with true. cbn [negb].
    unfold has_prefix. rewrite Ex. reflexivity. }
  destruct (has_prefix "x" "X" s) as [r|] eqn:Ex.
  { rewrite (P "x"%char "X"%char r) by (auto; discriminate). apply after_prefix_wu; auto. }
  destruct (has_prefix "o" "O" s) as [r|] eqn:Eo.
  { pose proof (P "o"%char "O"%char r ltac:(discriminate) ltac:(discriminate) Eo) as Q. rewrite Q.
    assert (X : has_prefix "x" "X" (wu s) = None).
    { unfold has_prefix in Q |- *. destruct (wu s) as [|z0 [|x s']]; auto. clear -Q. destruct (ceqb z0 "0"); [|discriminate]. cbn [andb] in *. char x. }
    rewrite X. apply after_prefix_wu; auto. }
  destruct (has_prefix "b" "B" s) as [r|] eqn:Eb.
  { pose proof (P "b"%char "B"%char r ltac:(discriminate) ltac:(discriminate) Eb) as Q. rewrite Q.
    assert (X : has_prefix "x" "X" (wu s) = None /\ has_prefix "o" "O" (wu s) = None).
    { unfold has_prefix in Q |- *. destruct (wu s) as [|z0 [|x s']]; auto. clear -Q. destruct (ceqb z0 "0"); [|discriminate]. cbn [andb] in *. char x. }
    destruct X as [-> ->]. apply after_prefix_wu; auto. }
  destruct s as [|c s]; [discriminate|].
  assert (R : exists y, read_digits 10 0 true (c :: s) = Some y /\ (ceqb c "0" = true -> y = 0%Z) /\ y = z).
  { destruct (ceqb c "0"); [|exists z; repeat split; auto; discriminate].
    destruct (read_digits 10 0 true (c :: s)) as [[| |]|]; try discriminate. exists 0%Z. repeat split; auto; congruence. }
  destruct R as (y & R & Ry & <-).
  destruct (ceqb_spec c "_") as [->|Nu]; [discriminate|].
  pose proof (read_wu _ _ _ _ _ R) as [R' _].
  assert (W : wu (c :: s) = c :: wu s). { unfold without_underscores. cbn [filter]. destruct (ceqb_spec c "_"); [congruence|reflexivity]. }
  rewrite W in *.
  assert (D : forallb is_digit (c :: wu s) = true).
  { apply (read_inv 10 is_digit) in R'; [tauto|exact g10|]. rewrite <- W. apply wu_no. }
  assert (X : forall a b, is_digit a = false -> is_digit b = false -> has_prefix a b (c :: wu s) = None).
  { intros a b Ha Hb. unfold has_prefix. destruct (wu s) as [|x l]; auto. cbn [forallb] in D.
    apply andb_true_iff in D as [_ D]. apply andb_true_iff in D as [D _].
    destruct (ceqb_spec x a); [congruence|]. destruct (ceqb_spec x b); [congruence|]. rewrite andb_false_r. auto. }
  rewrite !X by reflexivity. rewrite R'. destruct (ceqb c "0"); auto. rewrite (Ry eq_refl). auto.
Qed.

Lemma py_int_inv s z : py_int Base0 s = Some z ->
  exists a t b, wu s = a ++ t ++ b /\ signed lenient_body t z /\ forallb is_space a = true /\ forallb is_space b = true.
Proof.
  intros H. destruct (strip_split s) as (a & b & E & Ha & Hb). exists a, (wu (strip s)), b.
  split. { rewrite E at 1. rewrite !wu_app, (wu_id is_space a), (wu_id is_space b) by auto. auto. }
  split; [|auto]. 
  unfold py_int in H. destruct (strip s) as [|c t]; [discriminate|].
  assert (B : forall t y, read_unsigned Base0 t = Some y -> lenient_body (wu t) y).
  { intros t' y Ht. apply read_unsigned_inv; [apply wu_no|apply read_unsigned_wu; auto]. }
  destruct (ceqb_spec c "-") as [->|N1].
  - destruct (read_unsigned Base0 t) as [y|] eqn:Er; [|discriminate]. inversion H; subst z. apply minus_sign, B; auto.
  - destruct (ceqb_spec c "+") as [->|N2]; [apply plus_sign, B; auto|]. apply no_sign, B; auto.
Qed.

Lemma parse_lenient t z : parse_c_int_literal t = Some z -> lenient t z.
Proof.
  intros H. unfold parse_c_int_literal in H. destruct (strip_split t) as (a & b & E & Ha & Hb).
  set (core := rev (dropwhile is_suffix_char (rev (strip t)))) in *.
  assert (Hs : exists suf, strip t = core ++ suf /\ forallb is_suffix_char suf = true).
  { exists (rev (takewhile is_suffix_char (rev (strip t)))). split.
    - subst core. rewrite <- rev_app_distr, takewhile_dropwhile, rev_involutive. auto.
    - pose proof (takewhile_Forall is_suffix_char (rev (strip t))) as F. apply forallb_forall. intros x Hx.
      rewrite Forall_forall in F. apply F. apply in_rev. auto. }
  destruct Hs as (suf & Es & Hsuf). clearbody core.
  assert (W : wu t = a ++ wu core ++ suf ++ b).
  { rewrite E, Es at 1. rewrite !wu_app, (wu_id is_space a), (wu_id is_space b), (wu_id is_suffix_char suf) by auto.
    rewrite <- app_assoc. auto. }
  destruct core as [|c core0] eqn:Ec; [discriminate|]. rewrite <- Ec in *. clear Ec.
  destruct (octal_text core) eqn:Eo.
  - assert (K : exists s, core = "0"%char :: s /\ s <> [] /\ forallb is_octal s = true).
    { unfold octal_text in Eo. destruct core as [|x [|y l]]; try discriminate.
      apply andb_true_iff in Eo as [E1 E2]. apply ceqb_true in E1. subst x. exists (y :: l). repeat split; auto. discriminate. }
    destruct K as (s & -> & Hn & Ho). rewrite (wu_id is_octal ("0"%char :: s)) in W by auto.
    exists a, ("0"%char :: s), [], suf, b. split; [exact W|].
    split; [|auto]. apply no_sign. apply len_c.
    assert (Q : c_int ("0"%char :: s) (pos_value 8 s)) by (apply c_oct; auto).
    pose proof (c_int_value _ _ Q) as V. rewrite Eo in V. rewrite H in V. inversion V; subst. exact Q.
  - destruct (py_int_inv core z H) as (a' & body & b' & E' & Hb' & Ha' & Hsp).
    exists (a ++ a'), body, b', suf, b. split; [rewrite W, E', <- !app_assoc; reflexivity|].
    rewrite forallb_app, Ha, Ha'. repeat split; auto.
Qed.
