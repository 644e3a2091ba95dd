(** Proofs for published macros and array sizes. *)
From Verif Require Import PyStr PyStrLemmas PyNum PyDict NumberModel NumberSpec NumberProofs NumberProofs2.

(** *** Integers *)

Lemma no_dq (f : ascii -> bool) s : f dq = false -> forallb f s = true -> startswith [dq] s = false.
Proof.
  intros H Hs. destruct s as [|c s]; auto. cbn [startswith]. destruct (ceqb_spec dq c); auto. subst. cbn [forallb] in Hs.
  rewrite H in Hs. discriminate.
Qed.
Lemma no_dot (f : ascii -> bool) s : f "."%char = false -> forallb f s = true -> filter (ceqb ".") s = [].
Proof.
  intros H. induction s as [|c s IH]; auto. cbn [forallb filter]. intros Hs. apply andb_true_iff in Hs as [H1 H2].
  destruct (ceqb_spec "." c); [subst; congruence|auto].
Qed.

Lemma published_c_int t z : c_int t z -> compute_define_value_type t <> DOther ->
  python_int (published_python_value t) = Some z.
Proof.
  intros H HO. destruct (c_int_word t z H) as (Hw & _).
  assert (Hdq : startswith [dq] t = false) by (apply (no_dq is_word); auto).
  assert (Hdot : filter (ceqb ".") t = []) by (apply (no_dot is_word); auto).
  assert (Hsp : forall x, In x t -> is_space x = false) by (apply (no_space_all is_word); auto using word_no_space).
  assert (Hval := c_int_value t z H).
  unfold published_python_value. unfold compute_define_value_type in *. rewrite Hdq, Hdot in *. cbn [andb length] in *.
  inversion H as [d s' Hd H0 Hs|s' Hs|x s' Hx Hn Hs|x s' Hx Hn Hs]; subst.
  - assert (N0 : ceqb "0" d = false) by (destruct (ceqb_spec "0" d); [congruence|auto]).
    assert (E1 : startswith $"0x" (d :: s') = false /\ startswith $"0X" (d :: s') = false /\ startswith $"0" (d :: s') = false).
    { cbn [startswith lit list_ascii_of_string]. rewrite N0. auto. }
    destruct E1 as (E1 & E2 & E3). rewrite E1, E2, E3. cbn [orb andb].
    assert (Eo : octal_text (d :: s') = false) by (unfold octal_text; destruct s'; auto; rewrite ceqb_sym, N0; auto).
    rewrite Eo in Hval. destruct (is_some (py_int Base10 (d :: s'))); exact Hval.
  - destruct s' as [|x s'].
    + vm_compute. reflexivity.
    + cbn [forallb] in Hs. apply andb_true_iff in Hs as [Hx Hs'].
      assert (E1 : startswith $"0x" ("0"%char :: x :: s') = false /\ startswith $"0X" ("0"%char :: x :: s') = false).
      { cbn [startswith lit list_ascii_of_string]. split; clear -Hx; destruct x as [[] [] [] [] [] [] [] []]; try discriminate; reflexivity. }
      destruct E1 as (E1 & E2). rewrite E1, E2 in *. cbn [orb]. change (startswith $"0" ("0"%char :: x :: s')) with true in *.
      change (1 <? length ("0"%char :: x :: s')) with true in *. cbn [andb orb] in *.
      destruct (is_some (py_int Base8 ("0"%char :: x :: s'))); [|congruence]. cbn [tl].
      unfold python_int. change ($"0o" ++ x :: s') with ("0"%char :: "o"%char :: x :: s').
      rewrite py_int_unsigned; [|intros y [<-|[<-|Hy]]; [reflexivity|reflexivity|apply Hsp; right; auto]|reflexivity].
      assert (R : read_unsigned Base0 ("0"%char :: "o"%char :: x :: s') = read_after_prefix 8 (x :: s')) by reflexivity.
      rewrite R. apply (after_prefix_ok 8 is_octal); [exact g8|discriminate|]. cbn [forallb]. rewrite Hx, Hs'. auto.
  - assert (E1 : startswith $"0x" ("0"%char :: x :: s') || startswith $"0X" ("0"%char :: x :: s') = true)
      by (destruct Hx as [<-|[<-|[]]]; reflexivity).
    rewrite E1. assert (Eo : octal_text ("0"%char :: x :: s') = false) by (destruct Hx as [<-|[<-|[]]]; reflexivity).
    rewrite Eo in Hval. destruct (is_some _); exact Hval.
  - assert (E1 : startswith $"0x" ("0"%char :: x :: s') || startswith $"0X" ("0"%char :: x :: s') = false)
      by (destruct Hx as [<-|[<-|[]]]; reflexivity).
    rewrite E1 in *. assert (Eo : octal_text ("0"%char :: x :: s') = false) by (destruct Hx as [<-|[<-|[]]]; reflexivity).
    rewrite Eo in Hval. exfalso. apply HO.
    change (startswith $"0" ("0"%char :: x :: s')) with true. change (1 <? length ("0"%char :: x :: s')) with true. cbn [andb].
    rewrite py_int_unsigned; auto.
    assert (P : read_unsigned Base8 ("0"%char :: x :: s') = None).
    { destruct Hx as [<-|[<-|[]]]; reflexivity. }
    rewrite P. reflexivity.
Qed.

(** A signed decimal constant is read by Python as in C++ when no zero comes first. *)
Lemma signed_dec_base0 sg t : In sg ["-"; "+"]%char -> forallb is_digit t = true ->
  (t = $"0" \/ exists c r, t = c :: r /\ c <> "0"%char) ->
  py_int Base0 (sg :: t) = Some (if ceqb sg "-" then - pos_value 10 t else pos_value 10 t)%Z.
Proof.
  intros Hs Hd Ht. assert (Hsp : forall x, In x (sg :: t) -> is_space x = false).
  { intros x [<-|Hx]; [destruct Hs as [<-|[<-|[]]]; reflexivity|]. rewrite forallb_forall in Hd. auto using digit_not_space. }
  unfold py_int. rewrite strip_no_space by auto.
  assert (R : read_unsigned Base0 t = Some (pos_value 10 t)).
  { destruct Ht as [->|(c & r & -> & Hc)]; [reflexivity|]. cbn [read_unsigned].
    assert (X : forall a b, has_prefix a b (c :: r) = None).
    { intros a b. unfold has_prefix. destruct r; auto. destruct (ceqb_spec c "0"); [congruence|auto]. }
    rewrite !X. destruct (ceqb_spec c "0"); [congruence|]. apply (read_ok 10 is_digit); auto; [exact g10|discriminate]. }
  destruct Hs as [<-|[<-|[]]]; cbn [ceqb]; change (ceqb "-" "-") with true; change (ceqb "+" "-") with false;
    change (ceqb "+" "+") with true; cbn iota; rewrite R; reflexivity.
Qed.

Lemma published_signed sg t z : In sg ["-"; "+"]%char -> c_int t z -> compute_define_value_type (sg :: t) <> DOther ->
  (forall s, t = "0"%char :: s -> s = []) ->
  python_int (published_python_value (sg :: t)) = Some (if ceqb sg "-" then - z else z)%Z.
Proof.
  intros Hs H HO Hz. destruct (c_int_word t z H) as (Hw & _).
  assert (Hdq : startswith [dq] (sg :: t) = false) by (destruct Hs as [<-|[<-|[]]]; reflexivity).
  assert (Hdot : filter (ceqb ".") (sg :: t) = []).
  { cbn [filter]. rewrite (no_dot is_word) by auto. destruct Hs as [<-|[<-|[]]]; reflexivity. }
  assert (E1 : startswith $"0x" (sg :: t) = false /\ startswith $"0X" (sg :: t) = false /\ startswith $"0" (sg :: t) = false)
    by (destruct Hs as [<-|[<-|[]]]; auto).
  destruct E1 as (E1 & E2 & E3).
  assert (P : published_python_value (sg :: t) = sg :: t).
  { unfold published_python_value, compute_define_value_type. rewrite Hdq, Hdot, E1, E2, E3. cbn [andb orb length].
    destruct (is_some _); auto. }
  rewrite P. unfold python_int.
  assert (D : forallb is_digit t = true /\ (t = $"0" \/ exists c r, t = c :: r /\ c <> "0"%char) /\ z = pos_value 10 t).
  { inversion H as [d s' Hd H0 Hs'|s' Hs'|x s' Hx Hn Hs'|x s' Hx Hn Hs']; subst t z.
    - split; [cbn [forallb]; rewrite Hd; auto|]. split; [right; eauto|auto].
    - rewrite (Hz s' eq_refl). repeat split; auto.
    - specialize (Hz _ eq_refl). discriminate.
    - specialize (Hz _ eq_refl). discriminate. }
  destruct D as (D1 & D2 & ->). apply signed_dec_base0; auto.
Qed.

(** *** Floats *)

Lemma float_digits_inv s : forall gap r, ~ In "_"%char s -> float_digits gap s = Some r ->
  exists a, s = a ++ r /\ forallb is_digit a = true /\ (gap = true -> a <> []) /\
  match r with c :: _ => is_digit c = false | [] => True end.
Proof.
  induction s as [|c s IH]; intros gap r Hu H; cbn [float_digits] in H.
  - destruct gap; [discriminate|]. inversion H; subst. exists []. repeat split; auto. discriminate.
  - destruct (is_digit c) eqn:Ec.
    + destruct (IH _ _ (fun C => Hu (or_intror C)) H) as (a & -> & Ha & _ & Hr). exists (c :: a).
      cbn [forallb]. rewrite Ec. repeat split; auto. discriminate.
    + destruct (ceqb_spec c "_") as [->|]; [destruct Hu; left; auto|].
      destruct gap; [discriminate|]. inversion H; subst. exists []. repeat split; auto. discriminate.
Qed.
Lemma float_sign_form s : exists sg, s = sg ++ float_sign s /\ In sg [[]; $"+"; $"-"].
Proof.
  destruct s as [|c s]; [exists []; split; [auto|left; auto]|]. cbn [float_sign].
  destruct (ceqb_spec c "-") as [->|]; [exists $"-"; split; [auto|right; right; left; auto]|].
  destruct (ceqb_spec c "+") as [->|]; [exists $"+"; split; [auto|right; left; auto]|].
  exists []. split; [auto|left; auto].
Qed.
Lemma exponent_inv s : ~ In "_"%char s -> float_exponent_ok s = true -> exponent_text s.
Proof.
  intros Hu H. destruct s as [|e s]; [left; auto|]. right. cbn [float_exponent_ok] in H. apply andb_true_iff in H as [He H].
  destruct (float_sign_form s) as (sg & Es & Hsg). 
  destruct (float_digits true (float_sign s)) as [[|]|] eqn:Ef; try discriminate.
  assert (Hu' : ~ In "_"%char (float_sign s)) by (intros C; apply Hu; right; rewrite Es; apply in_or_app; auto).
  destruct (float_digits_inv _ _ _ Hu' Ef) as (a & Ea & Ha & Hn & _). rewrite app_nil_r in Ea.
  exists e, sg, (float_sign s). rewrite <- Es. split; auto. split.
  - apply orb_true_iff in He as [He|He]; apply ceqb_true in He; subst; cbn; auto.
  - split; auto. rewrite Ea. auto.
Qed.
Lemma py_float_text s : strip s = s -> ~ In "_"%char s -> py_float_ok s = true -> float_text s.
Proof.
  intros Hst Hu H. unfold py_float_ok in H. rewrite Hst in H. destruct (float_sign_form s) as (sg & Es & Hsg).
  set (t := float_sign s) in *. assert (Hu' : ~ In "_"%char t) by (intros C; apply Hu; rewrite Es; apply in_or_app; auto).
  clearbody t. rewrite Es. destruct t as [|c t]; [discriminate|]. destruct (ceqb_spec c ".") as [->|Nc].
  - destruct (float_digits true t) as [r|] eqn:Ef; [|discriminate].
    destruct (float_digits_inv _ _ _ (fun C => Hu' (or_intror C)) Ef) as (b & -> & Hb & Hn & _).
    exists sg, [], b, r. split; auto. repeat split; auto. apply exponent_inv; auto.
    intros C. apply Hu'. right. apply in_or_app; auto.
  - destruct (float_digits true (c :: t)) as [[|d r]|] eqn:Ef; try discriminate.
    destruct (float_digits_inv _ _ _ Hu' Ef) as (a & Ea & Ha & Hn & _). rewrite Ea in *.
    apply andb_true_iff in H as [Hd H]. apply ceqb_true in Hd. subst d.
    assert (Hur : ~ In "_"%char r) by (intros C; apply Hu'; apply in_or_app; right; right; auto).
    destruct r as [|c' r].
    + exists sg, a, [], []. split; [auto|]. repeat split; auto. left; auto.
    + destruct (is_digit c') eqn:Ec.
      * destruct (float_digits true (c' :: r)) as [r'|] eqn:Ef'; [|discriminate].
        destruct (float_digits_inv _ _ _ Hur Ef') as (b & Eb & Hb & _ & _). rewrite Eb in *.
        exists sg, a, b, r'. split; auto. repeat split; auto. apply exponent_inv; auto. intros C; apply Hur, in_or_app; auto.
      * exists sg, a, [], (c' :: r). split; auto. repeat split; auto. apply exponent_inv; auto.
Qed.
Lemma published_float v : strip v = v -> ~ In "_"%char v -> compute_define_value_type v = DFloat ->
  published_python_value v = v /\ float_text v.
Proof.
  intros H1 H2 H. unfold published_python_value. rewrite H. split; auto. unfold compute_define_value_type in H.
  destruct (startswith [dq] v && endswith [dq] v); [discriminate|].
  destruct (length (filter (ceqb ".") v)) as [|[|]].
  - destruct (startswith $"0x" v || startswith $"0X" v); [destruct (is_some _); discriminate|].
    destruct (startswith $"0" v && (1 <? length v)); destruct (is_some _); discriminate.
  - destruct (py_float_ok v) eqn:E; [|discriminate]. apply py_float_text; auto.
  - discriminate.
Qed.

(** *** Strings *)

Lemma same_escapes_skip c s : c <> bsl -> same_escapes (c :: s) = same_escapes s.
Proof. intros H. cbn [same_escapes]. destruct s; auto. destruct (ceqb_spec c bsl); [congruence|auto]. Qed.
Lemma run_tail n f s a b : run n f s = (a, b) -> exists n', a = firstn n' s /\ b = skipn n' s /\ forallb f a = true.
Proof.
  revert s a b. induction n as [|n IH]; intros s a b H; cbn [run] in H.
  - inversion H. exists 0. auto.
  - destruct s as [|c s]; [inversion H; exists 0; auto|]. destruct (f c) eqn:E; [|inversion H; exists 0; auto].
    destruct (run n f s) as [a' b'] eqn:Er. inversion H; subst. destruct (IH _ _ _ Er) as (n' & -> & -> & Hf).
    exists (S n'). cbn [firstn skipn forallb]. rewrite E. auto.
Qed.
Lemma same_escapes_octal a b : forallb is_octal a = true -> same_escapes (a ++ b) = same_escapes b.
Proof.
  induction a as [|c a IH]; auto. cbn [forallb app]. intros H. apply andb_true_iff in H as [H1 H2].
  rewrite same_escapes_skip; auto. intros ->. discriminate.
Qed.
Lemma same_escapes_bsl d s : same_escapes (bsl :: d :: s) = true -> ceqb d "?" = false /\ ceqb d "x" = false /\ same_escapes s = true.
Proof.
  intros H. change (same_escapes (bsl :: d :: s)) with (negb (ceqb d "?" || ceqb d "x") && same_escapes s) in H.
  apply andb_true_iff in H as [H1 H2]. apply negb_true_iff, orb_false_iff in H1. tauto.
Qed.
Lemma escape_same s v r : same_escapes (bsl :: s) = true -> c_escape s = Some (v, r) -> py_escape s = Some (v, r) /\ same_escapes r = true.
Proof.
  destruct s as [|c s]; [discriminate|]. intros Hs H. apply same_escapes_bsl in Hs as (H1 & H2 & H3).
  unfold c_escape, py_escape in *. destruct (assoc_c c simple_escapes) as [x|] eqn:Ea.
  - inversion H; subst. auto.
  - rewrite H1, H2 in H. destruct (is_octal c) eqn:Eo; [|discriminate].
    destruct (run 3 is_octal (c :: s)) as [a b] eqn:Er. inversion H; subst. split; auto.
    destruct (run_tail _ _ _ _ _ Er) as (n & Ea' & Eb & Hf).
    assert (Hc : c <> bsl) by (intros ->; discriminate).
    rewrite <- (same_escapes_skip c s) in H3 by auto.
    rewrite <- (firstn_skipn n (c :: s)), <- Ea', <- Eb, same_escapes_octal in H3 by auto. auto.
Qed.
Lemma string_same fuel : forall inside s v, same_escapes s = true ->
  string_value c_escape fuel inside s = Some v -> string_value py_escape fuel inside s = Some v.
Proof.
  induction fuel as [|fuel IH]; intros inside s v Hs H; [discriminate|]. cbn [string_value] in *.
  destruct s as [|c s]; auto. destruct inside.
  - destruct (ceqb_spec c dq) as [->|]; [rewrite same_escapes_skip in Hs by discriminate; apply IH; auto|].
    destruct (ceqb c nl); [discriminate|]. destruct (ceqb_spec c bsl) as [->|Nb].
    + destruct (c_escape s) as [[x r]|] eqn:Ee; [|discriminate]. destruct (escape_same _ _ _ Hs Ee) as [-> Hr].
      destruct (string_value c_escape fuel true r) as [w|] eqn:Ew; [|discriminate]. rewrite (IH _ _ _ Hr Ew). auto.
    + rewrite same_escapes_skip in Hs by auto. destruct (string_value c_escape fuel true s) as [w|] eqn:Ew; [|discriminate].
      rewrite (IH _ _ _ Hs Ew). auto.
  - destruct (ceqb_spec c dq) as [->|]; [rewrite same_escapes_skip in Hs by discriminate; apply IH; auto|].
    destruct (ceqb_spec c sp) as [->|]; [rewrite same_escapes_skip in Hs by discriminate; apply IH; auto|discriminate].
Qed.
Lemma published_string v w : compute_define_value_type v = DString -> same_escapes v = true -> c_string v = Some w ->
  python_string (published_python_value v) = Some w.
Proof.
  intros H Hs Hc. unfold published_python_value. rewrite H. apply string_same; auto.
Qed.

(** *** Plain texts, array sizes *)

Lemma py_int10_inv v z : plain_text v -> py_int Base10 v = Some z -> signed c_int v z.
Proof.
  intros (H1 & H2 & H3) H. unfold py_int in H. rewrite H1 in H. destruct v as [|c v]; [discriminate|].
  assert (B : forall sg t y, In sg [[]; $"+"; $"-"] -> c :: v = sg ++ t -> read_unsigned Base10 t = Some y -> c_int t y).
  { intros sg t y Hsg E Hr. cbn [read_unsigned] in Hr.
    apply (read_inv 10 is_digit) in Hr as (Hn & Hd & ->); [|exact g10|intros C; apply H2; rewrite E; apply in_or_app; auto].
    destruct t as [|d t]; [congruence|]. cbn [forallb] in Hd. apply andb_true_iff in Hd as [Hd Ht].
    destruct (ceqb_spec d "0") as [->|Nd]; [|apply c_dec; auto].
    destruct t as [|e t]; [exact (c_oct [] eq_refl)|].
    specialize (H3 sg e t E Hsg). cbn [forallb] in Ht. rewrite H3 in Ht. discriminate. }
  destruct (ceqb_spec c "-") as [->|].
  - destruct (read_unsigned Base10 v) as [y|] eqn:Er; [|discriminate]. inversion H; subst.
    apply minus_sign. apply (B $"-"); auto. right; right; left; auto.
  - destruct (ceqb_spec c "+") as [->|].
    + apply plus_sign. apply (B $"+"); auto. right; left; auto.
    + apply no_sign. apply (B []); auto. left; auto.
Qed.

Lemma array_size_sound named defines v z : plain_text v -> c_array_size_as_int named defines v = Some z ->
  signed c_int v z \/ exists k, follows lenient (fun t => dict_get t named) (macro_value defines) k v z.
Proof.
  intros Hp H. unfold c_array_size_as_int, int_from_str_or_named_number_macros in H.
  destruct (py_int Base10 v) as [x|] eqn:E.
  - inversion H; subst x. left. apply py_int10_inv; auto.
  - destruct (dict_get v named) as [x|] eqn:En.
    + inversion H; subst x. right. exists 0. apply f_named; auto.
    + destruct (blank v); [discriminate|]. right. apply int_value_sound; auto.
Qed.
