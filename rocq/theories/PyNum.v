(** Python integers read from text and written as text. *)
From Coq Require Export ZArith.
From Verif Require Export PyStr.
Open Scope nat_scope.

(** Value of a digit or letter: 0-9, then a-z in any case. *)
Definition digit_val (c : ascii) : option Z :=
  if is_digit c then Some (Z.of_nat (code c - 48))
  else if is_lower c then Some (Z.of_nat (code c - 87))
  else if is_upper c then Some (Z.of_nat (code c - 55))
  else None.

(** Digits in a base, with single underscores between digits. [gap]: a digit must come next. *)
Fixpoint read_digits (base acc : Z) (gap : bool) (s : str) : option Z :=
  match s with
  | [] => if gap then None else Some acc
  | c :: s' =>
      if ceqb c "_" then (if gap then None else read_digits base acc true s')
      else match digit_val c with
           | Some d => if (d <? base)%Z then read_digits base (acc * base + d)%Z false s' else None
           | None => None
           end
  end.

(** After a prefix such as 0x one underscore is allowed. *)
Definition read_after_prefix (base : Z) (s : str) : option Z :=
  match s with
  | c :: s' => if ceqb c "_" then read_digits base 0 true s' else read_digits base 0 true s
  | [] => None
  end.

Definition has_prefix (a b : ascii) (s : str) : option str :=
  match s with
  | z :: x :: s' => if ceqb z "0" && (ceqb x a || ceqb x b) then Some s' else None
  | _ => None
  end.

(** [int(s, base)] without sign and spaces, for the bases 0, 8, 10 and 16. *)
Inductive base := Base0 | Base8 | Base10 | Base16.
Definition read_unsigned (b : base) (s : str) : option Z :=
  match b with
  | Base10 => read_digits 10 0 true s
  | Base16 =>
      match has_prefix "x" "X" s with
      | Some r => read_after_prefix 16 r
      | None => read_digits 16 0 true s
      end
  | Base8 =>
      match has_prefix "o" "O" s with
      | Some r => read_after_prefix 8 r
      | None => read_digits 8 0 true s
      end
  | Base0 =>
      match has_prefix "x" "X" s, has_prefix "o" "O" s, has_prefix "b" "B" s with
      | Some r, _, _ => read_after_prefix 16 r
      | _, Some r, _ => read_after_prefix 8 r
      | _, _, Some r => read_after_prefix 2 r
      | None, None, None =>
          match s with
          | z :: _ =>
              if ceqb z "0"
              then match read_digits 10 0 true s with Some 0%Z => Some 0%Z | _ => None end
              else read_digits 10 0 true s
          | [] => None
          end
      end
  end.

(** [int(s, base)], None for [ValueError]. *)
Definition py_int (b : base) (s : str) : option Z :=
  match strip s with
  | c :: s' =>
      if ceqb c "-" then option_map Z.opp (read_unsigned b s')
      else if ceqb c "+" then read_unsigned b s'
      else read_unsigned b (c :: s')
  | [] => None
  end.

(** [str(z)]. *)
Definition digit_chr (d : Z) : ascii := chr (48 + Z.to_nat d).
Fixpoint write_digits (fuel : nat) (z : Z) : str :=
  match fuel with
  | 0 => []
  | S fuel' => (if (z <? 10)%Z then [] else write_digits fuel' (z / 10)) ++ [digit_chr (z mod 10)]
  end.
Definition write_nat (z : Z) : str := write_digits (S (Z.to_nat (Z.log2 z))) z.
Definition py_str (z : Z) : str := if (z <? 0)%Z then "-"%char :: write_nat (- z) else write_nat z.

(** *** Lemmas *)

(** Positional value of digits already checked. *)
Fixpoint pos_value (base : Z) (s : str) : Z :=
  match s with
  | [] => 0
  | c :: s' => (match digit_val c with Some d => d | None => 0 end) * base ^ Z.of_nat (length s') + pos_value base s'
  end.
Definition digit_in (base : Z) (c : ascii) : bool :=
  match digit_val c with Some d => (d <? base)%Z | None => false end.

Lemma read_digits_plain base s : forall acc gap, forallb (digit_in base) s = true -> (s <> [] \/ gap = false) ->
  read_digits base acc gap s = Some (acc * base ^ Z.of_nat (length s) + pos_value base s)%Z.
Proof.
  induction s as [|c s IH]; intros acc gap H Hs.
  - cbn. destruct gap; [destruct Hs; congruence|]. f_equal. lia.
  - cbn [forallb] in H. apply andb_true_iff in H as [H1 H2]. cbn [read_digits].
    assert (Hu : ceqb c "_" = false).
    { destruct (ceqb c "_") eqn:E; auto. unfold ceqb in E. apply Ascii.eqb_eq in E. subst c. discriminate. }
    rewrite Hu. unfold digit_in in H1. cbn [pos_value length]. destruct (digit_val c) as [d|]; [|discriminate].
    rewrite H1, IH by auto. f_equal. rewrite Nat2Z.inj_succ, Z.pow_succ_r by lia. ring.
Qed.

Lemma read_digits_inv base s : forall acc gap z, ~ In "_"%char s -> read_digits base acc gap s = Some z ->
  forallb (digit_in base) s = true /\ (s <> [] \/ gap = false).
Proof.
  induction s as [|c s IH]; intros acc gap z Hu H; cbn [read_digits] in H.
  - destruct gap; [discriminate|]. split; auto.
  - destruct (ceqb c "_") eqn:E.
    + exfalso. apply Hu. unfold ceqb in E. apply Ascii.eqb_eq in E. subst c. left; auto.
    + cbn [forallb]. unfold digit_in at 1. destruct (digit_val c) as [d|]; [|discriminate].
      destruct (d <? base)%Z; [|discriminate]. cbn [andb].
      split; [|left; discriminate]. eapply IH; [|exact H]. intros X. apply Hu. right; auto.
Qed.

Lemma digit_chr_val d : (0 <= d < 10)%Z -> digit_val (digit_chr d) = Some d /\ is_digit (digit_chr d) = true.
Proof.
  intros H. assert (E : exists n, d = Z.of_nat n /\ n < 10) by (exists (Z.to_nat d); lia).
  destruct E as (n & -> & Hn). do 10 (destruct n as [|n]; [split; reflexivity|]). lia.
Qed.

Lemma pos_value_snoc base s c : (pos_value base (s ++ [c]) =
  pos_value base s * base + match digit_val c with Some d => d | None => 0 end)%Z.
Proof.
  induction s as [|x s IH]; cbn [pos_value app length].
  - cbn. destruct (digit_val c); lia.
  - rewrite IH, app_length. cbn [length]. replace (Z.of_nat (length s + 1)) with (Z.succ (Z.of_nat (length s))) by lia.
    rewrite Z.pow_succ_r by lia. ring.
Qed.

Lemma write_digits_spec fuel : forall z, (0 <= z < 2 ^ Z.of_nat fuel)%Z ->
  pos_value 10 (write_digits fuel z) = z /\ forallb is_digit (write_digits fuel z) = true /\
  (fuel <> 0 -> write_digits fuel z <> []) /\
  (forall c s, write_digits fuel z = c :: s -> s <> [] -> c <> "0"%char).
Proof.
  induction fuel as [|fuel IH]; intros z Hz.
  - cbn in Hz. assert (z = 0%Z) by lia. subst. repeat split; auto; discriminate.
  - cbn [write_digits]. assert (Hm : (0 <= z mod 10 < 10)%Z) by (apply Z.mod_pos_bound; lia).
    destruct (digit_chr_val _ Hm) as [Hv Hd].
    rewrite Nat2Z.inj_succ, Z.pow_succ_r in Hz by lia.
    destruct (Z.ltb_spec z 10) as [Hl|Hl].
    + cbn [app]. split; [|split; [|split]].
      * cbn [pos_value length]. rewrite Hv. rewrite Z.mod_small by lia. cbn. lia.
      * cbn [forallb]. rewrite Hd. auto.
      * discriminate.
      * intros c s E Hs. inversion E; subst. congruence.
    + assert (Hq : (0 <= z / 10 < 2 ^ Z.of_nat fuel)%Z).
      { split; [apply Z.div_pos; lia|]. apply Z.div_lt_upper_bound; lia. }
      destruct (IH _ Hq) as (E1 & E2 & E3 & E4).
      assert (Hf : fuel <> 0). { intros ->. cbn in Hz. lia. }
      split; [|split; [|split]].
      * rewrite pos_value_snoc, E1, Hv. pose proof (Z.div_mod z 10). lia.
      * rewrite forallb_app, E2. cbn [forallb]. rewrite Hd. auto.
      * intros _ C. apply app_eq_nil in C. destruct C; discriminate.
      * intros c s E Hs. destruct (write_digits fuel (z / 10)) as [|x l] eqn:Ew; [destruct (E3 Hf eq_refl)|].
        cbn [app] in E. inversion E; subst c s. destruct l as [|y l].
        -- intros ->. assert (E0 : (z / 10 = 0)%Z) by (rewrite <- E1; reflexivity).
           pose proof (Z.div_mod z 10). lia.
        -- eapply E4; [reflexivity|discriminate].
Qed.

Lemma write_nat_spec z : (0 <= z)%Z ->
  pos_value 10 (write_nat z) = z /\ forallb is_digit (write_nat z) = true /\ write_nat z <> [] /\
  (forall c s, write_nat z = c :: s -> s <> [] -> c <> "0"%char).
Proof.
  intros Hz. unfold write_nat.
  destruct (write_digits_spec (S (Z.to_nat (Z.log2 z))) z) as (A & B & C & D).
  - split; [auto|]. destruct (Z.eq_dec z 0) as [->|Hn]; [cbn; lia|].
    rewrite Nat2Z.inj_succ, Z2Nat.id by apply Z.log2_nonneg. apply Z.log2_spec. lia.
  - split; [exact A|]. split; [exact B|]. split; [apply C; discriminate|exact D].
Qed.

Lemma is_digit_in c : is_digit c = true -> digit_in 10 c = true.
Proof.
  unfold digit_in, digit_val. intros H. rewrite H. unfold is_digit, between in H. apply andb_true_iff in H as [H1 H2].
  apply Nat.leb_le in H1, H2. apply Z.ltb_lt. lia.
Qed.

Lemma digits_in s : forallb is_digit s = true -> forallb (digit_in 10) s = true.
Proof. rewrite !forallb_forall. intros H x Hx. apply is_digit_in; auto. Qed.

Lemma read_write z : (0 <= z)%Z -> read_digits 10 0 true (write_nat z) = Some z.
Proof.
  intros Hz. destruct (write_nat_spec z Hz) as (A & B & C & _).
  rewrite read_digits_plain; [f_equal; lia|apply digits_in; auto|left; auto].
Qed.

Lemma strip_no_space s : (forall c, In c s -> is_space c = false) -> strip s = s.
Proof.
  intros H. assert (L : lstrip s = s).
  { destruct s as [|c s]; auto. unfold lstrip. cbn [dropwhile]. rewrite (H c) by (left; auto). auto. }
  unfold strip, rstrip. rewrite L. destruct (rev s) as [|c r] eqn:E.
  - apply (f_equal (@rev _)) in E. rewrite rev_involutive in E. rewrite E. reflexivity.
  - cbn [dropwhile]. rewrite (H c).
    + rewrite <- E. apply rev_involutive.
    + apply in_rev. rewrite E. left; auto.
Qed.

Lemma digit_not_space c : is_digit c = true -> is_space c = false.
Proof. destruct c as [[] [] [] [] [] [] [] []]; cbn; auto; discriminate. Qed.

Lemma py_int_str z : py_int Base10 (py_str z) = Some z.
Proof.
  unfold py_int, py_str. destruct (Z.ltb_spec z 0) as [Hz|Hz].
  - destruct (write_nat_spec (- z)) as (_ & B & _ & _); [lia|]. rewrite forallb_forall in B.
    rewrite strip_no_space.
    + cbn [ceqb Ascii.eqb]. cbn [read_unsigned]. change (ceqb "-" "-") with true. cbn iota. rewrite read_write by lia. cbn. f_equal. lia.
    + intros c [<-|Hc]; [reflexivity|]. apply digit_not_space; auto.
  - destruct (write_nat_spec z Hz) as (_ & B & C & _). rewrite forallb_forall in B.
    rewrite strip_no_space by (intros c Hc; apply digit_not_space; auto).
    destruct (write_nat z) as [|c s] eqn:E; [congruence|].
    assert (Hc : is_digit c = true) by (apply B; left; auto).
    assert (N : ceqb c "-" = false /\ ceqb c "+" = false).
    { clear -Hc. destruct c as [[] [] [] [] [] [] [] []]; cbn in *; auto; discriminate. }
    destruct N as [N1 N2]. rewrite N1, N2, <- E. apply read_write; auto.
Qed.

Lemma py_str_inj a b : py_str a = py_str b -> a = b.
Proof. intros H. apply (f_equal (py_int Base10)) in H. rewrite !py_int_str in H. congruence. Qed.
