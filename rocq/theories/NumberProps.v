(** C20, C33, C34 and C53: numbers. *)
From Coq Require Import Permutation.
From Verif Require Import PyStr PyStrLemmas PyNum PyDict NumberModel NumberSpec NumberProofs NumberProofs2 NumberProofs3.

(** *** C20: values of enumerators *)

(** Missing: texts that Python and C++ read differently, see below. *)
Theorem C20_values_follow_cpp_partial :
  forall (ev : str -> Z) named children,
  (forall t z, signed c_int t z -> ev t = z) ->
  (forall t z, dict_get t named = Some z -> ev t = z) ->
  (forall n v, In (EDecl n v) children -> v <> [] -> plain_text v) ->
  all_shown ev named children (cpp_enum_values ev None children) (get_children_with_filled_decl_values named children).
Proof.
  exact (fun ev named children H1 H2 H3 =>
    fill_shown ev named children None None (fun n v z _ _ H => H2 v z H)
      (fun n v z Hi Hn H => H1 v z (py_int10_inv v z (H3 n v Hi Hn) H)) I).
Qed.
Print Assumptions C20_values_follow_cpp_partial.

(** When every explicit value is a number or a known macro, no value is missing. *)
Theorem C20_no_value_missing :
  forall named children,
  (forall n v, In (EDecl n v) children -> v <> [] -> dict_get v named <> None \/ py_int Base10 v <> None) ->
  forall n v, In (EDecl n v) (get_children_with_filled_decl_values named children) -> v <> [].
Proof. exact (fun named children H => fill_known named children None H I). Qed.
Print Assumptions C20_no_value_missing.

Definition C20_children : list enum_child :=
  [EDecl $"A" []; EDecl $"B" []; EOther $"// c"; EDecl $"C" $"-7"; EDecl $"D" []; EDecl $"E" $"MAX"; EDecl $"F" [];
   EDecl $"G" $"A | B"; EDecl $"H" []].
Example C20_case :
  get_children_with_filled_decl_values [($"MAX", 100%Z)] C20_children =
  [EDecl $"A" $"0"; EDecl $"B" $"1"; EOther $"// c"; EDecl $"C" $"-7"; EDecl $"D" $"-6"; EDecl $"E" $"100";
   EDecl $"F" $"101"; EDecl $"G" $"A | B"; EDecl $"H" []] /\
  plain_text $"-7" /\ plain_text $"MAX" /\ plain_text $"A | B".
Proof.
  split; [vm_compute; reflexivity|].
  repeat split; try reflexivity; try (intros C; cbn in C; intuition discriminate).
  all: intros sg c s E Hs; exfalso;
    assert (X : In "0"%char (sg ++ "0"%char :: c :: s)) by (apply in_or_app; right; left; auto);
    rewrite <- E in X; cbn in X; intuition discriminate.
Qed.

(** After an octal value the next values are wrong: 010 is 8 in C++ and 10 in Python. *)
Theorem C20_octal_value_refuted :
  ~ (forall (ev : str -> Z) named children,
     (forall t z, signed c_int t z -> ev t = z) -> (forall t z, dict_get t named = Some z -> ev t = z) ->
     all_shown ev named children (cpp_enum_values ev None children) (get_children_with_filled_decl_values named children)).
Proof.
  intros H. pose (ev := fun t : str => match t with
    | "-"%char :: s => match parse_c_int_literal s with Some z => (- z)%Z | None => 0%Z end
    | "+"%char :: s => match parse_c_int_literal s with Some z => z | None => 0%Z end
    | _ => match parse_c_int_literal t with Some z => z | None => 0%Z end end).
  specialize (H ev [] [EDecl $"A" $"010"; EDecl $"B" []]).
  assert (G : all_shown ev [] [EDecl $"A" $"010"; EDecl $"B" []] [Some 8%Z; Some 9%Z] [EDecl $"A" $"010"; EDecl $"B" $"11"]).
  { apply H; [|discriminate]. intros t z Ht.
    assert (P : forall t z, c_int t z -> parse_c_int_literal t = Some z).
    { intros t' z' H'. apply parse_constant. exists t', []. split; [symmetry; apply app_nil_r|]. split; auto. left; auto. }
    destruct Ht as [t z Ht|t z Ht|t z Ht].
    - destruct (c_int_word _ _ Ht) as (_ & c & s & -> & Hc). apply P in Ht. unfold ev. rewrite Ht.
      destruct c as [[] [] [] [] [] [] [] []]; try discriminate; reflexivity.
    - unfold ev. rewrite (P _ _ Ht). auto.
    - unfold ev. rewrite (P _ _ Ht). auto. }
  inversion G as [|? ? ? ? ? ? _ G2]; subst. inversion G2 as [|? ? ? ? ? ? G3 _]; subst.
  inversion G3.
Qed.
Print Assumptions C20_octal_value_refuted.

(** *** C33: published macros *)

(** Constants that the option publishes have the same value in the stub. *)
Theorem C33_integer_value :
  forall t z, c_int t z -> compute_define_value_type t <> DOther -> python_int (published_python_value t) = Some z.
Proof. exact published_c_int. Qed.
Print Assumptions C33_integer_value.

(** Missing: signed octal constants, see below. *)
Theorem C33_signed_value_partial :
  forall sign t z, In sign ["-"; "+"]%char -> c_int t z -> compute_define_value_type (sign :: t) <> DOther ->
  (forall s, t = "0"%char :: s -> s = []) ->
  python_int (published_python_value (sign :: t)) = Some (if ceqb sign "-" then - z else z)%Z.
Proof. exact published_signed. Qed.
Print Assumptions C33_signed_value_partial.

(** Floating constants are published as they are, in a form that the two languages share. *)
Theorem C33_float_text :
  forall v, strip v = v -> ~ In "_"%char v -> compute_define_value_type v = DFloat ->
  published_python_value v = v /\ float_text v.
Proof. exact published_float. Qed.
Print Assumptions C33_float_text.

(** Missing: the escapes that differ, and texts that are more than string literals, see below. *)
Theorem C33_string_value_partial :
  forall v w, compute_define_value_type v = DString -> same_escapes v = true -> c_string v = Some w ->
  python_string (published_python_value v) = Some w.
Proof. exact published_string. Qed.
Print Assumptions C33_string_value_partial.

Example C33_case :
  c_int $"0x1F" 31 /\ published_python_value $"0x1F" = $"0x1F" /\
  c_int $"0755" 493 /\ published_python_value $"0755" = $"0o755" /\ compute_define_value_type $"0755" = DOctal /\
  compute_define_value_type $"-12" = DInt /\ compute_define_value_type $"12u" = DOther /\
  compute_define_value_type $"0b11" = DOther /\ compute_define_value_type $"-1.5e+3" = DFloat /\
  c_string ([dq] ++ $"a\n\101" ++ [dq; sp; dq] ++ $"b" ++ [dq]) = Some ($"a" ++ [nl] ++ $"Ab") /\
  compute_define_value_type ([dq] ++ $"a\n\101" ++ [dq; sp; dq] ++ $"b" ++ [dq]) = DString.
Proof.
  split; [apply (c_hex "x" $"1F"); [left; auto|discriminate|reflexivity]|].
  split; [reflexivity|]. split; [apply (c_oct $"755"); reflexivity|]. vm_compute. repeat split; reflexivity.
Qed.

(** A negative octal constant is published in a form that Python rejects. *)
Theorem C33_signed_octal_refuted :
  ~ (forall t z, signed c_int t z -> compute_define_value_type t <> DOther ->
     python_int (published_python_value t) = Some z).
Proof.
  intros H. specialize (H $"-010" (-8)%Z). assert (X : python_int (published_python_value $"-010") = Some (-8)%Z).
  { apply H; [|vm_compute; discriminate]. apply (minus_sign _ $"010" 8%Z). apply (c_oct $"10"). reflexivity. }
  vm_compute in X. discriminate.
Qed.
Print Assumptions C33_signed_octal_refuted.

(** A question mark or a hexadecimal number after a backslash is read differently. *)
Theorem C33_string_escapes_refuted :
  ~ (forall v w, compute_define_value_type v = DString -> c_string v = Some w ->
     python_string (published_python_value v) = Some w).
Proof.
  intros H. specialize (H ([dq] ++ $"what\?" ++ [dq]) $"what?" eq_refl eq_refl). vm_compute in H. discriminate.
Qed.
Print Assumptions C33_string_escapes_refuted.

(** A text that starts and ends with a quote need not be a literal: in  "%" PRIu64 "d"  the macro in the
    middle is C++, and the stub is not valid Python. *)
Theorem C33_more_than_a_literal_refuted :
  ~ (forall v, compute_define_value_type v = DString -> python_string (published_python_value v) <> None).
Proof.
  intros H. apply (H ([dq] ++ $"%" ++ [dq] ++ $" PRIu64 " ++ [dq] ++ $"d" ++ [dq])); vm_compute; reflexivity.
Qed.
Print Assumptions C33_more_than_a_literal_refuted.

(** *** C34: integer macros *)

(** The recursion ends, within as many calls as there are macros and one more. *)
Theorem C34_resolution_ends :
  forall named defines token fuel, length (raw_values_of defines) < fuel ->
  resolve_int_token fuel named (raw_values_of defines) [] token <> None /\
  resolve_int_token fuel named (raw_values_of defines) [] token =
  resolve_int_token (S (length (raw_values_of defines))) named (raw_values_of defines) [] token.
Proof. exact resolve_ends. Qed.
Print Assumptions C34_resolution_ends.

(** A value that is returned comes from an integer at the end of a chain of definitions. *)
Theorem C34_value_found_by_following :
  forall named defines name z, int_value_from_define_name named defines name = Some z ->
  exists k, follows lenient (fun t => dict_get t named) (macro_value defines) k name z.
Proof. exact int_value_sound. Qed.
Print Assumptions C34_value_found_by_following.

(** A chain that ends with an integer constant of C++ is followed to its end. *)
Theorem C34_chains_followed :
  forall named defines name k z,
  (forall m, In m (map fst named) -> name_text m) -> (forall m, In m (map fst (plain_macros defines)) -> name_text m) ->
  In name (map fst (plain_macros defines)) ->
  follows c_constant (fun t => dict_get t named) (macro_value defines) k name z ->
  int_value_from_define_name named defines name = Some z.
Proof. exact int_value_complete. Qed.
Print Assumptions C34_chains_followed.

Theorem C34_any_order :
  forall named defines1 defines2 name,
  Permutation (plain_macros defines1) (plain_macros defines2) -> NoDup (map fst (plain_macros defines1)) ->
  int_value_from_define_name named defines1 name = int_value_from_define_name named defines2 name.
Proof. exact int_value_order. Qed.
Print Assumptions C34_any_order.

Definition def (n v : string) : define := {| d_name := $n; d_has_parameters := false; d_value := Some $v |}.
Definition C34_defines : list define :=
  [def "A" "( ( B ) )"; def "B" " C"; def "C" "(0x1FuL)"; def "P" "Q"; def "Q" "(P)"; def "O" "017"; def "M" "MAX"; def "N" "NOPE"].
Example C34_case :
  map (int_value_from_define_name [($"MAX", 9%Z)] C34_defines) (map (fun x => $x) ["A"; "P"; "O"; "M"; "N"; "Z"]%string)
  = [Some 31%Z; None; Some 15%Z; Some 9%Z; None; None] /\
  follows c_constant (fun t => dict_get t [($"MAX", 9%Z)]) (macro_value C34_defines) 3 $"A" 31 /\
  NoDup (map fst (plain_macros C34_defines)) /\ name_text $"A".
Proof.
  split; [vm_compute; reflexivity|]. split.
  - eapply (f_define _ _ _ 2 _ $"( ( B ) )"); [reflexivity|reflexivity|].
    apply (f_parens _ _ _ 2 $" ( B ) "). apply f_space_l; [reflexivity|]. apply (f_space_r _ _ _ 2 " " $"( B )"); [reflexivity|].
    apply (f_parens _ _ _ 2 $" B "). apply f_space_l; [reflexivity|]. apply (f_space_r _ _ _ 2 " " $"B"); [reflexivity|].
    eapply (f_define _ _ _ 1 _ $" C"); [reflexivity|reflexivity|]. apply f_space_l; [reflexivity|].
    eapply (f_define _ _ _ 0 _ $"(0x1FuL)"); [reflexivity|reflexivity|]. apply (f_parens _ _ _ 0 $"0x1FuL").
    apply f_literal. exists $"0x1F", $"uL". split; [reflexivity|]. split; [|cbn; intuition].
    apply (c_hex "x" $"1F"); [left; auto|discriminate|reflexivity].
  - split; [|split; reflexivity].
    vm_compute. repeat constructor; intros C; cbn in C; intuition discriminate.
Qed.

(** More texts than the constants of C++ are taken for integers. *)
Theorem C34_only_constants_refuted :
  ~ (forall t z, int_value_from_define_name [] [{| d_name := $"X"; d_has_parameters := false; d_value := Some t |}] $"X" = Some z ->
     forall c, In c t -> is_suffix_char c || hex_digit c || ceqb c "x" || ceqb c "X" || ceqb c "+" || ceqb c "-" = true).
Proof. intros H. specialize (H $"1_000" 1000%Z eq_refl "_"%char). cbn in H. intuition discriminate. Qed.
Print Assumptions C34_only_constants_refuted.

(** An unsigned constant with a minus sign is positive in C++. *)
Theorem C34_unsigned_refuted :
  ~ (forall t z, int_value_from_define_name [] [{| d_name := $"X"; d_has_parameters := false; d_value := Some (t ++ $"u") |}] $"X" = Some z ->
     (0 <= z)%Z).
Proof. intros H. specialize (H $"-1" (-1)%Z eq_refl). lia. Qed.
Print Assumptions C34_unsigned_refuted.

(** *** C53: sizes of arrays *)

(** Missing: sizes that Python and C++ read differently, see below. *)
Theorem C53_array_size_partial :
  forall named defines size z, plain_text size -> c_array_size_as_int named defines size = Some z ->
  signed c_int size z \/ exists k, follows lenient (fun t => dict_get t named) (macro_value defines) k size z.
Proof. exact array_size_sound. Qed.
Print Assumptions C53_array_size_partial.

Example C53_case :
  map (c_array_size_as_int [($"MAX", 9%Z)] C34_defines) (map (fun x => $x) ["4"; "A"; "MAX"; ""; "0x10"; "A + 1"]%string)
  = [Some 4%Z; Some 31%Z; Some 9%Z; None; None; None].
Proof. vm_compute. reflexivity. Qed.

(** An array declared with an octal size gets a wrong size. *)
Theorem C53_octal_size_refuted :
  ~ (forall named defines size z z', c_array_size_as_int named defines size = Some z -> c_int size z' -> z = z').
Proof. intros H. specialize (H [] [] $"010" 10%Z 8%Z eq_refl (c_oct $"10" eq_refl)). discriminate. Qed.
Print Assumptions C53_octal_size_refuted.
