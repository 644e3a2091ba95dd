From Verif Require Import PyStr PyStrLemmas PyDict LiteralModel LiteralSpec LiteralProofs LiteralProofs2 LiteralProofs3.

(** ** The values in the stub *)

(** An expression of names, numbers and signs: true, false, the null pointers and the limits become the ones of Python, the numbers have the same
    digits, [::] becomes a dot, and everything else is as it was. *)
Theorem C76_value_partial ts : expression ts -> value_replacements (text ts) = text (python ts).
Proof. apply value_is. Qed.
Print Assumptions C76_value_partial.
(** What is written for Python is not changed when it is translated again. *)
Theorem C76_again ts : expression ts -> value_replacements (text (python ts)) = text (python ts).
Proof. intros E. rewrite value_is by (apply expression_python; exact E). rewrite python_python. reflexivity. Qed.
Print Assumptions C76_again.
Lemma no_brace c s : c <> "{"%char -> startswith $"{" (c :: s) = false.
Proof. intros N. change ($"{") with ["{"%char]. cbn [startswith]. destruct (ceqb_spec "{"%char c) as [<-|]; [congruence|reflexivity]. Qed.
Lemma braces ts : expression ts -> hd_error ts <> Some (Sign "{") -> startswith $"{" (text ts) = false.
Proof.
  destruct ts as [|[w|g l f e x| |c] r]; [reflexivity| | | |]; intros E H; rewrite text_cons.
  - destruct E as (W & _). apply is_name_of in W. destruct W as (N & W). destruct w as [|c w]; [congruence|]. inversion W; subst. cbn [app tok_text]. apply no_brace. intros ->. discriminate.
  - destruct E as (W & _). pose proof (number_chars g l f e x W) as C. destruct (tok_text (Number g l f e x)) as [|c t] eqn:T.
    + destruct W as (_ & _ & (L & _) & _). cbn [tok_text] in T. apply app_eq_nil in T. destruct T as (_ & T). apply app_eq_nil in T. destruct T. contradiction.
    + inversion C; subst. cbn [app]. apply no_brace. intros ->. discriminate.
  - reflexivity.
  - cbn [app tok_text]. apply no_brace. intros ->. apply H. reflexivity.
Qed.
Lemma python_head ts : hd_error ts <> Some (Sign "{") -> hd_error (python ts) <> Some (Sign "{").
Proof.
  destruct ts as [|[w|g l f e x| |c] r]; try (cbn; congruence). intros _. unfold python. cbn [flat_map python_tok]. unfold constant. destruct (find _ constants) as [(k, new)|] eqn:F; [|cbn; discriminate].
  apply find_some in F. destruct F as (F & _). cbn in F. repeat (destruct F as [F|F]; [injection F as _ <-; discriminate|]). destruct F.
Qed.
Lemma fold_same (A : Type) (f : str -> A -> str) (l : list A) s : Forall (fun x => f s x = s) l -> fold_left f l s = s.
Proof. induction 1 as [|x l X F IH]; [reflexivity|]. cbn. rewrite X. exact IH. Qed.
(** So is the value of a parameter or of a member, if it has no operators or types which the replacements of types know, no macros, and no names of the
    namespaces which are renamed or left out. *)
Theorem C76_default_partial types scoped macros namespaces roots ts :
  expression ts -> hd_error ts <> Some (Sign "{") -> types (text ts) = text ts -> scoped (text (python ts)) = text (python ts) ->
  Forall (fun m => contains (fst m) (text (python ts)) = false) macros ->
  Forall (fun n => fst n = snd n \/ contains (fst n ++ $".") (text (python ts)) = false) namespaces ->
  Forall (fun n => contains (n ++ $".") (text (python ts)) = false) roots ->
  value_to_python types scoped macros namespaces roots None (text ts) = text (python ts).
Proof.
  intros E H T S M N R. unfold value_to_python. rewrite T, value_is by exact E. rewrite (fold_same _ _ macros), S.
  - rewrite braces; [|apply expression_python; exact E|apply python_head; exact H]. cbn [andb]. rewrite (fold_same _ _ namespaces), (fold_same _ _ roots); [reflexivity| |].
    + eapply Forall_impl; [|exact R]. intros n. apply replace_no_occ.
    + eapply Forall_impl; [|exact N]. intros (a, b) [X|X]; cbn [fst snd] in *; destruct (seqb_spec a b) as [Y|Y]; try reflexivity; [contradiction|]. apply replace_no_occ. exact X.
  - eapply Forall_impl; [|exact M]. intros m. apply replace_no_occ.
Qed.
Print Assumptions C76_default_partial.

(** ** Cases *)

Definition case : list tok :=
  [Name $"Vec"; Sign "("; Sign "-"; Number [($"1", "'"%char); ($"000", "'"%char)] $"250" (Some $"5") (Some ("e"%char, Some "-"%char, $"3")) (Some "f"%char); Sign ","; Sign " ";
   Name $"Mode"; Colons; Name $"on"; Sign ","; Sign " "; Name $"nullptr"; Sign ","; Sign " "; Name $"FLT_MAX"; Sign ")"].
Example C76_case_text : text case = $"Vec(-1'000'250.5e-3f, Mode::on, nullptr, FLT_MAX)" /\ text (python case) = $"Vec(-1_000_250.5e-3, Mode.on, None, sys.float_info.max)".
Proof. split; reflexivity. Qed.
Lemma digits_known s : s <> [] -> forallb is_digit s = true -> digits s.
Proof. intros N F. split; [exact N|]. apply Forall_forall. apply forallb_forall. exact F. Qed.
Lemma case_number : is_number [($"1", "'"%char); ($"000", "'"%char)] $"250" (Some $"5") (Some ("e"%char, Some "-"%char, $"3")) (Some "f"%char).
Proof.
  split; [|split; [|split; [|split; [|split]]]].
  - constructor; [|constructor; [|constructor]]; (split; [apply digits_known; [discriminate|reflexivity]|left; reflexivity]).
  - constructor; [apply Nat.leb_le; reflexivity|]. constructor; [apply Nat.leb_le; reflexivity|constructor].
  - apply digits_known; [discriminate|reflexivity].
  - constructor; [reflexivity|constructor].
  - split; [left; reflexivity|]. split; [right; right; reflexivity|]. apply digits_known; [discriminate|reflexivity].
  - left. reflexivity.
Qed.
Lemma case_ok : expression case.
Proof.
  unfold case. cbn [expression apart no_point].
  repeat match goal with |- _ /\ _ => split | |- LiteralSpec.is_name $"FLT_MAX" => fail 1 | |- LiteralSpec.is_name _ => apply known_name; reflexivity | |- is_number _ _ _ _ _ => exact case_number | |- True => exact I | |- _ = false => reflexivity | |- _ <> _ => discriminate end.
  split; [discriminate|]. split; [|split; reflexivity]. cbn. repeat split; try discriminate; reflexivity.
Qed.
Example C76_value_case : value_replacements (text case) = text (python case).
Proof. apply C76_value_partial. exact case_ok. Qed.
Example C76_again_case : value_replacements $"Vec(-1_000_250.5e-3, Mode.on, None, sys.float_info.max)" = $"Vec(-1_000_250.5e-3, Mode.on, None, sys.float_info.max)".
Proof. apply (C76_again case). exact case_ok. Qed.
Example C76_default_case : value_to_python no_marks (fun s => s) [($"MAX_COUNT", $"256")] [($"Lib", $"lib")] [$"Internal"] None (text case) = text (python case).
Proof.
  apply C76_default_partial; [exact case_ok|discriminate|reflexivity|reflexivity| | |].
  - constructor; [reflexivity|constructor].
  - constructor; [right; reflexivity|constructor].
  - constructor; [reflexivity|constructor].
Qed.

(** ** What is not true *)

(** A name which ends with a digit after an underscore, and a D, is cut. *)
Theorem C76_identifier_refuted : value_replacements $"View_2D" = $"View_2" /\ value_replacements $"Mode::Flag_3f" = $"Mode.Flag_3".
Proof. split; reflexivity. Qed.
Print Assumptions C76_identifier_refuted.
(** The replacements of types take away the operators of products and of bits. *)
Theorem C76_operator_refuted : python_integer (value_to_python no_marks (fun s => s) [] [] [] None $"2*3") = Some 23.
Proof. reflexivity. Qed.
Print Assumptions C76_operator_refuted.
(** The letters u and l stay, so what is written is not a number of Python. *)
Theorem C76_unsigned_refuted : ~ exists g l f e, is_number g l f e None /\ value_replacements $"10u" = text [Number g l f e None].
Proof.
  intros (g & l & f & e & W & H). pose proof (number_chars g l f e None W) as C. unfold text in H. cbn [map concat] in H. rewrite app_nil_r in H. rewrite <- H in C. revert C. vm_compute. intros C.
  inversion C as [|? ? _ C1]; subst. inversion C1 as [|? ? _ C2]; subst. inversion C2; subst. discriminate.
Qed.
Print Assumptions C76_unsigned_refuted.
(** Numbers in base 8 are written as they are. *)
Theorem C76_octal_refuted : expression [Number [] $"010" None None None] /\ python_integer (value_replacements $"010") <> Some (cpp_integer $"010").
Proof.
  split; [|vm_compute; discriminate]. split; [|repeat split]. split; [constructor|]. split; [constructor|]. split; [apply digits_known; [discriminate|reflexivity]|]. repeat split.
Qed.
Print Assumptions C76_octal_refuted.
(** The text inside a string is changed too. *)
Theorem C76_string_refuted : value_replacements ([dq] ++ $"2d true a::b" ++ [dq]) = [dq] ++ $"2 True a.b" ++ [dq].
Proof. reflexivity. Qed.
Print Assumptions C76_string_refuted.
(** The name of a macro is replaced inside of longer names, and the name of a namespace which is left out is taken from the end of longer ones. *)
Theorem C76_macro_refuted : value_to_python (fun s => s) (fun s => s) [($"MAX", $"256")] [] [] None $"kMAXIMUM" = $"k256IMUM".
Proof. reflexivity. Qed.
Print Assumptions C76_macro_refuted.
Theorem C76_root_refuted : value_to_python (fun s => s) (fun s => s) [] [] [$"Lib"] None $"MyLib::size" = $"Mysize".
Proof. reflexivity. Qed.
Print Assumptions C76_root_refuted.
