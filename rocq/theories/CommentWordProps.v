From Verif Require Import PyStr PyStrLemmas InstanceModel InstanceSpec LiteralModel LiteralSpec CommentWordModel CommentWordSpec CommentWordProofs CommentWordProofs2 CommentModel CommentWordProofs3.
(** * C79: comments keep their text, except the words and the numbers which Python writes otherwise *)

(** In a comment with no digit and no point right before an f or a d, the result is the comment with each word looked up in the table of Python's words; everything else stays, in its order. *)
Theorem C79_words_partial s : calm s = true -> comment_replacements s = in_python s. Proof. exact (comment_words s). Qed.
Print Assumptions C79_words_partial.

(** To replace once more changes nothing. *)
Theorem C79_again s : calm s = true -> comment_replacements (comment_replacements s) = comment_replacements s.
Proof. intros C. rewrite (comment_words s C). rewrite comment_words by (apply calm_python; exact C). apply python_again. Qed.
Print Assumptions C79_again.

(** A decimal number with the suffix f or d, at the start or after a space, loses the suffix and nothing else. *)
Theorem C79_number_partial x l f e c y : calm x = true -> calm y = true -> x = [] \/ (exists x', x = x' ++ $" ") -> is_word_at y = false -> is_number [] l f e (Some c) -> c = "f"%char \/ c = "d"%char ->
  comment_replacements (x ++ number_text l f e ++ c :: y) = in_python x ++ number_text l f e ++ in_python y.
Proof. exact (comment_with_number x l f e c y). Qed.
Print Assumptions C79_number_partial.

(** The same for a comment with any number of such numbers, with text between them. *)
Theorem C79_numbers_partial l y : stretches true l y -> comment_replacements (concat (map stretch_text l) ++ y) = concat (map stretch_python l) ++ in_python y.
Proof. exact (comment_numbers l y). Qed.
Print Assumptions C79_numbers_partial.

(** In the whole preparation of a comment each line gives one line, in the same order: the words looked up, the spaces at its end taken away (with the option which strips empty lines left at its default). *)
Theorem C79_lines_partial c : calm c = true -> lines (comment_apply_replacements false comment_replacements c) = map (fun l => in_python (rstrip l)) (lines c).
Proof. exact (comment_lines c). Qed.
Print Assumptions C79_lines_partial.
Example C79_lines_case : let c := $"returns true  " ++ [nl; nl] ++ $"or NULL" in calm c = true /\ lines (comment_apply_replacements false comment_replacements c) = [$"returns True"; []; $"or None"].
Proof. split; vm_compute; reflexivity. Qed.

Example C79_words_case : calm ($"flag = true; p = nullptr, avoid") = true /\ comment_replacements ($"flag = true; p = nullptr, avoid") = $"flag = True; p = None, avoid" /\ in_python ($"flag = true; p = nullptr, avoid") = $"flag = True; p = None, avoid".
Proof. repeat split; vm_compute; reflexivity. Qed.
Example C79_number_case : comment_replacements ($"or NULL, default is " ++ number_text ($"1") (Some ($"5")) None ++ "f"%char :: $". Not false") = $"or None, default is 1.5. Not False".
Proof.
  rewrite C79_number_partial; [vm_compute; reflexivity|vm_compute; reflexivity|vm_compute; reflexivity|right; exists ($"or NULL, default is"); vm_compute; reflexivity|reflexivity| |left; reflexivity].
  repeat split; try discriminate; repeat constructor.
Qed.

Definition two_numbers : list stretch := [($"from ", ($"1", Some ($"5"), None), "f"%char); ($", if not NULL, to ", ($"2", None, Some ("e"%char, Some "-"%char, $"3")), "d"%char)].
Example C79_numbers_case : stretches true two_numbers ($". Default: true") /\ concat (map stretch_text two_numbers) ++ $". Default: true" = $"from 1.5f, if not NULL, to 2e-3d. Default: true" /\
  comment_replacements ($"from 1.5f, if not NULL, to 2e-3d. Default: true") = $"from 1.5, if not None, to 2e-3. Default: True".
Proof.
  split; [|split; vm_compute; reflexivity]. cbn [stretches two_numbers].
  split; [vm_compute; reflexivity|]. split; [right; exists ($"from"); vm_compute; reflexivity|]. split; [left; reflexivity|]. split; [repeat split; try discriminate; repeat constructor|]. split; [left; reflexivity|].
  split; [vm_compute; reflexivity|]. split; [right; exists ($", if not NULL, to"); vm_compute; reflexivity|]. split; [right; intros c r E; injection E as <- _; reflexivity|]. split; [repeat split; try discriminate; try (left; reflexivity); try (right; right; reflexivity); try (right; left; reflexivity); try (right; right; left; reflexivity); repeat constructor|]. split; [right; reflexivity|].
  split; [vm_compute; reflexivity|]. right. intros c r E. injection E as <- _. reflexivity.
Qed.

(** The words are replaced in prose as well: a sentence of a C++ comment which is not about code does not keep its text. *)
Theorem C79_prose_refuted : ~ (forall s, Forall (fun c => is_lower c = true \/ c = " "%char) s -> comment_replacements s = s).
Proof. intros H. assert (X : comment_replacements ($"it is true that") = $"it is true that") by (apply H; repeat (constructor; [first [left; reflexivity|right; reflexivity]|]); constructor). vm_compute in X. discriminate. Qed.
Print Assumptions C79_prose_refuted.

(** A word which is a number and a letter d is taken for a number with a suffix, and a name which ends so after an underscore is cut. *)
Theorem C79_dimension_refuted : ~ (forall s, in_python s = s -> comment_replacements s = s).
Proof. intros H. assert (X : comment_replacements ($"a 3d plot") = $"a 3d plot") by (apply H; vm_compute; reflexivity). vm_compute in X. discriminate. Qed.
Print Assumptions C79_dimension_refuted.
Theorem C79_name_refuted : ~ (forall n, n <> [] -> Forall (fun c => is_word c = true) n -> in_python n = n -> comment_replacements n = n).
Proof. intros H. assert (X : comment_replacements ($"View_2d") = $"View_2d") by (apply H; [discriminate|repeat constructor|vm_compute; reflexivity]). vm_compute in X. discriminate. Qed.
Print Assumptions C79_name_refuted.
