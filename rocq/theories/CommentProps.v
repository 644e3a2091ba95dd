(** Properties C13, C35 and C36. *)
From Coq Require Import ZArith.
From Verif Require Import PyStr PyStrLemmas RegionsModel TextModel CommentModel CommentSpec.
From Verif Require Import CommentProofs CommentProofs2 CommentProofs3 CommentProofs4.

(** *** C13: comments and elements *)

(** Blank lines are marked in place. *)
Theorem C13_blank_lines : forall code, exists ls, lines (mark_empty_lines code) = ls /\ length ls = length (lines code) /\
  forall i l, nth_error (lines code) i = Some l ->
    (blank l = true -> nth_error ls i = Some empty_line_comment) /\ (blank l = false -> nth_error ls i = Some l).
Proof. exact mark_lines. Qed.
Print Assumptions C13_blank_lines.

(** Grouping raises nothing when comments have a text. *)
Theorem C13_succeeds : forall cs, Forall (fun e => is_comment e = true -> etext e <> None) cs ->
  exists es, group_consecutive_comments cs = Some es.
Proof. exact group_succeeds. Qed.
Print Assumptions C13_succeeds.

(** Comments on consecutive lines are merged, and every comment is then in one place: free, above an element or
    behind an element. *)
Theorem C13_one_place : forall cs r, get_children_with_comments cs = Some r ->
  exists gs es, concat gs = cs /\ Forall2 merged gs es /\ Forall run gs /\ groups_apart (pairs gs es) /\
    attaches (map cleaned es) r.
Proof. exact children_attached. Qed.
Print Assumptions C13_one_place.

(** The other elements are kept, each once and in order. *)
Theorem C13_elements_kept : forall cs r, get_children_with_comments cs = Some r ->
  map a_elem (filter (fun a => negb (is_comment (a_elem a))) r) = filter (fun e => negb (is_comment e)) cs.
Proof. exact children_elements. Qed.
Print Assumptions C13_elements_kept.

(** The lines of comments are kept, each once and in order. Missing: comments in C style and comments with more
    slashes after the first two, see [C13_slashes_refuted]; empty comments. *)
Theorem C13_lines_kept_partial : forall cs r, get_children_with_comments cs = Some r -> Forall simple_comment cs ->
  filter nonempty (flat_map comment_lines r) = filter nonempty (map comment_body (filter is_comment cs)).
Proof. exact no_line_lost. Qed.
Print Assumptions C13_lines_kept_partial.

(** A comment on the line of an element and after it is attached to it. *)
Theorem C13_behind : forall pre e c post st,
  is_comment e = false -> is_comment c = true -> e_start c = e_end e ->
  contains empty_line_content (text_of c) = false ->
  exists p s, In (Attached e p (text_of c) s) (attach (pre ++ e :: c :: post) st).
Proof. exact eol_attached. Qed.
Print Assumptions C13_behind.

(** A comment above an element is attached to it when it is not itself behind another element, and when the
    element is not the first of a series of elements of the same kind and has no comment behind it. *)
Theorem C13_above : forall pre c e post st,
  is_comment c = true -> is_comment e = false -> (e_end c + 1)%Z = e_start e ->
  text_of c <> sp :: empty_line_content ->
  (forall x, hd_error (rev pre) = Some x -> is_comment x = true \/ e_end x <> e_start c) ->
  (forall x, hd_error post = Some x ->
    ~ (tag x = tag e /\ (e_end e + 1)%Z = e_start x) /\ ~ (is_comment x = true /\ e_start x = e_end e)) ->
  exists q s, In (Attached e (unmark (text_of c)) q s) (attach (pre ++ c :: e :: post) st).
Proof. exact previous_attached. Qed.
Print Assumptions C13_above.

(** A comment above a series of elements of the same kind stays free. *)
Theorem C13_above_series : forall pre c e1 e2 post st,
  is_comment c = true -> is_comment e1 = false -> tag e1 = tag e2 ->
  (e_end c + 1)%Z = e_start e1 -> (e_end e1 + 1)%Z = e_start e2 ->
  (forall x, hd_error (rev pre) = Some x -> is_comment x = true \/ e_end x <> e_start c) ->
  exists p q s, In (Attached c p q s) (attach (pre ++ c :: e1 :: e2 :: post) st).
Proof. exact group_comment_free. Qed.
Print Assumptions C13_above_series.

(** The text of a comment in C style is what stands between its signs. *)
Theorem C13_c_text : forall x, contains linefeed_token ($"/*" ++ x ++ $"*/") = false ->
  remove_comment_tokens ($"/*" ++ x ++ $"*/") = x.
Proof. exact c_text. Qed.
Print Assumptions C13_c_text.

Definition comment_at (t : string) (a b : Z) : elem := Elem $"comment" (Some $t) a b [].
Definition function_at (name : string) (a : Z) : elem := Elem $"function_decl" None a a $name.
(** The end of the example of src/srcmlcpp/internal/srcml_comments.py 32-54. *)
Definition example_children : list elem :=
  [comment_at "/*
A multiline C comment
*/" 2 4; function_at "Foo1" 5;
   comment_at "// _SRCML_EMPTY_LINE_" 6 6;
   comment_at "// First line" 7 7; comment_at "// Second line" 8 8; function_at "Foo2" 9;
   comment_at "// _SRCML_EMPTY_LINE_" 10 10;
   comment_at "// On top" 11 11; function_at "Foo3" 12; comment_at "// Behind Foo3" 12 12;
   function_at "Foo4" 13; comment_at "// Behind Foo4" 13 13; comment_at "// Last" 14 14].
Example C13_case : option_map (map (fun a => (text_of (a_elem a), inner (a_elem a), a_previous a, a_eol a)))
    (get_children_with_comments example_children) =
  Some [([], $"Foo1", $"
A multiline C comment
", []); ($" _SRCML_EMPTY_LINE_", [], [], []);
    ([], $"Foo2", $" First line" ++ [nl] ++ $" Second line", []); ($" _SRCML_EMPTY_LINE_", [], [], []);
    ($" On top", [], [], []); ([], $"Foo3", [], $" Behind Foo3"); ([], $"Foo4", [], $" Behind Foo4");
    ($" Last", [], [], [])].
Proof. vm_compute. reflexivity. Qed.
Example C13_simple_case : Forall simple_comment (tl example_children).
Proof.
  repeat constructor; intros H; try discriminate H; eexists; (split; [reflexivity|]); (split; [|repeat split]);
    intros I; vm_compute in I; intuition discriminate.
Qed.

(** Characters are lost when the second of two comments has more slashes. *)
Theorem C13_slashes_refuted : exists cs r, Forall (fun c => is_comment c = true) cs /\
  get_children_with_comments cs = Some r /\
  map comment_body cs = [$" a"; $" // b"] /\ flat_map comment_lines r = [$" a"; $"/ b"].
Proof.
  exists [comment_at "// a" 1 1; comment_at "// // b" 2 2]. eexists. split; [repeat constructor|]. vm_compute. auto.
Qed.
Print Assumptions C13_slashes_refuted.
(** Two comments in C style on consecutive lines become one, with signs inside. *)
Theorem C13_c_signs_refuted : exists cs r, get_children_with_comments cs = Some r /\
  map (fun c => remove_comment_tokens (text_of c)) cs = [$" a "; $" b "] /\
  flat_map comment_lines r = [$" a */"; $"/* b "].
Proof. exists [comment_at "/* a */" 1 1; comment_at "/* b */" 2 2]. eexists. vm_compute. auto. Qed.
Print Assumptions C13_c_signs_refuted.

(** *** C35: docstrings *)

(** The lines of a docstring are one literal. Missing: texts with three quotes, or escapes such as [\x], or a
    single line that ends with a backslash, see the refutations. *)
Theorem C35_closed_partial : forall strip_empty replacements previous eol,
  let t := comment_apply_replacements strip_empty replacements (full_comment previous eol) in
  t <> [] -> contains [dq; dq; dq] t = false -> plain_escapes t -> (In nl t \/ ends_escaping t = false) ->
  triple_literal (unlines (docstring_lines strip_empty replacements previous eol)).
Proof. exact (fun s r p e H0 H1 H2 H3 => docstring_literal s r p e H0 (conj H1 H2) H3). Qed.
Print Assumptions C35_closed_partial.

(** The same in the stub of an element, where it follows the title and is indented. *)
Theorem C35_in_stub_partial : forall strip_empty reproduce replacements title titles location previous eol body i,
  let t := comment_apply_replacements strip_empty replacements (full_comment previous eol) in
  t <> [] -> contains [dq; dq; dq] t = false -> plain_escapes t -> (In nl t \/ ends_escaping t = false) ->
  Forall (fun c => c = sp) i ->
  exists a doc b lit,
    stub_layout_lines strip_empty reproduce replacements title titles location previous eol body i = a ++ doc ++ b /\
    length a = length (lines (unlines ((title ++ location) :: titles))) /\
    unlines doc = i ++ lit /\ triple_literal lit.
Proof. exact stub_docstring. Qed.
Print Assumptions C35_in_stub_partial.

Definition quote : string := String dq "".
Example C35_case : docstring_lines false (fun s => s) $" The words
are here" ($quote ++ $"quoted" ++ $quote) =
  [[dq; dq; dq] ++ $" The words"; $"are here"; []; $quote ++ $"quoted" ++ $quote ++ [sp]; [dq; dq; dq]].
Proof. vm_compute. reflexivity. Qed.
Example C35_hypotheses_case :
  let t := comment_apply_replacements false (fun s => s) (full_comment $" The \n words" ($quote ++ $"quoted" ++ $quote)) in
  t <> [] /\ contains [dq; dq; dq] t = false /\ plain_escapes t /\ (In nl t \/ ends_escaping t = false).
Proof. vm_compute. repeat split; auto; discriminate. Qed.

Lemma not_literal s body : s = [dq; dq; dq] ++ body ++ [dq; dq; dq] ->
  close_triple (body ++ [dq; dq; dq]) <> Some (body, []) \/ safe_escapes body = false -> ~ triple_literal s.
Proof.
  intros -> H (b & E & H1 & H2). apply app_inv_head in E. apply app_inv_tail in E. subst b.
  destruct H as [H|H]; [auto|congruence].
Qed.
(** A comment with three quotes closes the docstring. *)
Theorem C35_quotes_refuted : exists previous,
  ~ triple_literal (unlines (docstring_lines false (fun s => s) previous [])).
Proof.
  exists ($"a " ++ [dq; dq; dq] ++ $" b"). apply (not_literal _ ($"a " ++ [dq; dq; dq] ++ $" b")); [reflexivity|].
  left. vm_compute. discriminate.
Qed.
Print Assumptions C35_quotes_refuted.
(** A line that ends with a backslash hides the quotes that close it. *)
Theorem C35_backslash_refuted : exists previous,
  ~ triple_literal (unlines (docstring_lines false (fun s => s) previous [])).
Proof.
  exists $"ends with \". apply (not_literal _ $"ends with \"); [reflexivity|]. left. vm_compute. discriminate.
Qed.
Print Assumptions C35_backslash_refuted.
(** A path or a command of a documentation tool is a malformed escape. *)
Theorem C35_escape_refuted : exists previous,
  ~ triple_literal (unlines (docstring_lines false (fun s => s) previous [])).
Proof.
  exists $"in C:\users". apply (not_literal _ $"in C:\users"); [reflexivity|]. right. vm_compute. reflexivity.
Qed.
Print Assumptions C35_escape_refuted.

(** *** C36: comment lines *)

Theorem C36_above : forall strip_empty reproduce replacements c,
  Forall comment_line (comment_python_previous_lines strip_empty reproduce replacements c).
Proof. exact previous_lines. Qed.
Print Assumptions C36_above.
Theorem C36_free : forall strip_empty reproduce replacements c,
  Forall comment_line (free_comment_lines strip_empty reproduce replacements c).
Proof. exact free_lines. Qed.
Print Assumptions C36_free.
Theorem C36_original_code : forall show code, Forall comment_line (original_code_lines show code).
Proof. exact (original_lines (fun s => s)). Qed.
Print Assumptions C36_original_code.
Theorem C36_macros : forall strip_empty reproduce replacements code previous eol,
  Forall comment_line (condition_macro_lines strip_empty reproduce replacements code previous eol).
Proof. exact macro_lines. Qed.
Print Assumptions C36_macros.
(** They stay so in the stub of a class or a namespace. *)
Theorem C36_indented : forall i l, Forall (fun c => c = sp) i -> comment_line l -> comment_line (indent_line i true l).
Proof. exact comment_line_indent. Qed.
Print Assumptions C36_indented.
(** A comment behind code stays on its line. Missing: comments over several lines, see the refutation. *)
Theorem C36_behind_partial : forall strip_empty replacements e,
  (forall s, ~ In nl s -> ~ In nl (replacements s)) -> ~ In nl e ->
  comment_python_end_of_line strip_empty replacements e = [] \/
  exists r, comment_python_end_of_line strip_empty replacements e = $"  #" ++ r /\ r <> [] /\ ~ In nl r.
Proof. exact eol_no_nl. Qed.
Print Assumptions C36_behind_partial.

Example C36_case : comment_python_previous_lines true false (fun s => s) $"
 First line
   second line" = [$"# First line"; $"# second line"].
Proof. vm_compute. reflexivity. Qed.
Example C36_macro_case : condition_macro_lines false true (fun s => s) $"#ifdef A" $" above" $" behind" =
  [$"# above"; $"#"; $"# behind"; $"# #ifdef A // behind"].
Proof. vm_compute. reflexivity. Qed.
Example C36_original_case : original_code_lines true $"
void f(
  int a);" = [$"# void f(    /* original C++ signature */"; $"#   int a);"].
Proof. vm_compute. reflexivity. Qed.

(** A comment in C style over two lines behind an element: its second line is code. *)
Theorem C36_behind_refuted : exists e l, In l (lines (comment_python_end_of_line false (fun s => s) e)) /\ ~ comment_line l.
Proof.
  exists $" first
second ", $"second". split; [vm_compute; auto|]. intros (a & b & E & _ & _).
  assert (I : In "#"%char $"second") by (rewrite E; apply in_or_app; right; left; auto).
  vm_compute in I. intuition discriminate.
Qed.
Print Assumptions C36_behind_refuted.
