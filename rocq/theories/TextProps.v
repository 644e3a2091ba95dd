(** Properties C04 to C10: text utilities. *)
From Verif Require Import PyStr PyStrLemmas RegionsModel RegionsSpec TextModel TextSpec
  TextProofs TextProofs2 TextProofs3.

(** *** C04: limiting consecutive blank lines *)

(** Only blank lines are removed (an all-blank text may become empty). *)
Theorem C04_only_blank_lines_removed_partial :
  forall code n out,
  code_set_max_consecutive_empty_lines code (Some n) = out ->
  (out = [] /\ Forall is_blank_line (lines code)) \/ only_blank_removed (lines code) (lines out).
Proof. exact max_blank_only_blank_removed. Qed.
Print Assumptions C04_only_blank_lines_removed_partial.

(** The bound holds when blank lines are textually equal (for example all empty). *)
Theorem C04_blank_runs_bounded_partial :
  forall code n,
  (forall x y, In x (lines code) -> In y (lines code) ->
               is_blank_line x -> is_blank_line y -> x = y) ->
  let out := code_set_max_consecutive_empty_lines code (Some n) in
  out = [] \/ max_blank_run n (lines out).
Proof. exact max_blank_bound. Qed.
Print Assumptions C04_blank_runs_bounded_partial.

(** A text that meets the bound is left alone. *)
Theorem C04_bounded_text_unchanged_partial :
  forall code n,
  max_blank_run n (lines code) -> code_set_max_consecutive_empty_lines code (Some n) = code.
Proof. exact max_blank_noop. Qed.
Print Assumptions C04_bounded_text_unchanged_partial.

Example C04_case :
  code_set_max_consecutive_empty_lines (unlines [$"a"; []; []; []; $"b"; []; $"c"]) (Some 1)
  = unlines [$"a"; []; $"b"; []; $"c"].
Proof. vm_compute. reflexivity. Qed.

(** The bound fails when blank lines differ in their spaces. *)
Theorem C04_mixed_blank_lines_refuted :
  exists code n,
  ~ max_blank_run n (lines (code_set_max_consecutive_empty_lines code (Some n))).
Proof.
  exists (unlines [$"a"; []; $" "; []; $"b"]), 1. intros H.
  specialize (H [$"a"] [[]; $" "; []] [$"b"] eq_refl). cbn in H.
  assert (3 <= 1); [|lia]. apply H. repeat constructor.
Qed.
Print Assumptions C04_mixed_blank_lines_refuted.

(** *** C05: comments as one-line C string contents *)

Theorem C05_comment_literal_is_closed_partial :
  forall comment, comment <> [bsl] ->
  closed_literal (format_cpp_comment_on_one_line (Some comment)).
Proof. exact one_line_comment_closed. Qed.
Print Assumptions C05_comment_literal_is_closed_partial.

(** The literal denotes the comment itself (stripped if it has one line), unless the comment
    holds a backslash that the code leaves as an escape. *)
Theorem C05_comment_literal_denotes_comment_partial :
  forall comment, no_user_escape comment -> comment <> [bsl] ->
  denotes (format_cpp_comment_on_one_line (Some comment))
          (if contains [nl] comment then comment else strip comment).
Proof. exact one_line_comment_denotes. Qed.
Print Assumptions C05_comment_literal_denotes_comment_partial.

Example C05_case :
  format_cpp_comment_on_one_line (Some (unlines [$"say " ++ [dq] ++ $"a\b" ++ [dq]; $"done\"]))
  = $"say \" ++ [dq] ++ $"a\\b\" ++ [dq] ++ $"\ndone\\" /\
  no_user_escape (unlines [$"say " ++ [dq] ++ $"a\b" ++ [dq]; $"done\"]).
Proof. split; [vm_compute; reflexivity|]. cbn. intuition discriminate. Qed.

(** A comment made of one backslash escapes the closing quote. *)
Theorem C05_single_backslash_refuted :
  exists comment, ~ closed_literal (format_cpp_comment_on_one_line (Some comment)).
Proof.
  exists [bsl]. intros H.
  change (closed_literal [bsl]) in H. inversion H; congruence.
Qed.
Print Assumptions C05_single_backslash_refuted.

(** A path such as C:\new is not kept: the literal denotes a newline instead. *)
Theorem C05_user_escape_refuted :
  exists comment text, denotes (format_cpp_comment_on_one_line (Some comment)) text /\
    text <> comment /\ strip comment = comment.
Proof.
  exists ($"C:\new"), ($"C:" ++ [nl] ++ $"ew"). split; [|split; [discriminate|reflexivity]].
  vm_compute. repeat (apply den_plain; [discriminate|discriminate|discriminate|]).
  apply den_nl. repeat (apply den_plain; [discriminate|discriminate|discriminate|]). constructor.
Qed.
Print Assumptions C05_user_escape_refuted.

(** *** C06: aligning end-of-line comments *)

Theorem C06_align_only_moves_comments_partial :
  forall code, exists col,
  Forall2 (fun l l' => moved_comment col l l' \/
                       (l' = l /\ forall a b, ~ plain_eol_comment l a b))
          (lines code) (lines (align_python_comments_in_block code)).
Proof. exact align_spec. Qed.
Print Assumptions C06_align_only_moves_comments_partial.

Theorem C06_align_idempotent :
  forall code,
  align_python_comments_in_block (align_python_comments_in_block code)
  = align_python_comments_in_block code.
Proof. exact align_idem. Qed.
Print Assumptions C06_align_idempotent.

Example C06_case :
  align_python_comments_in_block (unlines [$"a = 1 # one"; $"# alone"; $"bcd = 22 # two"; $"e"])
  = unlines [$"a = 1    # one"; $"# alone"; $"bcd = 22 # two"; $"e"] /\
  plain_eol_comment ($"a = 1 # one") ($"a = 1 ") ($" one").
Proof.
  split; [vm_compute; reflexivity|]. split; [reflexivity|]. split.
  - intros H. inversion H; discriminate.
  - repeat constructor; discriminate.
Qed.

(** A # sign inside a string literal with mixed quotes, or inside a comment line, is taken for an
    end-of-line comment: the contents change. *)
Theorem C06_string_literal_changed_refuted :
  exists code, nth 0 (lines code) [] = $"s = " ++ [dq] ++ $"a' # b" ++ [dq] /\
    nth 0 (lines (align_python_comments_in_block code)) []
    = $"s = " ++ [dq] ++ $"a'    # b" ++ [dq].
Proof.
  exists (unlines [$"s = " ++ [dq] ++ $"a' # b" ++ [dq]; $"x = 1 + 22 # two"]).
  split; vm_compute; reflexivity.
Qed.
Print Assumptions C06_string_literal_changed_refuted.

Theorem C06_comment_line_changed_refuted :
  exists code, nth 0 (lines code) [] = $"# a # b" /\
    nth 0 (lines (align_python_comments_in_block code)) [] = $"# a   # b".
Proof. exists (unlines [$"# a # b"; $"x = 1 # c"]). split; vm_compute; reflexivity. Qed.
Print Assumptions C06_comment_line_changed_refuted.

(** An empty list of lines becomes a list with one line. *)
Theorem C06_empty_block_refuted :
  exists ls, length (align_python_comments_in_block_lines ls) <> length ls.
Proof. exists []. vm_compute. discriminate. Qed.
Print Assumptions C06_empty_block_refuted.

(** *** C07: indenting and unindenting *)

Theorem C07_indent_lines :
  forall code n,
  Forall2 (indented (spaces n)) (lines code) (lines (indent_code code n false None true)).
Proof. exact indent_code_lines_spec. Qed.
Print Assumptions C07_indent_lines.

Theorem C07_unindent_undoes_indent :
  forall code n,
  (forall pre l post, lines code = pre ++ l :: post -> Forall is_blank_line pre ->
     ~ is_blank_line l -> match l with c :: _ => c <> sp | [] => True end) ->
  lines (unindent_code (indent_code code n false None true) false) = map rstrip (lines code).
Proof. exact unindent_indent. Qed.
Print Assumptions C07_unindent_undoes_indent.

Theorem C07_unindent_only_removes_spaces :
  forall code, exists n,
  Forall2 (fun l l' => exists k t, l = spaces k ++ l' ++ t /\ Forall (eq sp) t /\ (k = n \/ k = 0))
          (lines code) (lines (unindent_code code false)).
Proof. exact unindent_only_removes_spaces. Qed.
Print Assumptions C07_unindent_only_removes_spaces.

Definition ex_block := unlines [[]; $"def f():  "; $"    return 1"; $"  "; []].

Example C07_case :
  indent_code ex_block 4 false None true
  = unlines [[]; $"    def f():"; $"        return 1"; $"    "; []] /\
  unindent_code (indent_code ex_block 4 false None true) false
  = unlines [[]; $"def f():"; $"    return 1"; []; []] /\
  (forall pre l post, lines ex_block = pre ++ l :: post -> Forall is_blank_line pre ->
     ~ is_blank_line l -> match l with c :: _ => c <> sp | [] => True end).
Proof.
  split; [vm_compute; reflexivity|]. split; [vm_compute; reflexivity|].
  intros pre l post E Hp Hl. vm_compute in E.
  destruct pre as [|x pre]; cbn in E; inversion E; subst; [exact I|].
  destruct pre as [|y pre]; cbn in H1; inversion H1; subst; [discriminate|].
  inversion Hp as [|? ? _ Hp']; subst. inversion Hp' as [|? ? Hy _]; subst.
  inversion Hy; discriminate.
Qed.

(** The keep-trailing-spaces option of the list version is ignored. *)
Theorem C07_rstrip_option_ignored_refuted :
  exists ls, indent_code_lines ls 2 false None false <> map (fun l => spaces 2 ++ l) ls /\
    Forall (fun l => l <> [] /\ ~ In nl l) ls.
Proof.
  exists [$"a "]. split; [vm_compute; discriminate|].
  repeat constructor; [discriminate|]. vm_compute. intuition discriminate.
Qed.
Print Assumptions C07_rstrip_option_ignored_refuted.

(** Changing the indentation with the default indent string always removes it. *)
Theorem C07_reindent_ignores_size_refuted :
  forall n, reindent_code ($"a") n false [] = $"a".
Proof. intros n. vm_compute. reflexivity. Qed.
Print Assumptions C07_reindent_ignores_size_refuted.

(** *** C08: stripping blank lines at both ends *)

Theorem C08_strip_blank_lines :
  forall code, exists pre kept post,
  lines code = pre ++ kept ++ post /\ Forall is_blank_line pre /\ Forall is_blank_line post /\
  (kept = [] \/
   exists x y m, (kept = [x] /\ y = x /\ m = [] \/ kept = x :: m ++ [y]) /\
               ~ is_blank_line x /\ ~ is_blank_line y) /\
  strip_empty_lines code = unlines kept.
Proof. exact strip_empty_lines_spec. Qed.
Print Assumptions C08_strip_blank_lines.

Theorem C08_strip_idempotent :
  forall code, strip_empty_lines (strip_empty_lines code) = strip_empty_lines code.
Proof. exact strip_empty_lines_idem. Qed.
Print Assumptions C08_strip_idempotent.

Example C08_case :
  strip_empty_lines (unlines [[]; $"  "; $" a"; []; $"b"; $" "; []]) = unlines [$" a"; []; $"b"].
Proof. vm_compute. reflexivity. Qed.

(** *** C09: one space between words *)

Theorem C09_force_one_space :
  forall code, exists fuel0, forall fuel, fuel0 <= fuel ->
  force_one_space fuel code = Some (join [sp] (words (strip code))).
Proof. exact force_one_space_spec. Qed.
Print Assumptions C09_force_one_space.

Example C09_case :
  force_one_space 10 (unlines [$"  int    a"; $"  = 1;"; []]) = Some ($"int a = 1;") /\
  words (unlines [$"  int    a"; $"  = 1;"; []]) = [$"int"; $"a"; $"="; $"1;"].
Proof. split; vm_compute; reflexivity. Qed.

(** *** C10: adding a token before the trailing comment *)

Theorem C10_token_before_comment_partial :
  forall line item, simple_escapes false line = true ->
  exists code comment ws,
    line = code ++ comment /\
    match lex_comment false line 0 with
    | Some p => length code = p /\ startswith ($"//") comment = true
    | None => comment = []
    end /\
    code = rstrip code ++ ws /\ is_blank_line ws /\
    add_token_to_line item line = rstrip code ++ item ++ ws ++ comment.
Proof. exact add_token_spec. Qed.
Print Assumptions C10_token_before_comment_partial.

(** Only the last line of a text, or all lines but the last of a list, receive the token. *)
Theorem C10_item_goes_to_last_line :
  forall code item pre line, code <> [] -> lines code = pre ++ [line] ->
  add_item_before_cpp_comment code item = unlines (pre ++ [add_token_to_line item line]).
Proof. exact add_item_last_line. Qed.
Print Assumptions C10_item_goes_to_last_line.

Theorem C10_token_goes_to_all_but_last :
  forall ls last token,
  join_lines_with_token_before_cpp_comment (ls ++ [last]) token
  = unlines (map (add_token_to_line token) ls ++ [last]).
Proof. exact join_lines_with_token_eq. Qed.
Print Assumptions C10_token_goes_to_all_but_last.

Definition ex_line := $"f(" ++ [dq] ++ $"// \" ++ [dq; dq] ++ $")   // call \f".
Example C10_case :
  simple_escapes false ex_line = true /\
  add_item_before_cpp_comment ex_line ($";")
  = $"f(" ++ [dq] ++ $"// \" ++ [dq; dq] ++ $");   // call \f".
Proof. split; vm_compute; reflexivity. Qed.

(** A string literal ending with an escaped backslash hides the comment: the item is put after
    the comment sign, so it is commented out. *)
Theorem C10_escaped_backslash_refuted :
  exists line, lex_comment false line 0 = Some 8 /\
    add_item_before_cpp_comment line ($";") = line ++ $";".
Proof.
  exists ($"f(" ++ [dq] ++ $"\\" ++ [dq] ++ $") // c"). split; vm_compute; reflexivity.
Qed.
Print Assumptions C10_escaped_backslash_refuted.
