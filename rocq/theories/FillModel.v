From Verif Require Import PyStr PyDict TextModel.
(** Filling the templates from which the generated code is made. *)

(** The text searched for a placeholder: its name between braces. *)
Definition placeholder (name : str) : str := "{"%char :: name ++ ["}"%char].

(** src/codemanip/code_utils.py 818-823 [replace_in_string]. *)
Definition replace_in_string (input : str) (replacements : list (str * str)) : str :=
  fold_left (fun r kv => replace (placeholder (fst kv)) (snd kv) r) replacements input.

(** src/codemanip/code_utils.py 849-864 [replace_in_string_remove_line_if_none]. *)
Definition replace_or_remove (r : str) (kv : str * option str) : str :=
  match snd kv with
  | None => unlines (filter (fun line => negb (contains (placeholder (fst kv)) line)) (lines r))
  | Some v => replace (placeholder (fst kv)) v r
  end.
Definition replace_in_string_remove_line_if_none (input : str) (replacements : list (str * option str)) : str :=
  fold_left replace_or_remove replacements input.

(** src/codemanip/code_utils.py 826-846 [process_code_template], lines 839-845: the commas. *)
Definition cut_end (n : nat) (s : str) : str := firstn (length s - n) s.
Definition settle_commas (s : str) : str :=
  let r := replace (placeholder $"maybe_comma") $", " s in
  let r := if endswith $", " r then cut_end 2 r else r in
  let r := if endswith $", );" r then cut_end 4 r ++ $");" else r in
  if endswith $", )" r then cut_end 3 r ++ $")" else r.

(** src/codemanip/code_utils.py 826-846 [process_code_template]. *)
Definition process_code_template (input : str) (replacements : list (str * str))
  (with_line_removal : list (str * option str)) (flag_replace_maybe_comma : bool) : str :=
  let r := replace_in_string input replacements in
  let r := replace_in_string_remove_line_if_none r with_line_removal in
  if flag_replace_maybe_comma then settle_commas r else r.

(** src/codemanip/code_utils.py 867-879 [replace_maybe_comma]; [i] is the number of the line, [n] that of the line
    without a comma, counted from the end: 1 + nb_skipped_final_lines. *)
Definition comma_line (total skipped : nat) (i : nat) (line : str) : str :=
  if contains (placeholder $"maybe_comma") line
  then replace (placeholder $"maybe_comma") (if i + 1 + skipped =? total then [] else $",") line
  else line.
Fixpoint comma_lines (total skipped : nat) (i : nat) (ls : list str) : list str :=
  match ls with
  | [] => []
  | l :: r => comma_line total skipped i l :: comma_lines total skipped (S i) r
  end.
Definition replace_maybe_comma (code : str) (nb_skipped_final_lines : nat) : str :=
  unlines (comma_lines (length (lines code)) nb_skipped_final_lines 0 (lines code)).

(** src/litgen/internal/adapted_types/adapted_function.py 509-579 [_pydef_end_arg_docstring_returnpolicy]: the end of a
    binding, given what its five parts were found to be.  [indent] is _indent_cpp_spaces(). *)
Definition end_template : str := unlines
  [$"{_i_}{maybe_py_arg}{maybe_comma}"; $"{_i_}{maybe_docstring}{maybe_comma}";
   $"{_i_}{maybe_return_value_policy}{maybe_comma}"; $"{_i_}{maybe_keep_alive}{maybe_comma}";
   $"{_i_}{maybe_call_guard}{maybe_comma}"].
Record end_parts := EndParts {
  py_args : option str; docstring : option str; return_policy : option str; keep_alive : option str;
  call_guard : option str }.
Definition end_lines (e : end_parts) : list (str * option str) :=
  [($"maybe_py_arg", py_args e); ($"maybe_docstring", docstring e); ($"maybe_return_value_policy", return_policy e);
   ($"maybe_keep_alive", keep_alive e); ($"maybe_call_guard", call_guard e)].
Definition pydef_end (indent : str) (is_method : bool) (e : end_parts) : str :=
  process_code_template end_template [($"_i_", indent)] (end_lines e) true ++ (if is_method then $")" else $");").

(** src/litgen/internal/adapted_types/adapted_function.py 770-829 [_pydef_constructor_str] (a constructor which is not
    deleted): [py] is the name of the binding library, [location] the comment giving the original place, [pyarg] and
    [docstring] the two optional parts. *)
Definition constructor_template : str := unlines
  [$".def({py}::init<{arg_types}>(){maybe_comma}{location}"; $"{_i_}{maybe_pyarg}{maybe_comma}"; $"{_i_}{maybe_docstring}"].
Definition pydef_constructor (indent py location arg_types : str) (pyarg docstring : option str) : str :=
  let code := replace_in_string constructor_template
    [($"_i_", indent); ($"py", py); ($"location", location); ($"arg_types", arg_types)] in
  let code := replace_in_string_remove_line_if_none code [($"maybe_docstring", docstring); ($"maybe_pyarg", pyarg)] in
  add_item_before_cpp_comment (replace_maybe_comma code 0) $")".
