(** Model of the text utilities of src/codemanip/code_utils.py. [indent_code] and
    [spaces_or_tabs_at_line_start] are in RegionsModel.v. *)
From Verif Require Import PyStr RegionsModel.

(** src/codemanip/code_utils.py 37-50 [run_length_encode], at type [str]. [cur], [n] are the last
    item and count of [out_list]. *)
Fixpoint rle_from (cur : str) (n : nat) (l : list str) : list (str * nat) :=
  match l with
  | [] => [(cur, n)]
  | x :: l' => if seqb x cur then rle_from cur (S n) l' else (cur, n) :: rle_from x 1 l'
  end.
Definition run_length_encode (l : list str) : list (str * nat) :=
  match l with [] => [] | x :: l' => rle_from x 1 l' end.

(** src/codemanip/code_utils.py 67-73 [strip_empty_lines_in_list]. *)
Definition strip_empty_lines_in_list (ls : list str) : list str :=
  rev (dropwhile blank (rev (dropwhile blank ls))).

(** src/codemanip/code_utils.py 76-89 [code_set_max_consecutive_empty_lines]; a negative limit is
    [None]. *)
Definition code_set_max_consecutive_empty_lines (code : str) (nb_max : option nat) : str :=
  match nb_max with
  | None => code
  | Some m =>
      unlines (flat_map (fun p : str * nat =>
                 let nb := if blank (fst p) && (m <=? snd p) then m else snd p in
                 repeat (fst p) nb)
               (run_length_encode (lines code)))
  end.

(** src/codemanip/code_utils.py 92-95 [strip_empty_lines]. *)
Definition strip_empty_lines (code : str) : str :=
  unlines (strip_empty_lines_in_list (lines code)).

(** src/codemanip/code_utils.py 98-108 [strip_first_and_last_lines_if_empty]. *)
Definition strip_first_and_last_lines_if_empty (code : str) : str :=
  match lines code with
  | [] => code
  | l :: ls =>
      match (if blank l then ls else l :: ls) with
      | [] => code
      | ls1 =>
          match rev ls1 with
          | [] => code
          | e :: r => unlines (if blank e then rev r else ls1)
          end
      end
  end.

(** src/codemanip/code_utils.py 111-122 [line_cpp_comment_position]. *)
Fixpoint cpp_comment_scan (s : str) (i : nat) (in_string : bool) (last : option ascii)
  : option nat :=
  match s with
  | [] => None
  | c :: s' =>
      let after_bsl := match last with Some l => ceqb l bsl | None => false end in
      let after_slash := match last with Some l => ceqb l "/" | None => false end in
      let in_string' := if ceqb c dq && negb after_bsl then negb in_string else in_string in
      if ceqb c "/" && after_slash && negb in_string' then Some (i - 1)
      else cpp_comment_scan s' (S i) in_string' (Some c)
  end.
Definition line_cpp_comment_position (line : str) : option nat :=
  cpp_comment_scan line 0 false None.

(** src/codemanip/code_utils.py 125-157 [line_python_comment_position]. *)
Definition sq : ascii := "'".
Definition neutral_quotes (line : str) : str :=
  let l1 := replace [dq; dq; dq] ["_"; "_"; dq]%char line in
  let l2 := replace [sq; sq; sq] ["_"; "_"; sq]%char l1 in
  replace [sq] [dq] l2.
Fixpoint py_comment_scan (skip : bool) (s : str) (i : nat) (in_string seen : bool) : option nat :=
  match s with
  | [] => None
  | c :: s' =>
      let in_string' := if ceqb c dq then negb in_string else in_string in
      if ceqb c "#" && negb in_string' && (negb skip || seen) then Some i
      else py_comment_scan skip s' (S i) in_string' (seen || negb (is_space c))
  end.
Definition line_python_comment_position (line : str) (skip : bool) : option nat :=
  py_comment_scan skip (neutral_quotes line) 0 false false.
(** src/codemanip/code_utils.py 158-159. *)
Definition line_python_comment_eol_position (line : str) : option nat :=
  line_python_comment_position line true.

(** src/codemanip/code_utils.py 176-199 [align_python_comments_in_block]. *)
Definition opt_max (ps : list (option nat)) : option nat :=
  fold_right (fun p acc => match p, acc with
                           | None, _ => acc
                           | Some a, None => Some a
                           | Some a, Some b => Some (Nat.max a b)
                           end) None ps.
Definition align_line (m : nat) (line : str) : str :=
  match line_python_comment_eol_position line with
  | None => line
  | Some p => firstn p line ++ spaces (m - p) ++ $"#" ++ skipn (p + 1) line
  end.
Definition align_python_comments_in_block (code : str) : str :=
  let ls := lines code in
  match opt_max (map line_python_comment_eol_position ls) with
  | None => code
  | Some m => unlines (map (align_line m) ls)
  end.
(** src/codemanip/code_utils.py 164-168 [align_python_comments_in_block_lines]. *)
Definition align_python_comments_in_block_lines (ls : list str) : list str :=
  lines (align_python_comments_in_block (unlines ls)).

(** src/codemanip/code_utils.py 202-216 [last_code_position_before_cpp_comment]; [back line n]
    scans the [n] first characters from the right. *)
Fixpoint back (line : str) (n : nat) : nat :=
  match n with
  | 0 => 0
  | S p => if is_space (nth p line sp) then back line p else S p
  end.
Definition last_code_position_before_cpp_comment (line : str) : nat :=
  match line_cpp_comment_position line with
  | None => length (rstrip line)
  | Some p => back line p
  end.

(** src/codemanip/code_utils.py 223-226, [add_token_to_line]. *)
Definition add_token_to_line (token line : str) : str :=
  let pos := last_code_position_before_cpp_comment line in
  firstn pos line ++ token ++ skipn pos line.

(** src/codemanip/code_utils.py 219-230 [join_lines_with_token_before_cpp_comment]. *)
Definition join_lines_with_token_before_cpp_comment (ls : list str) (token : str) : str :=
  match rev ls with
  | [] => []
  | last :: r => unlines (map (add_token_to_line token) (rev r) ++ [last])
  end.

(** src/codemanip/code_utils.py 233-242 [add_item_before_cpp_comment]. *)
Definition add_item_before_cpp_comment (code item : str) : str :=
  match code with
  | [] => item
  | _ =>
      match rev (lines code) with
      | [] => item
      | last :: r => unlines (rev r ++ [add_token_to_line item last])
      end
  end.

(** src/codemanip/code_utils.py 558-565 [count_spaces_at_start_of_line]. *)
Definition count_spaces_at_start_of_line (line : str) : nat :=
  length (takewhile (fun c => ceqb c sp) line).

(** src/codemanip/code_utils.py 568-574 [compute_code_indent_size]. *)
Definition only_spaces (line : str) : bool := forallb (fun c => ceqb c sp) line.
Definition compute_code_indent_size (code : str) : nat :=
  match dropwhile only_spaces (lines code) with
  | [] => 0
  | l :: _ => count_spaces_at_start_of_line l
  end.

(** src/codemanip/code_utils.py 577-581 [remove_trailing_spaces]. *)
Definition remove_trailing_spaces (line : str) : str :=
  rev (dropwhile (fun c => ceqb c sp) (rev line)).

(** src/codemanip/code_utils.py 283-303 [unindent_code]. *)
Definition unindent_line (n : nat) (line : str) : str :=
  remove_trailing_spaces (if startswith (spaces n) line then skipn n line else line).
Definition unindent_code (code : str) (strip_empty : bool) : str :=
  let r := unlines (map (unindent_line (compute_code_indent_size code)) (lines code)) in
  if strip_empty then strip_empty_lines r else r.

(** src/codemanip/code_utils.py 306-315 [reindent_code]. *)
Definition reindent_code (code : str) (indent_size : nat) (skip_first_line : bool)
    (indent_str : str) : str :=
  indent_code (unindent_code code false) indent_size skip_first_line (Some indent_str) true.

(** src/codemanip/code_utils.py 318-328 [indent_code_lines]: the parameter [rstrip] is not passed
    on. *)
Definition indent_code_lines (ls : list str) (indent_size : nat) (skip_first_line : bool)
    (indent_str : option str) (do_rstrip : bool) : list str :=
  lines (indent_code (unlines ls) indent_size skip_first_line indent_str true).

(** src/codemanip/code_utils.py 368-378 [indent_code_force]. *)
Definition indent_code_force (code : str) (indent_size : nat) (indent_str : str) : str :=
  let ind := match indent_str with [] => spaces indent_size | _ => indent_str end in
  unlines (map (fun l => ind ++ strip l) (lines code)).

(** src/codemanip/code_utils.py 381-389 [format_python_comment]. *)
Definition format_python_comment (comment : str) (indent_size : nat) : str :=
  unlines (map (fun l => (spaces indent_size ++ $"# ") ++ l) (lines comment)).

(** src/codemanip/code_utils.py 392-409 [escape_backslash_in_comments]. *)
Definition kept_escape (c : ascii) : bool :=
  existsb (ceqb c) ["n"; "t"; "o"; "x"; dq; sq]%char.
Fixpoint escape_pairs (s : str) : str :=
  match s with
  | [] => []
  | [c] => if ceqb c bsl then [bsl; bsl] else [c]
  | c1 :: ((c2 :: _) as s') =>
      (if ceqb c1 bsl && negb (kept_escape c2) then [bsl; bsl] else [c1]) ++ escape_pairs s'
  end.
Definition escape_backslash_in_comments (s : str) : str :=
  match s with [] | [_] => s | _ => escape_pairs s end.

(** src/codemanip/code_utils.py 412-421 [format_cpp_comment_on_one_line]. *)
Definition format_cpp_comment_on_one_line (comment : option str) : str :=
  match comment with
  | None => []
  | Some c =>
      let is_multiline := contains [nl] c in
      let c1 := replace [nl] [bsl; "n"%char] c in
      let c2 := replace [dq] [bsl; dq] c1 in
      let c3 := escape_backslash_in_comments c2 in
      if is_multiline then c3 else strip c3
  end.

(** src/codemanip/code_utils.py 424-433 [format_cpp_comment_multiline]. *)
Definition format_cpp_comment_multiline (comment : str) (indentation_size : nat)
    (indentation_str : str) : str :=
  let ind := match indentation_str with [] => spaces indentation_size | _ => indentation_str end in
  unlines (map (fun l => ind ++ $"// " ++ l) (lines comment)).

(** src/codemanip/code_utils.py 436-446 [cpp_comment_remove_comment_markers]. *)
Definition cpp_comment_remove_comment_markers (comment : str) : str :=
  if startswith ($"//") comment then strip (skipn 2 comment)
  else if startswith ($"/*") comment then
    let r := strip (skipn 2 comment) in
    if endswith ($"*/") r then firstn (length r - 2) r else r
  else comment.

(** src/codemanip/code_utils.py 524-533 [force_one_space]. The [while True] loop runs on fuel;
    [None] means that it has not stopped yet. *)
Fixpoint one_space_loop (fuel : nat) (s : str) : option str :=
  match fuel with
  | 0 => None
  | S f =>
      let aux := replace [sp; sp] [sp] s in
      if seqb aux s then Some s else one_space_loop f aux
  end.
Definition force_one_space_start (code : str) : str :=
  replace [tab] [sp] (replace [nl] [sp] (strip code)).
Definition force_one_space (fuel : nat) (code : str) : option str :=
  one_space_loop fuel (force_one_space_start code).

(** src/codemanip/code_utils.py 547-555 [shorten_lines_containing_only_spaces]. *)
Definition shorten_lines_containing_only_spaces (code : str) : str :=
  unlines (map (fun l => if blank l then [] else l) (lines code)).

(** src/codemanip/code_utils.py 650-660 [remove_end_of_line_cpp_comments]: cut at the first "//". *)
Fixpoint cut_at (sub s : str) : str :=
  if startswith sub s then []
  else match s with [] => [] | c :: s' => c :: cut_at sub s' end.
Definition remove_end_of_line_cpp_comments (code : str) : str :=
  unlines (map (cut_at ($"//")) (lines code)).

(** src/codemanip/code_utils.py 663-666 [join_remove_empty]. *)
Definition join_remove_empty (sep : str) (l : list str) : str :=
  join sep (filter (fun s => match s with [] => false | _ => true end) l).
