(** Comments: attaching them to elements, and writing them in stubs. *)
From Coq Require Import ZArith.
From Verif Require Import PyStr RegionsModel TextModel.

(** *** Attaching comments (src/srcmlcpp/internal/srcml_comments.py) *)

(** An xml element: tag, text, lines of its start and end (-1 when unknown), the rest of it. *)
Record elem := Elem { tag : str; etext : option str; e_start : Z; e_end : Z; inner : str }.

Definition linefeed_token : str := $"_SRCML_LINEFEED_".
Definition empty_line_content : str := $"_SRCML_EMPTY_LINE_".
Definition empty_line_comment : str := $"// " ++ empty_line_content.

(** src/srcmlcpp/internal/srcml_comments.py 115-119 [mark_empty_lines]. *)
Definition mark_empty_lines (code : str) : str :=
  unlines (map (fun l => if blank l then empty_line_comment else l) (lines code)).

Definition is_comment (e : elem) : bool := seqb (tag e) $"comment".
(** src/srcmlcpp/internal/srcml_comments.py 158-190: [pp], [p] are the two last children kept. *)
Definition shall_concat (pp p : option elem) (c : elem) : bool :=
  match p with
  | None => false
  | Some p =>
      if ((0 <=? e_start c) && (0 <=? e_end p))%Z then
        if is_comment p && is_comment c && (e_start c =? e_end p + 1)%Z then
          let after_code :=
            match pp with
            | Some pp => ((0 <=? e_end pp) && (e_end pp =? e_end p))%Z && negb (is_comment pp)
            | None => false
            end in
          let marked :=
            match etext c, etext p with
            | Some a, Some b => contains empty_line_content b || contains empty_line_content a
            | _, _ => false
            end in
          negb after_code && negb marked
        else false
      else false
  end.
(** src/srcmlcpp/internal/srcml_comments.py 144-154 [concat_comment]; [None]: AssertionError. *)
Definition without_slashes (t : str) : str := if startswith $"//" t then skipn 2 t else t.
Definition concat_comment (p c : elem) : option elem :=
  match etext c, etext p with
  | Some t, Some tp =>
      Some (Elem (tag p) (Some (tp ++ linefeed_token ++ without_slashes t)) (e_start p) (e_end c) (inner p))
  | _, _ => None
  end.
(** src/srcmlcpp/internal/srcml_comments.py 122-201 [_group_consecutive_comments]; [acc] holds the children
    kept so far, the last one first. A comment without end position keeps the one of the previous comment;
    srcml gives both positions or none, the model takes the one of the comment. *)
Fixpoint group_from (acc : list elem) (cs : list elem) : option (list elem) :=
  match cs with
  | [] => Some (rev acc)
  | c :: cs' =>
      if shall_concat (hd_error (tl acc)) (hd_error acc) c then
        match acc with
        | p :: acc' => match concat_comment p c with Some m => group_from (m :: acc') cs' | None => None end
        | [] => None
        end
      else group_from (c :: acc) cs'
  end.
Definition group_consecutive_comments (cs : list elem) : option (list elem) := group_from [] cs.

Definition text_of (e : elem) : str := match etext e with Some t => t | None => [] end.

(** src/srcmlcpp/internal/srcml_comments.py 204-223 [_is_comment_end_of_line]. *)
Definition is_comment_end_of_line (cs : list elem) (idx : nat) : bool :=
  match idx with
  | 0 => false
  | S j =>
      match nth_error cs j, nth_error cs idx with
      | Some previous, Some e =>
          is_comment e && negb (is_comment previous) && negb (contains empty_line_content (text_of e)) &&
          (e_start e =? e_end previous)%Z
      | _, _ => false
      end
  end.

(** src/srcmlcpp/internal/srcml_comments.py 237-260 [is_group_comment]. *)
Definition is_group_comment (cs : list elem) (idx : nat) : bool :=
  match nth_error cs idx, nth_error cs (idx + 1), nth_error cs (idx + 2) with
  | Some n0, Some n1, Some n2 =>
      is_comment n0 && seqb (tag n1) (tag n2) &&
      ((e_end n0 + 1 =? e_start n1) && (e_end n1 + 1 =? e_start n2))%Z
  | _, _, _ => false
  end.
(** src/srcmlcpp/internal/srcml_comments.py 226-307 [_is_comment_on_previous_line]. *)
Definition is_comment_on_previous_line (cs : list elem) (idx : nat) : bool :=
  if is_comment_end_of_line cs idx then false
  else if is_group_comment cs idx then false
  else
    match nth_error cs idx, nth_error cs (idx + 1) with
    | Some e, Some next =>
        is_comment e && negb (is_comment next) && negb (seqb (text_of e) (sp :: empty_line_content)) &&
        (e_end e + 1 =? e_start next)%Z &&
        match nth_error cs (idx + 2) with
        | None => true
        | Some n2 =>
            negb (is_comment n2 && (e_start n2 =? e_end next)%Z && negb (contains $"rv_policy::" (text_of n2)) &&
                  negb (contains $"return_value_policy::" (text_of n2)))
        end
    | _, _ => false
    end.

(** src/srcmlcpp/internal/srcml_comments.py 310-322 [_remove_comment_tokens]. *)
Definition remove_comment_tokens (comment : str) : str :=
  let c := replace linefeed_token [nl] comment in
  if startswith $"/*" c && endswith $"*/" c then firstn (length c - 2 - 2) (skipn 2 c)
  else unlines (map (fun l => if startswith $"//" (lstrip l) then skipn 2 l else l) (lines c)).
(** src/srcmlcpp/internal/srcml_comments.py 352-360 [remove_comment_tokens], with whether the comment is in
    C style. *)
Definition clean (e : elem) : elem * bool :=
  if is_comment e then
    match etext e with
    | Some t => (Elem (tag e) (Some (remove_comment_tokens t)) (e_start e) (e_end e) (inner e), startswith $"/*" t)
    | None => (e, false)
    end
  else (e, false).

(** An element with its comments. *)
Record attached := Attached { a_elem : elem; a_previous : str; a_eol : str; a_c_style : bool }.

(** src/srcmlcpp/internal/srcml_comments.py 391-396. *)
Definition unmark (t : str) : str := if contains [nl] t then replace empty_line_comment [] t else t.
(** src/srcmlcpp/internal/srcml_comments.py 365-398: the result for child number [i]. *)
Definition attach_at (cs : list elem) (c_style : list bool) (i : nat) : list attached :=
  match nth_error cs i with
  | None => []
  | Some e =>
      let above :=
        match i with
        | 0 => None
        | S j => if is_comment_on_previous_line cs j then Some j else None
        end in
      let previous :=
        match above with
        | Some j => match nth_error cs j with Some p => text_of p | None => [] end
        | None => []
        end in
      let style := match above with Some j => nth j c_style false | None => false end in
      let eol :=
        if is_comment_end_of_line cs (S i)
        then match nth_error cs (S i) with Some c => text_of c | None => [] end else [] in
      if is_comment_on_previous_line cs i || is_comment_end_of_line cs i then []
      else [Attached e (unmark previous) eol style]
  end.
Definition attach (cs : list elem) (c_style : list bool) : list attached :=
  flat_map (attach_at cs c_style) (seq 0 (length cs)).
(** src/srcmlcpp/internal/srcml_comments.py 341-398 [get_children_with_comments], after the filter on
    preprocessor regions. *)
Definition get_children_with_comments (cs : list elem) : option (list attached) :=
  match group_consecutive_comments cs with
  | None => None
  | Some gs => Some (attach (map fst (map clean gs)) (map snd (map clean gs)))
  end.

(** src/srcmlcpp/internal/cpp_types_parse.py 966-987 [parse_comment]: the text of a free comment. *)
Definition parse_comment (e : elem) : str :=
  match lines (text_of e) with
  | (_ :: _ :: _) as ls => unlines (map (fun l => if contains empty_line_content l then [] else l) ls)
  | _ => text_of e
  end.

(** *** Comments in stubs *)

Section Write.
(** [options.python_strip_empty_comment_lines], [options.python_reproduce_cpp_layout] and
    [options.comments_replacements.apply]. *)
Variable strip_empty : bool.
Variable reproduce_cpp_layout : bool.
Variable replacements : str -> str.

(** src/litgen/internal/cpp_to_python.py 21-39 [_comment_apply_replacements]. *)
Definition comment_apply_replacements (comment : str) : str :=
  let ls := lines comment in
  let ls := if strip_empty then strip_empty_lines_in_list ls else ls in
  match ls with
  | [] => []
  | _ => replacements (unlines (map rstrip ls))
  end.

(** src/srcmlcpp/cpp_types/base/cpp_element_comments.py 111-115 [full_comment]. *)
Definition full_comment (previous eol : str) : str :=
  match previous, eol with
  | _ :: _, _ :: _ => previous ++ [nl; nl] ++ eol
  | _, _ => previous ++ eol
  end.

(** src/litgen/internal/cpp_to_python.py 564-590 [docstring_lines]. *)
Definition docstring_lines (previous eol : str) : list str :=
  let d := comment_apply_replacements (full_comment previous eol) in
  let d := if startswith [dq] d then sp :: d else d in
  let d := if endswith [dq] d then d ++ [sp] else d in
  match d with
  | [] => []
  | _ =>
      match lines d with
      | [] => []
      | [l] => [[dq; dq; dq] ++ l ++ [dq; dq; dq]]
      | l :: ls => ([dq; dq; dq] ++ l) :: ls ++ [[dq; dq; dq]]
      end
  end.

(** src/litgen/internal/cpp_to_python.py 593-600 [comment_python_shall_place_at_end_of_line]. *)
Definition shall_place_at_end_of_line (previous eol : str) : bool :=
  if reproduce_cpp_layout then
    match comment_apply_replacements eol, comment_apply_replacements previous with
    | _ :: _, [] => true
    | _, _ => false
    end
  else false.
(** src/litgen/internal/cpp_to_python.py 603-609 [comment_python_end_of_line]. *)
Definition comment_python_end_of_line (eol : str) : str :=
  match comment_apply_replacements eol with
  | [] => []
  | e => $"  #" ++ e
  end.
(** src/litgen/internal/cpp_to_python.py 628-632 [add_sharp]. *)
Definition add_sharp (s : str) : str := if reproduce_cpp_layout then "#"%char :: s else $"# " ++ lstrip s.
(** src/litgen/internal/cpp_to_python.py 612-637 [comment_python_previous_lines]; [comment] is the full
    comment of the element, or the text of a free comment. *)
Definition comment_python_previous_lines (comment : str) : list str :=
  match comment_apply_replacements comment with
  | [] => []
  | c => map rstrip (map add_sharp (lines c))
  end.
(** src/litgen/internal/adapted_types/adapted_comment.py 43-54 [stub_lines]. *)
Definition free_comment_lines (comment : str) : list str :=
  map add_sharp (lines (comment_apply_replacements comment)).

(** src/litgen/internal/adapted_types/adapted_element.py 148-160 [_elm_stub_original_code_lines_info];
    [code] is the text of the element. *)
Definition original_code_lines (show : bool) (code : str) : list str :=
  if show then
    match strip_empty_lines code with
    | [] => []
    | c =>
        match map (fun l => $"# " ++ l) (lines c) with
        | [] => []
        | l :: ls => (l ++ $"    /* original C++ signature */") :: ls
        end
    end
  else [].
(** src/srcmlcpp/cpp_types/base/cpp_element_comments.py 90-97 [eol_comment_code]. *)
Definition eol_comment_code (eol : str) : str :=
  match eol with
  | [] => []
  | _ => if startswith $"//" (strip eol) then eol else $" //" ++ eol
  end.
(** src/litgen/internal/adapted_types/adapted_condition_macro.py 21-32 [stub_lines]. *)
Definition condition_macro_lines (macro_code previous eol : str) : list str :=
  comment_python_previous_lines (full_comment previous eol) ++
  map (fun l => $"# " ++ l) (lines (macro_code ++ eol_comment_code eol)).

(** src/litgen/internal/adapted_types/adapted_element.py 162-191 [_elm_str_stub_layout_lines]; [location]
    is what is added to the first line. *)
Definition stub_layout_lines (title : str) (titles : list str) (location : str) (previous eol : str)
    (body : list str) (indent_str : str) : list str :=
  let body := match body with [] => [$"pass"] | _ => body end in
  let body := align_python_comments_in_block_lines body in
  let doc := docstring_lines previous eol in
  let gap :=
    match doc with
    | [] => []
    | _ => if negb reproduce_cpp_layout && negb (match body with [b] => seqb b $"pass" | _ => false end) then [[]] else []
    end in
  indent_code_lines ((title ++ location) :: titles ++ doc ++ gap ++ body) 1 true (Some indent_str) true.
End Write.
