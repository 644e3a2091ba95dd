(** Model of the rewriting of generated regions in files. *)
From Verif Require Import PyStr.

(** src/codemanip/code_utils.py 449-456 [spaces_or_tabs_at_line_start]. *)
Definition spaces_or_tabs_at_line_start (line : str) : str :=
  takewhile (fun c => ceqb c sp || ceqb c tab) line.

(** src/codemanip/code_utils.py 355-362, nested function [indent_line] of [indent_code]. *)
Definition indent_line (indent : str) (do_rstrip : bool) (line : str) : str :=
  match line with
  | [] => []
  | _ => indent ++ (if do_rstrip then rstrip line else line)
  end.

(** src/codemanip/code_utils.py 331-365 [indent_code], with [skip_first_line=False] and an
    explicit [indent_str]. *)
Definition indent_code_str (indent : str) (do_rstrip : bool) (text : str) : str :=
  unlines (map (indent_line indent do_rstrip) (lines text)).

(** src/codemanip/code_utils.py 331-365 [indent_code], all parameters. [indent_str = None] means
    [" " * indent_size]. *)
Definition indent_code (text : str) (indent_size : nat) (skip_first_line : bool)
    (indent_str : option str) (do_rstrip : bool) : str :=
  let ind := match indent_str with None => spaces indent_size | Some s => s end in
  if skip_first_line then
    match lines text with
    | [_] => text
    | first :: rest =>
        (if do_rstrip then rstrip first else first) ++ [nl]
          ++ indent_code_str ind do_rstrip (unlines rest)
    | [] => text
    end
  else indent_code_str ind do_rstrip text.

(** Local variables of the loop of src/codemanip/code_utils.py 474-502. [g_code] is the parameter
    [code_to_insert], which the loop reassigns (line 490). *)
Record gstate := { g_out : str; g_inside : bool; g_done : bool; g_code : str }.

(** What a call can raise. *)
Inductive gerror := FileNotFound | MoreThanOneMarker | MissingMarker.

Definition marker_in (tok : str) : str := $"<" ++ tok ++ $">".
Definition marker_out (tok : str) : str := $"</" ++ tok ++ $">".

(** One iteration of the loop, src/codemanip/code_utils.py 477-502. *)
Definition gstep (tok : str) (preserve : bool) (s : gstate) (line : str) : gerror + gstate :=
  let after_in :=
    if contains (marker_in tok) line then
      if g_inside s then inl MoreThanOneMarker
      else
        let indent := spaces_or_tabs_at_line_start line in
        let code' := if preserve then indent_code (g_code s) 1 false (Some indent) true
                     else g_code s in
        inr {| g_out := g_out s ++ line ++ [nl] ++ code'; g_inside := true; g_done := true;
               g_code := code' |}
    else if g_inside s then inr s
    else inr {| g_out := g_out s ++ line ++ [nl]; g_inside := false; g_done := g_done s;
                g_code := g_code s |} in
  match after_in with
  | inl e => inl e
  | inr s1 =>
      if contains (marker_out tok) line then
        inr {| g_out := g_out s1 ++ [nl] ++ line ++ [nl]; g_inside := false;
               g_done := g_done s1; g_code := g_code s1 |}
      else inr s1
  end.

Fixpoint gloop (tok : str) (preserve : bool) (s : gstate) (ls : list str) : gerror + gstate :=
  match ls with
  | [] => inr s
  | l :: ls' =>
      match gstep tok preserve s l with
      | inl e => inl e
      | inr s' => gloop tok preserve s' ls'
      end
  end.

(** src/codemanip/code_utils.py 503-504: drop one final newline. *)
Definition drop_final_nl (s : str) : str :=
  match rev s with
  | c :: r => if ceqb c nl then rev r else s
  | [] => s
  end.

(** The text computed from the text of the file, src/codemanip/code_utils.py 471-519. *)
Definition generated_text (tok code : str) (preserve : bool) (input : str) : gerror + str :=
  match gloop tok preserve {| g_out := []; g_inside := false; g_done := false; g_code := code |}
              (lines input) with
  | inl e => inl e
  | inr s => if g_done s then inr (drop_final_nl (g_out s)) else inl MissingMarker
  end.

(** Outcome of a call on a file: the error raised, if any; the file afterwards ([None]: no such
    file); whether the file was opened for writing. *)
Record gresult := { r_error : option gerror; r_file : option str; r_written : bool }.

(** src/codemanip/code_utils.py 459-521 [write_generated_code_between_markers] together with
    276-280 [write_text_file]. A file is its text; reading and writing are atomic. *)
Definition write_generated_code_between_markers (file : option str) (tok code : str)
    (preserve : bool) : gresult :=
  match file with
  | None => {| r_error := Some FileNotFound; r_file := None; r_written := false |}
  | Some input =>
      match generated_text tok code preserve input with
      | inl e => {| r_error := Some e; r_file := Some input; r_written := false |}
      | inr output =>
          if seqb output input then {| r_error := None; r_file := Some input; r_written := false |}
          else {| r_error := None; r_file := Some output; r_written := true |}
      end
  end.
