From Verif Require Import PyStr PyDict InstanceModel LiteralModel.
(** The replacements which are made in comments. *)

(** The last rule of src/litgen/internal/cpp_to_python.py 843-868 [standard_comment_replacements]: as the rule for the numbers of values
    (820-838), but only the small letters f and d are taken away. *)
Definition comment_number : matcher := fun previous s =>
  match number_suffix previous s with
  | Some (body, n) => match skipn (length body) s with c :: _ => if ceqb c "f" || ceqb c "d" then Some (body, n) else None | [] => None end
  | None => None
  end.
(** src/litgen/internal/cpp_to_python.py 843-868 [standard_comment_replacements], in order. *)
Definition comment_once (s : str) : str :=
  let s := word_rule $"true" $"True" s in
  let s := word_rule $"false" $"False" s in
  let s := word_rule $"void" $"None" s in
  let s := word_rule $"NULL" $"None" s in
  let s := word_rule $"nullptr" $"None" s in
  sub_with comment_number None 0 s.
(** src/codemanip/code_replacements.py 55-65 [RegexReplacementList.apply]. *)
Definition comment_replacements (s : str) : str := passes comment_once 3 None s.
