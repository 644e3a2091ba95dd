From Verif Require Import PyStr PyDict InstanceModel.
(** The values of parameters and members in the stub: how a C++ constant is written in Python. *)

(** ** The replacements of values *)

(** [re.sub] for a rule which is not a name between word boundaries. [rule previous s]: what the rule does where [s] is the text still to be read and
    [previous] the character before it; the new text and the number of characters which are replaced, less one. *)
Definition matcher : Type := option ascii -> str -> option (str * nat).
Fixpoint sub_with (rule : matcher) (previous : option ascii) (skip : nat) (s : str) : str :=
  match s with
  | [] => []
  | c :: r =>
      match skip with
      | S k => sub_with rule (Some c) k r
      | 0 => match rule previous s with
             | Some (new, n) => new ++ sub_with rule (Some c) n r
             | None => c :: sub_with rule (Some c) 0 r
             end
      end
  end.
Definition word_before (previous : option ascii) : bool := match previous with Some c => is_word c | None => false end.
Definition alnum_before (previous : option ascii) : bool := match previous with Some c => is_alnum c | None => false end.
Fixpoint spaces (s : str) : nat := match s with c :: r => if is_space c then S (spaces r) else 0 | [] => 0 end.
(** src/litgen/internal/cpp_to_python.py 809-840 [standard_value_replacements]: a pointer to void. *)
Definition void_pointer : matcher := fun previous s =>
  if negb (word_before previous) && startswith $"void" s
  then let n := spaces (skipn 4 s) in
       match skipn (4 + n) s with c :: _ => if ceqb c "*" then Some ($"Any", 4 + n) else None | [] => None end
  else None.
(** The rules for [std::nullopt] and [std.nullopt]: the dot of the second stands for any character but the end of a line. *)
Definition nullopt_colons : matcher := fun previous s =>
  if negb (word_before previous) && startswith $"std::nullopt" s && negb (is_word_at (skipn 12 s)) then Some ($"None", 11) else None.
Definition nullopt_dot : matcher := fun previous s =>
  if negb (word_before previous) && startswith $"std" s && negb (startswith [nl] (skipn 3 s)) && startswith $"nullopt" (skipn 4 s) && negb (is_word_at (skipn 11 s))
  then Some ($"None", 10) else None.
(** The rules for the empty string. *)
Definition string_colons : matcher := fun previous s =>
  if negb (word_before previous) && startswith $"std::string()" s then Some ([dq; dq], 12) else None.
Definition string_dot : matcher := fun previous s =>
  if negb (word_before previous) && startswith $"std" s && negb (startswith [nl] (skipn 3 s)) && startswith $"string()" (skipn 4 s) then Some ([dq; dq], 11) else None.
(** The apostrophe between two digits becomes an underscore; the digits are taken by the match. *)
Fixpoint apostrophes (s : str) : str :=
  match s with
  | c :: t =>
      match t with
      | q :: d :: r => if is_digit c && ceqb q "'" && is_digit d then c :: "_"%char :: d :: apostrophes r else c :: apostrophes t
      | _ => c :: apostrophes t
      end
  | [] => []
  end.
(** The rule for numbers which end with f, F, d or D: the text of the number without this letter. *)
Definition is_sign (c : ascii) : bool := ceqb c "+" || ceqb c "-".
Definition is_e (c : ascii) : bool := ceqb c "e" || ceqb c "E".
Definition is_suffix (c : ascii) : bool := ceqb c "f" || ceqb c "F" || ceqb c "d" || ceqb c "D".
Fixpoint digits_of (s : str) : str := match s with c :: r => if is_digit c then c :: digits_of r else [] | [] => [] end.
Definition sign_of (s : str) : str := match s with c :: _ => if is_sign c then [c] else [] | [] => [] end.
Definition fraction_of (s : str) : str := match s with c :: r => if ceqb c "." then c :: digits_of r else [] | [] => [] end.
Definition exponent_of (s : str) : str :=
  match s with
  | c :: r => if is_e c
              then match digits_of (skipn (length (sign_of r)) r) with [] => [] | d => c :: sign_of r ++ d end
              else []
  | [] => []
  end.
Definition number_at (s : str) : option str :=
  let g := sign_of s in
  let s1 := skipn (length g) s in
  match digits_of s1 with
  | [] => None
  | d =>
      let s2 := skipn (length d) s1 in
      let f := fraction_of s2 in
      let s3 := skipn (length f) s2 in
      let e := exponent_of s3 in
      match skipn (length e) s3 with
      | c :: r => if is_suffix c && negb (is_word_at r) then Some (g ++ d ++ f ++ e) else None
      | [] => None
      end
  end.
Definition number_suffix : matcher := fun previous s =>
  if alnum_before previous then None else match number_at s with Some body => Some (body, length body) | None => None end.
(** src/litgen/internal/cpp_to_python.py 809-840 [standard_value_replacements], in order. *)
Definition word_rule (name new : str) (s : str) : str := fst (subn name new false 0 s).
Definition once (s : str) : str :=
  let s := word_rule $"true" $"True" s in
  let s := word_rule $"false" $"False" s in
  let s := sub_with void_pointer None 0 s in
  let s := word_rule $"void" $"None" s in
  let s := word_rule $"NULL" $"None" s in
  let s := word_rule $"nullptr" $"None" s in
  let s := sub_with nullopt_colons None 0 s in
  let s := sub_with nullopt_dot None 0 s in
  let s := sub_with string_colons None 0 s in
  let s := sub_with string_dot None 0 s in
  let s := word_rule $"FLT_MIN" $"sys.float_info.min" s in
  let s := word_rule $"FLT_MAX" $"sys.float_info.max" s in
  let s := word_rule $"DBL_MIN" $"sys.float_info.min" s in
  let s := word_rule $"DBL_MAX" $"sys.float_info.max" s in
  let s := word_rule $"LDBL_MIN" $"sys.float_info.min" s in
  let s := word_rule $"LDBL_MAX" $"sys.float_info.max" s in
  let s := apostrophes s in
  let s := sub_with number_suffix None 0 s in
  replace $"::" $"." s.
(** src/codemanip/code_replacements.py 55-65 [RegexReplacementList.apply]: until nothing changes, three times at most. *)
Fixpoint passes (one : str -> str) (left : nat) (previous : option str) (r : str) : str :=
  match left with
  | 0 => r
  | S left' => if match previous with Some p => seqb p r | None => false end then r else passes one left' (Some r) (one r)
  end.
Definition value_replacements (s : str) : str := passes once 3 None s.

(** ** The value *)

(** The last two rules of src/litgen/internal/cpp_to_python.py 739-806 [standard_type_replacements]; the other ones are not modelled here. *)
Definition no_marks (s : str) : str := passes (fun s => replace $"*" [] (replace $"&" [] s)) 3 None s.
(** src/litgen/internal/cpp_to_python.py 249-285 [var_value_to_python]. [types]: the replacements of types; [macros]: the macros which are numbers;
    [scoped]: the replacements which depend on the scope; [namespaces]: the namespaces of the stub, with their names in Python; [roots]: the
    namespaces which are left out; [special]: the value if it is one of an instance of a template. *)
Definition value_to_python (types scoped : str -> str) (macros namespaces : list (str * str)) (roots : list str) (special : option str) (s : str) : str :=
  let r := value_replacements (types s) in
  let r := fold_left (fun r m => replace (fst m) (snd m) r) macros r in
  let r := scoped r in
  let r := if startswith $"{" r && startswith $"}" (rev r)
           then let inner := firstn (length r - 2) (skipn 1 r) in
                if seqb (strip inner) [] then $"initialized with default value" else $"initialized with " ++ inner
           else r in
  let r := fold_left (fun r n => if seqb (fst n) (snd n) then r else replace (fst n ++ $".") (snd n ++ $".") r) namespaces r in
  let r := fold_left (fun r n => replace (n ++ $".") [] r) roots r in
  match special with Some x => x | None => r end.
