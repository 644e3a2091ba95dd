From Verif Require Import PyStr PyDict InstanceModel LiteralModel TemplateModel.
(** The replacements of types: how the types of C++ are written in Python. *)

(** A line of src/litgen/internal/cpp_to_python.py 739-806 [standard_type_replacements]. [Two a b new]: two words; [ConstChar], [ConstCharSpaces]: the lines
    of the constant texts, where the star of the regex is for the letter or the space before it; [Word]: a word; [Function]: the line of std::function;
    [Lit]: a text with a first word, its rest, and whether a word boundary must come after; [Angle]: a template, the text of its arguments up to the first
    closing bracket; [Trimmed]: the same with white space around ([before]: also before the opening bracket); [TwoArgs]: a template with two arguments, of
    which the second is kept or not; [VoidPointer]; [Mark]: a character which is taken away. *)
Inductive trule :=
  | Two (a b new : str) | ConstChar | ConstCharSpaces | Word (a new : str) | Function
  | Lit (a rest : str) (boundary : bool) (new : str)
  | Angle (a rest : str) (keep : bool) (before_ after_ : str)
  | Trimmed (a rest : str) (before_ after_ : str)
  | TwoArgs (a rest : str) (spaces_before second : bool) (before_ after_ : str)
  | VoidPointer | Mark (c : ascii).
(** The place of the last occurrence. *)
Fixpoint last_at (what s : str) : option nat :=
  match s with
  | [] => None
  | _ :: r => match last_at what r with Some n => Some (S n) | None => if startswith what s then Some 0 else None end
  end.
(** The text up to a character, if it is there. *)
Definition up_to (c : ascii) (s : str) : option str := let t := takewhile (fun d => negb (ceqb c d)) s in if length t <? length s then Some t else None.
Definition match_of (r : trule) : matcher := fun previous s =>
  match r with
  | Two a b new =>
      if negb (word_before previous) && startswith (a ++ $" ") s
      then let n := spaces (skipn (length a) s) in let s2 := skipn (n + length a) s in
           if startswith b s2 && negb (is_word_at (skipn (length b) s2)) then Some (new, length a + n + length b - 1) else None
      else None
  | ConstChar =>
      if negb (word_before previous) && startswith $"const " s
      then let n := spaces (skipn 5 s) in let s2 := skipn (n + 5) s in
           let k := length (takewhile (fun c => ceqb c "r") (skipn 3 s2)) in
           if startswith $"cha" s2 && negb (is_word_at (skipn k (skipn 3 s2))) then Some ($"str", 5 + n + 3 + k - 1) else None
      else None
  | ConstCharSpaces =>
      if negb (word_before previous) && startswith $"const " s
      then let n := spaces (skipn 5 s) in let s2 := skipn (n + 5) s in
           let k := length (takewhile (fun c => ceqb c " ") (skipn 4 s2)) in
           if startswith $"char" s2 && negb (is_word_at (skipn 4 s2)) then Some ($"str", 5 + n + 4 + (if is_word_at (skipn k (skipn 4 s2)) then k else 0) - 1) else None
      else None
  | Function =>
      if negb (word_before previous) && startswith $"std::function<" s
      then let l := takewhile (fun c => negb (ceqb c nl)) (skipn 14 s) in
           match last_at $")>" l with
           | Some j => match last_at $"(" (firstn j l) with
                       | Some i => Some ($"Callable[[" ++ firstn (j - i - 1) (skipn (i + 1) l) ++ $"], " ++ firstn i l ++ $"]", 15 + j)
                       | None => None
                       end
           | None => None
           end
      else None
  | Lit a rest boundary new =>
      if negb (word_before previous) && startswith (a ++ rest) s && negb (boundary && is_word_at (skipn (length (a ++ rest)) s)) then Some (new, length (a ++ rest) - 1) else None
  | Angle a rest keep before_ after_ =>
      if negb (word_before previous) && startswith (a ++ rest ++ $"<") s
      then match up_to ">" (skipn (length (a ++ rest ++ $"<")) s) with
           | Some t => if contains [nl] t then None else Some (before_ ++ (if keep then t else []) ++ after_, length (a ++ rest ++ $"<") + length t)
           | None => None
           end
      else None
  | Trimmed a rest before_ after_ =>
      if negb (word_before previous) && startswith (a ++ rest) s
      then let s1 := skipn (length (a ++ rest)) s in let n := spaces s1 in
           match skipn n s1 with
           | c :: s2 => if ceqb c "<"
                        then match up_to ">" s2 with
                             | Some t => if contains [nl] (strip t) then None else Some (before_ ++ strip t ++ after_, length (a ++ rest) + n + 1 + length t)
                             | None => None
                             end
                        else None
           | [] => None
           end
      else None
  | TwoArgs a rest sp second before_ after_ =>
      if negb (word_before previous) && startswith (a ++ rest) s
      then let s1 := skipn (length (a ++ rest)) s in let n := if sp then spaces s1 else 0 in
           match skipn n s1 with
           | c :: s2 => if ceqb c "<"
                        then match up_to "," s2 with
                             | Some t => match up_to ">" (skipn (length t + 1) s2) with
                                         | Some u => if contains [nl] (strip t) || contains [nl] (strip u) then None
                                                     else Some (before_ ++ strip t ++ (if second then $", " ++ strip u else []) ++ after_, length (a ++ rest) + n + 1 + length t + 1 + length u)
                                         | None => None
                                         end
                             | None => None
                             end
                        else None
           | [] => None
           end
      else None
  | VoidPointer => void_pointer previous s
  | Word _ _ | Mark _ => None
  end.
Definition apply_type_rule (r : trule) (s : str) : str :=
  match r with
  | Word a new => word_rule a new s
  | Mark c => replace [c] [] s
  | r => sub_with (match_of r) None 0 s
  end.
(** src/litgen/internal/cpp_to_python.py 739-806 [standard_type_replacements], in order. *)
Definition first_rules : list trule :=
  [Two $"unsigned" $"int" $"int"; Two $"unsigned" $"short" $"int"; Two $"unsigned" $"long long" $"int"; Two $"unsigned" $"long" $"int";
   Two $"long" $"long" $"int"; Two $"long" $"double" $"float"; ConstChar; ConstCharSpaces;
   Word $"uint8_t" $"int"; Word $"int8_t" $"int"; Word $"uint16_t" $"int"; Word $"int16_t" $"int"; Word $"uint32_t" $"int"; Word $"int32_t" $"int";
   Word $"uint64_t" $"int"; Word $"int64_t" $"int"; Word $"long" $"int"; Word $"short" $"int"; Word $"double" $"float"; Word $"float" $"float"; Word $"size_t" $"int";
   Function; Lit $"std" $"::string_view" true $"str"; Lit $"std" $"::string()" false [dq; dq]; Lit $"std" $"::string" true $"str"].
Definition template_rules : list trule :=
  [Angle $"std" $"::unique_ptr" true [] []; Angle $"std" $"::shared_ptr" true [] []; Trimmed $"std" $"::vector" $"List[" $"]"; TwoArgs $"std" $"::array" true false $"List[" $"]";
   Angle $"std" $"::tuple" true $"Tuple[" $"]"; Angle $"std" $"::pair" true $"Tuple[" $"]"; Angle $"std" $"::variant" true $"Union[" $"]";
   Angle $"std" $"::optional" true $"Optional[" $"]"; TwoArgs $"std" $"::map" false true $"Dict[" $"]"].
Definition last_rules : list trule :=
  [VoidPointer; Word $"void" $"None"; Lit $"py" $"::array" true $"np.ndarray"; Angle $"py" $"::ndarray" false $"np.ndarray" []; Lit $"nb" $"::array" true $"np.ndarray";
   Angle $"nb" $"::ndarray" false $"np.ndarray" []; Word $"const" []; Word $"mutable" []; Mark "&"; Mark "*"].
Definition type_rules : list trule := first_rules ++ template_rules ++ last_rules.
Definition types_once (s : str) : str := fold_left (fun s r => apply_type_rule r s) type_rules s.
(** src/codemanip/code_replacements.py 55-65 [RegexReplacementList.apply]. *)
Definition standard_types (s : str) : str := passes types_once 3 None s.
