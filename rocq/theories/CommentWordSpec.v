From Verif Require Import PyStr LiteralSpec InstanceSpec.
(** What Python says for the words of a comment. *)

Definition python_words : list (str * str) := [($"true", $"True"); ($"false", $"False"); ($"void", $"None"); ($"NULL", $"None"); ($"nullptr", $"None")].
(** Each word of the comment (as long as can be) is looked up; all the other characters stay. *)
Definition in_python (s : str) : str := concat (map (fun w => match find (fun p => seqb (fst p) w) python_words with Some p => snd p | None => w end) (pieces s)).
(** No digit and no point comes right before a letter f or d. *)
Fixpoint calm (s : str) : bool :=
  match s with
  | [] => true
  | c :: r => negb ((is_digit c || ceqb c ".") && match r with d :: _ => ceqb d "f" || ceqb d "d" | [] => false end) && calm r
  end.
(** A decimal number: its digits, its fraction, its exponent. *)
Definition number_text (l : str) (f : option str) (e : option (ascii * option ascii * str)) : str := tok_text (Number [] l f e None).
(** A comment with numbers: before each number some text; the suffix of the number behind it. *)
Definition stretch : Type := str * (str * option str * option (ascii * option ascii * str)) * ascii.
Definition stretch_text (t : stretch) : str := let '(x, (l, f, e), c) := t in x ++ number_text l f e ++ [c].
Definition stretch_python (t : stretch) : str := let '(x, (l, f, e), _) := t in in_python x ++ number_text l f e.
(** The text before a number ends with a space (it may be empty at the start of the comment); the text behind a suffix starts with no letter, digit or underscore. *)
Fixpoint stretches (first : bool) (l : list stretch) (rest : str) : Prop :=
  match l with
  | [] => calm rest = true /\ (first = true \/ forall c r, rest = c :: r -> is_word c = false)
  | (x, (n, f, e), c) :: l =>
      calm x = true /\ ((first = true /\ x = []) \/ exists x', x = x' ++ $" ") /\ (first = true \/ forall c r, x = c :: r -> is_word c = false) /\
      is_number [] n f e (Some c) /\ (c = "f"%char \/ c = "d"%char) /\ stretches false l rest
  end.
