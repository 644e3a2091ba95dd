From Verif Require Import PyStr.
(** What a C++ constant is, and how Python writes it. *)

(** The parts of an expression: a name, a number, [::], another character. A number: groups of digits with what separates each from the next, the
    last group, the fraction (after the point), the exponent (its letter, its sign, its digits), the letter at the end. *)
Inductive tok :=
  | Name (w : str)
  | Number (groups : list (str * ascii)) (last : str) (fraction : option str) (exponent : option (ascii * option ascii * str)) (suffix : option ascii)
  | Colons
  | Sign (c : ascii).
Definition opt (c : option ascii) : str := match c with Some c => [c] | None => [] end.
Definition tail (fraction : option str) (exponent : option (ascii * option ascii * str)) : str :=
  (match fraction with Some f => "."%char :: f | None => [] end) ++ (match exponent with Some (e, g, d) => e :: opt g ++ d | None => [] end).
Definition tok_text (t : tok) : str :=
  match t with
  | Name w => w
  | Number groups last fraction exponent suffix => concat (map (fun g => fst g ++ [snd g]) groups) ++ last ++ tail fraction exponent ++ opt suffix
  | Colons => $"::"
  | Sign c => [c]
  end.
Definition text (ts : list tok) : str := concat (map tok_text ts).

(** ** In Python *)

Definition float_info (which : str) : list tok := [Name $"sys"; Sign "."; Name $"float_info"; Sign "."; Name which].
Definition constants : list (str * list tok) :=
  [($"true", [Name $"True"]); ($"false", [Name $"False"]); ($"NULL", [Name $"None"]); ($"nullptr", [Name $"None"]);
   ($"FLT_MIN", float_info $"min"); ($"FLT_MAX", float_info $"max"); ($"DBL_MIN", float_info $"min"); ($"DBL_MAX", float_info $"max");
   ($"LDBL_MIN", float_info $"min"); ($"LDBL_MAX", float_info $"max")].
Definition constant (w : str) : list tok := match find (fun c => seqb (fst c) w) constants with Some c => snd c | None => [Name w] end.
(** The constants have their names of Python; a number has the same digits, with underscores between the groups, and no letter at the end. *)
Definition python_tok (t : tok) : list tok :=
  match t with
  | Name w => constant w
  | Number groups last fraction exponent _ => [Number (map (fun g => (fst g, "_"%char)) groups) last fraction exponent None]
  | Colons => [Sign "."]
  | Sign c => [Sign c]
  end.
Definition python (ts : list tok) : list tok := flat_map python_tok ts.

(** ** Which expressions *)

Definition digits (s : str) : Prop := s <> [] /\ Forall (fun c => is_digit c = true) s.
(** No digit comes after an underscore. *)
Fixpoint digit_free (underscore : bool) (w : str) : Prop :=
  match w with
  | [] => True
  | c :: r => is_word c = true /\ (underscore = true -> is_digit c = false) /\ digit_free (ceqb c "_") r
  end.
Definition is_name (w : str) : Prop :=
  w <> [] /\ digit_free true w /\ startswith $"std" w = false /\ startswith $"void" w = false.
Definition is_number (groups : list (str * ascii)) (last : str) (fraction : option str) (exponent : option (ascii * option ascii * str)) (suffix : option ascii) : Prop :=
  Forall (fun g => digits (fst g) /\ (snd g = "'"%char \/ snd g = "_"%char)) groups
  /\ Forall (fun d : str => 2 <= length d) (List.tl (map fst groups ++ [last])) /\ digits last
  /\ match fraction with Some f => Forall (fun c => is_digit c = true) f | None => True end
  /\ match exponent with Some (e, g, d) => (e = "e"%char \/ e = "E"%char) /\ (g = None \/ g = Some "+"%char \/ g = Some "-"%char) /\ digits d | None => True end
  /\ match suffix with Some c => c = "f"%char \/ c = "F"%char \/ c = "d"%char \/ c = "D"%char | None => True end.
Definition apart (ts : list tok) : Prop := match ts with (Name _ | Number _ _ _ _ _) :: _ => False | _ => True end.
Definition no_point (ts : list tok) : Prop := match ts with Colons :: _ => False | Sign c :: _ => c <> "."%char | _ => True end.
Fixpoint expression (ts : list tok) : Prop :=
  match ts with
  | [] => True
  | Name w :: r => is_name w /\ apart r /\ expression r
  | Number g l f e x :: r => is_number g l f e x /\ apart r /\ no_point r /\ expression r
  | Colons :: r => expression r
  | Sign c :: r => is_word c = false /\ c <> dq /\ c <> "'"%char /\ c <> ":"%char /\ expression r
  end.

(** ** Whole numbers *)

Definition digit_value (c : ascii) : nat := nat_of_ascii c - 48.
Definition in_base (b : nat) (s : str) : nat := fold_left (fun n c => b * n + digit_value c) s 0.
(** In C++ a number which starts with 0 is in base 8; Python refuses it, unless all its digits are 0. *)
Definition cpp_integer (s : str) : nat := if startswith $"0" s then in_base 8 s else in_base 10 s.
Definition python_integer (s : str) : option nat :=
  if forallb is_digit s && (negb (startswith $"0" s) || forallb (fun c => ceqb c "0") s) then Some (in_base 10 s) else None.
