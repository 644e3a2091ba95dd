(** Specification of integer constants and of the values that texts have in C++ and in Python. *)
From Verif Require Import PyStr PyNum PyDict NumberModel.

(** Integer constants of C++, without suffix. [pos_value] is the positional value of digits. *)
Definition hex_digit (c : ascii) : bool := is_digit c || between 65 70 c || between 97 102 c.
Definition bin_digit (c : ascii) : bool := between 48 49 c.
Inductive c_int : str -> Z -> Prop :=
| c_dec d s : is_digit d = true -> d <> "0"%char -> forallb is_digit s = true -> c_int (d :: s) (pos_value 10 (d :: s))
| c_oct s : forallb is_octal s = true -> c_int ("0"%char :: s) (pos_value 8 s)
| c_hex x s : In x ["x"; "X"]%char -> s <> [] -> forallb hex_digit s = true -> c_int ("0"%char :: x :: s) (pos_value 16 s)
| c_bin x s : In x ["b"; "B"]%char -> s <> [] -> forallb bin_digit s = true -> c_int ("0"%char :: x :: s) (pos_value 2 s).
Definition c_suffixes : list str :=
  map lit [""; "u"; "U"; "l"; "L"; "ul"; "uL"; "Ul"; "UL"; "lu"; "lU"; "Lu"; "LU"; "ll"; "LL"; "ull"; "uLL"; "Ull";
           "ULL"; "llu"; "llU"; "LLu"; "LLU"]%string.
Definition c_constant (t : str) (z : Z) : Prop := exists b s, t = b ++ s /\ c_int b z /\ In s c_suffixes.

(** With an optional sign. *)
Inductive signed (p : str -> Z -> Prop) : str -> Z -> Prop :=
| no_sign t z : p t z -> signed p t z
| plus_sign t z : p t z -> signed p ("+"%char :: t) z
| minus_sign t z : p t z -> signed p ("-"%char :: t) (- z).

(** *** Enumerators *)

(** The values of the enumerators in C++: [ev] gives the value of an explicit text. *)
Section Enum.
Variable ev : str -> Z.
Fixpoint cpp_enum_values (prev : option Z) (children : list enum_child) : list (option Z) :=
  match children with
  | [] => []
  | EOther _ :: children' => None :: cpp_enum_values prev children'
  | EDecl _ v :: children' =>
      let z := match v, prev with [], None => 0%Z | [], Some p => (p + 1)%Z | _, _ => ev v end in
      Some z :: cpp_enum_values (Some z) children'
  end.
(** What is shown for a child, given the child and its value in C++. *)
Inductive shown (named : macros) : enum_child -> option Z -> enum_child -> Prop :=
| shown_other t : shown named (EOther t) None (EOther t)
| shown_explicit n v z : v <> [] -> dict_get v named = None -> ev v = z -> shown named (EDecl n v) (Some z) (EDecl n v)
| shown_macro n v z : v <> [] -> dict_get v named = Some z -> shown named (EDecl n v) (Some z) (EDecl n (py_str z))
| shown_implicit n z : shown named (EDecl n []) (Some z) (EDecl n (py_str z))
| shown_unknown n z : shown named (EDecl n []) (Some z) (EDecl n []).
Inductive all_shown (named : macros) : list enum_child -> list (option Z) -> list enum_child -> Prop :=
| all_nil : all_shown named [] [] []
| all_cons c o f cs os fs : shown named c o f -> all_shown named cs os fs -> all_shown named (c :: cs) (o :: os) (f :: fs).
End Enum.

(** A text that Python and C++ cannot read differently: no spaces around, no underscore, no decimal digit
    after a leading zero. *)
Definition plain_text (v : str) : Prop :=
  strip v = v /\ ~ In "_"%char v /\
  forall sign c s, v = sign ++ "0"%char :: c :: s -> In sign [[]; $"+"; $"-"] -> is_digit c = false.

(** *** Integer macros *)

(** [follows p named defs k t z]: the text [t] leads to the integer [z] by removing spaces and
    parentheses around it and by replacing [k] times a macro name by its definition. *)
Section Follows.
Variable p : str -> Z -> Prop.
Variable named : str -> option Z.
Variable defs : str -> option str.
Inductive follows : nat -> str -> Z -> Prop :=
| f_literal t z : p t z -> follows 0 t z
| f_named t z : named t = Some z -> follows 0 t z
| f_define k t v z : named t = None -> defs t = Some v -> follows k v z -> follows (S k) t z
| f_space_l k c t z : is_space c = true -> follows k t z -> follows k (c :: t) z
| f_space_r k c t z : is_space c = true -> follows k t z -> follows k (t ++ [c]) z
| f_parens k t z : follows k t z -> follows k ("("%char :: t ++ [")"%char]) z.
End Follows.

Definition name_text (s : str) : Prop :=
  forallb is_word s = true /\ match s with c :: _ => is_digit c = false | [] => False end.

(** The integers that are accepted: any run of suffix letters, spaces before it, a Python prefix 0o,
    underscores anywhere. *)
Definition without_underscores (t : str) : str := filter (fun c => negb (ceqb c "_")) t.
Inductive lenient_body : str -> Z -> Prop :=
| len_c t z : c_int t z -> lenient_body t z
| len_o x s : In x ["o"; "O"]%char -> s <> [] -> forallb is_octal s = true -> lenient_body ("0"%char :: x :: s) (pos_value 8 s).
Definition lenient (t : str) (z : Z) : Prop :=
  exists a body sp suffix b,
  without_underscores t = a ++ body ++ sp ++ suffix ++ b /\ signed lenient_body body z /\
  forallb is_space a = true /\ forallb is_space sp = true /\ forallb is_suffix_char suffix = true /\ forallb is_space b = true.

(** The plain macros of a list of definitions. *)
Definition plain_macros (defines : list define) : list (str * str) :=
  flat_map (fun d => if d_has_parameters d then [] else match d_value d with Some v => [(d_name d, v)] | None => [] end) defines.

(** The last one counts. *)
Definition macro_value (defines : list define) (n : str) : option str := dict_get n (rev (plain_macros defines)).

(** *** Published macros *)

(** The value Python gives to an integer text in source code, with signs: that of [int(t, 0)]. *)
Definition python_int (t : str) : option Z := py_int Base0 t.

(** Decimal floating constants, written in the same way in C++ and in Python: sign, digits around a dot,
    exponent. *)
Definition exponent_text (e : str) : Prop :=
  e = [] \/ exists x sign s, e = x :: sign ++ s /\ In x ["e"; "E"]%char /\ In sign [[]; $"+"; $"-"] /\
                             s <> [] /\ forallb is_digit s = true.
Definition float_text (t : str) : Prop :=
  exists sign a b e, t = sign ++ a ++ "."%char :: b ++ e /\ In sign [[]; $"+"; $"-"] /\
  forallb is_digit a = true /\ forallb is_digit b = true /\ (a <> [] \/ b <> []) /\ exponent_text e.

(** String literals. Escapes with a value: the character and what follows the backslash. *)
Definition simple_escapes : list (ascii * ascii) :=
  [("n", nl); ("t", tab); ("a", chr 7); ("b", chr 8); ("f", chr 12); ("r", chr 13); ("v", chr 11);
   (bsl, bsl); (dq, dq); ("'", "'")]%char.
Fixpoint assoc_c (c : ascii) (l : list (ascii * ascii)) : option ascii :=
  match l with [] => None | (a, b) :: l' => if ceqb c a then Some b else assoc_c c l' end.
Definition octal_val (s : str) : ascii := chr (Z.to_nat (pos_value 8 s)).
(** The longest run of at most [n] characters. *)
Fixpoint run (n : nat) (f : ascii -> bool) (s : str) : str * str :=
  match n, s with
  | S n', c :: s' => if f c then let (a, b) := run n' f s' in (c :: a, b) else ([], s)
  | _, _ => ([], s)
  end.
(** Text of an escape (after the backslash): its value and the rest. Numeric escapes above 255 are out of
    range in C++; here they are taken modulo 256. *)
Definition c_escape (s : str) : option (str * str) :=
  match s with
  | [] => None
  | c :: s' =>
      match assoc_c c simple_escapes with
      | Some v => Some ([v], s')
      | None =>
          if ceqb c "?" then Some ($"?", s')
          else if is_octal c then let (a, b) := run 3 is_octal s in Some ([octal_val a], b)
          else if ceqb c "x" then
            let (a, b) := run (length s') hex_digit s' in
            match a with [] => None | _ => Some ([chr (Z.to_nat (pos_value 16 a))], b) end
          else None
      end
  end.
Definition py_escape (s : str) : option (str * str) :=
  match s with
  | [] => None
  | c :: s' =>
      match assoc_c c simple_escapes with
      | Some v => Some ([v], s')
      | None =>
          if is_octal c then let (a, b) := run 3 is_octal s in Some ([octal_val a], b)
          else if ceqb c "x" then
            let (a, b) := run 2 hex_digit s' in
            match a with [_; _] => Some ([chr (Z.to_nat (pos_value 16 a))], b) | _ => None end
          else if ceqb c "N" || ceqb c "u" || ceqb c "U" then None
          else if ceqb c nl then Some ([], s')
          else Some ([bsl; c], s')
      end
  end.
(** Value of a sequence of literals written side by side. [inside]: in a literal. *)
Fixpoint string_value (escape : str -> option (str * str)) (fuel : nat) (inside : bool) (s : str) : option str :=
  match fuel with
  | 0 => None
  | S fuel' =>
      match s with
      | [] => if inside then None else Some []
      | c :: s' =>
          if inside then
            if ceqb c dq then string_value escape fuel' false s'
            else if ceqb c nl then None
            else if ceqb c bsl then
              match escape s' with
              | Some (v, r) => option_map (app v) (string_value escape fuel' true r)
              | None => None
              end
            else option_map (cons c) (string_value escape fuel' true s')
          else if ceqb c dq then string_value escape fuel' true s'
          else if ceqb c sp then string_value escape fuel' false s'
          else None
      end
  end.
Definition c_string (s : str) : option str := string_value c_escape (S (length s)) false s.
Definition python_string (s : str) : option str := string_value py_escape (S (length s)) false s.
(** No escape that the two languages read differently: a question mark or a hexadecimal number. *)
Fixpoint same_escapes (s : str) : bool :=
  match s with
  | c :: (d :: s') as s1 =>
      if ceqb c bsl then negb (ceqb d "?" || ceqb d "x") && same_escapes s' else same_escapes s1
  | _ => true
  end.
