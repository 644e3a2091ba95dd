(** Vocabulary for statements about text utilities. *)
From Verif Require Import PyStr.

Definition is_blank_line (l : str) : Prop := Forall (fun c => is_space c = true) l.

(** No more than [n] consecutive blank lines. *)
Definition max_blank_run (n : nat) (ls : list str) : Prop :=
  forall a b c, ls = a ++ b ++ c -> Forall is_blank_line b -> length b <= n.

Inductive subsequence {A} : list A -> list A -> Prop :=
| sub_nil : subsequence [] []
| sub_skip x a b : subsequence a b -> subsequence a (x :: b)
| sub_keep x a b : subsequence a b -> subsequence (x :: a) (x :: b).

(** [b] is [a] where only blank lines have been removed. *)
Inductive only_blank_removed : list str -> list str -> Prop :=
| obr_nil : only_blank_removed [] []
| obr_skip x a b : is_blank_line x -> only_blank_removed a b -> only_blank_removed (x :: a) b
| obr_keep x a b : only_blank_removed a b -> only_blank_removed (x :: a) (x :: b).

(** The words of a text: maximal pieces without space, tab or newline. *)
Definition to_space (c : ascii) : ascii := if ceqb c nl || ceqb c tab then sp else c.
Definition words (s : str) : list str :=
  filter (fun w => match w with [] => false | _ => true end) (split_on sp (map to_space s)).

(** *** C string literals: the text between the quotes. *)

(** [denotes body text]: the body of a C string literal, with the simple escapes used here, and
    the text it denotes. A body with a raw newline, a raw quote or a dangling backslash denotes
    nothing. *)
Inductive denotes : str -> str -> Prop :=
| den_nil : denotes [] []
| den_plain c b t : c <> nl -> c <> dq -> c <> bsl -> denotes b t -> denotes (c :: b) (c :: t)
| den_bsl b t : denotes b t -> denotes (bsl :: bsl :: b) (bsl :: t)
| den_dq b t : denotes b t -> denotes (bsl :: dq :: b) (dq :: t)
| den_nl b t : denotes b t -> denotes (bsl :: "n"%char :: b) (nl :: t).

(** Body of a C string literal that stays inside its quotes: every backslash is followed by a
    character that is not a newline, quotes only occur after a backslash, no raw newline. *)
Inductive closed_literal : str -> Prop :=
| cl_nil : closed_literal []
| cl_plain c b : c <> nl -> c <> dq -> c <> bsl -> closed_literal b -> closed_literal (c :: b)
| cl_escape c b : c <> nl -> closed_literal b -> closed_literal (bsl :: c :: b).

(** *** Trailing C++ comments *)

(** Position of the // comment of a line, by a lexer that knows string literals and their
    escapes. *)
Fixpoint lex_comment (in_string : bool) (s : str) (i : nat) : option nat :=
  match s with
  | [] => None
  | c :: s' =>
      if in_string then
        if ceqb c bsl then
          match s' with
          | [] => None
          | _ :: s'' => lex_comment true s'' (S (S i))
          end
        else lex_comment (negb (ceqb c dq)) s' (S i)
      else if ceqb c dq then lex_comment true s' (S i)
      else match s' with
           | d :: _ => if ceqb c "/" && ceqb d "/" then Some i else lex_comment false s' (S i)
           | [] => None
           end
  end.

(** Before the comment, backslashes only occur inside string literals and never escape a
    backslash. *)
Fixpoint simple_escapes (in_string : bool) (s : str) : bool :=
  match s with
  | [] => true
  | c :: s' =>
      if in_string then
        if ceqb c bsl then
          match s' with
          | [] => true
          | d :: s'' => negb (ceqb d bsl) && simple_escapes true s''
          end
        else simple_escapes (negb (ceqb c dq)) s'
      else if ceqb c bsl then false
      else match s' with
           | d :: _ => if ceqb c "/" && ceqb d "/" then true else simple_escapes (ceqb c dq) s'
           | [] => true
           end
  end.

(** *** End-of-line Python comments *)

(** A line without quotes before its first # sign, with some code before. *)
Definition plain_eol_comment (l a b : str) : Prop :=
  l = a ++ $"#" ++ b /\ ~ is_blank_line a /\
  Forall (fun c => c <> "#"%char /\ c <> dq /\ c <> "'"%char) a.

(** [l'] is [l] with spaces inserted before a # sign that follows some code, which is now at
    column [col]. *)
Definition moved_comment (col : nat) (l l' : str) : Prop :=
  exists a b k, l = a ++ $"#" ++ b /\ l' = a ++ spaces k ++ $"#" ++ b /\ length a + k = col /\
    ~ is_blank_line a /\ forall a0 b0, plain_eol_comment l a0 b0 -> a0 = a.
