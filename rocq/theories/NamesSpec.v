(** Specifications for C21 and C29 to C31. *)
From Verif Require Import PyStr PyNum NamesModel.

(** *** C31 *)

(** Which words begin where: an upper-case letter starts a word after a lower-case letter or a digit,
    or when a lower-case letter follows it, unless an underscore or nothing is before it. *)
Definition starts_word (prev : option ascii) (next : str) : bool :=
  match prev with
  | None => false
  | Some p =>
      is_lower p || is_digit p ||
      (negb (ceqb p "_") && negb (ceqb p nl) && match next with n :: _ => is_lower n | [] => false end)
  end.
(** An upper-case letter not followed by a lower-case one. *)
Definition acronym (s : str) : bool :=
  match s with
  | u :: n :: _ => is_upper u && negb (is_lower n)
  | [u] => is_upper u
  | [] => false
  end.
(** One of two underscores before an acronym is lost. *)
Definition lost (c : ascii) (s : str) : bool :=
  match s with
  | d :: r => ceqb c "_" && ceqb d "_" && acronym r
  | [] => false
  end.
Fixpoint snake_rule (prev : option ascii) (s : str) : str :=
  match s with
  | [] => []
  | c :: s' =>
      (if is_upper c && starts_word prev s' then $"_" else []) ++
      (if lost c s' then [] else [lower_c c]) ++ snake_rule (Some c) s'
  end.

Definition letters (s : str) : str := filter (fun c => negb (ceqb c "_")) s.

(** *** C30 *)

Definition generated_name (i : nat) : str := $"param_" ++ py_str (Z.of_nat i).

(** *** C21 *)

(** A value named after its enum: the name in any case, an underscore, then a rest that is a name. *)
Definition identifier_start (s : str) : bool :=
  match s with c :: _ => is_lower c || is_upper c || ceqb c "_" | [] => false end.
(** A name Python accepts. *)
Definition identifier (s : str) : Prop := identifier_start s = true /\ forallb is_word s = true.
(** The Python name of what is left once the prefix is removed. *)
Definition converted (snake : bool) (s : str) : str := if snake then to_snake_case s else s.
