From Verif Require Import PyStr.
From Coq Require Import Permutation.
(** What the text of a type is, without reference to the model. *)

(** The words of a text: what is between the spaces. *)
Definition words (s : str) : list str :=
  filter (fun w => match w with [] => false | _ => true end) (split_on sp s).

(** The words of a list of parts. *)
Definition words_of (parts : list str) : list str := flat_map words parts.

(** [occurs x n l]: there are exactly [n] copies of [x] in [l]. *)
Inductive occurs (x : str) : nat -> list str -> Prop :=
| occ_nil : occurs x 0 []
| occ_same n l : occurs x n l -> occurs x (S n) (x :: l)
| occ_other n y l : y <> x -> occurs x n l -> occurs x n (y :: l).

(** Dropping the words of API macros at the start of a type, in the order of the options. *)
Inductive drops : list str -> list str -> list str -> Prop :=
| drops_nil ws : drops [] ws ws
| drops_found p ps ws r : drops ps ws r -> drops (p :: ps) (p :: ws) r
| drops_other p ps ws r : hd_error ws <> Some p -> drops ps ws r -> drops (p :: ps) ws r.

(** No word of the text starts with a prefix without being this prefix. *)
Definition whole_words (prefixes ws : list str) : Prop :=
  forall p w r, In p prefixes -> In w ws -> w = p ++ r -> r = [].

Definition is_word_text (s : str) : Prop := s <> [] /\ Forall (fun c => is_space c = false) s.

(** The specifiers which say nothing about the returned value. *)
Definition says_nothing (s : str) : bool := smem s [$"inline"; $"virtual"; $"extern"; $"static"].

(** auto before another name is the trailing return type notation. *)
Definition without_auto (names : list str) : list str :=
  match names with
  | first :: second :: rest => if seqb first $"auto" then second :: rest else names
  | _ => names
  end.
