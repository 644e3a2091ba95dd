(** Python strings as lists of characters, and the [str] methods used by litgen.

    A Python [str] is modelled as a [list ascii]; only ASCII code points are given a meaning by
    the classification functions ([is_space], [is_alnum], ...): see DESIGN.md, trusted base. *)
From Coq Require Export Ascii String Bool Arith Lia.
From Coq Require Export List.
Export ListNotations.
Open Scope list_scope.
Open Scope bool_scope.

(** A Python string. *)
Definition str := list ascii.

(** String literals: [$ "abc"]. *)
Definition lit (s : string) : str := list_ascii_of_string s.
Notation "$ s" := (lit s%string) (at level 1, format "$ s").

(** Control characters and a few characters that are awkward to write as literals. *)
Definition chr (n : nat) : ascii := ascii_of_nat n.
Definition nl : ascii := "010".
Definition tab : ascii := "009".
Definition sp : ascii := " ".
Definition dq : ascii := "034".
Definition bsl : ascii := "092".

(** Equality of characters and strings ([==]). *)
Definition ceqb (a b : ascii) : bool := Ascii.eqb a b.
Fixpoint seqb (a b : str) : bool :=
  match a, b with
  | [], [] => true
  | x :: a', y :: b' => ceqb x y && seqb a' b'
  | _, _ => false
  end.

(** Code point comparisons used by the character classes. *)
Definition code (c : ascii) : nat := nat_of_ascii c.
Definition between (lo hi : nat) (c : ascii) : bool := (lo <=? code c) && (code c <=? hi).

(** [str.isspace] on one ASCII character: TAB..CR, FS..US and SPACE. *)
Definition is_space (c : ascii) : bool := between 9 13 c || between 28 32 c.
(** [str.isdigit], letters, [str.isalnum] on one ASCII character. *)
Definition is_digit (c : ascii) : bool := between 48 57 c.
Definition is_upper (c : ascii) : bool := between 65 90 c.
Definition is_lower (c : ascii) : bool := between 97 122 c.
Definition is_alnum (c : ascii) : bool := is_digit c || is_upper c || is_lower c.
(** Regex class \w on ASCII. *)
Definition is_word (c : ascii) : bool := is_alnum c || ceqb c "_".

(** [str.upper], [str.lower] on one ASCII character. *)
Definition lower_c (c : ascii) : ascii := if is_upper c then chr (code c + 32) else c.
Definition upper_c (c : ascii) : ascii := if is_lower c then chr (code c - 32) else c.
Definition lower (s : str) : str := map lower_c s.
Definition upper (s : str) : str := map upper_c s.

(** [s.startswith(p)]. *)
Fixpoint startswith (p s : str) : bool :=
  match p, s with
  | [], _ => true
  | x :: p', y :: s' => ceqb x y && startswith p' s'
  | _ :: _, [] => false
  end.
(** [s.endswith(p)]. *)
Definition endswith (p s : str) : bool := startswith (rev p) (rev s).
(** [sub in s]. *)
Fixpoint contains (sub s : str) : bool :=
  startswith sub s ||
  match s with
  | [] => false
  | _ :: s' => contains sub s'
  end.

(** [itertools.dropwhile], [takewhile]. *)
Fixpoint dropwhile {A} (f : A -> bool) (l : list A) : list A :=
  match l with
  | [] => []
  | x :: l' => if f x then dropwhile f l' else l
  end.
Fixpoint takewhile {A} (f : A -> bool) (l : list A) : list A :=
  match l with
  | [] => []
  | x :: l' => if f x then x :: takewhile f l' else []
  end.

(** [s.lstrip()], [s.rstrip()], [s.strip()]. *)
Definition lstrip (s : str) : str := dropwhile is_space s.
Definition rstrip (s : str) : str := rev (dropwhile is_space (rev s)).
Definition strip (s : str) : str := rstrip (lstrip s).
(** [len(s.strip()) == 0]. *)
Definition blank (s : str) : bool := match strip s with [] => true | _ => false end.

(** [s.split(c)] for a one-character separator. Never returns the empty list. *)
Fixpoint split_on (c : ascii) (s : str) : list str :=
  match s with
  | [] => [[]]
  | x :: s' =>
      if ceqb x c then [] :: split_on c s'
      else match split_on c s' with
           | [] => [[x]]
           | l :: ls => (x :: l) :: ls
           end
  end.
Definition lines (s : str) : list str := split_on nl s.

(** [sep.join(l)]. *)
Fixpoint join (sep : str) (l : list str) : str :=
  match l with
  | [] => []
  | [x] => x
  | x :: l' => x ++ sep ++ join sep l'
  end.
Definition unlines (l : list str) : str := join [nl] l.

(** [s.replace(old, new)] for a non-empty [old]: leftmost, non-overlapping. [skip] counts the
    characters of an occurrence that remain to be dropped. *)
Fixpoint replace_aux (old new s : str) (skip : nat) : str :=
  match s with
  | [] => []
  | c :: s' =>
      match skip with
      | S k => replace_aux old new s' k
      | 0 => if startswith old s then new ++ replace_aux old new s' (length old - 1)
             else c :: replace_aux old new s' 0
      end
  end.
Definition replace (old new s : str) : str := replace_aux old new s 0.

(** [s.split(sep)] for a non-empty separator. *)
Fixpoint split_aux (sep s : str) (skip : nat) : list str :=
  match s with
  | [] => [[]]
  | c :: s' =>
      match skip with
      | S k => split_aux sep s' k
      | 0 => if startswith sep s then [] :: split_aux sep s' (length sep - 1)
             else match split_aux sep s' 0 with
                  | [] => [[c]]
                  | l :: ls => (c :: l) :: ls
                  end
      end
  end.
Definition split (sep s : str) : list str := split_aux sep s 0.

(** [x in l] for lists of strings. *)
Definition smem (x : str) (l : list str) : bool := existsb (seqb x) l.

(** [c * n]. *)
Definition spaces (n : nat) : str := repeat sp n.
