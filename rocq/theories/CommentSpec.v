(** Specification side of comments. *)
From Coq Require Import ZArith.
From Verif Require Import PyStr CommentModel.

(** *** Groups of comments *)

(** Comments on consecutive lines, none of them a blank line. *)
Fixpoint consecutive (e : elem) (g : list elem) : Prop :=
  match g with
  | [] => True
  | c :: g' =>
      is_comment e = true /\ is_comment c = true /\ e_start c = (e_end e + 1)%Z /\
      contains empty_line_content (text_of e) = false /\ contains empty_line_content (text_of c) = false /\
      consecutive c g'
  end.
Definition run (g : list elem) : Prop := match g with [] => False | e :: g' => consecutive e g' end.
(** The comment that stands for a group: it starts with the first one and ends with the last one, and has the
    texts of all in order. *)
Definition merged (g : list elem) (e : elem) : Prop :=
  match g with
  | [] => False
  | c :: g' =>
      tag e = tag c /\ inner e = inner c /\ e_start e = e_start c /\ e_end e = e_end (last g' c) /\
      (g' = [] -> etext e = etext c) /\
      (g' <> [] -> etext e = Some (join linefeed_token (text_of c :: map (fun x => without_slashes (text_of x)) g')))
  end.
(** Two comments on consecutive lines are apart only when one is a blank line, or when the first one stands
    behind some code. *)
Definition apart (before : option elem) (p c : elem) : Prop :=
  is_comment p = true -> is_comment c = true -> (0 <= e_end p)%Z -> e_start c = (e_end p + 1)%Z ->
  contains empty_line_content (text_of p) = true \/ contains empty_line_content (text_of c) = true \/
  exists b, before = Some b /\ is_comment b = false /\ e_end b = e_end p.
(** For groups given by the comment that stands for them and their first element. *)
Definition groups_apart (gs : list (elem * elem)) : Prop :=
  forall l p fp q first l', gs = l ++ (p, fp) :: (q, first) :: l' -> apart (hd_error (rev (map fst l))) p first.
Definition first_of (g : list elem) (e : elem) : elem * elem := (e, hd e g).

Fixpoint pairs (gs : list (list elem)) (es : list elem) : list (elem * elem) :=
  match gs, es with
  | g :: gs', e :: es' => first_of g e :: pairs gs' es'
  | _, _ => []
  end.
(** A comment without its comment signs. *)
Definition cleaned (e : elem) : elem := fst (clean e).

(** *** Comments attached to elements *)

(** Every element of the result is a free comment, or an element with the comment just before it, if any, that
    ends on the line above, and the comment just after it, if any, on the same line. The comments attached are
    the texts [text_of], without marks of blank lines. *)
Inductive attaches : list elem -> list attached -> Prop :=
| at_end : attaches [] []
| at_free c cs r st : is_comment c = true -> attaches cs r -> attaches (c :: cs) (Attached c [] [] st :: r)
| at_element above e behind cs r p q st :
    is_comment e = false ->
    (above = [] /\ p = [] \/
     exists c, above = [c] /\ is_comment c = true /\ (e_end c + 1 = e_start e)%Z /\ p = unmark (text_of c)) ->
    (behind = [] /\ q = [] \/
     exists c, behind = [c] /\ is_comment c = true /\ e_start c = e_end e /\ q = text_of c) ->
    attaches cs r -> attaches (above ++ [e] ++ behind ++ cs) (Attached e p q st :: r).

(** Where comment lines are: the lines of a free comment, or of the comments of an element. *)
Definition comment_lines (a : attached) : list str :=
  if is_comment (a_elem a) then lines (text_of (a_elem a)) else lines (a_previous a) ++ lines (a_eol a).
Definition nonempty (s : str) : bool := match s with [] => false | _ => true end.
(** A comment on one line that starts with two slashes; the text after them has no slashes of its own and does
    not use the name that stands for a line feed. *)
Definition simple_comment (c : elem) : Prop :=
  is_comment c = true -> exists x, etext c = Some ($"//" ++ x) /\ ~ In nl x /\
    startswith $"//" (lstrip x) = false /\ contains $"_SRCML_LINEFEED" x = false /\
    contains empty_line_comment x = false.
Definition comment_body (c : elem) : str := skipn 2 (text_of c).

(** *** Python literals *)

(** The rest of a text after the end of a triple-quoted string; a backslash hides the next character. *)
Fixpoint close_triple (s : str) : option (str * str) :=
  match s with
  | [] => None
  | c :: s' =>
      if ceqb c "\" then
        match s' with
        | [] => None
        | d :: s'' => match close_triple s'' with Some (b, r) => Some (c :: d :: b, r) | None => None end
        end
      else if startswith [dq; dq; dq] s then Some ([], skipn 2 s')
      else match close_triple s' with Some (b, r) => Some (c :: b, r) | None => None end
  end.
(** Escapes that need more characters after them; the others are always accepted. *)
Fixpoint safe_escapes (s : str) : bool :=
  match s with
  | [] => true
  | c :: s' =>
      if ceqb c "\" then
        match s' with
        | [] => true
        | d :: s'' => negb (existsb (ceqb d) ["x"; "u"; "U"; "N"]%char) && safe_escapes s''
        end
      else safe_escapes s'
  end.
(** The text is one triple-quoted literal. *)
Definition triple_literal (s : str) : Prop :=
  exists body, s = [dq; dq; dq] ++ body ++ [dq; dq; dq] /\
    close_triple (body ++ [dq; dq; dq]) = Some (body, []) /\ safe_escapes body = true.

(** A text ends with an odd number of backslashes. *)
Definition ends_escaping (s : str) : bool := Nat.odd (length (takewhile (ceqb "\") (rev s))).
(** No escape that needs more characters. *)
Definition plain_escapes (s : str) : Prop :=
  contains $"\x" s = false /\ contains $"\u" s = false /\ contains $"\U" s = false /\ contains $"\N" s = false.

(** A line of Python that is only a comment. *)
Definition comment_line (l : str) : Prop :=
  exists a b, l = a ++ "#"%char :: b /\ Forall (fun c => is_space c = true) a /\ ~ In nl l.
