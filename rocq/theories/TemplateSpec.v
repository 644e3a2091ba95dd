(** Specification of replacement lists, bracketed texts, dotted names and template options. *)
From Verif Require Import PyStr TemplateModel.

(** *** Replacement lists *)

(** [n] applications of [f]. *)
Fixpoint iterate (n : nat) (f : str -> str) (s : str) : str :=
  match n with 0 => s | S k => iterate k f (f s) end.

(** How a rule is written on one line, for the texts that can be written. *)
Definition rule_text (r : rule) : str :=
  replace_what r ++ $" -> " ++ (if seqb (by_what r) [] then $"REMOVE" else by_what r).
Definition writable (r : rule) : Prop :=
  replace_what r <> [] /\ strip (replace_what r) = replace_what r /\ ~ In nl (replace_what r) /\
  contains $" -> " (replace_what r ++ $" ->") = false /\
  strip (by_what r) = by_what r /\ ~ In nl (by_what r) /\ contains $" -> " (by_what r) = false /\
  by_what r <> $"REMOVE".
(** Lines that hold the given rules: one rule per line with spaces around it, and blank lines. *)
Inductive holds : list str -> list rule -> Prop :=
| holds_nil : holds [] []
| holds_blank b ls rs : Forall (fun c => is_space c = true) b -> ~ In nl b -> holds ls rs -> holds (b :: ls) rs
| holds_rule b a r ls rs :
    Forall (fun c => is_space c = true) b -> ~ In nl b -> Forall (fun c => is_space c = true) a -> ~ In nl a ->
    writable r -> holds ls rs -> holds ((b ++ rule_text r ++ a) :: ls) (r :: rs).

(** *** Bracketed texts *)

(** Texts where each template bracket has its partner. *)
Inductive balanced : str -> Prop :=
| bal_nil : balanced []
| bal_char c s : c <> "<"%char -> c <> ">"%char -> balanced s -> balanced (c :: s)
| bal_pair i s : balanced i -> balanced s -> balanced ("<"%char :: i ++ ">"%char :: s).

Definition bracket (c : ascii) : bool := ceqb c "<" || ceqb c ">" || ceqb c "[" || ceqb c "]".
Definition square (c : ascii) : ascii := if ceqb c "<" then "[" else if ceqb c ">" then "]" else c.
(** The texts between the brackets, each bracket with the text after it. *)
Fixpoint cut (s : str) : str * list (ascii * str) :=
  match s with
  | [] => ([], [])
  | c :: s' =>
      let '(h, l) := cut s' in
      if bracket c then ([], (c, h) :: l) else (c :: h, l)
  end.
(** The same with square brackets and [f] applied to each text. *)
Definition shape {A} (f : str -> A) (s : str) : A * list (ascii * A) :=
  let '(h, l) := cut s in (f h, map (fun '(c, x) => (square c, f x)) l).

(** Rules that treat the texts between brackets one by one, that do not depend on the amount of spaces, and
    that have nothing more to change in a translated text. *)
Definition per_text (tr : str -> str) : Prop :=
  (forall s, cut (tr s) = (let '(h, l) := cut s in (tr h, map (fun '(c, x) => (c, tr x)) l))) /\
  (forall x y, words x = words y -> words (tr x) = words (tr y)) /\
  (forall x, words (tr (tr x)) = words (tr x)).

Definition count (c : ascii) (s : str) : nat := length (filter (ceqb c) s).

(** *** Parameters of callables *)

(** A parameter written as a type, or as a type and a name. *)
Definition param_text (p : str * option str) : str :=
  match p with (ty, Some n) => ty ++ $" " ++ n | (ty, None) => ty end.
Definition simple_param (p : str * option str) : Prop :=
  fst p <> [] /\ Forall (fun c => is_space c = false /\ c <> ","%char /\ c <> "]"%char) (fst p) /\
  match snd p with Some n => is_identifier n = true | None => True end.

(** *** Dotted names *)

Definition word (w : str) : Prop := w <> [] /\ forallb is_word w = true.
(** A text as names separated by punctuation; a name is the list of its parts. *)
Definition text := (list str * list (ascii * list str))%type.
Definition show_text (t : text) : str :=
  join $"." (fst t) ++ concat (map (fun '(c, p) => c :: join $"." p) (snd t)).
Definition well_formed (t : text) : Prop :=
  Forall word (fst t) /\
  Forall (fun '(c, p) => is_word c = false /\ c <> "."%char /\ Forall word p) (snd t).
Definition names_of (t : text) : list (list str) := fst t :: map snd (snd t).
Definition map_names (f : list str -> list str) (t : text) : text :=
  (f (fst t), map (fun '(c, p) => (c, f p)) (snd t)).
(** A name without the namespace [n] at its head. *)
Definition without_root (n : str) (p : list str) : list str :=
  match p with x :: (_ :: _) as p' => if seqb x n then p' else p | _ => p end.
(** Apart from the first part, no part that is followed by another one ends like [n]; the first part is [n]
    itself or does not end like [n]. *)
Definition clear_of (n : str) (p : list str) : Prop :=
  match p with
  | [] => True
  | x :: p' => (x = n \/ endswith n x = false) /\ Forall (fun y => endswith n y = false) (removelast p')
  end.

(** *** Names of instantiations *)

(** A type given by the parts of its qualified name and a modifier. *)
Inductive modifier := NoMod | Ptr | Ref | URef.
Definition mod_text (m : modifier) : str :=
  match m with NoMod => [] | Ptr => $" *" | Ref => $" &" | URef => $" &&" end.
Definition type_text (parts : list str) (m : modifier) : str := join $"::" parts ++ mod_text m.
(** The same without the space. *)
Definition tight_text (parts : list str) (m : modifier) : str := join $"::" parts ++ lstrip (mod_text m).
Definition simple_type (parts : list str) : Prop :=
  parts <> [] /\
  Forall (fun w => w <> [] /\ forallb is_alnum w = true /\ endswith $"std" w = false /\
                   ~ In w [$"ptr"; $"ref"; $"uref"]) parts.

(** *** Template options *)

Section Options.
Variable parse_type : str -> option str.
(** Some option is about the type and lists its argument, as a type or as a synonym. *)
Definition listed (s : spec) (a : str) : Prop := In a (handled_types s) \/ In a (map fst (synonyms s)).
Definition handled (specs : list spec) (t a : str) : Prop :=
  is_template t = true /\ unique_type parse_type t = Some a /\
  exists s, In s specs /\ name_matches s (template_name t) = true /\ listed s a.
End Options.
(** At most one option is about a name. *)
Definition one_option (specs : list spec) (name : str) : Prop :=
  length (filter (fun s => name_matches s name) specs) <= 1.
