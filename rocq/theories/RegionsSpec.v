(** What a file with generated regions is, independently of the code that rewrites it. *)
From Verif Require Import PyStr.

(** A region: the user lines before it, the line with the opening marker, the generated lines,
    the line with the closing marker. *)
Record region := { before : list str; opening : str; generated : list str; closing : str }.

(** [m] occurs in [l] as a substring. *)
Definition occurs (m l : str) : Prop := exists a b, l = a ++ m ++ b.

Definition opens (tok l : str) : Prop := occurs ($"<" ++ tok ++ $">") l.
Definition closes (tok l : str) : Prop := occurs ($"</" ++ tok ++ $">") l.
Definition plain (tok l : str) : Prop := ~ opens tok l /\ ~ closes tok l.

Definition well_formed_region (tok : str) (r : region) : Prop :=
  Forall (plain tok) (before r) /\ opens tok (opening r) /\ ~ closes tok (opening r) /\
  Forall (plain tok) (generated r) /\ closes tok (closing r) /\ ~ opens tok (closing r).

(** The lines of a file made of regions [rs] followed by the user lines [after]. *)
Definition file_lines (rs : list region) (after : list str) : list str :=
  flat_map (fun r => before r ++ opening r :: generated r ++ [closing r]) rs ++ after.

(** The same file without the generated lines: what belongs to the user. *)
Definition user_lines (rs : list region) (after : list str) : list str :=
  flat_map (fun r => before r ++ opening r :: [closing r]) rs ++ after.

(** A file with one region whose generated lines are [gen]. *)
Definition one_region_lines (pre : list str) (op : str) (gen : list str) (cl : str)
    (post : list str) : list str :=
  pre ++ op :: gen ++ cl :: post.

(** Indentation of a line: its leading spaces and tabs. *)
Definition is_indentation (ind l : str) : Prop :=
  exists rest, l = ind ++ rest /\ Forall (fun c => c = sp \/ c = tab) ind /\
               match rest with [] => True | c :: _ => c <> sp /\ c <> tab end.

(** A generated line as it must appear when the region is indented by [ind]: empty lines stay
    empty, others get the indentation; trailing white space is dropped. *)
Definition indented (ind l l' : str) : Prop :=
  (l = [] /\ l' = []) \/
  (l <> [] /\ exists kept trailing, l = kept ++ trailing /\ l' = ind ++ kept /\
     Forall (fun c => is_space c = true) trailing /\
     match rev kept with [] => True | c :: _ => is_space c = false end).
