(** Specification side of amalgamation and of preprocessor regions. *)
From Verif Require Import PyStr HeaderModel.

Section Amalgamation.
Variable files : str -> option (list str).
Variable o : options.

(** A line that is neither an include nor a [#pragma once]. *)
Definition plain (l : str) : bool :=
  negb (is_external_include_line o l) && negb (is_local_include_line o l) && negb (contains $"#pragma once" l).
Definition external (l : str) : bool := is_external_include_line o l.

(** The files that are reached from a file by following local includes. *)
Inductive reached (n : str) : str -> Prop :=
| reached_main p : resolve files o n = Some p -> reached n p
| reached_next q ls l p :
    reached n q -> files q = Some ls -> In l ls -> is_local_include_line o l = true ->
    resolve files o (extract_local_include_file l) = Some p -> reached n p.

(** The plain lines of a file, in order. *)
Fixpoint plain_lines (path : str) (i : nat) (ls : list str) : list piece :=
  match ls with
  | [] => []
  | l :: ls' => (if plain l then [Code path i l] else []) ++ plain_lines path (S i) ls'
  end.
(** The plain lines of the file [q] in the amalgamation, in order. *)
Definition plain_of (q : str) (ps : list piece) : list piece :=
  filter (fun p => match p with Code q' _ l => seqb q q' && plain l | Decor _ => false end) ps.
(** The external includes of the amalgamation. *)
Definition externals (ps : list piece) : list str :=
  flat_map (fun p => match p with
                     | Code _ _ l => if external l then [extract_external_include_file l] else []
                     | Decor _ => []
                     end) ps.

(** Finitely many different contents of files. *)
Definition finitely_many_contents : Prop := exists cs, forall p ls, files p = Some ls -> In ls cs.
(** Every local include of a reached file names a file. *)
Definition includes_found (n : str) : Prop :=
  forall q ls l, reached n q -> files q = Some ls -> In l ls -> is_local_include_line o l = true ->
  resolve files o (extract_local_include_file l) <> None.
(** What [readlines] returns: each line but the last one ends with a line feed. *)
Definition terminated (l : str) : Prop := exists a, l = a ++ [nl].
Definition readable : Prop :=
  forall p ls, files p = Some ls -> forall a l b, ls = a ++ l :: b -> b <> [] -> terminated l.
(** Lines have a line feed at their end only. *)
Definition read_as_lines : Prop :=
  readable /\ forall p ls l, files p = Some ls -> In l ls -> forall a b, l = a ++ nl :: b -> b = [].
End Amalgamation.
(** The lines of a text that are not blank, without the spaces at their ends. *)
Definition code_lines (s : str) : list str := filter (fun l => negb (seqb l [])) (map rstrip (lines s)).

(** *** Preprocessor regions as a tree *)

(** A sequence of elements and of complete conditional regions. A region is its opening directive, its first
    branch, other branches each with its directive, and its closing directive. *)
Inductive doc :=
| Nil
| Element (n : node) (rest : doc)
| Cond (d : node) (body : doc) (others : branches) (e : node) (rest : doc)
with branches :=
| NoMore
| Branch (d : node) (body : doc) (more : branches).

(** Regions that are not closed: the last branch of each goes on to the end of the file. *)
Inductive opened :=
| Nothing
| InFirst (d : node) (body : doc) (inner : opened)
| InLater (d : node) (body : doc) (others : branches) (d' : node) (body' : doc) (inner : opened).
(** A file: complete parts followed each by a directive that belongs to no region, a complete part, and
    regions that are not closed. *)
Record source := Source { strays : list (doc * node); complete : doc; unclosed : opened }.

Fixpoint doc_nodes (x : doc) : list node :=
  match x with
  | Nil => []
  | Element n r => n :: doc_nodes r
  | Cond d b m e r => d :: doc_nodes b ++ branches_nodes m ++ e :: doc_nodes r
  end
with branches_nodes (m : branches) : list node :=
  match m with
  | NoMore => []
  | Branch d b m' => d :: doc_nodes b ++ branches_nodes m'
  end.
Fixpoint opened_nodes (x : opened) : list node :=
  match x with
  | Nothing => []
  | InFirst d b i => d :: doc_nodes b ++ opened_nodes i
  | InLater d b m d' b' i => d :: doc_nodes b ++ branches_nodes m ++ d' :: doc_nodes b' ++ opened_nodes i
  end.
Definition source_nodes (s : source) : list node :=
  flat_map (fun '(x, n) => doc_nodes x ++ [n]) (strays s) ++ doc_nodes (complete s) ++ opened_nodes (unclosed s).

Definition is_if (n : node) : Prop := exists m, n_kind n = KIf m.
Definition is_else (n : node) : Prop := n_kind n = KElse.
Definition is_endif (n : node) : Prop := n_kind n = KEndif.
Definition is_content (n : node) : Prop := n_kind n = KComment \/ n_kind n = KOther.
Fixpoint doc_ok (x : doc) : Prop :=
  match x with
  | Nil => True
  | Element n r => is_content n /\ doc_ok r
  | Cond d b m e r => is_if d /\ doc_ok b /\ branches_ok m /\ is_endif e /\ doc_ok r
  end
with branches_ok (m : branches) : Prop :=
  match m with
  | NoMore => True
  | Branch d b m' => is_else d /\ doc_ok b /\ branches_ok m'
  end.
Fixpoint opened_ok (x : opened) : Prop :=
  match x with
  | Nothing => True
  | InFirst d b i => is_if d /\ doc_ok b /\ opened_ok i
  | InLater d b m d' b' i => is_if d /\ doc_ok b /\ branches_ok m /\ is_else d' /\ doc_ok b' /\ opened_ok i
  end.
Definition source_ok (s : source) : Prop :=
  Forall (fun '(x, n) => doc_ok x /\ (is_else n \/ is_endif n)) (strays s) /\
  doc_ok (complete s) /\ opened_ok (unclosed s).

Section Marks.
Variable acceptable : str -> bool.
Definition accepted (d : node) : bool := match n_kind d with KIf m => acceptable m | _ => false end.

(** Each element with whether its regions let it through: [active] tells whether the enclosing regions do.
    Only the first branch of an acceptable region is let through; its directives are. *)
Fixpoint marks (active : bool) (x : doc) : list (node * bool) :=
  match x with
  | Nil => []
  | Element n r => (n, active) :: marks active r
  | Cond d b m e r =>
      let k := active && accepted d in
      (d, k) :: marks k b ++ branch_marks k m ++ (e, k) :: marks active r
  end
with branch_marks (k : bool) (m : branches) : list (node * bool) :=
  match m with
  | NoMore => []
  | Branch d b m' => (d, k) :: marks false b ++ branch_marks k m'
  end.
Fixpoint opened_marks (active : bool) (x : opened) : list (node * bool) :=
  match x with
  | Nothing => []
  | InFirst d b i =>
      let k := active && accepted d in (d, k) :: marks k b ++ opened_marks k i
  | InLater d b m d' b' i =>
      let k := active && accepted d in
      (d, k) :: marks k b ++ branch_marks k m ++ (d', k) :: marks false b' ++ opened_marks false i
  end.
Definition source_marks (s : source) : list (node * bool) :=
  flat_map (fun '(x, n) => marks true x ++ [(n, true)]) (strays s) ++
  marks true (complete s) ++ opened_marks true (unclosed s).
End Marks.

(** A comment on the line of the last directive goes away with it. *)
Definition is_directive (n : node) : bool :=
  match n_kind n with KIf _ | KElse | KEndif => true | _ => false end.
Definition beside (directive_line : option nat) (n : node) : bool :=
  match n_kind n, n_start n, directive_line with
  | KComment, Some a, Some b => a =? b
  | _, _, _ => false
  end.
Fixpoint without_beside (directive_line : option nat) (l : list (node * bool)) : list node :=
  match l with
  | [] => []
  | (n, k) :: l' =>
      (if k && negb (beside directive_line n) then [n] else []) ++
      without_beside (if is_directive n then n_end n else directive_line) l'
  end.
(** Directives have a position. *)
Definition placed (ns : list node) : Prop := Forall (fun n => is_directive n = true -> n_end n <> None) ns.

(** The names in the condition of an [#if], in the order of the text; [defined] is an operator. *)
Fixpoint condition_names (x : xml) : list str :=
  match x with
  | Xml tag t children =>
      (if seqb tag $"name" then match t with Some s => if seqb s $"defined" then [] else [s] | None => [] end
       else if seqb tag $"argument" then match t with Some s => [strip s] | None => [] end
       else []) ++ flat_map condition_names children
  end.
Definition first_name (l : list str) : str := hd [] (filter (fun s => negb (seqb s [])) l).
(** [a] is [b] with some elements removed. *)
Inductive subsequence {A} : list A -> list A -> Prop :=
| sub_nil : subsequence [] []
| sub_skip x a b : subsequence a b -> subsequence a (x :: b)
| sub_keep x a b : subsequence a b -> subsequence (x :: a) (x :: b).

(** A directory of the options; a relative one is inside the base directory. *)
Definition header_dir (o : options) (d : str) : str := if isabs d then d else path_join (base_dir o) d.
