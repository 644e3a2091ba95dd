From Verif Require Import PyStr NamesModel TextModel TextSpec CommentModel CommentSpec EnumModel.
(** What is expected of the code written for an enum. *)

(** ** Which values are published *)

(** A value which counts the others: the options tell how they are named; in an enum which is not a class, the name of the enum must be
    one of the words of its name. *)
Definition counts (o : enum_options) (e : cpp_enum) (v : enumerator) : Prop :=
  eo_skip_count o = true /\ eo_size_name o (v_name v) = true /\
  (en_is_class e = true \/ In (lower (en_name e)) (split_on "_" (lower (v_name v)))).
Definition values_of (cs : list enum_child) : list enumerator := flat_map (fun c => match c with EValue v => [v] | _ => [] end) cs.
(** [vs] are the values of [e] to publish, in order. *)
Definition enum_kept (o : enum_options) (e : cpp_enum) (vs : list enumerator) : Prop :=
  exists keep, (forall v, In v (values_of (en_children e)) -> (keep v = true <-> ~ counts o e v)) /\ vs = filter keep (values_of (en_children e)).


(** A name made of letters, digits and underscores. *)
Definition word (s : str) : Prop := s <> [] /\ Forall (fun c => is_word c = true) s.
Definition well_formed_names (e : cpp_enum) : Prop := word (en_name e) /\ Forall (fun v => word (v_name v)) (values_of (en_children e)).

(** ** Reading Python *)

(** What is assigned on a line, if this is an assignment. *)
Fixpoint until_equal (s : str) : option str :=
  match s with
  | [] => None
  | c :: r => if startswith $" = " s then Some [] else option_map (cons c) (until_equal r)
  end.
Definition assigned (l : str) : option str :=
  match lstrip l with
  | [] => None
  | c :: r => if ceqb c "#" then None else until_equal (c :: r)
  end.
Definition assignments (ls : list str) : list str := flat_map (fun l => match assigned l with Some n => [n] | None => [] end) ls.
Definition nothing_else (l : str) : Prop := is_blank_line l \/ comment_line l \/ strip l = $"pass" \/ assigned l <> None.

(** ** Reading C++ *)

Inductive token := Code (c : ascii) | Literal (s : str) | Unclosed.
(** The characters of a line outside of literals and comments, and the literals. *)
Fixpoint cpp_tokens (literal : option str) (s : str) : list token :=
  match s with
  | [] => match literal with None => [] | Some _ => [Unclosed] end
  | c :: r =>
      match literal with
      | None =>
          if ceqb c dq then cpp_tokens (Some []) r
          else if startswith $"//" s then []
          else Code c :: cpp_tokens None r
      | Some a =>
          if ceqb c bsl then match r with [] => [Unclosed] | d :: r' => cpp_tokens (Some (a ++ [c; d])) r' end
          else if ceqb c dq then Literal a :: cpp_tokens None r
          else cpp_tokens (Some (a ++ [c])) r
      end
  end.
Definition white (t : token) : bool := match t with Code c => is_space c | _ => false end.
(** A line of C++, without the spaces around it. *)
Definition cpp_line (s : str) : list token := rev (dropwhile white (rev (dropwhile white (cpp_tokens None s)))).
Inductive cpp_piece := Text (s : str) | Quoted (s : str).
Definition pieces (ps : list cpp_piece) : list token := flat_map (fun p => match p with Text s => map Code s | Quoted s => [Literal s] end) ps.

(** The statement which publishes the values [vs]. *)
Definition enum_statement (o : enum_options) (e : cpp_enum) (vs : list enumerator) : list (list cpp_piece) :=
  let n := eo_enum_name o (en_name e) in
  let scoped := match en_scope e with [] => en_name e | s => s ++ $"::" ++ en_name e end in
  let prefix := if en_is_class e then scoped ++ $"::" else match en_scope e with [] => [] | s => s ++ $"::" end in
  let doc p q := comment_pydef_one_line o (full_comment p q) in
  let value (v : enumerator) := [Text $".value("; Quoted (eo_value_name o (en_is_class e) (en_name e) (v_name v)); Text ($", " ++ prefix ++ v_name v ++ $", ");
    Quoted (doc (v_previous v) (v_eol v)); Text $")"] in
  let annotations :=
    if eo_nanobind o then $", nb::is_arithmetic()" ++ (if eo_flag o scoped then $", nb::is_flag()" else []) else $", py::arithmetic()" in
  let ended (l : list (list cpp_piece)) := match rev l with [] => [] | x :: r => rev r ++ [x ++ [Text $";"]] end in
  let decl := [[Text ($"auto pyEnum" ++ n ++ $" =")];
    [Text ((if eo_nanobind o then $"nb" else $"py") ++ $"::enum_<" ++ scoped ++ $">(" ++ eo_parent o ++ $", "); Quoted n; Text (annotations ++ $", ");
     Quoted (doc (en_previous e) (en_eol e)); Text $")"]] in
  ended (decl ++ (match vs with [] => [[]] | _ => map value vs end) ++ (if eo_export o then [[Text $".export_values()"]] else [])).

(** Names and comments which can be written in C++. *)
Definition code_text (s : str) : Prop := Forall (fun c => c <> dq /\ c <> "/"%char /\ c <> nl) s.
Definition enum_writable (o : enum_options) (e : cpp_enum) (vs : list enumerator) : Prop :=
  word (eo_enum_name o (en_name e)) /\ code_text (en_scope e) /\ code_text (eo_parent o) /\ Forall (eq sp) (eo_cpp_indent o) /\
  (eo_location_cpp o = [] \/ exists n r, eo_location_cpp o = spaces n ++ $"//" ++ r /\ ~ In nl r) /\
  closed_literal (comment_pydef_one_line o (full_comment (en_previous e) (en_eol e))) /\
  Forall (fun v => word (eo_value_name o (en_is_class e) (en_name e) (v_name v)) /\
    closed_literal (comment_pydef_one_line o (full_comment (v_previous v) (v_eol v)))) vs.
(** Names and comments which can be written in the stub. *)
Definition enum_showable (o : enum_options) (e : cpp_enum) (vs : list enumerator) : Prop :=
  Forall (eq sp) (eo_py_indent o) /\ ~ In nl (eo_location_py o) /\ word (eo_enum_name o (en_name e)) /\
  (forall s, ~ In nl s -> ~ In nl (eo_replacements o s)) /\
  Forall (fun v => word (eo_value_name o (en_is_class e) (en_name e) (v_name v)) /\ ~ In nl (eo_value o (v_value v)) /\ ~ In nl (v_eol v)) vs.

(** The class of the enum in Python. *)
Definition python_base (arithmetic flag : bool) : str :=
  $"enum." ++ (if arithmetic then $"Int" else []) ++ (if flag then $"Flag" else $"Enum").
(** The value registered by a line of C++. *)
Fixpoint after_code (s : str) (ts : list token) : option (list token) :=
  match s, ts with
  | [], _ => Some ts
  | c :: r, Code d :: ts' => if ceqb c d then after_code r ts' else None
  | _, _ => None
  end.
Definition registered (ts : list token) : list str :=
  match after_code $".value(" ts with
  | Some (Literal n :: _) => [n]
  | _ => []
  end.
