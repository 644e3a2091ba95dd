From Verif Require Import PyStr PyDict.
(** What it means to fill a template (independent of the model). *)

(** A template is text with holes; a hole is written as its name between braces. *)
Inductive piece := Text (s : str) | Hole (k : str).
Definition written (p : piece) : str :=
  match p with Text s => s | Hole k => $"{" ++ k ++ $"}" end.
Definition render (ps : list piece) : str := concat (map written ps).

(** Filling the holes that have a value. *)
Definition fill (d : list (str * str)) (p : piece) : piece :=
  match p with
  | Text s => Text s
  | Hole k => match dict_get k d with Some v => Text v | None => Hole k end
  end.

(** A text in which no brace opens, or could open with what comes next, one of the placeholders [K]. *)
Definition neutral (K : list str) (s : str) : Prop := forall a b k, s = a ++ "{"%char :: b -> In k K ->
  (forall r, b <> k ++ "}"%char :: r) /\ (forall r, k ++ ["}"%char] <> b ++ r).
(** The same, computed. *)
Fixpoint neutralb (K : list str) (s : str) : bool :=
  match s with
  | [] => true
  | c :: b => (if ceqb c "{" then forallb (fun k => negb (startswith (k ++ ["}"%char]) b) &&
                                                  negb (startswith b (k ++ ["}"%char]))) K else true) && neutralb K b
  end.

Definition is_name (k : str) : Prop := ~ In "{"%char k /\ ~ In "}"%char k.
(** The name of a placeholder is on one line. *)
Definition one_line_name (k : str) : Prop := is_name k /\ ~ In nl k.
Definition piece_ok (K : list str) (p : piece) : Prop :=
  match p with Text s => neutral K s | Hole k => is_name k end.

(** Templates with optional lines: [d] may say that a hole has no value. *)
Definition has_no_value (d : list (str * option str)) (p : piece) : bool :=
  match p with
  | Text _ => false
  | Hole k => match dict_get k d with Some None => true | _ => false end
  end.
Definition stays (d : list (str * option str)) (line : list piece) : bool := negb (existsb (has_no_value d) line).
Definition fill_opt (d : list (str * option str)) (p : piece) : piece :=
  match p with
  | Text s => Text s
  | Hole k => match dict_get k d with Some (Some v) => Text v | _ => Hole k end
  end.
Definition fill_lines (d : list (str * option str)) (t : list (list piece)) : list (list piece) :=
  map (map (fill_opt d)) (filter (stays d) t).
Definition render_lines (t : list (list piece)) : str := unlines (map render t).

(** A piece which takes one line, once filled. *)
Definition flat (d : list (str * option str)) (p : piece) : Prop :=
  match p with
  | Text s => ~ In nl s
  | Hole k => ~ In nl k /\ forall v, dict_get k d = Some (Some v) -> ~ In nl v
  end.

(** The parts that are there. *)
Fixpoint present (l : list (option str)) : list str :=
  match l with
  | [] => []
  | Some v :: r => v :: present r
  | None :: r => present r
  end.

(** The end of a binding: its parts on their own lines, separated by commas. *)
Definition ending (indent : str) (parts : list str) : str := join ($", " ++ [nl]) (map (fun p => indent ++ p) parts).

(** The lines of a constructor: a comma behind every part but the last. *)
Definition constructor_lines (indent py location arg_types : str) (pyarg docstring : option str) : list str :=
  let comma (after : list (option str)) := match present after with [] => [] | _ => $"," end in
  ($".def(" ++ py ++ $"::init<" ++ arg_types ++ $">()" ++ comma [pyarg; docstring] ++ location)
  :: present [option_map (fun a => indent ++ a ++ comma [docstring]) pyarg; option_map (fun s => indent ++ s) docstring].

(** The names of the placeholders of these two templates. *)
Definition end_names : list str := map lit ["_i_"; "maybe_py_arg"; "maybe_docstring"; "maybe_return_value_policy";
  "maybe_keep_alive"; "maybe_call_guard"; "maybe_comma"]%string.
Definition constructor_names : list str := map lit ["_i_"; "py"; "location"; "arg_types"; "maybe_docstring"; "maybe_pyarg";
  "maybe_comma"]%string.
