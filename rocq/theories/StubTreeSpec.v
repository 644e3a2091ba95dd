From Verif Require Import PyStr TextModel TextSpec CommentModel CommentSpec OverloadModel NamedModel EnumModel EnumSpec ClassModel ClassSpec StubTreeModel.
(** What is expected of the stub of a class and of what is inside it. *)

(** ** Reading Python *)

(** Words, signs and strings, without spaces and comments. *)
Inductive pylex := PWord (s : str) | PSign (c : ascii) | PStr.
(** Where the reader is: in code, after the letters of a word; after one or two quotes; in a string, maybe after a backslash; in a string
    between three quotes, after some quotes or a backslash; in a comment. *)
Inductive mode :=
  | InCode (cur : str) | Quote (q : ascii) | Quotes (q : ascii) | InString (q : ascii) (escape : bool) | InTriple (q : ascii) (quotes : nat)
  | Escape (q : ascii) | InComment.
Definition word_end (cur : str) : list pylex := match cur with [] => [] | _ => [PWord cur] end.
Definition code_step (cur : str) (c : ascii) : list pylex * mode :=
  if ceqb c "#" then (word_end cur, InComment)
  else if is_word c then ([], InCode (cur ++ [c]))
  else if is_space c then (word_end cur, InCode [])
  else if ceqb c dq || ceqb c sq then (word_end cur, Quote c)
  else (word_end cur ++ [PSign c], InCode []).
Definition step (m : mode) (c : ascii) : list pylex * mode :=
  match m with
  | InCode cur => code_step cur c
  | Quote q => if ceqb c q then ([], Quotes q) else if ceqb c bsl then ([], InString q true) else ([], InString q false)
  | Quotes q => if ceqb c q then ([], InTriple q 0) else let (ks, m') := code_step [] c in (PStr :: ks, m')
  | InString q true => ([], InString q false)
  | InString q false => if ceqb c bsl then ([], InString q true) else if ceqb c q then ([PStr], InCode []) else ([], InString q false)
  | InTriple q n =>
      if ceqb c bsl then ([], Escape q)
      else if ceqb c q then (if n <? 2 then ([], InTriple q (S n)) else ([PStr], InCode []))
      else ([], InTriple q 0)
  | Escape q => ([], InTriple q 0)
  | InComment => ([], InComment)
  end.
Fixpoint steps (m : mode) (s : str) : list pylex * mode :=
  match s with
  | [] => ([], m)
  | c :: r => let (ks, m') := step m c in let (ks', m'') := steps m' r in (ks ++ ks', m'')
  end.
(** One line: what was read, and the quote of the string which goes on, if any. [None]: a string is not closed. *)
Definition scan (from : option ascii) (l : str) : option (list pylex * option ascii) :=
  let (ks, m) := steps (match from with None => InCode [] | Some q => InTriple q 0 end) l in
  match m with
  | InCode cur => Some (ks ++ word_end cur, None)
  | Quotes _ => Some (ks ++ [PStr], None)
  | InComment => Some (ks, None)
  | InTriple q _ | Escape q => Some (ks, Some q)
  | Quote _ | InString _ _ => None
  end.

(** Statements: they go on over several lines between brackets, and in strings between three quotes. Each one with its indentation. *)
Fixpoint balance (depth : nat) (ks : list pylex) : option nat :=
  match ks with
  | [] => Some depth
  | PSign c :: r =>
      if existsb (ceqb c) ["("; "["; "{"]%char then balance (S depth) r
      else if existsb (ceqb c) [")"; "]"; "}"]%char then match depth with 0 => None | S d => balance d r end
      else balance depth r
  | _ :: r => balance depth r
  end.
Definition statement : Type := nat * list pylex.
Definition indent_of (l : str) : nat := length (takewhile (ceqb sp) l).
(** [Some true]: the statement is over; [Some false]: it goes on; [None]: a bracket is closed twice. *)
Definition is_over (ks : list pylex) (open : option ascii) : option bool :=
  match balance 0 ks, open with
  | None, None => None
  | Some 0, None => Some true
  | _, _ => Some false
  end.
Fixpoint statements (current : option (statement * option ascii)) (ls : list str) : option (list statement) :=
  match ls with
  | [] => match current with None => Some [] | Some _ => None end
  | l :: r =>
      let '(n, acc, from) := match current with None => (indent_of l, [], None) | Some (n, acc, from) => (n, acc, from) end in
      match scan from l with
      | None => None
      | Some (ks, open) =>
          match current, ks, open with
          | None, [], None => statements None r
          | _, _, _ =>
              match is_over (acc ++ ks) open with
              | None => None
              | Some true => option_map (cons (n, acc ++ ks)) (statements None r)
              | Some false => statements (Some (n, acc ++ ks, open)) r
              end
          end
      end
  end.

(** The blocks around, innermost first: their indentation, and the names of the classes and functions around. A statement is in the block
    which has its indentation; after a line which ends with a colon, it starts a new block, further to the right. *)
Definition block : Type := nat * list str.
Fixpoint leave (n : nat) (bs : list block) : option (list block) :=
  match bs with
  | [] => None
  | (m, p) :: r => if n =? m then Some bs else if n <? m then leave n r else None
  end.
Definition enter (bs : list block) (wanted : option (list str)) (n : nat) : option (list block) :=
  match wanted with
  | None => leave n bs
  | Some p => match bs with [] => None | (m, _) :: _ => if m <? n then Some ((n, p) :: bs) else None end
  end.
Definition opens_block (ks : list pylex) : bool := match rev ks with PSign c :: _ => ceqb c ":" | _ => false end.
(** A class: its name, with those of the classes around it, and what is between its name and the colon. *)
Definition py_class : Type := list str * list pylex.
Definition defined (p : list str) (ks : list pylex) : list py_class :=
  match ks with
  | PWord w :: PWord n :: r => if seqb w $"class" then [(p ++ [n], removelast r)] else []
  | _ => []
  end.
Definition inside (p : list str) (ks : list pylex) : list str :=
  match ks with
  | PWord w :: PWord n :: _ => if seqb w $"class" || seqb w $"def" then p ++ [n] else p
  | _ => p
  end.
Fixpoint blocks (bs : list block) (wanted : option (list str)) (ss : list statement) : option (list py_class * (list block * option (list str))) :=
  match ss with
  | [] => Some ([], (bs, wanted))
  | (n, ks) :: r =>
      match enter bs wanted n with
      | None | Some [] => None
      | Some (((m, p) :: _) as bs') =>
          match blocks bs' (if opens_block ks then Some (inside p ks) else None) r with
          | None => None
          | Some (cs, e) => Some (defined p ks ++ cs, e)
          end
      end
  end.
(** The classes defined by the lines of a module, or an exception. *)
Definition python_classes (ls : list str) : option (list py_class) :=
  match statements None ls with
  | None => None
  | Some ss => match blocks [(0, [])] None ss with Some (cs, (_, None)) => Some cs | _ => None end
  end.

(** ** What it must define *)

Definition py_read (t : str) : list pylex := match scan None t with Some (ks, None) => ks | _ => [] end.
Section Expected.
Variable o : class_env.
Variable copy_info : bool.
Variable values : cpp_enum -> list enumerator.

(** All the bases, or those of the options. *)
Definition bases_in_stub (x : extra) : list pylex :=
  match (match x_custom x with [] => map snd (x_bases x) | cs => cs end) with
  | [] => []
  | ps => PSign "(" :: py_read (join $", " ps) ++ [PSign ")"]
  end.
Definition base_of_enum (e : cpp_enum) : list pylex :=
  let scoped := scoped_name (en_scope e) (en_name e) in
  [PSign "("; PWord $"enum"; PSign "."; PWord ((if eo_arithmetic (cl_enum o) scoped then $"Int" else []) ++ (if eo_flag (cl_enum o) scoped then $"Flag" else $"Enum")); PSign ")"].
(** Each class and enum, at any depth, in the class which holds it. *)
Fixpoint shown_classes (path : list str) (c : node) : list py_class :=
  match c with
  | NOther _ _ _ => []
  | NEnum e _ _ => [(path ++ [eo_enum_name (cl_enum o) (en_name e)], base_of_enum e)]
  | NClass h x children _ => (path ++ [h_python h], bases_in_stub x) :: flat_map (shown_classes (path ++ [h_python h])) children
  end.

(** The objects which the binding makes (see ClassSpec.v). *)
Definition objects (es : list event) : list (list str) := flat_map (fun e => match e with Made p _ _ => [p] | Called _ _ => [] end) es.

(** ** Which classes *)

(** Statements without classes. *)
Definition no_class (ls : list str) : Prop := python_classes ls = Some [] /\ Forall (fun l => ~ In nl l) ls.
(** There is at least one statement. *)
Definition states (ls : list str) : Prop := statements None ls <> Some [].
(** The name of a type, maybe with arguments. *)
Definition type_name (t : str) : Prop := Forall (fun c => is_word c || existsb (ceqb c) ["."; ","; " "; "["; "]"]%char = true) t /\ balance 0 (py_read t) = Some 0.
Definition python_comment (t : str) : Prop := t = [] \/ exists n r, t = spaces n ++ $"#" ++ r /\ ~ In nl r.
(** A comment which can be a docstring (C35). *)
Definition good_doc (previous eol : str) : Prop :=
  let t := comment_apply_replacements (eo_strip (cl_enum o)) (eo_replacements (cl_enum o)) (full_comment previous eol) in
  t = [] \/ (contains [dq; dq; dq] t = false /\ (In nl t \/ ends_escaping t = false)).
Definition has_doc (previous eol : str) : Prop :=
  comment_apply_replacements (eo_strip (cl_enum o)) (eo_replacements (cl_enum o)) (full_comment previous eol) <> [].
Definition made_ctor (h : head) (x : extra) : list str := if h_ctor h || h_deleted h then [] else lines (x_ctor_text x).
(** Something is written in the class which is not a comment, or nothing at all is written. *)
Definition has_body (h : head) (x : extra) (children : list node) (protected : list (list str)) : Prop :=
  has_doc (told o copy_info h (x_previous x)) (x_eol x) \/
  Exists (fun c => match c with NOther _ s _ => states s | _ => True end) children \/
  states (made_ctor h x) \/ Exists states protected \/ cl_iterable o (h_python h) = true \/ states (x_code x) \/
  (Forall (fun c => match c with NOther _ s _ => s = [] | _ => False end) children /\ made_ctor h x = [] /\ protected = [] /\ x_code x = []).
Fixpoint showable (c : node) : Prop :=
  match c with
  | NOther _ s _ => no_class s
  | NEnum e _ location =>
      well_formed_names e /\ enum_kept (cl_enum o) e (values e) /\ enum_showable (stub_enum_at o location) e (values e) /\ python_comment location /\
      good_doc (en_previous e) (en_eol e) /\
      (has_doc (en_previous e) (en_eol e) \/ values e <> [] \/ Forall (fun c => match c with EValue _ => True | _ => False end) (en_children e))
  | NClass h x children protected =>
      word (h_python h) /\ Forall type_name (map snd (x_bases x) ++ x_custom x) /\ python_comment (x_note x) /\ python_comment (x_location x) /\
      good_doc (told o copy_info h (x_previous x)) (x_eol x) /\ no_class (made_ctor h x) /\ Forall no_class (map fst protected) /\ type_name (x_items x) /\
      no_class (x_code x) /\ has_body h x children (map fst protected) /\ fold_right (fun c P => showable c /\ P) True children
  end.
End Expected.

(** The comment of a class: its own, then whether it is final, then how it can be copied, each on lines of its own. *)
Definition told_lines (o : class_env) (copy_info : bool) (h : head) (previous : str) : list str :=
  lines previous ++ (if h_final h then [$"(final class)"] else []) ++
  (if copy_info && copies h then
     match cl_copy o (h_name h), cl_deepcopy o (h_name h) with
     | true, true => [$"(has support for copy.copy and copy.deepcopy)"]
     | true, false => [$"(has support for copy.copy)"]
     | false, true => [$"(has support for copy.deepcopy)"]
     | false, false => []
     end
   else []).
