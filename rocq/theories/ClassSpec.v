From Verif Require Import PyStr PyDict TextModel TextSpec CommentModel CommentSpec FillSpec NamedModel EnumModel EnumSpec ClassModel.
(** What is expected of the binding of a class and of the classes and enums inside it. *)

(** ** Reading C++ *)

(** Words, signs and literals, without spaces and comments. *)
Inductive lexeme := Word (s : str) | Sign (c : ascii) | Str (s : str) | Broken.
Definition flush (cur : str) : list lexeme := match cur with [] => [] | _ => [Word cur] end.
Fixpoint lexemes (cur : str) (ts : list token) : list lexeme :=
  match ts with
  | [] => flush cur
  | Code c :: r =>
      if is_word c then lexemes (cur ++ [c]) r
      else if is_space c then flush cur ++ lexemes [] r
      else flush cur ++ Sign c :: lexemes [] r
  | Literal s :: r => flush cur ++ Str s :: lexemes [] r
  | Unclosed :: r => flush cur ++ Broken :: lexemes [] r
  end.
Definition text_tokens (t : str) : list token := flat_map (fun l => cpp_tokens None l ++ [Code nl]) (lines t).
Definition read_text (t : str) : list lexeme := lexemes [] (text_tokens t).

(** Statements and blocks. A statement ends with a semicolon outside of all brackets. *)
Inductive item := Statement (ts : list lexeme) | Opening | Closing | Unfinished (ts : list lexeme).
Definition is_sign (c : ascii) (t : lexeme) : bool := match t with Sign d => ceqb c d | _ => false end.
Definition opens (t : lexeme) : bool := is_sign "(" t || is_sign "{" t || is_sign "[" t.
Definition closes (t : lexeme) : bool := is_sign ")" t || is_sign "}" t || is_sign "]" t.
Fixpoint items (depth : nat) (cur : list lexeme) (ts : list lexeme) : list item :=
  match ts with
  | [] => match cur with [] => [] | _ => [Unfinished cur] end
  | t :: r =>
      match depth, cur with
      | 0, [] =>
          if is_sign "{" t then Opening :: items 0 [] r
          else if is_sign "}" t then Closing :: items 0 [] r
          else if is_sign ";" t then Statement [] :: items 0 [] r
          else items (if opens t then 1 else 0) [t] r
      | 0, _ =>
          if is_sign ";" t then Statement cur :: items 0 [] r else items (if opens t then 1 else 0) (cur ++ [t]) r
      | S d, _ => items (if opens t then S depth else if closes t then d else depth) (cur ++ [t]) r
      end
  end.

(** A chain of calls [.f(x).g(y)], maybe after the creation of an object, [T(x).f(y).g(z)]: what is called, and the arguments. *)
Definition call : Type := list lexeme * list lexeme.
Inductive reading := InType (acc : list lexeme) | Next | Dot | Name (m : str) | Args (who : list lexeme) (depth : nat) (acc : list lexeme).
Fixpoint applications (w : reading) (ts : list lexeme) : option (list call) :=
  match ts with
  | [] => match w with Next => Some [] | _ => None end
  | Broken :: _ => None
  | t :: r =>
      match w with
      | InType acc => applications (if is_sign "(" t then Args acc 0 [] else InType (acc ++ [t])) r
      | Next => if is_sign "." t then applications Dot r else None
      | Dot => match t with Word m => applications (Name m) r | _ => None end
      | Name m => if is_sign "(" t then applications (Args [Word m] 0 []) r else None
      | Args who 0 acc =>
          if is_sign ")" t then option_map (cons (who, acc)) (applications Next r)
          else if closes t then None
          else applications (Args who (if opens t then 1 else 0) (acc ++ [t])) r
      | Args who (S d) acc => applications (Args who (if opens t then S (S d) else if closes t then d else S d) (acc ++ [t])) r
      end
  end.

(** ** What the binding does *)

(** An object is named by its path in the module. *)
Inductive event :=
  | Made (path : list str) (type : list lexeme) (arguments : list lexeme)
  | Called (path : list str) (c : call).
(** The variables of the blocks around, innermost first: a variable stands for an object. *)
Definition frames := list (list (str * list str)).
Fixpoint find (v : str) (fs : frames) : option (list str) :=
  match fs with
  | [] => None
  | f :: r => match dict_get v f with Some p => Some p | None => find v r end
  end.
(** [auto v = T(parent, "name", ...).f(...)...;] makes a new object in the parent, then calls its methods; a variable is declared once in
    a block. [v.f(...)...;] calls the methods of an object. *)
Definition execute (fs : frames) (ts : list lexeme) : option (list event * frames) :=
  match ts with
  | Word a :: Word v :: Sign e :: r =>
      match applications (InType []) r, fs with
      | Some ((type, Word p :: Sign c :: Str n :: arguments) :: calls), f :: fr =>
          if seqb a $"auto" && ceqb e "=" && ceqb c "," then
            match find p fs, dict_get v f with
            | Some path, None => Some (Made (path ++ [n]) type arguments :: map (Called (path ++ [n])) calls, ((v, path ++ [n]) :: f) :: fr)
            | _, _ => None
            end
          else None
      | _, _ => None
      end
  | Word v :: r =>
      match find v fs, applications Next r with
      | Some path, Some calls => Some (map (Called path) calls, fs)
      | _, _ => None
      end
  | _ => None
  end.
Fixpoint run (fs : frames) (its : list item) : option (list event * frames) :=
  match its with
  | [] => Some ([], fs)
  | Statement ts :: r =>
      match execute fs ts with
      | None => None
      | Some (es, fs') => match run fs' r with None => None | Some (es', fs'') => Some (es ++ es', fs'') end
      end
  | Opening :: r => run ([] :: fs) r
  | Closing :: r => match fs with _ :: (f :: fr) => run (f :: fr) r | _ => None end
  | Unfinished _ :: _ => None
  end.
Definition meaning (fs : frames) (t : str) : option (list event * frames) := run fs (items 0 [] (read_text t)).

(** ** What it must do *)

Section Expected.
Variable o : class_env.
(** The published values of the enums. *)
Variable values : cpp_enum -> list enumerator.

Definition scoped_name (scope name : str) : str := match scope with [] => name | s => s ++ $"::" ++ name end.
Definition library : str := if cl_nanobind o then $"nb" else $"py".
(** The class in C++, the bases which are not private (or those of the options), how it is held, the class of its overriding methods. *)
Definition class_type (h : head) : str :=
  let q := scoped_name (h_scope h) (h_name h) ++ h_special h in
  let bases := match h_custom h with [] => map snd (filter (fun b => match fst b with Private => false | _ => true end) (h_bases h)) | bs => bs end in
  let nodelete := if negb (cl_nanobind o) && h_nodelete h then [$"std::unique_ptr<" ++ q ++ $", py::nodelete>"] else [] in
  let trampoline := if h_trampoline h then [scoped_name (h_scope h) (h_name h ++ $"_trampoline")] else [] in
  let shared := if negb (cl_nanobind o) && cl_shared o (h_name h) then [$"std::shared_ptr<" ++ q ++ $">"] else [] in
  library ++ $"::class_<" ++ join $", " ([q] ++ bases ++ nodelete ++ trampoline ++ shared) ++ $">".
(** What follows the name: is it final, can it hold more attributes, its documentation. *)
Definition class_arguments (h : head) : list lexeme :=
  (if h_final h then read_text ($", " ++ library ++ $"::is_final()") else [])
  ++ (if cl_dynamic o (h_name h) then read_text ($", " ++ library ++ $"::dynamic_attr()") else []) ++ [Sign ","; Str (class_doc o h)].

Definition calls_in (t : str) : option (list call) := applications Next (read_text t).
Definition calls_of (t : str) : list call := match calls_in t with Some cs => cs | None => [] end.
Definition define (name : str) (arguments : list lexeme) : call := ([Word $"def"], Str name :: arguments).

(** Copies are made by the copy constructor, unless it is declared and not part of the API. *)
Definition copies (h : head) : bool := negb (h_copy h) || h_copy_api h.
Definition copy_calls (h : head) : list call :=
  let q := scoped_name (h_scope h) (h_name h) ++ h_special h in
  (if cl_copy o (h_name h) && copies h then [define $"__copy__" (read_text ($", [](const " ++ q ++ $" &self) { return " ++ q ++ $"(self); }"))] else [])
  ++ (if cl_deepcopy o (h_name h) && copies h
      then [define $"__deepcopy__" (read_text ($", [](const " ++ q ++ $" &self, " ++ library ++ $"::dict) { return " ++ q ++ $"(self); }, " ++ library ++ $"::arg(")
              ++ [Str $"memo"; Sign ")"])] else []).
Definition iterable_calls (h : head) : list call :=
  let q := scoped_name (h_scope h) (h_name h) ++ h_special h in
  if cl_iterable o (h_python h) then
    [define $"__iter__" (
       if cl_nanobind o then read_text ($", [](const " ++ q ++ $" &v) { return nb::make_iterator(nb::type<" ++ q ++ $">(), ") ++ [Str $"iterator"]
         ++ read_text $", v.begin(), v.end()); }, nb::keep_alive<0, 1>()"
       else read_text ($", [](const " ++ q ++ $" &v) { return py::make_iterator(v.begin(), v.end()); }, py::keep_alive<0, 1>()"));
     define $"__len__" (read_text ($", [](const " ++ q ++ $" &v) { return v.size(); }"))]
  else [].
Definition own_calls (h : head) (children : list child) (protected : list (list str)) : list call :=
  (if h_deleted h || h_ctor h then [] else calls_of (h_ctor_text h))
  ++ flat_map (fun c => match c with COther ls => calls_of (unlines ls) | _ => [] end) children
  ++ flat_map (fun ls => calls_of (unlines ls)) protected ++ copy_calls h ++ iterable_calls h.

Definition enum_events (path : list str) (e : cpp_enum) : list event :=
  let eo := cl_enum o in
  let p := path ++ [eo_enum_name eo (en_name e)] in
  let scoped := scoped_name (en_scope e) (en_name e) in
  let prefix := if en_is_class e then scoped ++ $"::" else match en_scope e with [] => [] | s => s ++ $"::" end in
  let doc a b := Str (comment_pydef_one_line eo (full_comment a b)) in
  Made p (read_text ((if eo_nanobind eo then $"nb" else $"py") ++ $"::enum_<" ++ scoped ++ $">"))
    (read_text (if eo_nanobind eo then $", nb::is_arithmetic()" ++ (if eo_flag eo scoped then $", nb::is_flag()" else []) else $", py::arithmetic()")
     ++ [Sign ","; doc (en_previous e) (en_eol e)])
  :: map (fun v => Called p ([Word $"value"], [Str (eo_value_name eo (en_is_class e) (en_name e) (v_name v)); Sign ","]
         ++ read_text (prefix ++ v_name v) ++ [Sign ","; doc (v_previous v) (v_eol v)])) (values e)
  ++ (if eo_export eo then [Called p ([Word $"export_values"], [])] else []).

(** A class is made in its parent, then the classes and enums inside it, at any depth, then its own methods and attributes are defined, on
    this very class. *)
Fixpoint events (path : list str) (c : child) : list event :=
  match c with
  | COther _ => []
  | CEnum e _ => enum_events path e
  | CClass h children protected =>
      let p := path ++ [h_python h] in
      Made p (read_text (class_type h)) (class_arguments h) :: flat_map (events p) children ++ map (Called p) (own_calls h children protected)
  end.

(** ** Which classes *)

(** The text of a type, without what could end a statement or a name. *)
Definition simple_c (c : ascii) : bool :=
  negb (existsb (ceqb c) [dq; "/"; nl; "("; ")"; "{"; "}"; "["; "]"; ";"]%char).
Definition simple_text (t : str) : Prop := t <> [] /\ Forall (fun c => simple_c c = true) t.
Definition location_comment (t : str) : Prop := t = [] \/ exists n r, t = spaces n ++ $"//" ++ r /\ ~ In nl r /\ ~ In "{"%char r.
(** The names of the placeholders. *)
Definition creation_names : list str := map lit ["py"; "_i_"; "pydef_class_var"; "qualified_struct_name"; "other_template_params"; "location";
  "class_name_python"; "pydef_class_var_parent"; "maybe_py_is_final"; "maybe_py_is_dynamic"; "comment"; "maybe_shared_ptr_holder"; "maybe_comma"]%string.
(** A class whose names can be written, with its comment on one line. *)
Record writable (h : head) : Prop := {
  wr_name : word (h_name h);
  wr_python : word (h_python h);
  wr_params : Forall (fun t => word (param_name t)) (h_params h);
  wr_special : h_special h = [] \/ simple_text (h_special h);
  wr_scope : h_scope h = [] \/ simple_text (h_scope h);
  wr_bases : Forall simple_text (map snd (h_bases h) ++ h_custom h);
  wr_doc : closed_literal (class_doc o h) /\ neutral creation_names (class_doc o h);
  wr_location : location_comment (h_location h);
  wr_ctor : h_deleted h || h_ctor h = true \/ (calls_in (h_ctor_text h) <> None /\ (h_ctor_text h = [] \/ exists t, h_ctor_text h = t ++ [nl]));
  wr_custom : forall v, cl_custom o (scoped_name (h_scope h) (h_name h)) v = None }.
(** A template argument made of words, spaces, stars and double colons, which ends with a word or a star. *)
Fixpoint argument_text (t : str) : Prop :=
  match t with
  | [] => True
  | c :: r =>
      if ceqb c ":" then match r with d :: r' => d = ":"%char /\ argument_text r' | [] => False end
      else (is_word c || ceqb c " " || ceqb c "*") = true /\ argument_text r
  end.
Definition ends_well (t : str) : Prop := exists u c, t = u ++ [c] /\ (is_word c || ceqb c "*") = true.
(** What tells it from the others at the same place: the name of the class, with its template arguments; the name of the enum. *)
Definition identity (c : child) : str :=
  match c with
  | COther _ => []
  | CEnum e _ => $"Enum" ++ eo_enum_name (cl_enum o) (en_name e)
  | CClass h _ _ => $"Class" ++ h_name h ++ concat (map (fun t => $"_" ++ param_name t) (h_params h))
  end.
Definition nested (cs : list child) : list child := filter (fun c => match c with COther _ => false | _ => true end) cs.
Fixpoint well_formed (c : child) : Prop :=
  match c with
  | COther ls => calls_in (unlines ls) <> None
  | CEnum e location =>
      well_formed_names e /\ enum_kept (cl_enum o) e (values e) /\ enum_writable (enum_at o $"m" location) e (values e) /\
      simple_text (scoped_name (en_scope e) (en_name e))
  | CClass h children protected =>
      writable h /\ Forall (fun ls => calls_in (unlines ls) <> None) protected /\ NoDup (map identity (nested children)) /\
      (h_params h = [] \/ nested children = []) /\ fold_right (fun c P => well_formed c /\ P) True children
  end.
(** The enums which the options tell to be arithmetic, at any depth. *)
Fixpoint arithmetic (c : child) : Prop :=
  match c with
  | COther _ => True
  | CEnum e _ => eo_arithmetic (cl_enum o) (scoped_name (en_scope e) (en_name e)) = true
  | CClass h children _ => fold_right (fun c P => arithmetic c /\ P) True children
  end.
(** The variable of the module made for the namespaces [ns]: those of the options are left out. *)
Definition module_variable (ns : list str) : str :=
  match filter (fun n => negb (smem n (cl_roots o))) ns with
  | [] => $"m"
  | l => $"pyNs" ++ join $"_Ns" l
  end.
(** Classes and enums at the same place. *)
Definition all_well_formed (cs : list child) : Prop :=
  Forall (well_formed) cs /\ Forall (fun c => match c with COther _ => False | _ => True end) cs /\ NoDup (map identity cs).
Definition namespace_part (p : part) : Prop := match p with EnumPart _ => False | NsPart n | ClassPart n => word n end.
End Expected.
