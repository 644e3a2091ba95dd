From Verif Require Import PyStr RegionsModel TextModel FillModel FillSpec TypeTextModel CommentModel NamedModel EnumModel EnumSpec ClassModel ClassSpec GlueModel GlueSpec PimplModel.
(** What the PImpl tool must write, as C++ lexemes: outside of comments, without spaces nor line feeds. *)

(** The return type, without some specifiers. *)
Definition without (unwanted : list str) (t : ctype) : ctype := CType (typenames t) (filter (fun s => negb (smem s unwanted)) (specifiers t)) (modifiers t).
Definition result_lex (unwanted : list str) (r : option ctype) : list lexeme :=
  match r with
  | None => []
  | Some t => match str_code (without unwanted t) with Some text => read_text text | None => [] end
  end.
(** The specifiers which only fit a function whose body is given in the header, and the one which only fits a declaration. *)
Definition header_only : list str := [$"inline"; $"constexpr"].
Definition decl_only : list str := $"static" :: header_only.
Definition is_static (f : func) : bool := match f_result f with Some t => smem $"static" (specifiers t) | None => false end.
(** There is something to return: all but void. *)
Definition returns (f : func) : bool :=
  match f_result f with
  | None => false
  | Some t => match typenames t, filter (fun s => negb (smem s decl_only)) (specifiers t), modifiers t with [n], [], [] => negb (seqb n $"void") | _, _, _ => true end
  end.

Section Expected.
Variables impl published member : str.
Definition params_lex (ps : list (str * str)) : list lexeme := [Sign "("] ++ commas (map (fun p => read_text (fst p)) ps) ++ [Sign ")"].
Definition arguments_of (ps : list (str * str)) : list lexeme := [Sign "("] ++ commas (map (fun p => [Word (snd p)]) ps) ++ [Sign ")"].
Definition const_lex (f : func) : list lexeme := if f_const f then [Word $"const"] else [].
Definition of_class (c : str) : list lexeme := [Word c; Sign ":"; Sign ":"].

(** The declaration of the header, and the definition of the C++ file, which calls the same method, or makes the object. *)
Definition declaration (c : child) : list lexeme :=
  match c with
  | Ctor ps _ => [Word published] ++ params_lex ps ++ [Sign ";"]
  | Method f => result_lex header_only (f_result f) ++ read_text (f_name f) ++ params_lex (f_params f) ++ const_lex f ++ [Sign ";"]
  | _ => []
  end.
Definition definition (c : child) : list lexeme :=
  match c with
  | Ctor ps _ =>
      of_class published ++ [Word published] ++ params_lex ps ++ [Sign ":"; Word member; Sign "("] ++ read_text $"std::make_unique<" ++ [Word impl; Sign ">"] ++ arguments_of ps ++
      [Sign ")"; Sign "{"; Sign "}"]
  | Method f =>
      result_lex decl_only (f_result f) ++ of_class published ++ read_text (f_name f) ++ params_lex (f_params f) ++ const_lex f ++ [Sign "{"] ++
      (if returns f then [Word $"return"] else []) ++ (if is_static f then of_class impl else [Word member; Sign "-"; Sign ">"]) ++
      read_text (f_name f) ++ arguments_of (f_params f) ++ [Sign ";"; Sign "}"]
  | _ => []
  end.
(** The C++ file: the definitions, then the destructor. *)
Definition glue_lex (cs : list child) : list lexeme :=
  flat_map definition cs ++ of_class published ++ [Sign "~"; Word published] ++ read_text $"() = default;".
(** The header: the class is announced, the published class has the declarations, its destructor and a private pointer. *)
Definition header_lex (is_class : bool) (cs : list child) : list lexeme :=
  let kind := Word (if is_class then $"class" else $"struct") in
  [kind; Word impl; Sign ";"; kind; Word published; Sign "{"] ++ (if is_class then [Word $"public"; Sign ":"] else []) ++ flat_map declaration cs ++
  [Sign "~"; Word published] ++ read_text $"(); private: std::unique_ptr<" ++ [Word impl; Sign ">"; Word member; Sign ";"; Sign "}"; Sign ";"].
End Expected.

(** ** Which classes *)

Definition pimpl_names : list str := map lit ["_i_"; "class_published"; "class_impl"; "impl_name"; "return_type"; "method_name"; "params_list"; "maybe_return"; "param_names"; "maybe_const";
  "top_comment"; "maybe_eol_comment"; "param_list"; "linefeed_or_space"; "i"; "class_or_struct"; "published_class_name"; "impl_class_name"; "published_methods"; "maybe_public"; "maybe_comma"]%string.
(** A text on one line, without quotes, slashes and opening braces. *)
Definition plain_c (c : ascii) : bool := negb (existsb (ceqb c) [dq; "/"; nl; "{"]%char).
Definition plain_text (t : str) : Prop := Forall (fun c => plain_c c = true) t.
(** A parameter: C++ text on one line, not ended by a space, without the placeholders; its name. *)
Definition good_param (p : str * str) : Prop :=
  cpp_text (fst p) /\ neutral pimpl_names (fst p) /\ fst p <> [] /\ endswith $" " (fst p) = false /\ word (snd p).
(** Comments between slashes and stars are left aside; there is no opening brace in a comment, and the comment behind does not end as a cut list of
    parameters. *)
Definition good_eol (e : str) : Prop :=
  ~ In "{"%char e /\ ~ In nl e /\ endswith $", " e = false /\ endswith $", )" e = false /\ endswith $", );" e = false.
Definition good_note (n : note) : Prop := n_c_style n = false /\ ~ In "{"%char (n_previous n) /\ good_eol (n_eol n).
(** A type whose specifiers are not repeated. *)
Definition good_result (r : option ctype) : Prop :=
  match r with
  | None => True
  | Some t => NoDup (specifiers t) /\ forall unwanted, match str_code (without unwanted t) with Some text => plain_text text | None => False end
  end.
Definition good_child (c : child) : Prop :=
  match c with
  | Ctor ps n => Forall good_param ps /\ good_note n
  | Method f => good_result (f_result f) /\ plain_text (f_name f) /\ Forall good_param (f_params f) /\ good_note (f_note f)
  | Remark t => Forall (fun l => location_comment l) (lines t)
  | _ => True
  end.
Record good_pimpl (o : poptions) (c : pclass) (published : str) : Prop := {
  gp_name : word (p_name c); gp_published : word published; gp_member : word (po_member o);
  gp_indent : Forall (eq sp) (po_indent o); gp_indent_public : Forall (eq sp) (po_indent_public o);
  gp_note : good_note (p_note c); gp_brace : po_linefeed o = false -> n_eol (p_note c) = [];
  gp_children : Forall good_child (concat (p_public c)) }.
