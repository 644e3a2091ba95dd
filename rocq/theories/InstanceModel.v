From Verif Require Import PyStr PyDict TypeTextModel.
(** The instances of template functions and template classes.  [None] stands for an exception. *)

(** ** Types *)

(** [re.subn] with a name between word boundaries: the new text and the number of replacements. [before]: the previous character is one of a word;
    [skip]: the characters of the name which are still to be passed. The name is not empty and has no special character. *)
Definition is_word_at (s : str) : bool := match s with [] => false | c :: _ => is_word c end.
Definition bounded (name : str) (before : bool) (s : str) : bool :=
  startswith name s && xorb before (is_word_at s) && xorb (is_word_at (rev name)) (is_word_at (skipn (length name) s)).
Fixpoint subn (name new : str) (before : bool) (skip : nat) (s : str) : str * nat :=
  match s with
  | [] => ([], 0)
  | c :: r =>
      match skip with
      | S k => subn name new (is_word c) k r
      | 0 =>
          if bounded name before s
          then let (t, n) := subn name new (is_word c) (length name - 1) r in (new ++ t, S n)
          else let (t, n) := subn name new (is_word c) 0 r in (c :: t, n)
      end
  end.
(** src/srcmlcpp/cpp_types/template/cpp_template_specialization.py 8-39 [CppTemplateSpecializationPart]: the name of the template parameter (empty for
    the next one which has no argument yet), and the text of the argument. *)
Definition part : Type := str * str.
(** src/srcmlcpp/cpp_types/decls_types/cpp_type.py 206-219: one typename and one part; whether something was changed. *)
Definition one_part (st : str * bool) (p : part) : str * bool :=
  let (tn, changed) := st in
  if seqb tn (fst p) then (snd p, true)
  else let (t, n) := subn (fst p) (snd p) false 0 tn in if 0 <? n then (t, true) else (tn, changed).
(** src/srcmlcpp/cpp_types/decls_types/cpp_type.py 197-223 [with_specialized_template]; [None]: the type does not use the parameters. *)
Definition type_instance (ps : list part) (t : ctype) : option ctype :=
  let l := map (fun tn => fold_left one_part ps (tn, false)) (typenames t) in
  if existsb snd l then Some (CType (map fst l) (specifiers t) (modifiers t)) else None.

(** ** Declarations, functions and classes *)

(** A declaration: its type, its name, the code of its initial value. *)
Record tdecl := TDecl { d_type : ctype; d_name : str; d_initial : str }.
(** What a template function or class knows: the names of its template parameters (if it is a template), and the arguments already given
    (src/srcmlcpp/cpp_types/template/cpp_i_template_host.py 16-35 [CppITemplateHost]). *)
Record host := Host { h_template : option (list str); h_given : list str }.
Record tfunc := TFunc { tf_name : str; tf_host : host; tf_result : option ctype; tf_params : list tdecl }.
(** The elements of a class: functions, declaration statements, classes (name, template, bases, blocks), and the rest. *)
Inductive elem :=
  | Fn (f : tfunc)
  | Vars (ds : list tdecl)
  | Class (name : str) (h : host) (bases : list str) (blocks : list (list elem))
  | Other (text : str).

(** src/srcmlcpp/cpp_types/template/cpp_i_template_host.py 57-67 [_store_template_specs]: the parts without a name get the name of the next parameter. *)
Fixpoint store (ps : list part) (h : host) : option (list part * host) :=
  match ps with
  | [] => Some ([], h)
  | (n, t) :: r =>
      match n with
      | [] =>
          match h_template h with
          | None => None
          | Some names =>
              if length (h_given h) <? length names
              then option_map (fun x : list part * host => ((nth (length (h_given h)) names [], t) :: fst x, snd x)) (store r (Host (h_template h) (h_given h ++ [t])))
              else None
          end
      | _ => option_map (fun x : list part * host => ((n, t) :: fst x, snd x)) (store r h)
      end
  end.
(** src/srcmlcpp/cpp_types/decls_types/cpp_decl.py 378-388 [with_specialized_template]. *)
Definition decl_instance (ps : list part) (d : tdecl) : option tdecl := option_map (fun t => TDecl t (d_name d) (d_initial d)) (type_instance ps (d_type d)).
(** The elements, each replaced if it is changed, and whether one was. *)
Definition or_same {A} (f : A -> option A) (x : A) : A * bool := match f x with Some y => (y, true) | None => (x, false) end.
(** src/srcmlcpp/cpp_types/decls_types/cpp_decl_statement.py 58-78 [with_specialized_template]. *)
Definition vars_instance (ps : list part) (ds : list tdecl) : option (list tdecl) :=
  let l := map (or_same (decl_instance ps)) ds in if existsb snd l then Some (map fst l) else None.
(** src/srcmlcpp/cpp_types/functions/cpp_function_decl.py 131-161 [with_specialized_template]; the inner [None]: nothing is changed. *)
Definition func_instance (ps : list part) (f : tfunc) : option (option tfunc) :=
  match store ps (tf_host f) with
  | None => None
  | Some (ps', h) =>
      let r := match tf_result f with None => (None, false) | Some t => (Some (fst (or_same (type_instance ps') t)), snd (or_same (type_instance ps') t)) end in
      let l := map (or_same (decl_instance ps')) (tf_params f) in
      Some (if snd r || existsb snd l then Some (TFunc (tf_name f) h (fst r) (map fst l)) else None)
  end.
(** All of them, unless an exception is raised. *)
Fixpoint every {A} (l : list (option A)) : option (list A) :=
  match l with
  | [] => Some []
  | None :: _ => None
  | Some x :: r => option_map (cons x) (every r)
  end.
(** src/srcmlcpp/cpp_types/classes/cpp_struct.py 343-370 [with_specialized_template]; the parts which were named by a class are used for what it holds
    (the names of template parameters are not empty). *)
Fixpoint elem_instance (ps : list part) (e : elem) : option (option elem) :=
  match e with
  | Fn f => option_map (option_map Fn) (func_instance ps f)
  | Vars ds => Some (option_map Vars (vars_instance ps ds))
  | Other _ => Some None
  | Class name h bases blocks =>
      match store ps h with
      | None => None
      | Some (ps', h') =>
          match every (map (fun b => every (map (fun x => option_map (fun y => match y with Some z => (z, true) | None => (x, false) end) (elem_instance ps' x)) b)) blocks) with
          | None => None
          | Some l => Some (if existsb (existsb snd) l then Some (Class name h' bases (map (map fst) l)) else None)
          end
      end
  end.

(** ** The options *)

(** src/litgen/internal/template_options.py 52-135 [_TemplateSpecializationSpec]: which names, which types. *)
Record tspec := TSpec { ts_match : str -> bool; ts_types : list ctype }.
(** src/litgen/internal/adapted_types/adapted_class.py 993-996, src/litgen/internal/adapted_types/adapted_function.py 1406-1409: the last option wins. *)
Definition matching_spec (specs : list tspec) (name : str) : option tspec := fold_left (fun acc s => if ts_match s name then Some s else acc) specs None.
(** src/srcmlcpp/cpp_types/template/cpp_template_specialization.py 23-39: one typename only. *)
Definition argument_text (t : ctype) : option str := match typenames t with [_] => str_code t | _ => None end.
(** src/litgen/internal/adapted_types/adapted_class.py 969-975 [_tpl_instantiate_template_for_type], src/litgen/internal/adapted_types/adapted_function.py 1394-1401:
    it is not expected that nothing changes. *)
Definition instance_for (e : elem) (t : ctype) : option elem :=
  match argument_text t with
  | None => None
  | Some a => match elem_instance [([], a)] e with Some r => r | None => None end
  end.
(** The template parameters of an element which has not all its arguments
    (src/srcmlcpp/cpp_types/template/cpp_i_template_host.py 39-47 [is_template_partially_specialized]). *)
Definition open_host (h : host) : option (list str) :=
  match h_template h with Some names => if length (h_given h) =? length names then None else Some names | None => None end.
Definition elem_host (e : elem) : host := match e with Fn f => tf_host f | Class _ h _ _ => h | _ => Host None [] end.
Definition elem_name (e : elem) : str := match e with Fn f => tf_name f | Class n _ _ _ => n | _ => [] end.
(** src/litgen/internal/adapted_types/adapted_class.py 990-1015, src/litgen/internal/adapted_types/adapted_function.py 1403-1430
    [_tpl_split_into_template_instantiations], for a template which has not all its arguments. *)
Definition split_into_instances (specs : list tspec) (e : elem) : option (list elem) :=
  match open_host (elem_host e) with
  | None => None
  | Some names =>
      match matching_spec specs (elem_name e) with
      | None => Some []
      | Some s =>
          if negb (length names =? 1) && (0 <? length (ts_types s)) then Some []
          else every (map (instance_for e) (ts_types s))
      end
  end.
