From Verif Require Import PyStr TextSpec EnumSpec FillSpec ClassModel ClassSpec LookupModel LookupSpec GlueModel.
(** What is expected of the glue code. *)

(** ** Reading C++ classes *)

(** The members of a class, with whether they are public: a declaration, up to its semicolon; or a function with its body. *)
Inductive member := Declared (public : bool) (ts : list lexeme) | Defined (public : bool) (header body : list lexeme).
(** A class, with the namespaces around it; what is between the colon and the brace. *)
Record cpp_class := CppClass { k_path : list str; k_name : str; k_base : list lexeme; k_members : list member }.
Inductive place :=
  | Outside (path : list str) (cur : list lexeme)
  | Inside (path : list str) (name : str) (base : list lexeme) (ms : list member) (public : bool) (depth : nat) (cur : list lexeme)
  | Within (path : list str) (name : str) (base : list lexeme) (ms : list member) (public : bool) (header : list lexeme) (depth : nat) (cur : list lexeme)
  | Ended (path : list str) (c : cpp_class).
(** [None]: this is not a sequence of namespaces and classes. *)
Fixpoint cpp_classes (w : place) (ts : list lexeme) : option (list cpp_class) :=
  match ts with
  | [] => match w with Outside [] [] => Some [] | _ => None end
  | Broken :: _ => None
  | t :: r =>
      match w with
      | Outside path cur =>
          if is_sign "{" t then
            match cur with
            | [Word a; Word n] => if seqb a $"namespace" then cpp_classes (Outside (path ++ [n]) []) r else None
            | Word a :: Word n :: Sign c :: base => if seqb a $"class" && ceqb c ":" then cpp_classes (Inside path n base [] false 0 []) r else None
            | _ => None
            end
          else if is_sign "}" t then
            match cur, path with [], _ :: _ => cpp_classes (Outside (removelast path) []) r | _, _ => None end
          else cpp_classes (Outside path (cur ++ [t])) r
      | Inside path n base ms public 0 cur =>
          if is_sign "{" t then cpp_classes (Within path n base ms public cur 0 []) r
          else if is_sign "}" t then match cur with [] => cpp_classes (Ended path (CppClass path n base ms)) r | _ => None end
          else if is_sign ";" t then cpp_classes (Inside path n base (ms ++ [Declared public cur]) public 0 []) r
          else match cur with
               | [Word a] => if seqb a $"public" && is_sign ":" t then cpp_classes (Inside path n base ms true 0 []) r
                             else cpp_classes (Inside path n base ms public (if opens t then 1 else 0) (cur ++ [t])) r
               | _ => cpp_classes (Inside path n base ms public (if opens t then 1 else 0) (cur ++ [t])) r
               end
      | Inside path n base ms public (S d) cur =>
          cpp_classes (Inside path n base ms public (if opens t then S (S d) else if closes t then d else S d) (cur ++ [t])) r
      | Within path n base ms public header 0 cur =>
          if is_sign "}" t then cpp_classes (Inside path n base (ms ++ [Defined public header cur]) public 0 []) r
          else cpp_classes (Within path n base ms public header (if opens t then 1 else 0) (cur ++ [t])) r
      | Within path n base ms public header (S d) cur =>
          cpp_classes (Within path n base ms public header (if opens t then S (S d) else if closes t then d else S d) (cur ++ [t])) r
      | Ended path c => if is_sign ";" t then option_map (cons c) (cpp_classes (Outside path []) r) else None
      end
  end.

(** The call of a macro, and a semicolon. Its arguments are those of the preprocessor: only parentheses protect commas. *)
Fixpoint macro_arguments (depth : nat) (cur : list lexeme) (ts : list lexeme) : option (list (list lexeme) * list lexeme) :=
  match ts with
  | [] => None
  | t :: r =>
      match depth with
      | 0 =>
          if is_sign ")" t then Some ([cur], r)
          else if is_sign "," t then option_map (fun x => (cur :: fst x, snd x)) (macro_arguments 0 [] r)
          else macro_arguments (if is_sign "(" t then 1 else 0) (cur ++ [t]) r
      | S d => macro_arguments (if is_sign "(" t then S depth else if is_sign ")" t then d else depth) (cur ++ [t]) r
      end
  end.
Definition macro_call (ts : list lexeme) : option (str * list (list lexeme)) :=
  match ts with
  | Word m :: Sign c :: r =>
      if ceqb c "(" then match macro_arguments 0 [] r with Some (a, [Sign d]) => if ceqb d ";" then Some (m, a) else None | _ => None end else None
  | _ => None
  end.
(** What the public members do: a declaration, or a method whose body is one call of a macro. *)
Inductive shown := Says (ts : list lexeme) | Calls (header : list lexeme) (macro : str) (arguments : list (list lexeme)) | Other.
Definition show (m : member) : shown :=
  match m with
  | Declared true ts => Says ts
  | Defined true h b => match macro_call b with Some (m, a) => Calls h m a | None => Other end
  | _ => Other
  end.
Definition shown_class : Type := list str * str * list lexeme * list shown.
Definition read_glue (t : str) : option (list shown_class) :=
  option_map (map (fun c => (k_path c, k_name c, k_base c, map show (k_members c)))) (cpp_classes (Outside [] []) (read_text t)).

(** ** What it must define *)

(** The value of decimal digits. *)
Definition decimal_value (s : str) : nat := fold_left (fun n c => 10 * n + (code c - 48)) s 0.

Section Expected.
Variable o : glue_env.
Fixpoint commas (l : list (list lexeme)) : list lexeme :=
  match l with
  | [] => []
  | [x] => x
  | x :: r => x ++ Sign "," :: commas r
  end.
Definition namespaces (sc : list part) : list str := map (fun p => match p with NsPart n | ClassPart n | EnumPart n => n end) sc.
(** A virtual method: the same result, name, parameters and constness; the macro of the library, with what the library needs: the result and
    the class (which nanobind knows), the name in Python, the name in C++, and all the parameters. *)
Definition expected_override (g : glue_class) (m : vmethod) : shown :=
  Calls
    (read_text (v_return m) ++ [Word (v_name m)] ++ [Sign "("] ++ commas (map (fun p => read_text (fst p)) (v_params m)) ++ [Sign ")"] ++
     (if v_const m then [Word $"const"] else []) ++ [Word $"override"])
    (match ge_nanobind o, v_pure m with
     | true, true => $"NB_OVERRIDE_PURE_NAME" | true, false => $"NB_OVERRIDE_NAME"
     | false, true => $"PYBIND11_OVERRIDE_PURE_NAME" | false, false => $"PYBIND11_OVERRIDE_NAME"
     end)
    ((if ge_nanobind o then [] else [read_text (v_return m); read_text (join $"::" (namespaces (g_scope g) ++ [g_name g]))]) ++
     [[Str (v_python m)]; [Word (v_name m)]] ++ map (fun p => [Word (snd p)]) (v_params m)).
(** The constructors of the class with pybind11; its name and the number of methods with nanobind. *)
Definition expected_first (g : glue_class) : list lexeme :=
  if ge_nanobind o then [Word $"NB_TRAMPOLINE"; Sign "("; Word (g_name g); Sign ","; Word (decimal (length (g_virtual g))); Sign ")"]
  else [Word $"using"; Word (g_name g); Sign ":"; Sign ":"; Word (g_name g)].
Definition expected_trampoline (g : glue_class) : list shown_class :=
  if ge_override o (g_name g) then
    match g_virtual g with
    | [] => []
    | ms => [(namespaces (g_scope g), g_name g ++ $"_trampoline", [Word $"public"; Word (g_name g)], Says (expected_first g) :: map (expected_override g) ms)]
    end
  else [].
Definition expected_publicist (g : glue_class) : list shown_class :=
  if ge_publish o (g_name g) then
    match g_protected g with
    | [] => []
    | ms => [(namespaces (g_scope g), g_name g ++ $"_publicist", [Word $"public"; Word (g_name g)],
              map (fun m => Says [Word $"using"; Word (g_name g); Sign ":"; Sign ":"; Word m]) ms)]
    end
  else [].

(** ** Which classes *)

(** C++ text on one line: code without quotes and slashes, and closed literals. *)
Definition cpp_text (t : str) : Prop :=
  exists ps, t = concat (map (fun p => match p with EnumSpec.Text s => s | Quoted s => [dq] ++ s ++ [dq] end) ps) /\
    Forall (fun p => match p with EnumSpec.Text s => code_text s | Quoted s => closed_literal s end) ps.
(** The brackets are closed. *)
Fixpoint closed_at (d : nat) (ts : list lexeme) : Prop :=
  match ts with
  | [] => d = 0
  | Broken :: _ => False
  | t :: r => if opens t then closed_at (S d) r else if closes t then match d with 0 => False | S d' => closed_at d' r end else closed_at d r
  end.
(** The names of the placeholders. *)
Definition glue_names : list str := map lit ["OVERRIDE_TYPE"; "_i_"; "return_type"; "function_name_cpp"; "function_name_python"; "maybe_const";
  "implemented_class"; "param_list"; "maybe_comma_if_has_params"; "param_names"; "maybe_comma"; "trampoline_class_name"; "nb_virtual_methods";
  "class_name"; "trampoline_list"; "publicist_class_name"; "using_list"]%string.
(** The text of a result: a type without brackets and commas, which is not an access. *)
Definition result_text (t : str) : Prop := simple_text t /\ ~ In ","%char t /\ read_text t <> [] /\ ~ In (Word $"public") (read_text t).
Record good_method (m : vmethod) : Prop := {
  gm_return : result_text (v_return m);
  gm_name : word (v_name m);
  gm_python : word (v_python m);
  gm_params : Forall (fun p => cpp_text (fst p) /\ closed_at 0 (read_text (fst p)) /\ neutral glue_names (fst p) /\ word (snd p)) (v_params m) }.
Record good_class (g : glue_class) : Prop := {
  gg_name : word (g_name g);
  gg_scope : Forall (fun p => match p with NsPart n => word n | _ => False end) (g_scope g);
  gg_methods : Forall good_method (g_virtual g);
  gg_protected : Forall word (g_protected g) }.

(** The class of the binding is derived by a class which C++ can find under this name from anywhere. *)
Definition found_as (c : shown_class) : str := join $"::" (fst (fst (fst c)) ++ [snd (fst (fst c))]).
End Expected.

(** The same class, without what lets Python override its methods. *)
Definition without_trampoline (h : head) : head :=
  Head (h_name h) (h_python h) (h_params h) (h_special h) (h_scope h) (h_bases h) (h_custom h) (h_nodelete h) false (h_final h) (h_comment h) (h_location h)
    (h_deleted h) (h_ctor h) (h_ctor_text h) (h_copy h) (h_copy_api h).
(** What is written of a class: a trampoline or a publicist. *)
Definition glued (o : glue_env) (g : glue_class) : Prop :=
  (ge_override o (g_name g) = true /\ g_virtual g <> []) \/ (ge_publish o (g_name g) = true /\ g_protected g <> []).
