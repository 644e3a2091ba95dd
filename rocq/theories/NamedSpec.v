From Verif Require Import PyStr PyDict PyNum TypeTextModel LambdaModel AdapterModel BufferModel BufferSpec ChainModel BindModel BindSpec NamedModel.
(** What the constructor made for a class must be. *)

(** ** Which members *)

(** A type as the parser makes it: it has a name, and no empty part. *)
Definition proper (t : ctype) : Prop :=
  typenames t <> [] /\ Forall (fun w => w <> []) (typenames t ++ specifiers t ++ modifiers t).

(** A public member which can be given a value: its type is one word, it is neither an array nor a field of bits, and the options do
    not exclude it. *)
Record settable (co : class_options) (s : struct) (m : member) : Prop := {
  se_public : m_access m = Public;
  se_word : exists n, p_type (m_decl m) = CType [n] [] [] /\ ~ In " "%char n;
  se_array : p_array (m_decl m) = [];
  se_bits : m_bits m = [];
  se_template : co_excluded co (p_type (m_decl m)) = false;
  se_type : co_exclude_type co (type_text (p_type (m_decl m))) = false;
  se_name : co_exclude_name co (p_name (m_decl m)) = false;
  se_class : co_exclude_in co (s_name s) (p_name (m_decl m)) = false }.
(** All of them, in the order of the class. *)
Definition chosen (co : class_options) (s : struct) (ms : list member) : Prop :=
  exists keep, ms = filter keep (s_members s) /\ forall m, In m (s_members s) -> (keep m = true <-> settable co s m).

Definition name_of (m : member) : str := p_name (m_decl m).
Definition type_of (m : member) : str := type_text (p_type (m_decl m)).
(** The value given to it when the constructor is called without it. *)
Definition initial (m : member) : str := match p_default (m_decl m) with [] => type_of m ++ $"()" | v => v end.

(** ** Which classes *)

(** C++ gives a default constructor to a class which declares no constructor. *)
Definition implicit (s : struct) : Prop := forall m, In m (s_methods s) -> me_constructor m = false.
Definition wanted (co : class_options) (s : struct) : Prop :=
  (if s_is_class s then co_class_ctor co (s_name s) else co_struct_ctor co (s_name s)) = true.
Definition destructible (s : struct) : Prop := forall m, In m (s_methods s) -> me_destructor m = true -> me_access m <> Private.

(** Nothing hinders the constructor: names are distinct, no member looks like a buffer, is excluded from the parameters of functions or
    named self, the class is not named like a type of the adapters, and the options about mutable default values agree. *)
Record unhindered (bo : buffer_options) (co : class_options) (o : options) (s : struct) (ms : list member) : Prop := {
  uh_proper : forall m, In m (s_members s) -> proper (p_type (m_decl m));
  uh_distinct : NoDup (map name_of ms);
  uh_buffers : forall m, In m ms -> ~ numbers bo (m_decl m);
  uh_excluded : forall m, In m ms -> o_exclude_names o (name_of m) = false /\ o_exclude_types o (type_of m) = false;
  uh_self : forall m, In m ms -> name_of m <> $"self";
  uh_args : forall m, In m ms -> is_args (p_type (m_decl m)) = false /\ is_kwargs (p_type (m_decl m)) = false;
  uh_class : ~ In (s_scope s) [$"string"; $"std::string"; $"bool"] /\ ~ In (s_scope s) numeric_types /\
    ~ numbers bo (Param (CType [s_scope s] [] [$"*"]) $"self" [] []);
  uh_size : o_array_size o [] = None;
  uh_optional : co_optional co = false -> o_mutable_default o $"ctor_wrapper" = true ->
    forall m, In m ms -> seems_mutable o (Param (p_type (m_decl m)) (name_of m) [] (initial m)) = false }.

(** ** Calling it *)

Section Call.
Variable V : Type.
(** The value of a C++ expression. *)
Variable eval : str -> V.

(** What a parameter holds: a value, or maybe a value. *)
Inductive held := Plain (v : V) | Opt (v : option V).
Definition optional_text (t : str) : str := $"const std::optional<const " ++ t ++ $"> &".
(** What the parameter [q] holds for the argument [a] of the type [t] ([None]: the argument is omitted); [None] if it cannot be
    called so. *)
Definition receive (t : str) (q : param) (a : option V) : option held :=
  if seqb (type_text (p_type q)) t then
    match a, p_default q with
    | Some v, _ => Some (Plain v)
    | None, [] => None
    | None, d => Some (Plain (eval d))
    end
  else if seqb (type_text (p_type q)) (optional_text t) then
    match a with
    | Some v => Some (Opt (Some v))
    | None => if seqb (p_default q) $"std::nullopt" then Some (Opt None) else None
    end
  else None.
Definition env := list (str * option held).
Definition environment (ms : list member) (ps : list param) (xs : list (option V)) : env :=
  map (fun mqa => (p_name (fst (snd mqa)), receive (type_of (fst mqa)) (fst (snd mqa)) (snd (snd mqa)))) (combine ms (combine ps xs)).

(** The members of an object. *)
Definition object := str -> V.
Definition put (n : str) (v : V) (x : object) : object := fun k => if seqb k n then v else x k.
(** [None] if the assignment is not one of C++: a value is expected by the first one, maybe a value by the second one. *)
Definition run_setting (e : env) (x : setting) (obj : object) : option object :=
  match x with
  | Assign m p => match dict_get p e with Some (Some (Plain v)) => Some (put m v obj) | _ => None end
  | AssignOr m p d =>
      match dict_get p e with
      | Some (Some (Opt (Some v))) => Some (put m v obj)
      | Some (Some (Opt None)) => Some (put m (eval d) obj)
      | _ => None
      end
  end.
Fixpoint run_settings (e : env) (xs : list setting) (obj : object) : option object :=
  match xs with
  | [] => Some obj
  | x :: r => match run_setting e x obj with Some obj' => run_settings e r obj' | None => None end
  end.

(** The object made for the arguments [xs] from a new object: each member has its argument or its initial value, what is not a
    parameter is not changed. *)
Definition constructed (ms : list member) (xs : list (option V)) (fresh obj : object) : Prop :=
  (forall m a, In (m, a) (combine ms xs) -> obj (name_of m) = match a with Some v => v | None => eval (initial m) end) /\
  (forall n, ~ In n (map name_of ms) -> obj n = fresh n).
End Call.

(** ** Its text *)

(** The names of the placeholders. *)
Definition ctor_names : list str := map lit ["_i_"; "qualified_struct_name"; "all_params_signature"; "all_params_set_values"; "maybe_pyargs";
  "maybe_comma"]%string.
Definition ctor_lines (i : str) (nanobind : bool) (scope signature sets pyargs : str) : list str :=
  if nanobind then
    [$".def(" ++ [dq] ++ $"__init__" ++ [dq] ++ $", [](" ++ signature ++ $")"; $"{"; i ++ $"new (self) " ++ scope ++ $"();  // placement new";
     i ++ $"auto r_ctor_ = self;"; sets; $"},"; pyargs; $")"]
  else
    [$".def(py::init<>([]("; signature ++ $")"; $"{"; i ++ $"auto r_ctor_ = std::make_unique<" ++ scope ++ $">();"; sets;
     i ++ $"return r_ctor_;"; $"})"; $", " ++ pyargs; $")"].

(** The statements, without the indentation of the body; [i] is one more indentation. *)
Definition statement (i : str) (x : setting) : list str :=
  match x with
  | Assign m p => [$"r_ctor_->" ++ m ++ $" = " ++ p ++ $";"]
  | AssignOr m p d => [$"if (" ++ p ++ $".has_value())"; i ++ $"r_ctor_->" ++ m ++ $" = " ++ p ++ $".value();"; $"else"; i ++ $"r_ctor_->" ++ m ++ $" = " ++ d ++ $";"]
  end.
Definition words_of (x : setting) : list str := match x with Assign m p => [m; p] | AssignOr m p d => [m; p; d] end.
