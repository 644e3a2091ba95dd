From Verif Require Import PyStr.
(** The types of C++ which are written, and what they are in Python. *)

(** A type of the table; a class with the names of its scopes; templates of the standard library with one argument; templates of the user. *)
Inductive ty := Scalar (cpp python : str) | Named (path : list str) | Vector (t : ty) | Opt (t : ty) | Shared (t : ty) | Unique (t : ty) | Other (path : list str) (t : ty).
Fixpoint cpp_text (t : ty) : str :=
  match t with
  | Scalar c _ => c
  | Named p => join $"::" p
  | Vector t => $"std::vector<" ++ cpp_text t ++ $">"
  | Opt t => $"std::optional<" ++ cpp_text t ++ $">"
  | Shared t => $"std::shared_ptr<" ++ cpp_text t ++ $">"
  | Unique t => $"std::unique_ptr<" ++ cpp_text t ++ $">"
  | Other p t => join $"::" p ++ $"<" ++ cpp_text t ++ $">"
  end.
Fixpoint python_type (dot : str) (t : ty) : str :=
  match t with
  | Scalar _ p => p
  | Named p => join dot p
  | Vector t => $"List[" ++ python_type dot t ++ $"]"
  | Opt t => $"Optional[" ++ python_type dot t ++ $"]"
  | Shared t | Unique t => python_type dot t
  | Other p t => join dot p ++ $"[" ++ python_type dot t ++ $"]"
  end.
Definition scalars : list (str * str) :=
  [($"bool", $"bool"); ($"int", $"int"); ($"unsigned int", $"int"); ($"short", $"int"); ($"unsigned short", $"int"); ($"long", $"int"); ($"unsigned long", $"int"); ($"long long", $"int");
   ($"unsigned long long", $"int"); ($"size_t", $"int"); ($"int8_t", $"int"); ($"uint8_t", $"int"); ($"int16_t", $"int"); ($"uint16_t", $"int"); ($"int32_t", $"int"); ($"uint32_t", $"int");
   ($"int64_t", $"int"); ($"uint64_t", $"int"); ($"float", $"float"); ($"double", $"float"); ($"long double", $"float"); ($"std::string", $"str"); ($"std::string_view", $"str")].
(** The words which the names of the user are not. *)
Definition type_words : list str :=
  [$"unsigned"; $"long"; $"const"; $"uint8_t"; $"int8_t"; $"uint16_t"; $"int16_t"; $"uint32_t"; $"int32_t"; $"uint64_t"; $"int64_t"; $"short"; $"double"; $"size_t"; $"std"; $"void"; $"py"; $"nb"; $"mutable"].
Definition user_name (w : str) : Prop := w <> [] /\ Forall (fun c => is_word c = true) w /\ ~ In w type_words /\ startswith $"cha" w = false.
Definition user_path (p : list str) : Prop := p <> [] /\ Forall user_name p.
Fixpoint ty_ok (t : ty) : Prop :=
  match t with
  | Scalar c p => In (c, p) scalars
  | Named p => user_path p
  | Vector t | Opt t | Shared t | Unique t => ty_ok t
  | Other p t => user_path p /\ ty_ok t
  end.
(** What can be around a type. *)
Definition constants_before : list str := [[]; $"const "].
Definition marks_after : list str := [[]; $"&"; $" &"; $"&&"; $" &&"; $"*"; $" *"].
