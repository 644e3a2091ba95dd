(** Specification side of publishing and operators. *)
From Coq Require Import ZArith.
From Verif Require Import PyStr PublishModel.

(** *** Functions *)

(** The entry of a function in the table of signatures: the first one, keys are unique in Python. *)
Definition named_signature (o : options) (f : func) (target : str) : Prop :=
  exists a b, fn_exclude_by_name_and_signature o = a ++ (f_name f, target) :: b /\ ~ In (f_name f) (map fst a).
Definition types_of (f : func) : list ctype :=
  match f_return f with Some t => t :: f_params f | None => f_params f end.
(** The reasons not to publish a function. *)
Inductive excluded (search : str -> str -> bool) (template : ctype -> bool) (o : options) (f : func) : Prop :=
| ex_destructor : startswith $"~" (f_name f) = true -> excluded search template o f
| ex_deleted : In $"delete" (f_specifiers f) -> excluded search template o f
| ex_qualified : contains $"::" (f_name f) = true -> excluded search template o f
| ex_template t : In t (types_of f) -> template t = true -> excluded search template o f
| ex_name : does_match search (fn_exclude_by_name o) (f_name f) = true -> excluded search template o f
| ex_type t : In t (types_of f) -> does_match search (fn_exclude_by_param_type o) (ty_code t) = true ->
    excluded search template o f
| ex_signature target : target <> [] -> named_signature o f target ->
    target = join $", " (map ty_code (f_params f)) -> excluded search template o f.
(** A prefix of the options: a non-empty text between bars. *)
Definition accepted_prefix (o : options) (p : str) : Prop :=
  p <> [] /\ In p (split_on "|" (functions_api_prefixes o)).
Definition has_prefix (o : options) (t : ctype) : Prop := exists p, accepted_prefix o p /\ In p (ty_specifiers t).
(** Part of the API: no return type, or no prefix asked for, or one of the prefixes. *)
Definition in_api (o : options) (f : func) : Prop :=
  match f_return f with
  | None => True
  | Some t => (forall p, ~ accepted_prefix o p) \/ has_prefix o t
  end.

(** *** Blocks *)

(** The children that the options want. *)
Definition wanted (search : str -> str -> bool) (template : ctype -> bool) (o : options) (a : adapted) : Prop :=
  match a with
  | AChild CEmptyLine | AChild (CComment _) | AChild (CConditionMacro _) => True
  | AChild (CStruct n) => does_match search (class_exclude_by_name o) n = false
  | AChild (CFunction f) => ~ excluded search template o f /\ (fn_exclude_non_api o = false \/ in_api o f)
  | AChild (CDefine n p) => does_match search (macro_define_include_by_name o) n = true /\ p = true
  | AChild (CEnum n) => does_match search (enum_exclude_by_name o) n = false
  | AChild (CNamespace n b) => b = true /\ n <> [] /\ does_match search (namespace_exclude o) n = false
  | AChild (CDecls _) | AChild COther => False
  | ADecl n => does_match search (globals_vars_include_by_name o) n = true
  end.
(** The elements a child stands for. *)
Definition parts (c : child) : list adapted :=
  match c with CDecls names => map ADecl names | _ => [AChild c] end.

(** *** Operators *)

(** What operators do, with their sign in C++, their number of parameters as methods, and the special method of
    the Python data model. *)
Inductive operation :=
| Add | Subtract | Multiply | Divide | Remainder | Item | Less | LessEqual | Equal | Different | Greater | GreaterEqual
| AddTo | SubtractFrom | MultiplyBy | DivideBy | RemainderBy | Negate | Plus | Truth.
Definition cpp_sign (op : operation) : str :=
  match op with
  | Add | Plus => $"+" | Subtract | Negate => $"-" | Multiply => $"*" | Divide => $"/" | Remainder => $"%"
  | Item => $"[]" | Less => $"<" | LessEqual => $"<=" | Equal => $"==" | Different => $"!=" | Greater => $">"
  | GreaterEqual => $">=" | AddTo => $"+=" | SubtractFrom => $"-=" | MultiplyBy => $"*=" | DivideBy => $"/="
  | RemainderBy => $"%=" | Truth => $"bool"
  end.
Definition operands (op : operation) : nat := match op with Negate | Plus | Truth => 0 | _ => 1 end.
Definition python_method (op : operation) : str :=
  match op with
  | Add => $"__add__" | Subtract => $"__sub__" | Multiply => $"__mul__" | Divide => $"__truediv__"
  | Remainder => $"__mod__" | Item => $"__getitem__" | Less => $"__lt__" | LessEqual => $"__le__" | Equal => $"__eq__"
  | Different => $"__ne__" | Greater => $"__gt__" | GreaterEqual => $"__ge__" | AddTo => $"__iadd__"
  | SubtractFrom => $"__isub__" | MultiplyBy => $"__imul__" | DivideBy => $"__itruediv__" | RemainderBy => $"__imod__"
  | Negate => $"__neg__" | Plus => $"__pos__" | Truth => $"__bool__"
  end.
(** A method that declares an operator, spaces allowed around the sign. *)
Definition declares (f : func) (sign : str) : Prop :=
  exists a b, f_name f = $"operator" ++ a ++ sign ++ b /\ f_is_method f = true /\
    Forall (fun c => is_space c = true) a /\ Forall (fun c => is_space c = true) b.

(** The meaning of a comparison, from the result of the three-way comparison. *)
Definition holds (op : operation) (r : Z) : option bool :=
  match op with
  | Less => Some (r <? 0)%Z | LessEqual => Some (r <=? 0)%Z | Equal => Some (r =? 0)%Z
  | GreaterEqual => Some (0 <=? r)%Z | Greater => Some (0 <? r)%Z | Different => Some (negb (r =? 0))%Z
  | _ => None
  end.
(** The value of the lambda of a comparison: the text between the call and the semicolon is a comparison of the
    result with zero. *)
Definition compare_zero (test : str) (r : Z) : option bool :=
  if seqb test $"< 0" then Some (r <? 0)%Z else if seqb test $"<= 0" then Some (r <=? 0)%Z
  else if seqb test $"== 0" then Some (r =? 0)%Z else if seqb test $">= 0" then Some (0 <=? r)%Z
  else if seqb test $"> 0" then Some (0 <? r)%Z else None.
Definition lambda_value (code : str) (r : Z) : option bool :=
  match split $"return self.operator<=>(other)" code with
  | [a; b] =>
      if seqb (strip a) $"auto cmp = [&self](auto&& other) -> bool {" then
        match split_on ";" b with
        | test :: _ => compare_zero (strip test) r
        | [] => None
        end
      else None
  | _ => None
  end.

(** The elements of a list that are wanted. *)
Inductive selected (P : adapted -> Prop) : list adapted -> list adapted -> Prop :=
| sel_nil : selected P [] []
| sel_keep a l r : P a -> selected P l r -> selected P (a :: l) (a :: r)
| sel_drop a l r : ~ P a -> selected P l r -> selected P (a :: l) r.
(** The result of a block: the wanted parts of each child, up to the first one that raises, which gives a
    warning. *)
Inductive filled (P : adapted -> Prop) (succeeds : adapted -> bool) :
  list child -> list adapted -> list child -> Prop :=
| fill_nil : filled P succeeds [] [] []
| fill_ok c cs l r w : (forall a, In a (parts c) -> P a -> succeeds a = true) -> selected P (parts c) l ->
    filled P succeeds cs r w -> filled P succeeds (c :: cs) (l ++ r) w
| fill_warned c cs pre a post l r w : parts c = pre ++ a :: post -> P a -> succeeds a = false ->
    (forall a', In a' pre -> P a' -> succeeds a' = true) -> selected P pre l ->
    filled P succeeds cs r w -> filled P succeeds (c :: cs) (l ++ r) (c :: w).
