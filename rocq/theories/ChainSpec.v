From Verif Require Import PyStr PyDict PyNum TypeTextModel LambdaModel LambdaSpec AdapterModel AdapterSpec BufferModel BufferSpec.
(** What a chain of lambdas must be. *)

(** ** Arguments and names *)

Definition link := (func * lambda)%type.

(** The arguments of each call written in the lambda. *)
Definition calls_of (l : lambda) : list (list expr) :=
  match l_end l with ByType _ _ _ calls _ => map snd calls | _ => [l_args l] end.
Definition one_argument_each (fl : link) : Prop :=
  Forall (fun xs => length xs = length (f_params (fst fl))) (calls_of (snd fl)).

(** The names used by an expression or a statement. *)
Fixpoint expr_names (x : expr) : list str :=
  match x with
  | EName n | EData n | EIndex n _ | EField n | EArrow n | EDeref n | EOptValue n | ESize n => [n]
  | EParen x | EAddr x | ECStr x | ECast _ x => expr_names x
  | EText _ | ELit _ | ENull => []
  end.
Definition cond_names (c : cond) : list str := match c with CHasValue n | CNotNull n => [n] end.
Definition stmt_names (s : stmt) : list str :=
  match s with
  | SBlank | SArray _ _ _ _ _ | SVector _ => []
  | SDecl _ _ e => expr_names e
  | SAssign l r => expr_names l ++ expr_names r
  | SIf c l r => cond_names c ++ expr_names l ++ expr_names r
  | SReserve v n | SForPush v n => [v; n]
  | SDefaultOr _ _ n _ => [n]
  | SBuffer _ _ n _ _ | SCheckType n _ _ _ | SCheckTypeNano _ n _ _ _ => [n]
  | SStride _ n b => [n; b]
  end.

(** Each statement uses names declared before it: [known] before the first one, [after] after the last one. *)
Inductive in_scope : list str -> list stmt -> list str -> Prop :=
| in_scope_nil known : in_scope known [] known
| in_scope_cons known s r after :
    incl (stmt_names s) known -> in_scope (decls s ++ known) r after -> in_scope known (s :: r) after.
(** A lambda knows its parameters; its arguments and what follows the call use these and what it declares. *)
Definition scoped (l : lambda) : Prop :=
  exists after, in_scope (map p_name (l_params l)) (l_input l) after /\
    Forall (fun xs => incl (flat_map expr_names xs) after) (calls_of l) /\
    match l_end l with
    | Ordinary output => exists last, in_scope after output last
    | ReturnAll outs => incl outs after
    | ByType _ b others _ _ => incl (b :: others) after
    end.

(** Each lambda is written around the function left by the previous one, and calls its lambda. *)
Inductive chained : func -> list link -> func -> Prop :=
| chained_nil f : chained f [] f
| chained_cons f l ls g h :
    f_name h = f_name f -> f_qualified h = f_qualified f -> f_specialized h = f_specialized f ->
    f_is_method h = f_is_method f -> f_returns_ref h = f_returns_ref f ->
    f_params h = l_params l -> f_return h = l_return l -> f_to_call h = Some (l_name l) ->
    chained h ls g -> chained f ((f, l) :: ls) g.

(** What Python calls when it calls the last lambda. *)
Fixpoint run_chain (ls : list link) (c : callee) : callee :=
  match ls with
  | [] => c
  | (f, l) :: r => run_chain r (call f l c)
  end.

(** ** Conditions on the parameters of the original function *)

(** No parameter is both a list of strings and named like the size of one. *)
Definition no_list_of_sizes (o : options) (ps : list param) : Prop :=
  forall p, In p ps -> string_list p -> o_size_name o (p_name p) = false.

(** When the buffers are adapted, each parameter has a single role. *)
Definition single_roles (bo : buffer_options) (f : func) : Prop :=
  adapted_params bo f -> exists ss, f_params f = map b_param ss /\ arranged bo None None ss.

(** ** Names *)

(** A size which is no more a parameter once its buffer is a numpy array: the parameter [p] between [a] and [b]. *)
Definition dropped (bo : buffer_options) (a : list param) (p : param) (b : list param) : Prop :=
  sized bo p /\ ~ strided p /\ ~ buffer bo 5 (p :: b) /\ exists a' p0, a = a' ++ [p0] /\ numbers bo p0.
(** The names of the other parameters. *)
Definition kept (bo : buffer_options) (f : func) (n : str) : Prop :=
  exists a p b, f_params f = a ++ p :: b /\ p_name p = n /\ ~ (adapted_params bo f /\ dropped bo a p b).

(** The names made from the name [x]: an element of it, then one of the late endings; for an array, one of the other endings. *)
Definition buffer_endings : list str := [$"_from_pyarray"; $"_count"; $"_type"; $"_stride"].
Definition late_endings : list str :=
  [$"_or_default"; $"_raw"; $"_adapt_default_null"; $"_adapt_modifiable"; $"_boxed_value"; $"_ptrs"].
Definition endings : list str := buffer_endings ++ late_endings.
Definition item_of (x n : str) : Prop := n = x \/ exists k, n = x ++ $"_" ++ nat_text k.
Definition array_name (bo : buffer_options) (f : func) (x : str) : Prop :=
  adapted_params bo f /\ exists p, In p (f_params f) /\ p_name p = x /\ numbers bo p.
Definition made_from (bo : buffer_options) (f : func) (x n : str) : Prop :=
  (exists y, item_of x y /\ (n = y \/ exists e, In e late_endings /\ n = y ++ e)) \/
  array_name bo f x /\ exists e, In e buffer_endings /\ n = x ++ e.

(** The names which the lambdas give to something else. *)
Definition lambda_endings : list str :=
  [$"_adapt_c_buffers"; $"_adapt_exclude_params"; $"_adapt_mutable_param_with_default_value"; $"_adapt_fixed_size_c_arrays";
   $"_adapt_const_char_pointer_with_default_null"; $"_adapt_modifiable_immutable_to_return"; $"_adapt_modifiable_immutable";
   $"_adapt_c_string_list"; $"_adapt_c_string_list_no_count"; $"_adapt_variadic_format"].
Definition other_names : list str :=
  [$"self"; $"lambda_result"; $"r"; $"np_uint_l"; $"np_int_l"; $"_nanobind_buffer_type_to_letter_code";
   $"_nanobind_dtype_letter_to_name"; $"_pybind_dtype_letter_to_name"].
Definition checks_of (n : str) : Prop :=
  exists t r, In t [$"dtype_code_"; $"sizeof_item_"; $"size_python_"; $"size_cpp_"] /\ n = t ++ r.
Definition taken (f : func) (n : str) : Prop :=
  In n other_names \/ checks_of n \/ exists e, In e lambda_endings /\ n = f_name f ++ e.

(** Names which do not clash: they are not empty, no name is made from another one, and those made from them are not taken and
    are not in a default value. *)
Record clean (bo : buffer_options) (f : func) : Prop := {
  cl_distinct : NoDup (map p_name (f_params f));
  cl_not_empty : ~ kept bo f [];
  cl_apart : forall x y, kept bo f x -> kept bo f y -> made_from bo f x y -> y = x;
  cl_free : forall x n, kept bo f x -> made_from bo f x n -> ~ taken f n /\ n <> f_qualified f;
  cl_checks : forall x r, kept bo f x -> x <> $"python_" ++ r /\ x <> $"cpp_" ++ r;
  cl_qualified : ~ checks_of (f_qualified f);
  cl_defaults : forall p w, In p (f_params f) -> In w (words (p_default p)) ->
    w <> $"self" /\ (forall e, In e lambda_endings -> w <> f_name f ++ e) /\ forall x, kept bo f x -> ~ made_from bo f x w;
  cl_words : forall x w, kept bo f x -> In w [$"1"; $"std"; $"nullopt"; $"nullptr"] -> ~ made_from bo f x w }.

(** A simpler condition: no name is the beginning of another one, or of a name used by the lambdas. *)
Definition plain_names (f : func) : Prop :=
  let names := map p_name (f_params f) in
  let checks := [$"dtype_code_"; $"sizeof_item_"; $"size_python_"; $"size_cpp_"] in
  NoDup names /\ ~ In [] names /\
  (forall x y r, In x names -> In y names -> y = x ++ r -> y = x) /\
  (forall x n r, In x names -> In n (f_qualified f :: other_names ++ map (app (f_name f)) lambda_endings) -> n <> x ++ r) /\
  (forall x t r, In x names -> In t checks -> t <> x ++ r /\ x <> t ++ r) /\
  (forall t r, In t checks -> f_qualified f <> t ++ r) /\
  (forall x r, In x names -> x <> $"python_" ++ r /\ x <> $"cpp_" ++ r) /\
  (forall x w r, In x names ->
     In w ([$"1"; $"std"; $"nullopt"; $"nullptr"] ++ flat_map (fun p => words (p_default p)) (f_params f)) -> w <> x ++ r) /\
  (forall w, In w (flat_map (fun p => words (p_default p)) (f_params f)) ->
     ~ In w ($"self" :: map (app (f_name f)) lambda_endings)).
