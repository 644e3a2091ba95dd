From Verif Require Import PyStr PyDict PyNum TypeTextModel LambdaModel AdapterModel BufferModel BufferSpec ChainModel BindModel.
(** What the stub and the binding of a function must say. *)

(** ** Parameters *)

(** A parameter of a Python function: its name and whether it can be omitted, or all other arguments. *)
Inductive python_param := Named (name : str) (optional : bool) | Args | Kwargs.

(** Its text in the stub: a type (without an equal sign), then a value if it can be omitted. *)
Definition stub_shows (q : python_param) (text : str) : Prop :=
  match q with
  | Named n o => exists t v, contains $" = " t = false /\ text = n ++ $": " ++ t ++ v /\
      if o then exists w, w <> [] /\ v = $" = " ++ w else v = []
  | Args => text = $"*args"
  | Kwargs => text = $"**kwargs"
  end.
(** Its text in the binding, for the binding library [py]. *)
Definition binding_shows (py : str) (q : python_param) (text : str) : Prop :=
  match q with
  | Named n o => exists none v, In none [[]; $".none()"] /\ text = py ++ $"::arg(" ++ [dq] ++ n ++ [dq] ++ $")" ++ none ++ v /\
      if o then exists w, w <> [] /\ v = $" = " ++ w else v = []
  | _ => False
  end.
Definition is_named (q : python_param) : bool := match q with Named _ _ => true | _ => false end.

(** The Python parameter which stands for a C++ parameter. *)
Definition python_of (e : publisher) (p : param) : python_param :=
  if is_args (p_type p) then Args else if is_kwargs (p_type p) then Kwargs
  else Named (e_name e (p_name p)) (match p_default p with [] => false | _ => true end).

(** The ways to write a type [name] of the binding libraries. *)
Definition written_as (name : str) : list str :=
  flat_map (fun py => map (fun around => fst around ++ py ++ $"::" ++ name ++ snd around)
    [([], []); ($"const ", []); ([], $" &"); ($"const ", $" &")]) [$"py"; $"pybind11"; $"nb"; $"nanobind"].
(** A text without anything to be simplified. *)
Definition simple_text (s : str) : Prop :=
  Forall (fun w => contains w s = false) [$"const "; $" &"; $"pybind11::"; $"nanobind::"].

(** The options keep what matters in the parameter [p]: its name has no brace, its type no equal sign, a value stays a value, and
    shortening its type does not change whether it takes all other arguments. *)
Record faithful (e : publisher) (p : param) : Prop := {
  fa_name : ~ In "{"%char (e_name e (p_name p));
  fa_type : contains $" = " (e_type e (type_text (e_terse_type e (p_type p)))) = false;
  fa_args : is_args (e_terse_type e (p_type p)) = is_args (p_type p);
  fa_kwargs : is_kwargs (e_terse_type e (p_type p)) = is_kwargs (p_type p);
  fa_terse : p_default p = [] <-> strip (e_terse_value e (p_default p)) = [];
  fa_value : forall v, v = [] <-> e_value e v = [] }.

(** ** The call *)

(** The C++ parameters of what is bound: [None] is the object of a method. *)
Definition object_first (b : bool) : list (option str) := if b then [None] else [].
Definition receives (d : declared) (c : callable) : list (option str) :=
  let f := d_func d in
  match c with
  | Pointer _ | OfTypes _ _ _ =>
      object_first (f_is_method f && negb (static_type (f_return f))) ++ map (fun p => Some (p_name p)) (f_params f)
  | CallsMethod _ _ => [None]
  | Adapted self ps => object_first (match self with Some _ => true | None => false end) ++ map (fun p => Some (p_name p)) ps
  | Init _ => map (fun p => Some (p_name p)) (f_params f)
  end.

(** Whether Python gives the object: to methods which are not static; to a lambda which is the constructor, with nanobind. *)
Definition gives_object (d : declared) : bool :=
  f_is_method (d_func d) && negb (d_constructor d) && negb (static_type (f_return (d_func d))).
(** The parameters for which Python gives an argument: all but the object made by a constructor of nanobind. *)
Definition given (nanobind : bool) (d : declared) (g : func) : list param :=
  if nanobind && d_constructor d then tl (f_params g) else f_params g.
Definition gives (nanobind : bool) (d : declared) (c : callable) (g : func) : list (option str) :=
  object_first (gives_object d)
    ++ (match c with Adapted _ _ => if nanobind && d_constructor d then [Some $"self"] else [] | _ => [] end)
    ++ map (fun p => Some (p_name p)) (given nanobind d g).

(** A constructor belongs to a class which is not one of the types handled by the adapters. *)
Definition plain_class (bo : buffer_options) (d : declared) : Prop :=
  f_is_method (d_func d) = true /\ ~ In (d_scope d) [$"string"; $"std::string"; $"bool"] /\ ~ In (d_scope d) numeric_types /\
  ~ numbers bo (Param (CType [d_scope d] [] [$"*"]) $"self" [] []).

(** ** Long declarations *)

(** The lines [ls] are the declaration [d] with the comment [c]: on one line, or cut after the opening parenthesis and before
    the closing one, where Python ignores the ends of lines. *)
Definition declares (name result c : str) (params : str) (ls : list str) : Prop :=
  ls = [$"def " ++ name ++ $"(" ++ params ++ $") -> " ++ result ++ $":" ++ c] \/
  exists middle, ls = ($"def " ++ name ++ $"(" ++ c) :: middle ++ [$") -> " ++ result ++ $":"] /\ concat middle = params.
