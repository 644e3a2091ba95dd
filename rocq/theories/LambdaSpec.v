From Verif Require Import PyStr PyDict TypeTextModel LambdaModel.
(** What the code of the lambdas does when it runs: a small semantics of the C++ used in them.  It is part of the
    specification, and is trusted as such. *)

(** ** Values and memory *)

(** A place is a cell of the memory and a path inside the object it holds: the field of a box, an element of an array, the
    content of an optional. *)
Inductive step := Field | Elem (i : nat) | Content.
Definition place := (nat * list step)%type.

(** Values.  [VAtom] is any number, string or user object, of which nothing is known; [VDefault t] is the value of the
    expression [t] of the user, where it was written; [VCStr s] is a pointer to the characters of the string [s];
    [VItems l] is a pointer to the first of the values [l]; [VCast t v] is [v] converted to the type [t]; [VUnset] is an
    uninitialized value.  A numpy buffer has a number of dimensions, a flag telling whether it is contiguous, the letter
    and the dlpack code of its item type, the size of an item, its length and the place of its first item. *)
Inductive value :=
| VVoid
| VAtom (a : str)
| VDefault (t : str)
| VLit (s : str)
| VNull
| VPtr (p : place)
| VCStr (s : str)
| VItems (l : list value)
| VSize (n : nat)
| VCast (t : str) (v : value)
| VUnset
| VBox (v : value)
| VOpt (v : option value)
| VRaw (l : list value)
| VStdArray (l : list value)
| VVec (l : list value)
| VTuple (l : list value)
| VBuf (ndim : nat) (contiguous : bool) (letter code : str) (itemsize length : nat) (data : place).

Definition mem := list value.

Fixpoint update {A} (l : list A) (i : nat) (x : A) : option (list A) :=
  match l, i with
  | [], _ => None
  | _ :: r, 0 => Some (x :: r)
  | y :: r, S i => option_map (cons y) (update r i x)
  end.

(** The part of a value at the end of a path, and the value where this part is replaced. *)
Fixpoint get_path (v : value) (ps : list step) : option value :=
  match ps with
  | [] => Some v
  | s :: r =>
      match v, s with
      | VBox w, Field => get_path w r
      | VOpt (Some w), Content => get_path w r
      | VRaw l, Elem i | VStdArray l, Elem i =>
          match nth_error l i with Some w => get_path w r | None => None end
      | _, _ => None
      end
  end.
Fixpoint set_path (v : value) (ps : list step) (x : value) : option value :=
  match ps with
  | [] => Some x
  | s :: r =>
      match v, s with
      | VBox w, Field => option_map VBox (set_path w r x)
      | VOpt (Some w), Content => option_map (fun w' => VOpt (Some w')) (set_path w r x)
      | VRaw l, Elem i =>
          match nth_error l i with
          | Some w => match set_path w r x with Some w' => option_map VRaw (update l i w') | None => None end
          | None => None
          end
      | VStdArray l, Elem i =>
          match nth_error l i with
          | Some w => match set_path w r x with Some w' => option_map VStdArray (update l i w') | None => None end
          | None => None
          end
      | _, _ => None
      end
  end.
Definition read (m : mem) (p : place) : option value :=
  match nth_error m (fst p) with Some v => get_path v (snd p) | None => None end.
Definition write (m : mem) (p : place) (x : value) : option mem :=
  match nth_error m (fst p) with
  | Some v => match set_path v (snd p) x with Some v' => update m (fst p) v' | None => None end
  | None => None
  end.
Definition at_ (p : place) (s : step) : place := (fst p, snd p ++ [s]).

(** ** Running *)

(** The result of running some code: a value, a C++ exception, or no meaning at all (code that does not compile, or an
    undefined behaviour). *)
Inductive result (A : Type) := Ok (a : A) | Throw | Stuck.
Arguments Ok {A}. Arguments Throw {A}. Arguments Stuck {A}.
Definition bind {A B} (r : result A) (k : A -> result B) : result B :=
  match r with Ok a => k a | Throw => Throw | Stuck => Stuck end.
Definition of_option {A} (o : option A) : result A := match o with Some a => Ok a | None => Stuck end.

(** The names visible at some point, with the place each stands for; what a lambda captures has no place. *)
Definition env := list (str * option place).
Definition lookup (n : str) (e : env) : option place := match dict_get n e with Some o => o | None => None end.
Definition bound (n : str) (e : env) : bool := dict_has n e.

(** A new name: C++ refuses a second declaration of the same name, and a name cannot be empty. *)
Definition declare (n : str) (p : place) (e : env) : option env :=
  match n with [] => None | _ => if bound n e then None else Some ((n, Some p) :: e) end.

(** The words of a text. *)
Fixpoint words_aux (s cur : str) : list str :=
  match s with
  | [] => [rev cur]
  | c :: r => if is_word c then words_aux r (c :: cur) else rev cur :: words_aux r []
  end.
Definition words (s : str) : list str := words_aux s [].

(** A text of the user means what it meant only if none of its words was given another meaning by the lambda. *)
Definition captured (s : str) (e : env) : bool := existsb (fun w => bound w e) (words s).

(** The place an expression stands for, if it does. *)
Fixpoint eval_place (e : env) (m : mem) (x : expr) : option place :=
  match x with
  | EName n => lookup n e
  | EIndex n i =>
      match lookup n e with
      | Some p => match read m p with Some (VRaw l) => if i <? length l then Some (at_ p (Elem i)) else None | _ => None end
      | None => None
      end
  | EField n =>
      match lookup n e with
      | Some p => match read m p with Some (VBox _) => Some (at_ p Field) | _ => None end
      | None => None
      end
  | EArrow n =>
      match lookup n e with
      | Some p =>
          match read m p with
          | Some (VPtr q) => match read m q with Some (VBox _) => Some (at_ q Field) | _ => None end
          | _ => None
          end
      | None => None
      end
  | EDeref n | EOptValue n =>
      match lookup n e with
      | Some p => match read m p with Some (VOpt (Some _)) => Some (at_ p Content) | _ => None end
      | None => None
      end
  | EParen x => eval_place e m x
  | _ => None
  end.

(** The value found at a place; an array of C becomes a pointer to its first element. *)
Definition load (m : mem) (p : place) : option value :=
  match read m p with
  | Some (VRaw _) => Some (VPtr (at_ p (Elem 0)))
  | r => r
  end.

Fixpoint eval_value (e : env) (m : mem) (x : expr) : option value :=
  match x with
  | EText s => if captured s e then None else Some (VDefault s)
  | ELit s => Some (VLit s)
  | ENull => Some VNull
  | EData n =>
      match lookup n e with
      | Some p =>
          match read m p with
          | Some (VStdArray _) => Some (VPtr (at_ p (Elem 0)))
          | Some (VVec l) => Some (VItems l)
          | _ => None
          end
      | None => None
      end
  | ESize n =>
      match lookup n e with
      | Some p => match read m p with Some (VVec l) => Some (VSize (length l)) | _ => None end
      | None => None
      end
  | ECast t x => option_map (VCast t) (eval_value e m x)
  | EAddr x => option_map VPtr (eval_place e m x)
  | ECStr x =>
      match eval_place e m x with
      | Some p => match read m p with Some (VAtom a) => Some (VCStr a) | _ => None end
      | None => None
      end
  | EParen x => eval_value e m x
  | _ => match eval_place e m x with Some p => load m p | None => None end
  end.

Definition eval_cond (e : env) (m : mem) (c : cond) : option bool :=
  match c with
  | CHasValue n =>
      match lookup n e with
      | Some p => match read m p with Some (VOpt o) => Some (match o with Some _ => true | None => false end) | _ => None end
      | None => None
      end
  | CNotNull n =>
      match lookup n e with
      | Some p => match read m p with Some VNull => Some false | Some (VPtr _) => Some true | _ => None end
      | None => None
      end
  end.

(** A variable of type [t] is a reference when the type ends with &. *)
Definition ref_type (t : str) : bool := endswith $"&" t.

(** A new cell. *)
Definition alloc (n : str) (v : value) (e : env) (m : mem) : option (env * mem) :=
  option_map (fun e' => (e', m ++ [v])) (declare n (length m, []) e).

Definition assign (e : env) (m : mem) (l r : expr) : option mem :=
  match eval_place e m l, eval_value e m r with
  | Some p, Some v => write m p v
  | _, _ => None
  end.

Definition c_string (v : value) : option value := match v with VAtom a => Some (VCStr a) | _ => None end.
Fixpoint all_some {A} (l : list (option A)) : option (list A) :=
  match l with
  | [] => Some []
  | Some x :: r => option_map (cons x) (all_some r)
  | None :: _ => None
  end.

(** Several new cells. *)
Fixpoint declare_all (nvs : list (str * value)) (e : env) (m : mem) : option (env * mem) :=
  match nvs with
  | [] => Some (e, m)
  | (n, v) :: r => match alloc n v e m with Some (e', m') => declare_all r e' m' | None => None end
  end.

(** The size of the numeric types (on a 64 bits unix). *)
Definition sizeof (t : str) : nat :=
  if smem t [$"uint8_t"; $"int8_t"; $"char"; $"unsigned char"; $"signed char"; $"bool"] then 1
  else if smem t [$"uint16_t"; $"int16_t"; $"short"] then 2
  else if smem t [$"uint32_t"; $"int32_t"; $"int"; $"signed int"; $"unsigned int"; $"float"] then 4
  else if smem t [$"uint64_t"; $"int64_t"; $"long"; $"signed long"; $"unsigned long"; $"long long"; $"signed long long";
                  $"unsigned long long"; $"double"; $"size_t"] then 8
  else if seqb t $"long double" then 16 else 0.

Definition is_minus_one (v : value) : bool :=
  match v with VAtom t | VDefault t => seqb t $"-1" | _ => false end.

Definition run1 (s : stmt) (e : env) (m : mem) : result (env * mem) :=
  match s with
  | SBlank => Ok (e, m)
  | SDecl t n x =>
      of_option
        (if ref_type t
         then match eval_place e m x with Some p => option_map (fun e' => (e', m)) (declare n p e) | None => None end
         else match eval_value e m x with Some v => alloc n v e m | None => None end)
  | SArray _ n _ size init =>
      of_option (match init with [] => alloc n (VRaw (repeat VUnset size)) e m | _ => None end)
  | SAssign l r => of_option (option_map (fun m' => (e, m')) (assign e m l r))
  | SIf c l r =>
      match eval_cond e m c with
      | Some true => of_option (option_map (fun m' => (e, m')) (assign e m l r))
      | Some false => Ok (e, m)
      | None => Stuck
      end
  | SVector n => of_option (alloc n (VVec []) e m)
  | SReserve v n =>
      match eval_value e m (ESize v), eval_value e m (ESize n) with Some _, Some _ => Ok (e, m) | _, _ => Stuck end
  | SForPush v n =>
      of_option
        (match lookup v e, lookup n e with
         | Some p, Some q =>
             match read m p, read m q with
             | Some (VVec l), Some (VVec ss) =>
                 match all_some (map c_string ss) with
                 | Some cs => option_map (fun m' => (e, m')) (write m p (VVec (l ++ cs)))
                 | None => None
                 end
             | _, _ => None
             end
         | _, _ => None
         end)
  | SDefaultOr _ n name text =>
      of_option
        (match lookup name e with
         | Some p =>
             match read m p with
             | Some (VOpt (Some v)) => alloc n v e m
             | Some (VOpt None) => if captured text e then None else alloc n (VDefault text) e m
             | _ => None
             end
         | None => None
         end)
  | SBuffer _ _ n data count =>
      match lookup n e with
      | Some p =>
          match read m p with
          | Some (VBuf ndim contiguous _ _ _ len q) =>
              if (ndim =? 1) && contiguous
              then of_option (match alloc data (VPtr q) e m with
                              | Some (e1, m1) => alloc count (VSize len) e1 m1
                              | None => None
                              end)
              else Throw
          | _ => Stuck
          end
      | None => Stuck
      end
  | SCheckType n char _ _ =>
      match lookup n e with
      | Some p =>
          match read m p with
          | Some (VBuf _ _ letter _ _ _ _) =>
              match alloc (n ++ $"_type") (VAtom letter) e m with
              | Some r => if seqb letter char then Ok r else Throw
              | None => Stuck
              end
          | _ => Stuck
          end
      | None => Stuck
      end
  | SCheckTypeNano idx n code _ raw =>
      match lookup n e with
      | Some p =>
          match read m p with
          | Some (VBuf _ _ _ code' itemsize _ _) =>
              let k := nat_text idx in
              match declare_all
                      [($"dtype_code_python_" ++ k, VAtom code'); ($"dtype_code_cpp_" ++ k, VAtom code);
                       ($"size_python_" ++ k, VSize itemsize); ($"size_cpp_" ++ k, VSize (sizeof raw))] e m with
              | Some r => if seqb code' code && (itemsize =? sizeof raw) then Ok r else Throw
              | None => Stuck
              end
          | _ => Stuck
          end
      | None => Stuck
      end
  | SStride stride name buffer =>
      match lookup name e, lookup buffer e with
      | Some p, Some q =>
          match read m p, read m q with
          | Some v, Some (VBuf _ _ _ _ itemsize _ _) =>
              of_option (alloc stride (if is_minus_one v then VSize itemsize else v) e m)
          | _, _ => Stuck
          end
      | _, _ => Stuck
      end
  end.
Fixpoint run (ss : list stmt) (e : env) (m : mem) : result (env * mem) :=
  match ss with
  | [] => Ok (e, m)
  | s :: r => bind (run1 s e m) (fun em => run r (fst em) (snd em))
  end.

(** ** Calls *)

(** An argument or a result: a reference to a place, or a value. *)
Inductive arg := ARef (p : place) | AVal (v : value).
(** What a C++ function does with its arguments and the memory. *)
Definition callee := list arg -> mem -> result (arg * mem).

Definition value_of (m : mem) (a : arg) : option value := match a with ARef p => load m p | AVal v => Some v end.

(** A parameter is received by reference when its type ends with & (an array is received as a pointer). *)
Definition by_ref (p : param) : bool := match p_array p with [] => ref_type (type_text (p_type p)) | _ => false end.

(** The arguments received: a reference is bound to its place; a value goes in a new cell. *)
Definition receive1 (p : param) (a : arg) (e : env) (m : mem) : option (env * mem) :=
  match by_ref p, a with
  | true, ARef q => option_map (fun e' => (e', m)) (declare (p_name p) q e)
  | _, _ => match value_of m a with Some v => alloc (p_name p) v e m | None => None end
  end.
Fixpoint receive (ps : list param) (xs : list arg) (e : env) (m : mem) : option (env * mem) :=
  match ps, xs with
  | [], [] => Some (e, m)
  | p :: ps, a :: xs =>
      match receive1 p a e m with Some (e', m') => receive ps xs e' m' | None => None end
  | _, _ => None
  end.

(** The arguments given: as many as the parameters. *)
Definition give1 (e : env) (m : mem) (p : param) (x : expr) : option arg :=
  match (if by_ref p then eval_place e m x else None) with
  | Some q => Some (ARef q)
  | None => option_map AVal (eval_value e m x)
  end.
Fixpoint give (e : env) (m : mem) (ps : list param) (xs : list expr) : option (list arg) :=
  match ps, xs with
  | [], [] => Some []
  | p :: ps, x :: xs =>
      match give1 e m p x, give e m ps xs with Some a, Some r => Some (a :: r) | _, _ => None end
  | _, _ => None
  end.

(** The names which are not usable in the lambda for something else: the lambda it captures, or self. *)
Definition start_env (f : func) : env := map (fun n => (n, None)) (captures f).

(** The name called has not been given another meaning: a lambda and self are captured, a function is global. *)
Definition callee_visible (f : func) (e : env) : bool :=
  let is_captured n := match dict_get n e with Some None => true | _ => false end in
  match f_to_call f with
  | Some l => is_captured l
  | None => if f_is_method f then is_captured $"self" else negb (bound (f_qualified f) e)
  end.

(** The end of a lambda: what becomes of the result of the call. *)
Definition finish (f : func) (l : lambda) (e : env) (r : arg) (m : mem) : result (arg * mem) :=
  match l_end l with
  | Ordinary output =>
      if returns_void f then bind (run output e m) (fun em => Ok (AVal VVoid, snd em))
      else if bound $"lambda_result" e then Stuck
      else if f_returns_ref f then
        match r with
        | ARef p => bind (run output e m) (fun em => Ok (ARef p, snd em))
        | AVal _ => Stuck
        end
      else
        match value_of m r with
        | Some v =>
            if ref_type (lambda_return_text l) then Stuck
            else bind (run output e m) (fun em => Ok (AVal v, snd em))
        | None => Stuck
        end
  | ReturnAll outs =>
      match all_some (map (fun n => match lookup n e with Some p => load m p | None => None end) outs) with
      | None => Stuck
      | Some vs =>
          if returns_void f then Ok (AVal (match vs with [v] => v | _ => VTuple vs end), m)
          else if bound $"r" e || ref_type (return_text f) then Stuck
          else match value_of m r with
               | Some v => Ok (AVal (VTuple (v :: vs)), m)
               | None => Stuck
               end
      end
  | ByType _ _ _ _ _ =>
      if returns_void f then Ok (AVal VVoid, m)
      else if ref_type (lambda_return_text l) then match r with ARef _ => Ok (r, m) | AVal _ => Stuck end
      else match value_of m r with Some v => Ok (AVal v, m) | None => Stuck end
  end.

(** The letter of the type of the items of a buffer; with nanobind it is found from the dlpack code and the size of an
    item. *)
Definition nanobind_letters : list (str * nat * str) :=
  [($"UInt", 1, $"B"); ($"UInt", 2, $"H"); ($"UInt", 4, $"I"); ($"UInt", 8, $"L"); ($"Int", 1, $"b"); ($"Int", 2, $"h");
   ($"Int", 4, $"i"); ($"Int", 8, $"l"); ($"Float", 4, $"f"); ($"Float", 8, $"d"); ($"Float", 16, $"g")].
Definition letter_of (nanobind : bool) (e : env) (m : mem) (n : str) : result str :=
  match lookup n e with
  | Some p =>
      match read m p with
      | Some (VBuf _ _ letter code itemsize _ _) =>
          if nanobind then
            match find (fun r => seqb (fst (fst r)) code && (snd (fst r) =? itemsize)) nanobind_letters with
            | Some r => Ok (snd r)
            | None => Throw
            end
          else Ok letter
      | _ => Stuck
      end
  | None => Stuck
  end.
(** The other buffers must have the same letter, compared one after the other. *)
Fixpoint same_letters (nanobind : bool) (e : env) (m : mem) (letter : str) (ns : list str) : result unit :=
  match ns with
  | [] => Ok tt
  | n :: r =>
      bind (letter_of nanobind e m n) (fun other => if seqb other letter then same_letters nanobind e m letter r else Throw)
  end.

(** The names declared at the end of such a lambda. *)
Definition end_names (e : ending) : list str :=
  match e with
  | ByType nanobind buffer others _ _ =>
      [$"np_uint_l"; $"np_int_l"]
      ++ (if nanobind then [$"_nanobind_buffer_type_to_letter_code"; $"dtype_code_" ++ buffer; $"sizeof_item_" ++ buffer] else [])
      ++ (match others with
          | [] => []
          | _ => [if nanobind then $"_nanobind_dtype_letter_to_name" else $"_pybind_dtype_letter_to_name"]
          end)
      ++ map (fun n => n ++ $"_type") (buffer :: others)
  | _ => []
  end.

(** The arguments of the call: those of the lambda, or those chosen by the type of the items of a buffer. *)
Definition choose (l : lambda) (e : env) (m : mem) : result (list expr) :=
  match l_end l with
  | ByType nanobind buffer others calls _ =>
      match declare_all (map (fun n => (n, VVoid)) (end_names (l_end l))) e m with
      | None => Stuck
      | Some _ =>
          bind (letter_of nanobind e m buffer) (fun letter =>
          bind (same_letters nanobind e m letter others) (fun _ =>
          match dict_get letter calls with Some xs => Ok xs | None => Throw end))
      end
  | _ => Ok (l_args l)
  end.

(** A call of the lambda [l], written around the function [f] which does [c]. *)
Definition call (f : func) (l : lambda) (c : callee) : callee := fun xs m =>
  bind (of_option (receive (l_params l) xs (start_env f) m)) (fun em =>
  bind (run (l_input l) (fst em) (snd em)) (fun em =>
  if callee_visible f (fst em) then
    bind (choose l (fst em) (snd em)) (fun xs =>
    bind (of_option (give (fst em) (snd em) (f_params f) xs)) (fun ys =>
    bind (c ys (snd em)) (fun rm => finish f l (fst em) (fst rm) (snd rm))))
  else Stuck)).

(** ** Names *)

(** The names a statement declares. *)
Definition decls (s : stmt) : list str :=
  match s with
  | SDecl _ n _ | SArray _ n _ _ _ | SVector n | SDefaultOr _ n _ _ => [n]
  | SBuffer _ _ _ data count => [data; count]
  | SCheckType n _ _ _ => [n ++ $"_type"]
  | SCheckTypeNano idx _ _ _ _ =>
      map (fun t => t ++ nat_text idx) [$"dtype_code_python_"; $"dtype_code_cpp_"; $"size_python_"; $"size_cpp_"]
  | SStride n _ _ => [n]
  | _ => []
  end.

(** The texts of the user copied in an expression or a statement. *)
Fixpoint expr_texts (x : expr) : list str :=
  match x with
  | EText s => [s]
  | EParen x | EAddr x | ECStr x | ECast _ x => expr_texts x
  | _ => []
  end.
Definition stmt_texts (s : stmt) : list str :=
  match s with
  | SDecl _ _ x => expr_texts x
  | SAssign l r | SIf _ l r => expr_texts l ++ expr_texts r
  | SDefaultOr _ _ _ t => [t]
  | _ => []
  end.

(** The names declared in a lambda, and the texts of the user in it. *)
Definition names_of (f : func) (l : lambda) : list str :=
  captures f ++ map p_name (l_params l) ++ flat_map decls (l_input l).
Definition texts_of (l : lambda) : list str := flat_map stmt_texts (l_input l) ++ flat_map expr_texts (l_args l).

(** No name is declared twice or empty, or hides something which is used. *)
Record well_named (f : func) (l : lambda) : Prop := {
  wn_distinct : NoDup (names_of f l);
  wn_not_empty : ~ In [] (names_of f l);
  wn_texts : forall t n, In t (texts_of l) -> In n (names_of f l) -> ~ In n (words t);
  wn_callee : f_to_call f = None -> f_is_method f = false -> ~ In (f_qualified f) (names_of f l);
  wn_result : match l_end l with
              | Ordinary _ => returns_void f = false -> ~ In $"lambda_result" (names_of f l)
              | ReturnAll _ => returns_void f = false -> ~ In $"r" (names_of f l)
              | ByType _ _ _ _ _ => NoDup (end_names (l_end l)) /\ forall n, In n (end_names (l_end l)) -> ~ In n (names_of f l)
              end }.
