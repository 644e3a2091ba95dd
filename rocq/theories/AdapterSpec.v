From Verif Require Import PyStr PyDict TypeTextModel LambdaModel LambdaSpec AdapterModel.
(** What the function called by the lambda of an adapter receives, and what the lambda gives back. *)

(** ** Arguments passed as they are *)

(** The arguments a parameter can be given: an existing place for a reference, or a value (an array of C is never a
    value). *)
Definition fits (m : mem) (p : param) (a : arg) : Prop :=
  match a with
  | ARef q => by_ref p = true /\ fst q < length m
  | AVal v => forall l, v <> VRaw l
  end.

(** The argument [y] given for the parameter [p] is the argument [a] received: the same place or the same value; a value
    received by reference is given through the place where it is. *)
Definition same (m : mem) (p : param) (a y : arg) : Prop :=
  match a with
  | ARef q => y = ARef q
  | AVal v => if by_ref p then exists q, y = ARef q /\ read m q = Some v else y = AVal v
  end.

(** The result of the function is the result of the lambda. *)
Definition handed_back (f : func) (rm : arg * mem) : result (arg * mem) :=
  if returns_void f then Ok (AVal VVoid, snd rm)
  else match fst rm, f_returns_ref f with
       | ARef q, true => Ok (ARef q, snd rm)
       | AVal _, true => Stuck
       | r, false => match value_of (snd rm) r with Some v => Ok (AVal v, snd rm) | None => Stuck end
       end.

(** Its return type is a reference only if the function says so. *)
Definition result_fits (f : func) : Prop := f_returns_ref f = false -> ref_type (return_text f) = false.

(** Three lists of the same length. *)
Inductive Forall3 {A B C} (P : A -> B -> C -> Prop) : list A -> list B -> list C -> Prop :=
| Forall3_nil : Forall3 P [] [] []
| Forall3_cons a b c la lb lc : P a b c -> Forall3 P la lb lc -> Forall3 P (a :: la) (b :: lb) (c :: lc).

(** The elements of a list which are not in [P], in order. *)
Inductive without {A} (P : A -> Prop) : list A -> list A -> Prop :=
| without_nil : without P [] []
| without_in a l r : P a -> without P l r -> without P (a :: l) r
| without_out a l r : ~ P a -> without P l r -> without P (a :: l) (a :: r).

(** ** Excluded parameters *)

Definition hidden (o : options) (p : param) : Prop :=
  p_default p <> [] /\ (o_exclude_names o (p_name p) = true \/ o_exclude_types o (type_text (p_type p)) = true).

(** A hidden parameter receives its default value, without using an argument; the others receive theirs. *)
Inductive with_defaults (hidden : param -> Prop) (m : mem) : list param -> list arg -> list arg -> Prop :=
| wd_nil : with_defaults hidden m [] [] []
| wd_hidden p ps xs ys : hidden p -> with_defaults hidden m ps xs ys ->
    with_defaults hidden m (p :: ps) xs (AVal (VDefault (p_default p)) :: ys)
| wd_shown p ps a xs y ys : ~ hidden p -> same m p a y -> with_defaults hidden m ps xs ys ->
    with_defaults hidden m (p :: ps) (a :: xs) (y :: ys).

(** ** Values which Python cannot modify *)

Definition immutable_types : list str :=
  [$"int"; $"unsigned int"; $"signed int"; $"long"; $"unsigned long"; $"signed long"; $"long long";
   $"unsigned long long"; $"signed long long"; $"uint8_t"; $"int8_t"; $"uint16_t"; $"int16_t"; $"uint32_t"; $"int32_t";
   $"uint64_t"; $"int64_t"; $"size_t"; $"ssize_t"; $"std::size_t"; $"float"; $"double"; $"long double";
   $"string"; $"std::string"; $"bool"].

(** A non const pointer or reference to such a value. *)
Definition to_pointer (p : param) : Prop := modifiers (p_type p) = [$"*"].
Definition to_reference (p : param) : Prop := modifiers (p_type p) = [$"&"].
Definition modified (p : param) : Prop :=
  In (join $" " (typenames (p_type p))) immutable_types /\ ~ In $"const" (specifiers (p_type p)) /\
  (to_pointer p \/ to_reference p).
Definition nullable (p : param) : Prop := to_pointer p /\ (p_default p = $"NULL" \/ p_default p = $"nullptr").

(** *** In boxes *)

(** The box given for such a parameter: a reference to an existing box, or a pointer that may be null if it is nullable. *)
Definition box_at (m : mem) (q : place) : Prop := exists v, read m q = Some (VBox v).
Definition fits_boxed (m : mem) (p : param) (a : arg) : Prop :=
  (~ modified p -> fits m p a) /\
  (modified p -> p_array p = [] /\
     (nullable p -> a = AVal VNull \/ exists q, a = AVal (VPtr q) /\ box_at m q) /\
     (~ nullable p -> exists q, a = ARef q /\ box_at m q)).

(** The function receives a pointer or a reference to what is in the box, or a null pointer. *)
Definition unboxed (m : mem) (p : param) (a y : arg) : Prop :=
  (~ modified p -> same m p a y) /\
  (modified p ->
     (a = AVal VNull -> y = AVal VNull) /\
     (forall q, a = AVal (VPtr q) \/ a = ARef q ->
        (to_pointer p -> y = AVal (VPtr (at_ q Field))) /\ (to_reference p -> y = ARef (at_ q Field)))).

(** *** Given back as results *)

(** The value given for a modified parameter. *)
Definition returned_array (o : options) (p : param) (n : nat) : Prop :=
  In (join $" " (typenames (p_type p))) immutable_types /\ ~ In $"const" (specifiers (p_type p)) /\
  modifiers (p_type p) = [] /\ o_array_size o (p_array p) = Some n.
Definition given_back (o : options) (p : param) : Prop := modified p \/ exists n, returned_array o p n.

Definition fits_returned (o : options) (m : mem) (p : param) (a : arg) : Prop :=
  (~ given_back o p -> fits m p a) /\
  (given_back o p -> (forall n, returned_array o p n -> p_array p <> [] /\ exists l, a = AVal (VStdArray l)) /\
     (modified p -> p_array p = [] /\
        (nullable p -> exists v, a = AVal (VOpt v)) /\ (~ nullable p -> exists v, a = AVal v /\ (forall l, v <> VRaw l)))).

(** The value is in a cell [c]; the function receives this cell: a reference to it, a pointer to it or to the content of
    the optional it holds (null if there is none), a pointer to the first element of the array it holds. *)
Definition shares (m : mem) (p : param) (a : arg) (c : place) (y : arg) : Prop :=
  exists v, a = AVal v /\ read m c = Some v /\
    (modified p -> ~ nullable p -> to_pointer p -> y = AVal (VPtr c)) /\
    (modified p -> to_reference p -> y = ARef c) /\
    (modified p -> nullable p -> v = VOpt None -> y = AVal VNull) /\
    (modified p -> nullable p -> (exists w, v = VOpt (Some w)) -> y = AVal (VPtr (at_ c Content))) /\
    (~ modified p -> y = AVal (VPtr (at_ c (Elem 0)))).

Inductive through_cells (given : param -> Prop) (m : mem) : list param -> list arg -> list arg -> list place -> Prop :=
| tc_nil : through_cells given m [] [] [] []
| tc_same p ps a xs y ys cs : ~ given p -> same m p a y -> through_cells given m ps xs ys cs ->
    through_cells given m (p :: ps) (a :: xs) (y :: ys) cs
| tc_cell p ps a xs y ys c cs : given p -> shares m p a c y -> through_cells given m ps xs ys cs ->
    through_cells given m (p :: ps) (a :: xs) (y :: ys) (c :: cs).

(** The result: that of the function if it has one, then the final value of the cells; alone, it is not in a tuple. *)
Definition with_cells (f : func) (cs : list place) (rm : arg * mem) : result (arg * mem) :=
  match all_some (map (load (snd rm)) cs) with
  | None => Stuck
  | Some vs =>
      if returns_void f then Ok (AVal (match vs with [v] => v | _ => VTuple vs end), snd rm)
      else match value_of (snd rm) (fst rm) with Some v => Ok (AVal (VTuple (v :: vs)), snd rm) | None => Stuck end
  end.

(** ** Null strings *)

Definition null_string (p : param) : Prop :=
  modifiers (p_type p) = [$"*"] /\ In $"const" (specifiers (p_type p)) /\ typenames (p_type p) = [$"char"] /\
  (p_default p = $"NULL" \/ p_default p = $"nullptr").
Definition fits_null_string (m : mem) (p : param) (a : arg) : Prop :=
  (~ null_string p -> fits m p a) /\
  (null_string p -> p_array p = [] /\ (a = AVal (VOpt None) \/ exists s, a = AVal (VOpt (Some (VAtom s))))).
(** The function receives a null pointer, or a pointer to the characters of the string. *)
Definition null_or_chars (m : mem) (p : param) (a y : arg) : Prop :=
  (~ null_string p -> same m p a y) /\
  (null_string p -> (a = AVal (VOpt None) -> y = AVal VNull) /\
     forall s, a = AVal (VOpt (Some (VAtom s))) -> y = AVal (VCStr s)).

(** ** Default values which can be modified *)

Definition types_without_state : list str :=
  [$"int"; $"signed int"; $"unsigned int"; $"char"; $"signed char"; $"unsigned char"; $"long"; $"signed long";
   $"unsigned long"; $"long long"; $"signed long long"; $"unsigned long long"; $"short"; $"signed short";
   $"unsigned short"; $"float"; $"double"; $"long double"; $"float32_t"; $"float64_t"; $"float128_t"; $"bool";
   $"std::string"; $"std::string_view"; $"std::wstring"; $"std::u16string"; $"std::u32string"; $"std::byte";
   $"int8_t"; $"int16_t"; $"int32_t"; $"int64_t"; $"uint8_t"; $"uint16_t"; $"uint32_t"; $"uint64_t"; $"intptr_t";
   $"uintptr_t"; $"size_t"; $"ssize_t"; $"std::size_t"].
Definition without_state (o : options) (t : str) : Prop := In t types_without_state \/ o_known_type o t = true.
(** [v] is a call T(...) or T{...} of the constructor of [t]: [t] is what precedes the first brace if there is one, else the
    first parenthesis. *)
Definition constructs (v t : str) : Prop :=
  exists c r, v = t ++ c :: r /\ ~ In c t /\ (c = "{"%char \/ c = "("%char /\ ~ In "{"%char v).

(** The default value of a parameter received by value or by const reference, of a type which has a state, unless the value
    is a literal, a keyword, known, or made by the constructor of a type without state. *)
Definition fresh_default (o : options) (p : param) : Prop :=
  let t := p_type p in
  let v := strip (p_default p) in
  v <> [] /\
  ~ In $"&&" (modifiers t) /\ ~ In $"*" (modifiers t) /\ ~ In $"..." (modifiers t) /\ t <> CType [$"void"] [] [] /\
  (In $"&" (modifiers t) -> In $"const" (specifiers t) \/ In $"constexpr" (specifiers t)) /\
  ~ without_state o (type_text t) /\
  o_known_value o v = false /\ o_literal o v = false /\
  ~ In v [$"nullptr"; $"NULL"; $"true"; $"false"; $"TRUE"; $"FALSE"; $"nullopt"; $"std::nullopt"] /\
  (forall u, constructs v u -> ~ without_state o u).

(** The optional value given for such a parameter. *)
Definition fits_fresh (o : options) (m : mem) (p : param) (a : arg) : Prop :=
  (~ fresh_default o p -> fits m p a) /\
  (fresh_default o p -> exists v, a = AVal (VOpt v) /\ (forall l, v <> Some (VRaw l))).
(** The function receives the value given, or a new default value, in a cell of its own. *)
Definition given_or_default (o : options) (m0 m : mem) (p : param) (a y : arg) : Prop :=
  (~ fresh_default o p -> same m p a y) /\
  (fresh_default o p -> forall v, a = AVal (VOpt v) ->
     let w := match v with Some w => w | None => VDefault (p_default p) end in
     if by_ref p then exists q, y = ARef q /\ read m q = Some w /\ length m0 <= fst q else y = AVal w).

(** ** Arrays of fixed size *)

(** Two places which have nothing in common. *)
Definition apart (p q : place) : Prop :=
  fst p <> fst q \/ (forall r, snd q <> snd p ++ r) /\ (forall r, snd p <> snd q ++ r).

(** The elements of the array [p] are values that Python cannot modify. *)
Definition boxed_items (p : param) : Prop := In (join $" " (typenames (p_type p))) immutable_types.

Inductive array_mode := Untouched | Std (n : nat) | Boxes (n : nat).
(** What becomes of a parameter: an array of [n] elements that is const becomes a std::array, if this is asked; another
    becomes [n] parameters, if this is asked and [n] is not too large. *)
Definition mode (o : options) (fname : str) (p : param) (k : array_mode) : Prop :=
  match o_array_size o (p_array p) with
  | None => k = Untouched
  | Some n =>
      (In $"const" (specifiers (p_type p)) -> k = if o_array_std o fname then Std n else Untouched) /\
      (~ In $"const" (specifiers (p_type p)) ->
         (o_array_boxed o fname = true -> n <= o_array_max o -> k = Boxes n) /\
         (o_array_boxed o fname = false \/ o_array_max o < n -> k = Untouched))
  end.

(** Where the value of an element is: in its box, or at the place given. *)
Definition element (p : param) (q c : place) : Prop := (boxed_items p -> c = at_ q Field) /\ (~ boxed_items p -> c = q).

(** One parameter, what becomes of it, the arguments given for it, the places of the elements. *)
Record slot := Slot { s_param : param; s_mode : array_mode; s_args : list arg; s_places : list place }.

Definition fits_array (m : mem) (s : slot) : Prop :=
  let p := s_param s in
  match s_mode s with
  | Untouched => (exists a, s_args s = [a] /\ fits m p a) /\ s_places s = []
  | Std n => (exists l, s_args s = [AVal (VStdArray l)]) /\ modifiers (p_type p) = [] /\ p_array p <> [] /\ s_places s = []
  | Boxes n =>
      modifiers (p_type p) = [] /\ specifiers (p_type p) = [] /\ p_default p = [] /\ p_array p <> [] /\
      length (s_args s) = n /\
      Forall2 (fun a c => exists q v, a = ARef q /\ element p q c /\ read m c = Some v /\ (forall l, v <> VRaw l))
        (s_args s) (s_places s)
  end.

(** The argument [y] given for it: the array, in the cell [r], is new, and holds the values of the elements. *)
Definition array_given (m0 m : mem) (s : slot) (r : option nat) (y : arg) : Prop :=
  let p := s_param s in
  match s_mode s with
  | Untouched => r = None /\ exists a, s_args s = [a] /\ same m p a y
  | Std n =>
      r = None /\
      exists l q, s_args s = [AVal (VStdArray l)] /\ y = AVal (VPtr (at_ q (Elem 0))) /\ read m q = Some (VStdArray l)
  | Boxes n =>
      exists b vs, r = Some b /\ length m0 <= b /\ y = AVal (VPtr (b, [Elem 0])) /\ nth_error m b = Some (VRaw vs) /\
        length vs = n /\ Forall2 (fun c v => read m0 c = Some v) (s_places s) vs
  end.

Definition cells (rs : list (option nat)) : list nat := flat_map (fun r => match r with Some b => [b] | None => [] end) rs.

(** After the call, the array of this parameter holds the values [ws]. *)
Definition array_left (m : mem) (s : slot) (r : option nat) (ws : list value) : Prop :=
  match r with
  | None => ws = []
  | Some b => nth_error m b = Some (VRaw ws) /\ length ws = length (s_places s) /\ Forall (fun w => forall l, w <> VRaw l) ws
  end.

(** The memory where the values [ws] are put at the places [cs], and nothing else changes. *)
Definition put (m : mem) (cs : list place) (ws : list value) (m2 : mem) : Prop :=
  Forall2 (fun c w => read m2 c = Some w) cs ws /\ forall q, Forall (apart q) cs -> read m2 q = read m q.

(** ** Lists of strings *)

(** A parameter such as const char * const items[] or const char ** items, without a default other than null. *)
Definition string_list (p : param) : Prop :=
  In $"const" (specifiers (p_type p)) /\ typenames (p_type p) = [$"char"] /\
  length (filter (seqb $"*") (modifiers (p_type p))) + (match p_array p with [] => 0 | _ => 1 end) = 2 /\
  In (p_default p) [[]; $"NULL"; $"nullptr"].

(** The parameters, where each list of strings is put with its size. *)
Inductive group := Pair (p s : param) | Alone (p : param).
Definition followed (o : options) (r : list param) : Prop := exists t r', r = t :: r' /\ o_size_name o (p_name t) = true.
Inductive grouped (o : options) : list param -> list group -> Prop :=
| grouped_nil : grouped o [] []
| grouped_pair p s r gs : string_list p -> o_size_name o (p_name s) = true -> ~ (string_list s /\ followed o r) ->
    grouped o r gs -> grouped o (p :: s :: r) (Pair p s :: gs)
| grouped_alone p r gs : ~ (string_list p /\ followed o r) -> grouped o r gs -> grouped o (p :: r) (Alone p :: gs).

(** A Python list of strings, received by value or by reference. *)
Definition strings (m : mem) (a : arg) (ss : list str) : Prop :=
  match a with
  | ARef q => read m q = Some (VVec (map VAtom ss))
  | AVal v => v = VVec (map VAtom ss)
  end.

Definition fits_group (m : mem) (g : group) (a : arg) : Prop :=
  match g with
  | Pair p s => (exists ss, strings m a ss) /\ ref_type (hd [] (typenames (p_type s))) = false
  | Alone p => fits m p a
  end.

(** The number of strings, as a value of the type of the parameter. *)
Definition size_value (s : param) (n : nat) : value :=
  let t := hd [] (typenames (p_type s)) in
  if seqb t $"size_t" || seqb t $"std::size_t" then VSize n else VCast t (VSize n).

(** The function receives pointers to the strings and their number. *)
Inductive strings_given (m : mem) : list group -> list arg -> list arg -> Prop :=
| sg_nil : strings_given m [] [] []
| sg_pair p s gs a xs ss y ys : strings m a ss -> same m s (AVal (size_value s (length ss))) y -> strings_given m gs xs ys ->
    strings_given m (Pair p s :: gs) (a :: xs) (AVal (VItems (map VCStr ss)) :: y :: ys)
| sg_alone p gs a xs y ys : same m p a y -> strings_given m gs xs ys -> strings_given m (Alone p :: gs) (a :: xs) (y :: ys).

(** Without size. *)
Definition fits_strings (m : mem) (p : param) (a : arg) : Prop :=
  (string_list p -> exists ss, strings m a ss) /\ (~ string_list p -> fits m p a).
Definition strings_alone (m : mem) (p : param) (a y : arg) : Prop :=
  (string_list p -> exists ss, strings m a ss /\ y = AVal (VItems (map VCStr ss))) /\ (~ string_list p -> same m p a y).

(** ** Variadic functions *)

(** A function such as printf: a text, then any number of arguments. *)
Definition like_printf (f : func) (firsts : list param) (text dots : param) : Prop :=
  f_params f = firsts ++ [text; dots] /\ In (type_text (p_type text)) [$"const char *"; $"const char * const"] /\
  typenames (p_type dots) = [] /\ modifiers (p_type dots) = [$"..."].
(** The statement which holds the value used for such a parameter: its type is the one of the parameter, constant and not a reference. *)
Definition holder (p : param) (s : stmt) : Prop :=
  exists t, s = SDefaultOr t (p_name p ++ $"_or_default") (p_name p) (p_default p) /\
    forall w specs mods, p_type p = CType [w] specs mods -> w <> [] -> In specs [[]; [$"const"]] -> In mods [[]; [$"&"]] -> t = $"const " ++ w.
