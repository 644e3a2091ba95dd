From Verif Require Import PyStr PyDict TypeTextModel LambdaModel LambdaSpec AdapterSpec BufferModel.
(** What becomes of the pointers to numbers, of their sizes and of their strides.  Of BufferModel.v, only the options are
    used here. *)

(** ** Parameters *)

(** A word begins or ends between [a] and [b]. *)
Definition ends_in_word (a : str) : Prop := exists r c, a = r ++ [c] /\ is_word c = true.
Definition begins_with_word (b : str) : Prop := exists c r, b = c :: r /\ is_word c = true.
Definition boundary (a b : str) : Prop :=
  ends_in_word a /\ ~ begins_with_word b \/ ~ ends_in_word a /\ begins_with_word b.

(** The text of the type has a pointer to one of the types, where a word begins. *)
Definition pointer_to (ts : list str) (p : param) : Prop :=
  exists t gap a b, In t ts /\ In gap [[]; $" "; $"  "] /\ type_text (p_type p) = a ++ t ++ gap ++ $"*" ++ b /\
    boundary a (t ++ gap ++ $"*" ++ b).
Definition template (o : buffer_options) (p : param) : Prop := pointer_to (b_template_types o) p.
Definition numbers (o : buffer_options) (p : param) : Prop := pointer_to (b_types o) p \/ template o p.
Definition sized (o : buffer_options) (p : param) : Prop := b_size_name o (p_name p) = true.
(** Its default value is the size of something. *)
Definition strided (p : param) : Prop :=
  exists a b, p_default p = a ++ $"sizeof" ++ b /\ Forall (fun c => is_space c = true) a.

(** The parameters begin with at most [n] pointers to numbers, followed by a size. *)
Inductive buffer (o : buffer_options) : nat -> list param -> Prop :=
| buffer_last n p s r : numbers o p -> sized o s -> buffer o (S n) (p :: s :: r)
| buffer_more n p s r : numbers o p -> buffer o n (s :: r) -> buffer o (S n) (p :: s :: r).

(** The functions whose buffers are adapted. *)
Definition adapted_params (o : buffer_options) (f : func) : Prop :=
  b_functions o (f_name f) = true /\ exists a r, f_params f = a ++ r /\ buffer o 5 r.

(** ** Arrays *)

(** A numpy array: what Python knows of it. *)
Record numpy := Numpy {
  n_ndim : nat; n_contiguous : bool; n_letter : str; n_kind : str; n_itemsize : nat; n_length : nat; n_data : place }.
Definition buf (n : numpy) : value :=
  VBuf (n_ndim n) (n_contiguous n) (n_letter n) (n_kind n) (n_itemsize n) (n_length n) (n_data n).
Definition array_at (m : mem) (a : arg) (n : numpy) : Prop :=
  match a with ARef q => read m q = Some (buf n) /\ fst q < length m | AVal v => v = buf n end.

(** The types of the items: the letter and the kind which numpy gives them, and their size (on a 64 bits unix). *)
Definition item_types : list (str * str * str * nat) :=
  [($"uint8_t", $"B", $"UInt", 1); ($"int8_t", $"b", $"Int", 1); ($"uint16_t", $"H", $"UInt", 2);
   ($"int16_t", $"h", $"Int", 2); ($"uint32_t", $"I", $"UInt", 4); ($"int32_t", $"i", $"Int", 4);
   ($"np_uint_l", $"L", $"UInt", 8); ($"np_int_l", $"l", $"Int", 8); ($"float", $"f", $"Float", 4);
   ($"double", $"d", $"Float", 8); ($"long double", $"g", $"Float", 16); ($"long long", $"q", $"Int", 8)].
Definition type_name (r : str * str * str * nat) : str := fst (fst (fst r)).

(** The items are of type [t]: pybind11 looks at the letter, nanobind at the kind and the size. *)
Definition holds (nanobind : bool) (t : str) (n : numpy) : Prop :=
  if nanobind then exists letter, In (t, letter, n_kind n, n_itemsize n) item_types
  else exists kind size, In (t, n_letter n, kind, size) item_types.
(** In a template, nanobind takes the items of a long long for those of np_int_l. *)
Definition chosen (nanobind : bool) (t : str) (n : numpy) : Prop :=
  holds nanobind t n /\ (nanobind = true -> t <> $"long long").

(** ** The parameters one after the other *)

(** An array of a given type or of any type, the number of items of an array, the stride of an array, another parameter. *)
Inductive role := Array (n : numpy) | Template (n : numpy) | Size (n : numpy) | Stride (n : numpy) | Other.
Record bslot := BSlot { b_param : param; b_role : role; b_args : list arg }.

(** The role of each parameter; [prev] is the parameter before, [last] is the last array before.  Excluded: a parameter
    which is a size and has a size as default value; the stride or the size of a pointer which is not an array; a pointer
    to a template type which is not an array. *)
Inductive arranged (o : buffer_options) : option param -> option numpy -> list bslot -> Prop :=
| arranged_nil prev last : arranged o prev last []
| arranged_array prev last p n xs ss :
    buffer o 5 (p :: map b_param ss) -> ~ template o p ->
    arranged o (Some p) (Some n) ss -> arranged o prev last (BSlot p (Array n) xs :: ss)
| arranged_template prev last p n xs ss :
    buffer o 5 (p :: map b_param ss) -> template o p -> ~ strided p ->
    arranged o (Some p) (Some n) ss -> arranged o prev last (BSlot p (Template n) xs :: ss)
| arranged_size p0 p n xs ss :
    numbers o p0 -> sized o p -> ~ strided p -> ~ numbers o p ->
    arranged o (Some p) (Some n) ss -> arranged o (Some p0) (Some n) (BSlot p (Size n) xs :: ss)
| arranged_stride prev p n xs ss :
    strided p -> ~ numbers o p -> ~ (sized o p /\ exists p0, prev = Some p0 /\ numbers o p0) ->
    arranged o (Some p) (Some n) ss -> arranged o prev (Some n) (BSlot p (Stride n) xs :: ss)
| arranged_other prev last last' p xs ss :
    ~ buffer o 5 (p :: map b_param ss) -> ~ template o p -> ~ strided p ->
    ~ (sized o p /\ exists p0, prev = Some p0 /\ numbers o p0) ->
    (numbers o p -> last' = None) -> (~ numbers o p -> last' = last) ->
    arranged o (Some p) last' ss -> arranged o prev last (BSlot p Other xs :: ss).

(** The type of a parameter, in one word. *)
Definition of_type (p : param) (t : str) : Prop := typenames (p_type p) = [t].

(** The arguments given for a parameter. *)
Definition fits_slot (m : mem) (s : bslot) : Prop :=
  let p := b_param s in
  match b_role s with
  | Array n | Template n => p_array p = [] /\ exists a, b_args s = [a] /\ array_at m a n
  | Size n => b_args s = []
  | Stride n => exists v, b_args s = [AVal v] /\ (forall l, v <> VRaw l)
  | Other => exists a, b_args s = [a] /\ fits m p a
  end.

(** An array which is accepted; the arrays of any type must all hold items of the type [t]. *)
Definition flat (n : numpy) : Prop := n_ndim n = 1 /\ n_contiguous n = true.
Definition accepted (o : buffer_options) (t : str) (s : bslot) : Prop :=
  match b_role s with
  | Array n => flat n /\ exists u, of_type (b_param s) u /\ holds (b_nanobind o) u n
  | Template n => flat n /\ In t (b_types o) /\ chosen (b_nanobind o) t n
  | _ => True
  end.

(** The argument [y] given to the function. *)
Definition pointer_text (p : param) (t : str) (c : str) : Prop :=
  (In $"const" (specifiers (p_type p)) -> c = $"const " ++ t ++ $" *") /\
  (~ In $"const" (specifiers (p_type p)) -> c = t ++ $" *").
Definition minus_one (v : value) : Prop := v = VAtom $"-1" \/ v = VDefault $"-1".
Definition given (m : mem) (t : str) (s : bslot) (y : arg) : Prop :=
  let p := b_param s in
  match b_role s with
  | Array n => exists u c, of_type p u /\ pointer_text p u c /\ y = AVal (VCast c (VPtr (n_data n)))
  | Template n => exists c, pointer_text p t c /\ y = AVal (VCast c (VPtr (n_data n)))
  | Size n => exists u, of_type p u /\ y = AVal (VCast u (VSize (n_length n)))
  | Stride n =>
      exists u v w, of_type p u /\ b_args s = [AVal v] /\ (minus_one v -> w = VSize (n_itemsize n)) /\ (~ minus_one v -> w = v) /\
        (u = $"int" -> same m p (AVal w) y) /\ (u <> $"int" -> y = AVal (VCast u w))
  | Other => exists a, b_args s = [a] /\ same m p a y
  end.

(** The types of the parameters which are converted are written in one word. *)
Definition one_word (s : bslot) : Prop :=
  match b_role s with
  | Array n => exists t, of_type (b_param s) t /\ In t (map type_name item_types)
  | Size _ | Stride _ => exists t, of_type (b_param s) t
  | _ => True
  end.

(** The types allowed in the options, src/litgen/options.py 685-710 [check_options_consistency]. *)
Definition allowed (o : buffer_options) : Prop :=
  forall t, In t (b_types o) -> t = $"byte" \/ In t (map type_name item_types).

(** What Python shows of a parameter. *)
Definition shown (nanobind : bool) (s : bslot) (qs : list param) : Prop :=
  let p := b_param s in
  match b_role s with
  | Array _ | Template _ =>
      exists q, qs = [q] /\ p_name q = p_name p /\ p_default q = p_default p /\
        (In $"const" (specifiers (p_type p)) ->
           type_text (p_type q) = if nanobind then $"nb::ndarray<nb::ro> &" else $"const py::array &") /\
        (~ In $"const" (specifiers (p_type p)) ->
           type_text (p_type q) = if nanobind then $"nb::ndarray<> &" else $"py::array &")
  | Size _ => qs = []
  | Stride _ => exists q, qs = [q] /\ p_name q = p_name p /\ p_default q = $"-1" /\ typenames (p_type q) = [$"int"]
  | Other => qs = [p]
  end.

(** When the code is written: at most one parameter has a size as default value, the type of the items of each array is
    known, and, if there is an array of any type, so are all the types of the options. *)
Definition one_stride (ss : list bslot) : Prop :=
  forall a s b s' c, ss = a ++ s :: b ++ s' :: c -> strided (b_param s) -> ~ strided (b_param s').
Definition known_items (o : buffer_options) (s : bslot) : Prop :=
  match b_role s with
  | Array _ => forall t, of_type (b_param s) t -> b_nanobind o = true -> t <> $"np_uint_l" /\ t <> $"np_int_l"
  | Template _ => ~ In $"byte" (b_types o)
  | _ => True
  end.
Definition has_array (s : bslot) : Prop := exists n, b_role s = Array n \/ b_role s = Template n.
