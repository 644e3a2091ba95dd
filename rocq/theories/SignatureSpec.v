From Verif Require Import PyStr PyNum TypeTextModel LambdaModel AdapterModel AdapterSpec.
(** The parameters of the lambdas written by the adapters: what Python sees in the place of each parameter. *)

(** The words of a type without const, * or &. *)
Definition words_of (p : param) : str := join $" " (typenames (p_type p)).

(** [q] is the parameter [p] with another type and default value. *)
Definition replaced (p q : param) (type default : str) : Prop :=
  p_name q = p_name p /\ p_array q = p_array p /\ type_text (p_type q) = type /\ p_default q = default.

(** Each parameter is replaced by some parameters. *)
Definition each_shown (shown : param -> list param -> Prop) (ps qs : list param) : Prop :=
  exists qss, Forall2 shown ps qss /\ qs = concat qss.

(** ** Boxes *)

(** The boxes of the values which Python cannot modify; see C43_size_t_refuted for std::size_t. *)
Definition box_names : list (str * str) :=
  [($"int", $"BoxedInt"); ($"unsigned int", $"BoxedUnsignedInt"); ($"signed int", $"BoxedSignedInt"); ($"long", $"BoxedLong");
   ($"unsigned long", $"BoxedUnsignedLong"); ($"signed long", $"BoxedSignedLong"); ($"long long", $"BoxedLongLong");
   ($"unsigned long long", $"BoxedUnsignedLongLong"); ($"signed long long", $"BoxedSignedLongLong");
   ($"uint8_t", $"BoxedUint8_t"); ($"int8_t", $"BoxedInt8_t"); ($"uint16_t", $"BoxedUint16_t"); ($"int16_t", $"BoxedInt16_t");
   ($"uint32_t", $"BoxedUint32_t"); ($"int32_t", $"BoxedInt32_t"); ($"uint64_t", $"BoxedUint64_t");
   ($"int64_t", $"BoxedInt64_t"); ($"size_t", $"BoxedSize_t"); ($"ssize_t", $"BoxedSsize_t"); ($"float", $"BoxedFloat");
   ($"double", $"BoxedDouble"); ($"long double", $"BoxedLongDouble"); ($"string", $"BoxedString");
   ($"std::string", $"BoxedString"); ($"bool", $"BoxedBool")].

Definition shown_boxed (p : param) (qs : list param) : Prop :=
  (~ modified p -> qs = [p]) /\
  (modified p -> forall b, In (words_of p, b) box_names ->
     exists q, qs = [q] /\ (nullable p -> replaced p q (b ++ $" *") $"nullptr") /\
       (~ nullable p -> replaced p q (b ++ $" &") (p_default p))).

(** ** Parameters given back *)

(** The type of the value given and given back. *)
Definition returned_type (o : options) (p : param) (t : str) : Prop :=
  (modified p -> (nullable p -> t = $"std::optional<" ++ words_of p ++ $">") /\ (~ nullable p -> t = words_of p)) /\
  (forall n, returned_array o p n -> t = $"std::array<" ++ words_of p ++ $", " ++ nat_text n ++ $">").
Definition shown_returned (o : options) (p : param) (qs : list param) : Prop :=
  (~ given_back o p -> qs = [p]) /\
  (given_back o p -> exists q, qs = [q] /\ p_name q = p_name p /\ returned_type o p (type_text (p_type q)) /\
     (modified p -> p_array q = p_array p /\ (nullable p -> p_default q = $"std::nullopt") /\ (~ nullable p -> p_default q = p_default p)) /\
     (forall n, returned_array o p n -> p_array q = [] /\ p_default q = [])).

(** The types of the values given back, in order. *)
Inductive types_back (o : options) : list param -> list str -> Prop :=
| types_back_nil : types_back o [] []
| types_back_skip p ps ts : ~ given_back o p -> types_back o ps ts -> types_back o (p :: ps) ts
| types_back_take p ps t ts : given_back o p -> returned_type o p t -> types_back o ps ts -> types_back o (p :: ps) (t :: ts).
Definition one_or_tuple (ts : list str) (t : str) : Prop :=
  ts = [t] \/ length ts <> 1 /\ t = $"std::tuple<" ++ join $", " ts ++ $">".

(** ** Null strings, lists of strings *)

Definition shown_null_string (p : param) (qs : list param) : Prop :=
  (~ null_string p -> qs = [p]) /\
  (null_string p -> exists q, qs = [q] /\ replaced p q $"std::optional<std::string>" $"std::nullopt").

Definition vector_of (p q : param) : Prop :=
  p_name q = p_name p /\ p_array q = [] /\ type_text (p_type q) = $"const std::vector<std::string> &" /\ p_default q = [].
Definition shown_group (g : group) (q : param) : Prop := match g with Pair p _ => vector_of p q | Alone p => q = p end.
Definition shown_strings (p : param) (qs : list param) : Prop :=
  (~ string_list p -> qs = [p]) /\ (string_list p -> exists q, qs = [q] /\ vector_of p q).

(** ** Default values which can be modified *)

Definition shown_fresh (o : options) (p : param) (qs : list param) : Prop :=
  (~ fresh_default o p -> qs = [p]) /\
  (fresh_default o p -> exists q, qs = [q] /\ p_name q = p_name p /\ p_array q = p_array p /\ p_default q = $"std::nullopt" /\
     (specifiers (p_type p) = [] \/ specifiers (p_type p) = [$"const"] ->
      modifiers (p_type p) = [] \/ modifiers (p_type p) = [$"&"] -> words_of p <> [] ->
      type_text (p_type q) = $"const std::optional<const " ++ words_of p ++ $"> &")).

(** ** Arrays of fixed size *)

(** The [k]-th parameter put in the place of the array [p]. *)
Definition shown_item (p : param) (k : nat) (q : param) : Prop :=
  p_name q = p_name p ++ $"_" ++ nat_text k /\ p_array q = [] /\ p_default q = p_default p /\
  (specifiers (p_type p) = [] -> modifiers (p_type p) = [] -> words_of p <> [] ->
     (forall b, In (words_of p, b) box_names -> type_text (p_type q) = b ++ $" &") /\
     (~ boxed_items p -> type_text (p_type q) = words_of p ++ $" &")).
Definition shown_array (o : options) (fname : str) (p : param) (qs : list param) : Prop :=
  exists k, mode o fname p k /\
    match k with
    | Untouched => qs = [p]
    | Std n =>
        exists q, qs = [q] /\ p_name q = p_name p /\ p_array q = [] /\ p_default q = p_default p /\
          (specifiers (p_type p) = [$"const"] -> modifiers (p_type p) = [] -> words_of p <> [] ->
             type_text (p_type q) = $"const std::array<" ++ words_of p ++ $", " ++ nat_text n ++ $">&")
    | Boxes n => length qs = n /\ forall k q, nth_error qs k = Some q -> shown_item p k q
    end.
