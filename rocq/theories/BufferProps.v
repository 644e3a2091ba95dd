From Verif Require Import PyStr PyStrLemmas PyDict PyNum TypeTextModel LambdaModel LambdaSpec AdapterModel AdapterSpec
  LambdaProofs AdapterProofs AdapterProofs5 AdapterProps BufferModel BufferSpec BufferProofs BufferProofs5 BufferProofs6 BufferProofs7.
(** What the C++ function receives for the numpy arrays given by Python: C45.

    [ss] are the parameters of the function with their roles and the arguments given by Python for each; [arranged] tells
    which parameter is an array, the number of items of an array, or a stride. *)

(** ** Samples *)

Definition numeric : list str :=
  [$"uint8_t"; $"int8_t"; $"uint16_t"; $"int16_t"; $"uint32_t"; $"int32_t"; $"np_uint_l"; $"np_int_l"; $"float"; $"double";
   $"long double"; $"long long"].
Definition buffers (nanobind : bool) : buffer_options :=
  BufferOptions nanobind yes numeric [$"T"; $"NumericType"]
    (fun s => existsb (fun w => contains w s) [$"size"; $"count"]) (fun s => s).
Definition const_pointer (t : str) : ctype := CType [t] [$"const"] [$"*"].
Definition the_buffers (l : option (option lambda)) : lambda := the (match l with Some l => l | None => None end).
Definition spaces : str := $"    ".
Ltac decide_role :=
  first [ apply (proj1 (is_buffer_spec _ [] _)); vm_compute; reflexivity
        | intros K; apply (proj2 (is_buffer_spec _ [] _)) in K; vm_compute in K; discriminate K
        | apply looks_template_spec; vm_compute; reflexivity
        | intros K; apply looks_template_spec in K; vm_compute in K; discriminate K
        | apply looks_buffer_spec; vm_compute; reflexivity
        | intros K; apply looks_buffer_spec in K; vm_compute in K; discriminate K
        | apply is_stride_spec; vm_compute; reflexivity
        | intros K; apply is_stride_spec in K; vm_compute in K; discriminate K
        | vm_compute; reflexivity
        | intros [K _]; vm_compute in K; discriminate K
        | intros _; reflexivity
        | intros [_ (p0 & K & N)]; injection K as <-; apply looks_buffer_spec in N; vm_compute in N; discriminate N ].

(** A function with two arrays of any type, their common length, a third array, its length and its stride:
    void foo(const T * xs, const T * ys, size_t count, uint32_t * buf, int buf_size, size_t stride = sizeof(uint32_t), bool flag). *)
Definition foo_all : func := a_function $"foo" (plain $"void")
  [a_param (const_pointer $"T") $"xs"; a_param (const_pointer $"T") $"ys"; a_param (plain $"size_t") $"count";
   a_param (pointer $"uint32_t") $"buf"; a_param (plain $"int") $"buf_size";
   Param (plain $"size_t") $"stride" [] $"sizeof(uint32_t)"; a_param (plain $"bool") $"flag"].
Definition numpy_of (letter kind : str) (size len cell : nat) : numpy := Numpy 1 true letter kind size len (cell, []).
Definition slots_all (x y b : numpy) (stride : value) : list bslot :=
  let p k := nth k (f_params foo_all) (a_param (plain []) []) in
  [BSlot (p 0) (Template x) [AVal (buf x)]; BSlot (p 1) (Template y) [AVal (buf y)]; BSlot (p 2) (Size y) [];
   BSlot (p 3) (Array b) [AVal (buf b)]; BSlot (p 4) (Size b) []; BSlot (p 5) (Stride b) [AVal stride];
   BSlot (p 6) Other [AVal (VAtom $"True")]].
Lemma slots_all_arranged nano x y b v : arranged (buffers nano) None None (slots_all x y b v).
Proof.
  apply arranged_template; [decide_role..|].
  apply arranged_template; [decide_role..|].
  apply arranged_size; [decide_role..|].
  apply arranged_array; [decide_role..|].
  apply arranged_size; [decide_role..|].
  apply arranged_stride; [decide_role..|].
  eapply arranged_other; [decide_role..|]. constructor.
Qed.
Lemma slots_all_one_word x y b v : Forall one_word (slots_all x y b v).
Proof.
  repeat constructor; cbn.
  - exists $"size_t". reflexivity.
  - exists $"uint32_t". split; [reflexivity|]. vm_compute. tauto.
  - exists $"int". reflexivity.
  - exists $"size_t". reflexivity.
Qed.
Lemma slots_all_fit x y b v m : (forall l, v <> VRaw l) -> Forall (fits_slot m) (slots_all x y b v).
Proof.
  intros V. repeat constructor; cbn; try (eexists; split; [reflexivity|reflexivity]).
  - exists v. auto.
  - eexists. split; [reflexivity|]. intros l. discriminate.
Qed.
Lemma buffers_allowed nano : allowed (buffers nano).
Proof. intros t I. right. exact I. Qed.

(** ** C45 *)

(** The functions with a pointer to numbers followed by a size (at most five pointers before the size) are adapted. *)
Theorem C45_applies : forall i o f, adapt_c_buffers i o f <> Some None <-> adapted_params o f.
Proof. exact buffer_applies. Qed.
Print Assumptions C45_applies.

(** Partial: each parameter has a single role, the types of the arrays, sizes and strides are one word, and nothing is
    raised if there is at most one stride and the types are known. *)
Theorem C45_adapts_partial : forall i o f ss,
  b_functions o (f_name f) = true -> f_params f = map b_param ss -> arranged o None None ss -> Forall one_word ss ->
  allowed o -> (exists s, In s ss /\ has_array s) -> one_stride ss -> Forall (known_items o) ss ->
  exists l, adapt_c_buffers i o f = Some (Some l).
Proof. exact buffer_adapts. Qed.
Print Assumptions C45_adapts_partial.

(** Python sees an array for each pointer, no size, a stride whose default value is -1, and the other parameters.
    Partial: each parameter has a single role. *)
Theorem C45_signature_partial : forall i o f l ss,
  adapt_c_buffers i o f = Some (Some l) -> f_params f = map b_param ss -> arranged o None None ss ->
  exists qss, Forall2 (shown (b_nanobind o)) ss qss /\ l_params l = concat qss.
Proof. exact buffer_signature. Qed.
Print Assumptions C45_signature_partial.

(** The function receives the data of each array, the number of items of the array which precedes the size, the stride
    given or the size of an item of the array which precedes it, and the other arguments as they are.
    Partial: the names of the lambda must not clash, and each parameter has a single role. *)
Theorem C45_receives_partial : forall i o f l ss t m,
  adapt_c_buffers i o f = Some (Some l) -> well_named f l -> f_returns_ref f = ref_type (return_text f) -> allowed o ->
  f_params f = map b_param ss -> arranged o None None ss -> Forall one_word ss -> Forall (fits_slot m) ss ->
  Forall (accepted o t) ss ->
  exists x ys, Forall2 (given (m ++ x) t) ss ys /\
    forall c, call f l c (flat_map b_args ss) m = bind (c ys (m ++ x)) (handed_back f).
Proof. exact buffer_receives. Qed.
Print Assumptions C45_receives_partial.

(** If an array is not flat, or its items are not of the type of the pointer, or the arrays of any type do not share an
    allowed type, an exception is thrown and the function is not called.  Partial: as above. *)
Theorem C45_refuses_partial : forall i o f l ss m,
  adapt_c_buffers i o f = Some (Some l) -> well_named f l -> allowed o ->
  f_params f = map b_param ss -> arranged o None None ss -> Forall one_word ss -> Forall (fits_slot m) ss ->
  (forall t, ~ Forall (accepted o t) ss) ->
  forall c, call f l c (flat_map b_args ss) m = Throw.
Proof. exact buffer_refuses. Qed.
Print Assumptions C45_refuses_partial.

(** The letter of a type of items is found whether or not it is constant or a pointer, and whatever the spaces. *)
Theorem C45_letter : forall a cst t star c letter kind size, In (t, letter, kind, size) item_types ->
  forallb is_space a = true -> forallb is_space c = true ->
  (cst = [] \/ exists g, cst = $"const " ++ g /\ forallb is_space g = true) -> (star = [] \/ exists b, star = b ++ $"*" /\ forallb is_space b = true) ->
  array_letter (a ++ (cst ++ t ++ star) ++ c) = Some letter.
Proof. exact array_letter_is. Qed.
Print Assumptions C45_letter.
Example C45_letter_case : In ($"long double", $"g", $"Float", 16) item_types /\ array_letter $" const  long double * " = Some $"g".
Proof. split; [cbn; tauto|vm_compute; reflexivity]. Qed.

Definition foo_stride : func := a_function $"foo" (plain $"void")
  [a_param (const_pointer $"uint32_t") $"buf"; a_param (plain $"size_t") $"count";
   Param (plain $"size_t") $"stride" [] $"sizeof(uint32_t)"].
Definition foo_two (r : str) : func := a_function $"foo" (plain r)
  [a_param (const_pointer $"T") $"xs"; a_param (const_pointer $"T") $"ys"; a_param (plain $"size_t") $"count";
   a_param (plain $"bool") $"flag"].
Definition foo_one : func := a_function $"foo" (plain $"int")
  [a_param (pointer $"uint32_t") $"buf"; a_param (plain $"size_t") $"count"].
Definition buffer_text (nanobind : bool) (f : func) : str :=
  lambda_text spaces f (the_buffers (adapt_c_buffers spaces (buffers nanobind) f)).
Example C45_text_stride : buffer_text false foo_stride = unlines
  [$"auto foo_adapt_c_buffers = [](const py::array & buf, int stride = -1)";
   $"{";
   $"    // Check if the array is 1D and C-contiguous";
   $"    if (! (buf.ndim() == 1 && buf.strides(0) == buf.itemsize()) )";
   $"        throw std::runtime_error(""The array must be 1D and contiguous"");";
   [];
   $"    // convert py::array to C standard buffer (const)";
   $"    const void * buf_from_pyarray = buf.data();";
   $"    py::ssize_t buf_count = buf.shape()[0];";
   $"    char buf_type = buf.dtype().char_();";
   $"    if (buf_type != 'I')";
   $"        throw std::runtime_error(std::string(R""msg(";
   $"                Bad type!  Expected a numpy array of native type:";
   $"                            const uint32_t *";
   $"                        Which is equivalent to";
   $"                            I";
   $"                        (using py::array::dtype().char_() as an id)";
   $"            )msg""));";
   [];
   $"    // process stride default value (which was a sizeof in C++)";
   $"    int buf_stride = stride;";
   $"    if (buf_stride == -1)";
   $"        buf_stride = (int)buf.itemsize();";
   [];
   $"    foo(static_cast<const uint32_t *>(buf_from_pyarray), static_cast<size_t>(buf_count), static_cast<size_t>(buf_stride));";
   $"};";
   []].
Proof. vm_compute. reflexivity. Qed.
Example C45_text_template : buffer_text false (foo_two $"int") = unlines
  [$"auto foo_adapt_c_buffers = [](const py::array & xs, const py::array & ys, bool flag) -> int";
   $"{";
   $"    // Check if the array is 1D and C-contiguous";
   $"    if (! (xs.ndim() == 1 && xs.strides(0) == xs.itemsize()) )";
   $"        throw std::runtime_error(""The array must be 1D and contiguous"");";
   [];
   $"    // convert py::array to C standard buffer (const)";
   $"    const void * xs_from_pyarray = xs.data();";
   $"    py::ssize_t xs_count = xs.shape()[0];";
   [];
   $"    // Check if the array is 1D and C-contiguous";
   $"    if (! (ys.ndim() == 1 && ys.strides(0) == ys.itemsize()) )";
   $"        throw std::runtime_error(""The array must be 1D and contiguous"");";
   [];
   $"    // convert py::array to C standard buffer (const)";
   $"    const void * ys_from_pyarray = ys.data();";
   $"    py::ssize_t ys_count = ys.shape()[0];";
   [];
   $"    #ifdef _WIN32";
   $"    using np_uint_l = uint32_t;";
   $"    using np_int_l = int32_t;";
   $"    #else";
   $"    using np_uint_l = uint64_t;";
   $"    using np_int_l = int64_t;";
   $"    #endif";
   $"    // call the correct template version by casting";
   $"    char ys_type = ys.dtype().char_();";
   $"    // Map a numpy dtype char code to a human-readable name (used in the error message below)";
   $"    auto _pybind_dtype_letter_to_name = [](char letter) -> const char *";
   $"    {";
   $"        switch (letter)";
   $"        {";
   $"            case 'B': return ""uint8"";            case 'b': return ""int8"";";
   $"            case 'H': return ""uint16"";           case 'h': return ""int16"";";
   $"            case 'I': return ""uint32"";           case 'i': return ""int32"";";
   $"            case 'L': case 'Q': return ""uint64""; case 'l': case 'q': return ""int64"";";
   $"            case 'f': return ""float32"";          case 'd': return ""float64"";";
   $"            case 'g': return ""longdouble"";";
   $"            default:  return ""<unsupported>"";";
   $"        }";
   $"    };";
   $"    // Ensure 'xs' shares the dtype of 'ys' (the C++ function is templated on a single type)";
   $"    char xs_type = xs.dtype().char_();";
   $"    if (xs_type != ys_type)";
   $"        throw std::runtime_error(";
   $"            std::string(""foo: all numeric arrays must share the same dtype, "")";
   $"            + ""but \""xs\"" has dtype "" + _pybind_dtype_letter_to_name(xs_type)";
   $"            + "" while \""ys\"" has dtype "" + _pybind_dtype_letter_to_name(ys_type)";
   $"            + "". Convert them to a common dtype, e.g. xs = xs.astype(ys.dtype)."");";
   $"    if (ys_type == 'B')";
   $"        return foo(static_cast<const uint8_t *>(xs_from_pyarray), static_cast<const uint8_t *>(ys_from_pyarray), static_cast<size_t>(ys_count), flag);";
   $"    else if (ys_type == 'b')";
   $"        return foo(static_cast<const int8_t *>(xs_from_pyarray), static_cast<const int8_t *>(ys_from_pyarray), static_cast<size_t>(ys_count), flag);";
   $"    else if (ys_type == 'H')";
   $"        return foo(static_cast<const uint16_t *>(xs_from_pyarray), static_cast<const uint16_t *>(ys_from_pyarray), static_cast<size_t>(ys_count), flag);";
   $"    else if (ys_type == 'h')";
   $"        return foo(static_cast<const int16_t *>(xs_from_pyarray), static_cast<const int16_t *>(ys_from_pyarray), static_cast<size_t>(ys_count), flag);";
   $"    else if (ys_type == 'I')";
   $"        return foo(static_cast<const uint32_t *>(xs_from_pyarray), static_cast<const uint32_t *>(ys_from_pyarray), static_cast<size_t>(ys_count), flag);";
   $"    else if (ys_type == 'i')";
   $"        return foo(static_cast<const int32_t *>(xs_from_pyarray), static_cast<const int32_t *>(ys_from_pyarray), static_cast<size_t>(ys_count), flag);";
   $"    else if (ys_type == 'L')";
   $"        return foo(static_cast<const np_uint_l *>(xs_from_pyarray), static_cast<const np_uint_l *>(ys_from_pyarray), static_cast<size_t>(ys_count), flag);";
   $"    else if (ys_type == 'l')";
   $"        return foo(static_cast<const np_int_l *>(xs_from_pyarray), static_cast<const np_int_l *>(ys_from_pyarray), static_cast<size_t>(ys_count), flag);";
   $"    else if (ys_type == 'f')";
   $"        return foo(static_cast<const float *>(xs_from_pyarray), static_cast<const float *>(ys_from_pyarray), static_cast<size_t>(ys_count), flag);";
   $"    else if (ys_type == 'd')";
   $"        return foo(static_cast<const double *>(xs_from_pyarray), static_cast<const double *>(ys_from_pyarray), static_cast<size_t>(ys_count), flag);";
   $"    else if (ys_type == 'g')";
   $"        return foo(static_cast<const long double *>(xs_from_pyarray), static_cast<const long double *>(ys_from_pyarray), static_cast<size_t>(ys_count), flag);";
   $"    else if (ys_type == 'q')";
   $"        return foo(static_cast<const long long *>(xs_from_pyarray), static_cast<const long long *>(ys_from_pyarray), static_cast<size_t>(ys_count), flag);";
   $"    // If we reach this point, the array type is not supported!";
   $"    else";
   $"        throw std::runtime_error(std::string(""Bad array type ('"") + ys_type + ""') for param ys"");";
   $"};";
   []].
Proof. vm_compute. reflexivity. Qed.
Example C45_text_nanobind : buffer_text true foo_one = unlines
  [$"auto foo_adapt_c_buffers = [](nb::ndarray<> & buf) -> int";
   $"{";
   $"    // Check if the array is 1D and C-contiguous";
   $"    if (! (buf.ndim() == 1 && buf.stride(0) == 1))";
   $"        throw std::runtime_error(""The array must be 1D and contiguous"");";
   [];
   $"    // convert nb::ndarray to C standard buffer (mutable)";
   $"    void * buf_from_pyarray = buf.data();";
   $"    size_t buf_count = buf.shape(0);";
   $"    // Check the type of the ndarray (generic type and size)";
   $"    //   - Step 1: check the generic type (one of dtype_code::Int, UInt, Float, Bfloat, Complex, Bool = 6);";
   $"    uint8_t dtype_code_python_0 = buf.dtype().code;";
   $"    uint8_t dtype_code_cpp_0 = static_cast<uint8_t>(nb::dlpack::dtype_code::UInt);";
   $"    if (dtype_code_python_0 != dtype_code_cpp_0)";
   $"        throw std::runtime_error(std::string(R""msg(";
   $"                Bad type! While checking the generic type (dtype_code=UInt)!";
   $"            )msg""));";
   $"    //   - Step 2: check the size of the type";
   $"    size_t size_python_0 = buf.dtype().bits / 8;";
   $"    size_t size_cpp_0 = sizeof(uint32_t);";
   $"    if (size_python_0 != size_cpp_0)";
   $"        throw std::runtime_error(std::string(R""msg(";
   $"                Bad type! Size mismatch, while checking the size of the type (for param ""buf"")!";
   $"            )msg""));";
   [];
   $"    auto lambda_result = foo(static_cast<uint32_t *>(buf_from_pyarray), static_cast<size_t>(buf_count));";
   $"    return lambda_result;";
   $"};";
   []].
Proof. vm_compute. reflexivity. Qed.
Example C45_text_nanobind_template : buffer_text true (foo_two $"void") = unlines
  [$"auto foo_adapt_c_buffers = [](nb::ndarray<nb::ro> & xs, nb::ndarray<nb::ro> & ys, bool flag)";
   $"{";
   $"    // Check if the array is 1D and C-contiguous";
   $"    if (! (xs.ndim() == 1 && xs.stride(0) == 1))";
   $"        throw std::runtime_error(""The array must be 1D and contiguous"");";
   [];
   $"    // convert nb::ndarray to C standard buffer (const)";
   $"    const void * xs_from_pyarray = xs.data();";
   $"    size_t xs_count = xs.shape(0);";
   [];
   $"    // Check if the array is 1D and C-contiguous";
   $"    if (! (ys.ndim() == 1 && ys.stride(0) == 1))";
   $"        throw std::runtime_error(""The array must be 1D and contiguous"");";
   [];
   $"    // convert nb::ndarray to C standard buffer (const)";
   $"    const void * ys_from_pyarray = ys.data();";
   $"    size_t ys_count = ys.shape(0);";
   [];
   $"    using np_uint_l = uint64_t;";
   $"    using np_int_l = int64_t;";
   [];
   $"    // Define a lambda to compute the letter code for the buffer type";
   $"    auto _nanobind_buffer_type_to_letter_code = [](uint8_t dtype_code, size_t sizeof_item)  -> char";
   $"    {";
   $"        #define DCODE(T) static_cast<uint8_t>(nb::dlpack::dtype_code::T)";
   $"            const std::array<std::tuple<uint8_t, size_t, char>, 11> mappings = {{";
   $"                {DCODE(UInt), 1, 'B'}, {DCODE(UInt), 2, 'H'}, {DCODE(UInt), 4, 'I'}, {DCODE(UInt), 8, 'L'},";
   $"                {DCODE(Int), 1, 'b'}, {DCODE(Int), 2, 'h'}, {DCODE(Int), 4, 'i'}, {DCODE(Int), 8, 'l'},";
   $"                {DCODE(Float), 4, 'f'}, {DCODE(Float), 8, 'd'}, {DCODE(Float), 16, 'g'}";
   $"            }};";
   $"        #undef DCODE";
   $"        for (const auto& [code_val, size, letter] : mappings)";
   $"            if (code_val == dtype_code && size == sizeof_item)";
   $"                return letter;";
   $"        throw std::runtime_error(""Unsupported dtype"");";
   $"    };";
   [];
   $"    // Compute the letter code for the buffer type";
   $"    uint8_t dtype_code_ys = ys.dtype().code;";
   $"    size_t sizeof_item_ys = ys.dtype().bits / 8;";
   $"    char ys_type = _nanobind_buffer_type_to_letter_code(dtype_code_ys, sizeof_item_ys);";
   [];
   $"    // call the correct template version by casting";
   $"    // Map a dtype letter code to a human-readable numpy dtype name (used in the error message below)";
   $"    auto _nanobind_dtype_letter_to_name = [](char letter) -> const char *";
   $"    {";
   $"        switch (letter)";
   $"        {";
   $"            case 'B': return ""uint8"";   case 'b': return ""int8"";";
   $"            case 'H': return ""uint16"";  case 'h': return ""int16"";";
   $"            case 'I': return ""uint32"";  case 'i': return ""int32"";";
   $"            case 'L': return ""uint64"";  case 'l': return ""int64"";";
   $"            case 'f': return ""float32""; case 'd': return ""float64"";";
   $"            case 'g': return ""longdouble"";";
   $"            default:  return ""<unsupported>"";";
   $"        }";
   $"    };";
   $"    // Ensure 'xs' shares the dtype of 'ys' (the C++ function is templated on a single type)";
   $"    char xs_type = _nanobind_buffer_type_to_letter_code(xs.dtype().code, xs.dtype().bits / 8);";
   $"    if (xs_type != ys_type)";
   $"        throw std::runtime_error(";
   $"            std::string(""foo: all numeric arrays must share the same dtype, "")";
   $"            + ""but \""xs\"" has dtype "" + _nanobind_dtype_letter_to_name(xs_type)";
   $"            + "" while \""ys\"" has dtype "" + _nanobind_dtype_letter_to_name(ys_type)";
   $"            + "". Convert them to a common dtype, e.g. xs = xs.astype(ys.dtype)."");";
   $"    if (ys_type == 'B')";
   $"        foo(static_cast<const uint8_t *>(xs_from_pyarray), static_cast<const uint8_t *>(ys_from_pyarray), static_cast<size_t>(ys_count), flag);";
   $"    else if (ys_type == 'b')";
   $"        foo(static_cast<const int8_t *>(xs_from_pyarray), static_cast<const int8_t *>(ys_from_pyarray), static_cast<size_t>(ys_count), flag);";
   $"    else if (ys_type == 'H')";
   $"        foo(static_cast<const uint16_t *>(xs_from_pyarray), static_cast<const uint16_t *>(ys_from_pyarray), static_cast<size_t>(ys_count), flag);";
   $"    else if (ys_type == 'h')";
   $"        foo(static_cast<const int16_t *>(xs_from_pyarray), static_cast<const int16_t *>(ys_from_pyarray), static_cast<size_t>(ys_count), flag);";
   $"    else if (ys_type == 'I')";
   $"        foo(static_cast<const uint32_t *>(xs_from_pyarray), static_cast<const uint32_t *>(ys_from_pyarray), static_cast<size_t>(ys_count), flag);";
   $"    else if (ys_type == 'i')";
   $"        foo(static_cast<const int32_t *>(xs_from_pyarray), static_cast<const int32_t *>(ys_from_pyarray), static_cast<size_t>(ys_count), flag);";
   $"    else if (ys_type == 'L')";
   $"        foo(static_cast<const np_uint_l *>(xs_from_pyarray), static_cast<const np_uint_l *>(ys_from_pyarray), static_cast<size_t>(ys_count), flag);";
   $"    else if (ys_type == 'l')";
   $"        foo(static_cast<const np_int_l *>(xs_from_pyarray), static_cast<const np_int_l *>(ys_from_pyarray), static_cast<size_t>(ys_count), flag);";
   $"    else if (ys_type == 'f')";
   $"        foo(static_cast<const float *>(xs_from_pyarray), static_cast<const float *>(ys_from_pyarray), static_cast<size_t>(ys_count), flag);";
   $"    else if (ys_type == 'd')";
   $"        foo(static_cast<const double *>(xs_from_pyarray), static_cast<const double *>(ys_from_pyarray), static_cast<size_t>(ys_count), flag);";
   $"    else if (ys_type == 'g')";
   $"        foo(static_cast<const long double *>(xs_from_pyarray), static_cast<const long double *>(ys_from_pyarray), static_cast<size_t>(ys_count), flag);";
   $"    else if (ys_type == 'q')";
   $"        foo(static_cast<const long long *>(xs_from_pyarray), static_cast<const long long *>(ys_from_pyarray), static_cast<size_t>(ys_count), flag);";
   $"    // If we reach this point, the array type is not supported!";
   $"    else";
   $"        throw std::runtime_error(std::string(""Bad array type ('"") + ys_type + ""') for param ys"");";
   $"};";
   []].
Proof. vm_compute. reflexivity. Qed.

Example C45_adapts_case : let x := numpy_of $"d" $"Float" 8 3 0 in let ss := slots_all x x x (VDefault $"-1") in
  b_functions (buffers true) (f_name foo_all) = true /\ f_params foo_all = map b_param ss /\
  arranged (buffers true) None None ss /\ Forall one_word ss /\ allowed (buffers true) /\ (exists s, In s ss /\ has_array s) /\
  one_stride ss /\ Forall (known_items (buffers true)) ss.
Proof.
  cbv zeta. set (x := numpy_of _ _ _ _ _). split; [reflexivity|]. split; [reflexivity|]. split; [apply slots_all_arranged|].
  split; [apply slots_all_one_word|]. split; [apply buffers_allowed|].
  split; [eexists; split; [left; reflexivity|exists x; right; reflexivity]|]. split.
  - intros a s b s' c E S S'. apply is_stride_spec in S, S'.
    assert (L : length (filter (fun s => is_stride (b_param s)) (slots_all x x x (VDefault $"-1"))) = 1) by reflexivity.
    rewrite E, !filter_app in L. cbn [filter] in L. rewrite S, filter_app in L. cbn [filter] in L. rewrite S' in L.
    rewrite !app_length in L. cbn [length] in L. rewrite app_length in L. cbn [length] in L. lia.
  - repeat constructor.
    + intros I. vm_compute in I. repeat (destruct I as [I|I]; [discriminate I|]). destruct I.
    + intros I. vm_compute in I. repeat (destruct I as [I|I]; [discriminate I|]). destruct I.
    + intros C; subst t; discriminate H.
    + intros C; subst t; discriminate H.
Qed.

(** Two arrays of doubles, and an array of uint32_t with the default stride. *)
Example C45_receives_case : let f := foo_all in let o := buffers false in let l := the_buffers (adapt_c_buffers spaces o f) in
  let x := numpy_of $"d" $"Float" 8 5 0 in let y := numpy_of $"d" $"Float" 8 5 1 in let b := numpy_of $"I" $"UInt" 4 9 2 in
  let ss := slots_all x y b (VDefault $"-1") in
  adapt_c_buffers spaces o f = Some (Some l) /\ well_named f l /\ f_returns_ref f = ref_type (return_text f) /\ allowed o /\
  f_params f = map b_param ss /\ arranged o None None ss /\ Forall one_word ss /\ Forall (fits_slot []) ss /\
  Forall (accepted o $"double") ss /\
  exists m, forall c, call f l c (flat_map b_args ss) []
    = bind (c [AVal (VCast $"const double *" (VPtr (0, []))); AVal (VCast $"const double *" (VPtr (1, [])));
               AVal (VCast $"size_t" (VSize 5)); AVal (VCast $"uint32_t *" (VPtr (2, []))); AVal (VCast $"int" (VSize 9));
               AVal (VCast $"size_t" (VSize 4)); AVal (VAtom $"True")] m) (handed_back f).
Proof.
  cbv zeta. set (x := numpy_of _ _ _ _ 0). set (y := numpy_of _ _ _ _ 1). set (b := numpy_of _ _ _ _ 2).
  split; [vm_compute; reflexivity|]. split; [named|]. split; [reflexivity|]. split; [apply buffers_allowed|].
  split; [reflexivity|]. split; [apply slots_all_arranged|]. split; [apply slots_all_one_word|].
  split; [apply slots_all_fit; discriminate|]. split.
  - assert (D : forall n, n_letter n = $"d" -> flat n -> flat n /\ In $"double" numeric /\ chosen false $"double" n).
    { intros n L F. split; [exact F|]. split; [vm_compute; tauto|]. split; [|discriminate]. exists $"Float", 8. rewrite L.
      vm_compute. tauto. }
    repeat (apply Forall_cons); try exact I; try constructor; try (apply D; [reflexivity|split; reflexivity]).
    + split; reflexivity.
    + exists $"uint32_t". split; [reflexivity|]. exists $"UInt", 4. vm_compute. tauto.
  - eexists. intros c. vm_compute. reflexivity.
Qed.
(** An array of doubles and an array of floats: refused. *)
Example C45_refuses_case : let f := foo_all in let o := buffers true in let l := the_buffers (adapt_c_buffers spaces o f) in
  let x := numpy_of $"f" $"Float" 4 5 0 in let y := numpy_of $"d" $"Float" 8 5 1 in let b := numpy_of $"I" $"UInt" 4 9 2 in
  let ss := slots_all x y b (VAtom $"4") in
  adapt_c_buffers spaces o f = Some (Some l) /\ well_named f l /\ allowed o /\
  f_params f = map b_param ss /\ arranged o None None ss /\ Forall one_word ss /\ Forall (fits_slot []) ss /\
  forall t, ~ Forall (accepted o t) ss.
Proof.
  cbv zeta. set (x := numpy_of _ _ _ _ 0). set (y := numpy_of _ _ _ _ 1). set (b := numpy_of _ _ _ _ 2).
  split; [vm_compute; reflexivity|]. split; [named|]. split; [apply buffers_allowed|].
  split; [reflexivity|]. split; [apply slots_all_arranged|]. split; [apply slots_all_one_word|].
  split; [apply slots_all_fit; discriminate|].
  intros t F. inversion F as [|? ? F1 F2]; subst. inversion F2 as [|? ? F3 F4]; subst. unfold accepted in F1, F3.
  cbn [b_role slots_all] in F1, F3. destruct F1 as (_ & _ & (k1 & I1) & _). destruct F3 as (_ & _ & (k2 & I2) & _).
  cbn [n_kind n_itemsize x y numpy_of] in I1, I2. cbn [In item_types] in I1, I2.
  repeat (destruct I1 as [I1|I1]; [first [discriminate I1|injection I1 as <- _;
    repeat (destruct I2 as [I2|I2]; [discriminate I2|]); destruct I2]|]). destruct I1.
Qed.

(** Two arrays share one count: it is the length of the last one, and the lengths are not compared.  Here the function is
    told that there are five items behind a pointer to two of them. *)
Theorem C45_lengths_refuted : exists i o f l ss t m x y, adapt_c_buffers i o f = Some (Some l) /\ well_named f l /\
  f_params f = map b_param ss /\ arranged o None None ss /\ Forall one_word ss /\ Forall (fits_slot []) ss /\
  Forall (accepted o t) ss /\ n_length x = 2 /\ n_data x = (0, []) /\ n_length y = 5 /\
  map b_role ss = [Array x; Array y; Size y] /\
  forall c, call f l c (flat_map b_args ss) []
    = bind (c [AVal (VCast $"const float *" (VPtr (0, []))); AVal (VCast $"const float *" (VPtr (1, [])));
               AVal (VCast $"size_t" (VSize 5))] m) (handed_back f).
Proof.
  set (x := numpy_of $"f" $"Float" 4 2 0). set (y := numpy_of $"f" $"Float" 4 5 1).
  set (f := a_function $"dot" (plain $"void")
    [a_param (const_pointer $"float") $"xs"; a_param (const_pointer $"float") $"ys"; a_param (plain $"size_t") $"count"]).
  exists spaces, (buffers false), f, (the_buffers (adapt_c_buffers spaces (buffers false) f)),
    [BSlot (a_param (const_pointer $"float") $"xs") (Array x) [AVal (buf x)];
     BSlot (a_param (const_pointer $"float") $"ys") (Array y) [AVal (buf y)];
     BSlot (a_param (plain $"size_t") $"count") (Size y) []], [].
  eexists. exists x, y. split; [vm_compute; reflexivity|]. split; [named|]. split; [reflexivity|]. split.
  { apply arranged_array; [decide_role..|]. apply arranged_array; [decide_role..|]. apply arranged_size; [decide_role..|]. constructor. }
  split. { repeat constructor; cbn; (exists $"size_t"; reflexivity) || (exists $"float"; split; [reflexivity|vm_compute; tauto]). }
  split. { repeat (apply Forall_cons); try constructor; cbn; auto; eexists; split; reflexivity. }
  split.
  { repeat (apply Forall_cons); try exact I; try constructor; try (split; reflexivity);
      exists $"float"; (split; [reflexivity|]); exists $"Float", 4; vm_compute; tauto. }
  split; [reflexivity|]. split; [reflexivity|]. split; [reflexivity|]. split; [reflexivity|].
  intros c. vm_compute. reflexivity.
Qed.
Print Assumptions C45_lengths_refuted.

(** Only the first word of a type is used: an unsigned long count is cast to unsigned. *)
Theorem C45_count_type_refuted : exists f l x m, adapt_c_buffers spaces (buffers false) f = Some (Some l) /\ well_named f l /\
  map (fun p => type_text (p_type p)) (f_params f) = [$"float *"; $"unsigned long"] /\
  forall c, call f l c [AVal (buf x)] []
    = bind (c [AVal (VCast $"float *" (VPtr (0, []))); AVal (VCast $"unsigned" (VSize 5))] m) (handed_back f).
Proof.
  set (f := a_function $"f" (plain $"void")
    [a_param (pointer $"float") $"xs"; a_param (CType [$"unsigned"; $"long"] [] []) $"count"]).
  exists f, (the_buffers (adapt_c_buffers spaces (buffers false) f)), (numpy_of $"f" $"Float" 4 5 0). eexists.
  split; [vm_compute; reflexivity|]. split; [named|]. split; [reflexivity|]. intros c. vm_compute. reflexivity.
Qed.
Print Assumptions C45_count_type_refuted.

(** An array of long doubles, one of the types of the options: an exception with pybind11; with nanobind the array is cast
    to a pointer to long, and an array of int64 is accepted. *)
Theorem C45_long_double_refuted : exists f l x m,
  map (fun p => type_text (p_type p)) (f_params f) = [$"long double *"; $"size_t"] /\ In $"long double" numeric /\
  adapt_c_buffers spaces (buffers false) f = None /\
  adapt_c_buffers spaces (buffers true) f = Some (Some l) /\ well_named f l /\ n_kind x = $"Int" /\
  forall c, call f l c [AVal (buf x)] []
    = bind (c [AVal (VCast $"long *" (VPtr (0, []))); AVal (VCast $"size_t" (VSize 5))] m) (handed_back f).
Proof.
  set (f := a_function $"f" (plain $"void")
    [a_param (CType [$"long"; $"double"] [] [$"*"]) $"xs"; a_param (plain $"size_t") $"count"]).
  exists f, (the_buffers (adapt_c_buffers spaces (buffers true) f)), (numpy_of $"l" $"Int" 8 5 0). eexists.
  split; [reflexivity|]. split; [vm_compute; tauto|]. split; [vm_compute; reflexivity|]. split; [vm_compute; reflexivity|].
  split; [named|]. split; [reflexivity|]. intros c. vm_compute. reflexivity.
Qed.
Print Assumptions C45_long_double_refuted.

(** Six pointers and a size: the first pointer stays a pointer in Python. *)
Definition six : func := a_function $"f" (plain $"void")
  (map (fun n => a_param (pointer $"float") n) [$"a"; $"b"; $"c"; $"d"; $"e"; $"f1"] ++ [a_param (plain $"size_t") $"count"]).
Theorem C45_six_refuted : exists l, adapt_c_buffers spaces (buffers false) six = Some (Some l) /\
  map (fun p => type_text (p_type p)) (l_params l)
    = [$"float *"; $"py::array &"; $"py::array &"; $"py::array &"; $"py::array &"; $"py::array &"].
Proof. exists (the_buffers (adapt_c_buffers spaces (buffers false) six)). split; vm_compute; reflexivity. Qed.
Print Assumptions C45_six_refuted.

(** A pointer to a template type which is not followed by a size, beside an array: the code uses a name which is not
    declared, and does not compile. *)
Definition undeclared : func := a_function $"f" (plain $"void")
  [a_param (pointer $"float") $"xs"; a_param (plain $"size_t") $"count"; a_param (pointer $"T") $"out"].
Theorem C45_undeclared_refuted : exists l x, adapt_c_buffers spaces (buffers false) undeclared = Some (Some l) /\
  well_named undeclared l /\
  forall c, call undeclared l c [AVal (buf x); AVal (VPtr (0, []))] [buf x] = Stuck.
Proof.
  exists (the_buffers (adapt_c_buffers spaces (buffers false) undeclared)), (numpy_of $"f" $"Float" 4 5 0).
  split; [vm_compute; reflexivity|]. split; [named|]. intros c. vm_compute. reflexivity.
Qed.
Print Assumptions C45_undeclared_refuted.

(** A stride before the first pointer, or a second stride: an exception. *)
Theorem C45_stride_refuted :
  adapt_c_buffers spaces (buffers false) (a_function $"f" (plain $"void")
    [Param (plain $"int") $"stride" [] $"sizeof(float)"; a_param (pointer $"float") $"xs"; a_param (plain $"size_t") $"count"])
    = None /\
  adapt_c_buffers spaces (buffers false) (a_function $"f" (plain $"void")
    [a_param (pointer $"float") $"xs"; a_param (plain $"size_t") $"count"; Param (plain $"int") $"stride" [] $"sizeof(float)";
     Param (plain $"int") $"step" [] $"sizeof(float)"])
    = None.
Proof. split; vm_compute; reflexivity. Qed.
Print Assumptions C45_stride_refuted.

(** A stride named after its array: values_stride is declared twice. *)
Definition values_stride : func := a_function $"f" (plain $"void")
  [a_param (pointer $"float") $"values"; a_param (plain $"size_t") $"count"; Param (plain $"int") $"values_stride" [] $"sizeof(float)"].
Theorem C45_names_refuted : exists l x, adapt_c_buffers spaces (buffers false) values_stride = Some (Some l) /\
  NoDup (map p_name (f_params values_stride)) /\
  forall c, call values_stride l c [AVal (buf x); AVal (VDefault $"-1")] [] = Stuck.
Proof.
  exists (the_buffers (adapt_c_buffers spaces (buffers false) values_stride)), (numpy_of $"f" $"Float" 4 5 0).
  split; [vm_compute; reflexivity|]. split; [apply distinct_NoDup; reflexivity|]. intros c. vm_compute. reflexivity.
Qed.
Print Assumptions C45_names_refuted.
