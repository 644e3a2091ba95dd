From Verif Require Import PyStr PyDict PyNum RegionsModel TextModel FillModel TypeTextModel LambdaModel AdapterModel.
(** The adapter of the C buffers, src/litgen/internal/adapt_function_params/_adapt_c_buffers.py: a pointer to numbers
    followed by a size becomes a numpy array.  It is the first adapter, and may raise: its result is [None] then. *)

(** The options, src/litgen/options.py: [b_functions] is fn_params_replace_buffer_by_array__regex and [b_size_name]
    fn_params_buffer_size_names__regex; [b_types] and [b_template_types] are the lists of lines 720-724, which have no
    regex character; [b_python_name] is
    src/litgen/internal/cpp_to_python.py 216-224 [function_name_to_python]. *)
Record buffer_options := BufferOptions {
  b_nanobind : bool; b_functions : str -> bool; b_types : list str; b_template_types : list str;
  b_size_name : str -> bool; b_python_name : str -> str }.

(** ** Which parameters are buffers, sizes and strides *)

(** src/codemanip/code_utils.py 675-678 [contains_word_boundary_left_only]: the word somewhere in the text, where a
    word begins or ends; [prev] tells whether the character before is one of a word. *)
Definition first_is_word (s : str) : bool := match s with [] => false | c :: _ => is_word c end.
Fixpoint word_left (prev : bool) (w s : str) : bool :=
  startswith w s && xorb prev (first_is_word s)
  || match s with [] => false | c :: r => word_left (is_word c) w r end.

(** src/codemanip/code_utils.py 710-720 [contains_pointer_type]. *)
Definition cut_star (t : str) : str := if endswith $"*" t then firstn (length t - 1) t else t.
Definition contains_pointer_type (full t : str) : bool :=
  let t := cut_star t in word_left false (t ++ $"*") full || word_left false (t ++ $" *") full.

(** Lines 17-28 [_possible_buffer_pointer_types], [_possible_buffer_template_pointer_types]. *)
Definition pointer_types (ts : list str) : list str := map (fun t => t ++ $"*") ts ++ map (fun t => t ++ $" *") ts.

(** Lines 31-52 [_looks_like_param_buffer_standard], [_looks_like_param_template_buffer],
    [_name_looks_like_buffer_standard_or_template]. *)
Definition looks_standard (o : buffer_options) (p : param) : bool :=
  existsb (contains_pointer_type (type_text (p_type p))) (pointer_types (b_types o)).
Definition looks_template (o : buffer_options) (p : param) : bool :=
  existsb (contains_pointer_type (type_text (p_type p))) (pointer_types (b_template_types o)).
Definition looks_buffer (o : buffer_options) (p : param) : bool := looks_standard o p || looks_template o p.

(** Lines 190-215 [_is_buffer_template_or_not]. *)
Fixpoint buffer_loop (o : buffer_options) (ps : list param) (i k : nat) : bool :=
  match k with
  | 0 => false
  | S k =>
      match nth_error ps i, nth_error ps (i + 1) with
      | Some p, Some s =>
          if looks_buffer o p then if b_size_name o (p_name s) then true else buffer_loop o ps (i + 1) k else false
      | _, _ => false
      end
  end.
Definition is_buffer (o : buffer_options) (ps : list param) (i : nat) : bool := buffer_loop o ps i 5.

(** Lines 161-177 [_is_buffer_size], [_is_stride_param]. *)
Definition is_size (o : buffer_options) (ps : list param) (i : nat) : bool :=
  match i with
  | 0 => false
  | S j =>
      match nth_error ps i, nth_error ps j with
      | Some s, Some p => b_size_name o (p_name s) && looks_buffer o p
      | _, _ => false
      end
  end.
Definition is_stride (p : param) : bool := startswith $"sizeof" (strip (p_default p)).

(** Lines 217-227 [_is_buffer_template], [_is_buffer_standard]. *)
Definition is_template (o : buffer_options) (ps : list param) (i : nat) (p : param) : bool :=
  is_buffer o ps i && looks_template o p.
Definition is_standard (o : buffer_options) (ps : list param) (i : nat) (p : param) : bool :=
  is_buffer o ps i && negb (looks_template o p).

(** Lines 508-513 [_last_idx_buffer_param_before]. *)
Definition last_buffer (o : buffer_options) (ps : list param) (i : nat) : option param :=
  find (looks_buffer o) (rev (firstn (S i) ps)).

(** ** Types *)

(** src/litgen/internal/cpp_to_python.py 410-423 [_PY_ARRAY_TYPE_TO_CPP_TYPE]. *)
Definition array_types : list (str * str) :=
  [($"B", $"uint8_t"); ($"b", $"int8_t"); ($"H", $"uint16_t"); ($"h", $"int16_t"); ($"I", $"uint32_t"); ($"i", $"int32_t");
   ($"L", $"np_uint_l"); ($"l", $"np_int_l"); ($"f", $"float"); ($"d", $"double"); ($"g", $"long double");
   ($"q", $"long long")].
(** src/litgen/internal/cpp_to_python.py 506-515 [cpp_type_to_py_array_type]. *)
Definition array_letter (t : str) : option str :=
  let t := strip t in
  let t := if endswith $"*" t then strip (firstn (length t - 1) t) else t in
  let t := if startswith $"const " t then strip (replace $"const " [] t) else t in
  option_map fst (find (fun lt => seqb (snd lt) t) array_types).
(** src/litgen/internal/cpp_to_python.py 433-436 [py_array_type_to_cpp_type], on a letter given by the previous one. *)
Definition array_type (letter : str) : str := match dict_get letter array_types with Some t => t | None => [] end.

(** src/litgen/internal/cpp_to_python.py 442-466 [_NANOBIND_CPP_TYPE_TO_DTYPE_CODE], 469-480
    [nanobind_cpp_type_to_dtype_code], [nanobind_cpp_type_to_dtype_code_as_uint8]. *)
Definition dtype_codes : list (str * str) :=
  [($"uint8_t", $"UInt"); ($"int8_t", $"Int"); ($"uint16_t", $"UInt"); ($"int16_t", $"Int"); ($"uint32_t", $"UInt");
   ($"int32_t", $"Int"); ($"uint64_t", $"UInt"); ($"int64_t", $"Int"); ($"int", $"Int"); ($"signed int", $"Int");
   ($"unsigned int", $"UInt"); ($"long", $"Int"); ($"signed long", $"Int"); ($"unsigned long", $"UInt");
   ($"long long", $"Int"); ($"signed long long", $"Int"); ($"unsigned long long", $"UInt"); ($"float", $"Float");
   ($"double", $"Float"); ($"long double", $"Float")].
Definition code_as_uint8 (code : str) : str := $"static_cast<uint8_t>(nb::dlpack::dtype_code::" ++ code ++ $")".

(** ** One parameter *)

Definition from_array (p : param) : str := p_name p ++ $"_from_pyarray".
Definition count_name (p : param) : str := p_name p ++ $"_count".
Definition stride_name (p : param) : str := p_name p ++ $"_stride".
Definition const_space (p : param) : str := if is_const_decl p then $"const " else [].
(** Lines 524-525 [_original_raw_type]: the first of the words of the type. *)
Definition raw_type (p : param) : str := hd [] (typenames (p_type p)).

(** Lines 532-561 [_lambda_input_buffer_standard_convert_part]. *)
Definition convert_part (o : buffer_options) (p : param) : list stmt :=
  [SBuffer (b_nanobind o) (is_const_decl p) (p_name p) (from_array p) (count_name p)].

(** Lines 580-625 [_lambda_input_buffer_standard_check_part]. *)
Definition check_part (o : buffer_options) (i : nat) (p : param) : option (list stmt) :=
  if b_nanobind o then
    option_map (fun code => [SCheckTypeNano i (p_name p) code (code_as_uint8 code) (raw_type p)])
      (dict_get (raw_type p) dtype_codes)
  else option_map (fun letter => [SCheckType (p_name p) letter (raw_type p) (is_const_decl p)]) (array_letter (raw_type p)).

(** Lines 627-658 [_stride_adapted_name], [_adapted_param_stride], [lambda_input_stride_param]. *)
Definition stride_part (o : buffer_options) (ps : list param) (i : nat) (p : param) : option (list stmt) :=
  option_map (fun b => [SStride (stride_name b) (p_name p) (p_name b)]) (last_buffer o ps i).
Definition stride_arg (o : buffer_options) (ps : list param) (i : nat) (p : param) : option expr :=
  option_map (fun b => if seqb (raw_type p) $"int" then EName (stride_name b) else ECast (raw_type p) (EName (stride_name b)))
    (last_buffer o ps i).

(** Lines 93-105 [lambda_input]. *)
Definition input_of (o : buffer_options) (ps : list param) (i : nat) (p : param) : option (list stmt) :=
  if is_standard o ps i p then option_map (app (convert_part o p)) (check_part o i p)
  else if is_stride p then stride_part o ps i p
  else if is_template o ps i p then Some (convert_part o p)
  else Some [].

(** Lines 468-489 [_new_param_buffer_standard], 660-665 [_new_param_stride]. *)
Definition array_param (o : buffer_options) (p : param) : param :=
  with_type p
    (if b_nanobind o then CType [if is_const_decl p then $"nb::ndarray<nb::ro>" else $"nb::ndarray<>"] [] [$"&"]
     else CType [$"py::array"] (if is_const_decl p then [$"const"] else []) [$"&"]).
Definition stride_param (p : param) : param :=
  with_default (with_type p (CType [$"int"] (specifiers (p_type p)) (modifiers (p_type p)))) $"-1".

(** Lines 107-116 [new_visible_interface_param]. *)
Definition new_of (o : buffer_options) (ps : list param) (i : nat) (p : param) : list param :=
  if is_buffer o ps i then [array_param o p]
  else if is_stride p then [stride_param p]
  else if is_size o ps i then []
  else [p].

(** Lines 118-134 [adapted_inner_param], 491-496 [_adapted_param_buffer_size], 527-530
    [_adapted_param_buffer_standard]. *)
Definition placeholder_arg : str := $"adapted_param_looks_like_param_template_buffer".
Definition data_arg (t : str) (p : param) : expr := ECast (const_space p ++ t ++ $" *") (EName (from_array p)).
Definition arg_of (o : buffer_options) (ps : list param) (i : nat) (p : param) : option expr :=
  if is_standard o ps i p then Some (data_arg (raw_type p) p)
  else if is_size o ps i then option_map (fun b => ECast (raw_type p) (EName (count_name b))) (last_buffer o ps i)
  else if is_stride p then stride_arg o ps i p
  else if is_template o ps i p then Some (EName placeholder_arg)
  else Some (EName (p_name p)).

(** ** The template end *)

(** Lines 229-242 [_adapted_cpp_parameters_template_static_cast]. *)
Definition typed_arg_of (o : buffer_options) (ps : list param) (t : str) (i : nat) (p : param) : option expr :=
  if looks_template o p then Some (data_arg t p) else arg_of o ps i p.

Fixpoint sequence {A} (l : list (option A)) : option (list A) :=
  match l with
  | [] => Some []
  | Some x :: r => option_map (cons x) (sequence r)
  | None :: _ => None
  end.
Definition enumerate {A} (l : list A) : list (nat * A) := combine (seq 0 (length l)) l.
Definition each_param {A} (h : nat -> param -> option A) (ps : list param) : option (list A) :=
  sequence (map (fun ip => h (fst ip) (snd ip)) (enumerate ps)).

(** Lines 424-433: the call for each type of the options. *)
Definition typed_call (o : buffer_options) (ps : list param) (t : str) : option (str * list expr) :=
  match array_letter t with
  | Some letter => option_map (pair letter) (each_param (typed_arg_of o ps (array_type letter)) ps)
  | None => None
  end.
Definition typed_calls (o : buffer_options) (ps : list param) : option (list (str * list expr)) :=
  sequence (map (typed_call o ps) (b_types o)).

(** The templates of lines 246-358, without their indentation. *)
Definition pybind_intro : str := unlines
  [$"#ifdef _WIN32";
   $"using np_uint_l = uint32_t;";
   $"using np_int_l = int32_t;";
   $"#else";
   $"using np_uint_l = uint64_t;";
   $"using np_int_l = int64_t;";
   $"#endif";
   $"// call the correct template version by casting";
   $"char {template_buffer_name}_type = {template_buffer_name}.dtype().char_();"].
Definition nanobind_intro : str := unlines
  [$"using np_uint_l = uint64_t;";
   $"using np_int_l = int64_t;";
   [];
   $"// Define a lambda to compute the letter code for the buffer type";
   $"auto _nanobind_buffer_type_to_letter_code = [](uint8_t dtype_code, size_t sizeof_item)  -> char";
   $"{";
   $"    #define DCODE(T) static_cast<uint8_t>(nb::dlpack::dtype_code::T)";
   $"        const std::array<std::tuple<uint8_t, size_t, char>, 11> mappings = {{";
   $"            {DCODE(UInt), 1, 'B'}, {DCODE(UInt), 2, 'H'}, {DCODE(UInt), 4, 'I'}, {DCODE(UInt), 8, 'L'},";
   $"            {DCODE(Int), 1, 'b'}, {DCODE(Int), 2, 'h'}, {DCODE(Int), 4, 'i'}, {DCODE(Int), 8, 'l'},";
   $"            {DCODE(Float), 4, 'f'}, {DCODE(Float), 8, 'd'}, {DCODE(Float), 16, 'g'}";
   $"        }};";
   $"    #undef DCODE";
   $"    for (const auto& [code_val, size, letter] : mappings)";
   $"        if (code_val == dtype_code && size == sizeof_item)";
   $"            return letter;";
   $"    throw std::runtime_error(""Unsupported dtype"");";
   $"};";
   [];
   $"// Compute the letter code for the buffer type";
   $"uint8_t dtype_code_{template_buffer_name} = {template_buffer_name}.dtype().code;";
   $"size_t sizeof_item_{template_buffer_name} = {template_buffer_name}.dtype().bits / 8;";
   $"char {template_buffer_name}_type = _nanobind_buffer_type_to_letter_code(dtype_code_{template_buffer_name}, sizeof_item_{template_buffer_name});";
   [];
   $"// call the correct template version by casting"].
Definition loop_template : str := unlines
  [$"{maybe_else}if ({template_buffer_name}_type == '{pyarray_type_char}')";
   $"{_i_}{maybe_return}{function_or_lambda_to_call}({adapted_cpp_parameters_with_static_cast});"].
Definition outro_template : str := unlines
  [$"// If we reach this point, the array type is not supported!";
   $"else";
   $"{_i_}throw std::runtime_error(std::string(""Bad array type ('"") + {template_buffer_name}_type + ""') for param {template_buffer_name}"");"].
Definition nanobind_names : str := unlines
  [$"// Map a dtype letter code to a human-readable numpy dtype name (used in the error message below)";
   $"auto _nanobind_dtype_letter_to_name = [](char letter) -> const char *";
   $"{";
   $"    switch (letter)";
   $"    {";
   $"        case 'B': return ""uint8"";   case 'b': return ""int8"";";
   $"        case 'H': return ""uint16"";  case 'h': return ""int16"";";
   $"        case 'I': return ""uint32"";  case 'i': return ""int32"";";
   $"        case 'L': return ""uint64"";  case 'l': return ""int64"";";
   $"        case 'f': return ""float32""; case 'd': return ""float64"";";
   $"        case 'g': return ""longdouble"";";
   $"        default:  return ""<unsupported>"";";
   $"    }";
   $"};"].
Definition nanobind_cross_check : str := unlines
  [$"// Ensure '{buffer_name}' shares the dtype of '{template_buffer_name}' (the C++ function is templated on a single type)";
   $"char {buffer_name}_type = _nanobind_buffer_type_to_letter_code({buffer_name}.dtype().code, {buffer_name}.dtype().bits / 8);";
   $"if ({buffer_name}_type != {template_buffer_name}_type)";
   $"{_i_}throw std::runtime_error(";
   $"{_i_}{_i_}std::string(""{function_name_python}: all numeric arrays must share the same dtype, "")";
   $"{_i_}{_i_}+ ""but \""{buffer_name}\"" has dtype "" + _nanobind_dtype_letter_to_name({buffer_name}_type)";
   $"{_i_}{_i_}+ "" while \""{template_buffer_name}\"" has dtype "" + _nanobind_dtype_letter_to_name({template_buffer_name}_type)";
   $"{_i_}{_i_}+ "". Convert them to a common dtype, e.g. {buffer_name} = {buffer_name}.astype({template_buffer_name}.dtype)."");"].
Definition pybind_names : str := unlines
  [$"// Map a numpy dtype char code to a human-readable name (used in the error message below)";
   $"auto _pybind_dtype_letter_to_name = [](char letter) -> const char *";
   $"{";
   $"    switch (letter)";
   $"    {";
   $"        case 'B': return ""uint8"";            case 'b': return ""int8"";";
   $"        case 'H': return ""uint16"";           case 'h': return ""int16"";";
   $"        case 'I': return ""uint32"";           case 'i': return ""int32"";";
   $"        case 'L': case 'Q': return ""uint64""; case 'l': case 'q': return ""int64"";";
   $"        case 'f': return ""float32"";          case 'd': return ""float64"";";
   $"        case 'g': return ""longdouble"";";
   $"        default:  return ""<unsupported>"";";
   $"    }";
   $"};"].
Definition pybind_cross_check : str := unlines
  [$"// Ensure '{buffer_name}' shares the dtype of '{template_buffer_name}' (the C++ function is templated on a single type)";
   $"char {buffer_name}_type = {buffer_name}.dtype().char_();";
   $"if ({buffer_name}_type != {template_buffer_name}_type)";
   $"{_i_}throw std::runtime_error(";
   $"{_i_}{_i_}std::string(""{function_name_python}: all numeric arrays must share the same dtype, "")";
   $"{_i_}{_i_}+ ""but \""{buffer_name}\"" has dtype "" + _pybind_dtype_letter_to_name({buffer_name}_type)";
   $"{_i_}{_i_}+ "" while \""{template_buffer_name}\"" has dtype "" + _pybind_dtype_letter_to_name({template_buffer_name}_type)";
   $"{_i_}{_i_}+ "". Convert them to a common dtype, e.g. {buffer_name} = {buffer_name}.astype({template_buffer_name}.dtype)."");"].

(** Lines 244-466 [make_adapted_lambda_code_end_template_buffer]: [n] is the name of the last template buffer, [others] are
    those of the other ones. *)
Section Text.
Variable i : str.
Definition call_text (f : func) (n : str) (k : nat) (call : str * list expr) : str :=
  replace_in_string (loop_template ++ [nl])
    [($"_i_", i); ($"maybe_else", match k with 0 => [] | _ => $"else " end); ($"template_buffer_name", n);
     ($"pyarray_type_char", fst call); ($"maybe_return", if returns_void f then [] else $"return ");
     ($"function_or_lambda_to_call", function_or_lambda_to_call f);
     ($"adapted_cpp_parameters_with_static_cast", join $", " (map expr_text (snd call)))].
Definition cross_text (o : buffer_options) (f : func) (n other : str) : str :=
  replace_in_string ((if b_nanobind o then nanobind_cross_check else pybind_cross_check) ++ [nl])
    [($"_i_", i); ($"buffer_name", other); ($"template_buffer_name", n);
     ($"function_name_python", b_python_name o (f_name f))].
Definition template_end_text (o : buffer_options) (f : func) (n : str) (others : list str) (calls : list (str * list expr)) : str :=
  replace_in_string (if b_nanobind o then nanobind_intro else pybind_intro) [($"template_buffer_name", n)] ++ [nl]
  ++ (match others with
      | [] => []
      | _ => (if b_nanobind o then nanobind_names else pybind_names) ++ nl :: concat (map (cross_text o f n) others)
      end)
  ++ concat (map (fun kc => call_text f n (fst kc) (snd kc)) (enumerate calls))
  ++ replace_in_string outro_template [($"_i_", i); ($"template_buffer_name", n)].

(** ** The adapter *)

(** Lines 714-727: a blank line between the inputs. *)
Fixpoint spaced (l : list (list stmt)) : list stmt :=
  match l with
  | [] => []
  | [] :: r => spaced r
  | ss :: r => ss ++ match spaced r with [] => [] | ss' => SBlank :: ss' end
  end.

(** Lines 179-188 [_template_buffer_params], [_last_template_buffer_param]. *)
Definition template_params (o : buffer_options) (ps : list param) : list param := filter (looks_template o) ps.

(** Lines 729-731. *)
Definition buffer_end (o : buffer_options) (f : func) : option ending :=
  match rev (template_params o (f_params f)) with
  | [] => Some (Ordinary [])
  | p :: _ =>
      let others := filter (fun n => negb (seqb n (p_name p))) (map p_name (template_params o (f_params f))) in
      option_map (fun calls => ByType (b_nanobind o) (p_name p) others calls (template_end_text o f (p_name p) others calls))
        (typed_calls o (f_params f))
  end.

(** Lines 136-145 [shall_adapt], 65-72: more than one stride is refused; 668-736 [adapt_c_buffers]. *)
Definition shall_adapt (o : buffer_options) (f : func) : bool :=
  b_functions o (f_name f) && existsb (is_buffer o (f_params f)) (seq 0 (length (f_params f))).
Definition adapt_c_buffers (o : buffer_options) (f : func) : option (option lambda) :=
  let ps := f_params f in
  if shall_adapt o f then
    if 1 <? length (filter is_stride ps) then None
    else
      match each_param (input_of o ps) ps, each_param (arg_of o ps) ps, buffer_end o f with
      | Some ins, Some xs, Some e =>
          Some (Some (Lambda (f_name f ++ $"_adapt_c_buffers")
                        (flat_map (fun ip => new_of o ps (fst ip) (snd ip)) (enumerate ps)) (f_return f) (spaced ins) xs e))
      | _, _, _ => None
      end
  else Some None.
End Text.
