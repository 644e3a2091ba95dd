From Verif Require Import PyStr PyDict PyNum TypeTextModel LambdaModel.
(** The adapters of the parameters of a function, but for the buffers (BufferModel.v): each looks at the function and, when
    it has something to do, gives a lambda to be written around it. *)

(** The options, src/litgen/options.py.  A regex option is the function telling which names it matches
    (src/codemanip/code_utils.py 754-760 [does_match_regex_or_matcher]); [array_size] is
    src/srcmlcpp/cpp_types/decls_types/cpp_decl.py 180-196 [c_array_size_as_int] as a function of the array code;
    [known_type] and [known_value] are the two functions given to [seems_mutable]; [literal] tells whether a value matches one of
    src/srcmlcpp/cpp_types/functions/cpp_parameter.py 20-56 [_IMMUTABLE_VALUES_PATTERNS]. *)
Record options := Options {
  o_nanobind : bool;
  o_exclude_names : str -> bool; o_exclude_types : str -> bool;
  o_mutable_default : str -> bool; o_known_type : str -> bool; o_known_value : str -> bool; o_literal : str -> bool;
  o_array_boxed : str -> bool; o_array_std : str -> bool; o_array_max : nat; o_array_size : str -> option nat;
  o_const_char_null : bool;
  o_to_return : str -> bool; o_boxed : str -> bool;
  o_string_list : str -> bool; o_size_name : str -> bool;
  o_force_lambda : str -> bool }.

(** What an adapter does with one parameter: the parameters put in its place, the statements before the call, the
    arguments of the call, the statements after it. *)
Record piece := Piece { q_new : list param; q_input : list stmt; q_args : list expr; q_output : list stmt }.

Definition pass (p : param) : piece := Piece [p] [] [EName (p_name p)] [].

(** The loop of an adapter: each round appends to the four lists. *)
Definition new_params (qs : list piece) : list param := flat_map q_new qs.
Definition inputs (qs : list piece) : list stmt := flat_map q_input qs.
Definition args (qs : list piece) : list expr := flat_map q_args qs.
Definition outputs (qs : list piece) : list stmt := flat_map q_output qs.

Definition make_lambda (f : func) (suffix : str) (qs : list piece) : lambda :=
  Lambda (f_name f ++ suffix) (new_params qs) (f_return f) (inputs qs) (args qs) (Ordinary (outputs qs)).

(** A copy of a parameter with another type, default value or array code. *)
Definition with_type (p : param) (t : ctype) : param := Param t (p_name p) (p_array p) (p_default p).
Definition with_default (p : param) (d : str) : param := Param (p_type p) (p_name p) (p_array p) d.
Definition without_array (p : param) : param := Param (p_type p) (p_name p) [] (p_default p).

(** ** Excluded parameters: src/litgen/internal/adapt_function_params/_adapt_exclude_params.py 13-69 [adapt_exclude_params] *)

(** Lines 21-30 [shall_exclude]. *)
Definition shall_exclude (o : options) (p : param) : bool :=
  (o_exclude_names o (p_name p) || o_exclude_types o (type_text (p_type p))) && has_default p.

Definition exclude_piece (o : options) (p : param) : piece :=
  if shall_exclude o p then Piece [] [] [EText (p_default p)] [] else pass p.

Definition adapt_exclude_params (o : options) (f : func) : option lambda :=
  if existsb (shall_exclude o) (f_params f)
  then Some (make_lambda f $"_adapt_exclude_params" (map (exclude_piece o) (f_params f)))
  else None.

(** ** Mutable default values *)

(** src/srcmlcpp/cpp_types/functions/cpp_parameter.py 58 [_IMMUTABLE_VALUES_KEYWORDS]. *)
Definition immutable_keywords : list str :=
  [$"nullptr"; $"NULL"; $"true"; $"false"; $"TRUE"; $"FALSE"; $"nullopt"; $"std::nullopt"].

(** src/srcmlcpp/cpp_types/functions/cpp_parameter.py 61-110 [_BASE_IMMUTABLE_TYPES]. *)
Definition base_immutable_types : list str :=
  [$"int"; $"signed int"; $"unsigned int"; $"char"; $"signed char"; $"unsigned char"; $"long"; $"signed long";
   $"unsigned long"; $"long long"; $"signed long long"; $"unsigned long long"; $"short"; $"signed short";
   $"unsigned short"; $"float"; $"double"; $"long double"; $"float32_t"; $"float64_t"; $"float128_t"; $"bool";
   $"std::string"; $"std::string_view"; $"std::wstring"; $"std::u16string"; $"std::u32string"; $"std::byte";
   $"int8_t"; $"int16_t"; $"int32_t"; $"int64_t"; $"uint8_t"; $"uint16_t"; $"uint32_t"; $"uint64_t"; $"intptr_t";
   $"uintptr_t"; $"size_t"; $"ssize_t"; $"std::size_t"].

Definition before (sep : ascii) (s : str) : str := hd [] (split_on sep s).

(** src/srcmlcpp/cpp_types/functions/cpp_parameter.py 113-166 [_looks_like_mutable_default_value]. *)
Definition looks_like_mutable_default_value (o : options) (value : str) : bool :=
  let v := strip value in
  if o_known_value o v then false
  else if o_literal o v then false
  else if smem v immutable_keywords then false
  else
    let initial_value_type :=
      if contains ["{"%char] v then Some (before "{" v)
      else if contains ["("%char] v then Some (before "(" v) else None in
    match initial_value_type with
    | Some t => negb (smem t base_immutable_types || o_known_type o t)
    | None => true
    end.

(** src/srcmlcpp/cpp_types/functions/cpp_parameter.py 219-262 [seems_mutable_param_with_default_value]. *)
Definition is_void (t : ctype) : bool :=
  match typenames t, specifiers t, modifiers t with [n], [], [] => seqb n $"void" | _, _, _ => false end.
Definition is_const_type (t : ctype) : bool := smem $"const" (specifiers t) || smem $"constexpr" (specifiers t).
Definition is_reference (t : ctype) : bool := smem $"&" (modifiers t).
Definition seems_mutable (o : options) (p : param) : bool :=
  let t := p_type p in
  match strip (p_default p) with
  | [] => false
  | v =>
      if smem $"&&" (modifiers t) || smem $"*" (modifiers t) || smem $"..." (modifiers t) || is_void t then false
      else if negb (is_reference t && is_const_type t || negb (is_reference t)) then false
      else if smem (type_text t) base_immutable_types || o_known_type o (type_text t) then false
      else looks_like_mutable_default_value o v
  end.

(** src/litgen/internal/adapt_function_params/_adapt_mutable_param_with_default_value.py 115-248
    [adapt_mutable_param_with_default_value].  [_fn_optional_to_const_noref] (160-167) works on a shallow copy of the type: it
    takes the & away from the type of the old parameter itself and gives it a const, and the optional type made next
    (150-158) sees this changed type.  Its text is parsed again into a type: here it is one name between a const and
    a &. *)
Definition const_noref (t : ctype) : ctype :=
  CType (typenames t) (if smem $"const" (specifiers t) then specifiers t else specifiers t ++ [$"const"])
    (list_remove $"&" (modifiers t)).
Definition optional_type (t : ctype) : ctype :=
  CType [$"std::optional<" ++ type_text (CType (typenames t) (specifiers t) (list_remove $"&" (modifiers t))) ++ $">"]
    [$"const"] [$"&"].
Definition mutable_piece (o : options) (p : param) : piece :=
  if seems_mutable o p then
    let t := const_noref (p_type p) in
    let n := p_name p ++ $"_or_default" in
    Piece [with_default (with_type p (optional_type t)) $"std::nullopt"]
      [SDefaultOr (type_text t) n (p_name p) (p_default p)] [EName n] []
  else pass p.
Definition adapt_mutable_default (o : options) (f : func) : option lambda :=
  if o_mutable_default o (f_name f) && existsb (seems_mutable o) (f_params f)
  then Some (make_lambda f $"_adapt_mutable_param_with_default_value" (map (mutable_piece o) (f_params f)))
  else None.

(** ** Types which Python cannot modify *)

(** src/litgen/internal/cpp_to_python.py 386-390 [cpp_numeric_types], [is_cpp_type_immutable_for_python]. *)
Definition numeric_types : list str :=
  [$"int"; $"unsigned int"; $"signed int"; $"long"; $"unsigned long"; $"signed long"; $"long long";
   $"unsigned long long"; $"signed long long"; $"uint8_t"; $"int8_t"; $"uint16_t"; $"int16_t"; $"uint32_t"; $"int32_t";
   $"uint64_t"; $"int64_t"; $"size_t"; $"ssize_t"; $"std::size_t"; $"float"; $"double"; $"long double"].
Definition is_immutable (t : str) : bool := smem t numeric_types || smem t [$"string"; $"std::string"; $"bool"].

(** src/srcmlcpp/cpp_types/decls_types/cpp_type.py 129-131 [name_without_modifier_specifier]. *)
Definition bare_name (t : ctype) : str := join $" " (typenames t).

(** src/litgen/internal/cpp_to_python.py 335-344 [cpp_type_to_camel_case_no_space],
    src/litgen/internal/boxed_python_type.py 13-18 [boxed_type_name]. *)
Definition capitalize (s : str) : str := match s with [] => [] | c :: r => upper_c c :: r end.
Definition boxed_type_name (t : str) : str :=
  let t := if seqb t $"std::string" then $"string" else t in
  $"Boxed" ++ concat (map capitalize (split_on sp t)).

Definition is_const_decl (p : param) : bool := smem $"const" (specifiers (p_type p)).
Definition null_default (p : param) : bool := smem (p_default p) [$"NULL"; $"nullptr"].

(** ** Fixed size arrays: src/litgen/internal/adapt_function_params/_adapt_c_arrays.py 13-161 [adapt_c_arrays] *)

(** src/litgen/internal/adapted_types/adapted_decl.py 57-84 [c_array_fixed_size_to_const_std_array]. *)
Definition std_array_param (n : nat) (p : param) : param :=
  let specs := list_remove $"const" (specifiers (p_type p)) in
  let name := type_text (CType (typenames (p_type p)) specs (modifiers (p_type p))) in
  Param (CType [$"std::array<" ++ name ++ $", " ++ nat_text n ++ $">&"] (specs ++ [$"const"]) (modifiers (p_type p)))
    (p_name p) [] (p_default p).

(** src/litgen/internal/adapted_types/adapted_decl.py 86-120 [c_array_fixed_size_to_mutable_new_boxed_decls]. *)
Definition item_name (p : param) (i : nat) : str := p_name p ++ $"_" ++ nat_text i.
Definition boxed_item (p : param) (i : nat) : param :=
  let name := type_text (p_type p) in
  Param (CType [if is_immutable name then boxed_type_name name else name] (specifiers (p_type p)) [$"&"])
    (item_name p i) [] (p_default p).

Definition raw_name (p : param) : str := p_name p ++ $"_raw".

(** Lines 131-142: .value when the elements are boxed. *)
Definition item_access (p : param) (i : nat) : expr :=
  if is_immutable (bare_name (p_type p)) then EField (item_name p i) else EName (item_name p i).

Definition array_piece (o : options) (fname : str) (p : param) : piece :=
  match o_array_size o (p_array p) with
  | None => pass p
  | Some n =>
      if is_const_decl p && o_array_std o fname then Piece [std_array_param n p] [] [EData (p_name p)] []
      else if negb (is_const_decl p) && o_array_boxed o fname && (n <=? o_array_max o) then
        Piece (map (boxed_item p) (seq 0 n))
          (SArray (type_text (p_type p)) (raw_name p) (p_array p) n (p_default p)
             :: map (fun i => SAssign (EIndex (raw_name p) i) (item_access p i)) (seq 0 n))
          [EName (raw_name p)]
          (map (fun i => SAssign (item_access p i) (EIndex (raw_name p) i)) (seq 0 n))
      else pass p
  end.

Definition array_wanted (o : options) (fname : str) (p : param) : bool :=
  match o_array_size o (p_array p) with
  | None => false
  | Some _ => if is_const_decl p then o_array_std o fname else o_array_boxed o fname
  end.

Definition adapt_c_arrays (o : options) (f : func) : option lambda :=
  if existsb (array_wanted o (f_name f)) (f_params f)
  then Some (make_lambda f $"_adapt_fixed_size_c_arrays" (map (array_piece o (f_name f)) (f_params f)))
  else None.

(** ** const char * with a null default:
    src/litgen/internal/adapt_function_params/adapt_const_char_pointer_with_default_null.py 10-78
    [adapt_const_char_pointer_with_default_null] *)

Definition one (l : list str) (x : str) : bool := match l with [y] => seqb y x | _ => false end.

(** src/litgen/internal/adapted_types/adapted_function.py 70-82 [is_const_char_pointer_with_default_null]. *)
Definition is_const_char_null (p : param) : bool :=
  one (modifiers (p_type p)) $"*" && is_const_decl p && one (typenames (p_type p)) $"char" && null_default p.

Definition const_char_piece (p : param) : piece :=
  if is_const_char_null p then
    let n := p_name p ++ $"_adapt_default_null" in
    Piece [with_default (with_type p (CType [$"std::optional<std::string>"] [] [])) $"std::nullopt"]
      [SDecl (type_text (p_type p)) n ENull; SIf (CHasValue (p_name p)) (EName n) (ECStr (EOptValue (p_name p)))]
      [EName n] []
  else pass p.

Definition adapt_const_char_null (o : options) (f : func) : option lambda :=
  if o_const_char_null o && o_to_return o (f_name f) && existsb is_const_char_null (f_params f)
  then Some (make_lambda f $"_adapt_const_char_pointer_with_default_null" (map const_char_piece (f_params f)))
  else None.

(** ** Modified parameters given back as results:
    src/litgen/internal/adapt_function_params/adapt_modifiable_immutable_to_return.py 15-279
    [adapt_modifiable_immutable_to_return] *)

(** src/litgen/internal/adapted_types/adapted_function.py 58-68 [is_modifiable_python_immutable_ref_or_pointer]. *)
Definition is_pointer (p : param) : bool := one (modifiers (p_type p)) $"*".
Definition is_modifiable (p : param) : bool :=
  (is_pointer p || one (modifiers (p_type p)) $"&") && negb (is_const_decl p) && is_immutable (bare_name (p_type p)).

(** src/litgen/internal/adapted_types/adapted_function.py 45-56 [is_modifiable_python_immutable_fixed_size_array]. *)
Definition is_modifiable_array (o : options) (p : param) : option nat :=
  match modifiers (p_type p), o_array_size o (p_array p) with
  | [], Some n => if is_immutable (bare_name (p_type p)) && negb (is_const_decl p) then Some n else None
  | _, _ => None
  end.

(** Lines 84-87, and src/litgen/internal/adapt_function_params/adapt_modifiable_immutable.py 81-84. *)
Definition is_optional (p : param) : bool := is_pointer p && null_default p.

Definition returned_param (o : options) (p : param) : option param :=
  if is_modifiable p then
    let t := CType (typenames (p_type p)) [] [] in
    Some (if is_optional p
          then with_default (with_type p (CType [$"std::optional<" ++ type_text t ++ $">"] [] [])) $"std::nullopt"
          else with_type p t)
  else match is_modifiable_array o p with
       | Some n =>
           Some (Param (CType [$"std::array<" ++ bare_name (p_type p) ++ $", " ++ nat_text n ++ $">"] [] []) (p_name p) [] [])
       | None => None
       end.

Definition returned_piece (o : options) (p : param) : piece :=
  match returned_param o p with
  | None => pass p
  | Some np =>
      let n := p_name p ++ $"_adapt_modifiable" in
      let t := type_text (p_type p) in
      Piece [np]
        (if is_modifiable p then
           if is_optional p then
             [SDecl t n ENull; SIf (CHasValue (p_name p)) (EName n) (EAddr (EParen (EDeref (p_name p))))]
           else if is_pointer p then [SDecl t n (EAddr (EName (p_name p)))]
           else [SDecl t n (EName (p_name p))]
         else [SDecl (t ++ $" *") n (EData (p_name p))])
        [EName n] []
  end.

Definition returned_params (o : options) (ps : list param) : list param :=
  flat_map (fun p => match returned_param o p with Some np => [np] | None => [] end) ps.

(** Lines 196-227 [new_return_type_and_names]. *)
Definition new_return_type (f : func) (outs : list param) : ctype :=
  let types := (if returns_void f then [] else [type_text (f_return f)]) ++ map (fun p => type_text (p_type p)) outs in
  CType [match types with [t] => t | _ => $"std::tuple<" ++ join $", " types ++ $">" end] [] [].

Definition adapt_to_return (o : options) (f : func) : option lambda :=
  match o_to_return o (f_name f), returned_params o (f_params f) with
  | true, (_ :: _) as outs =>
      let qs := map (returned_piece o) (f_params f) in
      Some (Lambda (f_name f ++ $"_adapt_modifiable_immutable_to_return") (new_params qs) (new_return_type f outs)
              (inputs qs) (args qs) (ReturnAll (map p_name outs)))
  | _, _ => None
  end.

(** ** Boxed parameters: src/litgen/internal/adapt_function_params/adapt_modifiable_immutable.py 14-146
    [adapt_modifiable_immutable] *)

Definition boxed_piece (p : param) : piece :=
  if is_modifiable p then
    let n := p_name p ++ $"_boxed_value" in
    let t := type_text (p_type p) in
    let boxed := boxed_type_name (bare_name (p_type p)) in
    if is_optional p then
      Piece [with_default (with_type p (CType [boxed] [] [$"*"])) $"nullptr"]
        [SDecl t n ENull; SIf (CNotNull (p_name p)) (EName n) (EAddr (EParen (EArrow (p_name p))))] [EName n] []
    else
      Piece [with_type p (CType [boxed] [] [$"&"])]
        [SDecl t n (if is_pointer p then EAddr (EParen (EField (p_name p))) else EField (p_name p))] [EName n] []
  else pass p.

Definition adapt_boxed (o : options) (f : func) : option lambda :=
  if o_boxed o (f_name f) && existsb is_modifiable (f_params f)
  then Some (make_lambda f $"_adapt_modifiable_immutable" (map boxed_piece (f_params f)))
  else None.

(** ** Lists of strings: src/litgen/internal/adapt_function_params/_adapt_c_string_list.py *)

(** src/srcmlcpp/cpp_types/decls_types/cpp_decl.py 133-154 [is_c_string_list_ptr]. *)
Definition is_string_list (p : param) : bool :=
  is_const_decl p && one (typenames (p_type p)) $"char"
  && (list_count $"*" (modifiers (p_type p)) + (match p_array p with [] => 0 | _ => 1 end) =? 2)
  && smem (p_default p) [[]; $"NULL"; $"nullptr"].

(** Lines 91-100: the parameter becomes a vector of strings. *)
Definition vector_param (p : param) : param :=
  Param (CType [$"std::vector<std::string>"] [$"const"] [$"&"]) (p_name p) [] [].

Definition ptrs_name (p : param) : str := p_name p ++ $"_ptrs".
Definition ptrs_input (o : options) (p : param) : list stmt :=
  SVector (ptrs_name p) :: (if o_nanobind o then [SReserve (ptrs_name p) (p_name p)] else [])
    ++ [SForPush (ptrs_name p) (p_name p)].

(** Lines 102-113: the size. *)
Definition casted_size (size_type : str) (p : param) : expr :=
  if seqb size_type $"size_t" || seqb size_type $"std::size_t" then ESize (p_name p)
  else ECast size_type (ESize (p_name p)).
Definition first_typename (p : param) : str := hd [] (typenames (p_type p)).

(** Lines 15-139 [adapt_c_string_list]; [prev] and [next] are the parameters before and after. *)
Definition string_list_piece (o : options) (prev : option param) (p : param) (next : option param) : piece :=
  let size_of q s := is_string_list q && o_size_name o (p_name s) in
  let replaced := match next with Some s => size_of p s | None => false end in
  let is_size := match prev with Some q => size_of q p | None => false end in
  match next, replaced with
  | Some s, true =>
      let size_type := first_typename s in
      Piece [vector_param p] (ptrs_input o p ++ [SDecl size_type (p_name s) (casted_size size_type p)])
        [EData (ptrs_name p); EName (p_name s)] []
  | _, _ => if is_size then Piece [] [] [] [] else pass p
  end.
Fixpoint string_list_pieces (o : options) (prev : option param) (ps : list param) : list piece :=
  match ps with
  | [] => []
  | p :: r => string_list_piece o prev p (hd_error r) :: string_list_pieces o (Some p) r
  end.
Fixpoint string_list_needed (o : options) (ps : list param) : bool :=
  match ps with
  | p :: ((s :: _) as r) => is_string_list p && o_size_name o (p_name s) || string_list_needed o r
  | _ => false
  end.
Definition adapt_string_list (o : options) (f : func) : option lambda :=
  if o_string_list o (f_name f) && string_list_needed o (f_params f)
  then Some (make_lambda f $"_adapt_c_string_list" (string_list_pieces o None (f_params f)))
  else None.

(** Lines 142-239 [adapt_c_string_list_no_count]. *)
Definition string_list_alone_piece (o : options) (p : param) : piece :=
  if is_string_list p then Piece [vector_param p] (ptrs_input o p) [EData (ptrs_name p)] [] else pass p.
Definition adapt_string_list_alone (o : options) (f : func) : option lambda :=
  if o_string_list o (f_name f) && existsb is_string_list (f_params f)
  then Some (make_lambda f $"_adapt_c_string_list_no_count" (map (string_list_alone_piece o) (f_params f)))
  else None.

(** ** Variadic functions: src/litgen/internal/adapt_function_params/_adapt_variadic_format.py 15-53
    [adapt_variadic_format] *)
Definition is_variadic (p : param) : bool :=
  match typenames (p_type p) with [] => one (modifiers (p_type p)) $"..." | _ => false end.
Definition adapt_variadic (o : options) (f : func) : option lambda :=
  match rev (f_params f) with
  | last :: before_last :: firsts =>
      if is_variadic last && smem (type_text (p_type before_last)) [$"const char *"; $"const char * const"]
      then Some (make_lambda f $"_adapt_variadic_format"
                   (map pass (rev firsts)
                      ++ [Piece [before_last] [] [ELit $"%s"] []; Piece [] [] [EName (p_name before_last)] []]))
      else None
  | _ => None
  end.

(** ** Forced lambdas: src/litgen/internal/adapt_function_params/_adapt_force_lambda.py 10-29 [adapt_force_lambda] *)
Definition adapt_force_lambda (f : func) : lambda := make_lambda f $"_adapt_force_lambda" (map pass (f_params f)).
