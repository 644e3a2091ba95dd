From Verif Require Import PyStr TypeTextModel FillSpec LambdaModel.
(** The C++ code of the lambdas, line by line.  Of LambdaModel.v, only the syntax and the text of types are used here. *)

(** Lines of C++: indentation and empty lines do not count. *)
Definition clean (ls : list str) : list str := filter (fun l => match l with [] => false | _ => true end) (map strip ls).
Definition code_lines (s : str) : list str := clean (split_on nl s).

(** ** Expressions and statements *)

Definition quoted (s : str) : str := [dq] ++ s ++ [dq].
Fixpoint expression (e : expr) : str :=
  match e with
  | EName s | EText s => s
  | ELit s => quoted s
  | ENull => $"nullptr"
  | EData n => n ++ $".data()"
  | EIndex n i => n ++ $"[" ++ nat_text i ++ $"]"
  | EField n => n ++ $".value"
  | EArrow n => n ++ $"->value"
  | EDeref n => $"*" ++ n
  | EOptValue n => n ++ $".value()"
  | EParen e => $"(" ++ expression e ++ $")"
  | EAddr e => $"& " ++ expression e
  | ECStr e => expression e ++ $".c_str()"
  | ESize n => n ++ $".size()"
  | ECast t e => $"static_cast<" ++ t ++ $">(" ++ expression e ++ $")"
  end.
Definition condition (c : cond) : str := match c with CHasValue n => n ++ $".has_value()" | CNotNull n => n ++ $" != nullptr" end.
Definition throws (what : str) : str := $"throw std::runtime_error(" ++ what ++ $");".
Definition statement (s : stmt) : list str :=
  match s with
  | SBlank => []
  | SDecl t n e => [t ++ $" " ++ n ++ $" = " ++ expression e ++ $";"]
  | SArray t n dims _ [] => [t ++ $" " ++ n ++ dims ++ $";"]
  | SArray t n dims _ v => [t ++ $" " ++ n ++ dims ++ $" = " ++ v ++ $";"]
  | SAssign l r => [expression l ++ $" = " ++ expression r ++ $";"]
  | SIf c l r => [$"if (" ++ condition c ++ $")"; expression l ++ $" = " ++ expression r ++ $";"]
  | SVector n => [$"std::vector<const char *> " ++ n ++ $";"]
  | SReserve v n => [v ++ $".reserve(" ++ n ++ $".size());"]
  | SForPush v n => [$"for (const auto& v: " ++ n ++ $")"; v ++ $".push_back(v.c_str());"]
  | SDefaultOr t n name default =>
      [t ++ $"& " ++ n ++ $" = [&]() -> " ++ t ++ $" {"; $"if (" ++ name ++ $".has_value())"; $"return " ++ name ++ $".value();"; $"else";
       $"return " ++ default ++ $";"; $"}();"]
  | SBuffer true is_const n data count =>
      [$"// Check if the array is 1D and C-contiguous"; $"if (! (" ++ n ++ $".ndim() == 1 && " ++ n ++ $".stride(0) == 1))";
       throws (quoted $"The array must be 1D and contiguous");
       $"// convert nb::ndarray to C standard buffer (" ++ (if is_const then $"const" else $"mutable") ++ $")";
       (if is_const then $"const " else []) ++ $"void * " ++ data ++ $" = " ++ n ++ $".data();"; $"size_t " ++ count ++ $" = " ++ n ++ $".shape(0);"]
  | SBuffer false is_const n data count =>
      [$"// Check if the array is 1D and C-contiguous"; $"if (! (" ++ n ++ $".ndim() == 1 && " ++ n ++ $".strides(0) == " ++ n ++ $".itemsize()) )";
       throws (quoted $"The array must be 1D and contiguous");
       $"// convert py::array to C standard buffer (" ++ (if is_const then $"const" else $"mutable") ++ $")";
       if is_const then $"const void * " ++ data ++ $" = " ++ n ++ $".data();" else $"void * " ++ data ++ $" = " ++ n ++ $".mutable_data();";
       $"py::ssize_t " ++ count ++ $" = " ++ n ++ $".shape()[0];"]
  | SCheckType n letter t is_const =>
      [$"char " ++ n ++ $"_type = " ++ n ++ $".dtype().char_();"; $"if (" ++ n ++ $"_type != '" ++ letter ++ $"')";
       $"throw std::runtime_error(std::string(R" ++ [dq] ++ $"msg("; $"Bad type!  Expected a numpy array of native type:";
       (if is_const then $"const " else []) ++ t ++ $" *"; $"Which is equivalent to"; letter; $"(using py::array::dtype().char_() as an id)"; $")msg" ++ [dq] ++ $"));"]
  | SCheckTypeNano k n code code8 t =>
      let k := nat_text k in
      [$"// Check the type of the ndarray (generic type and size)";
       $"//   - Step 1: check the generic type (one of dtype_code::Int, UInt, Float, Bfloat, Complex, Bool = 6);";
       $"uint8_t dtype_code_python_" ++ k ++ $" = " ++ n ++ $".dtype().code;"; $"uint8_t dtype_code_cpp_" ++ k ++ $" = " ++ code8 ++ $";";
       $"if (dtype_code_python_" ++ k ++ $" != dtype_code_cpp_" ++ k ++ $")"; $"throw std::runtime_error(std::string(R" ++ [dq] ++ $"msg(";
       $"Bad type! While checking the generic type (dtype_code=" ++ code ++ $")!"; $")msg" ++ [dq] ++ $"));";
       $"//   - Step 2: check the size of the type"; $"size_t size_python_" ++ k ++ $" = " ++ n ++ $".dtype().bits / 8;";
       $"size_t size_cpp_" ++ k ++ $" = sizeof(" ++ t ++ $");"; $"if (size_python_" ++ k ++ $" != size_cpp_" ++ k ++ $")";
       $"throw std::runtime_error(std::string(R" ++ [dq] ++ $"msg(";
       $"Bad type! Size mismatch, while checking the size of the type (for param " ++ quoted n ++ $")!"; $")msg" ++ [dq] ++ $"));"]
  | SStride stride name buffer =>
      [$"// process stride default value (which was a sizeof in C++)"; $"int " ++ stride ++ $" = " ++ name ++ $";"; $"if (" ++ stride ++ $" == -1)";
       stride ++ $" = (int)" ++ buffer ++ $".itemsize();"]
  end.

(** ** Lambdas *)

Definition parameter (p : param) : str :=
  type_text (p_type p) ++ $" " ++ p_name p ++ p_array p ++ match p_default p with [] => [] | _ => $" = " ++ p_default p end.
(** What is called, and what must be captured for it. *)
Definition called (f : func) : str :=
  match f_to_call f with
  | Some g => g
  | None => if f_is_method f then $"self." ++ f_specialized f else f_qualified f
  end.
Definition captured (f : func) : str :=
  match f_to_call f with
  | Some g => $"&" ++ g
  | None => if f_is_method f then $"&self" else []
  end.
(** The type returned, in C++. *)
Definition result_of (t : ctype) : str := match str_return_type [] true t with Some s => s | None => [] end.
Definition is_void (s : str) : bool := if list_eq_dec ascii_dec s $"void" then true else false.
Definition signature_line (f : func) (l : lambda) : str :=
  $"auto " ++ l_name l ++ $" = [" ++ captured f ++ $"](" ++ join $", " (map parameter (l_params l)) ++ $")"
  ++ (if is_void (result_of (l_return l)) then [] else $" -> " ++ result_of (l_return l)).
Definition call_of (f : func) (l : lambda) : str := called f ++ $"(" ++ join $", " (map expression (l_args l)) ++ $");".
(** The call, what comes after it, and what is returned; nothing is said of the lambdas which choose the call by type. *)
Definition end_lines (f : func) (l : lambda) : list str :=
  let void := is_void (result_of (f_return f)) in
  match l_end l with
  | Ordinary output =>
      [(if void then [] else (if f_returns_ref f then $"auto& lambda_result = " else $"auto lambda_result = ")) ++ call_of f l]
      ++ flat_map statement output ++ (if void then [] else [$"return lambda_result;"])
  | ReturnAll outs =>
      let outs := if void then outs else $"r" :: outs in
      [(if void then [] else result_of (f_return f) ++ $" r = ") ++ call_of f l;
       $"return " ++ match outs with [n] => n | _ => $"std::make_tuple(" ++ join $", " outs ++ $")" end ++ $";"]
  | ByType _ _ _ _ _ => []
  end.
Definition lambda_lines (f : func) (l : lambda) : list str :=
  [signature_line f l; $"{"] ++ flat_map statement (l_input l) ++ end_lines f l ++ [$"};"].

(** ** The texts which are written *)

Fixpoint expr_words (e : expr) : list str :=
  match e with
  | EName s | EText s | ELit s | EData s | EIndex s _ | EField s | EArrow s | EDeref s | EOptValue s | ESize s => [s]
  | ENull => []
  | EParen e | EAddr e | ECStr e => expr_words e
  | ECast t e => t :: expr_words e
  end.
Definition stmt_words (s : stmt) : list str :=
  match s with
  | SBlank => []
  | SDecl t n e => [t; n] ++ expr_words e
  | SArray t n dims _ v => [t; n; dims; v]
  | SAssign l r => expr_words l ++ expr_words r
  | SIf (CHasValue n) l r | SIf (CNotNull n) l r => n :: expr_words l ++ expr_words r
  | SVector n => [n]
  | SReserve v n | SForPush v n => [v; n]
  | SDefaultOr t n name d => [t; n; name; d]
  | SBuffer _ _ n data count => [n; data; count]
  | SCheckType n letter t _ => [n; letter; t]
  | SCheckTypeNano _ n code code8 t => [n; code; code8; t]
  | SStride a b c => [a; b; c]
  end.
Definition param_words (p : param) : list str := [type_text (p_type p); p_name p; p_array p; p_default p].
Definition lambda_words (f : func) (l : lambda) : list str :=
  [l_name l; called f; captured f; result_of (l_return l); result_of (f_return f)] ++ flat_map param_words (l_params l) ++ flat_map expr_words (l_args l)
  ++ flat_map stmt_words (l_input l) ++ match l_end l with Ordinary output => flat_map stmt_words output | ReturnAll outs => outs | ByType _ _ _ _ _ => [] end.
(** The names between braces in the templates of the lambdas. *)
Definition lambda_names : list str := map lit
  ["_i_"; "lambda_name"; "lambda_captures"; "adapted_python_parameters"; "lambda_return_arrow"; "maybe_lambda_input_code"; "lambda_template_end";
   "auto_r_equal_or_void"; "function_or_lambda_to_call"; "adapted_cpp_parameters"; "maybe_lambda_output_code"; "maybe_return_r";
   "maybe_store_function_output"; "lambda_to_call"; "params"; "output_tuple"]%string.
(** A text of one line, which holds none of them. *)
Definition writable_word (s : str) : Prop := neutral lambda_names s /\ ~ In nl s.
(** A lambda which does not choose the call by type. *)
Definition ends_here (l : lambda) : Prop := match l_end l with ByType _ _ _ _ _ => False | _ => True end.
(** Indentation. *)
Definition white (i : str) : Prop := forallb is_space i = true /\ ~ In nl i.
