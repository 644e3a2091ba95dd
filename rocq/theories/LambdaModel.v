From Verif Require Import PyStr PyDict PyNum RegionsModel TextModel FillModel TypeTextModel.
(** The lambdas written around a function whose parameters are adapted: their C++ code as a small syntax, and the text
    which stands for it in the generated file.  What the code does when it runs is in LambdaSpec.v. *)

(** ** Functions and parameters *)

(** The text of a type, src/srcmlcpp/cpp_types/decls_types/cpp_type.py 102-127 [str_code]; a type with more than two const,
    for which str_code raises, has no text here. *)
Definition type_text (t : ctype) : str := match str_code t with Some s => s | None => [] end.

(** src/srcmlcpp/cpp_types/functions/cpp_parameter.py 169-289 [CppParameter] and
    src/srcmlcpp/cpp_types/decls_types/cpp_decl.py 39-441 [CppDecl]: type, name, array code (such as [2]), default value. *)
Record param := Param { p_type : ctype; p_name : str; p_array : str; p_default : str }.

(** src/srcmlcpp/cpp_types/decls_types/cpp_decl.py 108-115 [type_name_default_for_signature], also lines 99-106. *)
Definition param_text (p : param) : str :=
  type_text (p_type p) ++ $" " ++ p_name p ++ p_array p
    ++ match p_default p with [] => [] | d => $" = " ++ d end.

(** src/srcmlcpp/cpp_types/functions/cpp_parameter.py 274-275 [has_default_value]. *)
Definition has_default (p : param) : bool := match p_default p with [] => false | _ => true end.

(** src/srcmlcpp/cpp_types/functions/cpp_parameter_list.py 62-66 [str_types_names_default_for_signature]. *)
Definition params_text (ps : list param) : str := join $", " (map param_text ps).

(** The function being adapted, src/litgen/internal/adapted_types/adapted_function.py 224-234: [f_name] and [f_params] and
    [f_return] are those of cpp_adapted_function; [f_qualified] is its qualified name with specialization; [f_returns_ref]
    tells whether the return type of the original function has a & modifier; [f_to_call] is lambda_to_call. *)
Record func := Func {
  f_name : str; f_qualified : str; f_specialized : str; f_is_method : bool; f_params : list param; f_return : ctype;
  f_returns_ref : bool; f_to_call : option str }.

(** src/srcmlcpp/cpp_types/functions/cpp_function_decl.py 300-307 [str_full_return_type], without API prefixes. *)
Definition return_text (f : func) : str :=
  match str_return_type [] true (f_return f) with Some s => s | None => [] end.
(** src/srcmlcpp/cpp_types/functions/cpp_function_decl.py 460-461 [returns_void]. *)
Definition returns_void (f : func) : bool := seqb (return_text f) $"void".

(** src/litgen/internal/adapt_function_params/apply_all_adapters.py 184-195 (and _adapt_c_buffers.py 343-353,
    adapt_modifiable_immutable_to_return.py 260-267): what is called. *)
Definition function_or_lambda_to_call (f : func) : str :=
  match f_to_call f with
  | Some l => l
  | None => if f_is_method f then $"self." ++ f_specialized f else f_qualified f
  end.

(** ** The syntax of the lambdas *)

(** Expressions.  [EText] is a text of the user copied as it is: a default value. *)
Inductive expr :=
| EName (n : str)
| EText (s : str)
| ELit (s : str)
| ENull
| EData (n : str)
| EIndex (n : str) (i : nat)
| EField (n : str)
| EArrow (n : str)
| EDeref (n : str)
| EOptValue (n : str)
| EParen (e : expr)
| EAddr (e : expr)
| ECStr (e : expr)
| ESize (n : str)
| ECast (t : str) (e : expr).

Inductive cond := CHasValue (n : str) | CNotNull (n : str).

(** Statements.  The last ones are those of the buffers: see BufferModel.v. *)
Inductive stmt :=
| SBlank
| SDecl (t n : str) (e : expr)
| SArray (t n code : str) (size : nat) (init : str)
| SAssign (l r : expr)
| SIf (c : cond) (l r : expr)
| SVector (n : str)
| SReserve (v n : str)
| SForPush (v n : str)
| SDefaultOr (t n name text : str)
| SBuffer (nanobind is_const : bool) (n data count : str)
| SCheckType (n char raw : str) (is_const : bool)
| SCheckTypeNano (idx : nat) (n code code8 raw : str)
| SStride (stride_name param_name buffer : str).

Definition nat_text (n : nat) : str := py_str (Z.of_nat n).

Fixpoint expr_text (e : expr) : str :=
  match e with
  | EName n => n
  | EText s => s
  | ELit s => dq :: s ++ [dq]
  | ENull => $"nullptr"
  | EData n => n ++ $".data()"
  | EIndex n i => n ++ $"[" ++ nat_text i ++ $"]"
  | EField n => n ++ $".value"
  | EArrow n => n ++ $"->value"
  | EDeref n => $"*" ++ n
  | EOptValue n => n ++ $".value()"
  | EParen e => $"(" ++ expr_text e ++ $")"
  | EAddr e => $"& " ++ expr_text e
  | ECStr e => expr_text e ++ $".c_str()"
  | ESize n => n ++ $".size()"
  | ECast t e => $"static_cast<" ++ t ++ $">(" ++ expr_text e ++ $")"
  end.

Definition cond_text (c : cond) : str :=
  match c with CHasValue n => n ++ $".has_value()" | CNotNull n => n ++ $" != nullptr" end.

(** The text of a statement, with its final line ends; [i] is _indent_cpp_spaces(). *)
Definition stmt_lines (i : str) (s : stmt) : list str :=
  match s with
  | SBlank => [[]]
  | SDecl t n e => [t ++ $" " ++ n ++ $" = " ++ expr_text e ++ $";"]
  | SArray t n code _ init =>
      [t ++ $" " ++ n ++ code ++ (match init with [] => [] | d => $" = " ++ d end) ++ $";"]
  | SAssign l r => [expr_text l ++ $" = " ++ expr_text r ++ $";"]
  | SIf c l r => [$"if (" ++ cond_text c ++ $")"; i ++ expr_text l ++ $" = " ++ expr_text r ++ $";"]
  | SVector n => [$"std::vector<const char *> " ++ n ++ $";"]
  | SReserve v n => [v ++ $".reserve(" ++ n ++ $".size());"]
  | SForPush v n => [$"for (const auto& v: " ++ n ++ $")"; i ++ v ++ $".push_back(v.c_str());"]
  | SDefaultOr t n name text =>
      [[]; t ++ $"& " ++ n ++ $" = [&]() -> " ++ t ++ $" {"; i ++ $"if (" ++ name ++ $".has_value())";
       i ++ i ++ $"return " ++ name ++ $".value();"; i ++ $"else"; i ++ i ++ $"return " ++ text ++ $";"; $"}();"]
  | SBuffer nanobind is_const n data count =>
      let const := if is_const then $"const " else [] in
      let how := if is_const then $"const" else $"mutable" in
      if nanobind then
        [$"// Check if the array is 1D and C-contiguous";
         $"if (! (" ++ n ++ $".ndim() == 1 && " ++ n ++ $".stride(0) == 1))";
         $"    throw std::runtime_error(" ++ [dq] ++ $"The array must be 1D and contiguous" ++ [dq] ++ $");";
         [];
         $"// convert nb::ndarray to C standard buffer (" ++ how ++ $")";
         const ++ $"void * " ++ data ++ $" = " ++ n ++ $".data();";
         $"size_t " ++ count ++ $" = " ++ n ++ $".shape(0);"]
      else
        [$"// Check if the array is 1D and C-contiguous";
         $"if (! (" ++ n ++ $".ndim() == 1 && " ++ n ++ $".strides(0) == " ++ n ++ $".itemsize()) )";
         $"    throw std::runtime_error(" ++ [dq] ++ $"The array must be 1D and contiguous" ++ [dq] ++ $");";
         [];
         $"// convert py::array to C standard buffer (" ++ how ++ $")";
         const ++ $"void * " ++ data ++ $" = " ++ n ++ $"." ++ (if is_const then [] else $"mutable_") ++ $"data();";
         $"py::ssize_t " ++ count ++ $" = " ++ n ++ $".shape()[0];"]
  | SCheckType n char raw is_const =>
      [$"char " ++ n ++ $"_type = " ++ n ++ $".dtype().char_();";
       $"if (" ++ n ++ $"_type != '" ++ char ++ $"')";
       $"    throw std::runtime_error(std::string(R" ++ [dq] ++ $"msg(";
       $"            Bad type!  Expected a numpy array of native type:";
       $"                        " ++ (if is_const then $"const " else []) ++ raw ++ $" *";
       $"                    Which is equivalent to";
       $"                        " ++ char;
       $"                    (using py::array::dtype().char_() as an id)";
       $"        )msg" ++ [dq] ++ $"));"]
  | SCheckTypeNano idx n code code8 raw =>
      let k := nat_text idx in
      [$"// Check the type of the ndarray (generic type and size)";
       $"//   - Step 1: check the generic type (one of dtype_code::Int, UInt, Float, Bfloat, Complex, Bool = 6);";
       $"uint8_t dtype_code_python_" ++ k ++ $" = " ++ n ++ $".dtype().code;";
       $"uint8_t dtype_code_cpp_" ++ k ++ $" = " ++ code8 ++ $";";
       $"if (dtype_code_python_" ++ k ++ $" != dtype_code_cpp_" ++ k ++ $")";
       $"    throw std::runtime_error(std::string(R" ++ [dq] ++ $"msg(";
       $"            Bad type! While checking the generic type (dtype_code=" ++ code ++ $")!";
       $"        )msg" ++ [dq] ++ $"));";
       $"//   - Step 2: check the size of the type";
       $"size_t size_python_" ++ k ++ $" = " ++ n ++ $".dtype().bits / 8;";
       $"size_t size_cpp_" ++ k ++ $" = sizeof(" ++ raw ++ $");";
       $"if (size_python_" ++ k ++ $" != size_cpp_" ++ k ++ $")";
       $"    throw std::runtime_error(std::string(R" ++ [dq] ++ $"msg(";
       $"            Bad type! Size mismatch, while checking the size of the type (for param " ++ [dq] ++ n ++ [dq] ++ $")!";
       $"        )msg" ++ [dq] ++ $"));"]
  | SStride stride name buffer =>
      [$"// process stride default value (which was a sizeof in C++)";
       $"int " ++ stride ++ $" = " ++ name ++ $";";
       $"if (" ++ stride ++ $" == -1)";
       $"    " ++ stride ++ $" = (int)" ++ buffer ++ $".itemsize();"]
  end.
Definition stmts_text (i : str) (ss : list stmt) : str :=
  concat (map (fun l => l ++ [nl]) (flat_map (stmt_lines i) ss)).

(** ** Lambdas *)

(** How a lambda ends: the ordinary way, with statements executed after the call; by returning the parameters [outs]; or
    by choosing the call according to the type of the items of the buffer [buffer] (text only: BufferModel.v). *)
Inductive ending :=
| Ordinary (output : list stmt)
| ReturnAll (outs : list str)
| ByType (nanobind : bool) (buffer : str) (others : list str) (calls : list (str * list expr)) (text : str).

(** src/litgen/internal/adapt_function_params/_lambda_adapter.py 7-21 [LambdaAdapter]. *)
Record lambda := Lambda {
  l_name : str; l_params : list param; l_return : ctype; l_input : list stmt; l_args : list expr; l_end : ending }.

Section Text.
Variable i : str.

(** src/litgen/internal/adapt_function_params/apply_all_adapters.py 151-223 [_make_adapted_lambda_code_end]. *)
Definition call_template : str := unlines
  [$"{auto_r_equal_or_void}{function_or_lambda_to_call}({adapted_cpp_parameters});"; $"{maybe_lambda_output_code}";
   $"{maybe_return_r};"].
Definition auto_text (f : func) : str :=
  if returns_void f then []
  else (if f_returns_ref f then $"auto&" else $"auto") ++ $" lambda_result = ".
Definition ordinary_end_text (f : func) (args : list expr) (output : list stmt) : str :=
  let code := replace_in_string_remove_line_if_none call_template
    [($"maybe_return_r", if returns_void f then None else Some $"return lambda_result");
     ($"maybe_lambda_output_code",
        match stmts_text i output with [] => None | o => Some (nl :: strip_empty_lines o) end)] in
  replace_in_string code
    [($"_i_", i); ($"auto_r_equal_or_void", auto_text f);
     ($"function_or_lambda_to_call", function_or_lambda_to_call f);
     ($"adapted_cpp_parameters", join $", " (map expr_text args))].

(** src/litgen/internal/adapt_function_params/adapt_modifiable_immutable_to_return.py 196-227 [new_return_type_and_names],
    the name part, and 236-273 [fill_lambda_template_end]. *)
Definition output_tuple (f : func) (outs : list str) : str :=
  match (if returns_void f then [] else [$"r"]) ++ outs with
  | [n] => n
  | ns => $"std::make_tuple(" ++ join $", " ns ++ $")"
  end.
Definition return_end_text (f : func) (args : list expr) (outs : list str) : str :=
  replace_in_string (unlines [$"{maybe_store_function_output}{lambda_to_call}({params});"; $"return {output_tuple};"])
    [($"maybe_store_function_output", if returns_void f then [] else return_text f ++ $" r = ");
     ($"lambda_to_call", function_or_lambda_to_call f); ($"params", join $", " (map expr_text args));
     ($"output_tuple", output_tuple f outs)].

Definition end_text (f : func) (l : lambda) : str :=
  match l_end l with
  | Ordinary output => ordinary_end_text f (l_args l) output
  | ReturnAll outs => return_end_text f (l_args l) outs
  | ByType _ _ _ _ text => text
  end.

(** src/litgen/internal/adapt_function_params/apply_all_adapters.py 244-250: what the lambda captures. *)
Definition captures (f : func) : list str :=
  match f_to_call f with
  | Some l => [l]
  | None => if f_is_method f then [$"self"] else []
  end.

(** src/litgen/internal/adapt_function_params/apply_all_adapters.py 226-303 [_make_adapted_lambda_code]: [f] is the function
    as it was before this adapter. *)
Definition lambda_template : str := unlines
  [$"auto {lambda_name} = [{lambda_captures}]({adapted_python_parameters}){lambda_return_arrow}"; $"{";
   $"{_i_}{maybe_lambda_input_code}"; $"{_i_}{lambda_template_end}"; $"};"; []].
Definition lambda_return_text (l : lambda) : str :=
  match str_return_type [] true (l_return l) with Some s => s | None => [] end.
Definition lambda_text (f : func) (l : lambda) : str :=
  let code := replace_in_string_remove_line_if_none lambda_template
    [($"maybe_lambda_input_code",
        match stmts_text i (l_input l) with
        | [] => None
        | t => Some (indent_code t 1 true (Some i) true)
        end)] in
  replace_in_string code
    [($"_i_", i); ($"lambda_name", l_name l); ($"lambda_captures", join $", " (map (fun c => "&"%char :: c) (captures f)));
     ($"lambda_return_arrow",
        if seqb (lambda_return_text l) $"void" then [] else $" -> " ++ lambda_return_text l);
     ($"adapted_python_parameters", params_text (l_params l));
     ($"lambda_template_end", indent_code (end_text f l) 1 true (Some i) true)].
End Text.

(** src/litgen/internal/adapt_function_params/apply_all_adapters.py 306-318 [_apply_lambda_adapter]: the function seen by the
    next adapter. *)
Definition apply_lambda_adapter (f : func) (l : lambda) : func :=
  Func (f_name f) (f_qualified f) (f_specialized f) (f_is_method f) (l_params l) (l_return l) (f_returns_ref f)
    (Some (l_name l)).
