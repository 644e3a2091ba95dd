(** Which elements are published, and Python names of operators. *)
From Verif Require Import PyStr PyDict TextModel.

(** *** Rules *)

(** A rule of the options: a regular expression or a function. *)
Inductive rule := Regex (r : str) | Matcher (f : str -> bool).

(** A type: its specifiers and its text, src/srcmlcpp/cpp_types/decls_types/cpp_type.py [str_code]. *)
Record ctype := Type_ { ty_specifiers : list str; ty_code : str }.
(** A function; [f_return] is [None] for constructors and destructors. *)
Record func := Func {
  f_name : str; f_is_method : bool; f_specifiers : list str; f_return : option ctype; f_params : list ctype }.
(** The options used here. *)
Record options := Options {
  fn_exclude_by_name : rule; fn_exclude_by_param_type : rule; fn_exclude_by_name_and_signature : list (str * str);
  functions_api_prefixes : str; fn_exclude_non_api : bool; fn_non_api_comment : str;
  class_exclude_by_name : rule; enum_exclude_by_name : rule; namespace_exclude : rule;
  macro_define_include_by_name : rule; globals_vars_include_by_name : rule }.

Section Publish.
(** [re.compile(pattern, flags=re.MULTILINE).search(word) is not None]. *)
Variable search : str -> str -> bool.
(** [options.class_template_options.shall_exclude_type], see TemplateModel. *)
Variable excluded_template : ctype -> bool.
Variable o : options.

(** src/codemanip/code_utils.py 724-728 [_compile_regex] and 731-751 [does_match_regex]. *)
Definition does_match_regex (regex word : str) : bool :=
  match regex with
  | [] => false
  | _ => search (if startswith $"|" regex then skipn 1 regex else regex) word
  end.
(** src/codemanip/code_utils.py 754-760 [does_match_regex_or_matcher]. *)
Definition does_match (r : rule) (word : str) : bool :=
  match r with Regex s => does_match_regex s word | Matcher f => f word end.

(** src/codemanip/code_utils.py 803-806 [split_string_by_pipe_char], and src/srcmlcpp/srcmlcpp_options.py
    113-115 [functions_api_prefixes_list]. *)
Definition split_string_by_pipe_char (s : str) : list str :=
  filter (fun x => match x with [] => false | _ => true end) (split_on "|" s).
Definition functions_api_prefixes_list : list str := split_string_by_pipe_char (functions_api_prefixes o).

(** src/litgen/internal/adapted_types/adapted_function.py 351-356 [has_one_ok_prefix]. *)
Definition has_one_ok_prefix (t : ctype) : bool :=
  existsb (fun p => smem p (ty_specifiers t)) functions_api_prefixes_list.

(** src/litgen/internal/adapted_types/adapted_function.py 302-371 [init_is_function_publishable];
    src/srcmlcpp/cpp_types/functions/cpp_function_decl.py 399-403 [is_destructor]; [None]: AssertionError. *)
Definition is_function_publishable (f : func) (even_if : bool) : option bool :=
  if startswith $"~" (f_name f) && negb (f_is_method f) then None
  else Some
    (if startswith $"~" (f_name f) then false
     else if smem $"delete" (f_specifiers f) then false
     else if contains $"::" (f_name f) then false
     else if existsb excluded_template (f_params f) then false
     else if match f_return f with Some t => excluded_template t | None => false end then false
     else if does_match (fn_exclude_by_name o) (f_name f) then false
     else if match f_return f with Some t => does_match (fn_exclude_by_param_type o) (ty_code t) | None => false end then false
     else if existsb (fun t => does_match (fn_exclude_by_param_type o) (ty_code t)) (f_params f) then false
     else if
       match dict_get (f_name f) (fn_exclude_by_name_and_signature o) with
       | Some (c :: target) => seqb (c :: target) (join $", " (map ty_code (f_params f)))
       | _ => false
       end then false
     else
       match f_return f with
       | None => true
       | Some t =>
           let has_prefix_options := negb (Nat.eqb (length functions_api_prefixes_list) 0) in
           let really_check := if negb (fn_exclude_non_api o) && negb even_if then false else has_prefix_options in
           if really_check then has_one_ok_prefix t else true
       end).

(** src/litgen/internal/adapted_types/adapted_function.py 283-299 [init_add_warning_if_non_published_api]: the
    comment above the function. *)
Definition comment_if_non_published_api (f : func) (comment : str) : str :=
  let has_api_prefixes := negb (Nat.eqb (length functions_api_prefixes_list) 0) in
  if negb (fn_exclude_non_api o) && has_api_prefixes then
    match is_function_publishable f true, fn_non_api_comment o with
    | Some false, _ :: _ =>
        match comment with
        | [] => fn_non_api_comment o
        | _ => comment ++ nl :: fn_non_api_comment o
        end
    | _, _ => comment
    end
  else comment.

(** *** Blocks *)

(** The children of a block; a declaration statement has a list of names. *)
Inductive child :=
| CEmptyLine | CComment (text : str) | CConditionMacro (code : str)
| CStruct (name : str) | CFunction (f : func) | CDefine (name : str) (publishable : bool) | CEnum (name : str)
| CNamespace (name : str) (has_block : bool) | CDecls (names : list str) | COther.
(** What a block adapts: a child, or one declaration. *)
Inductive adapted := AChild (c : child) | ADecl (name : str).
(** Whether the constructor of the adapted element returns; if not, it raises a SrcmlcppException. *)
Variable succeeds : adapted -> bool.

(** The end of a step of the loop: no exception, SrcmlcppException, AssertionError. *)
Inductive step := Continue (l : list adapted) | Warned (l : list adapted) | Failed.
Definition append (a : adapted) : step := if succeeds a then Continue [a] else Warned [].
Fixpoint append_decls (names : list str) : step :=
  match names with
  | [] => Continue []
  | n :: names' =>
      if does_match (globals_vars_include_by_name o) n then
        if succeeds (ADecl n) then
          match append_decls names' with
          | Continue l => Continue (ADecl n :: l)
          | Warned l => Warned (ADecl n :: l)
          | Failed => Failed
          end
        else Warned []
      else append_decls names'
  end.
(** src/litgen/internal/adapted_types/adapted_block.py 115-168: one child. *)
Definition adapt_child (c : child) : step :=
  match c with
  | CEmptyLine | CComment _ | CConditionMacro _ => append (AChild c)
  | CStruct name => if negb (does_match (class_exclude_by_name o) name) then append (AChild c) else Continue []
  | CFunction f =>
      match is_function_publishable f false with
      | None => Failed
      | Some true => append (AChild c)
      | Some false => Continue []
      end
  | CDefine name publishable =>
      if does_match (macro_define_include_by_name o) name && publishable then append (AChild c) else Continue []
  | CEnum name => if negb (does_match (enum_exclude_by_name o) name) then append (AChild c) else Continue []
  | CNamespace name has_block =>
      if has_block && negb (does_match (namespace_exclude o) name) && negb (seqb name []) then append (AChild c)
      else Continue []
  | CDecls names => append_decls names
  | COther => Continue []
  end.
(** src/litgen/internal/adapted_types/adapted_block.py 112-166 [_fill_adapted_elements]: the elements and the
    children that gave a warning; [None]: AssertionError. *)
Fixpoint fill_adapted_elements (cs : list child) : option (list adapted * list child) :=
  match cs with
  | [] => Some ([], [])
  | c :: cs' =>
      match adapt_child c with
      | Failed => None
      | Continue l =>
          match fill_adapted_elements cs' with Some (r, w) => Some (l ++ r, w) | None => None end
      | Warned l =>
          match fill_adapted_elements cs' with Some (r, w) => Some (l ++ r, c :: w) | None => None end
      end
  end.
End Publish.

(** *** Operators (src/litgen/internal/adapted_types/operators.py) *)

Inductive op_result := PyName (s : str) | Unsupported | NotAnOperator.

(** src/srcmlcpp/cpp_types/functions/cpp_function_decl.py 440-441 [is_operator] and
    443-446 [operator_name]. *)
Definition is_operator (name : str) : bool := startswith $"operator" name.
Definition operator_name (name : str) : str := strip (skipn (length $"operator") name).

(** src/litgen/internal/adapted_types/operators.py 17-26 [_cpp_operator_unsupported_message]. *)
Definition known_unsupported : list str := [$"++"; $"--"; $"="].
(** src/litgen/internal/adapted_types/operators.py 29-53 [_cpp_to_python_operator_one_param]. *)
Definition one_param : list (str * str) :=
  [($"+", $"__add__"); ($"-", $"__sub__"); ($"*", $"__mul__"); ($"/", $"__truediv__"); ($"%", $"__mod__");
   ($"[]", $"__getitem__"); ($"<", $"__lt__"); ($"<=", $"__le__"); ($"==", $"__eq__"); ($"!=", $"__ne__");
   ($">", $"__gt__"); ($">=", $"__ge__"); ($"+=", $"__iadd__"); ($"-=", $"__isub__"); ($"*=", $"__imul__");
   ($"/=", $"__itruediv__"); ($"%=", $"__imod__"); ($"<=>", $"<=>")].
(** src/litgen/internal/adapted_types/operators.py 56-65 [_cpp_to_python_operator_zero_param]. *)
Definition zero_param : list (str * str) := [($"-", $"__neg__"); ($"+", $"__pos__"); ($"bool", $"__bool__")].

(** src/litgen/internal/adapted_types/operators.py 68-91 [raise_if_unsupported_operator]: whether it returns. *)
Definition supported_operator (f : func) : bool :=
  if negb (is_operator (f_name f)) then true
  else if negb (f_is_method f) then false
  else
    let name := operator_name (f_name f) in
    if smem name known_unsupported then false
    else if seqb name $"()" then true
    else
      match length (f_params f) with
      | 0 => dict_has name zero_param
      | 1 => dict_has name one_param
      | _ => false
      end.
(** src/litgen/internal/adapted_types/operators.py 94-113 [cpp_to_python_operator_name]. *)
Definition cpp_to_python_operator_name (f : func) : op_result :=
  if negb (is_operator (f_name f) && f_is_method f) then NotAnOperator
  else if negb (supported_operator f) then Unsupported
  else
    let name := operator_name (f_name f) in
    if seqb name $"()" then PyName $"__call__"
    else
      match length (f_params f) with
      | 0 => match dict_get name zero_param with Some r => PyName r | None => NotAnOperator end
      | 1 => match dict_get name one_param with Some r => PyName r | None => NotAnOperator end
      | _ => NotAnOperator
      end.

(** src/litgen/internal/adapted_types/operators.py 130-143 [make_cmp]: the new function and the code of its
    lambda. *)
Definition make_cmp (f : func) (cpp_operator_name test_to_run : str) : func * str :=
  (Func ($"operator" ++ cpp_operator_name) (f_is_method f) (f_specifiers f) (f_return f) (f_params f),
   unindent_code (nl :: $"        auto cmp = [&self](auto&& other) -> bool {" ++ nl ::
     $"            return self.operator<=>(other) " ++ test_to_run ++ $";" ++ nl :: $"        };" ++ nl :: $"        ") true).
(** src/litgen/internal/adapted_types/operators.py 125-151 [cpp_split_spaceship_operator]. *)
Definition split_spaceship_operator (f : func) : list (func * str) :=
  [make_cmp f $"<" $" < 0"; make_cmp f $"<=" $" <= 0"; make_cmp f $"==" $" == 0"; make_cmp f $">=" $" >= 0";
   make_cmp f $">" $" > 0"].
(** src/litgen/internal/adapted_types/operators.py 116-122 [is_spaceship_operator]. *)
Definition is_spaceship_operator (f : func) : bool :=
  is_operator (f_name f) && f_is_method f && seqb (operator_name (f_name f)) $"<=>".
(** The Python methods of an operator, src/litgen/internal/adapted_types/adapted_function.py 440-447 and
    1023-1028; each with the code of its lambda, if any. *)
Definition python_methods (f : func) : list (op_result * option str) :=
  if is_spaceship_operator f then
    map (fun p => (cpp_to_python_operator_name (fst p), Some (snd p))) (split_spaceship_operator f)
  else [(cpp_to_python_operator_name f, None)].
