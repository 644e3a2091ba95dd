(** Replacement rules, translation of type texts, template options. *)
From Verif Require Import PyStr.

(** *** Replacement rules (src/codemanip/code_replacements.py) *)

Section Replacements.
(** [re.compile(what).subn(by, s)]: the regex engine is external. *)
Variable sub : str -> str -> str -> str.

Record rule := Rule { replace_what : str; by_what : str }.

(** src/codemanip/code_replacements.py 14-16 [RegexReplacement.apply]. *)
Definition apply_rule (r : rule) (s : str) : str := sub (replace_what r) (by_what r) s.

(** One turn of the loop of src/codemanip/code_replacements.py 55-65 [RegexReplacementList.apply]. *)
Fixpoint apply_once (rs : list rule) (s : str) : str :=
  match rs with
  | [] => s
  | r :: rs' => apply_once rs' (apply_rule r s)
  end.
(** src/codemanip/code_replacements.py 55-65 [RegexReplacementList.apply]: [left] is
    [max_iterations - iteration]. *)
Fixpoint apply_passes (rs : list rule) (left : nat) (previous : option str) (r : str) : str :=
  match left with
  | 0 => r
  | S left' =>
      if match previous with Some p => seqb p r | None => false end then r
      else apply_passes rs left' (Some r) (apply_once rs r)
  end.
Definition apply_rules (rs : list rule) (s : str) : str := apply_passes rs 3 None s.
End Replacements.

(** src/codemanip/code_replacements.py 22-35 [RegexReplacement.from_string]; [None]: [items[1]] raises
    IndexError. *)
Definition rule_from_string (line : str) : option rule :=
  match split $" -> " line with
  | what :: target :: _ =>
      let target := strip target in
      Some (Rule (strip what) (if seqb target $"REMOVE" then [] else target))
  | _ => None
  end.
(** src/codemanip/code_replacements.py 45-53 [RegexReplacementList.from_string]. *)
Fixpoint rules_of_lines (l : list str) : option (list rule) :=
  match l with
  | [] => Some []
  | x :: l' =>
      match rule_from_string x, rules_of_lines l' with
      | Some r, Some rs => Some (r :: rs)
      | _, _ => None
      end
  end.
Definition rules_from_string (text : str) : option (list rule) :=
  rules_of_lines (filter (fun s => negb (seqb s [])) (map strip (lines text))).

(** *** Translation of type texts *)

(** The loop of src/litgen/internal/cpp_to_python.py 49-84 [_split_cpp_type_template_args], after the first
    opening bracket: the text up to the bracket that closes it, and the text after. *)
Fixpoint find_close (depth : nat) (s : str) : option (str * str) :=
  match s with
  | [] => None
  | c :: s' =>
      if ceqb c "<" then
        match find_close (S depth) s' with Some (i, a) => Some (c :: i, a) | None => None end
      else if ceqb c ">" then
        match depth with
        | S (S _ as d) => match find_close d s' with Some (i, a) => Some (c :: i, a) | None => None end
        | _ => Some ([], s')
        end
      else match find_close depth s' with Some (i, a) => Some (c :: i, a) | None => None end
  end.
(** src/litgen/internal/cpp_to_python.py 49-84 [_split_cpp_type_template_args]. *)
Definition split_cpp_type_template_args (s : str) : list str :=
  let before := takewhile (fun c => negb (ceqb c "<")) s in
  match dropwhile (fun c => negb (ceqb c "<")) s with
  | [] => [s]
  | _ :: rest =>
      match find_close 1 rest with
      | None => [s]
      | Some (inside, after) => [before; inside; after]
      end
  end.

(** [re.sub(r"\s+", " ", s)]. *)
Fixpoint collapse (s : str) : str :=
  match s with
  | [] => []
  | c :: s' =>
      if is_space c then
        match s' with
        | d :: _ => if is_space d then collapse s' else sp :: collapse s'
        | [] => [sp]
        end
      else c :: collapse s'
  end.
(** src/litgen/internal/cpp_to_python.py 171-174 [normalize_whitespace], also inlined at 112-113. *)
Definition normalize_whitespace (s : str) : str := strip (collapse s).

Inductive result := Ok (s : str) | IndexError | OutOfFuel.

(** src/litgen/internal/cpp_to_python.py 88-120 [_perform_cpp_type_replacements_recursively]; [tr] is
    [type_replacements.apply]. The statements at 115-118 change a local variable that is not used again.
    Python's limit on the depth of recursion is not modelled. *)
Fixpoint perform (tr : str -> str) (fuel : nat) (s : str) : result :=
  match fuel with
  | 0 => OutOfFuel
  | S fuel' =>
      if negb (contains $"<" s) then Ok (tr s)
      else
        match split_cpp_type_template_args s with
        | [b; i; a] =>
            match perform tr fuel' (strip i) with
            | Ok inside =>
                let r := tr (tr (strip b) ++ $"<" ++ inside ++ $">" ++ tr (strip a)) in
                Ok (normalize_whitespace (replace $">" $"]" (replace $"<" $"[" r)))
            | e => e
            end
        | _ => IndexError
        end
  end.
Definition perform_replacements (tr : str -> str) (s : str) : result := perform tr (S (length s)) s.

(** [s.split()]. *)
Fixpoint words (s : str) : list str :=
  match s with
  | [] => []
  | c :: s' =>
      if is_space c then words s'
      else
        match s' with
        | [] => [[c]]
        | d :: _ =>
            if is_space d then [c] :: words s'
            else match words s' with w :: ws => (c :: w) :: ws | [] => [[c]] end
        end
  end.
(** [re.match(r"^[a-zA-Z_]\w*$", s)] for a text without spaces. *)
Definition is_identifier (s : str) : bool :=
  match s with
  | c :: s' => is_word c && negb (is_digit c) && forallb is_word s'
  | [] => false
  end.
(** src/litgen/internal/cpp_to_python.py 136-145 [_strip_one_param]. *)
Definition strip_one_param (param : str) : str :=
  let param := strip param in
  let tokens := words param in
  if (2 <=? length tokens) && is_identifier (last tokens []) then join $" " (removelast tokens) else param.
(** src/litgen/internal/cpp_to_python.py 123-152 [_strip_callable_param_names]: the [re.sub] as a scan,
    [skip] characters of a match remain to be dropped. *)
Definition callable_params (params : str) : str :=
  $"Callable[[" ++ join $", " (map strip_one_param (split_on "," params)) ++ $"]".
Fixpoint strip_callable_aux (s : str) (skip : nat) : str :=
  match s with
  | [] => []
  | c :: s' =>
      match skip with
      | S k => strip_callable_aux s' k
      | 0 =>
          let rest := skipn 10 s in
          let params := takewhile (fun c => negb (ceqb c "]")) rest in
          if startswith $"Callable[[" s && contains $"]" rest
          then callable_params params ++ strip_callable_aux s' (10 + length params)
          else c :: strip_callable_aux s' 0
      end
  end.
Definition strip_callable_param_names (s : str) : str := strip_callable_aux s 0.

(** src/litgen/internal/cpp_to_python.py 182-188: the loops over the namespaces. [known] lists the C++
    names of the namespaces of the stub with their Python names, [roots] is [options.namespaces_root]. *)
Fixpoint translate_namespaces (known : list (str * str)) (r : str) : str :=
  match known with
  | [] => r
  | (cpp, py) :: known' =>
      translate_namespaces known' (if seqb py cpp then r else replace (cpp ++ $".") (py ++ $".") r)
  end.
Fixpoint drop_roots (roots : list str) (r : str) : str :=
  match roots with
  | [] => r
  | n :: roots' => drop_roots roots' (replace (n ++ $".") [] r)
  end.
(** src/litgen/internal/cpp_to_python.py 155-195 [type_to_python]; [specialized] is the answer of
    [specialized_type_python_name_str]. *)
Definition type_to_python (tr : str -> str) (specialized : option str) (known : list (str * str))
    (roots : list str) (cpp_type_str : str) : result :=
  let r := match specialized with Some n => n | None => cpp_type_str end in
  let r := replace $"constexpr " [] (replace $"static " [] r) in
  match perform_replacements tr r with
  | Ok r =>
      let r := normalize_whitespace (replace $"::" $"." r) in
      let r := replace $"Optional[ " $"Optional[" r in
      Ok (strip_callable_param_names (drop_roots roots (translate_namespaces known r)))
  | e => e
  end.

(** *** Names of template instantiations *)

(** src/litgen/internal/template_options.py 18-31 [_apply_template_naming]. *)
Definition apply_template_naming (name type_str : str) : str :=
  name ++ $"_" ++
  replace $" " $"_"
    (replace $"*" $"_ptr"
      (replace $" *" $"_ptr"
        (replace $"&" $"_ref"
          (replace $" &" $"_ref"
            (replace $"&&" $"_uref" (replace $" &&" $"_uref" (replace $"::" $"_" (replace $"std::" [] type_str)))))))).

(** *** Template options *)

Section Options.
(** [code_to_cpp_type(options, text).str_code()], [None] when it raises SrcmlcppException. *)
Variable parse_type : str -> option str.

(** The joined [typenames] of a [CppType].
    src/srcmlcpp/cpp_types/decls_types/cpp_type.py 151-154 [CppType.is_template]. *)
Definition is_template (t : str) : bool := contains $"<" t && contains $">" t.
(** src/srcmlcpp/cpp_types/decls_types/cpp_type.py 161-166 [CppType.template_name], for a template. *)
Definition template_name (t : str) : str := takewhile (fun c => negb (ceqb c "<")) t.
(** src/srcmlcpp/cpp_types/decls_types/cpp_type.py 168-195 [CppType.template_instantiated_unique_type]: its
    [str_code()]. *)
Definition unique_type (t : str) : option str :=
  if is_template t then
    let start := length (template_name t) in
    let stop := length t - 1 - length (takewhile (fun c => negb (ceqb c ">")) (rev t)) in
    parse_type (firstn (stop - (start + 1)) (skipn (start + 1) t))
  else None.

(** src/litgen/internal/template_options.py 52-57 [_TemplateSpecializationSpec]; the name regex is a matcher,
    the handled types are given by their [str_code()]. *)
Record spec := Spec {
  name_matches : str -> bool;
  handled_types : list str;
  add_suffix : bool;
  synonyms : list (str * str)
}.

(** src/litgen/internal/template_options.py 40-49 [_make_cpp_type_synonym_list]; [None]: the assertion
    fails. *)
Fixpoint make_synonyms (l : list str) : option (list (str * str)) :=
  match l with
  | [] => Some []
  | x :: l' =>
      match split_on "=" x, make_synonyms l' with
      | [a; b], Some r => Some ((a, b) :: r)
      | _, _ => None
      end
  end.

(** src/litgen/internal/template_options.py 63-69 [handles_type_instantiation],
    71-77 [handles_type_synonym]. *)
Definition handles_type (s : spec) (a : str) : bool := smem a (handled_types s).
Definition handles_synonym (s : spec) (a : str) : bool := smem a (map fst (synonyms s)).

(** src/litgen/internal/template_options.py 79-101 [shall_synonymize_type], [shall_specialize_type]. *)
Definition spec_synonymize (s : spec) (t : str) : bool :=
  is_template t && name_matches s (template_name t) &&
  match unique_type t with Some a => handles_synonym s a | None => false end.
Definition spec_specialize (s : spec) (t : str) : bool :=
  is_template t && name_matches s (template_name t) &&
  match unique_type t with Some a => handles_type s a | None => false end.
(** src/litgen/internal/template_options.py 103-123 [shall_exclude_type]. *)
Definition spec_exclude (s : spec) (t : str) : bool :=
  is_template t && name_matches s (template_name t) &&
  match unique_type t with
  | Some a => negb (handles_type s a) && negb (handles_synonym s a)
  | None => true
  end.
(** src/litgen/internal/template_options.py 125-135 [specialized_type_python_name]. *)
Definition spec_python_name (tr : str -> str) (s : spec) (t : str) : option str :=
  if negb (spec_specialize s t) && negb (spec_synonymize s t) then None
  else
    match unique_type t with
    | Some a => Some (tr (apply_template_naming (template_name t) a))
    | None => None
    end.

(** src/litgen/internal/template_options.py 138-185 [TemplateSpecList]. *)
Definition shall_specialize_type (specs : list spec) (t : str) : bool :=
  is_template t && existsb (fun s => spec_specialize s t) specs.
Definition shall_synonymize_type (specs : list spec) (t : str) : bool :=
  is_template t && existsb (fun s => spec_synonymize s t) specs.
Definition shall_exclude_type (specs : list spec) (t : str) : bool :=
  is_template t && existsb (fun s => spec_exclude s t) specs.
(** src/litgen/internal/template_options.py 159-161 [add_ignore]. *)
Definition ignore_spec (m : str -> bool) : spec := Spec m [] false [].

(** src/litgen/internal/template_options.py 320-326 [TemplateClassOptions.specialized_type_python_name]. *)
Definition specialized_type_python_name (tr : str -> str) (specs : list spec) (t : str) : option str :=
  if negb (shall_specialize_type specs t) && negb (shall_synonymize_type specs t) then None
  else
    match find (fun s => spec_specialize s t || spec_synonymize s t) specs with
    | Some s => spec_python_name tr s t
    | None => None
    end.
(** src/litgen/internal/template_options.py 308-318
    [TemplateClassOptions.specialized_type_python_name_str]; [typenames_of] gives the joined typenames of the
    parsed text. *)
Definition specialized_type_python_name_str (typenames_of : str -> option str) (tr : str -> str)
    (specs : list spec) (text : str) : option str :=
  if negb (contains $"<" text) then None
  else match typenames_of text with
       | Some t => specialized_type_python_name tr specs t
       | None => None
       end.
(** src/litgen/internal/template_options.py 280-306
    [TemplateClassOptions.specialized_type_python_default_value]. *)
Definition specialized_type_python_default_value (typenames_of : str -> option str) (tr : str -> str)
    (specs : list spec) (v : str) : option str :=
  let has_paren := contains $"(" v && contains $")" v in
  let has_accolades := contains $"{" v && contains $"}" v in
  if negb (contains $"<" v) then None
  else if negb has_paren && negb has_accolades then None
  else
    let stop c := negb (ceqb c (if has_accolades then "{" else "(")) in
    let params := dropwhile stop v in
    let params := if has_accolades then replace $"}" $")" (replace $"{" $"(" params) else params in
    match specialized_type_python_name_str typenames_of tr specs (takewhile stop v) with
    | Some n => Some (n ++ params)
    | None => None
    end.

(** src/litgen/internal/adapted_types/adapted_class.py 988-996 and
    src/litgen/internal/adapted_types/adapted_function.py 1403-1409: the last matching option. *)
Definition matching_spec (specs : list spec) (name : str) : option spec :=
  find (fun s => name_matches s name) (rev specs).
(** src/litgen/internal/adapted_types/adapted_class.py 990-1026
    [_tpl_split_into_template_instantiations]: the types for which a class is emitted, [nb_params] is the
    number of template parameters of the class. Warnings are not modelled. *)
Definition class_instantiations (specs : list spec) (name : str) (nb_params : nat) : list str :=
  match matching_spec specs name with
  | None => []
  | Some s => if negb (nb_params =? 1) && (0 <? length (handled_types s)) then [] else handled_types s
  end.
(** src/litgen/internal/adapted_types/adapted_class.py 1016-1025: the emitted synonyms; [cls] is
    [_class_name_to_python]. *)
Definition class_synonyms (cls : str -> str) (specs : list spec) (name : str) (nb_params : nat) : list (str * str) :=
  match matching_spec specs name with
  | None => []
  | Some s =>
      if negb (nb_params =? 1) && (0 <? length (handled_types s)) then []
      else map (fun '(a, b) => (apply_template_naming (cls name) (cls a), apply_template_naming (cls name) (cls b)))
             (synonyms s)
  end.

(** src/litgen/internal/template_options.py 225-235
    [TemplateFunctionsOptions.specialized_function_python_name]. *)
Definition specialized_function_python_name (specs : list spec) (name a : str) : option str :=
  match find (fun s => name_matches s name && (handles_type s a || handles_synonym s a)) specs with
  | Some s => Some (if add_suffix s then apply_template_naming name a else name)
  | None => None
  end.
(** src/litgen/internal/adapted_types/adapted_function.py 1403-1430
    [_tpl_split_into_template_instantiations]: the instantiated types and whether each instantiation is marked
    as overloaded; [overloaded] is the flag of the template function. *)
Definition function_instantiations (specs : list spec) (name : str) (nb_params : nat) (overloaded : bool) :
    list (str * bool) :=
  match matching_spec specs name with
  | None => []
  | Some s =>
      if negb (nb_params =? 1) && (0 <? length (handled_types s)) then []
      else map (fun a => (a, overloaded || negb (add_suffix s))) (handled_types s)
  end.
End Options.
