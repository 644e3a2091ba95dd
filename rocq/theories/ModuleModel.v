(** Model of the tree of namespace code, of namespaces turned into submodules, of custom bindings
    and of the generator. *)
From Verif Require Import PyStr RegionsModel TextModel ScopeModel OverloadModel.

(** *** The tree of namespace code *)

Inductive code_type := Stub | Pydef.

Section Tree.
(** Option [namespaces_root]; kind of code; [py_name] stands for
    src/litgen/internal/cpp_to_python.py 227-235 [namespace_name_to_python]. *)
Variable roots : list str.
Variable ct : code_type.
Variable py_name : str -> str.

(** Fields of src/litgen/internal/context/namespaces_code_tree.py 11-45 [NamespacesCodeTree] that
    hold code: [_namespace_code] and [_sub_namespaces_code] (a dictionary, in insertion order). *)
Inductive tree := Tree (code : str) (subs : list (str * tree)).
Definition empty_tree : tree := Tree [] [].

(** src/litgen/internal/context/namespaces_code_tree.py 38-43, [NS_NAME] left to be replaced. *)
Definition code_intro : str :=
  match ct with
  | Stub => nl :: $"# <submodule NS_NAME>" ++ [nl]
  | Pydef => nl :: $"{ // <namespace NS_NAME>" ++ [nl]
  end.
Definition code_outro : str :=
  match ct with
  | Stub => nl :: $"# </submodule NS_NAME>" ++ [nl]
  | Pydef => nl :: $"} // </namespace NS_NAME>" ++ [nl]
  end.
Definition ns_token : str := $"NS_NAME".

(** src/litgen/internal/context/namespaces_code_tree.py 45-73
    [NamespacesCodeTree.full_tree_code]. *)
Fixpoint full_tree_code (indent_str : str) (t : tree) (name : str) : str :=
  match t with
  | Tree code subs =>
      let ignored :=
        match name, code with
        | [], _ => true
        | _, [] => true
        | _, _ => smem name roots
        end in
      let written := match ct with Stub => py_name name | Pydef => name end in
      let sub_code :=
        (fix go (l : list (str * tree)) : str :=
           match l with
           | [] => []
           | (n, s) :: l' =>
               let c := full_tree_code indent_str s n in
               (if ignored then c else indent_code c 1 false (Some indent_str) true) ++ go l'
           end) subs in
      (if ignored then [] else replace ns_token written code_intro)
        ++ code ++ sub_code
        ++ (if ignored then [] else replace ns_token written code_outro)
  end.

(** The addition of code to a node,
    src/litgen/internal/context/namespaces_code_tree.py 84-87. *)
Definition add_code (code : str) (t : tree) : tree :=
  match t with
  | Tree c subs =>
      Tree ((match c with
             | [] => []
             | _ => if endswith [nl] c then c else c ++ [nl]
             end) ++ code) subs
  end.

(** src/litgen/internal/context/namespaces_code_tree.py 75-87
    [NamespacesCodeTree._store_code_in_tree]. An empty list of names raises an IndexError in the
    code; it is never passed, since a namespace that is a root stores nothing. *)
Fixpoint store_code_in_tree (names : list str) (code : str) (t : tree) : tree :=
  match names with
  | [] => t
  | n :: names' =>
      let on_sub s := match names' with [] => add_code code s | _ => store_code_in_tree names' code s end in
      match t with
      | Tree c subs => Tree c (update subs n on_sub (on_sub empty_tree))
      end
  end.

Definition not_root (name : str) : bool := negb (smem name roots).

(** src/litgen/internal/context/namespaces_code_tree.py 89-98 [NamespacesCodeTree.store_code]. *)
Definition store_code (qualified : str) (code : str) (t : tree) : tree :=
  store_code_in_tree (filter not_root (split colons qualified)) code t.
End Tree.

(** *** Namespaces *)

(** [str.splitlines()] for texts whose only line separator is the newline character. *)
Definition splitlines (s : str) : list str :=
  match rev (lines s) with
  | [] :: r => rev r
  | _ => lines s
  end.

Section Namespaces.
Variable roots : list str.
Variable py_name : str -> str.
(** ["py"] or ["nb"]. *)
Variable py : str.
(** [options._indent_cpp_spaces()] and [options._indent_python_spaces()]. *)
Variable cpp_indent python_indent : str.
(** [python_reproduce_cpp_layout]. *)
Variable layout : bool.
(** [_pub_make_submodule_custom_code] for a qualified name and a variable. *)
Variable custom_pydef custom_stub : str -> str -> option str.

(** The elements of a block: any element that is not a namespace, with the lines it returns, or a
    namespace with its name, its comment on one line, the lines of its docstring, its elements.
    Simplification: the deduplication of overloads is not part of this model (see OverloadModel). *)
Inductive item :=
  | Elem (k : ekind) (ls : list str)
  | Ns (name : str) (doc : str) (docstring : list str) (items : list item).
Definition item_kind (it : item) : ekind := match it with Elem k _ => k | Ns _ _ _ _ => KNamespace end.

(** What the context holds: [_created_namespaces] and the tree. *)
Record ns_state := { created : list str; ns_tree : tree }.

(** src/litgen/internal/cpp_to_python.py 707-726 [cpp_scope_to_pybind_var_name] and
    src/litgen/internal/cpp_to_python.py 729-736 [cpp_scope_to_pybind_parent_var_name], for a scope
    made of namespaces. *)
Definition var_name (sc : scope) : str :=
  match filter (not_root roots) sc with
  | [] => $"m"
  | parts => $"py" ++ join $"_" (map (fun n => $"Ns" ++ n) parts)
  end.

(** The line built by src/litgen/internal/adapted_types/adapted_namespace.py 115-139
    [AdaptedNamespace._pydef_def_submodule_code]. Simplification: the template is filled by
    concatenation, values holding the text of another key in braces are not modelled. *)
Definition submodule_line (sc : scope) (name doc : str) : str :=
  py ++ $"::module_ " ++ var_name (sc ++ [name]) ++ $" = " ++ var_name sc ++ $".def_submodule("
     ++ [dq] ++ py_name name ++ [dq] ++ $", " ++ [dq] ++ doc ++ [dq] ++ $");".
Definition def_submodule_code (sc : scope) (name doc : str) (st : ns_state) : list str * ns_state :=
  if smem (str_cpp (sc ++ [name])) (created st) then ([], st)
  else (lines (submodule_line sc name doc),
        {| created := str_cpp (sc ++ [name]) :: created st; ns_tree := ns_tree st |}).

(** [lines += custom_code.splitlines()] when there is custom code. *)
Definition add_custom (c : option str) (ls : list str) : list str :=
  match c with None => ls | Some code => ls ++ splitlines code end.

(** src/litgen/internal/adapted_types/adapted_namespace.py 146-166 [AdaptedNamespace.pydef_lines],
    and the loop of src/litgen/internal/adapted_types/adapted_block.py 190-206
    [AdaptedBlock.pydef_lines]. [sc] is the scope of the namespaces around. *)
Fixpoint item_pydef (sc : scope) (it : item) (st : ns_state) : list str * ns_state :=
  match it with
  | Elem _ ls => (ls, st)
  | Ns name doc _ items =>
      let '(ls, st1) :=
        (fix go (items : list item) (last : option ekind) (st : ns_state) : list str * ns_state :=
           match items with
           | [] => ([], st)
           | it :: items' =>
               let '(ls, st1) := item_pydef (sc ++ [name]) it st in
               let '(spacing, last1) := spacing_cpp last (item_kind it) ls in
               let '(rest, st2) := go items' last1 st1 in
               (spacing ++ ls ++ rest, st2)
           end) items None st in
      if smem name roots then (ls, st1)
      else
        let ls1 := add_custom (custom_pydef (str_cpp (sc ++ [name])) (var_name (sc ++ [name]))) ls in
        let '(creation, st2) := def_submodule_code sc name doc st1 in
        let stored := indent_code_lines (creation ++ ls1) 1 false (Some cpp_indent) true in
        ([], {| created := created st2;
                ns_tree := store_code roots (str_cpp (sc ++ [name])) (unlines stored) (ns_tree st2) |})
  end.
Fixpoint block_pydef (sc : scope) (items : list item) (last : option ekind) (st : ns_state)
    : list str * ns_state :=
  match items with
  | [] => ([], st)
  | it :: items' =>
      let '(ls, st1) := item_pydef sc it st in
      let '(spacing, last1) := spacing_cpp last (item_kind it) ls in
      let '(rest, st2) := block_pydef sc items' last1 st1 in
      (spacing ++ ls ++ rest, st2)
  end.

(** The code of src/litgen/internal/adapted_types/adapted_namespace.py 69-84
    [AdaptedNamespace._stub_class_as_ns_creation_code]: a name without line breaks is assumed. *)
Definition proxy_class_lines (name : str) : list str :=
  [ $"class " ++ py_name name ++ $":  # Proxy class that introduces typings for the *submodule* " ++ py_name name;
    python_indent ++ $"pass  # (This corresponds to a C++ namespace. All methods are static!)" ].
Definition class_as_ns_creation_code (sc : scope) (name : str) (st : ns_state) : list str * ns_state :=
  if smem (str_cpp (sc ++ [name])) (created st) then ([], st)
  else (proxy_class_lines name,
        {| created := str_cpp (sc ++ [name]) :: created st; ns_tree := ns_tree st |}).

(** src/litgen/internal/adapted_types/adapted_namespace.py 87-112 [AdaptedNamespace.stub_lines] and
    src/litgen/internal/adapted_types/adapted_block.py 172-187 [AdaptedBlock.stub_lines]. *)
Fixpoint item_stub (sc : scope) (it : item) (st : ns_state) : list str * ns_state :=
  match it with
  | Elem _ ls => (ls, st)
  | Ns name _ docstring items =>
      let doc := if negb (smem (str_cpp (sc ++ [name])) (created st)) && negb (smem name roots)
                 then docstring else [] in
      let '(ls, st1) :=
        (fix go (items : list item) (last : option ekind) (st : ns_state) : list str * ns_state :=
           match items with
           | [] => ([], st)
           | it :: items' =>
               let '(ls, st1) := item_stub (sc ++ [name]) it st in
               let '(spacing, last1) :=
                 if layout then ([], last) else spacing_cpp last (item_kind it) ls in
               let '(rest, st2) := go items' last1 st1 in
               (spacing ++ ls ++ rest, st2)
           end) items None st in
      let ls1 := doc ++ ls ++ [[]] in
      if smem name roots then (ls1, st1)
      else
        let ls2 := add_custom (custom_stub (str_cpp (sc ++ [name])) (var_name (sc ++ [name]))) ls1 in
        let '(creation, st2) := class_as_ns_creation_code sc name st1 in
        let stored := creation ++ indent_code_lines ls2 1 false (Some python_indent) true in
        ([], {| created := created st2;
                ns_tree := store_code roots (str_cpp (sc ++ [name])) (unlines stored) (ns_tree st2) |})
  end.
Fixpoint block_stub (sc : scope) (items : list item) (last : option ekind) (st : ns_state)
    : list str * ns_state :=
  match items with
  | [] => ([], st)
  | it :: items' =>
      let '(ls, st1) := item_stub sc it st in
      let '(spacing, last1) := if layout then ([], last) else spacing_cpp last (item_kind it) ls in
      let '(rest, st2) := block_stub sc items' last1 st1 in
      (spacing ++ ls ++ rest, st2)
  end.

Definition empty_state : ns_state := {| created := []; ns_tree := empty_tree |}.

(** src/litgen/internal/adapted_types/adapted_unit.py 46-61 [AdaptedUnit.str_pydef] and
    src/litgen/internal/adapted_types/adapted_unit.py 29-44 [AdaptedUnit.str_stub], without the
    custom code of the main module. *)
Definition unit_pydef (items : list item) : str :=
  let '(ls, st) := block_pydef [] items None empty_state in
  (match ls with [] => [] | _ => unlines ls ++ [nl] end)
    ++ full_tree_code roots Pydef py_name cpp_indent (ns_tree st) [].
Definition unit_stub (items : list item) : str :=
  let '(ls, st) := block_stub [] items None empty_state in
  unlines ls ++ full_tree_code roots Stub py_name python_indent (ns_tree st) [].
End Namespaces.

(** *** Custom bindings *)

(** Fields of src/litgen/internal/custom_bindings.py 13-261 [CustomBindings]. Dictionaries are keyed
    by [CppScope], compared by their text. *)
Definition codes := list (scope * list str).
Record custom := {
  cb_pydefs : codes; cb_stubs : codes;
  main_emitted_pydef : bool; main_emitted_stub : bool
}.
Definition no_custom : custom :=
  {| cb_pydefs := []; cb_stubs := []; main_emitted_pydef := false; main_emitted_stub := false |}.

Fixpoint codes_get (d : codes) (sc : scope) : option (list str) :=
  match d with
  | [] => None
  | (sc', l) :: d' => if scope_eqb sc' sc then Some l else codes_get d' sc
  end.
Fixpoint codes_add (d : codes) (sc : scope) (code : str) : codes :=
  match d with
  | [] => [(sc, [code])]
  | (sc', l) :: d' => if scope_eqb sc' sc then (sc', l ++ [code]) :: d' else (sc', l) :: codes_add d' sc code
  end.

Definition clean_code (code : str) : str :=
  strip_first_and_last_lines_if_empty (unindent_code code false).

(** src/litgen/internal/custom_bindings.py 185-195 [CustomBindings._do_add_cleaned_code]. *)
Definition add_cleaned_code (d : codes) (qualified : str) (code : option str) : codes :=
  match code with
  | None => d
  | Some c => codes_add d (from_string qualified) (clean_code c)
  end.

(** src/litgen/internal/custom_bindings.py 197-204 [CustomBindings._do_add_custom_bindings]; the
    three public functions only choose [qualified]. *)
Definition add_custom_bindings (cb : custom) (qualified : str) (stub_code pydef_code : option str) : custom :=
  {| cb_stubs := add_cleaned_code (cb_stubs cb) qualified stub_code;
     cb_pydefs := add_cleaned_code (cb_pydefs cb) qualified pydef_code;
     main_emitted_pydef := main_emitted_pydef cb; main_emitted_stub := main_emitted_stub cb |}.

(** src/litgen/internal/custom_bindings.py 206-223 [CustomBindings._make_custom_code], with the single
    replacement that every caller passes. *)
Definition make_custom_code (cb : custom) (sc : scope) (is_pydef : bool) (target var : str) : option str :=
  match codes_get (if is_pydef then cb_pydefs cb else cb_stubs cb) sc with
  | None => None
  | Some l =>
      let r := replace target var (join [nl] l) in
      let r := if startswith [nl] r then r else nl :: r in
      Some (if endswith [nl] r then r else r ++ [nl])
  end.

(** src/litgen/internal/custom_bindings.py 225-231 [CustomBindings._pub_make_class_custom_code]. *)
Definition make_class_custom_code (cb : custom) (qualified var : str) (is_pydef : bool) : option str :=
  make_custom_code cb (from_string qualified) is_pydef $"LG_CLASS" var.
(** src/litgen/internal/custom_bindings.py 233-239 [CustomBindings._pub_make_submodule_custom_code]. *)
Definition make_submodule_custom_code (cb : custom) (qualified var : str) (is_pydef : bool) : option str :=
  make_custom_code cb (from_string qualified) is_pydef $"LG_SUBMODULE" var.
(** src/litgen/internal/custom_bindings.py 241-261 [CustomBindings._pub_make_main_module_custom_code]. *)
Definition make_main_module_custom_code (cb : custom) (var : str) (is_pydef : bool) : option str * custom :=
  if (if is_pydef then main_emitted_pydef cb else main_emitted_stub cb) then (None, cb)
  else
    match make_custom_code cb (from_string []) is_pydef $"LG_MODULE" var with
    | None => (None, cb)
    | Some c =>
        (Some c, {| cb_pydefs := cb_pydefs cb; cb_stubs := cb_stubs cb;
                    main_emitted_pydef := if is_pydef then true else main_emitted_pydef cb;
                    main_emitted_stub := if is_pydef then main_emitted_stub cb else true |})
    end.

(** *** The generator *)

(** [sorted] of a set of strings: order of Python on strings. *)
Fixpoint str_ltb (a b : str) : bool :=
  match a, b with
  | [], [] => false
  | [], _ => true
  | _, [] => false
  | x :: a', y :: b' => if ceqb x y then str_ltb a' b' else PyStr.code x <? PyStr.code y
  end.
Fixpoint insert_str (x : str) (l : list str) : list str :=
  match l with
  | [] => [x]
  | y :: l' => if seqb x y then l else if str_ltb x y then x :: l else y :: insert_str x l'
  end.
Definition sorted_set (l : list str) : list str := fold_right insert_str [] l.

Section Generator.
(** [ctx]: the context apart from the code trees, which are cleared after each header; [boxed]: its
    [encountered_cpp_boxed_types]; [adapt]: the adaptation of a header, giving its stub and binding
    code without the custom code of the main module; [boxed_struct] and [boxed_unit]: the C++ code of
    a boxed type, and the stub and binding code of a text with standalone options. *)
Variable ctx : Type.
Variable boxed : ctx -> list str.
Variable adapt : ctx -> str -> str -> ctx * (str * str).
Variable boxed_struct : str -> str.
Variable boxed_unit : str -> str * str.
(** [filename_with_n_parent_folders] with the option of the generator. *)
Variable short : str -> str.
(** Options [postprocess_pydef_function] and [postprocess_stub_function]; identity when None. *)
Variable post_pydef post_stub : str -> str.

Record generated := { source_filename : str; gen_pydef : str; gen_stub : str }.
Record generator := { g_ctx : ctx; g_codes : list generated; omit_boxed : bool }.

Definition new_generator (c : ctx) (omit : bool) : generator :=
  {| g_ctx := c; g_codes := []; omit_boxed := omit |}.

Definition append_custom (text : str) (c : option str) : str :=
  match c with None => text | Some t => text ++ t end.

(** src/litgen/litgen_generator.py 187-196 [LitgenGenerator.process_cpp_code]; the custom bindings
    live in the options, shared by all generators built with them. *)
Definition process_cpp_code (cb : custom) (g : generator) (code filename : str) : custom * generator :=
  let '(c, (stub, pydef)) := adapt (g_ctx g) code filename in
  let '(cs, cb1) := make_main_module_custom_code cb $"m" false in
  let '(cp, cb2) := make_main_module_custom_code cb1 $"m" true in
  (cb2, {| g_ctx := c;
           g_codes := g_codes g ++ [{| source_filename := filename;
                                       gen_pydef := append_custom pydef cp;
                                       gen_stub := append_custom stub cs |}];
           omit_boxed := omit_boxed g |}).

(** src/litgen/litgen_generator.py 179-185 [LitgenGenerator._boxed_types_cpp_code]. *)
Definition boxed_types_cpp_code (g : generator) : str :=
  concat (map boxed_struct (sorted_set (boxed (g_ctx g)))).

(** src/litgen/litgen_generator.py 198-215 [LitgenGenerator._boxed_types_generated_code]. *)
Definition boxed_types_generated_code (g : generator) : option generated :=
  if omit_boxed g then None
  else
    match boxed (g_ctx g) with
    | [] => None
    | _ =>
        let '(stub, pydef) := boxed_unit (boxed_types_cpp_code g) in
        Some {| source_filename := $"BoxedTypes"; gen_pydef := pydef; gen_stub := stub |}
    end.

(** src/litgen/litgen_generator.py 217-223 [LitgenGenerator._generated_codes_with_boxed_types]. *)
Definition codes_with_boxed_types (g : generator) : list generated :=
  match boxed_types_generated_code g with
  | None => g_codes g
  | Some b => b :: g_codes g
  end.

(** src/litgen/internal/cpp_to_python.py 901-918 [_surround_code_with_filename_impl]. *)
Definition decorate_impl (token : ascii) (filename : str) (is_end : bool) : str :=
  repeat token 20 ++ $"    <" ++ (if is_end then $"/" else []) ++ $"generated_from:"
    ++ short filename ++ $">    " ++ repeat token 20 ++ [nl].
Definition surround_code_with_filename (token : ascii) (filename code : str) : str :=
  match filename with
  | [] => code
  | _ => decorate_impl token filename false ++ code ++ decorate_impl token filename true
  end.

(** src/litgen/litgen_generator.py 147-161 [LitgenGenerator.pydef_code] and
    src/litgen/litgen_generator.py 163-177 [LitgenGenerator.stub_code]. *)
Definition pydef_code (g : generator) : str :=
  post_pydef (shorten_lines_containing_only_spaces
    (join [nl; nl] (map (fun c => surround_code_with_filename "/" (source_filename c) (gen_pydef c))
                        (codes_with_boxed_types g)))).
Definition stub_code (g : generator) : str :=
  post_stub (shorten_lines_containing_only_spaces
    (join [nl; nl] (map (fun c => surround_code_with_filename "#" (source_filename c) (gen_stub c))
                        (codes_with_boxed_types g)))).

(** A generator processing several headers, each a text and a file name. *)
Fixpoint process_all (cb : custom) (g : generator) (headers : list (str * str)) : custom * generator :=
  match headers with
  | [] => (cb, g)
  | (code, filename) :: hs =>
      let '(cb1, g1) := process_cpp_code cb g code filename in
      process_all cb1 g1 hs
  end.
End Generator.
Arguments g_ctx {ctx}.
Arguments g_codes {ctx}.
Arguments omit_boxed {ctx}.
Arguments Build_generator {ctx}.
