(** Model of C++ scopes, of the qualification of names in code, of the shortening of names, and of
    the caches kept by declarations and functions. *)
From Verif Require Import PyStr.

(** *** Scopes *)

(** The separator of scope parts. *)
Definition colons : str := $"::".

(** src/srcmlcpp/cpp_types/scope/cpp_scope.py 21-89 [CppScope]. A scope is the list of the names
    of its parts, outermost first; the kind of a part ([CppScopeType]) is not modelled, no
    function below reads it. *)
Definition scope := list str.

(** src/srcmlcpp/cpp_types/scope/cpp_scope.py 29-45 [CppScope.__init__], fields [str_cpp] and
    [str_cpp_prefix]. *)
Definition str_cpp (sc : scope) : str := join colons sc.
Definition str_cpp_prefix (sc : scope) : str :=
  match sc with
  | [] => []
  | _ => str_cpp sc ++ colons
  end.

(** src/srcmlcpp/cpp_types/scope/cpp_scope.py 29-45 [CppScope.__init__], field [parent_scope]. *)
Definition parent_scope (sc : scope) : option scope :=
  match sc with
  | [] => None
  | _ => Some (removelast sc)
  end.

(** src/srcmlcpp/cpp_types/scope/cpp_scope.py 47-54 [_make_scope_hierarchy_list]. The loop follows
    the parents; [fuel] bounds the number of its iterations, the depth of the scope plus one is
    enough (the last one finds no parent). *)
Fixpoint hierarchy_from (fuel : nat) (current : option scope) : list scope :=
  match fuel, current with
  | S fuel', Some sc => sc :: hierarchy_from fuel' (parent_scope sc)
  | _, _ => []
  end.
Definition scope_hierarchy_list (sc : scope) : list scope :=
  hierarchy_from (S (length sc)) (Some sc).
Definition scope_hierarchy_prefix_list (sc : scope) : list str :=
  map str_cpp_prefix (scope_hierarchy_list sc).

(** src/srcmlcpp/cpp_types/scope/cpp_scope.py 56-61 [from_string]. *)
Definition from_string (s : str) : scope := split colons s.

(** src/srcmlcpp/cpp_types/scope/cpp_scope.py 63-66 [__eq__]: by text. *)
Definition scope_eqb (a b : scope) : bool := seqb (str_cpp a) (str_cpp b).

(** src/srcmlcpp/cpp_types/scope/cpp_scope.py 68-74 [can_access_scope]. *)
Fixpoint can_access_from (fuel : nat) (parent : option scope) (other : scope) : bool :=
  match fuel, parent with
  | S fuel', Some sc =>
      if scope_eqb sc other then true else can_access_from fuel' (parent_scope sc) other
  | _, _ => false
  end.
Definition can_access_scope (sc other : scope) : bool :=
  can_access_from (S (length sc)) (Some sc) other.

(** src/srcmlcpp/cpp_types/scope/cpp_scope.py 76-77 [make_child_scope]. *)
Definition make_child_scope (sc : scope) (name : str) : scope := sc ++ [name].

(** src/srcmlcpp/cpp_types/scope/cpp_scope.py 79-80 [qualified_name]. *)
Definition qualified_name (sc : scope) (name : str) : str := str_cpp_prefix sc ++ name.

(** *** Reading code token by token *)

(** The [if current_token:] blocks at src/srcmlcpp/cpp_types/scope/cpp_scope_process.py 63-71,
    81-87, 150-153 and 165-167. [resolve] stands for what the two callers do to a token. *)
Definition flush (resolve : str -> str) (tok : str) : str :=
  match tok with
  | [] => []
  | _ => resolve tok
  end.

(** [i + 1 < len(cpp_code) and cpp_code[i + 1] == c]. *)
Definition next_is (c : ascii) (rest : str) : bool :=
  match rest with
  | d :: _ => ceqb d c
  | [] => false
  end.

(** The loop shared by src/srcmlcpp/cpp_types/scope/cpp_scope_process.py 33-89
    [apply_scoped_identifiers_to_code] and 124-169 [make_terse_code]. The result is what is still
    to be added to [new_code]; [tok] is [current_token]. *)
Fixpoint scan_code (resolve : str -> str) (s : str) (in_string in_comment : bool) (tok : str) : str :=
  match s with
  | [] => flush resolve tok
  | c :: s' =>
      let in_string := if ceqb c dq && negb in_comment then negb in_string else in_string in
      let in_comment := in_comment || (ceqb c "/" && next_is "/" s' && negb in_string) in
      if negb in_string && negb in_comment then
        if is_alnum c || ceqb c "_" then scan_code resolve s' in_string in_comment (tok ++ [c])
        else
          match s' with
          | d :: s'' =>
              if ceqb c ":" && ceqb d ":" then
                scan_code resolve s'' in_string in_comment (tok ++ colons)
              else flush resolve tok ++ c :: scan_code resolve s' in_string in_comment []
          | [] => flush resolve tok ++ c :: scan_code resolve s' in_string in_comment []
          end
      else c :: scan_code resolve s' in_string (if ceqb c nl then false else in_comment) tok
  end.

(** *** Qualifying *)

(** src/srcmlcpp/cpp_types/scope/cpp_scope_process.py 5-30
    [current_token_matches_scoped_identifier]. *)
Definition token_matches (id : str) (hierarchy : list str) (tok : str) : bool :=
  if startswith colons tok then false
  else existsb (fun prefix => seqb (prefix ++ tok) id) hierarchy.

(** The loop over the known names at src/srcmlcpp/cpp_types/scope/cpp_scope_process.py 64-68. *)
Definition qualify_token (ids : list str) (hierarchy : list str) (tok : str) : str :=
  fold_left (fun t id => if token_matches id hierarchy t then id else t) ids tok.

(** src/srcmlcpp/cpp_types/scope/cpp_scope_process.py 33-89 [apply_scoped_identifiers_to_code]. *)
Definition apply_scoped_identifiers_to_code (code : str) (hierarchy ids : list str) : str :=
  scan_code (qualify_token ids hierarchy) code false false [].

(** src/srcmlcpp/cpp_types/scope/cpp_scope_identifiers.py 41-66 [qualify_cpp_code]. [ids] is
    [_scoped_identifiers]. *)
Definition qualify_cpp_code (ids : list str) (code : str) (sc : scope) : str :=
  apply_scoped_identifiers_to_code code (scope_hierarchy_prefix_list sc) ids.

(** What [fill_cache] looks at in an element: its scope, its name, its kind. *)
Inductive decl_context := VarDecl | EnumDecl | ParamDecl | UnknownDecl.
Inductive element_kind :=
  | KStruct | KEnum | KFunction (is_constructor : bool) | KDecl (context : decl_context) | KOther.
Record element := { el_scope : scope; el_name : str; el_kind : element_kind }.

(** src/srcmlcpp/cpp_types/scope/cpp_scope_identifiers.py 12-39 [fill_cache], the names it adds. *)
Definition shall_add (e : element) : bool :=
  match el_kind e with
  | KStruct | KEnum => true
  | KFunction ctor => negb ctor
  | KDecl VarDecl | KDecl EnumDecl => true
  | KDecl _ | KOther => false
  end.
Definition fill_cache (all_elements : list element) : list str :=
  map (fun e => qualified_name (el_scope e) (el_name e)) (filter shall_add all_elements).

(** *** Shortening *)

(** [l.index(x)] for a present element, [l[idx:]]; the whole list when absent:
    src/srcmlcpp/cpp_types/scope/cpp_scope_process.py 99-102. *)
Fixpoint from_first (x : str) (l : list str) : option (list str) :=
  match l with
  | [] => None
  | y :: l' => if seqb y x then Some l else from_first x l'
  end.

(** [scoped_identifier.startswith(extract)] then [scoped_identifier[len(extract):]]. *)
Definition cut (id extract : str) : option str :=
  if startswith extract id then Some (skipn (length extract) id) else None.

(** The first loop of [_make_terse_scoped_identifier],
    src/srcmlcpp/cpp_types/scope/cpp_scope_process.py 110-114: [k] is [len(scope_parts) - i]. *)
Fixpoint first_loop (id : str) (parts : list str) (k : nat) : option str :=
  match k with
  | 0 => None
  | S k' =>
      match cut id (join colons (firstn k parts) ++ colons) with
      | Some r => Some r
      | None => first_loop id parts k'
      end
  end.

(** The second loop, src/srcmlcpp/cpp_types/scope/cpp_scope_process.py 116-120: [parts] is
    [scope_parts[i:]]. *)
Fixpoint second_loop (id : str) (parts : list str) : option str :=
  match parts with
  | [] => None
  | _ :: rest =>
      match cut id (join colons parts ++ colons) with
      | Some r => Some r
      | None => second_loop id rest
      end
  end.

(** src/srcmlcpp/cpp_types/scope/cpp_scope_process.py 92-121 [_make_terse_scoped_identifier].
    [split] never gives an empty list, so [identifier_parts[0]] exists. *)
Definition make_terse_scoped_identifier (id current_scope : str) : str :=
  let scope_parts := split colons current_scope in
  let parts :=
    match from_first (hd [] (split colons id)) scope_parts with
    | Some l => l
    | None => scope_parts
    end in
  match first_loop id parts (length parts) with
  | Some r => r
  | None =>
      match second_loop id parts with
      | Some r => r
      | None => id
      end
  end.

(** src/srcmlcpp/cpp_types/scope/cpp_scope_process.py 124-169 [make_terse_code]. *)
Definition make_terse_code (code current_scope_prefix : str) : str :=
  scan_code (fun tok => make_terse_scoped_identifier tok current_scope_prefix) code false false [].

(** *** Types, declarations and functions that remember what they computed *)

(** src/srcmlcpp/cpp_types/decls_types/cpp_type.py 225-250 [CppType.with_qualified_types], on the
    type names of a type. *)
Definition type_with_qualified_types (ids : list str) (typenames : list str) (sc : scope) : list str :=
  match typenames with
  | [] => []
  | _ =>
      let typename := join [sp] typenames in
      let new_typename := qualify_cpp_code ids typename sc in
      if seqb new_typename typename then typenames else split_on sp new_typename
  end.

(** src/srcmlcpp/cpp_types/decls_types/cpp_type.py 252-267 [CppType.with_terse_types]. [own] is
    the scope of the type itself (the inner call is made without a scope). *)
Definition type_with_terse_types (ids : list str) (own : scope) (typenames : list str) (sc : scope)
    : list str :=
  let qualified := join [sp] (type_with_qualified_types ids typenames own) in
  let new_name := make_terse_code qualified (str_cpp_prefix sc) in
  if seqb new_name (join [sp] typenames) then typenames else split_on sp new_name.

(** The parts of a declaration that matter here: its type names and its initial value. *)
Record decl := { d_type : list str; d_init : str }.

(** A declaration object: the declaration and its attribute [_cpp_decl_with_qualified_types], when
    it was set. *)
Record decl_obj := { o_decl : decl; o_cache : option decl }.

(** What src/srcmlcpp/cpp_types/decls_types/cpp_decl.py 305-324 computes when nothing is cached. *)
Definition qualify_decl (ids : list str) (d : decl) (sc : scope) : decl :=
  {| d_type := type_with_qualified_types ids (d_type d) sc;
     d_init := qualify_cpp_code ids (d_init d) sc |}.

(** src/srcmlcpp/cpp_types/decls_types/cpp_decl.py 257-325 [CppDecl.with_qualified_types]: the
    answer, and the object afterwards. *)
Definition decl_with_qualified_types (ids : list str) (o : decl_obj) (sc : scope) : decl * decl_obj :=
  match o_cache o with
  | Some r => (r, o)
  | None =>
      let r := qualify_decl ids (o_decl o) sc in
      (r, {| o_decl := o_decl o; o_cache := Some r |})
  end.

(** src/srcmlcpp/cpp_types/decls_types/cpp_decl.py 356-376 [CppDecl.with_terse_types]; nothing is
    remembered. *)
Definition decl_with_terse_types (ids : list str) (own : scope) (d : decl) (sc : scope) : decl :=
  {| d_type := type_with_terse_types ids own (d_type d) sc;
     d_init := make_terse_code (d_init d) (str_cpp_prefix sc) |}.

(** src/srcmlcpp/cpp_types/scope/scoped_element_cache.py 11-32 [ScopedElementCache]: an
    association list whose keys are the texts of scopes. *)
Definition cache (V : Type) := list (str * V).
Fixpoint cache_get {V} (c : cache V) (key : str) : option V :=
  match c with
  | [] => None
  | (k, v) :: c' => if seqb k key then Some v else cache_get c' key
  end.
Definition cache_store {V} (c : cache V) (key : str) (v : V) : cache V := (key, v) :: c.

(** A function declaration: return type names and parameters. *)
Record func := { f_return : list str; f_params : list decl }.
(** The function object. [fo_own] is its own scope; [fo_class] the class name when it is a method. *)
Record func_obj := {
  fo_own : scope;
  fo_class : option str;
  fo_return : list str;
  fo_params : list decl_obj;
  fo_qualified : cache func;
  fo_terse : cache func
}.

(** src/srcmlcpp/cpp_types/functions/cpp_parameter_list.py 87-126
    [CppParameterList.with_qualified_types]: the parameters are asked one after the other; a lone
    [void] parameter disappears. *)
Definition is_void_list (ps : list decl_obj) : bool :=
  match ps with
  | [o] => match d_type (o_decl o) with [t] => seqb t $"void" | _ => false end
  | _ => false
  end.
Definition params_with_qualified_types (ids : list str) (ps : list decl_obj) (sc : scope)
    : list decl * list decl_obj :=
  if is_void_list ps then ([], ps)
  else (map (fun o => fst (decl_with_qualified_types ids o sc)) ps,
        map (fun o => snd (decl_with_qualified_types ids o sc)) ps).

(** src/srcmlcpp/cpp_types/functions/cpp_function_decl.py 164-207
    [CppFunctionDecl.with_qualified_types]. *)
Definition func_with_qualified_types (ids : list str) (o : func_obj) (sc : scope) : func * func_obj :=
  match cache_get (fo_qualified o) (str_cpp sc) with
  | Some r => (r, o)
  | None =>
      let new_return := type_with_qualified_types ids (fo_return o) sc in
      let (new_params, ps') := params_with_qualified_types ids (fo_params o) sc in
      let r := {| f_return := new_return; f_params := new_params |} in
      (r, {| fo_own := fo_own o; fo_class := fo_class o; fo_return := fo_return o; fo_params := ps';
             fo_qualified := cache_store (fo_qualified o) (str_cpp sc) r; fo_terse := fo_terse o |})
  end.

(** The scope really used by [with_terse_types] for a method,
    src/srcmlcpp/cpp_types/functions/cpp_function_decl.py 226-233. *)
Definition terse_scope (o : func_obj) (sc : scope) : scope :=
  match fo_class o, rev sc with
  | Some name, last :: rest => if seqb last name then rev rest else sc
  | _, _ => sc
  end.

(** src/srcmlcpp/cpp_types/functions/cpp_function_decl.py 209-254
    [CppFunctionDecl.with_terse_types]: the cache is read with the scope given and written with
    the scope used. *)
Definition terse_func (ids : list str) (o : func_obj) (sc : scope) : func :=
  {| f_return := type_with_terse_types ids (fo_own o) (fo_return o) sc;
     f_params := map (fun p => decl_with_terse_types ids (fo_own o) (o_decl p) sc) (fo_params o) |}.
Definition func_with_terse_types (ids : list str) (o : func_obj) (sc : scope) : func * func_obj :=
  match cache_get (fo_terse o) (str_cpp sc) with
  | Some r => (r, o)
  | None =>
      let sc' := terse_scope o sc in
      let r := terse_func ids o sc' in
      (r, {| fo_own := fo_own o; fo_class := fo_class o; fo_return := fo_return o;
             fo_params := fo_params o; fo_qualified := fo_qualified o;
             fo_terse := cache_store (fo_terse o) (str_cpp sc') r |})
  end.
