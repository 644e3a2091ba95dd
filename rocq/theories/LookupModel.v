From Verif Require Import PyStr ScopeModel.
(** Looking classes up by name, base classes, virtual methods. *)

(** src/srcmlcpp/cpp_types/functions/cpp_function_decl.py 25-80: what is needed of a method.  [m_types]: the code of the types of
    its parameters; [m_const]: whether it is a const method (read by the specification only). *)
Record method := { m_name : str; m_types : list str; m_const : bool; m_virtual : bool }.

(** src/srcmlcpp/cpp_types/classes/cpp_struct.py 33-60: what is needed of a class.  [c_number] tells classes apart (Python:
    identity); [c_is_class]: declared with class and not with struct (read by the specification only); [c_supers]: for each
    base the specifiers and the name. *)
Record class := { c_number : nat; c_name : str; c_scope : scope; c_is_class : bool;
                  c_supers : list (list str * str); c_methods : list method }.

(** src/srcmlcpp/cpp_types/base/cpp_access_type.py 13-21 [from_name]; [None]: AssertionError. *)
Inductive access := Public | Protected | Private.
Definition from_name (name : str) : option access :=
  if seqb name $"public" || seqb name [] then Some Public
  else if seqb name $"protected" then Some Protected
  else if seqb name $"private" then Some Private
  else None.

(** src/srcmlcpp/internal/cpp_types_parse.py 651-670 [parse_super]: each specifier replaces the previous one. *)
Definition super_specifier (specifiers : list str) : str := last specifiers [].

(** src/srcmlcpp/cpp_types/blocks/cpp_block.py 101-138 [find_struct_or_class]: [all_structs] are the classes of the block in document
    order (all_structs_recursive). *)
Definition find_struct_or_class (all_structs : list class) (class_name_with_scope : str) (current_scope : scope) : option class :=
  let items := split colons class_name_with_scope in
  let (class_name, class_scope_str) :=
    if contains colons class_name_with_scope then (last items [], join colons (removelast items))
    else (class_name_with_scope, []) in
  find (fun struct =>
          let current_scope_str := str_cpp current_scope in
          let searched_scopes_strs :=
            class_scope_str :: (if 0 <? length current_scope_str then [current_scope_str ++ colons ++ class_scope_str] else []) in
          let struct_scope_str := str_cpp (c_scope struct) in
          let is_struct_visible_from_scope := existsb (startswith struct_scope_str) searched_scopes_strs in
          seqb (c_name struct) class_name && is_struct_visible_from_scope) all_structs.

(** src/srcmlcpp/cpp_types/classes/cpp_struct.py 122-136 [base_classes]; [None]: an assertion failed. *)
Fixpoint base_classes_of (all_structs : list class) (current_scope : scope) (supers : list (list str * str)) : option (list (access * class)) :=
  match supers with
  | [] => Some []
  | (specifiers, name) :: r =>
      match from_name (super_specifier specifiers) with
      | None => None
      | Some access_type =>
          let rest := base_classes_of all_structs current_scope r in
          match find_struct_or_class all_structs name current_scope with
          | Some base_struct => option_map (cons (access_type, base_struct)) rest
          | None => rest
          end
      end
  end.
Definition base_classes (all_structs : list class) (c : class) : option (list (access * class)) :=
  base_classes_of all_structs (c_scope c) (c_supers c).

(** src/srcmlcpp/cpp_types/classes/cpp_struct.py 319-327 [is_method_already_present]. *)
Definition is_method_already_present (virtual_methods : list method) (m : method) : bool :=
  existsb (fun p => seqb (m_name p) (m_name m) && seqb (join $", " (m_types p)) (join $", " (m_types m))) virtual_methods.
Definition add_base_method (virtual_methods : list method) (m : method) : list method :=
  if is_method_already_present virtual_methods m then virtual_methods else virtual_methods ++ [m].

(** src/srcmlcpp/cpp_types/classes/cpp_struct.py 313-334 [virtual_methods]; its parameter is not read.  [None]: an assertion
    failed, or the recursion is deeper than [fuel] (Python: RecursionError). *)
Fixpoint virtual_methods (fuel : nat) (all_structs : list class) (c : class) : option (list method) :=
  match fuel with
  | 0 => None
  | S f =>
      match base_classes all_structs c with
      | None => None
      | Some bases =>
          fold_left (fun acc ab =>
                       match acc, virtual_methods f all_structs (snd ab) with
                       | Some l, Some ms => Some (fold_left add_base_method ms l)
                       | _, _ => None
                       end) bases (Some (filter m_virtual (c_methods c)))
      end
  end.

(** src/litgen/internal/adapted_types/adapted_class.py 689-693: the bases named in the binding of a class. *)
Definition published_bases (all_structs : list class) (c : class) : option (list class) :=
  match base_classes all_structs c with
  | None => None
  | Some l => Some (map snd (filter (fun ab => match fst ab with Private => false | _ => true end) l))
  end.
