From Verif Require Import PyStr PyDict InstanceModel.
(** The names of the stub which are completed with the name of the scope they are in. *)

(** ** The text *)

(** [re.sub] of the pattern of src/litgen/internal/cpp_to_python.py 318-322: the name, not after a dot nor a character of a word, up to the end of a word.
    [blocked]: the previous character is a dot or one of a word; [skip]: the characters of the name which are still to be passed.
    The name is not empty, and the replacement has no backslash. *)
Definition blocks (c : ascii) : bool := ceqb c "."%char || is_word c.
Definition sibling_at (name : str) (blocked : bool) (s : str) : bool :=
  startswith name s && negb blocked && xorb (is_word_at (rev name)) (is_word_at (skipn (length name) s)).
Fixpoint sub_sibling (name new : str) (blocked : bool) (skip : nat) (s : str) : str :=
  match s with
  | [] => []
  | c :: r =>
      match skip with
      | S k => sub_sibling name new (blocks c) k r
      | 0 =>
          if sibling_at name blocked s
          then new ++ sub_sibling name new (blocks c) (length name - 1) r
          else c :: sub_sibling name new (blocks c) 0 r
      end
  end.
(** src/litgen/internal/cpp_to_python.py 317: [sorted(names, key=len, reverse=True)], which keeps the order of the names of one length. *)
Fixpoint insert_longest (n : str) (l : list str) : list str :=
  match l with
  | [] => [n]
  | m :: r => if length m <=? length n then n :: l else m :: insert_longest n r
  end.
Fixpoint longest_first (l : list str) : list str :=
  match l with
  | [] => []
  | n :: r => insert_longest n (longest_first r)
  end.
(** src/litgen/internal/context/litgen_context.py 20-38 [ScopeMembers]; the names are a set, here in the order in which Python goes over it, which is any. *)
Record members := Members { m_prefix : str; m_names : list str }.
(** src/litgen/internal/cpp_to_python.py 313-322: one scope. *)
Definition qualify_one (m : members) (s : str) : str :=
  fold_left (fun s name => sub_sibling name (m_prefix m ++ lit "." ++ name) false 0 s) (longest_first (m_names m)) s.
(** src/litgen/internal/cpp_to_python.py 288-324 [qualify_sibling_in_scope]: the scopes come from the outside. *)
Definition qualify (roots : list str) (known : list (str * members)) (scope : list str) (s : str) : str :=
  fold_left (fun s part => if smem part roots then s else match dict_get part known with Some m => qualify_one m s | None => s end) scope s.

(** src/litgen/internal/adapted_types/adapted_function.py 1250-1254, 1313-1319: the types and values of a function, in the scope of the function (for a method: up to its
    class). *)
Definition in_function (roots : list str) (known : list (str * members)) (is_method : bool) (scope : list str) (s : str) : str :=
  if is_method then qualify roots known scope s else s.
(** src/litgen/internal/adapted_types/adapted_class.py 156-159 [_qualify_siblings], 161-171: the types and values of a member, in the scope of its class (without it). *)
Definition in_member (roots : list str) (known : list (str * members)) (class_scope : list str) (s : str) : str := qualify roots known (removelast class_scope) s.

(** ** The names which are known *)

(** What is published: enums, classes with their public elements, functions, namespaces; names are those of C++. *)
Inductive item :=
  | IEnum (name : str)
  | IClass (name : str) (inside : list item)
  | IFunction (name : str)
  | INamespace (name : str) (inside : list item)
  | IOther.

Section Register.
(** The namespaces which are not shown in Python, and the names in Python of enums, classes, functions and namespaces. *)
Variables (roots : list str) (enum_name class_name function_name namespace_name : str -> str).

(** src/litgen/internal/adapted_types/adapted_class.py 388-393. *)
Definition class_names (l : list item) : list str :=
  flat_map (fun i => match i with IEnum n => [enum_name n] | IClass n _ => [class_name n] | _ => [] end) l.
(** src/litgen/internal/adapted_types/adapted_namespace.py 40-48. *)
Definition namespace_names (l : list item) : list str :=
  flat_map (fun i => match i with IEnum n => [enum_name n] | IClass n _ => [class_name n] | IFunction n => [function_name n] | _ => [] end) l.
(** src/litgen/internal/adapted_types/adapted_class.py 366-372, 379-398 [_register_inner_python_names] and
    src/litgen/internal/adapted_types/adapted_namespace.py 22-25, 27-52 [_register_namespace_python_names]: the elements inside come first. *)
Fixpoint register (known : list (str * members)) (i : item) : list (str * members) :=
  match i with
  | IClass n l =>
      let known := fold_left register l known in
      match class_names l with
      | [] => known
      | names => dict_set n (Members (class_name n) names) known
      end
  | INamespace n l =>
      let known := fold_left register l known in
      if smem n roots then known else dict_set n (Members (namespace_name n) (namespace_names l)) known
  | _ => known
  end.
Definition register_all (l : list item) : list (str * members) := fold_left register l [].
End Register.
