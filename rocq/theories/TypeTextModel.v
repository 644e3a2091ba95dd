From Verif Require Import PyStr PyDict.
(** The text of C++ types and declarations.  [None] stands for an exception. *)

(** src/srcmlcpp/cpp_types/decls_types/cpp_type.py 19-273 [CppType]: the three lists that make a type. *)
Record ctype := CType { typenames : list str; specifiers : list str; modifiers : list str }.

(** src/codemanip/code_utils.py 663-666 [join_remove_empty]. *)
Definition join_remove_empty (sep : str) (l : list str) : str :=
  join sep (filter (fun s => match s with [] => false | _ => true end) l).

(** list.remove of Python: the first occurrence goes (ValueError when there is none: every
    call of the code is guarded by a test, so the list is left alone here). *)
Fixpoint list_remove (x : str) (l : list str) : list str :=
  match l with
  | [] => []
  | y :: r => if seqb x y then r else y :: list_remove x r
  end.

(** list.count of Python. *)
Definition list_count (x : str) (l : list str) : nat := length (filter (seqb x) l).

(** src/srcmlcpp/cpp_types/decls_types/cpp_type.py 102-127 [str_code]: [None] when there are more than
    two const (ValueError). *)
Definition str_code (t : ctype) : option str :=
  let nb_const := list_count $"const" (specifiers t) in
  if 2 <? nb_const then None
  else
    let specs := if nb_const =? 2 then rev (list_remove $"const" (rev (specifiers t))) else specifiers t in
    let specifiers_str := join_remove_empty $" " specs in
    let modifiers_str := join_remove_empty $" " (modifiers t) in
    let name := join $" " (typenames t) in
    let r := join_remove_empty $" " [specifiers_str; name; modifiers_str] in
    Some (if nb_const =? 2 then r ++ $" const" else r).

(** src/srcmlcpp/cpp_types/decls_types/cpp_type.py 70-100 [str_return_type], lines 76-80. *)
Definition unwanted_specifiers : list str := [$"inline"; $"virtual"; $"extern"; $"static"].

Definition remove_unwanted (specs : list str) : list str :=
  fold_left (fun acc u => if smem u specs then list_remove u acc else acc) unwanted_specifiers specs.

(** src/srcmlcpp/cpp_types/decls_types/cpp_type.py 70-100 [str_return_type], lines 97-100: each prefix of the options
    is removed in turn when the text starts with it. *)
Definition remove_api_prefixes (prefixes : list str) (s : str) : str :=
  fold_left (fun acc p => if startswith p acc then lstrip (skipn (length p) acc) else acc) prefixes s.

(** src/srcmlcpp/cpp_types/decls_types/cpp_type.py 70-100 [str_return_type]; [prefixes] is what
    functions_api_prefixes_list() returns.  [None] is the AssertionError of line 85. *)
Definition str_return_type (prefixes : list str) (remove_api_prefix : bool) (t : ctype) : option str :=
  let specifiers_str := join_remove_empty $" " (remove_unwanted (specifiers t)) in
  if 1 <? list_count $"const" (specifiers t) then None
  else
    let name :=
      match typenames t with
      | first :: second :: rest =>
          if seqb first $"auto" then join $" " (second :: rest) else join $" " (typenames t)
      | _ => join $" " (typenames t)
      end in
    let modifiers_str := join_remove_empty $" " (modifiers t) in
    let return_type_str := join_remove_empty $" " [specifiers_str; name; modifiers_str] in
    Some (if remove_api_prefix then remove_api_prefixes prefixes return_type_str else return_type_str).
