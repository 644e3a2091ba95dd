From Verif Require Import PyStr PyDict RegionsModel TextModel FillModel CommentModel ModuleModel TypeTextModel.
(** The PImpl tool: from a class which is kept in a C++ file, the class which is published in a header and the code which links them. *)

(** ** Comments *)

(** The comments of an element: above it (and whether they were between slashes and stars), and behind it. *)
Record note := Note { n_previous : str; n_c_style : bool; n_eol : str }.
(** src/srcmlcpp/cpp_types/base/cpp_element_comments.py 73-77. *)
Definition add_line_comment_token_if_needed (l : str) : str := if startswith $"//" (strip l) then l else $"//" ++ l.
(** src/srcmlcpp/cpp_types/base/cpp_element_comments.py 68-88 [top_comment_code]. *)
Definition top_comment_code (add_eol : bool) (n : note) : str :=
  if n_c_style n then $"/*" ++ n_previous n ++ $"*/"
  else
    let t := unlines (map add_line_comment_token_if_needed (splitlines (n_previous n))) in
    if add_eol then match t with [] => [] | _ => if endswith [nl] t then t else t ++ [nl] end
    else rev (dropwhile (ceqb nl) (rev t)).

(** ** The class *)

(** A method: its return type if it has one, its name, for each parameter its declaration (with its default value) and its name,
    whether const is among its specifiers, its comments. *)
Record func := Func { f_result : option ctype; f_name : str; f_params : list (str * str); f_const : bool; f_note : note }.
(** What is in a public block: constructors, methods, destructors, empty lines, comments, and the rest (variables, classes...). *)
Inductive child := Ctor (params : list (str * str)) (n : note) | Method (f : func) | Dtor | Blank | Remark (text : str) | Rest.
(** The class: its name, whether it is a class or a struct, its comments, its public blocks
    (src/srcmlcpp/cpp_types/classes/cpp_struct.py 195-204 [get_access_blocks]). *)
Record pclass := PClass { p_name : str; p_is_class : bool; p_note : note; p_public : list (list child) }.
(** src/srcmlcpp_tools/pimpl_my_class/pimpl_my_class.py 34-55 [PimplOptions]; [None] for a negative limit. *)
Record poptions := POptions { po_suffixes : list str; po_indent : str; po_indent_public : str; po_max_empty : option nat; po_linefeed : bool; po_member : str }.
Definition pimpl_suffixes : list str := map lit ["_pimpl"; "_impl"; "pimpl"; "impl"; "_PImpl"; "_Impl"; "PImpl"; "Impl"; "_Pimpl"; "Pimpl"]%string.
Definition default_options : poptions := POptions pimpl_suffixes $"    " $"  " (Some 2) true $"mPImpl".

Section Pimpl.
Variable o : poptions.

(** src/srcmlcpp_tools/pimpl_my_class/pimpl_my_class.py 69-74 [_published_class_name]; [None]: an exception is raised. An empty suffix
    would leave an empty name. *)
Fixpoint published_class_name (suffixes : list str) (name : str) : option str :=
  match suffixes with
  | [] => None
  | s :: r => if endswith s name then Some (match s with [] => [] | _ => cut_end (length s) name end) else published_class_name r name
  end.

(** ** Methods *)

(** list.remove of a specifier, if it is there. *)
Definition remove_specifier (s : str) (t : ctype) : ctype :=
  if smem s (specifiers t) then CType (typenames t) (list_remove s (specifiers t)) (modifiers t) else t.
(** src/srcmlcpp_tools/pimpl_my_class/pimpl_my_class.py 122-129 [_remove_published_incompatible_specifiers]. *)
Definition remove_incompatible (t : ctype) : ctype := remove_specifier $"constexpr" (remove_specifier $"inline" t).
(** src/srcmlcpp/cpp_types/decls_types/cpp_type.py 145-146 [is_void]. *)
Definition is_void (t : ctype) : bool :=
  match typenames t, specifiers t, modifiers t with [n], [], [] => seqb n $"void" | _, _, _ => false end.
(** The text of a return type, if there is one; an exception is [None]. *)
Definition result_code (r : option ctype) : option str := match r with None => Some [] | Some t => str_code t end.
Definition params_code (ps : list (str * str)) : str := join $", " (map fst ps).
Definition names_code (ps : list (str * str)) : str := join $", " (map snd ps).
(** src/srcmlcpp_tools/pimpl_my_class/pimpl_my_class.py 86-101: the templates, after unindent_code. *)
Definition method_impl_template (static : bool) : str := unlines
  [$"{return_type} {class_published}::{method_name}({params_list}) {maybe_const}{";
   (if static then $"{_i_}{maybe_return}{class_impl}::{method_name}({param_names}); }" else $"{_i_}{maybe_return}{impl_name}->{method_name}({param_names}); }")].
(** src/srcmlcpp_tools/pimpl_my_class/pimpl_my_class.py 76-120 [_published_method_glue_impl]. *)
Definition method_impl (impl published : str) (f : func) : option str :=
  let static := match f_result f with Some t => smem $"static" (specifiers t) | None => false end in
  let result := option_map (fun t => remove_incompatible (if static then remove_specifier $"static" t else t)) (f_result f) in
  match result_code result with
  | None => None
  | Some text =>
      Some (process_code_template (method_impl_template static)
        [($"_i_", po_indent o); ($"class_published", published); ($"class_impl", impl); ($"impl_name", po_member o); ($"return_type", text);
         ($"method_name", f_name f); ($"params_list", params_code (f_params f));
         ($"maybe_return", match result with None => [] | Some t => if is_void t then [] else $"return " end);
         ($"param_names", names_code (f_params f)); ($"maybe_const", if f_const f then $"const " else [])] [] true)
  end.
(** src/srcmlcpp_tools/pimpl_my_class/pimpl_my_class.py 139-144: the template, after unindent_code. *)
Definition method_decl_template : str := $"{top_comment}{return_type} {method_name}({params_list}){maybe_const};{maybe_eol_comment}".
(** src/srcmlcpp_tools/pimpl_my_class/pimpl_my_class.py 131-158 [_published_method_decl]: the specifiers are removed a second time. *)
Definition method_decl (f : func) : option str :=
  match result_code (option_map (fun t => remove_incompatible (remove_incompatible t)) (f_result f)) with
  | None => None
  | Some text =>
      Some (process_code_template method_decl_template
        [($"top_comment", top_comment_code true (f_note f)); ($"return_type", text); ($"method_name", f_name f); ($"params_list", params_code (f_params f));
         ($"maybe_eol_comment", eol_comment_code (n_eol (f_note f))); ($"maybe_const", if f_const f then $" const" else [])]
        [($"top_comment", Some (top_comment_code false (f_note f)))] true)
  end.

(** ** Constructors *)

(** src/srcmlcpp_tools/pimpl_my_class/pimpl_my_class.py 161-167: the template, after unindent_code. *)
Definition constructor_impl_template : str := unlines
  [$"{class_published}::{class_published}({param_list})"; $"{_i_}: {impl_name}(std::make_unique<{class_impl}>({param_names})) { }"].
(** src/srcmlcpp_tools/pimpl_my_class/pimpl_my_class.py 160-180 [_published_constructor_impl]. *)
Definition constructor_impl (impl published : str) (ps : list (str * str)) : str :=
  process_code_template constructor_impl_template
    [($"_i_", po_indent o); ($"param_list", params_code ps); ($"class_published", published); ($"class_impl", impl); ($"impl_name", po_member o);
     ($"param_names", names_code ps)] [] true.
(** src/srcmlcpp_tools/pimpl_my_class/pimpl_my_class.py 182-200 [_published_constructor_decl]. *)
Definition constructor_decl_template : str := $"{top_comment}{class_published}({param_list});{maybe_eol_comment}".
Definition constructor_decl (published : str) (ps : list (str * str)) (n : note) : str :=
  process_code_template constructor_decl_template
    [($"top_comment", top_comment_code true n); ($"class_published", published); ($"param_list", params_code ps); ($"maybe_eol_comment", eol_comment_code (n_eol n))]
    [($"top_comment", Some (top_comment_code false n))] true.

(** ** The class *)

Fixpoint all_of (l : list (option str)) : option (list str) :=
  match l with
  | [] => Some []
  | None :: _ => None
  | Some x :: r => option_map (cons x) (all_of r)
  end.
(** src/srcmlcpp_tools/pimpl_my_class/pimpl_my_class.py 202-214 [_glue_code], for one child. *)
Definition child_impl (impl published : str) (c : child) : option str :=
  match c with
  | Ctor ps _ => Some (constructor_impl impl published ps ++ [nl])
  | Method f => option_map (fun t => t ++ [nl]) (method_impl impl published f)
  | _ => Some []
  end.
Definition glue_code (c : pclass) (published : str) : option str :=
  option_map (fun l => concat l ++ published ++ $"::~" ++ published ++ $"() = default;" ++ [nl])
    (all_of (map (child_impl (p_name c) published) (concat (p_public c)))).
(** src/srcmlcpp_tools/pimpl_my_class/pimpl_my_class.py 216-232 [_published_method_decls], for one child. *)
Definition child_decl (published : str) (c : child) : option str :=
  match c with
  | Ctor ps n => Some (constructor_decl published ps n ++ [nl])
  | Method f => option_map (fun t => t ++ [nl]) (method_decl f)
  | Blank => Some [nl]
  | Remark t => Some (t ++ [nl])
  | Dtor | Rest => Some []
  end.
Definition published_method_decls (c : pclass) (published : str) : option str :=
  option_map (fun l => let t := concat l in indent_code (if endswith [nl] t then cut_end 1 t else t) 1 false (Some (po_indent o)) true)
    (all_of (map (child_decl published) (concat (p_public c)))).
(** src/srcmlcpp_tools/pimpl_my_class/pimpl_my_class.py 235-249: the template, after unindent_code. *)
Definition header_template : str := unlines
  [$"{class_or_struct} {impl_class_name};"; []; $"{top_comment}"; $"{class_or_struct} {published_class_name}{maybe_eol_comment}{linefeed_or_space}{";
   $"{i}{maybe_public}"; $"{published_methods}"; $"{_i_}~{published_class_name}();"; $"{i}private:"; $"{_i_}std::unique_ptr<{impl_class_name}> {impl_name};"; $"};"].
(** src/srcmlcpp_tools/pimpl_my_class/pimpl_my_class.py 234-273 [_header_code]. *)
Definition header_code (c : pclass) (published : str) : option str :=
  option_map (fun methods =>
    code_set_max_consecutive_empty_lines
      (process_code_template header_template
        [($"linefeed_or_space", if po_linefeed o then [nl] else $" "); ($"_i_", po_indent o); ($"i", po_indent_public o);
         ($"class_or_struct", if p_is_class c then $"class" else $"struct"); ($"maybe_eol_comment", eol_comment_code (n_eol (p_note c)));
         ($"published_class_name", published); ($"impl_class_name", p_name c); ($"impl_name", po_member o); ($"published_methods", methods)]
        [($"top_comment", Some (top_comment_code false (p_note c))); ($"maybe_public", Some (if p_is_class c then $"public:" else []))] true)
      (po_max_empty o)) (published_method_decls c published).
(** src/srcmlcpp_tools/pimpl_my_class/pimpl_my_class.py 282-287 [pimpl_my_class]: the code of the header, and the code of the C++ file. *)
Definition pimpl_my_class (c : pclass) : option (str * str) :=
  match published_class_name (po_suffixes o) (p_name c) with
  | None => None
  | Some published =>
      match glue_code c published with
      | None => None
      | Some g => option_map (fun h => (h, g)) (header_code c published)
      end
  end.
End Pimpl.
