From Verif Require Import PyStr RegionsModel TextModel CommentModel FillModel NamedModel OverloadModel EnumModel ClassModel.
(** The stub of a class and of what is inside it. *)

(** What the stub tells of a class, besides what ClassModel.v has: the names of its bases in Python, with their access
    (src/litgen/internal/cpp_to_python.py 700-704, names with dots), and those of the callback class_custom_inheritance__callback; the comment
    which tells of which instance of a template it is (adapted_class.py 558-559); its comments in C++ and its location comment; the text of the
    constructor made for it (adapted_class.py 1497-1522 [stub_code], see NamedModel.v); the Python type of its items, if it is iterable; its
    custom code (adapted_class.py 623-627), already cut into lines. *)
Record extra := Extra {
  x_bases : list (access * str); x_custom : list str; x_note : str; x_previous : str; x_eol : str; x_location : str; x_ctor_text : str;
  x_items : str; x_code : list str }.
(** The elements of a class or a header, as in ClassModel.v, with both the lines of the stub and those of the binding for those which are
    neither classes nor enums; overloads with the same signature are already removed (OverloadModel.v). *)
Inductive node :=
  | NOther (k : ekind) (stub binding : list str)
  | NEnum (e : cpp_enum) (location stub_location : str)
  | NClass (h : head) (x : extra) (children : list node) (protected : list (list str * list str)).
Fixpoint to_child (c : node) : child :=
  match c with
  | NOther _ _ b => COther b
  | NEnum e l _ => CEnum e l
  | NClass h x children protected => CClass h (map to_child children) (map snd protected)
  end.

(** src/litgen/internal/adapted_types/line_spacer.py 60-97: a loop which uses a spacer, with what the spacer holds after it. *)
Fixpoint spaced (layout : bool) (last : option ekind) (els : list (ekind * list str)) : list str * option ekind :=
  match els with
  | [] => ([], last)
  | (k, ls) :: r =>
      let (spacing, last) := spacing_python layout last k ls in
      let (rest, last) := spaced layout last r in
      (spacing ++ ls ++ rest, last)
  end.

Section StubTree.
Variable o : class_env.
(** class_copy_add_info_in_stub; the options which are the same for enums are those of [cl_enum]. *)
Variable copy_info : bool.
Notation eo := (cl_enum o).

(** src/litgen/internal/adapted_types/adapted_class.py 523-546 [str_parent_classes_python]. *)
Definition parents_text (x : extra) : str :=
  match (match x_custom x with [] => map snd (x_bases x) | cs => cs end) with
  | [] => []
  | ps => $"(" ++ join $", " ps ++ $")"
  end.
(** src/litgen/internal/adapted_types/adapted_class.py 905-919 [_cp_stub_comment]. *)
Definition copy_comment (h : head) : str :=
  if copy_info then
    match (if shall_copy o h false then [$"copy.copy"] else []) ++ (if shall_copy o h true then [$"copy.deepcopy"] else []) with
    | [] => []
    | l => $"(has support for " ++ join $" and " l ++ $")"
    end
  else [].
(** src/litgen/internal/adapted_types/adapted_class.py 561-566: the comment before the class is changed for good. *)
Definition told (h : head) (previous : str) : str :=
  let p := if h_final h then previous ++ [nl] ++ $"(final class)" else previous in
  match copy_comment h with [] => p | c => p ++ [nl] ++ c end.
(** src/litgen/internal/adapted_types/adapted_class.py 593-617 [make_iterable_code]. *)
Definition stub_iterable (h : head) (x : extra) : list str :=
  if cl_iterable o (h_python h) then
    lines (process_code_template (unlines
      [$"def __iter__(self) -> Iterator[{iterator_class_name_python}]:"; $"{_i_}pass"; $"def __len__(self) -> int:"; $"{_i_}pass"])
      [($"_i_", cl_indent o); ($"iterator_class_name_python", x_items x)] [] true)
  else [].
(** src/litgen/internal/adapted_types/adapted_class.py 568-627: the body, from the lines of the children. *)
Definition stub_body (h : head) (x : extra) (els : list (ekind * list str)) (protected : list (list str)) : list str :=
  let (body, last) := spaced (eo_layout eo) None els in
  body
  ++ (if negb (h_ctor h) && negb (h_deleted h) then lines (x_ctor_text x) else [])
  ++ match protected with
     | [] => []
     | _ => [[]; $"# <protected_methods>"] ++ fst (spaced (eo_layout eo) last (map (pair KFunction) protected)) ++ [$"# </protected_methods>"; []]
     end
  ++ stub_iterable h x ++ x_code x.
(** src/litgen/internal/adapted_types/adapted_class.py 499-626 [stub_lines], without the lines which are put around and between the instances
    of a template class, which are empty or comments. *)
Definition class_stub (h : head) (x : extra) (els : list (ekind * list str)) (protected : list (list str)) : list str :=
  stub_layout_lines (eo_strip eo) (eo_layout eo) (eo_replacements eo) ($"class " ++ h_python h ++ parents_text x ++ $":" ++ x_note x) []
    (x_location x) (told h (x_previous x)) (x_eol x) (stub_body h x els protected) (eo_py_indent eo).
(** The options of an enum, with its location comment. *)
Definition stub_enum_at (location : str) : enum_options :=
  EnumOptions (eo_nanobind eo) (eo_skip_count eo) (eo_size_name eo) (eo_arithmetic eo) (eo_flag eo) (eo_export eo) (eo_enum_name eo)
    (eo_value_name eo) (eo_value eo) (eo_strip eo) (eo_layout eo) (eo_replacements eo) (eo_show_code eo) (eo_py_indent eo) (eo_cpp_indent eo)
    location (eo_location_cpp eo) (eo_parent eo).
(** src/litgen/internal/adapted_types/stub_overload_dedup.py 36-41: what each child gives, with its kind. *)
Fixpoint node_stub (c : node) : ekind * list str :=
  match c with
  | NOther k s _ => (k, s)
  | NEnum e _ l => (KEnum, enum_stub (stub_enum_at l) e)
  | NClass h x children protected => (KClass, class_stub h x (map node_stub children) (map fst protected))
  end.
(** src/litgen/internal/adapted_types/adapted_block.py 172-187. *)
Definition forest_stub (cs : list node) : list str := block_stub_lines (eo_layout eo) (map node_stub cs).
End StubTree.
