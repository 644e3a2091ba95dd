From Verif Require Import PyStr.
(** The tree of C++ elements, its parents and its scopes.  An element is known by a number (Python: its identity). *)

(** src/srcmlcpp/cpp_types: the classes of elements that matter here.  [KBlock]: CppBlock and those derived from it but
    CppUnit; [KFunctionDecl]: CppFunctionDecl and CppConstructorDecl; [KLeaf]: the elements without children. *)
Inductive kind :=
  | KUnit | KBlock | KNamespace (name : str) | KStruct (name : str) | KEnum (name : str) (is_class : bool)
  | KFunctionDecl | KFunction | KConstructor | KDecl | KDeclStatement | KParameter | KParameterList | KTemplate
  | KSuperList | KLeaf.

(** The attribute of an element in which a child is stored ([RItem]: one of a list). *)
Inductive role := RType | RReturn | RParams | RTemplate | RBlock | RInit | RSupers | RDecl | RItem.

(** An element with its children, in the order of the visits below. *)
Inductive tree := Node (id : nat) (k : kind) (children : list (role * tree)).
Definition tree_id (t : tree) : nat := match t with Node n _ _ => n end.
Definition tree_kind (t : tree) : kind := match t with Node _ k _ => k end.
Definition tree_children (t : tree) : list (role * tree) := match t with Node _ _ c => c end.

(** The methods visit_cpp_breadth_first: which children are visited.
    src/srcmlcpp/cpp_types/blocks/cpp_block.py 170-178, src/srcmlcpp/cpp_types/cpp_namespace.py 49-54,
    src/srcmlcpp/cpp_types/classes/cpp_struct.py 372-381, src/srcmlcpp/cpp_types/cpp_enum.py 124-129,
    src/srcmlcpp/cpp_types/functions/cpp_function_decl.py 477-486, src/srcmlcpp/cpp_types/functions/cpp_function.py 49-54,
    src/srcmlcpp/cpp_types/functions/cpp_constructor.py 59-66, src/srcmlcpp/cpp_types/decls_types/cpp_decl.py 390-395,
    src/srcmlcpp/cpp_types/decls_types/cpp_decl_statement.py 51-56, src/srcmlcpp/cpp_types/functions/cpp_parameter.py 283-289,
    src/srcmlcpp/cpp_types/functions/cpp_parameter_list.py 152-157, src/srcmlcpp/cpp_types/template/cpp_template.py 51-56,
    src/srcmlcpp/cpp_types/classes/cpp_super_list.py 48-53. *)
Definition visited (k : kind) (r : role) : bool :=
  match k, r with
  | (KUnit | KBlock | KDeclStatement | KParameterList | KSuperList), RItem => true
  | (KNamespace _ | KEnum _ _ | KFunction), RBlock => true
  | KStruct _, (RSupers | RBlock | RTemplate) => true
  | KFunctionDecl, (RReturn | RParams | RTemplate) => true
  | KConstructor, (RBlock | RInit) => true
  | KDecl, RType => true
  | KParameter, RDecl => true
  | KTemplate, RParams => true
  | _, _ => false
  end.

(** src/srcmlcpp/cpp_types/base/cpp_element.py 238-241 [CppElementsVisitorEvent]. *)
Inductive event := OnElement (id : nat) | OnBeforeChildren (id : nat) | OnAfterChildren (id : nat).

(** src/srcmlcpp/cpp_types/base/cpp_element.py 78-85 [visit_cpp_breadth_first] and those cited at [visited]: the events
    the visitor function is called with, in order.  A function definition has a body in a well formed tree; an element
    without children gets a single event. *)
Fixpoint visit (t : tree) : list event :=
  match t with
  | Node n k children =>
      match k with
      | KLeaf => [OnElement n]
      | _ => OnElement n :: OnBeforeChildren n ::
             concat (map (fun rc => if visited k (fst rc) then visit (snd rc) else []) children) ++ [OnAfterChildren n]
      end
  end.

(** Where the attribute parent points to: an element, or the wrapper of XML an element was made from. *)
Inductive owner := Element (id : nat) | Wrapper (id : nat).
(** The attribute parent of all elements; [None]: None, or not set. *)
Definition parents := nat -> option owner.
Definition set_parent (pm : parents) (n : nat) (o : option owner) : parents :=
  fun m => if n =? m then o else pm m.

(** src/srcmlcpp/cpp_types/base/cpp_element.py 208-232 [fill_children_parents], [visitor_fill_parent]: the state is the stack
    and the parents; [None] when an assertion fails or the stack is empty. *)
Definition fill_event (st : option (list (option owner) * parents)) (e : event)
  : option (list (option owner) * parents) :=
  match st with
  | None => None
  | Some (stack, pm) =>
      match e with
      | OnElement n =>
          match stack with
          | [] => None
          | [top] => Some (stack, set_parent pm n top)
          | None :: _ => None
          | last :: _ => Some (stack, set_parent pm n last)
          end
      | OnBeforeChildren n => Some (Some (Element n) :: stack, pm)
      | OnAfterChildren _ => match stack with [] => None | _ :: r => Some (r, pm) end
      end
  end.
(** src/srcmlcpp/cpp_types/base/cpp_element.py 208-232 [fill_children_parents]. *)
Definition fill_children_parents (t : tree) (pm : parents) : option parents :=
  let top_parent := match tree_kind t with KUnit => None | _ => pm (tree_id t) end in
  match fold_left fill_event (visit t) (Some ([top_parent], pm)) with
  | Some (_, pm') => Some pm'
  | None => None
  end.

(** The parsing functions give each new element its parent.  For three of them this is the wrapper of the element and
    not the element: src/srcmlcpp/internal/cpp_types_parse.py 297-342 [parse_decl] (line 315),
    src/srcmlcpp/internal/cpp_types_parse.py 990-1009 [parse_namespace] (line 1004),
    src/srcmlcpp/internal/cpp_types_parse.py 1012-1041 [parse_enum] (line 1031). *)
Definition given_parent (k : kind) (r : role) (n : nat) : owner :=
  match k, r with
  | KDecl, RType => Wrapper n
  | KNamespace _, RBlock => Wrapper n
  | KEnum _ _, RBlock => Wrapper n
  | _, _ => Element n
  end.

(** The attributes whose assignment fills the parents again: src/srcmlcpp/cpp_types/cpp_enum.py 42-45,
    src/srcmlcpp/cpp_types/decls_types/cpp_decl.py 94-97, src/srcmlcpp/cpp_types/classes/cpp_struct.py 53-65,
    src/srcmlcpp/cpp_types/functions/cpp_function.py 27-30, src/srcmlcpp/cpp_types/functions/cpp_constructor.py 28-40,
    src/srcmlcpp/cpp_types/cpp_namespace.py 31-34, src/srcmlcpp/cpp_types/template/cpp_template.py 40-43.
    The elements of lists are appended, which fills nothing. *)
Definition assignment_fills (k : kind) (r : role) : bool :=
  match k, r with
  | KEnum _ _, RBlock | KDecl, RType | KStruct _, (RBlock | RSupers) | KFunction, RBlock
  | KConstructor, (RBlock | RInit) | KNamespace _, RBlock | KTemplate, RParams => true
  | _, _ => false
  end.

(** src/srcmlcpp/internal/cpp_types_parse.py 60-1060: the construction of a tree, as far as parents are concerned.  The
    element is made with its parent; each child is parsed, then assigned.  When an assignment fills the parents, only
    the children assigned so far are there: [done]. *)
Fixpoint load (given : option owner) (t : tree) (pm : parents) : option parents :=
  match t with
  | Node n k children =>
      (fix attach (done todo : list (role * tree)) (pm : parents) : option parents :=
         match todo with
         | [] => Some pm
         | (r, c) :: todo' =>
             match load (Some (given_parent k r n)) c pm with
             | None => None
             | Some pm1 =>
                 let done' := done ++ [(r, c)] in
                 if assignment_fills k r
                 then match fill_children_parents (Node n k done') pm1 with
                      | None => None
                      | Some pm2 => attach done' todo' pm2
                      end
                 else attach done' todo' pm1
             end
         end) [] children (set_parent pm n given)
  end.
(** src/srcmlcpp/internal/cpp_types_parse.py 944-949 [parse_unit]. *)
Definition parse_unit (t : tree) : option parents :=
  match load None t (fun _ => None) with
  | None => None
  | Some pm => fill_children_parents t pm
  end.

(** Finding the element that has a given number (Python has the element itself). *)
Fixpoint find_tree (n : nat) (t : tree) : option tree :=
  match t with
  | Node m k children =>
      if m =? n then Some t
      else (fix first (l : list (role * tree)) : option tree :=
              match l with
              | [] => None
              | (_, c) :: l' => match find_tree n c with Some x => Some x | None => first l' end
              end) children
  end.

(** src/srcmlcpp/cpp_types/base/cpp_element.py 176-190 [ancestors_list], as the loop from a given start; [None] when the loop does
    not end within [fuel] steps or meets an element without parent attribute (a wrapper). *)
Fixpoint ancestors_from (fuel : nat) (pm : parents) (o : option owner) : option (list nat) :=
  match o with
  | None => Some []
  | Some (Wrapper _) => None
  | Some (Element n) =>
      match fuel with
      | 0 => None
      | S f => option_map (cons n) (ancestors_from f pm (pm n))
      end
  end.
Definition ancestors_list (fuel : nat) (pm : parents) (n : nat) (include_self : bool) : option (list nat) :=
  ancestors_from fuel pm (if include_self then Some (Element n) else pm n).

(** src/srcmlcpp/cpp_types/base/cpp_element.py 97-109 [self_scope]; only the name is kept. *)
Definition self_scope (k : kind) : option str :=
  match k with
  | KStruct name => Some name
  | KNamespace name => Some name
  | KEnum name _ => Some name
  | _ => None
  end.

(** src/srcmlcpp/cpp_types/decls_types/cpp_decl.py 397-408 [parent_enum_if_applicable], with the test that follows it: an
    enumerator of an enum which is not an enum class. *)
Definition kind_at (t : tree) (o : option owner) : option kind :=
  match o with
  | Some (Element n) => option_map tree_kind (find_tree n t)
  | _ => None
  end.
Definition in_c_enum (t : tree) (pm : parents) (n : nat) : bool :=
  match kind_at t (Some (Element n)), kind_at t (pm n) with
  | Some KDecl, Some KBlock =>
      match pm n with
      | Some (Element b) => match kind_at t (pm b) with Some (KEnum _ false) => true | _ => false end
      | _ => false
      end
  | _, _ => false
  end.

Definition names_of (t : tree) (l : list nat) : list str :=
  concat (map (fun n => match kind_at t (Some (Element n)) with
                        | Some k => match self_scope k with Some s => [s] | None => [] end
                        | None => []
                        end) l).

(** src/srcmlcpp/cpp_types/base/cpp_element.py 136-174 [cpp_scope] without the cache (see below): the names of the parts. *)
Definition cpp_scope (fuel : nat) (t : tree) (pm : parents) (n : nat) (include_self : bool) : option (list str) :=
  match ancestors_list fuel pm n include_self with
  | None => None
  | Some l =>
      let ancestors := rev l in
      let ancestors := if in_c_enum t pm n then firstn (length ancestors - 2) ancestors else ancestors in
      Some (names_of t ancestors)
  end.

(** src/srcmlcpp/cpp_types/base/cpp_element.py 146-151 and 169-174: the cache of an element. *)
Definition scope_cache := nat -> bool -> option (list str).
Definition cpp_scope_cached (fuel : nat) (t : tree) (pm : parents) (c : scope_cache) (n : nat) (include_self : bool)
  : option (list str) * scope_cache :=
  match c n include_self with
  | Some s => (Some s, c)
  | None =>
      match cpp_scope fuel t pm n include_self with
      | None => (None, c)
      | Some s => (Some s, fun m b => if (n =? m) && Bool.eqb include_self b then Some s else c m b)
      end
  end.

(** src/srcmlcpp/cpp_types/blocks/cpp_block.py 180-189 [all_cpp_elements_recursive]: the elements met by the visit. *)
Definition all_elements (t : tree) : list nat :=
  concat (map (fun e => match e with OnElement n => [n] | _ => [] end) (visit t)).
