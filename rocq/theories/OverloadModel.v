(** Model of the grouping of overloads, of their deduplication in stubs, and of the blank lines
    put between elements. *)
From Verif Require Import PyStr.

(** *** Grouping *)

Section Group.
(** Any element; [key e] is [Some name] when [e] is an overloaded [AdaptedFunction] whose C++ name
    is [name], [None] for every other element. *)
Variable A : Type.
Variable key : A -> option str.

(** Dictionaries as association lists in insertion order. *)
Fixpoint assoc {V} (d : list (str * V)) (k : str) : option V :=
  match d with
  | [] => None
  | (k', v) :: d' => if seqb k' k then Some v else assoc d' k
  end.
(** [d[k] = f(d[k])] for a present key, [d[k] = v0] for an absent one. *)
Fixpoint update {V} (d : list (str * V)) (k : str) (f : V -> V) (v0 : V) : list (str * V) :=
  match d with
  | [] => [(k, v0)]
  | (k', v) :: d' => if seqb k' k then (k', f v) :: d' else (k', v) :: update d' k f v0
  end.

(** Local variables of src/litgen/internal/adapted_types/adapted_block.py 41-82
    [group_overloaded_functions]. *)
Record gstate := { first_index : list (str * nat); result : list A; deferred : list (str * list A) }.

(** The loop, src/litgen/internal/adapted_types/adapted_block.py 55-66. *)
Definition group_step (s : gstate) (e : A) : gstate :=
  match key e with
  | Some name =>
      match assoc (first_index s) name with
      | None => {| first_index := first_index s ++ [(name, length (result s))];
                   result := result s ++ [e]; deferred := deferred s |}
      | Some _ => {| first_index := first_index s; result := result s;
                     deferred := update (deferred s) name (fun l => l ++ [e]) [e] |}
      end
  | None => {| first_index := first_index s; result := result s ++ [e]; deferred := deferred s |}
  end.

(** [sorted(..., key=lambda x: x[0], reverse=True)]. *)
Fixpoint insert_desc {V} (x : nat * V) (l : list (nat * V)) : list (nat * V) :=
  match l with
  | [] => [x]
  | y :: l' => if fst y <? fst x then x :: l else y :: insert_desc x l'
  end.
Fixpoint sort_desc {V} (l : list (nat * V)) : list (nat * V) :=
  match l with
  | [] => []
  | x :: l' => insert_desc x (sort_desc l')
  end.

(** [l.insert(i, x)]. *)
Definition list_insert (i : nat) (x : A) (l : list A) : list A := firstn i l ++ x :: skipn i l.
(** The inner loop [for j, elem in enumerate(elems)]; [at_] is [insert_after + 1 + j]. *)
Fixpoint insert_elems (at_ : nat) (elems : list A) (l : list A) : list A :=
  match elems with
  | [] => l
  | x :: elems' => insert_elems (S at_) elems' (list_insert at_ x l)
  end.

(** src/litgen/internal/adapted_types/adapted_block.py 41-82 [group_overloaded_functions]. A
    deferred name always has a first index, the [None] case below never happens. *)
Definition group_overloaded_functions (elements : list A) : list A :=
  let s := fold_left group_step elements {| first_index := []; result := []; deferred := [] |} in
  match deferred s with
  | [] => elements
  | _ =>
      let insertions :=
        sort_desc (map (fun p => (match assoc (first_index s) (fst p) with Some i => i | None => 0 end,
                                  snd p)) (deferred s)) in
      fold_left (fun l p => insert_elems (fst p + 1) (snd p) l) insertions (result s)
  end.
End Group.

(** *** Deduplication *)

Section Dedup.
(** Any element. [overloaded e] is [isinstance(e, AdaptedFunction) and e.is_overloaded]; the other
    functions stand for the methods of the same name. *)
Variable A : Type.
Variable overloaded : A -> bool.
Variable stub_python_signature : A -> str.
Variable stub_function_name_python : A -> str.
Variable stub_lines : A -> list str.

(** First pass, src/litgen/internal/adapted_types/stub_overload_dedup.py 25-33. *)
Fixpoint survivors (emitted : list str) (elements : list A) : list A :=
  match elements with
  | [] => []
  | e :: l =>
      if overloaded e then
        if smem (stub_python_signature e) emitted then survivors emitted l
        else e :: survivors (stub_python_signature e :: emitted) l
      else e :: survivors emitted l
  end.

Definition has_content (ls : list str) : bool := existsb (fun l => negb (blank l)) ls.

(** Second pass, src/litgen/internal/adapted_types/stub_overload_dedup.py 37-46, the dictionary
    [overload_counts] as a function: how many survivors were counted for a name. *)
Definition overload_count (surv : list A) (name : str) : nat :=
  length (filter (fun e => overloaded e && has_content (stub_lines e)
                           && seqb (stub_function_name_python e) name) surv).

(** [name in singleton_overloads], line 49: the name was counted, at most once. *)
Definition singleton (surv : list A) (name : str) : bool :=
  (0 <? overload_count surv name) && (overload_count surv name <=? 1).

Definition is_overload_line (l : str) : bool := seqb (strip l) $"@overload".

(** src/litgen/internal/adapted_types/stub_overload_dedup.py 10-62 [dedup_stub_lines]. *)
Definition dedup_stub_lines (elements : list A) : list (A * list str) :=
  let surv := survivors [] elements in
  map (fun e =>
         (e, if overloaded e && singleton surv (stub_function_name_python e)
             then filter (fun l => negb (is_overload_line l)) (stub_lines e)
             else stub_lines e)) surv.
End Dedup.

(** *** Spacing *)

(** The exact Python type of an element. [KGlobalDecl] is a subclass of [AdaptedDecl] and is not
    equal to it for [type(...) in ...]. *)
Inductive ekind :=
  | KFunction | KDecl | KEnum | KClass | KNamespace | KComment | KEmptyLine | KDefine
  | KConditionMacro | KGlobalDecl | KEnumDecl | KClassMember.
Definition ekind_eqb (a b : ekind) : bool :=
  match a, b with
  | KFunction, KFunction | KDecl, KDecl | KEnum, KEnum | KClass, KClass | KNamespace, KNamespace
  | KComment, KComment | KEmptyLine, KEmptyLine | KDefine, KDefine
  | KConditionMacro, KConditionMacro | KGlobalDecl, KGlobalDecl | KEnumDecl, KEnumDecl
  | KClassMember, KClassMember => true
  | _, _ => false
  end.
Definition kmem (k : ekind) (l : list ekind) : bool := existsb (ekind_eqb k) l.

Definition standout_types : list ekind := [KEnum; KClass; KNamespace].

(** src/litgen/internal/adapted_types/line_spacer.py 23-50 [LineSpacerCpp.spacing_lines]: the lines,
    and [last_element] afterwards. *)
Definition spacing_cpp (last : option ekind) (k : ekind) (ls : list str) : list str * option ekind :=
  match ls with
  | [] => ([], last)
  | _ =>
      match last with
      | None => ([], Some k)
      | Some type_last =>
          let handled := [KFunction; KDecl] ++ standout_types in
          let spacing :=
            if negb (kmem k handled) then []
            else if kmem type_last standout_types || kmem k standout_types then [[]; []] else [[]] in
          (spacing, Some k)
      end
  end.

(** src/litgen/internal/adapted_types/line_spacer.py 60-97 [LineSpacerPython.spacing_lines].
    [layout] is the option [python_reproduce_cpp_layout]. *)
Definition spacing_python (layout : bool) (last : option ekind) (k : ekind) (ls : list str)
    : list str * option ekind :=
  if layout then ([], last)
  else
  match ls with
  | [] => ([], last)
  | _ =>
      match last with
      | None => ([], Some k)
      | Some type_last =>
          let one_line := [KFunction; KDecl] ++ (if negb layout then [KComment] else []) in
          let handled := one_line ++ standout_types in
          let spacing :=
            if (ekind_eqb k KEnumDecl || ekind_eqb k KClassMember) && ekind_eqb type_last KComment
               && negb layout then [[]]
            else if negb (kmem k handled) then []
            else if kmem type_last standout_types || kmem k standout_types then [[]; []] else [[]] in
          (spacing, Some k)
      end
  end.

(** The loops that use a spacer: src/litgen/internal/adapted_types/adapted_block.py 190-206
    [AdaptedBlock.pydef_lines], src/litgen/internal/adapted_types/adapted_enum.py 231-235 and
    src/litgen/internal/adapted_types/adapted_class.py 569-572. An element is its kind and lines. *)
Fixpoint lines_with (spacer : option ekind -> ekind -> list str -> list str * option ekind)
    (last : option ekind) (els : list (ekind * list str)) : list str :=
  match els with
  | [] => []
  | (k, ls) :: els' =>
      let (spacing, last') := spacer last k ls in
      spacing ++ ls ++ lines_with spacer last' els'
  end.

(** The loop of src/litgen/internal/adapted_types/adapted_block.py 172-187
    [AdaptedBlock.stub_lines] on the deduplicated elements. *)
Definition block_stub_lines (layout : bool) (els : list (ekind * list str)) : list str :=
  if layout then flat_map snd els else lines_with spacing_cpp None els.
