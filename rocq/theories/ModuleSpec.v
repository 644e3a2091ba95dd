(** Specifications for C25 to C28 and C48. *)
From Verif Require Import PyStr ScopeModel ScopeSpec OverloadModel OverloadSpec ModuleModel.

(** *** C25 *)

(** A document: fragments, then blocks, each with its name. *)
Inductive doc := Doc (own : list str) (subs : list (str * doc)).

(** The fragments at a path. *)
Fixpoint frags (p : list str) (d : doc) : list str :=
  match p, d with
  | [], Doc own _ => own
  | n :: p', Doc _ subs =>
      (fix find (l : list (str * doc)) : list str :=
         match l with
         | [] => []
         | (m, s) :: l' => if seqb m n then frags p' s else find l'
         end) subs
  end.

(** Names are used once per block and no block is empty. *)
Inductive wf_doc : doc -> Prop :=
  | wf_Doc own subs :
      NoDup (map fst subs) ->
      Forall (fun s => wf_doc (snd s) /\ exists p, frags p (snd s) <> []) subs ->
      wf_doc (Doc own subs).

(** Fragments one after the other, on separate lines. *)
Definition next_paragraph (acc c : str) : str :=
  (match acc with
   | [] => []
   | _ => if endswith [nl] acc then acc else acc ++ [nl]
   end) ++ c.
Definition paragraphs (l : list str) : str := fold_left next_paragraph l [].

Definition shift (ind text : str) : str :=
  unlines (map (fun l => match l with [] => [] | _ => ind ++ rstrip l end) (lines text)).

Section Text.
Variable ct : code_type.
Variable shown_name : str -> str.
Variable ind : str.
Definition opening (n : str) : str :=
  match ct with
  | Stub => [nl] ++ $"# <submodule " ++ shown_name n ++ $">" ++ [nl]
  | Pydef => [nl] ++ $"{ // <namespace " ++ n ++ $">" ++ [nl]
  end.
Definition closing (n : str) : str :=
  match ct with
  | Stub => [nl] ++ $"# </submodule " ++ shown_name n ++ $">" ++ [nl]
  | Pydef => [nl] ++ $"} // </namespace " ++ n ++ $">" ++ [nl]
  end.

(** The text of the block [n], or of the whole document when [n] is empty: a block without text of
    its own is not shown as a block. *)
Fixpoint doc_text (n : str) (d : doc) : str :=
  match d with
  | Doc own subs =>
      let inner f :=
        concat (map (fun s => f (doc_text (fst s) (snd s))) subs) in
      match n, paragraphs own with
      | [], t => t ++ inner (fun x => x)
      | _, [] => inner (fun x => x)
      | _, t => opening n ++ t ++ inner (shift ind) ++ closing n
      end
  end.
End Text.

(** The path of a qualified name. *)
Definition path_of (roots : list str) (sc : list str) : list str :=
  filter (fun n => negb (smem n roots)) sc.

Definition same_path (p q : list str) : bool := if list_eq_dec (list_eq_dec Ascii.ascii_dec) p q then true else false.

(** A sequence of recordings, each a scope and a code; the names of the scope are non-empty, without
    colon, not all roots. *)
Definition recordable (roots : list str) (sc : list str) : Prop :=
  Forall clean sc /\ path_of roots sc <> [].

Definition record_all (roots : list str) (log : list (list str * str)) (t : tree) : tree :=
  fold_left (fun t r => store_code roots (str_cpp (fst r)) (snd r) t) log t.

(** The codes recorded for a path. *)
Definition recorded_at (roots : list str) (log : list (list str * str)) (p : list str) : list str :=
  map snd (filter (fun r => same_path (path_of roots (fst r)) p) log).

(** *** C26 *)

(** One opening of a namespace: scope around it, name, one line comment, docstring, what it holds
    directly. *)
Record opened := { o_around : list str; o_name : str; o_doc : str; o_docstring : list str; o_body : list str }.
Definition o_scope (o : opened) : list str := o_around o ++ [o_name o].

Section Openings.
Variable roots : list str.
Variable spacer : option ekind -> ekind -> list str -> list str * option ekind.
(** the end of a root namespace, [[[]]] in stubs *)
Variable tail_ : list str.

(** What the elements show outside of submodules. *)
Fixpoint direct (it : item) : list str :=
  match it with
  | Elem _ ls => ls
  | Ns name _ _ items =>
      if smem name roots then
        lines_with spacer None (map (fun it => (item_kind it, direct it)) items) ++ tail_
      else []
  end.
Definition direct_block (items : list item) : list str :=
  lines_with spacer None (map (fun it => (item_kind it, direct it)) items).

(** The openings of submodules, innermost first. *)
Fixpoint openings (around : list str) (it : item) : list opened :=
  match it with
  | Elem _ _ => []
  | Ns name doc docstring items =>
      flat_map (openings (around ++ [name])) items ++
      (if smem name roots then []
       else [{| o_around := around; o_name := name; o_doc := doc; o_docstring := docstring;
                o_body := direct_block items |}])
  end.
End Openings.

(** No two openings share a place in the output unless they open the same namespace. *)
Definition no_clash (roots : list str) (l : list opened) : Prop :=
  forall a b, In a l -> In b l -> path_of roots (o_scope a) = path_of roots (o_scope b) -> o_scope a = o_scope b.

Definition clean_openings (l : list opened) : Prop := Forall (fun o => Forall clean (o_scope o)) l.


Definition at_path (roots : list str) (p : list str) (os : list opened) : list opened :=
  filter (fun o => same_path (path_of roots (o_scope o)) p) os.
Definition unit_openings roots spacer tail_ (items : list item) : list opened :=
  flat_map (openings roots spacer tail_ []) items.

Definition custom_lines (custom : str -> str -> option str) (roots : list str) (o : opened) : list str :=
  match custom (str_cpp (o_scope o)) (var_name roots (o_scope o)) with
  | None => []
  | Some c => splitlines c
  end.

(** Binding code of an opening: the creation of the submodule when it is the first one, what the
    namespace holds and its custom code. *)
Definition pydef_frag (ind : str) (custom : str -> str -> option str) (roots : list str)
    (create : opened -> str) (first : bool) (o : opened) : str :=
  shift ind (unlines ((if first then lines (create o) else []) ++ o_body o ++ custom_lines custom roots o)).

(** Stub of an opening: header of a class and docstring when it is the first one. *)
Definition stub_frag (ind : str) (custom : str -> str -> option str) (roots : list str)
    (header : opened -> list str) (first : bool) (o : opened) : str :=
  unlines ((if first then header o else []) ++
           lines (shift ind (unlines ((if first then o_docstring o else []) ++ o_body o ++ [[]]
                                      ++ custom_lines custom roots o)))).

(** All the openings of one namespace: created first, then only continued. *)
Definition created_once (frag : bool -> opened -> str) (l : list opened) : list str :=
  match l with
  | [] => []
  | o :: rest => frag true o :: map (frag false) rest
  end.

Definition stub_spacer (layout : bool) (last : option ekind) (k : ekind) (ls : list str) : list str * option ekind :=
  if layout then ([], last) else spacing_cpp last k ls.

(** *** C27 and C28 *)

(** One registration: qualified name ([] for the main module), stub code and binding code. *)
Record registration := { r_where : str; r_stub : option str; r_pydef : option str }.
Definition register_all (rs : list registration) : custom :=
  fold_left (fun cb r => add_custom_bindings cb (r_where r) (r_stub r) (r_pydef r)) rs no_custom.

(** The codes registered for a name, in order. *)
Fixpoint registered (is_pydef : bool) (q : str) (rs : list registration) : list str :=
  match rs with
  | [] => []
  | r :: rs' =>
      (match (if is_pydef then r_pydef r else r_stub r) with
       | Some c => if seqb (r_where r) q then [c] else []
       | None => []
       end) ++ registered is_pydef q rs'
  end.

(** Every occurrence of [target], read from left to right, becomes [var]. *)
Definition substituted (target var text : str) : str := join var (split target text).

Definition on_own_lines (t : str) : str :=
  let t := match t with c :: _ => if ceqb c nl then t else nl :: t | [] => [nl] end in
  if ceqb (last t nl) nl then t else t ++ [nl].

(** What is expected for a scope: nothing, or its codes on consecutive lines. *)
Definition expected_custom (tidy : str -> str) (target var : str) (codes : list str) : option str :=
  match codes with
  | [] => None
  | _ => Some (on_own_lines (join [nl] (map (fun c => substituted target var (tidy c)) codes)))
  end.

(** *** C48 *)

(** The stub and binding code of successive headers. *)
Fixpoint adapted {ctx : Type} (adapt : ctx -> str -> str -> ctx * (str * str)) (c : ctx) (hs : list (str * str))
    : list generated * ctx :=
  match hs with
  | [] => ([], c)
  | (code, filename) :: hs' =>
      let '(c1, (stub, pydef)) := adapt c code filename in
      let '(l, c2) := adapted adapt c1 hs' in
      ({| source_filename := filename; gen_pydef := pydef; gen_stub := stub |} :: l, c2)
  end.

(** Texts added to the first code only. *)
Definition opt_text (o : option str) : str := match o with Some t => t | None => [] end.
Definition add_to_first (stub pydef : option str) (l : list generated) : list generated :=
  match l with
  | [] => []
  | g :: l' => {| source_filename := source_filename g; gen_pydef := gen_pydef g ++ opt_text pydef;
                  gen_stub := gen_stub g ++ opt_text stub |} :: l'
  end.

(** Strictly increasing. *)
Inductive increasing : list str -> Prop :=
  | inc_nil : increasing []
  | inc_cons x l : Forall (fun y => str_ltb x y = true) l -> increasing l -> increasing (x :: l).

(** Text without lines made of spaces only. *)
Definition tidy_blank_lines (t : str) : str := unlines (map (fun l => if blank l then [] else l) (lines t)).

(** The marked text of one code. *)
Definition marked (short : str -> str) (token : ascii) (g : generated) (text : str) : str :=
  match source_filename g with
  | [] => text
  | f => repeat token 20 ++ $"    <generated_from:" ++ short f ++ $">    " ++ repeat token 20 ++ [nl]
         ++ text
         ++ repeat token 20 ++ $"    </generated_from:" ++ short f ++ $">    " ++ repeat token 20 ++ [nl]
  end.

(** The statement that creates a submodule: a variable named after the namespaces that are not roots,
    made from the variable of the module around. *)
Definition module_var (path : list str) : str :=
  match path with
  | [] => $"m"
  | n :: p => $"pyNs" ++ n ++ concat (map (fun x => $"_Ns" ++ x) p)
  end.
Definition create_text (py : str) (shown_name : str -> str) (roots : list str) (o : opened) : str :=
  py ++ $"::module_ " ++ module_var (path_of roots (o_scope o)) ++ $" = "
    ++ module_var (path_of roots (o_around o)) ++ $".def_submodule("
    ++ [dq] ++ shown_name (o_name o) ++ [dq] ++ $", " ++ [dq] ++ o_doc o ++ [dq] ++ $");".
Definition header_lines (shown_name : str -> str) (ind : str) (o : opened) : list str :=
  [ $"class " ++ shown_name (o_name o) ++ $":  # Proxy class that introduces typings for the *submodule* " ++ shown_name (o_name o);
    ind ++ $"pass  # (This corresponds to a C++ namespace. All methods are static!)" ].
