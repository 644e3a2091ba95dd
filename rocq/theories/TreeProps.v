From Verif Require Import PyStr TreeModel TreeSpec TreeProofs TreeProofs2 TreeProofs3.

(** Property C50: parents and scopes. *)

(** namespace A { enum E { x }; struct S { int f(int a) { } }; } *)
Definition sample_tree : tree :=
  Node 0 KUnit [(RItem, Node 1 (KNamespace $"A") [(RBlock, Node 2 KBlock [
    (RItem, Node 3 (KEnum $"E" false) [(RBlock, Node 4 KBlock [(RItem, Node 5 KDecl [])])]);
    (RItem, Node 6 (KStruct $"S") [(RBlock, Node 7 KBlock [(RItem, Node 8 KBlock [
      (RItem, Node 9 KFunction [(RReturn, Node 10 KLeaf []);
        (RParams, Node 11 KParameterList [(RItem, Node 12 KParameter [(RDecl, Node 13 KDecl [(RType, Node 14 KLeaf [])])])]);
        (RBlock, Node 15 KBlock [])])])])])])])].

Lemma sample_unique : unique sample_tree.
Proof.
  unfold unique. cbn. repeat (constructor; [cbn; intros I; repeat (destruct I as [I|I]; [discriminate I|]); exact I|]).
  constructor.
Qed.
Lemma leaf_ok_node n k l : (k = KLeaf -> l = []) -> (forall r c, In (r, c) l -> leaf_ok c) -> leaf_ok (Node n k l).
Proof.
  intros A B s W K. destruct (within_inv n k l s W) as [->|(r & c & I & W')]; [exact (A K)|exact (B r c I s W' K)].
Qed.
Ltac leaves := apply leaf_ok_node; [discriminate || reflexivity|];
  let I := fresh in intros ? ? I; repeat (destruct I as [I|I]; [injection I as <- <-; leaves|]); destruct I.
Lemma sample_leaf_ok : leaf_ok sample_tree.
Proof. unfold sample_tree. leaves. Qed.

(** Filling: no assertion fails; every child which is visited gets the element that contains it as parent; the element
    itself keeps its parent (a unit has none); nothing else changes. *)
Theorem C50_fill t pm : unique t -> leaf_ok t -> exists pm', fill_children_parents t pm = Some pm' /\
  pm' (tree_id t) = (match tree_kind t with KUnit => None | _ => pm (tree_id t) end) /\
  (forall s r c, reached t s -> In (r, c) (tree_children s) -> visited (tree_kind s) r = true ->
     pm' (tree_id c) = Some (Element (tree_id s))) /\
  (forall m, ~ (exists s, reached t s /\ tree_id s = m) -> pm' m = pm m).
Proof. exact (fill_reached t pm). Qed.
Print Assumptions C50_fill.

Example C50_fill_case : option_map (fun pm => map pm [0; 1; 2; 9; 15; 12]) (fill_children_parents sample_tree (fun _ => None))
  = Some [None; Some (Element 0); Some (Element 1); Some (Element 8); Some (Element 9); None].
Proof. reflexivity. Qed.

(** Filling alone is not enough: the visit does not meet the parameters of a function which has a body.  (Loading gives
    them their parents otherwise, see below.) *)
Theorem C58_fill_all_refuted : exists t pm', unique t /\ leaf_ok t /\ fill_children_parents t (fun _ => None) = Some pm' /\
  ~ consistent pm' t.
Proof.
  exists sample_tree. eexists. split; [exact sample_unique|]. split; [exact sample_leaf_ok|]. split; [reflexivity|].
  set (p := Node 12 KParameter [(RDecl, Node 13 KDecl [(RType, Node 14 KLeaf [])])]).
  intros C. assert (W : within sample_tree (Node 11 KParameterList [(RItem, p)])).
  { do 2 (eapply within_step; [left; reflexivity|]). eapply within_step; [right; left; reflexivity|].
    do 3 (eapply within_step; [left; reflexivity|]). eapply within_step; [right; left; reflexivity|]. apply within_self. }
  specialize (C _ RItem p W (or_introl eq_refl)). discriminate C.
Qed.
Print Assumptions C58_fill_all_refuted.

(** Loading: after parsing, the parent of every element, visited or not, is the element that contains it. *)
Theorem C50_loaded t : unique t -> leaf_ok t -> exists pm, parse_unit t = Some pm /\ pm (tree_id t) = None /\ consistent pm t.
Proof. exact (parse_unit_ok t). Qed.
Print Assumptions C50_loaded.

Example C50_loaded_case : option_map (fun pm => map pm [0; 2; 4; 5; 12; 13; 14]) (parse_unit sample_tree)
  = Some [None; Some (Element 1); Some (Element 3); Some (Element 4); Some (Element 11); Some (Element 12); Some (Element 13)].
Proof. vm_compute. reflexivity. Qed.

(** The scope of an element: the names of the namespaces, classes and enums around it, from outer to inner. *)
Theorem C50_scope t pm l x fuel : unique t -> leaf_ok t -> parse_unit t = Some pm -> path t (l ++ [x]) ->
  length (ids t) <= fuel -> ~ c_enumerator l x -> cpp_scope fuel t pm (tree_id x) false = Some (scope_names l).
Proof.
  intros U L E P F N. destruct (parse_unit_ok t U L) as (pm' & E' & R & C). assert (pm' = pm) as -> by congruence.
  exact (scope_plain t pm U C R l x fuel P F N).
Qed.
Print Assumptions C50_scope.

(** Every element has such a path. *)
Theorem C50_path t x : within t x -> exists l, path t (l ++ [x]).
Proof. exact (within_path t x). Qed.
Print Assumptions C50_path.

Example C50_scope_case : match parse_unit sample_tree with
  | Some pm => map (fun n => cpp_scope 16 sample_tree pm n false) [0; 1; 3; 6; 9; 13]
      = [Some []; Some []; Some [$"A"]; Some [$"A"]; Some [$"A"; $"S"]; Some [$"A"; $"S"]]
  | None => False
  end.
Proof. vm_compute. reflexivity. Qed.

(** The values of an enum which is not an enum class belong to the scope around the enum. *)
Theorem C50_scope_enumerator t pm l e b x name fuel : unique t -> leaf_ok t -> parse_unit t = Some pm ->
  path t (l ++ [e; b; x]) -> length (ids t) <= fuel ->
  tree_kind e = KEnum name false -> tree_kind b = KBlock -> tree_kind x = KDecl ->
  cpp_scope fuel t pm (tree_id x) false = Some (scope_names l).
Proof.
  intros U L E P F Ke Kb Kx. destruct (parse_unit_ok t U L) as (pm' & E' & R & C). assert (pm' = pm) as -> by congruence.
  exact (scope_enumerator t pm U C R l e b x name fuel P F Ke Kb Kx).
Qed.
Print Assumptions C50_scope_enumerator.

Example C50_scope_enumerator_case : match parse_unit sample_tree with
  | Some pm => cpp_scope 16 sample_tree pm 5 false = Some [$"A"]
  | None => False
  end.
Proof. vm_compute. reflexivity. Qed.

(** Property C58: queries over the whole tree.
    The scope with the element itself.  Partial: for the values of an enum which is not an enum class this is false, see
    the refutation. *)
Theorem C58_scope_self_partial t pm l x fuel : unique t -> leaf_ok t -> parse_unit t = Some pm -> path t (l ++ [x]) ->
  length (ids t) <= fuel -> ~ c_enumerator l x -> cpp_scope fuel t pm (tree_id x) true = Some (scope_names (l ++ [x])).
Proof.
  intros U L E P F N. destruct (parse_unit_ok t U L) as (pm' & E' & R & C). assert (pm' = pm) as -> by congruence.
  exact (scope_self t pm U C R l x fuel P F N).
Qed.
Print Assumptions C58_scope_self_partial.

Example C58_scope_self_case : match parse_unit sample_tree with
  | Some pm => map (fun n => cpp_scope 16 sample_tree pm n true) [1; 3; 6; 9]
      = [Some [$"A"]; Some [$"A"; $"E"]; Some [$"A"; $"S"]; Some [$"A"; $"S"]]
  | None => False
  end.
Proof. vm_compute. reflexivity. Qed.

(** The value of an enum which is not an enum class has no scope of its own, yet asking for its scope with itself gives
    that of the enum, which is not where the value is: two elements are dropped, one of which is the value. *)
Theorem C58_scope_self_refuted : exists t pm x fuel, unique t /\ leaf_ok t /\ parse_unit t = Some pm /\
  cpp_scope fuel t pm x false = Some [$"A"] /\ cpp_scope fuel t pm x true = Some [$"A"; $"E"].
Proof.
  assert (H : match parse_unit sample_tree with
    | Some pm => cpp_scope 16 sample_tree pm 5 false = Some [$"A"] /\ cpp_scope 16 sample_tree pm 5 true = Some [$"A"; $"E"]
    | None => False
    end) by (vm_compute; split; reflexivity).
  exists sample_tree. destruct (parse_unit sample_tree) as [pm|] eqn:E; [|destruct H]. exists pm, 5, 16.
  split; [exact sample_unique|]. split; [exact sample_leaf_ok|]. split; [reflexivity|exact H].
Qed.
Print Assumptions C58_scope_self_refuted.

(** The cache: as long as the parents do not change, the answers are those computed anew. *)
Theorem C50_cached fuel t pm queries : ask fuel t pm empty_cache queries = map (fun q => cpp_scope fuel t pm (fst q) (snd q)) queries.
Proof. apply ask_fresh. discriminate. Qed.
Print Assumptions C50_cached.

Example C50_cached_case : match parse_unit sample_tree with
  | Some pm => ask 16 sample_tree pm empty_cache [(9, false); (6, true); (9, false); (6, false)]
      = [Some [$"A"; $"S"]; Some [$"A"; $"S"]; Some [$"A"; $"S"]; Some [$"A"]]
  | None => False
  end.
Proof. vm_compute. reflexivity. Qed.

(** Filling the parents does not empty the caches: an element asked for its scope before it is put elsewhere keeps the
    scope it had. *)
Theorem C58_cached_refuted : exists fuel t pm pm' s c n b, cpp_scope_cached fuel t pm empty_cache n b = (s, c) /\
  fill_children_parents t pm = Some pm' /\ fst (cpp_scope_cached fuel t pm' c n b) <> cpp_scope fuel t pm' n b.
Proof.
  exists 5, (Node 0 KUnit [(RItem, Node 1 (KStruct $"S") [(RBlock, Node 2 KBlock [])])]), (fun _ => None).
  do 3 eexists. exists 2, false. split; [reflexivity|]. split; [reflexivity|]. discriminate.
Qed.
Print Assumptions C58_cached_refuted.

(** The list of all elements: each once and in document order.  Partial: as long as no child is of a sort that is not
    visited. *)
Theorem C58_all_elements_partial t : leaf_ok t ->
  (forall s r c, within t s -> In (r, c) (tree_children s) -> visited (tree_kind s) r = true) -> all_elements t = ids t.
Proof. exact (all_elements_ids t). Qed.
Print Assumptions C58_all_elements_partial.

Example C58_all_elements_case : all_elements (Node 0 KUnit [(RItem, Node 1 (KEnum $"E" true) [(RBlock, Node 2 KBlock [
  (RItem, Node 3 KDecl [(RType, Node 4 KLeaf [])]); (RItem, Node 5 KDecl [])])]); (RItem, Node 6 KLeaf [])]) = [0; 1; 2; 3; 4; 5; 6].
Proof. reflexivity. Qed.

(** The parameters of a function which has a body are not among them. *)
Theorem C58_all_elements_refuted : exists t s, leaf_ok t /\ within t s /\ tree_kind s = KParameter /\ ~ In (tree_id s) (all_elements t).
Proof.
  exists (Node 0 KFunction [(RParams, Node 1 KParameterList [(RItem, Node 2 KParameter [])]); (RBlock, Node 3 KBlock [])]),
    (Node 2 KParameter []).
  split; [leaves|]. split.
  - do 2 (eapply within_step; [left; reflexivity|]). apply within_self.
  - split; [reflexivity|]. cbn. intros I. repeat (destruct I as [I|I]; [discriminate I|]). exact I.
Qed.
Print Assumptions C58_all_elements_refuted.
