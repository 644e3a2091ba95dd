From Verif Require Import PyStr PyStrLemmas PyDict InstanceModel InstanceSpec InstanceProofs QualifyModel QualifySpec QualifyProofs QualifyProofs2.

(** ** The types and values of methods *)

(** In the stub of a method, each name which does not come after a dot is completed by the scopes which have it; nothing else is changed; and Python finds what C++ means by a
    name which is in the outermost scope only, or in no scope. *)
Theorem C74_method_partial roots enum_name class_name function_name namespace_name tree scope ch :
  NoDup (flat_map scope_names tree) -> Forall (classes_shown roots) tree ->
  chain_of roots enum_name class_name function_name namespace_name tree scope = Some ch -> in_words ch ->
  (forall s, in_function roots (register_all roots enum_name class_name function_name namespace_name tree) true scope s = completed_text ch s)
  /\ (forall p names inner w rest, ch = (p, names) :: inner -> nowhere ch p -> nowhere inner w -> python_means ch (completed ch w ++ rest) = cpp_means ch w ++ rest).
Proof.
  intros N F C W. split.
  - intros s. exact (qualify_chain roots enum_name class_name function_name namespace_name tree scope ch N F C W s).
  - intros p names inner w rest -> P I. apply method_means; auto.
Qed.
Print Assumptions C74_method_partial.

(** ** The types and values of the members of a class *)

(** The same for the members of a class; here the names of the class itself are found too. *)
Theorem C74_member_partial roots enum_name class_name function_name namespace_name tree scope outer q own :
  NoDup (flat_map scope_names tree) -> Forall (classes_shown roots) tree ->
  chain_of roots enum_name class_name function_name namespace_name tree (removelast scope) = Some outer ->
  chain_of roots enum_name class_name function_name namespace_name tree scope = Some (outer ++ [(q, own)]) -> in_words outer ->
  (forall s, in_member roots (register_all roots enum_name class_name function_name namespace_name tree) scope s = completed_text outer s)
  /\ (forall w rest, match outer with
                     | [] => True
                     | (p, names) :: mid => nowhere (outer ++ [(q, own)]) p /\ nowhere mid w /\ smem w names && smem w own = false
                     end -> python_means (outer ++ [(q, own)]) (completed outer w ++ rest) = cpp_means (outer ++ [(q, own)]) w ++ rest).
Proof.
  intros N F C _ W. split.
  - intros s. exact (qualify_chain roots enum_name class_name function_name namespace_name tree (removelast scope) outer N F C W s).
  - intros w rest H. destruct outer as [|(p, names) mid]; [apply own_means|]. destruct H as (P & M & X). apply member_means; auto.
Qed.
Print Assumptions C74_member_partial.

(** ** The order of the names *)

(** The names of a scope are a set: the order in which Python goes over it does not matter, if no scope has a member of its own name. *)
Theorem C74_order roots known known' scope s :
  Forall2 (fun a b => fst a = fst b /\ same_names (snd a) (snd b)) known known' ->
  (forall n m, In (n, m) known -> name_of (m_prefix m) /\ Forall name_of (m_names m) /\ smem (m_prefix m) (m_names m) = false) ->
  qualify roots known scope s = qualify roots known' scope s.
Proof.
  intros E W. unfold qualify. revert s. induction scope as [|n scope IH]; intros s; [reflexivity|]. cbn [fold_left]. rewrite IH. f_equal. destruct (smem n roots); auto.
  clear IH. induction E as [|(k, m) (k', m') a b [K S] E IH]; [reflexivity|]. cbn [fst snd] in *. subst k'. cbn [dict_get]. destruct (seqb n k).
  - destruct (W k m (or_introl eq_refl)) as (W1 & W2 & W3). apply same_one; auto.
  - apply IH. intros x y X. apply (W x y). right. auto.
Qed.
Print Assumptions C74_order.

(** ** Cases *)

Definition same (s : str) : str := s.
(** A class with a position, a selection which has a kind of its own, and a function outside, in a namespace which is not shown. *)
Definition c74_tree : list item :=
  [INamespace (lit "app") [IClass (lit "Editor") [IClass (lit "Position") []; IClass (lit "Selection") [IEnum (lit "Kind")]; IEnum (lit "Position2")]; IClass (lit "Color") []; IFunction (lit "run")]].
Definition c74_roots : list str := [lit "app"].
Definition c74_scope : list str := [lit "app"; lit "Editor"; lit "Selection"].
Definition c74_chain : chain := [(lit "Editor", [lit "Position"; lit "Selection"; lit "Position2"]); (lit "Selection", [lit "Kind"])].
Lemma c74_hyp : NoDup (flat_map scope_names c74_tree) /\ Forall (classes_shown c74_roots) c74_tree
  /\ chain_of c74_roots same same same same c74_tree c74_scope = Some c74_chain /\ in_words c74_chain /\ nowhere c74_chain (lit "Editor").
Proof.
  split; [repeat (constructor; [cbn; intuition congruence|]); constructor|]. split; [repeat constructor; cbn; auto|]. split; [reflexivity|]. split.
  - intros p names [H|[H|[]]]; inversion H; (split; [|split]); repeat constructor; discriminate.
  - intros p names [H|[H|[]]]; inversion H; reflexivity.
Qed.
Example C74_method_case :
  (NoDup (flat_map scope_names c74_tree) /\ Forall (classes_shown c74_roots) c74_tree
   /\ chain_of c74_roots same same same same c74_tree c74_scope = Some c74_chain /\ in_words c74_chain /\ nowhere c74_chain (lit "Editor"))
  /\ nowhere [(lit "Selection", [lit "Kind"])] (lit "Position")
  /\ in_function c74_roots (register_all c74_roots same same same same c74_tree) true c74_scope (lit "Dict[Position, Editor.Position2, MyPosition, Color]")
     = lit "Dict[Editor.Position, Editor.Position2, MyPosition, Color]".
Proof. split; [exact c74_hyp|]. split; [intros p names [H|[]]; inversion H; reflexivity|vm_compute; reflexivity]. Qed.
Example C74_member_case :
  chain_of c74_roots same same same same c74_tree (removelast c74_scope) = Some [(lit "Editor", [lit "Position"; lit "Selection"; lit "Position2"])]
  /\ in_member c74_roots (register_all c74_roots same same same same c74_tree) c74_scope (lit "List[Position] = f(Kind.a)") = lit "List[Editor.Position] = f(Kind.a)"
  /\ python_means c74_chain [lit "Kind"; lit "a"] = [lit "Editor"; lit "Selection"; lit "Kind"; lit "a"].
Proof. repeat split; vm_compute; reflexivity. Qed.
Example C74_order_case :
  let a := [(lit "N", Members (lit "n") [lit "A"; lit "B"])] in
  let b := [(lit "N", Members (lit "n") [lit "B"; lit "A"; lit "A"])] in
  Forall2 (fun a b => fst a = fst b /\ same_names (snd a) (snd b)) a b
  /\ (forall n m, In (n, m) a -> name_of (m_prefix m) /\ Forall name_of (m_names m) /\ smem (m_prefix m) (m_names m) = false)
  /\ qualify [] b [lit "N"] (lit "f(A, x.B, B)") = lit "f(n.A, x.B, n.B)".
Proof.
  cbv zeta. split; [constructor; [cbn; split; [reflexivity|split; [reflexivity|cbn; intuition]]|constructor]|]. split; [|vm_compute; reflexivity].
  intros n m [H|[]]; inversion H; (split; [|split]); repeat constructor; discriminate.
Qed.

(** ** What is false *)

(** A method of a nested class which uses an enum of its own class: the stub says [Selection.Kind], but [Selection] is not a name of the module. *)
Theorem C74_nested_refuted :
  exists roots tree scope ch w,
    NoDup (flat_map scope_names tree) /\ Forall (classes_shown roots) tree /\ chain_of roots same same same same tree scope = Some ch /\ in_words ch /\ nowhere (tl ch) (fst (hd ([], []) ch))
    /\ in_function roots (register_all roots same same same same tree) true scope w = lit "Selection.Kind"
    /\ cpp_means ch w = [lit "Editor"; lit "Selection"; lit "Kind"]
    /\ python_means ch (completed ch w) = [lit "Selection"; lit "Kind"].
Proof.
  exists c74_roots, c74_tree, c74_scope, c74_chain, (lit "Kind"). destruct c74_hyp as (A & B & C & D & E). repeat (split; [assumption|]).
  split; [intros p names [H|[]]; inversion H; reflexivity|]. repeat split; vm_compute; reflexivity.
Qed.
Print Assumptions C74_nested_refuted.
(** A class hides a name of the scope around: the outer one is taken. *)
Theorem C74_hidden_refuted :
  exists tree scope ch w,
    NoDup (flat_map scope_names tree) /\ chain_of [] same same same same tree scope = Some ch /\ in_words ch
    /\ in_function [] (register_all [] same same same same tree) true scope w = lit "A.Kind"
    /\ cpp_means ch w = [lit "A"; lit "B"; lit "Kind"] /\ python_means ch (completed ch w) = [lit "A"; lit "Kind"].
Proof.
  exists [IClass (lit "A") [IEnum (lit "Kind"); IClass (lit "B") [IEnum (lit "Kind")]]], [lit "A"; lit "B"], [(lit "A", [lit "Kind"; lit "B"]); (lit "B", [lit "Kind"])], (lit "Kind").
  split; [repeat (constructor; [cbn; intuition congruence|]); constructor|]. split; [reflexivity|]. split; [|repeat split; vm_compute; reflexivity].
  intros p names [H|[H|[]]]; inversion H; (split; [|split]); repeat constructor; discriminate.
Qed.
Print Assumptions C74_hidden_refuted.
(** The text of a string which is a default value is changed too. *)
Theorem C74_text_refuted :
  exists tree scope value, NoDup (flat_map scope_names tree)
    /\ value = lit """Kind of" ++ lit """" /\ in_function [] (register_all [] same same same same tree) true scope value = lit """A.Kind of" ++ lit """".
Proof.
  exists [IClass (lit "A") [IEnum (lit "Kind")]], [lit "A"], (lit """Kind of" ++ lit """"). split; [repeat (constructor; [cbn; intuition congruence|]); constructor|]. split; [reflexivity|vm_compute; reflexivity].
Qed.
Print Assumptions C74_text_refuted.
(** A namespace which is opened again: the names of the first part are forgotten, and Python does not find them. *)
Theorem C74_reopened_refuted :
  exists tree ch,
    tree = [INamespace (lit "ns") [IEnum (lit "Kind")]; INamespace (lit "ns") [IClass (lit "B") []]]
    /\ ch = [(lit "ns", [lit "Kind"; lit "B"]); (lit "B", [])]
    /\ in_function [] (register_all [] same same same same tree) true [lit "ns"; lit "B"] (lit "Kind") = lit "Kind"
    /\ cpp_means ch (lit "Kind") = [lit "ns"; lit "Kind"] /\ python_means ch [lit "Kind"] = [lit "Kind"].
Proof. eexists. eexists. split; [reflexivity|]. split; [reflexivity|]. repeat split; vm_compute; reflexivity. Qed.
Print Assumptions C74_reopened_refuted.
(** Two scopes of one name: the names of the last one are given to the first, where the name means something else. *)
Theorem C74_twice_refuted :
  exists tree ch,
    tree = [INamespace (lit "a") [INamespace (lit "detail") [IClass (lit "B") []]]; INamespace (lit "c") [INamespace (lit "detail") [IClass (lit "Color") []]]; IClass (lit "Color") []]
    /\ chain_of [] same same same same tree [lit "a"; lit "detail"; lit "B"] = Some ch
    /\ in_function [] (register_all [] same same same same tree) true [lit "a"; lit "detail"; lit "B"] (lit "Color") = lit "detail.Color"
    /\ cpp_means ch (lit "Color") = [lit "Color"].
Proof. eexists. eexists. split; [reflexivity|]. split; [reflexivity|]. split; vm_compute; reflexivity. Qed.
Print Assumptions C74_twice_refuted.
(** A scope which has a member of its own name: what the stub says depends on the order in which Python goes over a set. *)
Theorem C74_order_refuted :
  exists a b s, Forall2 (fun a b => fst a = fst b /\ same_names (snd a) (snd b)) a b /\ (forall n m, In (n, m) a -> name_of (m_prefix m) /\ Forall name_of (m_names m))
    /\ qualify [] a [lit "Foo"] s = lit "Foo.Foo.Bar" /\ qualify [] b [lit "Foo"] s = lit "Foo.Bar".
Proof.
  exists [(lit "Foo", Members (lit "Foo") [lit "Bar"; lit "Foo"])], [(lit "Foo", Members (lit "Foo") [lit "Foo"; lit "Bar"])], (lit "Bar"). split; [constructor; [cbn; split; [reflexivity|split; [reflexivity|cbn; intuition]]|constructor]|].
  split; [intros n m [H|[]]; inversion H; split; repeat constructor; discriminate|]. split; vm_compute; reflexivity.
Qed.
Print Assumptions C74_order_refuted.
(** The functions of a namespace are not completed: those of a nested namespace do not see the names of the outer one. *)
Theorem C74_function_refuted :
  exists tree ch,
    tree = [INamespace (lit "a") [IEnum (lit "Kind"); INamespace (lit "b") [IFunction (lit "f")]]]
    /\ chain_of [] same same same same tree [lit "a"; lit "b"] = Some ch /\ in_words ch
    /\ in_function [] (register_all [] same same same same tree) false [lit "a"; lit "b"] (lit "Kind") = lit "Kind"
    /\ cpp_means ch (lit "Kind") = [lit "a"; lit "Kind"] /\ python_means ch [lit "Kind"] = [lit "Kind"].
Proof.
  eexists. eexists. split; [reflexivity|]. split; [reflexivity|]. split; [|repeat split; vm_compute; reflexivity].
  intros p names [H|[H|[]]]; inversion H; (split; [|split]); repeat constructor; discriminate.
Qed.
Print Assumptions C74_function_refuted.
