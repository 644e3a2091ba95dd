From Verif Require Import PyStr PyStrLemmas ScopeModel LookupModel LookupSpec LookupProofs LookupProofs2.

(** Property C51: looking classes up, base classes and their methods. *)
Definition a_class (n : nat) (name : str) (sc : scope) (supers : list (list str * str)) (methods : list method) : class :=
  {| c_number := n; c_name := name; c_scope := sc; c_is_class := false; c_supers := supers; c_methods := methods |}.
Definition a_method (name : str) (types : list str) : method :=
  {| m_name := name; m_types := types; m_const := false; m_virtual := true |}.

Lemma plain_of n : n <> [] -> forallb (fun c => negb (ceqb c ":"%char)) n = true -> plain_name n.
Proof.
  intros A B. split; auto. intros I. rewrite forallb_forall in B. specialize (B _ I). rewrite ceqb_refl in B. discriminate.
Qed.
Lemma distinct_of names : Forall plain_name names ->
  forallb (fun x => forallb (fun y => implb (startswith x y) (seqb x y)) names) names = true -> distinct_names names.
Proof.
  intros P H. split; auto. intros x y Ix Iy S. rewrite forallb_forall in H. specialize (H x Ix). rewrite forallb_forall in H.
  specialize (H y Iy). rewrite S in H. apply seqb_true. exact H.
Qed.
Ltac plains := match goal with |- Forall _ [] => apply Forall_nil | |- Forall _ (_ :: _) => apply Forall_cons; [apply plain_of; [discriminate|reflexivity]|plains] end.

(** A name without qualifiers: the class found is the one C++ finds (or none for both).  Partial: no name of a scope is
    the start of another one, and only one class of this name can be seen. *)
Theorem C51_unqualified_partial N classes current name : distinct_names N -> (forall c, In c classes -> incl (c_scope c) N) ->
  incl current N -> plain_name name ->
  (forall c c', In c classes -> In c' classes -> c_name c = name -> c_name c' = name ->
     prefix_of (c_scope c) current -> prefix_of (c_scope c') current -> c = c') ->
  find_struct_or_class classes name current = cpp_lookup classes current [] name.
Proof. exact (find_unqualified N classes current name). Qed.
Print Assumptions C51_unqualified_partial.

Definition sample_classes : list class :=
  [a_class 0 $"X" [$"Other"] [] []; a_class 1 $"X" [$"Ns"] [] []; a_class 2 $"Inner" [$"Ns"; $"X"] [] []].
Example C51_unqualified_case :
  distinct_names [$"Ns"; $"X"; $"Other"] /\ (forall c, In c sample_classes -> incl (c_scope c) [$"Ns"; $"X"; $"Other"]) /\
  option_map c_number (find_struct_or_class sample_classes $"X" [$"Ns"; $"X"]) = Some 1 /\
  option_map c_number (find_struct_or_class sample_classes $"Inner" [$"Ns"]) = None.
Proof.
  split; [apply distinct_of; [plains|reflexivity]|]. split; [|split; reflexivity].
  intros c I. repeat (destruct I as [<-|I]; [intros z Iz; cbn in Iz; cbn; tauto|]). destruct I.
Qed.

(** A qualified name, written from the top or from the current scope.  Partial: only one class of the unit has this
    name, and no name of a scope is the start of another one. *)
Theorem C51_qualified_partial N classes current q name c : distinct_names N -> (forall c, In c classes -> incl (c_scope c) N) ->
  incl current N -> incl q N -> plain_name name -> In c classes -> c_name c = name ->
  (forall c', In c' classes -> c_name c' = name -> c' = c) -> c_scope c = q \/ c_scope c = current ++ q ->
  find_struct_or_class classes (qualified q name) current = Some c /\ cpp_lookup classes current q name = Some c.
Proof. exact (find_qualified N classes current q name c). Qed.
Print Assumptions C51_qualified_partial.

Example C51_qualified_case : qualified [$"X"] $"Inner" = $"X::Inner" /\
  option_map c_number (find_struct_or_class sample_classes $"X::Inner" [$"Ns"]) = Some 2 /\
  option_map c_number (find_struct_or_class sample_classes $"Ns::X::Inner" [$"Other"]) = Some 2.
Proof. split; [|split]; reflexivity. Qed.

(** Two classes of the same name: the first of the document is found, not the innermost. *)
Theorem C51_innermost_refuted : exists classes current name,
  option_map c_number (find_struct_or_class classes name current) = Some 0 /\
  option_map c_number (cpp_lookup classes current [] name) = Some 1.
Proof. exists [a_class 0 $"X" [] [] []; a_class 1 $"X" [$"Ns"] [] []], [$"Ns"], $"X". split; reflexivity. Qed.
Print Assumptions C51_innermost_refuted.

(** Scopes are compared as texts: from Foobar, the classes of Foo are seen. *)
Theorem C51_resembling_refuted : exists classes current name,
  find_struct_or_class classes name current <> None /\ cpp_lookup classes current [] name = None.
Proof. exists [a_class 0 $"X" [$"Foo"] [] []], [$"Foobar"], $"X". split; [discriminate|reflexivity]. Qed.
Print Assumptions C51_resembling_refuted.

(** A qualified name which starts in a scope between the top and the current scope is not found. *)
Theorem C51_between_refuted : exists classes current q name,
  find_struct_or_class classes (qualified q name) current = None /\ cpp_lookup classes current q name <> None.
Proof. exists [a_class 0 $"C" [$"A"; $"B"] [] []], [$"A"; $"D"], [$"B"], $"C". split; [reflexivity|discriminate]. Qed.
Print Assumptions C51_between_refuted.

(** The bases of a class, and how it inherits from them, as in C++; private bases are not published.  Partial: the last
    specifier of a base tells the access, or there is none and the class is a struct. *)
Theorem C51_bases_partial cs c : Forall (fun s => usual_specifiers c (fst s)) (c_supers c) ->
  base_classes cs c = Some (concat (map (fun s => match find_struct_or_class cs (snd s) (c_scope c) with
                                                  | Some b => [(cpp_access c (fst s), b)]
                                                  | None => [] end) (c_supers c))) /\
  published_bases cs c = Some (concat (map (fun s => match find_struct_or_class cs (snd s) (c_scope c), cpp_access c (fst s) with
                                                     | Some _, Private | None, _ => []
                                                     | Some b, _ => [b] end) (c_supers c))).
Proof.
  intros F. split; [exact (bases_some cs c F)|]. unfold published_bases. rewrite (bases_some cs c F). f_equal.
  clear F. induction (c_supers c) as [|s l IH]; auto. cbn [map concat]. rewrite filter_app, map_app, IH. f_equal.
  destruct (find_struct_or_class cs (snd s) (c_scope c)); auto. cbn. destruct (cpp_access c (fst s)); reflexivity.
Qed.
Print Assumptions C51_bases_partial.

Example C51_bases_case :
  let d := a_class 3 $"D" [$"Ns"] [([$"public"], $"X"); ([$"virtual"; $"private"], $"X::Inner"); ([], $"std::string"); ([], $"Ns::X")] [] in
  Forall (fun s => usual_specifiers d (fst s)) (c_supers d) /\
  option_map (map (fun ab => (fst ab, c_number (snd ab)))) (base_classes sample_classes d) = Some [(Public, 1); (Private, 2); (Public, 1)] /\
  option_map (map c_number) (published_bases sample_classes d) = Some [1; 1].
Proof.
  cbv zeta. split; [|split; reflexivity]. unfold a_class. cbn [c_supers].
  apply Forall_cons; [right; exists $"public", []; cbn [In]; auto|].
  apply Forall_cons; [right; exists $"private", [$"virtual"]; cbn [In]; auto 10|].
  apply Forall_cons; [left; split; reflexivity|]. apply Forall_cons; [left; split; reflexivity|]. apply Forall_nil.
Qed.

(** Without specifier a class inherits privately in C++; the base is published nevertheless. *)
Theorem C51_default_access_refuted : exists cs c b, c_is_class c = true /\ c_supers c = [([], c_name b)] /\
  cpp_access c [] = Private /\ published_bases cs c = Some [b].
Proof.
  exists [a_class 0 $"B" [] [] []], {| c_number := 1; c_name := $"C"; c_scope := []; c_is_class := true; c_supers := [([], $"B")]; c_methods := [] |},
    (a_class 0 $"B" [] [] []). repeat split.
Qed.
Print Assumptions C51_default_access_refuted.

(** class C : public virtual B: the last specifier is not an access, and an assertion fails. *)
Theorem C51_virtual_base_refuted : exists cs c, map fst (c_supers c) = [[$"public"; $"virtual"]] /\ base_classes cs c = None.
Proof. exists [], (a_class 0 $"C" [] [([$"public"; $"virtual"], $"B")] []). split; reflexivity. Qed.
Print Assumptions C51_virtual_base_refuted.

(** The virtual methods of a class: its own first, then those inherited; one for each signature that occurs among its
    ancestors, none twice, and none that is not a virtual method of an ancestor. *)
Theorem C51_virtual_methods fuel cs c l : virtual_methods fuel cs c = Some l ->
  exists t, l = filter m_virtual (c_methods c) ++ t /\
    NoDup (map signature t) /\ (forall m, In m t -> ~ In (signature m) (map signature (filter m_virtual (c_methods c)))) /\
    (forall m, In m l -> exists d, inherits cs c d /\ In m (c_methods d) /\ m_virtual m = true) /\
    (forall d m, inherits cs c d -> In m (c_methods d) -> m_virtual m = true -> In (signature m) (map signature l)).
Proof.
  intros E. destruct (virtual_methods_ok fuel cs c l E) as (t & A & (B1 & B2) & C & D). exists t. repeat (split; auto).
Qed.
Print Assumptions C51_virtual_methods.

Definition sample_family : list class :=
  [a_class 0 $"A" [] [] [a_method $"f" [$"int"]; a_method $"g" []];
   a_class 1 $"B" [] [([], $"A")] [a_method $"f" [$"int"]; a_method $"f" [$"double"]];
   a_class 2 $"C" [] [([], $"B"); ([], $"A")] [a_method $"h" []; a_method $"g" []]].
Example C51_virtual_methods_case :
  option_map (map (fun m => (m_name m, m_types m))) (virtual_methods 3 sample_family (nth 2 sample_family (a_class 9 [] [] [] [])))
  = Some [($"h", []); ($"g", []); ($"f", [$"int"]); ($"f", [$"double"])].
Proof. reflexivity. Qed.

(** The walk ends when bases come before the classes derived from them (for any measure), and its result does not depend
    on the bound of the recursion.  Partial: this order is assumed of the bases the program finds. *)
Theorem C51_terminates_partial cs (rank : class -> nat) fuel c :
  (forall d, inherits cs c d -> base_classes cs d <> None) ->
  (forall d b, inherits cs c d -> base_of cs d b -> rank b < rank d) -> rank c < fuel ->
  exists l, forall fuel', fuel <= fuel' -> virtual_methods fuel' cs c = Some l.
Proof.
  intros A R L. destruct (virtual_methods_total cs rank fuel c A R L) as (l & E). exists l. intros f F.
  exact (virtual_methods_more cs fuel f c l E F).
Qed.
Print Assumptions C51_terminates_partial.

Example C51_terminates_case : let c := nth 2 sample_family (a_class 9 [] [] [] []) in
  (forall d, inherits sample_family c d -> base_classes sample_family d <> None) /\
  (forall d b, inherits sample_family c d -> base_of sample_family d b -> c_number b < c_number d) /\ c_number c < 3.
Proof.
  assert (I : forall c d, inherits sample_family c d -> In c sample_family -> In d sample_family).
  { intros c d H. induction H as [|c b d (bs & a & E & J) H IH]; auto. intros K. apply IH. unfold base_classes in E.
    clear -E J. revert bs E J. induction (c_supers c) as [|(sp, n) l IHl]; intros bs E J; cbn in E; [injection E as <-; destruct J|].
    destruct (from_name (super_specifier sp)); [|discriminate]. destruct (find_struct_or_class sample_family n (c_scope c)) eqn:F; eauto.
    destruct (base_classes_of sample_family (c_scope c) l); [|discriminate]. injection E as <-. destruct J as [J|J]; eauto.
    injection J as -> ->. exact (find_struct_in _ _ _ _ F). }
  cbv zeta. split; [|split].
  - intros d H. apply I in H; [|right; right; left; reflexivity]. repeat (destruct H as [<-|H]; [discriminate|]). destruct H.
  - intros d b H (bs & a & E & J). apply I in H; [|right; right; left; reflexivity].
    repeat (destruct H as [<-|H]; [vm_compute in E; injection E as <-; repeat (destruct J as [J|J]; [injection J as <- <-; cbn; auto|]); destruct J|]).
    destruct H.
  - cbn. auto.
Qed.

(** A class derived from a class of the same name which is declared elsewhere (struct A : Ext::A) is found to be its own
    base: the walk never ends. *)
Theorem C51_terminates_refuted : exists cs c, In c cs /\ c_supers c = [([$"public"], $"Ext::A")] /\ cpp_lookup cs (c_scope c) [$"Ext"] $"A" = None /\
  forall fuel, virtual_methods fuel cs c = None.
Proof.
  set (c := a_class 0 $"A" [] [([$"public"], $"Ext::A")] []). exists [c], c. split; [left; reflexivity|].
  split; [reflexivity|]. split; [reflexivity|]. induction fuel as [|f IH]; auto. rewrite virtual_methods_step.
  change (base_classes [c] c) with (Some [(Public, c)]). cbn [fold_left]. unfold step. cbn [snd]. rewrite IH. reflexivity.
Qed.
Print Assumptions C51_terminates_refuted.

(** Methods that differ by const only are taken for the same: an inherited one is lost. *)
Theorem C51_const_refuted : exists cs c b m l, base_of cs c b /\ In m (c_methods b) /\ m_virtual m = true /\
  virtual_methods 2 cs c = Some l /\ ~ exists m', In m' l /\ signature m' = signature m /\ m_const m' = m_const m.
Proof.
  set (m := {| m_name := $"f"; m_types := []; m_const := true; m_virtual := true |}).
  set (b := a_class 0 $"B" [] [] [m]). set (c := a_class 1 $"C" [] [([], $"B")] [a_method $"f" []]).
  exists [b; c], c, b, m, [a_method $"f" []]. split; [exists [(Public, b)], Public; split; [reflexivity|left; reflexivity]|].
  split; [left; reflexivity|]. split; [reflexivity|]. split; [reflexivity|]. intros (m' & [<-|[]] & _ & E). discriminate E.
Qed.
Print Assumptions C51_const_refuted.
