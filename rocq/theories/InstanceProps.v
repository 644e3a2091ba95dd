From Verif Require Import PyStr PyStrLemmas PyDict TypeTextModel InstanceModel InstanceSpec InstanceProofs InstanceProofs2.
(** C73: an instance of a template is the template with its parameters replaced. *)

(** ** Parameters given by their names *)

Theorem C73_named_partial : forall ps e, Forall (fun p => name_of (fst p)) ps -> independent ps ->
  elem_instance ps e = Some (if elem_uses ps e then Some (in_elem ps e) else None).
Proof. intros ps e N I. exact (elem_is ps N I e). Qed.
Print Assumptions C73_named_partial.

(** ** The next parameters *)

Lemma store_next texts names : forall g, store (map (fun t => ([], t)) texts) (Host (Some names) g) =
  if (length texts =? 0) || (length g + length texts <=? length names) then Some (combine (skipn (length g) names) texts, Host (Some names) (g ++ texts)) else None.
Proof.
  induction texts as [|t r IH]; intros g; [cbn; rewrite app_nil_r; destruct (skipn (length g) names); reflexivity|].
  cbn [map store h_template h_given length Nat.eqb orb]. destruct (Nat.ltb_spec (length g) (length names)) as [L|L].
  - rewrite IH. rewrite app_length. cbn [length]. replace (length g + 1 + length r) with (length g + S (length r)) by lia.
    assert (S : skipn (length g) names = nth (length g) names [] :: skipn (S (length g)) names).
    { clear -L. revert names L. induction (length g) as [|n IH]; intros [|x names] L; cbn in *; try lia; auto. rewrite (IH names) by lia. reflexivity. }
    destruct r as [|t' r]; cbn [length Nat.eqb orb].
    + assert (X : length g + 1 <=? length names = true) by (apply Nat.leb_le; lia). rewrite X. rewrite S. cbn [option_map fst snd combine]. rewrite app_nil_r. destruct (skipn (length g + 1) names); destruct (skipn (Datatypes.S (length g)) names); reflexivity.
    + destruct (length g + Datatypes.S (Datatypes.S (length r)) <=? length names); [|reflexivity]. rewrite S. cbn [option_map fst snd combine]. rewrite <- app_assoc. replace (length g + 1) with (Datatypes.S (length g)) by lia. reflexivity.
  - assert (X : length g + S (length r) <=? length names = false) by (apply Nat.leb_gt; lia). rewrite X. reflexivity.
Qed.
Lemma combine_named names texts n : Forall name_of names -> named (combine (skipn n names) texts).
Proof.
  intros F. assert (G : Forall name_of (skipn n names)) by (rewrite <- (firstn_skipn n names) in F; apply Forall_app in F; tauto). revert texts. induction G as [|x l X G IH]; intros [|t r]; constructor; auto. apply IH.
Qed.
(** The next parameters get the arguments, in order, and the arguments are remembered. *)
Theorem C73_next_partial : forall e names texts, templatable e -> h_template (elem_host e) = Some names -> Forall name_of names -> length (h_given (elem_host e)) + length texts <= length names ->
  let ps := combine (skipn (length (h_given (elem_host e))) names) texts in independent ps ->
  elem_instance (map (fun t => ([], t)) texts) e = Some (if elem_uses ps e then Some (given texts (in_elem ps e)) else None).
Proof.
  intros e names texts T H F L ps I. pose proof (store_next texts names (h_given (elem_host e))) as S. assert (X : length (h_given (elem_host e)) + length texts <=? length names = true) by (apply Nat.leb_le; exact L).
  rewrite X, orb_true_r in S. assert (S' : store (map (fun t => ([], t)) texts) (elem_host e) = Some (ps, Host (Some names) (h_given (elem_host e) ++ texts))) by (etransitivity; [|exact S]; f_equal; clear - H; destruct (elem_host e) as [a b]; cbn [h_template h_given] in *; rewrite H; reflexivity).
  rewrite (elem_stored ps (combine_named names texts _ F) I _ e _ T S'). f_equal. destruct (elem_uses ps e); [|reflexivity]. f_equal. destruct e as [f|ds|n h b bl|t]; try destruct T; cbn in *; subst; rewrite H; reflexivity.
Qed.
Print Assumptions C73_next_partial.
(** More arguments than parameters, or arguments for what is not a template: an exception. *)
Theorem C73_too_many : forall e texts, templatable e -> texts <> [] ->
  match h_template (elem_host e) with None => True | Some names => length names < length (h_given (elem_host e)) + length texts end ->
  elem_instance (map (fun t => ([], t)) texts) e = None.
Proof.
  intros e texts T N L. assert (S : store (map (fun t => ([], t)) texts) (elem_host e) = None).
  { destruct (elem_host e) as [[names|] g]; cbn [h_template h_given] in L; [|destruct texts; [congruence|reflexivity]]. rewrite store_next. destruct texts; [congruence|]. assert (X : length g + length (s :: texts) <=? length names = false) by (apply Nat.leb_gt; exact L).
    rewrite X. reflexivity. }
  destruct e; try destruct T; cbn [elem_instance elem_host] in *; [unfold func_instance|]; rewrite S; reflexivity.
Qed.
Print Assumptions C73_too_many.

(** ** What is left *)

Lemma existsb_false_iff {A} (f : A -> bool) l : (forall x, In x l -> f x = false) -> existsb f l = false.
Proof. induction l as [|x l IH]; intros F; auto. cbn. rewrite (F x), IH; auto; [|left; auto]. intros y Y. apply F. right. auto. Qed.
Lemma fix_map {A} (f g h : A -> A) l : Forall (fun x => f (g x) = h x) l -> map f (map g l) = map h l.
Proof. intros F. rewrite map_map. apply map_ext_in. intros x I. rewrite Forall_forall in F. auto. Qed.
Lemma mentions_after ps : named ps -> (forall p, In p ps -> mentions ps (snd p) = false) -> forall s, mentions ps (substituted ps s) = false.
Proof.
  intros N A s. induction s as [|c x C IH|w x W X IH] using word_rect; [reflexivity| |].
  - rewrite (sub_sep ps c x C N). unfold mentions in *. rewrite (pieces_sep c _ C). cbn [existsb]. rewrite IH, orb_false_r. unfold smem. apply existsb_false_iff. intros n I. apply in_map_iff in I. destruct I as (p & <- & I). unfold named in N. rewrite Forall_forall in N. apply N in I.
    destruct (seqb_spec [c] (fst p)) as [E|]; auto. destruct I as [_ I]. rewrite <- E in I. inversion I; congruence.
  - rewrite (sub_word ps w x W X), mentions_app by (apply sub_head; auto). rewrite IH, orb_false_r. unfold argument. destruct (find (fun p => seqb (fst p) w) ps) as [p|] eqn:E; [apply A; apply find_some in E; tauto|].
    unfold mentions. rewrite (piece_one w W). cbn [existsb]. rewrite orb_false_r. unfold smem. apply existsb_false_iff. intros n I. apply in_map_iff in I. destruct I as (p & <- & I). apply (find_none _ _ E) in I. destruct (seqb_spec w (fst p)) as [->|]; auto. rewrite seqb_refl in I. discriminate.
Qed.
Lemma type_after ps : named ps -> (forall p, In p ps -> mentions ps (snd p) = false) -> forall t, type_uses ps (in_type ps t) = false.
Proof. intros N A t. unfold type_uses, in_type. cbn [typenames]. rewrite existsb_map. apply existsb_false_iff. intros x _. apply mentions_after; auto. Qed.
(** No type of the instance uses the parameters, at any depth, if the arguments do not. *)
Theorem C73_complete : forall ps e, Forall (fun p => name_of (fst p)) ps -> (forall p, In p ps -> mentions ps (snd p) = false) -> elem_uses ps (in_elem ps e) = false.
Proof.
  intros ps e N A. assert (D : forall ds, existsb (decl_uses ps) (map (in_decl ps) ds) = false) by (intros ds; rewrite existsb_map; apply existsb_false_iff; intros d _; apply (type_after ps N A (d_type d))).
  induction e as [f|ds|t|n h b blocks F] using elem_rect'; cbn [elem_uses in_elem tf_result tf_params]; auto.
  - rewrite D, orb_false_r. destruct (tf_result f) as [t|]; [apply (type_after ps N A t)|reflexivity].
  - rewrite existsb_map. apply existsb_false_iff. intros x I. rewrite Forall_forall in F. specialize (F x I). rewrite existsb_map. apply existsb_false_iff. intros y J. rewrite Forall_forall in F. auto.
Qed.
Print Assumptions C73_complete.
(** One parameter after the other is the same as all at once. *)
Theorem C73_steps : forall p r e, Forall (fun p => name_of (fst p)) (p :: r) -> mentions r (snd p) = false -> in_elem r (in_elem [p] e) = in_elem (p :: r) e.
Proof.
  intros p r e N M. assert (T : forall t, in_type r (in_type [p] t) = in_type (p :: r) t) by (intros t; unfold in_type; cbn [typenames specifiers modifiers]; f_equal; rewrite map_map; apply map_ext; intros s; apply sub_steps; auto).
  assert (D : forall ds, map (in_decl r) (map (in_decl [p]) ds) = map (in_decl (p :: r)) ds) by (intros ds; rewrite map_map; apply map_ext; intros d; unfold in_decl; cbn [d_type d_name d_initial]; rewrite T; reflexivity).
  induction e as [f|ds|t|n h b blocks F] using elem_rect'; cbn [in_elem tf_name tf_host tf_result tf_params]; auto.
  - rewrite D. do 2 f_equal. destruct (tf_result f) as [t|]; cbn [option_map]; [rewrite T|]; reflexivity.
  - rewrite D. reflexivity.
  - f_equal. apply fix_map. eapply Forall_impl; [|exact F]. intros x X. apply fix_map. exact X.
Qed.
Print Assumptions C73_steps.

(** ** The instances which are published *)

Lemma matching_last specs name : matching_spec specs name = last_option specs name.
Proof.
  unfold matching_spec, last_option. induction specs as [|s specs IH] using rev_ind; [reflexivity|]. rewrite fold_left_app, rev_app_distr. cbn [fold_left rev app find]. rewrite IH. reflexivity.
Qed.
(** The instances: those of the last option which fits the name, one for each type, in order; an exception if a type has several words, or if the
    parameter is not used. *)
Theorem C73_split_partial : forall specs e T, templatable e -> elem_host e = Host (Some [T]) [] -> name_of T ->
  split_into_instances specs e =
  match last_option specs (elem_name e) with
  | None => Some []
  | Some s => every (map (fun t => match argument_text t with
                                   | Some a => if elem_uses [(T, a)] e then Some (given [a] (in_elem [(T, a)] e)) else None
                                   | None => None
                                   end) (ts_types s))
  end.
Proof.
  intros specs e T F H N. unfold split_into_instances. rewrite H. cbn [open_host h_template h_given length Nat.eqb]. rewrite matching_last. destruct (last_option specs (elem_name e)) as [s|]; [|reflexivity]. cbn [negb andb]. f_equal. apply map_ext. intros t.
  unfold instance_for. destruct (argument_text t) as [a|]; [|reflexivity].
  assert (X : h_template (elem_host e) = Some [T]) by (rewrite H; reflexivity). assert (L : length (h_given (elem_host e)) + length [a] <= length [T]) by (rewrite H; cbn; lia).
  pose proof (C73_next_partial e [T] [a] F X (Forall_cons _ N (Forall_nil _)) L) as P. cbv zeta in P. rewrite H in P. cbn [h_given length skipn combine map] in P. rewrite P; [reflexivity|]. split; [|exact I]. unfold mentions. apply existsb_false_iff. reflexivity.
Qed.
Print Assumptions C73_split_partial.

(** ** Examples *)

Definition ty (s : str) : ctype := CType [s] [] [].
(** template<class T> struct Box : Base<T> { T value = T(0); struct Item { std::vector<T> all, none; }; const T & get(int TT) const; }; *)
Definition box : elem := Class $"Box" (Host (Some [$"T"]) []) [$"Base<T>"]
  [[Vars [TDecl (ty $"T") $"value" $"T(0)"]; Class $"Item" (Host None []) [] [[Vars [TDecl (ty $"std::vector<T>") $"all" []; TDecl (ty $"TT") $"none" []]]]];
   [Fn (TFunc $"get" (Host None []) (Some (CType [$"T"] [$"const"] [$"&"])) [TDecl (ty $"int") $"TT" []]); Other $"using V = T;"]].
Example C73_split_case :
  split_into_instances [TSpec (fun _ => true) []; TSpec (seqb $"Box") [ty $"int"; ty $"Pair<T>"]; TSpec (fun _ => false) []] box =
  Some (map (fun a : str => Class $"Box" (Host (Some [$"T"]) [a]) [$"Base<T>"]
    [[Vars [TDecl (ty a) $"value" $"T(0)"]; Class $"Item" (Host None []) [] [[Vars [TDecl (ty ($"std::vector<" ++ a ++ $">")) $"all" []; TDecl (ty $"TT") $"none" []]]]];
     [Fn (TFunc $"get" (Host None []) (Some (CType [a] [$"const"] [$"&"])) [TDecl (ty $"int") $"TT" []]); Other $"using V = T;"]]) [$"int"; $"Pair<T>"]).
Proof. vm_compute. reflexivity. Qed.
Example C73_next_case :
  let f := Fn (TFunc $"f" (Host (Some [$"A"; $"B"; $"C"]) [$"bool"]) (Some (ty $"B")) [TDecl (ty $"std::map<B, C>") $"m" []]) in
  elem_instance [([], $"int"); ([], $"B")] f = Some (Some (Fn (TFunc $"f" (Host (Some [$"A"; $"B"; $"C"]) [$"bool"; $"int"; $"B"]) (Some (ty $"int")) [TDecl (ty $"std::map<int, B>") $"m" []]))) /\
  elem_instance [([], $"int"); ([], $"B"); ([], $"C")] f = None.
Proof. vm_compute. auto. Qed.

(** ** What does not hold *)

(** Default values still use the parameter. *)
Theorem C73_default_refuted : exists e e' d, elem_instance [([], $"int")] e = Some (Some e') /\ e' = Fn (TFunc $"f" (Host (Some [$"T"]) [$"int"]) None [d]) /\ d_type d = ty $"int" /\ d_initial d = $"T(0)".
Proof. exists (Fn (TFunc $"f" (Host (Some [$"T"]) []) None [TDecl (ty $"T") $"x" $"T(0)"])). eexists; eexists. split; [vm_compute; reflexivity|]. split; [reflexivity|]. split; reflexivity. Qed.
Print Assumptions C73_default_refuted.
(** So do the bases of a class, and the types it defines. *)
Theorem C73_base_refuted : exists e n h b bl, elem_instance [([], $"int")] e = Some (Some (Class n h b bl)) /\ In $"Base<T>" b /\ In (Other $"using V = T;") (concat bl).
Proof. exists box. eexists; eexists; eexists; eexists. split; [vm_compute; reflexivity|]. split; [left; reflexivity|]. cbn. tauto. Qed.
Print Assumptions C73_base_refuted.
(** A template which does not use its parameter in its types cannot be published: an exception is raised. *)
Theorem C73_unused_refuted : exists e T, templatable e /\ elem_host e = Host (Some [T]) [] /\ name_of T /\ split_into_instances [TSpec (fun _ => true) [ty $"int"]] e = None.
Proof.
  exists (Fn (TFunc $"reset" (Host (Some [$"T"]) []) (Some (ty $"void")) [])), $"T". repeat split; [discriminate|repeat constructor].
Qed.
Print Assumptions C73_unused_refuted.
(** Nor can those for which a type of several words is asked. *)
Theorem C73_words_refuted : exists e T, templatable e /\ elem_host e = Host (Some [T]) [] /\ name_of T /\ elem_uses [(T, $"unsigned int")] e = true /\
  split_into_instances [TSpec (fun _ => true) [CType [$"unsigned"; $"int"] [] []]] e = None.
Proof. exists box, $"T". repeat split; [discriminate|repeat constructor]. Qed.
Print Assumptions C73_words_refuted.
(** A constant parameter, for a pointer: the result is the text of a pointer to a constant. *)
Theorem C73_const_refuted : exists t', type_instance [($"T", $"int *")] (CType [$"T"] [$"const"] []) = Some t' /\ str_code t' = str_code (CType [$"int"] [$"const"] [$"*"]).
Proof. eexists. split; [vm_compute; reflexivity|vm_compute; reflexivity]. Qed.
Print Assumptions C73_const_refuted.
(** The member T of another class is taken for the parameter. *)
Theorem C73_member_refuted : exists t', type_instance [($"T", $"int")] (ty $"Other::T") = Some t' /\ t' = ty $"Other::int".
Proof. eexists. split; vm_compute; reflexivity. Qed.
Print Assumptions C73_member_refuted.
(** With several parameters, an argument which has the name of a later parameter is replaced too. *)
Theorem C73_swap_refuted : exists e, elem_instance [([], $"B"); ([], $"A")] e = Some (Some (Fn (TFunc $"f" (Host (Some [$"A"; $"B"]) [$"B"; $"A"]) (Some (ty $"A")) [TDecl (ty $"A") $"b" []]))) /\
  in_elem [($"A", $"B"); ($"B", $"A")] e = Fn (TFunc $"f" (Host (Some [$"A"; $"B"]) []) (Some (ty $"B")) [TDecl (ty $"A") $"b" []]).
Proof. exists (Fn (TFunc $"f" (Host (Some [$"A"; $"B"]) []) (Some (ty $"A")) [TDecl (ty $"B") $"b" []])). split; vm_compute; reflexivity. Qed.
Print Assumptions C73_swap_refuted.
