From Verif Require Import PyStr TreeModel TreeSpec TreeProofs TreeProofs2.
From Coq Require Import Lia.

(** Paths. *)
Lemma path_head t x : path t [x] -> x = t.
Proof. inversion 1 as [|? ? ? ? ? P]; auto. Qed.
Lemma path_nonempty t : ~ path t [].
Proof. inversion 1. Qed.
Lemma path_first t y l : path t (y :: l) -> y = t.
Proof. inversion 1; auto. Qed.
Lemma path_snoc l : forall t y x, path t (l ++ [y; x]) -> path t (l ++ [y]) /\ exists r, In (r, x) (tree_children y).
Proof.
  induction l as [|z l IH]; intros t y x P; cbn [app] in *.
  - inversion P as [|t' r c l' I P' E1]; subst. apply path_head in P'. subst c. split; [apply path_here|eauto].
  - inversion P as [|t' r c l' I P' E1]; subst; [destruct l; discriminate|]. destruct (IH c y x P') as (A & B).
    split; auto. eapply path_down; eauto.
Qed.
Lemma path_within l : forall t x, path t (l ++ [x]) -> within t x.
Proof.
  induction l as [|y l IH] using rev_ind; intros t x P.
  - apply path_head in P. subst. apply within_self.
  - rewrite <- app_assoc in P. apply path_snoc in P. destruct P as (P & r & I). eapply within_child; eauto.
Qed.
Lemma path_all_within l : forall t, path t l -> forall s, In s l -> within t s.
Proof.
  induction l as [|y l IH]; intros t P s I; [destruct I|]. pose proof (path_first _ _ _ P). subst y.
  destruct I as [<-|I]; [apply within_self|]. inversion P as [|t' r c l' Ic P' E1]; subst; [destruct I|].
  eapply within_step; eauto.
Qed.
Lemma ids_child_length n k l r c : In (r, c) l -> S (length (ids c)) <= length (ids (Node n k l)).
Proof.
  intros I. cbn [ids length]. apply le_n_S. induction l as [|a l IH]; [destruct I|]. cbn [map concat]. rewrite app_length.
  destruct I as [->|I]; cbn [snd]; [lia|]. specialize (IH I). lia.
Qed.
Lemma path_length t l : path t l -> length l <= length (ids t).
Proof.
  induction 1 as [[n k c]|[n k ch] r c l I P IH]; [cbn; lia|]. cbn [length].
  pose proof (ids_child_length n k ch r c I). lia.
Qed.

(** Every element has a path. *)
Lemma within_path t s : within t s -> exists l, path t (l ++ [s]).
Proof.
  induction 1 as [|s r c W (l & P) I]; [exists []; apply path_here|]. exists (l ++ [s]).
  clear W. revert t P. induction l as [|y l IH]; intros t P; cbn [app] in *.
  - apply path_head in P. subst. eapply path_down; [exact I|apply path_here].
  - inversion P as [|t' r' c' l' I' P' E1]; subst; [destruct l; discriminate|]. eapply path_down; eauto.
Qed.

(** Ancestors. *)
Lemma ancestors_path pm t : consistent pm t -> pm (tree_id t) = None -> forall l x fuel, path t (l ++ [x]) -> length l <= fuel ->
  ancestors_from fuel pm (pm (tree_id x)) = Some (rev (map tree_id l)).
Proof.
  intros C R. induction l as [|y l IH] using rev_ind; intros x fuel P L.
  - apply path_head in P. subst x. rewrite R. destruct fuel; reflexivity.
  - rewrite <- app_assoc in P. apply path_snoc in P. destruct P as (P & r & I).
    rewrite (C y r x (path_within l t y P) I). rewrite app_length in L. cbn [length] in L.
    destruct fuel as [|fuel]; [lia|]. cbn [ancestors_from]. rewrite (IH y fuel P) by lia.
    rewrite map_app, rev_app_distr. reflexivity.
Qed.

(** Finding. *)
Lemma find_tree_eq n m k l : find_tree n (Node m k l) = if m =? n then Some (Node m k l)
  else fold_right (fun rc acc => match find_tree n (snd rc) with Some x => Some x | None => acc end) None l.
Proof.
  cbn [find_tree]. destruct (m =? n); auto. induction l as [|(r, c) l IH]; auto. cbn [fold_right snd]. rewrite <- IH. reflexivity.
Qed.
Lemma find_tree_none t n : ~ In n (ids t) -> find_tree n t = None.
Proof.
  induction t as [m k l IH] using tree_ind'. intros N. rewrite find_tree_eq. destruct (Nat.eqb_spec m n) as [->|_].
  - destruct N. left; reflexivity.
  - assert (Nl : ~ In n (ids_list l)) by (intros I; apply N; right; exact I). clear N.
    induction l as [|(r, c) l IHl]; auto. cbn [fold_right snd]. rewrite Forall_forall in IH.
    unfold ids_list in Nl. cbn [map concat snd] in Nl. rewrite in_app_iff in Nl.
    assert (F : find_tree n c = None) by (apply (IH (r, c) (or_introl eq_refl)); cbn [snd]; tauto).
    rewrite F. apply IHl.
    + rewrite Forall_forall. intros x I. apply IH. right; exact I.
    + unfold ids_list. tauto.
Qed.
Lemma within_inv n k l s : within (Node n k l) s -> s = Node n k l \/ exists r c, In (r, c) l /\ within c s.
Proof.
  intros W. remember (Node n k l) as t eqn:T. induction W as [|s r c R IH I]; auto. right.
  destruct IH as [E|(r' & c' & A & B)]; auto.
  - rewrite E, T in I. exists r, c. split; [exact I|apply within_self].
  - exists r', c'. split; [exact A|eapply within_child; eauto].
Qed.
Lemma find_tree_within t : unique t -> forall s, within t s -> find_tree (tree_id s) t = Some s.
Proof.
  induction t as [m k l IH] using tree_ind'. intros U s W. rewrite find_tree_eq.
  destruct (unique_inv m k l U) as (N & D). destruct (within_inv m k l s W) as [->|(r & c & I & W')].
  - cbn [tree_id]. rewrite Nat.eqb_refl. reflexivity.
  - assert (M : In (tree_id s) (ids c)) by (apply (ids_within c s W'), ids_self).
    destruct (Nat.eqb_spec m (tree_id s)) as [E|_]; [destruct N; rewrite E; exact (in_ids_list r c l _ I M)|].
    rewrite Forall_forall in IH. assert (Uc : forall r c, In (r, c) l -> unique c) by (intros; eapply unique_child; eauto).
    clear N U W. induction l as [|(r', c') l IHl]; [destruct I|]. cbn [fold_right snd].
    unfold ids_list in D. cbn [map concat snd] in D. apply NoDup_app_inv in D. destruct D as (D1 & D2 & D3).
    destruct I as [E|I].
    + inversion E; subst r' c'.
      assert (F : find_tree (tree_id s) c = Some s)
        by exact (IH (r, c) (or_introl eq_refl) (Uc r c (or_introl eq_refl)) s W').
      rewrite F. reflexivity.
    + rewrite find_tree_none; [|intros Q; exact (D3 _ Q (in_ids_list r c l _ I M))].
      apply IHl; auto.
      * intros x Ix. apply IH. right; exact Ix.
      * intros r0 c0 I0. apply (Uc r0). right; exact I0.
Qed.
Lemma kind_at_within t s : unique t -> within t s -> kind_at t (Some (Element (tree_id s))) = Some (tree_kind s).
Proof. intros U W. cbn [kind_at]. rewrite find_tree_within; auto. Qed.

Lemma names_of_path t l : unique t -> (forall s, In s l -> within t s) -> names_of t (map tree_id l) = scope_names l.
Proof.
  intros U. induction l as [|x l IH]; intros W; auto. unfold names_of in *. cbn [map concat].
  rewrite kind_at_within by (auto; apply W; left; reflexivity).
  rewrite IH by (intros s I; apply W; right; exact I). cbn [scope_names]. destruct (tree_kind x); reflexivity.
Qed.

Lemma in_c_enum_spec t pm l x : unique t -> consistent pm t -> pm (tree_id t) = None -> path t (l ++ [x]) ->
  in_c_enum t pm (tree_id x) = true <-> c_enumerator l x.
Proof.
  intros U C R P. unfold in_c_enum. rewrite kind_at_within by (auto; exact (path_within l t x P)). split.
  - intros E. destruct (tree_kind x) eqn:Kx; try discriminate.
    destruct l as [|b l _] using rev_ind.
    { apply path_head in P. subst x. rewrite R in E. discriminate. }
    pose proof P as Q. rewrite <- app_assoc in Q. apply path_snoc in Q. destruct Q as (Q & r & I).
    pose proof (path_within l t b Q) as Wb. rewrite (C b r x Wb I) in E. rewrite kind_at_within in E by auto.
    destruct (tree_kind b) eqn:Kb; try discriminate.
    destruct l as [|e l _] using rev_ind.
    { apply path_head in Q. subst b. rewrite R in E. discriminate. }
    pose proof Q as Q'. rewrite <- app_assoc in Q'. apply path_snoc in Q'. destruct Q' as (Q' & r' & I').
    pose proof (path_within l t e Q') as We. rewrite (C e r' b We I') in E. rewrite kind_at_within in E by auto.
    destruct (tree_kind e) as [| | | |name [|]| | | | | | | | | |] eqn:Ke; try discriminate.
    exists l, e, b, name. rewrite <- app_assoc. auto.
  - intros (l' & e & b & name & -> & Ke & Kb & Kx). rewrite Kx.
    assert (Q : path t ((l' ++ [e]) ++ [b; x])) by (rewrite <- app_assoc in *; exact P).
    apply path_snoc in Q. destruct Q as (Q & r & I). pose proof (path_within _ t b Q) as Wb.
    rewrite (C b r x Wb I), kind_at_within, Kb by auto.
    rewrite <- app_assoc in Q. apply path_snoc in Q. destruct Q as (Q & r' & I'). pose proof (path_within _ t e Q) as We.
    rewrite (C e r' b We I'), kind_at_within, Ke by auto. reflexivity.
Qed.

Lemma firstn_all2 {A} (l : list A) x y : firstn (length (l ++ [x; y]) - 2) (l ++ [x; y]) = l.
Proof. rewrite app_length. cbn [length]. rewrite Nat.add_sub, firstn_app, Nat.sub_diag, firstn_all. cbn. apply app_nil_r. Qed.

Section Scope.
Context (t : tree) (pm : parents) (U : unique t) (C : consistent pm t) (R : pm (tree_id t) = None).

Lemma anc_false l x fuel : path t (l ++ [x]) -> length (ids t) <= fuel ->
  ancestors_list fuel pm (tree_id x) false = Some (rev (map tree_id l)).
Proof.
  intros P F. unfold ancestors_list. apply (ancestors_path pm t); auto. pose proof (path_length _ _ P) as L.
  rewrite app_length in L. cbn [length] in L. lia.
Qed.
Lemma anc_true l x fuel : path t (l ++ [x]) -> length (ids t) <= fuel ->
  ancestors_list fuel pm (tree_id x) true = Some (rev (map tree_id (l ++ [x]))).
Proof.
  intros P F. unfold ancestors_list. pose proof (path_length _ _ P) as L. rewrite app_length in L. cbn [length] in L.
  destruct fuel as [|fuel]; [lia|]. cbn [ancestors_from]. rewrite (ancestors_path pm t C R l x fuel P) by lia.
  rewrite map_app, rev_app_distr. reflexivity.
Qed.

Lemma scope_plain l x fuel : path t (l ++ [x]) -> length (ids t) <= fuel -> ~ c_enumerator l x ->
  cpp_scope fuel t pm (tree_id x) false = Some (scope_names l).
Proof.
  intros P F N. unfold cpp_scope. rewrite (anc_false l x) by auto. cbv zeta.
  destruct (in_c_enum t pm (tree_id x)) eqn:E; [apply (in_c_enum_spec t pm l x) in E; tauto|].
  rewrite rev_involutive. f_equal. apply names_of_path; auto.
  intros s I. apply (path_all_within _ t P). apply in_app_iff. auto.
Qed.
Lemma scope_self l x fuel : path t (l ++ [x]) -> length (ids t) <= fuel -> ~ c_enumerator l x ->
  cpp_scope fuel t pm (tree_id x) true = Some (scope_names (l ++ [x])).
Proof.
  intros P F N. unfold cpp_scope. rewrite (anc_true l x) by auto. cbv zeta.
  destruct (in_c_enum t pm (tree_id x)) eqn:E; [apply (in_c_enum_spec t pm l x) in E; tauto|].
  rewrite rev_involutive. f_equal. apply names_of_path; auto.
  intros s I. apply (path_all_within _ t P). exact I.
Qed.
Lemma scope_enumerator l e b x name fuel : path t (l ++ [e; b; x]) -> length (ids t) <= fuel ->
  tree_kind e = KEnum name false -> tree_kind b = KBlock -> tree_kind x = KDecl ->
  cpp_scope fuel t pm (tree_id x) false = Some (scope_names l).
Proof.
  intros P F Ke Kb Kx. assert (P' : path t ((l ++ [e; b]) ++ [x])) by (rewrite <- app_assoc; exact P).
  unfold cpp_scope. rewrite (anc_false (l ++ [e; b]) x) by auto. cbv zeta.
  assert (E : in_c_enum t pm (tree_id x) = true).
  { apply (in_c_enum_spec t pm (l ++ [e; b]) x); auto. exists l, e, b, name. auto. }
  rewrite E, rev_involutive, map_app. cbn [map]. rewrite firstn_all2.
  f_equal. apply names_of_path; auto. intros s I. apply (path_all_within _ t P). apply in_app_iff. auto.
Qed.
End Scope.

(** The cache. *)
Lemma ask_fresh fuel t pm : forall queries c, (forall n b s, c n b = Some s -> cpp_scope fuel t pm n b = Some s) ->
  ask fuel t pm c queries = map (fun q => cpp_scope fuel t pm (fst q) (snd q)) queries.
Proof.
  induction queries as [|(n, b) q IH]; intros c V; auto. cbn [ask map fst snd]. unfold cpp_scope_cached.
  destruct (c n b) as [s|] eqn:E.
  - rewrite (V n b s E). f_equal. apply IH, V.
  - destruct (cpp_scope fuel t pm n b) as [s|] eqn:S; cbn; f_equal; apply IH; auto.
    intros m b' s' H. destruct (Nat.eqb_spec n m) as [->|_]; cbn [andb] in H; [|auto].
    destruct (Bool.eqb b b') eqn:B; [|auto]. apply Bool.eqb_prop in B. subst b'. congruence.
Qed.
