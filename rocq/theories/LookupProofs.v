From Verif Require Import PyStr PyStrLemmas ScopeModel LookupModel LookupSpec.
From Coq Require Import Lia.

(** Scopes as texts and as lists. *)
Lemma join_cons2 sep x y (l : list str) : join sep (x :: y :: l) = x ++ sep ++ join sep (y :: l).
Proof. reflexivity. Qed.
Lemma join_nonempty N x l : distinct_names N -> In x N -> exists c r, join colons (x :: l) = c :: r /\ c <> ":"%char.
Proof.
  intros (P & _) I. rewrite Forall_forall in P. destruct (P x I) as (Nx & Cx). destruct x as [|c x]; [congruence|].
  exists c. assert (c <> ":"%char) by (intros ->; apply Cx; left; reflexivity).
  destruct l; [exists x; auto|]. rewrite join_cons2. eexists. split; [reflexivity|auto].
Qed.
Lemma startswith_strip p a b : startswith (p ++ a) (p ++ b) = startswith a b.
Proof. induction p as [|c p IH]; auto. cbn [app startswith]. rewrite ceqb_refl. exact IH. Qed.
Lemma app_cmp {A} (a : list A) : forall b c d, a ++ b = c ++ d -> (exists r, c = a ++ r) \/ (exists r, a = c ++ r).
Proof.
  induction a as [|x a IH]; intros b c d E; [left; eexists; reflexivity|]. destruct c as [|y c]; [right; eexists; reflexivity|].
  cbn in E. injection E as -> E. destruct (IH b c d E) as [(r & ->)|(r & ->)]; [left|right]; exists r; reflexivity.
Qed.
Lemma starts_prefix N : distinct_names N -> forall a b tail, incl a N -> incl b N -> tail = [] \/ tail = colons ->
  startswith (join colons a) (join colons b ++ tail) = true <-> prefix_of a b.
Proof.
  intros D. induction a as [|x a IH]; intros b tail Ia Ib T.
  - split; intros _; [exists b; reflexivity|apply startswith_nil].
  - pose proof (Ia x (or_introl eq_refl)) as Ix. destruct b as [|y b].
    + destruct (join_nonempty N x a D Ix) as (c & r & -> & Nc). split.
      * intros H. destruct T as [->| ->]; cbn in H; [discriminate|]. destruct (ceqb_spec c ":"%char); [congruence|discriminate].
      * intros (r' & E). discriminate E.
    + pose proof (Ib y (or_introl eq_refl)) as Iy.
      assert (Ia' : incl a N) by (intros z I; apply Ia; right; exact I).
      assert (Ib' : incl b N) by (intros z I; apply Ib; right; exact I).
      assert (J : forall z l, exists w, join colons (z :: l) = z ++ w).
      { intros z l. destruct l; [exists []; rewrite app_nil_r; reflexivity|]. rewrite join_cons2. eexists. reflexivity. }
      split.
      * intros H. assert (x = y) as ->.
        { apply startswith_true in H. destruct H as (r & H). destruct (J x a) as (w & E), (J y b) as (w' & E').
          rewrite E, E', <- !app_assoc in H. destruct D as (_ & D).
          destruct (app_cmp _ _ _ _ H) as [(z & Z)|(z & Z)].
          - symmetry. apply D; auto. rewrite Z. apply startswith_app.
          - apply D; auto. rewrite Z. apply startswith_app. }
        destruct a as [|x' a]; [exists b; reflexivity|]. rewrite join_cons2 in H. destruct b as [|y' b].
        -- change (join colons [y]) with y in H. rewrite startswith_strip in H.
           destruct (join_nonempty N x' a D (Ia' x' (or_introl eq_refl))) as (c & r & E & Nc). rewrite E in H.
           destruct T as [->| ->]; discriminate H.
        -- rewrite join_cons2, <- !app_assoc, !startswith_strip in H. apply (IH (y' :: b) tail) in H; auto.
           destruct H as (r & ->). exists r. reflexivity.
      * intros (r & E). cbn [app] in E. injection E as -> ->. destruct a as [|x' a].
        -- destruct (J x ([] ++ r)) as (w & ->). rewrite <- app_assoc. apply startswith_app.
        -- change ((x' :: a) ++ r) with (x' :: (a ++ r)). rewrite !join_cons2, <- !app_assoc, !startswith_strip.
           apply (IH (x' :: (a ++ r)) tail); auto. exists r. reflexivity.
Qed.

Lemma prefix_dec (a b : scope) : {prefix_of a b} + {~ prefix_of a b}.
Proof.
  revert b; induction a as [|x a IH]; intros b; [left; exists b; reflexivity|]. destruct b as [|y b]; [right; intros (r & E); discriminate|].
  destruct (list_eq_dec ascii_dec x y) as [->|N]; [|right; intros (r & E); cbn in E; congruence].
  destruct (IH b) as [P|P]; [left|right].
  - destruct P as (r & ->). exists r. reflexivity.
  - intros (r & E). cbn in E. injection E as ->. apply P. exists r. reflexivity.
Qed.
Definition sees (current qualifiers : scope) (name : str) (c : class) : bool :=
  seqb (c_name c) name && (if prefix_dec (c_scope c) qualifiers then true
                           else if prefix_dec (c_scope c) (current ++ qualifiers) then true else false).

Lemma bool_iff (a : bool) (P : Prop) (d : {P} + {~ P}) : (a = true <-> P) -> a = if d then true else false.
Proof. intros (A & B). destruct d as [p|n]; [exact (B p)|]. destruct a; [destruct (n (A eq_refl))|reflexivity]. Qed.
Lemma find_ext {A} (f g : A -> bool) l : (forall x, In x l -> f x = g x) -> find f l = find g l.
Proof.
  induction l as [|x l IH]; intros H; auto. cbn [find]. rewrite (H x (or_introl eq_refl)).
  destruct (g x); auto. apply IH. intros y I. apply H. right; exact I.
Qed.

Lemma qualified_text q name : Forall plain_name (q ++ [name]) ->
  (if contains colons (qualified q name)
   then (last (split colons (qualified q name)) [], join colons (removelast (split colons (qualified q name))))
   else (qualified q name, [])) = (name, join colons q).
Proof.
  intros P. assert (S : split colons (qualified q name) = q ++ [name]).
  { apply (split_join colons ":"%char); [discriminate|reflexivity|destruct q; discriminate|].
    eapply Forall_impl; [|exact P]. intros p (_ & H). exact H. }
  destruct q as [|x q].
  - cbn [qualified app join]. unfold qualified. cbn [app join].
    assert (contains colons name = false) as ->; [|reflexivity].
    inversion P as [|? ? (_ & Nn) _]; subst. apply contains_false. intros a b E. apply Nn. rewrite E.
    apply in_app_iff. right. left. reflexivity.
  - assert (contains colons (qualified (x :: q) name) = true) as ->.
    { unfold qualified. change ((x :: q) ++ [name]) with (x :: (q ++ [name])). destruct (q ++ [name]) as [|y l] eqn:E.
      - destruct q; discriminate.
      - rewrite join_cons2. apply contains_true. exists x. eexists. reflexivity. }
    rewrite S, last_last, removelast_last. reflexivity.
Qed.

Lemma join_app_colons a b : a <> [] -> b <> [] -> join colons (a ++ b) = join colons a ++ colons ++ join colons b.
Proof.
  intros Na Nb. induction a as [|x a IH]; [congruence|]. destruct a as [|y a].
  - destruct b; [congruence|]. reflexivity.
  - change ((x :: y :: a) ++ b) with (x :: y :: (a ++ b)). rewrite join_cons2. change (y :: (a ++ b)) with ((y :: a) ++ b).
    rewrite IH by discriminate. rewrite join_cons2, <- !app_assoc. reflexivity.
Qed.

Section Find.
Context (N : list str) (D : distinct_names N) (classes : list class) (current q : scope) (name : str)
  (Ic : forall c, In c classes -> incl (c_scope c) N) (Icur : incl current N) (Iq : incl q N) (Hn : plain_name name).

Lemma plain_all : Forall plain_name (q ++ [name]).
Proof.
  apply Forall_app. split; [|constructor; auto]. destruct D as (P & _). rewrite Forall_forall in *. auto.
Qed.

Lemma find_sees : find_struct_or_class classes (qualified q name) current = find (sees current q name) classes.
Proof.
  unfold find_struct_or_class. cbv zeta. rewrite (qualified_text q name plain_all).
  apply find_ext. intros c I. unfold sees. f_equal. specialize (Ic c I). unfold str_cpp.
  destruct current as [|x cur] eqn:Ec.
  - cbn [join length Nat.ltb Nat.leb existsb app]. rewrite orb_false_r.
    assert (startswith (join colons (c_scope c)) (join colons q) = if prefix_dec (c_scope c) q then true else false) as ->.
    { apply bool_iff. rewrite <- (starts_prefix N D (c_scope c) q []); auto. rewrite app_nil_r. tauto. }
    destruct (prefix_dec (c_scope c) q); auto.
  - destruct (join_nonempty N x cur D (Icur x (or_introl eq_refl))) as (ch & r & E & _).
    assert (0 <? length (join colons (x :: cur)) = true) as -> by (rewrite E; reflexivity).
    cbn [existsb]. rewrite orb_false_r.
    assert (startswith (join colons (c_scope c)) (join colons q) = if prefix_dec (c_scope c) q then true else false) as ->.
    { apply bool_iff. rewrite <- (starts_prefix N D (c_scope c) q []); auto. rewrite app_nil_r. tauto. }
    assert (startswith (join colons (c_scope c)) (join colons (x :: cur) ++ colons ++ join colons q)
            = if prefix_dec (c_scope c) ((x :: cur) ++ q) then true else false) as ->.
    { apply bool_iff. destruct q as [|y q'].
      - rewrite (app_nil_r (x :: cur)). rewrite <- (starts_prefix N D (c_scope c) (x :: cur) colons); auto.
        change (join colons []) with (@nil ascii). rewrite (app_nil_r colons). tauto.
      - rewrite <- join_app_colons by discriminate. rewrite <- (starts_prefix N D (c_scope c) ((x :: cur) ++ y :: q') []); auto.
        + rewrite app_nil_r. tauto.
        + apply incl_app; auto. }
    destruct (prefix_dec (c_scope c) q); auto.
Qed.
End Find.

(** C++ lookup. *)
Lemma first_some_in {A} (l : list (option A)) x : first_some l = Some x -> In (Some x) l.
Proof. induction l as [|[y|] l IH]; cbn; intros H; [discriminate|left; congruence|right; auto]. Qed.
Lemma first_some_none {A} (l : list (option A)) : first_some l = None -> forall x, ~ In (Some x) l.
Proof.
  induction l as [|[y|] l IH]; cbn; intros H x I; [exact I|discriminate|].
  destruct I as [I|I]; [discriminate|exact (IH H x I)].
Qed.
Lemma enclosing_prefix current sc : In sc (enclosing current) <-> prefix_of sc current.
Proof.
  unfold enclosing. rewrite in_map_iff. split.
  - intros (n & <- & _). exists (skipn n current). symmetry. apply firstn_skipn.
  - intros (r & ->). exists (length sc). split.
    + rewrite firstn_app, Nat.sub_diag, firstn_all. cbn. apply app_nil_r.
    + apply in_rev. rewrite rev_involutive. apply in_seq. rewrite app_length. lia.
Qed.
Lemma declared_in_some classes sc name c : declared_in classes sc name = Some c -> In c classes /\ c_scope c = sc /\ c_name c = name.
Proof.
  intros H. apply find_some in H. destruct H as (I & H). split; auto.
  destruct (list_eq_dec (list_eq_dec ascii_dec) (c_scope c) sc); [|discriminate]. apply seqb_true in H. auto.
Qed.
Lemma declared_in_found classes c : In c classes -> exists c', declared_in classes (c_scope c) (c_name c) = Some c'.
Proof.
  intros I. destruct (declared_in classes (c_scope c) (c_name c)) eqn:E; eauto.
  pose proof (find_none _ _ E c I) as H. cbn beta in H.
  destruct (list_eq_dec (list_eq_dec ascii_dec) (c_scope c) (c_scope c)); [|congruence]. rewrite seqb_refl in H. discriminate.
Qed.
Lemma lookup_some classes cur q name c : cpp_lookup classes cur q name = Some c ->
  In c classes /\ c_name c = name /\ exists sc, prefix_of sc cur /\ c_scope c = sc ++ q.
Proof.
  intros H. apply first_some_in, in_map_iff in H. destruct H as (sc & H & I). apply enclosing_prefix in I.
  apply declared_in_some in H. destruct H as (A & B & C). split; auto. split; auto. exists sc. auto.
Qed.
Lemma lookup_found classes cur q c sc : In c classes -> prefix_of sc cur -> c_scope c = sc ++ q ->
  exists c', cpp_lookup classes cur q (c_name c) = Some c'.
Proof.
  intros I P E. destruct (cpp_lookup classes cur q (c_name c)) eqn:L; eauto.
  destruct (declared_in_found classes c I) as (c' & F). rewrite E in F.
  exfalso. apply (first_some_none _ L c'). apply in_map_iff. exists sc. split; auto. apply enclosing_prefix, P.
Qed.

Lemma sees_true current q name c : sees current q name c = true <->
  c_name c = name /\ (prefix_of (c_scope c) q \/ prefix_of (c_scope c) (current ++ q)).
Proof.
  unfold sees. rewrite andb_true_iff, seqb_true.
  destruct (prefix_dec (c_scope c) q), (prefix_dec (c_scope c) (current ++ q)); intuition discriminate.
Qed.

Lemma find_unqualified N classes current name : distinct_names N -> (forall c, In c classes -> incl (c_scope c) N) ->
  incl current N -> plain_name name ->
  (forall c c', In c classes -> In c' classes -> c_name c = name -> c_name c' = name ->
     prefix_of (c_scope c) current -> prefix_of (c_scope c') current -> c = c') ->
  find_struct_or_class classes name current = cpp_lookup classes current [] name.
Proof.
  intros D Ic Icur Hn U. change name with (qualified [] name) at 1.
  rewrite (find_sees N D classes current [] name Ic Icur (fun x (H : In x []) => match H with end) Hn).
  assert (V : forall c, sees current [] name c = true <-> c_name c = name /\ prefix_of (c_scope c) current).
  { intros c. rewrite sees_true, app_nil_r. split; [|tauto]. intros (A & [B|B]); split; auto.
    destruct B as (r & B). destruct (c_scope c); [exists current; reflexivity|discriminate]. }
  destruct (cpp_lookup classes current [] name) as [c|] eqn:L.
  - apply lookup_some in L. destruct L as (I & E & sc & P & S). rewrite app_nil_r in S. subst sc.
    destruct (find (sees current [] name) classes) as [c'|] eqn:F.
    + apply find_some in F. destruct F as (I' & F). apply V in F. destruct F as (E' & P'). f_equal. exact (U c' c I' I E' E P' P).
    + pose proof (find_none _ _ F c I) as H. rewrite (proj2 (V c) (conj E P)) in H. discriminate.
  - destruct (find (sees current [] name) classes) as [c'|] eqn:F; auto.
    apply find_some in F. destruct F as (I' & F). apply V in F. destruct F as (E' & P').
    destruct (lookup_found classes current [] c' (c_scope c') I' P') as (c & H); [rewrite app_nil_r; reflexivity|].
    rewrite E' in H. congruence.
Qed.

Lemma find_qualified N classes current q name c : distinct_names N -> (forall c, In c classes -> incl (c_scope c) N) ->
  incl current N -> incl q N -> plain_name name -> In c classes -> c_name c = name ->
  (forall c', In c' classes -> c_name c' = name -> c' = c) -> c_scope c = q \/ c_scope c = current ++ q ->
  find_struct_or_class classes (qualified q name) current = Some c /\ cpp_lookup classes current q name = Some c.
Proof.
  intros D Ic Icur Iq Hn I E U S. split.
  - rewrite (find_sees N D classes current q name Ic Icur Iq Hn).
    destruct (find (sees current q name) classes) as [c'|] eqn:F.
    + apply find_some in F. destruct F as (I' & F). apply sees_true in F. f_equal. apply U; tauto.
    + pose proof (find_none _ _ F c I) as H. rewrite (proj2 (sees_true current q name c)) in H; [discriminate|]. split; auto.
      destruct S as [->| ->]; [left|right]; exists []; symmetry; apply app_nil_r.
  - assert (H : exists c', cpp_lookup classes current q (c_name c) = Some c').
    { destruct S as [S|S].
      - apply (lookup_found classes current q c [] I); [exists current; reflexivity|exact S].
      - apply (lookup_found classes current q c current I); [exists []; symmetry; apply app_nil_r|exact S]. }
    destruct H as (c' & H). rewrite E in H. rewrite H. f_equal. apply lookup_some in H. apply U; tauto.
Qed.
