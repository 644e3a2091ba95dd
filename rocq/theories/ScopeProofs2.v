(** Proofs for C18 and C19: shortening names, and the caches. *)
From Verif Require Import PyStr PyStrLemmas ScopeModel ScopeSpec ScopeProofs.

(** *** Cutting a scope off a name *)

Definition no_colon (p : str) : Prop := ~ In ":"%char p.

Lemma clean_no_colon l : Forall clean l -> Forall no_colon l.
Proof. apply Forall_impl. intros p [_ H]. exact H. Qed.

Lemma split_join_app q r : q <> [] -> Forall no_colon q ->
  split colons (join colons q ++ colons ++ r) = q ++ split colons r.
Proof.
  intros Hne F. induction F as [|x q Hx F IH]; [congruence|].
  destruct q as [|y q].
  - cbn [join app]. apply (split_part colons ":"%char); auto; discriminate.
  - rewrite join_cons, <- !app_assoc. rewrite (split_part colons ":"%char); auto; [|discriminate].
    cbn [app]. f_equal. apply IH. discriminate.
Qed.

Lemma split_parts l : l <> [] -> Forall no_colon l -> split colons (join colons l) = l.
Proof. intros Hne H. apply (split_join colons ":"%char); auto. discriminate. Qed.

Lemma cut_some id q s : id <> [] -> Forall no_colon id -> q <> [] -> Forall no_colon q ->
  cut (join colons id) (join colons q ++ colons) = Some s ->
  exists r, r <> [] /\ id = q ++ r /\ s = join colons r.
Proof.
  intros Hi Fi Hq Fq. unfold cut. destruct (startswith _ _) eqn:E; [|discriminate].
  apply startswith_true in E as (r & E). intros H. inversion H; subst s; clear H.
  rewrite E. rewrite skipn_app, skipn_all, Nat.sub_diag. cbn [app skipn].
  exists (split colons r). split; [apply split_nonempty; discriminate|]. split.
  - rewrite <- (split_parts id) by auto. rewrite E, <- app_assoc. apply split_join_app; auto.
  - symmetry. apply join_split. discriminate.
Qed.

Lemma cut_app q r : q <> [] -> r <> [] ->
  cut (join colons (q ++ r)) (join colons q ++ colons) = Some (join colons r).
Proof.
  intros Hq Hr. unfold cut. rewrite join_app by auto. rewrite app_assoc, startswith_app.
  rewrite skipn_app, skipn_all, Nat.sub_diag. reflexivity.
Qed.

(** *** The two loops *)

Lemma first_loop_some id parts s : id <> [] -> Forall no_colon id -> Forall no_colon parts ->
  forall k, k <= length parts -> first_loop (join colons id) parts k = Some s ->
  exists j r, 0 < j <= k /\ r <> [] /\ id = firstn j parts ++ r /\ s = join colons r /\
  (forall i r', j < i <= k -> r' <> [] -> id <> firstn i parts ++ r').
Proof.
  intros Hi Fi Fp. induction k as [|k IH]; intros Hk H; [discriminate|].
  cbn [first_loop] in H.
  assert (Hne : firstn (S k) parts <> []).
  { intros E. apply (f_equal (@length str)) in E. rewrite firstn_length_le in E by lia. discriminate. }
  destruct (cut _ _) as [s'|] eqn:E.
  - inversion H; subst s'; clear H. apply cut_some in E; auto using Forall_firstn.
    destruct E as (r & Hr & E1 & E2). exists (S k), r. repeat split; auto; [lia|].
    intros i r' Hb. lia.
  - destruct (IH ltac:(lia) H) as (j & r & Hj & Hr & E1 & E2 & Hmax).
    exists j, r. repeat split; auto; [lia|lia|].
    intros i r' Hb Hr' E'. destruct (Nat.eq_dec i (S k)) as [->|Hn].
    + rewrite E' in E. rewrite cut_app in E by auto. discriminate.
    + apply (Hmax i r'); auto. lia.
Qed.

Lemma first_loop_none id parts : id <> [] -> Forall no_colon id -> Forall no_colon parts ->
  forall k, k <= length parts -> first_loop (join colons id) parts k = None ->
  forall i r', 0 < i <= k -> r' <> [] -> id <> firstn i parts ++ r'.
Proof.
  intros Hi Fi Fp. induction k as [|k IH]; intros Hk H i r' Hb Hr' E'; [lia|].
  cbn [first_loop] in H.
  assert (Hne : firstn (S k) parts <> []).
  { intros E. apply (f_equal (@length str)) in E. rewrite firstn_length_le in E by lia. discriminate. }
  destruct (cut _ _) as [s'|] eqn:E; [discriminate|].
  destruct (Nat.eq_dec i (S k)) as [->|Hn].
  - rewrite E' in E. rewrite cut_app in E by auto. discriminate.
  - apply (IH ltac:(lia) H i r'); auto. lia.
Qed.

Lemma second_loop_some id parts s : id <> [] -> Forall no_colon id -> Forall no_colon parts ->
  second_loop (join colons id) parts = Some s ->
  exists a q r, parts = a ++ q /\ q <> [] /\ r <> [] /\ id = q ++ r /\ s = join colons r.
Proof.
  intros Hi Fi. induction parts as [|p parts IH]; intros Fp H; [discriminate|].
  cbn [second_loop] in H. destruct (cut _ _) as [s'|] eqn:E.
  - inversion H; subst s'. apply cut_some in E; auto; [|discriminate].
    destruct E as (r & Hr & E1 & E2). exists [], (p :: parts), r.
    repeat split; auto. discriminate.
  - inversion Fp; subst. destruct (IH H3 H) as (a & q & r & -> & Hq & Hr & E1 & E2).
    exists (p :: a), q, r. auto.
Qed.

Lemma from_first_some x l q : from_first x l = Some q ->
  exists a b, l = a ++ q /\ q = x :: b /\ ~ In x a.
Proof.
  revert q. induction l as [|y l IH]; intros q H; [discriminate|].
  cbn [from_first] in H. destruct (seqb_spec y x) as [->|Hn].
  - inversion H; subst. exists [], l. auto.
  - destruct (IH q H) as (a & b & -> & E & Ha). exists (y :: a), b. repeat split; auto.
    intros [E'|E']; auto.
Qed.

Lemma from_first_none x l : from_first x l = None -> ~ In x l.
Proof.
  induction l as [|y l IH]; intros H; [intros []|].
  cbn [from_first] in H. destruct (seqb_spec y x) as [->|Hn]; [discriminate|].
  intros [E|E]; [congruence|]. apply IH; auto.
Qed.

Lemma split_prefix sc : Forall clean sc -> split colons (str_cpp_prefix sc) = sc ++ [[]].
Proof.
  intros H. destruct sc as [|x sc]; [reflexivity|].
  pose proof (split_join_app (x :: sc) [] ltac:(discriminate) (clean_no_colon _ H)) as E.
  rewrite app_nil_r in E. exact E.
Qed.

Lemma Forall_app_l {A} (P : A -> Prop) a b : Forall P (a ++ b) -> Forall P a.
Proof. intros H. apply Forall_app in H. tauto. Qed.
Lemma Forall_app_r {A} (P : A -> Prop) a b : Forall P (a ++ b) -> Forall P b.
Proof. intros H. apply Forall_app in H. tauto. Qed.

(** The scope parts kept at lines 99-102, for a clean scope given by its prefix text. *)
Lemma kept_parts x sc : Forall clean sc -> clean x ->
  exists outer p, sc = outer ++ p /\ ~ In x outer /\
    (from_first x (sc ++ [[]]) = Some (p ++ [[]]) /\ (exists b, p = x :: b)
     \/ from_first x (sc ++ [[]]) = None /\ outer = [] /\ ~ In x sc).
Proof.
  intros Hs Hx. destruct (from_first x (sc ++ [[]])) as [q|] eqn:E.
  - apply from_first_some in E as (a & b & E1 & E2 & Ha).
    assert (Hq : exists p, q = p ++ [[]] /\ p <> []).
    { destruct b as [|y b _] using rev_ind.
      - subst q. assert (x = []).
        { apply (f_equal (fun l => last l x)) in E1. rewrite !last_last in E1. congruence. }
        destruct Hx. contradiction.
      - subst q. change (x :: b ++ [y]) with ((x :: b) ++ [y]) in *.
        rewrite app_assoc in E1. apply app_inj_tail in E1 as [E1 E3].
        exists (x :: b). split; [rewrite <- E3; reflexivity|discriminate]. }
    destruct Hq as (p & -> & Hp). exists a, p.
    rewrite app_assoc in E1. apply app_inj_tail in E1 as [E1 _].
    split; auto. split; auto. left. split; auto.
    destruct p as [|y p]; [congruence|]. cbn [app] in E2. inversion E2. eauto.
  - apply from_first_none in E. exists [], sc. split; auto. split; [intros []|].
    right. repeat split; auto. intros H. apply E. apply in_or_app. auto.
Qed.

Lemma firstn_app_last {A} j (p : list A) x : j <= length p -> firstn j (p ++ [x]) = firstn j p.
Proof.
  intros H. rewrite firstn_app. replace (j - length p) with 0 by lia. cbn. apply app_nil_r.
Qed.

Lemma terse_shortened sc id : Forall clean sc -> Forall clean id -> id <> [] ->
  exists short, shortened sc id short /\
  make_terse_scoped_identifier (join colons id) (str_cpp_prefix sc) = join colons short.
Proof.
  intros Hs Hid Hne. unfold make_terse_scoped_identifier.
  assert (Fi : Forall no_colon id) by (apply clean_no_colon; auto).
  rewrite split_parts by auto. rewrite split_prefix by auto.
  destruct id as [|x id']; [congruence|]. cbn [hd]. set (id := x :: id') in *.
  assert (Hx : clean x) by (inversion Hid; auto).
  destruct (kept_parts x sc Hs Hx) as (outer & p & Esc & Hout & Hcase).
  set (parts := match from_first x (sc ++ [[]]) with Some l => l | None => sc ++ [[]] end).
  assert (Eparts : parts = p ++ [[]]).
  { unfold parts. destruct Hcase as [(E & _)|(E & -> & _)]; rewrite E; auto. rewrite Esc. auto. }
  clearbody parts. subst parts.
  assert (Hp : Forall clean p) by (rewrite Esc in Hs; apply Forall_app_r in Hs; auto).
  assert (Fp : Forall no_colon (p ++ [[]])).
  { apply Forall_app. split; [apply clean_no_colon; auto|]. repeat constructor. intros []. }
  assert (Hlen : length (p ++ [[]]) = S (length p)) by (rewrite app_length; cbn; lia).
  assert (Hno : forall r, id <> (p ++ [[]]) ++ r).
  { intros r E. rewrite E in Hid. apply Forall_app_l, Forall_app_r in Hid.
    inversion Hid as [|? ? [H _] _]. congruence. }
  destruct (first_loop (join colons id) (p ++ [[]]) (length (p ++ [[]]))) as [s|] eqn:E1.
  - apply first_loop_some in E1; auto.
    destruct E1 as (j & r & Hj & Hr & Eid & -> & Hmax).
    assert (Hjp : j <= length p).
    { destruct (Nat.eq_dec j (S (length p))) as [->|]; [|lia].
      rewrite <- Hlen, firstn_all in Eid. destruct (Hno _ Eid). }
    rewrite firstn_app_last in Eid by auto.
    exists r. split; auto. exists outer, (firstn j p), (skipn j p).
    rewrite firstn_skipn. repeat split; auto.
    + destruct Hcase as [(_ & b & ->)|(_ & -> & _)]; auto. right. exists x. auto.
    + intros y Hy Hin. cbn in Hy. inversion Hy; subst y.
      destruct Hcase as [(_ & b & ->)|(_ & _ & H)]; [reflexivity|contradiction].
    + destruct r as [|a r]; [congruence|]. destruct r as [|a' r]; [auto|].
      destruct (skipn j p) as [|b t] eqn:Et; [auto|]. right. right. cbn. intros E. inversion E; subst b.
      assert (Hlt : j < length p).
      { apply (f_equal (@length str)) in Et. rewrite skipn_length in Et. cbn in Et. lia. }
      apply (Hmax (S j) (a' :: r)); [rewrite app_length; cbn; lia|discriminate|].
      rewrite firstn_app_last by lia. rewrite Eid.
      assert (Ef : firstn (S j) p = firstn j p ++ [a]).
      { rewrite <- (firstn_skipn j p) at 1. rewrite Et.
        assert (Lj : length (firstn j p) = j) by (rewrite firstn_length_le; lia).
        rewrite firstn_app, (firstn_all2 (firstn j p)) by (rewrite Lj; lia).
        rewrite Lj. replace (S j - j) with 1 by lia. reflexivity. }
      rewrite Ef, <- app_assoc. reflexivity.
  - pose proof (first_loop_none id _ Hne Fi Fp _ (le_n _) E1) as Hnone.
    assert (Hsec : second_loop (join colons id) (p ++ [[]]) = None).
    { destruct (second_loop _ _) as [s|] eqn:E2; auto. exfalso.
      apply second_loop_some in E2; auto.
      destruct E2 as (a & q & r & Ea & Hq & Hr & Eid & _).
      destruct q as [|y q]; [congruence|]. unfold id in Eid. injection Eid as Ey Er. subst y.
      assert (Hin : In x (p ++ [[]])) by (rewrite Ea; apply in_or_app; right; left; auto).
      apply in_app_or in Hin as [Hin|[Hin|[]]]; [|destruct Hx; congruence].
      destruct Hcase as [(_ & b & Ep)|(_ & -> & H)]; [|rewrite Esc in H; contradiction].
      apply (Hnone 1 id').
      - rewrite Hlen. lia.
      - rewrite Er. destruct q; [exact Hr|discriminate].
      - rewrite Ep. reflexivity. }
    rewrite Hsec. exists id. split; auto. exists outer, [], p. cbn [app].
    repeat split; auto.
    + destruct Hcase as [(_ & b & ->)|(_ & -> & _)]; auto. right. exists x. auto.
    + intros y Hy Hin. cbn in Hy. inversion Hy; subst y.
      destruct Hcase as [(_ & b & ->)|(_ & _ & H)]; [reflexivity|contradiction].
    + destruct id' as [|a id']; [left; reflexivity|].
      destruct p as [|b p]; [auto|]. right. right. cbn. intros E. inversion E; subst b.
      apply (Hnone 1 (a :: id')); [cbn; lia|discriminate|reflexivity].
Qed.

(** What shortening means for lookups. *)

Lemma candidate_join sc n id : n <= length sc -> id <> [] ->
  candidate sc n (join colons id) = join colons (firstn n sc ++ id).
Proof.
  intros Hn Hi. rewrite candidate_prefix by auto. unfold str_cpp_prefix, str_cpp.
  destruct (firstn n sc) as [|x l]; [reflexivity|].
  rewrite (join_app colons (x :: l) id) by (auto; discriminate). rewrite <- app_assoc. auto.
Qed.

Lemma terse_candidates sc id : Forall clean sc -> Forall clean id -> id <> [] ->
  let short := make_terse_scoped_identifier (join colons id) (str_cpp_prefix sc) in
  exists n m, m <= n <= length sc /\
  candidate sc n short = candidate sc m (join colons id) /\
  ((forall x, hd_error id = Some x -> hd_error sc = Some x \/ ~ In x sc) -> m = 0).
Proof.
  intros Hs Hid Hne. cbn zeta.
  destruct (terse_shortened sc id Hs Hid Hne)
    as (short & (outer & common & rest & Esc & Eid & Hsh & Hout & Hfirst & _) & ->).
  exists (length (outer ++ common)), (length outer).
  assert (Hl : length (outer ++ common) <= length sc).
  { rewrite Esc, !app_length. lia. }
  assert (E1 : firstn (length (outer ++ common)) sc = outer ++ common).
  { rewrite Esc, app_assoc. rewrite firstn_app, Nat.sub_diag, firstn_all, app_nil_r. auto. }
  assert (E2 : firstn (length outer) sc = outer).
  { rewrite Esc. rewrite firstn_app, Nat.sub_diag, firstn_all, app_nil_r. auto. }
  rewrite app_length in *. split; [lia|]. split.
  - rewrite !candidate_join by (auto; lia). rewrite E1, E2, Eid, <- app_assoc. auto.
  - intros H. destruct Hout as [->|(x & Ex & Hx & Hh)]; auto.
    destruct (H x Ex) as [E|E].
    + destruct outer as [|y outer]; auto. rewrite Esc in E. cbn in E. inversion E; subst y.
      destruct Hx. left; auto.
    + destruct E. rewrite Esc. apply in_or_app. right.
      destruct (common ++ rest) as [|y l]; [discriminate|]. cbn in Hh. inversion Hh. left; auto.
Qed.

(** When the name is known, nothing between hides the short form, and its first part occurs
    nowhere in the scope or first in it, looking the short form up finds the name. *)
Lemma terse_lookup ids sc id : Forall clean sc -> Forall clean id -> id <> [] ->
  let short := make_terse_scoped_identifier (join colons id) (str_cpp_prefix sc) in
  (forall x, hd_error id = Some x -> hd_error sc = Some x \/ ~ In x sc) ->
  In (join colons id) ids ->
  (forall n, n <= length sc -> In (candidate sc n short) ids -> candidate sc n short = join colons id) ->
  lookup_finds ids sc short (join colons id).
Proof.
  intros Hs Hid Hne short Hfirst Hin Hu. subst short.
  destruct (terse_candidates sc id Hs Hid Hne) as (n & m & Hmn & E & Hm).
  rewrite (Hm Hfirst), candidate_0 in E.
  set (short := make_terse_scoped_identifier _ _) in *.
  (* the innermost one among those that are known *)
  assert (Hlen : forall i j, i <= length sc -> j <= length sc -> candidate sc i short = candidate sc j short ->
                 i = j).
  { intros i j Hi Hj Eij. rewrite !candidate_prefix in Eij by auto. apply app_inv_tail in Eij.
    assert (L : forall a b, a <= b -> b <= length sc ->
                str_cpp_prefix (firstn a sc) = str_cpp_prefix (firstn b sc) -> a = b).
    { intros a b Hab Hb Eab. apply (f_equal (split colons)) in Eab.
      rewrite !split_prefix in Eab by (apply Forall_firstn; auto).
      apply app_inj_tail in Eab as [Eab _]. apply (f_equal (@length str)) in Eab.
      rewrite !firstn_length_le in Eab by lia. auto. }
    destruct (Nat.le_ge_cases i j); [apply L; auto|symmetry; apply L; auto]. }
  exists n. split; [lia|]. split; [auto|]. split; [auto|].
  intros k Hk Hkin. pose proof (Hu k ltac:(lia) Hkin) as Ek.
  assert (k = n) by (apply Hlen; [lia|lia|congruence]). lia.
Qed.

(** *** Caches *)

Section Histories.
Variable ids : list str.

Lemma decl_first_query d history sc :
  let o := {| o_decl := d; o_cache := None |} in
  fst (decl_with_qualified_types ids (run (decl_with_qualified_types ids) o history) sc)
  = qualify_decl ids d (hd sc history).
Proof.
  destruct history as [|h history]; [reflexivity|]. cbn zeta. unfold run. cbn [fold_left hd].
  change (snd (decl_with_qualified_types ids {| o_decl := d; o_cache := None |} h))
    with {| o_decl := d; o_cache := Some (qualify_decl ids d h) |}.
  set (o := {| o_decl := d; o_cache := Some (qualify_decl ids d h) |}).
  assert (E : fold_left (fun o sc => snd (decl_with_qualified_types ids o sc)) history o = o).
  { induction history as [|k history IH]; [reflexivity|]. cbn [fold_left]. exact IH. }
  rewrite E. reflexivity.
Qed.

(** *** Functions: shortened form *)

Definition same_func (o0 o : func_obj) : Prop :=
  fo_own o = fo_own o0 /\ fo_class o = fo_class o0 /\ fo_return o = fo_return o0 /\
  fo_params o = fo_params o0.

Lemma same_terse_scope o0 o sc : same_func o0 o -> terse_scope o sc = terse_scope o0 sc.
Proof. intros (_ & E & _). unfold terse_scope. rewrite E. auto. Qed.

Lemma same_terse_func o0 o sc : same_func o0 o -> terse_func ids o sc = terse_func ids o0 sc.
Proof. intros (E1 & _ & E2 & E3). unfold terse_func. rewrite E1, E2, E3. auto. Qed.

(** Every entry of the cache is the shortened form for the scope actually used by some query. *)
Definition terse_ok (o0 o : func_obj) (past : list scope) : Prop :=
  same_func o0 o /\
  forall k v, cache_get (fo_terse o) k = Some v ->
    exists h, In h past /\ k = str_cpp (terse_scope o0 h) /\ v = terse_func ids o0 (terse_scope o0 h).

Lemma terse_ok_step o0 o past sc : terse_ok o0 o past ->
  terse_ok o0 (snd (func_with_terse_types ids o sc)) (sc :: past).
Proof.
  intros (Hsame & Hc). unfold func_with_terse_types.
  destruct (cache_get (fo_terse o) (str_cpp sc)) as [r|] eqn:E.
  - split; auto. intros k v Hk. destruct (Hc k v Hk) as (h & Hh & H). exists h. split; [right|]; auto.
  - cbn [snd]. split; [exact Hsame|]. cbn [fo_terse]. intros k v Hk. unfold cache_store in Hk. cbn in Hk.
    destruct (seqb_spec (str_cpp (terse_scope o sc)) k) as [Ek|_].
    + inversion Hk; subst. exists sc. split; [left; auto|].
      rewrite (same_terse_scope o0 o sc Hsame), (same_terse_func o0 o _ Hsame). auto.
    + destruct (Hc k v Hk) as (h & Hh & H). exists h. split; [right|]; auto.
Qed.

Lemma terse_ok_run o0 history : forall o past, terse_ok o0 o past ->
  terse_ok o0 (run (func_with_terse_types ids) o history) (rev history ++ past).
Proof.
  induction history as [|h history IH]; intros o past H; [exact H|].
  cbn [rev]. rewrite <- app_assoc. apply IH. apply terse_ok_step. auto.
Qed.

Lemma Forall_clean_terse o h : Forall clean h -> Forall clean (terse_scope o h).
Proof.
  intros H. unfold terse_scope. destruct (fo_class o); auto.
  destruct (rev h) as [|x l] eqn:E; auto. destruct (seqb x s); auto.
  apply rev_Forall. apply rev_Forall in H. rewrite E in H. inversion H; auto.
Qed.

Lemma terse_history own cls ret ps history sc :
  let o := fresh own cls ret ps in
  Forall clean sc -> Forall (Forall clean) history ->
  Forall (fun h => terse_scope o h = sc -> h = sc) history ->
  fst (func_with_terse_types ids (run (func_with_terse_types ids) o history) sc)
  = fst (func_with_terse_types ids o sc).
Proof.
  intros o Hs Hh Hx.
  assert (H0 : terse_ok o o []) by (split; [repeat split|]; intros k v Hk; discriminate).
  apply (terse_ok_run o history) in H0. rewrite app_nil_r in H0.
  set (o' := run _ o history) in *. destruct H0 as (Hsame & Hc).
  assert (E0 : fst (func_with_terse_types ids o sc) = terse_func ids o (terse_scope o sc)) by reflexivity.
  rewrite E0. unfold func_with_terse_types.
  destruct (cache_get (fo_terse o') (str_cpp sc)) as [r|] eqn:E.
  - destruct (Hc _ _ E) as (h & Hin & Ek & ->). cbn [fst]. rewrite <- in_rev in Hin.
    rewrite Forall_forall in Hh, Hx.
    apply str_cpp_inj in Ek; auto using Forall_clean_terse.
    pose proof (Hx h Hin (eq_sym Ek)). subst h. congruence.
  - cbn [fst]. rewrite (same_terse_scope o o' sc Hsame). apply same_terse_func. auto.
Qed.

(** *** Functions: qualified form *)

Definition qualify_func (o0 : func_obj) (sc : scope) : func :=
  {| f_return := type_with_qualified_types ids (fo_return o0) sc;
     f_params := if is_void_list (fo_params o0) then []
                 else map (fun p => qualify_decl ids (o_decl p) sc) (fo_params o0) |}.

(** A parameter remembers nothing, or the form for the scope [first]. *)
Definition param_ok (first : scope) (p0 p : decl_obj) : Prop :=
  o_decl p = o_decl p0 /\ (o_cache p = None \/ o_cache p = Some (qualify_decl ids (o_decl p0) first)).

Definition qual_ok (first : scope) (o0 o : func_obj) : Prop :=
  fo_return o = fo_return o0 /\ Forall2 (param_ok first) (fo_params o0) (fo_params o) /\
  forall k v, cache_get (fo_qualified o) k = Some v -> k = str_cpp first /\ v = qualify_func o0 first.

Lemma void_list_same first ps0 ps : Forall2 (param_ok first) ps0 ps -> is_void_list ps = is_void_list ps0.
Proof.
  intros H. destruct H as [|p0 p l0 l [E _] H]; auto. destruct H; auto. cbn. rewrite E. auto.
Qed.

Lemma decl_query_ok first p0 p : param_ok first p0 p ->
  fst (decl_with_qualified_types ids p first) = qualify_decl ids (o_decl p0) first /\
  param_ok first p0 (snd (decl_with_qualified_types ids p first)).
Proof.
  intros (E & [H|H]); unfold decl_with_qualified_types; rewrite H; cbn.
  - rewrite E. split; auto. split; auto.
  - split; auto. split; auto.
Qed.

Lemma params_query_ok first ps0 ps : Forall2 (param_ok first) ps0 ps ->
  map (fun o => fst (decl_with_qualified_types ids o first)) ps
    = map (fun p => qualify_decl ids (o_decl p) first) ps0 /\
  Forall2 (param_ok first) ps0 (map (fun o => snd (decl_with_qualified_types ids o first)) ps).
Proof.
  induction 1 as [|p0 p l0 l Hp H [IH1 IH2]]; cbn [map]; auto.
  destruct (decl_query_ok first p0 p Hp) as [E1 E2]. split; [congruence|auto].
Qed.

Lemma qual_query_ok first o0 o : qual_ok first o0 o ->
  fst (func_with_qualified_types ids o first) = qualify_func o0 first /\
  qual_ok first o0 (snd (func_with_qualified_types ids o first)).
Proof.
  intros (Er & Hp & Hc). unfold func_with_qualified_types.
  destruct (cache_get (fo_qualified o) (str_cpp first)) as [r|] eqn:E.
  - destruct (Hc _ _ E) as [_ ->]. split; auto. repeat split; auto; apply (Hc k v H).
  - unfold params_with_qualified_types. rewrite (void_list_same _ _ _ Hp).
    destruct (params_query_ok first _ _ Hp) as [E1 E2].
    assert (Hf : forall ps', {| f_return := type_with_qualified_types ids (fo_return o) first; f_params := ps' |}
                 = {| f_return := type_with_qualified_types ids (fo_return o0) first; f_params := ps' |})
      by (rewrite Er; auto).
    assert (Hq : qualify_func o0 first =
       {| f_return := type_with_qualified_types ids (fo_return o) first;
          f_params := if is_void_list (fo_params o0) then []
                 else map (fun o => fst (decl_with_qualified_types ids o first)) (fo_params o) |}).
    { rewrite Er, E1. reflexivity. }
    destruct (is_void_list (fo_params o0)); cbn [fst snd]; rewrite <- Hq; split; auto;
      (split; [auto|split; [auto|]]; cbn [fo_qualified]; unfold cache_store; cbn [cache_get];
       intros k v Hk; destruct (seqb_spec (str_cpp first) k) as [<-|_];
       [inversion Hk; auto|apply (Hc k v Hk)]).
Qed.

Lemma qualified_same_scope own cls ret ps sc n :
  let o := fresh own cls ret ps in
  fst (func_with_qualified_types ids (run (func_with_qualified_types ids) o (repeat sc n)) sc)
  = fst (func_with_qualified_types ids o sc).
Proof.
  intros o.
  assert (H0 : qual_ok sc o o).
  { split; [auto|]. split; [|intros k v H; discriminate].
    unfold o, fresh; cbn [fo_params]. induction ps as [|d ps IH]; cbn; constructor; auto.
    split; auto. }
  rewrite (proj1 (qual_query_ok sc o o H0)).
  assert (Hr : forall o', qual_ok sc o o' -> qual_ok sc o (run (func_with_qualified_types ids) o' (repeat sc n))).
  { induction n as [|n IH]; intros o' H; [exact H|]. cbn [repeat].
    change (run (func_with_qualified_types ids) o' (sc :: repeat sc n))
      with (run (func_with_qualified_types ids) (snd (func_with_qualified_types ids o' sc)) (repeat sc n)).
    apply IH. apply qual_query_ok. auto. }
  apply qual_query_ok. apply Hr. auto.
Qed.

(** Without parameters the scope is the only thing that matters. *)
Definition noparam_ok (o0 o : func_obj) : Prop :=
  fo_return o = fo_return o0 /\ fo_params o = fo_params o0 /\
  forall k v, cache_get (fo_qualified o) k = Some v ->
  exists h, Forall clean h /\ k = str_cpp h /\ v = qualify_func o0 h.

Lemma noparam_query_ok o0 o sc :
  (fo_params o0 = [] \/ is_void_list (fo_params o0) = true) -> Forall clean sc -> noparam_ok o0 o ->
  fst (func_with_qualified_types ids o sc) = qualify_func o0 sc /\
  noparam_ok o0 (snd (func_with_qualified_types ids o sc)).
Proof.
  intros Hnp Hs (Er & Ep & Hc). unfold func_with_qualified_types.
  destruct (cache_get (fo_qualified o) (str_cpp sc)) as [r|] eqn:E.
  - destruct (Hc _ _ E) as (h & Hh & Ek & ->). apply str_cpp_inj in Ek; auto. subst h.
    split; auto. split; auto.
  - unfold params_with_qualified_types. rewrite Ep.
    assert (Hq : qualify_func o0 sc =
       {| f_return := type_with_qualified_types ids (fo_return o) sc; f_params := [] |}).
    { unfold qualify_func. rewrite Er. destruct Hnp as [E0 | E0]; rewrite E0; reflexivity. }
    assert (Hstep : forall ps', ps' = fo_params o0 -> noparam_ok o0
       {| fo_own := fo_own o; fo_class := fo_class o; fo_return := fo_return o; fo_params := ps';
          fo_qualified := cache_store (fo_qualified o) (str_cpp sc) (qualify_func o0 sc);
          fo_terse := fo_terse o |}).
    { intros ps' ->. split; [auto|]. split; [auto|]. cbn [fo_qualified]. unfold cache_store. cbn [cache_get].
      intros k v Hk. destruct (seqb_spec (str_cpp sc) k) as [<-|_]; [inversion Hk; eauto|apply (Hc k v Hk)]. }
    destruct Hnp as [H|H]; rewrite H in *.
    + cbn [is_void_list map fst snd]. rewrite <- Hq. split; auto.
    + cbn [fst snd]. rewrite <- Hq. split; auto.
Qed.

Lemma qualified_no_params own cls ret ps history sc :
  let o := fresh own cls ret ps in
  (ps = [] \/ exists d, ps = [d] /\ d_type d = [$"void"]) ->
  Forall clean sc -> Forall (Forall clean) history ->
  fst (func_with_qualified_types ids (run (func_with_qualified_types ids) o history) sc)
  = fst (func_with_qualified_types ids o sc).
Proof.
  intros o Hps Hs Hh.
  assert (Hnp : fo_params o = [] \/ is_void_list (fo_params o) = true).
  { destruct Hps as [->|(d & -> & Ed)]; [left; auto|right]. cbn. rewrite Ed. reflexivity. }
  assert (H0 : noparam_ok o o) by (repeat split; intros k v H; discriminate).
  assert (Hr : forall o', noparam_ok o o' -> noparam_ok o (run (func_with_qualified_types ids) o' history)).
  { clear H0. induction Hh as [|h history Hh1 Hh IH]; intros o' H; [exact H|].
    change (run (func_with_qualified_types ids) o' (h :: history))
      with (run (func_with_qualified_types ids) (snd (func_with_qualified_types ids o' h)) history).
    apply IH. apply noparam_query_ok; auto. }
  rewrite (proj1 (noparam_query_ok o o sc Hnp Hs H0)).
  apply noparam_query_ok; auto.
Qed.

End Histories.
