From Verif Require Import PyStr PyStrLemmas TypeTextModel TypeTextSpec.
From Coq Require Import Permutation.

Lemma words_app_sp a b : words (a ++ sp :: b) = words a ++ words b.
Proof. unfold words. rewrite split_on_app. apply filter_app. Qed.

Lemma Some_eq {A} (x y : A) : Some x = Some y -> x = y.
Proof. intros H. injection H. trivial. Qed.

Lemma words_nil : words [] = [].
Proof. reflexivity. Qed.

Lemma words_join l : words (join $" " l) = words_of l.
Proof.
  unfold words_of. induction l as [|x l IH]; [reflexivity|]. destruct l as [|y l].
  - cbn. rewrite app_nil_r. reflexivity.
  - rewrite join_cons. change ($" " ++ join $" " (y :: l)) with (sp :: join $" " (y :: l)).
    rewrite words_app_sp, IH. reflexivity.
Qed.

Lemma words_join_ne l : words (join_remove_empty $" " l) = words_of l.
Proof.
  unfold join_remove_empty. rewrite words_join. unfold words_of.
  induction l as [|x l IH]; [reflexivity|]. cbn [filter]. destruct x as [|c x].
  - rewrite IH. reflexivity.
  - cbn [flat_map]. rewrite IH. reflexivity.
Qed.

Lemma words_of_app a b : words_of (a ++ b) = words_of a ++ words_of b.
Proof. apply flat_map_app. Qed.

Lemma count_occurs x l : occurs x (list_count x l) l.
Proof.
  unfold list_count. induction l as [|y l IH]; cbn [filter]; [constructor|].
  destruct (seqb x y) eqn:E.
  - apply seqb_true in E. subst. cbn [length]. constructor. exact IH.
  - apply occ_other; [|exact IH]. apply seqb_false in E. congruence.
Qed.

Lemma occurs_count x n l : occurs x n l -> list_count x l = n.
Proof.
  unfold list_count. induction 1; cbn [filter]; [reflexivity| |].
  - rewrite seqb_refl. cbn. rewrite IHoccurs. reflexivity.
  - destruct (seqb x y) eqn:E; [apply seqb_true in E; congruence|exact IHoccurs].
Qed.

Lemma occurs_app x n m a b : occurs x n a -> occurs x m b -> occurs x (n + m) (a ++ b).
Proof. induction 1; intros H'; cbn; [exact H'|constructor; auto|constructor; auto]. Qed.

Lemma occurs_rev x n l : occurs x n l -> occurs x n (rev l).
Proof.
  induction 1; cbn; [constructor| |].
  - rewrite <- Nat.add_1_r. apply occurs_app; [exact IHoccurs|]. constructor. constructor.
  - rewrite <- (Nat.add_0_r n). apply occurs_app; [exact IHoccurs|]. constructor; [exact H|constructor].
Qed.

Lemma occurs_0 x l : occurs x 0 l <-> ~ In x l.
Proof.
  split.
  - intros H. remember 0 as n eqn:E. induction H; cbn; [tauto|discriminate|]. intros [?|?]; [congruence|]. apply IHoccurs; auto.
  - induction l as [|y l IH]; intros H; [constructor|]. constructor; [intros ->; apply H; left; reflexivity|].
    apply IH. intros I. apply H. right. exact I.
Qed.

Lemma list_remove_split x l : In x l -> exists a b, l = a ++ x :: b /\ ~ In x a /\ list_remove x l = a ++ b.
Proof.
  induction l as [|y l IH]; [intros []|]. intros H. cbn [list_remove]. destruct (seqb x y) eqn:E.
  - apply seqb_true in E. subst y. exists [], l. repeat split. intros [].
  - apply seqb_false in E. destruct H as [->|H]; [congruence|]. destruct (IH H) as (a & b & -> & N & ->).
    exists (y :: a), b. repeat split. intros [->|I]; auto.
Qed.

(** The last const of a list with two of them. *)
Lemma last_const l : occurs $"const" 2 l -> exists a b,
  l = a ++ $"const" :: b /\ ~ In $"const" b /\ rev (list_remove $"const" (rev l)) = a ++ b.
Proof.
  intros H. assert (I : In $"const" (rev l)).
  { destruct (in_dec (list_eq_dec ascii_dec) $"const" (rev l)) as [I|N]; [exact I|].
    apply occurs_0 in N. apply occurs_count in N. apply occurs_rev in H. apply occurs_count in H. congruence. }
  destruct (list_remove_split _ _ I) as (a & b & E & N & ->).
  exists (rev b), (rev a). split; [|split].
  - rewrite <- (rev_involutive l), E, rev_app_distr. cbn. rewrite <- app_assoc. reflexivity.
  - intros K. apply N. apply in_rev. exact K.
  - apply rev_app_distr.
Qed.

Lemma code_one t : ~ occurs $"const" 2 (specifiers t) -> forall s, str_code t = Some s ->
  words s = words_of (specifiers t ++ typenames t ++ modifiers t).
Proof.
  intros N s. unfold str_code. destruct (2 <? list_count $"const" (specifiers t)) eqn:B; [discriminate|].
  destruct (list_count $"const" (specifiers t) =? 2) eqn:E.
  - apply Nat.eqb_eq in E. exfalso. apply N. rewrite <- E. apply count_occurs.
  - intros H. apply Some_eq in H. subst s. rewrite words_join_ne. unfold words_of at 1. cbn [flat_map].
    rewrite words_join_ne, words_join, words_join_ne, app_nil_r, !words_of_app. reflexivity.
Qed.

Lemma code_two t a b s : specifiers t = a ++ $"const" :: b -> ~ In $"const" b -> In $"const" a ->
  str_code t = Some s -> words s = words_of (a ++ b ++ typenames t ++ modifiers t) ++ [$"const"].
Proof.
  intros Q Nb Ia. unfold str_code. destruct (2 <? list_count $"const" (specifiers t)) eqn:B; [discriminate|].
  apply Nat.ltb_ge in B.
  assert (list_count $"const" (specifiers t) = 2) as C.
  { assert (exists n, occurs $"const" (S n) a) as (n & Oa).
    { pose proof (count_occurs $"const" a) as O. destruct (list_count $"const" a) eqn:K; [|eauto].
      apply occurs_0 in O. contradiction. }
    assert (occurs $"const" (S n + 1) (specifiers t)) as O.
    { rewrite Q. apply occurs_app; [exact Oa|]. constructor. apply occurs_0. exact Nb. }
    apply occurs_count in O. lia. }
  rewrite C. change (2 =? 2) with true. cbv iota. intros H. apply Some_eq in H. subst s.
  assert (occurs $"const" 2 (specifiers t)) as O by (rewrite <- C; apply count_occurs).
  destruct (last_const _ O) as (a' & b' & Q' & Nb' & R).
  assert (a' = a /\ b' = b) as (-> & ->).
  { clear -Q Q' Nb Nb'. rewrite Q in Q'. clear Q. revert a' Q'. induction a as [|x a IH]; intros a' Q'.
    - destruct a' as [|y a']; [inversion Q'; auto|]. cbn in Q'. inversion Q'; subst. exfalso. apply Nb. apply in_or_app.
      right. left. reflexivity.
    - destruct a' as [|y a'].
      + cbn in Q'. inversion Q'; subst. exfalso. apply Nb'. apply in_or_app. right. left. reflexivity.
      + cbn in Q'. inversion Q'; subst. destruct (IH _ H1) as (-> & ->). auto. }
  rewrite R. change ($" const") with (sp :: $"const").
  rewrite words_app_sp. change (words $"const") with [$"const"]. f_equal.
  rewrite words_join_ne. unfold words_of at 1. cbn [flat_map].
  rewrite words_join_ne, words_join, words_join_ne, app_nil_r, !words_of_app, !app_assoc. reflexivity.
Qed.

Lemma code_fails t : str_code t = None <-> exists n, occurs $"const" (3 + n) (specifiers t).
Proof.
  unfold str_code. destruct (2 <? list_count $"const" (specifiers t)) eqn:B.
  - split; [|reflexivity]. intros _. apply Nat.ltb_lt in B.
    exists (list_count $"const" (specifiers t) - 3).
    replace (3 + (list_count $"const" (specifiers t) - 3)) with (list_count $"const" (specifiers t)) by lia.
    apply count_occurs.
  - split; [discriminate|]. intros (n & O). apply occurs_count in O. apply Nat.ltb_ge in B. lia.
Qed.

Lemma perm_words l l' : Permutation l l' -> Permutation (words_of l) (words_of l').
Proof. apply Permutation_flat_map. Qed.

Lemma code_keeps t s : str_code t = Some s ->
  Permutation (words s) (words_of (specifiers t ++ typenames t ++ modifiers t)).
Proof.
  intros H. destruct (Nat.eq_dec (list_count $"const" (specifiers t)) 2) as [E|E].
  - assert (O : occurs $"const" 2 (specifiers t)) by (rewrite <- E; apply count_occurs).
    destruct (last_const _ O) as (a & b & Q & N & _).
    assert (I : In $"const" a).
    { destruct (in_dec (list_eq_dec ascii_dec) $"const" a) as [I|Na]; [exact I|]. exfalso.
      apply occurs_0 in Na. apply occurs_0 in N.
      pose proof (occurs_app _ _ _ _ _ Na (occ_same _ _ _ N)) as K. rewrite <- Q in K.
      apply occurs_count in K. apply occurs_count in O. lia. }
    rewrite (code_two _ _ _ _ Q N I H), Q.
    change [$"const"] with (words_of [$"const"]). rewrite <- words_of_app. apply perm_words.
    rewrite <- !app_assoc. apply Permutation_app_head. cbn [app].
    rewrite !app_assoc. symmetry. apply Permutation_cons_append.
  - rewrite (code_one t); [reflexivity| |exact H]. intros O. apply occurs_count in O. congruence.
Qed.

(** Return types. *)
Definition wanted (s : str) : bool := negb (says_nothing s).

Lemma list_remove_filter u l : NoDup l -> list_remove u l = filter (fun s => negb (seqb u s)) l.
Proof.
  induction l as [|y l IH]; intros H; [reflexivity|]. inversion H; subst. cbn. destruct (seqb u y) eqn:E; cbn.
  - apply seqb_true in E. subst. symmetry. clear -H2. induction l as [|z l IH]; [reflexivity|]. cbn.
    destruct (seqb y z) eqn:E; cbn; [apply seqb_true in E; subst; exfalso; apply H2; left; reflexivity|].
    rewrite IH; [reflexivity|]. intros I. apply H2. right. exact I.
  - rewrite IH by assumption. reflexivity.
Qed.

Lemma guarded_remove u specs l : NoDup l -> incl l specs ->
  (if smem u specs then list_remove u l else l) = filter (fun s => negb (seqb u s)) l.
Proof.
  intros H I. destruct (smem u specs) eqn:E; [apply list_remove_filter; exact H|].
  apply smem_false in E. clear H. induction l as [|y l IH]; [reflexivity|]. cbn. destruct (seqb u y) eqn:Q; cbn.
  - apply seqb_true in Q. subst. exfalso. apply E. apply I. left. reflexivity.
  - f_equal. apply IH. intros z Z. apply I. right. exact Z.
Qed.

Lemma filter_filter {A} (f g : A -> bool) l : filter g (filter f l) = filter (fun x => f x && g x) l.
Proof. induction l as [|x l IH]; [reflexivity|]. cbn. destruct (f x); cbn; [destruct (g x); cbn; rewrite IH; reflexivity|exact IH]. Qed.

Lemma remove_unwanted_filter specs : NoDup specs -> remove_unwanted specs = filter wanted specs.
Proof.
  intros H. unfold remove_unwanted, unwanted_specifiers. cbn [fold_left].
  assert (S : forall l f, NoDup l -> incl l specs -> NoDup (filter f l) /\ incl (filter f l) specs).
  { intros l f N I. split; [apply NoDup_filter; exact N|]. intros x X. apply filter_In in X. apply I. tauto. }
  rewrite (guarded_remove $"inline" specs specs H (incl_refl _)).
  destruct (S specs (fun s => negb (seqb $"inline" s)) H (incl_refl _)) as (N1 & I1).
  rewrite (guarded_remove $"virtual" specs _ N1 I1).
  destruct (S _ (fun s => negb (seqb $"virtual" s)) N1 I1) as (N2 & I2).
  rewrite (guarded_remove $"extern" specs _ N2 I2).
  destruct (S _ (fun s => negb (seqb $"extern" s)) N2 I2) as (N3 & I3).
  rewrite (guarded_remove $"static" specs _ N3 I3).
  rewrite !filter_filter. apply filter_ext. intros s. unfold wanted, says_nothing, smem. cbn [existsb].
  rewrite !negb_orb. assert (Y : forall a, seqb s a = seqb a s).
  { intros a. destruct (seqb_spec s a) as [E|E]; destruct (seqb_spec a s) as [F|F]; congruence. }
  rewrite !Y. cbn [negb]. rewrite andb_true_r, !andb_assoc. reflexivity.
Qed.

Lemma count_NoDup x l : NoDup l -> list_count x l <= 1.
Proof.
  intros H. unfold list_count. induction l as [|y l IH]; [cbn; lia|].
  inversion H; subst. cbn [filter]. destruct (seqb x y) eqn:E; [|auto]. apply seqb_true in E. subst.
  assert (filter (seqb y) l = []) as ->; [|cbn; lia].
  clear -H2. induction l as [|z l IH]; [reflexivity|]. cbn [filter].
  destruct (seqb y z) eqn:Q; [apply seqb_true in Q; subst; exfalso; apply H2; left; reflexivity|].
  apply IH. intros I. apply H2. right. exact I.
Qed.

Lemma return_text prefixes t : NoDup (specifiers t) -> exists s,
  str_return_type prefixes false t = Some s /\
  words s = words_of (filter wanted (specifiers t) ++ without_auto (typenames t) ++ modifiers t) /\
  str_return_type prefixes true t = Some (remove_api_prefixes prefixes s).
Proof.
  intros H. unfold str_return_type.
  assert (C : (1 <? list_count $"const" (specifiers t)) = false) by (apply Nat.ltb_ge, count_NoDup; exact H).
  rewrite C. eexists. split; [reflexivity|]. split; [|reflexivity].
  rewrite words_join_ne. unfold words_of at 1. cbn [flat_map].
  rewrite words_join_ne, words_join_ne, app_nil_r, !words_of_app, remove_unwanted_filter by exact H.
  f_equal. f_equal. unfold without_auto. destruct (typenames t) as [|a [|b r]]; rewrite ?words_join; try reflexivity.
  destruct (seqb a $"auto"); rewrite words_join; reflexivity.
Qed.

(** Removing prefixes: texts whose words are separated by one space. *)
Lemma words_single w : w <> [] -> ~ In sp w -> words w = [w].
Proof. intros N S. unfold words. rewrite split_on_single by exact S. cbn. destruct w; [congruence|reflexivity]. Qed.

Lemma words_join_words ws : Forall is_word_text ws -> words (join $" " ws) = ws.
Proof.
  intros H. rewrite words_join. unfold words_of. induction H as [|w ws (N & F) H IH]; [reflexivity|].
  cbn. rewrite IH, words_single; [reflexivity|exact N|].
  intros I. rewrite Forall_forall in F. apply F in I. discriminate.
Qed.

Lemma lstrip_words ws : Forall is_word_text ws -> lstrip (join $" " ws) = join $" " ws.
Proof.
  intros H. inversion H as [|w r (N & F) K]; subst; [reflexivity|]. destruct w as [|c w]; [congruence|].
  inversion F; subst. destruct r; unfold lstrip; cbn; rewrite H2; reflexivity.
Qed.

Lemma startswith_app_false p w r : startswith p w = false -> length p <= length w -> startswith p (w ++ r) = false.
Proof.
  revert w. induction p as [|c p IH]; intros w H L; [discriminate|]. destruct w as [|d w]; [cbn in L; lia|].
  cbn in *. destruct (ceqb c d); [|reflexivity]. cbn in *. apply IH; [exact H|lia].
Qed.

Lemma remove_words prefixes ws r : Forall is_word_text prefixes -> Forall is_word_text ws ->
  whole_words prefixes ws -> drops prefixes ws r -> remove_api_prefixes prefixes (join $" " ws) = join $" " r.
Proof.
  intros P W K D. revert W P K. induction D; intros W P K; [reflexivity| |].
  - unfold remove_api_prefixes. cbn [fold_left]. inversion P; subst. inversion W; subst.
    assert (S : exists tail, join $" " (p :: ws) = p ++ tail /\ lstrip tail = join $" " ws).
    { destruct ws as [|y ws]; [exists []; cbn; rewrite app_nil_r; auto|].
      exists ($" " ++ join $" " (y :: ws)). split; [reflexivity|]. change (lstrip (join $" " (y :: ws)) = join $" " (y :: ws)).
      apply lstrip_words. assumption. }
    destruct S as (tail & -> & L). rewrite startswith_app, skipn_app, skipn_all, Nat.sub_diag. cbn [skipn app].
    rewrite L. apply IHD; try assumption. intros q w x Q I E. eapply K; eauto; right; eassumption.
  - unfold remove_api_prefixes. cbn [fold_left]. inversion P; subst.
    replace (startswith p (join $" " ws)) with false.
    + apply IHD; try assumption. intros q w x Q I E. eapply K; eauto. right. exact Q.
    + symmetry. destruct (startswith p (join $" " ws)) eqn:E; [|reflexivity]. exfalso.
      apply startswith_true in E as (x & E). destruct ws as [|w ws].
      * cbn in E. destruct H2 as (N & _). destruct p; [congruence|discriminate].
      * inversion W; subst.
        assert (exists tail, join $" " (w :: ws) = w ++ tail /\ (tail = [] \/ exists z, tail = sp :: z)) as (tail & J & T).
        { destruct ws as [|y ws]; [exists []; cbn; rewrite app_nil_r; auto|]. eexists. split; [reflexivity|]. right. eexists. reflexivity. }
        rewrite J in E.
        assert (L : length p <= length w).
        { destruct (le_lt_dec (length p) (length w)) as [L|L]; [exact L|]. exfalso.
          assert (E' := f_equal (firstn (length p)) E). rewrite firstn_app, firstn_all2 in E' by lia.
          rewrite firstn_app, firstn_all, Nat.sub_diag in E'. cbn in E'. rewrite app_nil_r in E'.
          destruct T as [->|(z & ->)].
          - rewrite firstn_nil, app_nil_r in E'. subst. lia.
          - destruct (length p - length w) as [|k] eqn:Q; [lia|]. cbn in E'.
            destruct H2 as (_ & F). rewrite Forall_forall in F. specialize (F sp). rewrite <- E' in F.
            discriminate F. apply in_or_app. right. left. reflexivity. }
        assert (exists y, w = p ++ y) as (y & Y).
        { exists (skipn (length p) w). assert (E' := f_equal (firstn (length p)) E).
          rewrite firstn_app in E'. replace (length p - length w) with 0 in E' by lia. cbn in E'. rewrite app_nil_r in E'.
          rewrite firstn_app, firstn_all, Nat.sub_diag in E'. cbn in E'. rewrite app_nil_r in E'.
          rewrite <- E' at 1. symmetry. apply firstn_skipn. }
        assert (y = []) as -> by (eapply K; [left; reflexivity|left; reflexivity|exact Y]).
        rewrite app_nil_r in Y. subst w. apply H. reflexivity.
Qed.

Lemma return_without prefixes t r : NoDup (specifiers t) ->
  Forall is_word_text (specifiers t) -> Forall is_word_text (typenames t) -> Forall is_word_text (modifiers t) ->
  Forall is_word_text prefixes ->
  let ws := filter wanted (specifiers t) ++ without_auto (typenames t) ++ modifiers t in
  whole_words prefixes ws -> drops prefixes ws r ->
  str_return_type prefixes true t = Some (join $" " r).
Proof.
  intros N S T M P ws K D. destruct (return_text prefixes t N) as (s & E & _ & ->). f_equal.
  assert (W : Forall is_word_text ws).
  { apply Forall_app. split.
    - rewrite Forall_forall in *. intros x X. apply filter_In in X. apply S. tauto.
    - apply Forall_app. split; [|exact M]. unfold without_auto. destruct (typenames t) as [|a [|b l]]; try exact T.
      destruct (seqb a $"auto"); [inversion T; assumption|exact T]. }
  assert (s = join $" " ws) as ->; [|apply remove_words; assumption].
  revert E. unfold str_return_type. destruct (1 <? _); [discriminate|]. intros E. apply Some_eq in E. subst s.
  rewrite remove_unwanted_filter by exact N.
  assert (X : (match typenames t with
     | [] => join $" " (typenames t)
     | [_] => join $" " (typenames t)
     | first :: (second :: rest) => if seqb first $"auto" then join $" " (second :: rest) else join $" " (typenames t)
     end) = join $" " (without_auto (typenames t))).
  { unfold without_auto. destruct (typenames t) as [|a [|b l]]; try reflexivity. destruct (seqb a $"auto"); reflexivity. }
  rewrite X. clear X.
  assert (F : forall l, Forall is_word_text l -> filter (fun s : str => match s with [] => false | _ => true end) l = l).
  { induction 1 as [|w l (Nw & _) H IH]; [reflexivity|]. cbn. destruct w; [congruence|]. rewrite IH. reflexivity. }
  assert (JF : forall l, Forall is_word_text l -> join_remove_empty $" " l = join $" " l).
  { intros l H. unfold join_remove_empty. rewrite F by exact H. reflexivity. }
  apply Forall_app in W as (W1 & W2). apply Forall_app in W2 as (W2 & W3).
  rewrite (JF _ W1), (JF _ W3).
  assert (J3 : forall a b c, Forall is_word_text a -> Forall is_word_text b -> Forall is_word_text c ->
    join_remove_empty $" " [join $" " a; join $" " b; join $" " c] = join $" " (a ++ b ++ c)).
  { assert (J2 : forall a b, Forall is_word_text a ->
      join $" " (a ++ b) = match a, b with [], _ => join $" " b | _, [] => join $" " a | _, _ => join $" " a ++ $" " ++ join $" " b end).
    { intros a b _. destruct a as [|x a]; [reflexivity|]. destruct b as [|y b]; [rewrite app_nil_r; reflexivity|].
      apply join_app; discriminate. }
    assert (NE : forall a, Forall is_word_text a -> match join $" " a with [] => a = [] | _ => a <> [] end).
    { intros a Ha. destruct Ha as [|w l (Nw & _) H]; [reflexivity|]. destruct w as [|ch w]; [congruence|]. destruct l; cbn; discriminate. }
    intros a b c Ha Hb Hc. rewrite (J2 a (b ++ c) Ha), (J2 b c Hb).
    pose proof (NE a Ha) as Na. pose proof (NE b Hb) as Nb. pose proof (NE c Hc) as Nc.
    unfold join_remove_empty. cbn [filter].
    destruct (join $" " a) eqn:Qa; destruct (join $" " b) eqn:Qb; destruct (join $" " c) eqn:Qc; subst;
      try (destruct a; [congruence|]); try (destruct b; [congruence|]); try (destruct c; [congruence|]);
      cbn [app join]; rewrite ?app_nil_r, <- ?app_assoc; cbn [app]; rewrite ?Qa, ?Qb, ?Qc; try reflexivity. }
  unfold ws. apply J3; assumption.
Qed.
