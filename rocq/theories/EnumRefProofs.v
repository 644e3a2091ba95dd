From Verif Require Import PyStr PyStrLemmas LiteralSpec EnumRefSpec.
(** To rename by two lists of entries one after the other is to rename by both. *)

Lemma enumerator_some rs a b new : enumerator rs a b = Some new -> exists pe pm, In (Enumerator a b pe pm) rs /\ new = dotted_name pe pm.
Proof.
  induction rs as [|[e m pe pm|m pe pm|f g] rs IH]; cbn; [discriminate| | |]; try (intros H; destruct (IH H) as (x & y & I & E); exists x, y; auto).
  destruct (seqb_spec e a) as [->|], (seqb_spec m b) as [->|]; cbn [andb]; try (intros H; destruct (IH H) as (x & y & I & E); exists x, y; auto).
  intros [= <-]. exists pe, pm. auto.
Qed.
Lemma enumerator_none rs a b : enumerator rs a b = None -> forall pe pm, ~ In (Enumerator a b pe pm) rs.
Proof.
  induction rs as [|[e m pe pm|m pe pm|f g] rs IH]; cbn; [auto| | |]; intros H x y I; try (destruct I as [I|I]; [discriminate|]; apply (IH H x y I)).
  destruct I as [I|I].
  - injection I as -> -> _ _. rewrite !seqb_refl in H. discriminate.
  - destruct (seqb e a && seqb m b); [discriminate|]. apply (IH H x y I).
Qed.
Lemma constant_some rs a new : constant_of rs a = Some new -> exists pe pm, In (Constant a pe pm) rs /\ new = dotted_name pe pm.
Proof.
  induction rs as [|[e m pe pm|m pe pm|f g] rs IH]; cbn; [discriminate| | |]; try (intros H; destruct (IH H) as (x & y & I & E); exists x, y; auto).
  destruct (seqb_spec m a) as [->|]; try (intros H; destruct (IH H) as (x & y & I & E); exists x, y; auto). intros [= <-]. exists pe, pm. auto.
Qed.
Lemma function_some rs a g : function_of rs a = Some g -> In (Function a g) rs.
Proof.
  induction rs as [|[e m pe pm|m pe pm|f h] rs IH]; cbn; [discriminate| | |]; auto. destruct (seqb_spec f a) as [->|]; auto. intros [= <-]. auto.
Qed.
Lemma enumerator_app r1 r2 a b : enumerator (r1 ++ r2) a b = match enumerator r1 a b with Some x => Some x | None => enumerator r2 a b end.
Proof. induction r1 as [|[e m pe pm|m pe pm|f g] r1 IH]; cbn; auto. destruct (seqb e a && seqb m b); auto. Qed.
Lemma constant_app r1 r2 a : constant_of (r1 ++ r2) a = match constant_of r1 a with Some x => Some x | None => constant_of r2 a end.
Proof. induction r1 as [|[e m pe pm|m pe pm|f g] r1 IH]; cbn; auto. destruct (seqb m a); auto. Qed.
Lemma function_app r1 r2 a : function_of (r1 ++ r2) a = match function_of r1 a with Some x => Some x | None => function_of r2 a end.
Proof. induction r1 as [|[e m pe pm|m pe pm|f g] r1 IH]; cbn; auto. destruct (seqb f a); auto. Qed.

Lemma in_enums rs e m pe pm : In (Enumerator e m pe pm) rs -> In e (enums rs). Proof. intros I. apply in_flat_map. eexists. split; [exact I|]. left. reflexivity. Qed.
Lemma in_members rs e m pe pm : In (Enumerator e m pe pm) rs -> In m (members rs). Proof. intros I. apply in_flat_map. eexists. split; [exact I|]. left. reflexivity. Qed.
Lemma in_constants rs m pe pm : In (Constant m pe pm) rs -> In m (names rs). Proof. intros I. apply in_flat_map. eexists. split; [exact I|]. left. reflexivity. Qed.
Lemma in_functions rs f g : In (Function f g) rs -> In f (names rs). Proof. intros I. apply in_flat_map. eexists. split; [exact I|]. left. reflexivity. Qed.
Lemma enums_in rs e : In e (enums rs) -> exists m pe pm, In (Enumerator e m pe pm) rs.
Proof. intros H. apply in_flat_map in H. destruct H as ([a b c d|? ? ?|? ?] & I & H); try destruct H; try contradiction. subst. exists b, c, d. exact I. Qed.
Lemma members_in rs m : In m (members rs) -> exists e pe pm, In (Enumerator e m pe pm) rs.
Proof. intros H. apply in_flat_map in H. destruct H as ([a b c d|? ? ?|? ?] & I & H); try destruct H; try contradiction. subst. exists a, c, d. exact I. Qed.

Lemma renamed_sign rs c r : renamed rs (Sign c :: r) = Sign c :: renamed rs r. Proof. reflexivity. Qed.
Lemma renamed_name rs a r : (forall b, enumerator rs a b = None) -> renamed rs (Name a :: r) = one_name rs a r ++ renamed rs r.
Proof.
  intros H. cbn [renamed]. destruct r as [|[?|? ? ? ? ?| |c] [|[b|? ? ? ? ?| |?] r]]; try reflexivity. destruct (ceqb c "."); [rewrite H|]; reflexivity.
Qed.
Definition follows (r : list tok) : option (str * list tok) := match r with Sign c :: Name b :: r' => if ceqb c "." then Some (b, r') else None | _ => None end.
Lemma renamed_follows rs a r : renamed rs (Name a :: r) =
  match match follows r with Some (b, r') => match enumerator rs a b with Some new => Some (new ++ renamed rs r') | None => None end | None => None end with
  | Some x => x
  | None => one_name rs a r ++ renamed rs r
  end.
Proof. cbn [renamed]. destruct r as [|[?|? ? ? ? ?| |c] [|[b|? ? ? ? ?| |?] r]]; try reflexivity. cbn [follows]. destruct (ceqb c "."); [|reflexivity]. destruct (enumerator rs a b); reflexivity. Qed.
Lemma follows_is r b r' : follows r = Some (b, r') -> r = Sign "." :: Name b :: r'.
Proof. destruct r as [|[?|? ? ? ? ?| |c] [|[x|? ? ? ? ?| |?] r]]; try discriminate. cbn. destruct (ceqb_spec c "."%char) as [->|]; [|discriminate]. intros [= -> ->]. reflexivity. Qed.

Section Entries.
Variable all : list entry.
Hypothesis ok : entries_ok all.
Lemma free_enumerator rs w : incl rs all -> ~ In w (keys all) -> (forall b, enumerator rs w b = None) /\ (forall a, enumerator rs a w = None) /\ constant_of rs w = None /\ function_of rs w = None.
Proof.
  intros I N. unfold keys in N. rewrite !in_app_iff in N. split; [|split; [|split]].
  - intros b. destruct (enumerator rs w b) eqn:E; [|reflexivity]. apply enumerator_some in E. destruct E as (pe & pm & E & _). apply I, in_enums in E. tauto.
  - intros a. destruct (enumerator rs a w) eqn:E; [|reflexivity]. apply enumerator_some in E. destruct E as (pe & pm & E & _). apply I, in_members in E. tauto.
  - destruct (constant_of rs w) eqn:E; [|reflexivity]. apply constant_some in E. destruct E as (pe & pm & E & _). apply I, in_constants in E. tauto.
  - destruct (function_of rs w) eqn:E; [|reflexivity]. apply function_some in E. apply I, in_functions in E. tauto.
Qed.
(** The name of an enum class is nothing else; neither is the name of one of its values. *)
Lemma enum_only rs e m pe pm : incl rs all -> In (Enumerator e m pe pm) all -> (forall a, enumerator rs a e = None) /\ constant_of rs e = None /\ function_of rs e = None.
Proof.
  intros I H. destruct ok as (_ & A & _). split; [|split].
  - intros a. destruct (enumerator rs a e) eqn:E; [|reflexivity]. apply enumerator_some in E. destruct E as (x & y & E & _). specialize (A _ _ H (I _ E)). cbn in A. destruct A. congruence.
  - destruct (constant_of rs e) eqn:E; [|reflexivity]. apply constant_some in E. destruct E as (x & y & E & _). specialize (A _ _ H (I _ E)). cbn in A. destruct A. congruence.
  - destruct (function_of rs e) eqn:E; [|reflexivity]. apply function_some in E. specialize (A _ _ H (I _ E)). cbn in A. destruct A. congruence.
Qed.
Lemma member_only rs e m pe pm : incl rs all -> In (Enumerator e m pe pm) all -> (forall b, enumerator rs m b = None) /\ constant_of rs m = None /\ function_of rs m = None.
Proof.
  intros I H. destruct ok as (_ & A & _). split; [|split].
  - intros a. destruct (enumerator rs m a) eqn:E; [|reflexivity]. apply enumerator_some in E. destruct E as (x & y & E & _). specialize (A _ _ (I _ E) H). cbn in A. destruct A. congruence.
  - destruct (constant_of rs m) eqn:E; [|reflexivity]. apply constant_some in E. destruct E as (x & y & E & _). specialize (A _ _ H (I _ E)). cbn in A. destruct A. congruence.
  - destruct (function_of rs m) eqn:E; [|reflexivity]. apply function_some in E. specialize (A _ _ H (I _ E)). cbn in A. destruct A. congruence.
Qed.
Lemma constant_only rs m pe pm : incl rs all -> In (Constant m pe pm) all -> forall b, enumerator rs m b = None.
Proof. intros I H b. destruct ok as (_ & A & _). destruct (enumerator rs m b) eqn:E; [|reflexivity]. apply enumerator_some in E. destruct E as (x & y & E & _). specialize (A _ _ H (I _ E)). cbn in A. destruct A. congruence. Qed.
Lemma function_only rs f g : incl rs all -> In (Function f g) all -> (forall b, enumerator rs f b = None) /\ constant_of rs f = None.
Proof.
  intros I H. destruct ok as (_ & A & _). split.
  - intros b. destruct (enumerator rs f b) eqn:E; [|reflexivity]. apply enumerator_some in E. destruct E as (x & y & E & _). specialize (A _ _ H (I _ E)). cbn in A. destruct A. congruence.
  - destruct (constant_of rs f) eqn:E; [|reflexivity]. apply constant_some in E. destruct E as (x & y & E & _). specialize (A _ _ H (I _ E)). cbn in A. congruence.
Qed.
Lemma plain_name rs w r : (forall b, enumerator rs w b = None) -> constant_of rs w = None -> function_of rs w = None -> renamed rs (Name w :: r) = Name w :: renamed rs r.
Proof. intros A B C. rewrite renamed_name by exact A. unfold one_name. rewrite B, C. destruct (called r); reflexivity. Qed.
Lemma inert rs pe pm r : constant_of rs pe = None -> (enumerator rs pe pm = None \/ enumerator rs pe pm = Some (dotted_name pe pm)) ->
  (forall b, enumerator rs pm b = None) -> constant_of rs pm = None -> function_of rs pm = None -> renamed rs (dotted_name pe pm ++ r) = dotted_name pe pm ++ renamed rs r.
Proof.
  intros A B C D E. unfold dotted_name. cbn [app]. rewrite renamed_follows. cbn [follows]. rewrite ceqb_refl. destruct B as [B|B]; rewrite B; [|reflexivity].
  unfold one_name. rewrite A. cbn [called]. change (is_space ".") with false. change (ceqb "." "(") with false. cbn [app]. rewrite renamed_sign, plain_name by auto. reflexivity.
Qed.
Lemma entry_in x : In x all -> entry_ok (keys all) x.
Proof. intros H. destruct ok as (F & _). rewrite Forall_forall in F. apply F. exact H. Qed.
Lemma inert_enumerator rs e m pe pm r : incl rs all -> In (Enumerator e m pe pm) all -> renamed rs (dotted_name pe pm ++ r) = dotted_name pe pm ++ renamed rs r.
Proof.
  intros I H. destruct (entry_in _ H) as (_ & _ & [(-> & [-> |(_ & Q)])|((_ & P) & (_ & Q))]).
  - destruct (enum_only rs e m e m I H) as (A & B & C). destruct (member_only rs e m e m I H) as (D & E & F). apply inert; auto. destruct (enumerator rs e m) eqn:X; [|auto]. apply enumerator_some in X. destruct X as (x & y & X & ->).
    destruct ok as (_ & AG & _). specialize (AG _ _ H (I _ X)). cbn in AG. destruct AG as (_ & AG). destruct AG as (<- & <-); auto.
  - destruct (enum_only rs e m e pm I H) as (A & B & C). destruct (free_enumerator rs pm I Q) as (D & E & F & G). apply inert; auto.
  - destruct (free_enumerator rs pe I P) as (A & B & C & C'). destruct (free_enumerator rs pm I Q) as (D & E & F & G). apply inert; auto.
Qed.
Lemma inert_constant rs m pe pm r : incl rs all -> In (Constant m pe pm) all -> renamed rs (dotted_name pe pm ++ r) = dotted_name pe pm ++ renamed rs r.
Proof.
  intros I H. destruct (entry_in _ H) as (_ & (_ & P) & (_ & Q)).
  destruct (free_enumerator rs pe I P) as (A & B & C & C'). destruct (free_enumerator rs pm I Q) as (D & E & F & G). apply inert; auto.
Qed.
Lemma inert_function rs f g r : incl rs all -> In (Function f g) all -> renamed rs (Name g :: r) = Name g :: renamed rs r.
Proof. intros I H. destruct (entry_in _ H) as (_ & (_ & P)). destruct (free_enumerator rs g I P) as (A & B & C & C'). apply plain_name; auto. Qed.
(** The first name of what a name becomes. *)
Lemma renamed_head rs a r : incl rs all -> exists x y, renamed rs (Name a :: r) = Name x :: y /\ (x = a \/ ~ In x (keys all)).
Proof.
  intros I. rewrite renamed_follows. destruct (follows r) as [(b, r')|]; [destruct (enumerator rs a b) eqn:E|].
  1: { apply enumerator_some in E. destruct E as (pe & pm & E & ->). unfold dotted_name. cbn [app]. eexists pe, _. split; [reflexivity|]. destruct (entry_in _ (I _ E)) as (_ & _ & [(-> & _)|((_ & P) & _)]); auto. }
  all: unfold one_name; destruct (constant_of rs a) eqn:C; [apply constant_some in C; destruct C as (pe & pm & C & ->); unfold dotted_name; cbn [app]; eexists pe, _; split; [reflexivity|]; destruct (entry_in _ (I _ C)) as (_ & (_ & P) & _); auto|].
  all: destruct (called r); [destruct (function_of rs a) eqn:F|]; cbn [app]; try (eexists a, _; split; [reflexivity|auto]; fail).
  all: apply function_some in F; eexists s, _; split; [reflexivity|]; destruct (entry_in _ (I _ F)) as (_ & (_ & P)); auto.
Qed.
Lemma called_renamed rs r : incl rs all -> called (renamed rs r) = called r.
Proof.
  intros I. induction r as [|[a|? ? ? ? ?| |c] r IH]; try reflexivity.
  - destruct (renamed_head rs a r I) as (x & y & E & _). rewrite E. reflexivity.
  - rewrite renamed_sign. cbn [called]. rewrite IH. reflexivity.
Qed.
Lemma follows_renamed_none rs r : incl rs all -> follows r = None -> follows (renamed rs r) = None.
Proof.
  intros I. destruct r as [|[a|? ? ? ? ?| |c] r]; try reflexivity.
  - intros _. destruct (renamed_head rs a r I) as (x & y & E & _). rewrite E. reflexivity.
  - destruct r as [|[b|? ? ? ? ?| |d] r]; try reflexivity. rewrite renamed_sign. destruct (renamed_head rs b r I) as (x & y & E & _). rewrite E. cbn. destruct (ceqb c "."); [discriminate|reflexivity].
Qed.
Theorem renamed_twice r1 r2 ts : incl r1 all -> incl r2 all -> renamed r2 (renamed r1 ts) = renamed (r1 ++ r2) ts.
Proof.
  intros I1 I2. remember (length ts) as n eqn:N. revert ts N. induction n as [n IH] using lt_wf_ind. intros ts N.
  destruct ts as [|[a|g l f e x| |c] r]; [reflexivity| | | |]; cbn [length] in N.
  2: { cbn [renamed]. f_equal. apply (IH (length r)); auto; lia. }
  2: { cbn [renamed]. f_equal. apply (IH (length r)); auto; lia. }
  2: { cbn [renamed]. f_equal. apply (IH (length r)); auto; lia. }
  assert (R : renamed r2 (renamed r1 r) = renamed (r1 ++ r2) r) by (apply (IH (length r)); auto; lia).
  rewrite (renamed_follows r1 a r), (renamed_follows (r1 ++ r2) a r).
  assert (REST : (forall b r', follows r = Some (b, r') -> enumerator r1 a b = None) ->
    renamed r2 (one_name r1 a r ++ renamed r1 r) =
    match match follows r with Some (b, r') => match enumerator (r1 ++ r2) a b with Some new => Some (new ++ renamed (r1 ++ r2) r') | None => None end | None => None end with
    | Some x => x | None => one_name (r1 ++ r2) a r ++ renamed (r1 ++ r2) r end).
  { intros NO. unfold one_name. rewrite constant_app. destruct (constant_of r1 a) eqn:C.
    - apply constant_some in C. destruct C as (pe & pm & C & ->). rewrite (inert_constant r2 a pe pm) by auto. rewrite R. assert (I12 : incl (r1 ++ r2) all) by (apply incl_app; auto).
      destruct (follows r) as [(b, r')|]; [rewrite (constant_only _ _ _ _ I12 (I1 _ C))|]; reflexivity.
    - rewrite function_app. destruct (called r && match function_of r1 a with Some _ => true | None => false end) eqn:F.
      + apply andb_true_iff in F. destruct F as (F1 & F2). rewrite F1. destruct (function_of r1 a) as [g|] eqn:F; [|discriminate]. apply function_some in F. cbn [app]. rewrite (inert_function r2 a g) by auto. rewrite R.
        assert (I12 : incl (r1 ++ r2) all) by (apply incl_app; auto). destruct (function_only _ _ _ I12 (I1 _ F)) as (X & _). destruct (function_only _ _ _ I2 (I1 _ F)) as (_ & Y). rewrite Y.
        destruct (follows r) as [(b, r')|]; [rewrite X|]; reflexivity.
      + assert (ON : (if called r then match function_of r1 a with Some g => [Name g] | None => [Name a] end else [Name a]) = [Name a]) by (destruct (called r), (function_of r1 a); cbn in F; auto; discriminate).
        rewrite ON. cbn [app]. rewrite renamed_follows. unfold one_name. rewrite called_renamed, R by exact I1.
        assert (FN : (if called r then match match function_of r1 a with Some x => Some x | None => function_of r2 a end with Some g => [Name g] | None => [Name a] end else [Name a]) = (if called r then match function_of r2 a with Some g => [Name g] | None => [Name a] end else [Name a])) by (destruct (called r), (function_of r1 a); cbn in F; auto; discriminate).
        rewrite FN. destruct (follows r) as [(b, r')|] eqn:FO; [|rewrite follows_renamed_none by auto; reflexivity].
        rewrite enumerator_app, (NO b r' eq_refl). apply follows_is in FO. subst r. rewrite renamed_sign. destruct (enumerator r2 a b) as [new|] eqn:E2.
        * pose proof E2 as E2'. apply enumerator_some in E2'. destruct E2' as (pe & pm & E & _). destruct (member_only r1 _ _ _ _ I1 (I2 _ E)) as (A & B & D). rewrite (plain_name r1 b r') by auto. cbn [follows]. rewrite ceqb_refl, E2. f_equal. apply (IH (length r')); auto. cbn [length] in N. lia.
        * destruct (renamed_head r1 b r' I1) as (x & y & X & O). rewrite X. cbn [follows]. rewrite ceqb_refl. assert (EN : enumerator r2 a x = None) by (destruct O as [-> |O]; [exact E2|apply (free_enumerator r2 x I2 O)]). rewrite EN. reflexivity. }
  destruct (follows r) as [(b, r')|] eqn:FO; [|apply REST; discriminate].
  rewrite enumerator_app in *. destruct (enumerator r1 a b) as [new|] eqn:E1.
  - apply enumerator_some in E1. destruct E1 as (pe & pm & E & ->). rewrite (inert_enumerator r2 a b pe pm) by auto. f_equal. apply follows_is in FO. subst r. apply (IH (length r')); auto. cbn [length] in N. lia.
  - apply REST. intros b0 r0 [= <- <-]. exact E1.
Qed.
Lemma renamed_again rs ts : incl rs all -> renamed rs (renamed rs ts) = renamed rs ts.
Proof.
  intros I. rewrite renamed_twice by exact I.
  assert (E : forall a b, enumerator (rs ++ rs) a b = enumerator rs a b) by (intros; rewrite enumerator_app; destruct (enumerator rs a b); reflexivity).
  assert (C : forall a, constant_of (rs ++ rs) a = constant_of rs a) by (intros; rewrite constant_app; destruct (constant_of rs a); reflexivity).
  assert (F : forall a, function_of (rs ++ rs) a = function_of rs a) by (intros; rewrite function_app; destruct (function_of rs a); reflexivity).
  assert (O : forall a r, one_name (rs ++ rs) a r = one_name rs a r) by (intros; unfold one_name; rewrite C, F; reflexivity).
  remember (length ts) as n eqn:N. revert ts N. induction n as [n IH] using lt_wf_ind. intros ts N.
  destruct ts as [|[a|g l f e x| |c] r]; [reflexivity| | | |]; cbn [length] in N.
  - rewrite !renamed_follows, O. assert (R : renamed (rs ++ rs) r = renamed rs r) by (apply (IH (length r)); auto; lia). rewrite R. destruct (follows r) as [(b, r')|] eqn:FO; [|reflexivity]. rewrite E. destruct (enumerator rs a b); [|reflexivity].
    f_equal. apply follows_is in FO. subst r. apply (IH (length r')); auto. cbn [length] in N. lia.
  - cbn [renamed]. f_equal. apply (IH (length r)); auto; lia.
  - cbn [renamed]. f_equal. apply (IH (length r)); auto; lia.
  - cbn [renamed]. f_equal. apply (IH (length r)); auto; lia.
Qed.
End Entries.
