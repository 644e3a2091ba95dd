(** Proofs: docstrings and comment lines. *)
From Coq Require Import ZArith.
From Verif Require Import PyStr PyStrLemmas RegionsModel TextModel CommentModel CommentSpec.
From Verif Require NumberProofs2 CommentProofs2.

Notation tq := [dq; dq; dq].

Lemma ends_escaping_cons c s : ceqb c "\" = false -> ends_escaping (c :: s) = ends_escaping s.
Proof.
  intros H. unfold ends_escaping. cbn [rev]. f_equal. f_equal.
  assert (H' : ceqb "\" c = false) by (rewrite ceqb_sym; auto).
  generalize (rev s). intros r. induction r as [|x r IH]; cbn [app takewhile].
  - rewrite H'. auto.
  - destruct (ceqb "\" x); auto. rewrite IH. auto.
Qed.
Lemma takewhile_app_all {A} f (a b : list A) : forallb f a = true -> takewhile f (a ++ b) = a ++ takewhile f b.
Proof. induction a as [|x a IH]; auto. cbn. destruct (f x); [|discriminate]. intros H. rewrite IH; auto. Qed.
Lemma takewhile_app_stop {A} f (a b : list A) : forallb f a = false -> takewhile f (a ++ b) = takewhile f a.
Proof. induction a as [|x a IH]; [discriminate|]. cbn. destruct (f x); auto. intros H. rewrite IH; auto. Qed.
Lemma ends_escaping_two d s : ends_escaping ("\"%char :: d :: s) = false -> ends_escaping s = false.
Proof.
  unfold ends_escaping. cbn [rev]. rewrite <- app_assoc. cbn [app].
  destruct (forallb (ceqb "\") (rev s)) eqn:F.
  - rewrite takewhile_app_all by auto.
    assert (T : takewhile (ceqb "\") (rev s) = rev s).
    { rewrite <- (app_nil_r (rev s)) at 1. rewrite takewhile_app_all by auto. cbn. rewrite app_nil_r. auto. }
    rewrite T, app_length. cbn [takewhile]. destruct (ceqb "\" d).
    + cbn. rewrite Nat.add_comm. cbn. auto.
    + cbn. rewrite Nat.add_0_r. auto.
  - rewrite takewhile_app_stop by auto. auto.
Qed.
Lemma endswith_cons p c s : endswith p s = true -> endswith p (c :: s) = true.
Proof.
  unfold endswith. cbn [rev]. rewrite !startswith_true. intros (r & ->). exists (r ++ [c]). rewrite app_assoc. auto.
Qed.
Lemma contains_cons_false sub c s : contains sub (c :: s) = false -> contains sub s = false.
Proof. cbn [contains]. intros H. apply orb_false_iff in H. tauto. Qed.
Lemma not_endswith_cons p c s : endswith p (c :: s) = false -> endswith p s = false.
Proof. intros H. destruct (endswith p s) eqn:E; auto. apply (endswith_cons p c) in E. congruence. Qed.

Lemma close_exact : forall n u, length u <= n -> contains tq u = false -> endswith [dq] u = false -> ends_escaping u = false ->
  close_triple (u ++ tq) = Some (u, []).
Proof.
  induction n as [|n IH]; intros u L H1 H2 H3.
  - destruct u; [reflexivity|cbn in L; lia].
  - destruct u as [|c u]; [reflexivity|]. cbn [app close_triple].
    destruct (ceqb c "\") eqn:C.
    + destruct (ceqb_spec c "\") as [->|]; [|discriminate].
      destruct u as [|d u]; [discriminate H3|]. cbn [app].
      rewrite IH; auto.
      * cbn in L; lia.
      * apply contains_cons_false in H1. apply contains_cons_false in H1. auto.
      * apply not_endswith_cons in H2. apply not_endswith_cons in H2. auto.
      * apply ends_escaping_two in H3. auto.
    + assert (S : startswith tq (c :: u ++ tq) = false).
      { destruct (startswith tq (c :: u ++ tq)) eqn:S; auto. exfalso. apply startswith_true in S. destruct S as (r & E).
        injection E as E1 E. subst c.
        destruct u as [|c2 u]; [discriminate H2|]. injection E as E2 E. subst c2.
        destruct u as [|c3 u]; [discriminate H2|]. injection E as E3 E. subst c3.
        cbn [contains startswith] in H1. rewrite !ceqb_refl in H1. discriminate. }
      rewrite S, IH; auto.
      * cbn in L; lia.
      * apply contains_cons_false in H1. auto.
      * apply not_endswith_cons in H2. auto.
      * rewrite ends_escaping_cons in H3 by auto. auto.
Qed.

Lemma safe_plain : forall n s, length s <= n -> plain_escapes s -> safe_escapes s = true.
Proof.
  assert (W : forall c s, plain_escapes (c :: s) -> plain_escapes s).
  { intros c s (A & B & C & D). repeat split; eapply contains_cons_false; eauto. }
  induction n as [|n IH]; intros s L H; [destruct s; [reflexivity|cbn in L; lia]|].
  destruct s as [|c s]; [reflexivity|]. cbn [safe_escapes]. destruct (ceqb c "\") eqn:C.
  - destruct s as [|d s]; [reflexivity|]. rewrite IH; [|cbn in L; lia|eauto]. rewrite andb_true_r, negb_true_iff.
    destruct (ceqb_spec c "\") as [->|]; [|discriminate].
    destruct H as (H1 & H2 & H3 & H4).
    destruct (existsb (ceqb d) ["x"; "u"; "U"; "N"]%char) eqn:E; auto. exfalso.
    apply existsb_exists in E. destruct E as (y & Hy & Ey). destruct (ceqb_spec d y) as [->|]; [|discriminate].
    destruct Hy as [<-|[<-|[<-|[<-|[]]]]].
    + apply (proj1 (contains_false _ _)) with (a := []) (b := s) in H1. auto.
    + apply (proj1 (contains_false _ _)) with (a := []) (b := s) in H2. auto.
    + apply (proj1 (contains_false _ _)) with (a := []) (b := s) in H3. auto.
    + apply (proj1 (contains_false _ _)) with (a := []) (b := s) in H4. auto.
  - apply IH; [cbn in L; lia|eauto].
Qed.
Lemma literal_of u : contains tq u = false -> endswith [dq] u = false -> ends_escaping u = false -> plain_escapes u ->
  triple_literal (tq ++ u ++ tq).
Proof.
  intros H1 H2 H3 H4. exists u. split; auto. split; [eapply close_exact; eauto|eapply safe_plain; eauto].
Qed.

(** *** Text by lines *)

Lemma prefix_of {A} (a b q y : list A) : a ++ b = q ++ y -> length q <= length a -> exists z, a = q ++ z.
Proof. exact (fun E L => CommentProofs2.app_prefix q a b y E L). Qed.
(** *** Docstrings *)

Lemma contains_sep sub c l rest : ~ In c sub -> sub <> [] -> contains sub l = false -> contains sub rest = false ->
  contains sub (l ++ c :: rest) = false.
Proof.
  intros Hn Hs Hl IH. apply contains_false. intros a b E. change (c :: rest) with ([c] ++ rest) in E.
  destruct (Nat.le_gt_cases (length (a ++ sub)) (length l)) as [G|G].
  - assert (E1 : l ++ [c] ++ rest = (a ++ sub) ++ b) by (rewrite <- app_assoc; auto).
    destruct (prefix_of _ _ _ _ E1 G) as (z & ->).
    rewrite <- app_assoc in Hl. apply (proj1 (contains_false _ _)) with (a := a) (b := z) in Hl. auto.
  - destruct (Nat.le_gt_cases (S (length l)) (length a)) as [K|K].
    + assert (E' : a ++ sub ++ b = (l ++ [c]) ++ rest) by (rewrite <- E, <- app_assoc; auto).
      destruct (prefix_of _ _ _ _ E') as (z & ->); [rewrite app_length; cbn; lia|].
      rewrite <- !app_assoc in E'. apply app_inv_head in E'. cbn in E'. injection E' as E'.
      apply (proj1 (contains_false _ _)) with (a := z) (b := b) in IH. auto.
    + destruct (prefix_of l ([c] ++ rest) a (sub ++ b)) as (z & ->); auto; [lia|].
      rewrite <- app_assoc in E. apply app_inv_head in E. rewrite app_length in G.
      assert (E' : sub ++ b = z ++ [c] ++ rest) by auto.
      destruct (prefix_of _ _ z _ E') as (y & ->); [rewrite app_length in *; lia|].
      rewrite <- app_assoc in E'. apply app_inv_head in E'. destruct y as [|y0 y].
      * rewrite !app_length in G. cbn in G. lia.
      * cbn in E'. injection E' as -> E'. apply Hn. apply in_or_app. right. left. auto.
Qed.

Definition solid (sub : str) : Prop := sub <> [] /\ Forall (fun c => is_space c = false) sub.
Lemma solid_space sub c : solid sub -> is_space c = true -> ~ In c sub.
Proof. intros (_ & H) S I. rewrite Forall_forall in H. specialize (H c I). congruence. Qed.
(** Nothing that matters in a literal. *)
Definition harmless (u : str) : Prop := contains tq u = false /\ plain_escapes u.
Lemma harmless_forall u : harmless u <-> Forall (fun sub => contains sub u = false) [tq; $"\x"; $"\u"; $"\U"; $"\N"].
Proof.
  unfold harmless, plain_escapes. split.
  - intros (A & B & C & D & E). repeat constructor; auto.
  - intros H. inversion_clear H. inversion_clear H1. inversion_clear H2. inversion_clear H3. inversion_clear H4. auto.
Qed.
Lemma solids : Forall solid [tq; $"\x"; $"\u"; $"\U"; $"\N"].
Proof. repeat constructor; discriminate. Qed.
Lemma harmless_by (P : str -> Prop) u :
  (forall sub, solid sub -> (In sub [tq; $"\x"; $"\u"; $"\U"; $"\N"]) -> contains sub u = false) -> harmless u.
Proof.
  intros H. apply harmless_forall. pose proof solids as S. rewrite Forall_forall in *. intros sub I. apply H; auto.
Qed.
Lemma harmless_in u sub : harmless u -> In sub [tq; $"\x"; $"\u"; $"\U"; $"\N"] -> contains sub u = false.
Proof. intros H. apply harmless_forall in H. rewrite Forall_forall in H. auto. Qed.
Lemma harmless_nil : harmless [].
Proof. repeat split. Qed.
Lemma harmless_sep c a b : is_space c = true -> harmless a -> harmless b -> harmless (a ++ c :: b).
Proof.
  intros Hc Ha Hb. apply harmless_by; [exact (fun _ => True)|]. intros sub S I.
  apply contains_sep; eauto using harmless_in. apply solid_space; auto. apply S.
Qed.
Lemma harmless_spaces i u : Forall (fun c => is_space c = true) i -> harmless u -> harmless (i ++ u).
Proof. induction 1; auto. intros. cbn. apply (harmless_sep x []); auto using harmless_nil. Qed.
Lemma harmless_prefix a b : harmless (a ++ b) -> harmless a.
Proof.
  intros H. apply harmless_by; [exact (fun _ => True)|]. intros sub S I. apply (harmless_in _ sub) in H; auto.
  destruct (contains sub a) eqn:E; auto. rewrite (contains_app_l _ _ b E) in H. congruence.
Qed.
Lemma harmless_suffix a b : harmless (a ++ b) -> harmless b.
Proof.
  intros H. apply harmless_by; [exact (fun _ => True)|]. intros sub S I. apply (harmless_in _ sub) in H; auto.
  destruct (contains sub b) eqn:E; auto. rewrite (contains_app_r _ a b E) in H. congruence.
Qed.
Lemma dropwhile_split {A} f (l : list A) : exists a, l = a ++ dropwhile f l /\ Forall (fun x => f x = true) a.
Proof.
  induction l as [|x l (a & E & F)]; [exists []; auto|]. cbn. destruct (f x) eqn:X; [|exists []; auto].
  exists (x :: a). split; [cbn; congruence|auto].
Qed.
Lemma rstrip_split s : exists w, s = rstrip s ++ w /\ Forall (fun c => is_space c = true) w.
Proof.
  unfold rstrip. destruct (dropwhile_split is_space (rev s)) as (a & E & F). exists (rev a). split.
  - rewrite <- rev_app_distr, <- E, rev_involutive. auto.
  - apply Forall_rev. auto.
Qed.
Lemma harmless_rstrip s : harmless s -> harmless (rstrip s).
Proof. intros H. destruct (rstrip_split s) as (w & E & _). rewrite E in H. eapply harmless_prefix; eauto. Qed.
Lemma harmless_unlines ls : Forall harmless ls -> harmless (unlines ls).
Proof.
  induction 1 as [|l ls H HF IH]; [apply harmless_nil|]. destruct ls; [cbn; auto|].
  unfold unlines in *. rewrite join_cons. apply (harmless_sep nl); auto.
Qed.
Lemma unlines_harmless ls : harmless (unlines ls) -> Forall harmless ls.
Proof.
  induction ls as [|l ls IH]; auto. destruct ls as [|l' ls].
  - cbn. auto.
  - unfold unlines in *. rewrite join_cons. intros H. constructor.
    + apply harmless_prefix in H. auto.
    + apply IH. apply harmless_suffix in H. apply (harmless_suffix [nl]) in H. auto.
Qed.
Lemma harmless_lines s : harmless s -> Forall harmless (lines s).
Proof. intros H. apply unlines_harmless. rewrite unlines_lines. auto. Qed.

(** [docstring_lines] pads the text away from the quotes. *)
Definition padded (t : str) : str :=
  let d := if startswith [dq] t then sp :: t else t in if endswith [dq] d then d ++ [sp] else d.
Lemma endswith_last p s c : endswith [p] (s ++ [c]) = ceqb p c.
Proof. unfold endswith. rewrite rev_app_distr. cbn. rewrite andb_true_r. auto. Qed.
Lemma padded_harmless t : harmless t -> harmless (padded t).
Proof.
  intros H. unfold padded. set (d := if startswith [dq] t then sp :: t else t).
  assert (D : harmless d).
  { unfold d. destruct (startswith [dq] t); [|exact H]. apply (harmless_sep sp []); auto using harmless_nil. }
  destruct (endswith [dq] d); auto. apply harmless_sep; auto using harmless_nil.
Qed.
Lemma padded_end t : endswith [dq] (padded t) = false.
Proof.
  unfold padded; cbv zeta. match goal with |- context [if endswith [dq] ?d then _ else _] => destruct (endswith [dq] d) eqn:E end; auto.
  rewrite endswith_last. reflexivity.
Qed.
Lemma ends_escaping_last s c : ceqb c "\" = false -> ends_escaping (s ++ [c]) = false.
Proof. intros H. unfold ends_escaping. rewrite rev_app_distr. cbn [rev app takewhile]. rewrite ceqb_sym, H. auto. Qed.
Lemma padded_escaping t : ends_escaping t = false -> ends_escaping (padded t) = false.
Proof.
  intros H. unfold padded; cbv zeta. match goal with |- context [if endswith [dq] ?d then _ else _] => destruct (endswith [dq] d) eqn:E end.
  - apply ends_escaping_last. reflexivity.
  - destruct (startswith [dq] t); auto. rewrite ends_escaping_cons; auto.
Qed.
Lemma padded_nl t : In nl (padded t) <-> In nl t.
Proof.
  unfold padded; cbv zeta. assert (D : In nl (if startswith [dq] t then sp :: t else t) <-> In nl t).
  { destruct (startswith [dq] t); [|tauto]. cbn. split; [intros [E|H]; [discriminate E|auto]|auto]. }
  match goal with |- context [if endswith [dq] ?d then _ else _] => destruct (endswith [dq] d) eqn:EE end; auto. rewrite in_app_iff, D. cbn. split; [intros [H|[E|[]]]; [auto|discriminate E]|auto].
Qed.
Lemma padded_nonempty t : t <> [] -> padded t <> [].
Proof.
  unfold padded; cbv zeta. intros H. destruct (startswith [dq] t); (match goal with |- context [if endswith [dq] ?d then _ else _] => destruct (endswith [dq] d) eqn:EE end; [intros Z; apply app_eq_nil in Z; destruct Z; discriminate|]); [discriminate|auto].
Qed.
Lemma lines_single d l : lines d = [l] -> d = l /\ ~ In nl d.
Proof.
  intros E. pose proof (unlines_lines d) as U. rewrite E in U. cbn in U. split; [auto|].
  pose proof (lines_no_nl d) as N. rewrite E in N. inversion N. subst. auto.
Qed.
Lemma lines_many d l l' ls : lines d = l :: l' :: ls -> In nl d.
Proof.
  intros E. pose proof (unlines_lines d) as U. rewrite E in U. unfold unlines in U. rewrite join_cons in U. rewrite <- U.
  apply in_or_app. right. left. auto.
Qed.
Lemma join_snoc sep (a : list str) x : a <> [] -> join sep (a ++ [x]) = join sep a ++ sep ++ x.
Proof.
  induction a as [|y a IH]; [congruence|]. intros _. destruct a as [|z a]; [cbn; auto|].
  change ((y :: z :: a) ++ [x]) with (y :: (z :: a) ++ [x]). cbn [app]. rewrite (join_cons sep y), (join_cons sep y).
  change (z :: a ++ [x]) with ((z :: a) ++ [x]). rewrite IH by discriminate. rewrite <- !app_assoc. auto.
Qed.

Lemma rstrip_keep a c b : is_space c = false -> rstrip (a ++ c :: b) = a ++ c :: rstrip b.
Proof.
  intros C. unfold rstrip. rewrite rev_app_distr. cbn [rev]. rewrite <- app_assoc. cbn [app].
  assert (D : forall x y, dropwhile is_space (x ++ c :: y) = dropwhile is_space x ++ c :: y).
  { induction x as [|z x IH]; intros y; cbn; [rewrite C; auto|]. destruct (is_space z); auto. }
  rewrite D, rev_app_distr. cbn [rev]. rewrite rev_involutive, <- app_assoc. auto.
Qed.
Lemma rstrip_quotes l : rstrip (tq ++ l) = tq ++ rstrip l.
Proof. change (tq ++ l) with ([dq; dq] ++ dq :: l). rewrite rstrip_keep by reflexivity. auto. Qed.
Lemma rstrip_solid_end l c : is_space c = false -> rstrip (l ++ [c]) = l ++ [c].
Proof. intros H. rewrite rstrip_keep by auto. reflexivity. Qed.
Lemma harmless_indent i l : Forall (fun c => is_space c = true) i -> harmless l -> harmless (indent_line i true l).
Proof. intros Hi H. destruct l; [apply harmless_nil|]. cbn [indent_line]. apply harmless_spaces; auto. apply harmless_rstrip; auto. Qed.

Section Doc.
Variable strip_empty reproduce : bool.
Variable replacements : str -> str.
Variables previous eol : str.
Let t := comment_apply_replacements strip_empty replacements (full_comment previous eol).
Hypothesis Ht : t <> [].
Hypothesis Hh : harmless t.
Hypothesis He : In nl t \/ ends_escaping t = false.

Lemma docstring_literal : triple_literal (unlines (docstring_lines strip_empty replacements previous eol)).
Proof.
  unfold docstring_lines. fold t. change (if endswith [dq] _ then _ else _) with (padded t).
  destruct (padded t) as [|p0 ps] eqn:P; [destruct (padded_nonempty t Ht P)|]. rewrite <- P.
  assert (D : triple_literal (unlines match lines (padded t) with
    | [] => [] | [l] => [tq ++ l ++ tq] | l :: ls => (tq ++ l) :: ls ++ [tq] end)); [|exact D].
  destruct (lines (padded t)) as [|l [|l' ls]] eqn:L; [destruct (lines_nonempty _ L)| |].
  - destruct (lines_single _ _ L) as (<- & N). cbn [unlines join]. destruct (padded_harmless t Hh) as (H1 & H2).
    apply literal_of; auto using padded_end. apply padded_escaping. destruct He; auto. rewrite padded_nl in N. contradiction.
  - assert (U : unlines ((tq ++ l) :: (l' :: ls) ++ [tq]) = tq ++ (padded t ++ [nl]) ++ tq).
    { rewrite <- (unlines_lines (padded t)), L. unfold unlines. rewrite !join_cons.
      change ((l' :: ls) ++ [tq]) with ((l' :: ls) ++ [tq]). 
      change (join [nl] ((tq ++ l) :: (l' :: ls) ++ [tq])) with (join [nl] (((tq ++ l) :: l' :: ls) ++ [tq])).
      rewrite join_snoc by discriminate. rewrite join_cons. rewrite <- !app_assoc. auto. }
    rewrite U. destruct (harmless_sep nl (padded t) []) as (H1 & H2); auto using padded_harmless, harmless_nil.
    apply literal_of; auto.
    + rewrite endswith_last. reflexivity.
    + apply ends_escaping_last. reflexivity.
Qed.

Lemma docstring_indented i : Forall (fun c => is_space c = true) i ->
  exists lit, unlines (map (indent_line i true) (docstring_lines strip_empty replacements previous eol)) = i ++ lit /\
    triple_literal lit.
Proof.
  intros Hi.
  unfold docstring_lines. fold t. change (if endswith [dq] _ then _ else _) with (padded t).
  destruct (padded t) as [|p0 ps] eqn:P; [destruct (padded_nonempty t Ht P)|]. rewrite <- P.
  assert (D : exists lit, unlines (map (indent_line i true) match lines (padded t) with
    | [] => [] | [l] => [tq ++ l ++ tq] | l :: ls => (tq ++ l) :: ls ++ [tq] end) = i ++ lit /\ triple_literal lit); [|exact D].
  destruct (lines (padded t)) as [|l [|l' ls]] eqn:L; [destruct (lines_nonempty _ L)| |].
  - destruct (lines_single _ _ L) as (<- & N). destruct (padded_harmless t Hh) as (H1 & H2).
    exists (tq ++ padded t ++ tq). split.
    + cbn [map unlines join app indent_line]. f_equal.
      change (dq :: dq :: dq :: padded t ++ tq) with (tq ++ padded t ++ [dq; dq] ++ [dq]). rewrite !app_assoc.
      rewrite rstrip_solid_end by reflexivity. rewrite <- !app_assoc. auto.
    + apply literal_of; auto using padded_end. apply padded_escaping. destruct He; auto. rewrite padded_nl in N. contradiction.
  - set (B := unlines (rstrip l :: map (indent_line i true) (l' :: ls)) ++ [nl] ++ i).
    exists (tq ++ B ++ tq).
    assert (HL : Forall harmless (l :: l' :: ls)) by (rewrite <- L; apply harmless_lines, padded_harmless; auto).
    inversion_clear HL as [|? ? HL1 HL2].
    assert (HB : harmless B).
    { unfold B. apply (harmless_sep nl); auto.
      - apply harmless_unlines. constructor; [apply harmless_rstrip; auto|].
        apply Forall_map. eapply Forall_impl; [|exact HL2]. intros; apply harmless_indent; auto.
      - rewrite <- (app_nil_r i). apply harmless_spaces; auto using harmless_nil. }
    split.
    + change ((tq ++ l) :: (l' :: ls) ++ [tq]) with (((tq ++ l) :: l' :: ls) ++ [tq]). rewrite map_app. unfold unlines.
      change (map (indent_line i true) [tq]) with ([i ++ tq]). rewrite join_snoc by discriminate.
      change (map (indent_line i true) ((tq ++ l) :: l' :: ls)) with ((i ++ rstrip (tq ++ l)) :: map (indent_line i true) (l' :: ls)).
      rewrite rstrip_quotes. unfold B, unlines. cbn [map]. rewrite !join_cons. rewrite <- !app_assoc. auto.
    + destruct HB as (H1 & H2).
      assert (E : exists s c, B = s ++ [c] /\ is_space c = true).
      { unfold B. rewrite app_assoc. destruct i as [|c0 i0] using rev_ind.
        - rewrite app_nil_r. eauto.
        - rewrite app_assoc. exists ((unlines (rstrip l :: map (indent_line (i0 ++ [c0]) true) (l' :: ls)) ++ [nl]) ++ i0), c0. split; auto.
          apply Forall_app in Hi. destruct Hi as (_ & Hi). inversion Hi; auto. }
      destruct E as (s & c & E & C).
      apply literal_of; auto; rewrite E.
      * rewrite endswith_last. destruct (ceqb_spec dq c) as [<-|]; [discriminate C|reflexivity].
      * apply ends_escaping_last. destruct (ceqb_spec c "\") as [->|]; [discriminate C|reflexivity].
Qed.

Lemma doc_no_nl : Forall (fun l => ~ In nl l) (docstring_lines strip_empty replacements previous eol).
Proof.
  unfold docstring_lines. fold t. change (if endswith [dq] _ then _ else _) with (padded t).
  destruct (padded t) as [|p0 ps] eqn:P; [auto|]. rewrite <- P.
  assert (D : Forall (fun l => ~ In nl l) match lines (padded t) with
    | [] => [] | [l] => [tq ++ l ++ tq] | l :: ls => (tq ++ l) :: ls ++ [tq] end); [|exact D].
  assert (Q : ~ In nl tq) by (intros [|[|[|[]]]]; discriminate).
  pose proof (lines_no_nl (padded t)) as N. destruct (lines (padded t)) as [|l [|l' ls]]; auto; inversion_clear N.
  - repeat constructor. rewrite !in_app_iff. tauto.
  - constructor; [rewrite in_app_iff; tauto|]. apply Forall_app. auto.
Qed.
Lemma doc_nonempty : docstring_lines strip_empty replacements previous eol <> [].
Proof.
  intros E. pose proof docstring_literal as (b & H & _). rewrite E in H. discriminate.
Qed.
End Doc.

Lemma unlines_app a b : a <> [] -> b <> [] -> unlines (a ++ b) = unlines a ++ [nl] ++ unlines b.
Proof.
  unfold unlines. intros Ha Hb. induction a as [|x a IH]; [congruence|]. destruct a as [|y a].
  - cbn [app]. destruct b; [congruence|]. rewrite join_cons. auto.
  - change ((x :: y :: a) ++ b) with (x :: y :: a ++ b). rewrite !join_cons. change (y :: a ++ b) with ((y :: a) ++ b).
    rewrite IH by discriminate. rewrite <- !app_assoc. auto.
Qed.
Lemma lines_unlines_app a b : a <> [] -> b <> [] -> lines (unlines (a ++ b)) = lines (unlines a) ++ lines (unlines b).
Proof.
  intros Ha Hb. rewrite unlines_app by auto.
  rewrite <- (unlines_lines (unlines a)) at 1. rewrite <- (unlines_lines (unlines b)) at 1.
  rewrite <- unlines_app by apply lines_nonempty. apply lines_unlines.
  - intros E. apply app_eq_nil in E. destruct E as (E & _). destruct (lines_nonempty _ E).
  - apply Forall_app. split; apply lines_no_nl.
Qed.

Lemma stub_docstring strip_empty reproduce replacements title titles location previous eol body i :
  let t := comment_apply_replacements strip_empty replacements (full_comment previous eol) in
  t <> [] -> contains tq t = false -> plain_escapes t -> (In nl t \/ ends_escaping t = false) ->
  Forall (fun c => c = sp) i ->
  exists a doc b lit,
    stub_layout_lines strip_empty reproduce replacements title titles location previous eol body i = a ++ doc ++ b /\
    length a = length (lines (unlines ((title ++ location) :: titles))) /\
    unlines doc = i ++ lit /\ triple_literal lit.
Proof.
  intros t Ht H1 H2 He Hi. unfold stub_layout_lines.
  set (bd := align_python_comments_in_block_lines match body with [] => [$"pass"] | _ => body end).
  set (doc := docstring_lines strip_empty replacements previous eol).
  match goal with |- context [doc ++ ?g ++ bd] => set (gap := g); set (rest := gap ++ bd) end.
  assert (Hi' : Forall (fun c => is_space c = true) i) by (eapply Forall_impl; [|exact Hi]; intros ? ->; auto).
  destruct (docstring_indented strip_empty replacements previous eol Ht (conj H1 H2) He i Hi') as (lit & E & T).
  fold doc in E.
  assert (Hd : doc <> []) by exact (doc_nonempty strip_empty replacements previous eol Ht (conj H1 H2) He).
  assert (Nd : Forall (fun l => ~ In nl l) doc) by (unfold doc; apply doc_no_nl; auto; split; auto).
  set (ts := (title ++ location) :: titles).
  assert (R : rest = [] \/ rest <> []) by (destruct rest; [auto|right; discriminate]).
  change ((title ++ location) :: titles ++ doc ++ rest) with (ts ++ doc ++ rest).
  assert (L : lines (unlines (ts ++ doc ++ rest)) = lines (unlines ts) ++ doc ++ (match rest with [] => [] | _ => lines (unlines rest) end)).
  { rewrite lines_unlines_app; [|discriminate|intros X; apply app_eq_nil in X; destruct X; auto].
    f_equal. destruct R as [->|R].
    - rewrite !app_nil_r. apply lines_unlines; auto.
    - rewrite lines_unlines_app by auto. rewrite lines_unlines by auto. destruct rest; [congruence|auto]. }
  unfold indent_code_lines, indent_code. rewrite L.
  pose proof (lines_no_nl (unlines ts)) as N1.
  destruct (lines (unlines ts)) as [|f fs] eqn:F; [destruct (lines_nonempty _ F)|].
  set (r' := match rest with [] => [] | _ => lines (unlines rest) end) in *.
  assert (Nr : Forall (fun l => ~ In nl l) r') by (unfold r'; destruct rest; auto; apply lines_no_nl).
  set (X := fs ++ doc ++ r').
  assert (NX : Forall (fun l => ~ In nl l) X) by (inversion N1; unfold X; apply Forall_app; split; auto; apply Forall_app; auto).
  assert (XN : X <> []) by (unfold X; intros Z; apply app_eq_nil in Z; destruct Z as (_ & Z); apply app_eq_nil in Z; tauto).
  change ((f :: fs) ++ doc ++ r') with (f :: X).
  exists (rstrip f :: map (indent_line i true) fs), (map (indent_line i true) doc), (map (indent_line i true) r'), lit.
  split; [|split; [cbn; rewrite map_length; auto|split; auto]].
  assert (G : lines (rstrip f ++ [nl] ++ indent_code_str i true (unlines X)) =
     (rstrip f :: map (indent_line i true) fs) ++ map (indent_line i true) doc ++ map (indent_line i true) r').
  { unfold indent_code_str. rewrite lines_unlines by auto.
    assert (M : map (indent_line i true) X <> []) by (intros Z; apply map_eq_nil in Z; auto).
    change (rstrip f ++ [nl] ++ unlines (map (indent_line i true) X)) with (unlines [rstrip f] ++ [nl] ++ unlines (map (indent_line i true) X)).
    rewrite <- unlines_app by (auto; discriminate). rewrite lines_unlines.
    - cbn [app]. unfold X. rewrite !map_app. auto.
    - discriminate.
    - assert (SN : forall l, ~ In nl l -> ~ In nl (rstrip l)).
      { intros l Hl I. destruct (rstrip_split l) as (w & W & _). apply Hl. rewrite W. apply in_or_app; auto. }
      constructor; [apply SN; inversion N1; auto|]. apply Forall_map. eapply Forall_impl; [|exact NX].
      intros [|c l] Hl; [auto|]. cbn [indent_line]. rewrite in_app_iff. intros [I|I]; [|apply (SN _ Hl I)].
      rewrite Forall_forall in Hi. apply Hi in I. discriminate. }
  destruct X as [|x0 X']; [congruence|]. exact G.
Qed.
