(** Proofs about preprocessor regions. *)
From Verif Require Import PyStr PyStrLemmas HeaderModel HeaderSpec.

Scheme doc_mut := Induction for doc Sort Prop
with branches_mut := Induction for branches Sort Prop.

Fixpoint last_directive (line : option nat) (l : list (node * bool)) : option nat :=
  match l with
  | [] => line
  | (n, _) :: l' => last_directive (if is_directive n then n_end n else line) l'
  end.
Lemma without_app line a b :
  without_beside line (a ++ b) = without_beside line a ++ without_beside (last_directive line a) b.
Proof. revert line; induction a as [|[n k] a IH]; intros; cbn; auto. rewrite IH, app_assoc. auto. Qed.
Lemma last_app line a b : last_directive line (a ++ b) = last_directive (last_directive line a) b.
Proof. revert line; induction a as [|[n k] a IH]; intros; cbn; auto. Qed.

Section Filter.
Variable acceptable : str -> bool.
Notation ff := (filter_from acceptable).

Lemma filter_flag w w' line rs ns : placed ns -> ff (State w line rs) ns = ff (State w' line rs) ns.
Proof.
  revert w w' line rs; induction ns as [|n ns IH]; intros w w' line rs H; auto.
  inversion H as [|? ? Hn Hns]; subst. cbn [filter_from]. unfold process_tag, is_directive in *.
  destruct (n_end n) as [e|].
  - destruct (n_kind n); cbn [encountered_if last_ignored_preprocessor_stmt_line]; auto.
  - destruct (n_kind n) eqn:K; try (exfalso; apply Hn; auto; fail); unfold shall_ignore; rewrite K;
      cbn [encountered_if last_ignored_preprocessor_stmt_line]; unfold content_is_excluded; cbn [encountered_if];
      rewrite (IH w w') by auto; auto.
Qed.

(** The state after a part, up to the flag. *)
Definition reads (rs : list region) (l : list (node * bool)) : Prop :=
  forall w line rest, placed rest ->
  ff (State w line rs) (map fst l ++ rest) = without_beside line l ++ ff (State false (last_directive line l) rs) rest.

Definition leads (rs rs' : list region) (l : list (node * bool)) : Prop :=
  forall w line rest, placed rest ->
  ff (State w line rs) (map fst l ++ rest) = without_beside line l ++ ff (State false (last_directive line l) rs') rest.

Lemma leads_nil rs : leads rs rs [].
Proof. intros w line rest H. cbn. apply filter_flag; auto. Qed.
Lemma leads_app a b c l l' : placed (map fst l') -> leads a b l -> leads b c l' -> leads a c (l ++ l').
Proof.
  intros Hp H1 H2 w line rest H. rewrite map_app, <- app_assoc, H1, H2, without_app, last_app, app_assoc; auto.
  apply Forall_app; auto.
Qed.

Lemma leads_content rs n active : is_content n -> existsb drops rs = negb active -> leads rs rs [(n, active)].
Proof.
  intros Hn Ha w line rest H. cbn [map fst app filter_from without_beside last_directive].
  assert (E : filter_from acceptable (process_tag acceptable (State w line rs) n) rest = ff (State false line rs) rest).
  { unfold process_tag. destruct (n_end n); [destruct Hn as [->| ->]; auto|apply filter_flag; auto]. }
  assert (D : is_directive n = false) by (unfold is_directive; destruct Hn as [->| ->]; auto). rewrite D.
  assert (S : shall_ignore (process_tag acceptable (State w line rs) n) n = negb (active && negb (beside line n))).
  { assert (P : exists w', process_tag acceptable (State w line rs) n = State w' line rs).
    { unfold process_tag. destruct (n_end n); [destruct Hn as [->| ->]; cbn; eauto|eauto]. }
    destruct P as (w' & ->). unfold shall_ignore, beside, content_is_excluded.
    cbn [encountered_if last_ignored_preprocessor_stmt_line]. rewrite Ha.
    destruct Hn as [->| ->]; [|rewrite andb_true_r; auto].
    destruct (n_start n) as [a|]; [|rewrite andb_true_r; auto].
    destruct line as [b|]; [|rewrite andb_true_r; auto]. destruct (a =? b); [rewrite andb_false_r; auto|].
    rewrite andb_true_r; auto. }
  rewrite S, E. destruct (active && negb (beside line n)); auto.
Qed.

Lemma leads_if rs n active : is_if n -> n_end n <> None -> existsb drops rs = negb active ->
  leads rs (HeaderModel.Region (negb (accepted acceptable n)) false :: rs) [(n, active && accepted acceptable n)].
Proof.
  intros (m & Hn) He Ha w line rest H. cbn [map fst app filter_from without_beside last_directive].
  unfold process_tag, shall_ignore, is_directive, beside, accepted. rewrite Hn.
  destruct (n_end n) as [e|]; [|tauto]. unfold directive_is_excluded. cbn [encountered_if region_excluded].
  rewrite Ha, andb_true_r. destruct (acceptable m), active; auto.
Qed.
Lemma leads_else x b rs n active : is_else n -> n_end n <> None -> existsb drops rs = negb active ->
  leads (HeaderModel.Region x b :: rs) (HeaderModel.Region x true :: rs) [(n, active && negb x)].
Proof.
  intros Hn He Ha w line rest H. cbn [map fst app filter_from without_beside last_directive].
  unfold process_tag, shall_ignore, is_directive, beside. rewrite Hn.
  destruct (n_end n) as [e|]; [|tauto]. unfold directive_is_excluded. cbn [encountered_if region_excluded].
  rewrite Ha, andb_true_r. destruct x, active; auto.
Qed.
Lemma leads_endif x b rs n active : is_endif n -> n_end n <> None -> existsb drops rs = negb active ->
  leads (HeaderModel.Region x b :: rs) rs [(n, active && negb x)].
Proof.
  intros Hn He Ha w line rest H. cbn [map fst app filter_from without_beside last_directive].
  unfold process_tag, shall_ignore, is_directive, beside. rewrite Hn.
  destruct (n_end n) as [e|]; [|tauto]. unfold directive_is_excluded.
  cbn [encountered_if region_excluded tl was_last_element_an_ignored_endif].
  rewrite Ha, andb_true_r. destruct x, active; auto.
  all: cbn; try (f_equal; apply filter_flag; auto; fail); apply filter_flag; auto.
Qed.
Lemma leads_stray n : is_else n \/ is_endif n -> n_end n <> None -> leads [] [] [(n, true)].
Proof.
  intros Hn He w line rest H. cbn [map fst app filter_from without_beside last_directive].
  unfold process_tag, shall_ignore, is_directive, beside. destruct Hn as [-> | ->];
  destruct (n_end n) as [e|]; try tauto; unfold directive_is_excluded;
  cbn [encountered_if region_excluded tl was_last_element_an_ignored_endif]; auto.
Qed.

Lemma placed_cons n ns : placed (n :: ns) <-> (is_directive n = true -> n_end n <> None) /\ placed ns.
Proof. split; [inversion 1; auto|intros (? & ?); constructor; auto]. Qed.
Lemma placed_app a b : placed (a ++ b) <-> placed a /\ placed b.
Proof. apply Forall_app. Qed.

Lemma marks_nodes x : forall a, map fst (marks acceptable a x) = doc_nodes x
with branch_marks_nodes m : forall a, map fst (branch_marks acceptable a m) = branches_nodes m.
Proof.
  - destruct x as [|n r|d b m e r]; intros a.
    + reflexivity.
    + cbn [marks doc_nodes map fst]. rewrite marks_nodes. reflexivity.
    + cbn [marks doc_nodes map fst]. rewrite !map_app. cbn [map fst]. rewrite !marks_nodes, branch_marks_nodes. reflexivity.
  - destruct m as [|d b m]; intros a; [reflexivity|].
    cbn [branch_marks branches_nodes map fst]. rewrite map_app, marks_nodes, branch_marks_nodes. reflexivity.
Qed.
Lemma opened_marks_nodes x : forall a, map fst (opened_marks acceptable a x) = opened_nodes x.
Proof.
  induction x as [|d b i IH|d b m d' b' i IH]; intros a; auto.
  - cbn [opened_marks opened_nodes map fst]. rewrite map_app, marks_nodes, IH. auto.
  - cbn [opened_marks opened_nodes map fst]. rewrite !map_app. cbn [map fst].
    rewrite map_app, !marks_nodes, branch_marks_nodes, IH. auto.
Qed.
Lemma source_marks_nodes s : map fst (source_marks acceptable s) = source_nodes s.
Proof.
  unfold source_marks, source_nodes. rewrite !map_app, marks_nodes, opened_marks_nodes. f_equal.
  induction (strays s) as [|[x n] l IH]; auto. cbn [flat_map]. rewrite map_app, IH, map_app, marks_nodes. auto.
Qed.

Lemma one_placed n (k : bool) : (is_directive n = true -> n_end n <> None) -> placed (map fst [(n, k)]).
Proof. intros H. apply placed_cons. split; [auto|constructor]. Qed.
Lemma if_directive n : is_if n -> is_directive n = true.
Proof. unfold is_directive. intros (m & ->). auto. Qed.
Lemma else_directive n : is_else n -> is_directive n = true.
Proof. unfold is_directive. intros ->. auto. Qed.
Lemma endif_directive n : is_endif n -> is_directive n = true.
Proof. unfold is_directive. intros ->. auto. Qed.
Lemma cons_app {A} (x : A) l : x :: l = [x] ++ l.
Proof. auto. Qed.

Lemma drops_cons x b rs : existsb drops (HeaderModel.Region x b :: rs) = (x || b) || existsb drops rs.
Proof. reflexivity. Qed.

Lemma leads_doc x : forall rs active, doc_ok x -> placed (doc_nodes x) -> existsb drops rs = negb active ->
  leads rs rs (marks acceptable active x)
with leads_branches m : forall x b rs active, branches_ok m -> placed (branches_nodes m) -> existsb drops rs = negb active ->
  exists b', leads (HeaderModel.Region x b :: rs) (HeaderModel.Region x b' :: rs) (branch_marks acceptable (active && negb x) m).
Proof.
  - destruct x as [|n r|d b m e r]; intros rs active Hok Hp Ha.
    + apply leads_nil.
    + destruct Hok as (Hn & Hr). apply placed_cons in Hp. destruct Hp as (Hpn & Hpr).
      cbn [marks]. rewrite cons_app. eapply leads_app; [rewrite marks_nodes; auto|apply leads_content; auto|apply leads_doc; auto].
    + destruct Hok as (Hd & Hb & Hm & He & Hr). cbn [doc_nodes] in Hp. rewrite placed_cons, !placed_app, placed_cons in Hp.
      destruct Hp as (Pd & Pb & Pm & Pe & Pr).
      cbn [marks]. set (k := active && accepted acceptable d).
      assert (Hk : existsb drops (HeaderModel.Region (negb (accepted acceptable d)) false :: rs) = negb k).
      { rewrite drops_cons, Ha. unfold k. destruct active, (accepted acceptable d); auto. }
      destruct (leads_branches m (negb (accepted acceptable d)) false rs active Hm Pm Ha) as (b' & Lm).
      rewrite negb_involutive in Lm. fold k in Lm.
      rewrite cons_app. eapply leads_app; [|apply leads_if; auto using if_directive|].
      { rewrite !map_app; cbn [map fst]; rewrite !marks_nodes, branch_marks_nodes.
        rewrite !placed_app, placed_cons; auto. }
      eapply leads_app; [|apply leads_doc; eauto|].
      { rewrite !map_app; cbn [map fst]; rewrite !marks_nodes, branch_marks_nodes.
        rewrite !placed_app, placed_cons; auto. }
      eapply leads_app; [|exact Lm|].
      { cbn [map fst]; rewrite !marks_nodes. rewrite placed_cons; auto. }
      rewrite (cons_app (e, k)). eapply leads_app; [rewrite marks_nodes; auto| |apply leads_doc; auto].
      replace k with (active && negb (negb (accepted acceptable d))) by (rewrite negb_involutive; auto).
      apply leads_endif; auto using endif_directive.
  - destruct m as [|d b m]; intros x b0 rs active Hok Hp Ha.
    + exists b0. apply leads_nil.
    + destruct Hok as (Hd & Hb & Hm). cbn [branches_nodes] in Hp. rewrite placed_cons, placed_app in Hp.
      destruct Hp as (Pd & Pb & Pm). destruct (leads_branches m x true rs active Hm Pm Ha) as (b' & Lm).
      exists b'. change (branch_marks acceptable (active && negb x) (Branch d b m)) with
        ([(d, active && negb x)] ++ marks acceptable false b ++ branch_marks acceptable (active && negb x) m).
      eapply leads_app; [rewrite map_app, marks_nodes, branch_marks_nodes, placed_app; auto|
                         apply leads_else; auto using else_directive|].
      eapply leads_app; [rewrite branch_marks_nodes; auto|apply leads_doc; auto|exact Lm].
      rewrite drops_cons, orb_true_r. auto.
Qed.

Lemma leads_opened x : forall rs active, opened_ok x -> placed (opened_nodes x) -> existsb drops rs = negb active ->
  exists rs', leads rs rs' (opened_marks acceptable active x).
Proof.
  induction x as [|d b i IH|d b m d' b' i IH]; intros rs active Hok Hp Ha.
  - exists rs. apply leads_nil.
  - destruct Hok as (Hd & Hb & Hi). cbn [opened_nodes] in Hp. rewrite placed_cons, placed_app in Hp.
    destruct Hp as (Pd & Pb & Pi). cbn [opened_marks]. set (k := active && accepted acceptable d).
    assert (Hk : existsb drops (HeaderModel.Region (negb (accepted acceptable d)) false :: rs) = negb k).
    { rewrite drops_cons, Ha. unfold k. destruct active, (accepted acceptable d); auto. }
    destruct (IH _ k Hi Pi Hk) as (rs' & L). exists rs'. rewrite cons_app.
    eapply leads_app; [|apply leads_if; auto using if_directive|].
    { rewrite map_app, marks_nodes, opened_marks_nodes, placed_app; auto. }
    eapply leads_app; [|apply leads_doc; eauto|exact L]. rewrite opened_marks_nodes; auto.
  - destruct Hok as (Hd & Hb & Hm & Hd' & Hb' & Hi). cbn [opened_nodes] in Hp.
    rewrite placed_cons, !placed_app, placed_cons, placed_app in Hp.
    destruct Hp as (Pd & Pb & Pm & Pd' & Pb' & Pi). cbn [opened_marks]. set (k := active && accepted acceptable d).
    assert (Hk : existsb drops (HeaderModel.Region (negb (accepted acceptable d)) false :: rs) = negb k).
    { rewrite drops_cons, Ha. unfold k. destruct active, (accepted acceptable d); auto. }
    destruct (leads_branches m (negb (accepted acceptable d)) false rs active Hm Pm Ha) as (b1 & Lm).
    rewrite negb_involutive in Lm. fold k in Lm.
    assert (Hf : existsb drops (HeaderModel.Region (negb (accepted acceptable d)) true :: rs) = negb false).
    { rewrite drops_cons, orb_true_r. auto. }
    destruct (IH _ false Hi Pi Hf) as (rs' & L). exists rs'. rewrite cons_app.
    eapply leads_app; [|apply leads_if; auto using if_directive|].
    { rewrite !map_app; cbn [map fst]; rewrite map_app, !marks_nodes, branch_marks_nodes, opened_marks_nodes.
      rewrite !placed_app, placed_cons, placed_app; auto. }
    eapply leads_app; [|apply leads_doc; eauto|].
    { rewrite !map_app; cbn [map fst]; rewrite map_app, !marks_nodes, branch_marks_nodes, opened_marks_nodes.
      rewrite !placed_app, placed_cons, placed_app; auto. }
    eapply leads_app; [|exact Lm|].
    { cbn [map fst]; rewrite map_app, !marks_nodes, opened_marks_nodes. rewrite placed_cons, placed_app; auto. }
    rewrite (cons_app (d', k)). eapply leads_app; [rewrite map_app, marks_nodes, opened_marks_nodes, placed_app; auto| |].
    { replace k with (active && negb (negb (accepted acceptable d))) by (rewrite negb_involutive; auto).
      apply leads_else; auto using else_directive. }
    eapply leads_app; [rewrite opened_marks_nodes; auto|apply leads_doc; auto|exact L].
Qed.

Lemma filter_source s : source_ok s -> placed (source_nodes s) ->
  filter_preprocessor_regions acceptable (source_nodes s) = without_beside None (source_marks acceptable s).
Proof.
  intros (Hs & Hc & Ho) Hp.
  assert (L : exists rs, leads [] rs (source_marks acceptable s)).
  { unfold source_nodes in Hp. unfold source_marks. rewrite !placed_app in Hp. destruct Hp as (Ps & Pc & Po).
    destruct (leads_opened (unclosed s) [] true Ho Po eq_refl) as (rs & Lo). exists rs.
    eapply leads_app with (b := []).
    - rewrite map_app, marks_nodes, opened_marks_nodes, placed_app; auto.
    - clear - Hs Ps. induction (strays s) as [|[x n] l IH]; [apply leads_nil|].
      inversion Hs as [|? ? Hxn Hl]; subst. destruct Hxn as (Hx & Hn). cbn [flat_map] in *. rewrite !placed_app in Ps.
      destruct Ps as ((Px & Pn) & Pl). apply placed_cons in Pn. destruct Pn as (Pn & Pnil).
      assert (Hd : is_directive n = true) by (destruct Hn; auto using else_directive, endif_directive).
      eapply leads_app with (b := []); [|eapply leads_app with (b := [])|apply IH; auto].
      + clear - Pl. induction l as [|[y m] l IH]; [constructor|]. cbn [flat_map] in *. rewrite !placed_app in Pl.
        rewrite !map_app, marks_nodes, !placed_app. tauto.
      + apply one_placed; auto.
      + apply leads_doc; auto.
      + apply leads_stray; auto.
    - eapply leads_app; [rewrite opened_marks_nodes; auto|apply leads_doc; auto|exact Lo]. }
  destruct L as (rs & L). specialize (L false None [] ltac:(constructor)).
  rewrite app_nil_r, source_marks_nodes in L. unfold filter_preprocessor_regions, initial_state.
  rewrite L. cbn. rewrite app_nil_r. auto.
Qed.
End Filter.

(** *** Every list of elements is a source *)

Fixpoint doc_snoc (x y : doc) : doc :=
  match x with
  | Nil => y
  | Element n r => Element n (doc_snoc r y)
  | Cond d b m e r => Cond d b m e (doc_snoc r y)
  end.
Lemma doc_snoc_nodes x y : doc_nodes (doc_snoc x y) = doc_nodes x ++ doc_nodes y.
Proof.
  induction x as [|n r IH|d b IHb m e r IH] using doc_ind; cbn [doc_snoc doc_nodes]; auto.
  - rewrite IH. auto.
  - rewrite IH. rewrite <- app_comm_cons, <- !app_assoc, <- app_comm_cons. auto.
Qed.
Lemma doc_snoc_ok x y : doc_ok x -> doc_ok y -> doc_ok (doc_snoc x y).
Proof. induction x as [|n r IH|d b IHb m e r IH] using doc_ind; cbn; tauto. Qed.
Fixpoint branches_snoc (m m' : branches) : branches :=
  match m with NoMore => m' | Branch d b r => Branch d b (branches_snoc r m') end.
Lemma branches_snoc_nodes m m' : branches_nodes (branches_snoc m m') = branches_nodes m ++ branches_nodes m'.
Proof. induction m as [|d b m IH] using branches_ind; cbn [branches_snoc branches_nodes]; auto. rewrite IH, <- app_comm_cons, app_assoc. auto. Qed.
Lemma branches_snoc_ok m m' : branches_ok m -> branches_ok m' -> branches_ok (branches_snoc m m').
Proof. induction m as [|d b m IH] using branches_ind; cbn; tauto. Qed.

(** Adding an element at the end of a complete part followed by open regions: the new complete part and open
    regions, or the element belongs to no region. *)
Fixpoint add (x : doc) (y : opened) (n : node) : option (doc * opened) :=
  match y with
  | InFirst d b (Nothing as i) =>
      match n_kind n with
      | KElse => Some (x, InLater d b NoMore n Nil Nothing)
      | KEndif => Some (doc_snoc x (Cond d b NoMore n Nil), Nothing)
      | _ => match add b i n with Some (b, i) => Some (x, InFirst d b i) | None => None end
      end
  | InFirst d b i => match add b i n with Some (b, i) => Some (x, InFirst d b i) | None => None end
  | InLater d b m d' b' (Nothing as i) =>
      match n_kind n with
      | KElse => Some (x, InLater d b (branches_snoc m (Branch d' b' NoMore)) n Nil Nothing)
      | KEndif => Some (doc_snoc x (Cond d b (branches_snoc m (Branch d' b' NoMore)) n Nil), Nothing)
      | _ => match add b' i n with Some (b', i) => Some (x, InLater d b m d' b' i) | None => None end
      end
  | InLater d b m d' b' i => match add b' i n with Some (b', i) => Some (x, InLater d b m d' b' i) | None => None end
  | Nothing =>
      match n_kind n with
      | KIf _ => Some (x, InFirst n Nil Nothing)
      | KElse | KEndif => None
      | _ => Some (doc_snoc x (Element n Nil), Nothing)
      end
  end.

Lemma add_ok y : forall x n, doc_ok x -> opened_ok y ->
  match add x y n with
  | Some (x', y') => doc_ok x' /\ opened_ok y' /\ doc_nodes x' ++ opened_nodes y' = doc_nodes x ++ opened_nodes y ++ [n]
  | None => y = Nothing /\ (is_else n \/ is_endif n)
  end.
Proof.
  induction y as [|d b i IH|d b m d' b' i IH]; intros x n Hx Hy.
  - cbn [add]. destruct (n_kind n) eqn:K; cbn [opened_ok opened_nodes doc_nodes app].
    + repeat split; auto. exists macro; auto.
    + auto. + auto.
    + rewrite doc_snoc_nodes. cbn. rewrite app_nil_r. repeat split; auto. apply doc_snoc_ok; cbn; auto. split; auto. left; auto.
    + rewrite doc_snoc_nodes. cbn. rewrite app_nil_r. repeat split; auto. apply doc_snoc_ok; cbn; auto. split; auto. right; auto.
  - destruct Hy as (Hd & Hb & Hi). specialize (IH b n Hb Hi).
    assert (G : match (match add b i n with Some (b, i) => Some (x, InFirst d b i) | None => None end) with
      | Some (x', y') => doc_ok x' /\ opened_ok y' /\
          doc_nodes x' ++ opened_nodes y' = doc_nodes x ++ opened_nodes (InFirst d b i) ++ [n]
      | None => i = Nothing /\ (is_else n \/ is_endif n)
      end).
    { destruct (add b i n) as [[b1 i1]|]; auto. destruct IH as (H1 & H2 & H3). cbn [opened_ok opened_nodes].
      repeat split; auto. cbn [app]. rewrite H3, <- app_assoc. auto. }
    cbn [add]. destruct i as [|d1 b1 i1|d1 b1 m1 d1' b1' i1].
    + destruct (n_kind n) eqn:K.
      1,4,5: destruct (add b Nothing n) as [[b1 i1]|]; auto; destruct G as (_ & [G|G]);
        unfold is_else, is_endif in G; congruence.
      * cbn [opened_ok opened_nodes doc_nodes branches_nodes doc_ok branches_ok app]. rewrite !app_nil_r.
        repeat split; auto.
      * rewrite doc_snoc_nodes. cbn [opened_ok opened_nodes doc_nodes branches_nodes app]. rewrite !app_nil_r.
        repeat split; auto. apply doc_snoc_ok; cbn; auto.
    + destruct (add b _ n) as [[? ?]|]; auto. destruct G as (G & _); discriminate G.
    + destruct (add b _ n) as [[? ?]|]; auto. destruct G as (G & _); discriminate G.
  - destruct Hy as (Hd & Hb & Hm & Hd' & Hb' & Hi). specialize (IH b' n Hb' Hi).
    assert (G : match (match add b' i n with Some (b', i) => Some (x, InLater d b m d' b' i) | None => None end) with
      | Some (x', y') => doc_ok x' /\ opened_ok y' /\
          doc_nodes x' ++ opened_nodes y' = doc_nodes x ++ opened_nodes (InLater d b m d' b' i) ++ [n]
      | None => i = Nothing /\ (is_else n \/ is_endif n)
      end).
    { destruct (add b' i n) as [[b1 i1]|]; auto. destruct IH as (H1 & H2 & H3). cbn [opened_ok opened_nodes].
      repeat split; auto. f_equal. cbn [app]. f_equal. rewrite <- !app_assoc. f_equal. f_equal.
      cbn [app]. f_equal. rewrite H3, <- app_assoc. auto. }
    cbn [add]. destruct i as [|d1 b1 i1|d1 b1 m1 d1' b1' i1].
    + assert (B : branches_ok (branches_snoc m (Branch d' b' NoMore))) by (apply branches_snoc_ok; cbn; auto).
      destruct (n_kind n) eqn:K.
      1,4,5: destruct (add b' Nothing n) as [[b1 i1]|]; auto; destruct G as (_ & [G|G]);
        unfold is_else, is_endif in G; congruence.
      * cbn [opened_ok opened_nodes doc_nodes doc_ok app]. rewrite branches_snoc_nodes.
        cbn [branches_nodes doc_nodes app]. rewrite !app_nil_r. repeat split; auto.
        rewrite <- !app_assoc. cbn [app]. auto.
      * rewrite doc_snoc_nodes. cbn [opened_ok opened_nodes doc_nodes app]. rewrite branches_snoc_nodes.
        cbn [branches_nodes doc_nodes app]. rewrite !app_nil_r. repeat split; auto.
        -- apply doc_snoc_ok; cbn; auto.
        -- rewrite <- !app_assoc. cbn [app]. auto.
    + destruct (add b' _ n) as [[? ?]|]; auto. destruct G as (G & _); discriminate G.
    + destruct (add b' _ n) as [[? ?]|]; auto. destruct G as (G & _); discriminate G.
Qed.

Lemma every_source ns : exists s, source_ok s /\ source_nodes s = ns.
Proof.
  induction ns as [|n ns IH] using rev_ind.
  - exists (Source [] Nil Nothing). split; [split; [constructor|split; exact I]|reflexivity].
  - destruct IH as ([st x y] & (Hst & Hx & Hy) & E). cbn [strays complete unclosed] in *.
    pose proof (add_ok y x n Hx Hy) as A. unfold source_nodes in E. cbn [strays complete unclosed] in E.
    destruct (add x y n) as [[x' y']|].
    + destruct A as (Hx' & Hy' & E'). exists (Source st x' y'). split; [repeat split; auto|].
      unfold source_nodes. cbn [strays complete unclosed]. rewrite E', <- E, <- !app_assoc. auto.
    + destruct A as (-> & Hn). exists (Source (st ++ [(x, n)]) Nil Nothing). split.
      * repeat split; cbn; auto. apply Forall_app; split; auto.
      * unfold source_nodes. cbn [strays complete unclosed opened_nodes doc_nodes app] in *.
        rewrite flat_map_app, !app_nil_r in *. cbn [flat_map]. rewrite app_nil_r, app_assoc, <- E. auto.
Qed.

(** *** The name of a condition *)

Lemma first_name_app a b : first_name (a ++ b) = match first_name a with [] => first_name b | s => s end.
Proof.
  unfold first_name. induction a as [|x a IH]; auto. cbn [app filter]. destruct x; cbn; auto.
Qed.
Fixpoint xml_size (x : xml) : nat :=
  match x with Xml _ _ l => S (list_sum (map xml_size l)) end.
Lemma visit_first x : forall tag t l, x = Xml tag t l -> visit x = first_name (flat_map condition_names l).
Proof.
  assert (G : forall n x, xml_size x < n -> forall tag t l, x = Xml tag t l ->
    visit x = first_name (flat_map condition_names l)).
  { induction n as [|n IHn]; [lia|]. intros y Hy tag t l ->. cbn [xml_size] in Hy.
    induction l as [|[ctag ct cl] l IHl]; auto.
    cbn [map list_sum fold_right xml_size] in Hy.
    assert (Hl : S (list_sum (map xml_size l)) < S n) by (unfold list_sum in *; cbn in Hy; lia).
    specialize (IHl Hl). assert (IHc := IHn (Xml ctag ct cl) ltac:(cbn [xml_size]; unfold list_sum in *; cbn in Hy; lia) _ _ _ eq_refl).
    cbn [flat_map]. rewrite first_name_app. cbn [condition_names]. rewrite first_name_app, <- IHc.
    cbn [visit] in IHl |- *. rewrite IHl. fold (visit (Xml ctag ct cl)).
    destruct (seqb ctag $"name").
    - destruct ct as [s|]; [|reflexivity]. destruct (seqb s $"defined"); [reflexivity|]. destruct s; reflexivity.
    - destruct (seqb ctag $"argument"); [|reflexivity]. destruct ct as [s|]; [|reflexivity].
      unfold first_name at 1. cbn [filter]. destruct (strip s); reflexivity. }
  intros. eapply G; eauto.
Qed.

(** *** Nothing is added *)
Lemma filter_from_sub acceptable ns : forall s, subsequence (filter_from acceptable s ns) ns.
Proof.
  induction ns as [|n ns IH]; intros s; [constructor|]. cbn [filter_from].
  destruct (shall_ignore _ n); [apply sub_skip|apply sub_keep]; auto.
Qed.
Lemma filter_content acceptable ns : Forall is_content ns -> filter_preprocessor_regions acceptable ns = ns.
Proof.
  unfold filter_preprocessor_regions. intros H.
  assert (G : forall s, last_ignored_preprocessor_stmt_line s = None -> encountered_if s = [] -> filter_from acceptable s ns = ns).
  { induction H as [|n ns Hn H IH]; intros s H1 H2; auto. cbn [filter_from].
    assert (E : last_ignored_preprocessor_stmt_line (process_tag acceptable s n) = None /\
                encountered_if (process_tag acceptable s n) = []).
    { unfold process_tag. destruct (n_end n); auto. destruct Hn as [-> | ->]; auto. }
    destruct E as (E1 & E2). rewrite IH by auto.
    unfold shall_ignore, content_is_excluded. rewrite E1, E2. destruct Hn as [-> | ->]; auto.
    destruct (n_start n); auto. }
  apply G; auto.
Qed.
