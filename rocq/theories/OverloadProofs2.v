(** Proofs for C23 and C24: deduplication of overloads and spacing. *)
From Verif Require Import PyStr PyStrLemmas OverloadModel OverloadSpec OverloadProofs.

Section Dedup.
Variable A : Type.
Variable overloaded : A -> bool.
Variable sig : A -> str.
Variable py_name : A -> str.
Variable text : A -> list str.
Notation survivors := (survivors A overloaded sig).
Notation dedup := (dedup_stub_lines A overloaded sig py_name text).

Lemma survivors_dedup l : forall earlier emitted,
  (forall s, In s emitted <-> exists e, In e earlier /\ overloaded e = true /\ sig e = s) ->
  dedup_of A overloaded sig earlier l (survivors emitted l).
Proof.
  induction l as [|e l IH]; intros earlier emitted H; cbn [OverloadModel.survivors]; [constructor|].
  destruct (overloaded e) eqn:Eo.
  - destruct (smem (sig e) emitted) eqn:Em.
    + apply smem_In in Em. apply H in Em as (e' & Hin & Ho & Hs).
      apply dd_drop with e'; auto. apply IH. intros s. rewrite H. split.
      * intros (x & Hx & Hox & Hsx). exists x. rewrite in_app_iff. auto.
      * intros (x & Hx & Hox & Hsx). apply in_app_iff in Hx as [Hx|[->|[]]]; [eauto|].
        exists e'. repeat split; auto. congruence.
    + apply dd_keep.
      * intros _ e' Hin Ho Hs. apply smem_false in Em. apply Em. apply H. eauto.
      * apply IH. intros s. split.
        { intros [<-|Hs]; [exists e; rewrite in_app_iff; cbn; auto|].
          apply H in Hs as (x & Hx & Hox & Hsx). exists x. rewrite in_app_iff. auto. }
        { intros (x & Hx & Hox & Hsx). apply in_app_iff in Hx as [Hx|[->|[]]]; [right|left; auto].
          apply H. eauto. }
  - apply dd_keep; [congruence|]. apply IH. intros s. rewrite H. split.
    + intros (x & Hx & Hox & Hsx). exists x. rewrite in_app_iff. auto.
    + intros (x & Hx & Hox & Hsx). apply in_app_iff in Hx as [Hx|[->|[]]]; [eauto|congruence].
Qed.

Lemma dedup_elements l : map fst (dedup l) = survivors [] l.
Proof.
  unfold dedup_stub_lines. rewrite map_map. cbn. apply map_id.
Qed.

Lemma dedup_spec l : dedup_of A overloaded sig [] l (map fst (dedup l)).
Proof.
  rewrite dedup_elements. apply survivors_dedup. intros s. split; [intros []|].
  intros (e & [] & _).
Qed.

(** From the specification alone: signatures are distinct, and a dropped overload has the
    signature of an emitted one that is earlier in the list. *)
Lemma dedup_of_nodup earlier l out : dedup_of A overloaded sig earlier l out ->
  NoDup (map sig (filter overloaded out)) /\
  (forall e e', In e earlier -> In e' out -> overloaded e = true -> overloaded e' = true -> sig e <> sig e').
Proof.
  induction 1 as [earlier|earlier e l out Hnew H [IH1 IH2]|earlier e e' l out Ho Hin Ho' Hs H [IH1 IH2]].
  - split; [constructor|]. intros e e' _ [].
  - split.
    + cbn [filter]. destruct (overloaded e) eqn:Eo; auto. cbn [map]. constructor; auto.
      intros Hin. apply in_map_iff in Hin as (x & Hx & Hin). apply filter_In in Hin as [Hin Hox].
      apply (IH2 e x); auto. rewrite in_app_iff. cbn; auto.
    + intros x y Hx [->|Hy] Hox Hoy; [apply (Hnew Hoy x Hx Hox)|].
      apply IH2; auto. rewrite in_app_iff. auto.
  - split; auto. intros x y Hx Hy. apply IH2; auto. rewrite in_app_iff; auto.
Qed.

Lemma survivors_cover l : forall emitted e, In e l ->
  In e (survivors emitted l) \/
  (overloaded e = true /\ (In (sig e) emitted \/
   exists a b c, l = a ++ e :: b /\ In c a /\ In c (survivors emitted l) /\ overloaded c = true /\ sig c = sig e)).
Proof.
  induction l as [|x l IH]; intros emitted e H; [destruct H|]. cbn [OverloadModel.survivors].
  destruct H as [->|H].
  - destruct (overloaded e) eqn:Eo; [|left; left; auto].
    destruct (smem (sig e) emitted) eqn:Em; [|left; left; auto].
    right. split; auto. left. apply smem_In. auto.
  - destruct (overloaded x) eqn:Eo.
    + destruct (smem (sig x) emitted) eqn:Em.
      * destruct (IH emitted e H) as [Hs|(Ho & [Hi|(a & b & c & -> & Hc & Hc' & Hoc & Hsc)])]; auto.
        right. split; auto. right. exists (x :: a), b, c. repeat split; auto. right; auto.
      * destruct (IH (sig x :: emitted) e H) as [Hs|(Ho & [[Hi|Hi]|(a & b & c & -> & Hc & Hc' & Hoc & Hsc)])];
          [left; right; auto| | auto |].
        { apply in_split in H as (a & b & ->).
          right. split; auto. right. exists (x :: a), b, x. repeat split; cbn; auto. }
        { right. split; auto. right. exists (x :: a), b, c. repeat split; cbn; auto. }
    + destruct (IH emitted e H) as [Hs|(Ho & [Hi|(a & b & c & -> & Hc & Hc' & Hoc & Hsc)])]; auto.
      { left; right; auto. }
      right. split; auto. right. exists (x :: a), b, c. repeat split; cbn; auto.
Qed.

Lemma dedup_cover l e : In e l -> ~ In e (map fst (dedup l)) ->
  overloaded e = true /\
  exists a b c, l = a ++ e :: b /\ In c a /\ In c (map fst (dedup l)) /\ overloaded c = true /\ sig c = sig e.
Proof.
  rewrite dedup_elements. intros H Hn. destruct (survivors_cover l [] e H) as [Hs|(Ho & [[]|Hx])]; [tauto|auto].
Qed.

Lemma forallb_blank ls : negb (forallb blank ls) = has_content ls.
Proof.
  unfold has_content. induction ls as [|l ls IH]; cbn; auto. rewrite <- IH. destruct (blank l); auto.
Qed.

Lemma filter_without ls : without_decorators ls (filter (fun l => negb (is_overload_line l)) ls).
Proof.
  induction ls as [|l ls IH]; cbn; [constructor|]. unfold is_overload_line at 1.
  destruct (seqb_spec (strip l) $"@overload"); cbn; [apply wd_drop|apply wd_keep]; auto.
Qed.

Lemma without_blank ls : has_content ls = false -> without_decorators ls ls.
Proof.
  induction ls as [|l ls IH]; cbn; [constructor|]. intros H. apply orb_false_iff in H as [H1 H2].
  apply wd_keep; auto. unfold decorator. intros E. apply negb_false_iff in H1.
  assert (Hs : strip l = []).
  { unfold blank in H1. destruct (strip l); [auto|discriminate]. }
  rewrite Hs in E. discriminate.
Qed.

Lemma dedup_lines l e out : In (e, out) (dedup l) ->
  let visible := visible_overloads A overloaded py_name text (map fst (dedup l)) (py_name e) in
  (overloaded e = false -> out = text e) /\
  (overloaded e = true -> 2 <= length visible -> out = text e) /\
  (overloaded e = true -> length visible < 2 -> without_decorators (text e) out).
Proof.
  rewrite dedup_elements. unfold dedup_stub_lines. cbn zeta. intros H.
  apply in_map_iff in H as (x & E & Hx). inversion E. subst x. clear E. rename H1 into Hout.
  assert (Hc : length (visible_overloads A overloaded py_name text (survivors [] l) (py_name e)) =
          overload_count A overloaded py_name text (survivors [] l) (py_name e)).
  { unfold visible_overloads, overload_count. f_equal. apply filter_ext. intros y. rewrite forallb_blank.
    destruct (overloaded y), (has_content (text y)), (seqb (py_name y) (py_name e)); auto. }
  rewrite Hc. unfold singleton. set (c := overload_count _ _ _ _ _ _) in *.
  destruct (overloaded e) eqn:Eo; cbn [andb]; repeat split; try discriminate; auto.
  - intros _ Hl. destruct (Nat.leb_spec c 1); [lia|]. rewrite andb_false_r. auto.
  - intros _ Hl. destruct (Nat.leb_spec c 1); [|lia]. rewrite andb_true_r.
    destruct (Nat.ltb_spec 0 c).
    + apply filter_without.
    + apply without_blank. destruct (has_content (text e)) eqn:Eh; auto. exfalso.
      assert (Hin : In e (filter (fun e0 => overloaded e0 && has_content (text e0)
                 && seqb (py_name e0) (py_name e)) (survivors [] l))).
      { apply filter_In. rewrite Eo, Eh, seqb_refl. auto. }
      unfold c, overload_count in *. apply in_split in Hin as (u & v & Ev).
      rewrite Ev, app_length in H0. cbn in H0. lia.
Qed.
End Dedup.

(** *** Spacing *)

Definition spacer_ok (gap : ekind -> ekind -> nat)
    (sp : option ekind -> ekind -> list str -> list str * option ekind) : Prop :=
  forall last k ls, sp last k ls =
    match ls with
    | [] => ([], last)
    | _ => (match last with None => [] | Some p => repeat [] (gap p k) end, Some k)
    end.

Lemma spacing_cpp_ok : spacer_ok gap_cpp spacing_cpp.
Proof.
  intros last k [|l ls]; auto. destruct last as [p|]; auto. cbn. destruct p, k; reflexivity.
Qed.

Lemma spacing_python_ok : spacer_ok gap_python (spacing_python false).
Proof.
  intros last k [|l ls]; auto. destruct last as [p|]; auto. cbn. destruct p, k; reflexivity.
Qed.

Fixpoint gaps_of (gap : ekind -> ekind -> nat) (last : option ekind) (els : list (ekind * list str)) : list nat :=
  match els with
  | [] => []
  | (k, []) :: els' => 0 :: gaps_of gap last els'
  | (k, _) :: els' => match last with None => 0 | Some p => gap p k end :: gaps_of gap (Some k) els'
  end.

Lemma lines_with_gaps gap sp els : spacer_ok gap sp -> forall last,
  lines_with sp last els = with_gaps (gaps_of gap last els) els.
Proof.
  intros H. induction els as [|[k [|l ls]] els IH]; intros last; auto; cbn [lines_with gaps_of with_gaps]; rewrite H.
  - cbn. apply IH.
  - rewrite IH. destruct last; auto.
Qed.

Lemma gaps_of_length gap els : forall last, length (gaps_of gap last els) = length els.
Proof.
  induction els as [|[k [|l ls]] els IH]; intros last; cbn; auto.
Qed.

Lemma gaps_of_empties gap a : Forall (fun x : ekind * list str => snd x = []) a -> forall last b,
  gaps_of gap last (a ++ b) = repeat 0 (length a) ++ gaps_of gap last b.
Proof.
  induction 1 as [|[k ls] a Hx H IH]; intros last b; auto. cbn in Hx. subst ls. cbn. f_equal. apply IH.
Qed.

Lemma gaps_of_split gap a p lp b : lp <> [] -> forall last,
  exists g, gaps_of gap last (a ++ (p, lp) :: b) = g ++ gaps_of gap (Some p) b /\ length g = S (length a).
Proof.
  intros Hp. induction a as [|[k [|l ls]] a IH]; intros last; cbn [app].
  - destruct lp as [|l lp]; [congruence|]. cbn [gaps_of]. eexists [_]. cbn. split; auto.
  - destruct (IH last) as (g & E & L). exists (0 :: g). cbn. rewrite E, L. auto.
  - destruct (IH (Some k)) as (g & E & L). eexists (_ :: g). cbn. rewrite E, L. auto.
Qed.

Lemma gaps_of_good gap els : (forall p k, gap p k <= 2) -> good_gaps (gaps_of gap None els) els.
Proof.
  intros Hg. constructor.
  - apply gaps_of_length.
  - generalize (@None ekind). induction els as [|[k [|l ls]] els IH]; intros last; cbn; auto.
    constructor; auto. destruct last; auto.
  - generalize (@None ekind). induction els as [|[k [|l ls]] els IH]; intros last; cbn; auto.
    constructor; auto. cbn. discriminate.
  - intros a b e -> Ha. rewrite gaps_of_empties by auto.
    rewrite nth_error_app2 by (rewrite repeat_length; auto). rewrite repeat_length, Nat.sub_diag.
    destruct e as [k [|l ls]]; auto.
Qed.

Lemma gaps_of_follow gap els : gaps_follow gap (gaps_of gap None els) els.
Proof.
  intros a p lp mid k lk b -> Hp Hk Hm.
  destruct (gaps_of_split gap a p lp (mid ++ (k, lk) :: b) Hp None) as (g & E & L).
  rewrite E, gaps_of_empties by auto. rewrite !app_length. cbn [length].
  rewrite nth_error_app2 by lia. rewrite nth_error_app2; rewrite repeat_length; [|lia].
  replace (length a + S (length mid) - length g - length mid) with 0 by lia.
  destruct lk; [congruence|]. auto.
Qed.

Lemma gap_cpp_small p k : gap_cpp p k <= 2.
Proof. destruct p, k; cbn; lia. Qed.
Lemma gap_python_small p k : gap_python p k <= 2.
Proof. destruct p, k; cbn; lia. Qed.

Lemma spacing_spec gap sp els : spacer_ok gap sp -> (forall p k, gap p k <= 2) ->
  exists gaps, lines_with sp None els = with_gaps gaps els /\ good_gaps gaps els /\ gaps_follow gap gaps els.
Proof.
  intros H Hg. exists (gaps_of gap None els).
  split; [apply lines_with_gaps; auto|]. split; [apply gaps_of_good; auto|apply gaps_of_follow].
Qed.

Lemma spacing_layout els : forall last, lines_with (spacing_python true) last els = flat_map snd els.
Proof.
  induction els as [|[k ls] els IH]; intros last; auto. cbn. rewrite IH. auto.
Qed.
