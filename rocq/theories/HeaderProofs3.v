(** Termination of amalgamation, and what it yields. *)
From Verif Require Import PyStr PyStrLemmas HeaderModel HeaderSpec HeaderProofs2.
From Verif Require NumberProofs2.

Section Ends.
Variable files : str -> option (list str).
Variable o : options.
Notation local_line := (is_local_include_line o).
Notation loc_name := extract_local_include_file.
Notation res := (resolve files o).

Lemma resolve_file n p : res n = Some p -> files p <> None.
Proof.
  unfold resolve. set (full := if isabs n then n else _). unfold isfile. destruct (files full) eqn:E; [|discriminate].
  intros H. inversion H; subst. congruence.
Qed.

Definition unvisited (P loc : list str) : nat := length (filter (fun p => negb (smem p loc)) P).
Lemma unvisited_le P loc : unvisited P loc <= length P.
Proof. unfold unvisited. induction P as [|p P IH]; auto. cbn [filter]. destruct (negb _); cbn [length]; lia. Qed.
Lemma unvisited_incl P a b : incl a b -> unvisited P b <= unvisited P a.
Proof.
  intros H. unfold unvisited. induction P as [|p P IH]; auto. cbn [filter].
  destruct (smem p a) eqn:Ea; cbn [negb].
  - assert (smem p b = true) as -> by (apply smem_In, H, smem_In; auto). auto.
  - destruct (smem p b); cbn [negb length]; lia.
Qed.
Lemma unvisited_new P loc p : In p P -> ~ In p loc -> unvisited P (loc ++ [p]) < unvisited P loc.
Proof.
  intros HP Hn. induction P as [|x P IH]; [destruct HP|]. unfold unvisited in *. cbn [filter].
  assert (E : smem x (loc ++ [p]) = smem x loc || seqb x p).
  { unfold smem. rewrite existsb_app. cbn. rewrite orb_false_r. auto. }
  rewrite E. pose proof (unvisited_incl P loc (loc ++ [p]) (incl_appl _ (incl_refl _))) as L. unfold unvisited in L.
  destruct HP as [->|HP].
  - rewrite seqb_refl, orb_true_r. apply smem_false in Hn. rewrite Hn. cbn [negb length]. lia.
  - specialize (IH HP). destruct (smem x loc), (seqb x p); cbn [negb orb length]; lia.
Qed.

Section Names.
(** A set of names closed under inclusion, and the files they name. *)
Variable N : str -> Prop.
Variable P : list str.
Hypothesis N_closed : forall n p ls l,
  N n -> res n = Some p -> files p = Some ls -> In l ls -> local_line l = true -> N (loc_name l).
Hypothesis N_in : forall n p, N n -> res n = Some p -> In p P.

Definition fine (r : outcome) : Prop :=
  r <> OutOfFuel /\ ((forall n, N n -> res n <> None) -> r <> FileNotFoundError).

Lemma lines_fine rec path rel k :
  (forall n inc loc ext, N n -> unvisited P loc < k -> fine (rec n inc loc ext)) ->
  (forall n inc loc ext ps loc' ext', rec n inc loc ext = Done ps loc' ext' -> incl loc loc') ->
  forall ls i b loc ext, (forall l, In l ls -> local_line l = true -> N (loc_name l)) -> unvisited P loc < k ->
  fine (amalgamate_lines o rec path rel i ls b loc ext).
Proof.
  intros Hrec Hinc. induction ls as [|l ls IH]; intros i b loc ext Hls Hk.
  - cbn. split; discriminate.
  - cbn [amalgamate_lines].
    assert (Hls' : forall x, In x ls -> local_line x = true -> N (loc_name x)) by (intros; apply Hls; auto; right; auto).
    assert (G : forall b loc ext (f : list piece -> list piece), unvisited P loc < k ->
      fine match amalgamate_lines o rec path rel (S i) ls b loc ext with
           | Done ps loc ext => Done (f ps) loc ext | e => e end).
    { intros b0 loc0 ext0 f H0. specialize (IH (S i) b0 loc0 ext0 Hls' H0).
      destruct (amalgamate_lines o rec path rel (S i) ls b0 loc0 ext0); auto. split; discriminate. }
    destruct (is_external_include_line o l).
    + destruct (smem _ ext); apply (G _ _ _ (fun ps => _ ++ _ ++ ps)); auto.
    + destruct (local_line l) eqn:Hl.
      * pose proof (Hrec (loc_name l) rel loc ext (Hls l (or_introl eq_refl) Hl) Hk) as HF.
        destruct (rec (loc_name l) rel loc ext) as [ps1 loc1 ext1| |] eqn:E; auto.
        apply (G _ _ _ (fun ps => _ ++ _ ++ ps)). apply Hinc in E. apply (unvisited_incl P) in E. lia.
      * destruct (contains _ l); apply (G _ _ _ (fun ps => _ ++ _ ++ ps)); auto.
Qed.
Lemma file_fine fuel : forall n inc loc ext, N n -> unvisited P loc < fuel ->
  fine (amalgamate_one_file files o fuel n inc loc ext).
Proof.
  induction fuel as [|fuel IH]; intros n inc loc ext Hn Hk; [lia|]. cbn [amalgamate_one_file].
  destruct (res n) as [p|] eqn:Hr.
  - destruct (smem p loc) eqn:Hm; [split; discriminate|].
    destruct (files p) as [ls|] eqn:Hf; [|destruct (resolve_file _ _ Hr Hf)].
    apply smem_false in Hm.
    assert (F : fine (amalgamate_lines o (amalgamate_one_file files o fuel) p (relative_name o n) 0 ls false (loc ++ [p]) ext)).
    { apply (lines_fine _ _ _ fuel).
      - intros; apply IH; auto.
      - intros n0 inc0 loc0 ext0 ps loc' ext' E. apply file_run in E. eapply run1_loc; eauto.
      - intros l Hl Hloc. eapply N_closed; eauto.
      - pose proof (unvisited_new P loc p (N_in _ _ Hn Hr) Hm). lia. }
    destruct (amalgamate_lines o _ p _ 0 ls false (loc ++ [p]) ext); auto.
    destruct (forallb blank _); split; discriminate.
  - split; [discriminate|]. intros H. destruct (H n Hn Hr).
Qed.
End Names.

Definition named (main n : str) : Prop :=
  n = main \/ exists q ls l, reached files o main q /\ files q = Some ls /\ In l ls /\ local_line l = true /\ n = loc_name l.
Lemma named_reached main n p : named main n -> res n = Some p -> reached files o main p.
Proof.
  intros [->|(q & ls & l & Hq & Hf & Hl & Hloc & ->)] Hp; [apply reached_main; auto|eapply reached_next; eauto].
Qed.
Lemma files_fine main : finitely_many_contents files -> exists fuel0, forall fuel, fuel0 <= fuel ->
  fine (named main) (amalgamate_one_file files o fuel main [] [] []).
Proof.
  intros (cs & Hcs).
  set (names := main :: flat_map (map loc_name) cs).
  set (P := flat_map (fun n => match res n with Some p => [p] | None => [] end) names).
  exists (S (length P)). intros fuel Hf. eapply (file_fine (named main) P).
  - intros n p ls l Hn Hp Hfl Hl Hloc. right. exists p, ls, l. repeat split; auto. eapply named_reached; eauto.
  - intros n p Hn Hp. unfold P. apply in_flat_map. exists n. rewrite Hp. split; [|left; auto].
    destruct Hn as [->|(q & ls & l & Hq & Hfq & Hl & Hloc & ->)]; [left; auto|]. right.
    apply in_flat_map. exists ls. split; eauto. apply in_map; auto.
  - left; auto.
  - pose proof (unvisited_le P []). lia.
Qed.
End Ends.

Section Results.
Variable files : str -> option (list str).
Variable o : options.
Notation main := (main_header_file o).

Lemma amalgamation_one fuel r : amalgamation files o fuel = Some r -> amalgamate_one_file files o fuel main [] [] [] = r.
Proof.
  unfold amalgamation. destruct (local_includes_startwith o); [destruct (only_quoted_includes_are_local o)|];
    intros H; inversion H; auto.
Qed.

Lemma amalgamation_ends : finitely_many_contents files ->
  exists fuel0, forall fuel, fuel0 <= fuel -> amalgamation files o fuel <> Some OutOfFuel.
Proof.
  intros H. destruct (files_fine files o main H) as (f & Hf). exists f. intros fuel Hfuel E.
  apply amalgamation_one in E. destruct (Hf fuel Hfuel) as (C & _). auto.
Qed.
Lemma amalgamation_succeeds : finitely_many_contents files ->
  local_includes_startwith o <> [] \/ only_quoted_includes_are_local o = true ->
  resolve files o main <> None -> includes_found files o main ->
  exists fuel0, forall fuel, fuel0 <= fuel -> exists ps loc ext, amalgamation files o fuel = Some (Done ps loc ext).
Proof.
  intros H Ho Hm Hi. destruct (files_fine files o main H) as (f & Hf). exists f. intros fuel Hfuel.
  destruct (Hf fuel Hfuel) as (C1 & C2).
  assert (C3 : forall n, named files o main n -> resolve files o n <> None).
  { intros n [->|(q & ls & l & Hq & Hfq & Hl & Hloc & ->)]; auto. eapply Hi; eauto. }
  specialize (C2 C3).
  assert (E : amalgamation files o fuel = Some (amalgamate_one_file files o fuel main [] [] [])).
  { unfold amalgamation. destruct (local_includes_startwith o); auto.
    destruct Ho as [Ho|Ho]; [destruct Ho; auto|rewrite Ho; auto]. }
  rewrite E. destruct (amalgamate_one_file files o fuel main [] [] []); eauto; congruence.
Qed.

Lemma local_reached fuel ps loc ext : amalgamation files o fuel = Some (Done ps loc ext) ->
  forall q, In q loc <-> reached files o main q.
Proof.
  intros E q. apply amalgamation_one, file_run in E. split.
  - intros Hq. destruct (proj1 (run_reached files o) _ _ _ _ _ _ E q Hq) as [[]|(p & Hp & Hr)].
    eapply reached_reaches; eauto.
  - induction 1 as [p Hp|q ls l p Hq IH Hf Hl Hloc Hr].
    + apply (proj1 (run_grows files o)) in E. destruct E as (_ & _ & p' & Hp' & Hin). congruence.
    + destruct (proj1 (run_settled files o) _ _ _ _ _ _ E q IH) as [[]|(ls' & Hf' & H)].
      assert (ls' = ls) by congruence. subst. destruct (proj2 (H l Hl) Hloc) as (p' & Hp' & Hin). congruence.
Qed.
Lemma amalgamation_lines fuel ps loc ext : amalgamation files o fuel = Some (Done ps loc ext) ->
  forall q, (reached files o main q -> exists ls, files q = Some ls /\ plain_of o q ps = plain_lines o q 0 ls) /\
    (~ reached files o main q -> plain_of o q ps = []).
Proof.
  intros E q. pose proof (local_reached _ _ _ _ E q) as R. apply amalgamation_one, file_run in E.
  pose proof (proj1 (run_plain files o) _ _ _ _ _ _ E (NoDup_nil _) q) as Pl. cbn [smem existsb] in Pl.
  split; intros H.
  - apply R in H. assert (M : smem q loc = true) by (apply smem_In; auto). rewrite M in Pl.
    destruct (proj1 (run_settled files o) _ _ _ _ _ _ E q H) as [[]|(ls & Hf & _)].
    exists ls. split; auto. unfold file_lines in Pl. rewrite Hf in Pl. auto.
  - assert (M : smem q loc = false) by (apply smem_false; tauto). rewrite M in Pl. auto.
Qed.
Lemma amalgamation_externals fuel ps loc ext : amalgamation files o fuel = Some (Done ps loc ext) ->
  NoDup (externals o ps) /\
  forall x, In x (externals o ps) <-> exists q ls l, reached files o main q /\ files q = Some ls /\ In l ls /\
    external o l = true /\ extract_external_include_file l = x.
Proof.
  intros E. pose proof (local_reached _ _ _ _ E) as R. apply amalgamation_one, file_run in E.
  pose proof (proj1 (run_externals files o) _ _ _ _ _ _ E) as X. cbn in X. subst ext.
  split.
  - apply (proj1 (run_grows files o)) in E. destruct E as (_ & (nw & _ & H) & _). apply H. constructor.
  - intros x. split.
    + intros Hx. unfold externals in Hx. apply in_flat_map in Hx. destruct Hx as ([s|q i l] & Hp & Hx); [destruct Hx|].
      destruct (external o l) eqn:He; [|destruct Hx]. destruct Hx as [<-|[]].
      destruct (proj1 (run_codes files o) _ _ _ _ _ _ E q i l Hp) as (Hq & Hn & _).
      pose proof Hq as Hq'. apply R in Hq'. 
      destruct (proj1 (run_settled files o) _ _ _ _ _ _ E q Hq) as [[]|(ls & Hf & _)].
      exists q, ls, l. repeat split; auto. unfold file_lines in Hn. rewrite Hf in Hn. eapply nth_error_In; eauto.
    + intros (q & ls & l & Hq & Hf & Hl & He & <-). apply R in Hq.
      destruct (proj1 (run_settled files o) _ _ _ _ _ _ E q Hq) as [[]|(ls' & Hf' & H)].
      assert (ls' = ls) by congruence. subst. apply (H l Hl). auto.
Qed.
Lemma amalgamation_codes fuel ps loc ext : amalgamation files o fuel = Some (Done ps loc ext) ->
  forall q i l, In (Code q i l) ps -> reached files o main q /\
    (exists ls, files q = Some ls /\ nth_error ls i = Some l) /\ (plain o l = true \/ external o l = true).
Proof.
  intros E q i l H. pose proof (local_reached _ _ _ _ E) as R. apply amalgamation_one, file_run in E.
  destruct (proj1 (run_codes files o) _ _ _ _ _ _ E q i l H) as (Hq & Hn & Hk).
  pose proof Hq as Hq'. apply R in Hq'. split; auto. split; auto.
  destruct (proj1 (run_settled files o) _ _ _ _ _ _ E q Hq) as [[]|(ls & Hf & _)].
  exists ls. split; auto. unfold file_lines in Hn. rewrite Hf in Hn. auto.
Qed.
Lemma amalgamation_intact fuel ps loc ext : readable files -> amalgamation files o fuel = Some (Done ps loc ext) ->
  forall a q i l b, ps = a ++ Code q i l :: b -> blank l = false -> terminated (text a).
Proof.
  intros R E a q i l b Hp Hb. apply amalgamation_one, file_run in E.
  pose proof (proj1 (runs_intact files o R) _ _ _ _ _ _ E a q i l b Hp Hb) as H. destruct a; [destruct H|exact H].
Qed.
End Results.

(** *** Reading include lines *)

Lemma startswith_prefix p q s : startswith (p ++ q) s = true -> startswith p s = true.
Proof. rewrite !startswith_true. intros (r & ->). exists (q ++ r). rewrite app_assoc. auto. Qed.
Lemma no_char_no_occ c sub s : In c sub -> ~ In c s -> contains sub s = false.
Proof.
  intros Hc Hs. apply contains_false. intros a b ->. apply Hs. apply in_or_app; right. apply in_or_app; left. auto.
Qed.
Lemma include_line_read o a b name rest :
  forallb is_space a = true -> forallb is_space b = true ->
  name = local_includes_startwith o ++ rest ->
  ~ In dq name -> ~ In "#"%char name -> ~ In "<"%char name -> ~ In ">"%char name ->
  is_local_include_line o (a ++ $"#include " ++ [dq] ++ name ++ [dq] ++ b) = true /\
  extract_local_include_file (a ++ $"#include " ++ [dq] ++ name ++ [dq] ++ b) = name.
Proof.
  intros Ha Hb Hn H1 H2 H3 H4.
  assert (S : strip (a ++ $"#include " ++ [dq] ++ name ++ [dq] ++ b) = $"#include " ++ [dq] ++ name ++ [dq]).
  { rewrite NumberProofs2.strip_spaces_l by auto.
    replace ($"#include " ++ [dq] ++ name ++ [dq] ++ b) with (($"#include " ++ [dq] ++ name ++ [dq]) ++ b)
      by (rewrite <- !app_assoc; auto).
    rewrite NumberProofs2.strip_spaces_r by auto.
    change ($"#include " ++ [dq] ++ name ++ [dq]) with ("#"%char :: ($"include " ++ [dq] ++ name ++ [dq])).
    replace ($"include " ++ [dq] ++ name ++ [dq]) with (($"include " ++ [dq] ++ name) ++ [dq]) by (rewrite <- !app_assoc; auto).
    apply NumberProofs2.strip_ends; auto. }
  split.
  - unfold is_local_include_line. rewrite S. apply orb_true_iff. left. apply startswith_true.
    exists (rest ++ [dq]). rewrite Hn. cbn [app]. rewrite <- !app_assoc. auto.
  - unfold extract_local_include_file. rewrite S.
    replace ($"#include " ++ [dq] ++ name ++ [dq]) with (($"#include " ++ [dq]) ++ name ++ [dq]) by (rewrite <- app_assoc; auto).
    rewrite replace_occ by discriminate. cbn [app].
    rewrite (replace_no_occ ($"#include " ++ [dq])).
    2:{ apply (no_char_no_occ "#"%char); [left; auto|]. rewrite in_app_iff. intros [C|[C|[]]]; [auto|discriminate]. }
    rewrite (replace_no_occ $"#include <").
    2:{ apply (no_char_no_occ "#"%char); [left; auto|]. rewrite in_app_iff. intros [C|[C|[]]]; [auto|discriminate]. }
    assert (D : replace [dq] [] (name ++ [dq]) = name).
    { clear - H1. induction name as [|c name IH]; [reflexivity|]. cbn [app]. rewrite replace_cons.
      - rewrite IH; auto. intros C. apply H1. right; auto.
      - destruct (startswith [dq] (c :: name ++ [dq])) eqn:E; auto. apply startswith_true in E. destruct E as (r & E).
        inversion E; subst. destruct H1. left; auto. }
    rewrite D. apply replace_no_occ. apply (no_char_no_occ ">"%char); [left; auto|auto].
Qed.
Lemma external_line_read o a b name :
  forallb is_space a = true -> forallb is_space b = true ->
  (forall c, In c name -> c <> "#"%char) -> name <> [] -> is_space (last name "x"%char) = false ->
  is_local_include_line o ($"#include " ++ name) = false ->
  is_external_include_line o (a ++ $"#include " ++ name ++ b) = true /\
  extract_external_include_file (a ++ $"#include " ++ name ++ b) = name.
Proof.
  intros Ha Hb Hc Hne Hl Hloc.
  assert (S : strip (a ++ $"#include " ++ name ++ b) = $"#include " ++ name).
  { rewrite NumberProofs2.strip_spaces_l by auto.
    replace ($"#include " ++ name ++ b) with (($"#include " ++ name) ++ b) by (rewrite <- app_assoc; auto).
    rewrite NumberProofs2.strip_spaces_r by auto.
    destruct (exists_last Hne) as (x & y & ->). rewrite last_last in Hl.
    change ($"#include " ++ x ++ [y]) with ("#"%char :: ($"include " ++ x ++ [y])). rewrite app_assoc.
    apply NumberProofs2.strip_ends; auto. }
  split.
  - unfold is_external_include_line. rewrite S, startswith_app, Hloc. auto.
  - unfold extract_external_include_file. rewrite S, replace_occ by discriminate. cbn [app].
    rewrite (replace_no_occ $"#include ").
    2:{ apply (no_char_no_occ "#"%char); [left; auto|]. intros C. apply (Hc _ C). auto. }
    clear - Hc. induction name as [|c name IH]; auto. cbn [takewhile].
    assert (E : ceqb c "#" = false) by (apply ceqb_false; apply Hc; left; auto). rewrite E. cbn [negb].
    rewrite IH; auto. intros d Hd. apply Hc. right; auto.
Qed.
