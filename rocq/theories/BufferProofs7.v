From Verif Require Import PyStr PyStrLemmas PyDict BufferModel BufferSpec NumberProofs2 CommentProofs3 TemplateProofs3 FillProofs.
(** Proofs about the letter of the type of the items. *)

Definition solid (t : str) : Prop := strip t = t.
Lemma solid_ends c m d : is_space c = false -> is_space d = false -> solid (c :: m ++ [d]).
Proof.
  intros C D. unfold solid, strip. change (lstrip (c :: m ++ [d])) with (if is_space c then lstrip (m ++ [d]) else c :: m ++ [d]). rewrite C.
  change (c :: m ++ [d]) with ((c :: m) ++ [d]). apply CommentProofs3.rstrip_solid_end. auto.
Qed.
Lemma solid_word m d x : hd_error (m ++ [d]) = Some x -> is_space x = false -> is_space d = false -> solid (m ++ [d]).
Proof.
  intros H X D. destruct m as [|m0 m]; cbn in H; injection H as ->; [|apply solid_ends; auto].
  unfold solid, strip. change (lstrip ([] ++ [x])) with (if is_space x then lstrip [] else [x]). rewrite X. apply (CommentProofs3.rstrip_solid_end []). auto.
Qed.
Lemma no_const g t : forallb is_space g = true -> contains $"const " t = false -> contains $"const " (g ++ t) = false.
Proof.
  intros G T. induction g as [|c g IH]; auto. cbn [forallb] in G. apply andb_prop in G. destruct G as [C G]. cbn [app]. rewrite contains_step; auto.
  change ($"const ") with ("c"%char :: $"onst "). cbn [startswith]. destruct (ceqb_spec "c" c) as [<-|]; [discriminate|reflexivity].
Qed.
Lemma item_facts t k kind size : In (t, k, kind, size) item_types ->
  (exists c, is_space c = false /\ hd_error t = Some c) /\ (exists m d, t = m ++ [d] /\ is_space d = false /\ d <> "*"%char) /\
  startswith $"const " t = false /\ contains $"const " t = false /\ option_map fst (find (fun lt => seqb (snd lt) t) array_types) = Some k.
Proof.
  intros I. unfold item_types in I. cbn [In] in I.
  repeat (destruct I as [I|I]; [injection I as <- <- <- <-; split; [eexists; split; [|reflexivity]; reflexivity|];
    split; [match goal with |- exists m d, ?t = _ /\ _ => exists (removelast t), (last t " "%char) end; split; [reflexivity|split; [reflexivity|discriminate]]|repeat split; reflexivity]|]).
  contradiction.
Qed.
Lemma strip_core a x c : forallb is_space a = true -> forallb is_space c = true -> strip (a ++ x ++ c) = strip x.
Proof. intros A C. rewrite strip_spaces_l by auto. apply strip_spaces_r. auto. Qed.
Lemma solid_more x y : (exists c, is_space c = false /\ hd_error x = Some c) -> (exists m d, y = m ++ [d] /\ is_space d = false) -> solid (x ++ y).
Proof.
  intros (c & C & X) (m & d & -> & D). destruct x as [|c' x]; [discriminate|]. cbn in X. injection X as ->. cbn [app]. rewrite app_assoc. apply solid_ends; auto.
Qed.
Lemma letter_pointer t : endswith $"*" t = false -> solid t -> array_letter t =
  option_map fst (find (fun lt => seqb (snd lt) (if startswith $"const " t then strip (replace $"const " [] t) else t)) array_types).
Proof. intros E S. unfold array_letter. rewrite S, E. reflexivity. Qed.
Lemma array_letter_is a cst t star c k kind size : In (t, k, kind, size) item_types ->
  forallb is_space a = true -> forallb is_space c = true ->
  (cst = [] \/ exists g, cst = $"const " ++ g /\ forallb is_space g = true) -> (star = [] \/ exists b, star = b ++ $"*" /\ forallb is_space b = true) ->
  array_letter (a ++ (cst ++ t ++ star) ++ c) = Some k.
Proof.
  intros I A C Cst Star. destruct (item_facts t k kind size I) as ((x & X & Hx) & (m & d & Ht & D & Dn) & St & Nc & F).
  assert (Hd : exists c, is_space c = false /\ hd_error (cst ++ t) = Some c).
  { destruct Cst as [->|(g & -> & G)]; [exists x; auto|]. exists "c"%char. auto. }
  assert (S1 : solid (cst ++ t)).
  { destruct Cst as [->|(g & -> & G)].
    - cbn [app]. rewrite Ht in *. apply (solid_word m d x); auto.
    - rewrite <- app_assoc. apply solid_more; [exists "c"%char; auto|]. exists (g ++ m), d. rewrite Ht, app_assoc. auto. }
  assert (E : array_letter (a ++ (cst ++ t ++ star) ++ c) = option_map fst (find (fun lt => seqb (snd lt)
     (if startswith $"const " (cst ++ t) then strip (replace $"const " [] (cst ++ t)) else cst ++ t)) array_types)).
  { unfold array_letter. rewrite strip_core by auto. destruct Star as [->|(b & -> & B)].
    - rewrite app_nil_r. unfold solid in S1. rewrite S1. replace (endswith $"*" (cst ++ t)) with false; [reflexivity|].
      rewrite Ht, app_assoc. symmetry. change ($"*") with ["*"%char]. rewrite endswith_last. destruct (ceqb_spec "*" d) as [Q|]; [subst; congruence|reflexivity].
    - replace (cst ++ t ++ b ++ $"*") with ((cst ++ t) ++ (b ++ $"*")) by (rewrite <- !app_assoc; reflexivity).
      assert (S2 : solid ((cst ++ t) ++ b ++ $"*")) by (apply solid_more; [auto|exists b, "*"%char; auto]). unfold solid in S2. rewrite S2.
      assert (E2 : endswith $"*" ((cst ++ t) ++ b ++ $"*") = true) by (rewrite app_assoc; apply endswith_app). rewrite E2.
      replace (firstn (length ((cst ++ t) ++ b ++ $"*") - 1) ((cst ++ t) ++ b ++ $"*")) with ((cst ++ t) ++ b).
      + rewrite strip_spaces_r by auto. unfold solid in S1. rewrite S1. reflexivity.
      + rewrite app_assoc. rewrite (app_length _ $"*"). cbn [length lit list_ascii_of_string]. replace (length ((cst ++ t) ++ b) + 1 - 1) with (length ((cst ++ t) ++ b)) by lia.
        rewrite firstn_app, Nat.sub_diag, firstn_all. cbn [firstn]. rewrite app_nil_r. reflexivity. }
  rewrite E. destruct Cst as [->|(g & -> & G)].
  - cbn [app]. rewrite St. exact F.
  - replace (startswith $"const " (($"const " ++ g) ++ t)) with true by reflexivity. rewrite <- app_assoc. rewrite replace_occ by discriminate.
    rewrite replace_no_occ by (apply no_const; auto). cbn [app]. rewrite strip_spaces_l by auto.
    replace (strip t) with t; [exact F|]. symmetry. rewrite Ht in *. apply (solid_word m d x); auto.
Qed.
