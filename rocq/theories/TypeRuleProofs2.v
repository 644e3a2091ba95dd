From Verif Require Import PyStr PyDict PyStrLemmas InstanceModel InstanceSpec InstanceProofs LiteralModel LiteralProofs LiteralProofs2 NumberProofs2 TemplateModel TemplateSpec TemplateProofs TypeRuleModel TypeRuleSpec TypeRuleProofs.
(** Types of any depth. *)

Definition clean_char (c : ascii) : Prop := is_space c = false /\ c <> "&"%char /\ c <> "*"%char /\ c <> "<"%char /\ c <> ">"%char.
Definition clean (s : str) : Prop := s <> [] /\ free s /\ Forall clean_char s.
Lemma clean_marks s : Forall clean_char s -> no_marks s.
Proof. intros F. rewrite Forall_forall in F. split; intros X; apply F in X; destruct X as (_ & A & B & _); congruence. Qed.
Lemma word_clean c : is_word c = true -> clean_char c.
Proof. intros W. split; [revert W; destruct c as [[] [] [] [] [] [] [] []]; vm_compute; intros; congruence|]. repeat split; intros ->; discriminate W. Qed.
Lemma words_clean w : Forall (fun c => is_word c = true) w -> Forall clean_char w. Proof. apply Forall_impl. apply word_clean. Qed.
Ltac clean_chars := repeat (constructor; [split; [reflexivity|repeat split; discriminate]|]); try constructor.
Lemma strip_clean s : Forall clean_char s -> strip s = s.
Proof.
  intros F. destruct s as [|c s]; [reflexivity|]. destruct s as [|d s] using rev_ind; [inversion F as [|? ? (C & _) _]; subst; unfold strip, lstrip, rstrip; cbn; rewrite C; cbn; rewrite C; reflexivity|].
  clear IHs. inversion F as [|? ? (C & _) F2]; subst. apply Forall_app in F2. destruct F2 as (_ & F2). inversion F2 as [|? ? (D & _) _]; subst. apply strip_ends; auto.
Qed.
Lemma path_text p : user_path p -> exists w r, join $"::" p = w ++ r /\ name_of w /\ startswith $"cha" w = false /\ is_word_at r = false.
Proof.
  intros (N & F). destruct p as [|w p]; [congruence|]. inversion F as [|? ? (W1 & W2 & _ & W3) _]; subst. exists w. destruct p as [|w' p]; [exists []; cbn [join]; rewrite app_nil_r|exists ($"::" ++ join $"::" (w' :: p))]; repeat split; auto.
Qed.
Lemma path_clean p : user_path p -> clean (join $"::" p).
Proof.
  intros (N & F). induction F as [|w p (W1 & W2 & W3 & _) F IH]; [congruence|]. assert (FW : free w) by (apply free_name; [split; auto|exact W3]). destruct p as [|w' p]; [split; [exact W1|split; [exact FW|apply words_clean; exact W2]]|].
  destruct IH as (A & B & C); [discriminate|]. change (join $"::" (w :: w' :: p)) with (w ++ $"::" ++ join $"::" (w' :: p)). split; [destruct w; [congruence|discriminate]|]. split.
  - apply free_app; [reflexivity|exact FW|]. change ($"::") with (":"%char :: [":"%char]). cbn [app]. do 2 (apply free_sep; [reflexivity|]). exact B.
  - apply Forall_app. split; [apply words_clean; exact W2|]. apply Forall_app. split; [clean_chars|exact C].
Qed.

(** ** Names *)

Lemma mark_app c x m : ~ In c x -> replace [c] [] (x ++ m) = x ++ replace [c] [] m.
Proof. intros N. rewrite !replace_single_char, flat_map_app. f_equal. induction x as [|d x IH]; [reflexivity|]. cbn [flat_map]. destruct (ceqb_spec d c) as [->|]; [exfalso; apply N; left; reflexivity|]. cbn [app]. f_equal. apply IH. intros X. apply N. right. exact X. Qed.
Definition before_const : list trule := removelast (removelast (removelast (removelast type_rules))).
Lemma rules_const : type_rules = before_const ++ [Word $"const" []; Word $"mutable" []; Mark "&"; Mark "*"]. Proof. reflexivity. Qed.
Definition not_mark (r : trule) : bool := match r with Mark _ => false | _ => true end.
Lemma rule_idle_marks r s : rule_free r -> not_mark r = true -> free s -> apply_type_rule r s = s.
Proof. intros (O & H) NM F. apply rule_absent; [exact O|]. destruct r; try discriminate NM; destruct H as (N & [H|H]); split; auto; right; apply F; exact H. Qed.
Lemma before_free : Forall (fun r => rule_free r /\ not_mark r = true) before_const.
Proof. assert (A : Forall rule_free before_const) by (pose proof rules_free as R; rewrite rules_const in R; apply Forall_app in R; apply R). rewrite Forall_forall in *. intros r R. split; [apply A; exact R|]. assert (B : forallb not_mark before_const = true) by reflexivity. rewrite forallb_forall in B. apply B. exact R. Qed.
Lemma mark_text m : In m marks_after -> free m /\ is_word_at m = false /\ (replace $"*" [] (replace $"&" [] m) = [] \/ replace $"*" [] (replace $"&" [] m) = $" ").
Proof. intros M. unfold marks_after in M. cbn in M. repeat (destruct M as [<-|M]; [split; [repeat (apply free_sep; [reflexivity|]); apply free_nil|]; split; [reflexivity|]; first [left; reflexivity|right; reflexivity]|]). destruct M. Qed.
Lemma marks_end x m : clean x -> In m marks_after -> exists m', (m' = [] \/ m' = $" ") /\ replace $"*" [] (replace $"&" [] (x ++ m)) = x ++ m' /\ (m = [] -> m' = []).
Proof.
  intros (_ & _ & C) M. destruct (clean_marks x C) as (A & B). destruct (mark_text m M) as (_ & _ & R). exists (replace $"*" [] (replace $"&" [] m)). split; [exact R|]. split; [|intros ->; reflexivity].
  change ($"&") with ["&"%char]. change ($"*") with ["*"%char]. rewrite mark_app by exact A. apply mark_app. exact B.
Qed.
Lemma free_clean_sp x sp1 sp2 : clean x -> sp1 = [] \/ sp1 = $" " -> sp2 = [] \/ sp2 = $" " -> free (sp1 ++ x ++ sp2) /\ no_marks (sp1 ++ x ++ sp2).
Proof.
  intros (_ & F & C) S1 S2. assert (F2 : free (x ++ sp2)) by (apply free_app; [destruct S2 as [-> | ->]; reflexivity|exact F|destruct S2 as [-> | ->]; [apply free_nil|apply free_sep; [reflexivity|apply free_nil]]]). split.
  - destruct S1 as [-> | ->]; [exact F2|]. apply free_sep; [reflexivity|exact F2].
  - destruct (clean_marks x C) as (A & B). split; rewrite !in_app_iff; intros [X|[X|X]]; auto; [destruct S1 as [-> | ->]|destruct S2 as [-> | ->]|destruct S1 as [-> | ->]|destruct S2 as [-> | ->]]; cbn in X; intuition discriminate.
Qed.
Lemma name_types q x m : clean x -> (exists w r, x = w ++ r /\ name_of w /\ startswith $"cha" w = false /\ is_word_at r = false) -> In q constants_before -> In m marks_after ->
  exists sp1 sp2, (sp1 = [] \/ sp1 = $" ") /\ (sp2 = [] \/ sp2 = $" ") /\ (m = [] -> sp2 = []) /\ (q = [] -> sp1 = []) /\ standard_types (q ++ x ++ m) = sp1 ++ x ++ sp2.
Proof.
  intros C HEAD Q M. destruct (mark_text m M) as (FM & WM & _). pose proof C as (_ & F & _). assert (FX : free (x ++ m)) by (apply free_app; auto). destruct (marks_end x m C M) as (sp2 & S2 & R & Z).
  destruct Q as [<-|[<-|[]]].
  - exists [], sp2. repeat split; auto. cbn [app]. destruct (free_clean_sp x [] sp2 C (or_introl eq_refl) S2) as (A & B). apply standard_of; auto. unfold types_once. rewrite rules_const, fold_left_app.
    assert (I : fold_left (fun s r => apply_type_rule r s) before_const (x ++ m) = x ++ m) by (pose proof before_free as BF; induction BF as [|r rs (R1 & R2) RS IH]; [reflexivity|]; cbn [fold_left]; rewrite rule_idle_marks by auto; exact IH).
    rewrite I. pose proof rules_free as RF. rewrite rules_const in RF. apply Forall_app in RF. destruct RF as (_ & RF). pose proof (Forall_inv RF) as RC. pose proof (Forall_inv (Forall_inv_tail RF)) as RM.
    cbn [fold_left]. rewrite (rule_idle_marks (Word $"const" []) (x ++ m) RC eq_refl FX), (rule_idle_marks (Word $"mutable" []) (x ++ m) RM eq_refl FX). exact R.
  - exists $" ", sp2. repeat split; auto; [discriminate|]. destruct (free_clean_sp x $" " sp2 C (or_intror eq_refl) S2) as (A & B). apply standard_of; auto. set (y := x ++ m) in *. change ($"const " ++ y) with ($"const" ++ " "%char :: y).
    assert (FY : free (" "%char :: y)) by (apply free_sep; [reflexivity|exact FX]). assert (NC : name_of $"const") by (split; [discriminate|repeat constructor]).
    assert (PC : pieces ($"const" ++ " "%char :: y) = $"const" :: pieces (" "%char :: y)) by (apply pieces_word; [exact NC|reflexivity]).
    assert (HY : exists c z, y = c :: z /\ is_space c = false) by (destruct C as (CN & _ & CC); unfold y; destruct x as [|c x']; [congruence|]; inversion CC as [|? ? (CS & _) _]; subst; cbn; eauto).
    assert (CHA : startswith $"cha" y = false).
    { destruct HEAD as (w & r & X & NW & CW & WR). unfold y. rewrite X, <- app_assoc. destruct (startswith $"cha" (w ++ r ++ m)) eqn:S; [|reflexivity]. apply (starts_in $"cha") in S; [congruence|split; [discriminate|repeat constructor]|]. destruct r; [exact WM|exact WR]. }
    assert (M0 : forall r, r = ConstChar \/ r = ConstCharSpaces -> forall p, word_before p = false -> match_of r p ($"const" ++ " "%char :: y) = None).
    { destruct HY as (c & z & -> & SC). intros r [-> | ->] p P; cbn [match_of]; rewrite P; change (startswith $"const " ($"const" ++ " "%char :: c :: z)) with true; cbn [negb andb]; change (skipn 5 ($"const" ++ " "%char :: c :: z)) with (" "%char :: c :: z);
        cbn [spaces]; change (is_space " ") with true; cbv iota; rewrite SC; change (skipn (1 + 5) ($"const" ++ " "%char :: c :: z)) with (c :: z); [rewrite CHA; reflexivity|].
      assert (X : startswith $"char" (c :: z) = false) by (destruct (startswith $"char" (c :: z)) eqn:S; [|reflexivity]; apply (starts_longer $"cha" $"r") in S; congruence). rewrite X. reflexivity. }
    unfold types_once. rewrite rules_const, fold_left_app.
    assert (I : fold_left (fun s r => apply_type_rule r s) before_const ($"const" ++ " "%char :: y) = $"const" ++ " "%char :: y).
    { assert (G : forall rs, Forall (fun r => (rule_free r /\ not_mark r = true) /\ (first_of r <> $"const" \/ r = ConstChar \/ r = ConstCharSpaces)) rs -> fold_left (fun s r => apply_type_rule r s) rs ($"const" ++ " "%char :: y) = $"const" ++ " "%char :: y).
      { induction 1 as [|r rs ((R1 & R2) & H) RS IH]; [reflexivity|]. cbn [fold_left]. assert (E : apply_type_rule r ($"const" ++ " "%char :: y) = $"const" ++ " "%char :: y); [|rewrite E; exact IH]. destruct H as [H|H].
        - destruct R1 as (O & R1). apply rule_absent; [exact O|]. destruct r; try discriminate R2; destruct R1 as (N & [D|D]); (split; [exact N|]); solve [left; exact D|right; rewrite PC; intros [X|X]; [apply H; symmetry; exact X|apply (FY _ D X)]].
        - assert (ST : forall p s, match_of r p s <> None -> word_before p = false /\ startswith $"const" s = true /\ is_word_at (skipn (length $"const") s) = false) by (intros p s X; destruct H as [-> | ->]; apply (match_starts _ p s) in X; auto; exact I).
          pose proof (first_word $"const" (match_of r) NC ST [] (" "%char :: y) (Forall_nil _) eq_refl (FY $"const" (or_intror (or_intror (or_introl eq_refl)))) (M0 r H) None eq_refl) as FW. destruct H as [-> | ->]; exact FW. }
      apply G. pose proof before_free as BF. rewrite Forall_forall in *. intros r R'. split; [apply BF; exact R'|]. clear -R'. unfold before_const in R'. cbn in R'. repeat (destruct R' as [<-|R']; [first [left; discriminate|right; left; reflexivity|right; right; reflexivity]|]). destruct R'. }
    rewrite I. cbn [fold_left apply_type_rule]. rewrite (word_rule_is $"const") by exact NC. rewrite substituted_app by reflexivity. change (substituted [($"const", [])] $"const") with (@nil ascii). cbn [app]. rewrite substituted_none by (apply FY; cbn; tauto).
    rewrite word_rule_is by (split; [discriminate|repeat constructor]). rewrite substituted_none by (apply FY; cbn; tauto).
    change ($" " ++ x ++ sp2) with (" "%char :: (x ++ sp2)). etransitivity; [|apply f_equal; exact R]. change (" "%char :: y) with ($" " ++ y). rewrite mark_app by (cbn; intuition discriminate). rewrite mark_app by (cbn; intuition discriminate). reflexivity.
Qed.
