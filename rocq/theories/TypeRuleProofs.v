From Verif Require Import PyStr PyDict PyStrLemmas InstanceModel InstanceSpec InstanceProofs LiteralModel LiteralProofs LiteralProofs2 TemplateModel TemplateProofs TypeRuleModel TypeRuleSpec.
(** The replacements of types, one by one. *)

(** ** A rule which starts with a word that is not there *)

Section Absent.
Variables (k : str) (m : matcher).
Hypothesis word_k : name_of k.
Hypothesis starts : forall previous s, m previous s <> None -> word_before previous = false /\ startswith k s = true /\ is_word_at (skipn (length k) s) = false.
Let starts1 : forall previous s, m previous s <> None -> word_before previous = false /\ startswith k s = true.
Proof. intros p s H. apply starts in H. tauto. Qed.
Lemma absent_word s : ~ In k (pieces s) -> forall previous, word_before previous = false \/ is_word_at s = false -> sub_with m previous 0 s = s.
Proof.
  induction s as [|c r C IH|w r W R IH] using word_rect; [reflexivity| |].
  - rewrite pieces_sep by exact C. intros F p _. cbn [sub_with]. rewrite (m_starts k m starts1).
    + f_equal. apply IH; [|left; exact C]. intros X. apply F. right. exact X.
    + destruct word_k as (N & K). destruct k as [|d k']; [congruence|]. cbn [startswith]. inversion K; subst. destruct (ceqb_spec d c) as [->|]; [congruence|reflexivity].
  - rewrite pieces_word by auto. intros F p P. assert (F2 : ~ In k (pieces r)) by (intros X; apply F; right; exact X). assert (NW : k <> w) by (intros ->; apply F; left; reflexivity).
    assert (B : word_before p = false) by (destruct P as [P|P]; [exact P|destruct W as (N & W); destruct w as [|c w]; [congruence|]; inversion W; subst; cbn in P; congruence]).
    assert (M : m p (w ++ r) = None).
    { destruct (m p (w ++ r)) eqn:E; [|reflexivity]. exfalso. apply NW. assert (X : m p (w ++ r) <> None) by (rewrite E; discriminate). apply starts in X. destruct X as (_ & X & Y). apply (starts_word k [] word_k w r); auto. apply W. }
    destruct W as (N & W). destruct w as [|c w]; [congruence|]. inversion W as [|? ? C W']; subst. change ((c :: w) ++ r) with (c :: (w ++ r)) in *. cbn [sub_with]. rewrite M.
    destruct (absent_inside k m starts1 w r W' (Some c) C) as (p' & P' & E). rewrite E. rewrite IH; auto.
Qed.
(** The word is there once, and the rule does not apply. *)
Lemma first_word sp r : Forall (fun c => is_word c = false) sp -> is_word_at r = false -> ~ In k (pieces r) -> (forall p, word_before p = false -> m p (k ++ r) = None) -> forall p, word_before p = false -> sub_with m p 0 (sp ++ k ++ r) = sp ++ k ++ r.
Proof.
  intros SP R N M. induction SP as [|c sp C SP IH]; intros p P.
  - cbn [app]. specialize (M p P). assert (K : exists c k', k = c :: k') by (destruct word_k as (NE & _); destruct k as [|c k']; [congruence|eauto]). destruct K as (c & k' & K). destruct word_k as (_ & W). rewrite K in W. pose proof (Forall_inv W) as C. pose proof (Forall_inv_tail W) as W'. cbv beta in C.
    assert (E0 : k ++ r = c :: (k' ++ r)) by (rewrite K; reflexivity). rewrite E0 in *. cbn [sub_with]. rewrite M. f_equal. destruct (absent_inside k m starts1 k' r W' (Some c) C) as (q & Q & E). rewrite E. f_equal. apply absent_word; auto.
  - cbn [app sub_with]. rewrite (m_starts k m starts1); [f_equal; apply IH; exact C|]. destruct word_k as (NE & K). destruct k as [|d k']; [congruence|]. cbn [startswith]. inversion K; subst. destruct (ceqb_spec d c) as [->|]; [congruence|reflexivity].
Qed.
End Absent.

(** ** The first word of each rule *)

Definition first_of (r : trule) : str :=
  match r with
  | Two a _ _ | Word a _ | Lit a _ _ _ | Angle a _ _ _ _ | Trimmed a _ _ _ | TwoArgs a _ _ _ _ _ => a
  | ConstChar | ConstCharSpaces => $"const"
  | Function => $"std"
  | VoidPointer => $"void"
  | Mark _ => []
  end.
Definition sep_first (s : str) : Prop := match s with c :: _ => is_word c = false | [] => False end.
Definition rule_ok (r : trule) : Prop :=
  match r with
  | Lit _ rest _ _ | Angle _ rest _ _ _ | Trimmed _ rest _ _ | TwoArgs _ rest _ _ _ _ => sep_first rest
  | _ => True
  end.
Definition scans (r : trule) : bool := match r with Word _ _ | Mark _ => false | _ => true end.
Lemma after_first a c rest s : startswith (a ++ c :: rest) s = true -> is_word c = false -> startswith a s = true /\ is_word_at (skipn (length a) s) = false.
Proof. intros S C. apply startswith_true in S. destruct S as (r & ->). rewrite <- !app_assoc. split; [apply startswith_app|]. rewrite skip_app. cbn. exact C. Qed.
Lemma match_starts r p s : rule_ok r -> scans r = true -> match_of r p s <> None -> word_before p = false /\ startswith (first_of r) s = true /\ is_word_at (skipn (length (first_of r)) s) = false.
Proof.
  intros O SC. destruct r as [a b new| | |a new| |a rest bd new|a rest keep b_ a_|a rest b_ a_|a rest sp sec b_ a_| |c]; try discriminate SC; cbn [match_of first_of rule_ok] in *;
    try (destruct rest as [|c0 rest]; [destruct O|]; cbn [sep_first] in O).
  - destruct (word_before p); cbn [negb andb]; [congruence|]. destruct (startswith (a ++ $" ") s) eqn:S; [|congruence]. intros _. split; [reflexivity|]. apply (after_first a " " [] s S). reflexivity.
  - destruct (word_before p); cbn [negb andb]; [congruence|]. destruct (startswith $"const " s) eqn:S; [|congruence]. intros _. split; [reflexivity|]. apply (after_first $"const" " " [] s S). reflexivity.
  - destruct (word_before p); cbn [negb andb]; [congruence|]. destruct (startswith $"const " s) eqn:S; [|congruence]. intros _. split; [reflexivity|]. apply (after_first $"const" " " [] s S). reflexivity.
  - destruct (word_before p); cbn [negb andb]; [congruence|]. destruct (startswith $"std::function<" s) eqn:S; [|congruence]. intros _. split; [reflexivity|]. apply (after_first $"std" ":" $":function<" s S). reflexivity.
  - destruct (word_before p); cbn [negb andb]; [congruence|]. destruct (startswith (a ++ c0 :: rest) s) eqn:S; [|cbn; congruence]. intros _. split; [reflexivity|]. apply (after_first a c0 rest s S). exact O.
  - destruct (word_before p); cbn [negb andb]; [congruence|]. destruct (startswith (a ++ (c0 :: rest) ++ $"<") s) eqn:S; [|congruence]. intros _. split; [reflexivity|]. apply (after_first a c0 (rest ++ $"<") s S). exact O.
  - destruct (word_before p); cbn [negb andb]; [congruence|]. destruct (startswith (a ++ c0 :: rest) s) eqn:S; [|congruence]. intros _. split; [reflexivity|]. apply (after_first a c0 rest s S). exact O.
  - destruct (word_before p); cbn [negb andb]; [congruence|]. destruct (startswith (a ++ c0 :: rest) s) eqn:S; [|congruence]. intros _. split; [reflexivity|]. apply (after_first a c0 rest s S). exact O.
  - unfold void_pointer. destruct (word_before p); cbn [negb andb]; [congruence|]. destruct (startswith $"void" s) eqn:S; [|congruence]. intros H. split; [reflexivity|]. split; [reflexivity|].
    apply startswith_true in S. destruct S as (r & ->). change (length $"void") with 4 in *. change 4 with (length $"void") in H. rewrite skip_app in H. change 4 with (length $"void"). rewrite skip_app.
    destruct r as [|c r]; [reflexivity|]. cbn [is_word_at]. destruct (is_word c) eqn:W; [|reflexivity]. exfalso. apply H. cbn [spaces].
    assert (SP : is_space c = false) by (revert W; clear; destruct c as [[] [] [] [] [] [] [] []]; vm_compute; intros; congruence). rewrite SP. rewrite Nat.add_0_r, skip_app. destruct (ceqb_spec c "*"%char) as [->|]; [discriminate|reflexivity].
Qed.
Lemma word_same k s : name_of k -> word_rule k k s = s.
Proof.
  intros K. rewrite word_rule_is by exact K. unfold substituted. assert (E : map (argument [(k, k)]) (pieces s) = pieces s); [|rewrite E; apply pieces_concat].
  rewrite <- (map_id (pieces s)) at 2. apply map_ext. intros w. unfold argument. cbn. destruct (seqb_spec k w) as [->|]; reflexivity.
Qed.
Definition idle (r : trule) : bool := match r with Word a new => seqb a new | _ => false end.
Lemma rule_absent r s : rule_ok r -> (match r with Mark c => ~ In c s | _ => name_of (first_of r) /\ (idle r = true \/ ~ In (first_of r) (pieces s)) end) -> apply_type_rule r s = s.
Proof.
  intros O H. assert (G : scans r = true -> name_of (first_of r) -> ~ In (first_of r) (pieces s) -> sub_with (match_of r) None 0 s = s).
  { intros SC N A. apply (absent_word (first_of r) (match_of r) N); auto. intros p t M. apply match_starts; auto. }
  destruct r; cbn [apply_type_rule idle] in *; try (destruct H as (H & [D|D]); [discriminate|apply G; auto]).
  - cbn [first_of] in H. destruct H as (H & [D|D]); [apply seqb_true in D; subst; apply word_same; exact H|]. rewrite word_rule_is by exact H. apply substituted_none. exact D.
  - apply replace_no_occ. destruct (contains [c] s) eqn:E; [|reflexivity]. exfalso. apply H. clear -E. induction s as [|d s IH]; [discriminate|]. cbn [contains startswith] in E. destruct (ceqb_spec c d) as [->|]; [left; reflexivity|]. cbn in E. right. apply IH. exact E.
Qed.

(** ** Texts without words of C++ *)

Definition free (s : str) : Prop := forall k, In k type_words -> ~ In k (pieces s).
Definition no_marks (s : str) : Prop := ~ In "&"%char s /\ ~ In "*"%char s.
Lemma type_words_names k : In k type_words -> name_of k.
Proof. intros H. assert (F : Forall name_of type_words) by (unfold type_words; repeat constructor; try discriminate). rewrite Forall_forall in F. apply F. exact H. Qed.
Lemma free_app a b : is_word_at b = false -> free a -> free b -> free (a ++ b).
Proof. intros W A B k K. rewrite pieces_app by exact W. rewrite in_app_iff. intros [X|X]; [apply (A k K X)|apply (B k K X)]. Qed.
Lemma free_sep c r : is_word c = false -> free r -> free (c :: r).
Proof. intros C R k K. rewrite pieces_sep by exact C. intros [X|X]; [|apply (R k K X)]. destruct (type_words_names k K) as (_ & F). subst k. inversion F; congruence. Qed.
Lemma free_nil : free []. Proof. intros k K []. Qed.
Lemma free_name w : name_of w -> ~ In w type_words -> free w.
Proof. intros N H k K. rewrite piece_one by exact N. intros [<-|[]]. contradiction. Qed.
Lemma free_tail c r : is_word c = false -> free (c :: r) -> free r. Proof. intros C F k K X. apply (F k K). rewrite pieces_sep by exact C. right. exact X. Qed.
Definition rule_free (r : trule) : Prop := rule_ok r /\ match r with Mark c => c = "&"%char \/ c = "*"%char | _ => name_of (first_of r) /\ (idle r = true \/ In (first_of r) type_words) end.
Lemma rules_free : Forall rule_free type_rules.
Proof.
  unfold type_rules, first_rules, template_rules, last_rules. cbn [app].
  repeat (constructor; [split; [first [exact I|reflexivity]|first [left; reflexivity|right; reflexivity|split; [split; [discriminate|repeat constructor]|first [left; reflexivity|right; cbn; tauto]]]]|]). constructor.
Qed.
Lemma rule_idle r s : rule_free r -> free s -> no_marks s -> apply_type_rule r s = s.
Proof.
  intros (O & H) F (A & B). apply rule_absent; [exact O|]. destruct r; try (destruct H as (N & [H|H]); split; auto; right; apply F; exact H). destruct H as [-> | ->]; auto.
Qed.
Lemma rules_idle rs s : Forall rule_free rs -> free s -> no_marks s -> fold_left (fun s r => apply_type_rule r s) rs s = s.
Proof. intros R F N. induction R as [|r rs R RS IH]; [reflexivity|]. cbn [fold_left]. rewrite rule_idle by auto. exact IH. Qed.
Lemma types_idle s : free s -> no_marks s -> types_once s = s. Proof. intros F N. apply rules_idle; auto. apply rules_free. Qed.
Lemma standard_of s t : types_once s = t -> free t -> no_marks t -> standard_types s = t.
Proof.
  intros O F N. unfold standard_types. cbn [passes]. rewrite O. destruct (seqb s t); [reflexivity|]. rewrite (types_idle t F N). rewrite seqb_refl. reflexivity.
Qed.
Lemma standard_idle s : free s -> no_marks s -> standard_types s = s. Proof. intros F N. apply standard_of; auto. apply types_idle; auto. Qed.
