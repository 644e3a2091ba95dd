From Verif Require Import PyStr PyDict PyStrLemmas InstanceModel InstanceSpec InstanceProofs LiteralModel LiteralProofs LiteralProofs2 NumberProofs2 TemplateModel TemplateSpec TemplateProofs TypeRuleModel TypeRuleSpec TypeRuleProofs TypeRuleProofs2.
(** Templates, and types of any depth. *)

(** ** One template of the standard library *)

Definition std_rest (rest p sp2 : str) : str := rest ++ $"<" ++ p ++ $">" ++ sp2.
Definition still (y : str) (r : trule) : Prop :=
  rule_free r /\ (first_of r <> $"std" /\ not_mark r = true \/ first_of r = $"std" /\ scans r = true /\ forall q, word_before q = false -> match_of r q ($"std" ++ y) = None).
Lemma std_name : name_of $"std". Proof. split; [discriminate|repeat constructor]. Qed.
Lemma space_free sp1 : sp1 = [] \/ sp1 = $" " -> free sp1 /\ Forall (fun c => is_word c = false) sp1.
Proof. intros [-> | ->]; (split; [first [apply free_nil|apply free_sep; [reflexivity|apply free_nil]]|repeat constructor]). Qed.
Lemma std_pieces sp1 y : sp1 = [] \/ sp1 = $" " -> is_word_at y = false -> forall k, In k (pieces (sp1 ++ $"std" ++ y)) -> In k (pieces sp1) \/ k = $"std" \/ In k (pieces y).
Proof.
  intros S W k. destruct S as [-> | ->].
  - cbn [app]. change ("s"%char :: "t"%char :: "d"%char :: y) with ($"std" ++ y). rewrite pieces_word by (auto; apply std_name). intros [X|X]; auto.
  - change ($" " ++ $"std" ++ y) with (" "%char :: ($"std" ++ y)). rewrite pieces_sep by reflexivity. rewrite pieces_word by (auto; apply std_name). intros [X|[X|X]]; auto. left. left. exact X.
Qed.
Lemma rule_still sp1 y r : sp1 = [] \/ sp1 = $" " -> is_word_at y = false -> free y -> still y r -> apply_type_rule r (sp1 ++ $"std" ++ y) = sp1 ++ $"std" ++ y.
Proof.
  intros S W F (R & H). destruct (space_free sp1 S) as (FS & SS). destruct H as [(H & NM)|(H & SC & M)].
  - destruct R as (O & R). apply rule_absent; [exact O|].
    assert (G : In (first_of r) type_words -> ~ In (first_of r) (pieces (sp1 ++ $"std" ++ y))) by (intros D X; apply (std_pieces sp1 y S W) in X; destruct X as [X|[X|X]]; [apply (FS _ D X)|contradiction|apply (F _ D X)]).
    destruct r; try discriminate NM; destruct R as (N & [D|D]); (split; [exact N|]); solve [left; exact D|right; apply G; exact D].
  - assert (ST : forall q s, match_of r q s <> None -> word_before q = false /\ startswith $"std" s = true /\ is_word_at (skipn (length $"std") s) = false) by (intros q s X; rewrite <- H; apply match_starts; auto; apply R).
    assert (NS : ~ In $"std" (pieces y)) by (apply F; cbn; tauto).
    pose proof (first_word $"std" (match_of r) std_name ST sp1 y SS W NS M None eq_refl) as E. destruct r; try discriminate SC; exact E.
Qed.
Lemma rules_still sp1 y rs : sp1 = [] \/ sp1 = $" " -> is_word_at y = false -> free y -> Forall (still y) rs -> fold_left (fun s r => apply_type_rule r s) rs (sp1 ++ $"std" ++ y) = sp1 ++ $"std" ++ y.
Proof. intros S W F R. induction R as [|r rs R RS IH]; [reflexivity|]. cbn [fold_left]. rewrite rule_still by auto. exact IH. Qed.
Lemma matched (m : matcher) p w r new : w <> [] -> m p (w ++ r) = Some (new, length w - 1) -> exists q, sub_with m p 0 (w ++ r) = new ++ sub_with m q 0 r.
Proof. intros N M. destruct w as [|c w]; [congruence|]. cbn [app] in *. destruct (sub_skip m w r (Some c)) as (q & Q). exists q. cbn [sub_with]. rewrite M. cbn [length]. rewrite Nat.sub_succ, Nat.sub_0_r, Q. reflexivity. Qed.
(** The rule which applies. *)
Lemma rule_applies sp1 r w new : sp1 = [] \/ sp1 = $" " -> rule_ok r -> scans r = true -> first_of r = $"std" -> startswith $"std" w = true ->
  (forall q, word_before q = false -> match_of r q w = Some (new, length w - 1)) -> apply_type_rule r (sp1 ++ w) = sp1 ++ new.
Proof.
  intros S O SC H SW M. assert (G : sub_with (match_of r) None 0 (sp1 ++ w) = sp1 ++ new); [|destruct r; try discriminate SC; exact G].
  assert (NW : w <> []) by (intros ->; discriminate). assert (E : forall q, word_before q = false -> sub_with (match_of r) q 0 w = new).
  { intros q Q. specialize (M q Q). rewrite <- (app_nil_r w) in M at 1. destruct (matched _ _ _ _ _ NW M) as (q' & E). rewrite app_nil_r in E. rewrite E. cbn. apply app_nil_r. }
  destruct S as [-> | ->]; [apply E; reflexivity|]. cbn [app]. change ($" " ++ w) with (" "%char :: w). cbn [sub_with].
  assert (N : match_of r None (" "%char :: w) = None); [|rewrite N, E by reflexivity; reflexivity]. destruct (match_of r None (" "%char :: w)) eqn:X; [|reflexivity]. exfalso.
  assert (Y : match_of r None (" "%char :: w) <> None) by (rewrite X; discriminate). apply match_starts in Y; auto. rewrite H in Y. destruct Y as (_ & Y & _). discriminate.
Qed.
Lemma up_to_is c p r : ~ In c p -> up_to c (p ++ c :: r) = Some p.
Proof.
  intros N. unfold up_to. assert (T : takewhile (fun d => negb (ceqb c d)) (p ++ c :: r) = p).
  { induction p as [|d p IH]; cbn [app takewhile]; [rewrite ceqb_refl; reflexivity|]. destruct (ceqb_spec c d) as [->|]; [exfalso; apply N; left; reflexivity|]. cbn [negb]. f_equal. apply IH. intros X. apply N. right. exact X. }
  rewrite T. assert (L : length p <? length (p ++ c :: r) = true) by (apply Nat.ltb_lt; rewrite app_length; cbn; lia). rewrite L. reflexivity.
Qed.
Lemma clean_no p c : Forall clean_char p -> c = ">"%char \/ c = "<"%char \/ c = nl -> ~ In c p.
Proof. intros F H X. rewrite Forall_forall in F. apply F in X. destruct X as (A & _ & _ & B & C). destruct H as [-> |[-> | ->]]; try congruence. discriminate. Qed.
Lemma clean_nl p : Forall clean_char p -> contains [nl] p = false.
Proof. intros F. pose proof (clean_no p nl F (or_intror (or_intror eq_refl))) as N. clear F. induction p as [|d p IH]; [reflexivity|]. cbn [contains startswith]. destruct (ceqb_spec nl d) as [E|]; [exfalso; apply N; left; symmetry; exact E|]. cbn. apply IH. intros X. apply N. right. exact X. Qed.
Lemma angle_match a rest b_ a_ p q : sep_first rest -> Forall clean_char p -> word_before q = false ->
  match_of (Angle a rest true b_ a_) q (a ++ rest ++ $"<" ++ p ++ $">") = Some (b_ ++ p ++ a_, length (a ++ rest ++ $"<" ++ p ++ $">") - 1).
Proof.
  intros _ P Q. cbn [match_of]. rewrite Q. cbn [negb andb]. replace (a ++ rest ++ $"<" ++ p ++ $">") with ((a ++ rest ++ $"<") ++ p ++ ">"%char :: []) by (rewrite <- !app_assoc; reflexivity).
  rewrite startswith_app, skip_app, up_to_is by (apply clean_no; auto). rewrite clean_nl by exact P. f_equal. f_equal. rewrite !app_length. cbn [length]. lia.
Qed.
Lemma trimmed_match a rest b_ a_ p q : Forall clean_char p -> word_before q = false ->
  match_of (Trimmed a rest b_ a_) q (a ++ rest ++ $"<" ++ p ++ $">") = Some (b_ ++ p ++ a_, length (a ++ rest ++ $"<" ++ p ++ $">") - 1).
Proof.
  intros P Q. cbn [match_of]. rewrite Q. cbn [negb andb]. replace (a ++ rest ++ $"<" ++ p ++ $">") with ((a ++ rest) ++ "<"%char :: p ++ ">"%char :: []) by (rewrite <- !app_assoc; reflexivity).
  rewrite startswith_app, skip_app. cbn [spaces]. change (is_space "<") with false. cbv iota. cbn [skipn]. rewrite ceqb_refl, up_to_is by (apply clean_no; auto). rewrite strip_clean, clean_nl by exact P. f_equal. f_equal. rewrite !app_length. cbn [length]. rewrite !app_length. cbn [length]. lia.
Qed.
Lemma rest_free rest p : (exists w, rest = $"::" ++ w /\ name_of w /\ ~ In w type_words) -> clean p -> free (rest ++ $"<" ++ p ++ $">").
Proof.
  intros (w & -> & N & T) (_ & F & _). change ($"::") with (":"%char :: [":"%char]). cbn [app]. do 2 (apply free_sep; [reflexivity|]). apply free_app; [reflexivity|apply free_name; auto|]. change ($"<" ++ p ++ $">") with ("<"%char :: (p ++ $">")). apply free_sep; [reflexivity|].
  apply free_app; [reflexivity|exact F|]. apply free_sep; [reflexivity|apply free_nil].
Qed.
Lemma template_types before r after rest p new sp1 : type_rules = before ++ r :: after -> sp1 = [] \/ sp1 = $" " -> clean p -> clean new ->
  (exists w, rest = $"::" ++ w /\ name_of w /\ ~ In w type_words) -> Forall (still (rest ++ $"<" ++ p ++ $">")) before ->
  rule_ok r -> scans r = true -> first_of r = $"std" ->
  (forall q, word_before q = false -> match_of r q ($"std" ++ rest ++ $"<" ++ p ++ $">") = Some (new, length ($"std" ++ rest ++ $"<" ++ p ++ $">") - 1)) ->
  standard_types (sp1 ++ $"std" ++ rest ++ $"<" ++ p ++ $">") = sp1 ++ new.
Proof.
  intros T S P N R B O SC H M. destruct (free_clean_sp new sp1 [] N S (or_introl eq_refl)) as (FN & MN). rewrite app_nil_r in FN, MN. apply standard_of; auto. unfold types_once. rewrite T, fold_left_app. pose proof (rest_free rest p R P) as FR.
  assert (W : is_word_at (rest ++ $"<" ++ p ++ $">") = false) by (destruct R as (w & -> & _); reflexivity).
  rewrite (rules_still sp1 (rest ++ $"<" ++ p ++ $">") before S W FR B). cbn [fold_left]. rewrite (rule_applies sp1 r ($"std" ++ rest ++ $"<" ++ p ++ $">") new); auto.
  apply rules_idle; auto. pose proof rules_free as RF. rewrite T in RF. apply Forall_app in RF. destruct RF as (_ & RF). exact (Forall_inv_tail RF).
Qed.
Ltac still_all := repeat (constructor; [split; [split; [first [exact I|reflexivity]|split; [split; [discriminate|repeat constructor]|first [left; reflexivity|right; cbn; tauto]]]|first [left; split; [discriminate|reflexivity]|right; split; [reflexivity|]; split; [reflexivity|]; let q := fresh "q" in let Q := fresh "Q" in intros q Q; cbn [match_of]; rewrite Q; reflexivity]]|]); constructor.
Ltac name_is := split; [split; [discriminate|repeat constructor]|cbn; intuition discriminate].
Ltac name_each := first [split; [discriminate|repeat constructor]|cbn; intuition discriminate].
Lemma clean_list h p : clean p -> name_of h -> ~ In h type_words -> clean (h ++ $"[" ++ p ++ $"]").
Proof.
  intros (N & F & C) H T. split; [destruct h; [destruct H; congruence|discriminate]|]. split.
  - apply free_app; [reflexivity|apply free_name; auto|]. change ($"[" ++ p ++ $"]") with ("["%char :: (p ++ $"]")). apply free_sep; [reflexivity|]. apply free_app; [reflexivity|exact F|]. apply free_sep; [reflexivity|apply free_nil].
  - apply Forall_app. split; [apply words_clean; apply H|]. apply Forall_app. split; [clean_chars|]. apply Forall_app. split; [exact C|clean_chars].
Qed.
Lemma vector_types p sp1 : sp1 = [] \/ sp1 = $" " -> clean p -> standard_types (sp1 ++ $"std" ++ $"::vector" ++ $"<" ++ p ++ $">") = sp1 ++ $"List[" ++ p ++ $"]".
Proof.
  intros S P. apply (template_types (first_rules ++ firstn 2 template_rules) (Trimmed $"std" $"::vector" $"List[" $"]") (skipn 3 template_rules ++ last_rules)); auto; try reflexivity.
  - apply (clean_list $"List" p P); name_each.
  - exists $"vector". split; [reflexivity|]. name_is.
  - unfold first_rules, template_rules. cbn [app firstn]. still_all.
  - intros q Q. apply trimmed_match; auto. apply P.
Qed.
Lemma optional_types p sp1 : sp1 = [] \/ sp1 = $" " -> clean p -> standard_types (sp1 ++ $"std" ++ $"::optional" ++ $"<" ++ p ++ $">") = sp1 ++ $"Optional[" ++ p ++ $"]".
Proof.
  intros S P. apply (template_types (first_rules ++ firstn 7 template_rules) (Angle $"std" $"::optional" true $"Optional[" $"]") (skipn 8 template_rules ++ last_rules)); auto; try reflexivity.
  - apply (clean_list $"Optional" p P); name_each.
  - exists $"optional". split; [reflexivity|]. name_is.
  - unfold first_rules, template_rules. cbn [app firstn]. still_all.
  - intros q Q. apply angle_match; auto; [reflexivity|apply P].
Qed.
Lemma unique_types p sp1 : sp1 = [] \/ sp1 = $" " -> clean p -> standard_types (sp1 ++ $"std" ++ $"::unique_ptr" ++ $"<" ++ p ++ $">") = sp1 ++ p.
Proof.
  intros S P. apply (template_types first_rules (Angle $"std" $"::unique_ptr" true [] []) (skipn 1 template_rules ++ last_rules)); auto; try reflexivity.
  - exists $"unique_ptr". split; [reflexivity|]. name_is.
  - unfold first_rules. still_all.
  - intros q Q. rewrite (angle_match $"std" $"::unique_ptr" [] [] p q); [cbn [app]; rewrite app_nil_r; reflexivity|reflexivity|apply P|exact Q].
Qed.
Lemma shared_types p sp1 : sp1 = [] \/ sp1 = $" " -> clean p -> standard_types (sp1 ++ $"std" ++ $"::shared_ptr" ++ $"<" ++ p ++ $">") = sp1 ++ p.
Proof.
  intros S P. apply (template_types (first_rules ++ firstn 1 template_rules) (Angle $"std" $"::shared_ptr" true [] []) (skipn 2 template_rules ++ last_rules)); auto; try reflexivity.
  - exists $"shared_ptr". split; [reflexivity|]. name_is.
  - unfold first_rules, template_rules. cbn [app firstn]. still_all.
  - intros q Q. rewrite (angle_match $"std" $"::shared_ptr" [] [] p q); [cbn [app]; rewrite app_nil_r; reflexivity|reflexivity|apply P|exact Q].
Qed.
Lemma other_types x p sp1 : sp1 = [] \/ sp1 = $" " -> clean x -> clean p -> standard_types (sp1 ++ x ++ $"<" ++ p ++ $">") = sp1 ++ x ++ $"<" ++ p ++ $">".
Proof.
  intros S (_ & FX & CX) (_ & FP & CP). assert (F : free (x ++ $"<" ++ p ++ $">")).
  { apply free_app; [reflexivity|exact FX|]. change ($"<" ++ p ++ $">") with ("<"%char :: (p ++ $">")). apply free_sep; [reflexivity|]. apply free_app; [reflexivity|exact FP|]. apply free_sep; [reflexivity|apply free_nil]. }
  apply standard_idle; [destruct S as [-> | ->]; [exact F|apply free_sep; [reflexivity|exact F]]|].
  destruct (clean_marks x CX) as (A & B). destruct (clean_marks p CP) as (C & D). split; rewrite !in_app_iff; intros [X|[X|[X|[X|X]]]]; auto; try (destruct S as [-> | ->]); cbn in X; intuition discriminate.
Qed.
