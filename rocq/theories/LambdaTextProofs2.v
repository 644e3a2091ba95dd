From Verif Require Import PyStr PyStrLemmas PyDict PyNum RegionsModel TextModel TextSpec TextProofs FillModel FillSpec FillProofs FillProofs2 FillProofs3 FillProofs4
  TypeTextModel LambdaModel LambdaTextSpec CommentProofs3 CommentProofs4 NumberProofs2 ChainProofs3 EnumProofs LookupProofs TemplateProofs3 LambdaTextProofs.
(** Proofs about the text of the lambdas, continued: the statements. *)
Notation K := lambda_names.
Notation W := writable_word.

Lemma W_app a b : W a -> W b -> W (a ++ b).
Proof. intros [A1 A2] [B1 B2]. split; [apply neutral_app; auto|rewrite in_app_iff; tauto]. Qed.
Lemma W_check s : neutralb K s && negb (contains [nl] s) = true -> W s.
Proof. intros H. apply andb_prop in H. destruct H as [H1 H2]. split; [apply neutralb_true; auto|apply no_nl_in; apply negb_true_iff; auto]. Qed.
Lemma W_nil : W [].
Proof. apply W_check. reflexivity. Qed.
Lemma W_white i : white i -> W i.
Proof.
  intros [A B]. split; auto. apply no_brace_neutral. rewrite forallb_forall in A. intros I. apply A in I. discriminate.
Qed.
Lemma W_nat k : W (nat_text k).
Proof.
  destruct (nat_text_digits k) as [_ D]. rewrite forallb_forall in D. split; [apply no_brace_neutral|]; intros I; apply D in I; discriminate.
Qed.
Lemma W_join sep ls : W sep -> Forall W ls -> W (join sep ls).
Proof.
  intros S F. destruct ls as [|a ls]; [apply W_nil|]. inversion F as [|? ? A F']; subst. clear F. revert a A. induction F' as [|b ls B F IH]; intros a A.
  - exact A.
  - change (W (a ++ sep ++ join sep (b :: ls))). apply W_app; auto. apply W_app; auto.
Qed.
Ltac words := repeat first
  [ assumption | apply W_nat | apply W_nil | solve [apply W_check; vm_compute; reflexivity] | apply W_app ].

(** ** Expressions *)

Lemma expr_text_is e : expr_text e = expression e.
Proof. induction e; cbn [expr_text expression]; rewrite ?IHe; reflexivity. Qed.
Lemma expr_W e : Forall W (expr_words e) -> W (expression e).
Proof.
  induction e; cbn [expr_words expression]; rewrite ?Forall_cons_iff; intros H; unfold quoted; try (destruct H as [H1 H2]); try specialize (IHe H); try specialize (IHe H2); words.
Qed.
Lemma exprs_W es : Forall W (flat_map expr_words es) -> Forall W (map expression es).
Proof.
  induction es as [|e es IH]; cbn [flat_map map]; intros H; [constructor|]. apply Forall_app in H. destruct H. constructor; auto using expr_W.
Qed.
Lemma args_text es : join $", " (map expr_text es) = join $", " (map expression es).
Proof. rewrite (map_ext _ _ expr_text_is). reflexivity. Qed.

(** ** Statements *)

Definition good_line (l : str) : Prop := neutral K (l ++ [nl]) /\ ~ In nl l.
Lemma W_good l : W l -> good_line l.
Proof. intros [A B]. split; auto. apply neutral_app; auto. apply neutral_nl. Qed.
Lemma W_open a : W a -> good_line (a ++ $" {").
Proof.
  intros [A B]. split.
  - rewrite <- app_assoc. apply neutral_app; auto. apply neutralb_true. reflexivity.
  - rewrite in_app_iff. intros [I|I]; auto. revert I. apply no_nl_in. reflexivity.
Qed.
Ltac lines_words := repeat apply Forall_cons; try apply Forall_nil; first [solve [apply W_good; words] | idtac].
Lemma stmt_good i s : white i -> Forall W (stmt_words s) -> Forall good_line (stmt_lines i s).
Proof.
  intros Wi. pose proof (W_white i Wi) as WI.
  destruct s as [|t n e|t n dims k v|l r|c l r|n|v n|v n|t n name d|nano cst n data count|n letter t cst|k n code code8 t|a b c];
    cbn [stmt_words stmt_lines cond_text]; rewrite ?expr_text_is; intros H.
  - lines_words.
  - cbn [app] in H. rewrite !Forall_cons_iff in H. destruct H as (H1 & H2 & H3). apply expr_W in H3. lines_words.
  - rewrite !Forall_cons_iff in H. destruct H as (H1 & H2 & H3 & H4 & _). destruct v; lines_words.
  - rewrite Forall_app in H. destruct H as [H1 H2]. apply expr_W in H1, H2. lines_words.
  - destruct c as [n|n]; rewrite Forall_cons_iff, Forall_app in H; destruct H as (H0 & H1 & H2); apply expr_W in H1, H2; lines_words.
  - rewrite !Forall_cons_iff in H. destruct H as (H1 & _). lines_words.
  - rewrite !Forall_cons_iff in H. destruct H as (H1 & H2 & _). lines_words.
  - rewrite !Forall_cons_iff in H. destruct H as (H1 & H2 & _). lines_words.
  - rewrite !Forall_cons_iff in H. destruct H as (H1 & H2 & H3 & H4 & _). lines_words.
    replace (t ++ $"& " ++ n ++ $" = [&]() -> " ++ t ++ $" {") with ((t ++ $"& " ++ n ++ $" = [&]() -> " ++ t) ++ $" {") by (rewrite <- !app_assoc; reflexivity).
    apply W_open. words.
  - rewrite !Forall_cons_iff in H. destruct H as (H1 & H2 & H3 & _). destruct nano, cst; lines_words.
  - rewrite !Forall_cons_iff in H. destruct H as (H1 & H2 & H3 & _). destruct cst; lines_words.
  - rewrite !Forall_cons_iff in H. destruct H as (H1 & H2 & H3 & H4 & _). lines_words.
  - rewrite !Forall_cons_iff in H. destruct H as (H1 & H2 & H3 & _). lines_words.
Qed.
Lemma clean_cons a b A B : strip a = strip b -> clean A = clean B -> clean (a :: A) = clean (b :: B).
Proof. intros E F. change (a :: A) with ([a] ++ A). change (b :: B) with ([b] ++ B). rewrite !clean_app, F. unfold clean. cbn [map]. rewrite E. reflexivity. Qed.
Lemma strip_lead n a b : a = spaces n ++ b -> strip a = strip b.
Proof. intros ->. apply strip_spaces_l. clear. induction n; auto. Qed.
Ltac same_lines := repeat first
  [ reflexivity
  | match goal with |- clean ([] :: ?A) = clean ?B => change (clean A = clean B) end
  | apply clean_cons; [first [reflexivity | apply (strip_lead 4); reflexivity | apply (strip_lead 8); reflexivity | apply (strip_lead 12); reflexivity
      | apply (strip_lead 20); reflexivity | apply (strip_lead 24); reflexivity | apply strip_spaces_l; assumption
      | eapply eq_trans; apply strip_spaces_l; assumption ]|] ].
Lemma stmt_same i s : white i -> clean (stmt_lines i s) = clean (statement s).
Proof.
  intros [Wi _].
  destruct s as [|t n e|t n dims k v|l r|c l r|n|v n|v n|t n name d|nano cst n data count|n letter t cst|k n code code8 t|a b c];
    cbn [statement stmt_lines cond_text condition]; rewrite ?expr_text_is.
  - reflexivity.
  - reflexivity.
  - destruct v; reflexivity.
  - reflexivity.
  - change (expr_text r) with (expression r). same_lines.
  - same_lines.
  - same_lines.
  - same_lines.
  - same_lines.
  - destruct nano, cst; same_lines.
  - destruct cst; same_lines.
  - cbv zeta. replace (quoted n ++ $")!") with ([dq] ++ n ++ [dq] ++ $")!") by (unfold quoted; rewrite <- !app_assoc; reflexivity). same_lines.
  - same_lines.
Qed.

(** The last line of a statement ends with a semicolon. *)
Definition ends_well (L : list str) : Prop := forall a y post, L = a ++ y :: post -> Forall is_blank_line post -> ~ is_blank_line y -> exists s, y = s ++ $";".
Lemma ends_app L L' : ends_well L -> ends_well L' -> ends_well (L ++ L').
Proof.
  intros A B a y post E F N. destruct (LookupProofs.app_cmp L L' a (y :: post) E) as [(r & ->)|(r & ->)].
  - rewrite <- app_assoc in E. apply app_inv_head in E. exact (B r y post E F N).
  - rewrite <- app_assoc in E. apply app_inv_head in E. destruct r as [|z r]; cbn [app] in E.
    + exact (B [] y post E F N).
    + injection E as -> <-. apply Forall_app in F. destruct F as [F _]. exact (A a y r eq_refl F N).
Qed.
Lemma ends_last L s : ends_well (L ++ [s ++ $";"]).
Proof.
  intros a y post E F N. destruct post as [|p post] using rev_ind.
  - apply app_inj_tail in E. destruct E as [_ <-]. eauto.
  - replace (a ++ y :: post ++ [p]) with ((a ++ y :: post) ++ [p]) in E by (rewrite <- app_assoc; reflexivity). apply app_inj_tail in E. destruct E as [_ <-].
    apply Forall_app in F. destruct F as [_ F]. inversion F as [|? ? B _]; subst. apply Forall_app in B. destruct B as [_ B]. inversion B as [|? ? D _]. discriminate D.
Qed.
Lemma ends_by L : L <> [] -> endswith $";" (last L []) = true -> ends_well L.
Proof.
  intros N E. destruct (exists_last N) as (L' & x & ->). rewrite last_last in E. apply endswith_true in E. destruct E as (r & ->). apply ends_last.
Qed.
Lemma endswith_more p a b : endswith p b = true -> endswith p (a ++ b) = true.
Proof. intros H. apply endswith_true in H. destruct H as (r & ->). rewrite app_assoc. apply endswith_app. Qed.
Lemma stmt_ends i s : ends_well (stmt_lines i s).
Proof.
  destruct s as [|t n e|t n dims k v|l r|c l r|n|v n|v n|t n name d|nano cst n data count|n letter t cst|k n code code8 t|a b c]; cbn [stmt_lines].
  { intros a y post E F N. exfalso. destruct a as [|x a]; [injection E as <- _; apply N; constructor|]. injection E as _ E. destruct a; discriminate. }
  all: try destruct nano; try (apply ends_by; [discriminate|]; cbn [last]; repeat first [reflexivity|apply endswith_more]).
Qed.
Lemma stmts_ends i ss : ends_well (flat_map (stmt_lines i) ss).
Proof.
  induction ss as [|s ss IH]; [|apply ends_app; auto using stmt_ends]. intros a y post E. destruct a; discriminate.
Qed.
Lemma stmts_good i ss : white i -> Forall W (flat_map stmt_words ss) -> Forall good_line (flat_map (stmt_lines i) ss).
Proof.
  intros Wi. induction ss as [|s ss IH]; [constructor|]. cbn [flat_map]. rewrite !Forall_app. intros [A B]. auto using stmt_good.
Qed.
Lemma stmts_same i ss : white i -> clean (flat_map (stmt_lines i) ss) = clean (flat_map statement ss).
Proof. intros Wi. induction ss as [|s ss IH]; auto. cbn [flat_map]. rewrite !clean_app, IH, stmt_same; auto. Qed.

(** ** Texts of statements *)

Lemma text_unlines L : concat (map (fun l => l ++ [nl]) L) = unlines (L ++ [[]]).
Proof.
  induction L as [|a L IH]; auto. cbn [map concat app]. rewrite IH. unfold unlines. destruct L; cbn [app join]; rewrite <- app_assoc; reflexivity.
Qed.
Lemma text_lines L : Forall (fun l => ~ In nl l) L -> lines (concat (map (fun l => l ++ [nl]) L)) = L ++ [[]].
Proof.
  intros F. rewrite text_unlines. apply lines_unlines; [destruct L; discriminate|]. apply Forall_app. split; auto.
Qed.
Lemma stmts_lines i ss : white i -> Forall W (flat_map stmt_words ss) -> lines (stmts_text i ss) = flat_map (stmt_lines i) ss ++ [[]].
Proof. intros Wi F. apply text_lines. eapply Forall_impl; [|apply stmts_good; eauto]. intros l [_ H]. exact H. Qed.
Lemma stmts_code i ss : white i -> Forall W (flat_map stmt_words ss) -> code_lines (stmts_text i ss) = clean (flat_map statement ss).
Proof. intros Wi F. rewrite code_lines_is, stmts_lines, clean_app, stmts_same by auto. apply app_nil_r. Qed.
Lemma good_free l : good_line l -> hole_free K l.
Proof. intros [N _]. apply neutral_free in N. exact (free_part K [] l [nl] N). Qed.
Lemma free_nil : hole_free K [].
Proof. apply neutral_free. apply W_nil. Qed.
Lemma stmts_free i ss : white i -> Forall W (flat_map stmt_words ss) -> Forall (hole_free K) (lines (stmts_text i ss)).
Proof.
  intros Wi F. rewrite stmts_lines by auto. apply Forall_app. split; [|repeat constructor; apply free_nil]. eapply Forall_impl; [|apply stmts_good; eauto]. apply good_free.
Qed.
Lemma names_one_line : Forall (fun k => ~ In nl k) K.
Proof. apply one_line_names. reflexivity. Qed.
Lemma outside_nl : outside K nl.
Proof.
  unfold outside. eapply Forall_impl; [|exact names_one_line]. intros k H. unfold placeholder. intros [J|J]; [discriminate|].
  apply in_app_iff in J. destruct J as [J|[J|[]]]; [exact (H J)|discriminate].
Qed.
Lemma outside_semi : outside K ";"%char.
Proof. unfold outside, lambda_names. cbn [map]. repeat apply Forall_cons; try apply Forall_nil; intros H; cbn in H; repeat (destruct H as [H|H]; [discriminate H|]); exact H. Qed.
