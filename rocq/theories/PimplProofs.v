From Verif Require Import PyStr PyStrLemmas PyDict RegionsModel TextModel TextSpec TextProofs CommentModel CommentSpec FillModel FillSpec FillProofs FillProofs2 FillProofs3 FillProofs4
  LambdaTextSpec LambdaTextProofs ModuleModel TypeTextModel NamedModel NamedProofs3 EnumModel EnumSpec EnumProofs EnumProofs2 EnumProofs3 CommentProofs3 CommentProofs4 ClassModel ClassSpec ClassProofs ClassProofs2 ClassProofs3 ClassProofs5
  GlueModel GlueSpec GlueProofs GlueProofs2 PimplModel PimplSpec.
Local Notation K := pimpl_names.
Local Notation T := FillSpec.Text.
Local Notation H := FillSpec.Hole.

(** ** Specifiers *)

Lemma list_remove_filter s l : NoDup l -> list_remove s l = filter (fun x => negb (seqb x s)) l.
Proof.
  induction 1 as [|y l N D IH]; [reflexivity|]. cbn [list_remove filter]. destruct (seqb_spec s y) as [->|E].
  - rewrite seqb_refl. cbn [negb]. clear IH D. induction l as [|z l IH]; [reflexivity|]. cbn [filter]. destruct (seqb_spec z y) as [->|F]; [exfalso; apply N; left; auto|].
    cbn [negb]. f_equal. apply IH. intros I. apply N. right. auto.
  - destruct (seqb_spec y s) as [->|F]; [congruence|]. cbn [negb]. f_equal. exact IH.
Qed.
Lemma remove_specifier_is s t : NoDup (specifiers t) -> remove_specifier s t = without [s] t.
Proof.
  intros D. unfold remove_specifier, without.
  assert (E : filter (fun x => negb (smem x [s])) (specifiers t) = filter (fun x => negb (seqb x s)) (specifiers t)) by (apply filter_ext; intros x; cbn; rewrite orb_false_r; reflexivity).
  rewrite E, <- list_remove_filter by exact D. destruct (smem s (specifiers t)) eqn:M; [reflexivity|]. rewrite list_remove_filter by exact D. destruct t as [n sp m]. cbn [typenames specifiers modifiers] in *.
  f_equal. symmetry. clear E D. induction sp as [|y sp IH]; [reflexivity|]. cbn [smem existsb] in M. apply orb_false_iff in M. destruct M as [A B]. cbn [filter].
  destruct (seqb_spec y s) as [->|F]; [rewrite seqb_refl in A; discriminate|]. cbn [negb]. f_equal. apply IH. exact B.
Qed.
Lemma smem_app x a b : smem x (a ++ b) = smem x a || smem x b.
Proof. unfold smem. apply existsb_app. Qed.
Lemma without_twice a b t : without b (without a t) = without (a ++ b) t.
Proof.
  unfold without. cbn [typenames specifiers modifiers]. f_equal. rewrite <- filter_andb. apply filter_ext. intros x. rewrite smem_app, negb_orb. reflexivity.
Qed.
Lemma without_nodup a t : NoDup (specifiers t) -> NoDup (specifiers (without a t)).
Proof. intros D. apply NoDup_filter. exact D. Qed.
Lemma without_same a b t : (forall x, smem x a = smem x b) -> without a t = without b t.
Proof. intros E. unfold without. f_equal. apply filter_ext. intros x. rewrite E. reflexivity. Qed.
Lemma incompatible_is t : NoDup (specifiers t) -> remove_incompatible t = without header_only t.
Proof.
  intros D. unfold remove_incompatible. rewrite (remove_specifier_is $"inline") by exact D. rewrite remove_specifier_is by (apply without_nodup; exact D).
  rewrite without_twice. reflexivity.
Qed.
Lemma declared_result t : NoDup (specifiers t) -> remove_incompatible (remove_incompatible t) = without header_only t.
Proof.
  intros D. rewrite (incompatible_is t D), incompatible_is by (apply without_nodup; exact D). rewrite without_twice. apply without_same. intros x. rewrite smem_app. apply orb_diag.
Qed.
Lemma defined_result t : NoDup (specifiers t) -> remove_incompatible (if smem $"static" (specifiers t) then remove_specifier $"static" t else t) = without decl_only t.
Proof.
  intros D. assert (E : (if smem $"static" (specifiers t) then remove_specifier $"static" t else t) = without [$"static"] t).
  { rewrite <- remove_specifier_is by exact D. unfold remove_specifier. destruct (smem $"static" (specifiers t)); reflexivity. }
  rewrite E, incompatible_is by (apply without_nodup; exact D). rewrite without_twice. reflexivity.
Qed.
Lemma void_is t : is_void (without decl_only t) =
  negb (match typenames t, filter (fun s => negb (smem s decl_only)) (specifiers t), modifiers t with [n], [], [] => negb (seqb n $"void") | _, _, _ => true end).
Proof.
  unfold is_void, without. cbn [typenames specifiers modifiers]. destruct (typenames t) as [|n [|? ?]]; try reflexivity.
  destruct (filter (fun s => negb (smem s decl_only)) (specifiers t)); try reflexivity. destruct (modifiers t); try reflexivity. rewrite negb_involutive. reflexivity.
Qed.

(** ** The end of a text *)

Lemma starts_before c (p : str) : ~ In c p -> forall b a, startswith p (b ++ c :: a) = startswith p b.
Proof.
  induction p as [|x p IH]; intros N b a; [destruct b; reflexivity|]. destruct b as [|y b]; cbn [app startswith].
  - destruct (ceqb_spec x c) as [->|E]; [exfalso; apply N; left; auto|reflexivity].
  - rewrite IH; [reflexivity|]. intros I. apply N. right. auto.
Qed.
Lemma ends_after c (p a b : str) : ~ In c p -> endswith p (a ++ c :: b) = endswith p b.
Proof.
  intros N. unfold endswith. rewrite rev_app_distr. cbn [rev]. rewrite <- app_assoc. cbn [app]. apply starts_before. intros I. apply N. apply in_rev. exact I.
Qed.
Lemma ends_in p (t z : str) : endswith p (t ++ z) = startswith (rev p) (rev z ++ rev t).
Proof. unfold endswith. rewrite rev_app_distr. reflexivity. Qed.
(** No comma is cut. *)
Definition kept (t : str) : Prop := endswith $", " t = false /\ endswith $", );" t = false /\ endswith $", )" t = false.
Lemma kept_after a e : kept e -> kept (a ++ "/"%char :: e).
Proof.
  intros (A & B & C). unfold kept. rewrite !ends_after by (cbn; intuition discriminate). auto.
Qed.

(** ** Filling *)

Lemma fill_both t d dl c : process_code_template t d (map (fun kv => (fst kv, Some (snd kv))) dl) c = process_code_template t (d ++ dl) [] c.
Proof.
  unfold process_code_template, replace_in_string, replace_in_string_remove_line_if_none. rewrite fold_left_app. cbn [fold_left]. cbv zeta.
  assert (E : forall r, fold_left replace_or_remove (map (fun kv : str * str => (fst kv, Some (snd kv))) dl) r = fold_left (fun r kv => replace (placeholder (fst kv)) (snd kv) r) dl r).
  { induction dl as [|x dl IH]; intros r; [reflexivity|]. cbn [map fold_left]. rewrite IH. reflexivity. }
  rewrite E. reflexivity.
Qed.
Lemma pimpl_are : Forall is_name K.
Proof. apply names_ok. reflexivity. Qed.
Lemma pimpl_name k : smem k K = true -> is_name k.
Proof. intros M. apply smem_In in M. pose proof pimpl_are as F. rewrite Forall_forall in F. auto. Qed.
Lemma pimpl_comma : In $"maybe_comma" K.
Proof. apply smem_In. reflexivity. Qed.
Ltac pieces := repeat (apply Forall_cons; [first [apply pimpl_name; reflexivity|apply neutralb_true; reflexivity]|]); apply Forall_nil.
Lemma filled t ps d out : t = render ps -> Forall (piece_ok K) ps -> forallb (fun k => smem k K) (map fst d) = true -> Forall (neutral K) (map snd d) ->
  map (fill1 $"maybe_comma" $", ") (map (fill d) ps) = map T out -> kept (concat out) -> process_code_template t d [] true = concat out.
Proof.
  intros E O I V M (A & B & C). apply (fill_plain K t ps d out); auto; [apply smem_incl; exact I| |apply pimpl_comma].
  apply Forall_forall. intros k J. apply pimpl_name. rewrite forallb_forall in I. auto.
Qed.

(** ** Texts *)

Lemma plain_by_check s : forallb plain_c s = true -> plain_text s.
Proof. intros E. apply Forall_forall. intros c I. rewrite forallb_forall in E. auto. Qed.
Lemma plain_is s : plain_text s -> bare s /\ ~ In "{"%char s /\ ~ In nl s.
Proof.
  intros F. unfold plain_text in F. rewrite Forall_forall in F.
  assert (N : forall c, existsb (ceqb c) [dq; "/"; nl; "{"]%char = true -> ~ In c s) by (intros c E I; apply F in I; unfold plain_c in I; rewrite E in I; discriminate).
  repeat split; try (apply N; reflexivity). apply Forall_forall. intros c I. split; intros ->; revert I; apply N; reflexivity.
Qed.
Lemma plain_neutral s : plain_text s -> neutral K s.
Proof. intros P. apply no_brace_neutral, (plain_is s P). Qed.
Lemma plain_free s : plain_text s -> free s.
Proof. intros P. apply free_bare, (plain_is s P). Qed.
Lemma word_is s : word s -> neutral K s /\ ~ In nl s.
Proof. intros W. split; [apply word_neutral; auto|]. apply simple_no_nl, word_simple, W. Qed.
Lemma neutral_empty : neutral K [].
Proof. intros a b k E. destruct a; discriminate. Qed.
Lemma neutral_joined sep ls : neutral K sep -> Forall (neutral K) ls -> neutral K (join sep ls).
Proof.
  intros S F. destruct ls as [|a ls]; [apply neutral_empty|]. inversion F as [|? ? A F']; subst. clear F. revert a A. induction F' as [|b ls B F IH]; intros a A.
  - exact A.
  - change (neutral K (a ++ sep ++ join sep (b :: ls))). repeat apply neutral_app; auto.
Qed.
Lemma params_neutral ps : Forall good_param ps -> neutral K (params_code ps).
Proof. intros F. apply neutral_joined; [apply neutralb_true; reflexivity|]. apply Forall_map. eapply Forall_impl; [|exact F]. intros p (_ & N & _). exact N. Qed.
Lemma names_neutral ps : Forall good_param ps -> neutral K (names_code ps).
Proof. intros F. apply neutral_joined; [apply neutralb_true; reflexivity|]. apply Forall_map. eapply Forall_impl; [|exact F]. intros p (_ & _ & _ & _ & W). apply word_neutral. exact W. Qed.
Lemma params_line ps : Forall good_param ps -> ~ In nl (params_code ps).
Proof.
  intros F. apply join_not_in; [cbn; intuition discriminate|]. apply Forall_map. eapply Forall_impl; [|exact F]. intros p (C & _). destruct (cpp_written _ C) as (qs & -> & Q). apply written_no_nl. exact Q.
Qed.
Lemma params_reads ps : Forall good_param ps -> reads (params_code ps ++ $")") (commas (map (fun p => read_text (fst p)) ps) ++ [Sign ")"]).
Proof.
  intros F. unfold params_code. rewrite <- (map_map fst read_text). apply params_read. apply Forall_map. eapply Forall_impl; [|exact F]. intros p (C & _). exact C.
Qed.
Lemma names_reads ps : Forall good_param ps -> reads (names_code ps ++ $")") (commas (map (fun p => [Word (snd p)]) ps) ++ [Sign ")"]).
Proof.
  intros F. unfold names_code. destruct ps as [|p ps]; [known|]. rewrite <- (map_map snd (fun n => [Word n])).
  apply (names_read _ ")"%char); [|discriminate|apply cuts_check; reflexivity]. apply Forall_map. eapply Forall_impl; [|exact F]. intros q (_ & _ & _ & _ & W). exact W.
Qed.
(** Parameters do not end as a cut list. *)
Lemma params_last ps : Forall good_param ps -> ps = [] \/ exists t c, params_code ps = t ++ [c] /\ c <> " "%char.
Proof.
  intros F. destruct (last_case (params_code ps)) as [E|(t & c & E)].
  - destruct ps as [|p ps]; auto. inversion F as [|? ? (_ & _ & N & _) _]; subst. exfalso. apply N. unfold params_code in E. cbn [map] in E. destruct (map fst ps); cbn [join] in E; auto.
    apply app_eq_nil in E. apply E.
  - destruct ps as [|p ps]; auto. right. exists t, c. split; auto. intros ->. destruct (exists_last (l := p :: ps)) as (qs & q & Q); [discriminate|]. rewrite Q in *.
    apply Forall_app in F. destruct F as [_ F]. inversion F as [|? ? (_ & _ & N & S & _) _]; subst. destruct (last_case (fst q)) as [Z|(u & d & Z)]; [contradiction|].
    assert (X : exists v, params_code (qs ++ [q]) = v ++ fst q).
    { unfold params_code. rewrite map_app. cbn [map]. clear. induction (map fst qs) as [|a l IH]; [exists []; reflexivity|]. destruct IH as (v & IH). destruct l as [|b l].
      - exists (a ++ $", "). cbn [app join]. rewrite <- app_assoc. reflexivity.
      - exists (a ++ $", " ++ v). change (join $", " ((a :: b :: l) ++ [fst q])) with (a ++ $", " ++ join $", " ((b :: l) ++ [fst q])). rewrite IH, <- !app_assoc. reflexivity. }
    destruct X as (v & X). rewrite X, Z, app_assoc in E. apply app_inj_tail in E. destruct E as [_ ->]. rewrite Z in S. rewrite ends_in in S. discriminate.
Qed.
