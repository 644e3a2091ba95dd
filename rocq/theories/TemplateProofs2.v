(** Proofs: translation of type texts. *)
From Verif Require Import PyStr PyStrLemmas TemplateModel TemplateSpec NumberProofs NumberProofs2 TemplateProofs.

(** *** Words *)

Lemma words_space c s : is_space c = true -> words (c :: s) = words s.
Proof. intros H. cbn [words]. rewrite H. auto. Qed.
Lemma words_nonempty c s : is_space c = false -> exists w ws, words (c :: s) = (c :: w) :: ws.
Proof.
  intros H. cbn [words]. rewrite H. destruct s as [|d s]; eauto. destruct (is_space d); eauto.
  destruct (words (d :: s)) as [|w ws]; eauto.
Qed.
Lemma words_cons c s : is_space c = false -> words (c :: s) =
  match s with
  | [] => [[c]]
  | d :: _ => if is_space d then [c] :: words s
              else match words s with w :: ws => (c :: w) :: ws | [] => [[c]] end
  end.
Proof. intros H. cbn [words]. rewrite H. auto. Qed.
Lemma words_app_space a c b : is_space c = true -> words (a ++ c :: b) = words a ++ words b.
Proof.
  intros Hc. induction a as [|x a IH].
  - cbn [app]. rewrite words_space; auto.
  - cbn [app]. destruct (is_space x) eqn:Hx.
    + rewrite !words_space; auto.
    + rewrite !words_cons, IH by auto. destruct a as [|d a].
      * cbn [app]. rewrite Hc. auto.
      * cbn [app]. destruct (is_space d) eqn:Hd; auto.
        destruct (words_nonempty d a Hd) as (w & ws & ->). auto.
Qed.
Lemma words_spaces a : forallb is_space a = true -> words a = [].
Proof.
  induction a as [|c a IH]; intros H; auto. cbn in H. apply andb_prop in H. destruct H. rewrite words_space; auto.
Qed.
Lemma words_spaces_l a s : forallb is_space a = true -> words (a ++ s) = words s.
Proof.
  induction a as [|c a IH]; intros H; auto. cbn in H. apply andb_prop in H. destruct H. cbn [app].
  rewrite words_space; auto.
Qed.
Lemma words_spaces_r a s : forallb is_space a = true -> words (s ++ a) = words s.
Proof.
  destruct a as [|c a]; intros H; [rewrite app_nil_r; auto|]. cbn in H. apply andb_prop in H. destruct H.
  rewrite words_app_space, (words_spaces a) by auto. apply app_nil_r.
Qed.
Lemma words_strip s : words (strip s) = words s.
Proof.
  destruct (strip_split s) as (a & b & E & Ha & Hb). rewrite E at 2. rewrite words_spaces_l, words_spaces_r; auto.
Qed.
Lemma collapse_head s : match s with
  | [] => collapse s = []
  | d :: _ => exists r, collapse s = (if is_space d then sp else d) :: r
  end.
Proof.
  induction s as [|d s IH]; auto. cbn [collapse]. destruct (is_space d) eqn:Hd; [|eauto].
  destruct s as [|e s]; [eauto|]. destruct (is_space e) eqn:He; eauto.
Qed.
Lemma words_collapse s : words (collapse s) = words s.
Proof.
  induction s as [|c s IH]; auto. destruct (is_space c) eqn:Hc.
  - rewrite (words_space c s) by auto. cbn [collapse]. rewrite Hc.
    destruct s as [|d s]; auto. destruct (is_space d) eqn:Hd; auto.
  - cbn [collapse]. rewrite Hc. rewrite !words_cons by auto. rewrite IH. pose proof (collapse_head s) as H.
    destruct s as [|d s]; [rewrite H; auto|]. destruct H as (r & ->). destruct (is_space d) eqn:Hd; auto.
    rewrite Hd. auto.
Qed.
Lemma words_normalize s : words (normalize_whitespace s) = words s.
Proof. unfold normalize_whitespace. rewrite words_strip. apply words_collapse. Qed.

(** *** Cutting at brackets *)

Definition plain (s : str) : Prop := forallb (fun c => negb (bracket c)) s = true.

Lemma cut_plain s : plain s -> cut s = (s, []).
Proof.
  unfold plain. induction s as [|c s IH]; intros H; auto. cbn in H. apply andb_prop in H. destruct H as (H1 & H2).
  cbn [cut]. rewrite IH by auto. apply negb_true_iff in H1. rewrite H1. auto.
Qed.
Lemma cut_prefix p c s : plain p -> bracket c = true -> cut (p ++ c :: s) = (p, (c, fst (cut s)) :: snd (cut s)).
Proof.
  intros Hp Hc. unfold plain in Hp. induction p as [|x p IH].
  - cbn [app cut]. rewrite Hc. destruct (cut s); auto.
  - cbn in Hp. apply andb_prop in Hp. destruct Hp as (H1 & H2). apply negb_true_iff in H1.
    cbn [app cut]. rewrite IH by auto. rewrite H1. auto.
Qed.
(** Either no bracket, or a first one. *)
Lemma bracket_cases s : plain s \/ exists p c t, s = p ++ c :: t /\ plain p /\ bracket c = true.
Proof.
  induction s as [|c s IH]; [left; reflexivity|]. destruct (bracket c) eqn:E.
  - right. exists [], c, s. repeat split; auto.
  - destruct IH as [IH|(p & d & t & -> & Hp & Hd)].
    + left. unfold plain in *. cbn. rewrite E. auto.
    + right. exists (c :: p), d, t. repeat split; auto. unfold plain in *. cbn. rewrite E. auto.
Qed.
Lemma bracket_ind (P : str -> Prop) :
  (forall s, plain s -> P s) -> (forall p c t, plain p -> bracket c = true -> P t -> P (p ++ c :: t)) -> forall s, P s.
Proof.
  intros H1 H2 s. remember (length s) as n eqn:En. revert s En. induction n as [n IH] using lt_wf_ind. intros s ->.
  destruct (bracket_cases s) as [H|(p & c & t & -> & Hp & Hc)]; auto.
  apply H2; auto. apply (IH (length t)); auto. rewrite app_length. cbn. lia.
Qed.

Definition comb {A} (c : ascii) (x y : A * list (ascii * A)) : A * list (ascii * A) :=
  (fst x, snd x ++ (square c, fst y) :: snd y).
Lemma comb_assoc {A} c d (x y z : A * list (ascii * A)) : comb c x (comb d y z) = comb d (comb c x y) z.
Proof. unfold comb. cbn. rewrite <- app_assoc. auto. Qed.

Section Shape.
Context {A : Type}.
Variable g : str -> A.
Lemma shape_plain s : plain s -> shape g s = (g s, []).
Proof. intros H. unfold shape. rewrite cut_plain by auto. auto. Qed.
Lemma shape_prefix p c s : plain p -> bracket c = true -> shape g (p ++ c :: s) = comb c (g p, []) (shape g s).
Proof. intros Hp Hc. unfold shape. rewrite cut_prefix by auto. destruct (cut s); auto. Qed.
Lemma shape_sep x c y : bracket c = true -> shape g (x ++ c :: y) = comb c (shape g x) (shape g y).
Proof.
  intros Hc. revert x. apply bracket_ind.
  - intros s Hs. rewrite shape_prefix, (shape_plain s) by auto. auto.
  - intros p d t Hp Hd IH. rewrite <- app_assoc. cbn [app]. rewrite (shape_prefix p d (t ++ c :: y)), (shape_prefix p d t), IH by auto. apply comb_assoc.
Qed.
Hypothesis g_left : forall c s, is_space c = true -> g (c :: s) = g s.
Hypothesis g_right : forall c s, is_space c = true -> g (s ++ [c]) = g s.
Lemma bracket_not_space c : bracket c = true -> is_space c = false.
Proof.
  unfold bracket. intros H. rewrite !orb_true_iff, !ceqb_true in H. destruct H as [[[ -> | -> ]| -> ]| -> ]; reflexivity.
Qed.
Lemma space_plain c : is_space c = true -> bracket c = false.
Proof. intros H. destruct (bracket c) eqn:E; auto. apply bracket_not_space in E. congruence. Qed.
Lemma shape_left c s : is_space c = true -> shape g (c :: s) = shape g s.
Proof.
  intros Hc. unfold shape. cbn [cut]. destruct (cut s) as [h l]. rewrite space_plain by auto. rewrite g_left by auto. auto.
Qed.
Lemma shape_right c s : is_space c = true -> shape g (s ++ [c]) = shape g s.
Proof.
  intros Hc. revert s. apply bracket_ind.
  - intros s Hs. rewrite !shape_plain, g_right; auto. unfold plain in *. rewrite forallb_app, Hs. cbn.
    rewrite space_plain; auto.
  - intros p d t Hp Hd IH. rewrite <- app_assoc. cbn [app].
    rewrite (shape_prefix p d (t ++ [c])), (shape_prefix p d t), IH by auto. auto.
Qed.
Lemma shape_strip s : shape g (strip s) = shape g s.
Proof.
  destruct (strip_split s) as (a & b & E & Ha & Hb). rewrite E at 2.
  replace (shape g (a ++ strip s ++ b)) with (shape g (strip s ++ b)).
  - clear E Ha a. generalize (strip s) as t. clear s. induction b as [|c b IH] using rev_ind; intros t.
    + rewrite app_nil_r. auto.
    + rewrite forallb_app in Hb. cbn in Hb. apply andb_prop in Hb. destruct Hb as (Hb & Hc). rewrite andb_true_r in Hc.
      rewrite app_assoc, shape_right by auto. auto.
  - clear E. induction a as [|c a IH]; auto. cbn in Ha. apply andb_prop in Ha. destruct Ha as (H1 & H2).
    cbn [app]. rewrite shape_left; auto.
Qed.
End Shape.

Lemma collapse_plain s : plain s -> plain (collapse s).
Proof.
  unfold plain. induction s as [|c s IH]; intros H; auto. cbn in H. apply andb_prop in H. destruct H as (H1 & H2).
  cbn [collapse]. destruct (is_space c); [destruct s as [|d s]; auto; destruct (is_space d); auto|];
    cbn [forallb]; rewrite ?H1; auto.
Qed.
Lemma collapse_sep p c t : is_space c = false -> collapse (p ++ c :: t) = collapse p ++ c :: collapse t.
Proof.
  intros Hc. induction p as [|x p IH]; cbn [app collapse].
  - rewrite Hc. auto.
  - destruct (is_space x) eqn:Hx; [|rewrite IH; auto].
    destruct p as [|d p]; cbn [app] in *.
    + rewrite Hc in *. rewrite IH. auto.
    + destruct (is_space d); rewrite IH; auto.
Qed.
Lemma shape_collapse s : shape words (collapse s) = shape words s.
Proof.
  revert s. apply bracket_ind.
  - intros s Hs. rewrite !shape_plain by auto using collapse_plain. rewrite words_collapse. auto.
  - intros p c t Hp Hc IH. rewrite collapse_sep by (apply bracket_not_space; auto).
    rewrite !shape_prefix, IH, words_collapse by auto using collapse_plain. auto.
Qed.
Lemma words_left c s : is_space c = true -> words (c :: s) = words s.
Proof. apply words_space. Qed.
Lemma words_right c s : is_space c = true -> words (s ++ [c]) = words s.
Proof. intros H. apply words_spaces_r. cbn. rewrite H. auto. Qed.
Lemma shape_normalize s : shape words (normalize_whitespace s) = shape words s.
Proof.
  unfold normalize_whitespace. rewrite shape_strip by (apply words_left || apply words_right). apply shape_collapse.
Qed.

(** *** Square brackets *)

Lemma replace_square s : replace $">" $"]" (replace $"<" $"[" s) = map square s.
Proof.
  unfold lit. cbn [list_ascii_of_string]. rewrite !replace_single_char.
  induction s as [|c s IH]; auto. cbn [flat_map map]. rewrite flat_map_app, IH. unfold square.
  destruct (ceqb_spec c "<") as [->|N]; auto. cbn [flat_map]. destruct (ceqb_spec c ">"); auto.
Qed.
Lemma bracket_square c : bracket (square c) = bracket c.
Proof.
  unfold square. destruct (ceqb_spec c "<") as [->|N1]; auto. destruct (ceqb_spec c ">") as [->|N2]; auto.
Qed.
Lemma square_square c : square (square c) = square c.
Proof.
  unfold square. destruct (ceqb_spec c "<") as [->|N1]; auto. destruct (ceqb_spec c ">") as [->|N2]; auto.
  apply ceqb_false in N1, N2. rewrite N1, N2. auto.
Qed.
Lemma square_plain c : bracket c = false -> square c = c.
Proof.
  unfold bracket, square. intros H. rewrite !orb_false_iff in H. destruct H as [[[H1 H2] _] _]. rewrite H1, H2. auto.
Qed.
Lemma shape_square {A} (g : str -> A) s : shape g (map square s) = shape g s.
Proof.
  assert (Hp : forall p, plain p -> map square p = p).
  { intros p. unfold plain. induction p as [|c p IH]; intros H; auto. cbn in *. apply andb_prop in H. destruct H as (H1 & H2).
    rewrite IH, square_plain; auto. apply negb_true_iff; auto. }
  revert s. apply bracket_ind.
  - intros s Hs. rewrite Hp; auto.
  - intros p c t Hpp Hc IH. rewrite map_app. cbn [map]. rewrite Hp by auto.
    rewrite !shape_prefix, IH; auto; [|rewrite bracket_square; auto]. unfold comb. rewrite square_square. auto.
Qed.
Lemma square_not_angle c : square c <> "<"%char /\ square c <> ">"%char.
Proof.
  unfold square. destruct (ceqb_spec c "<") as [->|N1]; [split; discriminate|].
  destruct (ceqb_spec c ">") as [->|N2]; [split; discriminate|]. auto.
Qed.

(** *** Translation *)

Lemma balanced_snoc t : balanced t -> forall s c, t = s ++ [c] -> c <> "<"%char -> c <> ">"%char -> balanced s.
Proof.
  induction 1 as [|d t H1 H2 H IH|i t Hi IHi Ht IHt]; intros s c E N1 N2.
  - destruct s; discriminate.
  - destruct s as [|e s]; [apply bal_nil|]. cbn in E. injection E as <- E. apply bal_char; eauto.
  - destruct (list_eq_dec ascii_dec t []) as [->|Ne].
    + exfalso. assert (E2 : last ("<"%char :: i ++ [">"%char]) nl = c) by (rewrite E; apply last_last).
      rewrite app_comm_cons, last_last in E2. congruence.
    + destruct (exists_last Ne) as (t' & d & ->).
      assert (E2 : ("<"%char :: i ++ ">"%char :: t') ++ [d] = s ++ [c]).
      { rewrite <- E. cbn. rewrite <- app_assoc. auto. }
      apply app_inj_tail in E2. destruct E2 as (<- & ->). apply bal_pair; eauto.
Qed.
Lemma space_not_angle c : is_space c = true -> c <> "<"%char /\ c <> ">"%char.
Proof. intros H. split; intros ->; discriminate. Qed.
Lemma balanced_strip s : balanced s -> balanced (strip s).
Proof.
  destruct (strip_split s) as (a & b & E & Ha & Hb). rewrite E at 1. generalize (strip s) as t. clear E s. intros t H.
  assert (H2 : balanced (t ++ b)).
  { clear Hb. induction a as [|c a IH]; auto. cbn in Ha. apply andb_prop in Ha. destruct Ha as (H1 & H2).
    apply IH; auto. cbn in H. inversion H; subst; auto. discriminate. }
  clear H Ha a. induction b as [|c b IH] using rev_ind; [rewrite app_nil_r in H2; auto|].
  rewrite forallb_app in Hb. cbn in Hb. apply andb_prop in Hb. destruct Hb as (Hb & Hc). rewrite andb_true_r in Hc.
  apply IH; auto. destruct (space_not_angle c Hc). apply (balanced_snoc _ H2 _ c); auto. apply app_assoc.
Qed.

Lemma perform_ends tr fuel s : length s < fuel -> perform tr fuel s <> OutOfFuel.
Proof.
  revert s. induction fuel as [|fuel IH]; intros s Hl; [lia|]. cbn [perform].
  destruct (negb (contains $"<" s)); [discriminate|].
  destruct (split_sound s) as [->|(b & i & a & -> & E & _)]; [discriminate|].
  assert (Hi : length (strip i) < fuel).
  { pose proof (strip_length i). subst s. rewrite app_length in Hl. cbn in Hl. rewrite app_length in Hl. cbn in Hl.
    unfold str in *. lia. }
  apply IH in Hi. destruct (perform tr fuel (strip i)); congruence.
Qed.

Lemma perform_no_angle tr fuel s r : In "<"%char s -> perform tr fuel s = Ok r ->
  ~ In "<"%char r /\ ~ In ">"%char r.
Proof.
  intros Hi. destruct fuel as [|fuel]; [discriminate|]. cbn [perform].
  change $"<" with ["<"%char] at 1. rewrite (proj2 (contains_single _ _) Hi). cbn [negb].
  destruct (split_cpp_type_template_args s) as [|b [|i [|a [|? ?]]]]; try discriminate.
  destruct (perform tr fuel (strip i)) as [inside| |]; try discriminate. intros [= <-]. rewrite replace_square.
  assert (H : forall c x, In c (normalize_whitespace (map square x)) -> c <> "<"%char /\ c <> ">"%char).
  { intros c x Hc. unfold normalize_whitespace in Hc.
    destruct (strip_split (collapse (map square x))) as (p & q & E & _).
    assert (Hc2 : In c (collapse (map square x))) by (rewrite E; apply in_or_app; right; apply in_or_app; auto).
    clear - Hc2. induction x as [|y x IH]; [destruct Hc2|]. cbn [map collapse] in Hc2.
    assert (Hm : In c (sp :: collapse (map square x)) -> c <> "<"%char /\ c <> ">"%char).
    { intros [<-|Hc]; [split; discriminate|auto]. }
    destruct (is_space (square y)).
    - destruct (map square x) eqn:Em; [destruct Hc2 as [<-|[]]; split; discriminate|].
      destruct (is_space a); auto.
    - destruct Hc2 as [<-|Hc2]; [apply square_not_angle|auto]. }
  split; intros C; apply H in C; tauto.
Qed.

Section Per.
Variable tr : str -> str.
Hypothesis Hper : per_text tr.
Let g := fun x => words (tr x).

Lemma g_space_left c s : is_space c = true -> g (c :: s) = g s.
Proof. intros H. destruct Hper as (_ & H2 & _). apply H2. apply words_left; auto. Qed.
Lemma g_space_right c s : is_space c = true -> g (s ++ [c]) = g s.
Proof. intros H. destruct Hper as (_ & H2 & _). apply H2. apply words_right; auto. Qed.
Lemma shape_tr s : shape words (tr s) = shape g s.
Proof.
  destruct Hper as (H1 & _ & _). unfold shape. rewrite H1. destruct (cut s) as [h l]. unfold g. f_equal.
  rewrite map_map. apply map_ext. intros [c x]. auto.
Qed.
Lemma shape_again x y : shape words x = shape g y -> shape g x = shape g y.
Proof.
  destruct Hper as (_ & H2 & H3). unfold shape. destruct (cut x) as [h l], (cut y) as [h' l'].
  assert (Hg : forall u v, words u = g v -> g u = g v).
  { intros u v E. unfold g in *. rewrite <- (H3 v). apply H2. auto. }
  intros [= E1 E2]. f_equal; auto. clear E1. revert l' E2. induction l as [|[c u] l IH]; intros [|[d v] l'] E2; try discriminate; auto.
  cbn in *. injection E2 as E3 E4 E5. f_equal; auto. rewrite E3. f_equal. auto.
Qed.

Lemma perform_shape fuel s : balanced s -> length s < fuel ->
  exists r, perform tr fuel s = Ok r /\ shape words r = shape g s.
Proof.
  revert s. induction fuel as [|fuel IH]; intros s Hb Hl; [lia|]. cbn [perform].
  destruct (contains $"<" s) eqn:Hc; cbn [negb].
  - change $"<" with ["<"%char] in Hc at 1. apply contains_single in Hc.
    destruct (balanced_split s Hb Hc) as (b & i & a & -> & Hb1 & Hi & Ha).
    rewrite split_complete by auto.
    destruct (IH (strip i)) as (inside & E & Es).
    + apply balanced_strip; auto.
    + pose proof (strip_length i). rewrite app_length in Hl. cbn in Hl. rewrite app_length in Hl. cbn in Hl.
      unfold str in *. lia.
    + rewrite E. eexists. split; [reflexivity|].
      rewrite replace_square, shape_normalize, shape_square, shape_tr.
      change (tr (strip b) ++ $"<" ++ inside ++ $">" ++ tr (strip a))
        with (tr (strip b) ++ "<"%char :: inside ++ ">"%char :: tr (strip a)).
      rewrite !shape_sep by reflexivity. rewrite shape_strip in Es by auto using g_space_left, g_space_right.
      rewrite (shape_again inside i Es).
      assert (Ht : forall x, shape g (tr (strip x)) = shape g x).
      { intros x. rewrite (shape_again (tr (strip x)) (strip x)) by apply shape_tr.
        apply shape_strip; auto using g_space_left, g_space_right. }
      rewrite !Ht. auto.
  - eexists. split; [reflexivity|]. apply shape_tr.
Qed.
End Per.
