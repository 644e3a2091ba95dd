From Verif Require Import PyStr PyStrLemmas PyDict TypeTextModel LambdaModel LambdaSpec AdapterModel AdapterSpec BufferModel BufferSpec.
From Verif Require NumberProofs NumberProofs2 CommentProofs3 TemplateProofs3.
(** Which parameters are buffers, sizes and strides: the tests of the adapter and those of the specification. *)

(** ** Texts *)

Definition last_word (prev : bool) (a : str) : bool := match rev a with [] => prev | c :: _ => is_word c end.
Lemma last_word_cons prev c a : last_word prev (c :: a) = last_word (is_word c) a.
Proof. unfold last_word. cbn [rev]. destruct (rev a) as [|d r]; reflexivity. Qed.

Lemma word_left_spec w s : forall prev, word_left prev w s = true <->
  exists a b, s = a ++ w ++ b /\ xorb (last_word prev a) (first_is_word (w ++ b)) = true.
Proof.
  induction s as [|c s IH]; intros prev; cbn [word_left]; rewrite orb_true_iff, andb_true_iff, startswith_true; split.
  - intros [[[b E] X]|H]; [|discriminate]. exists [], b. cbn [app]. rewrite <- E. auto.
  - intros (a & b & E & X). symmetry in E. apply app_eq_nil in E. destruct E as [-> E]. left. split; [exists b; auto|].
    rewrite E in X. exact X.
  - intros [[[b E] X]|H].
    + exists [], b. cbn [app]. rewrite <- E. auto.
    + apply IH in H. destruct H as (a & b & -> & X). exists (c :: a), b. split; auto. rewrite last_word_cons. auto.
  - intros (a & b & E & X). destruct a as [|d a].
    + left. split; [exists b; auto|]. cbn [app] in E. rewrite E. exact X.
    + right. injection E as -> ->. apply IH. exists a, b. split; auto. rewrite last_word_cons in X. auto.
Qed.

Lemma last_word_spec a : last_word false a = true <-> ends_in_word a.
Proof.
  unfold last_word, ends_in_word. split.
  - destruct (rev a) as [|c r] eqn:E; [discriminate|]. intros W. exists (rev r), c. split; auto.
    rewrite <- (rev_involutive a), E. reflexivity.
  - intros (r & c & -> & W). rewrite rev_app_distr. cbn. auto.
Qed.
Lemma first_is_word_spec b : first_is_word b = true <-> begins_with_word b.
Proof.
  unfold first_is_word, begins_with_word. split.
  - destruct b as [|c r]; [discriminate|]. intros W. eauto.
  - intros (c & r & -> & W). auto.
Qed.
Lemma boundary_spec a b : xorb (last_word false a) (first_is_word b) = true <-> boundary a b.
Proof.
  unfold boundary. rewrite <- last_word_spec, <- first_is_word_spec.
  destruct (last_word false a), (first_is_word b); cbn; intuition congruence.
Qed.

Lemma cut_star_star t : cut_star (t ++ $"*") = t.
Proof.
  unfold cut_star. rewrite TemplateProofs3.endswith_app, app_length. change (length $"*") with 1.
  replace (length t + 1 - 1) with (length t) by lia. rewrite firstn_app, firstn_all, Nat.sub_diag. apply app_nil_r.
Qed.

Lemma word_left_pointer t s : word_left false t s = true <-> exists a b, s = a ++ t ++ b /\ boundary a (t ++ b).
Proof.
  rewrite word_left_spec. split; intros (a & b & E & X); exists a, b; split; auto; apply boundary_spec; auto.
Qed.

Lemma pointer_to_spec ts p :
  existsb (contains_pointer_type (type_text (p_type p))) (pointer_types ts) = true <-> pointer_to ts p.
Proof.
  rewrite existsb_exists. unfold pointer_types, pointer_to. split.
  - intros (x & I & C). apply in_app_iff in I. rewrite !in_map_iff in I. destruct I as [(t & <- & I)|(t & <- & I)].
    + unfold contains_pointer_type in C. rewrite cut_star_star in C. cbv zeta in C. apply orb_true_iff in C.
      rewrite !word_left_pointer in C. destruct C as [(a & b & E & B)|(a & b & E & B)].
      * exists t, [], a, b. rewrite <- !app_assoc in *. split; auto. split; [left; auto|]. split; auto.
      * exists t, $" ", a, b. rewrite <- !app_assoc in *. split; auto. split; [right; left; auto|]. split; auto.
    + unfold contains_pointer_type in C. change $" *" with ($" " ++ $"*") in C. rewrite (app_assoc t), cut_star_star in C.
      cbv zeta in C. apply orb_true_iff in C.
      rewrite !word_left_pointer in C. destruct C as [(a & b & E & B)|(a & b & E & B)].
      * exists t, $" ", a, b. rewrite <- !app_assoc in *. split; auto. split; [right; left; auto|]. split; auto.
      * exists t, $"  ", a, b. rewrite <- !app_assoc in *. split; auto. split; [right; right; left; auto|]. split; auto.
  - intros (t & gap & a & b & I & G & E & B). destruct G as [<-|[<-|[<-|[]]]].
    + exists (t ++ $"*"). split; [apply in_app_iff; left; apply in_map_iff; eauto|].
      unfold contains_pointer_type. rewrite cut_star_star. cbv zeta. apply orb_true_iff. left. apply word_left_pointer.
      exists a, b. rewrite <- !app_assoc. split; auto.
    + exists (t ++ $"*"). split; [apply in_app_iff; left; apply in_map_iff; eauto|].
      unfold contains_pointer_type. rewrite cut_star_star. cbv zeta. apply orb_true_iff. right. apply word_left_pointer.
      exists a, b. rewrite <- !app_assoc. split; auto.
    + exists (t ++ $" *"). split; [apply in_app_iff; right; apply in_map_iff; eauto|].
      unfold contains_pointer_type. change $" *" with ($" " ++ $"*"). rewrite (app_assoc t), cut_star_star.
      cbv zeta. apply orb_true_iff. right. apply word_left_pointer.
      exists a, b. rewrite <- !app_assoc. split; auto.
Qed.

Lemma looks_template_spec o p : looks_template o p = true <-> template o p.
Proof. apply pointer_to_spec. Qed.
Lemma looks_buffer_spec o p : looks_buffer o p = true <-> numbers o p.
Proof.
  unfold looks_buffer, numbers. rewrite orb_true_iff, looks_template_spec. unfold looks_standard. rewrite pointer_to_spec. tauto.
Qed.

Lemma is_stride_spec p : is_stride p = true <-> strided p.
Proof.
  unfold is_stride, strided. rewrite startswith_true. split.
  - intros (r & E). destruct (NumberProofs.strip_split (p_default p)) as (a & b & S & A & B). exists a, (r ++ b). split.
    + rewrite S at 1. rewrite E. rewrite <- !app_assoc. auto.
    + rewrite forallb_forall in A. apply Forall_forall. auto.
  - intros (a & b & E & A). exists (rstrip b). rewrite E, NumberProofs2.strip_spaces_l.
    + unfold strip. change (lstrip ($"sizeof" ++ b)) with ($"sizeo" ++ "f"%char :: b).
      rewrite CommentProofs3.rstrip_keep by reflexivity. reflexivity.
    + apply forallb_forall. rewrite Forall_forall in A. auto.
Qed.

(** ** Positions *)

Lemma nth_error_skipn {A} (l : list A) i : nth_error l i = hd_error (skipn i l).
Proof. revert i. induction l as [|a l IH]; intros [|i]; cbn; auto. Qed.

Lemma skipn_tl {A} (l : list A) i : skipn (i + 1) l = tl (skipn i l).
Proof. revert i. induction l as [|a l IH]; intros [|i]; cbn; auto. Qed.

Lemma buffer_spec o ps k : forall i, buffer_loop o ps i k = true <-> buffer o k (skipn i ps).
Proof.
  induction k as [|k IH]; intros i; cbn [buffer_loop].
  - split; [discriminate|]. intros B. inversion B.
  - rewrite (nth_error_skipn ps i), (nth_error_skipn ps (i + 1)). specialize (IH (i + 1)). rewrite skipn_tl in IH |- *.
    destruct (skipn i ps) as [|p r]; cbn [hd_error tl] in *; [split; [discriminate|intros B; inversion B]|].
    destruct r as [|s r]; cbn [hd_error] in *; [split; [discriminate|intros B; inversion B]|].
    split.
    + destruct (looks_buffer o p) eqn:L; [|discriminate]. apply looks_buffer_spec in L.
      destruct (b_size_name o (p_name s)) eqn:S.
      * intros _. apply buffer_last; auto.
      * intros B. apply buffer_more; auto. apply IH; auto.
    + intros B. inversion B as [? ? ? ? N Z|? ? ? ? N Z]; subst; apply looks_buffer_spec in N; rewrite N.
      * unfold sized in Z. rewrite Z. auto.
      * destruct (b_size_name o (p_name s)); auto. apply IH; auto.
Qed.

Lemma is_buffer_spec o pre ps : is_buffer o (pre ++ ps) (length pre) = true <-> buffer o 5 ps.
Proof.
  unfold is_buffer. rewrite buffer_spec. rewrite skipn_app, skipn_all, Nat.sub_diag. cbn [app skipn]. tauto.
Qed.

Definition last_of {A} (l : list A) : option A := hd_error (rev l).

Lemma is_size_spec o pre p ps : is_size o (pre ++ p :: ps) (length pre) = true <->
  sized o p /\ exists p0, last_of pre = Some p0 /\ numbers o p0.
Proof.
  unfold last_of. destruct (rev pre) as [|p0 r] eqn:E.
  - apply (f_equal (@rev param)) in E. rewrite rev_involutive in E. subst pre. cbn. split; [discriminate|]. intros (_ & p0 & H & _). discriminate.
  - apply (f_equal (@rev param)) in E. rewrite rev_involutive in E. cbn [rev] in E. subst pre.
    rewrite app_length. cbn [length]. rewrite Nat.add_1_r. cbn [is_size].
    assert (N1 : nth_error ((rev r ++ [p0]) ++ p :: ps) (S (length (rev r))) = Some p).
    { rewrite nth_error_app2; rewrite app_length; cbn [length]; [|lia].
      replace (S (length (rev r)) - (length (rev r) + 1)) with 0 by lia. auto. }
    assert (N2 : nth_error ((rev r ++ [p0]) ++ p :: ps) (length (rev r)) = Some p0).
    { rewrite nth_error_app1 by (rewrite app_length; cbn [length]; lia). rewrite nth_error_app2, Nat.sub_diag by lia. auto. }
    rewrite N1, N2, andb_true_iff, looks_buffer_spec. unfold sized. cbn [hd_error]. split.
    + intros [A B]. split; eauto.
    + intros [A (q & E & B)]. injection E as <-. auto.
Qed.

Lemma last_buffer_eq o pre p ps : last_buffer o (pre ++ p :: ps) (length pre) = find (looks_buffer o) (p :: rev pre).
Proof.
  unfold last_buffer. f_equal. rewrite firstn_app. replace (S (length pre) - length pre) with 1 by lia.
  rewrite firstn_all2 by lia. rewrite rev_app_distr. reflexivity.
Qed.

(** ** Each parameter has the role it is given *)

Definition is_array (s : bslot) (n : numpy) : Prop := b_role s = Array n \/ b_role s = Template n.

Definition slot_fact (o : buffer_options) (all : list bslot) (i : nat) (s : bslot) : Prop :=
  let ps := map b_param all in
  let p := b_param s in
  match b_role s with
  | Array n => is_buffer o ps i = true /\ looks_template o p = false
  | Template n => is_buffer o ps i = true /\ looks_template o p = true /\ is_stride p = false
  | Size n =>
      is_buffer o ps i = false /\ is_size o ps i = true /\ is_stride p = false /\ looks_template o p = false /\
      exists b, In b all /\ is_array b n /\ last_buffer o ps i = Some (b_param b)
  | Stride n =>
      is_buffer o ps i = false /\ is_size o ps i = false /\ is_stride p = true /\ looks_template o p = false /\
      exists b, In b all /\ is_array b n /\ last_buffer o ps i = Some (b_param b)
  | Other => is_buffer o ps i = false /\ is_size o ps i = false /\ is_stride p = false /\ looks_template o p = false
  end.

Lemma not_true b : b <> true -> b = false.
Proof. destruct b; congruence. Qed.

Lemma not_buffer o p r : ~ numbers o p -> ~ buffer o 5 (p :: r).
Proof. intros N B. inversion B; contradiction. Qed.

Lemma looks_false o p : ~ numbers o p -> looks_buffer o p = false.
Proof. intros N. apply not_true. rewrite looks_buffer_spec. auto. Qed.

Lemma last_of_snoc {A} (l : list A) a : last_of (l ++ [a]) = Some a.
Proof. unfold last_of. rewrite rev_app_distr. reflexivity. Qed.

Lemma arranged_facts o prev last ss : arranged o prev last ss -> forall pre,
  prev = last_of (map b_param pre) ->
  (forall n, last = Some n -> exists b, In b pre /\ is_array b n /\
     find (looks_buffer o) (rev (map b_param pre)) = Some (b_param b)) ->
  Forall (fun k => slot_fact o (pre ++ ss) (fst k) (snd k)) (combine (seq (length pre) (length ss)) ss).
Proof.
  intros A. induction A as [|prev last p n xs ss B NT A IH|prev last p n xs ss B T NS A IH|p0 p n xs ss N0 SZ NS NN A IH
    |prev p n xs ss ST NN NZ A IH|prev last last' p xs ss NB NT NS NZ L1 L2 A IH]; intros pre P L; cbn [length seq combine].
  - constructor.
  - constructor.
    + unfold slot_fact. cbn [fst snd b_role b_param]. rewrite map_app. cbn [map b_param].
      rewrite <- (map_length b_param pre), is_buffer_spec. split; auto. apply not_true. rewrite looks_template_spec. auto.
    + specialize (IH (pre ++ [BSlot p (Array n) xs])). rewrite app_length, <- app_assoc in IH. cbn [length app] in IH.
      rewrite Nat.add_1_r in IH. apply IH.
      * rewrite map_app. cbn [map b_param]. rewrite last_of_snoc. auto.
      * intros n' E. injection E as <-. exists (BSlot p (Array n) xs). split; [apply in_app_iff; cbn; auto|].
        split; [left; auto|]. rewrite map_app, rev_app_distr. cbn [map rev app find b_param].
        assert (looks_buffer o p = true) as ->; auto. apply looks_buffer_spec. inversion B; auto.
  - constructor.
    + unfold slot_fact. cbn [fst snd b_role b_param]. rewrite map_app. cbn [map b_param].
      rewrite <- (map_length b_param pre), is_buffer_spec, looks_template_spec. split; auto. split; auto.
      apply not_true. rewrite is_stride_spec. auto.
    + specialize (IH (pre ++ [BSlot p (Template n) xs])). rewrite app_length, <- app_assoc in IH. cbn [length app] in IH.
      rewrite Nat.add_1_r in IH. apply IH.
      * rewrite map_app. cbn [map b_param]. rewrite last_of_snoc. auto.
      * intros n' E. injection E as <-. exists (BSlot p (Template n) xs). split; [apply in_app_iff; cbn; auto|].
        split; [right; auto|]. rewrite map_app, rev_app_distr. cbn [map rev app find b_param].
        assert (looks_buffer o p = true) as ->; auto. apply looks_buffer_spec. inversion B; auto.
  - constructor.
    + unfold slot_fact. cbn [fst snd b_role b_param]. rewrite map_app. cbn [map b_param].
      rewrite <- (map_length b_param pre), last_buffer_eq. split; [|split; [|split; [|split]]].
      * apply not_true. rewrite is_buffer_spec. apply not_buffer. auto.
      * apply is_size_spec. split; auto. exists p0. auto.
      * apply not_true. rewrite is_stride_spec. auto.
      * apply not_true. rewrite looks_template_spec. intros T. apply NN. right. auto.
      * destruct (L n eq_refl) as (b & I & AR & F). exists b. split; [apply in_app_iff; auto|]. split; auto.
        cbn [find]. rewrite looks_false by auto. auto.
    + specialize (IH (pre ++ [BSlot p (Size n) xs])). rewrite app_length, <- app_assoc in IH. cbn [length app] in IH.
      rewrite Nat.add_1_r in IH. apply IH.
      * rewrite map_app. cbn [map b_param]. rewrite last_of_snoc. auto.
      * intros n' E. destruct (L n' E) as (b & I & AR & F). exists b. split; [apply in_app_iff; auto|]. split; auto.
        rewrite map_app, rev_app_distr. cbn [map rev app find b_param]. rewrite looks_false by auto. auto.
  - constructor.
    + unfold slot_fact. cbn [fst snd b_role b_param]. rewrite map_app. cbn [map b_param].
      rewrite <- (map_length b_param pre), last_buffer_eq. split; [|split; [|split; [|split]]].
      * apply not_true. rewrite is_buffer_spec. apply not_buffer. auto.
      * apply not_true. rewrite is_size_spec. rewrite <- P. auto.
      * apply is_stride_spec. auto.
      * apply not_true. rewrite looks_template_spec. intros T. apply NN. right. auto.
      * destruct (L n eq_refl) as (b & I & AR & F). exists b. split; [apply in_app_iff; auto|]. split; auto.
        cbn [find]. rewrite looks_false by auto. auto.
    + specialize (IH (pre ++ [BSlot p (Stride n) xs])). rewrite app_length, <- app_assoc in IH. cbn [length app] in IH.
      rewrite Nat.add_1_r in IH. apply IH.
      * rewrite map_app. cbn [map b_param]. rewrite last_of_snoc. auto.
      * intros n' E. destruct (L n' E) as (b & I & AR & F). exists b. split; [apply in_app_iff; auto|]. split; auto.
        rewrite map_app, rev_app_distr. cbn [map rev app find b_param]. rewrite looks_false by auto. auto.
  - constructor.
    + unfold slot_fact. cbn [fst snd b_role b_param]. rewrite map_app. cbn [map b_param].
      rewrite <- (map_length b_param pre). split; [|split; [|split]].
      * apply not_true. rewrite is_buffer_spec. auto.
      * apply not_true. rewrite is_size_spec. rewrite <- P. auto.
      * apply not_true. rewrite is_stride_spec. auto.
      * apply not_true. rewrite looks_template_spec. auto.
    + specialize (IH (pre ++ [BSlot p Other xs])). rewrite app_length, <- app_assoc in IH. cbn [length app] in IH.
      rewrite Nat.add_1_r in IH. apply IH.
      * rewrite map_app. cbn [map b_param]. rewrite last_of_snoc. auto.
      * intros n E. destruct (looks_buffer o p) eqn:LB.
        { apply looks_buffer_spec in LB. rewrite (L1 LB) in E. discriminate. }
        assert (NN : ~ numbers o p). { rewrite <- looks_buffer_spec. congruence. }
        rewrite (L2 NN) in E. destruct (L n E) as (b & I & AR & F). exists b. split; [apply in_app_iff; auto|]. split; auto.
        rewrite map_app, rev_app_distr. cbn [map rev app find b_param]. rewrite LB. auto.
Qed.

Lemma arranged_all o ss : arranged o None None ss -> Forall (fun k => slot_fact o ss (fst k) (snd k)) (enumerate ss).
Proof.
  intros A. apply (arranged_facts _ _ _ _ A []); auto. intros n E. discriminate.
Qed.
