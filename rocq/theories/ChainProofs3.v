From Coq Require Import Permutation.
From Verif Require Import PyStr PyStrLemmas PyDict PyNum TypeTextModel LambdaModel LambdaSpec AdapterModel AdapterSpec
  LambdaProofs AdapterProofs AdapterProofs2 AdapterProofs3 AdapterProofs4 AdapterProofs5 BufferModel BufferSpec BufferProofs
  BufferProofs2 BufferProofs3 BufferProofs4 BufferProofs5 BufferProofs6 ChainModel ChainSpec ChainProofs ChainProofs2.
(** The names of the chain of lambdas do not clash. *)

(** ** Names made from others *)

Lemma nat_text_digits k : nat_text k <> [] /\ forallb is_digit (nat_text k) = true.
Proof.
  unfold nat_text, py_str. destruct (Z.ltb_spec (Z.of_nat k) 0); [lia|]. destruct (write_nat_spec (Z.of_nat k)) as (_ & B & C & _); auto.
Qed.
Lemma nat_text_inj j k : nat_text j = nat_text k -> j = k.
Proof. intros E. apply py_str_inj in E. lia. Qed.

Lemma last_underscore a b d d' : ~ In "_"%char d -> ~ In "_"%char d' -> a ++ $"_" ++ d = b ++ $"_" ++ d' -> a = b /\ d = d'.
Proof.
  intros N N' E. apply app_eq_app in E. destruct E as (l & [[-> E]|[-> E]]); destruct l as [|c l]; cbn in E.
  1, 3: injection E as E; rewrite app_nil_r; auto.
  - exfalso. injection E as _ E. apply N'. rewrite E. apply in_app_iff. right. left. auto.
  - exfalso. injection E as _ E. apply N. rewrite E. apply in_app_iff. right. left. auto.
Qed.
Lemma digits_no_underscore k : ~ In "_"%char (nat_text k).
Proof. destruct (nat_text_digits k) as [_ D]. rewrite forallb_forall in D. intros I. apply D in I. discriminate. Qed.

Lemma item_inj x y j k : x ++ $"_" ++ nat_text j = y ++ $"_" ++ nat_text k -> x = y /\ j = k.
Proof.
  intros E. apply last_underscore in E; try apply digits_no_underscore. destruct E as [-> E]. split; auto. apply nat_text_inj. auto.
Qed.

Lemma endings_last e : In e endings -> exists r c, e = r ++ [c] /\ is_digit c = false.
Proof.
  intros I. assert (H : forallb (fun e => match rev e with c :: _ => negb (is_digit c) | [] => false end) endings = true) by reflexivity.
  rewrite forallb_forall in H. specialize (H e I). destruct (rev e) as [|c r] eqn:R; [discriminate|].
  exists (rev r), c. split; [|destruct (is_digit c); auto; discriminate]. rewrite <- (rev_involutive e), R. auto.
Qed.

Lemma item_not_ending x y k e : In e endings -> x ++ $"_" ++ nat_text k <> y ++ e.
Proof.
  intros I E. destruct (endings_last e I) as (r & c & -> & D). destruct (nat_text_digits k) as [N F].
  destruct (exists_last N) as (d & c' & EQ). rewrite EQ in E, F. rewrite forallb_app in F. apply andb_true_iff in F. destruct F as [_ F].
  cbn in F. rewrite !app_assoc in E. apply app_inj_tail in E. destruct E as [_ ->]. rewrite D in F. discriminate.
Qed.

Lemma endings_inj x y e e' : In e endings -> In e' endings -> x ++ e = y ++ e' -> x = y /\ e = e'.
Proof.
  intros I I' E.
  assert (H : forallb (fun e => forallb (fun e' => implb (endswith e e') (seqb e e')) endings) endings = true) by (vm_compute; reflexivity).
  assert (S : forall a b z, In a endings -> In b endings -> b = z ++ a -> z = [] /\ a = b).
  { intros a b z A B Z. rewrite forallb_forall in H. specialize (H a A). rewrite forallb_forall in H. specialize (H b B).
    assert (W : endswith a b = true) by (unfold endswith; rewrite Z, rev_app_distr; apply startswith_true; eexists; reflexivity).
    rewrite W in H. cbn in H. apply seqb_true in H. subst. split; auto. apply (f_equal (@length _)) in Z. rewrite app_length in Z.
    destruct z; auto. cbn in Z. lia. }
  apply app_eq_app in E. destruct E as (z & [[-> E]|[-> E]]).
  - destruct (S e e' z I I' E) as [-> ->]. rewrite app_nil_r. auto.
  - destruct (S e' e z I' I E) as [-> ->]. rewrite app_nil_r. auto.
Qed.

Lemma endings_not_empty e : In e endings -> e <> [].
Proof. intros I ->. cbn in I. repeat destruct I as [I|I]; try discriminate; auto. Qed.

Lemma late_ending e : In e late_endings -> In e endings.
Proof. intros I. apply in_app_iff. auto. Qed.
Lemma buffer_ending e : In e buffer_endings -> In e endings.
Proof. intros I. apply in_app_iff. auto. Qed.
Lemma item_length x p : item_of x p -> length x <= length p.
Proof. intros [->|(k & ->)]; auto. rewrite app_length. lia. Qed.

Section Names.
Variables (bo : buffer_options) (f : func) (K : str -> Prop).
Hypothesis apart : forall x y, K x -> K y -> made_from bo f x y -> y = x.

Lemma item_made x p : item_of x p -> made_from bo f x p.
Proof. intros I. left. exists p. auto. Qed.
Lemma ending_made x p e : item_of x p -> In e late_endings -> made_from bo f x (p ++ e).
Proof. intros I E. left. exists p. eauto. Qed.
Lemma array_made x e : array_name bo f x -> In e buffer_endings -> made_from bo f x (x ++ e).
Proof. intros A E. right. eauto. Qed.

(** A current name is never a current name followed by an ending. *)
Lemma current_apart x y p q e : K x -> K y -> item_of x p -> item_of y q -> In e endings -> made_from bo f y (q ++ e) -> p <> q ++ e.
Proof.
  intros KX KY IX IY E M EQ. destruct IX as [->|(k & ->)].
  - rewrite <- EQ in M. pose proof (apart y x KY KX M) as XY.
    apply item_length in IY. rewrite <- XY in IY. apply (f_equal (@length _)) in EQ. rewrite app_length in EQ.
    destruct e; [apply (endings_not_empty [] E); auto|]. cbn in EQ. lia.
  - eapply item_not_ending; eauto.
Qed.

(** Two current names give different names. *)
Definition with_ending (x p n : str) : Prop := n = p \/ exists e, In e endings /\ made_from bo f x (p ++ e) /\ n = p ++ e.
Lemma names_apart x y p q n : K x -> K y -> item_of x p -> item_of y q -> with_ending x p n -> with_ending y q n -> p = q.
Proof.
  intros KX KY IX IY [->|(e & E & M & ->)] [H|(e' & E' & M' & H)]; auto.
  - exfalso. eapply (current_apart x y p q e'); eauto.
  - exfalso. symmetry in H. eapply (current_apart y x q p e); eauto.
  - eapply endings_inj in H; eauto. tauto.
Qed.
Definition own_names (p n : str) : Prop := n = p \/ exists e, In e late_endings /\ n = p ++ e.
Lemma own_with x p n : item_of x p -> own_names p n -> with_ending x p n.
Proof. intros I [->|(e & E & ->)]; [left; auto|right]. exists e. split; [apply late_ending; auto|]. split; auto. apply ending_made; auto. Qed.
Lemma own_apart x y p q n : K x -> K y -> item_of x p -> item_of y q -> own_names p n -> own_names q n -> p = q.
Proof. intros KX KY IX IY A B. eapply (names_apart x y p q n); eauto; apply own_with; auto. Qed.

(** Two original names give different names, also with elements. *)
Lemma made_apart x y n : K x -> K y -> (own_names x n \/ item_of x n) -> (own_names y n \/ item_of y n) -> x = y.
Proof.
  intros KX KY HX HY.
  assert (I0 : forall z, item_of z z) by (left; auto).
  destruct HX as [HX|HX], HY as [HY|HY].
  - eapply (own_apart x y x y n); auto.
  - destruct HY as [->|(k & ->)]; [eapply (own_apart x y x y y); auto; left; auto|].
    destruct HX as [HX|(e & E & HX)]; [|exfalso; eapply item_not_ending; [apply late_ending; exact E|eauto]].
    symmetry. symmetry. apply (apart y x); auto. rewrite <- HX. apply item_made. right. eauto.
  - destruct HX as [->|(k & ->)]; [eapply (own_apart x y x y x); auto; left; auto|].
    destruct HY as [HY|(e & E & HY)]; [|exfalso; eapply item_not_ending; [apply late_ending; exact E|eauto]].
    symmetry. apply (apart x y); auto. rewrite <- HY. apply item_made. right. eauto.
  - destruct HX as [->|(j & ->)], HY as [HY|(k & HY)]; auto.
    + apply (apart y x); auto. apply item_made. right. eauto.
    + symmetry. apply (apart x y); auto. apply item_made. right. eauto.
    + apply item_inj in HY. tauto.
Qed.
End Names.

(** ** The names of the pieces *)

Definition own (q : piece) : list str := map p_name (q_new q) ++ flat_map decls (q_input q).

Lemma pieces_perm qs : Permutation (map p_name (new_params qs) ++ flat_map decls (inputs qs)) (flat_map own qs).
Proof.
  induction qs as [|q qs IH]; auto. unfold new_params, inputs in *. cbn [flat_map]. rewrite map_app, flat_map_app. unfold own at 1.
  rewrite <- !app_assoc. apply Permutation_app_head. rewrite Permutation_app_swap_app. apply Permutation_app_head. auto.
Qed.

Lemma NoDup_app_intro {A} (a b : list A) : NoDup a -> NoDup b -> (forall x, In x a -> ~ In x b) -> NoDup (a ++ b).
Proof.
  intros NA NB D. induction NA as [|x a N NA IH]; cbn; auto. constructor.
  - rewrite in_app_iff. intros [I|I]; [auto|]. apply (D x); [left|]; auto.
  - apply IH. intros y I. apply D. right. auto.
Qed.

Lemma NoDup_flat_names (g : param -> list str) ps : NoDup (map p_name ps) -> (forall p, In p ps -> NoDup (g p)) ->
  (forall p q n, In p ps -> In q ps -> In n (g p) -> In n (g q) -> p_name p = p_name q) -> NoDup (flat_map g ps).
Proof.
  induction ps as [|p ps IH]; intros D N A; cbn [flat_map]; [constructor|]. cbn [map] in D. inversion D; subst.
  apply NoDup_app_intro.
  - apply N. left. auto.
  - apply IH; auto; [intros; apply N; right; auto|]. intros p' q n I J. apply A; right; auto.
  - intros n I J. apply in_flat_map in J. destruct J as (q & J1 & J2). apply H1. rewrite (A p q n); auto; [apply in_map; auto|left; auto|right; auto].
Qed.
