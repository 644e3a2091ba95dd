(** Proofs for C25: the tree of namespace code. *)
From Verif Require Import PyStr PyStrLemmas RegionsModel TextModel ScopeModel ScopeSpec ScopeProofs
  OverloadModel OverloadSpec OverloadProofs ModuleModel ModuleSpec.

Lemma same_path_spec p q : reflect (p = q) (same_path p q).
Proof. unfold same_path. destruct (list_eq_dec (list_eq_dec Ascii.ascii_dec) p q); constructor; auto. Qed.
Lemma same_path_refl p : same_path p p = true.
Proof. destruct (same_path_spec p p); congruence. Qed.

(** *** Induction on documents *)
Section DocInd.
Variable P : doc -> Prop.
Hypothesis H : forall own subs, Forall (fun s => P (snd s)) subs -> P (Doc own subs).
Fixpoint doc_ind' (d : doc) : P d :=
  match d with
  | Doc own subs =>
      H own subs ((fix go (l : list (str * doc)) : Forall (fun s => P (snd s)) l :=
                     match l with
                     | [] => Forall_nil _
                     | s :: l' => Forall_cons s (doc_ind' (snd s)) (go l')
                     end) subs)
  end.
End DocInd.

(** *** The tree of a document *)
Fixpoint tree_of (d : doc) : tree :=
  match d with Doc own subs => Tree (paragraphs own) (map (fun s => (fst s, tree_of (snd s))) subs) end.
Definition empty_doc : doc := Doc [] [].

Definition find_sub (subs : list (str * doc)) (n : str) : doc :=
  match assoc subs n with Some s => s | None => empty_doc end.

Lemma frags_cons n p own subs : frags (n :: p) (Doc own subs) = frags p (find_sub subs n).
Proof.
  unfold find_sub. cbn. induction subs as [|[m s] subs IH]; cbn.
  - destruct p; auto.
  - destruct (seqb m n); auto.
Qed.

Lemma frags_empty p : frags p empty_doc = [].
Proof. destruct p; auto. Qed.

Definition dadd (code : str) (d : doc) : doc :=
  match d with Doc own subs => Doc (own ++ [code]) subs end.
Fixpoint dstore (names : list str) (code : str) (d : doc) : doc :=
  match names with
  | [] => d
  | n :: names' =>
      let on_sub s := match names' with [] => dadd code s | _ => dstore names' code s end in
      match d with Doc own subs => Doc own (update subs n on_sub (on_sub empty_doc)) end
  end.

Lemma paragraphs_snoc own c : paragraphs (own ++ [c]) =
  (match paragraphs own with
   | [] => []
   | t => if endswith [nl] t then t else t ++ [nl]
   end) ++ c.
Proof. unfold paragraphs. rewrite fold_left_app. cbn [fold_left].
  destruct (fold_left next_paragraph own []); reflexivity. Qed.

Lemma add_tree_of code d : add_code code (tree_of d) = tree_of (dadd code d).
Proof. destruct d as [own subs]. cbn [tree_of dadd add_code]. rewrite paragraphs_snoc.
  destruct (paragraphs own); reflexivity. Qed.

Lemma update_map {V W} (g : V -> W) (d : list (str * V)) k f f' v0 v0' :
  (forall v, g (f v) = f' (g v)) -> g v0 = v0' ->
  map (fun s => (fst s, g (snd s))) (update d k f v0) =
  update (map (fun s => (fst s, g (snd s))) d) k f' v0'.
Proof.
  intros Hf H0. induction d as [|[m v] d IH]; cbn; [rewrite H0; auto|].
  destruct (seqb m k); cbn; [rewrite Hf; auto|rewrite IH; auto].
Qed.

Lemma store_tree_of names code : forall d,
  store_code_in_tree names code (tree_of d) = tree_of (dstore names code d).
Proof.
  induction names as [|n names IH]; intros d; auto. destruct d as [own subs].
  cbn [store_code_in_tree dstore tree_of]. f_equal. symmetry. apply update_map.
  - intros v. destruct names; [symmetry; apply add_tree_of|symmetry; apply IH].
  - destruct names; [symmetry; apply (add_tree_of code empty_doc)|symmetry; apply (IH empty_doc)].
Qed.

Lemma find_sub_update subs n on_sub m :
  find_sub (update subs n on_sub (on_sub empty_doc)) m =
  if seqb n m then on_sub (find_sub subs n) else find_sub subs m.
Proof.
  unfold find_sub. rewrite assoc_update. destruct (seqb_spec n m) as [->|Hn]; auto.
  destruct (assoc subs m); auto.
Qed.

Lemma frags_dstore code names : names <> [] -> forall p d,
  frags p (dstore names code d) = frags p d ++ (if same_path names p then [code] else []).
Proof.
  induction names as [|n names IH]; [congruence|]. intros _ p d. destruct d as [own subs].
  cbn [dstore]. destruct p as [|m p].
  - destruct (same_path_spec (n :: names) []); [discriminate|]. cbn. rewrite app_nil_r. auto.
  - rewrite !frags_cons, find_sub_update. destruct (seqb_spec n m) as [->|Hn].
    + destruct names as [|n' names].
      * destruct (find_sub subs m) as [o s]. destruct p as [|x p].
        { rewrite same_path_refl. auto. }
        { cbn [dadd]. rewrite !frags_cons. destruct (same_path_spec [m] (m :: x :: p)); [discriminate|].
          rewrite app_nil_r. auto. }
      * rewrite IH by discriminate. f_equal.
        destruct (same_path_spec (n' :: names) p) as [E|E], (same_path_spec (m :: n' :: names) (m :: p)) as [E'|E'];
          auto; congruence.
    + destruct (same_path_spec (n :: names) (m :: p)); [congruence|]. rewrite app_nil_r. auto.
Qed.

Lemma update_In {V} (d : list (str * V)) k f v0 x :
  In x (update d k f v0) -> In x d \/ (fst x = k /\ (snd x = v0 \/ exists v, In (k, v) d /\ snd x = f v)).
Proof.
  induction d as [|[m v] d IH]; cbn; [intros [<-|[]]; auto|].
  destruct (seqb_spec m k) as [->|Hk]; cbn.
  - intros [<-|H]; [right; cbn; split; auto; right; exists v; auto|auto].
  - intros [<-|H]; [auto|]. destruct (IH H) as [?|(? & [?|(v' & ? & ?)])]; auto.
    right. split; auto. right. exists v'. auto.
Qed.

Lemma dadd_wf code d : wf_doc d -> wf_doc (dadd code d).
Proof. destruct 1. constructor; auto. Qed.
Lemma empty_wf : wf_doc empty_doc.
Proof. repeat constructor. Qed.

Lemma dstore_nonempty code names d : names <> [] -> exists p, frags p (dstore names code d) <> [].
Proof.
  intros Hn. exists names. rewrite frags_dstore, same_path_refl by auto.
  destruct (frags names d); discriminate.
Qed.

Lemma dstore_wf code names : forall d, wf_doc d -> wf_doc (dstore names code d).
Proof.
  induction names as [|n names IH]; intros d Hd; auto. destruct Hd as [own subs Hn Hs]. cbn [dstore].
  constructor; [apply update_keys; auto|]. rewrite Forall_forall in *. intros x Hx.
  apply update_In in Hx as [Hx|(_ & Hx)]; auto.
  assert (Hgood : forall s, wf_doc s -> wf_doc (match names with [] => dadd code s | _ => dstore names code s end)
            /\ exists p, frags p (match names with [] => dadd code s | _ => dstore names code s end) <> []).
  { intros s Hs'. destruct names as [|n' names].
    - split; [apply dadd_wf; auto|]. exists []. destruct s as [o ss]. cbn. destruct o; discriminate.
    - split; [apply IH; auto|apply dstore_nonempty; discriminate]. }
  destruct Hx as [->|(v & Hv & ->)]; [apply Hgood, empty_wf|].
  apply Hgood. apply (Hs (n, v) Hv).
Qed.

(** *** Text *)

Section Names.
Variable roots : list str.
Fixpoint names_ok (d : doc) : Prop :=
  match d with
  | Doc _ subs =>
      (fix go (l : list (str * doc)) : Prop :=
         match l with [] => True | (n, s) :: l' => (n <> [] /\ ~ In n roots) /\ names_ok s /\ go l' end) subs
  end.
Lemma names_ok_Doc own subs : names_ok (Doc own subs) <->
  Forall (fun s => (fst s <> [] /\ ~ In (fst s) roots) /\ names_ok (snd s)) subs.
Proof.
  cbn. induction subs as [|[n s] subs IH]; [split; auto|]. rewrite IH. cbn. split.
  - intros (H1 & H2 & H3). constructor; auto.
  - intros H. inversion H; subst. cbn in *. tauto.
Qed.

End Names.

Section Text.
Variable roots : list str.
Variable ct : code_type.
Variable py_name : str -> str.
Variable ind : str.

Lemma intro_eq n : replace ns_token (match ct with Stub => py_name n | Pydef => n end) (code_intro ct)
  = opening ct py_name n.
Proof. destruct ct; reflexivity. Qed.
Lemma outro_eq n : replace ns_token (match ct with Stub => py_name n | Pydef => n end) (code_outro ct)
  = closing ct py_name n.
Proof. destruct ct; reflexivity. Qed.

Lemma shift_eq x : indent_code x 1 false (Some ind) true = shift ind x.
Proof. reflexivity. Qed.

Definition ignored (n code : str) : bool :=
  match n, code with [], _ => true | _, [] => true | _, _ => smem n roots end.

Lemma full_unfold code subs n : full_tree_code roots ct py_name ind (Tree code subs) n =
  (if ignored n code then [] else opening ct py_name n) ++ code ++
  concat (map (fun s => let c := full_tree_code roots ct py_name ind (snd s) (fst s) in
                        if ignored n code then c else shift ind c) subs) ++
  (if ignored n code then [] else closing ct py_name n).
Proof.
  rewrite <- intro_eq, <- outro_eq. cbn [full_tree_code].
  change (match n, code with [], _ => true | _, [] => true | _, _ => smem n roots end) with (ignored n code).
  set (b := ignored n code). clearbody b. do 2 f_equal. f_equal.
  induction subs as [|[m s] subs IH]; auto. cbn [map concat fst snd]. rewrite <- IH. reflexivity.
Qed.

Lemma full_eq d : forall n, names_ok roots d -> n = [] \/ ~ In n roots ->
  full_tree_code roots ct py_name ind (tree_of d) n = doc_text ct py_name ind n d.
Proof.
  induction d as [own subs IH] using doc_ind'. intros n Hok Hn.
  apply names_ok_Doc in Hok. cbn [tree_of]. rewrite full_unfold, map_map. cbn [fst snd].
  assert (Hgo : forall f : str -> str,
    concat (map (fun s => f (full_tree_code roots ct py_name ind (tree_of (snd s)) (fst s))) subs)
    = concat (map (fun s => f (doc_text ct py_name ind (fst s) (snd s))) subs)).
  { intros f. f_equal. apply map_ext_in. intros s Hs. rewrite Forall_forall in *.
    destruct (Hok s Hs) as [[_ H1] H2]. rewrite (IH s Hs); auto. }
  cbn [doc_text]. unfold ignored. destruct n as [|c n].
  - rewrite (Hgo (fun x => x)). cbn [app]. rewrite app_nil_r. reflexivity.
  - destruct (paragraphs own) as [|c' t].
    + rewrite (Hgo (fun x => x)). cbn [app]. rewrite app_nil_r. reflexivity.
    + assert (E : smem (c :: n) roots = false) by (apply smem_false; destruct Hn as [Hn|Hn]; [discriminate|auto]). rewrite E.
      rewrite (Hgo (shift ind)). reflexivity.
Qed.
End Text.

Lemma names_ok_dstore roots code names : Forall (fun n => n <> [] /\ ~ In n roots) names -> forall d,
  names_ok roots d -> names_ok roots (dstore names code d).
Proof.
  induction 1 as [|n names Hn Hns IH]; intros d Hd; auto. destruct d as [own subs]. cbn [dstore].
  apply (proj2 (names_ok_Doc roots own _)). apply names_ok_Doc in Hd. apply Forall_forall; intros x Hx; rewrite Forall_forall in Hd.
  assert (Hgood : forall s, names_ok roots s ->
            names_ok roots (match names with [] => dadd code s | _ => dstore names code s end)).
  { intros s Hs. destruct names; [|apply IH; auto]. destruct s as [o ss]. exact Hs. }
  apply update_In in Hx as [Hx|(Hk & Hx)]; [apply (Hd x Hx)|].
  destruct x as [xn xd]. cbn [fst snd] in *. subst xn. split; auto.
  destruct Hx as [->|(v & Hv & ->)]; apply Hgood; [exact I|]. apply (Hd _ Hv).
Qed.

(** *** A sequence of recordings *)

Lemma store_code_eq roots sc code t : recordable roots sc ->
  store_code roots (str_cpp sc) code t = store_code_in_tree (path_of roots sc) code t.
Proof.
  intros [Hc Hp]. unfold store_code, path_of, not_root.
  assert (Hne : sc <> []) by (intros ->; apply Hp; reflexivity).
  change (split colons (str_cpp sc)) with (from_string (str_cpp sc)).
  rewrite from_string_parts by auto. auto.
Qed.

Lemma record_all_snoc roots log sc code t :
  record_all roots (log ++ [(sc, code)]) t = store_code roots (str_cpp sc) code (record_all roots log t).
Proof. unfold record_all. rewrite fold_left_app. reflexivity. Qed.

Lemma record_all_doc roots log : Forall (fun r => recordable roots (fst r)) log ->
  exists d, record_all roots log empty_tree = tree_of d /\ wf_doc d /\ names_ok roots d /\
  forall p, frags p d = recorded_at roots log p.
Proof.
  induction log as [|[sc code] log IH] using rev_ind; intros H.
  - exists empty_doc. split; [reflexivity|]. split; [apply empty_wf|]. split; [exact I|].
    intros p. rewrite frags_empty. reflexivity.
  - apply Forall_app in H as [H1 H2]. inversion H2 as [|? ? Hr _]; subst. cbn [fst] in Hr.
    destruct (IH H1) as (d & E & Hw & Ho & Hf).
    exists (dstore (path_of roots sc) code d). rewrite record_all_snoc.
    rewrite E, store_code_eq by auto. split; [apply store_tree_of|].
    split; [apply dstore_wf; auto|]. split.
    + apply names_ok_dstore; auto. unfold path_of. destruct Hr as [Hc _].
      rewrite Forall_forall in *. intros x Hx. apply filter_In in Hx as [Hx Hn].
      split; [apply (Hc x Hx)|]. apply negb_true_iff, smem_false in Hn. auto.
    + intros p. rewrite frags_dstore by apply Hr. rewrite Hf. unfold recorded_at.
      rewrite filter_app, map_app. f_equal. cbn [filter fst]. destruct (same_path (path_of roots sc) p); reflexivity.
Qed.

Lemma record_all_text roots ct py_name ind log :
  Forall (fun r => recordable roots (fst r)) log ->
  exists d, wf_doc d /\ (forall p, frags p d = recorded_at roots log p) /\
  full_tree_code roots ct py_name ind (record_all roots log empty_tree) [] = doc_text ct py_name ind [] d.
Proof.
  intros H. destruct (record_all_doc roots log H) as (d & E & Hw & Ho & Hf).
  exists d. split; [auto|]. split; [auto|]. rewrite E. apply full_eq; auto.
Qed.
