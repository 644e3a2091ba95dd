From Verif Require Import PyStr PyStrLemmas PyDict TypeTextModel InstanceModel InstanceSpec InstanceProofs.

Definition named (ps : list part) : Prop := Forall (fun p => name_of (fst p)) ps.

(** ** Several names *)

Lemma argument_sep ps c : named ps -> is_word c = false -> argument ps [c] = [c].
Proof.
  intros N C. unfold argument. induction N as [|p ps P N IH]; [reflexivity|]. cbn [find]. rewrite (name_not_sep _ c P C). exact IH.
Qed.
Lemma sub_sep ps c r : is_word c = false -> named ps -> substituted ps (c :: r) = c :: substituted ps r.
Proof. intros C N. unfold substituted. rewrite (pieces_sep c r C). cbn [map concat]. rewrite argument_sep by auto. reflexivity. Qed.
Lemma sub_word ps w r : name_of w -> is_word_at r = false -> substituted ps (w ++ r) = argument ps w ++ substituted ps r.
Proof. intros W R. unfold substituted. rewrite (pieces_word w r W R). reflexivity. Qed.
Lemma sub_head ps r : named ps -> is_word_at r = false -> is_word_at (substituted ps r) = false.
Proof. intros N. destruct r as [|c r]; [reflexivity|]. intros C. rewrite sub_sep by auto. exact C. Qed.
Lemma sub_app ps x y : is_word_at y = false -> substituted ps (x ++ y) = substituted ps x ++ substituted ps y.
Proof. intros Y. unfold substituted. rewrite (pieces_app x y Y), map_app, concat_app. reflexivity. Qed.
Lemma argument_none ps w : smem w (map fst ps) = false -> argument ps w = w.
Proof.
  unfold argument. induction ps as [|p ps IH]; [reflexivity|]. cbn [map smem existsb find]. destruct (seqb_spec (fst p) w) as [->|NE]; [unfold smem; cbn; rewrite seqb_refl; discriminate|].
  intros H. apply IH. unfold smem in *. cbn [existsb] in H. apply orb_false_iff in H. tauto.
Qed.
Lemma sub_none ps s : mentions ps s = false -> substituted ps s = s.
Proof.
  intros M. unfold substituted. rewrite <- (pieces_concat s) at 2. f_equal. unfold mentions in M. induction (pieces s) as [|w l IH]; auto. cbn [existsb map] in *. apply orb_false_iff in M as [A B].
  rewrite argument_none, IH; auto.
Qed.
Lemma smem_cons w p ps : smem w (map fst ((p : part) :: ps)) = seqb w (fst p) || smem w (map fst ps).
Proof. unfold smem. reflexivity. Qed.
(** First one name, then the others. *)
Lemma sub_steps p r s : named (p :: r) -> mentions r (snd p) = false -> substituted r (substituted [p] s) = substituted (p :: r) s.
Proof.
  intros N M. inversion N as [|? ? Np Nr]; subst. assert (N1 : named [p]) by (constructor; [auto|constructor]).
  induction s as [|c x C IH|w x W X IH] using word_rect; auto.
  - rewrite (sub_sep [p] c x C N1), (sub_sep (p :: r) c x C N), (sub_sep r c _ C Nr). f_equal. exact IH.
  - rewrite (sub_word [p] w x W X), (sub_word (p :: r) w x W X), sub_app by (apply sub_head; auto). rewrite IH. f_equal. unfold argument. cbn [find]. destruct (seqb (fst p) w); [apply sub_none; exact M|].
    unfold substituted. rewrite (piece_one w W). cbn [map concat]. apply app_nil_r.
Qed.
Lemma mentions_app ps x y : is_word_at y = false -> mentions ps (x ++ y) = mentions ps x || mentions ps y.
Proof. intros Y. unfold mentions. rewrite (pieces_app x y Y), existsb_app. reflexivity. Qed.
Lemma mentions_steps p r s : named (p :: r) -> mentions r (snd p) = false -> mentions [p] s || mentions r (substituted [p] s) = mentions (p :: r) s.
Proof.
  intros N M. inversion N as [|? ? Np Nr]; subst. assert (N1 : named [p]) by (constructor; [auto|constructor]).
  induction s as [|c x C IH|w x W X IH] using word_rect; auto.
  - rewrite (sub_sep [p] c x C N1). assert (A : forall q y, mentions q (c :: y) = smem [c] (map fst q) || mentions q y) by (intros q y; unfold mentions; rewrite (pieces_sep c y C); reflexivity).
    rewrite !A, <- IH, !smem_cons. change (smem [c] (map fst (@nil part))) with false. rewrite orb_false_r. destruct (seqb [c] (fst p)), (smem [c] (map fst r)), (mentions [p] x); reflexivity.
  - rewrite (sub_word [p] w x W X). rewrite (mentions_app r _ (substituted [p] x)) by (apply sub_head; auto). assert (A : forall q, mentions q (w ++ x) = smem w (map fst q) || mentions q x) by (intros q; unfold mentions; rewrite (pieces_word w x W X); reflexivity).
    rewrite !A, <- IH, !smem_cons. unfold argument. cbn [find]. change (smem w (map fst (@nil part))) with false. rewrite orb_false_r. destruct (seqb_spec (fst p) w) as [<-|NE].
    + rewrite M, seqb_refl. reflexivity.
    + assert (E : seqb w (fst p) = false) by (destruct (seqb_spec w (fst p)); congruence). rewrite E. assert (B : mentions r w = smem w (map fst r)) by (unfold mentions; rewrite (piece_one w W); cbn [existsb]; apply orb_false_r).
      rewrite B. cbn [orb]. destruct (smem w (map fst r)), (mentions [p] x); reflexivity.
Qed.
Lemma count_mentions n s : (0 <? length (filter (seqb n) (pieces s))) = existsb (fun w => smem w [n]) (pieces s).
Proof.
  induction (pieces s) as [|w l IH]; [reflexivity|]. cbn [filter existsb]. unfold smem at 1. cbn [existsb]. rewrite orb_false_r. destruct (seqb_spec n w) as [->|NE]; [rewrite seqb_refl; reflexivity|].
  assert (E : seqb w n = false) by (destruct (seqb_spec w n); congruence). rewrite E. exact IH.
Qed.
Lemma one_part_is p tn b : name_of (fst p) -> one_part (tn, b) p = (substituted [p] tn, b || mentions [p] tn).
Proof.
  intros N. unfold one_part. destruct p as [n a]. cbn [fst snd] in *. destruct (seqb_spec tn n) as [->|NE].
  - unfold substituted, mentions. rewrite (piece_one n N). unfold argument. cbn [map concat find fst existsb]. rewrite seqb_refl. unfold smem. cbn. rewrite seqb_refl, app_nil_r, orb_true_r. reflexivity.
  - rewrite (subn_is n a N). rewrite count_mentions. fold (mentions [(n, a)] tn). change (existsb (fun w => smem w [n]) (pieces tn)) with (mentions [(n, a)] tn).
    destruct (mentions [(n, a)] tn) eqn:M; [rewrite orb_true_r; reflexivity|]. rewrite (sub_none _ _ M), orb_false_r. reflexivity.
Qed.
Lemma fold_parts ps : named ps -> independent ps -> forall tn b, fold_left one_part ps (tn, b) = (substituted ps tn, b || mentions ps tn).
Proof.
  induction ps as [|p r IH]; intros N I tn b.
  - cbn [fold_left]. assert (M : mentions [] tn = false) by (unfold mentions; induction (pieces tn); auto). rewrite (sub_none _ _ M), M, orb_false_r. reflexivity.
  - inversion N as [|? ? Np Nr]; subst. destruct I as [M I]. cbn [fold_left]. rewrite (one_part_is p tn b Np). etransitivity; [apply (IH Nr I)|]. f_equal; [apply sub_steps; auto|]. rewrite <- orb_assoc. f_equal. apply mentions_steps; auto.
Qed.

(** ** Types, declarations, functions *)

Lemma existsb_map {A B} (f : A -> B) g l : existsb g (map f l) = existsb (fun x => g (f x)) l.
Proof. induction l; cbn; auto. rewrite IHl. reflexivity. Qed.
Lemma existsb_eq {A} (f g : A -> bool) l : (forall x, In x l -> f x = g x) -> existsb f l = existsb g l.
Proof. induction l as [|x l IH]; intros E; auto. cbn. rewrite (E x), IH; auto; [|left; auto]. intros y Y. apply E. right. auto. Qed.
Section Parts.
Variable ps : list part.
Hypothesis N : named ps.
Hypothesis I : independent ps.
Lemma type_is t : type_instance ps t = if type_uses ps t then Some (in_type ps t) else None.
Proof.
  unfold type_instance, type_uses, in_type. rewrite existsb_map, map_map.
  rewrite (existsb_eq _ (mentions ps)) by (intros x _; rewrite (fold_parts ps N I); reflexivity). destruct (existsb _ _); [|reflexivity]. do 2 f_equal. apply map_ext. intros x. rewrite (fold_parts ps N I). reflexivity.
Qed.
Lemma type_same t : type_uses ps t = false -> in_type ps t = t.
Proof.
  unfold type_uses, in_type. destruct t as [tn sp md]. cbn [typenames specifiers modifiers]. intros E. f_equal. induction tn as [|x l IH]; auto. cbn [existsb map] in *. apply orb_false_iff in E as [A B]. rewrite (sub_none _ _ A), IH; auto.
Qed.
Lemma decl_is d : decl_instance ps d = if decl_uses ps d then Some (in_decl ps d) else None.
Proof. unfold decl_instance, decl_uses, in_decl. rewrite type_is. destruct (type_uses ps (d_type d)); reflexivity. Qed.
Lemma decl_same d : decl_uses ps d = false -> in_decl ps d = d.
Proof. unfold decl_uses, in_decl. intros E. rewrite (type_same _ E). destruct d; reflexivity. Qed.
Lemma or_same_decl d : or_same (decl_instance ps) d = (in_decl ps d, decl_uses ps d).
Proof. unfold or_same. rewrite decl_is. destruct (decl_uses ps d) eqn:E; [reflexivity|]. rewrite (decl_same d E). reflexivity. Qed.
Lemma or_same_type t : or_same (type_instance ps) t = (in_type ps t, type_uses ps t).
Proof. unfold or_same. rewrite type_is. destruct (type_uses ps t) eqn:E; [reflexivity|]. rewrite (type_same t E). reflexivity. Qed.
Lemma decls_are ds : existsb snd (map (or_same (decl_instance ps)) ds) = existsb (decl_uses ps) ds /\ map fst (map (or_same (decl_instance ps)) ds) = map (in_decl ps) ds.
Proof.
  rewrite existsb_map, map_map. split; [apply existsb_eq|apply map_ext]; intros; rewrite or_same_decl; reflexivity.
Qed.
Lemma vars_is ds : vars_instance ps ds = if existsb (decl_uses ps) ds then Some (map (in_decl ps) ds) else None.
Proof. unfold vars_instance. destruct (decls_are ds) as [-> ->]. reflexivity. Qed.
Definition in_func (h : host) (f : tfunc) : tfunc := TFunc (tf_name f) h (option_map (in_type ps) (tf_result f)) (map (in_decl ps) (tf_params f)).
Definition func_uses (f : tfunc) : bool := result_uses ps (tf_result f) || existsb (decl_uses ps) (tf_params f).
Lemma func_is qs f h : store qs (tf_host f) = Some (ps, h) -> func_instance qs f = Some (if func_uses f then Some (in_func h f) else None).
Proof.
  intros S. unfold func_instance. rewrite S. destruct (decls_are (tf_params f)) as [-> ->]. unfold func_uses, in_func. destruct (tf_result f) as [t|]; [rewrite or_same_type|]; reflexivity.
Qed.
Lemma store_named h : store ps h = Some (ps, h).
Proof. clear I. induction N as [|[n a] r P Nr IH]; [reflexivity|]. cbn [store]. rewrite IH; auto. destruct P as [X _]. cbn [fst] in X. destruct n; [congruence|reflexivity]. Qed.

(** ** Classes *)

Section Ind.
Variable P : elem -> Prop.
Hypothesis fn : forall f, P (Fn f).
Hypothesis vars : forall ds, P (Vars ds).
Hypothesis other : forall t, P (Other t).
Hypothesis class : forall n h b blocks, Forall (Forall P) blocks -> P (Class n h b blocks).
Fixpoint elem_rect' (e : elem) : P e :=
  match e with
  | Fn f => fn f
  | Vars ds => vars ds
  | Other t => other t
  | Class n h b blocks => class n h b blocks
      ((fix outer (bs : list (list elem)) : Forall (Forall P) bs :=
          match bs with
          | [] => Forall_nil _
          | x :: r => Forall_cons x ((fix inner (l : list elem) : Forall P l := match l with [] => Forall_nil _ | y :: q => Forall_cons y (elem_rect' y) (inner q) end) x) (outer r)
          end) blocks)
  end.
End Ind.
Lemma every_some {A B} (f : A -> option B) g l : Forall (fun x => f x = Some (g x)) l -> every (map f l) = Some (map g l).
Proof. induction 1 as [|x l E F IH]; [reflexivity|]. cbn [map every]. rewrite E, IH. reflexivity. Qed.
Lemma elem_same e : elem_uses ps e = false -> in_elem ps e = e.
Proof.
  induction e as [f|ds|t|n h b blocks F] using elem_rect'; cbn [elem_uses in_elem]; auto.
  - intros E. apply orb_false_iff in E as [A B]. destruct f as [fn fh fr fp]. cbn [tf_result tf_params tf_name tf_host] in *. do 2 f_equal; [destruct fr as [t|]; cbn [option_map result_uses] in *; auto; rewrite type_same; auto|].
    clear A. induction fp as [|d l IH]; auto. cbn [existsb map] in *. apply orb_false_iff in B as [A B]. rewrite decl_same, IH; auto.
  - intros E. f_equal. induction ds as [|d l IH]; auto. cbn [existsb map] in *. apply orb_false_iff in E as [A B]. rewrite decl_same, IH; auto.
  - intros E. f_equal. induction F as [|x l X F IH]; auto. cbn [existsb map] in *. apply orb_false_iff in E as [A B]. rewrite IH by auto. f_equal. clear -X A.
    induction X as [|y q Y X IH]; auto. cbn [existsb map] in *. apply orb_false_iff in A as [A B]. rewrite Y, IH; auto.
Qed.
Lemma children_are blocks : Forall (Forall (fun e => elem_instance ps e = Some (if elem_uses ps e then Some (in_elem ps e) else None))) blocks ->
  every (map (fun b => every (map (fun x => option_map (fun y => match y with Some z => (z, true) | None => (x, false) end) (elem_instance ps x)) b)) blocks) =
  Some (map (map (fun x => (in_elem ps x, elem_uses ps x))) blocks).
Proof.
  intros F. apply every_some. eapply Forall_impl; [|exact F]. intros b B. apply every_some. eapply Forall_impl; [|exact B]. intros x E. cbn beta in E. rewrite E. cbn [option_map]. destruct (elem_uses ps x) eqn:U; [reflexivity|].
  rewrite (elem_same x U). reflexivity.
Qed.
Lemma class_is qs h h' n bases blocks : store qs h = Some (ps, h') ->
  Forall (Forall (fun e => elem_instance ps e = Some (if elem_uses ps e then Some (in_elem ps e) else None))) blocks ->
  elem_instance qs (Class n h bases blocks) = Some (if existsb (existsb (elem_uses ps)) blocks then Some (Class n h' bases (map (map (in_elem ps)) blocks)) else None).
Proof.
  intros S F. cbn [elem_instance]. rewrite S, (children_are blocks F). rewrite existsb_map, map_map.
  rewrite (existsb_eq _ (existsb (elem_uses ps))) by (intros x _; rewrite existsb_map; apply existsb_eq; reflexivity). destruct (existsb _ _); [|reflexivity]. do 3 f_equal. apply map_ext. intros x. rewrite map_map. reflexivity.
Qed.
Lemma elem_is e : elem_instance ps e = Some (if elem_uses ps e then Some (in_elem ps e) else None).
Proof.
  induction e as [f|ds|t|n h b blocks F] using elem_rect'.
  - cbn [elem_instance elem_uses in_elem]. rewrite (func_is ps f _ (store_named _)). unfold func_uses. cbn [option_map]. destruct (result_uses _ _ || _); reflexivity.
  - cbn [elem_instance elem_uses in_elem]. rewrite vars_is. destruct (existsb _ _); reflexivity.
  - reflexivity.
  - apply class_is; auto. apply store_named.
Qed.
Lemma elem_stored qs e h' : templatable e -> store qs (elem_host e) = Some (ps, h') ->
  elem_instance qs e = Some (if elem_uses ps e then Some (match in_elem ps e with Fn f => Fn (TFunc (tf_name f) h' (tf_result f) (tf_params f)) | Class n _ b bl => Class n h' b bl | x => x end) else None).
Proof.
  intros T S. destruct e as [f|ds|n h b blocks|t]; try destruct T; cbn [elem_host] in S.
  - cbn [elem_instance elem_uses in_elem]. rewrite (func_is qs f h' S). unfold func_uses. cbn [option_map]. destruct (result_uses _ _ || _); reflexivity.
  - cbn [in_elem elem_uses]. apply class_is; auto. apply Forall_forall. intros x _. apply Forall_forall. intros e _. apply elem_is.
Qed.
End Parts.
