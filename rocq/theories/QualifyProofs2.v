From Verif Require Import PyStr PyStrLemmas PyDict InstanceModel InstanceSpec InstanceProofs QualifyModel QualifySpec QualifyProofs.

(** ** The names which are known *)

Section Register.
Variables (roots : list str) (enum_name class_name function_name namespace_name : str -> str).
Notation register := (register roots enum_name class_name function_name namespace_name).
Notation register_all := (register_all roots enum_name class_name function_name namespace_name).
Notation shown := (shown roots enum_name class_name function_name namespace_name).
Notation chain_of := (chain_of roots enum_name class_name function_name namespace_name).

Lemma item_rect' (P : item -> Prop) :
  (forall n, P (IEnum n)) -> (forall n l, Forall P l -> P (IClass n l)) -> (forall n, P (IFunction n)) -> (forall n l, Forall P l -> P (INamespace n l)) -> P IOther -> forall i, P i.
Proof.
  intros A B C D E. fix IH 1. intros [n|n l|n|n l|]; [apply A|apply B|apply C|apply D|apply E]; induction l; constructor; auto.
Qed.
Lemma class_names_is l : class_names enum_name class_name l = types_in enum_name class_name function_name false l.
Proof. induction l as [|[] l IH]; auto; cbn; f_equal; exact IH. Qed.
Lemma namespace_names_is l : namespace_names enum_name class_name function_name l = types_in enum_name class_name function_name true l.
Proof. induction l as [|[] l IH]; auto; cbn; f_equal; exact IH. Qed.
Definition entry (i : item) : option members :=
  match i with
  | IClass n l => match class_names enum_name class_name l with [] => None | names => Some (Members (class_name n) names) end
  | INamespace n l => if smem n roots then None else Some (Members (namespace_name n) (namespace_names enum_name class_name function_name l))
  | _ => None
  end.
Definition own_name (i : item) : option str := match i with IClass n _ => Some n | INamespace n _ => Some n | _ => None end.
Lemma register_is i known n : own_name i = Some n -> register known i = match entry i with Some m => dict_set n m (fold_left register (inside_of i) known) | None => fold_left register (inside_of i) known end.
Proof.
  destruct i; intros H; inversion H; subst; cbn [QualifyModel.register inside_of entry].
  - destruct (class_names enum_name class_name inside); reflexivity.
  - destruct (smem n roots); reflexivity.
Qed.
Lemma names_is i n : own_name i = Some n -> scope_names i = n :: flat_map scope_names (inside_of i).
Proof. destruct i; intros H; inversion H; reflexivity. Qed.
Lemma get_other n i : forall known, ~ In n (scope_names i) -> dict_get n (register known i) = dict_get n known.
Proof.
  assert (X : forall l, Forall (fun i => forall known, ~ In n (scope_names i) -> dict_get n (register known i) = dict_get n known) l ->
    forall known, ~ In n (flat_map scope_names l) -> dict_get n (fold_left register l known) = dict_get n known).
  { induction 1 as [|j l J L IH]; intros known N; [reflexivity|]. cbn [flat_map] in N. rewrite in_app_iff in N. cbn [fold_left]. rewrite IH by tauto. apply J. tauto. }
  induction i as [m|m l L|m|m l L|] using item_rect'; intros known N; auto.
  - cbn [scope_names] in N. rewrite (register_is (IClass m l) known m eq_refl). cbn [inside_of]. destruct (entry (IClass m l)); [rewrite dict_get_set; destruct (seqb_spec n m) as [->|]; [destruct N; left; auto|]|]; apply X; auto; intros Y; apply N; right; auto.
  - cbn [scope_names] in N. rewrite (register_is (INamespace m l) known m eq_refl). cbn [inside_of]. destruct (entry (INamespace m l)); [rewrite dict_get_set; destruct (seqb_spec n m) as [->|]; [destruct N; left; auto|]|]; apply X; auto; intros Y; apply N; right; auto.
Qed.
Lemma get_others n l : forall known, ~ In n (flat_map scope_names l) -> dict_get n (fold_left register l known) = dict_get n known.
Proof. induction l as [|j l IH]; intros known N; [reflexivity|]. cbn [flat_map] in N. rewrite in_app_iff in N. cbn [fold_left]. rewrite IH by tauto. apply get_other. tauto. Qed.
(** An item anywhere in a program. *)
Inductive deep (i : item) : list item -> Prop :=
  | deep_here l : In i l -> deep i l
  | deep_in j l : In j l -> deep i (inside_of j) -> deep i l.
Lemma own_of_inside j i : deep i (inside_of j) -> exists n, own_name j = Some n.
Proof. destruct j; cbn [inside_of own_name]; eauto; intros H; inversion H as [? X|? ? X]; destruct X. Qed.
Lemma deep_names i n l : deep i l -> own_name i = Some n -> In n (flat_map scope_names l).
Proof.
  intros D O. induction D as [l I|j l J D IH]; apply in_flat_map.
  - exists i. split; auto. rewrite (names_is i n O). left. auto.
  - exists j. split; auto. destruct (own_of_inside j i D) as [m M]. rewrite (names_is j m M). right. auto.
Qed.
Lemma nodup_mid A (f : item -> list A) a j b : NoDup (flat_map f (a ++ j :: b)) -> NoDup (f j) /\ forall x, In x (f j) -> ~ In x (flat_map f a) /\ ~ In x (flat_map f b).
Proof.
  rewrite flat_map_app. cbn [flat_map]. intros N. assert (M : forall (u v : list A) x, NoDup (u ++ v) -> In x u -> ~ In x v).
  { induction u as [|y u IH]; intros v x U X; [destruct X|]. inversion U as [|? ? U1 U2]; subst. destruct X as [->|X]; [intros V; apply U1; apply in_app_iff; auto|eauto]. }
  assert (S : forall (u v : list A), NoDup (u ++ v) -> NoDup u /\ NoDup v).
  { induction u as [|y u IH]; intros v U; [split; auto; constructor|]. inversion U as [|? ? U1 U2]; subst. destruct (IH v U2). split; auto. constructor; auto. intros V; apply U1; apply in_app_iff; auto. }
  destruct (S _ _ N) as [_ N2]. destruct (S _ _ N2) as [N3 _]. split; auto. intros x X. split; [|exact (M _ _ x N2 X)]. intros Y. apply (M _ _ x N Y). apply in_app_iff. auto.
Qed.
Lemma get_deep i n l : deep i l -> own_name i = Some n -> NoDup (flat_map scope_names l) -> forall known, dict_get n (fold_left register l known) = match entry i with Some m => Some m | None => dict_get n known end.
Proof.
  intros D O. induction D as [l I|j l J D IH]; intros N known.
  - destruct (in_split _ _ I) as (a & b & ->). destruct (nodup_mid _ _ _ _ _ N) as [Ni Ot]. destruct (Ot n) as [Oa Ob]; [rewrite (names_is i n O); left; auto|].
    rewrite fold_left_app. cbn [fold_left]. rewrite get_others by auto. rewrite (register_is i _ n O). rewrite (names_is i n O) in Ni. inversion Ni as [|? ? N1 N2]; subst.
    destruct (entry i); [rewrite dict_get_set, seqb_refl; reflexivity|]. rewrite get_others by auto. rewrite get_others by auto. reflexivity.
  - destruct (in_split _ _ J) as (a & b & ->). destruct (nodup_mid _ _ _ _ _ N) as [Nj Ot]. destruct (own_of_inside j i D) as [m M]. pose proof (deep_names i n _ D O) as Dn.
    destruct (Ot n) as [Oa Ob]; [rewrite (names_is j m M); right; auto|]. rewrite fold_left_app. cbn [fold_left]. rewrite get_others by auto. rewrite (register_is j _ m M). rewrite (names_is j m M) in Nj. inversion Nj as [|? ? N1 N2]; subst.
    assert (Q : dict_get n (fold_left register (inside_of j) (fold_left register a known)) = match entry i with Some m => Some m | None => dict_get n known end).
    { rewrite IH by auto. destruct (entry i); auto. apply get_others. auto. }
    destruct (entry j); [|exact Q]. rewrite dict_get_set. destruct (seqb_spec n m) as [->|]; [contradiction|exact Q].
Qed.
Lemma deep_shown i l : deep i l -> Forall (classes_shown roots) l -> classes_shown roots i.
Proof.
  intros D. induction D as [l I|j l J D IH]; intros F; rewrite Forall_forall in F; [apply F; auto|]. apply IH. specialize (F j J). apply Forall_forall. intros x X.
  assert (G : forall l, fold_right and True (map (classes_shown roots) l) -> In x l -> classes_shown roots x) by (induction l0 as [|y l0 IHl]; cbn; [tauto|]; intros [G1 G2] [->|Y]; auto).
  destruct j as [|m lj| |m lj|]; cbn [inside_of classes_shown] in *; solve [destruct X|eapply G; [apply F|exact X]].
Qed.
Lemma deep_step j i l : deep j l -> In i (inside_of j) -> deep i l.
Proof. intros D I. induction D as [l J|k l K D IH]; [apply (deep_in i j l J); apply deep_here; auto|apply (deep_in i k l K); auto]. Qed.
Lemma is_scope_name n i : is_scope n i = true -> own_name i = Some n.
Proof. destruct i; cbn [is_scope own_name]; try discriminate; intros E; destruct (seqb_spec name n); congruence. Qed.

Definition step_part (known : list (str * members)) (s : str) (part : str) : str := if smem part roots then s else match dict_get part known with Some m => qualify_one m s | None => s end.
Lemma chain_fold tree : NoDup (flat_map scope_names tree) -> Forall (classes_shown roots) tree ->
  forall scope l ch, (forall i, In i l -> deep i tree) -> chain_of l scope = Some ch -> forall s, fold_left (step_part (register_all tree)) scope s = fold_left step_scope ch s.
Proof.
  intros N F. induction scope as [|n scope IH]; intros l ch L C s; cbn [QualifySpec.chain_of] in C; [inversion C; reflexivity|].
  destruct (find (is_scope n) l) as [i|] eqn:E; [|discriminate]. destruct (chain_of (inside_of i) scope) as [ch'|] eqn:E'; [|discriminate]. cbn [option_map] in C. inversion C; subst ch. rewrite fold_left_app.
  apply find_some in E. destruct E as [I Sc]. specialize (L i I). cbn [fold_left]. rewrite (IH (inside_of i) ch'); auto; [|intros k K; eapply deep_step; eauto]. f_equal.
  pose proof (is_scope_name n i Sc) as O. pose proof (get_deep i n tree L O N []) as G. pose proof (deep_shown i tree L F) as Sh. unfold step_part, QualifyModel.register_all. destruct i as [|m li| |m li|]; try discriminate.
  - cbn [own_name] in O. inversion O; subst m. cbn [classes_shown] in Sh. destruct Sh as [Sh _]. rewrite Sh, G. cbn [entry QualifySpec.shown fold_left]. unfold step_scope. cbn [fst snd]. rewrite <- class_names_is. destruct (class_names enum_name class_name li) eqn:Z; reflexivity.
  - cbn [own_name] in O. inversion O; subst m. rewrite G. cbn [entry QualifySpec.shown]. rewrite <- namespace_names_is. destruct (smem n roots); reflexivity.
Qed.
Lemma qualify_chain tree scope ch : NoDup (flat_map scope_names tree) -> Forall (classes_shown roots) tree -> chain_of tree scope = Some ch -> in_words ch ->
  forall s, qualify roots (register_all tree) scope s = completed_text ch s.
Proof.
  intros N F C W s. rewrite <- scopes_text by auto. unfold qualify. apply (chain_fold tree N F scope tree ch); auto. intros i I. apply deep_here. auto.
Qed.
End Register.

(** ** The order of the names *)

Lemma same_one a b : same_names a b -> name_of (m_prefix a) -> Forall name_of (m_names a) -> smem (m_prefix a) (m_names a) = false -> forall s, qualify_one a s = qualify_one b s.
Proof.
  intros [P E] W F N s. rewrite qualify_one_is by auto. rewrite qualify_one_is.
  - rewrite P. apply walk_ext. intros w _. apply put_ext. exact E.
  - rewrite <- P. exact W.
  - rewrite Forall_forall in *. intros x X. apply F. apply E. exact X.
  - rewrite <- P. apply smem_false. apply smem_false in N. rewrite <- E. exact N.
Qed.

(** ** Meaning *)

Lemma completed_keep ch : forall path, (forall p names, In (p, names) ch -> smem (hd [] path) names = false) -> completed_from ch path = path.
Proof. induction ch as [|(p, l) ch IH]; intros path N; [reflexivity|]. cbn [completed_from]. rewrite (N p l) by (left; auto). apply IH. intros q m Q. apply (N q m). right. auto. Qed.
Lemma found_nowhere ch w : nowhere ch w -> found_in ch w = None.
Proof. induction ch as [|(p, l) ch IH]; intros N; [reflexivity|]. cbn [found_in]. rewrite IH by (intros q m Q; apply (N q m); right; auto). rewrite (N p l) by (left; auto). reflexivity. Qed.
Lemma last_in (p : str) l (ch : chain) : In (last ((p, l) :: ch) ([], [])) ((p, l) :: ch).
Proof. revert p l. induction ch as [|(q, m) ch IH]; intros p l; [left; auto|]. right. apply IH. Qed.
Lemma method_means p l ch w rest : nowhere ((p, l) :: ch) p -> nowhere ch w ->
  python_means ((p, l) :: ch) (completed ((p, l) :: ch) w ++ rest) = cpp_means ((p, l) :: ch) w ++ rest.
Proof.
  intros P W. unfold completed, cpp_means. cbn [completed_from found_in hd]. rewrite found_nowhere by auto. destruct (smem w l) eqn:E.
  - rewrite completed_keep by (intros q m Q; apply (P q m); right; auto). unfold python_means. cbn [app hd]. destruct (last ((p, l) :: ch) ([], [])) as (q, m) eqn:L. cbn [snd]. pose proof (last_in p l ch) as I. rewrite L in I. rewrite (P q m I). reflexivity.
  - rewrite completed_keep by (intros q m Q; apply (W q m); auto). unfold python_means. cbn [app hd]. destruct (last ((p, l) :: ch) ([], [])) as (q, m) eqn:L. cbn [snd]. pose proof (last_in p l ch) as I. rewrite L in I.
    assert (M : smem w m = false) by (destruct I as [I|I]; [congruence|apply (W q m I)]). rewrite M. reflexivity.
Qed.
Lemma found_last outer q m w : smem w m = true -> found_in (outer ++ [(q, m)]) w = Some (map fst outer ++ [q; w]).
Proof. intros M. induction outer as [|(p, l) outer IH]; cbn [app found_in]; [rewrite M; reflexivity|]. rewrite IH. reflexivity. Qed.
Lemma found_skip outer q m w : smem w m = false -> found_in (outer ++ [(q, m)]) w = found_in outer w.
Proof. intros M. induction outer as [|(p, l) outer IH]; cbn [app found_in]; [rewrite M; reflexivity|]. rewrite IH. reflexivity. Qed.
Lemma member_means p l mid q m w rest : nowhere ((p, l) :: mid ++ [(q, m)]) p -> nowhere mid w -> smem w l && smem w m = false ->
  python_means ((p, l) :: mid ++ [(q, m)]) (completed ((p, l) :: mid) w ++ rest) = cpp_means ((p, l) :: mid ++ [(q, m)]) w ++ rest.
Proof.
  intros P W X. unfold completed, cpp_means. cbn [completed_from hd]. change ((p, l) :: mid ++ [(q, m)]) with (((p, l) :: mid) ++ [(q, m)]) in *. assert (L : last (((p, l) :: mid) ++ [(q, m)]) ([], []) = (q, m)) by apply last_last. unfold python_means. rewrite L. cbn [snd].
  assert (Pm : smem p m = false) by (apply (P q m); apply in_app_iff; right; left; auto).
  destruct (smem w m) eqn:Wm.
  - rewrite andb_true_r in X. rewrite X, completed_keep by (intros a b Q; apply (W a b); auto). cbn [app hd]. rewrite Wm. change (((p, l) :: mid ++ [(q, m)])) with (((p, l) :: mid) ++ [(q, m)]). rewrite found_last by auto. rewrite map_app, <- !app_assoc. reflexivity.
  - rewrite found_skip by auto. cbn [found_in]. rewrite found_nowhere by auto. destruct (smem w l) eqn:Wl.
    + rewrite completed_keep by (intros a b Q; apply (P a b); right; apply in_app_iff; auto). cbn [app hd]. rewrite Pm. reflexivity.
    + rewrite completed_keep by (intros a b Q; apply (W a b); auto). cbn [app hd]. rewrite Wm. reflexivity.
Qed.
Lemma own_means q m w rest : python_means [(q, m)] (completed [] w ++ rest) = cpp_means [(q, m)] w ++ rest.
Proof. unfold completed, cpp_means, python_means. cbn [completed_from app hd last snd found_in map fst]. destruct (smem w m); reflexivity. Qed.
