From Verif Require Import PyStr PyStrLemmas PyDict TextModel FillModel FillSpec FillProofs.

Definition is_hole (k : str) (p : piece) : bool := match p with Hole k' => seqb k' k | _ => false end.

Fixpoint flatten (t : list (list piece)) : list piece :=
  match t with
  | [] => []
  | [l] => l
  | l :: r => l ++ Text [nl] :: flatten r
  end.

Lemma render_app a b : render (a ++ b) = render a ++ render b.
Proof. unfold render. rewrite map_app, concat_app. reflexivity. Qed.

Lemma render_flatten t : render_lines t = render (flatten t).
Proof.
  induction t as [|l t IH]; auto. destruct t as [|m t]; [reflexivity|].
  cbn [flatten]. rewrite render_app. unfold render_lines, unlines. cbn [map]. rewrite join_cons.
  change (join [nl] (render m :: map render t)) with (render_lines (m :: t)). rewrite IH. reflexivity.
Qed.

Lemma neutral_nl K : neutral K [nl].
Proof. intros [|x [|y a]] b k E; discriminate. Qed.

Lemma flatten_ok K t : Forall (Forall (piece_ok K)) t -> Forall (piece_ok K) (flatten t).
Proof.
  induction t as [|l t IH]; intros H; [constructor|]. inversion H as [|? ? Hl Ht]; subst.
  destruct t as [|m t]; auto. cbn [flatten]. apply Forall_app. split; auto. constructor; auto. apply neutral_nl.
Qed.

Lemma map_flatten f t : (forall s, f (Text s) = Text s) -> map f (flatten t) = flatten (map (map f) t).
Proof.
  intros H. induction t as [|l t IH]; auto. destruct t as [|m t]; auto.
  change (flatten (l :: m :: t)) with (l ++ Text [nl] :: flatten (m :: t)).
  change (flatten (map (map f) (l :: m :: t))) with (map f l ++ Text [nl] :: flatten (map (map f) (m :: t))).
  rewrite map_app, <- IH. change (map f (Text [nl] :: flatten (m :: t))) with (f (Text [nl]) :: map f (flatten (m :: t))).
  rewrite H. reflexivity.
Qed.

Lemma replace_lines K k v t : In k K -> is_name k -> Forall (Forall (piece_ok K)) t ->
  replace (placeholder k) v (render_lines t) = render_lines (map (map (fill1 k v)) t).
Proof.
  intros I N O. rewrite !render_flatten, (replace_render K); auto using flatten_ok. f_equal. apply map_flatten. reflexivity.
Qed.

Lemma line_inside l s : In l (lines s) -> exists a b, s = a ++ l ++ b.
Proof.
  intros I. apply in_split in I. destruct I as (x & y & E). rewrite <- (unlines_lines s), E. unfold unlines.
  destruct x as [|x0 x].
  - cbn [app]. exists []. destruct y as [|y0 y]; [exists []; cbn; rewrite app_nil_r; reflexivity|].
    rewrite join_cons. exists ([nl] ++ join [nl] (y0 :: y)). reflexivity.
  - rewrite join_app by discriminate. exists (join [nl] (x0 :: x) ++ [nl]). 
    destruct y as [|y0 y]; [exists []; cbn [join]; rewrite app_nil_r, <- app_assoc; reflexivity|].
    rewrite join_cons. exists ([nl] ++ join [nl] (y0 :: y)). rewrite <- !app_assoc. reflexivity.
Qed.

Lemma line_contains sub l s : In l (lines s) -> contains sub l = true -> contains sub s = true.
Proof.
  intros I C. destruct (line_inside l s I) as (a & b & ->). apply contains_app_r, contains_app_l, C.
Qed.

Lemma flat_render d l : Forall (flat d) l -> ~ In nl (render l).
Proof.
  induction 1 as [|p l Hp _ IH]; [intros []|]. unfold render. cbn [map concat]. fold (render l). rewrite in_app_iff.
  intros [I|I]; auto. destruct p as [s|k]; cbn [written] in I; [exact (Hp I)|]. destruct Hp as (Hp & _).
  rewrite !in_app_iff in I. destruct I as [[I|[]]|[I|[I|[]]]]; try discriminate. auto.
Qed.

Definition no_hole (k : str) (l : list piece) : bool := negb (existsb (is_hole k) l).

Lemma remove_lines K k t : In k K -> is_name k -> Forall (Forall (piece_ok K)) t ->
  Forall (fun l => no_hole k l = false -> ~ In nl (render l)) t ->
  unlines (filter (fun line => negb (contains (placeholder k) line)) (lines (render_lines t)))
  = render_lines (filter (no_hole k) t).
Proof.
  intros I N O F. destruct t as [|l0 t0]; [reflexivity|]. set (t := l0 :: t0) in *.
  assert (Ht : t <> []) by discriminate. clearbody t. clear l0 t0.
  unfold render_lines. rewrite lines_unlines_concat by (destruct t; [congruence|discriminate]).
  rewrite filter_concat, !map_map.
  assert (E : concat (map (fun x => filter (fun line => negb (contains (placeholder k) line)) (lines (render x))) t)
            = concat (map (fun x => lines (render x)) (filter (no_hole k) t))).
  { clear Ht. induction t as [|l t IH]; auto. inversion O as [|? ? Ol Ot]; subst. inversion F as [|? ? Fl Ft]; subst.
    cbn [map concat filter]. rewrite IH; auto. pose proof (neutral_contains K k l I N Ol) as C.
    fold (is_hole k) in C. destruct (no_hole k l) eqn:Q.
    - cbn [map concat]. f_equal. unfold no_hole in Q. apply negb_true_iff in Q. rewrite Q in C.
      clear -C. assert (G : forall x, In x (lines (render l)) -> contains (placeholder k) x = false).
      { intros x Hx. destruct (contains (placeholder k) x) eqn:E; auto. rewrite (line_contains _ _ _ Hx E) in C. discriminate. }
      induction (lines (render l)) as [|x L IHL]; auto. cbn [filter]. rewrite (G x) by (left; reflexivity). cbn [negb].
      f_equal. apply IHL. intros y Hy. apply G. right. exact Hy.
    - unfold lines. rewrite split_on_single by (apply Fl; reflexivity). cbn [filter].
      unfold no_hole in Q. apply negb_false_iff in Q. rewrite Q in C. rewrite C. reflexivity. }
  match goal with |- unlines ?a = _ => match type of E with ?b = _ => change a with b end end.
  rewrite E. rewrite unlines_concat.
  - rewrite map_map. f_equal. apply map_ext. intros x. apply unlines_lines.
  - apply Forall_forall. intros x Hx. apply in_map_iff in Hx. destruct Hx as (y & <- & _). apply lines_nonempty.
Qed.

Lemma no_value_none k d p : has_no_value ((k, None) :: d) p = is_hole k p || has_no_value d p.
Proof. destruct p as [s|k']; auto. cbn [has_no_value is_hole dict_get]. destruct (seqb k' k); auto. Qed.

Lemma no_value_some k v d p : has_no_value ((k, Some v) :: d) p = has_no_value d (fill1 k v p).
Proof. destruct p as [s|k']; auto. cbn [has_no_value fill1 dict_get]. destruct (seqb k' k); auto. Qed.

Lemma stays_none k d l : stays ((k, None) :: d) l = no_hole k l && stays d l.
Proof.
  unfold stays, no_hole. rewrite <- negb_orb. f_equal. induction l as [|p l IH]; auto.
  cbn [existsb]. rewrite IH, no_value_none. destruct (is_hole k p), (existsb (is_hole k) l), (has_no_value d p); auto.
Qed.

Lemma stays_some k v d l : stays ((k, Some v) :: d) l = stays d (map (fill1 k v) l).
Proof.
  unfold stays. f_equal. induction l as [|p l IH]; auto. cbn [existsb map]. rewrite IH, no_value_some. reflexivity.
Qed.

Lemma filter_andb {A} f g (l : list A) : filter (fun x => f x && g x) l = filter g (filter f l).
Proof.
  induction l as [|x l IH]; auto. cbn [filter]. destruct (f x); cbn [andb filter]; rewrite ?IH; auto.
Qed.

Lemma fill_opt_none k d l : no_hole k l = true -> map (fill_opt ((k, None) :: d)) l = map (fill_opt d) l.
Proof.
  unfold no_hole. rewrite negb_true_iff. induction l as [|p l IH]; auto. cbn [existsb]. rewrite orb_false_iff.
  intros (A & B). cbn [map]. rewrite IH by exact B. f_equal. destruct p as [s|k']; auto. cbn [is_hole] in A.
  cbn [fill_opt dict_get]. rewrite A. reflexivity.
Qed.

Lemma fill_lines_none k d t : fill_lines ((k, None) :: d) t = fill_lines d (filter (no_hole k) t).
Proof.
  unfold fill_lines. rewrite <- filter_andb.
  rewrite (filter_ext _ _ (stays_none k d)). apply map_ext_in. intros l H. apply filter_In in H. destruct H as (_ & H).
  apply andb_true_iff in H. apply fill_opt_none. tauto.
Qed.

Lemma fill_lines_some k v d t : fill_lines ((k, Some v) :: d) t = fill_lines d (map (map (fill1 k v)) t).
Proof.
  unfold fill_lines. induction t as [|l t IH]; auto. cbn [filter map]. rewrite stays_some.
  destruct (stays d (map (fill1 k v) l)); auto. cbn [map]. rewrite IH. f_equal. rewrite map_map.
  apply map_ext. intros [s|k']; auto. cbn [fill_opt fill1 dict_get]. destruct (seqb k' k); auto.
Qed.

Lemma fill_lines_ok K d : incl (map fst d) K -> Forall is_name (map fst d) ->
  (forall k v, In (k, Some v) d -> neutral K v) ->
  forall t, Forall (Forall (piece_ok K)) t -> Forall (fun l => stays d l = false -> Forall (flat d) l) t ->
  replace_in_string_remove_line_if_none (render_lines t) d = render_lines (fill_lines d t).
Proof.
  unfold replace_in_string_remove_line_if_none. induction d as [|(k, o) d IH]; intros I N V t O F; cbn [fold_left].
  - unfold fill_lines. f_equal. clear. induction t as [|l t IH]; auto.
    assert (S : stays [] l = true).
    { unfold stays. clear. induction l as [|p l IH]; auto. cbn [existsb].
      destruct p; cbn [has_no_value dict_get orb]; exact IH. }
    cbn [filter]. rewrite S. cbn [map]. rewrite <- IH. f_equal. rewrite <- (map_id l) at 1.
    apply map_ext. intros [s|k]; reflexivity.
  - cbn [map fst] in I, N. inversion N as [|? ? Nk Nd]; subst.
    assert (Ik : In k K) by (apply I; left; reflexivity).
    assert (Id : incl (map fst d) K) by (intros x Hx; apply I; right; exact Hx).
    assert (Vd : forall k v, In (k, Some v) d -> neutral K v) by (intros k' v Hv; apply (V k' v); right; exact Hv).
    destruct o as [v|]; unfold replace_or_remove at 2; cbn [snd fst].
    + rewrite (replace_lines K); auto. rewrite fill_lines_some. apply IH; auto.
      * rewrite Forall_map. eapply Forall_impl; [|exact O]. intros l Hl. apply fill1_ok; auto. apply (V k v). left; reflexivity.
      * rewrite Forall_map. eapply Forall_impl; [|exact F]. cbn beta. intros l Hl S. rewrite <- stays_some in S.
        specialize (Hl S). rewrite Forall_map. eapply Forall_impl; [|exact Hl]. intros [s|k'] Hp; cbn [fill1]; auto.
        cbn [flat dict_get] in Hp. destruct (seqb k' k); cbn [flat]; [|exact Hp]. apply Hp. reflexivity.
    + rewrite (remove_lines K); auto.
      * rewrite fill_lines_none. apply IH; auto.
        -- apply incl_Forall with (2 := O). intros x Hx. apply filter_In in Hx. tauto.
        -- apply Forall_forall. intros l Hl S. apply filter_In in Hl. destruct Hl as (Hl & Q).
           rewrite Forall_forall in F. specialize (F l Hl). rewrite stays_none, S, andb_false_r in F.
           specialize (F eq_refl). unfold no_hole in Q. apply negb_true_iff in Q. clear -F Q.
           induction F as [|p l Hp _ IH]; constructor.
           ++ destruct p as [s|k']; auto. cbn [existsb is_hole] in Q. apply orb_false_iff in Q. destruct Q as (Q & _).
              cbn [flat dict_get] in Hp. rewrite Q in Hp. exact Hp.
           ++ apply IH. cbn [existsb] in Q. apply orb_false_iff in Q. tauto.
      * eapply Forall_impl; [|exact F]. cbn beta. intros l Hl Q. rewrite stays_none, Q in Hl.
        exact (flat_render _ l (Hl eq_refl)).
Qed.

(** Both dictionaries, on lines. *)
Lemma render_lines_fill K d : incl (map fst d) K -> Forall is_name (map fst d) -> Forall (neutral K) (map snd d) ->
  forall t, Forall (Forall (piece_ok K)) t -> replace_in_string (render_lines t) d = render_lines (map (map (fill d)) t).
Proof.
  intros I N V t O. rewrite !render_flatten, (fill_all K); auto using flatten_ok.
  f_equal. apply map_flatten. reflexivity.
Qed.

Lemma fill_ok K d ps : Forall (neutral K) (map snd d) -> Forall (piece_ok K) ps -> Forall (piece_ok K) (map (fill d) ps).
Proof.
  intros V O. rewrite Forall_map. eapply Forall_impl; [|exact O]. intros [s|k] H; cbn [fill]; auto.
  destruct (dict_get k d) eqn:E; auto. cbn. apply dict_get_In in E. rewrite Forall_forall in V. apply V.
  apply in_map_iff. exists (k, s). auto.
Qed.

Lemma process_ok K d dl : incl (map fst d) K -> incl (map fst dl) K -> Forall is_name K ->
  Forall (neutral K) (map snd d) -> (forall k v, In (k, Some v) dl -> neutral K v) ->
  forall t, Forall (Forall (piece_ok K)) t ->
  Forall (fun l => stays dl (map (fill d) l) = false -> Forall (flat dl) (map (fill d) l)) t ->
  process_code_template (render_lines t) d dl false = render_lines (fill_lines dl (map (map (fill d)) t)).
Proof.
  intros I I' N V V' t O F. unfold process_code_template.
  rewrite (render_lines_fill K); auto; [|apply incl_Forall with (1 := I); exact N].
  apply (fill_lines_ok K); auto.
  - apply incl_Forall with (1 := I'); exact N.
  - rewrite Forall_map. eapply Forall_impl; [|exact O]. intros l Hl. apply fill_ok; auto.
  - rewrite Forall_map. exact F.
Qed.
