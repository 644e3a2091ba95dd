From Verif Require Import PyStr PyStrLemmas PyDict TextModel TemplateProofs3 FillModel FillSpec FillProofs FillProofs2.

Lemma cut_end_app n a b : length b = n -> cut_end n (a ++ b) = a.
Proof.
  intros <-. unfold cut_end. rewrite app_length, Nat.add_sub, firstn_app, firstn_all, Nat.sub_diag. apply app_nil_r.
Qed.

Lemma endswith_snoc p c s d : endswith (p ++ [c]) (s ++ [d]) = ceqb c d && endswith p s.
Proof. unfold endswith. rewrite !rev_app_distr. reflexivity. Qed.

Lemma commas_cut j tail : (tail = [] /\ endswith $", )" j = false /\ endswith $", );" j = false) \/ tail = $")" \/ tail = $");" ->
  forall s, replace (placeholder $"maybe_comma") $", " s = j ++ $", " ++ tail -> settle_commas s = j ++ tail.
Proof.
  intros H s E. unfold settle_commas. rewrite E. cbv zeta. destruct H as [(-> & A & B)|[->| ->]].
  - assert (Q : endswith $", " (j ++ $", " ++ []) = true).
    { rewrite app_nil_r. unfold endswith. rewrite rev_app_distr. apply startswith_app. }
    rewrite Q. assert (C : cut_end 2 (j ++ $", " ++ []) = j) by (rewrite app_nil_r; apply cut_end_app; reflexivity).
    rewrite C, B, A, app_nil_r. reflexivity.
  - assert (Q : endswith $", " (j ++ $", " ++ $")") = false).
    { unfold endswith. rewrite rev_app_distr. reflexivity. }
    assert (Q2 : endswith $", );" (j ++ $", " ++ $")") = false).
    { unfold endswith. rewrite rev_app_distr. reflexivity. }
    assert (Q3 : endswith $", )" (j ++ $", " ++ $")") = true).
    { unfold endswith. rewrite rev_app_distr. reflexivity. }
    rewrite Q, Q2, Q3. f_equal. apply cut_end_app. reflexivity.
  - assert (Q : endswith $", " (j ++ $", " ++ $");") = false).
    { unfold endswith. rewrite rev_app_distr. reflexivity. }
    assert (Q2 : endswith $", );" (j ++ $", " ++ $");") = true).
    { unfold endswith. rewrite rev_app_distr. reflexivity. }
    rewrite Q, Q2. rewrite (cut_end_app 4) by reflexivity.
    assert (Q3 : endswith $", )" (j ++ $");") = false).
    { unfold endswith. rewrite rev_app_distr. reflexivity. }
    rewrite Q3. reflexivity.
Qed.

Definition comma : str := $"maybe_comma".

Lemma names_ok K : forallb (fun k => negb (contains $"{" k) && negb (contains $"}" k)) K = true -> Forall is_name K.
Proof.
  intros H. apply Forall_forall. intros k I. rewrite forallb_forall in H. specialize (H k I).
  apply andb_true_iff in H. rewrite !negb_true_iff in H. destruct H as (A & B). split; intros J.
  - apply contains_single in J. change ["{"%char] with $"{" in J. congruence.
  - apply contains_single in J. change ["}"%char] with $"}" in J. congruence.
Qed.

Lemma name_comma : is_name comma.
Proof. pose proof (names_ok [comma] eq_refl) as H. inversion H; auto. Qed.

Lemma replace_items items tail : Forall (neutral [comma]) items -> neutral [comma] tail ->
  replace (placeholder comma) $", " (concat (map (fun x => x ++ placeholder comma) items) ++ tail)
  = concat (map (fun x => x ++ $", ") items) ++ tail.
Proof.
  intros H T. induction H as [|x l Hx _ IH].
  - cbn [map concat app]. rewrite <- (app_nil_r tail), (skip_neutral [comma] comma $", " tail [] T (or_introl eq_refl)).
    rewrite replace_nil. reflexivity.
  - cbn [map concat]. rewrite <- !app_assoc, (skip_neutral [comma] comma $", " x _ Hx (or_introl eq_refl)).
    rewrite replace_occ by discriminate. rewrite IH. reflexivity.
Qed.

Lemma concat_join sep items : items <> [] -> concat (map (fun x => x ++ sep) items) = join sep items ++ sep.
Proof.
  induction items as [|x l IH]; [congruence|]. intros _. destruct l as [|y l].
  - cbn. apply app_nil_r.
  - rewrite join_cons. change (concat (map (fun x0 => x0 ++ sep) (x :: y :: l)))
      with ((x ++ sep) ++ concat (map (fun x0 => x0 ++ sep) (y :: l))). rewrite IH by discriminate. rewrite <- !app_assoc. reflexivity.
Qed.

Lemma commas_settled items tail : items <> [] -> Forall (neutral [comma]) items ->
  (tail = [] /\ endswith $", )" (join $", " items) = false /\ endswith $", );" (join $", " items) = false)
  \/ tail = $")" \/ tail = $");" ->
  settle_commas (concat (map (fun x => x ++ placeholder comma) items) ++ tail) = join $", " items ++ tail.
Proof.
  intros N F T. apply commas_cut; auto. fold comma. rewrite replace_items; auto.
  - rewrite concat_join, <- app_assoc by exact N. reflexivity.
  - apply neutralb_true. destruct T as [(-> & _)|[->| ->]]; reflexivity.
Qed.

(** The end of a binding. *)
Definition end_line (name : str) : list piece := [Hole $"_i_"; Hole name; Hole comma].
Definition end_pieces : list (list piece) := map end_line (map lit ["maybe_py_arg"; "maybe_docstring"; "maybe_return_value_policy";
  "maybe_keep_alive"; "maybe_call_guard"]%string).

Lemma end_template_pieces : end_template = render_lines end_pieces.
Proof. reflexivity. Qed.

Lemma neutral_incl K K' s : incl K' K -> neutral K s -> neutral K' s.
Proof. intros I N a b k E Hk. apply (N a b k E). apply I, Hk. Qed.

Lemma present_neutral K (l : list (option str)) : (forall v, In (Some v) l -> neutral K v) -> Forall (neutral K) (present l).
Proof.
  induction l as [|[v|] l IH]; intros H; cbn [present]; auto.
  - constructor; [apply H; left; reflexivity|apply IH; intros w I; apply H; right; exact I].
  - apply IH; intros w I; apply H; right; exact I.
Qed.

(** Lines of one shape, some of which have a value. *)
Lemma fill_end_lines indent (D : list (str * option str)) (l : list (str * option str)) :
  (forall k o, In (k, o) l -> dict_get k D = Some o) -> dict_get comma D = None ->
  fill_lines D (map (fun k => [Text indent; Hole k; Hole comma]) (map fst l))
  = map (fun v => [Text indent; Text v; Hole comma]) (present (map snd l)).
Proof.
  intros H C. unfold fill_lines. induction l as [|(k, o) l IH]; auto. cbn [map fst snd filter].
  assert (G : dict_get k D = Some o) by (apply H; left; reflexivity).
  assert (S : stays D [Text indent; Hole k; Hole comma] = match o with None => false | Some _ => true end).
  { unfold stays. cbn [existsb has_no_value]. rewrite G, C. destruct o; reflexivity. }
  rewrite S. destruct o as [v|]; cbn [present map].
  - rewrite IH by (intros k' o' I; apply H; right; exact I). cbn [fill_opt]. rewrite G, C. reflexivity.
  - apply IH. intros k' o' I. apply H. right. exact I.
Qed.

Lemma join_prefixed (sep : str) indent l : l <> [] ->
  join (sep ++ [nl]) (map (fun p => indent ++ p) l) =
  join sep (match map (fun p => indent ++ p) l with [] => [] | x :: r => x :: map (fun y => nl :: y) r end).
Proof.
  intros N. destruct l as [|x l]; [congruence|]. clear N. cbn [map]. revert x; induction l as [|y l IH]; intros x; auto.
  cbn [map]. rewrite !join_cons. cbn [map] in IH. rewrite IH. rewrite <- !app_assoc. f_equal. f_equal.
  cbn [map]. destruct l as [|z l]; cbn [map]; [reflexivity|]. rewrite !join_cons. reflexivity.
Qed.

Lemma render_lines_commas indent parts : parts <> [] ->
  render_lines (map (fun v => [Text indent; Text v; Hole comma]) parts)
  = concat (map (fun x => x ++ placeholder comma)
      (match map (fun p => indent ++ p) parts with [] => [] | x :: r => x :: map (fun y => nl :: y) r end)).
Proof.
  intros N. destruct parts as [|x l]; [congruence|]. clear N. cbn [map].
  assert (R : forall v, render [Text indent; Text v; Hole comma] = (indent ++ v) ++ placeholder comma).
  { intros v. unfold render. cbn [map concat written]. rewrite <- !app_assoc. reflexivity. }
  unfold render_lines. cbn [map]. rewrite R. revert x; induction l as [|y l IH]; intros x.
  - cbn [map unlines join concat]. rewrite app_nil_r. reflexivity.
  - cbn [map]. unfold unlines. rewrite join_cons. rewrite R.
    fold (unlines (((indent ++ y) ++ placeholder comma) :: map render (map (fun v => [Text indent; Text v; Hole comma]) l))).
    rewrite IH. reflexivity.
Qed.

Lemma neutral_cons_nl K s : neutral K s -> neutral K (nl :: s).
Proof.
  intros N a b k E I. destruct a as [|x a]; [discriminate|]. cbn [app] in E. inversion E; subst. apply (N a b k); auto.
Qed.

Lemma neutral_app_no_brace K a b : ~ In "{"%char a -> neutral K b -> neutral K (a ++ b).
Proof.
  intros H N. induction a as [|c a IH]; auto. cbn [app]. intros x y k E I. destruct x as [|x0 x].
  - cbn in E. inversion E. exfalso. apply H. left; auto.
  - cbn in E. inversion E. eapply IH; eauto. intros J. apply H. right; exact J.
Qed.

Lemma no_brace_neutral K a : ~ In "{"%char a -> neutral K a.
Proof. intros H x y k E. exfalso. apply H. rewrite E. apply in_elt. Qed.

