(** Python dictionaries with text keys, as lists of pairs in insertion order. *)
From Verif Require Export PyStr PyStrLemmas.

Section Dict.
Context {A : Type}.
(** [d.get(k)]. *)
Fixpoint dict_get (k : str) (d : list (str * A)) : option A :=
  match d with
  | [] => None
  | (k', v) :: d' => if seqb k k' then Some v else dict_get k d'
  end.
(** [d[k] = v]: a key that is already there keeps its place. *)
Fixpoint dict_set (k : str) (v : A) (d : list (str * A)) : list (str * A) :=
  match d with
  | [] => [(k, v)]
  | (k', v') :: d' => if seqb k k' then (k', v) :: d' else (k', v') :: dict_set k v d'
  end.
Definition dict_has (k : str) (d : list (str * A)) : bool :=
  match dict_get k d with Some _ => true | None => false end.

Lemma dict_get_set k k' v d : dict_get k (dict_set k' v d) = if seqb k k' then Some v else dict_get k d.
Proof.
  induction d as [|(k0, v0) d IH]; cbn [dict_set dict_get]; auto.
  destruct (seqb_spec k' k0) as [->|N].
  - cbn [dict_get]. destruct (seqb k k0); auto.
  - cbn [dict_get]. destruct (seqb_spec k k0) as [->|N'].
    + destruct (seqb_spec k0 k') as [->|]; congruence.
    + apply IH.
Qed.
Lemma dict_get_In k v d : dict_get k d = Some v -> In (k, v) d.
Proof.
  induction d as [|(k0, v0) d IH]; cbn [dict_get]; [discriminate|].
  destruct (seqb_spec k k0) as [->|]; intros H; [inversion H; left; auto|right; auto].
Qed.
Lemma dict_get_None k d : dict_get k d = None <-> ~ In k (map fst d).
Proof.
  induction d as [|(k0, v0) d IH]; cbn [dict_get map fst In]; [tauto|].
  destruct (seqb_spec k k0) as [->|N]; [split; [discriminate|intros H; destruct H; auto]|].
  rewrite IH. intuition.
Qed.
Lemma dict_In_get k v d : NoDup (map fst d) -> In (k, v) d -> dict_get k d = Some v.
Proof.
  induction d as [|(k0, v0) d IH]; cbn [dict_get map fst In]; [tauto|].
  intros Hn [E|Hi].
  - inversion E; subst. rewrite seqb_refl. auto.
  - inversion Hn as [|? ? Hk Hd]; subst. destruct (seqb_spec k k0) as [->|]; auto.
    exfalso. apply Hk. apply in_map_iff. exists (k0, v). auto.
Qed.
Lemma dict_set_keys k v d : map fst (dict_set k v d) = if smem k (map fst d) then map fst d else map fst d ++ [k].
Proof.
  induction d as [|(k0, v0) d IH]; cbn [dict_set map fst smem existsb]; auto.
  destruct (seqb_spec k k0) as [->|N]; cbn [map fst orb]; auto.
  rewrite IH. unfold smem. destruct (existsb (seqb k) (map fst d)); auto.
Qed.
Lemma dict_set_NoDup k v d : NoDup (map fst d) -> NoDup (map fst (dict_set k v d)).
Proof.
  intros H. rewrite dict_set_keys. destruct (smem k (map fst d)) eqn:E; auto.
  apply smem_false in E. rewrite <- (app_nil_r (map fst d)) in H |- *.
  rewrite <- app_assoc. apply NoDup_Add with (a := k) (l := map fst d ++ []).
  - rewrite app_nil_r. cbn. rewrite <- (app_nil_r (map fst d)) at 1. apply Add_app.
  - rewrite app_nil_r in *. auto.
Qed.
End Dict.
