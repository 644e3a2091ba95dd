From Verif Require Import PyStr PyStrLemmas PyDict TextModel CommentProofs2 CommentProofs3 CommentProofs4 TemplateProofs3
  FillModel FillSpec.

Lemma written_hole k : written (Hole k) = placeholder k.
Proof. reflexivity. Qed.

Lemma neutral_tail K c s : neutral K (c :: s) -> neutral K s.
Proof. intros H a b k E I. apply (H (c :: a) b k); [rewrite E; reflexivity|exact I]. Qed.

Lemma neutralb_true K s : neutralb K s = true <-> neutral K s.
Proof.
  induction s as [|c s IH].
  - split; auto. intros _ a b k E. destruct a; discriminate.
  - cbn [neutralb]. rewrite andb_true_iff, IH. split.
    + intros (H & T) a b k E I. destruct a as [|x a].
      * cbn [app] in E. inversion E; subst c b. rewrite ceqb_refl in H.
        rewrite forallb_forall in H. specialize (H k I). rewrite andb_true_iff, !negb_true_iff in H.
        destruct H as (A & B). split.
        -- intros r E'. rewrite E' in A. change (k ++ "}"%char :: r) with (k ++ (["}"%char] ++ r)) in A.
           rewrite app_assoc, startswith_app in A. discriminate.
        -- intros r E'. rewrite E', startswith_app in B. discriminate.
      * cbn [app] in E. inversion E; subst. apply (T a b k); auto.
    + intros H. split; [|exact (neutral_tail K c s H)].
      destruct (ceqb_spec c "{") as [->|]; auto. apply forallb_forall. intros k I.
      destruct (H [] s k eq_refl I) as (A & B). apply andb_true_iff. rewrite !negb_true_iff. split.
      * destruct (startswith (k ++ ["}"%char]) s) eqn:E; auto. apply startswith_true in E. destruct E as (r & E).
        exfalso. apply (A r). rewrite E, <- app_assoc. reflexivity.
      * destruct (startswith s (k ++ ["}"%char])) eqn:E; auto. apply startswith_true in E. destruct E as (r & E).
        exfalso. apply (B r). exact E.
Qed.

Lemma contains_step sub c s : startswith sub (c :: s) = false -> contains sub (c :: s) = contains sub s.
Proof. intros H. cbn [contains]. rewrite H. reflexivity. Qed.

Lemma placeholder_ne k : placeholder k <> [].
Proof. discriminate. Qed.

(** Two texts, one of them the start of the other's continuation. *)
Lemma app_compare (a b c d : str) : a ++ b = c ++ d -> (exists r, a = c ++ r) \/ (exists r, c = a ++ r).
Proof.
  revert c; induction a as [|x a IH]; intros c E; [right; exists c; reflexivity|].
  destruct c as [|y c]; [left; exists (x :: a); reflexivity|].
  cbn [app] in E. inversion E; subst. destruct (IH c H1) as [(r & ->)|(r & ->)]; [left|right]; exists r; reflexivity.
Qed.

Lemma no_start K k s z c : neutral K (c :: s) -> In k K -> startswith (placeholder k) ((c :: s) ++ z) = false.
Proof.
  intros N I. destruct (startswith (placeholder k) ((c :: s) ++ z)) eqn:E; auto. exfalso.
  apply startswith_true in E. destruct E as (r & E). unfold placeholder in E. cbn [app] in E.
  inversion E; subst c. destruct (N [] s k eq_refl I) as (A & B).
  destruct (app_compare s z (k ++ ["}"%char]) r) as [(q & E')|(q & E')].
  - rewrite H1. reflexivity.
  - apply (A q). rewrite E', <- app_assoc. reflexivity.
  - apply (B q). exact E'.
Qed.

Lemma skip_neutral K k v s z : neutral K s -> In k K ->
  replace (placeholder k) v (s ++ z) = s ++ replace (placeholder k) v z.
Proof.
  intros N I. induction s as [|c s IH]; auto.
  cbn [app]. rewrite replace_cons.
  - rewrite IH; auto. exact (neutral_tail K c s N).
  - exact (no_start K k s z c N I).
Qed.

Lemma is_name_app_eq k k' r r' : is_name k -> is_name k' ->
  k ++ "}"%char :: r = k' ++ "}"%char :: r' -> k = k'.
Proof.
  revert k'; induction k as [|x k IH]; intros k' (A & B) (A' & B') E.
  - destruct k' as [|y k']; auto. cbn in E. inversion E; subst. exfalso. apply B'. left; reflexivity.
  - destruct k' as [|y k']; cbn in E; inversion E; subst; [exfalso; apply B; left; reflexivity|].
    f_equal. apply IH; auto; split; intros I; [apply A|apply B|apply A'|apply B']; right; exact I.
Qed.

Lemma skip_hole k k' v z : is_name k -> is_name k' -> k <> k' ->
  replace (placeholder k) v (placeholder k' ++ z) = placeholder k' ++ replace (placeholder k) v z.
Proof.
  intros N N' D. unfold placeholder at 2. cbn [app]. rewrite replace_cons.
  - rewrite (replace_skip_prefix (placeholder k) "{"%char v); auto.
    intros I. apply in_app_iff in I. destruct I as [I|[I|[]]]; [destruct N'; auto|discriminate].
  - destruct (startswith (placeholder k) ("{"%char :: (k' ++ ["}"%char]) ++ z)) eqn:E; auto. exfalso.
    apply startswith_true in E. destruct E as (r & E). unfold placeholder in E. cbn [app] in E. inversion E as [E'].
    rewrite <- !app_assoc in E'. apply D. symmetry. exact (is_name_app_eq k' k z r N' N E').
Qed.

(** One replacement. *)
Definition fill1 (k v : str) (p : piece) : piece :=
  match p with Text s => Text s | Hole k' => if seqb k' k then Text v else Hole k' end.

Lemma replace_render K k v ps : In k K -> is_name k -> Forall (piece_ok K) ps ->
  replace (placeholder k) v (render ps) = render (map (fill1 k v) ps).
Proof.
  intros I N. induction ps as [|p ps IH]; intros O; [reflexivity|].
  inversion O as [|? ? Op Os]; subst. unfold render. cbn [map concat]. fold (render ps).
  fold (render (map (fill1 k v) ps)). rewrite <- (IH Os). destruct p as [s|k']; cbn [written fill1].
  - exact (skip_neutral K k v s _ Op I).
  - destruct (seqb_spec k' k) as [->|D]; cbn [written].
    + apply replace_occ. discriminate.
    + exact (skip_hole k k' v (render ps) N Op (fun E => D (eq_sym E))).
Qed.

Lemma fill1_ok K k v ps : neutral K v -> Forall (piece_ok K) ps -> Forall (piece_ok K) (map (fill1 k v) ps).
Proof.
  intros N O. rewrite Forall_map. eapply Forall_impl; [|exact O]. intros [s|k'] H; cbn [fill1]; auto.
  destruct (seqb k' k); auto.
Qed.

Lemma fill1_fill k v d p : fill d (fill1 k v p) = fill ((k, v) :: d) p.
Proof. destruct p as [s|k']; cbn [fill1 fill dict_get]; auto. destruct (seqb k' k); auto. Qed.

Lemma fill_all K d : incl (map fst d) K -> Forall is_name (map fst d) -> Forall (neutral K) (map snd d) ->
  forall ps, Forall (piece_ok K) ps -> replace_in_string (render ps) d = render (map (fill d) ps).
Proof.
  unfold replace_in_string. induction d as [|(k, v) d IH]; intros I N V ps O; cbn [fold_left].
  - f_equal. rewrite <- (map_id ps) at 1. apply map_ext. intros [s|k]; reflexivity.
  - cbn [map fst snd] in I, N, V. inversion N; subst. inversion V; subst. cbn [fst snd].
    rewrite (replace_render K); auto; [|apply I; left; reflexivity].
    rewrite IH; auto.
    + rewrite map_map. f_equal. apply map_ext. intros p. apply fill1_fill.
    + intros x Hx. apply I. right. exact Hx.
    + apply fill1_ok; auto.
Qed.

Lemma fill_same d d' ps : (forall k, In (Hole k) ps -> dict_get k d = dict_get k d') -> map (fill d) ps = map (fill d') ps.
Proof.
  intros H. apply map_ext_in. intros [s|k] I; auto. cbn [fill]. rewrite (H k I). reflexivity.
Qed.

(** Lines. *)
Lemma lines_render_app a b : lines (a ++ nl :: b) = lines a ++ lines b.
Proof. apply split_on_app. Qed.

Lemma lines_unlines_concat l : l <> [] -> lines (unlines l) = concat (map lines l).
Proof.
  induction l as [|x l IH]; [congruence|]. intros _. destruct l as [|y l].
  - cbn [unlines join map concat]. rewrite app_nil_r. reflexivity.
  - unfold unlines. rewrite join_cons. change (x ++ [nl] ++ join [nl] (y :: l)) with (x ++ nl :: unlines (y :: l)).
    rewrite lines_render_app, IH by discriminate. reflexivity.
Qed.

Lemma unlines_concat L : Forall (fun l => l <> []) L -> unlines (concat L) = unlines (map unlines L).
Proof.
  induction L as [|l L IH]; auto. intros H. inversion H as [|? ? Hl HL]; subst. cbn [concat map].
  destruct L as [|m L].
  - cbn [concat map]. rewrite app_nil_r. reflexivity.
  - unfold unlines at 1. rewrite join_app; auto.
    + fold (unlines (concat (m :: L))). rewrite (IH HL). reflexivity.
    + inversion HL as [|? ? Hm _]; subst. cbn [concat]. destruct m; [congruence|discriminate].
Qed.

Lemma filter_concat {A} f (L : list (list A)) : filter f (concat L) = concat (map (filter f) L).
Proof. induction L as [|l L IH]; auto. cbn [concat map]. rewrite filter_app, IH. reflexivity. Qed.

(** No placeholder [k] in what is written without a hole [k]. *)
Lemma neutral_contains K k ps : In k K -> is_name k -> Forall (piece_ok K) ps ->
  contains (placeholder k) (render ps) = existsb (fun p => match p with Hole k' => seqb k' k | _ => false end) ps.
Proof.
  intros I N. induction ps as [|p ps IH]; intros O; [reflexivity|].
  inversion O as [|? ? Op Os]; subst. specialize (IH Os). cbn [existsb]. unfold render. cbn [map concat]. fold (render ps).
  destruct p as [s|k']; cbn [written].
  - cbn [orb]. rewrite <- IH. clear -Op I. induction s as [|c s IHs]; auto.
    cbn [app]. rewrite contains_step; [apply IHs; exact (neutral_tail K c s Op)|].
    exact (no_start K k s (render ps) c Op I).
  - destruct (seqb_spec k' k) as [->|D]; cbn [orb].
    + apply contains_app_l. apply contains_true. exists [], []. rewrite app_nil_r. reflexivity.
    + rewrite <- IH. change ($"{" ++ k' ++ $"}") with (placeholder k').
      unfold placeholder at 2. cbn [app]. rewrite contains_step.
      * cbn in Op. clear -Op. destruct Op as (A & _).
        assert (Hn : ~ In "{"%char (k' ++ ["}"%char])).
        { intros J. apply in_app_iff in J. destruct J as [J|[J|[]]]; [auto|discriminate]. }
        revert Hn. generalize (k' ++ ["}"%char]). intros w Hn. induction w as [|c w IHw]; auto.
        cbn [app]. rewrite contains_step; [apply IHw; intros J; apply Hn; right; exact J|].
        unfold placeholder. cbn [startswith]. destruct (ceqb_spec "{" c) as [<-|]; auto.
        exfalso. apply Hn. left; reflexivity.
      * destruct (startswith (placeholder k) ("{"%char :: (k' ++ ["}"%char]) ++ render ps)) eqn:E; auto. exfalso.
        apply startswith_true in E. destruct E as (r & E). unfold placeholder in E. cbn [app] in E. inversion E as [E'].
        rewrite <- !app_assoc in E'. apply D. exact (is_name_app_eq k' k _ r Op N E').
Qed.
