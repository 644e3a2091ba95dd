(** Proofs for the resolution of macros. *)
From Coq Require Import Permutation.
From Verif Require Import PyStr PyStrLemmas PyNum PyDict NumberModel NumberSpec NumberProofs.

(** *** Spaces and parentheses *)

Definition core (t : str) : str := peel (length (strip t)) (strip t).

Lemma lstrip_idem s : lstrip (lstrip s) = lstrip s.
Proof. apply dropwhile_idem. Qed.
Lemma rstrip_snoc s c : is_space c = true -> rstrip (s ++ [c]) = rstrip s.
Proof. intros H. unfold rstrip. rewrite rev_app_distr. cbn [rev app dropwhile]. rewrite H. auto. Qed.
Lemma rstrip_keep s c : is_space c = false -> rstrip (s ++ [c]) = s ++ [c].
Proof.
  intros H. unfold rstrip. rewrite rev_app_distr. cbn [rev app dropwhile]. rewrite H.
  change (c :: rev s) with ([c] ++ rev s). rewrite rev_app_distr, rev_involutive. auto.
Qed.
Lemma lstrip_snoc s c : is_space c = true -> rstrip (lstrip (s ++ [c])) = rstrip (lstrip s).
Proof.
  intros H. induction s as [|x s IH].
  - unfold lstrip. cbn [app dropwhile]. rewrite H. auto.
  - unfold lstrip in *. cbn [app dropwhile]. destruct (is_space x); auto.
    change (x :: s ++ [c]) with ((x :: s) ++ [c]). apply rstrip_snoc; auto.
Qed.
Lemma strip_space_l c t : is_space c = true -> strip (c :: t) = strip t.
Proof. intros H. unfold strip, lstrip. cbn [dropwhile]. rewrite H. auto. Qed.
Lemma strip_space_r c t : is_space c = true -> strip (t ++ [c]) = strip t.
Proof. intros H. unfold strip. apply lstrip_snoc; auto. Qed.
Lemma strip_ends c s d : is_space c = false -> is_space d = false -> strip (c :: s ++ [d]) = c :: s ++ [d].
Proof.
  intros Hc Hd. unfold strip, lstrip. cbn [dropwhile]. rewrite Hc. change (c :: s ++ [d]) with ((c :: s) ++ [d]).
  apply rstrip_keep; auto.
Qed.
Lemma strip_spaces_l a t : forallb is_space a = true -> strip (a ++ t) = strip t.
Proof.
  induction a as [|c a IH]; auto. cbn [forallb app]. intros H. apply andb_true_iff in H as [H1 H2].
  rewrite strip_space_l by auto. auto.
Qed.
Lemma strip_spaces_r a t : forallb is_space a = true -> strip (t ++ a) = strip t.
Proof.
  revert t. induction a as [|c a IH] using rev_ind; intros t H; [rewrite app_nil_r; auto|].
  rewrite forallb_app in H. apply andb_true_iff in H as [H1 H2]. cbn [forallb] in H2. rewrite andb_true_r in H2.
  rewrite app_assoc, strip_space_r by auto. auto.
Qed.
Lemma strip_idem s : strip (strip s) = strip s.
Proof.
  destruct (strip_split s) as (a & b & E & Ha & Hb).
  transitivity (strip (a ++ strip s ++ b)); [|rewrite <- E; auto].
  rewrite strip_spaces_l, strip_spaces_r by auto. auto.
Qed.
Lemma strip_length s : length (strip s) <= length s.
Proof.
  destruct (strip_split s) as (a & b & E & _). apply (f_equal (@length _)) in E. rewrite !app_length in E.
  unfold str in *. lia.
Qed.

Lemma parens_form t : (2 <=? length t) && startswith $"(" t && endswith $")" t = true ->
  t = "("%char :: removelast (tl t) ++ [")"%char].
Proof.
  intros H. apply andb_true_iff in H as [H H3]. apply andb_true_iff in H as [H1 H2]. apply Nat.leb_le in H1.
  apply startswith_true in H2 as (r & ->). cbn [app lit list_ascii_of_string] in *. cbn [tl]. f_equal.
  unfold endswith in H3. apply startswith_true in H3 as (q & E). cbn [rev app lit list_ascii_of_string] in E.
  assert (E' : "("%char :: r = rev q ++ [")"%char]).
  { rewrite <- (rev_involutive ("("%char :: r)). cbn [rev]. rewrite E. cbn [rev]. auto. }
  destruct (rev q) as [|x q']; [discriminate|]. cbn [app] in E'. inversion E'; subst. rewrite removelast_last. auto.
Qed.
Lemma parens_test s : (2 <=? length ("("%char :: s ++ [")"%char])) && startswith $"(" ("("%char :: s ++ [")"%char])
  && endswith $")" ("("%char :: s ++ [")"%char]) = true.
Proof.
  assert (E : endswith $")" ("("%char :: s ++ [")"%char]) = true).
  { unfold endswith. change ("("%char :: s ++ [")"%char]) with (("("%char :: s) ++ [")"%char]).
    rewrite rev_app_distr. reflexivity. }
  rewrite E, andb_true_r. cbn [length]. rewrite app_length. cbn [length]. rewrite Nat.add_1_r. reflexivity.
Qed.
Lemma peel_fuel f1 : forall f2 t, length t <= f1 -> length t <= f2 -> peel f1 t = peel f2 t.
Proof.
  induction f1 as [|f1 IH]; intros f2 t H1 H2.
  - destruct t; [|cbn in H1; lia]. destruct f2; auto.
  - destruct f2 as [|f2]; [destruct t; [auto|cbn in H2; lia]|]. cbn [peel].
    destruct ((2 <=? length t) && startswith $"(" t && endswith $")" t) eqn:E; auto.
    apply parens_form in E. set (x := removelast (tl t)) in *. pose proof (strip_length x).
    assert (length t = length x + 2) by (rewrite E; cbn [length]; rewrite app_length; cbn; unfold str in *; lia).
    apply IH; unfold str in *; lia.
Qed.

Lemma core_space_l c t : is_space c = true -> core (c :: t) = core t.
Proof. intros H. unfold core. rewrite strip_space_l; auto. Qed.
Lemma core_space_r c t : is_space c = true -> core (t ++ [c]) = core t.
Proof. intros H. unfold core. rewrite strip_space_r; auto. Qed.
Lemma core_parens t : core ("("%char :: t ++ [")"%char]) = core t.
Proof.
  unfold core. rewrite (strip_ends "(" t ")") by reflexivity. cbn [length]. cbn [peel]. rewrite parens_test.
  cbn [tl]. rewrite removelast_last. pose proof (strip_length t).
  apply peel_fuel; [rewrite app_length; unfold str in *; lia|auto].
Qed.
Lemma core_plain t : strip t = t -> startswith $"(" t = false -> core t = t.
Proof. intros H1 H2. unfold core. rewrite H1. destruct (length t); auto. cbn [peel]. rewrite H2, andb_false_r. auto. Qed.

Section Rebuild.
Variable p : str -> Z -> Prop.
Variable named : str -> option Z.
Variable defs : str -> option str.
Notation follows := (follows p named defs).
Lemma follows_spaces k a t b z : forallb is_space a = true -> forallb is_space b = true -> follows k t z -> follows k (a ++ t ++ b) z.
Proof.
  intros Ha Hb H. assert (H' : follows k (t ++ b) z).
  { revert Hb. induction b as [|c b IH] using rev_ind; intros Hb; [rewrite app_nil_r; auto|].
    rewrite forallb_app in Hb. apply andb_true_iff in Hb as [H1 H2]. cbn [forallb] in H2. rewrite andb_true_r in H2.
    rewrite app_assoc. apply f_space_r; auto. }
  revert Ha. induction a as [|c a IH]; intros Ha; auto. cbn [forallb] in Ha. apply andb_true_iff in Ha as [H1 H2].
  cbn [app]. apply f_space_l; auto.
Qed.
Lemma follows_strip k t z : follows k (strip t) z -> follows k t z.
Proof. intros H. destruct (strip_split t) as (a & b & E & Ha & Hb). rewrite E. apply follows_spaces; auto. Qed.
Lemma follows_peel fuel : forall k t z, follows k (peel fuel t) z -> follows k t z.
Proof.
  induction fuel as [|fuel IH]; intros k t z H; auto. cbn [peel] in H.
  destruct ((2 <=? length t) && startswith $"(" t && endswith $")" t) eqn:E; auto.
  apply parens_form in E. apply IH, follows_strip in H. rewrite E. apply f_parens; auto.
Qed.
Lemma follows_core k t z : follows k (core t) z -> follows k t z.
Proof. intros H. apply follows_peel in H. apply follows_strip; auto. Qed.
End Rebuild.
Lemma follows_mono (p q : str -> Z -> Prop) named defs k t z : (forall t z, p t z -> q t z) -> follows p named defs k t z -> follows q named defs k t z.
Proof.
  intros H. induction 1; [apply f_literal; auto|apply f_named; auto|eapply f_define; eauto|apply f_space_l; auto|apply f_space_r; auto|apply f_parens; auto].
Qed.

(** *** Resolution *)
Section Resolve.
Variable named : macros.
Variable raw : list (str * str).
Notation nam := (fun t => dict_get t named).
Notation def := (fun t => dict_get t raw).
Notation res := (fun fuel seen t => resolve_int_token fuel named raw seen t).

Lemma resolve_core fuel seen t : res (S fuel) seen t =
  match parse_c_int_literal (core t) with
  | Some z => Some (Some z)
  | None => match nam (core t) with
            | Some z => Some (Some z)
            | None => match def (core t) with
                      | Some v => if smem (core t) seen then Some None else res fuel (core t :: seen) v
                      | None => Some None end end end.
Proof. reflexivity. Qed.

Lemma resolve_sound fuel : forall seen t z, res fuel seen t = Some (Some z) ->
  exists k, follows (fun t z => parse_c_int_literal t = Some z) nam def k t z.
Proof.
  induction fuel as [|fuel IH]; intros seen t z H; [discriminate|]. rewrite resolve_core in H.
  destruct (parse_c_int_literal (core t)) as [x|] eqn:E1.
  { inversion H; subst. exists 0. apply follows_core, f_literal; auto. }
  destruct (dict_get (core t) named) as [x|] eqn:E2.
  { inversion H; subst. exists 0. apply follows_core, f_named; auto. }
  destruct (dict_get (core t) raw) as [v|] eqn:E3; [|discriminate].
  destruct (smem (core t) seen); [discriminate|]. apply IH in H as (k & Hk).
  exists (S k). apply follows_core. eapply f_define; eauto.
Qed.

Lemma resolve_enough fuel : forall seen t, NoDup seen -> incl seen (map fst raw) ->
  length raw - length seen < fuel -> res fuel seen t <> None.
Proof.
  induction fuel as [|fuel IH]; intros seen t Hn Hi Hf; [lia|]. rewrite resolve_core.
  destruct (parse_c_int_literal (core t)); [discriminate|]. destruct (dict_get (core t) named); [discriminate|].
  destruct (dict_get (core t) raw) as [v|] eqn:E3; [|discriminate].
  destruct (smem (core t) seen) eqn:Em; [discriminate|]. apply smem_false in Em.
  assert (Hk : In (core t) (map fst raw)) by (apply dict_get_In in E3; apply in_map_iff; exists (core t, v); auto).
  assert (Hn' : NoDup (core t :: seen)) by (constructor; auto).
  assert (Hi' : incl (core t :: seen) (map fst raw)) by (intros x [<-|Hx]; auto).
  apply IH; auto. pose proof (NoDup_incl_length Hn' Hi') as L. rewrite map_length in L. cbn [length] in L |- *. unfold str in *. lia.
Qed.

Lemma resolve_more fuel : forall fuel' seen t r, fuel <= fuel' -> res fuel seen t = Some r -> res fuel' seen t = Some r.
Proof.
  induction fuel as [|fuel IH]; intros fuel' seen t r Hf H; [discriminate|]. destruct fuel' as [|fuel']; [lia|].
  rewrite resolve_core in *. destruct (parse_c_int_literal (core t)); auto. destruct (dict_get (core t) named); auto.
  destruct (dict_get (core t) raw) as [v|]; auto. destruct (smem (core t) seen); auto. apply IH; auto. lia.
Qed.

(** The same steps, on texts without spaces and parentheses around. *)
Inductive chain : nat -> str -> Z -> Prop :=
| ch_lit c z : parse_c_int_literal c = Some z -> chain 0 c z
| ch_named c z : parse_c_int_literal c = None -> nam c = Some z -> chain 0 c z
| ch_def k c v z : parse_c_int_literal c = None -> nam c = None -> def c = Some v -> chain k (core v) z -> chain (S k) c z.
Lemma chain_det k c z : chain k c z -> forall k' z', chain k' c z' -> k = k' /\ z = z'.
Proof.
  induction 1 as [c z H|c z H1 H2|k c v z H1 H2 H3 H4 IH]; intros k' z' H'; inversion H'; subst; try (split; congruence).
  match goal with E : dict_get c raw = Some ?w |- _ => rewrite H3 in E; inversion E; subst end.
  edestruct IH as [-> ->]; eauto.
Qed.
Lemma chain_resolve k c z : chain k c z -> forall fuel seen t, core t = c -> k < fuel ->
  (forall s, In s seen -> exists k' z', chain k' s z' /\ k < k') -> res fuel seen t = Some (Some z).
Proof.
  induction 1 as [c z H|c z H1 H2|k c v z H1 H2 H3 H4 IH]; intros fuel seen t Et Hf Hs;
    (destruct fuel as [|fuel]; [lia|]); rewrite resolve_core, Et.
  - rewrite H. auto.
  - rewrite H1, H2. auto.
  - rewrite H1, H2, H3.
    assert (HC : chain (S k) c z) by (eapply ch_def; eauto).
    destruct (smem c seen) eqn:Em.
    + apply smem_In in Em. destruct (Hs c Em) as (k' & z' & H5 & H6). destruct (chain_det _ _ _ HC _ _ H5). lia.
    + apply IH; auto; [lia|]. intros s [<-|Hin].
      * exists (S k), z. split; auto.
      * destruct (Hs s Hin) as (k' & z' & H5 & H6). exists k', z'. split; auto. lia.
Qed.

(** Names are not integers. *)
Lemma name_core t : name_text t -> core t = t.
Proof.
  intros [Hw Hd]. apply core_plain.
  - apply strip_no_space. apply (no_space_all is_word); auto using word_no_space.
  - destruct t as [|c t]; [contradiction|]. cbn [forallb] in Hw. apply andb_true_iff in Hw as [Hw _].
    cbn [startswith lit list_ascii_of_string]. destruct (ceqb_spec "(" c); auto. subst. discriminate.
Qed.
Lemma name_parse t : name_text t -> parse_c_int_literal t = None.
Proof.
  intros [Hw Hd]. unfold parse_c_int_literal.
  rewrite strip_no_space by (apply (no_space_all is_word); auto using word_no_space).
  set (cr := rev (dropwhile is_suffix_char (rev t))).
  assert (Hc : exists suf, t = cr ++ suf).
  { exists (rev (takewhile is_suffix_char (rev t))). subst cr. rewrite <- rev_app_distr, takewhile_dropwhile, rev_involutive. auto. }
  clearbody cr. destruct Hc as (suf & ->). destruct cr as [|c cr]; auto.
  rewrite forallb_app in Hw. apply andb_true_iff in Hw as [Hw _].
  cbn [app] in Hd. assert (N0 : ceqb c "0" = false) by (destruct (ceqb_spec c "0"); [subst; discriminate|auto]).
  assert (Eo : octal_text (c :: cr) = false) by (unfold octal_text; destruct cr; auto; rewrite N0; auto).
  rewrite Eo. unfold py_int. rewrite strip_no_space by (apply (no_space_all is_word); auto using word_no_space).
  cbn [forallb] in Hw. apply andb_true_iff in Hw as [Hc _].
  assert (N : ceqb c "-" = false /\ ceqb c "+" = false) by (clear -Hc; char c). destruct N as [-> ->].
  cbn [read_unsigned]. assert (X : forall a b, has_prefix a b (c :: cr) = None) by (intros; unfold has_prefix; destruct cr; auto; rewrite N0; auto).
  rewrite !X, N0. cbn [read_digits]. destruct (ceqb c "_"); auto.
  destruct (digit_val c) as [d|] eqn:Ed; auto. destruct (d <? 10)%Z eqn:El; auto.
  assert (Hx : digit_in 10 c = true) by (unfold digit_in; rewrite Ed; auto). rewrite digit_in_10 in Hx. congruence.
Qed.

Hypothesis named_names : forall n, In n (map fst named) -> name_text n.
Hypothesis raw_names : forall n, In n (map fst raw) -> name_text n.
Lemma get_key {A} t (d : list (str * A)) v : dict_get t d = Some v -> In t (map fst d).
Proof. intros H. apply dict_get_In in H. apply in_map_iff. exists (t, v). auto. Qed.

Lemma constant_core t z : c_constant t z -> core t = t.
Proof.
  intros H. apply core_plain.
  - apply strip_no_space. intros c. apply (c_constant_no_space t z c H).
  - destruct H as (b & s & -> & Hb & _). destruct (c_int_word _ _ Hb) as (_ & c & r & -> & Hc).
    cbn [startswith lit list_ascii_of_string app]. destruct (ceqb_spec "(" c); auto. subst. discriminate.
Qed.
Lemma follows_chain k t z : follows c_constant nam def k t z -> chain k (core t) z.
Proof.
  induction 1 as [t z H|t z H|k t v z Hn Hd H IH|k c t z Hc H IH|k c t z Hc H IH|k t z H IH].
  - rewrite (constant_core t z) by auto. apply ch_lit, parse_constant; auto.
  - pose proof (named_names t (get_key _ _ _ H)) as Hx. rewrite name_core by auto. apply ch_named; auto. apply name_parse; auto.
  - pose proof (raw_names t (get_key _ _ _ Hd)) as Hx. rewrite name_core by auto. eapply ch_def; eauto. apply name_parse; auto.
  - rewrite core_space_l; auto.
  - rewrite core_space_r; auto.
  - rewrite core_parens; auto.
Qed.
Lemma resolve_complete k t z : follows c_constant nam def k t z -> res (S (length raw)) [] t = Some (Some z).
Proof.
  intros H. apply follows_chain in H. pose proof (chain_resolve _ _ _ H (S k) [] t eq_refl ltac:(lia) ltac:(intros s [])) as R.
  destruct (res (S (length raw)) [] t) as [r|] eqn:E.
  - pose proof (resolve_more (S k) (S k + S (length raw)) [] t _ ltac:(lia) R) as R1.
    pose proof (resolve_more (S (length raw)) (S k + S (length raw)) [] t _ ltac:(lia) E) as R2. cbv beta in R1, R2. congruence.
  - exfalso. revert E. apply resolve_enough; [constructor|intros x []|cbn; lia].
Qed.
End Resolve.

(** The result depends on the bindings only. *)
Lemma resolve_ext named raw raw' fuel : (forall t, dict_get t raw = dict_get t raw') -> forall seen t,
  resolve_int_token fuel named raw seen t = resolve_int_token fuel named raw' seen t.
Proof.
  intros H. induction fuel as [|fuel IH]; intros seen t; auto. cbn [resolve_int_token]. rewrite <- H.
  destruct (parse_c_int_literal _); auto. destruct (dict_get _ named); auto. destruct (dict_get _ raw); auto.
  destruct (smem _ seen); auto.
Qed.

(** *** The cache *)

Lemma raw_values_plain defines : raw_values_of defines = fold_left (fun d kv => dict_set (fst kv) (snd kv) d) (plain_macros defines) [].
Proof.
  unfold raw_values_of. generalize (@nil (str * str)). induction defines as [|d l IH]; intros acc; auto.
  cbn [fold_left plain_macros flat_map]. rewrite fold_left_app. rewrite IH. unfold plain_macros.
  destruct (d_has_parameters d); auto. destruct (d_value d); auto.
Qed.
Lemma fold_set_get (l : list (str * str)) : forall acc k, NoDup (map fst l) -> (forall x, In x (map fst l) -> ~ In x (map fst acc)) ->
  dict_get k (fold_left (fun d kv => dict_set (fst kv) (snd kv) d) l acc) =
  match dict_get k l with Some v => Some v | None => dict_get k acc end.
Proof.
  induction l as [|(k0, v0) l IH]; intros acc k Hn Hd; auto. cbn [fold_left fst snd].
  inversion Hn as [|? ? Hk Hn']; subst. rewrite IH; auto.
  - cbn [dict_get]. rewrite dict_get_set. destruct (seqb_spec k k0) as [->|N]; auto.
    assert (E : dict_get k0 l = None) by (apply dict_get_None; auto). rewrite E. auto.
  - intros x Hx. rewrite dict_set_keys. destruct (smem k0 (map fst acc)); [apply Hd; right; auto|].
    intros C. apply in_app_or in C as [C|[<-|[]]]; [|contradiction]. apply (Hd x); auto. right; auto.
Qed.
Lemma fold_set_len (l : list (str * str)) : forall acc, NoDup (map fst l) -> (forall x, In x (map fst l) -> ~ In x (map fst acc)) ->
  length (fold_left (fun d kv => dict_set (fst kv) (snd kv) d) l acc) = length acc + length l.
Proof.
  induction l as [|(k0, v0) l IH]; intros acc Hn Hd; [cbn; lia|]. cbn [fold_left fst snd].
  inversion Hn as [|? ? Hk Hn']; subst.
  assert (E : smem k0 (map fst acc) = false) by (apply smem_false; apply Hd; left; auto).
  assert (K : map fst (dict_set k0 v0 acc) = map fst acc ++ [k0]) by (rewrite dict_set_keys, E; auto).
  rewrite IH; auto.
  - assert (L : length (dict_set k0 v0 acc) = length acc + 1).
    { rewrite <- (map_length fst), K, app_length, map_length. auto. }
    rewrite L. cbn [length]. lia.
  - intros x Hx. rewrite K. intros C. apply in_app_or in C as [C|[<-|[]]]; [|contradiction]. apply (Hd x); auto. right; auto.
Qed.
Lemma fold_set_keys (l : list (str * str)) : forall acc k,
  In k (map fst (fold_left (fun d kv => dict_set (fst kv) (snd kv) d) l acc)) <-> In k (map fst l) \/ In k (map fst acc).
Proof.
  induction l as [|(k0, v0) l IH]; intros acc k; [cbn; tauto|]. cbn [fold_left fst snd map]. rewrite IH, dict_set_keys.
  destruct (smem k0 (map fst acc)) eqn:E.
  - apply smem_In in E. cbn. intuition (subst; auto).
  - rewrite in_app_iff. cbn. tauto.
Qed.

Lemma cache_get (f : str -> option (option Z)) names : forall acc n,
  dict_get n (fold_left (fun cache x => match f x with Some (Some z) => dict_set x z cache | _ => cache end) names acc) =
  if smem n names then match f n with Some (Some z) => Some z | _ => dict_get n acc end else dict_get n acc.
Proof.
  induction names as [|x names IH]; intros acc n; auto. cbn [fold_left]. rewrite IH. cbn [smem existsb].
  destruct (seqb_spec n x) as [->|N].
  - cbn [orb]. destruct (f x) as [[z|]|] eqn:E; rewrite ?dict_get_set, ?seqb_refl; destruct (smem x names); auto.
  - cbn [orb]. destruct (f x) as [[z|]|] eqn:E; rewrite ?dict_get_set; (destruct (seqb_spec n x); [contradiction|]); auto.
Qed.
Lemma int_value_eq named defines n : int_value_from_define_name named defines n =
  let raw := raw_values_of defines in
  if smem n (map fst raw) then match resolve_int_token (S (length raw)) named raw [] n with Some (Some z) => Some z | _ => None end else None.
Proof. unfold int_value_from_define_name, fill_int_defines_cache. cbv zeta. rewrite cache_get. cbn [dict_get]. auto. Qed.

Lemma macro_value_raw defines n : dict_get n (raw_values_of defines) = macro_value defines n.
Proof.
  rewrite raw_values_plain. unfold macro_value. generalize (plain_macros defines). intros l.
  induction l as [|(k, v) l IH] using rev_ind; auto.
  rewrite fold_left_app, rev_app_distr. cbn [fold_left fst snd rev app dict_get]. rewrite dict_get_set, IH. auto.
Qed.
Lemma follows_ext p named d1 d2 k t z : (forall x, d1 x = d2 x) -> follows p named d1 k t z -> follows p named d2 k t z.
Proof.
  intros H. induction 1; [apply f_literal; auto|apply f_named; auto|eapply f_define; eauto; rewrite <- H; auto
    |apply f_space_l; auto|apply f_space_r; auto|apply f_parens; auto].
Qed.

Lemma int_value_sound named defines n z : int_value_from_define_name named defines n = Some z ->
  exists k, follows lenient (fun t => dict_get t named) (macro_value defines) k n z.
Proof.
  rewrite int_value_eq. cbv zeta. destruct (smem n _); [|discriminate].
  destruct (resolve_int_token _ _ _ [] n) as [[x|]|] eqn:E; try discriminate. intros H. inversion H; subst x.
  apply resolve_sound in E as (k & Hk). exists k.
  eapply follows_ext; [intros x; apply macro_value_raw|].
  eapply follows_mono; [|exact Hk]. apply parse_lenient.
Qed.
Lemma int_value_complete named defines n k z :
  (forall m, In m (map fst named) -> name_text m) -> (forall m, In m (map fst (plain_macros defines)) -> name_text m) ->
  In n (map fst (plain_macros defines)) ->
  follows c_constant (fun t => dict_get t named) (macro_value defines) k n z ->
  int_value_from_define_name named defines n = Some z.
Proof.
  intros H1 H2 H3 H4. rewrite int_value_eq. cbv zeta.
  assert (K : forall m, In m (map fst (raw_values_of defines)) <-> In m (map fst (plain_macros defines))).
  { intros m. rewrite raw_values_plain, fold_set_keys. cbn. tauto. }
  assert (Em : smem n (map fst (raw_values_of defines)) = true) by (apply smem_In, K; auto). rewrite Em.
  rewrite (resolve_complete named (raw_values_of defines) H1 (fun m Hm => H2 m (proj1 (K m) Hm)) k n z); auto.
  eapply follows_ext; [intros x; symmetry; apply macro_value_raw|exact H4].
Qed.

Lemma int_value_order named d1 d2 n : Permutation (plain_macros d1) (plain_macros d2) -> NoDup (map fst (plain_macros d1)) ->
  int_value_from_define_name named d1 n = int_value_from_define_name named d2 n.
Proof.
  intros HP HN. assert (HN2 : NoDup (map fst (plain_macros d2))) by (eapply Permutation_NoDup; [apply Permutation_map; exact HP|auto]).
  assert (G : forall t, dict_get t (raw_values_of d1) = dict_get t (raw_values_of d2)).
  { intros t. rewrite !raw_values_plain, !fold_set_get by (auto; intros x Hx []). 
    assert (E : dict_get t (plain_macros d1) = dict_get t (plain_macros d2)).
    { destruct (dict_get t (plain_macros d1)) as [v|] eqn:E1.
      - symmetry. apply dict_In_get; auto. apply dict_get_In in E1. eapply Permutation_in; eauto.
      - symmetry. apply dict_get_None in E1. apply dict_get_None. intros C. apply E1.
        eapply Permutation_in; [apply Permutation_map; symmetry; exact HP|auto]. }
    rewrite E. auto. }
  assert (L : length (raw_values_of d1) = length (raw_values_of d2)).
  { rewrite !raw_values_plain, !fold_set_len by (auto; intros x Hx []). apply Permutation_length in HP. cbn. auto. }
  rewrite !int_value_eq. cbv zeta. rewrite <- L, (resolve_ext named _ _ _ G).
  assert (S : smem n (map fst (raw_values_of d1)) = smem n (map fst (raw_values_of d2))).
  { destruct (smem n (map fst (raw_values_of d1))) eqn:E1; symmetry.
    - apply smem_In in E1. apply smem_In. destruct (dict_get n (raw_values_of d2)) eqn:E; [eapply get_key; eauto|].
      rewrite <- G in E. apply dict_get_None in E. contradiction.
    - apply smem_false in E1. apply smem_false. apply dict_get_None. rewrite <- G. apply dict_get_None. auto. }
  rewrite S. auto.
Qed.

Lemma resolve_ends named defines t fuel : length (raw_values_of defines) < fuel ->
  resolve_int_token fuel named (raw_values_of defines) [] t <> None /\
  resolve_int_token fuel named (raw_values_of defines) [] t =
  resolve_int_token (S (length (raw_values_of defines))) named (raw_values_of defines) [] t.
Proof.
  intros H. assert (E : resolve_int_token (S (length (raw_values_of defines))) named (raw_values_of defines) [] t <> None)
    by (apply resolve_enough; [constructor|intros x []|cbn; lia]).
  destruct (resolve_int_token (S (length (raw_values_of defines))) named (raw_values_of defines) [] t) as [r|] eqn:E'; [|congruence].
  pose proof (resolve_more named (raw_values_of defines) (S (length (raw_values_of defines))) fuel [] t r ltac:(lia) E') as R.
  cbv beta in R. rewrite R. split; [discriminate|auto].
Qed.
