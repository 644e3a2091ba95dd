From Verif Require Import PyStr PyStrLemmas PyDict PyNum TypeTextModel LambdaModel LambdaSpec AdapterModel AdapterSpec
  LambdaProofs AdapterProofs AdapterProofs2 AdapterProofs3 AdapterProofs4 AdapterProofs5 BufferModel BufferSpec BufferProofs
  ChainModel ChainSpec ChainProofs DefaultSpec.
(** Default values stay last through the adapters. *)

Record kept_default (p : param) (news : list param) : Prop := KeptDefault {
  kd_same : Forall (stands_for p) news;
  kd_dots : dots p -> Forall dots news;
  kd_plain : plain_default p -> Forall plain_default news }.

Lemma stands_self p : stands_for p p.
Proof. split; [|tauto]. exists []. rewrite app_nil_r. auto. Qed.
Lemma kd_pass p : kept_default p [p].
Proof. split; auto. constructor; auto. apply stands_self. Qed.
Lemma kd_none p : kept_default p [].
Proof. split; auto. Qed.
Lemma kd_from p news q : kept_default p news -> In q news -> p_default q <> [] -> p_default p <> [].
Proof. intros [F _ _] I. rewrite Forall_forall in F. apply F in I. apply I. Qed.
Lemma kd_to p news : kept_default p news -> may_follow p -> Forall may_follow news.
Proof.
  intros [F D _] [M|M]; [|eapply Forall_impl; [|apply D; auto]; right; auto]. eapply Forall_impl; [|exact F]. intros q [_ S]. left. tauto.
Qed.

Lemma all_follow ps newss : Forall2 kept_default ps newss -> Forall may_follow ps -> Forall may_follow (concat newss).
Proof.
  induction 1 as [|p n ps ns H F IH]; intros A; [constructor|]. inversion A; subst. cbn [concat]. apply Forall_app. split; auto.
  eapply kd_to; eauto.
Qed.
Lemma trailing_cons p ps : trailing (p :: ps) <-> (p_default p <> [] -> Forall may_follow ps) /\ trailing ps.
Proof.
  split.
  - intros T. split; [intros D; exact (T [] p ps eq_refl D)|]. intros a q b -> D. exact (T (p :: a) q b eq_refl D).
  - intros [H T] a q b E D. destruct a as [|x a]; injection E as -> E; [subst; auto|]. eapply T; eauto.
Qed.
Lemma trailing_app a b : trailing a -> trailing b -> ((exists p, In p a /\ p_default p <> []) -> Forall may_follow b) -> trailing (a ++ b).
Proof.
  intros A B H. induction a as [|p a IH]; auto. cbn [app]. apply trailing_cons in A. apply trailing_cons. split.
  - intros D. apply Forall_app. split; [apply A; auto|]. apply H. exists p. cbn. auto.
  - apply IH; [apply A|]. intros (q & I & D). apply H. exists q. cbn. auto.
Qed.
Lemma all_trailing ps : Forall may_follow ps -> trailing ps.
Proof. intros F a p b -> _. apply Forall_app in F. destruct F as [_ F]. inversion F. auto. Qed.
Lemma none_trailing ps : (forall q, In q ps -> p_default q = []) -> trailing ps.
Proof. intros N a p b -> D. exfalso. apply D, N. apply in_app_iff. cbn. auto. Qed.

Lemma kept_trailing ps newss : Forall2 kept_default ps newss -> trailing ps -> trailing (concat newss).
Proof.
  induction 1 as [|p n ps ns H F IH]; intros T; [exact T|]. apply trailing_cons in T. destruct T as [D T]. cbn [concat].
  apply trailing_app; auto.
  - destruct (p_default p) as [|c d] eqn:E.
    + apply none_trailing. intros q I. destruct (p_default q) eqn:Q; auto. exfalso. apply (kd_from _ _ q H I); congruence.
    + apply all_trailing. apply (kd_to _ _ H). left. congruence.
  - intros (q & I & N). apply all_follow with ps; auto. apply D. apply (kd_from _ _ q H I N).
Qed.
Lemma kept_plain ps newss : Forall2 kept_default ps newss -> Forall plain_default ps -> Forall plain_default (concat newss).
Proof.
  induction 1 as [|p n ps ns H F IH]; intros P; [constructor|]. inversion P; subst. cbn [concat]. apply Forall_app. split; auto.
  apply (kd_plain _ _ H). auto.
Qed.


Lemma kept_map (pc : param -> list param) ps : (forall p, plain_default p -> kept_default p (pc p)) -> Forall plain_default ps ->
  Forall2 kept_default ps (map pc ps).
Proof. intros H. induction 1; cbn [map]; constructor; auto. Qed.

(** One new parameter in the place of one. *)
Lemma kd_one p q : p_name q = p_name p -> (p_default q <> [] <-> p_default p <> []) -> ~ dots p ->
  (plain_default p -> plain_default q) -> kept_default p [q].
Proof.
  intros N A B C. split; auto; [|tauto]. constructor; auto. split; auto. exists []. rewrite app_nil_r. auto.
Qed.

Lemma dots_not_pointer ts p : dots p -> ~ pointer_to ts p.
Proof.
  intros [E _] (t & gap & a & b & _ & _ & T & _). rewrite E in T.
  assert (I : In "*"%char (type_text (CType [] [] [$"..."]))).
  { rewrite T, !in_app_iff. right. right. right. left. cbn. auto. }
  vm_compute in I. repeat destruct I as [I|I]; try discriminate; destruct I.
Qed.
Lemma dots_not_numbers o p : dots p -> ~ numbers o p.
Proof. intros D [H|H]; revert H; apply dots_not_pointer; auto. Qed.

Lemma list_sub p q : (string_list q -> False) -> p_array q = p_array p -> (p_default q <> [] -> p_default p <> []) ->
  plain_default p -> plain_default q.
Proof. intros L A D P N. split; [rewrite A; apply P; auto|]. auto. Qed.

Ltac not_list := let HS := fresh in intros HS; revert HS; apply not_list; cbn; (left; discriminate) || (right; tauto).

Lemma default_not_dots p : p_default p <> [] -> ~ dots p.
Proof. intros D (_ & _ & E). auto. Qed.

Lemma kd_exclude o p : kept_default p (q_new (exclude_piece o p)).
Proof. unfold exclude_piece. destruct (shall_exclude o p); [apply kd_none|apply kd_pass]. Qed.

Lemma kd_default p q : p_default p <> [] -> p_name q = p_name p -> p_default q <> [] -> p_array q = p_array p ->
  (string_list q -> False) -> kept_default p [q].
Proof. intros D N Q A L. apply kd_one; [auto|tauto|apply default_not_dots; auto|]. apply list_sub; auto. Qed.

Lemma seems_default o p : seems_mutable o p = true -> p_default p <> [].
Proof. unfold seems_mutable. intros H E. rewrite E in H. discriminate. Qed.
Lemma kd_mutable o p : kept_default p (q_new (mutable_piece o p)).
Proof.
  unfold mutable_piece. destruct (seems_mutable o p) eqn:S; [|apply kd_pass]. apply seems_default in S.
  apply kd_default; auto; [discriminate|]. not_list.
Qed.

Lemma array_no_default o p k : o_array_size o [] = None -> plain_default p -> o_array_size o (p_array p) = Some k ->
  p_default p = [] /\ ~ dots p.
Proof.
  intros N P K. assert (A : p_array p <> []) by congruence. split.
  - destruct (p_default p) eqn:E; auto. exfalso. apply A, P. congruence.
  - intros (_ & D & _). auto.
Qed.
Lemma kd_array o n p : o_array_size o [] = None -> plain_default p -> kept_default p (q_new (array_piece o n p)).
Proof.
  intros N P. unfold array_piece. destruct (o_array_size o (p_array p)) as [k|] eqn:K; [|apply kd_pass].
  destruct (array_no_default o p k N P K) as [D ND].
  destruct (is_const_decl p && o_array_std o n).
  { apply kd_one; [reflexivity|cbn; tauto|auto|]. intros _ H. exfalso. apply H. exact D. }
  destruct (_ && _); [|apply kd_pass]. cbn [q_new]. split; [|tauto|]; [|intros _]; apply Forall_forall; intros q I;
    apply in_map_iff in I; destruct I as (i & <- & _).
  - split; [|cbn; tauto]. eexists. reflexivity.
  - intros H. exfalso. apply H. exact D.
Qed.

Lemma null_has_default p : null_default p = true -> p_default p <> [].
Proof. unfold null_default. intros H E. rewrite E in H. discriminate. Qed.
Lemma kd_const_char p : kept_default p (q_new (const_char_piece p)).
Proof.
  unfold const_char_piece. destruct (is_const_char_null p) eqn:S; [|apply kd_pass].
  unfold is_const_char_null in S. rewrite !andb_true_iff in S. destruct S as [_ S]. apply null_has_default in S.
  apply kd_default; auto; [discriminate|]. not_list.
Qed.

Lemma modifiable_not_dots p : is_modifiable p = true -> ~ dots p.
Proof. unfold is_modifiable, is_pointer. intros H [E _]. rewrite E in H. discriminate. Qed.

Lemma kd_returned o p : o_array_size o [] = None -> plain_default p -> kept_default p (q_new (returned_piece o p)).
Proof.
  intros N P. unfold returned_piece, returned_param. destruct (is_modifiable p) eqn:M; cbn [q_new].
  - apply modifiable_not_dots in M. destruct (is_optional p) eqn:O; cbn [q_new].
    + unfold is_optional in O. apply andb_true_iff in O. destruct O as [_ O]. apply null_has_default in O.
      apply kd_default; auto; [discriminate|]. not_list.
    + apply kd_one; [reflexivity|cbn; tauto|auto|]. apply list_sub; auto. not_list.
  - unfold is_modifiable_array. destruct (modifiers (p_type p)) eqn:T; [|apply kd_pass].
    destruct (o_array_size o (p_array p)) as [k|] eqn:K; [|apply kd_pass].
    destruct (array_no_default o p k N P K) as [D ND].
    destruct (_ && _); [|apply kd_pass]. cbn [q_new]. apply kd_one; [reflexivity|cbn; tauto|auto|].
    intros _ H. exfalso. apply H. auto.
Qed.

Lemma kd_boxed p : kept_default p (q_new (boxed_piece p)).
Proof.
  unfold boxed_piece. destruct (is_modifiable p) eqn:M; [|apply kd_pass]. apply modifiable_not_dots in M.
  destruct (is_optional p) eqn:O.
  - unfold is_optional in O. apply andb_true_iff in O. destruct O as [_ O]. apply null_has_default in O.
    apply kd_default; auto; [discriminate|]. not_list.
  - apply kd_one; [reflexivity|cbn; tauto|auto|]. apply list_sub; auto. not_list.
Qed.

Lemma kd_vector p : plain_default p -> is_string_list p = true -> kept_default p [vector_param p].
Proof.
  intros P L. apply string_list_spec in L. assert (D : p_default p = []).
  { destruct (p_default p) eqn:E; auto. exfalso. apply (proj2 (P ltac:(congruence))). auto. }
  apply kd_one; [reflexivity|cbn; tauto| |intros _ H; exfalso; apply H; reflexivity].
  intros (E & _ & _). destruct L as (_ & T & _). rewrite E in T. discriminate.
Qed.
Lemma kd_list o prev p next : plain_default p -> kept_default p (q_new (string_list_piece o prev p next)).
Proof.
  intros P. unfold string_list_piece. destruct next as [s|].
  - destruct (is_string_list p) eqn:L; cbn [andb]; [destruct (o_size_name o (p_name s)); [apply kd_vector; auto|]|];
    (destruct prev as [q|]; [destruct (_ && _); [apply kd_none|apply kd_pass]|apply kd_pass]).
  - destruct prev as [q|]; [destruct (_ && _); [apply kd_none|apply kd_pass]|apply kd_pass].
Qed.
Lemma kd_lists o ps : Forall plain_default ps -> forall prev, Forall2 kept_default ps (map q_new (string_list_pieces o prev ps)).
Proof. induction 1; intros prev; cbn [string_list_pieces map]; constructor; auto. apply kd_list. auto. Qed.
Lemma kd_alone o p : plain_default p -> kept_default p (q_new (string_list_alone_piece o p)).
Proof. intros P. unfold string_list_alone_piece. destruct (is_string_list p) eqn:L; [apply kd_vector; auto|apply kd_pass]. Qed.

Lemma kd_buffer bo ps k p : nth_error ps k = Some p -> kept_default p (new_of bo ps k p).
Proof.
  intros K. unfold new_of. destruct (is_buffer bo ps k) eqn:B.
  { assert (N : numbers bo p).
    { unfold is_buffer in B. apply buffer_spec in B. rewrite nth_error_skipn in K. destruct (skipn k ps); [discriminate|].
      injection K as ->. inversion B; auto. }
    apply kd_one; [reflexivity|cbn; tauto|intros D; revert N; apply dots_not_numbers; auto|].
    apply list_sub; auto. intros HS. revert HS. apply not_list. left. cbn.
    destruct (b_nanobind bo); [destruct (is_const_decl p)|]; discriminate. }
  destruct (is_stride p) eqn:S.
  { apply is_stride_spec in S. destruct S as (a & b & S & _).
    assert (D : p_default p <> []). { rewrite S. destruct a; discriminate. }
    apply kd_default; auto; [discriminate|]. not_list. }
  destruct (is_size bo ps k); [apply kd_none|apply kd_pass].
Qed.

Definition replaced (ps qs : list param) : Prop := exists newss, qs = concat newss /\ Forall2 kept_default ps newss.
Lemma replaced_new ps qs : Forall2 kept_default ps (map q_new qs) -> replaced ps (new_params qs).
Proof. intros H. exists (map q_new qs). split; auto. unfold new_params. apply flat_map_concat_map. Qed.
Lemma replaced_pieces (pc : param -> piece) ps : (forall p, plain_default p -> kept_default p (q_new (pc p))) -> Forall plain_default ps ->
  replaced ps (new_params (map pc ps)).
Proof. intros H P. apply replaced_new. rewrite map_map. apply kept_map; auto. Qed.

Lemma kept_buffers bo ps : Forall2 kept_default ps (map (fun ip => new_of bo ps (fst ip) (snd ip)) (enumerate ps)).
Proof.
  assert (G : forall a b, ps = a ++ b -> Forall2 kept_default b (map (fun ip => new_of bo ps (fst ip) (snd ip)) (combine (seq (length a) (length b)) b))).
  { intros a b. revert a. induction b as [|p b IH]; intros a E; [constructor|]. cbn [length seq combine map fst snd]. constructor.
    - apply kd_buffer. rewrite E, nth_error_app2, Nat.sub_diag by lia. auto.
    - specialize (IH (a ++ [p])). rewrite app_length, Nat.add_1_r in IH. apply IH. rewrite <- app_assoc. auto. }
  exact (G [] ps eq_refl).
Qed.

Lemma step_defaults i bo o a : o_array_size o [] = None -> In a (adapters i bo o) -> forall f l, Forall plain_default (f_params f) ->
  a f = Some (Some l) -> replaced (f_params f) (l_params l).
Proof.
  intros NA. revert a.
  apply (adapters_cases i bo o (fun a => forall f l, Forall plain_default (f_params f) -> a f = Some (Some l) ->
    replaced (f_params f) (l_params l))); intros f l N H.
  { revert H. unfold adapt_c_buffers. destruct (shall_adapt bo f); [|discriminate]. destruct (1 <? _); [discriminate|].
    destruct (each_param _ _); [|discriminate]. destruct (each_param _ _); [|discriminate]. destruct (buffer_end i bo f); [|discriminate].
    intros H. injection H as <-. cbn [l_params]. rewrite flat_map_concat_map. eexists. split; [reflexivity|]. apply kept_buffers. }
  all: injection H as H; revert H.
  + unfold adapt_exclude_params. destruct (existsb _ _); [|discriminate]. intros H. injection H as <-.
    apply replaced_pieces; auto. intros. apply kd_exclude.
  + unfold adapt_mutable_default. destruct (_ && _); [|discriminate]. intros H. injection H as <-.
    apply replaced_pieces; auto. intros. apply kd_mutable.
  + unfold adapt_c_arrays. destruct (existsb _ _); [|discriminate]. intros H. injection H as <-.
    apply replaced_pieces; auto. intros. apply kd_array; auto.
  + unfold adapt_const_char_null. destruct (_ && _); [|discriminate]. intros H. injection H as <-.
    apply replaced_pieces; auto. intros. apply kd_const_char.
  + unfold adapt_to_return. destruct (o_to_return o (f_name f)); [|discriminate].
    destruct (returned_params o (f_params f)) as [|out outs]; [discriminate|]. intros H. injection H as <-.
    apply (replaced_pieces (returned_piece o)); auto. intros. apply kd_returned; auto.
  + unfold adapt_boxed. destruct (_ && _); [|discriminate]. intros H. injection H as <-.
    apply replaced_pieces; auto. intros. apply kd_boxed.
  + unfold adapt_string_list. destruct (_ && _); [|discriminate]. intros H. injection H as <-.
    apply replaced_new. apply kd_lists, N.
  + unfold adapt_string_list_alone. destruct (_ && _); [|discriminate]. intros H. injection H as <-.
    apply replaced_pieces; auto. intros. apply kd_alone; auto.
  + unfold adapt_variadic. destruct (rev (f_params f)) as [|last [|text firsts]] eqn:R; try discriminate.
    assert (E : f_params f = rev firsts ++ [text; last]).
    { rewrite <- (rev_involutive (f_params f)), R. cbn [rev]. rewrite <- app_assoc. auto. }
    destruct (_ && _); [|discriminate]. intros H. injection H as <-.
    apply replaced_new. rewrite E, map_app, map_map. apply Forall2_app.
    * generalize (rev firsts) as ps. clear. induction ps; cbn [map]; constructor; auto. apply kd_pass.
    * cbn [map q_new]. constructor; [apply kd_pass|]. constructor; [apply kd_none|constructor].
Qed.

Lemma stands_trans p q r : stands_for p q -> stands_for q r -> stands_for p r.
Proof. intros [(a & A) D] [(b & B) E]. split; [|tauto]. exists (a ++ b). rewrite B, A, app_assoc. auto. Qed.
Lemma in_place_refl ps : in_place ps ps.
Proof.
  exists (map (fun p => [p]) ps). split.
  - induction ps as [|p ps IH]; auto. cbn. f_equal. auto.
  - induction ps as [|p ps IH]; constructor; auto. constructor; auto. apply stands_self.
Qed.
Lemma in_place_split qs1 qs2 rs : in_place (qs1 ++ qs2) rs -> exists rs1 rs2, rs = rs1 ++ rs2 /\ in_place qs1 rs1 /\ in_place qs2 rs2.
Proof.
  intros (gs & -> & F). apply Forall2_app_inv_l in F. destruct F as (g1 & g2 & F1 & F2 & ->).
  exists (concat g1), (concat g2). rewrite concat_app. split; auto. split; eexists; split; eauto.
Qed.
Lemma in_place_group p qs rs : Forall (stands_for p) qs -> in_place qs rs -> Forall (stands_for p) rs.
Proof.
  intros F (gs & -> & G). induction G as [|q g qs gs H G IH]; [constructor|]. inversion F; subst. cbn [concat]. apply Forall_app. split; auto.
  eapply Forall_impl; [|exact H]. intros r. apply stands_trans. auto.
Qed.
Lemma in_place_trans ps qs rs : in_place ps qs -> in_place qs rs -> in_place ps rs.
Proof.
  intros (gs & -> & G). revert rs. induction G as [|p g ps gs H G IH]; intros rs P; cbn [concat] in P.
  - destruct P as (hs & -> & P). inversion P; subst. exists []. auto.
  - apply in_place_split in P. destruct P as (r1 & r2 & -> & P1 & P2). destruct (IH r2 P2) as (hs & -> & F).
    exists (r1 :: hs). split; auto. constructor; auto. eapply in_place_group; eauto.
Qed.
Lemma replaced_place ps qs : replaced ps qs -> in_place ps qs.
Proof.
  intros (gs & -> & F). exists gs. split; auto. induction F; constructor; auto. apply H.
Qed.
Lemma in_place_trailing ps qs : replaced ps qs -> trailing ps -> trailing qs.
Proof. intros (gs & -> & F). apply kept_trailing. auto. Qed.
Lemma replaced_plain ps qs : replaced ps qs -> Forall plain_default ps -> Forall plain_default qs.
Proof. intros (gs & -> & F). apply kept_plain. auto. Qed.
Lemma replaced_force f : replaced (f_params f) (l_params (adapt_force_lambda f)).
Proof.
  apply replaced_new. rewrite map_map. generalize (f_params f) as ps. clear. induction ps; cbn [map]; constructor; auto. apply kd_pass.
Qed.

(** Along the chain. *)
Lemma chain_replaced i bo o f ls g : o_array_size o [] = None -> Forall plain_default (f_params f) ->
  apply_all_adapters i bo o f = Some (ls, g) -> Forall (fun fl => replaced (f_params (fst fl)) (l_params (snd fl))) ls.
Proof.
  intros NA P. apply (chain_forall i bo o (fun f => Forall plain_default (f_params f)) (fun f l => replaced (f_params f) (l_params l))); auto.
  - intros a A f0 l P0 H. rewrite apply_params. assert (R : replaced (f_params f0) (l_params l)) by (eapply step_defaults; eauto).
    split; auto. eapply replaced_plain; eauto.
  - intros. apply replaced_force.
Qed.

Theorem chain_defaults i bo o f ls g : o_array_size o [] = None -> Forall plain_default (f_params f) -> trailing (f_params f) ->
  apply_all_adapters i bo o f = Some (ls, g) -> Forall (fun fl => trailing (l_params (snd fl))) ls /\ trailing (f_params g).
Proof.
  intros NA P T H. pose proof (chain_replaced i bo o f ls g NA P H) as F. apply chain_is_chained in H. clear P. revert T F.
  induction H as [f|f l ls g h _ _ _ _ _ Ep _ _ C IH]; intros T F; [split; auto|]. inversion F as [|? ? R F']; subst. cbn [fst snd] in R.
  assert (TL : trailing (l_params l)) by (eapply in_place_trailing; eauto).
  rewrite Ep in IH. destruct IH; auto.
Qed.

Theorem chain_in_place i bo o f ls g : o_array_size o [] = None -> Forall plain_default (f_params f) ->
  apply_all_adapters i bo o f = Some (ls, g) ->
  Forall (fun fl => in_place (f_params f) (l_params (snd fl))) ls /\ in_place (f_params f) (f_params g).
Proof.
  intros NA P H. pose proof (chain_replaced i bo o f ls g NA P H) as F. apply chain_is_chained in H. clear P.
  assert (I : in_place (f_params f) (f_params f)) by apply in_place_refl. revert I F. generalize (f_params f) at 1 3 4 as ps.
  induction H as [f|f l ls g h _ _ _ _ _ Ep _ _ C IH]; intros ps I F; [split; auto|]. inversion F as [|? ? R F']; subst. cbn [fst snd] in R.
  assert (TL : in_place ps (l_params l)) by (eapply in_place_trans; [exact I|apply replaced_place; auto]).
  rewrite Ep in IH. destruct (IH ps TL F'). split; auto.
Qed.

(** Names given to the parameters without name. *)
Lemma kd_named k p : kept_default p [named k p].
Proof.
  unfold named. destruct (p_name p) as [|c n] eqn:E; [|apply kd_pass]. split; [|intros D; constructor; auto|constructor; auto].
  constructor; auto. split; [|cbn; tauto]. cbn. rewrite E. eexists. reflexivity.
Qed.
Lemma named_replaced ps : replaced ps (name_params ps).
Proof.
  exists (map (fun ip => [named (fst ip) (snd ip)]) (enumerate ps)). unfold name_params, enumerate. generalize 0 as k.
  induction ps as [|p ps IH]; intros k; cbn [length seq combine map concat app]; [split; auto|].
  destruct (IH (S k)) as [E F]. split; [f_equal; auto|]. constructor; auto. apply kd_named.
Qed.
Theorem named_trailing ps : trailing ps -> trailing (name_params ps).
Proof. apply in_place_trailing, named_replaced. Qed.
