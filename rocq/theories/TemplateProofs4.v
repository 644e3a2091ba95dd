(** Proofs: names of instantiations, template options. *)
From Verif Require Import PyStr PyStrLemmas TemplateModel TemplateSpec NumberProofs NumberProofs2 ModuleProofs3
  TemplateProofs TemplateProofs2 TemplateProofs3.

Lemma simple_no_colon parts : simple_type parts -> Forall (fun w => ~ In ":"%char w) parts.
Proof.
  intros (_ & H). eapply Forall_impl; [|exact H]. intros w (_ & Ha & _) C. apply (alnum_chars w _ Ha) in C. discriminate.
Qed.

Definition mark (t : str) : Prop := ~ In ":"%char t /\ (t = [] \/ exists u c, t = u ++ [c] /\ c <> "d"%char).
Lemma mark_mod m : mark (mod_text m) /\ mark (lstrip (mod_text m)).
Proof.
  destruct m; (split; (split; [vm_compute; intuition discriminate|])).
  1-2: left; reflexivity.
  - right. exists [sp], "*"%char. split; [reflexivity|discriminate].
  - right. exists [], "*"%char. split; [reflexivity|discriminate].
  - right. exists [sp], "&"%char. split; [reflexivity|discriminate].
  - right. exists [], "&"%char. split; [reflexivity|discriminate].
  - right. exists [sp; "&"%char], "&"%char. split; [reflexivity|discriminate].
  - right. exists ["&"%char], "&"%char. split; [reflexivity|discriminate].
Qed.
Lemma no_std parts t : simple_type parts -> mark t -> contains $"std::" (join $"::" parts ++ t) = false.
Proof.
  intros H (Hm & Ht). pose proof (simple_no_colon parts H) as Hc. destruct H as (Hne & H). apply contains_false. intros a b E.
  pose proof (split_colon parts t Hc Hm Hne) as Hs. rewrite E in Hs.
  replace (a ++ $"std::" ++ b) with ((a ++ $"std") ++ ":"%char :: (":"%char :: b)) in Hs by (rewrite <- app_assoc; auto).
  rewrite split_on_app_any in Hs.
  destruct (split_on_last ":" a $"std" ltac:(cbn; intuition discriminate)) as (ls & l & El). rewrite El in Hs.
  specialize (Hs (l ++ $"std") ltac:(apply in_or_app; left; apply in_or_app; right; left; auto)).
  rewrite Forall_forall in H.
  destruct Hs as [C|[C|(w & Hw & C)]].
  - destruct l; discriminate.
  - apply H in C. destruct C as (_ & _ & C & _). rewrite endswith_app in C. discriminate.
  - destruct Ht as [->|(u & c & -> & Hd)].
    + rewrite app_nil_r in C. subst w. apply H in Hw. destruct Hw as (_ & _ & Hw & _). rewrite endswith_app in Hw. discriminate.
    + apply (f_equal (fun x => last x nl)) in C.
      change (l ++ $"std") with (l ++ [ "s"; "t" ]%char ++ ["d"%char]) in C.
      rewrite !app_assoc, !last_last in C. congruence.
Qed.

Lemma colons parts t : simple_type parts -> mark t -> replace $"::" $"_" (join $"::" parts ++ t) = join $"_" parts ++ t.
Proof.
  intros H (Ht & _). pose proof (simple_no_colon parts H) as Hc. destruct H as (Hne & _).
  destruct (exists_last Hne) as (l & x & ->).
  rewrite !join_last_text. rewrite replace_is_substitution by discriminate.
  rewrite (split_join _ ":"%char); auto; try discriminate.
  - destruct l; discriminate.
  - rewrite Forall_app in *. destruct Hc as (H1 & H2). split; auto. inversion H2; subst. constructor; auto.
    intros C. apply in_app_or in C. destruct C as [C|C]; auto.
Qed.

Lemma joined_chars parts c : simple_type parts -> In c (join $"_" parts) -> is_word c = true.
Proof.
  intros (_ & H) C. apply join_In in C. destruct C as [C|(w & Hw & C)].
  - destruct C as [<-|[]]. reflexivity.
  - rewrite Forall_forall in H. destruct (H w Hw) as (_ & Ha & _). unfold is_word. rewrite (alnum_chars w c Ha C). auto.
Qed.

Lemma naming_text n parts t : simple_type parts -> mark t ->
  apply_template_naming n (join $"::" parts ++ t) = n ++ $"_" ++ join $"_" parts ++
    replace $" " $"_" (replace $"*" $"_ptr" (replace $" *" $"_ptr" (replace $"&" $"_ref" (replace $" &" $"_ref"
      (replace $"&&" $"_uref" (replace $" &&" $"_uref" t)))))).
Proof.
  intros H Ht. unfold apply_template_naming. do 2 f_equal. rewrite (replace_no_occ $"std::") by (apply no_std; auto).
  rewrite colons by auto.
  assert (Hn : forall c, is_word c = false -> ~ In c (join $"_" parts)).
  { intros c Hc C. apply (joined_chars parts c H) in C. congruence. }
  pose proof (Hn " "%char eq_refl) as H1. pose proof (Hn "&"%char eq_refl) as H2. pose proof (Hn "*"%char eq_refl) as H3.
  rewrite (replace_skip_prefix $" &&" " "%char) by auto.
  rewrite (replace_skip_prefix $"&&" "&"%char) by auto.
  rewrite (replace_skip_prefix $" &" " "%char) by auto.
  rewrite (replace_skip_prefix $"&" "&"%char) by auto.
  rewrite (replace_skip_prefix $" *" " "%char) by auto.
  rewrite (replace_skip_prefix $"*" "*"%char) by auto.
  rewrite (replace_skip_prefix $" " " "%char) by auto. auto.
Qed.
Lemma naming_simple n parts m : simple_type parts ->
  apply_template_naming n (type_text parts m) = n ++ $"_" ++ join $"_" (parts ++ mod_words m).
Proof.
  intros H. unfold type_text. rewrite naming_text by (auto; apply mark_mod).
  destruct H as (Hne & _).
  destruct m; cbn [mod_words]; [rewrite !app_nil_r; auto| | |]; rewrite join_app by (auto; discriminate); reflexivity.
Qed.
Lemma naming_tight n parts m : simple_type parts ->
  apply_template_naming n (tight_text parts m) = apply_template_naming n (type_text parts m).
Proof.
  intros H. unfold type_text, tight_text. rewrite !naming_text by (auto; apply mark_mod). destruct m; reflexivity.
Qed.

Lemma words_joined_inj l l' : l <> [] -> l' <> [] -> Forall (fun w => ~ In "_"%char w) l -> Forall (fun w => ~ In "_"%char w) l' ->
  join $"_" l = join $"_" l' -> l = l'.
Proof.
  intros N N' H H' E. apply (f_equal (split_on "_")) in E. change $"_" with ["_"%char] in E.
  rewrite !split_on_join in E by auto. auto.
Qed.
Lemma simple_no_underscore parts m : simple_type parts -> Forall (fun w => ~ In "_"%char w) (parts ++ mod_words m).
Proof.
  intros (_ & H). apply Forall_app. split.
  - eapply Forall_impl; [|exact H]. intros w (_ & Ha & _) C. apply (alnum_chars w _ Ha) in C. discriminate.
  - destruct m; constructor; auto; cbn; intuition discriminate.
Qed.
Lemma simple_mod_inj parts parts' m m' : simple_type parts -> simple_type parts' ->
  parts ++ mod_words m = parts' ++ mod_words m' -> parts = parts' /\ m = m'.
Proof.
  intros (N & H) (N' & H') E.
  assert (K : forall p q w, Forall (fun w => w <> [] /\ forallb is_alnum w = true /\ endswith $"std" w = false /\
                   ~ In w [$"ptr"; $"ref"; $"uref"]) p -> In w [$"ptr"; $"ref"; $"uref"] -> p = q ++ [w] -> False).
  { intros p q w Hp Hw ->. rewrite Forall_forall in Hp. destruct (Hp w) as (_ & _ & _ & C); auto.
    apply in_or_app. right. left. auto. }
  destruct m, m'; cbn [mod_words] in E; rewrite ?app_nil_r in E; auto;
    try (exfalso; eapply (K _ _ _ H); [|exact E]; cbn; tauto);
    try (exfalso; eapply (K _ _ _ H'); [|symmetry; exact E]; cbn; tauto);
    apply app_inj_tail in E; destruct E as (E1 & E2); try discriminate; auto.
Qed.

Lemma naming_injective n parts parts' m m' : simple_type parts -> simple_type parts' ->
  apply_template_naming n (type_text parts m) = apply_template_naming n (type_text parts' m') -> parts = parts' /\ m = m'.
Proof.
  intros H H' E. rewrite !naming_simple in E by auto. apply app_inv_head in E. apply app_inv_head in E.
  apply simple_mod_inj; auto. apply words_joined_inj in E; auto using simple_no_underscore.
  - destruct H as (N & _). destruct parts; [congruence|discriminate].
  - destruct H' as (N & _). destruct parts'; [congruence|discriminate].
Qed.

Lemma naming_injective2 n n' parts parts' m m' : simple_type parts -> simple_type parts' ->
  ~ In "_"%char n -> ~ In "_"%char n' ->
  apply_template_naming n (type_text parts m) = apply_template_naming n' (type_text parts' m') ->
  n = n' /\ parts = parts' /\ m = m'.
Proof.
  intros H H' Hn Hn' E. rewrite !naming_simple in E by auto.
  assert (N : parts ++ mod_words m <> []) by (destruct H as (N & _); destruct parts; [congruence|discriminate]).
  assert (N' : parts' ++ mod_words m' <> []) by (destruct H' as (N' & _); destruct parts'; [congruence|discriminate]).
  rewrite <- !join_cons_ne in E by auto.
  apply words_joined_inj in E; [|discriminate|discriminate| |];
    try (apply Forall_cons; auto using simple_no_underscore).
  injection E as -> E. split; auto. apply simple_mod_inj; auto.
Qed.

(** *** Options *)

Section Options.
Variable parse_type : str -> option str.

Notation unique := (unique_type parse_type).

Lemma takewhile_app_stop (n r : str) : ~ In "<"%char n -> template_name (n ++ "<"%char :: r) = n.
Proof.
  intros H. unfold template_name. apply takewhile_stop; [|reflexivity]. apply Forall_forall. intros x Hx.
  apply negb_true_iff, ceqb_false. intros ->. auto.
Qed.
Lemma template_text n a : ~ In "<"%char n ->
  is_template (n ++ "<"%char :: a ++ $">") = true /\ template_name (n ++ "<"%char :: a ++ $">") = n /\
  unique (n ++ "<"%char :: a ++ $">") = parse_type a.
Proof.
  intros H.
  assert (E1 : is_template (n ++ "<"%char :: a ++ $">") = true).
  { unfold is_template. apply andb_true_intro. split.
    - change $"<" with ["<"%char]. apply contains_single. apply in_or_app. right. left. auto.
    - change $">" with [">"%char]. apply contains_single. apply in_or_app. right. right. apply in_or_app. right. left. auto. }
  split; auto. split; [apply takewhile_app_stop; auto|].
  unfold unique_type. rewrite E1, takewhile_app_stop by auto. cbv zeta iota. f_equal.
  replace (rev (n ++ "<"%char :: a ++ $">")) with (">"%char :: rev (n ++ "<"%char :: a)).
  - cbn [takewhile]. change (negb (ceqb ">" ">")) with false. cbv iota. cbn [length].
    replace (skipn (length n + 1) (n ++ "<"%char :: a ++ $">")) with (a ++ $">").
    + replace (length (n ++ "<"%char :: a ++ $">") - 1 - 0 - (length n + 1)) with (length a).
      * rewrite (firstn_app (length a) a $">"), (firstn_all2 a) by lia. rewrite Nat.sub_diag. cbn. apply app_nil_r.
      * rewrite app_length. cbn. rewrite app_length. cbn. lia.
    + rewrite skipn_app. rewrite skipn_all2 by lia. replace (length n + 1 - length n) with 1 by lia. auto.
  - change ("<"%char :: a ++ $">") with (("<"%char :: a) ++ $">"). rewrite app_assoc, (rev_app_distr _ $">"). reflexivity.
Qed.

Lemma named_iff tr specs t r :
  specialized_type_python_name parse_type tr specs t = Some r <->
  exists a, handled parse_type specs t a /\ r = tr (apply_template_naming (template_name t) a).
Proof.
  unfold specialized_type_python_name, shall_specialize_type, shall_synonymize_type, handled.
  set (f := fun s => spec_specialize parse_type s t || spec_synonymize parse_type s t).
  assert (Hf : forall s, f s = true <-> is_template t = true /\ name_matches s (template_name t) = true /\
             exists a, unique t = Some a /\ listed s a).
  { intros s. unfold f, spec_specialize, spec_synonymize, handles_type, handles_synonym, listed.
    rewrite orb_true_iff, !andb_true_iff. destruct (unique t) as [a|] eqn:Eu.
    - rewrite !smem_In. split.
      + intros [((H1 & H2) & H3)|((H1 & H2) & H3)]; repeat split; auto; exists a; auto.
      + intros (H1 & H2 & b & Hb & [H3|H3]); injection Hb as <-; tauto.
    - split; [intuition discriminate|]. intros (_ & _ & a & C & _). discriminate. }
  assert (He : negb (is_template t && existsb (fun s => spec_specialize parse_type s t) specs) &&
               negb (is_template t && existsb (fun s => spec_synonymize parse_type s t) specs) =
               negb (is_template t && existsb f specs)).
  { rewrite <- negb_orb, <- andb_orb_distrib_r. f_equal. f_equal. unfold f. clear. induction specs as [|s specs IH]; auto.
    cbn. rewrite <- IH. destruct (spec_specialize parse_type s t), (spec_synonymize parse_type s t); cbn; auto using orb_true_r. }
  rewrite He. clear He. fold f. split.
  - destruct (is_template t && existsb f specs) eqn:E; cbn [negb]; [|discriminate].
    destruct (find f specs) as [s|] eqn:Ef; [|discriminate].
    apply find_some in Ef. destruct Ef as (Hin & Hs). pose proof Hs as Hs2. apply Hf in Hs. destruct Hs as (Ht & Hn & a & Hu & Hl).
    unfold spec_python_name. unfold f in Hs2. apply orb_prop in Hs2.
    replace (negb (spec_specialize parse_type s t) && negb (spec_synonymize parse_type s t)) with false
      by (destruct Hs2 as [-> | ->]; rewrite ?andb_false_r; auto).
    rewrite Hu. intros [= <-]. exists a. split; auto. repeat split; auto. exists s. auto.
  - intros (a & (Ht & Hu & s & Hin & Hn & Hl) & ->). rewrite Ht. cbn [andb].
    assert (Hs : f s = true) by (apply Hf; repeat split; auto; exists a; auto).
    assert (E : existsb f specs = true) by (apply existsb_exists; eauto). rewrite E. cbn [negb].
    destruct (find f specs) as [s'|] eqn:Ef.
    + apply find_some in Ef. destruct Ef as (_ & Hs2). unfold spec_python_name. unfold f in Hs2. apply orb_prop in Hs2.
      replace (negb (spec_specialize parse_type s' t) && negb (spec_synonymize parse_type s' t)) with false
        by (destruct Hs2 as [-> | ->]; rewrite ?andb_false_r; auto).
      rewrite Hu. auto.
    + exfalso. apply (find_none f specs Ef) in Hin. congruence.
Qed.

Lemma excluded_iff specs t : shall_exclude_type parse_type specs t = true <->
  is_template t = true /\ exists s, In s specs /\ name_matches s (template_name t) = true /\
    forall a, unique t = Some a -> ~ listed s a.
Proof.
  unfold shall_exclude_type. rewrite andb_true_iff, existsb_exists. split.
  - intros (Ht & s & Hin & Hs). split; auto. exists s. split; auto. unfold spec_exclude in Hs. rewrite !andb_true_iff in Hs.
    destruct Hs as ((_ & Hn) & Hs). split; auto. intros a Ha. rewrite Ha in Hs.
    rewrite andb_true_iff, !negb_true_iff in Hs. unfold handles_type, handles_synonym in Hs. rewrite !smem_false in Hs.
    unfold listed. tauto.
  - intros (Ht & s & Hin & Hn & Hs). split; auto. exists s. split; auto. unfold spec_exclude. rewrite Ht, Hn. cbn [andb].
    destruct (unique t) as [a|] eqn:Hu; auto. specialize (Hs a eq_refl). unfold listed in Hs.
    unfold handles_type, handles_synonym. apply andb_true_intro. split; apply negb_true_iff, smem_false; tauto.
Qed.

Lemma one_option_eq specs name s s' : one_option specs name -> In s specs -> In s' specs ->
  name_matches s name = true -> name_matches s' name = true -> s = s'.
Proof.
  unfold one_option. intros H Hs Hs' Hn Hn'.
  assert (H1 : In s (filter (fun s => name_matches s name) specs)) by (apply filter_In; auto).
  assert (H2 : In s' (filter (fun s => name_matches s name) specs)) by (apply filter_In; auto).
  destruct (filter _ specs) as [|x [|y l]]; cbn in *; [contradiction| |lia].
  destruct H1 as [<-|[]], H2 as [<-|[]]. auto.
Qed.

Lemma one_option_decides tr specs t : one_option specs (template_name t) -> is_template t = true ->
  (exists s, In s specs /\ name_matches s (template_name t) = true) ->
  (shall_exclude_type parse_type specs t = true <-> specialized_type_python_name parse_type tr specs t = None).
Proof.
  intros H1 Ht (s & Hin & Hn). rewrite excluded_iff. split.
  - intros (_ & s' & Hin' & Hn' & Hs'). destruct (specialized_type_python_name parse_type tr specs t) eqn:E; auto.
    apply named_iff in E. destruct E as (a & (_ & Hu & s2 & Hin2 & Hn2 & Hl) & _).
    rewrite (one_option_eq specs _ s2 s' H1 Hin2 Hin' Hn2 Hn') in Hl. destruct (Hs' a Hu Hl).
  - intros E. split; auto. exists s. repeat split; auto. intros a Hu Hl.
    assert (C : specialized_type_python_name parse_type tr specs t = Some (tr (apply_template_naming (template_name t) a))).
    { apply named_iff. exists a. split; auto. repeat split; auto. exists s. auto. }
    congruence.
Qed.

(** The classes and functions that are emitted. *)
Lemma matching_in specs name s : matching_spec specs name = Some s -> In s specs /\ name_matches s name = true.
Proof. unfold matching_spec. intros H. apply find_some in H. rewrite <- in_rev in H. auto. Qed.
Lemma matching_exists specs name s : In s specs -> name_matches s name = true -> exists s', matching_spec specs name = Some s'.
Proof.
  intros Hin Hn. unfold matching_spec. destruct (find _ (rev specs)) as [s'|] eqn:E; eauto.
  apply in_rev in Hin. apply (find_none _ _ E) in Hin. congruence.
Qed.

Lemma emitted_iff specs t a : one_option specs (template_name t) -> is_template t = true -> unique t = Some a ->
  (In a (class_instantiations specs (template_name t) 1) <-> shall_specialize_type parse_type specs t = true).
Proof.
  intros H1 Ht Hu. unfold class_instantiations, shall_specialize_type. rewrite Ht. cbn [andb negb Nat.eqb].
  rewrite existsb_exists. split.
  - destruct (matching_spec specs (template_name t)) as [s|] eqn:E; [|intros []].
    apply matching_in in E. destruct E as (Hin & Hn). intros Ha. exists s. split; auto.
    unfold spec_specialize. rewrite Ht, Hn, Hu. cbn [andb]. apply smem_In. auto.
  - intros (s & Hin & Hs). unfold spec_specialize in Hs. rewrite Ht, Hu in Hs. cbn [andb] in Hs. apply andb_prop in Hs.
    destruct Hs as (Hn & Ha). destruct (matching_exists specs _ s Hin Hn) as (s' & Es). rewrite Es.
    apply matching_in in Es. destruct Es as (Hin' & Hn'). rewrite (one_option_eq specs _ s' s H1 Hin' Hin Hn' Hn).
    apply smem_In. auto.
Qed.

Lemma instantiated_named specs name nb o a f : In (a, f) (function_instantiations specs name nb o) ->
  exists r, specialized_function_python_name specs name a = Some r /\ (r = name \/ r = apply_template_naming name a).
Proof.
  unfold function_instantiations. destruct (matching_spec specs name) as [s|] eqn:E; [|intros []].
  apply matching_in in E. destruct E as (Hin & Hn).
  destruct (negb (nb =? 1) && _); [intros []|]. rewrite in_map_iff. intros (b & [= -> <-] & Hb).
  unfold specialized_function_python_name.
  destruct (find _ specs) as [s'|] eqn:Ef.
  - exists (if add_suffix s' then apply_template_naming name a else name). split; auto. destruct (add_suffix s'); auto.
  - apply (find_none _ _ Ef) in Hin. rewrite Hn in Hin. cbn [andb] in Hin. apply orb_false_iff in Hin.
    destruct Hin as (C & _). apply smem_false in C. contradiction.
Qed.
(** With one option about the name: a suffix, or functions marked as overloads. *)
Lemma function_suffix specs name nb o a f : one_option specs name ->
  In (a, f) (function_instantiations specs name nb o) ->
  (specialized_function_python_name specs name a = Some (apply_template_naming name a) /\ f = o) \/
  (specialized_function_python_name specs name a = Some name /\ f = true).
Proof.
  intros H1. unfold function_instantiations. destruct (matching_spec specs name) as [s|] eqn:E; [|intros []].
  apply matching_in in E. destruct E as (Hin & Hn).
  destruct (negb (nb =? 1) && _); [intros []|]. rewrite in_map_iff. intros (b & [= -> <-] & Hb).
  unfold specialized_function_python_name.
  destruct (find _ specs) as [s'|] eqn:Ef.
  - apply find_some in Ef. destruct Ef as (Hin' & Hs'). apply andb_prop in Hs'. destruct Hs' as (Hn' & _).
    rewrite (one_option_eq specs _ s' s H1 Hin' Hin Hn' Hn). destruct (add_suffix s); cbn [negb].
    + rewrite orb_false_r. auto.
    + rewrite orb_true_r. auto.
  - exfalso. apply (find_none _ _ Ef) in Hin. rewrite Hn in Hin. cbn [andb] in Hin. apply orb_false_iff in Hin.
    destruct Hin as (C & _). apply smem_false in C. contradiction.
Qed.

(** Default values. *)
Variable typenames_of : str -> option str.
Lemma has_char c a x b : contains [c] (a ++ [x] ++ b) = true <-> In c a \/ c = x \/ In c b.
Proof. rewrite contains_single, !in_app_iff. cbn. intuition. Qed.

Lemma default_paren tr specs t args : In "<"%char t -> ~ In "("%char t -> ~ In "{"%char t -> ~ In "{"%char args ->
  specialized_type_python_default_value parse_type typenames_of tr specs (t ++ $"(" ++ args ++ $")") =
  match specialized_type_python_name_str parse_type typenames_of tr specs t with
  | Some n => Some (n ++ $"(" ++ args ++ $")") | None => None end.
Proof.
  intros H1 H2 H3 H4. unfold specialized_type_python_default_value.
  assert (E1 : contains $"<" (t ++ $"(" ++ args ++ $")") = true).
  { change $"<" with ["<"%char]. apply contains_single. rewrite !in_app_iff. cbn. auto. }
  assert (E2 : contains $"(" (t ++ $"(" ++ args ++ $")") = true).
  { change $"(" with ["("%char]. apply contains_single. rewrite !in_app_iff. cbn. auto. }
  assert (E3 : contains $")" (t ++ $"(" ++ args ++ $")") = true).
  { change $")" with [")"%char]. apply contains_single. rewrite !in_app_iff. cbn. auto. }
  assert (E4 : contains $"{" (t ++ $"(" ++ args ++ $")") = false).
  { apply not_true_iff_false. change $"{" with ["{"%char]. rewrite contains_single. intros C. apply in_app_or in C.
    change ($"(" ++ args ++ $")") with ("("%char :: args ++ [")"%char]) in C. destruct C as [C|[C|C]]; [auto|discriminate|]. apply in_app_or in C. destruct C as [C|[C|[]]]; [auto|discriminate]. }
  rewrite E1, E2, E3, E4. cbn [negb andb].
  change ($"(" ++ args ++ $")") with ("("%char :: args ++ $")").
  assert (Ht : Forall (fun x => negb (ceqb x "(") = true) t).
  { apply Forall_forall. intros x Hx. apply negb_true_iff, ceqb_false. intros ->. auto. }
  rewrite (takewhile_stop _ t "("%char) by (auto; reflexivity).
  rewrite dropwhile_app_all by auto. auto.
Qed.
Lemma default_brace tr specs t args : In "<"%char t -> ~ In "{"%char t -> ~ In "{"%char args -> ~ In "}"%char args ->
  specialized_type_python_default_value parse_type typenames_of tr specs (t ++ $"{" ++ args ++ $"}") =
  match specialized_type_python_name_str parse_type typenames_of tr specs t with
  | Some n => Some (n ++ $"(" ++ args ++ $")") | None => None end.
Proof.
  intros H1 H2 H3 H4. unfold specialized_type_python_default_value.
  assert (E1 : contains $"<" (t ++ $"{" ++ args ++ $"}") = true).
  { change $"<" with ["<"%char]. apply contains_single. rewrite !in_app_iff. cbn. auto. }
  assert (E2 : contains $"{" (t ++ $"{" ++ args ++ $"}") = true).
  { change $"{" with ["{"%char]. apply contains_single. rewrite !in_app_iff. cbn. auto. }
  assert (E3 : contains $"}" (t ++ $"{" ++ args ++ $"}") = true).
  { change $"}" with ["}"%char]. apply contains_single. rewrite !in_app_iff. cbn. auto. }
  rewrite E1, E2, E3. cbn [negb andb]. rewrite andb_false_r. cbv iota.
  change ($"{" ++ args ++ $"}") with ("{"%char :: args ++ $"}").
  assert (Ht : Forall (fun x => negb (ceqb x "{") = true) t).
  { apply Forall_forall. intros x Hx. apply negb_true_iff, ceqb_false. intros ->. auto. }
  rewrite (takewhile_stop _ t "{"%char) by (auto; reflexivity).
  rewrite dropwhile_app_all by auto. cbn [dropwhile]. change (negb (ceqb "{" "{")) with false. cbv iota.
  replace (replace $"}" $")" (replace $"{" $"(" ("{"%char :: args ++ $"}"))) with ("("%char :: args ++ $")"); auto.
  change $"{" with ["{"%char]. change $"}" with ["}"%char] at 1. rewrite !replace_single_char.
  change ("{"%char :: args ++ $"}") with (["{"%char] ++ args ++ $"}"). rewrite !flat_map_app.
  change (flat_map (fun x => if ceqb x "}" then $")" else [x]) (flat_map (fun x => if ceqb x "{" then $"(" else [x]) ["{"%char]))
    with $"(". change ("("%char :: args ++ $")") with ($"(" ++ args ++ $")").
  change (flat_map (fun x => if ceqb x "}" then $")" else [x]) (flat_map (fun x => if ceqb x "{" then $"(" else [x]) $"}"))
    with $")". f_equal. f_equal.
  clear - H3 H4. induction args as [|c args IH]; auto. cbn [flat_map].
  destruct (ceqb_spec c "{") as [->|N]; [cbn in H3; tauto|]. cbn [app flat_map].
  destruct (ceqb_spec c "}") as [->|N2]; [cbn in H4; tauto|]. cbn [app]. f_equal. apply IH; cbn in *; tauto.
Qed.
End Options.
