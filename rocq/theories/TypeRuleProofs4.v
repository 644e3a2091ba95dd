From Verif Require Import PyStr PyDict PyStrLemmas InstanceModel InstanceSpec InstanceProofs LiteralModel LiteralProofs LiteralProofs2 NumberProofs2 TemplateModel TemplateSpec TemplateProofs TypeRuleModel TypeRuleSpec TypeRuleProofs TypeRuleProofs2 TypeRuleProofs3.
(** Types of any depth. *)

Definition core (t : ty) : str := python_type $"::" t.
(** ** Texts *)

Lemma scalar_clean c p : In (c, p) scalars -> clean p.
Proof.
  intros H. assert (P : In p [$"bool"; $"int"; $"float"; $"str"]) by (unfold scalars in H; cbn [In] in H; repeat (destruct H as [H|H]; [injection H as <- <-; cbn; tauto|]); destruct H).
  clear H. cbn [In] in P. repeat (destruct P as [<-|P]; [split; [discriminate|]; split; [apply free_name; name_each|clean_chars]|]). destruct P.
Qed.
Lemma core_clean t : ty_ok t -> clean (core t).
Proof.
  unfold core. induction t as [c p|p|t IH|t IH|t IH|t IH|p t IH]; cbn [ty_ok python_type]; intros O.
  - apply (scalar_clean c p O).
  - apply path_clean; exact O.
  - apply (clean_list $"List"); [apply IH; exact O| |]; name_each.
  - apply (clean_list $"Optional"); [apply IH; exact O| |]; name_each.
  - apply IH; exact O.
  - apply IH; exact O.
  - destruct O as (P & O). specialize (IH O). destruct (path_clean p P) as (A & B & C). destruct IH as (D & E & F). split; [destruct (join $"::" p); [congruence|discriminate]|]. split.
    + apply free_app; [reflexivity|exact B|]. change ($"[" ++ python_type $"::" t ++ $"]") with ("["%char :: (python_type $"::" t ++ $"]")). apply free_sep; [reflexivity|]. apply free_app; [reflexivity|exact E|]. apply free_sep; [reflexivity|apply free_nil].
    + apply Forall_app. split; [exact C|]. apply Forall_app. split; [clean_chars|]. apply Forall_app. split; [exact F|clean_chars].
Qed.
Lemma plain_balanced s : ~ In "<"%char s -> ~ In ">"%char s -> balanced s.
Proof. induction s as [|c s IH]; intros A B; [constructor|]. cbn in A, B. apply bal_char; [intros ->; tauto|intros ->; tauto|]. apply IH; tauto. Qed.
Lemma pair_balanced b i : balanced b -> balanced i -> balanced (b ++ $"<" ++ i ++ $">").
Proof. intros B I. apply balanced_app; [exact B|]. change ($"<" ++ i ++ $">") with ("<"%char :: i ++ ">"%char :: []). apply bal_pair; [exact I|constructor]. Qed.
Lemma clean_balanced s : Forall clean_char s -> balanced s.
Proof. intros C. apply plain_balanced; apply clean_no; auto. Qed.
Lemma scalar_text c p : In (c, p) scalars -> ~ In "<"%char c /\ ~ In ">"%char c /\ strip c = c.
Proof. intros H. unfold scalars in H. cbn [In] in H. repeat (destruct H as [H|H]; [injection H as <- <-; split; [cbn; intuition discriminate|]; split; [cbn; intuition discriminate|reflexivity]|]). destruct H. Qed.
Lemma strip_ends x m : x <> [] -> Forall clean_char x -> strip (x ++ m ++ $">") = x ++ m ++ $">".
Proof. intros N C. apply strip_around; [exact N|discriminate|apply strip_clean; exact C|reflexivity]. Qed.
Lemma text_ok t : ty_ok t -> balanced (cpp_text t) /\ strip (cpp_text t) = cpp_text t.
Proof.
  induction t as [c p|p|t IH|t IH|t IH|t IH|p t IH]; cbn [ty_ok cpp_text]; intros O.
  - destruct (scalar_text c p O) as (A & B & C). split; [apply plain_balanced; auto|exact C].
  - destruct (path_clean p O) as (_ & _ & C). split; [apply clean_balanced; exact C|apply strip_clean; exact C].
  - destruct (IH O) as (A & B). split; [apply (pair_balanced $"std::vector"); [apply plain_balanced; cbn; intuition discriminate|exact A]|]. apply (strip_ends $"std" ($"::vector<" ++ cpp_text t)); [discriminate|clean_chars].
  - destruct (IH O) as (A & B). split; [apply (pair_balanced $"std::optional"); [apply plain_balanced; cbn; intuition discriminate|exact A]|]. apply (strip_ends $"std" ($"::optional<" ++ cpp_text t)); [discriminate|clean_chars].
  - destruct (IH O) as (A & B). split; [apply (pair_balanced $"std::shared_ptr"); [apply plain_balanced; cbn; intuition discriminate|exact A]|]. apply (strip_ends $"std" ($"::shared_ptr<" ++ cpp_text t)); [discriminate|clean_chars].
  - destruct (IH O) as (A & B). split; [apply (pair_balanced $"std::unique_ptr"); [apply plain_balanced; cbn; intuition discriminate|exact A]|]. apply (strip_ends $"std" ($"::unique_ptr<" ++ cpp_text t)); [discriminate|clean_chars].
  - destruct O as (P & O). destruct (IH O) as (A & B). destruct (path_clean p P) as (N & _ & C). split; [apply pair_balanced; [apply clean_balanced; exact C|exact A]|]. rewrite app_assoc. rewrite app_assoc. rewrite <- (app_assoc (join $"::" p)). rewrite <- app_assoc. apply strip_ends; auto.
Qed.
Lemma no_char c s : ~ In c s -> contains [c] s = false.
Proof. intros N. induction s as [|d s IH]; [reflexivity|]. cbn [contains startswith]. destruct (ceqb_spec c d) as [E|]; [exfalso; apply N; left; symmetry; exact E|]. cbn. apply IH. intros X. apply N. right. exact X. Qed.
Lemma has_char c s : In c s -> contains [c] s = true.
Proof. induction s as [|d s IH]; [intros []|]. intros [-> |H]; cbn [contains startswith]; [rewrite ceqb_refl; reflexivity|]. rewrite IH by exact H. apply orb_true_r. Qed.
Lemma collapse_clean s m : Forall clean_char s -> m = [] \/ m = $" " -> collapse (s ++ m) = s ++ m.
Proof. intros C M. induction C as [|c s (X & _) C IH]; [destruct M as [-> | ->]; reflexivity|]. cbn [app collapse]. rewrite X. f_equal. exact IH. Qed.
Lemma normalize_clean s sp1 sp2 : s <> [] -> Forall clean_char s -> sp1 = [] \/ sp1 = $" " -> sp2 = [] \/ sp2 = $" " -> normalize_whitespace (sp1 ++ s ++ sp2) = s.
Proof.
  intros N C S1 S2. unfold normalize_whitespace. assert (E : collapse (sp1 ++ s ++ sp2) = sp1 ++ s ++ sp2).
  { pose proof (collapse_clean s sp2 C S2) as E. destruct S1 as [-> | ->]; [exact E|]. destruct s as [|c s]; [congruence|]. change ($" " ++ (c :: s) ++ sp2) with (" "%char :: c :: (s ++ sp2)). cbn [collapse]. change (is_space " ") with true. cbv iota. inversion C as [|? ? (X & _) _]; subst. rewrite X. change ((c :: s) ++ sp2) with (c :: s ++ sp2) in E. cbn [collapse] in E. rewrite X in E. rewrite E. reflexivity. }
  rewrite E, strip_spaces_l by (destruct S1 as [-> | ->]; reflexivity). rewrite strip_spaces_r by (destruct S2 as [-> | ->]; reflexivity). apply strip_clean. exact C.
Qed.
Lemma one_char c d s : ~ In c s -> replace [c] d s = s.
Proof. intros N. apply replace_no_occ. apply no_char. exact N. Qed.

(** ** One step *)

Lemma marks_strip m : In m marks_after -> standard_types (strip m) = [].
Proof. intros M. unfold marks_after in M. cbn [In] in M. repeat (destruct M as [<-|M]; [vm_compute; reflexivity|]). destruct M. Qed.
Lemma step b i m p fuel : ~ In "<"%char b -> balanced i -> strip i = i -> In m marks_after -> perform standard_types fuel i = Ok p ->
  perform standard_types (S fuel) (b ++ $"<" ++ i ++ $">" ++ m) = Ok (normalize_whitespace (replace $">" $"]" (replace $"<" $"[" (standard_types (standard_types (strip b) ++ $"<" ++ p ++ $">"))))).
Proof.
  intros B I S M E. cbn [perform]. change ($"<" ++ i ++ $">" ++ m) with ("<"%char :: i ++ ">"%char :: m). change ($"<") with ["<"%char] at 1. rewrite (has_char "<"%char) by (apply in_app_iff; right; left; reflexivity). cbn [negb].
  rewrite split_complete by auto. rewrite S, E, (marks_strip m M). rewrite ?app_nil_r. reflexivity.
Qed.
Lemma std_head q w : In q constants_before -> In w [$"std::vector"; $"std::optional"; $"std::shared_ptr"; $"std::unique_ptr"] -> exists sp1, (sp1 = [] \/ sp1 = $" ") /\ standard_types (strip (q ++ w)) = sp1 ++ w /\ ~ In "<"%char (q ++ w).
Proof.
  intros Q W. unfold constants_before in Q. cbn [In] in Q, W. destruct Q as [<-|[<-|[]]]; [exists []|exists $" "]; (split; [auto|]); repeat (destruct W as [<-|W]; [split; [vm_compute; reflexivity|cbn; intuition discriminate]|]); destruct W.
Qed.
Lemma const_strip q x : In q constants_before -> x <> [] -> Forall clean_char x -> strip (q ++ x) = q ++ x /\ ~ In "<"%char (q ++ x).
Proof.
  intros Q N C. unfold constants_before in Q. cbn [In] in Q. pose proof (clean_no x "<"%char C (or_intror (or_introl eq_refl))) as L. destruct Q as [<-|[<-|[]]].
  - split; [apply strip_clean; exact C|exact L].
  - split; [|rewrite in_app_iff; intros [X|X]; [cbn in X; intuition discriminate|auto]]. apply (strip_around $"const" $" " x); auto; [discriminate|apply strip_clean; exact C].
Qed.
Lemma brackets_clean s sp1 : s <> [] -> Forall clean_char s -> sp1 = [] \/ sp1 = $" " -> normalize_whitespace (replace $">" $"]" (replace $"<" $"[" (sp1 ++ s))) = s.
Proof.
  intros N C S. assert (H : forall c, c = ">"%char \/ c = "<"%char \/ c = nl -> c <> nl -> ~ In c (sp1 ++ s)).
  { intros c E D X. apply in_app_iff in X. destruct X as [X|X]; [destruct S as [-> | ->]; cbn in X; [destruct X|]; destruct X as [X|[]]; subst; destruct E as [E|[E|E]]; try discriminate|]. exact (clean_no s c C E X). }
  change ($"<") with ["<"%char]. change ($">") with [">"%char]. rewrite (one_char "<"%char) by (apply H; [auto|discriminate]). rewrite (one_char ">"%char) by (apply H; [auto|discriminate]).
  pose proof (normalize_clean s sp1 [] N C S (or_introl eq_refl)) as E. rewrite app_nil_r in E. exact E.
Qed.

(** ** All types *)

Lemma scalars_once : forallb (fun '(c, p) => seqb (types_once c) p) scalars = true. Proof. vm_compute. reflexivity. Qed.
Lemma scalar_types c p : In (c, p) scalars -> standard_types c = p.
Proof. intros H. pose proof scalars_once as E. rewrite forallb_forall in E. specialize (E _ H). cbn beta iota in E. destruct (seqb_spec (types_once c) p) as [T|]; [|discriminate]. pose proof (scalar_clean c p H) as C. destruct (free_clean_sp p [] [] C (or_introl eq_refl) (or_introl eq_refl)) as (F & NM). cbn [app] in F, NM. rewrite app_nil_r in F, NM. apply standard_of; auto. Qed.
Lemma std_step q m t p fuel w f : In q constants_before -> In m marks_after -> In w [$"std::vector"; $"std::optional"; $"std::shared_ptr"; $"std::unique_ptr"] -> ty_ok t -> clean p -> clean f ->
  perform standard_types fuel (cpp_text t) = Ok p -> (forall sp1, sp1 = [] \/ sp1 = $" " -> standard_types (sp1 ++ w ++ $"<" ++ p ++ $">") = sp1 ++ f) ->
  perform standard_types (S fuel) (q ++ (w ++ $"<" ++ cpp_text t ++ $">") ++ m) = Ok f.
Proof.
  intros Q M W O P F E T. destruct (std_head q w Q W) as (sp1 & S & H & N). destruct (text_ok t O) as (B & ST).
  replace (q ++ (w ++ $"<" ++ cpp_text t ++ $">") ++ m) with ((q ++ w) ++ $"<" ++ cpp_text t ++ $">" ++ m) by (rewrite <- !app_assoc; reflexivity).
  rewrite (step (q ++ w) (cpp_text t) m p fuel N B ST M E), H, <- app_assoc, T by exact S. f_equal. apply brackets_clean; auto; apply F.
Qed.
Lemma other_step q m t p fuel x : In q constants_before -> In m marks_after -> user_path x -> ty_ok t -> clean p ->
  perform standard_types fuel (cpp_text t) = Ok p ->
  perform standard_types (S fuel) (q ++ (join $"::" x ++ $"<" ++ cpp_text t ++ $">") ++ m) = Ok (join $"::" x ++ $"[" ++ p ++ $"]").
Proof.
  intros Q M X O P E. destruct (text_ok t O) as (B & ST). pose proof (path_clean x X) as C. pose proof (path_text x X) as HD. destruct (const_strip q (join $"::" x) Q (proj1 C) (proj2 (proj2 C))) as (SS & N).
  replace (q ++ (join $"::" x ++ $"<" ++ cpp_text t ++ $">") ++ m) with ((q ++ join $"::" x) ++ $"<" ++ cpp_text t ++ $">" ++ m) by (rewrite <- !app_assoc; reflexivity).
  rewrite (step (q ++ join $"::" x) (cpp_text t) m p fuel N B ST M E), SS. destruct (name_types q (join $"::" x) [] C HD Q (or_introl eq_refl)) as (sp1 & sp2 & S1 & _ & Z & _ & H). rewrite (Z eq_refl), !app_nil_r in H. rewrite H, <- app_assoc, other_types by auto. f_equal.
  set (y := join $"::" x) in *. destruct C as (CN & _ & CC). destruct P as (PN & _ & PC).
  assert (R : replace $">" $"]" (replace $"<" $"[" (sp1 ++ y ++ $"<" ++ p ++ $">")) = sp1 ++ y ++ $"[" ++ p ++ $"]").
  { change ($"<") with ["<"%char]. change ($">") with [">"%char]. rewrite !replace_single_char. rewrite !flat_map_app.
    assert (G : forall c d s, c = ">"%char \/ c = "<"%char -> Forall clean_char s -> flat_map (fun a => if ceqb a c then d else [a]) s = s).
    { intros c d s CE FS. rewrite <- replace_single_char. apply one_char. apply clean_no; [exact FS|tauto]. }
    assert (G1 : forall c d, c = ">"%char \/ c = "<"%char -> flat_map (fun a => if ceqb a c then d else [a]) sp1 = sp1) by (intros c d [-> | ->]; destruct S1 as [-> | ->]; reflexivity).
    rewrite !(G1 "<"%char), !(G1 ">"%char), !(G "<"%char _ y), !(G ">"%char _ y) by auto. rewrite (G "<"%char _ p), (G ">"%char _ p) by auto. reflexivity. }
  rewrite R. assert (F : Forall clean_char (y ++ $"[" ++ p ++ $"]")) by (apply Forall_app; split; [exact CC|]; apply Forall_app; split; [clean_chars|]; apply Forall_app; split; [exact PC|clean_chars]).
  pose proof (normalize_clean (y ++ $"[" ++ p ++ $"]") sp1 []) as K. rewrite app_nil_r in K. apply K; auto. destruct y; [congruence|discriminate].
Qed.
Lemma wrapped_clean h p : clean p -> name_of h -> ~ In h type_words -> clean (h ++ $"[" ++ p ++ $"]"). Proof. apply clean_list. Qed.
(** A template, with anything around it. *)
Definition is_leaf (t : ty) : Prop := match t with Scalar _ _ | Named _ => True | _ => False end.
Definition head_child (t : ty) : ty := match t with Vector t | Opt t | Shared t | Unique t | Other _ t => t | t => t end.
Lemma around q m t fuel : In q constants_before -> In m marks_after -> ty_ok t -> ~ is_leaf t -> perform standard_types fuel (cpp_text (head_child t)) = Ok (core (head_child t)) -> perform standard_types (S fuel) (q ++ cpp_text t ++ m) = Ok (core t).
Proof.
  intros Q M O NL E. destruct t as [c p|p|t|t|t|t|p t]; cbn [is_leaf] in NL; try tauto; cbn [head_child] in E; cbn [ty_ok] in O.
  - pose proof (core_clean t O) as C. apply (std_step q m t (core t) fuel $"std::vector" (core (Vector t)) Q M); auto; [cbn; tauto|apply (core_clean (Vector t) O)|]. intros sp1 S. apply (vector_types (core t) sp1 S C).
  - pose proof (core_clean t O) as C. apply (std_step q m t (core t) fuel $"std::optional" (core (Opt t)) Q M); auto; [cbn; tauto|apply (core_clean (Opt t) O)|]. intros sp1 S. apply (optional_types (core t) sp1 S C).
  - pose proof (core_clean t O) as C. apply (std_step q m t (core t) fuel $"std::shared_ptr" (core (Shared t)) Q M); auto; [cbn; tauto|]. intros sp1 S. apply (shared_types (core t) sp1 S C).
  - pose proof (core_clean t O) as C. apply (std_step q m t (core t) fuel $"std::unique_ptr" (core (Unique t)) Q M); auto; [cbn; tauto|]. intros sp1 S. apply (unique_types (core t) sp1 S C).
  - destruct O as (P & O). apply other_step; auto. apply core_clean. exact O.
Qed.
Lemma leaf_once t fuel : ty_ok t -> is_leaf t -> perform standard_types (S fuel) (cpp_text t) = Ok (core t).
Proof.
  intros O L. destruct t as [c p|p|t|t|t|t|p t]; cbn [is_leaf] in L; try tauto; cbn [ty_ok] in O; unfold core; cbn [cpp_text python_type perform].
  - destruct (scalar_text c p O) as (A & _). change ($"<") with ["<"%char]. rewrite no_char by exact A. cbn [negb]. f_equal. apply scalar_types. exact O.
  - pose proof (path_clean p O) as C. change ($"<") with ["<"%char]. rewrite no_char by (apply clean_no; [apply C|auto]). cbn [negb]. f_equal.
    destruct (name_types [] (join $"::" p) [] C (path_text p O) (or_introl eq_refl) (or_introl eq_refl)) as (sp1 & sp2 & _ & _ & Z2 & Z1 & H). rewrite (Z2 eq_refl), (Z1 eq_refl), !app_nil_r in H. exact H.
Qed.
Lemma child_ok t : ty_ok t -> ty_ok (head_child t).
Proof. destruct t; cbn; tauto. Qed.
Lemma child_shorter t : ~ is_leaf t -> length (cpp_text (head_child t)) < length (cpp_text t).
Proof. destruct t; cbn [is_leaf]; intros H; try tauto; cbn [head_child cpp_text]; rewrite !app_length; assert (L : length $">" = 1) by reflexivity; rewrite L; lia. Qed.
Lemma leaf_dec t : is_leaf t \/ ~ is_leaf t. Proof. destruct t; cbn; tauto. Qed.
Lemma all_types n : forall t, length (cpp_text t) <= n -> ty_ok t -> forall fuel, length (cpp_text t) < fuel -> perform standard_types fuel (cpp_text t) = Ok (core t).
Proof.
  induction n as [|n IH]; intros t L O fuel F; (destruct (leaf_dec t) as [LF|LF]; [destruct fuel; [lia|]; apply leaf_once; auto|]); pose proof (child_shorter t LF) as CS; [lia|].
  destruct fuel as [|fuel]; [lia|]. pose proof (around [] [] t fuel (or_introl eq_refl) (or_introl eq_refl) O LF) as A. cbn [app] in A. rewrite app_nil_r in A. apply A. apply IH; [lia|apply child_ok; exact O|lia].
Qed.

(** ** The whole translation *)

Lemma join_more (d w v : str) p : join d (w :: v :: p) = w ++ d ++ join d (v :: p). Proof. reflexivity. Qed.
Lemma path_dots p : user_path p -> forall y, replace $"::" $"." (join $"::" p ++ y) = join $"." p ++ replace $"::" $"." y.
Proof.
  intros (N & H). induction H as [|w p W P IH]; [congruence|]. intros y. assert (NC : ~ In ":"%char w) by (intros X; destruct W as (_ & W & _); rewrite Forall_forall in W; apply W in X; discriminate).
  destruct p as [|v p]; [cbn [join]; apply colons_skip; exact NC|]. rewrite !join_more. rewrite <- !app_assoc, colons_skip by exact NC. f_equal. rewrite <- (IH ltac:(discriminate) y). apply (replace_occ $"::" $"." (join $"::" (v :: p) ++ y)). discriminate.
Qed.
Lemma core_dots t : ty_ok t -> forall y, replace $"::" $"." (core t ++ y) = python_type $"." t ++ replace $"::" $"." y.
Proof.
  unfold core. induction t as [c p|p|t IH|t IH|t IH|t IH|p t IH]; cbn [ty_ok python_type]; intros O y.
  - apply colons_skip. assert (P : In p [$"bool"; $"int"; $"float"; $"str"]) by (unfold scalars in O; cbn [In] in O; repeat (destruct O as [O|O]; [injection O as <- <-; cbn; tauto|]); destruct O). cbn [In] in P. repeat (destruct P as [<-|P]; [cbn; intuition discriminate|]). destruct P.
  - apply path_dots. exact O.
  - rewrite <- !app_assoc. rewrite (colons_skip $"List[") by (cbn; intuition discriminate). rewrite IH by exact O. rewrite (colons_skip $"]") by (cbn; intuition discriminate). reflexivity.
  - rewrite <- !app_assoc. rewrite (colons_skip $"Optional[") by (cbn; intuition discriminate). rewrite IH by exact O. rewrite (colons_skip $"]") by (cbn; intuition discriminate). reflexivity.
  - apply IH; exact O.
  - apply IH; exact O.
  - destruct O as (P & O). rewrite <- !app_assoc. rewrite path_dots by exact P. rewrite (colons_skip $"[") by (cbn; intuition discriminate). rewrite IH by exact O. rewrite (colons_skip $"]") by (cbn; intuition discriminate). reflexivity.
Qed.
Lemma path_dots_clean p : user_path p -> join $"." p <> [] /\ Forall clean_char (join $"." p).
Proof.
  intros (N & H). induction H as [|w p W P IH]; [congruence|]. destruct W as (W1 & W2 & _). destruct p as [|v p]; [cbn [join]; split; [exact W1|apply words_clean; exact W2]|]. rewrite join_more. destruct (IH ltac:(discriminate)) as (A & B). split; [destruct w; [congruence|discriminate]|].
  apply Forall_app. split; [apply words_clean; exact W2|]. apply Forall_app. split; [clean_chars|exact B].
Qed.
Lemma python_clean t : ty_ok t -> python_type $"." t <> [] /\ Forall clean_char (python_type $"." t).
Proof.
  induction t as [c p|p|t IH|t IH|t IH|t IH|p t IH]; cbn [ty_ok python_type]; intros O; auto.
  - pose proof (scalar_clean c p O) as (A & _ & B). auto.
  - apply path_dots_clean. exact O.
  - destruct (IH O) as (A & B). split; [discriminate|]. apply Forall_app. split; [clean_chars|]. apply Forall_app. split; [exact B|clean_chars].
  - destruct (IH O) as (A & B). split; [discriminate|]. apply Forall_app. split; [clean_chars|]. apply Forall_app. split; [exact B|clean_chars].
  - destruct O as (P & O). destruct (IH O) as (A & B). destruct (path_dots_clean p P) as (C & D). split; [destruct (join $"." p); [congruence|discriminate]|]. apply Forall_app. split; [exact D|]. apply Forall_app. split; [clean_chars|]. apply Forall_app. split; [exact B|clean_chars].
Qed.
Lemma callable_idle s : contains $"Callable[[" s = false -> strip_callable_param_names s = s.
Proof.
  unfold strip_callable_param_names. induction s as [|c s IH]; [reflexivity|]. intros H. cbn [contains] in H. apply orb_false_elim in H. destruct H as (H1 & H2). cbn [strip_callable_aux]. rewrite H1. cbn [andb]. f_equal. apply IH. exact H2.
Qed.
Definition dotted_is (x p : str) : Prop := exists sp1 sp2, (sp1 = [] \/ sp1 = $" ") /\ (sp2 = [] \/ sp2 = $" ") /\ replace $"::" $"." x = sp1 ++ p ++ sp2.
Definition spaced (p r : str) : bool := seqb r p || seqb r ($" " ++ p) || seqb r (p ++ $" ") || seqb r ($" " ++ p ++ $" ").
Lemma spaced_is p r : spaced p r = true -> exists sp1 sp2, (sp1 = [] \/ sp1 = $" ") /\ (sp2 = [] \/ sp2 = $" ") /\ r = sp1 ++ p ++ sp2.
Proof.
  unfold spaced. intros H. apply orb_prop in H. destruct H as [H|H]; [apply orb_prop in H; destruct H as [H|H]; [apply orb_prop in H; destruct H as [H|H]|]|].
  - apply seqb_true in H. exists [], []. rewrite app_nil_r. auto.
  - apply seqb_true in H. exists $" ", []. rewrite app_nil_r. auto.
  - apply seqb_true in H. exists [], $" ". auto.
  - apply seqb_true in H. exists $" ", $" ". auto.
Qed.
Definition scalar_around (c p q m : str) : bool := negb (contains $"<" (q ++ c ++ m)) && spaced p (types_once (q ++ c ++ m)).
Lemma scalars_around : forallb (fun '(c, p) => forallb (fun q => forallb (fun m => scalar_around c p q m) marks_after) constants_before) scalars = true. Proof. vm_compute. reflexivity. Qed.
Lemma performed q m t : In q constants_before -> In m marks_after -> ty_ok t -> exists r, perform_replacements standard_types (q ++ cpp_text t ++ m) = Ok r /\ dotted_is r (python_type $"." t).
Proof.
  intros Q M O. unfold perform_replacements. destruct (leaf_dec t) as [L|L].
  - destruct t as [c p|p|t|t|t|t|p t]; cbn [is_leaf] in L; try tauto; cbn [ty_ok] in O; cbn [cpp_text python_type perform].
    + pose proof scalars_around as E. rewrite forallb_forall in E. specialize (E _ O). cbn beta iota in E. rewrite forallb_forall in E. specialize (E _ Q). rewrite forallb_forall in E. specialize (E _ M). apply andb_prop in E. destruct E as (E1 & E2). rewrite E1.
      destruct (spaced_is _ _ E2) as (sp1 & sp2 & S1 & S2 & E3). pose proof (scalar_clean c p O) as C. destruct (free_clean_sp p sp1 sp2 C S1 S2) as (F & NM).
      eexists. split; [reflexivity|]. exists sp1, sp2. split; [exact S1|]. split; [exact S2|]. rewrite (standard_of _ _ E3 F NM). rewrite colons_skip by (destruct S1 as [-> | ->]; cbn; intuition discriminate). f_equal.
      pose proof (core_dots (Scalar c p) O sp2) as D. cbn [core python_type] in D. etransitivity; [exact D|]. f_equal. destruct S2 as [-> | ->]; reflexivity.
    + pose proof (path_clean p O) as C. destruct (name_types q (join $"::" p) m C (path_text p O) Q M) as (sp1 & sp2 & S1 & S2 & _ & _ & H). destruct (const_strip q (join $"::" p) Q (proj1 C) (proj2 (proj2 C))) as (_ & N).
      change ($"<") with ["<"%char]. rewrite no_char. 2:{ rewrite app_assoc, in_app_iff. intros [X|X]; [auto|]. unfold marks_after in M. cbn [In] in M. repeat (destruct M as [<-|M]; [cbn in X; intuition discriminate|]). destruct M. }
      cbn [negb]. eexists. split; [reflexivity|]. exists sp1, sp2. split; [exact S1|]. split; [exact S2|]. rewrite H. rewrite colons_skip by (destruct S1 as [-> | ->]; cbn; intuition discriminate). f_equal. rewrite path_dots by exact O. f_equal. destruct S2 as [-> | ->]; reflexivity.
  - exists (core t). split; [|exists [], []; split; [auto|]; split; [auto|]; pose proof (core_dots t O []) as E; rewrite !app_nil_r in E; rewrite E; cbn; rewrite app_nil_r; reflexivity].
    apply around; auto. pose proof (child_shorter t L) as CS. apply (all_types (length (cpp_text (head_child t)))); [lia|apply child_ok; exact O|]. rewrite !app_length. lia.
Qed.
Lemma two_skip h r : ~ In "["%char h -> contains $"[[" (h ++ r) = contains $"[[" r.
Proof. induction h as [|c h IH]; intros N; [reflexivity|]. cbn [app contains]. assert (E : startswith $"[[" (c :: h ++ r) = false) by (change ($"[[") with ["["%char; "["%char]; cbn [startswith]; destruct (ceqb_spec "[" c) as [X|]; [exfalso; apply N; left; symmetry; exact X|reflexivity]). rewrite E. cbn [orb]. apply IH. intros X. apply N. right. exact X. Qed.
Lemma two_end p : contains $"[[" (p ++ $"]") = contains $"[[" p.
Proof. induction p as [|c p IH]; [reflexivity|]. cbn [app contains]. change ((p ++ $"]")) with (p ++ ["]"%char]) in *. rewrite IH. f_equal. change ($"[[") with ["["%char; "["%char]. cbn [startswith]. destruct (ceqb "[" c); [|reflexivity]. destruct p; [reflexivity|reflexivity]. Qed.
Lemma two_list h p : ~ In "["%char h -> (exists c p', p = c :: p' /\ is_word c = true) -> contains $"[[" p = false -> contains $"[[" (h ++ $"[" ++ p ++ $"]") = false.
Proof.
  intros N (c & p' & E & W) P. rewrite two_skip by exact N. change ($"[" ++ p ++ $"]") with ("["%char :: (p ++ $"]")). cbn [contains]. rewrite two_end, P. rewrite E. change ($"[[") with ["["%char; "["%char]. cbn [startswith app]. rewrite ceqb_refl. destruct (ceqb_spec "[" c) as [X|]; [rewrite <- X in W; discriminate|reflexivity].
Qed.
Lemma path_dots_head p : user_path p -> ~ In "["%char (join $"." p) /\ exists c p', join $"." p = c :: p' /\ is_word c = true.
Proof.
  intros (N & H). induction H as [|w p W P IH]; [congruence|]. destruct W as (W1 & W2 & _). assert (NW : ~ In "["%char w) by (intros X; rewrite Forall_forall in W2; apply W2 in X; discriminate).
  assert (HW : exists c w', w = c :: w' /\ is_word c = true) by (destruct w as [|c w']; [congruence|]; inversion W2; subst; eauto). destruct HW as (c & w' & -> & HC). destruct p as [|v p]; [cbn [join]; split; [exact NW|eauto]|]. rewrite join_more. destruct (IH ltac:(discriminate)) as (A & _). split; [|exists c; eexists; split; [reflexivity|exact HC]].
  rewrite !in_app_iff. intros [X|[X|X]]; [auto| |auto]. cbn in X. intuition discriminate.
Qed.
Lemma python_two t : ty_ok t -> contains $"[[" (python_type $"." t) = false /\ exists c p', python_type $"." t = c :: p' /\ is_word c = true.
Proof.
  induction t as [c p|p|t IH|t IH|t IH|t IH|p t IH]; cbn [ty_ok python_type]; intros O; auto.
  - assert (P : In p [$"bool"; $"int"; $"float"; $"str"]) by (unfold scalars in O; cbn [In] in O; repeat (destruct O as [O|O]; [injection O as <- <-; cbn; tauto|]); destruct O). cbn [In] in P. repeat (destruct P as [<-|P]; [split; [reflexivity|eexists; eexists; split; reflexivity]|]). destruct P.
  - destruct (path_dots_head p O) as (A & B). split; [|exact B]. rewrite <- (app_nil_r (join $"." p)), two_skip by exact A. reflexivity.
  - destruct (IH O) as (A & B). split; [apply (two_list $"List"); auto; cbn; intuition discriminate|eexists; eexists; split; reflexivity].
  - destruct (IH O) as (A & B). split; [apply (two_list $"Optional"); auto; cbn; intuition discriminate|eexists; eexists; split; reflexivity].
  - destruct O as (P & O). destruct (IH O) as (A & B). destruct (path_dots_head p P) as (C & c & p' & D & W). split; [apply two_list; auto|]. rewrite D. exists c. eexists. split; [reflexivity|exact W].
Qed.
Lemma python_callable t : ty_ok t -> contains $"Callable[[" (python_type $"." t) = false.
Proof.
  intros O. destruct (python_two t O) as (A & _). destruct (contains $"Callable[[" (python_type $"." t)) eqn:X; [|reflexivity]. apply contains_true in X. destruct X as (u & v & X). rewrite contains_false in A. exfalso. apply (A (u ++ $"Callable") v). rewrite X, <- app_assoc. reflexivity.
Qed.
Lemma namespaces_idle known r : Forall (fun n => fst n = snd n \/ contains (fst n ++ $".") r = false) known -> translate_namespaces known r = r.
Proof.
  induction 1 as [|(a, b) known H K IH]; [reflexivity|]. cbn [translate_namespaces]. cbn [fst snd] in H. assert (E : (if seqb b a then r else replace (a ++ $".") (b ++ $".") r) = r); [|rewrite E; exact IH].
  destruct H as [-> |H]; [rewrite seqb_refl; reflexivity|]. destruct (seqb b a); [reflexivity|]. apply replace_no_occ. exact H.
Qed.
Lemma roots_idle roots r : Forall (fun n => contains (n ++ $".") r = false) roots -> drop_roots roots r = r.
Proof. induction 1 as [|n roots H K IH]; [reflexivity|]. cbn [drop_roots]. rewrite replace_no_occ by exact H. exact IH. Qed.
Theorem type_translated known roots q m t : In q constants_before -> In m marks_after -> ty_ok t ->
  contains $"static " (q ++ cpp_text t ++ m) = false -> contains $"constexpr " (q ++ cpp_text t ++ m) = false ->
  Forall (fun n => fst n = snd n \/ contains (fst n ++ $".") (python_type $"." t) = false) known -> Forall (fun n => contains (n ++ $".") (python_type $"." t) = false) roots ->
  type_to_python standard_types None known roots (q ++ cpp_text t ++ m) = Ok (python_type $"." t).
Proof.
  intros Q M O A B KN RT. pose proof (python_callable t O) as C. unfold type_to_python. rewrite (replace_no_occ $"static ") by exact A. rewrite (replace_no_occ $"constexpr ") by exact B. destruct (performed q m t Q M O) as (r & E & sp1 & sp2 & S1 & S2 & D). rewrite E, D. destruct (python_clean t O) as (N & K).
  rewrite normalize_clean by auto. rewrite (replace_no_occ $"Optional[ "), (namespaces_idle known _ KN), (roots_idle roots _ RT), callable_idle; [reflexivity|exact C|].
  assert (NS : ~ In " "%char (python_type $"." t)) by (intros X; rewrite Forall_forall in K; apply K in X; destruct X as (X & _); discriminate). destruct (contains $"Optional[ " (python_type $"." t)) eqn:X; [|reflexivity]. exfalso. apply contains_true in X. destruct X as (u & v & X). apply NS. rewrite X. rewrite !in_app_iff. right. left. cbn. tauto.
Qed.
