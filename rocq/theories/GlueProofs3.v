From Verif Require Import PyStr PyStrLemmas PyDict RegionsModel TextModel TextSpec TextProofs CommentModel CommentSpec FillModel FillSpec FillProofs FillProofs2 FillProofs3 FillProofs4
  LambdaTextSpec LambdaTextProofs NamedModel NamedProofs3 EnumModel EnumSpec EnumProofs EnumProofs2 EnumProofs3 CommentProofs3 CommentProofs4 ClassModel ClassSpec ClassProofs ClassProofs2 ClassProofs3 ClassProofs5
  GlueModel GlueSpec GlueProofs GlueProofs2.
(** The classes which the glue code defines. *)

(** ** Scopes *)

Definition opened (sc : list part) : list lexeme := flat_map (fun n => [Word $"namespace"; Word n; Sign "{"]) (namespaces sc).
Definition closed (sc : list part) : list lexeme := map (fun _ => Sign "}") sc.
Definition spaces_of (sc : list part) : Prop := Forall (fun p => match p with NsPart n => word n | _ => False end) sc.
Lemma intro_reads sc : spaces_of sc -> exists t, scope_intro sc = Some t /\ ~ In nl t /\ reads t (opened sc).
Proof.
  intros F. induction F as [|p sc P F (t & E & N & R)]; [exists []; split; [reflexivity|split; [intros []|exact reads_nil]]|]. destruct p as [n|n|n]; try tauto. cbn [scope_intro]. rewrite E. cbn [option_map].
  exists ($"namespace " ++ n ++ $" { " ++ t). split; [reflexivity|]. split.
  - pose proof (proj2 (word_fits n P)) as W. rewrite !in_app_iff. intros [I|[I|[I|I]]]; auto; cbn in I; intuition discriminate.
  - replace ($"namespace " ++ n ++ $" { " ++ t) with ($"namespace " ++ (n ++ [" "%char]) ++ $"{ " ++ t) by (rewrite <- !app_assoc; reflexivity).
    change (opened (NsPart n :: sc)) with ([Word $"namespace"] ++ [Word n] ++ [Sign "{"] ++ opened sc). apply reads_app; [known|]. apply reads_app; [apply (reads_word n " "); auto; repeat constructor; discriminate|].
    apply reads_app; [known|exact R].
Qed.
Lemma intro_some sc : scope_intro sc <> None <-> Forall (fun p => exists n, p = NsPart n) sc.
Proof.
  induction sc as [|[n|n|n] sc IH]; cbn [scope_intro].
  - split; [constructor|discriminate].
  - rewrite Forall_cons_iff. split.
    + intros N. split; [eauto|]. apply IH. intros E. rewrite E in N. apply N. reflexivity.
    + intros [_ F]. apply IH in F. destruct (scope_intro sc); [discriminate|tauto].
  - split; [intros N; exfalso; apply N; reflexivity|]. rewrite Forall_cons_iff. intros [(n' & E) _]. discriminate.
  - split; [intros N; exfalso; apply N; reflexivity|]. rewrite Forall_cons_iff. intros [(n' & E) _]. discriminate.
Qed.
Lemma namespace_comments sc : spaces_of sc -> let c := concat (map (fun p => match p with NsPart n => $" // namespace " ++ n ++ $" " | _ => [] end) sc) in
  ~ In nl c /\ (sc = [] /\ c = [] \/ exists r, c = $" // " ++ r /\ ~ In nl r).
Proof.
  intros F. induction F as [|p sc P F (N & IH)]; cbv zeta; [split; [intros []|left; auto]|]. destruct p as [n|n|n]; try tauto. cbn [map concat]. cbv zeta in *.
  pose proof (proj2 (word_fits n P)) as W. split.
  - repeat apply no_app; auto; apply no_nl_in; reflexivity.
  - right. match goal with |- context [_ ++ concat ?x] => exists ($"namespace " ++ n ++ $" " ++ concat x) end. split; [rewrite <- !app_assoc; reflexivity|].
    repeat apply no_app; auto; apply no_nl_in; reflexivity.
Qed.
Lemma outro_reads sc : spaces_of sc -> ~ In nl (scope_outro sc) /\ reads (scope_outro sc ++ [nl]) (closed sc).
Proof.
  intros F. unfold scope_outro. assert (A : ~ In nl (concat (map (fun _ : part => $"} ") sc)) /\ reads (concat (map (fun _ : part => $"} ") sc)) (closed sc)).
  { clear F. induction sc as [|p sc (N & R)]; [split; [intros []|exact reads_nil]|]. cbn [map concat closed]. split; [apply no_app; auto; apply no_nl_in; reflexivity|].
    change (Sign "}" :: map (fun _ : part => Sign "}") sc) with ([Sign "}"] ++ closed sc). apply reads_app; [known|auto]. }
  destruct A as [A1 A2]. assert (F' : spaces_of (rev sc)) by (apply Forall_forall; intros x I; apply in_rev in I; unfold spaces_of in F; rewrite Forall_forall in F; exact (F x I)).
  destruct (namespace_comments (rev sc) F') as [B1 B2]. split; [apply no_app; auto|]. rewrite <- app_assoc, <- (app_nil_r (closed sc)). apply reads_app; auto.
  destruct B2 as [(_ & ->)|(r & -> & N)]; [known|]. rewrite <- app_assoc. apply comment_reads; auto.
Qed.
Lemma scope_reads g ls : spaces_of (g_scope g) -> ls <> [] -> Forall (fun l => ~ In nl l) ls ->
  exists t, in_scope g (unlines ls) = Some t /\ reads t (opened (g_scope g) ++ flat_map line_lex ls ++ closed (g_scope g)).
Proof.
  intros F N L. destruct (intro_reads _ F) as (t & E & Nt & Rt). destruct (outro_reads _ F) as [No Ro]. unfold in_scope. rewrite E. cbn [option_map]. eexists. split; [reflexivity|].
  rewrite lines_unlines by auto.
  replace (opened (g_scope g) ++ flat_map line_lex ls ++ closed (g_scope g)) with ([] ++ flat_map line_lex ([t] ++ ls ++ [scope_outro (g_scope g)])).
  2:{ rewrite !flat_map_app. cbn [flat_map]. rewrite !app_nil_r. rewrite (line_is _ _ No Ro). rewrite (line_is t (opened (g_scope g))); auto. rewrite <- (app_nil_r (opened _)). apply reads_app; [auto|known]. }
  apply reads_app; [known|]. rewrite <- read_text_unlines; [apply reads_end|]. repeat (apply Forall_app; split); auto.
Qed.

(** ** The lines of the classes *)

Ltac nonl := repeat first [assumption|apply no_nl_in; reflexivity|apply no_app].
Section Classes.
Variable o : glue_env.
Hypothesis indent : Forall (eq sp) (ge_indent o).
Notation i := (ge_indent o).
Lemma indented_lex ls : flat_map line_lex (map (indent_line i true) ls) = flat_map line_lex ls.
Proof. induction ls as [|l ls IH]; auto. cbn [map flat_map]. rewrite IH, line_lex_indent by exact indent. reflexivity. Qed.
Definition class_lex (suffix : str) (g : glue_class) : list lexeme :=
  [Word $"class"; Word (g_name g ++ suffix); Sign ":"; Word $"public"; Word (g_name g); Sign "{"; Word $"public"; Sign ":"].
Lemma class_line_lex suffix g : word (g_name g) -> forallb is_word suffix = true -> line_lex (class_line suffix g) = [Word $"class"; Word (g_name g ++ suffix); Sign ":"; Word $"public"; Word (g_name g)].
Proof.
  intros W S. assert (W' : word (g_name g ++ suffix)) by (apply word_app; auto; rewrite forallb_forall in S; apply Forall_forall; auto).
  unfold class_line. apply line_is.
  - cbn [concat]. repeat apply no_app; try (apply no_nl_in; reflexivity); try exact (proj2 (word_fits _ W)). intros I. apply (proj2 (word_fits _ W')). apply in_app_iff. auto.
  - replace (concat [$"class "; g_name g ++ suffix; $" : public "; g_name g] ++ [nl]) with ($"class " ++ ((g_name g ++ suffix) ++ [" "%char]) ++ $": public " ++ (g_name g ++ [nl])).
    2:{ cbn [concat]. rewrite app_nil_r, <- !app_assoc. reflexivity. }
    change [Word $"class"; Word (g_name g ++ suffix); Sign ":"; Word $"public"; Word (g_name g)] with ([Word $"class"] ++ [Word (g_name g ++ suffix)] ++ [Sign ":"; Word $"public"] ++ [Word (g_name g)]).
    apply reads_app; [known|]. apply reads_app; [apply (reads_word (g_name g ++ suffix) " "); auto; repeat constructor; discriminate|].
    apply reads_app; [known|]. apply (reads_word (g_name g) nl); auto. repeat constructor; discriminate.
Qed.
Lemma first_lex g : word (g_name g) -> line_lex (first_line o g) = expected_first o g ++ [Sign ";"].
Proof.
  intros W. unfold first_line, expected_first. pose proof (proj2 (word_fits _ W)) as N. pose proof (decimal_word (length (g_virtual g))) as D. pose proof (proj2 (word_fits _ D)) as Nd. destruct (ge_nanobind o).
  - apply line_is; [cbn [concat]; nonl|].
    replace (concat [$"    NB_TRAMPOLINE("; g_name g; $", "; decimal (length (g_virtual g)); $");"] ++ [nl]) with ($"    NB_TRAMPOLINE(" ++ (g_name g ++ [","%char]) ++ $" " ++ (decimal (length (g_virtual g)) ++ [")"%char]) ++ (";" :: [nl])%char).
    2:{ cbn [concat]. rewrite app_nil_r, <- !app_assoc. reflexivity. }
    change ([Word $"NB_TRAMPOLINE"; Sign "("; Word (g_name g); Sign ","; Word (decimal (length (g_virtual g))); Sign ")"] ++ [Sign ";"])
      with ([Word $"NB_TRAMPOLINE"; Sign "("] ++ [Word (g_name g); Sign ","] ++ [] ++ [Word (decimal (length (g_virtual g))); Sign ")"] ++ [Sign ";"]).
    apply reads_app; [known|]. apply reads_app; [apply (reads_word _ ","); auto; repeat constructor; discriminate|]. apply reads_app; [known|]. apply reads_app; [apply (reads_word _ ")"); auto; repeat constructor; discriminate|known].
  - apply line_is; [cbn [concat]; nonl|].
    replace (concat [$"    using "; g_name g; $"::"; g_name g; $";"] ++ [nl]) with ($"    using " ++ (g_name g ++ [":"%char]) ++ $":" ++ (g_name g ++ [";"%char]) ++ [nl]).
    2:{ cbn [concat]. rewrite app_nil_r, <- !app_assoc. reflexivity. }
    change ([Word $"using"; Word (g_name g); Sign ":"; Sign ":"; Word (g_name g)] ++ [Sign ";"]) with ([Word $"using"] ++ [Word (g_name g); Sign ":"] ++ [Sign ":"] ++ [Word (g_name g); Sign ";"] ++ []).
    apply reads_app; [known|]. apply reads_app; [apply (reads_word _ ":"); auto; repeat constructor; discriminate|]. apply reads_app; [known|]. apply reads_app; [apply (reads_word _ ";"); auto; repeat constructor; discriminate|known].
Qed.
Lemma using_lex g m : word (g_name g) -> word m -> line_lex (using_line g m) = [Word $"using"; Word (g_name g); Sign ":"; Sign ":"; Word m; Sign ";"].
Proof.
  intros W M. pose proof (proj2 (word_fits _ W)) as N. pose proof (proj2 (word_fits _ M)) as Nm. unfold using_line. apply line_is; [nonl|].
  replace (($"using " ++ g_name g ++ $"::" ++ m ++ $";") ++ [nl]) with ($"using " ++ (g_name g ++ [":"%char]) ++ $":" ++ (m ++ [";"%char]) ++ [nl]) by (rewrite <- !app_assoc; reflexivity).
  change [Word $"using"; Word (g_name g); Sign ":"; Sign ":"; Word m; Sign ";"] with ([Word $"using"] ++ [Word (g_name g); Sign ":"] ++ [Sign ":"] ++ [Word m; Sign ";"] ++ []).
  apply reads_app; [known|]. apply reads_app; [apply (reads_word _ ":"); auto; repeat constructor; discriminate|]. apply reads_app; [known|]. apply reads_app; [apply (reads_word _ ";"); auto; repeat constructor; discriminate|known].
Qed.
Definition override_lex (g : glue_class) (m : vmethod) : list lexeme := header_lex m ++ Sign "{" :: body_lex o (qualified g) m ++ [Sign "}"].
Lemma trampoline_lex g : good_class g -> flat_map line_lex (trampoline_lines o g) =
  class_lex $"_trampoline" g ++ expected_first o g ++ [Sign ";"] ++ flat_map (override_lex g) (g_virtual g) ++ [Sign "}"; Sign ";"].
Proof.
  intros G. unfold trampoline_lines. rewrite !flat_map_app, indented_lex. cbn [flat_map]. rewrite first_lex by exact (gg_name g G). rewrite class_line_lex by (try reflexivity; exact (gg_name g G)).
  assert (V : flat_map line_lex (virtual_lines o g) = flat_map (override_lex g) (g_virtual g)).
  { unfold virtual_lines. pose proof (gg_methods g G) as F. pose proof (qualified_simple g G) as Q. induction F as [|m ms M F IH]; auto. cbn [flat_map]. rewrite flat_map_app, IH, method_lex; auto. }
  rewrite V. repeat (rewrite <- ?app_assoc; cbn [app]). reflexivity.
Qed.
Definition using_lexemes (g : glue_class) (m : str) : list lexeme := [Word $"using"; Word (g_name g); Sign ":"; Sign ":"; Word m; Sign ";"].
Lemma publicist_lex g : good_class g -> flat_map line_lex (publicist_lines o g) = class_lex $"_publicist" g ++ flat_map (using_lexemes g) (g_protected g) ++ [Sign "}"; Sign ";"].
Proof.
  intros G. unfold publicist_lines. rewrite !flat_map_app, indented_lex. cbn [flat_map]. rewrite class_line_lex by (try reflexivity; exact (gg_name g G)).
  assert (V : flat_map line_lex (map (using_line g) (g_protected g)) = flat_map (using_lexemes g) (g_protected g)).
  { pose proof (gg_protected g G) as F. induction F as [|m ms M F IH]; auto. cbn [flat_map map]. rewrite IH, using_lex; auto. exact (gg_name g G). }
  rewrite V. repeat (rewrite <- ?app_assoc; cbn [app]). reflexivity.
Qed.
End Classes.
