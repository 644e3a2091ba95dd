From Verif Require Import PyStr PyStrLemmas PyDict RegionsModel TextModel TextSpec TextProofs CommentModel CommentSpec FillModel FillSpec FillProofs FillProofs2 FillProofs3 FillProofs4
  LambdaTextSpec LambdaTextProofs NamedModel NamedProofs3 EnumModel EnumSpec EnumProofs EnumProofs2 EnumProofs3 CommentProofs3 CommentProofs4 ClassModel ClassSpec ClassProofs ClassProofs2 ClassProofs3 ClassProofs5
  GlueModel GlueSpec GlueProofs GlueProofs2 GlueProofs3.
(** What the reader finds in the glue code. *)

(** ** The headers of methods *)

(** Lexemes which stay in a member, from a depth to another. *)
Fixpoint stay (d : nat) (ts : list lexeme) : option nat :=
  match ts with
  | [] => Some d
  | Broken :: _ => None
  | t :: r =>
      match d with
      | 0 => if is_sign "{" t || is_sign "}" t || is_sign ";" t then None else stay (if opens t then 1 else 0) r
      | S e => stay (if opens t then S (S e) else if closes t then e else S e) r
      end
  end.
Lemma stay_app a b : forall d d', stay d a = Some d' -> stay d (a ++ b) = stay d' b.
Proof.
  induction a as [|t a IH]; intros d d' E; cbn [app stay] in *; [congruence|]. destruct t as [w|c|s|]; try discriminate.
  all: destruct d as [|e]; [|apply IH; exact E]; destruct (_ || _ || _); [discriminate|apply IH; exact E].
Qed.
Definition not_public (ts : list lexeme) : Prop := match ts with Word a :: _ => a <> $"public" | _ => True end.
Lemma inside_stay path n base ms pub ts : forall d d' cur rest, stay d ts = Some d' -> not_public (cur ++ ts) ->
  cpp_classes (Inside path n base ms pub d cur) (ts ++ rest) = cpp_classes (Inside path n base ms pub d' (cur ++ ts)) rest.
Proof.
  induction ts as [|t ts IH]; intros d d' cur rest E P; [cbn in E; injection E as ->; rewrite app_nil_r; reflexivity|].
  replace (cur ++ t :: ts) with ((cur ++ [t]) ++ ts) in * by (rewrite <- app_assoc; reflexivity).
  destruct t as [w|c|s|]; cbn [app stay] in *; try discriminate.
  all: destruct d as [|e]; cbn [cpp_classes]; [|apply IH; auto].
  all: destruct (is_sign "{" _) eqn:B1; [discriminate|]; destruct (is_sign "}" _) eqn:B2; [discriminate|]; destruct (is_sign ";" _) eqn:B3; [discriminate|]; cbn [orb] in E.
  all: rewrite <- (IH _ _ _ rest E P).
  all: destruct cur as [|[a| | |] [|x cur]]; try reflexivity.
  all: destruct (seqb_spec a $"public") as [A|A]; [exfalso; exact (P A)|reflexivity].
Qed.
Lemma dull_stay ts : forallb dull ts = true -> forall d, stay d ts = Some d.
Proof.
  induction ts as [|t ts IH]; intros H d; [reflexivity|]. cbn [forallb] in H. apply andb_prop in H. destruct H as [D H]. specialize (IH H).
  assert (A : opens t = false /\ closes t = false /\ is_sign ";" t = false /\ t <> Broken).
  { destruct t as [w|c|s|]; cbn [dull] in D; try discriminate; apply andb_prop in D; destruct D as [D X]; apply andb_prop in D; destruct D as [Y Z]; rewrite negb_true_iff in *; repeat split; auto; discriminate. }
  destruct A as (O & C & S & B). cbn [stay]. assert (X : is_sign "{" t = false /\ is_sign "}" t = false).
  { unfold opens, closes in O, C. rewrite !orb_false_iff in O, C. tauto. }
  destruct X as [X Y]. rewrite X, Y, S, O, C. destruct t; [..|congruence]; destruct d; apply IH.
Qed.
Lemma dull_within ts : forallb dull ts = true -> forall path n base ms pub h d cur rest,
  cpp_classes (Within path n base ms pub h d cur) (ts ++ rest) = cpp_classes (Within path n base ms pub h d (cur ++ ts)) rest.
Proof.
  induction ts as [|t ts IH]; intros H path n base ms pub h d cur rest; [rewrite app_nil_r; reflexivity|]. cbn [forallb] in H. apply andb_prop in H. destruct H as [D H]. specialize (IH H).
  assert (A : opens t = false /\ closes t = false /\ is_sign ";" t = false /\ t <> Broken).
  { destruct t as [w|c|s|]; cbn [dull] in D; try discriminate; apply andb_prop in D; destruct D as [D X]; apply andb_prop in D; destruct D as [Y Z]; rewrite negb_true_iff in *; repeat split; auto; discriminate. }
  destruct A as (O & C & S & B). assert (X : is_sign "}" t = false). { unfold closes in C. rewrite !orb_false_iff in C. tauto. }
  replace (cur ++ t :: ts) with ((cur ++ [t]) ++ ts) by (rewrite <- app_assoc; reflexivity). rewrite <- IH.
  cbn [app cpp_classes]. destruct t; [..|congruence]; rewrite ?X, ?O, ?C; destruct d; reflexivity.
Qed.
Lemma closed_stay ts : forall k d, closed_at k ts -> stay (S d + k) ts = Some (S d).
Proof.
  induction ts as [|t ts IH]; intros k d C; cbn [closed_at] in C; [subst k; rewrite Nat.add_0_r; reflexivity|].
  destruct t as [w|c|s|]; try contradiction; cbn [stay Nat.add].
  all: destruct (opens _) eqn:O; [replace (S (S (d + k))) with (S d + S k) by (cbn; lia); apply IH; exact C|].
  all: destruct (closes _) eqn:Cl; [destruct k as [|k]; [contradiction|replace (d + S k) with (S d + k) by lia; apply IH; exact C]|apply (IH k d); exact C].
Qed.
Lemma commas_stay ls d : Forall (closed_at 0) ls -> stay (S d) (commas ls) = Some (S d).
Proof.
  intros F. induction F as [|x ls X F IH]; [reflexivity|]. pose proof (closed_stay x 0 d X) as E. rewrite Nat.add_0_r in E. destruct ls as [|y ls]; [exact E|].
  change (commas (x :: y :: ls)) with (x ++ Sign "," :: commas (y :: ls)). rewrite (stay_app x _ _ _ E). exact IH.
Qed.
Lemma result_lex m : good_method m -> forallb dull (read_text (v_return m)) = true.
Proof. intros G. apply simple_dull. exact (proj2 (proj1 (gm_return m G))). Qed.
Lemma header_stay m : good_method m -> stay 0 (header_lex m) = Some 0.
Proof.
  intros G. unfold header_lex. rewrite (stay_app _ _ 0 0) by (apply dull_stay, result_lex; auto). cbn [app].
  change (stay 1 (commas (map (fun p => read_text (fst p)) (v_params m)) ++ Sign ")" :: (if v_const m then [Word $"const"] else []) ++ [Word $"override"]) = Some 0).
  rewrite (stay_app _ _ 1 1).
  - destruct (v_const m); reflexivity.
  - apply commas_stay. apply Forall_map. eapply Forall_impl; [|exact (gm_params m G)]. intros p (_ & C & _). exact C.
Qed.
Lemma header_public m : good_method m -> not_public (header_lex m).
Proof.
  intros G. destruct (gm_return m G) as (_ & _ & N & P). unfold header_lex. destruct (read_text (v_return m)) as [|[a|c|s|] r]; try congruence; try exact I.
  intros ->. apply P. left. reflexivity.
Qed.

(** ** Their bodies *)

Definition mild (t : lexeme) : bool := negb (is_sign "," t) && negb (is_sign "(" t) && negb (is_sign ")" t).
Lemma mild_arguments ts : forallb mild ts = true -> forall cur r, macro_arguments 0 cur (ts ++ r) = macro_arguments 0 (cur ++ ts) r.
Proof.
  induction ts as [|t ts IH]; intros H cur r; [rewrite app_nil_r; reflexivity|]. cbn [forallb] in H. apply andb_prop in H. destruct H as [M H].
  replace (cur ++ t :: ts) with ((cur ++ [t]) ++ ts) by (rewrite <- app_assoc; reflexivity). rewrite <- IH by exact H. unfold mild in M. apply andb_prop in M. destruct M as [M A]. apply andb_prop in M. destruct M as [B C].
  rewrite negb_true_iff in A, B, C. cbn [app macro_arguments]. rewrite A, B, C. reflexivity.
Qed.
Lemma commas_arguments ls r : Forall (fun x => forallb mild x = true) ls -> ls <> [] -> macro_arguments 0 [] (commas ls ++ Sign ")" :: r) = Some (ls, r).
Proof.
  intros F N. induction F as [|x ls X F IH]; [congruence|]. destruct ls as [|y ls].
  - cbn [commas]. rewrite mild_arguments by exact X. reflexivity.
  - change (commas (x :: y :: ls)) with (x ++ Sign "," :: commas (y :: ls)). rewrite <- app_assoc, mild_arguments by exact X. cbn [app macro_arguments is_sign ceqb].
    change (option_map (fun z => (x :: fst z, snd z)) (macro_arguments 0 [] (commas (y :: ls) ++ Sign ")" :: r)) = Some (x :: y :: ls, r)). rewrite IH by discriminate. reflexivity.
Qed.
Lemma signs_in s : forall cur c, In (Sign c) (lexemes cur (map Code s)) -> In c s.
Proof.
  assert (Fl : forall cur c, ~ In (Sign c) (flush cur)) by (intros [|x cur] c; cbn; [tauto|intros [E|[]]; discriminate]).
  induction s as [|x s IH]; intros cur c I; cbn [map lexemes] in I; [exfalso; exact (Fl _ _ I)|].
  destruct (is_word x); [right; eapply IH; exact I|]. destruct (is_space x); apply in_app_iff in I; (destruct I as [I|I]; [exfalso; exact (Fl _ _ I)|]); [right; eapply IH; exact I|].
  destruct I as [I|I]; [injection I as ->; left; auto|right; eapply IH; exact I].
Qed.
Lemma simple_mild s : Forall (fun c => simple_c c = true) s -> ~ In ","%char s -> forallb mild (read_text s) = true.
Proof.
  intros F N. rewrite (read_bare s (simple_bare s F)). apply forallb_forall. intros [w|c|t|] I; auto. apply signs_in in I. rewrite Forall_forall in F. pose proof (F c I) as S.
  unfold mild, is_sign. destruct (ceqb_spec "," c) as [<-|]; [tauto|]. destruct (ceqb_spec "(" c) as [<-|]; [discriminate|]. destruct (ceqb_spec ")" c) as [<-|]; [discriminate|]. reflexivity.
Qed.
Lemma commas_dull ls : Forall (fun x => forallb dull x = true) ls -> forallb dull (commas ls) = true.
Proof.
  intros F. induction F as [|x ls X F IH]; [reflexivity|]. destruct ls as [|y ls]; [exact X|]. change (commas (x :: y :: ls)) with (x ++ Sign "," :: commas (y :: ls)).
  rewrite forallb_app, X. exact IH.
Qed.

Section Bodies.
Variable o : glue_env.
Hypothesis indent : Forall (eq sp) (ge_indent o).
Lemma qualified_comma g : good_class g -> ~ In ","%char (qualified g).
Proof.
  intros G. unfold qualified. apply join_not_in; [cbn; intuition discriminate|]. assert (X : forall s, word s -> ~ In ","%char s).
  { intros s [_ F] I. rewrite Forall_forall in F. apply F in I. discriminate. }
  apply Forall_app. split; [|constructor; [apply X, (gg_name g G)|constructor]]. apply Forall_map. eapply Forall_impl; [|exact (gg_scope g G)]. intros [n|n|n] W; try tauto. apply X, W.
Qed.
Lemma arguments_fit g m : good_class g -> good_method m -> Forall (fun x => forallb mild x = true /\ forallb dull x = true) (arguments_lex o (qualified g) m).
Proof.
  intros G M. unfold arguments_lex. apply Forall_app. split.
  - destruct (ge_nanobind o); repeat constructor.
    + apply simple_mild; [exact (proj2 (proj1 (gm_return m M)))|]. apply (gm_return m M).
    + apply result_lex; auto.
    + apply simple_mild; [apply qualified_simple; auto|apply qualified_comma; auto].
    + apply simple_dull, qualified_simple; auto.
  - cbn [app]. repeat (apply Forall_cons; [split; reflexivity|]). apply Forall_map. apply Forall_forall. intros p _. split; reflexivity.
Qed.
Lemma body_call g m : good_class g -> good_method m -> macro_call (body_lex o (qualified g) m) = Some (override_macro o m, arguments_lex o (qualified g) m).
Proof.
  intros G M. unfold body_lex. cbn [app macro_call]. change (ceqb "(" "(") with true. cbv iota.
  change (match macro_arguments 0 [] (commas (arguments_lex o (qualified g) m) ++ Sign ")" :: [Sign ";"]) with Some (a, [Sign d]) => if ceqb d ";" then Some (override_macro o m, a) else None | _ => None end =
    Some (override_macro o m, arguments_lex o (qualified g) m)).
  rewrite commas_arguments; [reflexivity| |].
  - eapply Forall_impl; [|exact (arguments_fit g m G M)]. intros x [A _]. exact A.
  - unfold arguments_lex. destruct (ge_nanobind o); discriminate.
Qed.
Lemma member_read g m path n base ms rest : good_class g -> good_method m ->
  cpp_classes (Inside path n base ms true 0 []) (override_lex o g m ++ rest) =
  cpp_classes (Inside path n base (ms ++ [Defined true (header_lex m) (body_lex o (qualified g) m)]) true 0 []) rest.
Proof.
  intros G M. unfold override_lex. rewrite <- app_assoc. rewrite (inside_stay _ _ _ _ _ (header_lex m) 0 0 [] _ (header_stay m M) (header_public m M)). cbn [app].
  change (cpp_classes (Within path n base ms true (header_lex m) 0 []) ((body_lex o (qualified g) m ++ [Sign "}"]) ++ rest) =
    cpp_classes (Inside path n base (ms ++ [Defined true (header_lex m) (body_lex o (qualified g) m)]) true 0 []) rest).
  assert (D : forallb dull (commas (arguments_lex o (qualified g) m)) = true).
  { apply commas_dull. eapply Forall_impl; [|exact (arguments_fit g m G M)]. intros x [_ B]. exact B. }
  unfold body_lex. set (C := commas (arguments_lex o (qualified g) m)) in *. clearbody C.
  change (([Word (override_macro o m); Sign "("] ++ C ++ [Sign ")"; Sign ";"]) ++ [Sign "}"]) with ([Word (override_macro o m); Sign "("] ++ ((C ++ [Sign ")"; Sign ";"]) ++ [Sign "}"])).
  rewrite <- !app_assoc.
  change (cpp_classes (Within path n base ms true (header_lex m) 1 [Word (override_macro o m); Sign "("]) (C ++ [Sign ")"; Sign ";"] ++ [Sign "}"] ++ rest) =
    cpp_classes (Inside path n base (ms ++ [Defined true (header_lex m) ([Word (override_macro o m); Sign "("] ++ C ++ [Sign ")"; Sign ";"])]) true 0 []) rest).
  rewrite dull_within by exact D. cbn [app].
  change (cpp_classes (Inside path n base (ms ++ [Defined true (header_lex m) (((Word (override_macro o m) :: Sign "(" :: C) ++ [Sign ")"]) ++ [Sign ";"])]) true 0 []) rest =
    cpp_classes (Inside path n base (ms ++ [Defined true (header_lex m) ([Word (override_macro o m); Sign "("] ++ C ++ [Sign ")"; Sign ";"])]) true 0 []) rest).
  rewrite <- app_assoc. reflexivity.
Qed.
End Bodies.
