From Verif Require Import PyStr PyDict PyStrLemmas InstanceModel LiteralModel LiteralSpec LiteralProofs LiteralProofs2 LiteralProofs3 LiteralProps EnumRefModel EnumRefSpec EnumRefProofs EnumRefProofs2 EnumRefProofs3.
From Coq Require Import Permutation.

(** ** Enum values and functions in default values *)

(** In a value of a scope, the values of the enums and the calls of the functions which are declared in this scope or around it get their names in
    Python, and everything else is as it was. *)
Theorem C77_scope_partial l scope ts : entries_ok (visible l scope) -> expression ts -> clear (visible l scope) ts ->
  scoped_value l scope (text ts) = text (renamed (visible l scope) ts).
Proof. apply scoped_text. Qed.
Print Assumptions C77_scope_partial.
(** The names of Python stay. *)
Theorem C77_again l scope ts : entries_ok (visible l scope) -> expression ts -> clear (visible l scope) ts ->
  scoped_value l scope (scoped_value l scope (text ts)) = scoped_value l scope (text ts).
Proof.
  intros O E C. assert (I : incl (visible l scope) (visible l scope)) by (intros x X; exact X).
  rewrite (scoped_text l scope ts O E C), scoped_text; [|exact O|apply (expression_renamed _ O); auto|apply (clear_renamed _ O); auto]. rewrite (renamed_again _ O) by exact I. reflexivity.
Qed.
Print Assumptions C77_again.
(** It does not matter in which order enums and functions are declared. *)
Theorem C77_order l l' scope ts : Permutation l l' -> entries_ok (visible l scope) -> expression ts -> clear (visible l scope) ts ->
  scoped_value l' scope (text ts) = scoped_value l scope (text ts).
Proof.
  intros P O E C. pose proof (visible_same l l' scope P) as S. rewrite (scoped_text l scope ts O E C), (scoped_text l' scope ts); [|apply (same_ok _ _ S O)|exact E|apply (same_clear _ _ ts S C)].
  rewrite (same_renamed _ _ ts S O). reflexivity.
Qed.
Print Assumptions C77_order.
(** What is declared in a scope which is not around the value changes no text at all. *)
Theorem C77_elsewhere l x l' scope s : ~ (exists inner, scope = fst x ++ inner) -> scoped_value (l ++ x :: l') scope s = scoped_value (l ++ l') scope s.
Proof.
  intros N. unfold scoped_value. rewrite hierarchy_is. apply fold_ext. intros t sc H. rewrite stored_elsewhere; [reflexivity|]. intros E. apply N. apply around_prefix in H. destruct H as (r & H). exists r. rewrite E. exact H.
Qed.
Print Assumptions C77_elsewhere.
Lemma renamed_no_brace rs ts : hd_error ts <> Some (Sign "{") -> hd_error (renamed rs ts) <> Some (Sign "{").
Proof.
  destruct ts as [|[a|g l f e x| |c] r]; try (cbn; congruence). intros _. rewrite renamed_follows. unfold one_name.
  destruct (follows r) as [(b, r')|]; [destruct (enumerator rs a b) eqn:E; [apply enumerator_some in E; destruct E as (? & ? & _ & ->); discriminate|]|];
    (destruct (constant_of rs a) eqn:C; [apply constant_some in C; destruct C as (? & ? & _ & ->); discriminate|]; destruct (called r); [destruct (function_of rs a)|]; discriminate).
Qed.
(** The whole way of a default value: literals and constants first, then the names. *)
Theorem C77_default_partial types l scope macros namespaces roots ts :
  let vis := visible l scope in let out := text (renamed vis (python ts)) in
  entries_ok vis -> expression ts -> clear vis (python ts) -> hd_error ts <> Some (Sign "{") -> types (text ts) = text ts ->
  Forall (fun m => contains (fst m) (text (python ts)) = false) macros ->
  Forall (fun n => fst n = snd n \/ contains (fst n ++ $".") out = false) namespaces ->
  Forall (fun n => contains (n ++ $".") out = false) roots ->
  value_to_python types (scoped_value l scope) macros namespaces roots None (text ts) = out.
Proof.
  intros vis out O E C H T M N R. unfold value_to_python. rewrite T, value_is by exact E. pose proof (expression_python ts E) as EP. rewrite (fold_same _ _ macros) by (eapply Forall_impl; [|exact M]; intros m; apply replace_no_occ).
  rewrite (scoped_text l scope (python ts) O EP C). fold vis. fold out. assert (B : startswith $"{" out = false) by (apply braces; [apply (expression_renamed vis O); [intros x X; exact X|exact EP]|apply renamed_no_brace; apply python_head; exact H]).
  rewrite B. cbn [andb]. rewrite (fold_same _ _ namespaces), (fold_same _ _ roots); [reflexivity| |].
  - eapply Forall_impl; [|exact R]. intros n. apply replace_no_occ.
  - eapply Forall_impl; [|exact N]. intros (a, b) [X|X]; cbn [fst snd] in *; destruct (seqb_spec a b) as [Y|Y]; try reflexivity; [contradiction|]. apply replace_no_occ. exact X.
Qed.
Print Assumptions C77_default_partial.

(** The values of an enum may use the other values of the enum: inside of it all of them are known, with or without the name of the enum in front. *)
Theorem C77_own_partial l e ts : entries_ok (visible l [] ++ own_entries e) -> expression ts -> clear (visible l [] ++ own_entries e) ts ->
  own_value l e (text ts) = text (renamed (visible l [] ++ own_entries e) ts).
Proof. exact (own_text l e ts). Qed.
Print Assumptions C77_own_partial.

(** ** Cases *)

(** In the namespace Lib: enum class Mode with On; enum Shade_ with Shade_Dark; in the whole library: a function MakeSize. *)
Definition mode : venum := VEnum $"Mode" $"Mode" true [($"On", $"on")].
Definition shade : venum := VEnum $"Shade_" $"Shade" false [($"Shade_Dark", $"dark"); ($"OtherDark", $"other_dark")].
Definition library : list (list str * velem) := [([$"Lib"], AnEnum mode); ([], AFunction ($"MakeSize", $"make_size")); ([$"Lib"], AnEnum shade); ([$"Far"], AFunction ($"Box", $"box"))].
(** Box(Mode::On, Shade_Dark, MakeSize (2), MakeSize, Mode) *)
Definition args : list tok :=
  [Name $"Box"; Sign "("; Name $"Mode"; Colons; Name $"On"; Sign ","; Sign " "; Name $"Shade_Dark"; Sign ","; Sign " "; Name $"MakeSize"; Sign " "; Sign "("; Number [] $"2" None None None; Sign ")"; Sign ",";
   Name $"MakeSize"; Sign ","; Name $"Mode"; Sign ")"].
Ltac lname := first [apply known_name; reflexivity | split; [discriminate|]; split; [cbn; repeat split; try discriminate; reflexivity|split; reflexivity]].
Lemma args_ok : expression args.
Proof.
  unfold args. cbn [expression apart no_point].
  repeat match goal with |- _ /\ _ => split | |- LiteralSpec.is_name _ => lname | |- True => exact I | |- _ = false => reflexivity | |- _ <> _ => discriminate end.
  split; [constructor|]. split; [constructor|]. split; [apply digits_known; [discriminate|reflexivity]|]. repeat split.
Qed.
Definition seen : list entry := [Enumerator $"Mode" $"On" $"Mode" $"on"; Constant $"Shade_Dark" $"Shade" $"dark"; Function $"MakeSize" $"make_size"].
Lemma seen_is : visible library [$"Lib"; $"Widget"] = seen. Proof. reflexivity. Qed.
Lemma seen_fresh w : LiteralSpec.is_name w -> existsb (seqb w) (keys seen) = false -> fresh (keys seen) w.
Proof. intros N H. split; [exact N|]. intros X. assert (existsb (seqb w) (keys seen) = true); [|congruence]. apply existsb_exists. exists w. split; [exact X|apply seqb_refl]. Qed.
Lemma seen_ok : entries_ok seen.
Proof.
  split; [|split].
  - constructor; [|constructor; [|constructor; [|constructor]]]; cbn [entry_ok].
    + split; [|split]; [split; [lname|]; exists "M"%char|split; [lname|]; exists "O"%char|left; split; [reflexivity|]; right; apply seen_fresh; [lname|reflexivity]];
        (split; [left; reflexivity|]; split; [reflexivity|]; split; [reflexivity|]; cbn; intuition discriminate).
    + split; [split; [lname|]; exists "S"%char; split; [left; reflexivity|]; split; [reflexivity|]; split; [reflexivity|]; cbn; intuition discriminate|].
      split; apply seen_fresh; try reflexivity; lname.
    + split; [split; [lname|]; exists "M"%char; split; [left; reflexivity|]; split; [reflexivity|]; split; [reflexivity|]; cbn; intuition discriminate|].
      apply seen_fresh; try reflexivity; lname.
  - intros x y X Y. cbn in X, Y. repeat (destruct X as [<-|X]; [repeat (destruct Y as [<-|Y]; [cbn; repeat split; try discriminate; intros; try discriminate; auto|]); destruct Y|]). destruct X.
  - intros e w X Y. cbn in X. destruct X as [<-|[]]. cbn in Y. repeat (destruct Y as [<-|Y]; [try (left; reflexivity); right; reflexivity|]). destruct Y.
Qed.
Lemma seen_clear : clear seen (python args).
Proof.
  assert (W : forall w, w = $"Mode" \/ contains $"Mode" w = false -> forall e, In e (enums seen) -> w = e \/ contains e w = false) by (intros w H e [<-|[]]; exact H).
  change (python args) with [Name $"Box"; Sign "("; Name $"Mode"; Sign "."; Name $"On"; Sign ","; Sign " "; Name $"Shade_Dark"; Sign ","; Sign " "; Name $"MakeSize"; Sign " "; Sign "("; Number [] $"2" None None None; Sign ")"; Sign ",";
   Name $"MakeSize"; Sign ","; Name $"Mode"; Sign ")"].
  cbn [clear]. repeat match goal with |- _ /\ _ => split | |- forall e, _ => apply W; solve [left; reflexivity | right; reflexivity] | |- True => exact I | |- _ -> _ -> "."%char = "."%char => reflexivity end.
  all: intros [X|[]]; discriminate X.
Qed.
Example C77_scope_case : scoped_value library [$"Lib"; $"Widget"] $"Box(Mode.On, Shade_Dark, MakeSize (2),MakeSize,Mode)" = $"Box(Mode.on, Shade.dark, make_size (2),MakeSize,Mode)".
Proof. apply (C77_scope_partial library [$"Lib"; $"Widget"] (python args)); rewrite ?seen_is; [exact seen_ok|apply expression_python; exact args_ok|exact seen_clear]. Qed.
Example C77_again_case : scoped_value library [$"Lib"; $"Widget"] (scoped_value library [$"Lib"; $"Widget"] (text (python args))) = scoped_value library [$"Lib"; $"Widget"] (text (python args)).
Proof. apply C77_again; rewrite ?seen_is; [exact seen_ok|apply expression_python; exact args_ok|exact seen_clear]. Qed.
Example C77_order_case : scoped_value (rev library) [$"Lib"; $"Widget"] (text (python args)) = scoped_value library [$"Lib"; $"Widget"] (text (python args)).
Proof. apply C77_order; rewrite ?seen_is; [apply Permutation_rev|exact seen_ok|apply expression_python; exact args_ok|exact seen_clear]. Qed.
Example C77_elsewhere_case : scoped_value ([([$"Far"], AFunction ($"Box", $"box"))]) [$"Lib"] $"Box()" = $"Box()".
Proof. rewrite (C77_elsewhere [] ([$"Far"], AFunction ($"Box", $"box")) [] [$"Lib"]); [reflexivity|]. intros (r & X). discriminate. Qed.
Example C77_default_case : value_to_python no_marks (scoped_value library [$"Lib"; $"Widget"]) [($"MAX_COUNT", $"256")] [($"Lib", $"lib")] [$"Internal"] None $"Box(Mode::On, Shade_Dark, MakeSize (2),MakeSize,Mode)"
  = $"Box(Mode.on, Shade.dark, make_size (2),MakeSize,Mode)".
Proof.
  apply (C77_default_partial no_marks library [$"Lib"; $"Widget"] [($"MAX_COUNT", $"256")] [($"Lib", $"lib")] [$"Internal"] args); rewrite ?seen_is; [exact seen_ok|exact args_ok|exact seen_clear|discriminate|reflexivity| | |].
  - constructor; [reflexivity|constructor].
  - constructor; [right; reflexivity|constructor].
  - constructor; [reflexivity|constructor].
Qed.

(** ** What is not true *)

(** A name which has the names of an enum class and of its value inside is changed into something else: the dot of the regex is any character, and the name
    of the enum needs not to be a whole word. *)
Theorem C77_word_refuted : scoped_value [([], AnEnum mode)] [] $"ModeXOn" = $"Mode.on" /\ scoped_value [([], AnEnum mode)] [] $"OldMode.On" = $"OldMode.on".
Proof. split; reflexivity. Qed.
Print Assumptions C77_word_refuted.
(** The value of an enum which has the name that the enum has in Python is replaced once per pass. *)
Theorem C77_same_name_refuted : scoped_value [([], AnEnum (VEnum $"Foo" $"Foo" false [($"Foo", $"foo")]))] [] $"Foo" = $"Foo.foo.foo.foo".
Proof. reflexivity. Qed.
Print Assumptions C77_same_name_refuted.
(** A value of an enum or a function of another scope, written with the name of the scope, keeps the name of C++, which the module does not have. *)
Theorem C77_qualified_refuted : scoped_value [([$"Widget"], AnEnum mode)] [] $"Widget.Mode.On" = $"Widget.Mode.On" /\ scoped_value [([$"Ns"], AFunction ($"MakeSize", $"make_size"))] [] $"Ns.MakeSize()" = $"Ns.MakeSize()".
Proof. split; reflexivity. Qed.
Print Assumptions C77_qualified_refuted.
(** A value of an enum which is not an enum class, without the name of the enum at its start, is written as it is, though Python only knows it as [Shade.other_dark]. *)
Theorem C77_prefix_refuted : scoped_value [([], AnEnum shade)] [] $"OtherDark" = $"OtherDark".
Proof. reflexivity. Qed.
Print Assumptions C77_prefix_refuted.
(** Functions which are called through an object get the name too, though they are other functions. *)
Theorem C77_method_refuted : scoped_value [([], AFunction ($"Size", $"size_of_all"))] [] $"item.Size()" = $"item.size_of_all()".
Proof. reflexivity. Qed.
Print Assumptions C77_method_refuted.
(** Shade_Dark | OtherDark *)
Definition both : list tok := [Name $"Shade_Dark"; Sign " "; Sign "|"; Sign " "; Name $"OtherDark"].
Lemma both_ok : expression both.
Proof. unfold both. cbn [expression apart no_point]. repeat match goal with |- _ /\ _ => split | |- LiteralSpec.is_name _ => lname | |- True => exact I | |- _ = false => reflexivity | |- _ <> _ => discriminate end. Qed.
Lemma shade_ok : entries_ok (own_entries shade).
Proof.
  assert (F : forall w, LiteralSpec.is_name w -> existsb (seqb w) (keys (own_entries shade)) = false -> fresh (keys (own_entries shade)) w).
  { intros w N H. split; [exact N|]. intros X. assert (existsb (seqb w) (keys (own_entries shade)) = true); [|congruence]. apply existsb_exists. exists w. split; [exact X|apply seqb_refl]. }
  split; [|split].
  - constructor; [|constructor; [|constructor]]; cbn [entry_ok]; (split; [|split; apply F; try reflexivity; lname]); (split; [lname|]); [exists "S"%char|exists "O"%char]; (split; [left; reflexivity|]; split; [reflexivity|]; split; [reflexivity|]; cbn; intuition discriminate).
  - intros x y [<-|[<-|[]]] [<-|[<-|[]]]; cbn; intros H; auto; discriminate.
  - intros e w [].
Qed.
Example C77_own_case : own_value [] shade $"Shade_Dark | OtherDark" = $"Shade.dark | Shade.other_dark".
Proof. apply (C77_own_partial [] shade both); [apply shade_ok|apply both_ok|]. cbn. repeat split; try (intros ? []); auto. Qed.
(** The scope of the enum is forgotten here: the values of another enum of the same class or namespace, and its functions, keep the names of C++. *)
Theorem C77_own_scope_refuted : let l := [([$"Lib"], AnEnum mode); ([$"Lib"], AnEnum shade)] in
  own_value l shade $"Mode.On" = $"Mode.On" /\ scoped_value l [$"Lib"] $"Mode.On" = $"Mode.on".
Proof. split; reflexivity. Qed.
Print Assumptions C77_own_scope_refuted.
