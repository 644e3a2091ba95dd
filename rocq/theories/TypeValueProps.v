From Verif Require Import PyStr PyDict PyStrLemmas InstanceModel InstanceSpec InstanceProofs LiteralModel LiteralSpec LiteralProofs LiteralProofs2 LiteralProofs3 LiteralProps EnumRefModel EnumRefSpec EnumRefProofs EnumRefProofs2 EnumRefProofs3 EnumRefProps
  TypeRuleModel TypeRuleSpec TypeRuleProofs TypeRuleProofs2 TypeRuleProofs3 TypeValueSpec.

(** ** Values and the replacements of types, which come first *)

Lemma type_words_foreign k : In k type_words -> foreign k.
Proof.
  intros H. assert (E : forallb (fun k => existsb (fun c => negb (num_char c)) k) type_words = true) by reflexivity. rewrite forallb_forall in E. specialize (E k H). apply existsb_exists in E. destruct E as (c & C & N). exists c. split; [exact C|]. apply negb_true_iff in N. exact N.
Qed.
Lemma number_marks c : num_char c = true -> c <> "&"%char /\ c <> "*"%char. Proof. intros H. split; intros ->; discriminate. Qed.
Lemma value_free ts : expression ts -> without_types ts -> free (text ts) /\ TypeRuleProofs.no_marks (text ts).
Proof.
  induction ts as [|t r IH]; intros E W; [split; [apply free_nil|split; intros []]|]. pose proof (Forall_inv W) as T. pose proof (Forall_inv_tail W) as R. rewrite text_cons. destruct t as [w|g l f e x| |c]; cbn [expression] in E.
  - destruct E as (N & A & E). destruct (IH E R) as (F & M). pose proof (is_name_of w N) as NW. split; [apply free_app; [apply apart_word; auto|apply free_name; auto|exact F]|]. destruct (clean_marks w (words_clean w (proj2 NW))) as (M1 & M2). destruct M as (M3 & M4). split; rewrite in_app_iff; intros [X|X]; auto.
  - destruct E as (N & A & _ & E). destruct (IH E R) as (F & M). pose proof (number_chars g l f e x N) as NC. split; [apply free_app; [apply apart_word; auto| |exact F]|].
    + intros k K. apply no_piece; [apply type_words_foreign; exact K|exact NC].
    + destruct M as (M1 & M2). rewrite Forall_forall in NC. split; rewrite in_app_iff; (intros [X|X]; [|auto]); apply NC in X; apply number_marks in X; destruct X; congruence.
  - destruct (IH E R) as (F & M1 & M2). split; [apply free_sep; [reflexivity|]; apply free_sep; [reflexivity|]; exact F|]. split; intros [X|[X|X]]; auto; discriminate.
  - destruct E as (C & _ & _ & _ & E). destruct (IH E R) as (F & M1 & M2). destruct T as (T1 & T2). split; [apply free_sep; auto|]. split; intros [X|X]; auto.
Qed.
(** The replacements of types, which are made in values too, change nothing in an expression which names no type and has neither [&] nor [*]. *)
Theorem C76_types_partial ts : expression ts -> without_types ts -> standard_types (text ts) = text ts.
Proof. intros E W. destruct (value_free ts E W) as (F & M). apply standard_idle; auto. Qed.
Print Assumptions C76_types_partial.
(** So the whole translation of a default value or constant, with the standard replacements. *)
Theorem C76_standard_partial macros namespaces roots ts :
  expression ts -> without_types ts -> hd_error ts <> Some (Sign "{") ->
  Forall (fun m => contains (fst m) (text (python ts)) = false) macros ->
  Forall (fun n => fst n = snd n \/ contains (fst n ++ $".") (text (python ts)) = false) namespaces ->
  Forall (fun n => contains (n ++ $".") (text (python ts)) = false) roots ->
  value_to_python standard_types (fun s => s) macros namespaces roots None (text ts) = text (python ts).
Proof. intros E W H M N R. apply C76_default_partial; auto. apply C76_types_partial; auto. Qed.
Print Assumptions C76_standard_partial.
(** The same with the enums and functions of a program. *)
Theorem C77_standard_partial l scope macros namespaces roots ts :
  let vis := visible l scope in let out := text (renamed vis (python ts)) in
  entries_ok vis -> expression ts -> without_types ts -> clear vis (python ts) -> hd_error ts <> Some (Sign "{") ->
  Forall (fun m => contains (fst m) (text (python ts)) = false) macros ->
  Forall (fun n => fst n = snd n \/ contains (fst n ++ $".") out = false) namespaces ->
  Forall (fun n => contains (n ++ $".") out = false) roots ->
  value_to_python standard_types (scoped_value l scope) macros namespaces roots None (text ts) = out.
Proof. intros vis out O E W C H M N R. apply C77_default_partial; auto. apply C76_types_partial; auto. Qed.
Print Assumptions C77_standard_partial.

Lemma args_types : without_types args.
Proof. unfold args, without_types. repeat constructor; try discriminate; cbn; intuition discriminate. Qed.
Example C76_types_case : standard_types $"Box(Mode::On, Shade_Dark, MakeSize (2),MakeSize,Mode)" = $"Box(Mode::On, Shade_Dark, MakeSize (2),MakeSize,Mode)".
Proof. apply (C76_types_partial args args_ok args_types). Qed.
Example C76_standard_case : value_to_python standard_types (fun s => s) [($"MAX_COUNT", $"256")] [($"Lib", $"lib")] [$"Internal"] None $"Box(Mode::On, Shade_Dark, MakeSize (2),MakeSize,Mode)" = $"Box(Mode.On, Shade_Dark, MakeSize (2),MakeSize,Mode)".
Proof.
  apply (C76_standard_partial [($"MAX_COUNT", $"256")] [($"Lib", $"lib")] [$"Internal"] args args_ok args_types); [discriminate| | |].
  - constructor; [reflexivity|constructor].
  - constructor; [right; reflexivity|constructor].
  - constructor; [reflexivity|constructor].
Qed.
Example C77_standard_case : value_to_python standard_types (scoped_value library [$"Lib"; $"Widget"]) [($"MAX_COUNT", $"256")] [($"Lib", $"lib")] [$"Internal"] None $"Box(Mode::On, Shade_Dark, MakeSize (2),MakeSize,Mode)"
  = $"Box(Mode.on, Shade.dark, make_size (2),MakeSize,Mode)".
Proof.
  apply (C77_standard_partial library [$"Lib"; $"Widget"] [($"MAX_COUNT", $"256")] [($"Lib", $"lib")] [$"Internal"] args); rewrite ?seen_is; [exact seen_ok|exact args_ok|exact args_types|exact seen_clear|discriminate| | |].
  - constructor; [reflexivity|constructor].
  - constructor; [right; reflexivity|constructor].
  - constructor; [reflexivity|constructor].
Qed.
(** With the standard replacements, a product loses its operator, and a name which is also the name of a type is replaced. *)
Theorem C76_product_refuted : value_to_python standard_types (fun s => s) [] [] [] None $"2*3" = $"23" /\ value_to_python standard_types (fun s => s) [] [] [] None $"Flags::short" = $"Flags.int" /\ value_to_python standard_types (fun s => s) [] [] [] None $"kA & kB" = $"kA  kB".
Proof. repeat split; vm_compute; reflexivity. Qed.
Print Assumptions C76_product_refuted.
