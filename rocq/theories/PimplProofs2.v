From Verif Require Import PyStr PyStrLemmas PyDict RegionsModel TextModel TextSpec TextProofs CommentModel CommentSpec FillModel FillSpec FillProofs FillProofs2 FillProofs3 FillProofs4
  LambdaTextSpec LambdaTextProofs ModuleModel TypeTextModel NamedModel NamedProofs3 EnumModel EnumSpec EnumProofs EnumProofs2 EnumProofs3 CommentProofs3 CommentProofs4 ClassModel ClassSpec ClassProofs ClassProofs2 ClassProofs3 ClassProofs5
  GlueModel GlueSpec GlueProofs GlueProofs2 PimplModel PimplSpec PimplProofs.
Local Notation K := pimpl_names.
Local Notation T := FillSpec.Text.
Local Notation H := FillSpec.Hole.
Ltac pieces := repeat (apply Forall_cons; [first [apply pimpl_name; reflexivity|apply neutralb_true; reflexivity]|]); apply Forall_nil.

Section Impl.
Variable o : poptions.
Variables impl published : str.
Hypothesis indent : Forall (eq sp) (po_indent o).
Hypothesis name_word : word impl.
Hypothesis published_word : word published.
Hypothesis member_word : word (po_member o).
Notation i := (po_indent o).
Lemma spaces_neutral s : Forall (eq sp) s -> neutral K s.
Proof. intros F. apply no_brace_neutral. intros I. rewrite Forall_forall in F. apply F in I. discriminate. Qed.
Lemma cut_char s c : free s -> cuts c -> reads (s ++ [c]) (read_text s ++ read_text [c]).
Proof. intros F C. exact (F c C). Qed.
Lemma word_then s c : word s -> forallb bare_c [c] = true -> is_word c = false -> reads (s ++ [c]) (Word s :: read_text [c]).
Proof. intros W B C. apply reads_word; auto. apply bare_by_check. exact B. Qed.

(** ** The definitions *)

Definition impl_out (static : bool) (result name params ret names const : str) : list str :=
  [result; $" "; published; $"::"; name; $"("; params; $") "; const; $"{" ++ [nl]; i; ret] ++ (if static then [impl; $"::"] else [po_member o; $"->"]) ++ [name; $"("; names; $"); }"].
Definition impl_pieces (static : bool) : list piece :=
  [H $"return_type"; T $" "; H $"class_published"; T $"::"; H $"method_name"; T $"("; H $"params_list"; T $") "; H $"maybe_const"; T ($"{" ++ [nl]); H $"_i_"; H $"maybe_return"] ++
  (if static then [H $"class_impl"; T $"::"] else [H $"impl_name"; T $"->"]) ++ [H $"method_name"; T $"("; H $"param_names"; T $"); }"].
Lemma impl_filled static result name params ret names const : Forall (neutral K) [result; name; params; ret; names; const] ->
  process_code_template (method_impl_template static)
        [($"_i_", i); ($"class_published", published); ($"class_impl", impl); ($"impl_name", po_member o); ($"return_type", result);
         ($"method_name", name); ($"params_list", params); ($"maybe_return", ret); ($"param_names", names); ($"maybe_const", const)] [] true =
  concat (impl_out static result name params ret names const).
Proof.
  intros F. repeat match goal with X : Forall _ (_ :: _) |- _ => inversion_clear X end. apply (filled _ (impl_pieces static)).
  - destruct static; reflexivity.
  - unfold impl_pieces. destruct static; cbn [app]; pieces.
  - reflexivity.
  - cbn [map snd]. repeat (apply Forall_cons; [first [assumption|apply spaces_neutral; assumption|apply word_neutral; assumption]|]). apply Forall_nil.
  - destruct static; reflexivity.
  - unfold impl_out. assert (E : forall x y : list str, concat (x ++ y ++ [name; $"("; names; $"); }"]) = concat (x ++ y ++ [name; $"("; names]) ++ $"); }").
    { intros x y. rewrite !concat_app. cbn [concat]. rewrite app_nil_r, <- !app_assoc. reflexivity. }
    rewrite E. unfold kept. rewrite !ends_in. repeat split; reflexivity.
Qed.
Definition result_text_of (r : option ctype) (unwanted : list str) : str :=
  match r with None => [] | Some t => match str_code (without unwanted t) with Some s => s | None => [] end end.
Lemma result_lex_is r u : result_lex u r = read_text (result_text_of r u).
Proof. unfold result_lex, result_text_of. destruct r as [t|]; [destruct (str_code (without u t)); auto|]; exact (eq_sym read_text_nil). Qed.
Lemma result_plain r u : good_result r -> plain_text (result_text_of r u).
Proof. destruct r as [t|]; [|constructor]. intros (_ & G). specialize (G u). unfold result_text_of. destruct (str_code (without u t)); auto. contradiction. Qed.
Lemma result_known r u : good_result r -> result_code (option_map (without u) r) = Some (result_text_of r u).
Proof. destruct r as [t|]; [|reflexivity]. intros (_ & G). specialize (G u). cbn [option_map result_code]. unfold result_text_of. destruct (str_code (without u t)); auto. contradiction. Qed.

Definition return_word (f : func) : str := if returns f then $"return " else [].
Definition impl_text (f : func) : str :=
  concat (impl_out (is_static f) (result_text_of (f_result f) decl_only) (f_name f) (params_code (f_params f)) (return_word f) (names_code (f_params f)) (if f_const f then $"const " else [])).
Lemma method_impl_is f : good_child (Method f) -> method_impl o impl published f = Some (impl_text f).
Proof.
  intros (R & N & P & _). unfold method_impl.
  assert (E : option_map (fun t => remove_incompatible (if is_static f then remove_specifier $"static" t else t)) (f_result f) = option_map (without decl_only) (f_result f)).
  { unfold is_static. destruct (f_result f) as [t|]; [|reflexivity]. cbn [option_map]. f_equal. apply defined_result. apply R. }
  change (match f_result f with Some t => smem $"static" (specifiers t) | None => false end) with (is_static f). cbv zeta. rewrite E, (result_known _ decl_only R).
  assert (V : match option_map (without decl_only) (f_result f) with Some t => if is_void t then [] else $"return " | None => [] end = return_word f).
  { unfold return_word, returns. destruct (f_result f) as [t|]; [|reflexivity]. cbn [option_map]. rewrite void_is.
    destruct (typenames t) as [|n [|? ?]]; try reflexivity. destruct (filter (fun s => negb (smem s decl_only)) (specifiers t)); try reflexivity. destruct (modifiers t); try reflexivity.
    destruct (seqb n $"void"); reflexivity. }
  rewrite V. f_equal. apply impl_filled. repeat apply Forall_cons; try apply Forall_nil.
  - apply plain_neutral, result_plain, R.
  - apply plain_neutral, N.
  - apply params_neutral, P.
  - unfold return_word. destruct (returns f); apply neutralb_true; reflexivity.
  - apply names_neutral, P.
  - destruct (f_const f); apply neutralb_true; reflexivity.
Qed.
Lemma impl_reads f : good_child (Method f) -> reads (impl_text f ++ [nl]) (definition impl published (po_member o) (Method f)).
Proof.
  intros (R & N & P & _). unfold impl_text, definition, impl_out, return_word, params_lex, arguments_of, const_lex, of_class. rewrite result_lex_is.
  set (r := result_text_of (f_result f) decl_only). assert (Fr : free r) by (apply plain_free, result_plain, R). pose proof (plain_free _ N) as Fn.
  set (ps := params_code (f_params f)). set (ns := names_code (f_params f)).
  set (kt := if f_const f then $"const " else []). set (rt := if returns f then $"return " else []).
  set (tt := if is_static f then [impl; $"::"] else [po_member o; $"->"]).
  replace (concat ([r; $" "; published; $"::"; f_name f; $"("; ps; $") "; kt; $"{" ++ [nl]; i; rt] ++ tt ++ [f_name f; $"("; ns; $"); }"]) ++ [nl])
    with ((r ++ [" "%char]) ++ (published ++ [":"%char]) ++ [":"%char] ++ (f_name f ++ ["("%char]) ++ (ps ++ $")") ++ [" "%char] ++ kt ++ ($"{" ++ [nl]) ++ i ++ rt ++ concat tt ++
          (f_name f ++ ["("%char]) ++ (ns ++ $")") ++ ($"; }" ++ [nl])).
  2:{ rewrite !concat_app. cbn [concat]. rewrite !app_nil_r, <- !app_assoc. reflexivity. }
  match goal with |- reads _ ?ks => replace ks with ((read_text r ++ read_text [" "%char]) ++ (Word published :: read_text [":"%char]) ++ [Sign ":"] ++ (read_text (f_name f) ++ read_text ["("%char]) ++
    (commas (map (fun p => read_text (fst p)) (f_params f)) ++ [Sign ")"]) ++ [] ++ (if f_const f then [Word $"const"] else []) ++ [Sign "{"] ++ [] ++ (if returns f then [Word $"return"] else []) ++
    (if is_static f then of_class impl else [Word (po_member o); Sign "-"; Sign ">"]) ++ (read_text (f_name f) ++ read_text ["("%char]) ++
    (commas (map (fun p => [Word (snd p)]) (f_params f)) ++ [Sign ")"]) ++ [Sign ";"; Sign "}"]) end.
  2:{ unfold of_class. change (read_text [" "%char]) with (@nil lexeme). change (read_text ["("%char]) with [Sign "("]. change (read_text [":"%char]) with [Sign ":"]. rewrite app_nil_r, <- !app_assoc. reflexivity. }
  apply reads_app; [apply Fr; apply cuts_check; reflexivity|]. apply reads_app; [apply word_then; auto|]. apply reads_app; [known|].
  apply reads_app; [apply Fn; apply cuts_check; reflexivity|]. apply reads_app; [exact (params_reads _ P)|]. apply reads_app; [known|].
  apply reads_app; [unfold kt; destruct (f_const f); known|]. apply reads_app; [known|]. apply reads_app; [apply reads_white, space_eq, indent|].
  apply reads_app; [unfold rt; destruct (returns f); known|].
  apply reads_app. { unfold tt, of_class. destruct (is_static f); cbn [concat]; rewrite app_nil_r.
    - change (impl ++ $"::") with (impl ++ [":"%char] ++ [":"%char]). rewrite app_assoc. change [Word impl; Sign ":"; Sign ":"] with ((Word impl :: read_text [":"%char]) ++ [Sign ":"]).
      apply reads_app; [apply word_then; auto|known].
    - change (po_member o ++ $"->") with (po_member o ++ ["-"%char] ++ [">"%char]). rewrite app_assoc. change [Word (po_member o); Sign "-"; Sign ">"] with ((Word (po_member o) :: read_text ["-"%char]) ++ [Sign ">"]).
      apply reads_app; [apply word_then; auto|known]. }
  apply reads_app; [apply Fn; apply cuts_check; reflexivity|]. apply reads_app; [exact (names_reads _ P)|]. known.
Qed.

Definition ctor_out (params names : str) : list str :=
  [published; $"::"; published; $"("; params; $")" ++ [nl]; i; $": "; po_member o; $"(std::make_unique<"; impl; $">("; names; $")) { }"].
Definition ctor_pieces : list piece :=
  [H $"class_published"; T $"::"; H $"class_published"; T $"("; H $"param_list"; T ($")" ++ [nl]); H $"_i_"; T $": "; H $"impl_name"; T $"(std::make_unique<"; H $"class_impl"; T $">("; H $"param_names"; T $")) { }"].
Lemma ctor_filled ps : Forall good_param ps -> constructor_impl o impl published ps = concat (ctor_out (params_code ps) (names_code ps)).
Proof.
  intros P. apply (filled _ ctor_pieces).
  - reflexivity.
  - unfold ctor_pieces. pieces.
  - reflexivity.
  - cbn [map snd]. repeat (apply Forall_cons; [first [apply spaces_neutral; assumption|apply word_neutral; assumption|apply params_neutral; assumption|apply names_neutral; assumption]|]). apply Forall_nil.
  - reflexivity.
  - unfold ctor_out. generalize (params_code ps) (names_code ps). intros x y.
    replace (concat [published; $"::"; published; $"("; x; $")" ++ [nl]; i; $": "; po_member o; $"(std::make_unique<"; impl; $">("; y; $")) { }"])
      with (concat [published; $"::"; published; $"("; x; $")" ++ [nl]; i; $": "; po_member o; $"(std::make_unique<"; impl; $">("; y] ++ $")) { }") by (cbn [concat]; rewrite !app_nil_r, <- !app_assoc; reflexivity).
    unfold kept. rewrite !ends_in. repeat split; reflexivity.
Qed.
Lemma ctor_reads ps n : Forall good_param ps -> reads (constructor_impl o impl published ps ++ [nl]) (definition impl published (po_member o) (Ctor ps n)).
Proof.
  intros P. rewrite ctor_filled by exact P. unfold definition, ctor_out, params_lex, arguments_of, of_class. set (x := params_code ps). set (y := names_code ps).
  replace (concat [published; $"::"; published; $"("; x; $")" ++ [nl]; i; $": "; po_member o; $"(std::make_unique<"; impl; $">("; y; $")) { }"] ++ [nl])
    with ((published ++ [":"%char]) ++ [":"%char] ++ (published ++ ["("%char]) ++ (x ++ $")") ++ [nl] ++ i ++ $": " ++ (po_member o ++ ["("%char]) ++ $"std::make_unique<" ++ (impl ++ [">"%char]) ++ $"(" ++ (y ++ $")") ++ ($") { }" ++ [nl])).
  2:{ cbn [concat]. rewrite !app_nil_r, <- !app_assoc. reflexivity. }
  match goal with |- reads _ ?ks => replace ks with ((Word published :: read_text [":"%char]) ++ [Sign ":"] ++ (Word published :: read_text ["("%char]) ++
    (commas (map (fun p => read_text (fst p)) ps) ++ [Sign ")"]) ++ [] ++ [] ++ [Sign ":"] ++ (Word (po_member o) :: read_text ["("%char]) ++ read_text $"std::make_unique<" ++ (Word impl :: read_text [">"%char]) ++
    [Sign "("] ++ (commas (map (fun p => [Word (snd p)]) ps) ++ [Sign ")"]) ++ [Sign ")"; Sign "{"; Sign "}"]) end.
  2:{ change (read_text ["("%char]) with [Sign "("]. change (read_text [":"%char]) with [Sign ":"]. change (read_text [">"%char]) with [Sign ">"]. cbn [app]. rewrite <- !app_assoc. cbn [app]. reflexivity. }
  apply reads_app; [apply word_then; auto|]. apply reads_app; [known|]. apply reads_app; [apply word_then; auto|]. apply reads_app; [exact (params_reads _ P)|]. apply reads_app; [known|].
  apply reads_app; [apply reads_white, space_eq, indent|]. apply reads_app; [known|]. apply reads_app; [apply word_then; auto|]. apply reads_app; [known|].
  apply reads_app; [apply word_then; auto|]. apply reads_app; [known|]. apply reads_app; [exact (names_reads _ P)|]. known.
Qed.

(** All of them. *)
Lemma glue_reads cs : Forall good_child cs -> exists l, all_of (map (child_impl o impl published) cs) = Some l /\ reads (concat l) (flat_map (definition impl published (po_member o)) cs).
Proof.
  induction 1 as [|c cs G F (l & E & R)]; [exists []; split; [reflexivity|exact reads_nil]|].
  assert (C : exists t, child_impl o impl published c = Some t /\ reads t (definition impl published (po_member o) c)).
  { destruct c as [ps n|f| | |t|]; cbn [child_impl definition]; try (exists []; split; [reflexivity|exact reads_nil]).
    - eexists. split; [reflexivity|]. apply (ctor_reads ps n). apply G.
    - rewrite (method_impl_is f G). eexists. split; [reflexivity|]. apply (impl_reads f G). }
  destruct C as (t & Et & Rt). exists (t :: l). cbn [map all_of]. rewrite Et, E. split; [reflexivity|]. cbn [concat flat_map]. apply reads_app; auto.
Qed.
End Impl.
