(** C14, C32, C46, C47, C54, C55 and C56: replacement lists, type texts, template options. *)
From Verif Require Import PyStr PyStrLemmas TemplateModel TemplateSpec TemplateProofs TemplateProofs2 TemplateProofs3 TemplateProofs4.

(** *** C14: replacement lists *)

(** The result is that of one to three passes; each pass but the last changed the text; when fewer than three
    passes are made, one more pass would change nothing. *)
Theorem C14_passes :
  forall sub rs s, exists n, 1 <= n <= 3 /\
  apply_rules sub rs s = iterate n (apply_once sub rs) s /\
  (forall k, S k < n -> iterate k (apply_once sub rs) s <> iterate (S k) (apply_once sub rs) s) /\
  (n < 3 -> apply_once sub rs (apply_rules sub rs s) = apply_rules sub rs s).
Proof. exact rules_passes. Qed.
Print Assumptions C14_passes.

(** A text that settles after at most two passes is translated to the settled text. *)
Theorem C14_settles :
  forall sub rs k s, k <= 2 ->
  apply_once sub rs (iterate k (apply_once sub rs) s) = iterate k (apply_once sub rs) s ->
  apply_rules sub rs s = iterate k (apply_once sub rs) s.
Proof. exact rules_settled. Qed.
Print Assumptions C14_settles.

(** Rules that are added at the end see the text produced by the first ones. *)
Theorem C14_order :
  forall sub a b s, apply_once sub (a ++ b) s = apply_once sub b (apply_once sub a s).
Proof. exact apply_once_app. Qed.
Print Assumptions C14_order.

(** A list of rules is read back from its text, with spaces around the rules and blank lines. *)
Theorem C14_rules_read :
  forall ls rs, ls <> [] -> holds ls rs -> rules_from_string (unlines ls) = Some rs.
Proof. exact rules_read. Qed.
Print Assumptions C14_rules_read.

Definition C14_rules : list rule :=
  [Rule $"std::string" $"str"; Rule $"const " []; Rule $"long" $"int"; Rule $"int int" $"int"].
Definition C14_lines : list str :=
  [[]; $"  std::string -> str"; $"  unsigned -> REMOVE "; []; $"long -> int"].
Example C14_case :
  apply_rules replace C14_rules $"const std::string, const long long, x" = $"str, int, x" /\
  apply_once replace C14_rules $"str, int, x" = $"str, int, x" /\
  holds C14_lines [Rule $"std::string" $"str"; Rule $"unsigned" []; Rule $"long" $"int"] /\
  rules_from_string (unlines C14_lines) = Some [Rule $"std::string" $"str"; Rule $"unsigned" []; Rule $"long" $"int"].
Proof.
  split; [vm_compute; reflexivity|]. split; [vm_compute; reflexivity|]. split; [|vm_compute; reflexivity].
  unfold C14_lines. apply holds_blank; [constructor|intros []|].
  apply (holds_rule $"  " [] (Rule $"std::string" $"str"));
    [repeat constructor|cbn; intuition discriminate|constructor|intros []| |].
  { unfold writable; cbn [replace_what by_what]; repeat split; try reflexivity; try discriminate; cbn; intuition discriminate. }
  apply (holds_rule $"  " $" " (Rule $"unsigned" []));
    [repeat constructor|cbn; intuition discriminate|repeat constructor|cbn; intuition discriminate| |].
  { unfold writable; cbn [replace_what by_what]; repeat split; try reflexivity; try discriminate; cbn; intuition discriminate. }
  apply holds_blank; [constructor|intros []|].
  apply (holds_rule [] [] (Rule $"long" $"int")); [constructor|intros []|constructor|intros []| |apply holds_nil].
  unfold writable; cbn [replace_what by_what]; repeat split; try reflexivity; try discriminate; cbn; intuition discriminate.
Qed.

(** The result need not be a fixed point: translating a name twice is not translating it once. *)
Theorem C14_fixed_point_refuted :
  ~ (forall rs s, apply_rules replace rs (apply_rules replace rs s) = apply_rules replace rs s).
Proof. intros H. specialize (H [Rule $"a" $"ba"] $"a"). vm_compute in H. discriminate. Qed.
Print Assumptions C14_fixed_point_refuted.
(** A rule with nothing to the right of the arrow cannot be read. *)
Theorem C14_empty_target_refuted : ~ (forall w, rules_from_string (w ++ $" -> ") <> None).
Proof. intros H. apply (H $"const"). vm_compute. reflexivity. Qed.
Print Assumptions C14_empty_target_refuted.

(** *** C32: template brackets *)

(** Nothing is lost: the text is given back, or cut at its first opening bracket and at the bracket that
    closes it. *)
Theorem C32_split :
  forall s, split_cpp_type_template_args s = [s] \/
  exists b i a, split_cpp_type_template_args s = [b; i; a] /\ s = b ++ "<"%char :: i ++ ">"%char :: a /\
    ~ In "<"%char b /\ balanced i.
Proof. exact split_sound. Qed.
Print Assumptions C32_split.

(** At any depth of nesting in [i]. *)
Theorem C32_split_nested :
  forall b i a, ~ In "<"%char b -> balanced i ->
  split_cpp_type_template_args (b ++ "<"%char :: i ++ ">"%char :: a) = [b; i; a].
Proof. exact split_complete. Qed.
Print Assumptions C32_split_nested.

(** The translation ends, whatever the replacements. *)
Theorem C32_ends : forall tr s, perform_replacements tr s <> OutOfFuel.
Proof. exact (fun tr s => perform_ends tr (S (length s)) s (le_n _)). Qed.
Print Assumptions C32_ends.

(** No template bracket is left. *)
Theorem C32_no_angle_bracket :
  forall tr s r, In "<"%char s -> perform_replacements tr s = Ok r -> ~ In "<"%char r /\ ~ In ">"%char r.
Proof. exact (fun tr s r => perform_no_angle tr (S (length s)) s r). Qed.
Print Assumptions C32_no_angle_bracket.

(** Each bracket becomes a square bracket, and each text between brackets is translated, at any depth.
    Missing: replacements that look across brackets; texts whose brackets are not balanced, see below. *)
Theorem C32_translation_partial :
  forall tr s, per_text tr -> balanced s ->
  exists r, perform_replacements tr s = Ok r /\ shape words r = shape (fun x => words (tr x)) s.
Proof. exact (fun tr s H Hb => perform_shape tr H (S (length s)) s Hb (le_n _)). Qed.
Print Assumptions C32_translation_partial.

Lemma upper_space c : is_space (upper_c c) = is_space c.
Proof. destruct c as [[] [] [] [] [] [] [] []]; reflexivity. Qed.
Lemma upper_bracket c : bracket (upper_c c) = bracket c /\ (bracket c = true -> upper_c c = c).
Proof. destruct c as [[] [] [] [] [] [] [] []]; split; (reflexivity || discriminate). Qed.
Lemma upper_twice c : upper_c (upper_c c) = upper_c c.
Proof. destruct c as [[] [] [] [] [] [] [] []]; reflexivity. Qed.
Lemma words_upper s : words (upper s) = map upper (words s).
Proof.
  induction s as [|c s IH]; auto. cbn [upper map]. fold (upper s). destruct (is_space c) eqn:Hc.
  - rewrite !words_space by (rewrite ?upper_space; auto). auto.
  - rewrite !words_cons by (rewrite ?upper_space; auto). rewrite IH. destruct s as [|d s]; auto.
    cbn [upper map]. rewrite upper_space. destruct (is_space d) eqn:Hd; auto.
    destruct (words (d :: s)); auto.
Qed.
Lemma upper_per_text : per_text upper.
Proof.
  split; [|split].
  - intros s. induction s as [|c s IH]; auto. cbn [upper map cut]. fold (upper s). rewrite IH. destruct (cut s) as [h l].
    destruct (upper_bracket c) as (E1 & E2). rewrite E1. destruct (bracket c) eqn:E; auto.
    rewrite E2 by auto. auto.
  - intros x y H. rewrite !words_upper, H. auto.
  - intros x. f_equal. unfold upper. rewrite map_map. apply map_ext. apply upper_twice.
Qed.
Example C32_case :
  per_text upper /\ balanced $"std::map< int, std::vector<unsigned  int> > ::it<x>" /\
  perform_replacements upper $"std::map< int, std::vector<unsigned  int> > ::it<x>" =
    Ok $"STD::MAP[INT, STD::VECTOR[UNSIGNED INT]]::IT[X]" /\
  split_cpp_type_template_args $"AAA <BBB<CC>DD> EE" = [$"AAA "; $"BBB<CC>DD"; $" EE"].
Proof.
  split; [exact upper_per_text|]. split; [|vm_compute; auto].
  repeat (apply bal_char; [discriminate|discriminate|]).
  apply (bal_pair $" int, std::vector<unsigned  int> " $" ::it<x>").
  - repeat (apply bal_char; [discriminate|discriminate|]). apply (bal_pair $"unsigned  int" $" ").
    + repeat (apply bal_char; [discriminate|discriminate|]). apply bal_nil.
    + repeat (apply bal_char; [discriminate|discriminate|]). apply bal_nil.
  - repeat (apply bal_char; [discriminate|discriminate|]). apply (bal_pair $"x" []).
    + repeat (apply bal_char; [discriminate|discriminate|]). apply bal_nil.
    + apply bal_nil.
Qed.

(** A bracket without partner: IndexError, whatever the replacements. *)
Theorem C32_unmatched_refuted : forall tr, perform_replacements tr $"Foo<int" = IndexError.
Proof. intros tr. reflexivity. Qed.
Print Assumptions C32_unmatched_refuted.
(** The arrow of a trailing return type is taken for a bracket: the square brackets are not balanced. *)
Theorem C32_arrow_refuted :
  ~ (forall s r, perform_replacements (fun x => x) s = Ok r -> count "[" r = count "]" r).
Proof.
  intros H. specialize (H $"std::function<auto(int) -> int>" $"std::function[auto(int) -]int]").
  assert (E : count "[" $"std::function[auto(int) -]int]" = count "]" $"std::function[auto(int) -]int]")
    by (apply H; vm_compute; reflexivity).
  vm_compute in E. discriminate.
Qed.
Print Assumptions C32_arrow_refuted.

(** *** C46: names of instantiations *)

(** Missing: types with other parts (underscores, namespace std, template arguments), see below; the
    replacements that are applied to the names afterwards. *)
Theorem C46_distinct_types_partial :
  forall n parts parts' m m', simple_type parts -> simple_type parts' ->
  apply_template_naming n (type_text parts m) = apply_template_naming n (type_text parts' m') ->
  parts = parts' /\ m = m'.
Proof. exact naming_injective. Qed.
Print Assumptions C46_distinct_types_partial.

Theorem C46_distinct_templates_partial :
  forall n n' parts parts' m m', simple_type parts -> simple_type parts' ->
  ~ In "_"%char n -> ~ In "_"%char n' ->
  apply_template_naming n (type_text parts m) = apply_template_naming n' (type_text parts' m') ->
  n = n' /\ parts = parts' /\ m = m'.
Proof. exact naming_injective2. Qed.
Print Assumptions C46_distinct_templates_partial.

(** The space before a pointer or reference mark makes no difference. *)
Theorem C46_space_ignored_partial :
  forall n parts m, simple_type parts ->
  apply_template_naming n (tight_text parts m) = apply_template_naming n (type_text parts m).
Proof. exact naming_tight. Qed.
Print Assumptions C46_space_ignored_partial.

Example C46_case :
  simple_type [$"Ns"; $"Foo"] /\ simple_type [$"int"] /\
  apply_template_naming $"MyVec" (type_text [$"Ns"; $"Foo"] Ptr) = $"MyVec_Ns_Foo_ptr" /\
  apply_template_naming $"MyVec" (tight_text [$"int"] URef) = $"MyVec_int_uref" /\
  apply_template_naming $"MyVec" (type_text [$"int"] NoMod) = $"MyVec_int".
Proof.
  split; [|split; [|vm_compute; auto]]; (split; [discriminate|]).
  - repeat (apply Forall_cons || apply Forall_nil); repeat split; try discriminate; cbn; intuition discriminate.
  - repeat (apply Forall_cons || apply Forall_nil); repeat split; try discriminate; cbn; intuition discriminate.
Qed.

Theorem C46_distinct_types_refuted :
  ~ (forall n t t', apply_template_naming n t = apply_template_naming n t' -> t = t').
Proof. intros H. specialize (H $"V" $"A::B" $"A_B" eq_refl). discriminate. Qed.
Print Assumptions C46_distinct_types_refuted.
Theorem C46_std_refuted :
  ~ (forall n t t', apply_template_naming n t = apply_template_naming n t' -> t = t').
Proof. intros H. specialize (H $"V" $"std::string" $"string" eq_refl). discriminate. Qed.
Print Assumptions C46_std_refuted.
Theorem C46_pointer_refuted :
  ~ (forall n t t', apply_template_naming n t = apply_template_naming n t' -> t = t').
Proof. intros H. specialize (H $"V" $"A *" $"A::ptr" eq_refl). discriminate. Qed.
Print Assumptions C46_pointer_refuted.
Theorem C46_distinct_templates_refuted :
  ~ (forall n n' t t', apply_template_naming n t = apply_template_naming n' t' -> n = n').
Proof. intros H. specialize (H $"A" $"A_B" $"B::C" $"C" eq_refl). discriminate. Qed.
Print Assumptions C46_distinct_templates_refuted.

(** *** C47: template options *)

(** A type has a Python name exactly when some option lists its argument, and the name only depends on the
    type. *)
Theorem C47_named_when_listed :
  forall parse_type tr specs t r,
  specialized_type_python_name parse_type tr specs t = Some r <->
  exists a, handled parse_type specs t a /\ r = tr (apply_template_naming (template_name t) a).
Proof. exact named_iff. Qed.
Print Assumptions C47_named_when_listed.

(** A type is left out exactly when some option about its name does not list its argument. *)
Theorem C47_excluded_when :
  forall parse_type specs t, shall_exclude_type parse_type specs t = true <->
  is_template t = true /\ exists s, In s specs /\ name_matches s (template_name t) = true /\
    forall a, unique_type parse_type t = Some a -> ~ listed s a.
Proof. exact excluded_iff. Qed.
Print Assumptions C47_excluded_when.

(** With one option about the name, a type is either named or left out.
    Missing: several options about one name, see below. *)
Theorem C47_named_or_excluded_partial :
  forall parse_type tr specs t, one_option specs (template_name t) -> is_template t = true ->
  (exists s, In s specs /\ name_matches s (template_name t) = true) ->
  (shall_exclude_type parse_type specs t = true <-> specialized_type_python_name parse_type tr specs t = None).
Proof. exact one_option_decides. Qed.
Print Assumptions C47_named_or_excluded_partial.

(** With one option about the name, a type is specialised exactly when a class is emitted for it. *)
Theorem C47_class_emitted_partial :
  forall parse_type specs t a, one_option specs (template_name t) -> is_template t = true ->
  unique_type parse_type t = Some a ->
  (In a (class_instantiations specs (template_name t) 1) <-> shall_specialize_type parse_type specs t = true).
Proof. exact emitted_iff. Qed.
Print Assumptions C47_class_emitted_partial.

(** Each function that is instantiated has a name. *)
Theorem C47_function_named :
  forall specs name nb o a f, In (a, f) (function_instantiations specs name nb o) ->
  exists r, specialized_function_python_name specs name a = Some r /\ (r = name \/ r = apply_template_naming name a).
Proof. exact instantiated_named. Qed.
Print Assumptions C47_function_named.

(** With one option about the name, the instantiations get a suffix or are marked as overloads. *)
Theorem C47_function_suffix_partial :
  forall specs name nb o a f, one_option specs name ->
  In (a, f) (function_instantiations specs name nb o) ->
  (specialized_function_python_name specs name a = Some (apply_template_naming name a) /\ f = o) \/
  (specialized_function_python_name specs name a = Some name /\ f = true).
Proof. exact function_suffix. Qed.
Print Assumptions C47_function_suffix_partial.

(** What the name and the argument of a written template type are. *)
Theorem C47_written_type :
  forall parse_type n a, ~ In "<"%char n ->
  is_template (n ++ "<"%char :: a ++ $">") = true /\ template_name (n ++ "<"%char :: a ++ $">") = n /\
  unique_type parse_type (n ++ "<"%char :: a ++ $">") = parse_type a.
Proof. exact template_text. Qed.
Print Assumptions C47_written_type.

Definition C47_spec (name : string) (types : list str) (suffix : bool) (syn : list (str * str)) : spec :=
  Spec (seqb (lit name)) types suffix syn.
Definition C47_specs : list spec :=
  [C47_spec "MyVec" [$"int"; $"float"] true [($"MyInt", $"int")]; C47_spec "Other" [$"int"] false []].
Example C47_case :
  one_option C47_specs $"MyVec" /\
  specialized_type_python_name Some (fun x => x) C47_specs $"MyVec<float>" = Some $"MyVec_float" /\
  specialized_type_python_name Some (fun x => x) C47_specs $"MyVec<MyInt>" = Some $"MyVec_MyInt" /\
  shall_exclude_type Some C47_specs $"MyVec<double>" = true /\
  shall_exclude_type Some C47_specs $"std::vector<double>" = false /\
  class_instantiations C47_specs $"MyVec" 1 = [$"int"; $"float"] /\
  class_synonyms (fun x => x) C47_specs $"MyVec" 1 = [($"MyVec_MyInt", $"MyVec_int")] /\
  function_instantiations C47_specs $"Other" 1 false = [($"int", true)] /\
  specialized_function_python_name C47_specs $"MyVec" $"float" = Some $"MyVec_float".
Proof. split; [vm_compute; auto|]. vm_compute. repeat split. Qed.

(** Two options about one name: a type that is named by the first one is left out because of the second. *)
Theorem C47_two_options_refuted :
  ~ (forall specs t r, specialized_type_python_name Some (fun x => x) specs t = Some r ->
       shall_exclude_type Some specs t = false).
Proof.
  intros H. specialize (H [C47_spec "V" [$"int"] false []; C47_spec "V" [$"double"] false []] $"V<int>" $"V_int" eq_refl).
  vm_compute in H. discriminate.
Qed.
Print Assumptions C47_two_options_refuted.
(** The type is named, but no class of that name is emitted. *)
Theorem C47_class_emitted_refuted :
  ~ (forall specs t a, unique_type Some t = Some a -> shall_specialize_type Some specs t = true ->
       In a (class_instantiations specs (template_name t) 1)).
Proof.
  intros H.
  specialize (H [C47_spec "V" [$"int"] false []; C47_spec "V" [$"double"] false []] $"V<int>" $"int" eq_refl eq_refl).
  vm_compute in H. intuition discriminate.
Qed.
Print Assumptions C47_class_emitted_refuted.
(** The emitted synonym names a class that is not emitted. *)
Theorem C47_synonym_target_refuted :
  ~ (forall specs name x y, In (x, y) (class_synonyms (fun x => x) specs name 1) ->
       exists a, In a (class_instantiations specs name 1) /\ y = apply_template_naming name a).
Proof.
  intros H. destruct (H [C47_spec "V" [$"int"] false [($"MyDouble", $"double")]] $"V" $"V_MyDouble" $"V_double") as (a & Ha & E).
  - vm_compute. auto.
  - cbn in Ha. destruct Ha as [<-|[]]. vm_compute in E. discriminate.
Qed.
Print Assumptions C47_synonym_target_refuted.
(** Two options about one function: neither a suffix nor the mark of an overload. *)
Theorem C47_function_suffix_refuted :
  ~ (forall specs name a f, In (a, f) (function_instantiations specs name 1 false) ->
       specialized_function_python_name specs name a = Some (apply_template_naming name a) \/ f = true).
Proof.
  intros H. destruct (H [C47_spec "f" [$"int"] false []; C47_spec "f" [$"int"] true []] $"f" $"int" false) as [C|C];
    [vm_compute; auto|vm_compute in C; discriminate|discriminate].
Qed.
Print Assumptions C47_function_suffix_refuted.

(** *** C54: parameters of callables *)

(** Missing: types made of several words or with square brackets, see below. *)
Theorem C54_names_removed_partial :
  forall pre ps post, Forall simple_param ps ->
  contains $"Callable[[" (pre ++ $"Callable[") = false ->
  strip_callable_param_names (pre ++ $"Callable[[" ++ join $", " (map param_text ps) ++ $"]" ++ post) =
  pre ++ $"Callable[[" ++ join $", " (map fst ps) ++ $"]" ++ strip_callable_param_names post.
Proof. exact callable_clean. Qed.
Print Assumptions C54_names_removed_partial.

Theorem C54_others_unchanged :
  forall s, contains $"Callable[[" s = false -> strip_callable_param_names s = s.
Proof. exact callable_none. Qed.
Print Assumptions C54_others_unchanged.

Example C54_case :
  Forall simple_param [($"int", Some $"line"); ($"Foo.Bar", None); ($"str", Some $"text")] /\
  strip_callable_param_names $"Optional[Callable[[int line, Foo.Bar, str text], Callable[[int a], None]]]" =
  $"Optional[Callable[[int, Foo.Bar, str], Callable[[int], None]]]".
Proof.
  split; [|vm_compute; reflexivity].
  repeat (apply Forall_cons || apply Forall_nil); split; try discriminate; (split; [|exact I || reflexivity]);
    cbn [fst]; repeat (apply Forall_cons || apply Forall_nil); repeat split; discriminate.
Qed.

(** A type of two words loses its last word. *)
Theorem C54_two_words_refuted :
  ~ (forall ty, is_identifier ty = false -> strip_callable_param_names ($"Callable[[" ++ ty ++ $"], None]") =
       $"Callable[[" ++ ty ++ $"], None]").
Proof. intros H. specialize (H $"unsigned int" eq_refl). vm_compute in H. discriminate. Qed.
Print Assumptions C54_two_words_refuted.
(** A name after a type with square brackets stays. *)
Theorem C54_bracketed_type_refuted :
  ~ (forall ty n, is_identifier n = true -> ~ In " "%char ty ->
       strip_callable_param_names ($"Callable[[" ++ ty ++ $" " ++ n ++ $"], None]") = $"Callable[[" ++ ty ++ $"], None]").
Proof.
  intros H. specialize (H $"List[int]" $"xs" eq_refl). vm_compute in H. 
  assert (C : ~ In " "%char $"List[int]") by (cbn; intuition discriminate). specialize (H C). discriminate.
Qed.
Print Assumptions C54_bracketed_type_refuted.

(** *** C55: default values of template types *)

(** [T<a>(args)] and [T<a>{args}] become calls of the class of [T<a>].
    Missing: arguments with braces, see below. *)
Theorem C55_parentheses_partial :
  forall parse_type typenames_of tr specs t args,
  In "<"%char t -> ~ In "("%char t -> ~ In "{"%char t -> ~ In "{"%char args ->
  specialized_type_python_default_value parse_type typenames_of tr specs (t ++ $"(" ++ args ++ $")") =
  match specialized_type_python_name_str parse_type typenames_of tr specs t with
  | Some n => Some (n ++ $"(" ++ args ++ $")") | None => None end.
Proof. exact default_paren. Qed.
Print Assumptions C55_parentheses_partial.

Theorem C55_braces_partial :
  forall parse_type typenames_of tr specs t args,
  In "<"%char t -> ~ In "{"%char t -> ~ In "{"%char args -> ~ In "}"%char args ->
  specialized_type_python_default_value parse_type typenames_of tr specs (t ++ $"{" ++ args ++ $"}") =
  match specialized_type_python_name_str parse_type typenames_of tr specs t with
  | Some n => Some (n ++ $"(" ++ args ++ $")") | None => None end.
Proof. exact default_brace. Qed.
Print Assumptions C55_braces_partial.

Example C55_case :
  specialized_type_python_default_value Some Some (fun x => x) C47_specs $"MyVec<float>{1.f, 2.f}" =
    Some $"MyVec_float(1.f, 2.f)" /\
  specialized_type_python_default_value Some Some (fun x => x) C47_specs $"MyVec<float>(3)" = Some $"MyVec_float(3)" /\
  specialized_type_python_default_value Some Some (fun x => x) C47_specs $"MyVec<double>(3)" = None.
Proof. vm_compute. auto. Qed.

(** Braces inside a text argument are changed as well. *)
Theorem C55_text_argument_refuted :
  ~ (forall args n, specialized_type_python_name_str Some Some (fun x => x) C47_specs $"MyVec<int>" = Some n ->
       specialized_type_python_default_value Some Some (fun x => x) C47_specs ($"MyVec<int>{" ++ args ++ $"}") =
       Some (n ++ $"(" ++ args ++ $")")).
Proof.
  intros H. specialize (H [dq; "{"; "}"; dq]%char $"MyVec_int" eq_refl). vm_compute in H. discriminate.
Qed.
Print Assumptions C55_text_argument_refuted.

(** *** C56: root namespaces *)

(** Missing: names with a part that ends like the namespace, see below; several root namespaces. *)
Theorem C56_only_root_dropped_partial :
  forall n t, word n -> well_formed t -> Forall (clear_of n) (names_of t) ->
  drop_roots [n] (show_text t) = show_text (map_names (without_root n) t).
Proof. exact drop_text. Qed.
Print Assumptions C56_only_root_dropped_partial.

Definition C56_text : text :=
  ([$"Dict"], [("["%char, [$"Ns"; $"Inner"; $"Foo"]); (","%char, []); (" "%char, [$"Ns2"; $"Bar"]); ("]"%char, [])]).
Example C56_case :
  word $"Ns" /\ well_formed C56_text /\ Forall (clear_of $"Ns") (names_of C56_text) /\
  show_text C56_text = $"Dict[Ns.Inner.Foo, Ns2.Bar]" /\
  drop_roots [$"Ns"] $"Dict[Ns.Inner.Foo, Ns2.Bar]" = $"Dict[Inner.Foo, Ns2.Bar]".
Proof.
  split; [split; [discriminate|reflexivity]|]. split; [|split; [|vm_compute; auto]].
  - split; cbn [fst snd C56_text];
      repeat match goal with |- Forall _ _ => apply Forall_cons || apply Forall_nil | |- _ /\ _ => split
             | |- word _ => split end; try reflexivity; try discriminate.
  - unfold names_of. cbn [fst snd map C56_text].
    repeat match goal with |- Forall _ _ => apply Forall_cons || apply Forall_nil | |- clear_of _ _ => split end;
      try exact I; auto; cbn; repeat (apply Forall_cons || apply Forall_nil); reflexivity.
Qed.

(** Another namespace whose name ends like the root namespace is damaged. *)
Theorem C56_other_namespace_refuted :
  ~ (forall n t, word n -> well_formed t -> drop_roots [n] (show_text t) = show_text (map_names (without_root n) t)).
Proof.
  intros H. specialize (H $"Ns" ([$"MyNs"; $"Foo"], [])).
  assert (E : drop_roots [$"Ns"] $"MyNs.Foo" = $"MyNs.Foo").
  { apply H.
    - split; [discriminate|reflexivity].
    - split; cbn [fst snd]; repeat (apply Forall_cons || apply Forall_nil); split; (discriminate || reflexivity). }
  vm_compute in E. discriminate.
Qed.
Print Assumptions C56_other_namespace_refuted.
(** So is an inner namespace of the same name. *)
Theorem C56_inner_namespace_refuted : drop_roots [$"Ns"] $"A.Ns.Foo" <> $"A.Ns.Foo".
Proof. vm_compute. discriminate. Qed.
Print Assumptions C56_inner_namespace_refuted.
