(** Properties C15 to C19: scopes, qualified names, shortened names, caches. *)
From Verif Require Import PyStr PyStrLemmas ScopeModel ScopeSpec ScopeProofs ScopeProofs2.

(** *** C15: the hierarchy of a scope *)

Theorem C15_hierarchy_is_chain_of_enclosing_scopes :
  forall sc,
  length (scope_hierarchy_list sc) = S (length sc) /\
  forall i, i <= length sc -> nth_error (scope_hierarchy_list sc) i = Some (firstn (length sc - i) sc).
Proof. exact (fun sc => conj (hierarchy_length sc) (hierarchy_nth sc)). Qed.
Print Assumptions C15_hierarchy_is_chain_of_enclosing_scopes.

Theorem C15_access_exactly_the_chain :
  forall sc other, Forall clean sc -> Forall clean other ->
  (can_access_scope sc other = true <-> exists n, n <= length sc /\ other = firstn n sc).
Proof.
  exact (fun sc other Hs Ho => iff_trans (can_access_clean sc other Hs Ho) (hierarchy_In sc other)).
Qed.
Print Assumptions C15_access_exactly_the_chain.

Theorem C15_text_read_back : forall s, str_cpp (from_string s) = s.
Proof. exact from_string_text. Qed.
Print Assumptions C15_text_read_back.

Theorem C15_parts_read_back :
  forall sc, Forall clean sc -> sc <> [] -> from_string (str_cpp sc) = sc.
Proof. exact from_string_parts. Qed.
Print Assumptions C15_parts_read_back.

Example C15_case :
  scope_hierarchy_list [$"A"; $"B"] = [[$"A"; $"B"]; [$"A"]; []] /\
  can_access_scope [$"A"; $"B"] [$"A"] = true /\ can_access_scope [$"A"; $"B"] [$"B"] = false /\
  from_string $"A::B" = [$"A"; $"B"] /\ Forall clean [$"A"; $"B"].
Proof.
  repeat split; try reflexivity; repeat constructor; try discriminate; cbn; intuition discriminate.
Qed.

(** The empty text is read as a scope with one empty part, not as the global scope: names
    qualified with it start with [::]. *)
Theorem C15_global_scope_not_read_back_refuted :
  exists sc name, from_string (str_cpp sc) <> sc /\
  qualified_name (from_string (str_cpp sc)) name <> qualified_name sc name.
Proof. exists [], $"X". split; discriminate. Qed.
Print Assumptions C15_global_scope_not_read_back_refuted.

(** *** C16: string literals and comments *)

(** The code is given by its lexical structure; only the words change. *)
Theorem C16_qualify_changes_only_words_partial :
  forall ids sc ls, wf ls ->
  qualify_cpp_code ids (text ls) sc =
  flat_map (on_words (qualify_token ids (scope_hierarchy_prefix_list sc))) ls.
Proof. exact (fun ids sc ls => scan_lexemes (qualify_token ids (scope_hierarchy_prefix_list sc)) ls). Qed.
Print Assumptions C16_qualify_changes_only_words_partial.

Theorem C16_shorten_changes_only_words_partial :
  forall prefix ls, wf ls ->
  make_terse_code (text ls) prefix =
  flat_map (on_words (fun w => make_terse_scoped_identifier w prefix)) ls.
Proof. exact (fun prefix ls => scan_lexemes (fun w => make_terse_scoped_identifier w prefix) ls). Qed.
Print Assumptions C16_shorten_changes_only_words_partial.

Definition c16_sample : list lexeme :=
  [Word [UChar "X"]; Other "("; Lit $"X"; Other ","; Other " "; Word [UChar "Y"; UColons; UChar "X"];
   Other ")"; Other " "; Com $" X"]%char.
Example C16_case :
  wf c16_sample /\ text c16_sample = $"X(" ++ [dq] ++ $"X" ++ [dq] ++ $", Y::X) // X" /\
  qualify_cpp_code [$"A::X"; $"A::Y::X"] (text c16_sample) [$"A"]
  = $"A::X(" ++ [dq] ++ $"X" ++ [dq] ++ $", A::Y::X) // X".
Proof.
  split; [|split; reflexivity].
  cbn. repeat split; try discriminate; repeat constructor; try discriminate; intuition discriminate.
Qed.

(** A word that touches a literal is moved into it. *)
Theorem C16_prefixed_literal_refuted :
  exists ids sc code, code = $"L" ++ [dq] ++ $"abc" ++ [dq] /\
  qualify_cpp_code ids code sc = [dq] ++ $"abcL" ++ [dq].
Proof. exists [], [], ($"L" ++ [dq] ++ $"abc" ++ [dq]). split; reflexivity. Qed.
Print Assumptions C16_prefixed_literal_refuted.

(** A word that touches a comment moves after it, and joins the first word of the next line. *)
Theorem C16_word_before_comment_refuted :
  exists ids sc code, code = $"Foo// c" ++ [nl] ++ $"Bar" /\
  qualify_cpp_code ids code sc = $"// c" ++ [nl] ++ $"FooBar".
Proof. exists [], [], ($"Foo// c" ++ [nl] ++ $"Bar"). split; reflexivity. Qed.
Print Assumptions C16_word_before_comment_refuted.

(** Escaped quotes are not recognised: the rest of the literal is taken for code. *)
Theorem C16_escaped_quote_refuted :
  exists ids sc code, code = [dq; bsl; dq] ++ $" X " ++ [dq] /\
  qualify_cpp_code ids code sc = [dq; bsl; dq] ++ $" A::X " ++ [dq].
Proof. exists [$"A::X"], [$"A"], ([dq; bsl; dq] ++ $" X " ++ [dq]). split; reflexivity. Qed.
Print Assumptions C16_escaped_quote_refuted.

(** Character literals are taken for code. *)
Theorem C16_character_literal_refuted :
  exists ids sc, qualify_cpp_code ids $"'x'" sc = $"'A::x'".
Proof. exists [$"A::x"], [$"A"]. reflexivity. Qed.
Print Assumptions C16_character_literal_refuted.

(** *** C17: lookup *)

Theorem C17_unmatched_unchanged :
  forall ids sc tok, lookup_fails ids sc tok ->
  qualify_token ids (scope_hierarchy_prefix_list sc) tok = tok.
Proof. exact qualify_token_none. Qed.
Print Assumptions C17_unmatched_unchanged.

Theorem C17_absolute_unchanged :
  forall ids sc tok, startswith $"::" tok = true ->
  qualify_token ids (scope_hierarchy_prefix_list sc) tok = tok.
Proof. exact qualify_token_absolute. Qed.
Print Assumptions C17_absolute_unchanged.

(** The result is always the identifier itself or a known name obtained by successive lookups. *)
Theorem C17_only_reachable_names :
  forall ids sc tok, reached ids sc tok (qualify_token ids (scope_hierarchy_prefix_list sc) tok).
Proof. exact (fun ids sc tok => qualify_token_reached ids sc ids tok (incl_refl ids)). Qed.
Print Assumptions C17_only_reachable_names.

(** The innermost name is found when it is the first one declared among those that match. *)
Theorem C17_innermost_partial :
  forall ids sc tok, no_chain ids sc -> startswith $"::" tok = false ->
  forall before id after, ids = before ++ id :: after ->
  (forall m, m <= length sc -> ~ In (candidate sc m tok) before) ->
  lookup_finds ids sc tok id ->
  qualify_token ids (scope_hierarchy_prefix_list sc) tok = id.
Proof. exact qualify_token_lookup. Qed.
Print Assumptions C17_innermost_partial.

(** In any declaration order, when only one known name matches. *)
Theorem C17_single_match_partial :
  forall ids sc tok id, no_chain ids sc -> startswith $"::" tok = false ->
  lookup_finds ids sc tok id ->
  (forall m, m <= length sc -> In (candidate sc m tok) ids -> candidate sc m tok = id) ->
  qualify_token ids (scope_hierarchy_prefix_list sc) tok = id.
Proof. exact lookup_unique_candidate. Qed.
Print Assumptions C17_single_match_partial.

Example C17_case :
  let ids := [$"X"; $"A::Y"; $"A::B::Z"] in
  no_chain ids [$"A"; $"B"] /\ lookup_finds ids [$"A"; $"B"] $"Y" $"A::Y" /\
  qualify_token ids (scope_hierarchy_prefix_list [$"A"; $"B"]) $"Y" = $"A::Y" /\
  lookup_fails ids [$"A"; $"B"] $"W".
Proof.
  cbn zeta. split; [|split; [|split]].
  - intros id n Hid Hn. cbn [length] in Hn. assert (n = 1 \/ n = 2) as [-> | ->] by lia;
      cbn in Hid; destruct Hid as [<-|[<-|[<-|[]]]]; vm_compute; intuition discriminate.
  - exists 1. split; [cbn; lia|]. split; [reflexivity|]. split; [right; left; reflexivity|].
    intros m Hm. cbn [length] in Hm. assert (m = 2) as -> by lia. vm_compute. intuition discriminate.
  - reflexivity.
  - intros n Hn. cbn [length] in Hn. assert (n = 0 \/ n = 1 \/ n = 2) as [-> |[-> | ->]] by lia;
      vm_compute; intuition discriminate.
Qed.

(** An outer name declared before the inner one is taken instead of it. *)
Theorem C17_outer_declared_first_refuted :
  exists ids sc tok id, lookup_finds ids sc tok id /\
  qualify_token ids (scope_hierarchy_prefix_list sc) tok <> id /\
  In (qualify_token ids (scope_hierarchy_prefix_list sc) tok) ids.
Proof.
  exists [$"A::X"; $"A::B::X"], [$"A"; $"B"], $"X", $"A::B::X". split; [|split].
  - exists 2. split; [cbn; lia|]. split; [reflexivity|]. split; [right; left; reflexivity|].
    intros m Hm. cbn in Hm. lia.
  - vm_compute. discriminate.
  - left. reflexivity.
Qed.
Print Assumptions C17_outer_declared_first_refuted.

(** A qualified name is looked up again: the result may be a name that no lookup of the
    identifier gives. *)
Theorem C17_chained_lookup_refuted :
  exists ids sc tok, lookup_finds ids sc tok $"A::X" /\
  qualify_token ids (scope_hierarchy_prefix_list sc) tok = $"A::A::X" /\
  forall n, n <= length sc -> candidate sc n tok <> $"A::A::X".
Proof.
  exists [$"A::X"; $"A::A::X"], [$"A"], $"X". split; [|split].
  - exists 1. split; [cbn; lia|]. split; [reflexivity|]. split; [left; reflexivity|].
    intros m Hm. cbn in Hm. lia.
  - reflexivity.
  - intros n Hn. cbn [length] in Hn. assert (n = 0 \/ n = 1) as [-> | ->] by lia; discriminate.
Qed.
Print Assumptions C17_chained_lookup_refuted.

(** *** C18: shortened names *)

(** What is removed, exactly: the longest part shared with the scope (see [shortened]). *)
Theorem C18_shortened_exactly :
  forall sc id, Forall clean sc -> Forall clean id -> id <> [] ->
  exists short, shortened sc id short /\
  make_terse_scoped_identifier (join $"::" id) (str_cpp_prefix sc) = join $"::" short.
Proof. exact terse_shortened. Qed.
Print Assumptions C18_shortened_exactly.

(** The short form, seen from an enclosing scope, is the name seen from an enclosing scope; it is
    the name itself when its first part is the first part of the scope or is not in the scope. *)
Theorem C18_same_candidates :
  forall sc id, Forall clean sc -> Forall clean id -> id <> [] ->
  let short := make_terse_scoped_identifier (join $"::" id) (str_cpp_prefix sc) in
  exists n m, m <= n <= length sc /\
  candidate sc n short = candidate sc m (join $"::" id) /\
  ((forall x, hd_error id = Some x -> hd_error sc = Some x \/ ~ In x sc) -> m = 0).
Proof. exact terse_candidates. Qed.
Print Assumptions C18_same_candidates.

Theorem C18_short_name_found_partial :
  forall ids sc id, Forall clean sc -> Forall clean id -> id <> [] ->
  let short := make_terse_scoped_identifier (join $"::" id) (str_cpp_prefix sc) in
  (forall x, hd_error id = Some x -> hd_error sc = Some x \/ ~ In x sc) ->
  In (join $"::" id) ids ->
  (forall n, n <= length sc -> In (candidate sc n short) ids -> candidate sc n short = join $"::" id) ->
  lookup_finds ids sc short (join $"::" id).
Proof. exact terse_lookup. Qed.
Print Assumptions C18_short_name_found_partial.

Example C18_case :
  let sc := [$"N0"; $"N1"; $"N3"] in let id := [$"N0"; $"N1"; $"N2"; $"s"] in
  Forall clean sc /\ Forall clean id /\
  make_terse_scoped_identifier (join $"::" id) (str_cpp_prefix sc) = $"N2::s" /\
  candidate sc 2 $"N2::s" = join $"::" id.
Proof.
  cbn zeta. split; [|split; [|split; reflexivity]];
  repeat constructor; try discriminate; cbn; intuition discriminate.
Qed.

(** A name of the global scope is shortened as if it belonged to the current scope. *)
Theorem C18_homonym_scope_refuted :
  exists ids sc id, In id ids /\ lookup_finds ids sc id id /\
  lookup_fails ids sc (make_terse_scoped_identifier id (str_cpp_prefix sc)).
Proof.
  exists [$"N1::X"], [$"A"; $"N1"], $"N1::X". split; [left; auto|]. split.
  - exists 0. split; [lia|]. split; [reflexivity|]. split; [left; auto|].
    intros m Hm. cbn [length] in Hm. assert (m = 1 \/ m = 2) as [-> | ->] by lia;
      vm_compute; intuition discriminate.
  - intros n Hn. cbn [length] in Hn. assert (n = 0 \/ n = 1 \/ n = 2) as [-> |[-> | ->]] by lia;
      vm_compute; intuition discriminate.
Qed.
Print Assumptions C18_homonym_scope_refuted.

(** The short form may be hidden by a name of an inner scope. *)
Theorem C18_hidden_short_name_refuted :
  exists ids sc id other, In id ids /\ other <> id /\ lookup_finds ids sc id id /\
  lookup_finds ids sc (make_terse_scoped_identifier id (str_cpp_prefix sc)) other.
Proof.
  exists [$"A::X"; $"A::B::X"], [$"A"; $"B"], $"A::X", $"A::B::X".
  split; [left; auto|]. split; [discriminate|]. split.
  - exists 0. split; [lia|]. split; [reflexivity|]. split; [left; auto|].
    intros m Hm. cbn [length] in Hm. assert (m = 1 \/ m = 2) as [-> | ->] by lia;
      vm_compute; intuition discriminate.
  - exists 2. split; [cbn; lia|]. split; [reflexivity|]. split; [right; left; reflexivity|].
    intros m Hm. cbn in Hm. lia.
Qed.
Print Assumptions C18_hidden_short_name_refuted.

(** The leading [::] of an absolute name is dropped. *)
Theorem C18_absolute_name_refuted :
  exists sc, sc <> [] /\ make_terse_scoped_identifier $"::X" (str_cpp_prefix sc) = $"X".
Proof. exists [$"A"]. split; [discriminate|reflexivity]. Qed.
Print Assumptions C18_absolute_name_refuted.

(** *** C19: histories of queries *)

(** A declaration always answers with the form for the scope of the first query. *)
Theorem C19_declaration_answers_first_scope_partial :
  forall ids d history sc,
  let o := {| o_decl := d; o_cache := None |} in
  fst (decl_with_qualified_types ids (run (decl_with_qualified_types ids) o history) sc)
  = qualify_decl ids d (hd sc history).
Proof. exact decl_first_query. Qed.
Print Assumptions C19_declaration_answers_first_scope_partial.

(** A function asked for one scope only always answers the same. *)
Theorem C19_function_one_scope_partial :
  forall ids own cls ret ps sc n,
  let o := fresh own cls ret ps in
  fst (func_with_qualified_types ids (run (func_with_qualified_types ids) o (repeat sc n)) sc)
  = fst (func_with_qualified_types ids o sc).
Proof. exact qualified_same_scope. Qed.
Print Assumptions C19_function_one_scope_partial.

(** A function without parameters does not depend on earlier queries. *)
Theorem C19_function_without_parameters_partial :
  forall ids own cls ret ps history sc,
  let o := fresh own cls ret ps in
  (ps = [] \/ exists d, ps = [d] /\ d_type d = [$"void"]) ->
  Forall clean sc -> Forall (Forall clean) history ->
  fst (func_with_qualified_types ids (run (func_with_qualified_types ids) o history) sc)
  = fst (func_with_qualified_types ids o sc).
Proof. exact qualified_no_params. Qed.
Print Assumptions C19_function_without_parameters_partial.

(** The shortened form of a function does not depend on earlier queries, unless one of them was
    made from the scope of a class of the same name inside the current scope. *)
Theorem C19_shortened_function :
  forall ids own cls ret ps history sc,
  let o := fresh own cls ret ps in
  Forall clean sc -> Forall (Forall clean) history ->
  Forall (fun h => terse_scope o h = sc -> h = sc) history ->
  fst (func_with_terse_types ids (run (func_with_terse_types ids) o history) sc)
  = fst (func_with_terse_types ids o sc).
Proof. exact terse_history. Qed.
Print Assumptions C19_shortened_function.

Example C19_case :
  let ids := [$"A::X"; $"B::Y"] in
  let o := fresh [$"A"] None [$"A::X"] [{| d_type := [$"X"]; d_init := $"A::X()" |}] in
  let history := [[$"B"]; []; [$"A"; $"B"]] in
  Forall (Forall clean) history /\ Forall (fun h => terse_scope o h = [$"A"] -> h = [$"A"]) history /\
  fst (func_with_terse_types ids (run (func_with_terse_types ids) o history) [$"A"])
  = {| f_return := [$"X"]; f_params := [{| d_type := [$"X"]; d_init := $"X()" |}] |}.
Proof.
  cbn zeta. split; [|split; [|reflexivity]].
  - repeat constructor; try discriminate; cbn; intuition discriminate.
  - repeat constructor; cbn; intros; congruence.
Qed.

(** A declaration asked from [A] and then from [B] gives the form for [A]. *)
Theorem C19_declaration_history_refuted :
  exists ids d history sc,
  let o := {| o_decl := d; o_cache := None |} in
  fst (decl_with_qualified_types ids (run (decl_with_qualified_types ids) o history) sc)
  <> fst (decl_with_qualified_types ids o sc).
Proof.
  exists [$"A::X"; $"B::X"], {| d_type := [$"X"]; d_init := [] |}, [[$"A"]], [$"B"].
  vm_compute. discriminate.
Qed.
Print Assumptions C19_declaration_history_refuted.

(** The same holds for the parameters of a function, although functions remember one answer per
    scope. *)
Theorem C19_function_history_refuted :
  exists ids own ret ps history sc,
  let o := fresh own None ret ps in
  fst (func_with_qualified_types ids (run (func_with_qualified_types ids) o history) sc)
  <> fst (func_with_qualified_types ids o sc).
Proof.
  exists [$"A::X"; $"B::X"], [$"A"], [$"int"], [{| d_type := [$"X"]; d_init := [] |}], [[$"A"]], [$"B"].
  vm_compute. discriminate.
Qed.
Print Assumptions C19_function_history_refuted.

(** A method of the class [S] of the namespace [S]. *)
Theorem C19_shortened_method_history_refuted :
  exists ids own cls ret ps history sc,
  let o := fresh own (Some cls) ret ps in
  fst (func_with_terse_types ids (run (func_with_terse_types ids) o history) sc)
  <> fst (func_with_terse_types ids o sc).
Proof.
  exists [], [$"S"; $"S"], $"S", [$"int"], [{| d_type := [$"int"]; d_init := $"S::x" |}],
    [[$"S"; $"S"]], [$"S"].
  vm_compute. discriminate.
Qed.
Print Assumptions C19_shortened_method_history_refuted.
