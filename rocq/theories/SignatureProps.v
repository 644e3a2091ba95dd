From Verif Require Import PyStr PyStrLemmas PyNum TypeTextModel LambdaModel LambdaSpec AdapterModel AdapterSpec LambdaProofs
  AdapterProofs AdapterProofs2 AdapterProofs3 AdapterProofs4 AdapterProofs5 SignatureSpec SignatureProofs AdapterProps.
(** The parameters which Python sees: those of the lambda written by each adapter (C40, C42, C43, C44, C59, C60, C61; see
    C41_signature for the excluded parameters). *)

(** ** C43: boxes *)

Theorem C43_signature : forall o f l, adapt_boxed o f = Some l -> each_shown shown_boxed (f_params f) (l_params l).
Proof. exact boxed_signature. Qed.
Print Assumptions C43_signature.

Example C43_signature_case : let l := the (adapt_boxed sample slider) in
  adapt_boxed sample slider = Some l /\ map (fun p => type_text (p_type p)) (l_params l) = [$"const char *"; $"BoxedInt *"; $"BoxedFloat &"] /\
  (forall p, In p (tl (f_params slider)) -> modified p /\ exists b, In (words_of p, b) box_names).
Proof.
  cbv zeta. split; [reflexivity|]. split; [reflexivity|]. intros p I. split.
  - apply modifiable_spec. destruct I as [<-|[<-|[]]]; reflexivity.
  - destruct I as [<-|[<-|[]]]; eexists; cbn; [left; reflexivity|]. do 19 right. left. reflexivity.
Qed.

(** ** C42: results *)

Theorem C42_signature : forall o f l, adapt_to_return o f = Some l -> each_shown (shown_returned o) (f_params f) (l_params l).
Proof. exact returned_signature. Qed.
Print Assumptions C42_signature.

(** The type of the result: that of the function if it has a result, then those of the parameters given back, in order; a tuple,
    unless there is one type only. *)
Theorem C42_result_type : forall o f l, adapt_to_return o f = Some l ->
  exists ts, types_back o (f_params f) ts /\ ts <> [] /\
    one_or_tuple (if returns_void f then ts else type_text (f_return f) :: ts) (type_text (l_return l)).
Proof. exact returned_result. Qed.
Print Assumptions C42_result_type.

Definition mixed_results : func := a_function $"next" (plain $"bool")
  [a_param (plain $"int") $"a"; a_param (reference $"int") $"b"; Param (pointer $"float") $"c" [] $"NULL"; Param (plain $"double") $"d" $"[3]" []].
Example C42_signature_case : let l := the (adapt_to_return sample mixed_results) in
  adapt_to_return sample mixed_results = Some l /\
  map param_text (l_params l) = [$"int a"; $"int b"; $"std::optional<float> c = std::nullopt"; $"std::array<double, 3> d"] /\
  type_text (l_return l) = $"std::tuple<bool, int, std::optional<float>, std::array<double, 3>>".
Proof. vm_compute. repeat split. Qed.

(** ** C60, C44, C61: strings *)

Theorem C60_signature : forall o f l, adapt_const_char_null o f = Some l -> each_shown shown_null_string (f_params f) (l_params l).
Proof. exact chars_signature. Qed.
Print Assumptions C60_signature.

Example C60_signature_case : let f := a_function $"f" (plain $"void") [a_param (plain $"int") $"a"; Param chars $"label" [] $"NULL"] in
  let l := the (adapt_const_char_null sample f) in
  adapt_const_char_null sample f = Some l /\ map param_text (l_params l) = [$"int a"; $"std::optional<std::string> label = std::nullopt"].
Proof. vm_compute. repeat split. Qed.

(** A list of strings and its size become one vector; see C44_overlap_refuted for parameters which cannot be grouped. *)
Theorem C44_signature : forall o f l gs, adapt_string_list o f = Some l -> grouped o (f_params f) gs -> Forall2 shown_group gs (l_params l).
Proof. exact strings_signature. Qed.
Print Assumptions C44_signature.
Theorem C44_signature_alone : forall o f l, adapt_string_list_alone o f = Some l -> each_shown shown_strings (f_params f) (l_params l).
Proof. exact strings_alone_signature. Qed.
Print Assumptions C44_signature_alone.

Definition items : param := Param (CType [$"char"] [$"const"] [$"*"]) $"items" $"[]" [].
Example C44_signature_case :
  let f := a_function $"f" (plain $"void") [a_param (plain $"int") $"a"; items; a_param (plain $"int") $"items_count"] in
  let l := the (adapt_string_list sample f) in
  adapt_string_list sample f = Some l /\
  grouped sample (f_params f) [Alone (a_param (plain $"int") $"a"); Pair items (a_param (plain $"int") $"items_count")] /\
  map param_text (l_params l) = [$"int a"; $"const std::vector<std::string> & items"].
Proof.
  cbv zeta. split; [reflexivity|]. split; [|reflexivity].
  apply grouped_alone. { intros [S _]. apply string_list_spec in S. discriminate S. }
  apply grouped_pair; [apply string_list_spec; reflexivity|reflexivity| |constructor].
  intros [S _]. apply string_list_spec in S. discriminate S.
Qed.
Example C44_signature_alone_case :
  let f := a_function $"f" (plain $"void") [a_param (plain $"int") $"a"; items] in
  let l := the (adapt_string_list_alone sample f) in
  adapt_string_list_alone sample f = Some l /\ string_list items /\
  map param_text (l_params l) = [$"int a"; $"const std::vector<std::string> & items"].
Proof. cbv zeta. split; [reflexivity|]. split; [|reflexivity]. apply string_list_spec. reflexivity. Qed.

Theorem C61_signature : forall o f l firsts text dots,
  adapt_variadic o f = Some l -> like_printf f firsts text dots -> l_params l = firsts ++ [text].
Proof. exact variadic_signature. Qed.
Print Assumptions C61_signature.

Example C61_signature_case :
  let dots := Param (CType [] [] [$"..."]) [] [] [] in
  let f := a_function $"Text" (plain $"void") [a_param (plain $"int") $"a"; a_param chars $"fmt"; dots] in
  let l := the (adapt_variadic sample f) in
  adapt_variadic sample f = Some l /\ like_printf f [a_param (plain $"int") $"a"] (a_param chars $"fmt") dots.
Proof. cbv zeta. split; [reflexivity|]. repeat split. left. reflexivity. Qed.

(** ** C59: default values which can be modified *)

(** The parameters adapted are those whose default value could be modified by a call. *)
Theorem C59_applies : forall o f,
  (o_mutable_default o (f_name f) = true /\ exists p, In p (f_params f) /\ fresh_default o p) <->
  exists l, adapt_mutable_default o f = Some l.
Proof. exact fresh_applies. Qed.
Print Assumptions C59_applies.
Theorem C59_signature : forall o f l, adapt_mutable_default o f = Some l -> each_shown (shown_fresh o) (f_params f) (l_params l).
Proof. exact fresh_signature. Qed.
Print Assumptions C59_signature.

Example C59_applies_case :
  fresh_default sample (Param (CType [$"Foo"] [$"const"] [$"&"]) $"foo" [] $"Foo()") /\
  fresh_default sample (Param (plain $"Foo") $"foo" [] $"Foo{1, 2}") /\
  ~ fresh_default sample (Param (reference $"Foo") $"foo" [] $"global_foo") /\
  ~ fresh_default sample (Param (plain $"Foo") $"foo" [] $"int(3)") /\
  ~ fresh_default sample (Param (plain $"int") $"n" [] $"f()").
Proof. rewrite <- !seems_mutable_spec. vm_compute. repeat split; discriminate. Qed.

(** ** C40: arrays of fixed size *)

Theorem C40_signature : forall o f l, adapt_c_arrays o f = Some l -> each_shown (shown_array o (f_name f)) (f_params f) (l_params l).
Proof. exact array_signature. Qed.
Print Assumptions C40_signature.

Example C40_signature_case :
  let f := a_function $"f" (plain $"void")
    [a_param (plain $"int") $"a"; Param (plain $"int") $"v" $"[2]" []; Param (CType [$"int"] [$"const"] []) $"w" $"[3]" [];
     Param (plain $"Foo") $"x" $"[2]" []] in
  let l := the (adapt_c_arrays sample f) in
  adapt_c_arrays sample f = Some l /\
  map param_text (l_params l) = [$"int a"; $"BoxedInt & v_0"; $"BoxedInt & v_1"; $"const std::array<int, 3>& w"; $"Foo & x_0"; $"Foo & x_1"].
Proof. vm_compute. repeat split. Qed.
