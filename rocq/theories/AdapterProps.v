From Verif Require Import PyStr PyStrLemmas PyDict PyNum TypeTextModel LambdaModel LambdaSpec AdapterModel AdapterSpec
  LambdaProofs AdapterProofs AdapterProofs2 AdapterProofs3 AdapterProofs4 AdapterProofs5 SignatureSpec SignatureProofs.
(** What the C++ function receives through the lambda written by each adapter, and what becomes of its result: C40, C41,
    C42, C43, C44, C59, C60, C61.

    In all theorems, [well_named f l] says that no name is declared twice in the lambda and none hides something it
    uses, [xs] are the arguments given by Python, [m] is the memory before the call, [c] is any C++ function. *)

(** ** Samples *)

Definition yes (_ : str) : bool := true.
Definition no (_ : str) : bool := false.
Definition sizes (s : str) : option nat := if seqb s $"[2]" then Some 2 else if seqb s $"[3]" then Some 3 else None.
Definition sample : options :=
  Options false (startswith $"flag") (endswith $"Callback") yes no no no yes yes 4 sizes true yes yes yes (endswith $"_count") no.
Definition plain (name : str) : ctype := CType [name] [] [].
Definition pointer (name : str) : ctype := CType [name] [] [$"*"].
Definition reference (name : str) : ctype := CType [name] [] [$"&"].
Definition chars : ctype := CType [$"char"] [$"const"] [$"*"].
Definition a_param (t : ctype) (n : str) : param := Param t n [] [].
Definition a_function (name : str) (r : ctype) (ps : list param) : func := Func name name name false ps r false None.
Definition the (l : option lambda) : lambda := match l with Some l => l | None => Lambda [] [] (plain []) [] [] (Ordinary []) end.
Ltac named := apply well_named_by_check; vm_compute; reflexivity.

(** ** C41: excluded parameters *)

(** The parameters of the lambda are those which are not hidden, in order; a parameter without default value is never
    hidden. *)
Theorem C41_signature : forall o f l, adapt_exclude_params o f = Some l -> without (hidden o) (f_params f) (l_params l).
Proof. exact exclude_signature. Qed.
Print Assumptions C41_signature.

Theorem C41_applies : forall o f,
  (exists p, In p (f_params f) /\ hidden o p) <-> exists l, adapt_exclude_params o f = Some l.
Proof. exact exclude_applies. Qed.
Print Assumptions C41_applies.

(** Partial: the names of the lambda must not clash. *)
Theorem C41_receives_partial : forall o f l xs m,
  adapt_exclude_params o f = Some l -> well_named f l -> result_fits f -> Forall2 (fits m) (l_params l) xs ->
  exists x ys, with_defaults (hidden o) (m ++ x) (f_params f) xs ys /\
    forall c, call f l c xs m = bind (c ys (m ++ x)) (handed_back f).
Proof. exact exclude_call. Qed.
Print Assumptions C41_receives_partial.

Definition foo_excluded : func := a_function $"foo" (plain $"void")
  [a_param (plain $"int") $"a"; a_param (plain $"bool") $"flag1"; Param (plain $"MyCallback") $"callback" [] $"nullptr";
   Param (plain $"bool") $"flag2" [] $"true"].
(** The text expected by the test of the project. *)
Example C41_text : lambda_text $"    " foo_excluded (the (adapt_exclude_params sample foo_excluded)) = unlines
  [$"auto foo_adapt_exclude_params = [](int a, bool flag1)"; $"{"; $"    foo(a, flag1, nullptr, true);"; $"};"; []].
Proof. vm_compute. reflexivity. Qed.
Example C41_receives_case : let f := foo_excluded in let l := the (adapt_exclude_params sample f) in
  let xs := [AVal (VAtom $"1"); AVal (VAtom $"False")] in
  adapt_exclude_params sample f = Some l /\ well_named f l /\ result_fits f /\ Forall2 (fits []) (l_params l) xs /\
  call f l (fun ys m => Ok (AVal (VTuple (map (fun y => match y with AVal v => v | ARef _ => VUnset end) ys)), m)) xs []
    = Ok (AVal VVoid, [VAtom $"1"; VAtom $"False"]).
Proof.
  cbv zeta. split; [reflexivity|]. split; [named|]. split; [intros _; reflexivity|]. split; [|vm_compute; reflexivity].
  repeat constructor; discriminate.
Qed.

(** A default value written with the name of another parameter gets the argument of this parameter instead: the lambda of
    f(int m = n, int n = 2), where m is hidden, uses its own n.  (In C++ the default value was a global n.) *)
Theorem C41_capture_refuted : exists o f l xs, adapt_exclude_params o f = Some l /\ result_fits f /\
  NoDup (map p_name (f_params f)) /\ Forall2 (fits []) (l_params l) xs /\ l_args l = [EText $"n"; EName $"n"] /\
  map p_name (l_params l) = [$"n"].
Proof.
  set (f := a_function $"f" (plain $"void") [Param (plain $"int") $"flag" [] $"n"; Param (plain $"int") $"n" [] $"2"]).
  exists sample, f, (the (adapt_exclude_params sample f)), [AVal (VAtom $"5")]. split; [reflexivity|].
  split; [intros _; reflexivity|]. split; [apply distinct_NoDup; reflexivity|]. split; [repeat constructor; discriminate|].
  split; reflexivity.
Qed.
Print Assumptions C41_capture_refuted.

(** ** C43: boxed parameters *)

Theorem C43_applies : forall o f,
  (o_boxed o (f_name f) = true /\ exists p, In p (f_params f) /\ modified p) <-> exists l, adapt_boxed o f = Some l.
Proof. exact boxed_applies. Qed.
Print Assumptions C43_applies.

(** Partial: the names of the lambda must not clash, and a modified parameter is not an array (int * v[2]). *)
Theorem C43_receives_partial : forall o f l xs m,
  adapt_boxed o f = Some l -> well_named f l -> result_fits f -> Forall2 (fits_boxed m) (f_params f) xs ->
  exists x ys, Forall3 (unboxed (m ++ x)) (f_params f) xs ys /\
    forall c, call f l c xs m = bind (c ys (m ++ x)) (handed_back f).
Proof. exact boxed_call. Qed.
Print Assumptions C43_receives_partial.

Definition slider : func := a_function $"SliderInt" (plain $"bool")
  [a_param chars $"label"; Param (pointer $"int") $"value" [] $"nullptr"; a_param (reference $"float") $"step"].
Example C43_text : lambda_text $"    " slider (the (adapt_boxed sample slider)) = unlines
  [$"auto SliderInt_adapt_modifiable_immutable = [](const char * label, BoxedInt * value = nullptr, BoxedFloat & step) -> bool";
   $"{"; $"    int * value_boxed_value = nullptr;"; $"    if (value != nullptr)";
   $"        value_boxed_value = & (value->value);"; $"    float & step_boxed_value = step.value;"; [];
   $"    auto lambda_result = SliderInt(label, value_boxed_value, step_boxed_value);"; $"    return lambda_result;"; $"};"; []].
Proof. vm_compute. reflexivity. Qed.
(** A function which writes its third parameter, and the second one if it is not null. *)
Definition slide (ys : list arg) (m : mem) : result (arg * mem) :=
  match ys with
  | [_; AVal p; ARef q] =>
      match write m q (VAtom $"0.5") with
      | Some m1 =>
          match p with
          | VPtr p => match write m1 p (VAtom $"7") with Some m2 => Ok (AVal (VAtom $"true"), m2) | None => Stuck end
          | VNull => Ok (AVal (VAtom $"false"), m1)
          | _ => Stuck
          end
      | None => Stuck
      end
  | _ => Stuck
  end.
Example C43_receives_case : let f := slider in let l := the (adapt_boxed sample f) in
  let m := [VBox (VAtom $"1"); VBox (VAtom $"0.1")] in
  let xs := [AVal (VCStr $"x"); AVal (VPtr (0, [])); ARef (1, [])] in
  adapt_boxed sample f = Some l /\ well_named f l /\ result_fits f /\ Forall2 (fits_boxed m) (f_params f) xs /\
  exists m', call f l slide xs m = Ok (AVal (VAtom $"true"), m') /\
    firstn 2 m' = [VBox (VAtom $"7"); VBox (VAtom $"0.5")].
Proof.
  cbv zeta. split; [reflexivity|]. split; [named|]. split; [intros _; reflexivity|]. split.
  2:{ eexists. split; vm_compute; reflexivity. }
  constructor; [|constructor; [|constructor; [|constructor]]]; split.
  - intros _. discriminate.
  - intros (_ & N & _). exfalso. apply N. left. reflexivity.
  - intros N. exfalso. apply N. apply modifiable_spec. reflexivity.
  - intros _. split; [reflexivity|]. split.
    + intros _. right. exists (0, []). split; [reflexivity|]. exists (VAtom $"1"). reflexivity.
    + intros N. exfalso. apply N. split; [reflexivity|]. right. reflexivity.
  - intros N. exfalso. apply N. apply modifiable_spec. reflexivity.
  - intros _. split; [reflexivity|]. split.
    + intros [P _]. discriminate P.
    + intros _. exists (1, []). split; [reflexivity|]. exists (VAtom $"0.1"). reflexivity.
Qed.

(** Two parameters v and v_boxed_value: the lambda declares a name twice. *)
Theorem C43_names_refuted : exists o f l xs m, adapt_boxed o f = Some l /\ result_fits f /\ NoDup (map p_name (f_params f)) /\
  Forall2 (fits_boxed m) (f_params f) xs /\ forall c, call f l c xs m = Stuck.
Proof.
  set (f := a_function $"f" (plain $"void") [a_param (pointer $"int") $"v"; a_param (plain $"int") $"v_boxed_value"]).
  exists sample, f, (the (adapt_boxed sample f)), [ARef (0, []); AVal (VAtom $"1")], [VBox (VAtom $"1")].
  split; [reflexivity|]. split; [intros _; reflexivity|].
  split; [apply distinct_NoDup; reflexivity|]. split; [|intros c; vm_compute; reflexivity].
  constructor; [|constructor; [|constructor]]; split.
  - intros N. exfalso. apply N. apply modifiable_spec. reflexivity.
  - intros _. split; [reflexivity|]. split.
    + intros [_ [P|P]]; discriminate P.
    + intros _. exists (0, []). split; [reflexivity|]. exists (VAtom $"1"). reflexivity.
  - intros _. discriminate.
  - intros (_ & _ & [P|P]); discriminate P.
Qed.
Print Assumptions C43_names_refuted.

(** std::size_t is boxed in a type which is not a C++ name. *)
Theorem C43_size_t_refuted : exists o f l p, adapt_boxed o f = Some l /\ f_params f = [a_param (pointer $"std::size_t") $"n"] /\
  l_params l = [p] /\ type_text (p_type p) = $"BoxedStd::size_t &".
Proof.
  set (f := a_function $"f" (plain $"void") [a_param (pointer $"std::size_t") $"n"]).
  exists sample, f, (the (adapt_boxed sample f)), (hd (a_param (plain []) []) (l_params (the (adapt_boxed sample f)))).
  repeat split; reflexivity.
Qed.
Print Assumptions C43_size_t_refuted.

(** ** C42: modified parameters given back *)

(** Partial: the names of the lambda must not clash, the function must not return a reference, and a modified parameter is
    not an array of pointers. *)
Theorem C42_returns_partial : forall o f l xs m,
  adapt_to_return o f = Some l -> well_named f l -> (returns_void f = false -> ref_type (return_text f) = false) ->
  Forall2 (fits_returned o m) (f_params f) xs ->
  exists x ys cs, through_cells (given_back o) (m ++ x) (f_params f) xs ys cs /\
    NoDup cs /\ Forall (fun c => snd c = [] /\ length m <= fst c) cs /\
    forall c, call f l c xs m = bind (c ys (m ++ x)) (with_cells f cs).
Proof. exact returned_call. Qed.
Print Assumptions C42_returns_partial.

Definition slider_back : func := a_function $"SliderInt" (plain $"bool")
  [a_param chars $"label"; Param (pointer $"int") $"value" [] $"nullptr"; a_param (reference $"float") $"step";
   Param (plain $"int") $"rgb" $"[3]" []].
Example C42_text : lambda_text $"    " slider_back (the (adapt_to_return sample slider_back)) = unlines
  [$"auto SliderInt_adapt_modifiable_immutable_to_return = [](const char * label, std::optional<int> value = std::nullopt, float step, std::array<int, 3> rgb) -> std::tuple<bool, std::optional<int>, float, std::array<int, 3>>";
   $"{"; $"    int * value_adapt_modifiable = nullptr;"; $"    if (value.has_value())";
   $"        value_adapt_modifiable = & (*value);"; $"    float & step_adapt_modifiable = step;";
   $"    int * rgb_adapt_modifiable = rgb.data();"; [];
   $"    bool r = SliderInt(label, value_adapt_modifiable, step_adapt_modifiable, rgb_adapt_modifiable);";
   $"    return std::make_tuple(r, value, step, rgb);"; $"};"; []].
Proof. vm_compute. reflexivity. Qed.
Definition slide_back (ys : list arg) (m : mem) : result (arg * mem) :=
  match ys with [a; p; q; AVal (VPtr r)] =>
    match write m r (VAtom $"255") with Some m1 => slide [a; p; q] m1 | None => Stuck end | _ => Stuck end.
Example C42_returns_case : let f := slider_back in let l := the (adapt_to_return sample f) in
  let rgb := VStdArray [VAtom $"10"; VAtom $"20"; VAtom $"30"] in
  let xs := [AVal (VCStr $"x"); AVal (VOpt (Some (VAtom $"1"))); AVal (VAtom $"0.1"); AVal rgb] in
  adapt_to_return sample f = Some l /\ well_named f l /\ (returns_void f = false -> ref_type (return_text f) = false) /\
  Forall2 (fits_returned sample []) (f_params f) xs /\
  exists m', call f l slide_back xs [] = Ok (AVal (VTuple [VAtom $"true"; VOpt (Some (VAtom $"7")); VAtom $"0.5";
                                                       VStdArray [VAtom $"255"; VAtom $"20"; VAtom $"30"]]), m').
Proof.
  cbv zeta. split; [reflexivity|]. split; [named|]. split; [intros _; reflexivity|]. split.
  2:{ eexists. vm_compute. reflexivity. }
  assert (NA : forall p n, modifiers (p_type p) <> [] -> ~ returned_array sample p n).
  { intros p n M (_ & _ & E & _). auto. }
  constructor; [|constructor; [|constructor; [|constructor; [|constructor]]]]; split.
  - intros _. discriminate.
  - intros [(_ & N & _)|[n (_ & N & _)]]; exfalso; apply N; left; reflexivity.
  - intros N. exfalso. apply N. left. apply modifiable_spec. reflexivity.
  - intros _. split.
    + intros n A. exfalso. eapply NA; [|exact A]. discriminate.
    + intros _. split; [reflexivity|]. split.
      * intros _. eexists. reflexivity.
      * intros N. exfalso. apply N. split; [reflexivity|]. right. reflexivity.
  - intros N. exfalso. apply N. left. apply modifiable_spec. reflexivity.
  - intros _. split.
    + intros n A. exfalso. eapply NA; [|exact A]. discriminate.
    + intros _. split; [reflexivity|]. split; [intros [P _]; discriminate P|].
      intros _. exists (VAtom $"0.1"). split; [reflexivity|]. discriminate.
  - intros N. exfalso. apply N. right. exists 3. split; [cbn; auto|]. split; [intros []|]. split; reflexivity.
  - intros _. split.
    + intros n _. split; [discriminate|]. eexists. reflexivity.
    + intros (_ & _ & [P|P]); discriminate P.
Qed.

(** A function with a parameter named r: this name is declared twice. *)
Theorem C42_named_r_refuted : exists o f l xs m, adapt_to_return o f = Some l /\ ref_type (return_text f) = false /\
  NoDup (map p_name (f_params f)) /\ Forall2 (fits_returned o m) (f_params f) xs /\
  forall v, call f l (fun ys m' => Ok (AVal v, m')) xs m = Stuck.
Proof.
  set (f := a_function $"f" (plain $"bool") [a_param (reference $"int") $"r"]).
  exists sample, f, (the (adapt_to_return sample f)), [AVal (VAtom $"1")], [].
  split; [reflexivity|]. split; [reflexivity|]. split; [apply distinct_NoDup; reflexivity|]. split.
  - constructor; [|constructor]. split.
    + intros N. exfalso. apply N. left. apply modifiable_spec. reflexivity.
    + intros _. split; [intros n (_ & _ & E & _); discriminate E|]. intros _. split; [reflexivity|].
      split; [intros [P _]; discriminate P|]. intros _. exists (VAtom $"1"). split; [reflexivity|]. discriminate.
  - intros v. vm_compute. reflexivity.
Qed.
Print Assumptions C42_named_r_refuted.

(** A function that returns a reference: the lambda returns std::make_tuple(r, v), a std::tuple<int, int>, as a
    std::tuple<int &, int>, which C++ refuses. *)
Theorem C42_reference_refuted : exists o f l xs m, adapt_to_return o f = Some l /\ well_named f l /\
  return_text f = $"int &" /\ lambda_return_text l = $"std::tuple<int &, int>" /\
  Forall2 (fits_returned o m) (f_params f) xs /\ forall q, call f l (fun ys m' => Ok (ARef q, m')) xs m = Stuck.
Proof.
  set (f := Func $"f" $"f" $"f" false [a_param (reference $"int") $"v"] (reference $"int") true None).
  exists sample, f, (the (adapt_to_return sample f)), [AVal (VAtom $"1")], [].
  split; [reflexivity|]. split; [named|]. split; [reflexivity|]. split; [vm_compute; reflexivity|].
  split; [|intros q; vm_compute; reflexivity].
  constructor; [|constructor]. split.
  + intros N. exfalso. apply N. left. apply modifiable_spec. reflexivity.
  + intros _. split; [intros n (_ & _ & E & _); discriminate E|]. intros _. split; [reflexivity|].
    split; [intros [P _]; discriminate P|]. intros _. exists (VAtom $"1"). split; [reflexivity|]. discriminate.
Qed.
Print Assumptions C42_reference_refuted.

(** ** C44: lists of strings *)

(** Partial: the names of the lambda must not clash, the size of a list is not a list followed by a size, its type is not
    a reference. *)
Theorem C44_receives_partial : forall o f l gs xs m,
  adapt_string_list o f = Some l -> well_named f l -> result_fits f ->
  grouped o (f_params f) gs -> Forall2 (fits_group m) gs xs ->
  exists x ys, strings_given (m ++ x) gs xs ys /\ forall c, call f l c xs m = bind (c ys (m ++ x)) (handed_back f).
Proof. exact string_list_call. Qed.
Print Assumptions C44_receives_partial.

(** Partial: the names of the lambda must not clash. *)
Theorem C44_without_size_partial : forall o f l xs m,
  adapt_string_list_alone o f = Some l -> well_named f l -> result_fits f -> Forall2 (fits_strings m) (f_params f) xs ->
  exists x ys, Forall3 (strings_alone (m ++ x)) (f_params f) xs ys /\
    forall c, call f l c xs m = bind (c ys (m ++ x)) (handed_back f).
Proof. exact string_list_alone_call. Qed.
Print Assumptions C44_without_size_partial.

Definition combo : func := a_function $"combo" (plain $"int")
  [a_param chars $"label"; Param chars $"items" $"[]" []; a_param (plain $"int") $"items_count";
   Param (CType [$"char"] [$"const"] [$"*"; $"*"]) $"more" [] $"NULL"; a_param (plain $"size_t") $"more_count"; a_param (plain $"float") $"x"].
Example C44_text : lambda_text $"    " combo (the (adapt_string_list sample combo)) = unlines
  [$"auto combo_adapt_c_string_list = [](const char * label, const std::vector<std::string> & items, const std::vector<std::string> & more, float x) -> int";
   $"{"; $"    std::vector<const char *> items_ptrs;"; $"    for (const auto& v: items)";
   $"        items_ptrs.push_back(v.c_str());"; $"    int items_count = static_cast<int>(items.size());";
   $"    std::vector<const char *> more_ptrs;"; $"    for (const auto& v: more)";
   $"        more_ptrs.push_back(v.c_str());"; $"    size_t more_count = more.size();"; [];
   $"    auto lambda_result = combo(label, items_ptrs.data(), items_count, more_ptrs.data(), more_count, x);";
   $"    return lambda_result;"; $"};"; []].
Proof. vm_compute. reflexivity. Qed.

Example C44_receives_case : let f := combo in let l := the (adapt_string_list sample f) in
  let p i := nth i (f_params f) (a_param (plain []) []) in
  let gs := [Alone (p 0); Pair (p 1) (p 2); Pair (p 3) (p 4); Alone (p 5)] in
  let m := [VVec [VAtom $"a"; VAtom $"b"]] in
  let xs := [AVal (VCStr $"x"); ARef (0, []); AVal (VVec [VAtom $"c"]); AVal (VAtom $"1.5")] in
  adapt_string_list sample f = Some l /\ well_named f l /\ result_fits f /\ grouped sample (f_params f) gs /\
  Forall2 (fits_group m) gs xs /\
  exists m', call f l (fun ys m => Ok (AVal (VTuple (flat_map (fun y => match y with AVal v => [v] | _ => [] end) ys)), m)) xs m
    = Ok (AVal (VTuple [VCStr $"x"; VItems [VCStr $"a"; VCStr $"b"]; VCast $"int" (VSize 2); VItems [VCStr $"c"]; VSize 1;
                        VAtom $"1.5"]), m').
Proof.
  cbv zeta. split; [reflexivity|]. split; [named|]. split; [intros _; reflexivity|]. split; [|split].
  - assert (SL : forall q, is_string_list q = false -> forall P, ~ (string_list q /\ P)).
    { intros q E P [S _]. apply string_list_spec in S. congruence. }
    apply grouped_alone; [apply SL; reflexivity|]. apply grouped_pair; [apply string_list_spec; reflexivity|reflexivity|apply SL; reflexivity|].
    apply grouped_pair; [apply string_list_spec; reflexivity|reflexivity|apply SL; reflexivity|].
    apply grouped_alone; [apply SL; reflexivity|]. constructor.
  - constructor; [discriminate|]. constructor; [split; [exists [$"a"; $"b"]; reflexivity|reflexivity]|].
    constructor; [split; [exists [$"c"]; reflexivity|reflexivity]|]. constructor; [discriminate|]. constructor.
  - eexists. vm_compute. reflexivity.
Qed.

Example C44_without_size_case : let f := a_function $"f" (plain $"void") [Param chars $"items" $"[]" []; a_param (plain $"int") $"n"] in
  let l := the (adapt_string_list_alone sample f) in
  let xs := [AVal (VVec [VAtom $"a"; VAtom $"b"]); AVal (VAtom $"2")] in
  adapt_string_list_alone sample f = Some l /\ well_named f l /\ result_fits f /\ Forall2 (fits_strings []) (f_params f) xs /\
  call f l (fun ys m => match ys with [AVal (VItems [a; b]); c] => Ok (c, [a; b]) | _ => Stuck end) xs []
    = Ok (AVal VVoid, [VCStr $"a"; VCStr $"b"]).
Proof.
  cbv zeta. split; [reflexivity|]. split; [named|]. split; [intros _; reflexivity|]. split; [|vm_compute; reflexivity].
  constructor; [|constructor; [|constructor]]; split.
  - intros _. exists [$"a"; $"b"]. reflexivity.
  - intros N. exfalso. apply N. apply string_list_spec. reflexivity.
  - intros N. apply string_list_spec in N. discriminate N.
  - intros _. discriminate.
Qed.

(** A list whose size is itself a list followed by a size: the function is called with four arguments for its three
    parameters. *)
Theorem C44_overlap_refuted : exists o f l, adapt_string_list o f = Some l /\ length (f_params f) = 3 /\ length (l_args l) = 4.
Proof.
  set (f := a_function $"f" (plain $"void") [Param chars $"a" $"[]" []; Param chars $"a_count" $"[]" []; a_param (plain $"int") $"b_count"]).
  exists sample, f, (the (adapt_string_list sample f)). repeat split; reflexivity.
Qed.
Print Assumptions C44_overlap_refuted.

(** ** C40: arrays of fixed size *)

Theorem C40_applies : forall o f,
  (exists p n, In p (f_params f) /\ o_array_size o (p_array p) = Some n /\
     (In $"const" (specifiers (p_type p)) -> o_array_std o (f_name f) = true) /\
     (~ In $"const" (specifiers (p_type p)) -> o_array_boxed o (f_name f) = true)) <->
  exists l, adapt_c_arrays o f = Some l.
Proof. exact arrays_apply. Qed.
Print Assumptions C40_applies.

(** What the function receives: [array_given]; what it leaves in the arrays, [array_left], is put in the boxes.
    Partial: the names of the lambda must not clash; the arrays made of boxes have no specifier, modifier or default value;
    the boxes are different objects. *)
Theorem C40_round_trip_partial : forall o f l m ss,
  adapt_c_arrays o f = Some l -> well_named f l -> result_fits f ->
  f_params f = map s_param ss -> Forall (fun s => mode o (f_name f) (s_param s) (s_mode s) /\ fits_array m s) ss ->
  exists x rs ys, Forall3 (array_given m (m ++ x)) ss rs ys /\ NoDup (cells rs) /\
    forall c, let xs := flat_map s_args ss in
      (c ys (m ++ x) = Throw -> call f l c xs m = Throw) /\
      (forall r m1 v wss, c ys (m ++ x) = Ok (r, m1) -> handed_back f (r, m1) = Ok (v, m1) ->
         Forall3 (array_left m1) ss rs wss -> ForallOrdPairs apart (flat_map s_places ss) ->
         Forall (fun q => read m1 q <> None) (flat_map s_places ss) ->
         exists m2, call f l c xs m = Ok (v, m2) /\ put m1 (flat_map s_places ss) (concat wss) m2).
Proof. exact arrays_call. Qed.
Print Assumptions C40_round_trip_partial.

Definition mixture : func := a_function $"foo" (plain $"void")
  [a_param (plain $"bool") $"flag"; Param (CType [$"double"] [$"const"] []) $"v" $"[2]" []; Param (plain $"double") $"outputs" $"[2]" []].
Example C40_text : lambda_text $"    " mixture (the (adapt_c_arrays sample mixture)) = unlines
  [$"auto foo_adapt_fixed_size_c_arrays = [](bool flag, const std::array<double, 2>& v, BoxedDouble & outputs_0, BoxedDouble & outputs_1)";
   $"{"; $"    double outputs_raw[2];"; $"    outputs_raw[0] = outputs_0.value;"; $"    outputs_raw[1] = outputs_1.value;"; [];
   $"    foo(flag, v.data(), outputs_raw);"; []; $"    outputs_0.value = outputs_raw[0];"; $"    outputs_1.value = outputs_raw[1];";
   $"};"; []].
Proof. vm_compute. reflexivity. Qed.
(** A function which copies the second element of its second parameter to the first of its third. *)
Definition copy_one (ys : list arg) (m : mem) : result (arg * mem) :=
  match ys with
  | [_; AVal (VPtr (a, [Elem 0])); AVal (VPtr q)] =>
      match read m (a, [Elem 1]) with
      | Some v => match write m q v with Some m' => Ok (AVal VVoid, m') | None => Stuck end
      | None => Stuck
      end
  | _ => Stuck
  end.
Example C40_round_trip_case : let f := mixture in let l := the (adapt_c_arrays sample f) in
  let p i := nth i (f_params f) (a_param (plain []) []) in
  let m := [VBox (VAtom $"3"); VBox (VAtom $"4")] in
  let ss := [Slot (p 0) Untouched [AVal (VAtom $"True")] []; Slot (p 1) (Std 2) [AVal (VStdArray [VAtom $"1"; VAtom $"2"])] [];
             Slot (p 2) (Boxes 2) [ARef (0, []); ARef (1, [])] [(0, [Field]); (1, [Field])]] in
  adapt_c_arrays sample f = Some l /\ well_named f l /\ result_fits f /\ f_params f = map s_param ss /\
  Forall (fun s => mode sample (f_name f) (s_param s) (s_mode s) /\ fits_array m s) ss /\
  ForallOrdPairs apart (flat_map s_places ss) /\
  exists m', call f l copy_one (flat_map s_args ss) m = Ok (AVal VVoid, m') /\ firstn 2 m' = [VBox (VAtom $"2"); VBox (VAtom $"4")].
Proof.
  cbv zeta. split; [reflexivity|]. split; [named|]. split; [intros _; reflexivity|]. split; [reflexivity|].
  split; [|split; [|eexists; split; vm_compute; reflexivity]].
  - constructor; [|constructor; [|constructor; [|constructor]]]; split.
    + reflexivity.
    + split; [|reflexivity]. eexists. split; [reflexivity|]. discriminate.
    + cbn. split; [reflexivity|]. intros N. exfalso. apply N. left. reflexivity.
    + split; [eexists; reflexivity|]. split; [reflexivity|]. split; [discriminate|reflexivity].
    + cbn. split; [intros []|]. intros _. split; [reflexivity|]. intros [E|E]; [discriminate E|lia].
    + repeat (split; [reflexivity||discriminate|]).
      assert (EL : forall q, element (nth 2 (f_params mixture) (a_param (plain []) [])) q (at_ q Field)).
      { intros q. split; auto. intros N. exfalso. apply N. apply immutable_spec. reflexivity. }
      constructor; [|constructor; [|constructor]].
      * exists (0, []), (VAtom $"3"). split; [reflexivity|]. split; [apply (EL (0, []))|]. split; [reflexivity|discriminate].
      * exists (1, []), (VAtom $"4"). split; [reflexivity|]. split; [apply (EL (1, []))|]. split; [reflexivity|discriminate].
  - constructor; [|constructor; constructor]. constructor; [|constructor]. left. discriminate.
Qed.

(** An array with a default value: the text of the lambda gives this value to the array, which C++ refuses. *)
Theorem C40_default_refuted : exists o f l xs m, adapt_c_arrays o f = Some l /\ well_named f l /\ result_fits f /\
  (forall a, In a xs -> exists q, a = ARef q /\ box_at m q) /\ length xs = length (l_params l) /\
  contains $"float v_raw[3] = NULL;" (lambda_text $"    " f l) = true /\ forall c, call f l c xs m = Stuck.
Proof.
  set (f := a_function $"f" (plain $"void") [Param (plain $"float") $"v" $"[3]" $"NULL"]).
  exists sample, f, (the (adapt_c_arrays sample f)), [ARef (0, []); ARef (1, []); ARef (2, [])], (repeat (VBox VVoid) 3).
  split; [reflexivity|]. split; [named|]. split; [intros _; reflexivity|].
  split. { intros a [<-|[<-|[<-|[]]]]; eexists; (split; [reflexivity|eexists; reflexivity]). }
  split; [reflexivity|]. split; [vm_compute; reflexivity|]. intros c. vm_compute. reflexivity.
Qed.
Print Assumptions C40_default_refuted.

(** An array of pointers to constants: the type of the new parameter is not a C++ type. *)
Theorem C40_pointers_refuted : exists o f l p, adapt_c_arrays o f = Some l /\ f_params f = [Param chars $"v" $"[2]" []] /\
  l_params l = [p] /\ type_text (p_type p) = $"const std::array<char *, 2>& *".
Proof.
  set (f := a_function $"f" (plain $"void") [Param chars $"v" $"[2]" []]).
  exists sample, f, (the (adapt_c_arrays sample f)), (hd (a_param (plain []) []) (l_params (the (adapt_c_arrays sample f)))).
  repeat split; reflexivity.
Qed.
Print Assumptions C40_pointers_refuted.

(** The parameters int v[2], int v_0: two parameters of the lambda have the same name. *)
Theorem C40_names_refuted : exists o f l, adapt_c_arrays o f = Some l /\ NoDup (map p_name (f_params f)) /\
  ~ NoDup (map p_name (l_params l)).
Proof.
  set (f := a_function $"f" (plain $"void") [Param (plain $"int") $"v" $"[2]" []; a_param (plain $"int") $"v_0"]).
  exists sample, f, (the (adapt_c_arrays sample f)). split; [reflexivity|].
  split; [apply distinct_NoDup; reflexivity|]. intros N. inversion N as [|? ? H _]. apply H. right. left. reflexivity.
Qed.
Print Assumptions C40_names_refuted.

(** ** C59: default values which can be modified *)

(** Partial: the names of the lambda must not clash, and no word of the default value is the name of a parameter. *)
Theorem C59_fresh_default_partial : forall o f l xs m,
  adapt_mutable_default o f = Some l -> well_named f l -> result_fits f ->
  Forall2 (fits_fresh o m) (f_params f) xs ->
  exists x ys, Forall3 (given_or_default o m (m ++ x)) (f_params f) xs ys /\
    forall c, call f l c xs m = bind (c ys (m ++ x)) (handed_back f).
Proof. exact default_call. Qed.
Print Assumptions C59_fresh_default_partial.

(** One such statement for each of these parameters, in order. *)
Theorem C59_holders : forall o f l, adapt_mutable_default o f = Some l -> exists keep,
  (forall p, In p (f_params f) -> (keep p = true <-> fresh_default o p)) /\ Forall2 holder (filter keep (f_params f)) (l_input l).
Proof. exact default_holders. Qed.
Print Assumptions C59_holders.

Definition use_foo : func := a_function $"use_foo" (plain $"void")
  [Param (CType [$"Foo"] [$"const"] [$"&"]) $"foo" [] $"Foo()"; Param (plain $"int") $"n" [] $"int()"].
Example C59_text : lambda_text $"    " use_foo (the (adapt_mutable_default sample use_foo)) = unlines
  [$"auto use_foo_adapt_mutable_param_with_default_value = [](const std::optional<const Foo> & foo = std::nullopt, int n = int())";
   $"{"; $"    "; $"    const Foo& foo_or_default = [&]() -> const Foo {"; $"        if (foo.has_value())"; $"            return foo.value();";
   $"        else"; $"            return Foo();"; $"    }();"; []; $"    use_foo(foo_or_default, n);"; $"};"; []].
Proof. vm_compute. reflexivity. Qed.
Example C59_holders_case : exists l s, adapt_mutable_default sample use_foo = Some l /\ l_input l = [s] /\ holder (nth 0 (f_params use_foo) (a_param (plain []) [])) s.
Proof.
  eexists _, _. split; [vm_compute; reflexivity|]. split; [reflexivity|]. eexists. split; [reflexivity|]. intros w specs mods E. injection E as <- <- <-. reflexivity.
Qed.
Example C59_fresh_default_case : let f := use_foo in let l := the (adapt_mutable_default sample f) in
  let xs := [AVal (VOpt None); AVal (VAtom $"1")] in
  adapt_mutable_default sample f = Some l /\ well_named f l /\ result_fits f /\
  Forall2 (fits_fresh sample []) (f_params f) xs /\
  call f l (fun ys m => match ys with [ARef (q, []); _] => Ok (AVal VVoid, [nth q m VUnset]) | _ => Stuck end) xs []
    = Ok (AVal VVoid, [VDefault $"Foo()"]).
Proof.
  cbv zeta. split; [reflexivity|]. split; [named|]. split; [intros _; reflexivity|]. split; [|vm_compute; reflexivity].
  constructor; [|constructor; [|constructor]]; split; rewrite <- seems_mutable_spec; intros H;
    try discriminate H; try (exfalso; apply H; reflexivity).
  - exists None. split; [reflexivity|]. discriminate.
  - discriminate.
Qed.

(** A default value which uses the name of the function's own parameter (a namespace or type of this name): it is the
    parameter that is found. *)
Theorem C59_capture_refuted : exists o f l xs, adapt_mutable_default o f = Some l /\ result_fits f /\
  NoDup (map p_name (f_params f)) /\ Forall2 (fits_fresh o []) (f_params f) xs /\ forall c, call f l c xs [] = Stuck.
Proof.
  set (f := a_function $"f" (plain $"void") [Param (plain $"Size") $"size" [] $"size::get()"]).
  exists sample, f, (the (adapt_mutable_default sample f)), [AVal (VOpt None)]. split; [reflexivity|].
  split; [intros _; reflexivity|]. split; [apply distinct_NoDup; reflexivity|]. split; [|intros c; vm_compute; reflexivity].
  constructor; [|constructor]; split; rewrite <- seems_mutable_spec; intros H; try (exfalso; apply H; reflexivity).
  exists None. split; [reflexivity|]. discriminate.
Qed.
Print Assumptions C59_capture_refuted.

(** ** C60: null strings *)

(** Partial: the names of the lambda must not clash. *)
Theorem C60_null_string_partial : forall o f l xs m,
  adapt_const_char_null o f = Some l -> well_named f l -> result_fits f -> Forall2 (fits_null_string m) (f_params f) xs ->
  exists x ys, Forall3 (null_or_chars (m ++ x)) (f_params f) xs ys /\
    forall c, call f l c xs m = bind (c ys (m ++ x)) (handed_back f).
Proof. exact chars_call. Qed.
Print Assumptions C60_null_string_partial.

Definition label : func := a_function $"label" (plain $"int") [Param chars $"text" [] $"NULL"; Param chars $"hint" [] $"nullptr"].
Example C60_text : lambda_text $"    " label (the (adapt_const_char_null sample label)) = unlines
  [$"auto label_adapt_const_char_pointer_with_default_null = [](std::optional<std::string> text = std::nullopt, std::optional<std::string> hint = std::nullopt) -> int";
   $"{"; $"    const char * text_adapt_default_null = nullptr;"; $"    if (text.has_value())";
   $"        text_adapt_default_null = text.value().c_str();"; $"    const char * hint_adapt_default_null = nullptr;"; $"    if (hint.has_value())";
   $"        hint_adapt_default_null = hint.value().c_str();"; [];
   $"    auto lambda_result = label(text_adapt_default_null, hint_adapt_default_null);"; $"    return lambda_result;"; $"};"; []].
Proof. vm_compute. reflexivity. Qed.
Example C60_null_string_case : let f := label in let l := the (adapt_const_char_null sample f) in
  let xs := [AVal (VOpt None); AVal (VOpt (Some (VAtom $"h")))] in
  adapt_const_char_null sample f = Some l /\ well_named f l /\ result_fits f /\ Forall2 (fits_null_string []) (f_params f) xs /\
  exists m', call f l (fun ys m => match ys with [AVal a; AVal b] => Ok (AVal (VTuple [a; b]), m) | _ => Stuck end) xs []
    = Ok (AVal (VTuple [VNull; VCStr $"h"]), m').
Proof.
  cbv zeta. split; [reflexivity|]. split; [named|]. split; [intros _; reflexivity|]. split; [|eexists; vm_compute; reflexivity].
  assert (NS : forall n d, d = $"NULL" \/ d = $"nullptr" -> null_string (Param chars n [] d)).
  { intros n d H. split; [reflexivity|]. split; [left; reflexivity|]. split; [reflexivity|exact H]. }
  constructor; [|constructor; [|constructor]]; split; intros N; try (exfalso; apply N; apply NS; auto; fail).
  - split; [reflexivity|]. left. reflexivity.
  - split; [reflexivity|]. right. eexists. reflexivity.
Qed.

(** The option which asks for null strings is not enough: nothing is done unless the function also matches the option of
    the modified parameters given back. *)
Theorem C60_option_refuted : exists o f, o_const_char_null o = true /\ (forall p, In p (f_params f) -> null_string p) /\
  f_params f <> [] /\ adapt_const_char_null o f = None.
Proof.
  exists (Options false no no yes no no no yes yes 4 sizes true no yes yes no no), label. split; [reflexivity|]. split; [|split; [discriminate|reflexivity]].
  intros p [<-|[<-|[]]]; (split; [reflexivity|]); (split; [left; reflexivity|]); (split; [reflexivity|]); [left|right]; reflexivity.
Qed.
Print Assumptions C60_option_refuted.

(** ** C61: variadic functions *)

Theorem C61_applies : forall o f, (exists firsts text dots, like_printf f firsts text dots) <-> exists l, adapt_variadic o f = Some l.
Proof. exact variadic_applies. Qed.
Print Assumptions C61_applies.

(** The text given by Python is never used as a format.  Partial: the names of the lambda must not clash. *)
Theorem C61_text_is_no_format_partial : forall o f l xs a m,
  adapt_variadic o f = Some l -> well_named f l -> result_fits f ->
  forall firsts text dots, like_printf f firsts text dots -> Forall2 (fits m) firsts xs -> fits m text a ->
  exists x ys, Forall3 (same (m ++ x)) firsts xs ys /\
    forall c, call f l c (xs ++ [a]) m = bind (c (ys ++ [AVal (VLit $"%s"); a]) (m ++ x)) (handed_back f).
Proof. exact variadic_call. Qed.
Print Assumptions C61_text_is_no_format_partial.

(** Parameters without a name have received one: adapted_function.py 397-407 [add_names_to_unnamed_params]. *)
Definition dots : param := Param (CType [] [] [$"..."]) $"param_2" [] [].
Definition log : func := a_function $"Log" (plain $"void") [a_param (plain $"LogLevel") $"level"; a_param chars $"format"; dots].
Example C61_text : lambda_text $"    " log (the (adapt_variadic sample log)) = unlines
  [$"auto Log_adapt_variadic_format = [](LogLevel level, const char * format)"; $"{"; $"    Log(level, " ++ dq :: $"%s" ++ dq :: $", format);"; $"};"; []].
Proof. vm_compute. reflexivity. Qed.
Example C61_text_is_no_format_case : let f := log in let l := the (adapt_variadic sample f) in
  adapt_variadic sample f = Some l /\ well_named f l /\ result_fits f /\
  like_printf f [a_param (plain $"LogLevel") $"level"] (a_param chars $"format") dots /\
  Forall2 (fits []) [a_param (plain $"LogLevel") $"level"] [AVal (VAtom $"3")] /\ fits [] (a_param chars $"format") (AVal (VCStr $"50%")) /\
  call f l (fun ys m => match ys with [_; AVal v; AVal w] => Ok (AVal VVoid, [v; w]) | _ => Stuck end) [AVal (VAtom $"3"); AVal (VCStr $"50%")] []
    = Ok (AVal VVoid, [VLit $"%s"; VCStr $"50%"]).
Proof.
  cbv zeta. split; [reflexivity|]. split; [named|]. split; [intros _; reflexivity|].
  split; [split; [reflexivity|]; split; [left; reflexivity|]; split; reflexivity|].
  split; [repeat constructor; discriminate|]. split; [discriminate|]. vm_compute. reflexivity.
Qed.

(** With another adapter before it, the dots become a parameter with a name and an argument, which C++ refuses. *)
Theorem C61_mixed_refuted : exists o f l, adapt_boxed o f = Some l /\ (exists l', adapt_variadic o f = Some l') /\
  lambda_text $"    " f l = unlines
    [$"auto f_adapt_modifiable_immutable = [](BoxedInt & v, const char * format, ... param_2)"; $"{";
     $"    int & v_boxed_value = v.value;"; []; $"    f(v_boxed_value, format, param_2);"; $"};"; []].
Proof.
  set (f := a_function $"f" (plain $"void") [a_param (reference $"int") $"v"; a_param chars $"format"; dots]).
  exists sample, f, (the (adapt_boxed sample f)). split; [reflexivity|]. split; [eexists; reflexivity|]. vm_compute. reflexivity.
Qed.
Print Assumptions C61_mixed_refuted.
