(** Properties C37, C38 and C57. *)
From Coq Require Import ZArith.
From Verif Require Import PyStr PyStrLemmas PublishModel PublishSpec PublishProofs.

(** *** C37: operators *)

(** A method with the sign and the number of parameters of an operation has the name of that operation in
    Python. *)
Theorem C37_meaning : forall f op, declares f (cpp_sign op) -> length (f_params f) = operands op ->
  cpp_to_python_operator_name f = PyName (python_method op).
Proof. exact operator_meaning. Qed.
Print Assumptions C37_meaning.
Theorem C37_call : forall f, declares f $"()" -> cpp_to_python_operator_name f = PyName $"__call__".
Proof. exact operator_call. Qed.
Print Assumptions C37_call.
(** No other method is given the name of a special method. *)
Theorem C37_only : forall f m, cpp_to_python_operator_name f = PyName m ->
  (exists op, declares f (cpp_sign op) /\ length (f_params f) = operands op /\ m = python_method op) \/
  declares f $"()" /\ m = $"__call__" \/
  declares f $"<=>" /\ length (f_params f) = 1 /\ m = $"<=>".
Proof. exact operator_only. Qed.
Print Assumptions C37_only.
(** Operators with the same Python name have the same sign and, but for calls, the same number of parameters. *)
Theorem C37_distinct : forall f g m,
  cpp_to_python_operator_name f = PyName m -> cpp_to_python_operator_name g = PyName m ->
  exists sign, declares f sign /\ declares g sign /\ (length (f_params f) = length (f_params g) \/ sign = $"()").
Proof. exact operator_distinct. Qed.
Print Assumptions C37_distinct.
(** An operator that is not rejected has a Python name. *)
Theorem C37_named : forall f, is_operator (f_name f) = true -> supported_operator f = true ->
  exists m, cpp_to_python_operator_name f = PyName m.
Proof. exact operator_named. Qed.
Print Assumptions C37_named.
(** Operators that are not methods are rejected. *)
Theorem C37_free_operators : forall f, is_operator (f_name f) = true -> f_is_method f = false -> supported_operator f = false.
Proof. exact free_operator. Qed.
Print Assumptions C37_free_operators.
(** The three-way comparison gives five comparisons, each with the value it has in C++. *)
Theorem C37_spaceship : forall f, declares f $"<=>" -> length (f_params f) = 1 ->
  forall r, exists codes,
    python_methods f = map (fun p => (PyName (python_method (fst p)), Some (snd p))) codes /\
    map fst codes = [Less; LessEqual; Equal; GreaterEqual; Greater] /\
    Forall (fun p => lambda_value (snd p) r = holds (fst p) r) codes.
Proof. exact spaceship. Qed.
Print Assumptions C37_spaceship.

Definition point : ctype := Type_ [] $"Point".
Definition method (name : string) (ps : list ctype) : func := Func $name true [] (Some point) ps.
Example C37_case :
  map cpp_to_python_operator_name
    [method "operator-" [point]; method "operator -" []; method "operator*" []; method "operator bool" []; method "operator=" [point];
     method "operator()" [point; point]] =
  [PyName $"__sub__"; PyName $"__neg__"; Unsupported; PyName $"__bool__"; Unsupported; PyName $"__call__"].
Proof. vm_compute. reflexivity. Qed.
Example C37_declares_case : declares (method "operator -" []) (cpp_sign Negate) /\ declares (method "operator<=>" [point]) $"<=>".
Proof. split; [exists [sp], []|exists [], []]; repeat split; auto. Qed.

(** An ordinary function whose name starts like an operator is rejected. *)
Theorem C37_ordinary_name_refuted : exists f, f_name f = $"operators_count" /\ supported_operator f = false.
Proof. exists (Func $"operators_count" false [] (Some point) []). vm_compute. auto. Qed.
Print Assumptions C37_ordinary_name_refuted.

(** *** C38: functions *)

(** A function is published when nothing excludes it and it is part of the API, or the others are wanted as well. *)
Theorem C38_exact : forall search template o f even_if b,
  is_function_publishable search template o f even_if = Some b ->
  (b = true <-> ~ excluded search template o f /\ (fn_exclude_non_api o = false /\ even_if = false \/ in_api o f)).
Proof. exact publishable_exact. Qed.
Print Assumptions C38_exact.
(** The decision is made for every function but free functions named like a destructor. *)
Theorem C38_decided : forall search template o f even_if,
  startswith $"~" (f_name f) = false \/ f_is_method f = true ->
  exists b, is_function_publishable search template o f even_if = Some b.
Proof. exact publishable_total. Qed.
Print Assumptions C38_decided.
(** Prefixes joined by bars are all accepted, and nothing else. *)
Theorem C38_prefixes : forall o ps, Forall (fun p => p <> [] /\ ~ In "|"%char p) ps -> ps <> [] ->
  functions_api_prefixes o = join $"|" ps -> forall p, accepted_prefix o p <-> In p ps.
Proof. exact prefixes_joined. Qed.
Print Assumptions C38_prefixes.
(** The functions that are published without being part of the API, and only they, get the comment of the
    options. *)
Theorem C38_comment : forall search template o f comment,
  startswith $"~" (f_name f) = false \/ f_is_method f = true ->
  fn_non_api_comment o <> [] -> ~ excluded search template o f ->
  comment_if_non_published_api search template o f comment =
    match comment with [] => fn_non_api_comment o | _ => comment ++ nl :: fn_non_api_comment o end /\
    fn_exclude_non_api o = false /\ ~ in_api o f \/
  comment_if_non_published_api search template o f comment = comment /\ (fn_exclude_non_api o = true \/ in_api o f).
Proof. exact comment_exact. Qed.
Print Assumptions C38_comment.

(** Plain words as regular expressions. *)
Definition C38_options (exclude_non_api : bool) (signatures : list (str * str)) : options :=
  Options (Regex $"|secret") (Regex $"Callback") signatures $"API|PUBLIC_API" exclude_non_api $"(not API)"
    (Regex $"Hidden") (Regex []) (Regex $"detail") (Matcher (startswith $"MY_")) (Regex []).
Definition free (name : string) (sp : list str) (ps : list str) : func :=
  Func $name false [] (Some (Type_ sp $"void")) (map (Type_ []) ps).
Example C38_case :
  map (fun f => is_function_publishable contains (fun _ => false) (C38_options true [($"f", $"int, int")]) f false)
    [free "f" [$"API"] [$"int"; $"int"]; free "f" [$"API"] [$"int"]; free "f" [$"static"] [$"int"]; free "secret_f" [$"API"] [];
     free "g" [$"PUBLIC_API"] [$"MyCallback"]; free "A::f" [$"API"] []] =
  [Some false; Some true; Some false; Some false; Some false; Some false].
Proof. vm_compute. reflexivity. Qed.
Example C38_comment_case :
  let o := C38_options false [] in
  is_function_publishable contains (fun _ => false) o (free "h" [] []) false = Some true /\
  comment_if_non_published_api contains (fun _ => false) o (free "h" [] []) $" Does it" = $" Does it" ++ nl :: $"(not API)".
Proof. vm_compute. auto. Qed.

(** The rule on name and signature cannot exclude a function without parameters. *)
Theorem C38_empty_signature_refuted : exists o f,
  fn_exclude_by_name_and_signature o = [(f_name f, [])] /\ f_params f = [] /\
  is_function_publishable contains (fun _ => false) o f false = Some true.
Proof. exists (C38_options true [($"f", [])]), (free "f" [$"API"] []). vm_compute. auto. Qed.
Print Assumptions C38_empty_signature_refuted.
(** A rule that is a single bar, as when two empty rules are joined, excludes every function, although an empty rule
    matches nothing. An empty regular expression matches everywhere in Python. *)
Theorem C38_bar_refuted : forall search, (forall word, search [] word = true) ->
  forall word, does_match search (Regex []) word = false /\ does_match search (Regex $"|") word = true.
Proof. intros search H word. split; [reflexivity|]. apply H. Qed.
Print Assumptions C38_bar_refuted.

(** *** C57: blocks *)

(** The elements of a block are the wanted parts of its children, in order; a child that raises gives a warning,
    and what it gave before stays. *)
Theorem C57_filled : forall search template o succeeds cs r w,
  fill_adapted_elements search template o succeeds cs = Some (r, w) ->
  filled (wanted search template o) succeeds cs r w.
Proof. exact fill_spec. Qed.
Print Assumptions C57_filled.
Theorem C57_succeeds : forall search template o succeeds cs,
  (forall f, In (CFunction f) cs -> startswith $"~" (f_name f) = false \/ f_is_method f = true) ->
  exists r w, fill_adapted_elements search template o succeeds cs = Some (r, w).
Proof. exact fill_succeeds. Qed.
Print Assumptions C57_succeeds.
(** What comes before and after a child does not depend on it. *)
Theorem C57_independent : forall search template o succeeds before c after r w,
  fill_adapted_elements search template o succeeds (before ++ c :: after) = Some (r, w) ->
  exists rb wb rc wc ra wa,
    fill_adapted_elements search template o succeeds before = Some (rb, wb) /\
    fill_adapted_elements search template o succeeds [c] = Some (rc, wc) /\
    fill_adapted_elements search template o succeeds after = Some (ra, wa) /\
    r = rb ++ rc ++ ra /\ w = wb ++ wc ++ wa.
Proof. exact fill_middle. Qed.
Print Assumptions C57_independent.

Definition C57_children : list child :=
  [CComment $" above"; CFunction (free "f" [$"API"] []); CStruct $"Hidden"; CStruct $"Shown"; CFunction (free "g" [] []);
   CNamespace [] true; CNamespace $"Ns" true; CDefine $"MY_X" true; CDefine $"X" true; CEmptyLine].
Example C57_case :
  fill_adapted_elements contains (fun _ => false) (C38_options true [])
    (fun a => match a with AChild (CStruct _) => false | _ => true end) C57_children =
  Some ([AChild (CComment $" above"); AChild (CFunction (free "f" [$"API"] [])); AChild (CNamespace $"Ns" true);
         AChild (CDefine $"MY_X" true); AChild CEmptyLine], [CStruct $"Shown"]).
Proof. vm_compute. reflexivity. Qed.

(** When one variable of a declaration fails, the variables after it are lost as well. *)
Theorem C57_declarations_refuted : exists o succeeds r w,
  fill_adapted_elements contains (fun _ => false) o succeeds [CDecls [$"a"; $"b"; $"c"]] = Some (r, w) /\
  wanted contains (fun _ => false) o (ADecl $"c") /\ succeeds (ADecl $"c") = true /\ ~ In (ADecl $"c") r.
Proof.
  exists (Options (Regex []) (Regex []) [] [] false [] (Regex []) (Regex []) (Regex []) (Regex []) (Matcher (fun _ => true))),
    (fun a => match a with ADecl n => negb (seqb n $"b") | _ => true end), [ADecl $"a"], [CDecls [$"a"; $"b"; $"c"]].
  split; [reflexivity|]. split; [reflexivity|]. split; [reflexivity|]. intros [H|[]]. discriminate H.
Qed.
Print Assumptions C57_declarations_refuted.
