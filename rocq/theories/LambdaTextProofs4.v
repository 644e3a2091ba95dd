From Verif Require Import PyStr PyStrLemmas PyDict PyNum RegionsModel TextModel TextSpec TextProofs FillModel FillSpec FillProofs FillProofs2 FillProofs3 FillProofs4
  TypeTextModel LambdaModel ChainModel LambdaTextSpec CommentProofs3 CommentProofs4 NumberProofs2 NamedProofs3 LambdaTextProofs LambdaTextProofs2 LambdaTextProofs3.
(** Proofs about the text of the lambdas, continued: the whole. *)

Lemma end_is i f l : white i -> W (called f) -> W (result_of (f_return f)) -> Forall W (flat_map expr_words (l_args l)) ->
  match l_end l with Ordinary output => Forall W (flat_map stmt_words output) | ReturnAll outs => Forall W outs | ByType _ _ _ _ _ => False end ->
  settled (end_text i f l) /\ code_lines (end_text i f l) = clean (end_lines f l).
Proof.
  intros Wi Wc Wr Wa We. unfold end_text, end_lines. destruct (l_end l) as [output|outs|]; [|
    |contradiction].
  - apply ordinary_end; auto.
  - destruct (return_end f (l_args l) outs) as [A B]; auto. split; [exact A|]. refine (eq_trans B _). unfold store_text, returned, call_of. destruct (is_void _), outs as [|x [|y outs]]; reflexivity.
Qed.

Definition head_pieces : list piece := [Text $"auto "; Hole $"lambda_name"; Text $" = ["; Hole $"lambda_captures"; Text $"]("; Hole $"adapted_python_parameters"; Text $")";
  Hole $"lambda_return_arrow"; Text ([nl] ++ $"{" ++ [nl])].
Definition input_pieces : list piece := [Hole $"_i_"; Hole $"maybe_lambda_input_code"; Text [nl]].
Definition tail_pieces : list piece := [Hole $"_i_"; Hole $"lambda_template_end"; Text ([nl] ++ $"};" ++ [nl])].
Lemma remove_one t x : replace_in_string_remove_line_if_none t [x] = replace_or_remove t x.
Proof. reflexivity. Qed.
Lemma lambda_none : replace_or_remove lambda_template ($"maybe_lambda_input_code", None) = render (head_pieces ++ tail_pieces).
Proof. vm_compute. reflexivity. Qed.
Lemma lambda_some : lambda_template = render (head_pieces ++ input_pieces ++ tail_pieces).
Proof. vm_compute. reflexivity. Qed.
Definition input_text (i : str) (ss : list stmt) : option str := match stmts_text i ss with [] => None | t => Some (indent_code t 1 true (Some i) true) end.
Definition arrow_text (l : lambda) : str := if is_void (result_of (l_return l)) then [] else $" -> " ++ result_of (l_return l).
Lemma captures_is f : join $", " (map (fun c => "&"%char :: c) (captures f)) = captured f.
Proof. unfold captures, captured. destruct (f_to_call f); [reflexivity|]. destruct (f_is_method f); reflexivity. Qed.
Lemma params_is ps : params_text ps = join $", " (map parameter ps).
Proof. unfold params_text. rewrite (map_ext param_text parameter); [reflexivity|]. intros p. unfold param_text, parameter. destruct (p_default p); reflexivity. Qed.
Lemma param_W p : Forall W (param_words p) -> W (parameter p).
Proof.
  unfold param_words, parameter. rewrite !Forall_cons_iff. intros (H1 & H2 & H3 & H4 & _). destruct (p_default p) as [|c t]; words.
Qed.
Lemma lambda_is i f l n : white i ->
  Forall W [l_name l; captured f; arrow_text l; join $", " (map parameter (l_params l))] -> neutral K n ->
  (forall v, input_text i (l_input l) = Some v -> neutral K v) ->
  n = indent_code (end_text i f l) 1 true (Some i) true ->
  lambda_text i f l = ($"auto " ++ l_name l ++ $" = [" ++ captured f ++ $"](" ++ join $", " (map parameter (l_params l)) ++ $")" ++ arrow_text l)
    ++ nl :: $"{" ++ nl :: (match input_text i (l_input l) with None => [] | Some v => i ++ v ++ [nl] end) ++ i ++ n ++ nl :: $"};" ++ [nl].
Proof.
  intros Wi Wh Nn Ni En. unfold lambda_text. cbv zeta. rewrite remove_one, captures_is, params_is. rewrite <- En. clear En.
  assert (A : (if seqb (lambda_return_text l) $"void" then [] else $" -> " ++ lambda_return_text l) = arrow_text l) by (unfold arrow_text; rewrite void_is; reflexivity).
  rewrite A. clear A.
  change (match stmts_text i (l_input l) with [] => None | c :: t => Some (indent_code (c :: t) 1 true (Some i) true) end) with (input_text i (l_input l)).
  rewrite !Forall_cons_iff in Wh. destruct Wh as ([W1 _] & [W2 _] & [W3 _] & [W4 _] & _). pose proof (W_white i Wi) as [WI _]. clear Wi.
  set (a := l_name l) in *. clearbody a. set (b := captured f) in *. clearbody b. set (c := arrow_text l) in *. clearbody c.
  set (ps := join $", " (map parameter (l_params l))) in *. clearbody ps.
  set (d := [($"_i_", i); ($"lambda_name", a); ($"lambda_captures", b); ($"lambda_return_arrow", c); ($"adapted_python_parameters", ps); ($"lambda_template_end", n)]).
  match goal with |- replace_in_string _ ?D = _ => change D with d end.
  destruct (input_text i (l_input l)) as [v|]; [specialize (Ni v eq_refl)|].
  - rewrite fill_more, lambda_some.
    rewrite (fill_all K); [|apply smem_incl; reflexivity|apply names_ok; reflexivity|unfold d; cbn [map snd]; repeat (apply Forall_cons; [assumption|]); apply Forall_nil|holes].
    clear. assert (P : map (fill (($"maybe_lambda_input_code", v) :: d)) (head_pieces ++ input_pieces ++ tail_pieces) =
      [Text $"auto "; Text a; Text $" = ["; Text b; Text $"]("; Text ps; Text $")"; Text c; Text ([nl] ++ $"{" ++ [nl]); Text i; Text v; Text [nl]; Text i; Text n;
       Text ([nl] ++ $"};" ++ [nl])]) by reflexivity.
    rewrite P. unfold render. cbn [map concat written]. flatten_text. reflexivity.
  - refine (eq_trans (f_equal (fun t => replace_in_string t d) lambda_none) _). cbn beta.
    rewrite (fill_all K); [|apply smem_incl; reflexivity|apply names_ok; reflexivity|unfold d; cbn [map snd]; repeat (apply Forall_cons; [assumption|]); apply Forall_nil|holes].
    clear. assert (P : map (fill d) (head_pieces ++ tail_pieces) =
      [Text $"auto "; Text a; Text $" = ["; Text b; Text $"]("; Text ps; Text $")"; Text c; Text ([nl] ++ $"{" ++ [nl]); Text i; Text n; Text ([nl] ++ $"};" ++ [nl])]) by reflexivity.
    rewrite P. unfold render. cbn [map concat written]. flatten_text. reflexivity.
Qed.

Lemma ends_nl_app (a b : str) : (exists t, b = t ++ [nl]) -> exists t, a ++ b = t ++ [nl].
Proof. intros (t & ->). exists (a ++ t). apply app_assoc. Qed.
Lemma ends_nl_cons c (b : str) : (exists t, b = t ++ [nl]) -> exists t, c :: b = t ++ [nl].
Proof. intros (t & ->). exists (c :: t). reflexivity. Qed.
Lemma lambda_code_more i f l : white i -> ends_here l -> Forall W (lambda_words f l) ->
  (exists t, lambda_text i f l = t ++ [nl]) /\ code_lines (lambda_text i f l) = clean (lambda_lines f l).
Proof.
  intros Wi Eh F. unfold lambda_words in F. rewrite !Forall_app, !Forall_cons_iff in F. destruct F as ((Wn & Wc & Wk & Wr & Wfr & _) & Wp & Wa & Win & Wend).
  destruct (end_is i f l) as [Se Ce]; auto.
  { unfold ends_here in Eh. destruct (l_end l); auto. }
  assert (Wps : W (join $", " (map parameter (l_params l)))).
  { apply W_join; [words|]. clear - Wp. induction (l_params l) as [|p ps IH]; [constructor|]. cbn [flat_map] in Wp. apply Forall_app in Wp. destruct Wp. constructor; auto using param_W. }
  assert (War : W (arrow_text l)) by (unfold arrow_text; destruct (is_void _); words).
  pose proof (settled_stmts i (l_input l) Wi Win) as Sin. pose proof (stmts_code i (l_input l) Wi Win) as Cin.
  set (n := indent_code (end_text i f l) 1 true (Some i) true).
  assert (Cn : code_lines n = clean (end_lines f l)) by (unfold n; rewrite code_lines_indent; auto).
  rewrite (lambda_is i f l n); auto.
  - assert (WH : W ($"auto " ++ l_name l ++ $" = [" ++ captured f ++ $"](" ++ join $", " (map parameter (l_params l)) ++ $")" ++ arrow_text l)) by words.
    assert (I : code_lines (match input_text i (l_input l) with None => [] | Some v => i ++ v ++ [nl] end) = clean (flat_map statement (l_input l))
                /\ forall t, code_lines ((match input_text i (l_input l) with None => [] | Some v => i ++ v ++ [nl] end) ++ t) = clean (flat_map statement (l_input l)) ++ code_lines t).
    { unfold input_text. destruct (stmts_text i (l_input l)) as [|c t]; [rewrite <- Cin; split; auto|]. rewrite <- Cin.
      assert (Q : forall u, code_lines ((i ++ indent_code (c :: t) 1 true (Some i) true ++ [nl]) ++ u) = code_lines (c :: t) ++ code_lines u).
      { intros u. rewrite <- !app_assoc. rewrite code_lines_prefix by auto. cbn [app]. rewrite code_lines_nl, code_lines_indent by auto. reflexivity. }
      split; [|exact Q]. specialize (Q []). rewrite app_nil_r in Q. rewrite Q. apply app_nil_r. }
    destruct I as [_ I]. split.
    + apply ends_nl_app, ends_nl_cons, ends_nl_app, ends_nl_cons, ends_nl_app, ends_nl_app, ends_nl_app, ends_nl_cons, ends_nl_app. exists []. reflexivity.
    + rewrite code_lines_nl. rewrite (code_lines_nl $"{"). rewrite I. rewrite (code_lines_prefix i) by auto.
      rewrite code_lines_nl, Cn. rewrite (code_lines_nl $"};" []). rewrite code_lines_one by (apply WH).
      unfold lambda_lines. rewrite !clean_app. change ([signature_line f l; $"{"]) with ([signature_line f l] ++ [$"{"]). rewrite clean_app, <- !app_assoc. reflexivity.
  - apply settled_neutral. apply settled_indent; auto.
  - intros v. unfold input_text. destruct (stmts_text i (l_input l)) as [|c t]; [discriminate|]. intros E. injection E as <-. apply settled_neutral. apply settled_indent; auto.
Qed.
Lemma chain_code i ls : white i -> Forall (fun fl => ends_here (snd fl) /\ Forall W (lambda_words (fst fl) (snd fl))) ls ->
  code_lines (adapter_code i ls) = flat_map (fun fl => clean (lambda_lines (fst fl) (snd fl))) ls.
Proof.
  intros Wi F. induction F as [|(f, l) ls (E & H) F IH]; auto. unfold adapter_code in *. cbn [map concat flat_map fst snd] in *. rewrite <- IH.
  destruct (lambda_code_more i f l Wi E H) as ((t & T) & C). rewrite <- C, T. rewrite <- app_assoc. cbn [app]. rewrite !code_lines_nl. rewrite app_nil_r. reflexivity.
Qed.
