From Verif Require Import PyStr PyStrLemmas PyDict PyNum RegionsModel TextModel TextSpec TextProofs FillModel FillSpec FillProofs FillProofs2 FillProofs3 FillProofs4
  TypeTextModel LambdaModel ChainModel LambdaTextSpec CommentProofs3 CommentProofs4 NumberProofs2 NamedProofs3 LambdaTextProofs LambdaTextProofs2.
(** Proofs about the text of the lambdas, continued: the lambdas. *)

(** ** Texts which stay as they are when the templates are filled *)

Definition tidy (z : str) : Prop := z = [] \/ exists s c, z = s ++ [c] /\ is_space c = false /\ outside K c.
Definition settled (t : str) : Prop := Forall (hole_free K) (lines t) /\ tidy (last (lines t) []).
Lemma settled_neutral t : settled t -> neutral K t.
Proof.
  intros [F T]. rewrite <- (unlines_lines t) in *. pose proof (lines_no_nl t) as N. destruct (exists_last (l := lines t) (split_on_nonempty _ _)) as (L & z & E).
  rewrite E in *. rewrite lines_unlines in F, T by (auto; destruct L; discriminate). rewrite last_last in T.
  assert (U : unlines (L ++ [z]) = match L with [] => z | _ => unlines L ++ nl :: z end).
  { clear. induction L as [|a L IH]; auto. change (unlines ((a :: L) ++ [z])) with (unlines (a :: (L ++ [z]))). unfold unlines in *. destruct L as [|b L]; [reflexivity|].
    change ((b :: L) ++ [z]) with (b :: (L ++ [z])) in *. cbn [join]. cbn [join] in IH. rewrite IH. rewrite <- !app_assoc. reflexivity. }
  destruct T as [->|(s & c & -> & _ & O)].
  - rewrite U. destruct L as [|a L]; [apply W_nil|]. change (nl :: []) with [nl]. apply neutral_text; [apply names_one_line| |apply outside_nl].
    change (nl :: []) with [nl] in U. rewrite <- U. rewrite lines_unlines; auto. discriminate.
  - destruct L as [|a L].
    + cbn [app] in *. unfold unlines. cbn [join]. apply neutral_text; auto using names_one_line. unfold lines. rewrite split_on_single; [exact F|]. inversion N; auto.
    + rewrite U. replace (unlines (a :: L) ++ nl :: s ++ [c]) with ((unlines (a :: L) ++ nl :: s) ++ [c]) in * by (rewrite <- app_assoc; reflexivity).
      apply neutral_text; auto using names_one_line. rewrite <- U. rewrite lines_unlines; auto. discriminate.
Qed.
Lemma lines_indent_is i t : white i -> lines (indent_code t 1 true (Some i) true) =
  match lines t with a :: b :: r => rstrip a :: map (indent_line i true) (b :: r) | L => L end.
Proof.
  intros Wi. pose proof (lines_no_nl t) as N. unfold indent_code. destruct (lines t) as [|a r] eqn:E; [apply split_on_nonempty in E; tauto|].
  destruct r as [|b r]; [exact E|]. inversion N as [|? ? Na Nr]; subst x l. cbn [app]. rewrite lines_render_app. change (rstrip a :: map (indent_line i true) (b :: r)) with ([rstrip a] ++ map (indent_line i true) (b :: r)).
  apply (f_equal2 (@app str)).
  - apply split_on_single. apply rstrip_no_nl. auto.
  - unfold indent_code_str. rewrite (lines_unlines (b :: r)) by (auto; discriminate). apply lines_unlines.
    + discriminate.
    + apply Forall_map. eapply Forall_impl; [|exact Nr]. intros l. apply indent_no_nl. auto.
Qed.
Lemma tidy_indent i z : tidy z -> tidy (indent_line i true z).
Proof.
  intros [->|(s & c & -> & S & O)]; [left; reflexivity|]. right. unfold indent_line. destruct (s ++ [c]) as [|x r] eqn:E; [destruct s; discriminate|].
  rewrite <- E. rewrite rstrip_solid_end by auto. exists (i ++ s), c. rewrite app_assoc. auto.
Qed.
Lemma settled_indent i t : white i -> settled t -> settled (indent_code t 1 true (Some i) true).
Proof.
  intros Wi [F T]. split; [apply lines_indent; auto|]. rewrite lines_indent_is by auto. destruct (lines t) as [|a r]; auto. destruct r as [|b r]; auto.
  destruct (exists_last (l := b :: r) ltac:(discriminate)) as (L & z & E). rewrite E in *. rewrite map_app. cbn [map].
  change (rstrip a :: map (indent_line i true) L ++ [indent_line i true z]) with ((rstrip a :: map (indent_line i true) L) ++ [indent_line i true z]).
  change (a :: L ++ [z]) with ((a :: L) ++ [z]) in T. rewrite last_last in *. apply tidy_indent. auto.
Qed.
Lemma last_app_lines (a b : list str) : b <> [] -> last (a ++ b) [] = last b [].
Proof. intros N. destruct (exists_last N) as (L & z & ->). rewrite app_assoc, !last_last. reflexivity. Qed.
Lemma settled_nl a b : Forall (hole_free K) (lines a) -> settled b -> settled (a ++ nl :: b).
Proof.
  intros A [B T]. split; rewrite lines_render_app; [apply Forall_app; auto|]. rewrite last_app_lines; auto. apply split_on_nonempty.
Qed.
Lemma W_lines s : W s -> lines s = [s].
Proof. intros [_ N]. apply split_on_single. auto. Qed.
Lemma W_lines_free s : W s -> Forall (hole_free K) (lines s).
Proof. intros H. rewrite W_lines by auto. repeat constructor. apply neutral_free. apply H. Qed.
Lemma settled_word s : W (s ++ $";") -> settled (s ++ $";").
Proof.
  intros H. split; [apply W_lines_free; auto|]. rewrite W_lines by auto. cbn [last]. right. exists s, ";"%char. repeat split; auto. apply outside_semi.
Qed.
Lemma settled_stmts i ss : white i -> Forall W (flat_map stmt_words ss) -> settled (stmts_text i ss).
Proof. intros Wi F. split; [apply stmts_free; auto|]. rewrite stmts_lines by auto. rewrite last_last. left. reflexivity. Qed.
Lemma settled_stripped i ss : white i -> Forall W (flat_map stmt_words ss) -> settled (strip_empty_lines (stmts_text i ss)).
Proof.
  intros Wi F. destruct (strip_empty_lines_spec (stmts_text i ss)) as (pre & kept & post & E & B1 & B2 & D & ->).
  pose proof (stmts_free i ss Wi F) as H. pose proof (lines_no_nl (stmts_text i ss)) as N. rewrite E, !Forall_app in H, N.
  destruct D as [->|(x & y & m & D & Nx & Ny)]; [split; [repeat constructor; apply free_nil|left; reflexivity]|].
  assert (Q : exists L, kept = L ++ [y]) by (destruct D as [(-> & -> & _)| ->]; [exists []; reflexivity|exists (x :: m); reflexivity]). destruct Q as (L & ->).
  split; rewrite lines_unlines; try tauto; try (destruct L; discriminate). rewrite last_last. right.
  rewrite stmts_lines in E by auto. destruct (stmts_ends i ss (pre ++ L) y (removelast post)) as (s & ->); auto.
  - destruct post as [|p post] using rev_ind.
    + rewrite app_nil_r in E. rewrite app_assoc in E. apply app_inj_tail in E. destruct E as [_ <-]. exfalso. apply Ny. constructor.
    + rewrite removelast_last. rewrite <- !app_assoc in E. cbn [app] in E.
      replace (pre ++ L ++ y :: post ++ [p]) with ((pre ++ L ++ y :: post) ++ [p]) in E by (rewrite <- !app_assoc; reflexivity).
      apply app_inj_tail in E. destruct E as [-> _]. rewrite <- app_assoc. reflexivity.
  - destruct post as [|p post] using rev_ind; [constructor|]. rewrite removelast_last. apply Forall_app in B2. tauto.
  - exists s, ";"%char. repeat split; auto. apply outside_semi.
Qed.

(** ** The end of a lambda *)

Lemma void_is t : is_void t = seqb t $"void".
Proof. unfold is_void. destruct (list_eq_dec ascii_dec t $"void") as [->|N]; [reflexivity|]. symmetry. apply seqb_false. auto. Qed.
Lemma returns_void_is f : returns_void f = is_void (result_of (f_return f)).
Proof. rewrite void_is. reflexivity. Qed.
Definition call_pieces : list piece := [Hole $"auto_r_equal_or_void"; Hole $"function_or_lambda_to_call"; Text $"("; Hole $"adapted_cpp_parameters"; Text $");"].
Definition start_text (f : func) : str := if is_void (result_of (f_return f)) then [] else (if f_returns_ref f then $"auto& lambda_result = " else $"auto lambda_result = ").
Lemma auto_is f : auto_text f = start_text f.
Proof. unfold auto_text, start_text. rewrite returns_void_is. destruct (is_void _), (f_returns_ref f); reflexivity. Qed.
Definition output_text (i : str) (output : list stmt) : option str := match stmts_text i output with [] => None | o => Some (nl :: strip_empty_lines o) end.
Ltac holes := repeat first [apply Forall_nil | apply Forall_cons; [first [exact (W_nil)|(apply name_ok; vm_compute; reflexivity)|(apply neutralb_true; vm_compute; reflexivity)]|]].
Definition output_pieces : list piece := [Text [nl]; Hole $"maybe_lambda_output_code"].
Definition return_pieces : list piece := [Text ([nl] ++ $"return lambda_result;")].
Lemma remove_two t x y : replace_in_string_remove_line_if_none t [x; y] = replace_or_remove (replace_or_remove t x) y.
Proof. reflexivity. Qed.
Lemma fill_more t k v d : replace_in_string (replace_or_remove t (k, Some v)) d = replace_in_string t ((k, v) :: d).
Proof. reflexivity. Qed.
Lemma call_none : replace_or_remove call_template ($"maybe_return_r", None) = render (call_pieces ++ output_pieces).
Proof. vm_compute. reflexivity. Qed.
Lemma call_none_none : replace_or_remove (render (call_pieces ++ output_pieces)) ($"maybe_lambda_output_code", None) = render call_pieces.
Proof. vm_compute. reflexivity. Qed.
Lemma call_some : replace_or_remove call_template ($"maybe_return_r", Some $"return lambda_result") = render (call_pieces ++ output_pieces ++ return_pieces).
Proof. vm_compute. reflexivity. Qed.
Lemma call_some_none : replace_or_remove (render (call_pieces ++ output_pieces ++ return_pieces)) ($"maybe_lambda_output_code", None) = render (call_pieces ++ return_pieces).
Proof. vm_compute. reflexivity. Qed.
Lemma ordinary_is i f args output :
  white i -> W (called f) -> Forall W (flat_map expr_words args) -> Forall W (flat_map stmt_words output) ->
  ordinary_end_text i f args output =
  (start_text f ++ called f ++ $"(" ++ join $", " (map expression args) ++ $");")
  ++ (match output_text i output with None => [] | Some o => nl :: o end) ++ (if is_void (result_of (f_return f)) then [] else nl :: $"return lambda_result;").
Proof.
  intros Wi Wc Wa Wo. unfold ordinary_end_text. cbv zeta. rewrite returns_void_is, auto_is, args_text.
  change (match stmts_text i output with [] => None | c :: t => Some (nl :: strip_empty_lines (c :: t)) end) with (output_text i output).
  change (function_or_lambda_to_call f) with (called f).
  assert (Ws : W (start_text f)) by (unfold start_text; destruct (is_void _), (f_returns_ref f); words).
  assert (Wj : W (join $", " (map expression args))) by (apply W_join; [words|apply exprs_W; auto]).
  assert (No : forall v, output_text i output = Some v -> neutral K v).
  { unfold output_text. intros v. destruct (stmts_text i output) as [|c o] eqn:E; [discriminate|]. intros Q. injection Q as <-. rewrite <- E.
    apply neutral_cons_nl. apply settled_neutral. apply settled_stripped; auto. }
  set (a := join $", " (map expression args)) in *. clearbody a. set (b := start_text f) in *. clearbody b. set (g := called f) in *. clearbody g.
  pose proof (W_white i Wi) as WI. destruct WI as [WI _]. destruct Wj as [Wj _]. destruct Ws as [Ws _]. destruct Wc as [Wc _]. clear Wa Wo Wi.
  set (d := [($"_i_", i); ($"auto_r_equal_or_void", b); ($"function_or_lambda_to_call", g); ($"adapted_cpp_parameters", a)]).
  destruct (is_void _), (output_text i output) as [o|]; try specialize (No o eq_refl).
  - rewrite remove_two, call_none, fill_more.
    rewrite (fill_all K); [|apply smem_incl; reflexivity|apply names_ok; reflexivity|unfold d; cbn [map snd]; repeat (apply Forall_cons; [assumption|]); apply Forall_nil|holes].
    clear. assert (P : map (fill (($"maybe_lambda_output_code", o) :: d)) (call_pieces ++ output_pieces) = [Text b; Text g; Text $"("; Text a; Text $");"; Text [nl]; Text o]) by reflexivity.
    rewrite P. unfold render. cbn [map concat written]. flatten_text. reflexivity.
  - rewrite remove_two, call_none. refine (eq_trans (f_equal (fun t => replace_in_string t d) call_none_none) _). cbn beta.
    rewrite (fill_all K); [|apply smem_incl; reflexivity|apply names_ok; reflexivity|unfold d; cbn [map snd]; repeat (apply Forall_cons; [assumption|]); apply Forall_nil|holes].
    clear. assert (P : map (fill d) call_pieces = [Text b; Text g; Text $"("; Text a; Text $");"]) by reflexivity.
    rewrite P. unfold render. cbn [map concat written]. flatten_text. reflexivity.
  - rewrite remove_two, call_some, fill_more.
    rewrite (fill_all K); [|apply smem_incl; reflexivity|apply names_ok; reflexivity|unfold d; cbn [map snd]; repeat (apply Forall_cons; [assumption|]); apply Forall_nil|holes].
    clear. assert (P : map (fill (($"maybe_lambda_output_code", o) :: d)) (call_pieces ++ output_pieces ++ return_pieces)
      = [Text b; Text g; Text $"("; Text a; Text $");"; Text [nl]; Text o; Text ([nl] ++ $"return lambda_result;")]) by reflexivity.
    rewrite P. unfold render. cbn [map concat written]. flatten_text. reflexivity.
  - rewrite remove_two, call_some. refine (eq_trans (f_equal (fun t => replace_in_string t d) call_some_none) _). cbn beta.
    rewrite (fill_all K); [|apply smem_incl; reflexivity|apply names_ok; reflexivity|unfold d; cbn [map snd]; repeat (apply Forall_cons; [assumption|]); apply Forall_nil|holes].
    clear. assert (P : map (fill d) (call_pieces ++ return_pieces) = [Text b; Text g; Text $"("; Text a; Text $");"; Text ([nl] ++ $"return lambda_result;")]) by reflexivity.
    rewrite P. unfold render. cbn [map concat written]. flatten_text. reflexivity.
Qed.
Lemma settled_cons_nl b : settled b -> settled (nl :: b).
Proof. intros H. apply (settled_nl []); auto. repeat constructor; apply free_nil. Qed.
Lemma code_lines_cons_nl b : code_lines (nl :: b) = code_lines b.
Proof. exact (code_lines_nl [] b). Qed.
Lemma ordinary_end i f args output :
  white i -> W (called f) -> Forall W (flat_map expr_words args) -> Forall W (flat_map stmt_words output) ->
  settled (ordinary_end_text i f args output) /\
  code_lines (ordinary_end_text i f args output) =
  clean ([start_text f ++ called f ++ $"(" ++ join $", " (map expression args) ++ $");"] ++ flat_map statement output
         ++ (if is_void (result_of (f_return f)) then [] else [$"return lambda_result;"])).
Proof.
  intros Wi Wc Wa Wo. rewrite ordinary_is by auto.
  assert (Ws : W (start_text f)) by (unfold start_text; destruct (is_void _), (f_returns_ref f); words).
  assert (Wj : W (join $", " (map expression args))) by (apply W_join; [words|apply exprs_W; auto]).
  set (X := start_text f ++ called f ++ $"(" ++ join $", " (map expression args) ++ $");").
  assert (WX : W X) by (unfold X; words).
  assert (SX : settled X).
  { unfold X in *. replace (start_text f ++ called f ++ $"(" ++ join $", " (map expression args) ++ $");") with
      ((start_text f ++ called f ++ $"(" ++ join $", " (map expression args) ++ $")") ++ $";") in * by (rewrite <- !app_assoc; reflexivity). apply settled_word. exact WX. }
  clearbody X. clear Wa Wj Ws Wc.
  assert (O : match output_text i output with None => clean (flat_map statement output) = [] | Some o => settled o /\ code_lines o = clean (flat_map statement output) end).
  { pose proof (stmts_code i output Wi Wo) as C. pose proof (settled_stripped i output Wi Wo) as S1. unfold output_text. destruct (stmts_text i output) as [|c t].
    - symmetry. exact C.
    - split; [apply settled_cons_nl; auto|]. rewrite code_lines_cons_nl, code_lines_strip_empty. auto. }
  assert (R : W $"return lambda_result;") by words. assert (SR : settled $"return lambda_result;") by (apply (settled_word $"return lambda_result"); exact R).
  rewrite !clean_app. rewrite <- (code_lines_one X) by (apply WX). clear Wo. destruct (output_text i output) as [o|].
  - destruct O as [So Co]. rewrite <- Co. destruct (is_void _).
    + cbn [app]. rewrite app_nil_r. split; [apply settled_nl; auto; apply SX|]. rewrite code_lines_nl. unfold clean at 1. cbn. rewrite app_nil_r. reflexivity.
    + split; [|cbn [app]; rewrite code_lines_nl; apply f_equal; rewrite code_lines_nl; apply f_equal; apply code_lines_one; apply R].
      cbn [app]. apply settled_nl; [apply SX|]. apply settled_nl; auto. apply So.
  - rewrite O. cbn [app]. destruct (is_void _).
    + rewrite app_nil_r. split; auto. symmetry. apply app_nil_r.
    + split; [apply settled_nl; auto; apply SX|]. rewrite code_lines_nl. apply f_equal. apply code_lines_one. apply R.
Qed.

Definition all_pieces : list piece := [Hole $"maybe_store_function_output"; Hole $"lambda_to_call"; Text $"("; Hole $"params"; Text ($");" ++ [nl] ++ $"return ");
  Hole $"output_tuple"; Text $";"].
Lemma all_template : unlines [$"{maybe_store_function_output}{lambda_to_call}({params});"; $"return {output_tuple};"] = render all_pieces.
Proof. vm_compute. reflexivity. Qed.
Definition returned (f : func) (outs : list str) : str :=
  match (if is_void (result_of (f_return f)) then outs else $"r" :: outs) with [n] => n | ns => $"std::make_tuple(" ++ join $", " ns ++ $")" end.
Lemma output_tuple_is f outs : output_tuple f outs = returned f outs.
Proof. unfold output_tuple, returned. rewrite returns_void_is. destruct (is_void _); reflexivity. Qed.
Lemma returned_W f outs : Forall W outs -> W (returned f outs).
Proof.
  intros F. unfold returned. assert (G : Forall W (if is_void (result_of (f_return f)) then outs else $"r" :: outs)) by (destruct (is_void _); [auto|constructor; [words|auto]]).
  destruct (if is_void (result_of (f_return f)) then outs else $"r" :: outs) as [|a [|b r]]; [words|inversion G; auto|].
  apply W_app; [words|]. apply W_app; [|words]. apply W_join; [words|exact G].
Qed.
Definition store_text (f : func) : str := if is_void (result_of (f_return f)) then [] else result_of (f_return f) ++ $" r = ".
Lemma return_end f args outs :
  W (called f) -> W (result_of (f_return f)) -> Forall W (flat_map expr_words args) -> Forall W outs ->
  settled (return_end_text f args outs) /\
  code_lines (return_end_text f args outs) =
  clean [store_text f ++ called f ++ $"(" ++ join $", " (map expression args) ++ $");";
         $"return " ++ returned f outs ++ $";"].
Proof.
  intros Wc Wr Wa Wo. unfold return_end_text. rewrite returns_void_is, args_text, output_tuple_is, all_template.
  change (function_or_lambda_to_call f) with (called f). change (return_text f) with (result_of (f_return f)).
  assert (Wj : W (join $", " (map expression args))) by (apply W_join; [words|apply exprs_W; auto]).
  pose proof (returned_W f outs Wo) as Wt. set (t := returned f outs) in *. clearbody t. clear Wo Wa.
  assert (Wb : W (store_text f)) by (unfold store_text; destruct (is_void _); words).
  change (if is_void (result_of (f_return f)) then [] else result_of (f_return f) ++ $" r = ") with (store_text f).
  set (b := store_text f) in *. clear Wr.
  set (a := join $", " (map expression args)) in *. clearbody a. set (g := called f) in *. clearbody g.
  set (d := [($"maybe_store_function_output", b); ($"lambda_to_call", g); ($"params", a); ($"output_tuple", t)]).
  match goal with |- context[replace_in_string _ ?D] => change D with d end. clearbody b.
  rewrite (fill_all K); [|apply smem_incl; reflexivity|apply names_ok; reflexivity|unfold d; cbn [map snd]; repeat (apply Forall_cons; [match goal with H : W ?x |- neutral K ?x => apply H end|]); apply Forall_nil|holes].
  assert (P : map (fill d) all_pieces = [Text b; Text g; Text $"("; Text a; Text ($");" ++ [nl] ++ $"return "); Text t; Text $";"]) by reflexivity. rewrite P. clear P d.
  assert (E : render [Text b; Text g; Text $"("; Text a; Text ($");" ++ [nl] ++ $"return "); Text t; Text $";"] =
    (b ++ g ++ $"(" ++ a ++ $");") ++ nl :: ($"return " ++ t ++ $";")) by (unfold render; cbn [map concat written]; flatten_text; reflexivity). rewrite E. clear E.
  assert (W1 : W (b ++ g ++ $"(" ++ a ++ $");")) by words. assert (W2 : W ($"return " ++ t ++ $";")) by words. split.
  - apply settled_nl; [apply W_lines_free; auto|]. replace ($"return " ++ t ++ $";") with (($"return " ++ t) ++ $";") in * by (rewrite <- app_assoc; reflexivity). apply settled_word. auto.
  - rewrite code_lines_nl. rewrite (code_lines_one (b ++ g ++ $"(" ++ a ++ $");")) by (apply W1). rewrite code_lines_one by (apply W2). symmetry. apply (clean_app [_] [_]).
Qed.
