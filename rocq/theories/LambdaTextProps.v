From Verif Require Import PyStr PyStrLemmas PyDict PyNum TextModel FillSpec FillProofs TypeTextModel LambdaModel AdapterModel AdapterProps BufferModel BufferProps ChainModel ChainProps
  LambdaTextSpec LambdaTextProofs LambdaTextProofs2 LambdaTextProofs3 LambdaTextProofs4.
(** The C++ code written for the lambdas: C68.

    [lambda_text i f l] is the code written for the lambda [l] around the function [f], [i] the indentation; [adapter_code i ls]
    is the code of all of them.  The lines which must be written are in LambdaTextSpec.v. *)

(** Partial: the names, types and default values hold no placeholder of the templates, and are on one line; nothing is said of
    the lambdas which choose the call by the type of the items of a buffer. *)
Theorem C68_lambda_partial i f l : white i -> ends_here l -> Forall writable_word (lambda_words f l) ->
  code_lines (lambda_text i f l) = clean (lambda_lines f l).
Proof. intros Wi E F. exact (proj2 (lambda_code_more i f l Wi E F)). Qed.
Print Assumptions C68_lambda_partial.
(** The same of all the lambdas, one after the other. *)
Theorem C68_chain_partial i ls : white i -> Forall (fun fl => ends_here (snd fl) /\ Forall writable_word (lambda_words (fst fl) (snd fl))) ls ->
  code_lines (adapter_code i ls) = flat_map (fun fl => clean (lambda_lines (fst fl) (snd fl))) ls.
Proof. exact (chain_code i ls). Qed.
Print Assumptions C68_chain_partial.

Lemma words_by_check ws : forallb (fun s => neutralb lambda_names s && negb (contains [nl] s)) ws = true -> Forall writable_word ws.
Proof. intros H. apply Forall_forall. rewrite forallb_forall in H. intros w I. apply W_check. auto. Qed.
Lemma white_spaces : white $"    ".
Proof. split; [reflexivity|]. intros H. cbn in H. repeat (destruct H as [H|H]; [discriminate H|]). exact H. Qed.

Example C68_lambda_case : let f := slider_back in let l := the (adapt_to_return sample f) in
  white $"    " /\ ends_here l /\ Forall writable_word (lambda_words f l) /\
  clean (lambda_lines f l) =
  [$"auto SliderInt_adapt_modifiable_immutable_to_return = [](const char * label, std::optional<int> value = std::nullopt, float step, std::array<int, 3> rgb) -> std::tuple<bool, std::optional<int>, float, std::array<int, 3>>";
   $"{"; $"int * value_adapt_modifiable = nullptr;"; $"if (value.has_value())"; $"value_adapt_modifiable = & (*value);";
   $"float & step_adapt_modifiable = step;"; $"int * rgb_adapt_modifiable = rgb.data();";
   $"bool r = SliderInt(label, value_adapt_modifiable, step_adapt_modifiable, rgb_adapt_modifiable);"; $"return std::make_tuple(r, value, step, rgb);"; $"};"].
Proof.
  cbv zeta. split; [apply white_spaces|]. split; [vm_compute; auto|]. split; [apply words_by_check; vm_compute; reflexivity|]. vm_compute. reflexivity.
Qed.
(** Seven lambdas around one method: the first one is written for a buffer of a known type. *)
Definition everything_known : func := Func $"do_all" $"Foo::do_all" $"do_all" true
  (a_param (const_pointer $"double") $"xs" :: tl (f_params everything)) (CType [$"int"] [] [$"&"]) true None.
Example C68_chain_case : let ls := links everything_known false in
  white $"    " /\ length ls = 7 /\ Forall (fun fl => ends_here (snd fl) /\ Forall writable_word (lambda_words (fst fl) (snd fl))) ls /\
  firstn 3 (flat_map (fun fl => clean (lambda_lines (fst fl) (snd fl))) ls) =
  [$"auto do_all_adapt_c_buffers = [&self](const py::array & xs, bool flag = true, int v[2], const char * hint = NULL, int & value, const char * items[], int items_count, const Foo & foo = Foo()) -> int &";
   $"{"; $"// Check if the array is 1D and C-contiguous"] /\
  In $"auto& lambda_result = self.do_all(static_cast<const double *>(xs_from_pyarray), static_cast<size_t>(xs_count), flag, v, hint, value, items, items_count, foo);"
    (code_lines (adapter_code $"    " ls)).
Proof.
  cbv zeta. split; [apply white_spaces|]. split; [vm_compute; reflexivity|]. split; [|split].
  - apply Forall_forall. intros fl I. assert (Q : forallb (fun fl => (match l_end (snd fl) with ByType _ _ _ _ _ => false | _ => true end) &&
      forallb (fun s => neutralb lambda_names s && negb (contains [nl] s)) (lambda_words (fst fl) (snd fl))) (links everything_known false) = true) by (vm_compute; reflexivity).
    rewrite forallb_forall in Q. specialize (Q fl I). apply andb_prop in Q. destruct Q as [Q1 Q2]. split; [|apply words_by_check; exact Q2]. unfold ends_here. destruct (l_end (snd fl)); auto. discriminate.
  - vm_compute. reflexivity.
  - vm_compute. tauto.
Qed.

(** What is between braces in a default value is taken for a placeholder: void use_foo(const Foo & foo = Foo with a string
    between braces). *)
Theorem C68_braces_refuted : exists f l, adapt_mutable_default sample f = Some l /\
  In ($"return Foo(" ++ [dq] ++ $"{lambda_name}" ++ [dq] ++ $");") (clean (lambda_lines f l)) /\
  ~ In ($"return Foo(" ++ [dq] ++ $"{lambda_name}" ++ [dq] ++ $");") (code_lines (lambda_text $"    " f l)) /\
  In ($"return Foo(" ++ [dq] ++ l_name l ++ [dq] ++ $");") (code_lines (lambda_text $"    " f l)).
Proof.
  exists (a_function $"use_foo" (plain $"void") [Param (CType [$"Foo"] [$"const"] [$"&"]) $"foo" [] ($"Foo(" ++ [dq] ++ $"{lambda_name}" ++ [dq] ++ $")")]).
  eexists. split; [vm_compute; reflexivity|]. split; [|split].
  - vm_compute. tauto.
  - vm_compute. intros H. repeat (destruct H as [H|H]; [discriminate H|]). exact H.
  - vm_compute. tauto.
Qed.
Print Assumptions C68_braces_refuted.
