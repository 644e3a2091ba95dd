From Verif Require Import PyStr TypeTextModel TypeTextSpec TypeTextProofs.
From Coq Require Import Permutation.

(** Property C49: the text of a type is made of its parts. *)

(** With at most one const, the words of the text are those of the specifiers, of the names and of the modifiers,
    in this order. *)
Theorem C49_text t s : ~ occurs $"const" 2 (specifiers t) -> str_code t = Some s ->
  words s = words_of (specifiers t ++ typenames t ++ modifiers t).
Proof. intros N. exact (code_one t N s). Qed.
Print Assumptions C49_text.

Example C49_text_case : str_code (CType [$"unsigned"; $"int"] [$"static"; $"const"] [$"*"]) = Some $"static const unsigned int *".
Proof. reflexivity. Qed.

(** With two, the last one comes after the modifiers (it is the pointer which is constant). *)
Theorem C49_pointer_const t a b s : specifiers t = a ++ $"const" :: b -> In $"const" a -> ~ In $"const" b ->
  str_code t = Some s -> words s = words_of (a ++ b ++ typenames t ++ modifiers t) ++ [$"const"].
Proof. intros Q I N. exact (code_two t a b s Q N I). Qed.
Print Assumptions C49_pointer_const.

Example C49_pointer_const_case : str_code (CType [$"char"] [$"const"; $"const"] [$"*"]) = Some $"const char * const".
Proof. reflexivity. Qed.

(** Nothing is lost or added. *)
Theorem C49_keeps t s : str_code t = Some s ->
  Permutation (words s) (words_of (specifiers t ++ typenames t ++ modifiers t)).
Proof. exact (code_keeps t s). Qed.
Print Assumptions C49_keeps.

Example C49_keeps_case : str_code (CType [$"std::map<int, int>"] [] [$"&&"]) = Some $"std::map<int, int> &&" /\
  words $"std::map<int, int> &&" = [$"std::map<int,"; $"int>"; $"&&"].
Proof. split; reflexivity. Qed.

(** There is a text unless there are three const or more. *)
Theorem C49_defined t : str_code t = None <-> exists n, occurs $"const" (3 + n) (specifiers t).
Proof. exact (code_fails t). Qed.
Print Assumptions C49_defined.

Example C49_defined_case : str_code (CType [$"char"] [$"const"; $"const"; $"const"] [$"*"; $"*"]) = None.
Proof. reflexivity. Qed.

(** The text of a return type leaves out the specifiers which do not concern the value, and auto before a trailing
    return type; then the API macros at the start.  Partial: a specifier is not repeated, the parts are words, and
    no word starts with the name of an API macro without being it (see the refutation below). *)
Theorem C49_return_partial prefixes t r : NoDup (specifiers t) ->
  Forall is_word_text (specifiers t) -> Forall is_word_text (typenames t) -> Forall is_word_text (modifiers t) ->
  Forall is_word_text prefixes ->
  let ws := filter (fun s => negb (says_nothing s)) (specifiers t) ++ without_auto (typenames t) ++ modifiers t in
  whole_words prefixes ws -> drops prefixes ws r ->
  str_return_type prefixes true t = Some (join $" " r).
Proof. exact (return_without prefixes t r). Qed.
Print Assumptions C49_return_partial.

Example C49_return_case :
  let t := CType [$"MY_API"; $"int"] [$"inline"; $"const"] [$"&"] in
  let t' := CType [$"int"] [$"MY_API"; $"inline"] [$"*"] in
  str_return_type [$"MY_API"] true t = Some $"const MY_API int &" /\
  str_return_type [$"MY_API"] true t' = Some $"int *" /\
  drops [$"MY_API"] [$"MY_API"; $"int"; $"*"] [$"int"; $"*"] /\
  whole_words [$"MY_API"] [$"MY_API"; $"int"; $"*"].
Proof.
  repeat split; [repeat constructor|]. intros p w r [<-|[]] [<-|[<-|[<-|[]]]] E; cbn in E; inversion E; reflexivity.
Qed.

(** Without the removal of API macros the specifiers, names and modifiers are all there, whatever they are. *)
Theorem C49_return_words prefixes t : NoDup (specifiers t) -> exists s,
  str_return_type prefixes false t = Some s /\
  words s = words_of (filter (fun s => negb (says_nothing s)) (specifiers t) ++ without_auto (typenames t) ++ modifiers t).
Proof.
  intros N. destruct (return_text prefixes t N) as (s & E & W & _). exists s. split; [exact E|exact W].
Qed.
Print Assumptions C49_return_words.

Example C49_return_words_case :
  str_return_type [$"MY_API"] false (CType [$"auto"; $"std::vector<int, A>"] [$"virtual"] [$"&"]) = Some $"std::vector<int, A> &".
Proof. reflexivity. Qed.

(** False: removing an API macro changes the type when its name starts with the same letters. *)
Theorem C49_api_prefix_refuted : ~ (forall prefixes t s, str_return_type prefixes false t = Some s ->
  ~ In (hd [] (words s)) prefixes -> str_return_type prefixes true t = Some s).
Proof.
  intros H. specialize (H [$"API"] (CType [$"APIString"] [] []) $"APIString" eq_refl).
  assert (K : ~ In (hd [] (words $"APIString")) [$"API"]) by (intros [E|[]]; discriminate). specialize (H K). discriminate H.
Qed.
Print Assumptions C49_api_prefix_refuted.

(** False: a function returning a constant pointer to a constant has no return type text. *)
Theorem C49_return_const_refuted : ~ (forall prefixes t s, str_code t = Some s ->
  exists r, str_return_type prefixes true t = Some r).
Proof.
  intros H. destruct (H [] (CType [$"char"] [$"const"; $"const"] [$"*"]) _ eq_refl) as (r & E). discriminate E.
Qed.
Print Assumptions C49_return_const_refuted.
