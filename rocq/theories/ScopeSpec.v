(** Specifications for C15 to C19, independent of the model's helpers. *)
From Verif Require Import PyStr ScopeModel.

(** A part of a scope as C++ writes it: not empty and without colon. *)
Definition clean (p : str) : Prop := p <> [] /\ ~ In ":"%char p.

(** *** C16: the lexical structure of a piece of code *)

(** A word is made of word characters and of [::]. *)
Inductive unit_ := UChar (c : ascii) | UColons.
Definition unit_text (u : unit_) : str := match u with UChar c => [c] | UColons => [":"; ":"]%char end.

Inductive lexeme :=
  | Word (units : list unit_)
  | Other (c : ascii)
  | Lit (body : str)
  | Com (body : str).

Definition word_text (units : list unit_) : str := flat_map unit_text units.
Definition lexeme_text (l : lexeme) : str :=
  match l with
  | Word units => word_text units
  | Other c => [c]
  | Lit body => [dq] ++ body ++ [dq]
  | Com body => ["/"; "/"]%char ++ body
  end.
Definition text (ls : list lexeme) : str := flat_map lexeme_text ls.

(** What qualifying must give: only words change. *)
Definition on_words (f : str -> str) (l : lexeme) : str :=
  match l with
  | Word units => f (word_text units)
  | _ => lexeme_text l
  end.

(** The contents of a string literal: no quote, unless escaped in C++; escaped quotes are
    excluded here (see the refutation). *)
Inductive lit_body : str -> Prop :=
  | lb_nil : lit_body []
  | lb_char c s : c <> dq -> c <> bsl -> lit_body s -> lit_body (c :: s)
  | lb_escape c s : c <> dq -> lit_body s -> lit_body (bsl :: c :: s).

(** The first character of what follows. *)
Definition next_char (ls : list lexeme) : option ascii := hd_error (text ls).

(** Well formed sequences. A word is followed by a separator or by the end; a comment by a line
    end or by the end. Character literals and block comments are excluded. *)
Fixpoint wf (ls : list lexeme) : Prop :=
  match ls with
  | [] => True
  | Word units :: r =>
      units <> [] /\
      Forall (fun u => match u with UChar c => is_word c = true | UColons => True end) units /\
      match r with [] | Other _ :: _ => True | _ => False end /\ wf r
  | Other c :: r =>
      is_word c = false /\ c <> dq /\ c <> "'"%char /\
      (c = ":"%char -> next_char r <> Some ":"%char) /\
      (c = "/"%char -> next_char r <> Some "/"%char /\ next_char r <> Some "*"%char) /\ wf r
  | Lit body :: r => lit_body body /\ wf r
  | Com body :: r =>
      ~ In nl body /\ match r with [] => True | Other c :: _ => c = nl | _ => False end /\ wf r
  end.

(** *** C17: C++ lookup of a possibly qualified name *)

(** The name looked up from the first [n] parts of the scope. *)
Definition candidate (sc : scope) (n : nat) (name : str) : str :=
  match firstn n sc with
  | [] => name
  | ps => join [":"; ":"]%char (ps ++ [name])
  end.
(** [id] is what the lookup finds: declared in the scope made of the first [n] parts, and no name
    is declared in a longer one. *)
Definition lookup_finds (ids : list str) (sc : scope) (name id : str) : Prop :=
  exists n, n <= length sc /\ id = candidate sc n name /\ In id ids /\
  forall m, n < m <= length sc -> ~ In (candidate sc m name) ids.
Definition lookup_fails (ids : list str) (sc : scope) (name : str) : Prop :=
  forall n, n <= length sc -> ~ In (candidate sc n name) ids.

(** Whatever happens, the result is the token or a known name reached by successive lookups. *)
Inductive reached (ids : list str) (sc : scope) : str -> str -> Prop :=
  | reached_refl t : reached ids sc t t
  | reached_step t n u : n <= length sc -> In (candidate sc n t) ids ->
      reached ids sc (candidate sc n t) u -> reached ids sc t u.

(** A known name is not itself reachable from another known one, by a non-empty prefix. *)
Definition no_chain (ids : list str) (sc : scope) : Prop :=
  forall id n, In id ids -> 0 < n <= length sc -> ~ In (candidate sc n id) ids.

(** *** C19: histories of queries *)

(** Runs the queries of a history on an object and returns the object. *)
Definition run {O R} (query : O -> scope -> R * O) (o : O) (history : list scope) : O :=
  fold_left (fun o sc => snd (query o sc)) history o.
(** A function object on which no query was made. *)
Definition fresh (own : scope) (cls : option str) (ret : list str) (ps : list decl) : func_obj :=
  {| fo_own := own; fo_class := cls; fo_return := ret;
     fo_params := map (fun d => {| o_decl := d; o_cache := None |}) ps;
     fo_qualified := []; fo_terse := [] |}.

(** *** C18: what shortening a name may do *)

(** [short] is obtained from the name [id] inside the scope [sc]: [outer] holds the parts of the
    scope before the first one named like the first part of [id] (nothing when there is none), and
    the parts that [id] shares with the rest of the scope are removed, always keeping the last part
    of [id]. *)
Definition shortened (sc id short : list str) : Prop :=
  exists outer common rest,
    sc = outer ++ common ++ rest /\ id = common ++ short /\ short <> [] /\
    (outer = [] \/ exists x, hd_error id = Some x /\ ~ In x outer /\ hd_error (common ++ rest) = Some x) /\
    ((forall x, hd_error id = Some x -> In x sc -> hd_error (common ++ rest) = Some x)) /\
    (length short = 1 \/ rest = [] \/ hd_error short <> hd_error rest).
