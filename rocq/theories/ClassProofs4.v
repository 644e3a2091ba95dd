From Verif Require Import PyStr PyStrLemmas PyDict RegionsModel TextModel TextSpec TextProofs CommentModel CommentSpec FillModel FillSpec FillProofs FillProofs2 FillProofs3 FillProofs4
  NamedModel NamedProofs3 EnumModel EnumSpec EnumProofs EnumProofs2 CommentProofs3 CommentProofs4 ClassModel ClassSpec ClassProofs ClassProofs2 ClassProofs3.
(** The methods of a class. *)

Section Methods.
Variable o : class_env.
Hypothesis indent : Forall (eq sp) (cl_indent o).

Lemma reads_indent : reads (cl_indent o) [].
Proof. apply reads_white, space_eq, indent. Qed.
Lemma indent_no_nl : ~ In nl (cl_indent o).
Proof. exact (sp_no_nl _ indent). Qed.

Definition head_lexemes (sc : list part) (h : head) : list lexeme :=
  Word $"auto" :: Word (class_var (cl_roots o) (sc ++ [ClassPart (h_name h)]) (h_params h)) :: Sign "=" :: read_text (class_type o h)
  ++ [Sign "("; Word (parent_var (cl_roots o) sc); Sign ","; Str (h_python h)] ++ class_arguments o h ++ [Sign ")"].
Lemma reads_eq t t' k k' : t = t' -> k = k' -> reads t' k' -> reads t k.
Proof. intros -> ->. auto. Qed.
Lemma creation_reads sc h : writable o h -> variable_words (cl_roots o) sc h -> reads (creation_text o sc h) (head_lexemes sc h).
Proof.
  intros W [V P]. rewrite (creation_is o indent sc h W (conj V P)). cbn [concat].
  unfold head_lexemes. set (v := class_var _ _ _) in *. set (p := parent_var _ _) in *. clearbody p. clearbody v.
  pose proof (class_type_is o h) as T. pose proof (class_type_simple o h W) as CS.
  apply (reads_eq _ ($"auto " ++ (v ++ $" ") ++ ($"=" ++ [nl]) ++ cl_indent o ++ class_type o h ++ (h_location h ++ [nl]) ++ cl_indent o ++ cl_indent o ++ $"(" ++ (p ++ $",") ++ $" " ++ ([dq] ++ h_python h ++ [dq])
    ++ final_text o h ++ dynamic_text o h ++ $", " ++ ([dq] ++ class_doc o h ++ [dq]) ++ $")") _
    ([Word $"auto"] ++ [Word v] ++ [Sign "="] ++ [] ++ read_text (class_type o h) ++ [] ++ [] ++ [] ++ [Sign "("] ++ [Word p; Sign ","] ++ [] ++ [Str (h_python h)]
     ++ (if h_final h then read_text ($", " ++ library o ++ $"::is_final()") else []) ++ (if cl_dynamic o (h_name h) then read_text ($", " ++ library o ++ $"::dynamic_attr()") else [])
     ++ [Sign ","] ++ [Str (class_doc o h)] ++ [Sign ")"])).
  - rewrite T, app_nil_r. flatten_text. reflexivity.
  - unfold class_arguments. rewrite <- !app_assoc. reflexivity.
  - repeat apply reads_app.
    + exact (reads_known $"auto" " " eq_refl eq_refl).
    + refine (reads_word v " " V _ eq_refl). apply bare_by_check. reflexivity.
    + exact (reads_known $"=" nl eq_refl eq_refl).
    + apply reads_indent.
    + rewrite T. rewrite T in CS. repeat rewrite app_assoc. repeat rewrite app_assoc in CS. match goal with |- reads (?x ++ $">") _ => pose proof (reads_bare x ">" (simple_bare _ CS) eq_refl) as R end.
      change [">"%char] with $">" in R. pose proof (reads_here _ _ R) as Q. refine (eq_ind_r (fun k => reads _ k) R Q).
    + apply reads_location. apply (wr_location o h W).
    + apply reads_indent.
    + apply reads_indent.
    + exact (reads_known [] "(" eq_refl eq_refl).
    + refine (reads_word p "," P _ eq_refl). apply bare_by_check. reflexivity.
    + apply reads_white. repeat constructor.
    + apply reads_literal. apply word_literal. apply (wr_python o h W).
    + unfold final_text, lib, library. destruct (h_final h), (cl_nanobind o); try exact reads_nil; [exact (reads_known $", nb::is_final(" ")" eq_refl eq_refl)|exact (reads_known $", py::is_final(" ")" eq_refl eq_refl)].
    + unfold dynamic_text, lib, library. destruct (cl_dynamic o (h_name h)), (cl_nanobind o); try exact reads_nil;
        [exact (reads_known $", nb::dynamic_attr(" ")" eq_refl eq_refl)|exact (reads_known $", py::dynamic_attr(" ")" eq_refl eq_refl)].
    + exact (reads_known $"," " " eq_refl eq_refl).
    + apply reads_literal. apply (wr_doc o h W).
    + exact (reads_known [] ")" eq_refl eq_refl).
Qed.
Lemma arguments_level h : level 0 (class_arguments o h) = Some 0.
Proof. unfold class_arguments, library. destruct (h_final h), (cl_dynamic o (h_name h)), (cl_nanobind o); reflexivity. Qed.

(** ** Copies *)

Definition copy_names : list str := map lit ["_i_"; "qualified_class_name"; "copy_or_deep_copy"; "maybe_pydict"; "maybe_memo"; "maybe_comma"]%string.
Definition copy_pieces : list piece :=
  [FillSpec.Text ($".def(" ++ [dq] ++ $"__"); Hole $"copy_or_deep_copy"; FillSpec.Text ($"__" ++ [dq] ++ $",  [](const "); Hole $"qualified_class_name"; FillSpec.Text $" &self"; Hole $"maybe_pydict";
   FillSpec.Text ($") {" ++ [nl]); Hole $"_i_"; FillSpec.Text $"return "; Hole $"qualified_class_name"; FillSpec.Text ($"(self);" ++ [nl] ++ $"}"); Hole $"maybe_memo"; FillSpec.Text $")"].
Lemma copy_name_is k : smem k copy_names = true -> is_name k.
Proof. intros H. apply smem_In in H. pose proof (names_ok copy_names eq_refl) as F. rewrite Forall_forall in F. auto. Qed.
Definition method (deep : bool) : str := if deep then $"deepcopy" else $"copy".
Definition dict_text (deep : bool) : str := if deep then $", " ++ lib o ++ $"::dict" else [].
Definition memo_text (deep : bool) : str := if deep then $", " ++ lib o ++ $"::arg(" ++ [dq] ++ $"memo" ++ [dq] ++ $")" else [].
Lemma copy_is h deep : writable o h ->
  copy_text o h deep = concat [$".def(" ++ [dq] ++ $"__"; method deep; $"__" ++ [dq] ++ $",  [](const "; qualified_special h; $" &self"; dict_text deep; $") {" ++ [nl]; cl_indent o; $"return "; qualified_special h;
    $"(self);" ++ [nl] ++ $"}"; memo_text deep; $")"].
Proof.
  intros W. pose proof (qualified_simple o h W) as Q. unfold copy_text.
  assert (Nn : neutral copy_names []) by (intros a b k E; destruct a; discriminate).
  apply (fill_plain copy_names _ copy_pieces).
  - reflexivity.
  - unfold copy_pieces. repeat (apply Forall_cons; [first [apply copy_name_is; reflexivity|apply neutralb_true; reflexivity]|]); constructor.
  - apply smem_incl. reflexivity.
  - apply names_ok. reflexivity.
  - cbn [map snd]. repeat (apply Forall_cons; [|]); [..|apply Forall_nil].
    + apply no_brace_neutral. intros I. rewrite Forall_forall in indent. apply indent in I. discriminate.
    + apply simple_neutral; auto.
    + apply no_brace_neutral. destruct deep; cbn; intuition discriminate.
    + apply no_brace_neutral. unfold lib. destruct deep, (cl_nanobind o); cbn; intuition discriminate.
    + apply no_brace_neutral. unfold lib. destruct deep, (cl_nanobind o); cbn; intuition discriminate.
  - cbn; tauto.
  - destruct deep; reflexivity.
  - cbn [concat]. rewrite app_nil_r, !app_assoc. exact (endswith_snoc $"," " " _ ")").
  - cbn [concat]. rewrite app_nil_r, !app_assoc. exact (endswith_snoc $", )" ";" _ ")").
  - cbn [concat]. rewrite app_nil_r. rewrite !app_assoc. rewrite (endswith_snoc $", " ")" _ ")" : endswith $", )" _ = _). apply andb_false_iff. right.
    unfold memo_text. destruct deep.
    + rewrite !app_assoc. exact (endswith_snoc $"," " " _ ")").
    + rewrite app_nil_r. exact (endswith_snoc $"," " " _ "}").
Qed.
(** Its lines. *)
Definition copy_lines (h : head) (deep : bool) : list str :=
  [$".def(" ++ [dq] ++ $"__" ++ method deep ++ $"__" ++ [dq] ++ $",  [](const " ++ qualified_special h ++ $" &self" ++ dict_text deep ++ $") {";
   cl_indent o ++ $"return " ++ qualified_special h ++ $"(self);"; $"}" ++ memo_text deep ++ $")"].
Lemma copy_unlines h deep : writable o h -> copy_text o h deep = unlines (copy_lines h deep).
Proof. intros W. rewrite (copy_is h deep W). unfold unlines, copy_lines. cbn [concat join]. rewrite app_nil_r. flatten_text. reflexivity. Qed.
Definition ended (l : str) : Prop := ~ In nl l /\ exists a z, l = a ++ [z] /\ is_space z = false.
Lemma ended_indent i l : ended l -> indent_line i true l = i ++ l.
Proof. intros [_ (a & z & -> & S)]. unfold indent_line. destruct (a ++ [z]) eqn:E; [destruct a; discriminate|]. rewrite <- E. rewrite rstrip_keep by auto. reflexivity. Qed.
Lemma indent_ended i ls : ls <> [] -> Forall ended ls -> indent_code_str i true (unlines ls) = unlines (map (app i) ls).
Proof.
  intros N F. unfold indent_code_str. rewrite lines_unlines; auto; [|eapply Forall_impl; [|exact F]; intros l [H _]; exact H]. f_equal. clear N.
  induction F as [|l ls H F IH]; [reflexivity|]. cbn [map]. rewrite (ended_indent i l H), IH. reflexivity.
Qed.
Lemma copy_lines_ended h deep : writable o h -> Forall ended (copy_lines h deep).
Proof.
  intros W. pose proof (simple_no_nl _ (qualified_simple o h W)) as Q. pose proof indent_no_nl as I. unfold copy_lines, ended.
  assert (L : ~ In nl (method deep) /\ ~ In nl (dict_text deep) /\ ~ In nl (memo_text deep)).
  { unfold method, dict_text, memo_text, lib. destruct deep, (cl_nanobind o); cbn; intuition discriminate. }
  destruct L as (L1 & L2 & L3).
  repeat (apply Forall_cons; [split; [rewrite !in_app_iff; cbn; intuition discriminate|]|]); [..|apply Forall_nil].
  - exists ($".def(" ++ [dq] ++ $"__" ++ method deep ++ $"__" ++ [dq] ++ $",  [](const " ++ qualified_special h ++ $" &self" ++ dict_text deep ++ $") "), "{"%char. split; auto. flatten_text. reflexivity.
  - exists (cl_indent o ++ $"return " ++ qualified_special h ++ $"(self)"), ";"%char. split; auto. flatten_text. reflexivity.
  - exists ($"}" ++ memo_text deep), ")"%char. split; auto.
Qed.
Definition copy_call (h : head) (deep : bool) : call :=
  let q := scoped_name (h_scope h) (h_name h) ++ h_special h in
  if deep then define $"__deepcopy__" (read_text ($", [](const " ++ q ++ $" &self, " ++ library o ++ $"::dict) { return " ++ q ++ $"(self); }, " ++ library o ++ $"::arg(") ++ [Str $"memo"; Sign ")"])
  else define $"__copy__" (read_text ($", [](const " ++ q ++ $" &self) { return " ++ q ++ $"(self); }")).
Lemma reads_read t k : reads t k -> reads t (read_text t).
Proof. intros R. rewrite (reads_here _ _ R). exact R. Qed.
Definition lex_copy (q : str) (deep : bool) : list lexeme :=
  [Sign ","; Sign "["; Sign "]"; Sign "("; Word $"const"] ++ read_text q ++ [Sign "&"; Word $"self"]
  ++ (if deep then [Sign ","; Word (lib o); Sign ":"; Sign ":"; Word $"dict"] else []) ++ [Sign ")"; Sign "{"; Word $"return"] ++ read_text q
  ++ [Sign "("; Word $"self"; Sign ")"; Sign ";"; Sign "}"] ++ (if deep then [Sign ","; Word (lib o); Sign ":"; Sign ":"; Word $"arg"; Sign "("; Str $"memo"; Sign ")"] else []).
Lemma copy_call_is h deep : writable o h -> copy_call h deep = define ($"__" ++ method deep ++ $"__") (lex_copy (qualified_special h) deep).
Proof.
  intros W. pose proof (simple_bare _ (qualified_simple o h W)) as B. unfold copy_call. cbv zeta. rewrite <- qualified_is. set (q := qualified_special h) in *. clearbody q.
  assert (Bs : forall c, bare_c c = true -> bare [c]) by (intros c H; apply bare_by_check; cbn; rewrite H; reflexivity).
  pose proof (reads_then q " " B (Bs " "%char eq_refl) eq_refl) as R1. change (read_text [" "%char]) with (@nil lexeme) in R1. rewrite app_nil_r in R1.
  pose proof (reads_then q "(" B (Bs "("%char eq_refl) eq_refl) as R2. change (read_text ["("%char]) with [Sign "("] in R2.
  pose proof (reads_known $", [](const" " " eq_refl eq_refl) as R3.
  destruct deep.
  - unfold define, library, lex_copy, lib. destruct (cl_nanobind o).
    + change ([dq]) with [dq]. set (t := $", [](const " ++ _). assert (R : reads t ([Sign ","; Sign "["; Sign "]"; Sign "("; Word $"const"] ++ read_text q ++ read_text $"&self, nb::dict) { return " ++ (read_text q ++ [Sign "("]) ++ read_text $"self); }, nb::arg(")).
      { refine (reads_eq _ ($", [](const " ++ (q ++ [" "%char]) ++ $"&self, nb::dict) { return " ++ (q ++ ["("%char]) ++ $"self); }, nb::arg(") _ _ _ eq_refl _); [unfold t; flatten_text; reflexivity|].
        apply reads_app; [exact R3|]. apply reads_app; [exact R1|]. apply reads_app; [exact (reads_known $"&self, nb::dict) { return" " " eq_refl eq_refl)|].
        apply reads_app; [exact R2|]. exact (reads_known $"self); }, nb::arg" "(" eq_refl eq_refl). }
      rewrite (reads_here _ _ R), <- ?app_assoc. reflexivity.
    + set (t := $", [](const " ++ _). assert (R : reads t ([Sign ","; Sign "["; Sign "]"; Sign "("; Word $"const"] ++ read_text q ++ read_text $"&self, py::dict) { return " ++ (read_text q ++ [Sign "("]) ++ read_text $"self); }, py::arg(")).
      { refine (reads_eq _ ($", [](const " ++ (q ++ [" "%char]) ++ $"&self, py::dict) { return " ++ (q ++ ["("%char]) ++ $"self); }, py::arg(") _ _ _ eq_refl _); [unfold t; flatten_text; reflexivity|].
        apply reads_app; [exact R3|]. apply reads_app; [exact R1|]. apply reads_app; [exact (reads_known $"&self, py::dict) { return" " " eq_refl eq_refl)|].
        apply reads_app; [exact R2|]. exact (reads_known $"self); }, py::arg" "(" eq_refl eq_refl). }
      rewrite (reads_here _ _ R), <- ?app_assoc. reflexivity.
  - unfold define, lex_copy. set (t := $", [](const " ++ _). assert (R : reads t ([Sign ","; Sign "["; Sign "]"; Sign "("; Word $"const"] ++ read_text q ++ read_text $"&self) { return " ++ (read_text q ++ [Sign "("]) ++ read_text $"self); }")).
    { refine (reads_eq _ ($", [](const " ++ (q ++ [" "%char]) ++ $"&self) { return " ++ (q ++ ["("%char]) ++ $"self); }") _ _ _ eq_refl _); [unfold t; flatten_text; reflexivity|].
      apply reads_app; [exact R3|]. apply reads_app; [exact R1|]. apply reads_app; [exact (reads_known $"&self) { return" " " eq_refl eq_refl)|].
      apply reads_app; [exact R2|]. exact (reads_known $"self); " "}" eq_refl eq_refl). }
    rewrite (reads_here _ _ R), <- ?app_assoc. reflexivity.
Qed.
Lemma bare_one c : bare_c c = true -> bare [c].
Proof. intros H. apply bare_by_check. cbn. rewrite H. reflexivity. Qed.
Lemma closed_name deep : closed_literal ($"__" ++ method deep ++ $"__").
Proof. apply word_literal. destruct deep; repeat constructor. Qed.
(** With spaces before each of its lines. *)
Lemma copy_reads h deep : writable o h -> reads (unlines (map (app (cl_indent o)) (copy_lines h deep)))
  ([Sign "."; Word $"def"; Sign "("; Str ($"__" ++ method deep ++ $"__")] ++ lex_copy (qualified_special h) deep ++ [Sign ")"]).
Proof.
  intros W. pose proof (simple_bare _ (qualified_simple o h W)) as B. set (q := qualified_special h) in *.
  pose proof (reads_then q " " B (bare_one " " eq_refl) eq_refl) as R1. change (read_text [" "%char]) with (@nil lexeme) in R1. rewrite app_nil_r in R1.
  pose proof (reads_then q "(" B (bare_one "(" eq_refl) eq_refl) as R2. change (read_text ["("%char]) with [Sign "("] in R2.
  pose proof reads_indent as RI.
  assert (RN : reads [nl] []) by (apply reads_white; repeat constructor).
  assert (RD : reads ($"&self" ++ dict_text deep ++ $") {") ([Sign "&"; Word $"self"] ++ (if deep then [Sign ","; Word (lib o); Sign ":"; Sign ":"; Word $"dict"] else []) ++ [Sign ")"; Sign "{"])).
  { unfold dict_text, lib. destruct deep, (cl_nanobind o); [exact (reads_known $"&self, nb::dict) " "{" eq_refl eq_refl)|exact (reads_known $"&self, py::dict) " "{" eq_refl eq_refl)| |];
      exact (reads_known $"&self) " "{" eq_refl eq_refl). }
  assert (RM : reads ($"}" ++ memo_text deep) ([Sign "}"] ++ (if deep then [Sign ","; Word (lib o); Sign ":"; Sign ":"; Word $"arg"; Sign "("; Str $"memo"; Sign ")"] else []))).
  { assert (Cl : closed_literal $"memo") by (apply word_literal; repeat constructor). assert (L : reads ([dq] ++ $"memo" ++ [dq]) [Str $"memo"]) by (apply reads_literal; auto).
    assert (P : reads $")" [Sign ")"]) by exact (reads_known [] ")" eq_refl eq_refl).
    unfold memo_text, lib. destruct deep.
    - destruct (cl_nanobind o).
      + refine (reads_eq _ ($"}, nb::arg(" ++ ([dq] ++ $"memo" ++ [dq]) ++ $")") _ (read_text $"}, nb::arg(" ++ [Str $"memo"] ++ [Sign ")"]) eq_refl eq_refl _).
        repeat apply reads_app; auto. exact (reads_known $"}, nb::arg" "(" eq_refl eq_refl).
      + refine (reads_eq _ ($"}, py::arg(" ++ ([dq] ++ $"memo" ++ [dq]) ++ $")") _ (read_text $"}, py::arg(" ++ [Str $"memo"] ++ [Sign ")"]) eq_refl eq_refl _).
        repeat apply reads_app; auto. exact (reads_known $"}, py::arg" "(" eq_refl eq_refl).
    - exact (reads_known [] "}" eq_refl eq_refl). }
  refine (reads_eq _ (cl_indent o ++ $".def(" ++ ([dq] ++ ($"__" ++ method deep ++ $"__") ++ [dq]) ++ $",  [](const " ++ (q ++ [" "%char]) ++ ($"&self" ++ dict_text deep ++ $") {") ++ [nl] ++ cl_indent o ++ cl_indent o
    ++ $"return " ++ (q ++ ["("%char]) ++ $"self);" ++ [nl] ++ cl_indent o ++ ($"}" ++ memo_text deep) ++ $")") _
    ([] ++ [Sign "."; Word $"def"; Sign "("] ++ [Str ($"__" ++ method deep ++ $"__")] ++ [Sign ","; Sign "["; Sign "]"; Sign "("; Word $"const"] ++ read_text q
     ++ ([Sign "&"; Word $"self"] ++ (if deep then [Sign ","; Word (lib o); Sign ":"; Sign ":"; Word $"dict"] else []) ++ [Sign ")"; Sign "{"]) ++ [] ++ [] ++ []
     ++ [Word $"return"] ++ (read_text q ++ [Sign "("]) ++ [Word $"self"; Sign ")"; Sign ";"] ++ [] ++ []
     ++ ([Sign "}"] ++ (if deep then [Sign ","; Word (lib o); Sign ":"; Sign ":"; Word $"arg"; Sign "("; Str $"memo"; Sign ")"] else [])) ++ [Sign ")"]) _ _ _).
  - unfold unlines, copy_lines. cbn [map join]. flatten_text. reflexivity.
  - unfold lex_copy. rewrite <- !app_assoc. reflexivity.
  - apply reads_app; [exact RI|]. apply reads_app; [exact (reads_known $".def" "(" eq_refl eq_refl)|]. apply reads_app; [apply reads_literal, closed_name|].
    apply reads_app; [exact (reads_known $",  [](const" " " eq_refl eq_refl)|]. apply reads_app; [exact R1|]. apply reads_app; [exact RD|]. apply reads_app; [exact RN|].
    apply reads_app; [exact RI|]. apply reads_app; [exact RI|]. apply reads_app; [exact (reads_known $"return" " " eq_refl eq_refl)|]. apply reads_app; [exact R2|].
    apply reads_app; [exact (reads_known $"self)" ";" eq_refl eq_refl)|]. apply reads_app; [exact RN|]. apply reads_app; [exact RI|]. apply reads_app; [exact RM|].
    exact (reads_known [] ")" eq_refl eq_refl).
Qed.
Lemma level_read_text q : Forall (fun c => simple_c c = true) q -> forall d, level d (read_text q) = Some d.
Proof. intros F. apply level_dull, simple_dull, F. Qed.
Lemma copy_level q deep : Forall (fun c => simple_c c = true) q -> level 0 (lex_copy q deep) = Some 0.
Proof.
  intros F. unfold lex_copy. pose proof (level_read_text q F) as L. erewrite level_app by reflexivity. erewrite level_app by apply L. erewrite level_app by reflexivity.
  erewrite level_app by (destruct deep; reflexivity). erewrite level_app by reflexivity. erewrite level_app by apply L. erewrite level_app by reflexivity. destruct deep; reflexivity.
Qed.
Lemma define_read n args : level 0 args = Some 0 -> applications Next ([Sign "."; Word $"def"; Sign "("; Str n] ++ args ++ [Sign ")"]) = Some [define n args].
Proof. intros L. change ([Sign "."; Word $"def"; Sign "("; Str n] ++ args ++ [Sign ")"]) with (Sign "." :: Word $"def" :: Sign "(" :: (Str n :: args) ++ [Sign ")"]). rewrite call_read by exact L. reflexivity. Qed.

(** Text read as calls. *)
Definition gives (t : str) (cs : list call) : Prop := exists ks, reads t ks /\ applications Next ks = Some cs.
Lemma gives_app a b ca cb : gives a ca -> gives b cb -> gives (a ++ b) (ca ++ cb).
Proof. intros (ka & Ra & Aa) (kb & Rb & Ab). exists (ka ++ kb). split; [apply reads_app; auto|apply applications_next; auto]. Qed.
Lemma gives_nil : gives [] [].
Proof. exists []. split; [exact reads_nil|reflexivity]. Qed.
Lemma gives_concat {A} (f : A -> str) (g : A -> list call) l : (forall x, In x l -> gives (f x) (g x)) -> gives (concat (map f l)) (flat_map g l).
Proof.
  induction l as [|x l IH]; intros H; [exact gives_nil|]. cbn [map concat flat_map]. apply gives_app; [apply H; left; auto|]. apply IH. intros y I. apply H. right. auto.
Qed.
Lemma copy_gives h deep : writable o h -> gives (unlines (map (app (cl_indent o)) (copy_lines h deep))) [copy_call h deep].
Proof.
  intros W. eexists. split; [apply copy_reads; auto|]. rewrite (copy_call_is h deep W). apply define_read. apply copy_level. apply (qualified_simple o h W).
Qed.
Lemma indented_is t : indented o t = indent_code_str (cl_indent o) true t.
Proof. reflexivity. Qed.
Lemma unlines_two a b : a <> [] -> b <> [] -> unlines (a ++ b) = unlines a ++ [nl] ++ unlines b.
Proof. intros A B. apply (join_app [nl]); auto. Qed.
Lemma copies_gives h : writable o h -> gives (indented o (copies_text o h)) (copy_calls o h).
Proof.
  intros W. rewrite indented_is. unfold copies_text. cbv zeta. pose proof (copy_unlines h false W) as U1. pose proof (copy_unlines h true W) as U2.
  pose proof (copy_lines_ended h false W) as E1. pose proof (copy_lines_ended h true W) as E2. pose proof (copy_gives h false W) as G1. pose proof (copy_gives h true W) as G2.
  assert (S : forall deep, shall_copy o h deep = (if deep then cl_deepcopy o else cl_copy o) (h_name h) && copies h).
  { intros deep. unfold shall_copy, copies. destruct deep; [destruct (cl_deepcopy o (h_name h))|destruct (cl_copy o (h_name h))]; try reflexivity; destruct (h_copy h); reflexivity. }
  rewrite !S. unfold copy_calls. cbv zeta.
  change (define $"__copy__" _) with (copy_call h false). change (define $"__deepcopy__" _) with (copy_call h true).
  destruct (cl_copy o (h_name h) && copies h), (cl_deepcopy o (h_name h) && copies h).
  - assert (N : exists c r, copy_text o h false = c :: r) by (rewrite U1; eexists; eexists; reflexivity). destruct N as (c & r & N). rewrite N. rewrite <- N, U1, U2.
    rewrite <- app_assoc, <- (unlines_two (copy_lines h false) (copy_lines h true)) by discriminate. rewrite indent_ended; [|discriminate|apply Forall_app; auto].
    rewrite map_app, unlines_two by discriminate. apply gives_app; [exact G1|]. change [copy_call h true] with ([] ++ [copy_call h true]). apply gives_app; [|exact G2].
    exists []. split; [apply reads_white; repeat constructor|reflexivity].
  - rewrite U1, indent_ended; auto; discriminate.
  - rewrite U2. cbn [app]. rewrite indent_ended; auto; discriminate.
  - exact gives_nil.
Qed.
End Methods.
