From Verif Require Import PyStr PyStrLemmas PyDict RegionsModel TextModel TextSpec TextProofs CommentModel CommentSpec FillModel FillSpec FillProofs FillProofs2 FillProofs3 FillProofs4
  LambdaTextSpec LambdaTextProofs ModuleModel TypeTextModel NamedModel NamedProofs3 EnumModel EnumSpec EnumProofs EnumProofs2 EnumProofs3 CommentProofs3 CommentProofs4 ClassModel ClassSpec ClassProofs ClassProofs2 ClassProofs3 ClassProofs5
  GlueModel GlueSpec GlueProofs GlueProofs2 PimplModel PimplSpec PimplProofs PimplProofs2 PimplProofs3 PimplProofs4.
Local Notation K := pimpl_names.
Local Notation T := FillSpec.Text.
Local Notation H := FillSpec.Hole.
Ltac pieces := repeat (apply Forall_cons; [first [apply pimpl_name; reflexivity|apply neutralb_true; reflexivity]|]); apply Forall_nil.

(** ** Removing empty lines *)

Lemma blank_lex l : is_blank_line l -> line_lex l = [].
Proof. intros B. change l with ([] ++ l). rewrite line_lex_right by exact B. reflexivity. Qed.
Lemma removed_lex a b : only_blank_removed a b -> flat_map line_lex a = flat_map line_lex b.
Proof. induction 1 as [|x a b B O IH|x a b O IH]; auto; cbn [flat_map]; [rewrite (blank_lex x B)|rewrite IH]; auto. Qed.
Lemma fewer_lines t m : read_text (code_set_max_consecutive_empty_lines t m) = read_text t.
Proof.
  destruct m as [m|]; [|reflexivity]. rewrite !read_text_lines. destruct (max_blank_only_blank_removed t m _ eq_refl) as [(E & B)|O].
  - rewrite E. cbn [lines split_on flat_map]. assert (X : flat_map line_lex (lines t) = []) by (induction B as [|l ls A F IH]; auto; cbn [flat_map]; rewrite (blank_lex l A); exact IH). rewrite X. reflexivity.
  - symmetry. apply removed_lex. exact O.
Qed.

Section Class.
Variable o : poptions.
Variable c : pclass.
Variable published : str.
Hypothesis good : good_pimpl o c published.
Notation i := (po_indent o).
Let indent := gp_indent _ _ _ good.
Let L := flat_map (child_lines published) (concat (p_public c)).

Lemma lines_fine : Forall (fine i) L /\ flat_map line_lex L = flat_map (declaration published) (concat (p_public c)).
Proof.
  unfold L. induction (gp_children _ _ _ good) as [|x cs G F (A & B)]; [split; [constructor|reflexivity]|]. cbn [flat_map].
  destruct (child_lines_good o published indent (gp_published _ _ _ good) x G) as [A' B']. split; [apply Forall_app; auto|]. rewrite flat_map_app, B, B'. reflexivity.
Qed.
Lemma all_decls : exists l, all_of (map (child_decl published) (concat (p_public c))) = Some l /\ concat l = closed_lines L.
Proof.
  unfold L. induction (gp_children _ _ _ good) as [|x cs G F (l & A & B)]; [exists []; auto|]. cbn [map all_of]. rewrite (child_decl_is published (gp_published _ _ _ good) x G), A.
  exists (closed_lines (child_lines published x) :: l). split; [reflexivity|]. cbn [concat flat_map]. rewrite B, closed_app. reflexivity.
Qed.
Definition methods : str := unlines (map (indent_line i true) L).
Lemma decls_are : published_method_decls o c published = Some methods.
Proof.
  unfold published_method_decls. destruct all_decls as (l & A & B). rewrite A. cbn [option_map]. f_equal. cbv zeta. rewrite B. unfold methods. destruct lines_fine as [F _].
  destruct (list_eq_dec (list_eq_dec ascii_dec) L []) as [->|N]; [reflexivity|]. rewrite <- (unlines_closed L N).
  assert (E : endswith [nl] (unlines L ++ [nl]) = true) by (rewrite ends_in; reflexivity). rewrite E, cut_end_app by reflexivity. unfold indent_code, indent_code_str. rewrite lines_unlines; auto.
  eapply Forall_impl; [|exact F]. intros x [X _]. exact X.
Qed.
Lemma unlines_neutral ls : Forall (neutral K) ls -> neutral K (unlines ls).
Proof. intros F. unfold unlines. apply neutral_joined; auto. apply neutralb_true. reflexivity. Qed.
Lemma methods_neutral : neutral K methods.
Proof. apply unlines_neutral. apply Forall_map. destruct lines_fine as [F _]. eapply Forall_impl; [|exact F]. intros x [_ X]. exact X. Qed.
Lemma methods_read : reads (methods ++ [nl]) (flat_map (declaration published) (concat (p_public c))).
Proof.
  destruct lines_fine as [F E]. rewrite <- E. assert (X : read_text methods = flat_map line_lex L).
  { unfold methods. rewrite read_text_unlines.
    - clear E. induction L as [|x l IH]; [reflexivity|]. inversion F; subst. cbn [map flat_map]. rewrite (line_lex_indent i x indent), IH; auto.
    - apply Forall_map. eapply Forall_impl; [|exact F]. intros x [X _]. unfold indent_line. destruct x as [|a x]; auto. apply no_app; [apply sp_no_nl; exact indent|apply rstrip_no_nl; exact X]. }
  rewrite <- X. apply reads_end.
Qed.

Definition kind : str := if p_is_class c then $"class" else $"struct".
Definition feed : str := if po_linefeed o then [nl] else $" ".
Definition access : str := if p_is_class c then $"public:" else [].
Definition behind : str := eol_comment_code (n_eol (p_note c)).
Definition above : str := unlines (notes (p_note c)).
Definition header_out : list str :=
  [kind; $" "; p_name c; $";" ++ [nl] ++ [nl]; above; [nl]; kind; $" "; published; behind; feed; $"{" ++ [nl]; po_indent_public o; access; [nl]; methods; [nl]; i; $"~"; published; $"();" ++ [nl];
   po_indent_public o; $"private:" ++ [nl]; i; $"std::unique_ptr<"; p_name c; $"> "; po_member o; $";" ++ [nl] ++ $"};"].
Definition header_pieces : list piece :=
  [H $"class_or_struct"; T $" "; H $"impl_class_name"; T ($";" ++ [nl] ++ [nl]); H $"top_comment"; T [nl]; H $"class_or_struct"; T $" "; H $"published_class_name"; H $"maybe_eol_comment"; H $"linefeed_or_space";
   T ($"{" ++ [nl]); H $"i"; H $"maybe_public"; T [nl]; H $"published_methods"; T [nl]; H $"_i_"; T $"~"; H $"published_class_name"; T ($"();" ++ [nl]); H $"i"; T ($"private:" ++ [nl]); H $"_i_"; T $"std::unique_ptr<";
   H $"impl_class_name"; T $"> "; H $"impl_name"; T ($";" ++ [nl] ++ $"};")].
Lemma header_is : header_code o c published = Some (code_set_max_consecutive_empty_lines (concat header_out) (po_max_empty o)).
Proof.
  unfold header_code. rewrite decls_are. cbn [option_map]. f_equal. f_equal. pose proof (gp_note _ _ _ good) as G. rewrite (top_alone _ G). fold above access kind feed behind.
  change [($"top_comment", Some above); ($"maybe_public", Some access)] with (map (fun kv : str * str => (fst kv, Some (snd kv))) [($"top_comment", above); ($"maybe_public", access)]). rewrite fill_both. cbn [app].
  apply (filled _ header_pieces).
  - reflexivity.
  - unfold header_pieces. pieces.
  - reflexivity.
  - cbn [map snd]. repeat apply Forall_cons; try apply Forall_nil.
    + unfold feed. destruct (po_linefeed o); apply neutralb_true; reflexivity.
    + apply spaces_neutral, indent.
    + apply spaces_neutral, (gp_indent_public _ _ _ good).
    + unfold kind. destruct (p_is_class c); apply neutralb_true; reflexivity.
    + apply eol_neutral. exact G.
    + apply word_neutral, (gp_published _ _ _ good).
    + apply word_neutral, (gp_name _ _ _ good).
    + apply word_neutral, (gp_member _ _ _ good).
    + apply methods_neutral.
    + apply notes_alone. exact G.
    + unfold access. destruct (p_is_class c); apply neutralb_true; reflexivity.
  - reflexivity.
  - unfold header_out. generalize methods above behind feed kind access. intros a b d e f g.
    assert (E : forall x : list str, concat (x ++ [$";" ++ [nl] ++ $"};"]) = concat x ++ $";" ++ [nl] ++ $"};") by (intros x; rewrite concat_app; cbn [concat]; rewrite app_nil_r; reflexivity).
    match goal with |- kept (concat ?l) => let x := constr:(removelast l) in change l with (x ++ [$";" ++ [nl] ++ $"};"]) end. rewrite E. unfold kept. rewrite !ends_in. repeat split; reflexivity.
Qed.
Lemma word_noted w r : word published -> Forall (fun c => is_space c = true) w -> ~ In nl r -> reads (published ++ (w ++ $"//" ++ r) ++ [nl]) [Word published].
Proof.
  intros W S N. assert (B : bare (published ++ w)) by (apply bare_app; [apply bare_word; apply W|apply bare_white; exact S]).
  replace (published ++ (w ++ $"//" ++ r) ++ [nl]) with ((published ++ w) ++ ($"//" ++ r ++ [nl])) by (rewrite <- !app_assoc; reflexivity).
  pose proof (toks_app _ _ _ _ (toks_bare _ B) (toks_comment r N)) as X. pose proof (reads_toks _ _ _ X eq_refl) as R.
  assert (C : exists t u, map Code w ++ [Code nl] = t :: u /\ splits t = true).
  { destruct w as [|x w]; cbn [map app]; eexists; eexists; split; [reflexivity|reflexivity|reflexivity|]. inversion S; subst. cbn. destruct (is_word x) eqn:I; [|reflexivity]. rewrite (word_not_space x I) in *. discriminate. }
  assert (Z : lexemes [] (map Code (published ++ w) ++ [Code nl]) = [Word published]).
  { rewrite map_app, <- app_assoc. etransitivity; [exact (lexemes_flush (map Code published) [] _ C)|]. rewrite lexemes_white by (apply Forall_map; exact S).
    pose proof (lexemes_word published (proj2 W) []) as Y. cbn [app] in Y. rewrite Y. destruct published; [destruct W; congruence|reflexivity]. }
  intros b. etransitivity; [exact (R b)|]. f_equal. exact Z.
Qed.
Lemma behind_reads : reads (published ++ behind ++ feed) [Word published].
Proof.
  pose proof (gp_note _ _ _ good) as (_ & _ & G). pose proof (gp_published _ _ _ good) as W. unfold behind, feed. destruct (eol_good _ G) as (_ & N & [(E & E')|(_ & w & r & E & S)]); cbv zeta in *.
  - rewrite E. cbn [app]. destruct (po_linefeed o); [exact (word_then published nl W eq_refl eq_refl)|exact (word_then published sp W eq_refl eq_refl)].
  - pose proof (gp_brace _ _ _ good) as B. destruct (po_linefeed o) eqn:Lf.
    + rewrite E in *. apply word_noted; auto. intros I. apply N. rewrite !in_app_iff. auto.
    + rewrite (B eq_refl) in E. destruct w; discriminate.
Qed.
Lemma above_reads : reads (above ++ [nl]) [].
Proof.
  pose proof (gp_note _ _ _ good) as G. rewrite <- (notes_lex _ G). unfold above. rewrite <- read_text_unlines; [apply reads_end|].
  eapply Forall_impl; [|exact (notes_good _ G)]. intros l (w & r & _ & _ & X & _). exact X.
Qed.
Lemma header_reads : read_text (concat header_out) = header_lex (p_name c) published (po_member o) (p_is_class c) (concat (p_public c)).
Proof.
  pose proof (gp_name _ _ _ good) as Wn. pose proof (gp_published _ _ _ good) as Wp. pose proof (gp_member _ _ _ good) as Wm.
  pose proof (reads_white i (space_eq _ indent)) as Ri. pose proof (reads_white _ (space_eq _ (gp_indent_public _ _ _ good))) as Rp.
  assert (Rk : reads (kind ++ $" ") [Word kind]) by (unfold kind; destruct (p_is_class c); [apply (word_then $"class" sp)|apply (word_then $"struct" sp)]; try reflexivity; (split; [discriminate|repeat constructor])).
  assert (Ra : reads (access ++ [nl]) (if p_is_class c then [Word $"public"; Sign ":"] else [])) by (unfold access; destruct (p_is_class c); [exact (reads_end $"public:")|exact (reads_end [])]).
  assert (E : concat header_out = (kind ++ $" ") ++ (p_name c ++ $";") ++ [nl; nl] ++ (above ++ [nl]) ++ (kind ++ $" ") ++ (published ++ behind ++ feed) ++ ($"{" ++ [nl]) ++ po_indent_public o ++ (access ++ [nl]) ++ (methods ++ [nl]) ++ i ++
    $"~" ++ (published ++ $"(") ++ ($");" ++ [nl]) ++ po_indent_public o ++ ($"private:" ++ [nl]) ++ i ++ $"std::unique_ptr<" ++ (p_name c ++ $">") ++ $" " ++ (po_member o ++ $";") ++ ([nl] ++ $"};")).
  { unfold header_out. cbn [concat]. rewrite <- !app_assoc, ?app_nil_r. reflexivity. }
  rewrite E. unfold header_lex. cbv zeta. fold kind.
  rewrite (Rk _), (word_then _ ";"%char Wn eq_refl eq_refl _), (reads_white [nl; nl] ltac:(repeat constructor) _), (above_reads _), (Rk _), (behind_reads _).
  rewrite (reads_end $"{" _), (Rp _), (Ra _), (methods_read _), (Ri _).
  assert (R1 : reads $"~" [Sign "~"]) by known.
  rewrite (R1 _), (word_then _ "("%char Wp eq_refl eq_refl _), (reads_end $");" _), (Rp _), (reads_end $"private:" _), (Ri _).
  assert (R2 : reads $"std::unique_ptr<" [Word $"std"; Sign ":"; Sign ":"; Word $"unique_ptr"; Sign "<"]) by known.
  assert (R3 : read_text $"(); private: std::unique_ptr<" = [Sign "("; Sign ")"; Sign ";"; Word $"private"; Sign ":"; Word $"std"; Sign ":"; Sign ":"; Word $"unique_ptr"; Sign "<"]) by (vm_compute; reflexivity).
  rewrite R3.
  rewrite (R2 _), (word_then _ ">"%char Wn eq_refl eq_refl _), (reads_white $" " ltac:(repeat constructor) _), (word_then _ ";"%char Wm eq_refl eq_refl _).
  assert (R4 : read_text [";"%char] = [Sign ";"] /\ read_text ["("%char] = [Sign "("] /\ read_text [">"%char] = [Sign ">"] /\ read_text $"{" = [Sign "{"] /\ read_text $");" = [Sign ")"; Sign ";"] /\
    read_text $"private:" = [Word $"private"; Sign ":"] /\ read_text ([nl] ++ $"};") = [Sign "}"; Sign ";"]) by (repeat split; vm_compute; reflexivity).
  destruct R4 as (-> & -> & -> & -> & -> & -> & ->).
  unfold kind. destruct (p_is_class c); cbn [app]; reflexivity.
Qed.
Lemma destructor_reads : read_text (published ++ $"::~" ++ published ++ $"() = default;" ++ [nl]) = of_class published ++ [Sign "~"; Word published] ++ read_text $"() = default;".
Proof.
  pose proof (gp_published _ _ _ good) as W. assert (E : published ++ $"::~" ++ published ++ $"() = default;" ++ [nl] = (published ++ $":") ++ $":~" ++ (published ++ $"(") ++ ($") = default;" ++ [nl])) by (rewrite <- !app_assoc; reflexivity).
  rewrite E, (word_then _ ":"%char W eq_refl eq_refl _). assert (R : reads $":~" [Sign ":"; Sign "~"]) by known.
  rewrite (R _), (word_then _ "("%char W eq_refl eq_refl _). unfold of_class.
  assert (R4 : read_text [":"%char] = [Sign ":"] /\ read_text ["("%char] = [Sign "("] /\ read_text ($") = default;" ++ [nl]) = [Sign ")"; Sign "="; Word $"default"; Sign ";"] /\
    read_text $"() = default;" = [Sign "("; Sign ")"; Sign "="; Word $"default"; Sign ";"]) by (repeat split; vm_compute; reflexivity).
  destruct R4 as (-> & -> & -> & ->). reflexivity.
Qed.
Lemma pimpl_written : published_class_name (po_suffixes o) (p_name c) = Some published ->
  exists header glue, pimpl_my_class o c = Some (header, glue) /\
  read_text header = header_lex (p_name c) published (po_member o) (p_is_class c) (concat (p_public c)) /\
  read_text glue = glue_lex (p_name c) published (po_member o) (concat (p_public c)).
Proof.
  intros E. unfold pimpl_my_class. rewrite E. unfold glue_code.
  destruct (glue_reads o (p_name c) published (gp_indent _ _ _ good) (gp_name _ _ _ good) (gp_published _ _ _ good) (gp_member _ _ _ good) _ (gp_children _ _ _ good)) as (l & A & R).
  rewrite A. cbn [option_map]. rewrite header_is. cbn [option_map]. eexists; eexists; split; [reflexivity|]. split.
  - rewrite fewer_lines. apply header_reads.
  - rewrite (R _), destructor_reads. reflexivity.
Qed.
End Class.
