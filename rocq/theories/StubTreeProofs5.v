From Verif Require Import PyStr PyStrLemmas RegionsModel RegionsProofs TextModel TextSpec CommentModel CommentSpec CommentProofs3 FillModel FillSpec FillProofs FillProofs3 FillProofs4 NamedModel OverloadModel EnumModel
  EnumSpec EnumProofs ClassModel ClassSpec ClassProofs3 ClassProofs5 StubTreeModel StubTreeSpec StubTreeProofs StubTreeProofs2 StubTreeProofs3 StubTreeProofs4.

Section Induction.
Variable P : node -> Prop.
Hypothesis other : forall k s b, P (NOther k s b).
Hypothesis enum : forall e l m, P (NEnum e l m).
Hypothesis class : forall h x cs pr, Forall P cs -> P (NClass h x cs pr).
Fixpoint node_induction (c : node) : P c :=
  match c with
  | NOther k s b => other k s b
  | NEnum e l m => enum e l m
  | NClass h x cs pr => class h x cs pr ((fix go (l : list node) : Forall P l := match l with [] => Forall_nil P | y :: r => Forall_cons y (node_induction y) (go r) end) cs)
  end.
End Induction.

(** ** Lines one after the other *)

Lemma reads_states ls c cs : reads ls (c :: cs) -> states ls.
Proof. intros [R _] X. unfold python_classes in R. rewrite X in R. cbn in R. discriminate. Qed.
Lemma spaced_reads layout els css : Forall2 (fun el cs => reads (snd el) cs) els css -> forall last,
  reads (fst (spaced layout last els)) (concat css) /\ (Exists (fun el => states (snd el)) els -> states (fst (spaced layout last els))) /\
  (Forall (fun el => snd el = []) els -> spaced layout last els = ([], last)).
Proof.
  intros F. induction F as [|[k ls] cs els css R F IH]; intros last.
  - split; [exact reads_nil|]. split; [intros X; inversion X|reflexivity].
  - cbn [spaced]. destruct (spacing_python layout last k ls) as [s l1] eqn:S. pose proof (spacing_blank _ _ _ _ _ _ S) as Bs. apply reads_blanks in Bs.
    destruct (IH l1) as (A & B & C). destruct (spaced layout l1 els) as [rest l2]. cbn [fst snd] in *. split; [|split].
    + apply (reads_app s (ls ++ rest) [] (cs ++ concat css)); auto. apply reads_app; auto.
    + intros X. apply (states_app s (ls ++ rest) [] (cs ++ concat css)); auto; [apply reads_app; auto|]. right. apply (states_app ls rest cs (concat css)); auto.
      inversion X; subst; auto.
    + intros X. inversion X as [|? ? X1 X2]; subst. cbn [snd] in X1. subst ls. assert (Y : spacing_python layout last k [] = ([], last)) by (unfold spacing_python; destruct layout; reflexivity).
      rewrite Y in S. inversion S; subst. pose proof (C X2) as Q. inversion Q; subst. reflexivity.
Qed.
Lemma cpp_blank last k ls s l : spacing_cpp last k ls = (s, l) -> Forall (fun x => x = []) s.
Proof.
  unfold spacing_cpp. destruct ls; [intros E; inversion E; constructor|]. destruct last; [|intros E; inversion E; constructor]. intros E. inversion E.
  repeat match goal with |- context [if ?b then _ else _] => destruct b end; repeat constructor.
Qed.
Lemma block_reads layout els css : Forall2 (fun el cs => reads (snd el) cs) els css -> reads (block_stub_lines layout els) (concat css).
Proof.
  intros F. unfold block_stub_lines. destruct layout.
  - induction F as [|[k ls] cs els css R F IH]; [exact reads_nil|]. cbn [flat_map concat snd]. apply reads_app; auto.
  - generalize (None : option ekind). induction F as [|[k ls] cs els css R F IH]; intros last; [exact reads_nil|]. cbn [lines_with concat].
    destruct (spacing_cpp last k ls) as [s l1] eqn:S. apply cpp_blank in S. apply reads_blanks in S. apply (reads_app s (ls ++ _) [] (cs ++ concat css)); auto. apply reads_app; auto.
Qed.

Section Tree.
Variable o : class_env.
Variable copy_info : bool.
Variable values : cpp_enum -> list enumerator.
Notation eo := (cl_enum o).
Hypothesis indent : Forall (eq sp) (cl_indent o) /\ cl_indent o <> [].
Hypothesis py_indent : Forall (eq sp) (eo_py_indent eo) /\ eo_py_indent eo <> [].

(** ** Iterable classes *)

Definition stub_names : list str := map lit ["_i_"; "iterator_class_name_python"; "maybe_comma"]%string.
Definition stub_pieces : list piece :=
  [FillSpec.Text $"def __iter__(self) -> Iterator["; Hole $"iterator_class_name_python"; FillSpec.Text ($"]:" ++ [nl]); Hole $"_i_"; FillSpec.Text ($"pass" ++ [nl] ++ $"def __len__(self) -> int:" ++ [nl]);
   Hole $"_i_"; FillSpec.Text $"pass"].
Lemma stub_iterable_is h x : type_name (x_items x) -> cl_iterable o (h_python h) = true ->
  stub_iterable o h x = [$"def __iter__(self) -> Iterator[" ++ x_items x ++ $"]:"; cl_indent o ++ $"pass"; $"def __len__(self) -> int:"; cl_indent o ++ $"pass"].
Proof.
  intros [T _] I. unfold stub_iterable. rewrite I.
  set (out := [$"def __iter__(self) -> Iterator["; x_items x; $"]:" ++ [nl]; cl_indent o; $"pass" ++ [nl] ++ $"def __len__(self) -> int:" ++ [nl]; cl_indent o; $"pass"]).
  assert (X : exists y, concat out = y ++ ["s"%char]).
  { unfold out. cbn [concat]. exists ($"def __iter__(self) -> Iterator[" ++ x_items x ++ ($"]:" ++ [nl]) ++ cl_indent o ++ ($"pass" ++ [nl] ++ $"def __len__(self) -> int:" ++ [nl]) ++ cl_indent o ++ $"pas").
    rewrite <- !app_assoc. reflexivity. }
  rewrite (fill_plain stub_names _ stub_pieces _ out).
  - unfold out. cbn [concat]. rewrite app_nil_r.
    match goal with |- lines ?t = ?r => replace t with (unlines r) end.
    + apply lines_unlines; [discriminate|]. assert (Ni : ~ In nl (cl_indent o)) by (intros J; destruct indent as [J1 _]; rewrite Forall_forall in J1; apply J1 in J; discriminate).
      assert (Np : ~ In nl (cl_indent o ++ $"pass")) by (intros J; apply in_app_or in J; destruct J as [J|J]; auto; vm_compute in J; intuition discriminate).
      repeat (apply Forall_cons); auto.
      * intros J. apply in_app_or in J. destruct J as [J|J]; [vm_compute in J; intuition discriminate|]. apply in_app_or in J. destruct J as [J|J]; [exact (type_no_nl _ T J)|vm_compute in J; intuition discriminate].
      * vm_compute. intuition discriminate.
    + unfold unlines. cbn [join]. repeat (rewrite <- !app_assoc; cbn [app]). reflexivity.
  - vm_compute. reflexivity.
  - unfold stub_pieces. repeat (apply Forall_cons; [first [apply (proj1 (Forall_forall _ _) (names_ok stub_names eq_refl)); apply smem_In; reflexivity|apply neutralb_true; reflexivity]|]). constructor.
  - apply smem_incl. reflexivity.
  - apply names_ok. reflexivity.
  - cbn [map snd]. apply Forall_cons; [|apply Forall_cons; [|constructor]]; apply no_brace_neutral.
    + intros J. destruct indent as [J1 _]. rewrite Forall_forall in J1. apply J1 in J. discriminate.
    + exact (type_no_brace _ T).
  - cbn; tauto.
  - reflexivity.
  - destruct X as (y & ->). exact (endswith_snoc $"," " " y "s").
  - destruct X as (y & ->). exact (endswith_snoc $", )" ";" y "s").
  - destruct X as (y & ->). exact (endswith_snoc $", " ")" y "s").
Qed.
Lemma def_reads title ks : steps (InCode []) title = (ks, InCode []) -> balance 0 ks = Some 0 -> indent_of title = 0 -> opens_block ks = true -> defined [] ks = [] -> ~ In nl title ->
  reads [title; cl_indent o ++ $"pass"] [].
Proof.
  intros S B Z O D N. pose proof (reads_class (cl_indent o) title ks [$"pass"] [] (proj1 indent) (proj2 indent)) as R. rewrite D in R. apply R; auto.
  - rewrite scan_is. cbn [start]. rewrite S. cbn [finish word_end]. rewrite app_nil_r. reflexivity.
  - exact (proj1 reads_pass).
  - exact (proj2 reads_pass).
Qed.
Lemma iterable_reads h x : type_name (x_items x) -> reads (stub_iterable o h x) [] /\ (cl_iterable o (h_python h) = true -> states (stub_iterable o h x)) /\
  (cl_iterable o (h_python h) = false -> stub_iterable o h x = []).
Proof.
  intros T. destruct (cl_iterable o (h_python h)) eqn:I.
  - rewrite (stub_iterable_is h x T I). destruct T as [T1 T2]. destruct (type_read _ T1) as (ks & cur & E & R). rewrite R in T2.
    set (head := [PWord $"def"; PWord $"__iter__"; PSign "("; PWord $"self"; PSign ")"; PSign "-"; PSign ">"; PWord $"Iterator"; PSign "["]).
    assert (S : steps (InCode []) ($"def __iter__(self) -> Iterator[" ++ x_items x ++ $"]:") = (head ++ (ks ++ word_end cur) ++ [PSign "]"; PSign ":"], InCode [])).
    { rewrite steps_app. assert (E1 : steps (InCode []) $"def __iter__(self) -> Iterator[" = (head, InCode [])) by (vm_compute; reflexivity). rewrite E1, steps_app, E.
      assert (E2 : steps (InCode cur) $"]:" = (word_end cur ++ [PSign "]"; PSign ":"], InCode [])) by (destruct cur; reflexivity). rewrite E2, <- app_assoc. reflexivity. }
    assert (A : reads [$"def __iter__(self) -> Iterator[" ++ x_items x ++ $"]:"; cl_indent o ++ $"pass"] []).
    { apply (def_reads _ _ S); try reflexivity.
      - rewrite balance_app. change (balance 0 head) with (Some 1). cbv beta iota. rewrite balance_app, (balance_at _ 1 T2). reflexivity.
      - unfold opens_block. rewrite !rev_app_distr. reflexivity.
      - intros J. apply in_app_or in J. destruct J as [J|J]; [vm_compute in J; intuition discriminate|]. apply in_app_or in J. destruct J as [J|J]; [exact (type_no_nl _ T1 J)|vm_compute in J; intuition discriminate]. }
    assert (B : reads [$"def __len__(self) -> int:"; cl_indent o ++ $"pass"] []).
    { apply (def_reads _ [PWord $"def"; PWord $"__len__"; PSign "("; PWord $"self"; PSign ")"; PSign "-"; PSign ">"; PWord $"int"; PSign ":"]); try reflexivity. vm_compute. intuition discriminate. }
    split; [exact (reads_app _ _ [] [] A B)|]. split; [|discriminate]. intros _ X. cbn [statements] in X.
    assert (Sc : scan None ($"def __iter__(self) -> Iterator[" ++ x_items x ++ $"]:") = Some (head ++ (ks ++ word_end cur) ++ [PSign "]"; PSign ":"], None)).
    { rewrite scan_is. cbn [start]. rewrite S. cbn [finish word_end]. rewrite app_nil_r. reflexivity. }
    rewrite Sc in X. unfold head in X. cbn [app] in X. match type of X with context [is_over ?k ?q] => destruct (is_over k q) as [[|]|] eqn:Ov end; [|unfold is_over in Ov|discriminate].
    + match type of X with option_map _ ?z = _ => destruct z; discriminate end.
    + match type of Ov with context [balance 0 ?z] => assert (Y : balance 0 z = Some 0) end.
      { change (balance 0 (head ++ (ks ++ word_end cur) ++ [PSign "]"; PSign ":"]) = Some 0). rewrite balance_app. change (balance 0 head) with (Some 1). cbv beta iota. rewrite balance_app, (balance_at _ 1 T2). reflexivity. }
      rewrite Y in Ov. discriminate.
  - assert (Z : stub_iterable o h x = []) by (unfold stub_iterable; rewrite I; reflexivity). rewrite Z. split; [exact reads_nil|]. split; [discriminate|reflexivity].
Qed.

(** ** Classes *)

Lemma protected_reads last (protected : list (list str)) : Forall no_class protected ->
  reads match protected with [] => [] | _ => [[]; $"# <protected_methods>"] ++ fst (spaced (eo_layout eo) last (map (pair KFunction) protected)) ++ [$"# </protected_methods>"; []] end [] /\
  (Exists states protected -> states match protected with [] => [] | _ => [[]; $"# <protected_methods>"] ++ fst (spaced (eo_layout eo) last (map (pair KFunction) protected)) ++ [$"# </protected_methods>"; []] end).
Proof.
  intros F. assert (A : reads [[]; $"# <protected_methods>"] []) by (split; [reflexivity|repeat constructor; vm_compute; intuition discriminate]).
  assert (B : reads [$"# </protected_methods>"; []] []) by (split; [reflexivity|repeat constructor; vm_compute; intuition discriminate]).
  destruct protected as [|p0 ps]; [split; [exact reads_nil|intros X; inversion X]|]. set (pr := p0 :: ps) in *.
  assert (G : Forall2 (fun el cs => reads (snd el) cs) (map (pair KFunction) pr) (map (fun _ => []) pr)).
  { clear - F. clearbody pr. induction F as [|p ps' H F IH]; constructor; auto. }
  assert (Z : concat (map (fun _ : list str => @nil py_class) pr) = []) by (clear; clearbody pr; induction pr; auto).
  destruct (spaced_reads (eo_layout eo) _ _ G last) as (R & S & _). rewrite Z in R. split.
  - apply (reads_app _ _ [] [] A). exact (reads_app _ _ [] [] R B).
  - intros X. apply (states_app _ _ [] [] A (reads_app _ _ [] [] R B)). right. apply (states_app _ _ [] [] R B). left. apply S. clear - X. clearbody pr. induction X; [left|right]; auto.
Qed.
Lemma class_reads h x els css children protected :
  word (h_python h) -> Forall type_name (map snd (x_bases x) ++ x_custom x) -> python_comment (x_note x) -> python_comment (x_location x) ->
  good_doc o (told o copy_info h (x_previous x)) (x_eol x) -> no_class (made_ctor h x) -> Forall no_class protected -> type_name (x_items x) ->
  no_class (x_code x) -> has_body o copy_info h x children protected ->
  Forall2 (fun el cs => reads (snd el) cs) els css -> (Exists (fun c => match c with NOther _ s _ => states s | _ => True end) children -> Exists (fun el => states (snd el)) els) ->
  (Forall (fun c => match c with NOther _ s _ => s = [] | _ => False end) children -> Forall (fun el => snd el = []) els) ->
  reads (class_stub o copy_info h x els protected) (([h_python h], bases_in_stub x) :: map (in_path [h_python h]) (concat css)).
Proof.
  intros [Wn Ww] Tb Cn Cl D Mc Pr Ti Cd Hb F Ex Em. unfold class_stub.
  destruct (spaced_reads (eo_layout eo) els css F None) as (Rs & Ss & Es). destruct (iterable_reads h x Ti) as (Ri & Si & Zi).
  assert (Ec : (if negb (h_ctor h) && negb (h_deleted h) then lines (x_ctor_text x) else []) = made_ctor h x) by (unfold made_ctor; destruct (h_ctor h), (h_deleted h); reflexivity).
  assert (Rb : reads (stub_body o h x els protected) (concat css)).
  { unfold stub_body. destruct (spaced (eo_layout eo) None els) as [body last] eqn:Sp. cbn [fst] in Rs. rewrite Ec. rewrite <- (app_nil_r (concat css)). apply reads_app; [exact Rs|].
    apply (reads_app _ _ [] [] Mc). apply (reads_app _ _ [] [] (proj1 (protected_reads last protected Pr))). exact (reads_app _ _ [] [] Ri Cd). }
  assert (Sb : states (stub_body o h x els protected) \/ stub_body o h x els protected = [] \/ has_doc o (told o copy_info h (x_previous x)) (x_eol x)).
  { destruct Hb as [Hb|Hb]; [right; right; exact Hb|]. unfold stub_body in *. destruct (spaced (eo_layout eo) None els) as [body last] eqn:Sp. cbn [fst] in Rs, Ss. rewrite Ec.
    destruct (protected_reads last protected Pr) as [Rp Sp']. pose proof (reads_app _ _ [] [] Ri Cd) as R1. pose proof (reads_app _ _ [] [] Rp R1) as R2. pose proof (reads_app _ _ [] [] Mc R2) as R3.
    destruct Hb as [Hb|[Hb|[Hb|[Hb|[Hb|(Hb1 & Hb2 & Hb3 & Hb4)]]]]].
    - left. apply (states_app _ _ _ [] Rs R3). left. apply Ss, Ex, Hb.
    - left. apply (states_app _ _ _ [] Rs R3). right. apply (states_app _ _ _ [] Mc R2). left. exact Hb.
    - left. apply (states_app _ _ _ [] Rs R3). right. apply (states_app _ _ _ [] Mc R2). right. apply (states_app _ _ _ [] Rp R1). left. apply Sp'. exact Hb.
    - left. apply (states_app _ _ _ [] Rs R3). right. apply (states_app _ _ _ [] Mc R2). right. apply (states_app _ _ _ [] Rp R1). right. apply (states_app _ _ _ [] Ri Cd). left. apply Si. exact Hb.
    - left. apply (states_app _ _ _ [] Rs R3). right. apply (states_app _ _ _ [] Mc R2). right. apply (states_app _ _ _ [] Rp R1). right. apply (states_app _ _ _ [] Ri Cd). right. exact Hb.
    - destruct (cl_iterable o (h_python h)) eqn:It.
      + left. apply (states_app _ _ _ [] Rs R3). right. apply (states_app _ _ _ [] Mc R2). right. apply (states_app _ _ _ [] Rp R1). right. apply (states_app _ _ _ [] Ri Cd). left. apply Si. reflexivity.
      + right. left. rewrite Hb2, Hb3, Hb4, (Zi eq_refl). pose proof (Es (Em Hb1)) as Q. inversion Q. reflexivity. }
  assert (T : steps (InCode []) ($"class " ++ h_python h ++ parents_text x ++ $":") = (title_lexemes (h_python h) (bases_in_stub x), InCode []) /\ balance 0 (bases_in_stub x) = Some 0 /\ ~ In nl (parents_text x)).
  { unfold parents_text, bases_in_stub. set (ps := match x_custom x with [] => map snd (x_bases x) | cs => cs end).
    assert (Tp : Forall type_name ps) by (unfold ps; apply Forall_app in Tb as [T1 T2]; destruct (x_custom x); auto). destruct ps as [|p0 ps'] eqn:Ep.
    - split; [apply title_steps; auto|]. split; [reflexivity|intros []].
    - rewrite <- Ep in *. clear Ep. destruct (join_types ps Tp) as [J1 J2]. destruct (type_read _ J1) as (ks & cur & E & R). split; [|split].
      + apply title_steps; auto. right. exists (join $", " ps), ks, cur. rewrite R. auto.
      + cbn [balance existsb ceqb orb]. change (balance 1 (py_read (join $", " ps) ++ [PSign ")"]) = Some 0). rewrite balance_app, (balance_at _ 1 J2). reflexivity.
      + intros J. apply in_app_or in J. destruct J as [J|J]; [vm_compute in J; intuition discriminate|]. apply in_app_or in J. destruct J as [J|J]; [exact (type_no_nl _ J1 J)|vm_compute in J; intuition discriminate]. }
  destruct T as (T & Bl & Np). destruct (title_facts (h_python h) _ Bl) as (T1 & T2 & T3 & T4).
  pose proof (reads_layout (eo_strip eo) (eo_layout eo) (eo_replacements eo) "c" ($"lass " ++ h_python h ++ parents_text x ++ $":") (x_note x) (x_location x)
    _ (told o copy_info h (x_previous x)) (x_eol x) (stub_body o h x els protected) (eo_py_indent eo) (concat css) (proj1 py_indent) (proj2 py_indent) T T1 eq_refl T2) as G.
  rewrite T3, T4 in G.
  assert (Et : $"class " ++ h_python h ++ parents_text x ++ $":" ++ x_note x = ("c"%char :: $"lass " ++ h_python h ++ parents_text x ++ $":") ++ x_note x).
  { change ("c"%char :: $"lass " ++ h_python h ++ parents_text x ++ $":") with ($"class " ++ h_python h ++ parents_text x ++ $":"). rewrite <- !app_assoc. reflexivity. }
  rewrite Et. apply G; auto; clear G.
  intros J. change (In nl ($"class " ++ h_python h ++ parents_text x ++ $":")) in J. apply in_app_or in J. destruct J as [J|J]; [vm_compute in J; intuition discriminate|].
  apply in_app_or in J. destruct J as [J|J]; [rewrite Forall_forall in Ww; apply Ww in J; discriminate|]. apply in_app_or in J. destruct J as [J|J]; auto. vm_compute in J. intuition discriminate.
Qed.
(** ** Everything *)

Lemma shown_path c : forall path, shown_classes o path c = map (in_path path) (shown_classes o [] c).
Proof.
  induction c as [k s b|e l m|h x cs pr IH] using node_induction; intros path; try reflexivity. cbn [shown_classes map app].
  enough (E : flat_map (shown_classes o (path ++ [h_python h])) cs = map (in_path path) (flat_map (shown_classes o [h_python h]) cs)) by (rewrite E; reflexivity).
  induction IH as [|c cs H IH IH2]; [reflexivity|]. cbn [flat_map]. rewrite map_app, (H (path ++ [h_python h])), (H [h_python h]), IH2, map_map. f_equal.
  apply map_ext. intros [q b]. unfold in_path. cbn [fst snd]. rewrite <- app_assoc. reflexivity.
Qed.
Lemma showable_all cs : fold_right (fun c P => showable o copy_info values c /\ P) True cs -> Forall (showable o copy_info values) cs.
Proof. induction cs as [|c cs IH]; [constructor|]. intros [A B]. constructor; auto. Qed.
Lemma node_reads c : showable o copy_info values c -> reads (snd (node_stub o copy_info c)) (shown_classes o [] c).
Proof.
  induction c as [k s b|e l m|h x cs pr IH] using node_induction; intros H.
  - exact H.
  - exact (proj1 (enum_reads o copy_info values indent py_indent e l m [] H)).
  - cbn [showable] in H. destruct H as (W & Tb & Cn & Cl & D & Mc & Pr & Ti & Cd & Hb & F). apply showable_all in F. cbn [node_stub snd shown_classes].
    assert (G : Forall2 (fun el cs => reads (snd el) cs) (map (node_stub o copy_info) cs) (map (shown_classes o []) cs)).
    { clear - IH F. induction IH as [|c cs H IH IH2]; [constructor|]. inversion F; subst. constructor; auto. }
    pose proof (class_reads h x _ _ cs (map fst pr) W Tb Cn Cl D Mc Pr Ti Cd Hb G) as R.
    assert (E : flat_map (shown_classes o ([] ++ [h_python h])) cs = map (in_path [h_python h]) (concat (map (shown_classes o []) cs))).
    { cbn [app]. rewrite <- flat_map_concat_map. clear. induction cs as [|c cs IH]; [reflexivity|]. cbn [flat_map]. rewrite map_app, shown_path, IH. reflexivity. }
    rewrite E. apply R; clear R.
    + intros X. clear - X IH F. induction X as [c cs X|c cs X IHX]; inversion IH; inversion F; subst; [left|right; auto].
      destruct c as [k s b|e l m|h x cs' pr]; [exact X| |]; cbn [node_stub snd shown_classes] in *; eapply reads_states; eauto.
    + intros X. clear - X. induction X as [|c cs X _ IHX]; constructor; auto. destruct c; [exact X| |]; contradiction.
Qed.
Lemma forest_reads cs : Forall (showable o copy_info values) cs -> reads (forest_stub o copy_info cs) (flat_map (shown_classes o []) cs).
Proof.
  intros F. unfold forest_stub. rewrite flat_map_concat_map. apply block_reads. induction F as [|c cs H F IH]; constructor; auto. apply node_reads. exact H.
Qed.
(** The classes which are made by the binding. *)
Lemma made_shown c : forall path, map fst (shown_classes o path c) = objects (events o values path (to_child c)).
Proof.
  induction c as [k s b|e l m|h x cs pr IH] using node_induction; intros path; [reflexivity| |].
  - cbn [shown_classes map fst to_child events]. unfold enum_events. unfold objects. cbn [flat_map]. rewrite flat_map_app.
    assert (Z : forall vs p (f : enumerator -> call), flat_map (fun e => match e with Made p _ _ => [p] | Called _ _ => [] end) (map (fun v => Called p (f v)) vs) = []) by (intros vs p f; induction vs; auto).
    rewrite Z. destruct (eo_export eo); reflexivity.
  - cbn [shown_classes map fst to_child events]. unfold objects. cbn [flat_map app]. f_equal. rewrite flat_map_app.
    assert (Z : forall p ks, flat_map (fun e => match e with Made p _ _ => [p] | Called _ _ => [] end) (map (Called p) ks) = []) by (intros p ks; induction ks; auto).
    rewrite Z, app_nil_r. generalize (path ++ [h_python h]). intros p. induction IH as [|c cs H IH IH2]; [reflexivity|]. cbn [flat_map map]. rewrite map_app, flat_map_app, H. f_equal. exact IH2.
Qed.
End Tree.
