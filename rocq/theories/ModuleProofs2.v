(** Proofs for C26: submodules. *)
From Verif Require Import PyStr PyStrLemmas RegionsModel TextModel ScopeModel ScopeSpec ScopeProofs
  OverloadModel OverloadSpec OverloadProofs RegionsProofs ModuleModel ModuleSpec ModuleProofs.

Section ItemInd.
Variable P : item -> Prop.
Hypothesis H0 : forall k ls, P (Elem k ls).
Hypothesis H1 : forall name doc ds items, Forall P items -> P (Ns name doc ds items).
Fixpoint item_ind' (it : item) : P it :=
  match it with
  | Elem k ls => H0 k ls
  | Ns name doc ds items =>
      H1 name doc ds items ((fix go (l : list item) : Forall P l :=
                     match l with
                     | [] => Forall_nil _
                     | s :: l' => Forall_cons s (item_ind' s) (go l')
                     end) items)
  end.
End ItemInd.

Section Steps.
Variable roots : list str.
Variable frag : bool -> opened -> str.

Definition step (st : ns_state) (o : opened) : ns_state :=
  let new := negb (smem (str_cpp (o_scope o)) (created st)) in
  {| created := if new then str_cpp (o_scope o) :: created st else created st;
     ns_tree := store_code roots (str_cpp (o_scope o)) (frag new o) (ns_tree st) |}.

(** *** What is recorded *)

Fixpoint log (cr : list str) (os : list opened) : list (list str * str) :=
  match os with
  | [] => []
  | o :: os' =>
      (o_scope o, frag (negb (smem (str_cpp (o_scope o)) cr)) o)
        :: log (str_cpp (o_scope o) :: cr) os'
  end.

Lemma log_same os : forall cr cr', (forall x, smem x cr = smem x cr') -> log cr os = log cr' os.
Proof.
  induction os as [|o os IH]; intros cr cr' E; auto. cbn [log]. rewrite E. f_equal. apply IH.
  intros x. cbn [smem existsb]. unfold smem in E. rewrite E. auto.
Qed.

Lemma steps_record os : forall st,
  ns_tree (fold_left step os st) = record_all roots (log (created st) os) (ns_tree st).
Proof.
  induction os as [|o os IH]; intros st; [reflexivity|]. cbn [fold_left log]. rewrite IH.
  unfold record_all. cbn [fold_left fst snd]. unfold step at 1 2. cbn [created ns_tree].
  destruct (smem (str_cpp (o_scope o)) (created st)) eqn:E; cbn [negb]; auto.
  f_equal. apply log_same. intros x. cbn [smem existsb]. destruct (seqb_spec x (str_cpp (o_scope o))) as [->|]; auto.
Qed.

Lemma log_scopes os : forall cr, map fst (log cr os) = map o_scope os.
Proof. induction os as [|o os IH]; intros cr; cbn; auto. rewrite IH. auto. Qed.

Lemma recorded_log p q os : forall cr,
  (forall o, In o os -> (path_of roots (o_scope o) = p <-> str_cpp (o_scope o) = q)) ->
  recorded_at roots (log cr os) p =
  if smem q cr then map (frag false) (at_path roots p os) else created_once frag (at_path roots p os).
Proof.
  induction os as [|o os IH]; intros cr H.
  - cbn. destruct (smem q cr); auto.
  - assert (H' : forall o, In o os -> (path_of roots (o_scope o) = p <-> str_cpp (o_scope o) = q))
      by (intros; apply H; right; auto).
    unfold recorded_at, at_path in *. cbn [log filter fst].
    destruct (same_path_spec (path_of roots (o_scope o)) p) as [E|E].
    + assert (Eq : str_cpp (o_scope o) = q) by (apply H; [left; auto|auto]). rewrite Eq.
      cbn [map snd]. rewrite IH by auto. cbn [smem existsb]. rewrite seqb_refl. cbn [orb].
      unfold smem. destruct (existsb (seqb q) cr); auto.
    + rewrite IH by auto. cbn [smem existsb].
      assert (Eq : str_cpp (o_scope o) <> q) by (intros C; apply E, H; [left; auto|auto]).
      destruct (seqb_spec q (str_cpp (o_scope o))); [congruence|]. auto.
Qed.

Lemma str_cpp_inj a b : Forall clean a -> Forall clean b -> a <> [] -> b <> [] -> str_cpp a = str_cpp b -> a = b.
Proof. intros Ha Hb Na Nb E. rewrite <- (from_string_parts a), <- (from_string_parts b), E; auto. Qed.

Lemma o_scope_ne o : o_scope o <> [].
Proof. unfold o_scope. destruct (o_around o); discriminate. Qed.

Lemma recorded_created p os : clean_openings os -> no_clash roots os ->
  recorded_at roots (log [] os) p = created_once frag (at_path roots p os).
Proof.
  intros Hc Hn. destruct (at_path roots p os) as [|o0 r] eqn:E0.
  - cbn. unfold recorded_at. unfold at_path in E0.
    assert (Hf : filter (fun r => same_path (path_of roots (fst r)) p) (log [] os) = []).
    { apply filter_false. intros [sc c] Hin. cbn [fst]. apply (in_map fst) in Hin. rewrite log_scopes in Hin.
      apply in_map_iff in Hin as (o & Eo & Hin). cbn [fst] in Eo. rewrite <- Eo.
      apply (filter_nil_In _ _ E0 o Hin). }
    rewrite Hf. auto.
  - rewrite (recorded_log p (str_cpp (o_scope o0))); [rewrite E0; auto|].
    assert (Hin0 : In o0 os /\ path_of roots (o_scope o0) = p).
    { assert (Hx : In o0 (at_path roots p os)) by (rewrite E0; left; auto). apply filter_In in Hx as [Hx1 Hx2].
      split; auto. destruct (same_path_spec (path_of roots (o_scope o0)) p); [auto|discriminate]. }
    destruct Hin0 as [Hi Hp]. unfold clean_openings in Hc. rewrite Forall_forall in Hc.
    intros o Ho. split; intros E.
    + f_equal. apply Hn; auto. congruence.
    + rewrite <- Hp. f_equal. apply str_cpp_inj; auto using o_scope_ne.
Qed.

End Steps.

Section Enclosing.
Variable roots : list str.
Variable spacer : option ekind -> ekind -> list str -> list str * option ekind.
Variable tail_ : list str.
Notation openings := (openings roots spacer tail_).
Notation unit_openings := (unit_openings roots spacer tail_).

Lemma path_of_app a b : path_of roots (a ++ b) = path_of roots a ++ path_of roots b.
Proof. apply filter_app. Qed.

Lemma opening_path it : forall around o, In o (openings around it) ->
  exists r, path_of roots (o_scope o) = path_of roots around ++ r /\ r <> [].
Proof.
  induction it as [k ls|name doc ds items IH] using item_ind'; intros around o Ho; [destruct Ho|].
  cbn [ModuleSpec.openings] in Ho. apply in_app_iff in Ho as [Ho|Ho].
  - apply in_flat_map in Ho as (it & Hit & Ho). rewrite Forall_forall in IH.
    destruct (IH it Hit _ _ Ho) as (r & E & Hr). rewrite E, path_of_app, <- app_assoc.
    eexists. split; [reflexivity|]. intros C. apply app_eq_nil in C. tauto.
  - destruct (smem name roots) eqn:E; [destruct Ho|]. destruct Ho as [<-|[]]. unfold o_scope. cbn [o_around o_name].
    rewrite path_of_app. exists [name]. split; [|discriminate]. unfold path_of at 2. cbn. rewrite E. auto.
Qed.

Lemma opening_prefix it : forall around o q r, In o (openings around it) ->
  path_of roots (o_scope o) = q ++ r -> r <> [] -> length (path_of roots around) < length q ->
  exists o', In o' (openings around it) /\ path_of roots (o_scope o') = q.
Proof.
  induction it as [k ls|name doc ds items IH] using item_ind'; intros around o q r Ho Ep Hr Hl; [destruct Ho|].
  cbn [ModuleSpec.openings] in *. apply in_app_iff in Ho as [Ho|Ho].
  - apply in_flat_map in Ho as (it & Hit & Ho). rewrite Forall_forall in IH.
    destruct (le_lt_dec (length q) (length (path_of roots (around ++ [name])))) as [Hle|Hlt].
    + assert (Hnr : smem name roots = false).
      { rewrite path_of_app, app_length in Hle. unfold path_of at 2 in Hle. cbn in Hle.
        destruct (smem name roots); auto. cbn in Hle. lia. }
      rewrite Hnr. eexists. split; [apply in_app_iff; right; left; reflexivity|].
      unfold o_scope. cbn [o_around o_name].
      destruct (opening_path it _ _ Ho) as (r' & E' & _).
      rewrite path_of_app in *. unfold path_of at 2 in Hle. unfold path_of at 3 in E'. cbn in Hle, E'.
      rewrite Hnr in Hle, E'. cbn in Hle, E'. unfold path_of at 2. cbn. rewrite Hnr. cbn.
      rewrite app_length in Hle. cbn in Hle.
      assert (Hlen : length q = length (path_of roots around ++ [name])) by (rewrite app_length; cbn; lia).
      rewrite Ep in E'. symmetry.
      apply (f_equal (firstn (length q))) in E'.
      rewrite firstn_app, Nat.sub_diag, firstn_all, Hlen in E'.
      rewrite (firstn_app _ (path_of roots around ++ [name])), Nat.sub_diag, firstn_all in E'. cbn in E'.
      rewrite !app_nil_r in E'. auto.
    + destruct (IH it Hit _ _ _ _ Ho Ep Hr Hlt) as (o' & Ho' & E'). exists o'. split; auto.
      apply in_app_iff. left. apply in_flat_map. eauto.
  - destruct (smem name roots) eqn:E; [destruct Ho|]. destruct Ho as [<-|[]]. unfold o_scope in Ep. cbn [o_around o_name] in Ep.
    rewrite path_of_app in Ep. unfold path_of at 2 in Ep. cbn in Ep. rewrite E in Ep. cbn in Ep.
    apply (f_equal (@length str)) in Ep. rewrite !app_length in Ep. cbn in Ep.
    destruct r; [congruence|]. cbn in Ep. lia.
Qed.

Lemma unit_recordable frag items : clean_openings (unit_openings items) ->
  Forall (fun r => recordable roots (fst r)) (log frag [] (unit_openings items)).
Proof.
  intros Hc. rewrite Forall_forall. intros [sc c] Hin. cbn [fst].
  apply (in_map fst) in Hin. rewrite log_scopes in Hin. apply in_map_iff in Hin as (o & Eo & Hin). cbn [fst] in Eo.
  unfold clean_openings in Hc. rewrite Forall_forall in Hc. rewrite <- Eo. split; [apply Hc; auto|].
  unfold unit_openings in Hin. apply in_flat_map in Hin as (it & _ & Ho).
  destruct (opening_path it _ _ Ho) as (r & E & Hr). rewrite E. intros C. apply app_eq_nil in C. tauto.
Qed.

Lemma unit_enclosing items p n : at_path roots (p ++ [n]) (unit_openings items) <> [] -> p <> [] ->
  at_path roots p (unit_openings items) <> [].
Proof.
  intros H Hp. destruct (at_path roots (p ++ [n]) (unit_openings items)) as [|o r] eqn:E; [congruence|].
  assert (Ho : In o (at_path roots (p ++ [n]) (unit_openings items))) by (rewrite E; left; auto).
  apply filter_In in Ho as [Ho Es].
  destruct (same_path_spec (path_of roots (o_scope o)) (p ++ [n])) as [Ep|]; [|discriminate].
  unfold unit_openings in Ho. apply in_flat_map in Ho as (it & Hit & Ho).
  destruct (opening_prefix it [] o p [n] Ho Ep) as (o' & Ho' & E'); [discriminate| |].
  { destruct p; [congruence|cbn; lia]. }
  intros C. assert (Hin : In o' (at_path roots p (unit_openings items))).
  { apply filter_In. rewrite E', same_path_refl. split; auto. apply in_flat_map. eauto. }
  rewrite C in Hin. destruct Hin.
Qed.
End Enclosing.

Section Pydef.
Variable roots : list str.
Variable py_name : str -> str.
Variable py ind : str.
Variable custom_pydef : str -> str -> option str.
Notation item_pydef := (item_pydef roots py_name py ind custom_pydef).
Notation block_pydef := (block_pydef roots py_name py ind custom_pydef).
Notation direct := (direct roots spacing_cpp []).
Notation direct_block := (direct_block roots spacing_cpp []).
Notation openings := (openings roots spacing_cpp []).
Notation creation := (fun o => submodule_line roots py_name py (o_around o) (o_name o) (o_doc o)).
Notation frag := (pydef_frag ind custom_pydef roots creation).

Lemma item_pydef_Ns sc name doc ds items st : item_pydef sc (Ns name doc ds items) st =
  let '(ls, st1) := block_pydef (sc ++ [name]) items None st in
  if smem name roots then (ls, st1)
  else
    let ls1 := add_custom (custom_pydef (str_cpp (sc ++ [name])) (var_name roots (sc ++ [name]))) ls in
    let '(creation, st2) := def_submodule_code roots py_name py sc name doc st1 in
    let stored := indent_code_lines (creation ++ ls1) 1 false (Some ind) true in
    ([], {| created := created st2;
            ns_tree := store_code roots (str_cpp (sc ++ [name])) (unlines stored) (ns_tree st2) |}).
Proof.
  cbn [ModuleModel.item_pydef].
  match goal with |- (let '(_, _) := ?f items None st in _) = _ =>
    assert (E : forall its last s, f its last s = block_pydef (sc ++ [name]) its last s) end.
  { induction its as [|it its IH]; intros last s; [reflexivity|]. cbn [ModuleModel.block_pydef].
    destruct (item_pydef (sc ++ [name]) it s) as [ls s1].
    destruct (spacing_cpp last (item_kind it) ls) as [spc last1]. rewrite IH. reflexivity. }
  rewrite E. reflexivity.
Qed.

Notation step := (step roots frag).
Notation unit_openings := (unit_openings roots spacing_cpp []).

Lemma unlines_indent ls : unlines (indent_code_lines ls 1 false (Some ind) true) = shift ind (unlines ls).
Proof. unfold indent_code_lines. rewrite unlines_lines. reflexivity. Qed.

Lemma store_step sc name doc ds ls st :
  (let ls1 := add_custom (custom_pydef (str_cpp (sc ++ [name])) (var_name roots (sc ++ [name]))) ls in
   let '(creation, st2) := def_submodule_code roots py_name py sc name doc st in
   let stored := indent_code_lines (creation ++ ls1) 1 false (Some ind) true in
   (@nil str, {| created := created st2;
           ns_tree := store_code roots (str_cpp (sc ++ [name])) (unlines stored) (ns_tree st2) |})) =
  ([], step st {| o_around := sc; o_name := name; o_doc := doc; o_docstring := ds; o_body := ls |}).
Proof.
  unfold ModuleProofs2.step, def_submodule_code, pydef_frag, custom_lines, o_scope. cbn [o_around o_name o_doc o_body].
  assert (Ec : forall X, add_custom (custom_pydef (str_cpp (sc ++ [name])) X) ls =
    ls ++ match custom_pydef (str_cpp (sc ++ [name])) X with None => [] | Some c => splitlines c end).
  { intros X. unfold add_custom. destruct (custom_pydef _ _); [auto|rewrite app_nil_r; auto]. }
  cbn zeta. rewrite Ec.
  destruct (smem (str_cpp (sc ++ [name])) (created st)); cbn [negb]; cbn [created ns_tree]; rewrite unlines_indent; reflexivity.
Qed.

Lemma block_pydef_eq items : forall sc last st,
  Forall (fun it => forall sc st, item_pydef sc it st = (direct it, fold_left step (openings sc it) st)) items ->
  block_pydef sc items last st =
  (lines_with spacing_cpp last (map (fun it => (item_kind it, direct it)) items),
   fold_left step (flat_map (openings sc) items) st).
Proof.
  induction items as [|it items IH]; intros sc last st H; [reflexivity|].
  inversion H as [|? ? H1 H2]; subst. cbn [ModuleModel.block_pydef map lines_with flat_map].
  rewrite H1. destruct (spacing_cpp last (item_kind it) (direct it)) as [spc last1].
  rewrite IH by auto. rewrite fold_left_app. reflexivity.
Qed.

Lemma item_pydef_eq it : forall sc st, item_pydef sc it st = (direct it, fold_left step (openings sc it) st).
Proof.
  induction it as [k ls|name doc ds items IH] using item_ind'; intros sc st; [reflexivity|].
  rewrite item_pydef_Ns, block_pydef_eq by auto. cbn [ModuleSpec.direct ModuleSpec.openings].
  destruct (smem name roots).
  - rewrite !app_nil_r. reflexivity.
  - rewrite fold_left_app. cbn [fold_left]. rewrite (store_step sc name doc ds). reflexivity.
Qed.

Lemma block_pydef_all items sc st : block_pydef sc items None st =
  (direct_block items, fold_left step (flat_map (openings sc) items) st).
Proof. apply block_pydef_eq. apply Forall_forall. intros it _. apply item_pydef_eq. Qed.

(** *** The binding code of a header *)

Lemma unit_pydef_eq items : clean_openings (unit_openings items) -> no_clash roots (unit_openings items) ->
  exists d, wf_doc d /\
  unit_pydef roots py_name py ind custom_pydef items =
    (match direct_block items with [] => [] | ls => unlines ls ++ [nl] end) ++ doc_text Pydef py_name ind [] d /\
  (forall p, frags p d = created_once frag (at_path roots p (unit_openings items))).
Proof.
  intros Hc Hn. unfold unit_pydef. rewrite block_pydef_all. fold (unit_openings items).
  rewrite steps_record. cbn [created ns_tree empty_state].
  destruct (record_all_text roots Pydef py_name ind _ (unit_recordable roots spacing_cpp [] frag items Hc)) as (d & Hw & Hf & Et).
  exists d. split; [auto|]. split; [rewrite Et; destruct (direct_block items); reflexivity|].
  intros p. rewrite Hf. apply recorded_created; auto.
Qed.

End Pydef.

Section StubCode.
Variable roots : list str.
Variable py_name : str -> str.
Variable ind : str.
Variable layout : bool.
Variable custom_stub : str -> str -> option str.
Notation item_stub := (item_stub roots py_name ind layout custom_stub).
Notation block_stub := (block_stub roots py_name ind layout custom_stub).
Notation direct := (direct roots (stub_spacer layout) [[]]).
Notation direct_block := (direct_block roots (stub_spacer layout) [[]]).
Notation openings := (openings roots (stub_spacer layout) [[]]).
Notation unit_openings := (unit_openings roots (stub_spacer layout) [[]]).
Notation header := (fun o => proxy_class_lines py_name ind (o_name o)).
Notation frag := (stub_frag ind custom_stub roots header).
Notation step := (step roots frag).

Lemma item_stub_Ns sc name doc ds items st : item_stub sc (Ns name doc ds items) st =
  let d := if negb (smem (str_cpp (sc ++ [name])) (created st)) && negb (smem name roots) then ds else [] in
  let '(ls, st1) := block_stub (sc ++ [name]) items None st in
  let ls1 := d ++ ls ++ [[]] in
  if smem name roots then (ls1, st1)
  else
    let ls2 := add_custom (custom_stub (str_cpp (sc ++ [name])) (var_name roots (sc ++ [name]))) ls1 in
    let '(creation, st2) := class_as_ns_creation_code py_name ind sc name st1 in
    let stored := creation ++ indent_code_lines ls2 1 false (Some ind) true in
    ([], {| created := created st2;
            ns_tree := store_code roots (str_cpp (sc ++ [name])) (unlines stored) (ns_tree st2) |}).
Proof.
  cbn [ModuleModel.item_stub].
  match goal with |- (let '(_, _) := ?f items None st in _) = _ =>
    assert (E : forall its last s, f its last s = block_stub (sc ++ [name]) its last s) end.
  { induction its as [|it its IH]; intros last s; [reflexivity|]. cbn [ModuleModel.block_stub].
    destruct (item_stub (sc ++ [name]) it s) as [ls s1].
    destruct (if layout then ([], last) else spacing_cpp last (item_kind it) ls) as [spc last1]. rewrite IH. reflexivity. }
  rewrite E. reflexivity.
Qed.

Lemma store_step_stub sc name doc ds ls st :
  (let d := if negb (smem (str_cpp (sc ++ [name])) (created st)) then ds else [] in
   let ls1 := d ++ ls ++ [[]] in
   let ls2 := add_custom (custom_stub (str_cpp (sc ++ [name])) (var_name roots (sc ++ [name]))) ls1 in
   let '(creation, st2) := class_as_ns_creation_code py_name ind sc name st in
   let stored := creation ++ indent_code_lines ls2 1 false (Some ind) true in
   (@nil str, {| created := created st2;
           ns_tree := store_code roots (str_cpp (sc ++ [name])) (unlines stored) (ns_tree st2) |})) =
  ([], step st {| o_around := sc; o_name := name; o_doc := doc; o_docstring := ds; o_body := ls |}).
Proof.
  unfold ModuleProofs2.step, class_as_ns_creation_code, stub_frag, custom_lines, o_scope.
  cbn [o_around o_name o_doc o_body o_docstring].
  assert (Ec : forall X l, add_custom (custom_stub (str_cpp (sc ++ [name])) X) l =
    l ++ match custom_stub (str_cpp (sc ++ [name])) X with None => [] | Some c => splitlines c end).
  { intros X l. unfold add_custom. destruct (custom_stub _ _); [auto|rewrite app_nil_r; auto]. }
  cbn zeta. rewrite Ec. rewrite <- !app_assoc.
  assert (El : forall l, indent_code_lines l 1 false (Some ind) true = lines (shift ind (unlines l))).
  { intros l. unfold indent_code_lines. reflexivity. }
  rewrite El.
  destruct (smem (str_cpp (sc ++ [name])) (created st)); cbn [negb]; cbn [created ns_tree]; reflexivity.
Qed.

Lemma opening_scope it : forall around o, In o (openings around it) ->
  exists r, o_scope o = around ++ r /\ r <> [].
Proof.
  induction it as [k ls|name doc ds items IH] using item_ind'; intros around o Ho; [destruct Ho|].
  cbn [ModuleSpec.openings] in Ho. apply in_app_iff in Ho as [Ho|Ho].
  - apply in_flat_map in Ho as (it & Hit & Ho). rewrite Forall_forall in IH.
    destruct (IH it Hit _ _ Ho) as (r & E & Hr). rewrite E, <- app_assoc.
    eexists. split; [reflexivity|discriminate].
  - destruct (smem name roots); [destruct Ho|]. destruct Ho as [<-|[]]. unfold o_scope. cbn [o_around o_name].
    exists [name]. split; [auto|discriminate].
Qed.

Lemma steps_created os : forall st x,
  smem x (created (fold_left step os st)) = smem x (map (fun o => str_cpp (o_scope o)) os) || smem x (created st).
Proof.
  induction os as [|o os IH]; intros st x; [reflexivity|]. cbn [fold_left map]. rewrite IH.
  unfold ModuleProofs2.step. cbn [created]. cbn [smem existsb]. unfold smem.
  destruct (existsb (seqb (str_cpp (o_scope o))) (created st)) eqn:E; cbn [negb]; cbn [existsb].
  - destruct (seqb_spec x (str_cpp (o_scope o))) as [->|]; cbn [orb]; auto. rewrite E, orb_true_r. auto.
  - destruct (seqb_spec x (str_cpp (o_scope o))) as [->|]; cbn [orb]; auto. rewrite orb_true_r. auto.
Qed.

Lemma block_stub_eq items : forall sc last st,
  Forall (fun it => forall sc st, clean_openings (openings sc it) ->
     item_stub sc it st = (direct it, fold_left step (openings sc it) st)) items ->
  clean_openings (flat_map (openings sc) items) ->
  block_stub sc items last st =
  (lines_with (stub_spacer layout) last (map (fun it => (item_kind it, direct it)) items),
   fold_left step (flat_map (openings sc) items) st).
Proof.
  induction items as [|it items IH]; intros sc last st H Hc; [reflexivity|].
  inversion H as [|? ? H1 H2]; subst. cbn [ModuleModel.block_stub map lines_with flat_map] in *.
  apply Forall_app in Hc as [Hc1 Hc2].
  rewrite H1 by auto. change (if layout then ([], last) else spacing_cpp last (item_kind it) (direct it))
    with (stub_spacer layout last (item_kind it) (direct it)).
  destruct (stub_spacer layout last (item_kind it) (direct it)) as [spc last1].
  rewrite IH by auto. rewrite fold_left_app. reflexivity.
Qed.

Lemma item_stub_eq it : forall sc st, clean_openings (openings sc it) ->
  item_stub sc it st = (direct it, fold_left step (openings sc it) st).
Proof.
  induction it as [k ls|name doc ds items IH] using item_ind'; intros sc st Hc; [reflexivity|].
  rewrite item_stub_Ns. cbn [ModuleSpec.direct ModuleSpec.openings] in *.
  apply Forall_app in Hc as [Hc1 Hc2]. rewrite block_stub_eq by auto.
  destruct (smem name roots).
  - cbn [negb]. rewrite andb_false_r. rewrite !app_nil_r. reflexivity.
  - rewrite fold_left_app. cbn [fold_left].
    rewrite <- (store_step_stub sc name doc ds).
    assert (E : smem (str_cpp (sc ++ [name])) (created (fold_left step (flat_map (openings (sc ++ [name])) items) st))
                = smem (str_cpp (sc ++ [name])) (created st)).
    { rewrite steps_created. replace (smem _ (map _ _)) with false; auto. symmetry. apply smem_false. intros Hin.
      apply in_map_iff in Hin as (o & Eo & Ho).
      assert (Hx := Ho). apply in_flat_map in Ho as (it & Hit & Ho).
      destruct (opening_scope it _ _ Ho) as (r & Er & Hr).
      inversion Hc2 as [|? ? Hs _]; subst. cbn in Hs. unfold o_scope in Hs. cbn [o_around o_name] in Hs.
      rewrite Forall_forall in Hc1. specialize (Hc1 o Hx).
      assert (Hy : o_scope o = sc ++ [name]).
      { apply str_cpp_inj; auto using o_scope_ne. destruct sc; discriminate. }
      rewrite Hy in Er. rewrite <- (app_nil_r (sc ++ [name])) in Er at 1. apply app_inv_head in Er. congruence. }
    rewrite E. cbn [negb]. rewrite andb_true_r. reflexivity.
Qed.

Lemma unit_stub_eq items : clean_openings (unit_openings items) -> no_clash roots (unit_openings items) ->
  exists d, wf_doc d /\
  unit_stub roots py_name ind layout custom_stub items =
    unlines (direct_block items) ++ doc_text Stub py_name ind [] d /\
  (forall p, frags p d = created_once frag (at_path roots p (unit_openings items))).
Proof.
  intros Hc Hn. unfold unit_stub.
  rewrite block_stub_eq; [|apply Forall_forall; intros it _; apply item_stub_eq|exact Hc].
  fold (unit_openings items). rewrite steps_record. cbn [created ns_tree empty_state].
  destruct (record_all_text roots Stub py_name ind _ (unit_recordable roots _ _ frag items Hc)) as (d & Hw & Hf & Et).
  exists d. split; [auto|]. split; [rewrite Et; reflexivity|].
  intros p. rewrite Hf. apply recorded_created; auto.
Qed.
End StubCode.

Lemma join_ns n p : join $"_" (map (fun x => $"Ns" ++ x) (n :: p)) = $"Ns" ++ n ++ concat (map (fun x => $"_Ns" ++ x) p).
Proof.
  revert n. induction p as [|m p IH]; intros n.
  - cbn [map join concat]. rewrite app_nil_r. reflexivity.
  - cbn [map] in *. rewrite join_cons. rewrite IH. cbn [concat map]. rewrite <- !app_assoc. reflexivity.
Qed.
Lemma var_name_eq roots sc : var_name roots sc = module_var (path_of roots sc).
Proof.
  unfold var_name. change (filter (not_root roots) sc) with (path_of roots sc).
  destruct (path_of roots sc) as [|n p]; [reflexivity|]. rewrite join_ns. reflexivity.
Qed.
Lemma create_eq roots py_name py o :
  submodule_line roots py_name py (o_around o) (o_name o) (o_doc o) = create_text py py_name roots o.
Proof. unfold submodule_line, create_text. rewrite !var_name_eq. reflexivity. Qed.

Lemma created_ext f g l : (forall b o, f b o = g b o) -> created_once f l = created_once g l.
Proof. intros H. destruct l as [|o l]; auto. cbn. rewrite H. f_equal. apply map_ext. auto. Qed.

Lemma created_nil f l : created_once f l <> [] <-> l <> [].
Proof. destruct l; cbn; split; congruence. Qed.

Lemma unit_pydef_final roots py_name py ind custom items :
  let os := unit_openings roots spacing_cpp [] items in
  clean_openings os -> no_clash roots os ->
  exists d, wf_doc d /\
  unit_pydef roots py_name py ind custom items =
    (match direct_block roots spacing_cpp [] items with [] => [] | ls => unlines ls ++ [nl] end)
    ++ doc_text Pydef py_name ind [] d /\
  (forall p, frags p d =
     created_once (pydef_frag ind custom roots (create_text py py_name roots)) (at_path roots p os)) /\
  (forall p n, frags (p ++ [n]) d <> [] -> p <> [] -> frags p d <> []).
Proof.
  intros os Hc Hn. destruct (unit_pydef_eq roots py_name py ind custom items Hc Hn) as (d & Hw & E & Hf).
  assert (Hf' : forall p, frags p d =
     created_once (pydef_frag ind custom roots (create_text py py_name roots)) (at_path roots p os)).
  { intros p. rewrite Hf. apply created_ext. intros b o. unfold pydef_frag. destruct b; [rewrite create_eq|]; reflexivity. }
  exists d. split; [auto|]. split; [auto|]. split; [auto|].
  intros p n H Hp. rewrite Hf' in *. apply created_nil in H. apply created_nil. eapply unit_enclosing; eauto.
Qed.

Lemma unit_stub_final roots py_name ind layout custom items :
  let os := unit_openings roots (stub_spacer layout) [[]] items in
  clean_openings os -> no_clash roots os ->
  exists d, wf_doc d /\
  unit_stub roots py_name ind layout custom items =
    unlines (direct_block roots (stub_spacer layout) [[]] items) ++ doc_text Stub py_name ind [] d /\
  (forall p, frags p d =
     created_once (stub_frag ind custom roots (header_lines py_name ind)) (at_path roots p os)) /\
  (forall p n, frags (p ++ [n]) d <> [] -> p <> [] -> frags p d <> []).
Proof.
  intros os Hc Hn. destruct (unit_stub_eq roots py_name ind layout custom items Hc Hn) as (d & Hw & E & Hf).
  exists d. split; [auto|]. split; [auto|]. split; [exact Hf|].
  intros p n H Hp. rewrite Hf in *. apply created_nil in H. apply created_nil. eapply unit_enclosing; eauto.
Qed.
