From Verif Require Import PyStr PyStrLemmas RegionsModel RegionsProofs TextModel TextSpec CommentModel CommentSpec CommentProofs3 FillModel FillSpec FillProofs FillProofs3 FillProofs4 OverloadModel EnumModel EnumSpec
  EnumProofs ClassModel ClassSpec ClassProofs3 ClassProofs5 StubTreeModel StubTreeSpec StubTreeProofs StubTreeProofs2 StubTreeProofs3.

(** ** Titles *)

Lemma steps_word w : forall cur, Forall (fun c => is_word c = true) w -> steps (InCode cur) w = ([], InCode (cur ++ w)).
Proof.
  induction w as [|c w IH]; intros cur F; [rewrite app_nil_r; reflexivity|]. apply Forall_cons_iff in F as [Hc Hw]. cbn [steps step]. unfold code_step.
  assert (N : ceqb c "#" = false) by (destruct (ceqb_spec c "#") as [->|]; [discriminate Hc|reflexivity]). rewrite N, Hc, IH by auto. rewrite <- app_assoc. reflexivity.
Qed.
Definition mild (k : pylex) : Prop := match k with PStr => False | _ => True end.
Lemma type_code t : forall cur, Forall (fun c => is_word c || existsb (ceqb c) ["."; ","; " "; "["; "]"]%char = true) t -> exists ks cur', steps (InCode cur) t = (ks, InCode cur').
Proof.
  induction t as [|c t IH]; intros cur F; [eexists; eexists; reflexivity|]. apply Forall_cons_iff in F as [Hc Ht]. cbn [steps].
  assert (S : exists k cur1, step (InCode cur) c = (k, InCode cur1)).
  { cbn [step]. unfold code_step. destruct (is_word c) eqn:W.
    - destruct (ceqb_spec c "#") as [->|]; [discriminate W|eauto].
    - cbn [orb existsb] in Hc. repeat (match type of Hc with (ceqb c ?x || _) = true => destruct (ceqb_spec c x) as [->|]; [eexists; eexists; reflexivity|cbn [orb] in Hc] end). discriminate. }
  destruct S as (k & cur1 & ->). destruct (IH cur1 Ht) as (ks & cur' & ->). eauto.
Qed.
Lemma type_read t : Forall (fun c => is_word c || existsb (ceqb c) ["."; ","; " "; "["; "]"]%char = true) t ->
  exists ks cur, steps (InCode []) t = (ks, InCode cur) /\ py_read t = ks ++ word_end cur.
Proof. intros F. destruct (type_code t [] F) as (ks & cur & E). exists ks, cur. split; auto. unfold py_read. rewrite scan_is. cbn [start]. rewrite E. reflexivity. Qed.
Lemma type_no_nl t : Forall (fun c => is_word c || existsb (ceqb c) ["."; ","; " "; "["; "]"]%char = true) t -> ~ In nl t.
Proof. intros F I. rewrite Forall_forall in F. apply F in I. discriminate. Qed.
Lemma type_no_brace t : Forall (fun c => is_word c || existsb (ceqb c) ["."; ","; " "; "["; "]"]%char = true) t -> ~ In "{"%char t.
Proof. intros F I. rewrite Forall_forall in F. apply F in I. discriminate. Qed.
Lemma balance_app a b : forall d, balance d (a ++ b) = match balance d a with Some e => balance e b | None => None end.
Proof.
  induction a as [|[w|c|] a IH]; intros d; cbn [app balance]; auto. destruct (existsb (ceqb c) ["("; "["; "{"]%char); auto.
  destruct (existsb (ceqb c) [")"; "]"; "}"]%char); auto. destruct d; auto.
Qed.
Lemma balance_deep a : forall d e k, balance d a = Some e -> balance (k + d) a = Some (k + e).
Proof.
  induction a as [|[w|c|] a IH]; intros d e k; cbn [balance]; try (intros E; inversion E; reflexivity); auto.
  destruct (existsb (ceqb c) ["("; "["; "{"]%char). { intros E. apply IH with (k := k) in E. rewrite Nat.add_succ_r in E. exact E. }
  destruct (existsb (ceqb c) [")"; "]"; "}"]%char); auto. destruct d; [discriminate|]. intros E. rewrite Nat.add_succ_r. auto.
Qed.
Lemma balance_at a d : balance 0 a = Some 0 -> balance d a = Some d.
Proof. intros E. apply (balance_deep a 0 0 d) in E. rewrite !Nat.add_0_r in E. exact E. Qed.
(** The bases, one after the other. *)
Lemma read_comma a b : (exists ks cur, steps (InCode []) a = (ks, InCode cur)) -> (exists ks cur, steps (InCode []) b = (ks, InCode cur)) ->
  py_read (a ++ $", " ++ b) = py_read a ++ PSign "," :: py_read b.
Proof.
  intros (ka & ca & A) (kb & cb & B). unfold py_read. rewrite !scan_is. cbn [start]. rewrite steps_app, A, steps_app, B. cbn [finish].
  assert (E : steps (InCode ca) $", " = (word_end ca ++ [PSign ","], InCode [])) by (destruct ca; reflexivity). rewrite E, B. cbn [finish]. rewrite <- !app_assoc. reflexivity.
Qed.
Lemma join_types ps : Forall type_name ps -> type_name (join $", " ps).
Proof.
  induction ps as [|p ps IH]; intros F; [split; [constructor|reflexivity]|]. apply Forall_cons_iff in F as [Hp Hps]. destruct ps as [|q ps]; [exact Hp|].
  rewrite join_cons. destruct Hp as [P1 P2]. destruct (IH Hps) as [Q1 Q2]. split.
  - apply Forall_app. split; auto. apply Forall_app. split; auto. repeat constructor.
  - rewrite read_comma by (apply type_code; auto). rewrite balance_app, P2. exact Q2.
Qed.

Definition title_lexemes (name : str) (bases : list pylex) : list pylex := [PWord $"class"; PWord name] ++ bases ++ [PSign ":"].
Lemma title_facts name bases : balance 0 bases = Some 0 ->
  balance 0 (title_lexemes name bases) = Some 0 /\ opens_block (title_lexemes name bases) = true /\
  defined [] (title_lexemes name bases) = [([name], bases)] /\ inside [] (title_lexemes name bases) = [name].
Proof.
  intros B. unfold title_lexemes. split; [cbn [app balance]; rewrite balance_app, B; reflexivity|]. split; [|split].
  - unfold opens_block. rewrite !rev_app_distr. reflexivity.
  - cbn [app defined]. change (seqb $"class" $"class") with true. cbn iota. rewrite removelast_last. reflexivity.
  - reflexivity.
Qed.
Lemma title_steps name parents ps : Forall (fun c => is_word c = true) name -> name <> [] ->
  (parents = [] /\ ps = [] \/ exists t ks cur, parents = $"(" ++ t ++ $")" /\ steps (InCode []) t = (ks, InCode cur) /\ ps = PSign "(" :: (ks ++ word_end cur) ++ [PSign ")"]) ->
  steps (InCode []) ($"class " ++ name ++ parents ++ $":") = (title_lexemes name ps, InCode []).
Proof.
  intros W Nn P. rewrite steps_app. assert (E : steps (InCode []) $"class " = ([PWord $"class"], InCode [])) by (vm_compute; reflexivity). rewrite E.
  rewrite steps_app, (steps_word name [] W). cbn [app]. assert (We : word_end name = [PWord name]) by (destruct name; [congruence|reflexivity]).
  destruct P as [[-> ->]|(t & ks & cur & -> & T & ->)].
  - cbn [app]. assert (E2 : steps (InCode name) $":" = (word_end name ++ [PSign ":"], InCode [])) by (destruct name; reflexivity). rewrite E2, We. reflexivity.
  - rewrite <- !app_assoc, steps_app. assert (E2 : steps (InCode name) $"(" = (word_end name ++ [PSign "("], InCode [])) by (destruct name; reflexivity).
    rewrite E2, We, steps_app, T. assert (E3 : steps (InCode cur) ($")" ++ $":") = (word_end cur ++ [PSign ")"; PSign ":"], InCode [])) by (destruct cur; reflexivity).
    rewrite E3. unfold title_lexemes. cbn [app]. rewrite <- !app_assoc. reflexivity.
Qed.

Section Tree.
Variable o : class_env.
Variable copy_info : bool.
Variable values : cpp_enum -> list enumerator.
Notation eo := (cl_enum o).
Hypothesis indent : Forall (eq sp) (cl_indent o) /\ cl_indent o <> [].
Hypothesis py_indent : Forall (eq sp) (eo_py_indent eo) /\ eo_py_indent eo <> [].

(** ** Enums *)

Lemma value_line_reads n l : value_line n l -> reads [l] [] /\ states [l].
Proof.
  intros [[N W] (r & -> & Nr)]. set (ks := [PWord n; PSign "="; PWord $"enum"; PSign "."; PWord $"auto"; PSign "("; PSign ")"]).
  apply (reads_line (n ++ $" = enum.auto() # " ++ r) ks); try reflexivity.
  - intros I. apply in_app_or in I. destruct I as [I|I]; [rewrite Forall_forall in W; apply W in I; discriminate|]. apply in_app_or in I. destruct I as [I|I]; auto. vm_compute in I. intuition discriminate.
  - rewrite scan_is. cbn [start]. rewrite steps_app, (steps_word n [] W). cbn [app]. rewrite steps_app.
    assert (E : steps (InCode n) $" = enum.auto() # " = (word_end n ++ [PSign "="; PWord $"enum"; PSign "."; PWord $"auto"; PSign "("; PSign ")"], InComment)).
    { assert (X : steps (InCode n) $" = enum.auto() # " = let (a, b) := steps (InCode []) $"= enum.auto() # " in (word_end n ++ a, b)) by reflexivity. rewrite X.
      assert (Y : steps (InCode []) $"= enum.auto() # " = ([PSign "="; PWord $"enum"; PSign "."; PWord $"auto"; PSign "("; PSign ")"], InComment)) by (vm_compute; reflexivity). rewrite Y. reflexivity. }
    rewrite E, steps_comment. destruct n; [congruence|]. reflexivity.
  - discriminate.
  - unfold indent_of. destruct n as [|c n]; [congruence|]. cbn [app takewhile]. inversion W; subst. destruct (ceqb_spec sp c) as [<-|]; [discriminate|reflexivity].
Qed.
Lemma body_reads ns ls : body_of ns ls -> reads ls [] /\ (ns <> [] -> states ls).
Proof.
  intros B. induction B as [|n l ns ls V B [IH1 IH2]|l ns ls C B [IH1 IH2]|l ns ls -> B [IH1 IH2]].
  - split; [exact reads_nil|congruence].
  - destruct (value_line_reads n l V) as [R S]. split; [exact (reads_app [l] ls [] [] R IH1)|]. intros _. exact (states_app [l] ls [] [] R IH1 (or_introl S)).
  - assert (R : reads [l] []) by (apply reads_nothing; apply Forall_cons; [right; exact C|constructor|destruct C as (a & b & _ & _ & N); exact N|constructor]).
    split; [exact (reads_app [l] ls [] [] R IH1)|]. intros N. exact (states_app [l] ls [] [] R IH1 (or_intror (IH2 N))).
  - assert (R : reads [@nil ascii] []) by (apply reads_blanks; repeat constructor).
    split; [exact (reads_app [[]] ls [] [] R IH1)|]. intros N. exact (states_app [[]] ls [] [] R IH1 (or_intror (IH2 N))).
Qed.
Lemma enum_reads e location stub_location path : showable o copy_info values (NEnum e location stub_location) ->
  reads (enum_stub (stub_enum_at o stub_location) e) (shown_classes o [] (NEnum e location stub_location)) /\
  shown_classes o path (NEnum e location stub_location) = map (in_path path) (shown_classes o [] (NEnum e location stub_location)).
Proof.
  intros (W & K & (Hi & Nl & We & R & F) & C & D & B). split; [|reflexivity]. set (so := stub_enum_at o stub_location) in *.
  assert (K' : enum_kept so e (values e)) by exact K. rewrite <- (kept_values so e (values e) W K') in F, B.
  assert (Bo : body_of (map (value_python so e) (values_of (enum_published so e))) (enum_body so e)).
  { unfold enum_body. apply children_body; auto. rewrite Forall_forall in F. auto. }
  destruct (body_reads _ _ Bo) as [Rb Sb]. unfold enum_stub.
  set (base := (if eo_arithmetic eo (enum_scope_self e) then $"Int" else []) ++ (if eo_flag eo (enum_scope_self e) then $"Flag" else $"Enum")).
  assert (Eb : enum_base so e = $"enum." ++ base).
  { unfold enum_base, base. cbn [so stub_enum_at eo_arithmetic eo_flag]. destruct (eo_arithmetic eo _), (eo_flag eo _); reflexivity. }
  assert (Lb : exists ks cur, steps (InCode []) ($"enum." ++ base) = (ks, InCode cur) /\ ks ++ word_end cur = [PWord $"enum"; PSign "."; PWord base]).
  { unfold base. destruct (eo_arithmetic eo _), (eo_flag eo _); eexists; eexists; (split; [vm_compute; reflexivity|reflexivity]). }
  destruct Lb as (ks & cur & L1 & L2). destruct We as [Wn Ww].
  pose proof (title_steps (eo_enum_name eo (en_name e)) ($"(" ++ ($"enum." ++ base) ++ $")") (PSign "(" :: [PWord $"enum"; PSign "."; PWord base] ++ [PSign ")"]) Ww Wn
    (or_intror (ex_intro _ _ (ex_intro _ _ (ex_intro _ _ (conj eq_refl (conj L1 (f_equal (fun x => PSign "(" :: x ++ [PSign ")"]) (eq_sym L2))))))))) as T.
  assert (Et : enum_title so e = $"class " ++ eo_enum_name eo (en_name e) ++ ($"(" ++ ($"enum." ++ base) ++ $")") ++ $":").
  { unfold enum_title. rewrite Eb. cbn [so stub_enum_at eo_enum_name]. repeat (rewrite <- !app_assoc; cbn [app]). reflexivity. }
  assert (Bl : balance 0 (PSign "(" :: [PWord $"enum"; PSign "."; PWord base] ++ [PSign ")"]) = Some 0) by reflexivity.
  destruct (title_facts (eo_enum_name eo (en_name e)) _ Bl) as (T1 & T2 & T3 & T4).
  pose proof (reads_layout (eo_strip so) (eo_layout so) (eo_replacements so) "c" ($"lass " ++ eo_enum_name eo (en_name e) ++ ($"(" ++ ($"enum." ++ base) ++ $")") ++ $":") [] stub_location
    _ (en_previous e) (en_eol e) (enum_body so e) (eo_py_indent so) [] (proj1 py_indent) (proj2 py_indent) T T1 eq_refl T2) as G.
  rewrite T3, T4, app_nil_r in G. rewrite Et.
  assert (Ec : shown_classes o [] (NEnum e location stub_location) = [([eo_enum_name eo (en_name e)], PSign "(" :: [PWord $"enum"; PSign "."; PWord base] ++ [PSign ")"])]).
  { cbn [shown_classes]. unfold base_of_enum. assert (Es : scoped_name (en_scope e) (en_name e) = enum_scope_self e) by (unfold scoped_name, enum_scope_self; destruct (en_scope e); reflexivity).
    rewrite Es. reflexivity. }
  rewrite Ec. apply G; auto; clear G.
  - rewrite <- Et in *. intros I. change (In nl ($"class " ++ eo_enum_name eo (en_name e) ++ ($"(" ++ ($"enum." ++ base) ++ $")") ++ $":")) in I. rewrite <- Et in I.
    unfold enum_title in I. apply in_app_or in I. destruct I as [I|I]; [vm_compute in I; intuition discriminate|].
    apply in_app_or in I. destruct I as [I|I]; [rewrite Forall_forall in Ww; apply Ww in I; discriminate|].
    apply in_app_or in I. destruct I as [I|I]; [vm_compute in I; intuition discriminate|]. apply in_app_or in I. destruct I as [I|I]; [exact (base_no_nl so e I)|].
    vm_compute in I; intuition discriminate.
  - left. reflexivity.
  - destruct B as [B|[B|B]].
    + right. right. exact B.
    + left. apply Sb. destruct (values_of (enum_published so e)); [congruence|discriminate].
    + destruct (values_of (enum_published so e)) as [|v vs] eqn:Ev; [|left; apply Sb; discriminate]. right. left. unfold enum_body.
      assert (Z : enum_published so e = []); [|rewrite Z; reflexivity].
      assert (Bp : Forall (fun c => match c with EValue _ => True | _ => False end) (enum_published so e)).
      { unfold enum_published. clear - B. apply Forall_forall. intros c I. apply filter_In in I as [I _]. rewrite Forall_forall in B. exact (B c I). }
      destruct (enum_published so e) as [|[v|t|] r]; auto; [discriminate Ev| |]; inversion Bp; contradiction.
Qed.
End Tree.
