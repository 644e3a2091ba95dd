From Verif Require Import PyStr PyStrLemmas PyDict RegionsModel TextModel TextSpec TextProofs CommentModel CommentSpec FillModel FillSpec FillProofs FillProofs2 FillProofs3 FillProofs4
  LambdaTextSpec LambdaTextProofs ModuleModel TypeTextModel NamedModel NamedProofs3 EnumModel EnumSpec EnumProofs EnumProofs2 EnumProofs3 CommentProofs3 CommentProofs4 ClassModel ClassSpec ClassProofs ClassProofs2 ClassProofs3 ClassProofs5
  GlueModel GlueSpec GlueProofs GlueProofs2 PimplModel PimplSpec PimplProofs PimplProofs2.
Local Notation K := pimpl_names.
Local Notation T := FillSpec.Text.
Local Notation H := FillSpec.Hole.
Ltac pieces := repeat (apply Forall_cons; [first [apply pimpl_name; reflexivity|apply neutralb_true; reflexivity]|]); apply Forall_nil.

(** ** Comments *)

(** A line which is only a comment, without opening brace. *)
Definition noted (l : str) : Prop := exists w r, l = w ++ $"//" ++ r /\ Forall (fun c => is_space c = true) w /\ ~ In nl l /\ ~ In "{"%char l.
Lemma noted_lex l : noted l -> line_lex l = [].
Proof.
  intros (w & r & -> & W & N & _). apply line_is; auto. replace ((w ++ $"//" ++ r) ++ [nl]) with (w ++ $"//" ++ r ++ [nl]) by (rewrite <- !app_assoc; reflexivity).
  apply reads_comment; auto. intros I. apply N. rewrite !in_app_iff. auto.
Qed.
Lemma starts_is p s : startswith p s = true -> exists r, s = p ++ r.
Proof.
  revert s. induction p as [|x p IH]; intros s E; [exists s; reflexivity|]. destruct s as [|y s]; [discriminate|]. cbn [startswith] in E. apply andb_prop in E. destruct E as [A B].
  destruct (ceqb_spec x y) as [->|]; [|discriminate]. destruct (IH s B) as (r & ->). exists r. reflexivity.
Qed.
Lemma strip_slashes l : startswith $"//" (strip l) = true -> exists w r, l = w ++ $"//" ++ r /\ Forall (fun c => is_space c = true) w.
Proof.
  intros E. destruct (starts_is _ _ E) as (r & S). unfold strip in S. destruct (rstrip_split (lstrip l)) as (w' & L & _). rewrite S in L.
  exists (takewhile is_space l), (r ++ w'). split.
  - rewrite <- (takewhile_dropwhile is_space l) at 1. f_equal. rewrite app_assoc. exact L.
  - clear. induction l as [|c s IH]; [constructor|]. cbn [takewhile]. destruct (is_space c) eqn:C; constructor; auto.
Qed.
Lemma token_noted l : ~ In nl l -> ~ In "{"%char l -> noted (add_line_comment_token_if_needed l).
Proof.
  intros N B. unfold add_line_comment_token_if_needed. destruct (startswith $"//" (strip l)) eqn:E.
  - destruct (strip_slashes l E) as (w & r & L & W). exists w, r. auto.
  - exists [], l. split; [reflexivity|]. split; [constructor|]. split; intros [X|[X|X]]; try discriminate; auto.
Qed.
Lemma splitlines_in s l : In l (splitlines s) -> In l (lines s).
Proof.
  unfold splitlines. destruct (rev (lines s)) as [|x r] eqn:E; auto. destruct x; auto. intros I. apply in_rev. rewrite E. right. apply in_rev. exact I.
Qed.
Definition notes (n : note) : list str := map add_line_comment_token_if_needed (splitlines (n_previous n)).
Lemma notes_good n : good_note n -> Forall noted (notes n).
Proof.
  intros (_ & B & _). apply Forall_forall. intros l I. apply in_map_iff in I. destruct I as (x & <- & I). apply splitlines_in in I. apply token_noted.
  - pose proof (lines_no_nl (n_previous n)) as F. rewrite Forall_forall in F. auto.
  - intros J. apply B. destruct (line_inside _ _ I) as (a & b & ->). rewrite !in_app_iff. auto.
Qed.
Lemma noted_end l : noted l -> exists x c, l = x ++ [c] /\ c <> nl.
Proof.
  intros (w & r & E & _ & N & _). destruct (last_case l) as [->|(x & c & ->)]; [destruct w; discriminate E|].
  exists x, c. split; auto. intros ->. apply N. rewrite in_app_iff. right. left. auto.
Qed.
Lemma notes_end ls : Forall noted ls -> ls <> [] -> exists x c, unlines ls = x ++ [c] /\ c <> nl.
Proof.
  intros F N. destruct (exists_last N) as (r & l & E). subst ls. apply Forall_app in F. destruct F as [_ F]. inversion F as [|? ? L _]; subst. destruct (noted_end l L) as (x & c & -> & C).
  destruct r as [|a r]; [exists x, c; split; auto; cbn [app]; apply unlines_single|]. rewrite unlines_app, unlines_single by discriminate. exists (unlines (a :: r) ++ [nl] ++ x), c. split; auto. rewrite <- !app_assoc. reflexivity.
Qed.
Definition closed_lines (ls : list str) : str := concat (map (fun l => l ++ [nl]) ls).
Lemma unlines_closed ls : ls <> [] -> unlines ls ++ [nl] = closed_lines ls.
Proof.
  induction ls as [|x ls IH]; [congruence|]. intros _. unfold closed_lines in *. destruct ls as [|y ls]; [cbn [map concat]; rewrite unlines_single, app_nil_r; reflexivity|].
  specialize (IH ltac:(discriminate)). change (unlines (x :: y :: ls)) with (x ++ [nl] ++ unlines (y :: ls)). cbn [map concat] in *. rewrite <- IH, <- !app_assoc. reflexivity.
Qed.
Lemma top_above n : good_note n -> top_comment_code true n = closed_lines (notes n).
Proof.
  intros G. pose proof (notes_good n G) as F. destruct G as (C & _). unfold top_comment_code. rewrite C. fold (notes n). cbv zeta. destruct (notes n) as [|l ls] eqn:E; [reflexivity|].
  destruct (notes_end (l :: ls) F ltac:(discriminate)) as (x & c & U & N). rewrite <- unlines_closed by discriminate. rewrite U.
  assert (X : endswith [nl] (x ++ [c]) = false) by (rewrite ends_in; cbn [rev app startswith]; destruct (ceqb_spec nl c); [congruence|reflexivity]). rewrite X. destruct x; reflexivity.
Qed.
Lemma top_alone n : good_note n -> top_comment_code false n = unlines (notes n).
Proof.
  intros G. pose proof (notes_good n G) as F. destruct G as (C & _). unfold top_comment_code. rewrite C. fold (notes n). cbv zeta. destruct (notes n) as [|l ls] eqn:E; [reflexivity|].
  destruct (notes_end (l :: ls) F ltac:(discriminate)) as (x & c & U & N). rewrite U. rewrite rev_app_distr. cbn [rev app dropwhile]. destruct (ceqb_spec nl c); [congruence|].
  change (c :: rev x) with (rev [c] ++ rev x). rewrite <- rev_app_distr. apply rev_involutive.
Qed.
Lemma no_brace_closed ls : Forall (fun l => ~ In "{"%char l) ls -> ~ In "{"%char (closed_lines ls).
Proof. induction 1 as [|l ls L F IH]; [intros []|]. unfold closed_lines. cbn [map concat]. rewrite !in_app_iff. intros [[I|[I|[]]]|I]; auto. discriminate. Qed.
Lemma notes_brace n : good_note n -> Forall (fun l => ~ In "{"%char l) (notes n).
Proof. intros G. eapply Forall_impl; [|exact (notes_good n G)]. intros l (w & r & _ & _ & _ & B). exact B. Qed.
Lemma notes_unlines_brace ls : Forall (fun l => ~ In "{"%char l) ls -> ~ In "{"%char (unlines ls).
Proof. intros F I. destruct ls as [|l ls]; [exact I|]. apply (no_brace_closed _ F). rewrite <- unlines_closed by discriminate. rewrite in_app_iff. auto. Qed.

(** The comment behind. *)
Lemma eol_good e : good_eol e -> let t := eol_comment_code e in ~ In "{"%char t /\ ~ In nl t /\ (t = [] /\ e = [] \/ (exists a b, t = a ++ "/"%char :: b /\ kept b) /\ exists w r, t = w ++ $"//" ++ r /\ Forall (fun c => is_space c = true) w).
Proof.
  intros (B & N & E1 & E3 & E2). cbv zeta. unfold eol_comment_code. destruct e as [|c e]; [split; [intros []|split; [intros []|left; auto]]|]. set (t := c :: e) in *. clearbody t.
  destruct (startswith $"//" (strip t)) eqn:S.
  - split; auto. split; auto. right. destruct (strip_slashes t S) as (w & r & L & W). split; [|exists w, r; auto]. exists (w ++ $"/"), r. split; [rewrite L, <- app_assoc; reflexivity|].
    assert (X : t = (w ++ $"/") ++ "/"%char :: r) by (rewrite L, <- app_assoc; reflexivity). rewrite X in E1, E2, E3. rewrite ends_after in E1, E2, E3 by (cbn; intuition discriminate).
    split; [|split]; assumption.
  - split; [intros [X|[X|[X|X]]]; try discriminate; auto|]. split; [intros [X|[X|[X|X]]]; try discriminate; auto|]. right. split; [|exists $" ", t; split; [reflexivity|repeat constructor]].
    exists $" /", t. split; [reflexivity|]. split; [|split]; assumption.
Qed.
