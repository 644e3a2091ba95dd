From Verif Require Import PyStr PyStrLemmas RegionsModel TextModel TextSpec CommentModel CommentSpec CommentProofs3 CommentProofs4 OverloadModel EnumModel EnumSpec EnumProofs ClassModel
  StubTreeModel StubTreeSpec.

(** ** Reading a line *)

Lemma steps_app m a b : steps m (a ++ b) = let (ks, m') := steps m a in let (ks', m'') := steps m' b in (ks ++ ks', m'').
Proof.
  revert m. induction a as [|c a IH]; intros m; cbn [app steps].
  - destruct (steps m b); reflexivity.
  - destruct (step m c) as [k1 m1]. rewrite IH. destruct (steps m1 a) as [k2 m2]. destruct (steps m2 b) as [k3 m3]. rewrite app_assoc. reflexivity.
Qed.
Definition start (from : option ascii) : mode := match from with None => InCode [] | Some q => InTriple q 0 end.
Definition finish (r : list pylex * mode) : option (list pylex * option ascii) :=
  let (ks, m) := r in
  match m with
  | InCode cur => Some (ks ++ word_end cur, None)
  | Quotes _ => Some (ks ++ [PStr], None)
  | InComment => Some (ks, None)
  | InTriple q _ | Escape q => Some (ks, Some q)
  | Quote _ | InString _ _ => None
  end.
Lemma scan_is from l : scan from l = finish (steps (start from) l).
Proof. unfold scan, finish, start. destruct (steps _ l). reflexivity. Qed.
(** Quotes are signs. *)
Definition quote_ok (m : mode) : Prop :=
  match m with Quote q | Quotes q | InString q _ | InTriple q _ | Escape q => q = dq \/ q = sq | _ => True end.
Lemma code_ok cur c : quote_ok (snd (code_step cur c)).
Proof.
  unfold code_step. destruct (ceqb c "#"); [exact I|]. destruct (is_word c); [exact I|]. destruct (is_space c); [exact I|].
  destruct (ceqb_spec c dq) as [->|]; [cbn; auto|]. destruct (ceqb_spec c sq) as [->|]; cbn; auto.
Qed.
Lemma step_ok m c : quote_ok m -> quote_ok (snd (step m c)).
Proof.
  intros Q. destruct m as [cur|q|q|q [|]|q n|q|]; cbn [step quote_ok] in *; try exact I; auto.
  - apply code_ok.
  - destruct (ceqb c q); [exact Q|]. destruct (ceqb c bsl); exact Q.
  - destruct (ceqb c q); [exact Q|]. pose proof (code_ok [] c) as K. destruct (code_step [] c). exact K.
  - destruct (ceqb c bsl); [exact Q|]. destruct (ceqb c q); [exact I|exact Q].
  - destruct (ceqb c bsl); [exact Q|]. destruct (ceqb c q); [|exact Q]. destruct (n <? 2); [exact Q|exact I].
Qed.
Lemma steps_ok s : forall m, quote_ok m -> quote_ok (snd (steps m s)).
Proof.
  induction s as [|c s IH]; intros m Q; cbn [steps]; auto. pose proof (step_ok m c Q) as Q1. destruct (step m c) as [k1 m1]. cbn [snd] in Q1.
  specialize (IH m1 Q1). destruct (steps m1 s). exact IH.
Qed.
Definition from_ok (from : option ascii) : Prop := match from with None => True | Some q => q = dq \/ q = sq end.
Lemma start_ok from : from_ok from -> quote_ok (start from).
Proof. destruct from; cbn; auto. Qed.
Lemma scan_ok from l ks open : from_ok from -> scan from l = Some (ks, open) -> from_ok open.
Proof.
  intros F. rewrite scan_is. pose proof (steps_ok l _ (start_ok from F)) as Q. destruct (steps (start from) l) as [k m]. cbn [snd finish] in *.
  destruct m; intros E; inversion E; subst; cbn; auto.
Qed.

(** Spaces at the end of a line. *)
Lemma space_facts c : is_space c = true -> ceqb c "#" = false /\ is_word c = false /\ ceqb c dq = false /\ ceqb c sq = false /\ ceqb c bsl = false.
Proof. destruct c as [[] [] [] [] [] [] [] []]; cbn; intros; try discriminate; repeat split; reflexivity. Qed.
Lemma space_quote c q : is_space c = true -> q = dq \/ q = sq -> ceqb c q = false.
Proof. intros S [->| ->]; apply space_facts in S; tauto. Qed.
Lemma code_space cur c : is_space c = true -> code_step cur c = (word_end cur, InCode []).
Proof. intros S. unfold code_step. destruct (space_facts c S) as (A & B & _). rewrite A, B, S. reflexivity. Qed.
Lemma finish_space m c : quote_ok m -> is_space c = true -> finish (step m c) = finish ([], m).
Proof.
  intros Q S. destruct (space_facts c S) as (_ & _ & _ & _ & B). destruct m as [cur|q|q|q [|]|q n|q|]; cbn [step quote_ok] in *;
    rewrite ?(code_space _ c S), ?(space_quote c q S Q), ?B; cbn [finish app]; auto; try (rewrite ?app_nil_r; reflexivity).
Qed.
Lemma finish_cons ks m ks' : finish (ks ++ ks', m) = option_map (fun r => (ks ++ fst r, snd r)) (finish (ks', m)).
Proof. destruct m; cbn [finish option_map fst snd]; rewrite ?app_assoc; reflexivity. Qed.
Lemma finish_spaces s : forall m, quote_ok m -> is_blank_line s -> finish (steps m s) = finish ([], m).
Proof.
  induction s as [|c s IH]; intros m Q B; cbn [steps]; auto. inversion B as [|? ? Hc Hs]; subst. pose proof (finish_space m c Q Hc) as F. pose proof (step_ok m c Q) as Q1.
  destruct (step m c) as [k1 m1]. cbn [snd] in Q1. specialize (IH m1 Q1 Hs). destruct (steps m1 s) as [k2 m2]. rewrite finish_cons, IH, <- finish_cons, app_nil_r. exact F.
Qed.
Lemma finish_trailing m a s : quote_ok m -> is_blank_line s -> finish (steps m (a ++ s)) = finish (steps m a).
Proof.
  intros Q B. rewrite steps_app. pose proof (steps_ok a m Q) as Q1. destruct (steps m a) as [k1 m1]. cbn [snd] in Q1. pose proof (finish_spaces s m1 Q1 B) as F.
  destruct (steps m1 s) as [k2 m2]. rewrite finish_cons, F, <- finish_cons, app_nil_r. reflexivity.
Qed.
Lemma rstrip_tail l : exists s, l = rstrip l ++ s /\ is_blank_line s.
Proof.
  unfold rstrip. exists (rev (takewhile is_space (rev l))). split.
  - rewrite <- rev_app_distr. rewrite <- (rev_involutive l) at 1. f_equal. induction (rev l) as [|c r IH]; auto. cbn. destruct (is_space c); cbn; congruence.
  - apply Forall_rev. induction (rev l) as [|c r IH]; cbn; [constructor|]. destruct (is_space c) eqn:E; constructor; auto.
Qed.
Lemma scan_rstrip from l : from_ok from -> scan from (rstrip l) = scan from l.
Proof. intros F. destruct (rstrip_tail l) as (s & E & B). rewrite E at 2. rewrite !scan_is. symmetry. apply finish_trailing; auto. apply start_ok; auto. Qed.
(** Spaces at the start. *)
Lemma steps_leading from i l : from_ok from -> Forall (eq sp) i -> steps (start from) (i ++ l) = steps (start from) l.
Proof.
  intros F I. induction I as [|c i <- I IH]; auto. cbn [app steps].
  assert (E : step (start from) sp = ([], start from)) by (destruct from as [q|]; [destruct F as [->| ->]|]; reflexivity). rewrite E, IH. destruct (steps (start from) l). reflexivity.
Qed.
Lemma scan_leading from i l : from_ok from -> Forall (eq sp) i -> scan from (i ++ l) = scan from l.
Proof. intros F I. rewrite !scan_is, steps_leading by auto. reflexivity. Qed.
Lemma scan_indented from i l : from_ok from -> Forall (eq sp) i -> scan from (indent_line i true l) = scan from l.
Proof. intros F I. destruct l as [|c l]; auto. cbn [indent_line]. rewrite scan_leading by auto. apply scan_rstrip; auto. Qed.
(** Spaces before a sharp. *)
Lemma spaces_sharp m k r : quote_ok m -> steps m (spaces k ++ "#"%char :: r) = steps m ("#"%char :: r).
Proof.
  destruct k as [|k]; intros Q; auto. unfold spaces. cbn [repeat app].
  assert (A : forall s j t, (s = InCode [] \/ s = InComment \/ (exists q, (q = dq \/ q = sq) /\ (s = InString q false \/ s = InTriple q 0))) ->
    steps s (repeat sp j ++ t) = steps s t).
  { intros s j t H. induction j as [|j IH]; auto. cbn [repeat app steps].
    assert (E : step s sp = ([], s)).
    { destruct H as [->|[->|(q & [->| ->] & [->| ->])]]; reflexivity. }
    rewrite E, IH. destruct (steps s t). reflexivity. }
  cbn [steps]. destruct m as [cur|q|q|q [|]|q n|q|]; cbn [quote_ok] in Q.
  - assert (E : step (InCode cur) sp = (word_end cur, InCode [])) by (apply code_space; reflexivity).
    assert (E2 : step (InCode cur) "#" = (word_end cur, InComment)) by reflexivity. rewrite E, E2, A by auto. cbn [steps].
    assert (E3 : step (InCode []) "#" = ([], InComment)) by reflexivity. rewrite E3. destruct (steps InComment r). cbn [app]. reflexivity.
  - assert (E : step (Quote q) sp = ([], InString q false)) by (destruct Q as [->| ->]; reflexivity).
    assert (E2 : step (Quote q) "#" = ([], InString q false)) by (destruct Q as [->| ->]; reflexivity). rewrite E, E2, A by eauto 6. cbn [steps].
    assert (E3 : step (InString q false) "#" = ([], InString q false)) by (destruct Q as [->| ->]; reflexivity). rewrite E3. destruct (steps _ r). reflexivity.
  - assert (E : step (Quotes q) sp = ([PStr], InCode [])) by (destruct Q as [->| ->]; reflexivity).
    assert (E2 : step (Quotes q) "#" = ([PStr], InComment)) by (destruct Q as [->| ->]; reflexivity). rewrite E, E2, A by auto. cbn [steps].
    assert (E3 : step (InCode []) "#" = ([], InComment)) by reflexivity. rewrite E3. destruct (steps _ r). reflexivity.
  - cbn [step]. rewrite A by eauto 6. cbn [steps].
    assert (E3 : step (InString q false) "#" = ([], InString q false)) by (destruct Q as [->| ->]; reflexivity). rewrite E3. destruct (steps _ r). reflexivity.
  - assert (E : step (InString q false) sp = ([], InString q false)) by (destruct Q as [->| ->]; reflexivity).
    assert (E2 : step (InString q false) "#" = ([], InString q false)) by (destruct Q as [->| ->]; reflexivity). rewrite E, E2, A by eauto 6. cbn [steps].
    rewrite E2. destruct (steps _ r). reflexivity.
  - assert (E : step (InTriple q n) sp = ([], InTriple q 0)) by (destruct Q as [->| ->]; reflexivity).
    assert (E2 : forall n, step (InTriple q n) "#" = ([], InTriple q 0)) by (intros; destruct Q as [->| ->]; reflexivity). rewrite E, E2, A by eauto 6. cbn [steps].
    rewrite E2. destruct (steps _ r). reflexivity.
  - cbn [step]. rewrite A by eauto 6. cbn [steps].
    assert (E2 : forall n, step (InTriple q n) "#" = ([], InTriple q 0)) by (intros; destruct Q as [->| ->]; reflexivity). rewrite E2. destruct (steps _ r). reflexivity.
  - cbn [step]. rewrite A by auto. cbn [steps step]. destruct (steps _ r). reflexivity.
Qed.
Lemma scan_moved col from l l' : from_ok from -> moved_comment col l l' \/ l' = l -> scan from l' = scan from l.
Proof.
  intros F [M| ->]; auto. destruct M as (a & b & k & -> & -> & _). rewrite !scan_is. f_equal. rewrite !steps_app.
  pose proof (steps_ok a _ (start_ok from F)) as Q. destruct (steps (start from) a) as [k1 m1]. cbn [snd] in Q.
  change (steps m1 (spaces k ++ $"#" ++ b)) with (steps m1 (spaces k ++ "#"%char :: b)). rewrite (spaces_sharp m1 k b Q). reflexivity.
Qed.
(** Blank lines and comments. *)
Lemma scan_blank l : is_blank_line l -> scan None l = Some ([], None).
Proof. intros B. rewrite scan_is. exact (finish_spaces l (InCode []) I B). Qed.
Lemma steps_comment r : steps InComment r = ([], InComment).
Proof. induction r as [|c r IH]; auto. cbn [steps step]. rewrite IH. reflexivity. Qed.
Lemma steps_white a l : is_blank_line a -> steps (InCode []) (a ++ l) = steps (InCode []) l.
Proof.
  intros B. induction B as [|c a Hc B IH]; auto. cbn [app steps]. assert (E : step (InCode []) c = ([], InCode [])) by (exact (code_space [] c Hc)).
  rewrite E, IH. destruct (steps (InCode []) l). reflexivity.
Qed.
Lemma scan_comment l : comment_line l -> scan None l = Some ([], None).
Proof.
  intros (a & b & -> & F & _). rewrite scan_is. cbn [start]. rewrite (steps_white a ("#"%char :: b) F). cbn [steps].
  assert (E : step (InCode []) "#" = ([], InComment)) by reflexivity. rewrite E, steps_comment. reflexivity.
Qed.
(** The end of the code of a line. *)
Lemma steps_end cur t : python_comment t -> exists m, steps (InCode cur) t = (match t with [] => [] | _ => word_end cur end, m) /\ (t = [] /\ m = InCode cur \/ t <> [] /\ m = InComment).
Proof.
  intros [->|(n & r & -> & _)]; [eexists; split; [reflexivity|]; auto|]. exists InComment. split.
  - destruct n as [|n].
    + cbn [spaces repeat app]. change ($"#" ++ r) with ("#"%char :: r). cbn [steps]. assert (E : step (InCode cur) "#" = (word_end cur, InComment)) by reflexivity.
      rewrite E, steps_comment, app_nil_r. reflexivity.
    + change (spaces (S n) ++ $"#" ++ r) with (spaces (S n) ++ "#"%char :: r). rewrite spaces_sharp by exact I. cbn [steps].
      assert (E : step (InCode cur) "#" = (word_end cur, InComment)) by reflexivity. rewrite E, steps_comment, app_nil_r. reflexivity.
  - right. split; auto. destruct n; discriminate.
Qed.
Lemma scan_with_comment l t ks : steps (InCode []) l = (ks, InCode []) -> python_comment t -> scan None (l ++ t) = Some (ks, None).
Proof.
  intros E C. rewrite scan_is. cbn [start]. rewrite steps_app, E. destruct (steps_end [] t C) as (m & -> & [[-> ->]|[Nt ->]]); cbn [finish word_end]; rewrite ?app_nil_r; auto.
  destruct t; [congruence|]. rewrite app_nil_r. reflexivity.
Qed.

(** ** Indentation of a line *)

Lemma indent_moved col l l' : moved_comment col l l' \/ l' = l -> indent_of l' = indent_of l.
Proof.
  intros [M| ->]; auto. destruct M as (a & b & k & -> & -> & _ & B & _). unfold indent_of.
  assert (E : forall x, takewhile (ceqb sp) (a ++ x) = takewhile (ceqb sp) a).
  { intros x. clear b k. assert (N : exists c, In c a /\ c <> sp).
    { destruct (Exists_dec (fun c => c <> sp) a) as [D|D]; [intros c; destruct (Ascii.ascii_dec c sp); [right|left]; congruence|apply Exists_exists in D; exact D|].
      exfalso. apply B. apply Forall_forall. intros c I. destruct (Ascii.ascii_dec c sp) as [->|N]; [reflexivity|]. exfalso. apply D, Exists_exists. eauto. }
    clear B. induction a as [|d a IH]; [destruct N as (c & [] & _)|]. cbn [app takewhile]. destruct (ceqb_spec sp d) as [<-|]; auto. f_equal. apply IH.
    destruct N as (c & [<-|I] & N); [congruence|eauto]. }
  rewrite !E. reflexivity.
Qed.
Lemma indent_indented i l : Forall (eq sp) i -> ~ is_blank_line l -> indent_of (indent_line i true l) = length i + indent_of l.
Proof.
  intros F B. destruct l as [|c l]; [exfalso; apply B; constructor|]. cbn [indent_line]. unfold indent_of.
  assert (E : forall x, takewhile (ceqb sp) (i ++ x) = i ++ takewhile (ceqb sp) x).
  { intros x. induction F as [|d i <- F IH]; auto. cbn [app takewhile]. rewrite IH. reflexivity. }
  rewrite E, app_length. f_equal. set (s := c :: l) in *. clearbody s. destruct (rstrip_tail s) as (t & Et & Bt). rewrite Et at 2. rewrite Et in B.
  clear Et E. induction (rstrip s) as [|d r IH]; [exfalso; auto|]. cbn [app takewhile]. destruct (ceqb_spec sp d) as [<-|]; auto. cbn [length]. f_equal. apply IH.
  intros X. apply B. constructor; auto.
Qed.
