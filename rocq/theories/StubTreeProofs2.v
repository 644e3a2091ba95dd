From Verif Require Import PyStr PyStrLemmas RegionsModel RegionsProofs TextModel TextSpec CommentModel CommentSpec CommentProofs3 CommentProofs4 OverloadModel EnumModel EnumSpec EnumProofs ClassModel
  StubTreeModel StubTreeSpec StubTreeProofs.

(** ** Statements *)

Definition cur_ok (c : option (statement * option ascii)) : Prop := match c with None => True | Some (_, from) => from_ok from end.
Lemma statements_moved col ls ls' : Forall2 (fun l l' => moved_comment col l l' \/ l' = l) ls ls' -> forall cur, cur_ok cur -> statements cur ls' = statements cur ls.
Proof.
  intros F. induction F as [|l l' ls ls' M F IH]; intros cur C; auto. cbn [statements].
  destruct cur as [[[n acc] from]|]; cbn [cur_ok] in C.
  - rewrite (scan_moved col from l l' C M). destruct (scan from l) as [[ks open]|] eqn:E; auto. apply scan_ok in E; auto.
    destruct (is_over (acc ++ ks) open) as [[|]|]; auto; rewrite IH; auto; exact I.
  - rewrite (scan_moved col None l l' I M), (indent_moved col l l' M). destruct (scan None l) as [[ks open]|] eqn:E; auto. apply scan_ok in E; [|exact I].
    destruct ks as [|x ks]; [destruct open; [|rewrite IH by exact I; auto]|]; destruct (is_over _ _) as [[|]|]; auto; rewrite IH; auto; exact I.
Qed.
Definition shift (k : nat) (ss : list statement) : list statement := map (fun s => (k + fst s, snd s)) ss.
Definition shift_cur (k : nat) (c : option (statement * option ascii)) : option (statement * option ascii) :=
  match c with None => None | Some (n, acc, from) => Some (k + n, acc, from) end.
Lemma statements_indented i ls : Forall (eq sp) i -> forall cur, cur_ok cur ->
  statements (shift_cur (length i) cur) (map (indent_line i true) ls) = option_map (shift (length i)) (statements cur ls).
Proof.
  intros Hi. induction ls as [|l ls IH]; intros cur C; [destruct cur as [[[n acc] from]|]; reflexivity|]. cbn [map].
  destruct cur as [[[n acc] from]|]; cbn [cur_ok] in C; cbn [shift_cur statements].
  - rewrite (scan_indented from i l C Hi). destruct (scan from l) as [[ks open]|] eqn:E; auto. apply scan_ok in E; auto.
    destruct (is_over (acc ++ ks) open) as [[|]|]; auto.
    + rewrite (IH None I : statements None _ = _). destruct (statements None ls); reflexivity.
    + exact (IH (Some (n, acc ++ ks, open)) E).
  - rewrite (scan_indented None i l I Hi). destruct (scan None l) as [[ks open]|] eqn:E; auto.
    assert (O : from_ok open) by (apply scan_ok in E; auto; exact I).
    assert (G : ks <> [] \/ open <> None -> indent_of (indent_line i true l) = length i + indent_of l).
    { intros G. apply indent_indented; auto. intros B. rewrite (scan_blank l B) in E. inversion E; subst. destruct G; congruence. }
    destruct ks as [|x ks]; [destruct open as [q|]|].
    + rewrite G by (right; discriminate). destruct (is_over _ _) as [[|]|]; auto.
      * rewrite (IH None I : statements None _ = _). destruct (statements None ls); reflexivity.
      * exact (IH (Some (indent_of l, [] ++ [], Some q)) O).
    + exact (IH None I).
    + rewrite G by (left; discriminate). destruct (is_over _ _) as [[|]|]; auto.
      * rewrite (IH None I : statements None _ = _). destruct (statements None ls); reflexivity.
      * exact (IH (Some (indent_of l, [] ++ x :: ks, open)) O).
Qed.
Lemma statements_app a b : forall cur sa, statements cur a = Some sa -> statements cur (a ++ b) = option_map (app sa) (statements None b).
Proof.
  induction a as [|l a IH]; intros cur sa; cbn [app statements].
  - destruct cur; [discriminate|]. intros E. inversion E. destruct (statements None b); reflexivity.
  - destruct cur as [[[n acc] from]|].
    + destruct (scan from l) as [[ks open]|]; [|discriminate]. destruct (is_over (acc ++ ks) open) as [[|]|]; [| |discriminate].
      * destruct (statements None a) as [s|] eqn:E; [|discriminate]. intros X. inversion X. rewrite (IH None s E). destruct (statements None b); reflexivity.
      * apply IH.
    + destruct (scan None l) as [[ks open]|]; [|discriminate]. destruct ks as [|x ks]; [destruct open; [|apply IH]|]; (destruct (is_over _ _) as [[|]|]; [| |discriminate]).
      * destruct (statements None a) as [s|] eqn:E; [|discriminate]. intros X. inversion X. rewrite (IH None s E). destruct (statements None b); reflexivity.
      * apply IH.
      * destruct (statements None a) as [s|] eqn:E; [|discriminate]. intros X. inversion X. rewrite (IH None s E). destruct (statements None b); reflexivity.
      * apply IH.
Qed.
(** A statement on one line. *)
Lemma statement_line l ks : scan None l = Some (ks, None) -> ks <> [] -> balance 0 ks = Some 0 -> statements None [l] = Some [(indent_of l, ks)].
Proof.
  intros E N B. cbn [statements]. rewrite E. destruct ks as [|x ks]; [congruence|]. unfold is_over. cbn [app]. rewrite B. reflexivity.
Qed.
Lemma statement_none l r : scan None l = Some ([], None) -> statements None (l :: r) = statements None r.
Proof. intros E. cbn [statements]. rewrite E. reflexivity. Qed.

(** ** Blocks *)

Lemma blocks_app a b : forall bs w ca bs' w', blocks bs w a = Some (ca, (bs', w')) ->
  blocks bs w (a ++ b) = option_map (fun r => (ca ++ fst r, snd r)) (blocks bs' w' b).
Proof.
  induction a as [|[n ks] a IH]; intros bs w ca bs' w'; cbn [app blocks].
  - intros E. inversion E; subst. destruct (blocks bs' w' b) as [[? ?]|]; reflexivity.
  - destruct (enter bs w n) as [[|[m p] bs1]|]; try discriminate. destruct (blocks _ _ a) as [[cs [bs2 w2]]|] eqn:E; [|discriminate].
    intros X. inversion X; subst. rewrite (IH _ _ _ _ _ E). destruct (blocks bs' w' b) as [[? ?]|]; [|reflexivity]. cbn. rewrite app_assoc. reflexivity.
Qed.
Definition in_path (p : list str) (c : py_class) : py_class := (p ++ fst c, snd c).
Definition up (k : nat) (p : list str) (b : block) : block := (k + fst b, p ++ snd b).
Lemma leave_up k p n bs rest bs' : leave n bs = Some bs' -> leave (k + n) (map (up k p) bs ++ rest) = Some (map (up k p) bs' ++ rest).
Proof.
  induction bs as [|[m q] bs IH]; cbn [leave map app up fst snd]; [discriminate|].
  destruct (Nat.eqb_spec n m) as [->|N]; [intros E; inversion E; rewrite Nat.eqb_refl; reflexivity|].
  destruct (Nat.ltb_spec n m) as [L|L]; [|discriminate]. intros E. destruct (Nat.eqb_spec (k + n) (k + m)); [lia|]. destruct (Nat.ltb_spec (k + n) (k + m)); [auto|lia].
Qed.
Lemma enter_up k p w n bs rest bs' : enter bs w n = Some bs' -> enter (map (up k p) bs ++ rest) (option_map (app p) w) (k + n) = Some (map (up k p) bs' ++ rest).
Proof.
  unfold enter. destruct w as [q|]; cbn [option_map]; [|apply leave_up]. destruct bs as [|[m r] bs]; [discriminate|]. cbn [map app up fst snd].
  destruct (Nat.ltb_spec m n) as [L|L]; [|discriminate]. intros E. inversion E. destruct (Nat.ltb_spec (k + m) (k + n)); [reflexivity|lia].
Qed.
Lemma defined_up p q ks : defined (p ++ q) ks = map (in_path p) (defined q ks).
Proof.
  destruct ks as [|[w| |] [|[n| |] r]]; try reflexivity. cbn [defined]. destruct (seqb w $"class"); [|reflexivity]. cbn. unfold in_path. cbn. rewrite app_assoc. reflexivity.
Qed.
Lemma inside_up p q ks : inside (p ++ q) ks = p ++ inside q ks.
Proof. destruct ks as [|[w| |] [|[n| |] r]]; try reflexivity. cbn [inside]. destruct (seqb w $"class" || seqb w $"def"); [rewrite app_assoc|]; reflexivity. Qed.
Lemma blocks_up k p rest ss : forall bs w cs bs' w', blocks bs w ss = Some (cs, (bs', w')) ->
  blocks (map (up k p) bs ++ rest) (option_map (app p) w) (shift k ss) = Some (map (in_path p) cs, (map (up k p) bs' ++ rest, option_map (app p) w')).
Proof.
  induction ss as [|[n ks] ss IH]; intros bs w cs bs' w'; cbn [shift map blocks fst snd].
  - intros E. inversion E; subst. reflexivity.
  - destruct (enter bs w n) as [[|[m q] bs1]|] eqn:En; try discriminate. destruct (blocks _ _ ss) as [[c [bs2 w2]]|] eqn:E; [|discriminate].
    intros X. inversion X; subst. rewrite (enter_up k p w n bs rest _ En). cbn [map app up fst snd].
    apply IH in E. fold (shift k ss). cbn [map app up fst snd] in E.
    assert (W : (if opens_block ks then Some (inside (p ++ q) ks) else None) = option_map (app p) (if opens_block ks then Some (inside q ks) else None)).
    { destruct (opens_block ks); [|reflexivity]. cbn. rewrite inside_up. reflexivity. }
    rewrite W, E, defined_up, map_app. reflexivity.
Qed.
(** The module is always the last of the blocks. *)
Lemma blocks_bottom ss : forall d w cs bs' w', Forall (fun b => 0 < fst b) d -> blocks (d ++ [(0, [])]) w ss = Some (cs, (bs', w')) ->
  exists d', Forall (fun b => 0 < fst b) d' /\ bs' = d' ++ [(0, [])].
Proof.
  induction ss as [|[n ks] ss IH]; intros d w cs bs' w' Hd; cbn [blocks].
  - intros E. inversion E; subst. eauto.
  - destruct (enter (d ++ [(0, [])]) w n) as [[|[m q] bs1]|] eqn:En; try discriminate. destruct (blocks _ _ ss) as [[c [bs2 w2]]|] eqn:E; [|discriminate].
    intros X. inversion X; subst. assert (S : exists d1, Forall (fun b => 0 < fst b) d1 /\ (m, q) :: bs1 = d1 ++ [(0, [])]).
    { unfold enter in En. destruct w as [r|].
      - destruct d as [|[m1 q1] d]; cbn [app] in En.
        + destruct (Nat.ltb_spec 0 n) as [L|L]; [|discriminate]. inversion En; subst. exists [(m, q)]. split; [repeat constructor; exact L|reflexivity].
        + destruct (Nat.ltb_spec m1 n) as [L|L]; [|discriminate]. inversion En; subst. exists ((m, q) :: (m1, q1) :: d). split; [constructor; auto; cbn; lia|reflexivity].
      - clear E X IH. induction Hd as [|[m1 q1] d H1 Hd IH]; cbn [app leave] in En.
        + destruct (n =? 0); [|destruct (n <? 0); discriminate]. inversion En. exists []. split; [constructor|reflexivity].
        + destruct (n =? m1); [inversion En; subst; exists ((m, q) :: d); split; [constructor; auto|reflexivity]|]. destruct (n <? m1); [auto|discriminate]. }
    destruct S as (d1 & Hd1 & S). eapply (IH d1 _ c bs' w' Hd1). rewrite <- S. exact E.
Qed.
Lemma leave_through k d p rest : Forall (fun b => k < fst b) d -> leave k (d ++ (k, p) :: rest) = Some ((k, p) :: rest).
Proof.
  intros F. induction F as [|[m q] d H F IH]; cbn [app leave]; [rewrite Nat.eqb_refl; reflexivity|]. cbn in H. destruct (Nat.eqb_spec k m); [lia|].
  destruct (Nat.ltb_spec k m); [auto|lia].
Qed.
Lemma up_module k p : up k p (0, []) = (k, p).
Proof. unfold up. cbn [fst snd]. rewrite app_nil_r, Nat.add_0_r. reflexivity. Qed.
(** The same statements inside other blocks. *)
Lemma blocks_inside ss cs bs' : blocks [(0, [])] None ss = Some (cs, (bs', None)) -> forall k p rest d, Forall (fun b => k < fst b) d ->
  exists d', Forall (fun b => k < fst b) d' /\ blocks (d ++ (k, p) :: rest) None (shift k ss) = Some (map (in_path p) cs, (d' ++ (k, p) :: rest, None)).
Proof.
  intros E k p rest d Hd. destruct ss as [|[n ks] ss].
  - inversion E; subst. exists d. split; auto.
  - destruct (blocks_bottom _ [] None cs bs' None (Forall_nil _) E) as (d1 & H1 & ->). apply (blocks_up k p rest) in E. cbn [map app option_map] in E.
    rewrite up_module in E. exists (map (up k p) d1). split.
    + apply Forall_map. eapply Forall_impl; [|exact H1]. intros [m q] Hb. cbn in Hb. change (k < k + m). lia.
    + rewrite map_app, <- app_assoc in E. cbn [map app] in E. rewrite up_module in E. refine (eq_trans _ E). cbn [shift map blocks fst snd enter].
      assert (L : leave (k + n) (d ++ (k, p) :: rest) = leave (k + n) ((k, p) :: rest)).
      { cbn [shift map blocks fst snd enter leave] in E. destruct (Nat.eqb_spec (k + n) k) as [En|En].
        - rewrite En, (leave_through k d p rest Hd). cbn [leave]. rewrite Nat.eqb_refl. reflexivity.
        - destruct (Nat.ltb_spec (k + n) k); [lia|discriminate]. }
      rewrite L. reflexivity.
Qed.

(** ** Lines which are read *)

Definition reads (ls : list str) (cs : list py_class) : Prop := python_classes ls = Some cs /\ Forall (fun l => ~ In nl l) ls.
Lemma reads_statements ls cs : python_classes ls = Some cs <-> exists ss bs, statements None ls = Some ss /\ blocks [(0, [])] None ss = Some (cs, (bs, None)).
Proof.
  unfold python_classes. split.
  - destruct (statements None ls) as [ss|]; [|discriminate]. intros E. exists ss. destruct (blocks _ _ ss) as [[c [bs [w|]]]|]; try discriminate. inversion E; subst. eauto.
  - intros (ss & bs & -> & ->). reflexivity.
Qed.
Lemma in_module cs : map (in_path []) cs = cs.
Proof. rewrite <- (map_id cs) at 2. apply map_ext. intros [p b]. reflexivity. Qed.
Lemma shift_zero ss : shift 0 ss = ss.
Proof. unfold shift. rewrite <- (map_id ss) at 2. apply map_ext. intros [n ks]. reflexivity. Qed.
Lemma reads_app a b ca cb : reads a ca -> reads b cb -> reads (a ++ b) (ca ++ cb).
Proof.
  intros [A Na] [B Nb]. split; [|apply Forall_app; auto]. apply reads_statements in A. apply reads_statements in B. apply reads_statements.
  destruct A as (sa & ba & A1 & A2), B as (sb & bb & B1 & B2). rewrite (statements_app a b None sa A1), B1. eexists.
  destruct (blocks_bottom sa [] None ca ba None (Forall_nil _) A2) as (d & Hd & ->).
  destruct (blocks_inside sb cb bb B2 0 [] [] d Hd) as (d2 & _ & E). rewrite shift_zero, in_module in E. eexists. split; [reflexivity|].
  rewrite (blocks_app sa sb _ _ _ _ _ A2), E. reflexivity.
Qed.
Lemma reads_nil : reads [] [].
Proof. split; [reflexivity|constructor]. Qed.
Lemma states_app a b ca cb : reads a ca -> reads b cb -> states a \/ states b -> states (a ++ b).
Proof.
  intros [A _] [B _] S. apply reads_statements in A. apply reads_statements in B. destruct A as (sa & ba & A1 & _), B as (sb & bb & B1 & _). unfold states in *.
  rewrite (statements_app a b None sa A1), B1. rewrite A1, B1 in S. cbn. intros X. inversion X as [Y]. apply app_eq_nil in Y. destruct Y, S; congruence.
Qed.
Lemma reads_moved col ls ls' cs : Forall2 (fun l l' => moved_comment col l l' \/ l' = l) ls ls' -> reads ls cs -> python_classes ls' = Some cs /\ (states ls -> states ls').
Proof. intros F [R _]. unfold python_classes, states. rewrite (statements_moved col ls ls' F None I). auto. Qed.
Lemma reads_nothing ls : Forall (fun l => is_blank_line l \/ comment_line l) ls -> Forall (fun l => ~ In nl l) ls -> reads ls [].
Proof.
  intros F N. split; auto. unfold python_classes. assert (E : statements None ls = Some []).
  { clear N. induction F as [|l ls H F IH]; auto. rewrite statement_none; auto. destruct H; [apply scan_blank|apply scan_comment]; auto. }
  rewrite E. reflexivity.
Qed.
Lemma reads_blanks ls : Forall (fun l => l = []) ls -> reads ls [].
Proof. intros F. apply reads_nothing; (eapply Forall_impl; [|exact F]); cbn; intros ? ->; [left; constructor|intros []]. Qed.
Lemma reads_line l ks : ~ In nl l -> scan None l = Some (ks, None) -> ks <> [] -> balance 0 ks = Some 0 -> indent_of l = 0 -> opens_block ks = false -> defined [] ks = [] ->
  reads [l] [] /\ states [l].
Proof.
  intros Nl E N B Z O D. pose proof (statement_line l ks E N B) as S. rewrite Z in S. split.
  - split; [|repeat constructor; auto]. apply reads_statements. exists [(0, ks)], [(0, [])]. split; [exact S|]. cbn [blocks enter leave]. rewrite Nat.eqb_refl, O, D. reflexivity.
  - intros X. assert (Y : Some [(0, ks)] = Some []) by exact (eq_trans (eq_sym S) X). discriminate Y.
Qed.
(** A class: its title, then its body further to the right. *)
Lemma reads_class i title ks body cs : Forall (eq sp) i -> i <> [] -> scan None title = Some (ks, None) -> balance 0 ks = Some 0 -> indent_of title = 0 ->
  opens_block ks = true -> ~ In nl title -> reads body cs -> states body ->
  reads (title :: map (indent_line i true) body) (defined [] ks ++ map (in_path (inside [] ks)) cs).
Proof.
  intros Hi Ni E B Z O Nt [R Nb] S. split.
  - apply reads_statements in R. destruct R as (sb & bb & B1 & B2). apply reads_statements.
    assert (K : ks <> []) by (intros ->; discriminate O).
    pose proof (statement_line title ks E K B) as T. rewrite Z in T. change (title :: map (indent_line i true) body) with ([title] ++ map (indent_line i true) body).
    rewrite (statements_app [title] _ None _ T). pose proof (statements_indented i body Hi None I) as J. cbn [shift_cur] in J. rewrite J, B1. cbn [option_map app].
    eexists. assert (Q : sb <> []) by (intros ->; apply S; exact B1). destruct sb as [|[n0 k0] sb]; [congruence|].
    assert (Z0 : n0 = 0).
    { cbn [blocks enter leave] in B2. destruct (Nat.eqb_spec n0 0); auto. destruct (n0 <? 0) eqn:X; [apply Nat.ltb_lt in X; lia|discriminate]. }
    subst n0. destruct (blocks_inside _ _ _ B2 (length i) (inside [] ks) [(0, [])] [] (Forall_nil _)) as (d & _ & G). cbn [app] in G.
    eexists. split; [reflexivity|]. cbn [blocks enter leave]. rewrite Nat.eqb_refl, O. cbn [shift map blocks fst snd enter] in G |- *.
    assert (P : 0 <? length i + 0 = true) by (apply Nat.ltb_lt; destruct i; [congruence|cbn; lia]). rewrite P.
    cbn [leave] in G. rewrite Nat.add_0_r in *. rewrite Nat.eqb_refl in G. fold (shift (length i) sb) in G |- *.
    destruct (blocks ((length i, inside [] ks) :: [(0, [])]) _ (shift (length i) sb)) as [[c e]|]; [|discriminate]. inversion G; subst. reflexivity.
  - constructor; auto. apply Forall_map. eapply Forall_impl; [|exact Nb]. intros l Hl. apply indent_line_no_nl; auto.
    intros X. rewrite Forall_forall in Hi. apply Hi in X. discriminate.
Qed.
