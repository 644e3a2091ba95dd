From Verif Require Import PyStr PyStrLemmas PyDict InstanceModel InstanceSpec InstanceProofs QualifyModel QualifySpec.

(** ** A text where the words which do not come after a dot are changed *)

Fixpoint walk_pieces (F : str -> str) (after_dot : bool) (ps : list str) : str :=
  match ps with
  | [] => []
  | w :: r => (if is_word_at w && negb after_dot then F w else w) ++ walk_pieces F (seqb w (lit ".")) r
  end.
Definition walk (F : str -> str) (dot : bool) (s : str) : str := walk_pieces F dot (pieces s).

Lemma name_at w : name_of w -> is_word_at w = true.
Proof. intros [N W]. destruct w; [congruence|]. inversion W; auto. Qed.
Lemma name_at_app w r : name_of w -> is_word_at (w ++ r) = true.
Proof. intros [N W]. destruct w; [congruence|]. inversion W; auto. Qed.
Lemma name_no_dot w : name_of w -> seqb w (lit ".") = false.
Proof. intros W. exact (name_not_sep w "."%char W eq_refl). Qed.
Lemma walk_sep F dot c r : is_word c = false -> walk F dot (c :: r) = c :: walk F (ceqb c "."%char) r.
Proof.
  intros C. unfold walk. rewrite pieces_sep by exact C. cbn [walk_pieces is_word_at]. rewrite C. cbn [andb app]. replace (seqb [c] (lit ".")) with (ceqb c "."%char); [reflexivity|].
  change (lit ".") with ["."%char]. cbn [seqb]. rewrite andb_true_r. reflexivity.
Qed.
Lemma walk_word F dot w r : name_of w -> is_word_at r = false -> walk F dot (w ++ r) = (if dot then w else F w) ++ walk F false r.
Proof.
  intros W R. unfold walk. rewrite pieces_word by auto. cbn [walk_pieces]. rewrite name_at, name_no_dot by auto. destruct dot; reflexivity.
Qed.
Lemma walk_any F r : is_word_at r = false -> forall a b, walk F a r = walk F b r.
Proof. destruct r as [|c r]; [reflexivity|]. intros C a b. rewrite !walk_sep by exact C. reflexivity. Qed.
Lemma walk_at F dot r : is_word_at r = false -> is_word_at (walk F dot r) = false.
Proof. destruct r as [|c r]; [reflexivity|]. intros C. rewrite walk_sep by exact C. exact C. Qed.
Lemma walk_ext F G : (forall w, name_of w -> F w = G w) -> forall s dot, walk F dot s = walk G dot s.
Proof.
  intros E s. induction s as [|c r C IH|w r W R IH] using word_rect; intros dot; auto.
  - rewrite !walk_sep by auto. f_equal. apply IH.
  - rewrite !walk_word by auto. f_equal; [destruct dot; auto|apply IH].
Qed.
Lemma walk_id s dot : walk (fun w => w) dot s = s.
Proof.
  revert dot. induction s as [|c r C IH|w r W R IH] using word_rect; intros dot; auto.
  - rewrite walk_sep by auto. f_equal. apply IH.
  - rewrite walk_word by auto. f_equal; [destruct dot; auto|apply IH].
Qed.
Lemma walk_walk F G H : (forall w Y, name_of w -> is_word_at Y = false -> walk G false (F w ++ Y) = H w ++ walk G false Y) -> forall s dot, walk G dot (walk F dot s) = walk H dot s.
Proof.
  intros E s. induction s as [|c r C IH|w r W R IH] using word_rect; intros dot; auto.
  - rewrite !(walk_sep _ _ _ r) by auto. rewrite walk_sep by auto. f_equal. apply IH.
  - rewrite !(walk_word _ _ w r) by auto. destruct dot.
    + rewrite walk_word by (auto; apply walk_at; auto). f_equal. apply IH.
    + rewrite E by (auto; apply walk_at; auto). f_equal. apply IH.
Qed.

(** ** One name *)

Section One.
Variables name new : str.
Hypothesis is_name : name_of name.
Let F (w : str) : str := if seqb w name then new else w.

Lemma sibling_sep blocked c r : is_word c = false -> sibling_at name blocked (c :: r) = false.
Proof.
  intros C. unfold sibling_at. destruct is_name as [N W]. destruct name as [|d n]; [congruence|]. inversion W; subst. cbn [startswith]. destruct (ceqb_spec d c) as [->|]; [congruence|reflexivity].
Qed.
Lemma block_inside w : Forall (fun c => is_word c = true) w -> forall r, sub_sibling name new true 0 (w ++ r) = w ++ sub_sibling name new true 0 r.
Proof.
  induction 1 as [|c w C W IH]; intros r; [reflexivity|]. cbn [app sub_sibling]. unfold sibling_at. cbn [negb]. rewrite andb_false_r. cbn [andb]. unfold blocks. rewrite C, orb_true_r. f_equal. apply IH.
Qed.
Lemma sub_skipped w : Forall (fun c => is_word c = true) w -> forall b r, sub_sibling name new b (length w) (w ++ r) = sub_sibling name new (match w with [] => b | _ => true end) 0 r.
Proof. induction 1 as [|c w C W IH]; intros b r; [reflexivity|]. cbn [length app sub_sibling]. unfold blocks. rewrite C, orb_true_r, IH. destruct w; reflexivity. Qed.
Lemma sub_any r : is_word_at r = false -> forall a b, sub_sibling name new a 0 r = sub_sibling name new b 0 r.
Proof. destruct r as [|c r]; [reflexivity|]. intros C a b. cbn [sub_sibling is_word_at] in *. rewrite !sibling_sep by exact C. reflexivity. Qed.
Lemma sub_sibling_is s dot : sub_sibling name new dot 0 s = walk F dot s.
Proof.
  revert dot. induction s as [|c r C IH|w r W R IH] using word_rect; intros dot; auto.
  - cbn [sub_sibling]. rewrite sibling_sep, walk_sep by exact C. f_equal. unfold blocks. rewrite C, orb_false_r. apply IH.
  - rewrite walk_word by auto. pose proof W as [N V]. destruct w as [|c w]; [congruence|]. inversion V as [|? ? C V']; subst. destruct dot.
    + rewrite block_inside by auto. f_equal. rewrite (sub_any r R true false). apply IH.
    + change ((c :: w) ++ r) with (c :: (w ++ r)). cbn [sub_sibling]. unfold blocks. rewrite C, orb_true_r. unfold F at 1. destruct (seqb_spec (c :: w) name) as [E|NE].
      * assert (B : sibling_at name false (c :: w ++ r) = true).
        { unfold sibling_at. change (c :: w ++ r) with ((c :: w) ++ r). rewrite E. rewrite startswith_app, skipn_app, skipn_all, Nat.sub_diag. cbn [app skipn]. rewrite R, (last_word name is_name). reflexivity. }
        rewrite B. f_equal. replace (length name - 1) with (length w) by (rewrite <- E; cbn; lia). rewrite sub_skipped by auto. rewrite (sub_any r R _ false). apply IH.
      * assert (B : sibling_at name false (c :: w ++ r) = false).
        { unfold sibling_at. change (c :: w ++ r) with ((c :: w) ++ r). destruct (startswith name ((c :: w) ++ r)) eqn:S; [|reflexivity]. rewrite (last_word name is_name). destruct (is_word_at (skipn (length name) ((c :: w) ++ r))) eqn:K.
          - reflexivity.
          - destruct NE. symmetry. eapply (starts_word name) with (w := c :: w) (r := r); auto. }
        rewrite B. cbn [app]. f_equal. rewrite block_inside by auto. f_equal. rewrite (sub_any r R true false). apply IH.
Qed.
End One.

(** ** One scope *)

Definition put (p : str) (names : list str) (w : str) : str := if smem w names then p ++ lit "." ++ w else w.
Lemma in_insert n l x : In x (insert_longest n l) <-> x = n \/ In x l.
Proof. induction l as [|m r IH]; cbn [insert_longest]; [cbn; intuition|]. destruct (length m <=? length n); cbn [In]; [intuition|]. rewrite IH. intuition. Qed.
Lemma in_longest l x : In x (longest_first l) <-> In x l.
Proof. induction l as [|m r IH]; cbn [longest_first]; [tauto|]. rewrite in_insert, IH. cbn. intuition. Qed.
Lemma put_ext p a b : (forall n, In n a <-> In n b) -> forall w, put p a w = put p b w.
Proof. intros E w. unfold put. replace (smem w b) with (smem w a); auto. apply eq_true_iff_eq. rewrite !smem_In. auto. Qed.
Lemma walk_dotted_word G w Y dot : name_of w -> is_word_at Y = false -> walk G dot (lit "." ++ w ++ Y) = lit "." ++ w ++ walk G false Y.
Proof.
  intros W R. change (lit "." ++ w ++ Y) with ("."%char :: (w ++ Y)). rewrite walk_sep by reflexivity. change (ceqb "." ".") with true. rewrite walk_word by auto. reflexivity.
Qed.
Lemma fold_names p L : name_of p -> forall A, Forall name_of L -> smem p L = false -> forall s dot,
  fold_left (fun s name => sub_sibling name (p ++ lit "." ++ name) dot 0 s) L (walk (put p A) dot s) = walk (put p (rev L ++ A)) dot s.
Proof.
  intros P. induction L as [|n L IH]; intros A W N s dot; [reflexivity|]. inversion W as [|? ? Wn WL]; subst. cbn [fold_left]. unfold smem in N. cbn [existsb] in N. apply orb_false_iff in N. destruct N as [N1 N2].
  rewrite sub_sibling_is by auto. rewrite (walk_walk (put p A) _ (put p (n :: A))).
  - rewrite (IH (n :: A)) by auto. apply walk_ext. intros w _. apply put_ext. intros x. rewrite in_app_iff. cbn [rev]. rewrite !in_app_iff. cbn. tauto.
  - intros w Y Ww Y'. unfold put. change (smem w (n :: A)) with (seqb w n || smem w A). destruct (smem w A).
    + rewrite orb_true_r. rewrite <- !app_assoc. rewrite walk_word by auto. rewrite N1. f_equal. rewrite (walk_dotted_word _ w Y false) by auto. reflexivity.
    + rewrite orb_false_r. rewrite walk_word by auto. destruct (seqb_spec w n) as [->|]; reflexivity.
Qed.
Lemma qualify_one_is m : name_of (m_prefix m) -> Forall name_of (m_names m) -> smem (m_prefix m) (m_names m) = false -> forall s, qualify_one m s = walk (put (m_prefix m) (m_names m)) false s.
Proof.
  intros P W N s. unfold qualify_one. pose proof (fold_names (m_prefix m) (longest_first (m_names m)) P []) as H.
  assert (Z : walk (put (m_prefix m) []) false s = s) by (rewrite <- (walk_id s false) at 2; apply walk_ext; reflexivity). specialize (H) as H'. rewrite <- Z at 1. rewrite H.
  - apply walk_ext. intros w _. apply put_ext. intros x. rewrite app_nil_r, <- in_rev. apply in_longest.
  - rewrite Forall_forall in *. intros x X. apply W. apply in_longest. exact X.
  - apply smem_false. apply smem_false in N. rewrite in_longest. exact N.
Qed.

(** ** Many scopes *)

Definition words_path (path : list str) : Prop := path <> [] /\ Forall name_of path.
Lemma walk_path_after G path : Forall name_of path -> forall Y, is_word_at Y = false -> path <> [] -> walk G true (dotted path ++ Y) = dotted path ++ walk G false Y.
Proof.
  induction 1 as [|w r W F IH]; intros Y R N; [congruence|]. destruct r as [|x r]; [cbn [dotted]; rewrite walk_word by auto; reflexivity|].
  change (dotted (w :: x :: r)) with (w ++ lit "." ++ dotted (x :: r)). rewrite <- !app_assoc. rewrite walk_word by auto. f_equal. change (lit "." ++ dotted (x :: r) ++ Y) with ("."%char :: (dotted (x :: r) ++ Y)).
  rewrite walk_sep by reflexivity. change (ceqb "." ".") with true. rewrite IH by (auto; discriminate). reflexivity.
Qed.
Lemma dotted_cons w path : path <> [] -> dotted (w :: path) = w ++ lit "." ++ dotted path.
Proof. destruct path; [congruence|reflexivity]. Qed.
Lemma walk_path p names path Y : words_path path -> is_word_at Y = false -> walk (put p names) false (dotted path ++ Y) = dotted (if smem (hd [] path) names then p :: path else path) ++ walk (put p names) false Y.
Proof.
  intros [N F] R. destruct path as [|w r]; [congruence|]. inversion F as [|? ? W Fr]; subst. cbn [hd]. destruct r as [|x r].
  - cbn [dotted]. rewrite walk_word by auto. f_equal. unfold put. destruct (smem w names); reflexivity.
  - change (dotted (w :: x :: r)) with (w ++ lit "." ++ dotted (x :: r)). rewrite <- !app_assoc. rewrite walk_word by auto.
    change (lit "." ++ dotted (x :: r) ++ Y) with ("."%char :: (dotted (x :: r) ++ Y)). rewrite walk_sep by reflexivity. change (ceqb "." ".") with true. rewrite walk_path_after by (auto; discriminate).
    unfold put at 1. destruct (smem w names); [rewrite (dotted_cons p (w :: x :: r)) by discriminate|]; change (dotted (w :: x :: r)) with (w ++ lit "." ++ dotted (x :: r)); rewrite <- !app_assoc; reflexivity.
Qed.
Lemma completed_words ch : in_words ch -> forall path, words_path path -> words_path (completed_from ch path).
Proof.
  induction ch as [|(p, names) ch IH]; intros C path P; [exact P|]. cbn [completed_from]. apply IH; [intros q l Q; apply (C q l); right; auto|]. destruct (smem (hd [] path) names); auto.
  destruct (C p names (or_introl eq_refl)) as (X & _). destruct P as [P1 P2]. split; [discriminate|constructor; auto].
Qed.
Definition step_scope (s : str) (x : str * list str) : str := qualify_one (Members (fst x) (snd x)) s.
Lemma completed_split a b path : completed_from (a ++ b) path = completed_from b (completed_from a path).
Proof. revert path. induction a as [|(p, l) a IH]; intros path; [reflexivity|]. cbn [app completed_from]. apply IH. Qed.
Lemma fold_scopes todo done_ : in_words (done_ ++ todo) -> forall s,
  fold_left step_scope todo (walk (fun w => dotted (completed done_ w)) false s) = walk (fun w => dotted (completed (done_ ++ todo) w)) false s.
Proof.
  revert done_. induction todo as [|(p, names) todo IH]; intros done_ C s; [rewrite app_nil_r; reflexivity|]. cbn [fold_left]. unfold step_scope at 2. cbn [fst snd].
  destruct (C p names) as (P & W & N); [apply in_app_iff; right; left; auto|]. rewrite qualify_one_is by auto. cbn [m_prefix m_names].
  assert (Cd : in_words done_) by (intros q l Q; apply C; apply in_app_iff; auto).
  rewrite (walk_walk _ (put p names) (fun w => dotted (completed (done_ ++ [(p, names)]) w))).
  - replace (done_ ++ (p, names) :: todo) with ((done_ ++ [(p, names)]) ++ todo) in * by (rewrite <- app_assoc; reflexivity). apply IH. exact C.
  - intros w Y Ww R. rewrite walk_path; [|apply completed_words; auto; split; [discriminate|constructor; auto]|auto]. f_equal. unfold completed. rewrite completed_split. reflexivity.
Qed.
Lemma completed_pieces_walk ch ps dot : completed_pieces ch dot ps = walk_pieces (fun w => dotted (completed ch w)) dot ps.
Proof. revert dot. induction ps as [|w r IH]; intros dot; [reflexivity|]. cbn [completed_pieces walk_pieces]. rewrite IH. reflexivity. Qed.
Lemma scopes_text ch s : in_words ch -> fold_left step_scope ch s = completed_text ch s.
Proof.
  intros C. unfold completed_text. rewrite completed_pieces_walk. pose proof (fold_scopes ch [] C s) as H. cbn [app] in H. change (walk_pieces (fun w => dotted (completed ch w)) false (pieces s)) with (walk (fun w => dotted (completed ch w)) false s). rewrite <- H. f_equal.
  symmetry. rewrite <- (walk_id s false) at 2. apply walk_ext. reflexivity.
Qed.
