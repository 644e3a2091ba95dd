From Verif Require Import PyStr PyDict PyStrLemmas InstanceModel InstanceSpec InstanceProofs LiteralModel LiteralSpec LiteralProofs.
(** The replacements, on the parts of an expression: the numbers, [::], and all of them. *)

(** ** The apostrophes *)

Definition quote_at (s : str) : bool := match s with c :: _ => ceqb c "'" | [] => false end.
Lemma apostrophes_one c s : is_digit c && quote_at s = false -> apostrophes (c :: s) = c :: apostrophes s.
Proof.
  intros H. cbn [apostrophes]. destruct s as [|q [|d r]]; try reflexivity. cbn [quote_at] in H. rewrite H. reflexivity.
Qed.
Lemma apostrophes_skip x y : ~ In "'"%char x -> quote_at y = false -> apostrophes (x ++ y) = x ++ apostrophes y.
Proof.
  intros N Y. induction x as [|c x IH]; [reflexivity|]. cbn [app]. rewrite apostrophes_one.
  - rewrite IH; [reflexivity|]. intros H. apply N. right. exact H.
  - destruct x as [|d x]; cbn [app quote_at]; [rewrite Y; apply andb_false_r|]. destruct (ceqb_spec d "'"%char) as [->|]; [|apply andb_false_r]. exfalso. apply N. right. left. reflexivity.
Qed.
Lemma digits_no_quote g : Forall (fun c => is_digit c = true) g -> ~ In "'"%char g.
Proof. intros F H. rewrite Forall_forall in F. specialize (F _ H). discriminate. Qed.
Lemma digits_quote_at g y : digits g -> quote_at (g ++ y) = false.
Proof. intros (N & F). destruct g as [|c g]; [congruence|]. inversion F; subst. cbn. destruct (ceqb_spec c "'"%char) as [->|]; [discriminate|reflexivity]. Qed.
Lemma apostrophes_match x d y : digits x -> is_digit d = true -> apostrophes (x ++ "'"%char :: d :: y) = x ++ "_"%char :: d :: apostrophes y.
Proof.
  intros (N & F) D. destruct x as [|c x]; [congruence|]. clear N. revert c F. induction x as [|e x IH]; intros c F; inversion F as [|? ? C F']; subst.
  - cbn [app apostrophes]. rewrite C, D. reflexivity.
  - change ((c :: e :: x) ++ "'"%char :: d :: y) with (c :: ((e :: x) ++ "'"%char :: d :: y)). rewrite apostrophes_one; [rewrite (IH e F'); reflexivity|].
    cbn. inversion F'; subst. destruct (ceqb_spec e "'"%char) as [->|]; [discriminate|apply andb_false_r].
Qed.
Definition groups_text (gs : list (str * ascii)) : str := concat (map (fun g => fst g ++ [snd g]) gs).
Definition scored (gs : list (str * ascii)) : list (str * ascii) := map (fun g => (fst g, "_"%char)) gs.
Definition group_ok (g : str * ascii) : Prop := digits (fst g) /\ (snd g = "'"%char \/ snd g = "_"%char).
Lemma cut_digits g : digits g -> 2 <= length g -> exists d g', g = d :: g' /\ is_digit d = true /\ digits g'.
Proof. intros (N & F) L. destruct g as [|d [|e g]]; cbn in L; try lia. exists d, (e :: g). inversion F; subst. repeat split; auto. discriminate. Qed.
Lemma apostrophes_groups gs last y : Forall group_ok gs -> Forall (fun d : str => 2 <= length d) (map fst gs ++ [last]) -> digits last -> quote_at y = false ->
  forall x s, digits x -> (s = "'"%char \/ s = "_"%char) ->
  apostrophes (x ++ s :: groups_text gs ++ last ++ y) = x ++ "_"%char :: groups_text (scored gs) ++ last ++ apostrophes y.
Proof.
  intros G. revert last y. induction G as [|(g, t) gs (GD & GS) G IH]; intros last y TWO LAST Y x s X S; cbn [fst snd] in *.
  - cbn [groups_text map concat app scored]. inversion TWO; subst. destruct S as [-> | ->].
    + destruct (cut_digits last LAST) as (d & l & -> & D & L); [assumption|]. cbn [app]. rewrite apostrophes_match by auto. rewrite apostrophes_skip; auto. apply digits_no_quote. apply L.
    + change ("_"%char :: last ++ y) with (["_"%char] ++ (last ++ y)). rewrite app_assoc, apostrophes_skip.
      * rewrite apostrophes_skip; [rewrite <- app_assoc; reflexivity| |exact Y]. apply digits_no_quote. apply LAST.
      * intros H. apply in_app_iff in H. destruct H as [H|[H|[]]]; [apply (digits_no_quote x (proj2 X) H)|discriminate].
      * apply digits_quote_at. exact LAST.
  - cbn [map app] in TWO. inversion TWO as [|? ? T1 T2]; subst. unfold groups_text in *. cbn [map concat fst snd scored] in *. rewrite <- !app_assoc. cbn [app]. fold (scored gs).
    destruct S as [-> | ->].
    + destruct (cut_digits g GD T1) as (d & g' & -> & D & L). cbn [app]. rewrite apostrophes_match by auto. rewrite IH by auto. reflexivity.
    + match goal with |- apostrophes (x ++ ?c :: ?r) = _ => change (apostrophes (x ++ [c] ++ r) = x ++ "_"%char :: g ++ "_"%char :: concat (map (fun g0 => fst g0 ++ [snd g0]) (scored gs)) ++ last ++ apostrophes y) end.
      rewrite app_assoc, apostrophes_skip.
      * rewrite IH by auto. rewrite <- app_assoc. reflexivity.
      * intros H. apply in_app_iff in H. destruct H as [H|[H|[]]]; [apply (digits_no_quote x (proj2 X) H)|discriminate].
      * apply digits_quote_at. exact GD.
Qed.
Definition score (t : tok) : tok := match t with Number g l f e x => Number (scored g) l f e x | t => t end.
Lemma rest_no_quote g l f e x : is_number g l f e x -> ~ In "'"%char (tail f e ++ opt x).
Proof.
  intros (_ & _ & _ & F & E & X) H. apply in_app_iff in H. destruct H as [H|H]; [unfold tail in H; apply in_app_iff in H; destruct H as [H|H]|].
  - destruct f as [f|]; [|destruct H]. destruct H as [H|H]; [discriminate|]. apply (digits_no_quote f F H).
  - destruct e as [((e, s), d)|]; [|destruct H]. destruct E as (A & B & (_ & D)). destruct H as [H|H]; [destruct A; subst; discriminate|]. apply in_app_iff in H. destruct H as [H|H]; [|apply (digits_no_quote d D H)].
    destruct B as [-> |[-> | ->]]; cbn in H; [tauto| |]; destruct H as [H|[]]; discriminate.
  - destruct x as [x|]; [|destruct H]. destruct H as [H|[]]. destruct X as [-> |[-> |[-> | ->]]]; discriminate.
Qed.
Lemma tail_quote_at f e x y : ~ In "'"%char (tail f e ++ opt x) -> quote_at y = false -> quote_at ((tail f e ++ opt x) ++ y) = false.
Proof. intros N Y. destruct (tail f e ++ opt x) as [|c r]; [exact Y|]. cbn. destruct (ceqb_spec c "'"%char) as [->|]; [|reflexivity]. exfalso. apply N. left. reflexivity. Qed.
Lemma apostrophes_number g l f e x y : is_number g l f e x -> quote_at y = false ->
  apostrophes (tok_text (Number g l f e x) ++ y) = tok_text (score (Number g l f e x)) ++ apostrophes y.
Proof.
  intros W Y. pose proof (rest_no_quote g l f e x W) as N. destruct W as (G & TWO & L & _). cbn [tok_text score].
  assert (R : apostrophes ((tail f e ++ opt x) ++ y) = (tail f e ++ opt x) ++ apostrophes y) by (apply apostrophes_skip; auto).
  assert (Q : quote_at ((tail f e ++ opt x) ++ y) = false) by (apply tail_quote_at; auto).
  destruct g as [|(g, s) gs].
  - cbn [map concat app scored]. rewrite <- (app_assoc l (tail f e ++ opt x) y), apostrophes_skip, R, <- (app_assoc l); auto. apply digits_no_quote. apply L.
  - inversion G as [|? ? (G1 & G2) G3]; subst. cbn [map List.tl app fst] in TWO. cbn [map concat fst snd scored]. fold (scored gs). rewrite <- !app_assoc. cbn [app].
    pose proof (apostrophes_groups gs l ((tail f e ++ opt x) ++ y) G3 TWO L Q g s G1 G2) as H. unfold groups_text in H. rewrite R in H. rewrite <- !app_assoc in H. exact H.
Qed.
Lemma quote_at_text r : expression r -> quote_at (text r) = false.
Proof. intros E. pose proof (no_quote_at r E) as H. unfold quote_at. destruct (text r) as [|c s]; [reflexivity|]. destruct (ceqb_spec c "'"%char); [contradiction|reflexivity]. Qed.
Lemma apostrophes_text ts : expression ts -> apostrophes (text ts) = text (map score ts).
Proof.
  induction ts as [|[w|g l f e x| |c] r IH]; cbn [expression]; [reflexivity| | | |].
  - intros (W & A & E). cbn [map]. rewrite !text_cons. cbn [tok_text score]. rewrite apostrophes_skip, IH; auto; [|apply quote_at_text; exact E]. intros H. apply is_name_of in W. destruct W as [_ W]. rewrite Forall_forall in W. specialize (W _ H). discriminate.
  - intros (W & A & P & E). cbn [map]. rewrite !text_cons. rewrite apostrophes_number, IH; auto. apply quote_at_text. exact E.
  - intros E. cbn [map]. rewrite !text_cons. cbn [tok_text score]. rewrite apostrophes_skip, IH; auto; [|apply quote_at_text; exact E]. intros [H|[H|[]]]; discriminate.
  - intros (W & _ & Q & _ & E). cbn [map]. rewrite !text_cons. cbn [tok_text score]. rewrite apostrophes_skip, IH; auto; [|apply quote_at_text; exact E]. intros [H|[]]. contradiction.
Qed.
Lemma scored_number g l f e x : is_number g l f e x -> is_number (scored g) l f e x.
Proof.
  intros (G & TWO & R). split; [|split; [|exact R]].
  - clear TWO. induction G as [|(d, s) g (A & B) G IH]; [constructor|]. constructor; [split; auto|exact IH].
  - unfold scored. rewrite map_map. cbn [fst]. exact TWO.
Qed.
Lemma expression_score ts : expression ts -> expression (map score ts).
Proof.
  induction ts as [|[w|g l f e x| |c] r IH]; cbn [expression map score]; auto; try tauto.
  - intros (W & A & E). repeat split; auto; try apply W. destruct r as [|[?|? ? ? ? ?| |?] r]; auto.
  - intros (W & A & P & E). split; [apply scored_number; exact W|]. split; [destruct r as [|[?|? ? ? ? ?| |?] r]; auto|]. split; [destruct r as [|[?|? ? ? ? ?| |?] r]; auto|auto].
Qed.

(** ** The letter at the end of a number *)

Definition ns := number_suffix.
Definition bare (t : tok) : tok := match t with Number g l f e x => Number g l f e None | t => t end.
Lemma number_at_none c s : is_digit c = false -> is_sign c = false -> number_at (c :: s) = None.
Proof. intros D S. unfold number_at. cbn [sign_of]. rewrite S. cbn [length skipn digits_of]. rewrite D. reflexivity. Qed.
Lemma digit_no_sign c : is_digit c = true -> is_sign c = false.
Proof. unfold is_sign. intros D. destruct (ceqb_spec c "+"%char) as [->|]; [discriminate|]. destruct (ceqb_spec c "-"%char) as [->|]; [discriminate|reflexivity]. Qed.
Lemma word_no_sign c : is_word c = true -> is_sign c = false.
Proof. unfold is_sign. intros D. destruct (ceqb_spec c "+"%char) as [->|]; [discriminate|]. destruct (ceqb_spec c "-"%char) as [->|]; [discriminate|reflexivity]. Qed.
Lemma blocked p c s : alnum_before p = true -> sub_with ns p 0 (c :: s) = c :: sub_with ns (Some c) 0 s.
Proof. intros P. cbn [sub_with]. unfold ns at 1, number_suffix. rewrite P. reflexivity. Qed.
Lemma unmatched p c s : number_at (c :: s) = None -> sub_with ns p 0 (c :: s) = c :: sub_with ns (Some c) 0 s.
Proof. intros P. cbn [sub_with]. unfold ns at 1, number_suffix. rewrite P. destruct (alnum_before p); reflexivity. Qed.
Lemma scan_sep p c s : is_word c = false -> sub_with ns p 0 (c :: s) = c :: sub_with ns (Some c) 0 s.
Proof.
  intros C. assert (D : is_digit c = false) by (destruct (is_digit c) eqn:E; [apply digit_word in E; congruence|reflexivity]).
  assert (AL : is_alnum c = false) by (unfold is_word in C; apply orb_false_iff in C; apply C).
  destruct (number_at (c :: s)) as [b|] eqn:N; [|apply unmatched; exact N].
  destruct (alnum_before p) eqn:P; [apply blocked; exact P|]. destruct (is_sign c) eqn:S; [|rewrite number_at_none in N by auto; discriminate].
  destruct s as [|d s]; [unfold number_at in N; cbn in N; rewrite S in N; discriminate|].
  destruct (is_digit d) eqn:DD; [|unfold number_at in N; cbn [sign_of] in N; rewrite S in N; cbn [length skipn digits_of] in N; rewrite DD in N; discriminate].
  assert (X : number_at (c :: d :: s) = match number_at (d :: s) with Some b => Some (c :: b) | None => None end).
  { unfold number_at. cbn [sign_of]. rewrite S, (digit_no_sign d DD). cbn [length skipn]. destruct (digits_of (d :: s)) as [|a l] eqn:DS; [reflexivity|].
    match goal with |- context [match ?q with [] => None | _ :: _ => _ end] => destruct q as [|y z] end; [reflexivity|]. destruct (is_suffix y && negb (is_word_at z)); reflexivity. }
  destruct (number_at (d :: s)) as [b'|] eqn:N'; [|congruence]. assert (b = c :: b') by congruence. subst b.
  assert (A : ns p (c :: d :: s) = Some (c :: b', length (c :: b'))) by (unfold ns, number_suffix; rewrite P, N; reflexivity).
  assert (B : ns (Some c) (d :: s) = Some (b', length b')) by (unfold ns, number_suffix; cbn [alnum_before]; rewrite AL, N'; reflexivity).
  cbn [sub_with]. rewrite A, B. reflexivity.
Qed.
Lemma scan_any p r : is_word_at r = false -> sub_with ns p 0 r = sub_with ns None 0 r.
Proof. destruct r as [|c r]; [reflexivity|]. cbn [is_word_at]. intros C. rewrite !scan_sep by exact C. reflexivity. Qed.
Lemma scan_name w r : is_word_at r = false -> forall b p, digit_free b w -> (b = false -> alnum_before p = true) -> sub_with ns p 0 (w ++ r) = w ++ sub_with ns None 0 r.
Proof.
  intros R. induction w as [|c w IH]; intros b p F P; [apply scan_any; exact R|]. destruct F as (C & D & F). cbn [app]. destruct b.
  - rewrite unmatched by (apply number_at_none; [auto|apply word_no_sign; exact C]). f_equal. apply (IH (ceqb c "_")); auto. cbn. intros U. unfold is_word in C. rewrite U in C. rewrite orb_false_r in C. exact C.
  - rewrite blocked by auto. f_equal. apply (IH (ceqb c "_")); auto. cbn. intros U. unfold is_word in C. rewrite U in C. rewrite orb_false_r in C. exact C.
Qed.
Definition digit_at (s : str) : bool := match s with c :: _ => is_digit c | [] => false end.
Lemma digits_of_app g y : Forall (fun c => is_digit c = true) g -> digit_at y = false -> digits_of (g ++ y) = g.
Proof. intros F Y. induction F as [|c g C F IH]; [destruct y; [reflexivity|]; cbn in *; rewrite Y; reflexivity|]. cbn. rewrite C, IH. reflexivity. Qed.
Lemma scan_digits g y : Forall (fun c => is_digit c = true) g -> forall p, alnum_before p = true -> exists q, alnum_before q = true /\ sub_with ns p 0 (g ++ y) = g ++ sub_with ns q 0 y.
Proof.
  induction 1 as [|c g C F IH]; intros p P; [exists p; auto|]. cbn [app]. rewrite blocked by exact P. destruct (IH (Some c)) as (q & Q & E); [apply digit_alnum; exact C|]. exists q. split; auto. rewrite E. reflexivity.
Qed.
Lemma scan_number_none g y p : digits g -> number_at (g ++ y) = None -> exists q, alnum_before q = true /\ sub_with ns p 0 (g ++ y) = g ++ sub_with ns q 0 y.
Proof.
  intros (N & F) H. destruct g as [|c g]; [congruence|]. inversion F; subst. cbn [app] in *. rewrite unmatched by exact H. destruct (scan_digits g y) with (p := Some c) as (q & Q & E); auto; [apply digit_alnum; auto|].
  exists q. split; auto. rewrite E. reflexivity.
Qed.
(** What comes after a number. *)
Definition ends (r : str) : Prop := is_word_at r = false /\ match r with c :: _ => c <> "."%char | [] => True end.
Lemma sign_digits g y : digits g -> sign_of (g ++ y) = [].
Proof. intros (N & F). destruct g as [|c g]; [congruence|]. inversion F; subst. cbn. rewrite digit_no_sign by auto. reflexivity. Qed.
Lemma skip_app (A : Type) (a b : list A) : skipn (length a) (a ++ b) = b.
Proof. induction a; auto. Qed.
Lemma e_digit c : is_e c = true -> is_digit c = false.
Proof. unfold is_e. destruct (ceqb_spec c "e"%char) as [->|]; [reflexivity|]. destruct (ceqb_spec c "E"%char) as [->|]; [reflexivity|discriminate]. Qed.
Lemma e_point c : is_e c = true -> ceqb c "." = false.
Proof. unfold is_e. destruct (ceqb_spec c "e"%char) as [->|]; [reflexivity|]. destruct (ceqb_spec c "E"%char) as [->|]; [reflexivity|discriminate]. Qed.
Lemma e_alnum c : is_e c = true -> is_alnum c = true.
Proof. unfold is_e. destruct (ceqb_spec c "e"%char) as [->|]; [reflexivity|]. destruct (ceqb_spec c "E"%char) as [->|]; [reflexivity|discriminate]. Qed.
Lemma e_word c : is_e c = true -> is_word c = true.
Proof. intros E. unfold is_word. rewrite e_alnum by exact E. reflexivity. Qed.
Lemma suffix_word c : is_suffix c = true -> is_word c = true.
Proof. unfold is_suffix. destruct (ceqb_spec c "f"%char) as [->|]; [reflexivity|]. destruct (ceqb_spec c "F"%char) as [->|]; [reflexivity|]. destruct (ceqb_spec c "d"%char) as [->|]; [reflexivity|]. destruct (ceqb_spec c "D"%char) as [->|]; [reflexivity|discriminate]. Qed.
Definition exponent_ok (e : option (ascii * option ascii * str)) : Prop :=
  match e with Some (e, g, d) => (e = "e"%char \/ e = "E"%char) /\ (g = None \/ g = Some "+"%char \/ g = Some "-"%char) /\ digits d | None => True end.
Definition suffix_ok (x : option ascii) : Prop := match x with Some c => c = "f"%char \/ c = "F"%char \/ c = "d"%char \/ c = "D"%char | None => True end.
Definition exponent_text (e : option (ascii * option ascii * str)) : str := match e with Some (e, g, d) => e :: opt g ++ d | None => [] end.
Definition fraction_text (f : option str) : str := match f with Some f => "."%char :: f | None => [] end.
Lemma head_end x r : suffix_ok x -> ends r -> match opt x ++ r with c :: _ => is_digit c = false /\ is_e c = false /\ ceqb c "." = false | [] => True end.
Proof.
  intros X (R & P). destruct x as [x|]; cbn [opt app].
  - destruct X as [-> |[-> |[-> | ->]]]; repeat split; reflexivity.
  - destruct r as [|c r]; [exact I|]. cbn [is_word_at] in R. repeat split.
    + destruct (is_digit c) eqn:E; [apply digit_word in E; congruence|reflexivity].
    + destruct (is_e c) eqn:E; [apply e_word in E; congruence|reflexivity].
    + apply ceqb_false. exact P.
Qed.
Lemma exponent_is e x r : exponent_ok e -> suffix_ok x -> ends r -> exponent_of (exponent_text e ++ opt x ++ r) = exponent_text e.
Proof.
  intros E X R. pose proof (head_end x r X R) as H. assert (DA : digit_at (opt x ++ r) = false) by (destruct (opt x ++ r); [reflexivity|apply H]). destruct e as [((e, g), d)|]; cbn [exponent_text].
  - destruct E as (A & B & D). cbn [app exponent_of]. assert (IE : is_e e = true) by (destruct A as [-> | ->]; reflexivity). rewrite IE. rewrite <- app_assoc.
    assert (SG : sign_of (opt g ++ d ++ opt x ++ r) = opt g) by (destruct B as [-> |[-> | ->]]; [apply (sign_digits d (opt x ++ r) D)|reflexivity|reflexivity]). rewrite SG, skip_app, digits_of_app; [|apply D|exact DA].
    destruct d as [|c d]; [destruct D; congruence|reflexivity].
  - cbn [app]. destruct (opt x ++ r) as [|c s]; [reflexivity|]. cbn [exponent_of]. destruct H as (_ & H & _). rewrite H. reflexivity.
Qed.
Lemma exponent_head e x r : exponent_ok e -> suffix_ok x -> ends r -> digit_at (exponent_text e ++ opt x ++ r) = false /\ match exponent_text e ++ opt x ++ r with c :: _ => ceqb c "." = false | [] => True end.
Proof.
  intros E X R. pose proof (head_end x r X R) as H. destruct e as [((e, g), d)|]; cbn [exponent_text app].
  - destruct E as (A & _). destruct A as [-> | ->]; split; reflexivity.
  - destruct (opt x ++ r) as [|c s]; [split; [reflexivity|exact I]|]. split; apply H.
Qed.
Definition fraction_ok (f : option str) : Prop := match f with Some f => Forall (fun c => is_digit c = true) f | None => True end.
Lemma fraction_is f e x r : fraction_ok f -> exponent_ok e -> suffix_ok x -> ends r -> fraction_of (fraction_text f ++ exponent_text e ++ opt x ++ r) = fraction_text f.
Proof.
  intros F E X R. destruct (exponent_head e x r E X R) as (H1 & H2). destruct f as [f|]; cbn [fraction_text app].
  - cbn [fraction_of]. rewrite ceqb_refl. rewrite digits_of_app by auto. reflexivity.
  - unfold fraction_of. destruct (exponent_text e ++ opt x ++ r) as [|c s]; [reflexivity|]. rewrite H2. reflexivity.
Qed.
Lemma fraction_head f e x r : exponent_ok e -> suffix_ok x -> ends r -> digit_at (fraction_text f ++ exponent_text e ++ opt x ++ r) = false.
Proof. intros E X R. destruct f as [f|]; [reflexivity|]. apply (exponent_head e x r E X R). Qed.
Lemma number_at_is l f e x r : digits l -> fraction_ok f -> exponent_ok e -> suffix_ok x -> ends r ->
  number_at (l ++ fraction_text f ++ exponent_text e ++ opt x ++ r) = match x with Some _ => Some (l ++ fraction_text f ++ exponent_text e) | None => None end.
Proof.
  intros L F E X R. unfold number_at. rewrite sign_digits by exact L. cbv zeta. change (skipn (length (@nil ascii)) (l ++ fraction_text f ++ exponent_text e ++ opt x ++ r)) with (l ++ fraction_text f ++ exponent_text e ++ opt x ++ r).
  rewrite digits_of_app; [|apply L|apply fraction_head; auto]. destruct l as [|c l0] eqn:LL; [destruct L; congruence|]. cbv beta match. rewrite <- LL in *. clear LL.
  rewrite skip_app, fraction_is, skip_app, exponent_is, skip_app by auto. destruct x as [x|]; cbn [opt app].
  - assert (SX : is_suffix x = true) by (destruct X as [-> |[-> |[-> | ->]]]; reflexivity). rewrite SX. destruct R as (R & _). rewrite R. reflexivity.
  - destruct r as [|y r]; [reflexivity|]. destruct R as (R & _). cbn [is_word_at] in R. destruct (is_suffix y) eqn:S; [apply suffix_word in S; congruence|reflexivity].
Qed.
Lemma sub_skip m w r : forall p, exists q, sub_with m p (length w) (w ++ r) = sub_with m q 0 r.
Proof. induction w as [|c w IH]; intros p; [exists p; reflexivity|]. cbn [length app sub_with]. apply IH. Qed.
Lemma scan_exponent e r p : exponent_ok e -> ends r -> sub_with ns p 0 (exponent_text e ++ r) = exponent_text e ++ sub_with ns None 0 r.
Proof.
  intros E R. destruct e as [((e, g), d)|]; cbn [exponent_text app]; [|apply scan_any; apply R]. destruct E as (A & B & D). assert (IE : is_e e = true) by (destruct A as [-> | ->]; reflexivity).
  rewrite unmatched by (apply number_at_none; [apply e_digit; exact IE|apply word_no_sign; apply e_word; exact IE]). f_equal. rewrite <- app_assoc.
  assert (X : forall q, exists q', sub_with ns q 0 (d ++ r) = d ++ sub_with ns q' 0 r).
  { intros q. destruct (scan_number_none d r q D) as (q' & _ & Q); [|exists q'; exact Q]. apply (number_at_is d None None None r D I I I R). }
  destruct B as [-> |[-> | ->]]; cbn [opt app].
  - destruct (X (Some e)) as (q & Q). rewrite Q. rewrite (scan_any q) by apply R. reflexivity.
  - rewrite blocked by (apply e_alnum; exact IE). destruct (X (Some "+"%char)) as (q & Q). rewrite Q. rewrite (scan_any q) by apply R. reflexivity.
  - rewrite blocked by (apply e_alnum; exact IE). destruct (X (Some "-"%char)) as (q & Q). rewrite Q. rewrite (scan_any q) by apply R. reflexivity.
Qed.
Lemma scan_last l f e x r p : digits l -> fraction_ok f -> exponent_ok e -> suffix_ok x -> ends r -> alnum_before p = false ->
  sub_with ns p 0 (l ++ fraction_text f ++ exponent_text e ++ opt x ++ r) = l ++ fraction_text f ++ exponent_text e ++ sub_with ns None 0 r.
Proof.
  intros L F E X R P. pose proof (number_at_is l f e x r L F E X R) as N. destruct x as [x|].
  - destruct l as [|c l]; [destruct L; congruence|]. cbn [app] in *. cbn [sub_with]. unfold ns at 1, number_suffix. rewrite P, N. cbn [length].
    set (b := l ++ fraction_text f ++ exponent_text e) in *. replace (l ++ fraction_text f ++ exponent_text e ++ opt (Some x) ++ r) with ((b ++ [x]) ++ r) by (unfold b; rewrite <- !app_assoc; reflexivity).
    replace (S (length b)) with (length (b ++ [x])) by (rewrite app_length; cbn; lia). destruct (sub_skip ns (b ++ [x]) r (Some c)) as (q & Q). rewrite Q. rewrite (scan_any q) by apply R.
    unfold b. cbn [app]. rewrite <- !app_assoc. reflexivity.
  - destruct (scan_number_none l (fraction_text f ++ exponent_text e ++ opt None ++ r) p L N) as (q & _ & Q). rewrite Q. f_equal. cbn [opt app] in *. destruct f as [f|]; cbn [fraction_text app]; [|apply scan_exponent; auto].
    rewrite scan_sep by reflexivity. f_equal. destruct f as [|d f]; [apply scan_exponent; auto|]. destruct (scan_number_none (d :: f) (exponent_text e ++ r) (Some "."%char)) as (q' & _ & Q').
    + split; [discriminate|exact F].
    + apply (number_at_is (d :: f) None e None r); auto; try exact I. split; [discriminate|exact F].
    + rewrite Q'. f_equal. apply scan_exponent; auto.
Qed.
Lemma number_at_group g s y : digits g -> s = "'"%char \/ s = "_"%char -> number_at (g ++ s :: y) = None.
Proof.
  intros G S. unfold number_at. rewrite sign_digits by exact G. cbv zeta. change (skipn (length (@nil ascii)) (g ++ s :: y)) with (g ++ s :: y). rewrite digits_of_app; [|apply G|destruct S as [-> | ->]; reflexivity]. destruct g as [|c g0] eqn:GG; [reflexivity|]. cbv beta match. rewrite <- GG. rewrite skip_app.
  destruct S as [-> | ->]; reflexivity.
Qed.
Lemma scan_groups gs rest out : Forall group_ok gs -> (forall p, alnum_before p = false -> sub_with ns p 0 rest = out) ->
  forall p, alnum_before p = false -> sub_with ns p 0 (groups_text gs ++ rest) = groups_text gs ++ out.
Proof.
  intros G H. induction G as [|(g, s) gs (D & S) G IH]; intros p P; [apply H; exact P|]. unfold groups_text in *. cbn [map concat fst snd] in *. rewrite <- !app_assoc. cbn [app].
  destruct (scan_number_none g (s :: concat (map (fun g => fst g ++ [snd g]) gs) ++ rest) p D) as (q & A & Q); [apply number_at_group; auto|]. rewrite Q. rewrite blocked by exact A. rewrite IH; [reflexivity|]. destruct S as [-> | ->]; reflexivity.
Qed.
Lemma tail_is f e : tail f e = fraction_text f ++ exponent_text e. Proof. reflexivity. Qed.
Lemma ends_text r : expression r -> apart r -> no_point r -> ends (text r).
Proof. intros E A P. split; [apply apart_word; auto|]. destruct r as [|[w|? ? ? ? ?| |c] r]; cbn in *; auto; tauto. Qed.
Lemma scan_text ts : expression ts -> forall p, alnum_before p = false \/ is_word_at (text ts) = false -> sub_with ns p 0 (text ts) = text (map bare ts).
Proof.
  induction ts as [|[w|g l f e x| |c] r IH]; cbn [expression]; [reflexivity| | | |].
  - intros (W & A & E) p P. cbn [map]. rewrite !text_cons. cbn [tok_text bare]. destruct W as (_ & W & _). rewrite (scan_name w (text r)) with (b := true); [|apply apart_word; auto|exact W|discriminate]. rewrite IH by auto. reflexivity.
  - intros (W & A & PT & E) p P. cbn [map]. rewrite !text_cons. pose proof W as W0. destruct W as (G & _ & L & F & EX & X). cbn [tok_text bare].
    assert (PA : alnum_before p = false).
    { destruct P as [P|P]; [exact P|]. exfalso. rewrite text_cons in P. cbn [tok_text] in P. destruct g as [|(g, s) gs].
      - destruct L as (LN & LF). destruct l as [|d l]; [congruence|]. cbn in P. inversion LF; subst. rewrite digit_word in P by auto. discriminate.
      - inversion G as [|? ? ((GN & GF) & _) _]; subst. cbn [fst] in *. destruct g as [|d g]; [congruence|]. cbn in P. inversion GF; subst. rewrite digit_word in P by auto. discriminate. }
    rewrite !tail_is. rewrite <- !app_assoc. cbn [opt app]. change (concat (map (fun g0 : str * ascii => fst g0 ++ [snd g0]) g)) with (groups_text g).
    apply scan_groups; [exact G| |exact PA]. intros q Q. rewrite scan_last by (auto; apply ends_text; auto). rewrite IH by auto. reflexivity.
  - intros E p _. cbn [map]. rewrite !text_cons. cbn [tok_text bare]. change ($"::") with (":"%char :: [":"%char]). cbn [app]. rewrite !scan_sep by reflexivity. rewrite IH by auto. reflexivity.
  - intros (W & _ & _ & _ & E) p _. cbn [map]. rewrite !text_cons. cbn [tok_text bare app]. rewrite scan_sep by exact W. rewrite IH; [reflexivity|exact E|]. left. cbn. unfold is_word in W. apply orb_false_iff in W. apply W.
Qed.
Lemma expression_bare ts : expression ts -> expression (map bare ts).
Proof.
  induction ts as [|[w|g l f e x| |c] r IH]; cbn [expression map bare]; auto; try tauto.
  - intros (W & A & E). repeat split; auto; try apply W. destruct r as [|[?|? ? ? ? ?| |?] r]; auto.
  - intros (W & A & P & E). split; [destruct W as (W1 & W2 & W3 & W4 & W5 & _); repeat split; auto; apply W3|]. split; [destruct r as [|[?|? ? ? ? ?| |?] r]; auto|]. split; [destruct r as [|[?|? ? ? ? ?| |?] r]; auto|auto].
Qed.

(** ** [::] *)

Definition dotted (t : tok) : tok := match t with Colons => Sign "." | t => t end.
Lemma colons_skip x y : ~ In ":"%char x -> replace $"::" $"." (x ++ y) = x ++ replace $"::" $"." y.
Proof.
  intros N. unfold replace. induction x as [|c x IH]; [reflexivity|]. cbn [app replace_aux]. assert (E : startswith $"::" (c :: x ++ y) = false).
  { change ($"::") with (":"%char :: [":"%char]). cbn [startswith]. destruct (ceqb_spec ":"%char c) as [<-|]; [|reflexivity]. exfalso. apply N. left. reflexivity. }
  rewrite E. f_equal. apply IH. intros H. apply N. right. exact H.
Qed.
Lemma colons_text ts : expression ts -> replace $"::" $"." (text ts) = text (map dotted ts).
Proof.
  induction ts as [|[w|g l f e x| |c] r IH]; cbn [expression]; [reflexivity| | | |].
  - intros (W & A & E). cbn [map]. rewrite !text_cons. cbn [tok_text dotted]. rewrite colons_skip, IH; auto. intros H. apply is_name_of in W. destruct W as [_ W]. rewrite Forall_forall in W. specialize (W _ H). discriminate.
  - intros (W & A & P & E). cbn [map]. rewrite !text_cons. cbn [dotted]. rewrite colons_skip, IH; auto. intros H. pose proof (number_chars g l f e x W) as F. rewrite Forall_forall in F. specialize (F _ H). discriminate.
  - intros E. cbn [map]. rewrite !text_cons. cbn [tok_text dotted]. rewrite <- IH by exact E. reflexivity.
  - intros (W & _ & _ & Q & E). cbn [map]. rewrite !text_cons. cbn [tok_text dotted]. rewrite colons_skip, IH; auto. intros [H|[]]. contradiction.
Qed.
Lemma expression_dotted ts : expression ts -> expression (map dotted ts).
Proof.
  induction ts as [|[w|g l f e x| |c] r IH]; cbn [expression map dotted]; auto.
  - intros (W & A & E). repeat split; auto; try apply W. destruct r as [|[?|? ? ? ? ?| |?] r]; auto.
  - intros (W & A & P & E). split; [exact W|]. split; [destruct r as [|[?|? ? ? ? ?| |?] r]; auto|]. split; [destruct r as [|[?|? ? ? ? ?| |?] r]; auto; destruct P|auto].
  - intros E. repeat split; auto; discriminate.
  - intuition.
Qed.
