From Verif Require Import PyStr PyDict PyStrLemmas InstanceModel InstanceSpec InstanceProofs LiteralModel LiteralSpec LiteralProofs LiteralProofs2 LiteralProofs3 EnumRefModel EnumRefSpec EnumRefProofs.
(** The replacements of names, on the parts of an expression. *)

(** ** What stays true *)

Section Kept.
Variable all : list entry.
Hypothesis ok : entries_ok all.
Lemma apart_renamed rs r : apart r -> apart (renamed rs r). Proof. destruct r as [|[?|? ? ? ? ?| |?] r]; cbn; tauto. Qed.
Lemma no_point_renamed rs r : apart r -> no_point r -> no_point (renamed rs r). Proof. destruct r as [|[?|? ? ? ? ?| |?] r]; cbn; tauto. Qed.
Lemma expression_dotted_name a b r : LiteralSpec.is_name a -> LiteralSpec.is_name b -> apart r -> expression r -> expression (dotted_name a b ++ r).
Proof. intros A B P E. cbn [dotted_name app expression apart]. split; [exact A|]. split; [exact I|]. split; [reflexivity|]. split; [discriminate|]. split; [discriminate|]. split; [discriminate|]. auto. Qed.
Lemma enumerator_names e m pe pm : In (Enumerator e m pe pm) all -> LiteralSpec.is_name pe /\ LiteralSpec.is_name pm /\ ~ In pm (enums all).
Proof.
  intros H. pose proof (entry_in all ok _ H) as ((E & _) & (M & _) & C). split; [destruct C as [(-> & _)|((P & _) & _)]; auto|]. split; [destruct C as [(_ & [-> |(Q & _)])|(_ & (Q & _))]; auto|].
  intros X. destruct C as [(_ & [-> |(_ & Q)])|(_ & (_ & Q))]; [|apply Q; unfold keys; rewrite !in_app_iff; auto|apply Q; unfold keys; rewrite !in_app_iff; auto].
  apply enums_in in X. destruct X as (m' & x & y & X). destruct ok as (_ & A & _). specialize (A _ _ X H). cbn in A. destruct A. congruence.
Qed.
Lemma constant_names m pe pm : In (Constant m pe pm) all -> LiteralSpec.is_name pe /\ LiteralSpec.is_name pm /\ ~ In pm (enums all).
Proof. intros H. pose proof (entry_in all ok _ H) as (_ & (P & _) & (Q & N)). repeat split; auto; try apply P; try apply Q. intros X. apply N. unfold keys. rewrite !in_app_iff. auto. Qed.
Lemma function_names f g : In (Function f g) all -> LiteralSpec.is_name g /\ ~ In g (enums all).
Proof. intros H. pose proof (entry_in all ok _ H) as (_ & (P & N)). split; auto. intros X. apply N. unfold keys. rewrite !in_app_iff. auto. Qed.
Lemma expression_renamed rs : incl rs all -> forall ts, expression ts -> expression (renamed rs ts).
Proof.
  intros I ts. remember (length ts) as n eqn:N. revert ts N. induction n as [n IH] using lt_wf_ind. intros ts N E.
  destruct ts as [|[a|g l f e x| |c] r]; [exact E| | | |]; cbn [length] in N; cbn [expression] in E.
  - destruct E as (A & P & E). assert (R : expression (renamed rs r)) by (apply (IH (length r)); auto; lia). pose proof (apart_renamed rs r P) as PR. rewrite renamed_follows.
    assert (O : expression (one_name rs a r ++ renamed rs r)).
    { unfold one_name. destruct (constant_of rs a) eqn:C; [apply constant_some in C; destruct C as (pe & pm & C & ->); destruct (constant_names a pe pm (I _ C)) as (X & Y & _); apply expression_dotted_name; auto|].
      destruct (called r); [destruct (function_of rs a) eqn:F|]; cbn [app expression]; auto. apply function_some in F. destruct (function_names _ _ (I _ F)). auto. }
    destruct (follows r) as [(b, r')|] eqn:F; [|exact O]. destruct (enumerator rs a b) eqn:EN; [|exact O]. apply enumerator_some in EN. destruct EN as (pe & pm & EN & ->). destruct (enumerator_names _ _ _ _ (I _ EN)) as (X & Y & _).
    apply follows_is in F. subst r. cbn [expression] in E. destruct E as (_ & _ & _ & _ & _ & P' & E). apply expression_dotted_name; auto; [apply apart_renamed; exact P'|]. apply (IH (length r')); auto. cbn [length] in N. lia.
  - destruct E as (A & P & Q & E). cbn [renamed expression]. split; [exact A|]. split; [apply apart_renamed; exact P|]. split; [apply no_point_renamed; auto|]. apply (IH (length r)); auto; lia.
  - cbn [renamed expression]. apply (IH (length r)); auto; lia.
  - cbn [renamed expression]. destruct E as (A & B & C & D & E). repeat split; auto. apply (IH (length r)); auto; lia.
Qed.
Lemma clear_name w r : clear all (Name w :: r) <-> (forall e, In e (enums all) -> w = e \/ contains e w = false)
  /\ match r with Sign c :: Name m :: _ => In w (enums all) -> In m (members all) -> c = "."%char | _ => True end /\ clear all r.
Proof. reflexivity. Qed.
Lemma clear_none w r : (forall e, In e (enums all) -> w = e \/ contains e w = false) -> ~ In w (enums all) -> clear all r -> clear all (Name w :: r).
Proof. intros A B C. apply clear_name. split; [exact A|]. split; [|exact C]. destruct r as [|[?|? ? ? ? ?| |?] [|[?|? ? ? ? ?| |?] r]]; auto. intros D. contradiction. Qed.
Lemma clear_dotted pe pm r : (forall e w, In e (enums all) -> w = pe \/ w = pm -> w = e \/ contains e w = false) -> ~ In pm (enums all) -> clear all r -> clear all (dotted_name pe pm ++ r).
Proof.
  intros A B C. unfold dotted_name. cbn [app]. apply clear_name. split; [intros e H; apply A; auto|]. split; [auto|]. change (clear all (Name pm :: r)). apply clear_none; auto.
Qed.
Lemma clear_renamed rs : incl rs all -> forall ts, clear all ts -> clear all (renamed rs ts).
Proof.
  intros I ts. remember (length ts) as n eqn:N. revert ts N. induction n as [n IH] using lt_wf_ind. intros ts N E.
  destruct ts as [|[a|g l f e x| |c] r]; [exact E| | | |]; cbn [length] in N; try (cbn [renamed clear] in *; apply (IH (length r)); auto; lia).
  apply clear_name in E. destruct E as (A & P & E). assert (R : clear all (renamed rs r)) by (apply (IH (length r)); auto; lia). rewrite renamed_follows. destruct ok as (_ & _ & OUT).
  assert (O : clear all (one_name rs a r ++ renamed rs r)).
  { unfold one_name. destruct (constant_of rs a) eqn:C.
    - apply constant_some in C. destruct C as (pe & pm & C & ->). destruct (constant_names a pe pm (I _ C)) as (_ & _ & Y). apply clear_dotted; auto. intros e w H W. apply OUT; auto. apply in_flat_map. eexists. split; [apply (I _ C)|]. cbn. destruct W as [-> | ->]; auto.
    - destruct (called r && match function_of rs a with Some _ => true | None => false end) eqn:F.
      + apply andb_true_iff in F. destruct F as (F1 & F2). rewrite F1. destruct (function_of rs a) eqn:F; [|discriminate]. apply function_some in F. destruct (function_names _ _ (I _ F)) as (_ & Y). cbn [app]. apply clear_none; auto.
        intros e H. apply OUT; auto. apply in_flat_map. eexists. split; [apply (I _ F)|]. left. reflexivity.
      + assert (ON : (if called r then match function_of rs a with Some g => [Name g] | None => [Name a] end else [Name a]) = [Name a]) by (destruct (called r), (function_of rs a); cbn in F; auto; discriminate).
        rewrite ON. cbn [app]. apply clear_name. split; [exact A|]. split; [|exact R]. destruct r as [|[b|? ? ? ? ?| |c] r]; cbn [renamed]; auto.
        * pose proof (renamed_head all ok rs b r I) as (x & y & X & _). cbn [renamed] in X. rewrite X. auto.
        * destruct r as [|[b|? ? ? ? ?| |d] r]; auto. pose proof (renamed_head all ok rs b r I) as (x & y & X & O). rewrite X. intros W M. destruct O as [-> |O]; [auto|]. exfalso. apply O. unfold keys. rewrite !in_app_iff. auto. }
  destruct (follows r) as [(b, r')|] eqn:F; [|exact O]. destruct (enumerator rs a b) eqn:EN; [|exact O]. apply enumerator_some in EN. destruct EN as (pe & pm & EN & ->). destruct (enumerator_names _ _ _ _ (I _ EN)) as (_ & _ & Y).
  apply follows_is in F. subst r. cbn [clear] in E. destruct E as (_ & _ & E). apply clear_dotted; auto.
  - intros e w H W. apply OUT; auto. apply in_flat_map. eexists. split; [apply (I _ EN)|]. cbn. destruct W as [-> | ->]; auto.
  - apply (IH (length r')); auto. cbn [length] in N. lia.
Qed.
End Kept.

(** ** Each replacement *)

Lemma key_foreign k : key k -> foreign k.
Proof.
  intros (_ & c & C & W & D & N). exists c. split; [exact C|]. unfold num_char. rewrite D. cbn [orb].
  assert (H : forall x, ceqb c x = true -> is_word x = false \/ In x ($"eEfFdD_") -> False) by (intros x X [Y|Y]; apply ceqb_true in X; subst x; [congruence|contradiction]).
  assert (G : forall x, is_word x = false \/ In x ($"eEfFdD_") -> ceqb c x = false) by (intros x X; destruct (ceqb c x) eqn:Y; [destruct (H x Y X)|reflexivity]).
  unfold is_e, is_sign, is_suffix. rewrite !G; try reflexivity; cbn; auto 20.
Qed.
Lemma key_name k : key k -> name_of k. Proof. intros (N & _). apply is_name_of. exact N. Qed.
Lemma contains_suffix e a b : startswith e b = true -> contains e (a ++ b) = true.
Proof. intros H. induction a as [|c a IH]; [destruct b; cbn [app contains]; rewrite ?H; auto|cbn [app contains]; rewrite IH; apply orb_true_r]. Qed.
Lemma seg_skip m x r : (forall x1 x2, x = x1 ++ x2 -> x2 <> [] -> forall p, m p (x2 ++ r) = None) -> forall p, exists q, sub_with m p 0 (x ++ r) = x ++ sub_with m q 0 r.
Proof.
  induction x as [|c x IH]; intros H p; [exists p; reflexivity|]. cbn [app sub_with]. assert (N : m p (c :: x ++ r) = None) by (apply (H [] (c :: x)); [reflexivity|discriminate]). rewrite N.
  destruct (IH) with (p := Some c) as (q & Q); [|exists q; rewrite Q; reflexivity]. intros x1 x2 X NE. apply (H (c :: x1) x2); [rewrite X; reflexivity|exact NE].
Qed.
Lemma matched (m : matcher) p w r new : w <> [] -> m p (w ++ r) = Some (new, length w - 1) -> exists q, sub_with m p 0 (w ++ r) = new ++ sub_with m q 0 r.
Proof. intros N M. destruct w as [|c w]; [congruence|]. cbn [app] in *. destruct (sub_skip m w r (Some c)) as (q & Q). exists q. cbn [sub_with]. rewrite M. cbn [length]. rewrite Nat.sub_succ, Nat.sub_0_r, Q. reflexivity. Qed.
Lemma number_none k (m : matcher) g l f e x r : key k -> (forall p s, m p s <> None -> startswith k s = true) -> is_number g l f e x -> is_word_at r = false ->
  forall p, exists q, sub_with m p 0 (tok_text (Number g l f e x) ++ r) = tok_text (Number g l f e x) ++ sub_with m q 0 r.
Proof.
  intros K M W R. apply seg_skip. intros x1 x2 X NE p. destruct (m p (x2 ++ r)) eqn:E; [|reflexivity]. exfalso. assert (S : startswith k (x2 ++ r) = true) by (apply (M p); rewrite E; discriminate).
  apply (starts_in k (key_name k K) x2 r R) in S. destruct (key_foreign k K) as (c & C & F). apply startswith_true in S. destruct S as (y & ->). pose proof (number_chars g l f e x W) as NC. rewrite X in NC. apply Forall_app in NC. destruct NC as (_ & NC). apply Forall_app in NC. destruct NC as (NC & _).
  rewrite Forall_forall in NC. rewrite (NC c C) in F. discriminate.
Qed.
Lemma sign_starts k c r : key k -> is_word c = false -> startswith k (c :: r) = false.
Proof. intros K C. destruct (key_name k K) as (N & F). destruct k as [|d k]; [congruence|]. inversion F; subst. cbn [startswith]. destruct (ceqb_spec d c) as [->|]; [congruence|reflexivity]. Qed.
Lemma word_at k r : name_of k -> is_word_at (k ++ r) = true. Proof. intros (N & F). destruct k; [congruence|]. inversion F; subst. cbn. auto. Qed.

Section ClassValue.
Variables (e m pe pm : str).
Hypothesis ke : key e.
Hypothesis km : key m.
Let new := text (dotted_name pe pm).
Let mm := class_value e m new.
Lemma mm_any p q s : sub_with mm p 0 s = sub_with mm q 0 s. Proof. destruct s; reflexivity. Qed.
Lemma mm_starts p s : mm p s <> None -> startswith e s = true. Proof. unfold mm, class_value. destruct (startswith e s); [auto|congruence]. Qed.
Lemma mm_none p s : startswith e s = false -> mm p s = None. Proof. unfold mm, class_value. intros ->. reflexivity. Qed.
Lemma member_at r : expression r -> startswith m (text r) = true -> is_word_at (skipn (length m) (text r)) = false -> exists r', r = Name m :: r'.
Proof.
  intros E S W. destruct r as [|[b|g l f x y| |c] r].
  - destruct m; [destruct (key_name _ km); congruence|discriminate].
  - rewrite text_cons in *. cbn [tok_text expression] in *. destruct E as (B & A & E). exists r. f_equal. f_equal. symmetry. apply (starts_word m [] (key_name m km) b (text r)); auto; [apply (is_name_of b B)|apply apart_word; auto].
  - exfalso. rewrite text_cons in S. cbn [expression] in E. destruct E as (B & A & P & E). apply (starts_in m (key_name m km)) in S; [|apply apart_word; auto]. destruct (key_foreign m km) as (c & C & F). apply startswith_true in S. destruct S as (z & S). pose proof (number_chars g l f x y B) as NC. rewrite S in NC.
    apply Forall_app in NC. destruct NC as (NC & _). rewrite Forall_forall in NC. rewrite (NC c C) in F. discriminate.
  - rewrite text_cons in S. cbn [tok_text] in S. change ($"::") with (":"%char :: [":"%char]) in S. cbn [app] in S. rewrite sign_starts in S by (auto; reflexivity). discriminate.
  - rewrite text_cons in S. cbn [tok_text app] in S. cbn [expression] in E. rewrite sign_starts in S by (auto; apply E). discriminate.
Qed.
Definition clear1 (ts : list tok) : Prop := clear [Enumerator e m pe pm] ts.
Lemma class_text ts : expression ts -> clear1 ts -> forall p, sub_with mm p 0 (text ts) = text (renamed [Enumerator e m pe pm] ts).
Proof.
  remember (length ts) as n eqn:N. revert ts N. induction n as [n IH] using lt_wf_ind. intros ts N E C p.
  destruct ts as [|[a|g l f x y| |c] r]; [reflexivity| | | |]; cbn [length] in N.
  - cbn [expression] in E. destruct E as (A & P & E). destruct C as (C1 & C2 & C3). cbn [enums members flat_map app] in C1, C2. specialize (C1 e (or_introl eq_refl)).
    assert (R : forall q, sub_with mm q 0 (text r) = text (renamed [Enumerator e m pe pm] r)) by (intros q; apply (IH (length r)); auto; lia). pose proof (apart_word r E P) as W. pose proof (key_name e ke) as KE.
    rewrite text_cons. cbn [tok_text]. rewrite renamed_follows. unfold one_name. cbn [constant_of function_of].
    assert (ON : (if called r then [Name a] else [Name a]) = [Name a]) by (destruct (called r); reflexivity). rewrite ON. cbn [app].
    destruct C1 as [-> |C1].
    + assert (TAIL : mm p (e ++ text r) = None -> sub_with mm p 0 (e ++ text r) = e ++ text (renamed [Enumerator e m pe pm] r)).
      { intros M0. destruct (seg_skip mm e (text r)) with (p := p) as (q & Q); [|rewrite Q, R; reflexivity]. intros x1 x2 X NE p'. destruct x1 as [|c x1]; [cbn [app] in X; subst x2; exact M0|]. apply mm_none. destruct (startswith e (x2 ++ text r)) eqn:S; [|reflexivity].
        apply (starts_in e KE x2 (text r) W) in S. apply startswith_length in S. rewrite X in S. cbn [app length] in S. rewrite app_length in S. lia. }
      assert (M : mm p (e ++ text r) = match text r with c :: s => if negb (ceqb c nl) && startswith m s && negb (is_word_at (skipn (length m) s)) then Some (new, length e + length m) else None | [] => None end).
      { unfold mm, class_value. rewrite startswith_app. rewrite skip_app. reflexivity. }
      destruct (follows r) as [(b, r')|] eqn:F.
      * apply follows_is in F. subst r. cbn [enumerator]. rewrite seqb_refl. cbn [andb]. rewrite !text_cons in *. cbn [tok_text app] in *. destruct (seqb_spec m b) as [<-|NE].
        -- assert (AP : is_word_at (text r') = false) by (cbn [expression] in E; apply apart_word; apply E). change (negb (ceqb "." nl)) with true in M. rewrite startswith_app, skip_app, AP in M. cbn [negb andb] in M.
           destruct (matched mm p (e ++ ["."%char] ++ m) (text r') new) as (q & Q); [destruct KE as (KE & _); destruct e; [congruence|discriminate]| |].
           { rewrite <- !app_assoc. cbn [app]. etransitivity; [exact M|]. assert (L : length e + length m = length (e ++ "."%char :: m) - 1) by (rewrite app_length; cbn [length]; lia). rewrite <- L. reflexivity. }
           rewrite <- !app_assoc in Q. cbn [app] in Q. etransitivity; [exact Q|]. rewrite text_app. fold new. f_equal. apply (IH (length r')); auto; [cbn [length] in N; lia|cbn [expression] in E; apply E|].
           destruct C3 as (_ & _ & C3). exact C3.
        -- rewrite text_cons. cbn [tok_text]. apply TAIL. rewrite M. destruct (negb (ceqb "." nl) && startswith m (b ++ text r') && negb (is_word_at (skipn (length m) (b ++ text r')))) eqn:X; [|reflexivity].
           apply andb_true_iff in X. destruct X as (X1 & X2). apply andb_true_iff in X1. destruct X1 as (_ & X1). apply negb_true_iff in X2. cbn [expression] in E. destruct (member_at (Name b :: r')) as (r0 & X); [apply E|exact X1|exact X2|]. congruence.
      * rewrite text_cons. cbn [tok_text]. apply TAIL. rewrite M. destruct r as [|[b|g l f x y| |c] r]; [reflexivity|cbn [apart] in P; contradiction|cbn [apart] in P; contradiction| |]; rewrite text_cons; cbn [tok_text].
        -- change ($"::") with (":"%char :: [":"%char]). cbn [app]. rewrite (sign_starts m) by (auto; reflexivity). rewrite andb_false_r. reflexivity.
        -- cbn [app]. destruct (negb (ceqb c nl) && startswith m (text r) && negb (is_word_at (skipn (length m) (text r)))) eqn:X; [|reflexivity].
           apply andb_true_iff in X. destruct X as (X1 & X2). apply andb_true_iff in X1. destruct X1 as (_ & X1). apply negb_true_iff in X2. cbn [expression] in E. destruct (member_at r) as (r0 & ->); [apply E|exact X1|exact X2|].
           exfalso. assert (c = "."%char) by (apply C2; left; reflexivity). subst c. cbn [follows] in F. rewrite ceqb_refl in F. discriminate.
    + assert (NE : seqb e a = false).
      { apply seqb_false. intros ->. rewrite <- (app_nil_l a) in C1 at 2. rewrite contains_suffix in C1 by apply startswith_refl. discriminate. }
      assert (T : (match match follows r with Some (b, r') => match enumerator [Enumerator e m pe pm] a b with Some nw => Some (nw ++ renamed [Enumerator e m pe pm] r') | None => None end | None => None end with Some z => z | None => Name a :: renamed [Enumerator e m pe pm] r end) = Name a :: renamed [Enumerator e m pe pm] r).
      { destruct (follows r) as [(b, r')|]; [|reflexivity]. cbn [enumerator]. rewrite NE. reflexivity. }
      rewrite T, text_cons. cbn [tok_text]. destruct (seg_skip mm a (text r)) with (p := p) as (q & Q); [|rewrite Q, R; reflexivity]. intros x1 x2 X _ p'. apply mm_none. destruct (startswith e (x2 ++ text r)) eqn:S; [|reflexivity].
      apply (starts_in e KE x2 (text r) W) in S. apply (contains_suffix e x1) in S. rewrite <- X in S. congruence.
  - cbn [expression] in E. destruct E as (A & P & _ & E). cbn [renamed]. rewrite !text_cons. destruct (number_none e mm g l f x y (text r) ke mm_starts A (apart_word r E P) p) as (q & Q). rewrite Q. f_equal. apply (IH (length r)); auto; lia.
  - cbn [renamed]. rewrite !text_cons. cbn [tok_text]. change ($"::") with (":"%char :: [":"%char]). cbn [app sub_with]. rewrite !mm_none by (apply sign_starts; [exact ke|reflexivity]). f_equal. f_equal. apply (IH (length r)); auto; lia.
  - cbn [expression] in E. cbn [renamed]. rewrite !text_cons. cbn [tok_text app sub_with]. rewrite mm_none by (apply sign_starts; [exact ke|apply E]). f_equal. apply (IH (length r)); auto; [lia|apply E].
Qed.
End ClassValue.

Lemma word_space c : is_word c = true -> is_space c = false.
Proof. destruct c as [[] [] [] [] [] [] [] []]; vm_compute; intros; congruence. Qed.
Lemma paren_first c s : is_space c = false -> startswith $"(" (skipn (spaces (c :: s)) (c :: s)) = ceqb c "(".
Proof. intros C. cbn [spaces]. rewrite C. cbn [skipn]. change ($"(") with ["("%char]. cbn [startswith]. rewrite andb_true_r. apply ceqb_sym. Qed.
Lemma called_text r : expression r -> startswith $"(" (skipn (spaces (text r)) (text r)) = called r.
Proof.
  assert (W : forall c s, is_word c = true -> startswith $"(" (skipn (spaces (c :: s)) (c :: s)) = false) by (intros c s C; rewrite paren_first by (apply word_space; exact C); apply ceqb_false; intros ->; discriminate).
  induction r as [|[b|g l f x y| |c] r IH]; intros E; [reflexivity| | | |]; rewrite text_cons; cbn [expression] in E.
  - destruct E as (B & _). apply is_name_of in B. destruct B as (N & F). cbn [tok_text called]. destruct b as [|c b]; [congruence|]. inversion F; subst. apply W. auto.
  - destruct E as (B & _). cbn [called]. assert (exists c s, tok_text (Number g l f x y) = c :: s /\ is_digit c = true) as (c & s & T & D).
    { destruct B as (G & _ & (L & L') & _). cbn [tok_text]. destruct g as [|(g, s) gs]; [destruct l as [|c l]; [congruence|]; inversion L'; subst; cbn; eauto|]. inversion G as [|? ? ((N & D) & _) _]; subst. cbn [fst] in *. destruct g as [|c g]; [congruence|]. inversion D; subst. cbn. eauto. }
    rewrite T. cbn [app]. apply W. apply digit_word. exact D.
  - cbn [tok_text called]. change ($"::") with (":"%char :: [":"%char]). cbn [app]. rewrite paren_first by reflexivity. reflexivity.
  - destruct E as (_ & _ & _ & _ & E). cbn [tok_text called app]. destruct (is_space c) eqn:S; [|apply paren_first; exact S]. cbn [spaces]. rewrite S. cbn [skipn]. apply IH. exact E.
Qed.
Section CallName.
Variables (f g : str).
Hypothesis kf : key f.
Let mm := call_name f g.
Lemma call_starts p s : mm p s <> None -> word_before p = false /\ startswith f s = true.
Proof. unfold mm, call_name. destruct (word_before p); cbn [negb andb]; [congruence|]. destruct (startswith f s); [auto|cbn; congruence]. Qed.
Lemma call_none p s : startswith f s = false -> mm p s = None. Proof. unfold mm, call_name. intros ->. rewrite andb_false_r. reflexivity. Qed.
Lemma call_text ts : expression ts -> forall p, word_before p = false \/ is_word_at (text ts) = false -> sub_with mm p 0 (text ts) = text (renamed [Function f g] ts).
Proof.
  induction ts as [|[a|gs l fr x y| |c] r IH]; intros E p P; [reflexivity| | | |]; cbn [expression] in E.
  - destruct E as (A & AP & E). pose proof (apart_word r E AP) as W. pose proof (is_name_of a A) as NA. pose proof (key_name f kf) as NF.
    assert (PW : word_before p = false) by (destruct P as [P|P]; [exact P|rewrite text_cons in P; cbn [tok_text] in P; rewrite word_at in P by exact NA; discriminate]).
    assert (R : forall q, sub_with mm q 0 (text r) = text (renamed [Function f g] r)) by (intros q; apply IH; auto).
    rewrite renamed_name by reflexivity. unfold one_name. cbn [constant_of function_of]. rewrite text_cons. cbn [tok_text].
    assert (TAIL : mm p (a ++ text r) = None -> sub_with mm p 0 (a ++ text r) = text ([Name a] ++ renamed [Function f g] r)).
    { intros M. cbn [app]. rewrite text_cons. cbn [tok_text]. destruct NA as (NN & FA). destruct a as [|c a]; [congruence|]. inversion FA as [|? ? FC FA']; subst. cbn [app] in *. cbn [sub_with]. rewrite M. f_equal.
      destruct (absent_inside f mm call_starts a (text r) FA' (Some c) FC) as (q & _ & Q). rewrite Q, R. reflexivity. }
    destruct (seqb_spec f a) as [<-|NE].
    + assert (M : mm p (f ++ text r) = if called r then Some (g, length f - 1) else None) by (unfold mm, call_name; rewrite PW, startswith_app, skip_app, called_text by exact E; reflexivity).
      destruct (called r); [|apply TAIL; exact M]. cbn [app]. rewrite text_cons. cbn [tok_text]. destruct (matched mm p f (text r) g) as (q & Q); [apply NF|exact M|]. etransitivity; [exact Q|]. f_equal. apply R.
    + assert (X : (if called r then [Name a] else [Name a]) = [Name a]) by (destruct (called r); reflexivity). rewrite X. apply TAIL. destruct (mm p (a ++ text r)) eqn:M; [|reflexivity]. exfalso. apply NE.
      unfold mm, call_name in M. rewrite PW in M. cbn [negb andb] in M. destruct (startswith f (a ++ text r)) eqn:S; [|discriminate]. cbn [andb] in M. apply (starts_word f [] NF a (text r)); auto; [apply NA|].
      destruct (skipn (length f) (a ++ text r)) as [|c s]; [reflexivity|]. cbn [is_word_at]. destruct (is_word c) eqn:WC; [|reflexivity]. exfalso. rewrite paren_first in M by (apply word_space; exact WC). destruct (ceqb_spec c "("%char) as [->|]; discriminate.
  - destruct E as (A & AP & _ & E). cbn [renamed]. rewrite !text_cons. destruct (number_none f mm gs l fr x y (text r) kf (fun p s H => proj2 (call_starts p s H)) A (apart_word r E AP) p) as (q & Q). rewrite Q. f_equal. apply IH; [exact E|]. right. apply apart_word; auto.
  - cbn [renamed]. rewrite !text_cons. cbn [tok_text]. change ($"::") with (":"%char :: [":"%char]). cbn [app sub_with]. rewrite !call_none by (apply sign_starts; [exact kf|reflexivity]). f_equal. f_equal. apply IH; auto.
  - cbn [renamed]. rewrite !text_cons. cbn [tok_text app sub_with]. rewrite call_none by (apply sign_starts; [exact kf|apply E]). f_equal. apply IH; [apply E|]. left. cbn. apply E.
Qed.
End CallName.
Lemma constant_flat m pe pm ts : flat_map (one m (dotted_name pe pm)) ts = renamed [Constant m pe pm] ts.
Proof.
  induction ts as [|[a|gs l fr x y| |c] r IH]; [reflexivity| | | |]; try (cbn [flat_map one renamed app]; rewrite IH; reflexivity).
  rewrite renamed_name by reflexivity. unfold one_name. cbn [constant_of function_of]. cbn [flat_map one]. rewrite IH. destruct (seqb m a); [reflexivity|]. destruct (called r); reflexivity.
Qed.

(** ** All of them *)

Definition rule_of (r : entry) : vrule :=
  match r with
  | Enumerator e m pe pm => ClassValue e m (pe ++ $"." ++ pm)
  | Constant m pe pm => Value m (pe ++ $"." ++ pm)
  | Function f g => Call f g
  end.
Lemma dotted_text pe pm : text (dotted_name pe pm) = pe ++ $"." ++ pm.
Proof. unfold text, dotted_name. cbn [map concat tok_text]. rewrite app_nil_r. reflexivity. Qed.
Lemma clear_less all r ts : In r all -> clear all ts -> clear [r] ts.
Proof.
  intros I. assert (A : forall e, In e (enums [r]) -> In e (enums all)) by (intros e H; apply in_flat_map; cbn [enums flat_map] in H; rewrite app_nil_r in H; exists r; auto).
  assert (B : forall e, In e (members [r]) -> In e (members all)) by (intros e H; apply in_flat_map; cbn [members flat_map] in H; rewrite app_nil_r in H; exists r; auto).
  induction ts as [|[a|gs l fr x y| |c] t IH]; auto. intros (C1 & C2 & C3). split; [intros e H; apply C1; auto|]. split; [|auto]. destruct t as [|[?|? ? ? ? ?| |?] [|[?|? ? ? ? ?| |?] t]]; auto.
Qed.
Lemma rule_text all r ts : entries_ok all -> In r all -> expression ts -> clear all ts -> apply_rule (rule_of r) (text ts) = text (renamed [r] ts).
Proof.
  intros O I E C. pose proof (entry_in all O r I) as K. destruct r as [e m pe pm|m pe pm|f g]; cbn [rule_of apply_rule].
  - destruct K as (A & B & _). rewrite <- dotted_text. apply class_text; auto. apply (clear_less all); auto.
  - destruct K as (A & _). rewrite <- dotted_text, words_one, constant_flat; auto; [apply key_name; exact A|apply key_foreign; exact A].
  - destruct K as (A & _). apply call_text; auto.
Qed.
Lemma once_text all rs ts : entries_ok all -> incl rs all -> expression ts -> clear all ts -> fold_left (fun s r => apply_rule r s) (map rule_of rs) (text ts) = text (renamed rs ts).
Proof.
  intros O. revert ts. induction rs as [|r rs IH]; intros ts I E C.
  - cbn. f_equal. clear E C. remember (length ts) as n eqn:N. revert ts N. induction n as [n IH] using lt_wf_ind. intros ts N. destruct ts as [|[a|gs l fr x y| |c] t]; [reflexivity| | | |]; cbn [length] in N; try (cbn [renamed]; f_equal; apply (IH (length t)); auto; lia).
    rewrite renamed_name by reflexivity. unfold one_name. cbn [constant_of function_of]. rewrite <- (IH (length t)) by (auto; lia). destruct (called t); reflexivity.
  - assert (R : In r all) by (apply I; left; reflexivity). assert (I1 : incl [r] all) by (intros x [<-|[]]; exact R). assert (I2 : incl rs all) by (intros x X; apply I; right; exact X).
    cbn [map fold_left]. rewrite (rule_text all r ts O R E C). rewrite IH; [|exact I2|apply (expression_renamed all O); auto|apply (clear_renamed all O); auto]. f_equal. apply (renamed_twice all O [r] rs ts I1 I2).
Qed.
Lemma rules_text all rs ts : entries_ok all -> incl rs all -> expression ts -> clear all ts -> apply_rules (map rule_of rs) (text ts) = text (renamed rs ts).
Proof.
  intros O I E C. unfold apply_rules. cbn [passes]. rewrite (once_text all rs ts O I E C). destruct (seqb (text ts) (text (renamed rs ts))); [reflexivity|].
  rewrite (once_text all rs (renamed rs ts) O I); [|apply (expression_renamed all O); auto|apply (clear_renamed all O); auto]. rewrite (renamed_again all O) by exact I. rewrite seqb_refl. reflexivity.
Qed.
