From Verif Require Import PyStr PyStrLemmas PyDict TextModel TextSpec CommentModel CommentSpec FillSpec NamedModel EnumModel
  EnumSpec ClassModel ClassSpec ClassProofs.
(** Statements, and what they do. *)

(** ** Chains of calls *)

Definition depth_of (w : reading) : nat := match w with Args _ d _ => S d | _ => 0 end.
Definition begun (w : reading) : list lexeme -> Prop := match w with Next => fun _ => True | _ => fun cur => cur <> [] end.

Lemma sign_true c t : is_sign c t = true -> t = Sign c.
Proof. destruct t as [| d | |]; cbn; try discriminate. intros E. destruct (ceqb_spec c d); congruence. Qed.

(** Calls which are read leave the statement open. *)
Lemma items_calls ts : forall w cs cur rest, match w with InType _ => False | _ => True end -> applications w ts = Some cs -> cur <> [] ->
  items (depth_of w) cur (ts ++ rest) = items 0 (cur ++ ts) rest.
Proof.
  induction ts as [|t ts IH]; intros w cs cur rest NW A NE.
  - destruct w; try discriminate. cbn [depth_of app]. rewrite app_nil_r. reflexivity.
  - assert (C : cur ++ t :: ts = (cur ++ [t]) ++ ts) by (rewrite <- app_assoc; reflexivity).
    assert (NE' : cur ++ [t] <> []) by (destruct cur; discriminate).
    destruct cur as [|c0 cur0] eqn:Ecur; [congruence|]. rewrite <- Ecur in *. cbn [app items]. rewrite C.
    assert (D0 : forall d, is_sign ";" t = false -> match d with 0 => opens t = false | S _ => True end ->
       items 0 cur (t :: ts ++ rest) = items (if opens t then 1 else 0) (cur ++ [t]) (ts ++ rest)).
    { intros d H _. cbn [items]. rewrite Ecur at 1. rewrite H. reflexivity. }
    cbn [applications] in A. destruct w as [acc| | |m|who d acc]; [tauto| | | |].
    + destruct t as [| d | |]; try discriminate; cbn [is_sign] in *. destruct (ceqb_spec "."%char d) as [<-|]; [|discriminate]. cbn [depth_of].
      rewrite Ecur. cbn [is_sign opens]. cbn [ceqb Ascii.eqb Bool.eqb andb orb]. rewrite <- Ecur. exact (IH Dot cs (cur ++ [Sign "."]) rest I A NE').
    + destruct t as [m| | |]; try discriminate. cbn [depth_of]. rewrite Ecur. cbn [is_sign opens orb]. rewrite <- Ecur. exact (IH (Name m) cs (cur ++ [Word m]) rest I A NE').
    + destruct t as [| d | |]; try discriminate; cbn [is_sign] in *. destruct (ceqb_spec "("%char d) as [<-|]; [|discriminate]. cbn [depth_of].
      rewrite Ecur. cbn [is_sign opens]. cbn [ceqb Ascii.eqb Bool.eqb andb orb]. rewrite <- Ecur. exact (IH (Args [Word m] 0 []) cs (cur ++ [Sign "("]) rest I A NE').
    + assert (NB : t <> Broken) by (intros ->; discriminate). destruct t as [m|e|s|]; [| | |congruence].
      * cbn [depth_of is_sign opens closes orb]. destruct d as [|d]; cbn [is_sign opens closes orb] in A; exact (IH (Args who _ (acc ++ [Word m])) cs _ rest I A NE').
      * cbn [depth_of]. destruct d as [|d].
        -- destruct (is_sign ")" (Sign e)) eqn:P.
           ++ apply sign_true in P. injection P as ->. cbn. destruct (applications Next ts) as [cs'|] eqn:A'; [|discriminate]. exact (IH Next cs' (cur ++ [Sign ")"]) rest I A' NE').
           ++ destruct (closes (Sign e)); [discriminate|]. destruct (opens (Sign e)); exact (IH (Args who _ (acc ++ [Sign e])) cs _ rest I A NE').
        -- destruct (opens (Sign e)); [exact (IH (Args who (S (S d)) (acc ++ [Sign e])) cs _ rest I A NE')|].
           destruct (closes (Sign e)); exact (IH (Args who _ (acc ++ [Sign e])) cs _ rest I A NE').
      * cbn [depth_of is_sign opens closes orb]. destruct d as [|d]; cbn [is_sign opens closes orb] in A; exact (IH (Args who _ (acc ++ [Str s])) cs _ rest I A NE').
Qed.

(** Chains one after the other. *)
Lemma applications_app ts : forall w cs us, applications w ts = Some cs -> applications w (ts ++ us) = option_map (app cs) (applications Next us).
Proof.
  induction ts as [|t ts IH]; intros w cs us A.
  - destruct w; try discriminate. injection A as <-. cbn [app]. destruct (applications Next us); reflexivity.
  - cbn [app applications] in *. destruct t as [m|e|s|]; [| | |discriminate].
    + destruct w as [acc| | |m'|who d acc]; try discriminate; try (apply IH; exact A). destruct d; apply IH; exact A.
    + destruct w as [acc| | |m'|who d acc]; try discriminate.
      * apply IH; exact A.
      * destruct (is_sign "." (Sign e)); [apply IH; exact A|discriminate].
      * destruct (is_sign "(" (Sign e)); [apply IH; exact A|discriminate].
      * destruct d as [|d]; [|apply IH; exact A]. destruct (is_sign ")" (Sign e)).
        -- destruct (applications Next ts) as [cs'|] eqn:A'; [|discriminate]. cbn in A. injection A as <-. rewrite (IH Next cs' us A'). destruct (applications Next us); reflexivity.
        -- destruct (closes (Sign e)); [discriminate|apply IH; exact A].
    + destruct w as [acc| | |m'|who d acc]; try discriminate; try (apply IH; exact A). destruct d; apply IH; exact A.
Qed.
Lemma applications_next a b ca cb : applications Next a = Some ca -> applications Next b = Some cb -> applications Next (a ++ b) = Some (ca ++ cb).
Proof. intros A B. rewrite (applications_app a Next ca b A), B. reflexivity. Qed.
Lemma applications_all {A} (f : A -> list lexeme) (g : A -> list call) l : (forall x, In x l -> applications Next (f x) = Some (g x)) ->
  applications Next (flat_map f l) = Some (flat_map g l).
Proof.
  induction l as [|x l IH]; intros H; [reflexivity|]. cbn [flat_map]. apply applications_next; [apply H; left; auto|]. apply IH. intros y I. apply H. right. auto.
Qed.

(** Words, literals and signs which are not brackets. *)
Definition dull (t : lexeme) : bool := match t with Broken => false | _ => negb (opens t) && negb (closes t) && negb (is_sign ";" t) end.
Lemma type_step ts : forallb dull ts = true -> forall acc us, applications (InType acc) (ts ++ us) = applications (InType (acc ++ ts)) us.
Proof.
  induction ts as [|t ts IH]; intros H acc us; [rewrite app_nil_r; reflexivity|]. cbn [forallb] in H. apply andb_true_iff in H as [Ht H]. cbn [app applications].
  assert (E : is_sign "(" t = false).
  { destruct t as [m|e|s|]; auto; try discriminate. cbn [dull] in Ht. unfold opens in Ht. destruct (is_sign "(" (Sign e)); auto; try discriminate. }
  destruct t as [m|e|s|]; [| | |discriminate]; rewrite E, (IH H), <- app_assoc; reflexivity.
Qed.
Lemma items_dull ts : forallb dull ts = true -> forall cur rest, cur <> [] -> items 0 cur (ts ++ rest) = items 0 (cur ++ ts) rest.
Proof.
  induction ts as [|t ts IH]; intros H cur rest NE; [rewrite app_nil_r; reflexivity|]. cbn [forallb] in H. apply andb_true_iff in H as [Ht H].
  assert (E : opens t = false /\ is_sign ";" t = false).
  { destruct t as [m|e|s|]; auto; try discriminate. cbn [dull] in Ht. apply andb_true_iff in Ht as [Ht A]. apply andb_true_iff in Ht as [Ht _]. apply negb_true_iff in Ht. apply negb_true_iff in A. auto. }
  destruct E as [E1 E2]. replace (cur ++ t :: ts) with ((cur ++ [t]) ++ ts) by (rewrite <- app_assoc; reflexivity). rewrite <- (IH H (cur ++ [t]) rest) by (destruct cur; discriminate).
  cbn [app items]. destruct cur as [|c0 cur]; [congruence|]. rewrite E1, E2. reflexivity.
Qed.

(** Brackets which are closed, inside of arguments. *)
Fixpoint level (d : nat) (ts : list lexeme) : option nat :=
  match ts with
  | [] => Some d
  | Broken :: _ => None
  | t :: r => if opens t then level (S d) r else if closes t then match d with 0 => None | S d' => level d' r end else level d r
  end.
Lemma args_step ts : forall d d' who acc us, level d ts = Some d' -> applications (Args who d acc) (ts ++ us) = applications (Args who d' (acc ++ ts)) us.
Proof.
  induction ts as [|t ts IH]; intros d d' who acc us L; [injection L as <-; rewrite app_nil_r; reflexivity|].
  assert (E : acc ++ t :: ts = (acc ++ [t]) ++ ts) by (rewrite <- app_assoc; reflexivity). rewrite E. cbn [app applications]. cbn [level] in L.
  assert (O : opens t = true -> is_sign ")" t = false /\ closes t = false).
  { intros H. destruct t as [m|e|s|]; try discriminate. unfold opens, closes, is_sign in *. destruct (ceqb_spec "("%char e) as [<-|]; [split; reflexivity|]. destruct (ceqb_spec "{"%char e) as [<-|]; [split; reflexivity|].
    destruct (ceqb_spec "["%char e) as [<-|]; [split; reflexivity|discriminate]. }
  assert (Cl : closes t = false -> is_sign ")" t = false) by (unfold closes; destruct (is_sign ")" t); auto; discriminate).
  destruct t as [m|e|s|]; [| | |discriminate].
  - cbn [opens closes is_sign orb] in *. destruct d; apply IH; exact L.
  - destruct (opens (Sign e)) eqn:Eo.
    + destruct (O eq_refl) as [O1 O2]. destruct d; [rewrite O1, O2|]; apply IH; exact L.
    + destruct (closes (Sign e)) eqn:Ec.
      * destruct d; [discriminate|]. apply IH; exact L.
      * rewrite (Cl eq_refl). destruct d; apply IH; exact L.
  - cbn [opens closes is_sign orb] in *. destruct d; apply IH; exact L.
Qed.
Lemma call_read m args : level 0 args = Some 0 -> applications Next (Sign "." :: Word m :: Sign "(" :: args ++ [Sign ")"]) = Some [([Word m], args)].
Proof.
  intros L. cbn [applications is_sign ceqb]. change (applications (Args [Word m] 0 []) (args ++ [Sign ")"]) = Some [([Word m], args)]).
  rewrite (args_step args 0 0 [Word m] [] [Sign ")"] L). reflexivity.
Qed.
Lemma level_app a b : forall d d', level d a = Some d' -> level d (a ++ b) = level d' b.
Proof.
  induction a as [|t a IH]; intros d d' L; [injection L as <-; reflexivity|]. cbn [app level] in *. destruct t as [m|e|s|]; try discriminate; try (apply IH; exact L).
  destruct (opens (Sign e)); [apply IH; exact L|]. destruct (closes (Sign e)); [|apply IH; exact L]. destruct d; [discriminate|apply IH; exact L].
Qed.
Lemma level_dull ts : forallb dull ts = true -> forall d, level d ts = Some d.
Proof.
  induction ts as [|t ts IH]; intros H d; [reflexivity|]. cbn [forallb] in H. apply andb_true_iff in H as [Ht H]. cbn [level].
  destruct t as [m|e|s|]; try discriminate; try (apply IH; auto). cbn [dull] in Ht. apply andb_true_iff in Ht as [Ht A]. apply andb_true_iff in Ht as [B C]. apply negb_true_iff in B. apply negb_true_iff in C.
  rewrite B, C. apply IH. auto.
Qed.

(** ** Running *)

Lemma run_app a : forall b fs, run fs (a ++ b) = match run fs a with None => None | Some (es, fs') => match run fs' b with None => None | Some (es', fs'') => Some (es ++ es', fs'') end end.
Proof.
  induction a as [|x a IH]; intros b fs; cbn [app run]; [destruct (run fs b) as [(es, fs')|]; reflexivity|]. destruct x as [ts| | |ts].
  - destruct (execute fs ts) as [(es, fs')|]; [|reflexivity]. rewrite IH. destruct (run fs' a) as [(es1, fs1)|]; [|reflexivity]. destruct (run fs1 b) as [(es2, fs2)|]; [|reflexivity].
    rewrite <- app_assoc. reflexivity.
  - apply IH.
  - destruct fs as [|f [|f2 fr]]; try reflexivity. apply IH.
  - reflexivity.
Qed.
(** Code made of whole statements and blocks. *)
Definition whole (ks : list lexeme) (its : list item) : Prop := forall rest, items 0 [] (ks ++ rest) = its ++ items 0 [] rest.
Lemma whole_nil : whole [] [].
Proof. intros rest. reflexivity. Qed.
Lemma whole_app a b ia ib : whole a ia -> whole b ib -> whole (a ++ b) (ia ++ ib).
Proof. intros A B rest. rewrite <- app_assoc, A, B, app_assoc. reflexivity. Qed.
Lemma whole_read t its : whole (read_text t) its -> items 0 [] (read_text t) = its.
Proof. intros W. specialize (W []). rewrite app_nil_r in W. rewrite W. apply app_nil_r. Qed.
Lemma whole_block ks its : whole ks its -> whole (Sign "{" :: ks ++ [Sign "}"]) (Opening :: its ++ [Closing]).
Proof. intros W rest. cbn [app items is_sign ceqb]. change (Opening :: items 0 [] ((ks ++ [Sign "}"]) ++ rest) = Opening :: (its ++ [Closing]) ++ items 0 [] rest).
  f_equal. rewrite <- app_assoc, W, <- app_assoc. reflexivity. Qed.
(** A statement which makes an object. *)
Lemma declaration_whole v type p n args calls cs : forallb dull type = true -> level 0 args = Some 0 -> applications Next calls = Some cs ->
  let st := Word $"auto" :: Word v :: Sign "=" :: type ++ [Sign "("; Word p; Sign ","; Str n] ++ args ++ [Sign ")"] ++ calls in
  whole (st ++ [Sign ";"]) [Statement st] /\
  forall f fr path, find p (f :: fr) = Some path -> dict_get v f = None ->
    execute (f :: fr) st = Some (Made (path ++ [n]) type args :: map (Called (path ++ [n])) cs, ((v, path ++ [n]) :: f) :: fr).
Proof.
  intros D L A. cbv zeta.
  assert (T : applications (InType []) (type ++ [Sign "("; Word p; Sign ","; Str n] ++ args ++ [Sign ")"] ++ calls) = Some ((type, Word p :: Sign "," :: Str n :: args) :: cs)).
  { rewrite (type_step type D). change ([] ++ type) with type. cbn [app applications is_sign].
    change (applications (Args type 0 [Word p; Sign ","; Str n]) (args ++ Sign ")" :: calls) = Some ((type, Word p :: Sign "," :: Str n :: args) :: cs)).
    rewrite (args_step args 0 0 type _ (Sign ")" :: calls) L). cbn [applications is_sign ceqb]. change (option_map (cons (type, [Word p; Sign ","; Str n] ++ args)) (applications Next calls) = Some ((type, Word p :: Sign "," :: Str n :: args) :: cs)).
    rewrite A. reflexivity. }
  split.
  - intros rest. cbn [app items is_sign opens orb]. rewrite <- !app_assoc.
    change (items 0 [Word $"auto"; Word v; Sign "="] (type ++ (([Sign "("; Word p; Sign ","; Str n] ++ args ++ [Sign ")"] ++ calls) ++ [Sign ";"] ++ rest)) =
      Statement (Word $"auto" :: Word v :: Sign "=" :: type ++ [Sign "("; Word p; Sign ","; Str n] ++ args ++ [Sign ")"] ++ calls) :: items 0 [] rest).
    rewrite (items_dull type D) by discriminate.
    assert (X : exists c, applications (Name $"x") ([Sign "("; Word p; Sign ","; Str n] ++ args ++ [Sign ")"] ++ calls) = Some c).
    { exists (([Word $"x"], [Word p; Sign ","; Str n] ++ args) :: cs).
      change (applications (Args [Word $"x"] 0 [Word p; Sign ","; Str n]) (args ++ Sign ")" :: calls) = Some (([Word $"x"], [Word p; Sign ","; Str n] ++ args) :: cs)).
      rewrite (args_step args 0 0 _ _ (Sign ")" :: calls) L).
      change (option_map (cons ([Word $"x"], [Word p; Sign ","; Str n] ++ args)) (applications Next calls) = Some (([Word $"x"], [Word p; Sign ","; Str n] ++ args) :: cs)).
      rewrite A. reflexivity. }
    destruct X as (c & X). change (items 0) with (items (depth_of (Name $"x"))) at 1. rewrite (items_calls _ (Name $"x") c _ _ I X) by (cbn; discriminate). cbn [app items is_sign ceqb].
    reflexivity.
  - intros f fr path Fp Fv. unfold execute. rewrite T. change (seqb $"auto" $"auto" && ceqb "=" "=" && ceqb "," ",") with true. cbv iota. rewrite Fp, Fv. reflexivity.
Qed.
(** A statement which calls the methods of an object. *)
Lemma use_whole v calls cs : applications Next calls = Some cs ->
  whole ((Word v :: calls) ++ [Sign ";"]) [Statement (Word v :: calls)] /\
  forall fs path, find v fs = Some path -> execute fs (Word v :: calls) = Some (map (Called path) cs, fs).
Proof.
  intros A. split.
  - intros rest. cbn [app items is_sign opens orb]. rewrite <- app_assoc. change (items 0) with (items (depth_of Next)) at 1. rewrite (items_calls calls Next cs [Word v] _ I A) by discriminate. reflexivity.
  - intros fs path F. unfold execute. destruct calls as [|t r]; [rewrite F, A; reflexivity|]. destruct t as [m|e|s|]; try discriminate; rewrite F, A; reflexivity.
Qed.
