From Verif Require Import PyStr PyStrLemmas PyDict RegionsModel TextModel TextSpec TextProofs CommentModel CommentSpec NamesModel OverloadModel
  NamedModel NamedProofs3 EnumModel EnumSpec EnumProofs EnumProofs2 EnumProofs3 ClassModel ClassSpec ClassProofs ClassProofs2 ClassProofs3 ClassProofs4 ClassProofs5 ClassProofs6.
(** Classes inside classes. *)

(** ** Variables *)

Definition letters (s : str) : Prop := Forall (fun c => is_word c = true) s.
Definition front (roots : list str) (sc : list part) : str := concat (map (fun p => part_name p ++ $"_") (pybind_scope roots sc)).
Lemma join_last (l : list str) x : join $"_" (l ++ [x]) = concat (map (fun p => p ++ $"_") l) ++ x.
Proof.
  induction l as [|a l IH]; [reflexivity|]. change ((a :: l) ++ [x]) with (a :: (l ++ [x])). assert (N : exists b r, l ++ [x] = b :: r) by (destruct l; cbn; eauto). destruct N as (b & r & N).
  rewrite N. change (join $"_" (a :: b :: r)) with (a ++ $"_" ++ join $"_" (b :: r)). rewrite <- N, IH. cbn [map concat]. rewrite <- !app_assoc. reflexivity.
Qed.
Lemma scope_last roots sc n : pybind_scope roots (sc ++ [ClassPart n]) = pybind_scope roots sc ++ [ClassPart n].
Proof. unfold pybind_scope. rewrite filter_app. reflexivity. Qed.
Lemma params_text (ps : list str) : (match ps with [] => [] | _ => $"_" ++ join $"_" (map param_name ps) end : str) = concat (map (fun t => $"_" ++ param_name t) ps).
Proof. destruct ps as [|p ps]; [reflexivity|]. change (map param_name (p :: ps)) with (param_name p :: map param_name ps). rewrite join_front, map_map. cbn [map concat]. rewrite <- app_assoc. reflexivity. Qed.
Lemma class_var_is roots sc n ps : class_var roots (sc ++ [ClassPart n]) ps = $"py" ++ front roots sc ++ $"Class" ++ n ++ concat (map (fun t => $"_" ++ param_name t) ps).
Proof.
  unfold class_var. rewrite scope_last, params_text. destruct (pybind_scope roots sc ++ [ClassPart n]) eqn:E; [destruct (pybind_scope roots sc); discriminate|]. rewrite <- E. clear E.
  rewrite map_app. cbn [map]. rewrite join_last, map_map. unfold front. cbn [part_name]. rewrite <- !app_assoc. reflexivity.
Qed.
Lemma parent_var_is roots sc n : parent_var roots (sc ++ [ClassPart n]) = $"py" ++ front roots sc ++ $"Class" ++ n.
Proof.
  unfold parent_var. rewrite scope_last. destruct (pybind_scope roots sc ++ [ClassPart n]) eqn:E; [destruct (pybind_scope roots sc); discriminate|]. rewrite <- E. clear E.
  rewrite map_app. cbn [map]. rewrite join_last, map_map. unfold front. cbn [part_name]. rewrite <- ?app_assoc. reflexivity.
Qed.
Lemma front_last roots sc n : front roots (sc ++ [ClassPart n]) = front roots sc ++ $"Class" ++ n ++ $"_".
Proof. unfold front. rewrite scope_last, map_app, concat_app. cbn [map concat part_name]. rewrite app_nil_r, <- app_assoc. reflexivity. Qed.

Lemma letters_app a b : letters a -> letters b -> letters (a ++ b).
Proof. intros A B. apply Forall_app. auto. Qed.
Lemma letters_concat {A} (f : A -> str) l : (forall x, In x l -> letters (f x)) -> letters (concat (map f l)).
Proof. induction l as [|x l IH]; intros H; [constructor|]. cbn [map concat]. apply letters_app; [apply H; left; auto|]. apply IH. intros y I. apply H. right. auto. Qed.
Lemma part_letters p : namespace_part p -> letters (part_name p).
Proof. destruct p as [n|n|n]; cbn [namespace_part part_name]; [intros [_ F]|intros [_ F]|tauto]; apply letters_app; auto; repeat constructor. Qed.
Lemma front_letters roots sc : Forall namespace_part sc -> letters (front roots sc).
Proof.
  intros F. apply letters_concat. intros p I. apply filter_In in I as [I _]. rewrite Forall_forall in F. apply letters_app; [apply part_letters; auto|repeat constructor].
Qed.
(** The variables of classes and of modules do not look like those of enums. *)
Lemma front_start roots sc : Forall namespace_part sc -> front roots sc = [] \/ (exists r, front roots sc = "N"%char :: r) \/ (exists r, front roots sc = "C"%char :: r).
Proof.
  intros F. unfold front. assert (G : Forall namespace_part (pybind_scope roots sc)).
  { apply Forall_forall. intros p I. apply filter_In in I as [I _]. rewrite Forall_forall in F. auto. }
  destruct G as [|p l H G]; [auto|]. right. destruct p as [n|n|n]; [left|right|destruct H]; cbn [map concat part_name app lit list_ascii_of_string]; eauto.
Qed.
Lemma parent_var_letters roots sc : Forall namespace_part sc -> word (parent_var roots sc).
Proof.
  intros F. unfold parent_var. assert (G : Forall namespace_part (pybind_scope roots sc)).
  { apply Forall_forall. intros p I. apply filter_In in I as [I _]. rewrite Forall_forall in F. auto. }
  destruct (pybind_scope roots sc) as [|p l] eqn:E; [split; [discriminate|repeat constructor]|]. split; [discriminate|]. apply letters_app; [repeat constructor|].
  assert (J : forall ls, Forall letters ls -> letters (join $"_" ls)).
  { induction 1 as [|x ls Hx Hl IH]; [constructor|]. destruct ls as [|y ls]; [exact Hx|]. change (join $"_" (x :: y :: ls)) with (x ++ $"_" ++ join $"_" (y :: ls)).
    apply letters_app; auto. apply letters_app; auto. repeat constructor. }
  apply J. apply Forall_map. eapply Forall_impl; [|exact G]. apply part_letters.
Qed.

Section Tree.
Variable o : class_env.
Variable values : cpp_enum -> list enumerator.
Hypothesis indent : Forall (eq sp) (cl_indent o).

Definition variable (sc : list part) (c : child) : str :=
  match c with
  | COther _ => []
  | CEnum e _ => $"pyEnum" ++ eo_enum_name (cl_enum o) (en_name e)
  | CClass h _ _ => class_var (cl_roots o) (sc ++ [ClassPart (h_name h)]) (h_params h)
  end.
Definition shown_name (c : child) : str :=
  match c with COther _ => [] | CEnum e _ => eo_enum_name (cl_enum o) (en_name e) | CClass h _ _ => h_python h end.

Lemma class_words sc h : Forall namespace_part sc -> writable o h -> variable_words (cl_roots o) sc h.
Proof.
  intros F W. split; [|apply parent_var_letters; auto]. rewrite class_var_is. split; [discriminate|]. apply letters_app; [repeat constructor|]. apply letters_app; [apply front_letters; auto|].
  apply letters_app; [repeat constructor|]. apply letters_app; [apply (wr_name o h W)|]. apply letters_concat. intros t I. pose proof (wr_params o h W) as P. rewrite Forall_forall in P.
  apply letters_app; [repeat constructor|]. apply (P t I).
Qed.
Lemma own_scope sc h : Forall namespace_part sc -> writable o h -> Forall namespace_part (sc ++ [ClassPart (h_name h)]).
Proof. intros F W. apply Forall_app. split; auto. constructor; [apply (wr_name o h W)|constructor]. Qed.
(** The variables are told from each other, and from that of the parent. *)
Lemma variable_identity sc c d : Forall namespace_part sc -> is_inner c = true -> is_inner d = true -> variable sc c = variable sc d -> identity o c = identity o d.
Proof.
  intros F C D. assert (X : forall a h ps pr, is_inner a = true -> match a with CEnum _ _ => True | _ => False end -> variable sc a = variable sc (CClass h ps pr) -> False).
  { intros a h ps pr _ A E. destruct a as [|e l|]; try tauto. cbn [variable] in E. rewrite class_var_is in E. destruct (front_start (cl_roots o) sc F) as [Z|[(r & Z)|(r & Z)]]; rewrite Z in E; discriminate. }
  destruct c as [ls|e l|h ps pr], d as [ls'|e' l'|h' ps' pr']; try discriminate.
  - cbn [variable identity]. intros E. apply app_inv_head in E. rewrite E. reflexivity.
  - intros E. exfalso. apply (X (CEnum e l) h' ps' pr'); auto.
  - intros E. exfalso. apply (X (CEnum e' l') h ps pr); auto.
  - cbn [variable identity]. rewrite !class_var_is. intros E. apply app_inv_head in E. apply app_inv_head in E. exact E.
Qed.
Lemma variable_parent sc n c : Forall namespace_part sc -> is_inner c = true -> variable (sc ++ [ClassPart n]) c <> parent_var (cl_roots o) (sc ++ [ClassPart n]).
Proof.
  intros F C E. rewrite parent_var_is in E. destruct c as [ls|e l|h ps pr]; [discriminate| |].
  - cbn [variable] in E. destruct (front_start (cl_roots o) sc F) as [Z|[(r & Z)|(r & Z)]]; rewrite Z in E; discriminate.
  - cbn [variable] in E. rewrite class_var_is, front_last, <- !app_assoc in E. do 3 apply app_inv_head in E. apply (f_equal (@length ascii)) in E. rewrite !app_length in E. cbn in E. lia.
Qed.
Lemma module_parent ns c : Forall namespace_part (map NsPart ns) -> is_inner c = true -> variable (map NsPart ns) c <> parent_var (cl_roots o) (map NsPart ns).
Proof.
  intros F C E. unfold parent_var in E. assert (G : forall l, exists k, pybind_scope (cl_roots o) (map NsPart l) = map NsPart k).
  { induction l as [|x l (k & IH)]; [exists []; reflexivity|]. cbn [map pybind_scope filter]. destruct (negb (smem x (cl_roots o))); [exists (x :: k); cbn; f_equal; exact IH|exists k; exact IH]. }
  destruct (G ns) as (k & K). destruct c as [ls|e l|h ps pr]; [discriminate| |].
  - cbn [variable] in E. rewrite K in E. destruct k as [|x k]; [discriminate|]. cbn [map part_name] in E. destruct k; discriminate.
  - cbn [variable] in E. rewrite class_var_is in E. unfold front in E. rewrite K in E. destruct k as [|x k]; [discriminate|]. cbn [map] in E.
    apply app_inv_head in E. change (part_name (NsPart x) :: map part_name (map NsPart k)) with (map part_name (map NsPart (x :: k))) in E.
    destruct (exists_last (l := x :: k)) as (k' & z & Z); [discriminate|]. rewrite Z, !map_app in E. cbn [map] in E. rewrite join_last in E.
    assert (Q : concat (map (fun p => part_name p ++ $"_") (map NsPart (x :: k))) = concat (map (fun p => p ++ $"_") (map part_name (map NsPart k'))) ++ part_name (NsPart z) ++ $"_").
    { rewrite Z, map_app, map_app, concat_app. cbn [map concat]. rewrite app_nil_r, (map_map part_name). reflexivity. }
    change ((part_name (NsPart x) ++ $"_") :: ?r) with (map (fun p => part_name p ++ $"_") (map NsPart (x :: k))) in E. rewrite Q, <- !app_assoc in E. apply app_inv_head in E. apply (f_equal (@length ascii)) in E. rewrite !app_length in E. cbn [length lit list_ascii_of_string] in E. lia.
Qed.

(** ** Several ones at the same place *)

Lemma dict_get_other (v w : str) (p : list str) f : v <> w -> dict_get v ((w, p) :: f) = dict_get v f.
Proof. intros N. cbn. destruct (seqb_spec v w); [congruence|reflexivity]. Qed.
Lemma all_do sc p cs itss : Forall2 (fun c its => does its p (variable sc c) (shown_name c) (fun path => events o values path c)) cs itss ->
  ~ In p (map (variable sc) cs) -> NoDup (map (variable sc) cs) ->
  forall f fr path, find p (f :: fr) = Some path -> (forall c, In c cs -> dict_get (variable sc c) f = None) ->
  exists f', run (f :: fr) (concat itss) = Some (flat_map (events o values path) cs, f' :: fr) /\
    (forall v, ~ In v (map (variable sc) cs) -> dict_get v f' = dict_get v f) /\ (forall c, In c cs -> dict_get (variable sc c) f' = Some (path ++ [shown_name c])).
Proof.
  intros F. induction F as [|c its cs itss D F IH]; intros NP ND f fr path Fp Fn.
  - exists f. split; [reflexivity|]. split; [auto|intros c []].
  - cbn [map] in NP, ND. inversion ND as [|? ? Nc ND']; subst. cbn [concat]. rewrite run_app, (D f fr path Fp (Fn c (or_introl eq_refl))).
    destruct (IH ltac:(intros I; apply NP; right; auto) ND' ((variable sc c, path ++ [shown_name c]) :: f) fr path) as (f' & R & Old & New).
    + unfold find in *. rewrite dict_get_other by (intros E; apply NP; left; auto). exact Fp.
    + intros d I. rewrite dict_get_other; [apply Fn; right; auto|]. intros E. apply Nc. rewrite <- E. apply in_map. auto.
    + rewrite R. exists f'. split; [reflexivity|]. split.
      * intros v Nv. cbn [map In] in Nv. rewrite Old by tauto. apply dict_get_other. intros E. apply Nv. left. auto.
      * intros d [<-|I]; [|apply New; auto]. rewrite Old by auto. cbn. destruct (seqb_spec (variable sc c) (variable sc c)); congruence.
Qed.
Lemma find_app_key v f fr x : find v (f :: fr) = x -> find v ([] :: f :: fr) = x.
Proof. intros H. exact H. Qed.
End Tree.
