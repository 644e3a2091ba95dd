From Verif Require Import PyStr PyStrLemmas PyNum RegionsModel TextModel TextSpec CommentModel CommentSpec TypeTextModel LambdaModel
  AdapterModel NamedModel OverloadModel EnumSpec EnumProofs EnumProofs2 EnumProps MemberModel MemberSpec MemberProofs MemberProofs2.
(** C67: the member variables of a class in the stub and in the binding. *)

(** The members which are published are exactly the publishable ones, in the order of the class. *)
Theorem C67_published o ms ks : Forall (fun d => array_well_formed (m_decl (d_member d))) ms ->
  members_kept o ms ks <-> ks = members_published o ms.
Proof.
  intros W. split; [intros K; apply (kept_is o ms ks W); exact K|]. intros ->. exists (fun d => member_published o (d_member d)). split; [|reflexivity].
  intros d I. rewrite Forall_forall in W. exact (published_spec o (d_member d) (W d I)).
Qed.
Print Assumptions C67_published.

(** A member which is not an array of numbers: the stub and the binding show the same attribute, and tell alike whether it can be
    assigned and whether it is static. *)
Theorem C67_fields_partial o d : array_well_formed (m_decl (d_member d)) -> (forall n, ~ numeric_array o (d_member d) n) ->
  member_showable o d -> member_writable o d ->
  exists a, describes o (d_member d) a /\ stub_shows o (member_stub_lines o d) a /\ binding_shows o d (member_pydef_lines o d) a.
Proof. exact (field_shown o d). Qed.
Print Assumptions C67_fields_partial.

(** An array of numbers is shown as a view of its elements. *)
Theorem C67_arrays_partial o d n : array_well_formed (m_decl (d_member d)) -> numeric_array o (d_member d) n -> member_showable o d -> member_writable o d ->
  (exists a, describes o (d_member d) a /\ stub_shows o (member_stub_lines o d) a) /\ array_shows o d n (member_pydef_lines o d).
Proof. exact (array_shown o d n). Qed.
Print Assumptions C67_arrays_partial.

(** All the published members of a class: read back, the stub and the binding have the same attributes in the same order. *)
Theorem C67_names_partial o ms ks : Forall (fun d => array_well_formed (m_decl (d_member d))) ms -> members_kept o ms ks ->
  Forall (member_showable o) ks -> Forall (member_writable o) ks ->
  flat_map declared_on (flat_map (member_stub_lines o) (members_published o ms)) = map (fun d => mo_name o (p_name (m_decl (d_member d)))) ks /\
  flat_map defined_on (flat_map (member_pydef_lines o) (members_published o ms)) = map (fun d => mo_name o (p_name (m_decl (d_member d)))) ks.
Proof.
  intros W K S P. destruct (same_attributes o ms ks W K S P) as (<- & A & B). split; [exact A|exact B].
Qed.
Print Assumptions C67_names_partial.

(** *** Cases *)

Definition decimal_size (s : str) : option nat := if smem (strip s) [$"3"] then Some 3 else None.
Definition member_opts (nanobind : bool) : member_options :=
  MemberOptions nanobind $"Paint::Box" (fun _ => false) (startswith $"hidden") (fun _ => false) (fun _ => false) (fun _ => false) (startswith $"ro_")
    [$"int"; $"float"] (fun _ => true) decimal_size (fun s => s) (fun s => if endswith $"int" s then $"int" else s) (fun s => s) true true (fun s => s) false [] $"    // box.h:7".
Definition int_ (specs mods : list str) : ctype := CType [$"int"] specs mods.
Definition d_width := Documented (Member Public (Param (int_ [] []) $"width" [] $"3") []) [] $" in pixels" $"int width = 3;".
Definition d_limit := Documented (Member Public (Param (int_ [$"static"; $"const"] []) $"limit" [] []) []) $" as in the ""manual""" [] $"static const int limit;".
Definition d_values := Documented (Member Public (Param (int_ [] []) $"values" $"[3]" []) []) [] [] $"int values[3];".
Definition d_depth := Documented (Member Public (Param (int_ [] []) $"ro_depth" [] []) []) [] [] $"int ro_depth;".
Definition box : list documented :=
  [d_width; Documented (Member Private (Param (int_ [] []) $"secret" [] []) []) [] [] $"int secret;"; d_limit; d_values;
   Documented (Member Public (Param (int_ [] []) $"bits" [] []) $"4") [] [] $"int bits : 4;";
   Documented (Member Public (Param (int_ [] []) $"unknown" $"[N]" []) []) [] [] $"int unknown[N];"; d_depth].
Definition box_kept : list documented := [d_width; d_limit; d_values; d_depth].
Lemma box_well_formed : Forall (fun d => array_well_formed (m_decl (d_member d))) box.
Proof.
  assert (N : forall p, p_array p = [] -> array_well_formed p) by (intros p H; left; exact H).
  assert (A : forall p s, p_array p = "["%char :: s ++ $"]" -> array_well_formed p).
  { intros p s H. right. exists s, [], "]"%char. split; [exact H|intros []]. }
  unfold box. repeat (apply Forall_cons; [first [apply N; reflexivity | eapply (A _ $"3"); reflexivity | eapply (A _ $"N"); reflexivity]|]). constructor.
Qed.
Lemma box_is_kept nanobind : members_kept (member_opts nanobind) box box_kept.
Proof. apply C67_published; [exact box_well_formed|]. destruct nanobind; vm_compute; reflexivity. Qed.
Lemma no_sharp_by_check s : forallb (fun c => negb (ceqb c "#")) s = true -> ~ In "#"%char s.
Proof. intros H I. rewrite forallb_forall in H. specialize (H _ I). discriminate H. Qed.
Lemma no_nl_by_check s : forallb (fun c => negb (ceqb c nl)) s = true -> ~ In nl s.
Proof. intros H I. rewrite forallb_forall in H. specialize (H _ I). discriminate H. Qed.
Lemma no_mark_by_check s : forallb (fun m => negb (endswith m s)) [$" # (const)"; $" # (read-only)"; $" # (C++ static member)"] = true -> no_mark s.
Proof. intros H m I. rewrite forallb_forall in H. specialize (H m I). apply negb_true_iff in H. exact H. Qed.
Lemma int_no_sharp s : ~ In "#"%char s -> ~ In "#"%char (if endswith $"int" s then $"int" else s).
Proof. intros H. destruct (endswith _ s); auto. apply no_sharp_by_check. reflexivity. Qed.
Lemma box_showable nanobind : Forall (member_showable (member_opts nanobind)) box_kept.
Proof.
  unfold box_kept.
  repeat (apply Forall_cons; [split; [apply word_by_check; reflexivity|]; split; [apply int_no_sharp|]; split; [apply no_sharp_by_check; destruct nanobind; vm_compute; reflexivity|];
    split; [apply no_sharp_by_check; vm_compute; reflexivity|]; split; [apply no_mark_by_check; vm_compute; reflexivity|]; split; [auto|];
    apply no_nl_by_check; vm_compute; reflexivity|]). constructor.
Qed.
Lemma box_writable nanobind : Forall (member_writable (member_opts nanobind)) box_kept.
Proof.
  unfold box_kept.
  repeat (apply Forall_cons; [split; [apply word_by_check; reflexivity|]; split; [apply word_by_check; reflexivity|];
    split; [apply code_by_check; destruct nanobind; vm_compute; reflexivity|]; split; [apply code_by_check; vm_compute; reflexivity|];
    split; [apply (closed_by_check 40); destruct nanobind; vm_compute; [lia|lia|reflexivity|reflexivity]|];
    right; exists 4, $" box.h:7"; split; [destruct nanobind; vm_compute; reflexivity|apply no_nl_by_check; vm_compute; reflexivity]|]). constructor.
Qed.
Example C67_names_case nanobind :
  flat_map declared_on (flat_map (member_stub_lines (member_opts nanobind)) (members_published (member_opts nanobind) box)) = [$"width"; $"limit"; $"values"; $"ro_depth"] /\
  flat_map defined_on (flat_map (member_pydef_lines (member_opts nanobind)) (members_published (member_opts nanobind) box)) = [$"width"; $"limit"; $"values"; $"ro_depth"].
Proof. exact (C67_names_partial _ box box_kept box_well_formed (box_is_kept _) (box_showable _) (box_writable _)). Qed.
Example C67_stub_text : flat_map (member_stub_lines (member_opts false)) (members_published (member_opts false) box) =
  [$"width: int = 3  # in pixels"; $"# as in the ""manual"""; $"limit: int # (C++ static member) # (const)"; $"values: np.ndarray  # ndarray[type=int, size=3]";
   $"ro_depth: int # (read-only)"].
Proof. vm_compute. reflexivity. Qed.
Example C67_binding_text : flat_map (member_pydef_lines (member_opts true)) (members_published (member_opts true) box) =
  [$".def_rw(""width"", &Paint::Box::width, ""in pixels"")    // box.h:7";
   $".def_ro_static(""limit"", &Paint::Box::limit, ""as in the \""manual\"""")    // box.h:7";
   $".def_prop_ro(""values"",    // box.h:7"; $"    [](Paint::Box &self) -> nb::ndarray<int, nb::numpy, nb::shape<3>, nb::c_contig>"; $"    {";
   $"        return self.values;"; $"    },"; $"    """")"; $".def_ro(""ro_depth"", &Paint::Box::ro_depth, """")    // box.h:7"].
Proof. vm_compute. reflexivity. Qed.
Lemma values_numeric nanobind : numeric_array (member_opts nanobind) (d_member d_values) 3.
Proof.
  exists $"3". split; [exists [], "]"%char; split; [reflexivity|intros []]|]. split; [destruct nanobind; vm_compute; reflexivity|].
  split; [left; reflexivity|reflexivity].
Qed.
Lemma in_box nanobind d : In d box_kept -> array_well_formed (m_decl (d_member d)) /\ member_showable (member_opts nanobind) d /\ member_writable (member_opts nanobind) d.
Proof.
  intros I. split; [|split; [apply (proj1 (Forall_forall _ _) (box_showable nanobind)); auto|apply (proj1 (Forall_forall _ _) (box_writable nanobind)); auto]].
  apply (proj1 (Forall_forall _ _) box_well_formed). destruct I as [<-|[<-|[<-|[<-|[]]]]]; cbn; tauto.
Qed.
Example C67_arrays_case nanobind : array_shows (member_opts nanobind) d_values 3 (member_pydef_lines (member_opts nanobind) d_values).
Proof.
  destruct (in_box nanobind d_values) as (A & S & W); [cbn; tauto|]. exact (proj2 (C67_arrays_partial _ _ 3 A (values_numeric _) S W)).
Qed.
Example C67_fields_case nanobind : exists a, a_name a = $"limit" /\ a_writable a = false /\ a_static a = true /\
  stub_shows (member_opts nanobind) (member_stub_lines (member_opts nanobind) d_limit) a /\
  binding_shows (member_opts nanobind) d_limit (member_pydef_lines (member_opts nanobind) d_limit) a.
Proof.
  destruct (in_box nanobind d_limit) as (A & S & W); [cbn; tauto|].
  destruct (C67_fields_partial (member_opts nanobind) d_limit A) as (a & (N & R & T) & St & B); auto.
  { intros n (s & (u & c & E & _) & _). destruct u; discriminate E. }
  exists a. split; [rewrite N; reflexivity|]. split; [|split; [apply T; left; reflexivity|split; auto]].
  destruct (a_writable a); auto. destruct (proj1 R eq_refl) as (H & _). exfalso. apply H. right. left. reflexivity.
Qed.

(** *** What does not hold *)

(** The view of an array is not marked read-only in the stub; with nanobind it is a read-only property, and with pybind11 its setter
    takes no value. *)
Theorem C67_array_assign_refuted : exists o d, numeric_array o (d_member d) 3 /\ member_showable o d /\ member_writable o d /\
  (exists a, describes o (d_member d) a /\ a_writable a = true /\ stub_shows o (member_stub_lines o d) a) /\
  hd [] (map cpp_line (member_pydef_lines o d)) = pieces [Text $".def_prop_ro("; Quoted $"values"; Text $","].
Proof.
  exists (member_opts true), d_values. destruct (in_box true d_values) as (A & S & W); [cbn; tauto|]. split; [apply values_numeric|]. split; [exact S|]. split; [exact W|].
  destruct (C67_arrays_partial _ _ 3 A (values_numeric true) S W) as [(a & D & St) Ar]. split; [|rewrite Ar; reflexivity].
  exists a. split; [exact D|]. split; [|exact St]. destruct D as (_ & R & _). apply R. repeat split; try (intros []); reflexivity.
Qed.
Print Assumptions C67_array_assign_refuted.
Theorem C67_array_setter_refuted : exists o d, numeric_array o (d_member d) 3 /\ member_showable o d /\ member_writable o d /\
  (exists a, describes o (d_member d) a /\ a_writable a = true /\ stub_shows o (member_stub_lines o d) a) /\
  In (pieces [Text $"}, [](Paint::Box& self) {},"]) (map cpp_line (member_pydef_lines o d)).
Proof.
  exists (member_opts false), d_values. destruct (in_box false d_values) as (A & S & W); [cbn; tauto|]. split; [apply values_numeric|]. split; [exact S|]. split; [exact W|].
  destruct (C67_arrays_partial _ _ 3 A (values_numeric false) S W) as [(a & D & St) Ar]. split; [|rewrite Ar; do 6 right; left; reflexivity].
  exists a. split; [exact D|]. split; [|exact St]. destruct D as (_ & R & _). apply R. repeat split; try (intros []); reflexivity.
Qed.
Print Assumptions C67_array_setter_refuted.
(** A member which is a reference is published as a field, although C++ has no pointer to such a member. *)
Definition d_reference := Documented (Member Public (Param (int_ [] [$"&"]) $"target" [] []) []) [] [] $"int& target;".
Theorem C67_reference_refuted : exists o d, publishable o (d_member d) /\ In $"&" (modifiers (p_type (m_decl (d_member d)))) /\
  member_pydef_lines o d = [$".def_readwrite(""target"", &Paint::Box::target, """")    // box.h:7"].
Proof.
  exists (member_opts false), d_reference. split; [|split; [left; reflexivity|vm_compute; reflexivity]].
  repeat (split; [reflexivity|]). left. split; reflexivity.
Qed.
Print Assumptions C67_reference_refuted.
(** An array without size is published as a field. *)
Definition d_unsized := Documented (Member Public (Param (int_ [] []) $"rest" $"[]" []) []) [] [] $"int rest[];".
Theorem C67_unsized_array_refuted : exists o d, publishable o (d_member d) /\ p_array (m_decl (d_member d)) = $"[]" /\
  member_pydef_lines o d = [$".def_readwrite(""rest"", &Paint::Box::rest, """")    // box.h:7"] /\ member_stub_lines o d = [$"rest: int"].
Proof.
  exists (member_opts false), d_unsized. split; [|split; [reflexivity|split; vm_compute; reflexivity]].
  repeat (split; [reflexivity|]). right. exists []. split; [exists [], "]"%char; split; [reflexivity|intros []]|]. left. split; [constructor|split; reflexivity].
Qed.
Print Assumptions C67_unsized_array_refuted.
(** A member which can be pointed elsewhere is read-only when what it points to is constant. *)
Definition d_pointer := Documented (Member Public (Param (CType [$"char"] [$"const"] [$"*"]) $"label" [] []) []) [] [] $"const char * label;".
Theorem C67_pointer_to_const_refuted : exists o d, publishable o (d_member d) /\ modifiers (p_type (m_decl (d_member d))) = [$"*"] /\
  member_pydef_lines o d = [$".def_readonly(""label"", &Paint::Box::label, """")    // box.h:7"].
Proof.
  exists (member_opts false), d_pointer. split; [|split; [reflexivity|vm_compute; reflexivity]].
  repeat (split; [reflexivity|]). left. split; reflexivity.
Qed.
Print Assumptions C67_pointer_to_const_refuted.
