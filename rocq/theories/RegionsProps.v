(** Properties C01, C02, C03: rewriting generated regions of a file. *)
From Verif Require Import PyStr PyStrLemmas RegionsModel RegionsSpec RegionsProofs.

(** C01. A file with one region keeps every line outside the region, and its two marker lines;
    the lines in between become the lines of the code, each indented like the opening marker line
    when indentation is preserved. *)
Theorem C01_region_rewrite_keeps_user_lines :
  forall tok preserve code pre op gen cl post input,
  Forall (plain tok) pre -> opens tok op -> ~ closes tok op -> Forall (plain tok) gen ->
  closes tok cl -> ~ opens tok cl -> Forall (plain tok) post ->
  lines input = one_region_lines pre op gen cl post ->
  exists output gen',
    r_error (write_generated_code_between_markers (Some input) tok code preserve) = None /\
    r_file (write_generated_code_between_markers (Some input) tok code preserve) = Some output /\
    lines output = one_region_lines pre op gen' cl post /\
    (if preserve
     then exists ind, is_indentation ind op /\ Forall2 (indented ind) (lines code) gen'
     else gen' = lines code).
Proof. exact one_region_kept. Qed.
Print Assumptions C01_region_rewrite_keeps_user_lines.

(** C01, any number of regions: lines before, between and after the regions and all marker lines
    are kept. *)
Theorem C01_regions_rewrite_keeps_user_lines :
  forall tok preserve code rs post input,
  rs <> [] -> Forall (well_formed_region tok) rs -> Forall (plain tok) post ->
  lines input = file_lines rs post ->
  exists output rs',
    r_error (write_generated_code_between_markers (Some input) tok code preserve) = None /\
    r_file (write_generated_code_between_markers (Some input) tok code preserve) = Some output /\
    lines output = file_lines rs' post /\
    Forall2 (fun r r' => before r' = before r /\ opening r' = opening r /\ closing r' = closing r)
            rs rs'.
Proof. exact user_text_kept. Qed.
Print Assumptions C01_regions_rewrite_keeps_user_lines.

(** C02. A second run finds the file up to date and does not write it. *)
Theorem C02_second_rewrite_does_nothing :
  forall tok preserve code pre op gen cl post input output,
  Forall (plain tok) pre -> opens tok op -> ~ closes tok op -> Forall (plain tok) gen ->
  closes tok cl -> ~ opens tok cl -> Forall (plain tok) post ->
  Forall (plain tok) (lines code) ->
  lines input = one_region_lines pre op gen cl post ->
  r_file (write_generated_code_between_markers (Some input) tok code preserve) = Some output ->
  write_generated_code_between_markers (Some output) tok code preserve
  = {| r_error := None; r_file := Some output; r_written := false |}.
Proof. exact one_region_idempotent. Qed.
Print Assumptions C02_second_rewrite_does_nothing.

(** C03, error half: a call that fails leaves the file as it was, and it does fail when there is
    no opening marker or when a region is opened twice. Missing from the full statement: see the
    refutations below. *)
Theorem C03_failure_leaves_file_partial :
  forall file tok code preserve e,
  r_error (write_generated_code_between_markers file tok code preserve) = Some e ->
  r_file (write_generated_code_between_markers file tok code preserve) = file /\
  r_written (write_generated_code_between_markers file tok code preserve) = false.
Proof. exact error_keeps_file. Qed.
Print Assumptions C03_failure_leaves_file_partial.

Theorem C03_missing_marker_is_an_error_partial :
  forall tok code preserve input,
  Forall (fun l => ~ opens tok l) (lines input) ->
  write_generated_code_between_markers (Some input) tok code preserve
  = {| r_error := Some MissingMarker; r_file := Some input; r_written := false |}.
Proof. exact missing_marker_error. Qed.
Print Assumptions C03_missing_marker_is_an_error_partial.

Theorem C03_reopened_region_is_an_error_partial :
  forall tok code preserve pre op mid op2 rest input,
  Forall (plain tok) pre -> opens tok op -> ~ closes tok op ->
  Forall (plain tok) mid -> opens tok op2 ->
  lines input = pre ++ op :: mid ++ op2 :: rest ->
  write_generated_code_between_markers (Some input) tok code preserve
  = {| r_error := Some MoreThanOneMarker; r_file := Some input; r_written := false |}.
Proof. exact reopened_marker_error. Qed.
Print Assumptions C03_reopened_region_is_an_error_partial.

(** *** Concrete cases *)

Definition ex_tok := $"litgen_pydef".
Definition ex_op := $"    // <litgen_pydef> // Autogenerated".
Definition ex_cl := $"    // </litgen_pydef> // end".
Definition ex_file := unlines [$"void py_init()"; $"{"; ex_op; $"    old();"; []; ex_cl; $"}"; []].
Definition ex_code := unlines [$"m.def();  "; []; $"  m.x();"].

Example C01_hypotheses_hold :
  Forall (plain ex_tok) [$"void py_init()"; $"{"] /\ opens ex_tok ex_op /\ ~ closes ex_tok ex_op /\
  Forall (plain ex_tok) [$"    old();"; []] /\ closes ex_tok ex_cl /\ ~ opens ex_tok ex_cl /\
  Forall (plain ex_tok) [$"}"; []] /\ Forall (plain ex_tok) (lines ex_code) /\
  lines ex_file = one_region_lines [$"void py_init()"; $"{"] ex_op [$"    old();"; []] ex_cl
                                   [$"}"; []].
Proof.
  unfold plain. repeat split;
    repeat (constructor; [split; [apply not_opens_b | apply not_closes_b]; vm_compute; reflexivity|]);
    try constructor; try apply opens_b; try apply not_opens_b; try apply closes_b;
    try apply not_closes_b; vm_compute; reflexivity.
Qed.

Example C01_concrete_run :
  write_generated_code_between_markers (Some ex_file) ex_tok ex_code true
  = {| r_error := None;
       r_file := Some (unlines [$"void py_init()"; $"{"; ex_op; $"    m.def();"; [];
                                $"      m.x();"; ex_cl; $"}"; []]);
       r_written := true |}.
Proof. vm_compute. reflexivity. Qed.

Example C03_missing_marker_case :
  Forall (fun l => ~ opens ex_tok l) (lines (unlines [$"a"; ex_cl; $"b"])).
Proof. repeat constructor; apply not_opens_b; vm_compute; reflexivity. Qed.

(** *** Refutations of the second half of C03 *)

(** The closing marker is missing: no error, and the user's line after it is lost. *)
Theorem C03_unclosed_region_loses_lines_refuted :
  exists input output user_line,
    opens ex_tok (nth 1 (lines input) []) /\
    In user_line (lines input) /\ plain ex_tok user_line /\
    write_generated_code_between_markers (Some input) ex_tok ex_code true
    = {| r_error := None; r_file := Some output; r_written := true |} /\
    ~ In user_line (lines output).
Proof.
  exists (unlines [$"a"; ex_op; $"old"; $"// </litgen_pyde>"; $"user code"]),
         (unlines [$"a"; ex_op; $"    m.def();"; []; $"      m.x();"]), ($"user code").
  split; [apply opens_b; vm_compute; reflexivity|].
  split; [vm_compute; tauto|].
  split; [split; [apply not_opens_b|apply not_closes_b]; vm_compute; reflexivity|].
  split; [vm_compute; reflexivity|].
  vm_compute. intuition discriminate.
Qed.
Print Assumptions C03_unclosed_region_loses_lines_refuted.

(** A closing marker line that closes nothing is duplicated at every run. *)
Theorem C03_orphan_closing_line_is_duplicated_refuted :
  exists input output,
    count_occ (list_eq_dec ascii_dec) (lines input) ex_cl = 2 /\
    r_error (write_generated_code_between_markers (Some input) ex_tok ex_code true) = None /\
    r_file (write_generated_code_between_markers (Some input) ex_tok ex_code true) = Some output /\
    count_occ (list_eq_dec ascii_dec) (lines output) ex_cl = 3.
Proof.
  exists (unlines [ex_op; ex_cl; $"user code"; ex_cl]). eexists.
  split; [vm_compute; reflexivity|].
  split; [vm_compute; reflexivity|].
  split; [vm_compute; reflexivity|]. vm_compute; reflexivity.
Qed.
Print Assumptions C03_orphan_closing_line_is_duplicated_refuted.

(** With two regions, the code inserted in the second one carries the indentation of both. *)
Theorem C01_second_region_indented_twice_refuted :
  exists input output,
    r_file (write_generated_code_between_markers (Some input) ex_tok ($"x") true) = Some output /\
    nth 3 (lines input) [] = ex_op /\
    lines output = [ex_op; $"    x"; ex_cl; ex_op; $"        x"; ex_cl].
Proof.
  exists (unlines [ex_op; $"y"; ex_cl; ex_op; ex_cl]). eexists.
  split; [vm_compute; reflexivity|]. split; vm_compute; reflexivity.
Qed.
Print Assumptions C01_second_region_indented_twice_refuted.
