(** Properties C11 and C12. *)
From Verif Require Import PyStr PyStrLemmas HeaderModel HeaderSpec HeaderProofs HeaderProofs2 HeaderProofs3 HeaderProofs4.

(** *** C11: amalgamation *)

(** Whatever the include graph, amalgamation ends. *)
Theorem C11_ends :
  forall files o, finitely_many_contents files ->
  exists fuel0, forall fuel, fuel0 <= fuel -> amalgamation files o fuel <> Some OutOfFuel.
Proof. exact amalgamation_ends. Qed.
Print Assumptions C11_ends.

(** When every local include names a file, it succeeds. *)
Theorem C11_succeeds :
  forall files o, finitely_many_contents files ->
  local_includes_startwith o <> [] \/ only_quoted_includes_are_local o = true ->
  resolve files o (main_header_file o) <> None -> includes_found files o (main_header_file o) ->
  exists fuel0, forall fuel, fuel0 <= fuel -> exists ps loc ext, amalgamation files o fuel = Some (Done ps loc ext).
Proof. exact amalgamation_succeeds. Qed.
Print Assumptions C11_succeeds.

(** The plain lines of each reached header are there once, in their order; nothing of other headers is. *)
Theorem C11_lines_once :
  forall files o fuel ps loc ext, amalgamation files o fuel = Some (Done ps loc ext) ->
  forall q, (reached files o (main_header_file o) q ->
      exists ls, files q = Some ls /\ plain_of o q ps = plain_lines o q 0 ls) /\
    (~ reached files o (main_header_file o) q -> plain_of o q ps = []).
Proof. exact amalgamation_lines. Qed.
Print Assumptions C11_lines_once.

(** Nothing but plain lines and external includes of reached headers is emitted. *)
Theorem C11_nothing_else :
  forall files o fuel ps loc ext, amalgamation files o fuel = Some (Done ps loc ext) ->
  forall q i l, In (Code q i l) ps -> reached files o (main_header_file o) q /\
    (exists ls, files q = Some ls /\ nth_error ls i = Some l) /\ (plain o l = true \/ external o l = true).
Proof. exact amalgamation_codes. Qed.
Print Assumptions C11_nothing_else.

(** The external includes of reached headers are emitted, each once. Two includes are the same when they have
    the same text after [#include]. *)
Theorem C11_externals_once :
  forall files o fuel ps loc ext, amalgamation files o fuel = Some (Done ps loc ext) ->
  NoDup (externals o ps) /\
  forall x, In x (externals o ps) <-> exists q ls l, reached files o (main_header_file o) q /\ files q = Some ls /\
    In l ls /\ external o l = true /\ extract_external_include_file l = x.
Proof. exact amalgamation_externals. Qed.
Print Assumptions C11_externals_once.

(** The lines of the text that is written, but for blank ones, are the banner and those of the pieces: no two
    lines are glued together, whether or not files end with a line feed. *)
Theorem C11_text_lines :
  forall files o fuel s, read_as_lines files -> amalgamation_content files o fuel = Some s ->
  exists ps loc ext, amalgamation files o fuel = Some (Done ps loc ext) /\
  code_lines s = $"// THIS FILE WAS GENERATED AUTOMATICALLY. DO NOT EDIT." ::
    flat_map (fun p => code_lines (piece_text p)) ps.
Proof. exact content_lines. Qed.
Print Assumptions C11_text_lines.

Theorem C11_text_of_each_header :
  forall files o fuel s, read_as_lines files -> amalgamation_content files o fuel = Some s ->
  forall q ls, reached files o (main_header_file o) q -> files q = Some ls ->
  subsequence (map rstrip (filter (fun l => plain o l && negb (blank l)) ls)) (code_lines s).
Proof. exact content_file. Qed.
Print Assumptions C11_text_of_each_header.

(** How include lines are read. *)
Theorem C11_local_include_partial :
  forall o a b name rest, forallb is_space a = true -> forallb is_space b = true ->
  name = local_includes_startwith o ++ rest ->
  ~ In dq name -> ~ In "#"%char name -> ~ In "<"%char name -> ~ In ">"%char name ->
  is_local_include_line o (a ++ $"#include " ++ [dq] ++ name ++ [dq] ++ b) = true /\
  extract_local_include_file (a ++ $"#include " ++ [dq] ++ name ++ [dq] ++ b) = name.
Proof. exact include_line_read. Qed.
Print Assumptions C11_local_include_partial.

Theorem C11_external_include_partial :
  forall o a b name, forallb is_space a = true -> forallb is_space b = true ->
  (forall c, In c name -> c <> "#"%char) -> name <> [] -> is_space (last name "x"%char) = false ->
  is_local_include_line o ($"#include " ++ name) = false ->
  is_external_include_line o (a ++ $"#include " ++ name ++ b) = true /\
  extract_external_include_file (a ++ $"#include " ++ name ++ b) = name.
Proof. exact external_line_read. Qed.
Print Assumptions C11_external_include_partial.

(** The header that is read: in the base directory, else in the first other directory that has it. *)
Theorem C11_found_in_base : forall files o name,
  isabs name = false -> files (path_join (base_dir o) name) <> None ->
  resolve files o name = Some (path_join (base_dir o) name).
Proof. exact resolve_base. Qed.
Print Assumptions C11_found_in_base.
Theorem C11_found_in_subdirectory : forall files o name pre d post,
  isabs name = false -> include_subdirs o = pre ++ d :: post ->
  files (path_join (base_dir o) name) = None ->
  Forall (fun s => files (path_join (header_dir o s) name) = None) pre ->
  files (path_join (header_dir o d) name) <> None ->
  resolve files o name = Some (path_join (header_dir o d) name).
Proof. exact resolve_subdir. Qed.
Print Assumptions C11_found_in_subdirectory.
Theorem C11_found_absolute : forall files o name,
  isabs name = true -> files name <> None -> resolve files o name = Some name.
Proof. exact resolve_absolute. Qed.
Print Assumptions C11_found_absolute.

(** Two headers that include each other and the same external header; the second has no final line feed. *)
Definition quoted (s : str) : str := dq :: s ++ [dq].
Definition C11_files (p : str) : option (list str) :=
  if seqb p $"/src/a.h" then
    Some [$"#pragma once" ++ [nl]; $"#include <vector>" ++ [nl]; $"#include " ++ quoted $"b.h" ++ [nl];
          $"#include " ++ quoted $"b.h" ++ [nl]; $"int a;" ++ [nl]]
  else if seqb p $"/src/sub/b.h" then
    Some [$"#include " ++ quoted $"a.h" ++ [nl]; [nl]; $"#include <vector>" ++ [nl]; $"int b;"]
  else None.
Definition C11_options : options := Options $"/src" [] [$"sub"] $"a.h" true.
Example C11_found_case :
  isabs $"b.h" = false /\ include_subdirs C11_options = [] ++ $"sub" :: [] /\
  C11_files (path_join (base_dir C11_options) $"b.h") = None /\
  C11_files (path_join (header_dir C11_options $"sub") $"b.h") <> None.
Proof. vm_compute. repeat split; auto. discriminate. Qed.
Example C11_case :
  finitely_many_contents C11_files /\ read_as_lines C11_files /\
  resolve C11_files C11_options $"a.h" = Some $"/src/a.h" /\
  resolve C11_files C11_options $"b.h" = Some $"/src/sub/b.h" /\
  includes_found C11_files C11_options $"a.h" /\ reached C11_files C11_options $"a.h" $"/src/sub/b.h" /\
  match amalgamation C11_files C11_options 3 with
  | Some (Done ps loc ext) =>
      filter (fun p => match p with Code _ _ _ => true | _ => false end) ps =
        [Code $"/src/a.h" 1 ($"#include <vector>" ++ [nl]); Code $"/src/sub/b.h" 1 [nl];
         Code $"/src/sub/b.h" 3 $"int b;"; Code $"/src/a.h" 4 ($"int a;" ++ [nl])] /\
      loc = [$"/src/a.h"; $"/src/sub/b.h"] /\ ext = [$"<vector>"]
  | _ => False
  end.
Proof.
  assert (F : forall p ls, C11_files p = Some ls -> p = $"/src/a.h" /\ C11_files $"/src/a.h" = Some ls \/
    p = $"/src/sub/b.h" /\ C11_files $"/src/sub/b.h" = Some ls).
  { intros p ls. unfold C11_files at 1. destruct (seqb_spec p $"/src/a.h") as [->|_]; [left; auto|].
    destruct (seqb_spec p $"/src/sub/b.h") as [->|_]; [right; auto|discriminate]. }
  split; [|split; [|split; [|split; [|split; [|split]]]]].
  - exists (flat_map (fun p => match C11_files p with Some ls => [ls] | None => [] end) [$"/src/a.h"; $"/src/sub/b.h"]).
    intros p ls H. destruct (F p ls H) as [(_ & E)|(_ & E)]; cbn [flat_map]; rewrite E; cbn; auto.
  - apply read_as_lines_ok. intros p ls H. destruct (F p ls H) as [(_ & E)|(_ & E)]; inversion E; reflexivity.
  - reflexivity.
  - reflexivity.
  - intros q ls l _ H Hl Hloc. destruct (F q ls H) as [(_ & E)|(_ & E)]; vm_compute in E; inversion E; subst ls; clear E H;
      cbn [In] in Hl;
      repeat match type of Hl with _ \/ _ => destruct Hl as [<-|Hl]; [vm_compute in Hloc |- *; congruence|] end; destruct Hl.
  - eapply (reached_next C11_files C11_options $"a.h" $"/src/a.h" _ ($"#include " ++ quoted $"b.h" ++ [nl]));
      [apply reached_main; reflexivity|reflexivity|cbn; auto|reflexivity|reflexivity].
  - vm_compute. auto.
Qed.

(** The same external header is emitted twice when a comment follows one of the includes. *)
Theorem C11_external_comment_refuted :
  exists files o ps loc ext, amalgamation files o 2 = Some (Done ps loc ext) /\
  externals o ps = [$"<vector>"; $"<vector> // std::vector"].
Proof.
  exists (fun p => if seqb p $"/a.h" then Some [$"#include <vector>" ++ [nl]; $"#include <vector> // std::vector"] else None),
    (Options [] [] [] $"/a.h" true).
  eexists _, _, _. split; vm_compute; reflexivity.
Qed.
Print Assumptions C11_external_comment_refuted.
(** A header that is named in two ways is expanded twice. *)
Theorem C11_two_names_refuted :
  exists files o ps loc ext, amalgamation files o 3 = Some (Done ps loc ext) /\ files $"/a.h" = files $"/./a.h" /\
  filter (fun p => match p with Code _ _ _ => true | _ => false end) ps =
    [Code $"/a.h" 0 ($"int a;" ++ [nl]); Code $"/./a.h" 0 ($"int a;" ++ [nl])].
Proof.
  exists (fun p => if seqb p $"/main.h" then Some [$"#include " ++ quoted $"a.h" ++ [nl]; $"#include " ++ quoted $"./a.h" ++ [nl]]
                   else if seqb p $"/a.h" || seqb p $"/./a.h" then Some [$"int a;" ++ [nl]] else None),
    (Options $"/" [] [] $"/main.h" true).
  eexists _, _, _. split; vm_compute; auto.
Qed.
Print Assumptions C11_two_names_refuted.
(** A local include with a comment raises FileNotFoundError, although the header exists. *)
Theorem C11_local_comment_refuted :
  exists files o, files $"/a.h" <> None /\ resolve files o $"a.h" = Some $"/a.h" /\
  amalgamation files o 3 = Some FileNotFoundError.
Proof.
  exists (fun p => if seqb p $"/main.h" then Some [$"#include " ++ quoted $"a.h" ++ $" // a" ++ [nl]]
                   else if seqb p $"/a.h" then Some [$"int a;" ++ [nl]] else None),
    (Options $"/" [] [] $"/main.h" true).
  split; [discriminate|]. vm_compute. auto.
Qed.
Print Assumptions C11_local_comment_refuted.

(** *** C12: preprocessor regions *)

(** Every sequence of elements, however the directives nest or fail to, is read as one structure of regions. *)
Theorem C12_every_source :
  forall ns, exists s, source_ok s /\ source_nodes s = ns.
Proof. exact every_source. Qed.
Print Assumptions C12_every_source.

(** What is kept: the elements whose regions are all acceptable and in their first branch, but for comments on
    the line of a directive. *)
Theorem C12_exact :
  forall acceptable s, source_ok s -> placed (source_nodes s) ->
  filter_preprocessor_regions acceptable (source_nodes s) = without_beside None (source_marks acceptable s).
Proof. exact filter_source. Qed.
Print Assumptions C12_exact.

Theorem C12_subsequence :
  forall acceptable ns, subsequence (filter_preprocessor_regions acceptable ns) ns.
Proof. exact (fun acceptable ns => filter_from_sub acceptable ns initial_state). Qed.
Print Assumptions C12_subsequence.

(** Without directives everything is kept. *)
Theorem C12_no_directive :
  forall acceptable ns, Forall is_content ns -> filter_preprocessor_regions acceptable ns = ns.
Proof. exact filter_content. Qed.
Print Assumptions C12_no_directive.

(** The condition of [#if] is known by the first name in it. *)
Theorem C12_condition_name :
  forall tag t l, visit (Xml tag t l) = first_name (flat_map condition_names l).
Proof. exact (fun tag t l => visit_first (Xml tag t l) tag t l eq_refl). Qed.
Print Assumptions C12_condition_name.

Definition C12_line (k : kind) (n : nat) (code : str) : node := Node k (Some n) (Some n) code.
Definition C12_source : source :=
  Source [(Element (C12_line KOther 1 $"int a;") Nil, C12_line KEndif 2 $"#endif")]
    (Cond (C12_line (KIf $"A_H") 3 $"#ifndef A_H")
       (Element (C12_line KComment 3 $"// guard")
       (Element (C12_line KOther 4 $"int b;")
       (Cond (C12_line (KIf $"DEBUG") 5 $"#ifdef DEBUG")
          (Cond (C12_line (KIf $"A_H") 6 $"#ifndef A_H") (Element (C12_line KOther 7 $"int c;") Nil) NoMore
             (C12_line KEndif 8 $"#endif") Nil)
          (Branch (C12_line KElse 9 $"#else") (Element (C12_line KOther 10 $"int d;") Nil) NoMore)
          (C12_line KEndif 11 $"#endif")
       (Element (C12_line KComment 12 $"// e") Nil))))
       (Branch (C12_line KElse 13 $"#else") (Element (C12_line KOther 14 $"int f;") Nil) NoMore)
       (C12_line KEndif 15 $"#endif")
     (Element (C12_line KOther 16 $"int g;") Nil))
    (InFirst (C12_line (KIf $"DEBUG") 17 $"#ifdef DEBUG") (Element (C12_line KOther 18 $"int h;") Nil) Nothing).
Example C12_case :
  source_ok C12_source /\ placed (source_nodes C12_source) /\
  map n_code (filter_preprocessor_regions (fun m => endswith $"_H" m) (source_nodes C12_source)) =
    [$"int a;"; $"#endif"; $"#ifndef A_H"; $"int b;"; $"// e"; $"#else"; $"#endif"; $"int g;"] /\
  visit (Xml $"expr" None [Xml $"call" None [Xml $"name" (Some $"defined") []; Xml $"argument" (Some $" A_H ") []];
                           Xml $"operator" (Some $"&&") []; Xml $"name" (Some $"B") []]) = $"A_H".
Proof.
  split; [|split; [|vm_compute; auto]].
  - repeat match goal with
           | |- True => exact I
           | |- is_if _ => eexists; reflexivity
           | |- is_endif _ => reflexivity
           | |- is_else _ => reflexivity
           | |- is_content _ => (left; reflexivity) || (right; reflexivity)
           | |- is_else _ \/ _ => right
           | |- Forall _ _ => constructor
           | |- _ => split
           end.
  - unfold placed. cbn. repeat (apply Forall_cons; [discriminate|]). apply Forall_nil.
Qed.

(** A comment on the line of an acceptable directive is removed, although no region excludes it. *)
Theorem C12_comment_refuted :
  exists acceptable ns n, (forall m, acceptable m = true) /\ In n ns /\ is_content n /\
  ~ In n (filter_preprocessor_regions acceptable ns).
Proof.
  exists (fun _ => true), (source_nodes C12_source), (C12_line KComment 3 $"// guard").
  split; [auto|]. split; [cbn; tauto|]. split; [left; auto|]. vm_compute. intuition discriminate.
Qed.
Print Assumptions C12_comment_refuted.
