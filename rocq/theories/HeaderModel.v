(** Amalgamation of headers and filtering of preprocessor regions. *)
From Verif Require Import PyStr.

(** *** Amalgamation (src/codemanip/amalgamated_header.py) *)

(** src/codemanip/amalgamated_header.py 8-34 [AmalgamationOptions]. *)
Record options := Options {
  base_dir : str;
  local_includes_startwith : str;
  include_subdirs : list str;
  main_header_file : str;
  only_quoted_includes_are_local : bool
}.

(** The text that is built, as the list of its pieces: a decoration, or line number [i] of the file [path].
    The Python code concatenates their texts. *)
Inductive piece := Decor (s : str) | Code (path : str) (i : nat) (line : str).
Definition piece_text (p : piece) : str := match p with Decor s => s | Code _ _ l => l end.
Definition text (ps : list piece) : str := concat (map piece_text ps).

Section Files.
(** [readlines] of a file, with the ends of lines; [None] when there is no such file. *)
Variable files : str -> option (list str).
Definition isfile (p : str) : bool := match files p with Some _ => true | None => false end.

(** [os.path.isabs] and [os.path.join] of POSIX. *)
Definition isabs (p : str) : bool := startswith $"/" p.
Definition path_join (a b : str) : str :=
  if isabs b then b else match a with [] => b | _ => if endswith $"/" a then a ++ b else a ++ $"/" ++ b end.

Variable o : options.

(** src/codemanip/amalgamated_header.py 99-112 [_is_local_include_line]. *)
Definition is_local_include_line (l : str) : bool :=
  startswith ($"#include " ++ dq :: local_includes_startwith o) (strip l) ||
  negb (only_quoted_includes_are_local o) && startswith ($"#include <" ++ local_includes_startwith o) (strip l).
(** src/codemanip/amalgamated_header.py 115-122 [_is_external_include_line]. *)
Definition is_external_include_line (l : str) : bool :=
  startswith $"#include " (strip l) && negb (is_local_include_line (strip l)).
(** src/codemanip/amalgamated_header.py 125-136 [_extract_local_include_file]. *)
Definition extract_local_include_file (l : str) : str :=
  replace $">" [] (replace [dq] [] (replace $"#include <" [] (replace ($"#include " ++ [dq]) [] (strip l)))).
(** src/codemanip/amalgamated_header.py 139-145 [_extract_external_include_file]. *)
Definition extract_external_include_file (l : str) : str :=
  takewhile (fun c => negb (ceqb c "#")) (replace $"#include " [] (strip l)).

(** src/codemanip/amalgamated_header.py 148-156 [_decorate_code_info]. *)
Definition separator_line : str := repeat "/"%char 114.
Definition ljust (s : str) (n : nat) : str := s ++ spaces (n - length s).
Definition decorate_code_info (info : str) : str :=
  nl :: separator_line ++ nl :: ljust ($"//                       " ++ info) (length separator_line - 2) ++ $"//" ++
  nl :: separator_line ++ [nl].

(** src/codemanip/amalgamated_header.py 173-193: the file that is read, [None]: FileNotFoundError. *)
Definition search_dirs : list str :=
  base_dir o :: map (fun d => if isabs d then d else path_join (base_dir o) d) (include_subdirs o).
Definition resolve (included : str) : option str :=
  let full :=
    if isabs included then included
    else match find (fun d => isfile (path_join d included)) search_dirs with
         | Some d => path_join d included
         | None => included
         end in
  if isfile full then Some full else None.

(** src/codemanip/amalgamated_header.py 200; replacing an empty text by nothing changes nothing. *)
Definition relative_name (included : str) : str :=
  let s := replace (base_dir o ++ $"/") [] included in
  match base_dir o with [] => s | b => replace b [] s end.

(** The text with the two lists of files already included. *)
Inductive outcome :=
| Done (ps : list piece) (local external : list str)
| FileNotFoundError
| OutOfFuel.

(** The loop of src/codemanip/amalgamated_header.py 210-239; [rec] includes one file, [i] is the number of
    the next line. *)
Fixpoint amalgamate_lines (rec : str -> str -> list str -> list str -> outcome) (path rel : str)
    (i : nat) (ls : list str) (interrupted : bool) (local external : list str) : outcome :=
  match ls with
  | [] => Done [] local external
  | l :: ls' =>
      let continued := interrupted && negb (blank l) && negb (is_local_include_line l) in
      let decoration := if continued then [Decor (decorate_code_info (rel ++ $" continued") ++ [nl])] else [] in
      let interrupted := if continued then false else interrupted in
      let go ps interrupted local external :=
        match amalgamate_lines rec path rel (S i) ls' interrupted local external with
        | Done ps' local external => Done (decoration ++ ps ++ ps') local external
        | e => e
        end in
      if is_external_include_line l then
        let external_file := extract_external_include_file l in
        if smem external_file external then go [] interrupted local external
        else go [Code path i l] interrupted local (external ++ [external_file])
      else if is_local_include_line l then
        match rec (extract_local_include_file l) rel local external with
        | Done ps local external =>
            go ps (match text ps with [] => interrupted | _ => true end) local external
        | e => e
        end
      else if contains $"#pragma once" l then go [] interrupted local external
      else go [Code path i l] interrupted local external
  end.

(** src/codemanip/amalgamated_header.py 159-241 [_amalgamate_one_file]. Python's limit on the depth of
    recursion is not modelled. *)
Fixpoint amalgamate_one_file (fuel : nat) (included including : str) (local external : list str) : outcome :=
  match fuel with
  | 0 => OutOfFuel
  | S fuel' =>
      match resolve included with
      | None => FileNotFoundError
      | Some path =>
          if smem path local then Done [] local external
          else
            let rel := relative_name included in
            let header :=
              match including with
              | [] => decorate_code_info rel
              | _ => decorate_code_info (rel ++ $" included by " ++ including)
              end in
            match files path with
            | None => FileNotFoundError
            | Some ls =>
                match amalgamate_lines (amalgamate_one_file fuel') path rel 0 ls false (local ++ [path]) external with
                | Done ps local external =>
                    let ps := Decor header :: ps in
                    if forallb blank (lines (text ps)) then Done [] local external else Done ps local external
                | e => e
                end
            end
      end
  end.

(** src/codemanip/amalgamated_header.py 40-50 [amalgamation_content]; [None]: ValueError. The removal of
    trailing spaces is [trim_trailing_spaces]. *)
Definition amalgamation (fuel : nat) : option outcome :=
  match local_includes_startwith o with
  | [] => if only_quoted_includes_are_local o then Some (amalgamate_one_file fuel (main_header_file o) [] [] [])
          else None
  | _ => Some (amalgamate_one_file fuel (main_header_file o) [] [] [])
  end.
(** src/codemanip/amalgamated_header.py 256-260 [_trim_trailing_spaces]. *)
Definition trim_trailing_spaces (s : str) : str := unlines (map rstrip (lines s)).
(** src/codemanip/amalgamated_header.py 38-52. *)
Definition amalgamation_content (fuel : nat) : option str :=
  match amalgamation fuel with
  | Some (Done ps _ _) =>
      Some (trim_trailing_spaces
        ($"// THIS FILE WAS GENERATED AUTOMATICALLY. DO NOT EDIT." ++ nl :: text ps))
  | _ => None
  end.
End Files.

(** *** Preprocessor regions (src/srcmlcpp/internal/filter_preprocessor_regions.py) *)

(** The kind of an xml element: [#if], [#ifdef] and [#ifndef] with the name of their macro, [#else] and
    [#elif], [#endif], comments, everything else. *)
Inductive kind := KIf (macro : str) | KElse | KEndif | KComment | KOther.
Record node := Node { n_kind : kind; n_start : option nat; n_end : option nat; n_code : str }.

(** An xml element of the condition of [#if]: tag, text, children. *)
Inductive xml := Xml (tag : str) (xtext : option str) (children : list xml).
(** src/srcmlcpp/internal/filter_preprocessor_regions.py 47-78 [_extract_macro_name_from_if_expr]. *)
Fixpoint visit (x : xml) : str :=
  match x with
  | Xml _ _ children =>
      (fix go l :=
         match l with
         | [] => []
         | (Xml tag t _ as child) :: l' =>
             let here :=
               if seqb tag $"name" then match t with Some s => if seqb s $"defined" then [] else s | None => [] end
               else if seqb tag $"argument" then match t with Some s => strip s | None => [] end
               else [] in
             match here with
             | [] => match visit child with [] => go l' | found => found end
             | _ => here
             end
         end) children
  end.

(** src/srcmlcpp/internal/filter_preprocessor_regions.py 95-106 [_CppConditionRegion]. *)
Record region := Region { region_excluded : bool; in_secondary_branch : bool }.
(** src/srcmlcpp/internal/filter_preprocessor_regions.py 112-132 [_SrcmlPreprocessorState]; the list of open
    regions is reversed: the innermost one comes first. *)
Record state := State {
  was_last_element_an_ignored_endif : bool;
  last_ignored_preprocessor_stmt_line : option nat;
  encountered_if : list region
}.
Definition initial_state : state := State false None [].

Section Filter.
(** [does_match_regex_or_matcher(header_acceptable__regex, name)]. *)
Variable acceptable : str -> bool.

Definition drops (r : region) : bool := region_excluded r || in_secondary_branch r.
(** src/srcmlcpp/internal/filter_preprocessor_regions.py 199-202 [_content_is_excluded]. *)
Definition content_is_excluded (s : state) : bool := existsb drops (encountered_if s).
(** src/srcmlcpp/internal/filter_preprocessor_regions.py 204-214 [_directive_is_excluded]. *)
Definition directive_is_excluded (s : state) : bool :=
  match encountered_if s with
  | [] => false
  | innermost :: outer => if region_excluded innermost then true else existsb drops outer
  end.

(** src/srcmlcpp/internal/filter_preprocessor_regions.py 166-197 [process_tag]. *)
Definition process_tag (s : state) (n : node) : state :=
  match n_end n with
  | None => s
  | Some line =>
      match n_kind n with
      | KIf macro => State false (Some line) (Region (negb (acceptable macro)) false :: encountered_if s)
      | KElse =>
          State false (Some line)
            match encountered_if s with
            | r :: rs => Region (region_excluded r) true :: rs
            | [] => []
            end
      | KEndif => State (directive_is_excluded s) (Some line) (tl (encountered_if s))
      | _ => State false (last_ignored_preprocessor_stmt_line s) (encountered_if s)
      end
  end.
(** src/srcmlcpp/internal/filter_preprocessor_regions.py 216-234 [shall_ignore], for the element that was
    just processed. *)
Definition shall_ignore (s : state) (n : node) : bool :=
  match n_kind n with
  | KComment =>
      match n_start n, last_ignored_preprocessor_stmt_line s with
      | Some a, Some b => if a =? b then true else content_is_excluded s
      | _, _ => content_is_excluded s
      end
  | KEndif => was_last_element_an_ignored_endif s
  | KIf _ | KElse => directive_is_excluded s
  | KOther => content_is_excluded s
  end.
(** src/srcmlcpp/internal/filter_preprocessor_regions.py 237-250 [filter_preprocessor_regions]. *)
Fixpoint filter_from (s : state) (ns : list node) : list node :=
  match ns with
  | [] => []
  | n :: ns' =>
      let s' := process_tag s n in
      if shall_ignore s' n then filter_from s' ns' else n :: filter_from s' ns'
  end.
Definition filter_preprocessor_regions (ns : list node) : list node := filter_from initial_state ns.
End Filter.
