(** Numbers in C++ texts: enumerators, macros, array sizes. *)
From Verif Require Import PyStr PyNum PyDict.

(** *** Enumerators *)

(** Children of the block of an enum: a [CppDecl] with its name and [initial_value_code], or anything
    else (comment, empty line). *)
Inductive enum_child := EDecl (name value : str) | EOther (text : str).

(** [SrcmlcppOptions.named_number_macros]. *)
Definition macros := list (str * Z).

(** src/srcmlcpp/cpp_types/cpp_enum.py 80-122 [CppEnum.get_children_with_filled_decl_values], from a
    given [last_decl] (its value). The warning is not modelled. *)
Fixpoint fill_values (named : macros) (last : option str) (children : list enum_child) : list enum_child :=
  match children with
  | [] => []
  | EOther t :: children' => EOther t :: fill_values named last children'
  | EDecl n v :: children' =>
      let v' :=
        match v with
        | _ :: _ => match dict_get v named with Some z => py_str z | None => v end
        | [] =>
            match last with
            | None => $"0"
            | Some l => match py_int Base10 l with Some z => py_str (z + 1) | None => v end
            end
        end in
      EDecl n v' :: fill_values named (Some v') children'
  end.
Definition get_children_with_filled_decl_values (named : macros) (children : list enum_child) : list enum_child :=
  fill_values named None children.

(** *** Integer macros *)

Definition is_suffix_char (c : ascii) : bool := ceqb c "u" || ceqb c "U" || ceqb c "l" || ceqb c "L".
Definition is_octal (c : ascii) : bool := between 48 55 c.

(** [re.fullmatch(r"0[0-7]+", core)]. *)
Definition octal_text (core : str) : bool :=
  match core with
  | z :: (_ :: _) as s => ceqb z "0" && forallb is_octal (tl core)
  | _ => false
  end.

(** src/srcmlcpp/cpp_types/blocks/cpp_unit.py 13-24 [_parse_c_int_literal]. *)
Definition parse_c_int_literal (text : str) : option Z :=
  let core := rev (dropwhile is_suffix_char (rev (strip text))) in
  match core with
  | [] => None
  | _ => if octal_text core then py_int Base8 core else py_int Base0 core
  end.

(** The loop that removes the parentheses around a token. Each turn removes two characters: [fuel] is
    the length of the token. *)
Fixpoint peel (fuel : nat) (token : str) : str :=
  match fuel with
  | 0 => token
  | S fuel' =>
      if (2 <=? length token) && startswith $"(" token && endswith $")" token
      then peel fuel' (strip (removelast (tl token)))
      else token
  end.

(** src/srcmlcpp/cpp_types/blocks/cpp_unit.py 97-113 [CppUnit._resolve_int_token]. The outer None means that
    the recursion did not end within [fuel] calls. *)
Fixpoint resolve_int_token (fuel : nat) (named : macros) (raw_values : list (str * str)) (seen : list str)
    (token : str) : option (option Z) :=
  match fuel with
  | 0 => None
  | S fuel' =>
      let token := strip token in
      let token := peel (length token) token in
      match parse_c_int_literal token with
      | Some z => Some (Some z)
      | None =>
          match dict_get token named with
          | Some z => Some (Some z)
          | None =>
              match dict_get token raw_values with
              | Some v =>
                  if smem token seen then Some None
                  else resolve_int_token fuel' named raw_values (token :: seen) v
              | None => Some None
              end
          end
      end
  end.

(** A [CppDefine]: name, whether it has parameters, value if any. *)
Record define := { d_name : str; d_has_parameters : bool; d_value : option str }.

(** src/srcmlcpp/cpp_types/blocks/cpp_unit.py 78-95 [CppUnit._fill_int_defines_cache]: [raw_values], then the
    cache. The recursion gets the fuel that NumberProofs shows to be enough. *)
Definition raw_values_of (defines : list define) : list (str * str) :=
  fold_left (fun d def => if d_has_parameters def then d
                          else match d_value def with Some v => dict_set (d_name def) v d | None => d end)
            defines [].
Definition fill_int_defines_cache (named : macros) (defines : list define) : list (str * Z) :=
  let raw := raw_values_of defines in
  fold_left (fun cache name =>
    match resolve_int_token (S (length raw)) named raw [] name with
    | Some (Some z) => dict_set name z cache
    | _ => cache
    end) (map fst raw) [].
(** src/srcmlcpp/cpp_types/blocks/cpp_unit.py 69-76 [CppUnit.int_value_from_define_name]. *)
Definition int_value_from_define_name (named : macros) (defines : list define) (name : str) : option Z :=
  dict_get name (fill_int_defines_cache named defines).

(** *** Array sizes *)

(** src/srcmlcpp/srcmlcpp_options.py 118-129 [_int_from_str_or_named_number_macros]. *)
Definition int_from_str_or_named_number_macros (named : macros) (int_str : str) : option Z :=
  match py_int Base10 int_str with
  | Some v => Some v
  | None => dict_get int_str named
  end.
(** src/srcmlcpp/cpp_types/decls_types/cpp_decl.py 180-196 [CppDecl.c_array_size_as_int], from the text of
    the size, for a declaration inside a unit. *)
Definition c_array_size_as_int (named : macros) (defines : list define) (size : str) : option Z :=
  match int_from_str_or_named_number_macros named size with
  | Some v => Some v
  | None => if blank size then None else int_value_from_define_name named defines size
  end.

(** *** Published macros *)

(** Digits with single underscores between them, as [float] reads them; the rest of the text. [gap]: a
    digit must come next. None if there is no digit or a misplaced underscore. *)
Fixpoint float_digits (gap : bool) (s : str) : option str :=
  match s with
  | [] => if gap then None else Some []
  | c :: s' =>
      if is_digit c then float_digits false s'
      else if ceqb c "_" then (if gap then None else float_digits true s')
      else if gap then None else Some s
  end.
Definition float_sign (s : str) : str :=
  match s with c :: s' => if ceqb c "-" || ceqb c "+" then s' else s | [] => s end.
Definition float_exponent_ok (s : str) : bool :=
  match s with
  | [] => true
  | e :: s' => (ceqb e "e" || ceqb e "E") && match float_digits true (float_sign s') with Some [] => true | _ => false end
  end.
(** Whether [float(s)] succeeds, for a text that has a dot. *)
Definition py_float_ok (s : str) : bool :=
  let s := float_sign (strip s) in
  match s with
  | c :: s' =>
      if ceqb c "." then
        match float_digits true s' with Some r => float_exponent_ok r | None => false end
      else
        match float_digits true s with
        | Some (d :: r) =>
            ceqb d "." &&
            match r with
            | c' :: _ => if is_digit c' then match float_digits true r with Some r' => float_exponent_ok r' | None => false end
                         else float_exponent_ok r
            | [] => true
            end
        | _ => false
        end
  | [] => false
  end.

Inductive define_value_type := DInt | DFloat | DString | DHex | DOctal | DOther.
Definition is_some {A} (o : option A) : bool := match o with Some _ => true | None => false end.

(** src/litgen/internal/adapted_types/adapted_define.py 24-57 [_compute_define_value_type]. *)
Definition compute_define_value_type (v : str) : define_value_type :=
  if startswith [dq] v && endswith [dq] v then DString
  else match length (filter (ceqb ".") v) with
  | S (S _) => DOther
  | 1 => if py_float_ok v then DFloat else DOther
  | 0 =>
      if startswith $"0x" v || startswith $"0X" v then (if is_some (py_int Base16 v) then DHex else DOther)
      else if startswith $"0" v && (1 <? length v) then (if is_some (py_int Base8 v) then DOctal else DOther)
      else (if is_some (py_int Base10 v) then DInt else DOther)
  end.
(** src/litgen/internal/adapted_types/adapted_define.py 65-75 [AdaptedDefine.is_publishable]. *)
Definition define_is_publishable (d : define) : bool :=
  if d_has_parameters d then false
  else match d_value d with
  | None => false
  | Some v => match compute_define_value_type v with DOther => false | _ => true end
  end.
(** src/litgen/internal/adapted_types/adapted_define.py 81-88 [AdaptedDefine.published_python_value]. *)
Definition published_python_value (v : str) : str :=
  match compute_define_value_type v with DOctal => $"0o" ++ tl v | _ => v end.
