From Verif Require Import PyStr PyDict TypeTextModel InstanceModel.
(** What an instance of a template must be: each name of a template parameter, as a whole word of a type, is replaced by its argument, all at once. *)

(** A text is cut in words (as long as can be) and single other characters. *)
Fixpoint pieces (s : str) : list str :=
  match s with
  | [] => []
  | c :: r => match pieces r with
              | (d :: w) :: ps => if is_word c && is_word d then (c :: d :: w) :: ps else [c] :: (d :: w) :: ps
              | ps => [c] :: ps
              end
  end.
Definition argument (ps : list part) (w : str) : str := match find (fun p => seqb (fst p) w) ps with Some p => snd p | None => w end.
Definition substituted (ps : list part) (s : str) : str := concat (map (argument ps) (pieces s)).
Definition mentions (ps : list part) (s : str) : bool := existsb (fun w => smem w (map fst ps)) (pieces s).

(** ** Types, declarations, functions and classes *)

Definition in_type (ps : list part) (t : ctype) : ctype := CType (map (substituted ps) (typenames t)) (specifiers t) (modifiers t).
Definition type_uses (ps : list part) (t : ctype) : bool := existsb (mentions ps) (typenames t).
Definition in_decl (ps : list part) (d : tdecl) : tdecl := TDecl (in_type ps (d_type d)) (d_name d) (d_initial d).
Definition decl_uses (ps : list part) (d : tdecl) : bool := type_uses ps (d_type d).
Definition result_uses (ps : list part) (r : option ctype) : bool := match r with Some t => type_uses ps t | None => false end.
(** The element where the parameters are replaced at any depth, and whether it uses them. *)
Fixpoint in_elem (ps : list part) (e : elem) : elem :=
  match e with
  | Fn f => Fn (TFunc (tf_name f) (tf_host f) (option_map (in_type ps) (tf_result f)) (map (in_decl ps) (tf_params f)))
  | Vars ds => Vars (map (in_decl ps) ds)
  | Class name h bases blocks => Class name h bases (map (map (in_elem ps)) blocks)
  | Other t => Other t
  end.
Fixpoint elem_uses (ps : list part) (e : elem) : bool :=
  match e with
  | Fn f => result_uses ps (tf_result f) || existsb (decl_uses ps) (tf_params f)
  | Vars ds => existsb (decl_uses ps) ds
  | Class name h bases blocks => existsb (existsb (elem_uses ps)) blocks
  | Other t => false
  end.
(** The arguments which were given are remembered. *)
Definition given (texts : list str) (e : elem) : elem :=
  let more h := Host (h_template h) (h_given h ++ texts) in
  match e with
  | Fn f => Fn (TFunc (tf_name f) (more (tf_host f)) (tf_result f) (tf_params f))
  | Class name h bases blocks => Class name (more h) bases blocks
  | e => e
  end.

(** ** When *)

Definition name_of (s : str) : Prop := s <> [] /\ Forall (fun c => is_word c = true) s.
(** The argument of a parameter does not mention the parameters which come after. *)
Fixpoint independent (ps : list part) : Prop :=
  match ps with
  | [] => True
  | p :: r => mentions r (snd p) = false /\ independent r
  end.
Definition templatable (e : elem) : Prop := match e with Fn _ | Class _ _ _ _ => True | _ => False end.
(** The last of the options which fit. *)
Definition last_option (specs : list tspec) (name : str) : option tspec := find (fun s => ts_match s name) (rev specs).
