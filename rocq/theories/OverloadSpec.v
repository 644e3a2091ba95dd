(** Specifications for C22 to C24. *)
From Coq Require Import Permutation.
From Verif Require Import PyStr OverloadModel.

(** *** C22 *)
Section Group.
Variable A : Type.
Variable key : A -> option str.

Definition has_name (n : str) (e : A) : bool :=
  match key e with Some n' => seqb n' n | None => false end.

(** The elements that are not overloads of an earlier element. *)
Fixpoint leaders (seen : list str) (l : list A) : list A :=
  match l with
  | [] => []
  | e :: l' =>
      match key e with
      | None => e :: leaders seen l'
      | Some n => if smem n seen then leaders seen l' else e :: leaders (n :: seen) l'
      end
  end.

Record grouped (l out : list A) : Prop := {
  (** nothing lost, nothing added *)
  grouped_perm : Permutation l out;
  (** the overloads of one name are adjacent and in their original order *)
  grouped_adjacent : forall n, exists a b,
    out = a ++ filter (has_name n) l ++ b /\
    filter (has_name n) a = [] /\ filter (has_name n) b = [];
  (** the other elements, and the first overload of each name, keep their relative order *)
  grouped_leaders : leaders [] out = leaders [] l
}.
End Group.

(** *** C23 *)
Section Dedup.
Variable A : Type.
Variable overloaded : A -> bool.
Variable signature : A -> str.

(** [dedup_of earlier l out]: [out] is [l] without the overloads whose signature is the one of an
    earlier overload ([earlier] being the elements before [l]). *)
Inductive dedup_of : list A -> list A -> list A -> Prop :=
  | dd_nil earlier : dedup_of earlier [] []
  | dd_keep earlier e l out :
      (overloaded e = true -> forall e', In e' earlier -> overloaded e' = true -> signature e' <> signature e) ->
      dedup_of (earlier ++ [e]) l out -> dedup_of earlier (e :: l) (e :: out)
  | dd_drop earlier e e' l out :
      overloaded e = true -> In e' earlier -> overloaded e' = true -> signature e' = signature e ->
      dedup_of (earlier ++ [e]) l out -> dedup_of earlier (e :: l) out.

Variable py_name : A -> str.
Variable text : A -> list str.

(** The overloads of a Python name that show something in the stub. *)
Definition visible_overloads (emitted : list A) (name : str) : list A :=
  filter (fun e => overloaded e && seqb (py_name e) name && negb (forallb blank (text e))) emitted.

Definition decorator (l : str) : Prop := strip l = $"@overload".

(** [without_decorators ls out]: [out] is [ls] minus its [@overload] lines. *)
Inductive without_decorators : list str -> list str -> Prop :=
  | wd_nil : without_decorators [] []
  | wd_drop l ls out : decorator l -> without_decorators ls out -> without_decorators (l :: ls) out
  | wd_keep l ls out : ~ decorator l -> without_decorators ls out -> without_decorators (l :: ls) (l :: out).
End Dedup.

(** *** C24 *)

(** [gaps] blank lines before each element. *)
Fixpoint with_gaps (gaps : list nat) (els : list (ekind * list str)) : list str :=
  match gaps, els with
  | g :: gaps', (_, ls) :: els' => repeat [] g ++ ls ++ with_gaps gaps' els'
  | _, _ => []
  end.

Record good_gaps (gaps : list nat) (els : list (ekind * list str)) : Prop := {
  gaps_length : length gaps = length els;
  gaps_small : Forall (fun g => g <= 2) gaps;
  (** no gap before an element without lines *)
  gaps_empty : Forall (fun p => snd (snd p) = [] -> fst p = 0) (combine gaps els);
  (** no gap before the first element that has lines *)
  gaps_first : forall a b e, els = a ++ e :: b -> Forall (fun x => snd x = []) a ->
    nth_error gaps (length a) = Some 0
}.

(** Blank lines between an element of kind [k] and the previous one that has lines, of kind [p]. *)
Definition standout (k : ekind) : bool :=
  match k with KEnum | KClass | KNamespace => true | _ => false end.
Definition gap_cpp (p k : ekind) : nat :=
  match k with
  | KFunction | KDecl | KEnum | KClass | KNamespace => if standout p || standout k then 2 else 1
  | _ => 0
  end.
Definition gap_python (p k : ekind) : nat :=
  match k, p with
  | KEnumDecl, KComment | KClassMember, KComment => 1
  | KFunction, _ | KDecl, _ | KEnum, _ | KClass, _ | KNamespace, _ | KComment, _ =>
      if standout p || standout k then 2 else 1
  | _, _ => 0
  end.

(** Every gap is the one its two neighbours ask for. *)
Definition gaps_follow (gap : ekind -> ekind -> nat) (gaps : list nat) (els : list (ekind * list str)) : Prop :=
  forall a p lp mid k lk b,
    els = a ++ (p, lp) :: mid ++ (k, lk) :: b ->
    lp <> [] -> lk <> [] -> Forall (fun x => snd x = []) mid ->
    nth_error gaps (length (a ++ (p, lp) :: mid)) = Some (gap p k).
