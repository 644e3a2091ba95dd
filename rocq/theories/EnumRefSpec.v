From Verif Require Import PyStr LiteralSpec.
(** What the names of enum values and functions must become in a value, part by part. *)

(** [Enumerator e m pe pm]: the value [m] of the enum class [e] is [pe.pm] in Python. [Constant m pe pm]: the value [m] of another enum is [pe.pm].
    [Function f g]: the function [f] is [g]. *)
Inductive entry := Enumerator (e m pe pm : str) | Constant (m pe pm : str) | Function (f g : str).
Definition dotted_name (a b : str) : list tok := [Name a; Sign "."; Name b].
Fixpoint enumerator (rs : list entry) (a b : str) : option (list tok) :=
  match rs with
  | [] => None
  | Enumerator e m pe pm :: rs' => if seqb e a && seqb m b then Some (dotted_name pe pm) else enumerator rs' a b
  | _ :: rs' => enumerator rs' a b
  end.
Fixpoint constant_of (rs : list entry) (a : str) : option (list tok) :=
  match rs with
  | [] => None
  | Constant m pe pm :: rs' => if seqb m a then Some (dotted_name pe pm) else constant_of rs' a
  | _ :: rs' => constant_of rs' a
  end.
Fixpoint function_of (rs : list entry) (a : str) : option str :=
  match rs with
  | [] => None
  | Function f g :: rs' => if seqb f a then Some g else function_of rs' a
  | _ :: rs' => function_of rs' a
  end.
(** White space and a parenthesis come next. *)
Fixpoint called (ts : list tok) : bool := match ts with Sign c :: r => if is_space c then called r else ceqb c "(" | _ => false end.
Definition one_name (rs : list entry) (a : str) (r : list tok) : list tok :=
  match constant_of rs a with
  | Some new => new
  | None => if called r then match function_of rs a with Some g => [Name g] | None => [Name a] end else [Name a]
  end.
Fixpoint renamed (rs : list entry) (ts : list tok) : list tok :=
  match ts with
  | [] => []
  | Name a :: r =>
      match r with
      | Sign c :: Name b :: r' =>
          match (if ceqb c "." then enumerator rs a b else None) with
          | Some new => new ++ renamed rs r'
          | None => one_name rs a r ++ renamed rs r
          end
      | _ => one_name rs a r ++ renamed rs r
      end
  | t :: r => t :: renamed rs r
  end.

(** ** When *)

Definition enums (rs : list entry) : list str := flat_map (fun r => match r with Enumerator e _ _ _ => [e] | _ => [] end) rs.
Definition members (rs : list entry) : list str := flat_map (fun r => match r with Enumerator _ m _ _ => [m] | _ => [] end) rs.
Definition names (rs : list entry) : list str := flat_map (fun r => match r with Enumerator _ _ _ _ => [] | Constant m _ _ => [m] | Function f _ => [f] end) rs.
Definition keys (rs : list entry) : list str := enums rs ++ members rs ++ names rs.
(** A name as it is in C++, with a character which no number has. *)
Definition key (k : str) : Prop := is_name k /\ exists c, In c k /\ is_word c = true /\ is_digit c = false /\ ~ In c ($"eEfFdD_").
(** What an entry gives is a name and is not the name of another entry, or the entry changes nothing. *)
Definition fresh (ks : list str) (w : str) : Prop := is_name w /\ ~ In w ks.
Definition entry_ok (ks : list str) (r : entry) : Prop :=
  match r with
  | Enumerator e m pe pm => key e /\ key m /\ (pe = e /\ (pm = m \/ fresh ks pm) \/ fresh ks pe /\ fresh ks pm)
  | Constant m pe pm => key m /\ fresh ks pe /\ fresh ks pm
  | Function f g => key f /\ fresh ks g
  end.
(** The same name has one meaning. *)
Definition agree (x y : entry) : Prop :=
  match x, y with
  | Enumerator e m pe pm, Enumerator e' m' pe' pm' => e <> m' /\ (e = e' -> m = m' -> pe = pe' /\ pm = pm')
  | Enumerator e m _ _, Constant k _ _ | Constant k _ _, Enumerator e m _ _ | Enumerator e m _ _, Function k _ | Function k _, Enumerator e m _ _ => k <> e /\ k <> m
  | Constant m pe pm, Constant m' pe' pm' => m = m' -> pe = pe' /\ pm = pm'
  | Constant m _ _, Function f _ | Function f _, Constant m _ _ => f <> m
  | Function f g, Function f' g' => f = f' -> g = g'
  end.
Definition entries_ok (rs : list entry) : Prop :=
  Forall (entry_ok (keys rs)) rs /\ (forall x y, In x rs -> In y rs -> agree x y)
  /\ (forall e w, In e (enums rs) -> In w (flat_map (fun r => match r with Enumerator _ _ pe pm | Constant _ pe pm => [pe; pm] | Function _ g => [g] end) rs) -> w = e \/ contains e w = false).
(** No name has the name of an enum class inside, and between this name and the one of a value there is [::] (here already a dot). *)
Fixpoint clear (rs : list entry) (ts : list tok) : Prop :=
  match ts with
  | [] => True
  | Name w :: r =>
      (forall e, In e (enums rs) -> w = e \/ contains e w = false)
      /\ match r with Sign c :: Name m :: _ => In w (enums rs) -> In m (members rs) -> c = "."%char | _ => True end
      /\ clear rs r
  | _ :: r => clear rs r
  end.

(** ** What a scope sees *)

From Verif Require Import EnumRefModel.
(** The entries of an enum: all the values of an enum class; of another enum the values which start with its name, whatever the case. *)
Definition enum_entries (e : venum) : list entry :=
  flat_map (fun v => if ve_class e then [Enumerator (ve_name e) (fst v) (ve_python e) (snd v)]
                     else if startswith (lower (ve_name e)) (lower (fst v)) then [Constant (fst v) (ve_python e) (snd v)] else []) (ve_values e).
Definition entries (x : velem) : list entry :=
  match x with
  | AnEnum e => enum_entries e
  | AFunction f => if seqb (fst f) (snd f) then [] else [Function (fst f) (snd f)]
  end.
(** The scopes around, the innermost first. *)
Fixpoint around (outer : list str) (rest : list str) : list (list str) :=
  match rest with
  | [] => [outer]
  | n :: rest' => around (outer ++ [n]) rest' ++ [outer]
  end.
Definition visible (l : list (list str * velem)) (scope : list str) : list entry :=
  flat_map (fun sc => flat_map (fun x => if list_eq_dec (list_eq_dec ascii_dec) (fst x) sc then entries (snd x) else []) l) (around [] scope).
(** Inside of an enum which is not an enum class all its values are known. *)
Definition own_entries (e : venum) : list entry :=
  map (fun v => if ve_class e then Enumerator (ve_name e) (fst v) (ve_python e) (snd v) else Constant (fst v) (ve_python e) (snd v)) (ve_values e).
