From Verif Require Import PyStr PyDict FillModel FillSpec PolicyModel.
(** What comments and options ask for. *)

Definition absent (tok s : str) : Prop := forall a b, s <> a ++ tok ++ b.
(** [b] comes after the first occurrence of [tok] in [s]. *)
Definition first_at (tok s b : str) : Prop := exists a, s = a ++ tok ++ b /\ forall a' b', s = a' ++ tok ++ b' -> length a <= length a'.
(** After the first occurrence of the token comes the word [w], up to a white space or the end. *)
Definition told (tok s w : str) : Prop :=
  exists b, first_at tok s (w ++ b) /\ Forall (fun c => is_space c = false) w /\ match b with [] => True | c :: _ => is_space c = true end.
(** The policy of the return value which the comments ask for: the comment behind the function goes first; the spelling of pybind11 goes first. *)
Inductive policy_told (c : comments) : str -> Prop :=
  | told_end w : told $"return_value_policy::" (at_end c) w -> policy_told c w
  | told_before w : absent $"return_value_policy::" (at_end c) -> told $"return_value_policy::" (on_previous c) w -> policy_told c w
  | told_end_nb w : absent $"return_value_policy::" (at_end c) -> absent $"return_value_policy::" (on_previous c) -> told $"rv_policy::" (at_end c) w -> policy_told c w
  | told_before_nb w : absent $"return_value_policy::" (at_end c) -> absent $"return_value_policy::" (on_previous c) -> absent $"rv_policy::" (at_end c) ->
      told $"rv_policy::" (on_previous c) w -> policy_told c w
  | not_told : absent $"return_value_policy::" (at_end c) -> absent $"return_value_policy::" (on_previous c) -> absent $"rv_policy::" (at_end c) ->
      absent $"rv_policy::" (on_previous c) -> policy_told c [].
(** The options ask for a reference. *)
Definition forced (f : bound_function) : Prop :=
  bf_for_pointers f = true /\ bf_modifiers f = Some [$"*"] \/ bf_for_references f = true /\ bf_modifiers f = Some [$"&"].
(** The policy of calls of one name, for one spelling: from the name up to the first parentheses. *)
Definition call_told (tok s : str) (k : option str) : Prop :=
  (absent tok s \/ exists b, first_at tok s b /\ absent $"()" (tok ++ b)) /\ k = None
  \/ exists x b, first_at tok s (x ++ $"()" ++ b) /\ (forall a' b', x ++ $"()" ++ b = a' ++ $"()" ++ b' -> length x <= length a') /\ k = Some (tok ++ x ++ $"()").
(** The text of the comments. *)
Definition whole (c : comments) (s : str) : Prop :=
  (on_previous c = [] /\ s = at_end c) \/ (at_end c = [] /\ s = on_previous c) \/ (on_previous c <> [] /\ at_end c <> [] /\ s = on_previous c ++ [nl] ++ at_end c).
(** The last three parts which the binding must have. *)
Definition policy_part (nanobind : bool) (f : bound_function) (p : option str) : Prop :=
  exists w, (forced f /\ w = $"reference" \/ ~ forced f /\ policy_told (bf_comments f) w)
    /\ p = match w with [] => None | _ => Some ((if nanobind then $"nb::rv_policy::" else $"py::return_value_policy::") ++ w) end.
Definition call_part (nanobind : bool) (c : comments) (name : str) (k : option str) : Prop :=
  exists s k1 k2, whole c s /\ call_told ($"py::" ++ name) s k1 /\ call_told ($"nb::" ++ name) s k2
    /\ k = option_map (fun x => if nanobind then replace $"py::" $"nb::" x else replace $"nb::" $"py::" x) (match k1 with Some x => Some x | None => k2 end).
Definition guard_part (nanobind : bool) (f : bound_function) (g : option str) : Prop :=
  exists k, call_part nanobind (bf_comments f) $"call_guard" k /\
    if bf_gil f
    then g = Some (match k with Some x => x ++ $", " | None => [] end ++ (if nanobind then $"nb::call_guard<nb::gil_scoped_release>()" else $"py::call_guard<py::gil_scoped_release>()"))
    else g = k.
