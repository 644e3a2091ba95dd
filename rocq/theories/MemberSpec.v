From Verif Require Import PyStr TextModel TextSpec CommentModel CommentSpec TypeTextModel LambdaModel NamedModel MemberModel EnumSpec.
(** What is expected of the code written for the member variables of a class. *)

(** ** Which members are published *)

(** [s] is what is between the first bracket and the last one. *)
Definition size_written (p : param) (s : str) : Prop := exists a c, p_array p = a ++ "["%char :: s ++ [c] /\ ~ In "["%char a.
Definition array_well_formed (p : param) : Prop := p_array p = [] \/ exists s, size_written p s.
(** A public member which is not excluded and not a bit field; if it is an array, its size is known, it is made of numbers and not
    left out by the options, or it has no size at all. *)
Definition publishable (o : member_options) (m : member) : Prop :=
  let p := m_decl m in
  m_access m = Public /\ m_bits m = [] /\ mo_exclude_in o (p_name p) = false /\ mo_exclude_name o (p_name p) = false /\
  mo_exclude_type o (type_text (p_type p)) = false /\
  ((p_array p = [] /\ mo_excluded o (p_type p) = false) \/
   exists s, size_written p s /\
     ((is_blank_line s /\ mo_size o s = None /\ mo_excluded o (p_type p) = false) \/
      (exists n, mo_size o s = Some n /\ In (type_text (p_type p)) (mo_array_types o) /\ mo_array_replace o (p_name p) = true))).
(** An array of numbers, shown as a numpy array of this size. *)
Definition numeric_array (o : member_options) (m : member) (n : nat) : Prop :=
  let p := m_decl m in
  exists s, size_written p s /\ mo_size o s = Some n /\ In (type_text (p_type p)) (mo_array_types o) /\ mo_array_replace o (p_name p) = true.
Definition members_kept (o : member_options) (ms ks : list documented) : Prop :=
  exists keep, (forall d, In d ms -> (keep d = true <-> publishable o (d_member d))) /\ ks = filter keep ms.

(** ** What they are *)

Record attribute := Attribute { a_name : str; a_writable : bool; a_static : bool }.
Definition describes (o : member_options) (m : member) (a : attribute) : Prop :=
  let p := m_decl m in let t := p_type p in
  a_name a = mo_name o (p_name p) /\
  (a_writable a = true <-> ~ In $"const" (specifiers t) /\ ~ In $"constexpr" (specifiers t) /\ mo_readonly_type o (type_text t) = false /\
    mo_readonly_name o (p_name p) = false) /\
  (a_static a = true <-> In $"static" (specifiers t)).

(** ** Reading the stub *)

Fixpoint until_colon (s : str) : option str :=
  match s with
  | [] => None
  | c :: r => if ceqb c ":" then Some [] else option_map (cons c) (until_colon r)
  end.
(** The name declared on a line. *)
Definition declared_on (l : str) : list str :=
  match lstrip l with
  | [] => []
  | c :: r => if ceqb c "#" then [] else match until_colon (c :: r) with Some n => [n] | None => [] end
  end.
(** The text before [suffix]. *)
Definition before (suffix l : str) : option str := if endswith suffix l then Some (firstn (length l - length suffix) l) else None.
(** Whether the line tells that the attribute is static, and that it is read-only. *)
Definition marks (location l : str) : option (bool * bool) :=
  match before location l with
  | None => None
  | Some l =>
      match before $" # (const)" l, before $" # (read-only)" l with
      | Some l, _ | None, Some l => Some (endswith $" # (C++ static member)" l, true)
      | None, None => Some (endswith $" # (C++ static member)" l, false)
      end
  end.
Definition stub_shows (o : member_options) (ls : list str) (a : attribute) : Prop :=
  exists pre l, ls = pre ++ [l] /\ Forall comment_line pre /\ declared_on l = [a_name a] /\
    marks (mo_location_py o) l = Some (a_static a, negb (a_writable a)).

(** ** Reading the binding *)

Definition def_name (nanobind : bool) (a : attribute) : str :=
  $"def_" ++ (if nanobind then if a_writable a then $"rw" else $"ro" else if a_writable a then $"readwrite" else $"readonly")
  ++ (if a_static a then $"_static" else []).
Definition binding_shows (o : member_options) (d : documented) (ls : list str) (a : attribute) : Prop :=
  map cpp_line ls = [pieces [Text ($"." ++ def_name (mo_nanobind o) a ++ $"("); Quoted (a_name a);
    Text ($", &" ++ mo_class o ++ $"::" ++ p_name (m_decl (d_member d)) ++ $", "); Quoted (member_doc o d); Text $")"]].
(** The view of an array: its address, its type and its size. *)
Definition array_shows (o : member_options) (d : documented) (n : nat) (ls : list str) : Prop :=
  let p := m_decl (d_member d) in
  let t := type_text (p_type p) in let k := nat_text n in
  map cpp_line ls = map pieces (
    if mo_nanobind o then
      [[Text $".def_prop_ro("; Quoted (mo_name o (p_name p)); Text $","];
       [Text ($"[](" ++ mo_class o ++ $" &self) -> nb::ndarray<" ++ t ++ $", nb::numpy, nb::shape<" ++ k ++ $">, nb::c_contig>")];
       [Text $"{"]; [Text ($"return self." ++ p_name p ++ $";")]; [Text $"},"]; [Quoted (member_doc o d); Text $")"]]
    else
      [[Text $".def_property("; Quoted (mo_name o (p_name p)); Text $","];
       [Text ($"[](" ++ mo_class o ++ $" &self) -> pybind11::array")]; [Text $"{"];
       [Text ($"auto dtype = pybind11::dtype(pybind11::format_descriptor<" ++ t ++ $">::format());")];
       [Text ($"auto base = pybind11::array(dtype, {" ++ k ++ $"}, {sizeof(" ++ t ++ $")});")];
       [Text ($"return pybind11::array(dtype, {" ++ k ++ $"}, {sizeof(" ++ t ++ $")}, self." ++ p_name p ++ $", base);")];
       [Text ($"}, [](" ++ mo_class o ++ $"& self) {},")]; [Quoted (member_doc o d); Text $")"]]).
(** The attribute defined on a line. *)
Fixpoint first_literal (ts : list token) : list str :=
  match ts with
  | [] => []
  | Literal n :: _ => [n]
  | _ :: r => first_literal r
  end.
Definition defined_on (l : str) : list str := match after_code $".def" (cpp_line l) with Some ts => first_literal ts | None => [] end.

(** ** Names and texts which can be written *)

Definition no_mark (s : str) : Prop :=
  forall mark, In mark [$" # (const)"; $" # (read-only)"; $" # (C++ static member)"] -> endswith mark s = false.
Definition member_showable (o : member_options) (d : documented) : Prop :=
  let p := m_decl (d_member d) in
  word (mo_name o (p_name p)) /\ (forall s, ~ In "#"%char s -> ~ In "#"%char (mo_type o s)) /\ ~ In "#"%char (value_text o p) /\
  ~ In "#"%char (type_text (p_type p)) /\
  no_mark (comment_python_end_of_line (mo_strip o) (mo_replacements o) (d_eol d)) /\
  (forall s, ~ In nl s -> ~ In nl (mo_replacements o s)) /\ ~ In nl (d_eol d).
Definition member_writable (o : member_options) (d : documented) : Prop :=
  let p := m_decl (d_member d) in
  word (mo_name o (p_name p)) /\ word (p_name p) /\ code_text (mo_class o) /\ code_text (type_text (p_type p)) /\
  closed_literal (member_doc o d) /\
  (mo_location_cpp o = [] \/ exists n r, mo_location_cpp o = spaces n ++ $"//" ++ r /\ ~ In nl r).
