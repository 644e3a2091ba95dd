From Verif Require Import PyStr RegionsModel TextModel FillModel ClassModel.
(** The glue code: the C++ classes which let Python override virtual methods and call protected ones. *)

(** A virtual method: the text of its return type (src/srcmlcpp/cpp_types/decls_types/cpp_type.py 70-100 [str_return_type], see
    TypeTextModel.v), its name in C++ (with its template specialization, if any) and in Python; for each parameter its declaration with its
    default value (src/srcmlcpp/cpp_types/functions/cpp_parameter_list.py 57-60 [list_types_names_default_for_signature]) and its name;
    whether it is const, and pure. *)
Record vmethod := VMethod {
  v_return : str; v_name : str; v_python : str; v_params : list (str * str); v_const : bool; v_pure : bool }.
(** A class whose binding is written: its name, the scope around it, its virtual methods with those of its bases
    (src/srcmlcpp/cpp_types/classes/cpp_struct.py 313-334 [virtual_methods], see LookupModel.v), the names of its protected methods which can be
    published (src/litgen/internal/adapted_types/adapted_class.py 1194-1201 [_prot_fill_methods]). *)
Record glue_class := GlueClass {
  g_name : str; g_scope : list part; g_virtual : list vmethod; g_protected : list str }.
(** The options: the library, the indentation, and the two regexes, as functions telling which names of classes they match. *)
Record glue_env := GlueEnv {
  ge_nanobind : bool; ge_indent : str; ge_override : str -> bool; ge_publish : str -> bool }.

Section Glue.
Variable o : glue_env.

(** The name of a scope, src/srcmlcpp/cpp_types/scope/cpp_scope.py 29-41. *)
Definition part_cpp (p : part) : str := match p with NsPart n | ClassPart n | EnumPart n => n end.
Definition qualified (g : glue_class) : str := join $"::" (map part_cpp (g_scope g) ++ [g_name g]).

(** ** Virtual methods *)

(** src/litgen/internal/adapted_types/adapted_function.py 1443-1472: the template, after unindent_code. *)
Definition override_template : str :=
  if ge_nanobind o then unlines
    [$"{return_type} {function_name_cpp}({param_list}){maybe_const} override"; $"{"; $"{_i_}{OVERRIDE_TYPE}(";
     $"{_i_}{_i_}""{function_name_python}"", // function name (python)";
     $"{_i_}{_i_}{function_name_cpp}{maybe_comma_if_has_params} // function name (c++)"; $"{_i_}{_i_}{param_names} // params"; $"{_i_});"; $"}"]
  else unlines
    [$"{return_type} {function_name_cpp}({param_list}){maybe_const} override"; $"{"; $"{_i_}{OVERRIDE_TYPE}(";
     $"{_i_}{_i_}{return_type}, // return type"; $"{_i_}{_i_}{implemented_class}, // parent class";
     $"{_i_}{_i_}""{function_name_python}"", // function name (python)";
     $"{_i_}{_i_}{function_name_cpp}{maybe_comma_if_has_params} // function name (c++)"; $"{_i_}{_i_}{param_names} // params"; $"{_i_});"; $"}"].
(** src/litgen/internal/adapted_types/adapted_function.py 1480-1484. *)
Definition override_macro (m : vmethod) : str :=
  (if ge_nanobind o then $"NB_OVERRIDE" else $"PYBIND11_OVERRIDE") ++ (if v_pure m then $"_PURE" else []) ++ $"_NAME".
(** src/litgen/internal/adapted_types/adapted_function.py 1440-1502 [virt_glue_override_virtual_methods_in_python]. *)
Definition override_lines (implemented : str) (m : vmethod) : list str :=
  lines (process_code_template override_template
    [($"OVERRIDE_TYPE", override_macro m); ($"_i_", ge_indent o); ($"return_type", v_return m); ($"function_name_cpp", v_name m);
     ($"function_name_python", v_python m); ($"maybe_const", if v_const m then $" const" else []); ($"implemented_class", implemented);
     ($"param_list", join $", " (map fst (v_params m))); ($"maybe_comma_if_has_params", match v_params m with [] => [] | _ => $"," end)]
    [($"param_names", match v_params m with [] => None | ps => Some (join $", " (map snd ps)) end)] true).
(** src/litgen/internal/adapted_types/adapted_class.py 1051-1077. *)
Definition trampoline_template : str := unlines
  [$"// helper type to enable overriding virtual methods in python"; $"class {trampoline_class_name} : public {class_name}"; $"{"; $"public:";
   if ge_nanobind o then $"    NB_TRAMPOLINE({class_name}, {nb_virtual_methods});" else $"    using {class_name}::{class_name};"; []; $"{trampoline_list}"; $"};"].
(** The decimal digits of a number. *)
Fixpoint digits (fuel n : nat) : str :=
  match fuel with
  | 0 => []
  | S f => (if n <? 10 then [] else digits f (Nat.div n 10)) ++ [chr (48 + Nat.modulo n 10)]
  end.
Definition decimal (n : nat) : str := digits (S n) n.
(** src/litgen/internal/adapted_types/adapted_class.py 1079-1097. *)
Definition trampoline_text (g : glue_class) : str :=
  process_code_template trampoline_template
    [($"trampoline_class_name", g_name g ++ $"_trampoline"); ($"nb_virtual_methods", decimal (length (g_virtual g))); ($"class_name", g_name g);
     ($"trampoline_list", indent_code (unlines (flat_map (override_lines (qualified g)) (g_virtual g))) 4 false (Some (ge_indent o)) true)] [] true.
(** src/litgen/internal/adapted_types/adapted_class.py 1110-1118 [_virt_shall_override]. *)
Definition shall_override (g : glue_class) : bool := ge_override o (g_name g) && negb (match g_virtual g with [] => true | _ => false end).

(** ** Protected methods *)

(** src/litgen/internal/adapted_types/adapted_class.py 1163-1173. *)
Definition publicist_template : str := unlines
  [$"// helper type for exposing protected functions"; $"class {publicist_class_name} : public {class_name}"; $"{"; $"public:"; $"{using_list}"; $"};"].
(** src/litgen/internal/adapted_types/adapted_class.py 1155-1182. *)
Definition publicist_text (g : glue_class) : str :=
  process_code_template publicist_template
    [($"publicist_class_name", g_name g ++ $"_publicist"); ($"class_name", g_name g);
     ($"using_list", indent_code (unlines (map (fun m => $"using " ++ g_name g ++ $"::" ++ m ++ $";") (g_protected g))) 4 false (Some (ge_indent o)) true)] [] true.
(** src/litgen/internal/adapted_types/adapted_class.py 1150-1153: when it is written. *)
Definition shall_publish (g : glue_class) : bool := ge_publish o (g_name g) && negb (match g_protected g with [] => true | _ => false end).

(** ** All of it *)

(** src/litgen/internal/adapted_types/adapted_class.py 1120-1136 [_glue_scope_intro_outro]; [None]: an exception is raised. *)
Fixpoint scope_intro (sc : list part) : option str :=
  match sc with
  | [] => Some []
  | NsPart n :: r => option_map (fun t => $"namespace " ++ n ++ $" { " ++ t) (scope_intro r)
  | _ :: _ => None
  end.
Definition scope_outro (sc : list part) : str :=
  concat (map (fun _ => $"} ") sc) ++ concat (map (fun p => match p with NsPart n => $" // namespace " ++ n ++ $" " | _ => [] end) (rev sc)).
(** src/litgen/internal/adapted_types/adapted_class.py 1099-1108, 1184-1192. *)
Definition in_scope (g : glue_class) (text : str) : option str :=
  option_map (fun intro => [nl] ++ unlines ([intro] ++ lines text ++ [scope_outro (g_scope g)]) ++ [nl]) (scope_intro (g_scope g)).
(** The glue code of the context: of virtual methods, and of protected methods. *)
Definition glue_state : Type := str * str.
(** src/litgen/internal/adapted_types/adapted_class.py 653-654, for one class. *)
Definition store_glue (g : glue_class) (st : glue_state) : option glue_state :=
  let (virt, prot) := st in
  match (if shall_publish g then in_scope g (publicist_text g) else Some []) with
  | None => None
  | Some p =>
      match (if shall_override g then in_scope g (trampoline_text g) else Some []) with
      | None => None
      | Some v => Some (virt ++ v, prot ++ p)
      end
  end.
(** The classes whose bindings are written, in order. *)
Fixpoint store_all (gs : list glue_class) (st : glue_state) : option glue_state :=
  match gs with
  | [] => Some st
  | g :: r => match store_glue g st with None => None | Some st' => store_all r st' end
  end.
(** src/litgen/litgen_generator.py 139-145 [glue_code], without the code of the boxed types. *)
Definition glue_code (gs : list glue_class) : option str := option_map (fun st : glue_state => fst st ++ snd st) (store_all gs ([], [])).
End Glue.
