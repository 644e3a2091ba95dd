From Verif Require Import PyStr PyDict PyNum TypeTextModel LambdaModel AdapterModel BufferModel.
(** The adapters one after the other: each sees the function as the previous one left it, and writes a lambda around it. *)

(** src/litgen/internal/adapted_types/adapted_function.py 397-407 [add_names_to_unnamed_params]. *)
Definition named (i : nat) (p : param) : param :=
  match p_name p with [] => Param (p_type p) ($"param_" ++ nat_text i) (p_array p) (p_default p) | _ => p end.
Definition name_params (ps : list param) : list param := map (fun ip => named (fst ip) (snd ip)) (enumerate ps).

Section Chain.
Variable i : str.
Variable bo : buffer_options.
Variable o : options.

(** src/litgen/internal/adapt_function_params/apply_all_adapters.py 52-63, without the custom adapters of the user (line 64).
    The first one may raise. *)
Definition adapter := func -> option (option lambda).
Definition adapters : list adapter :=
  [adapt_c_buffers i bo; fun f => Some (adapt_exclude_params o f); fun f => Some (adapt_mutable_default o f);
   fun f => Some (adapt_c_arrays o f); fun f => Some (adapt_const_char_null o f); fun f => Some (adapt_to_return o f);
   fun f => Some (adapt_boxed o f); fun f => Some (adapt_string_list o f); fun f => Some (adapt_string_list_alone o f);
   fun f => Some (adapt_variadic o f)].

(** Lines 66-69: the lambdas, each with the function it is written around, and the function which remains. *)
Definition link := (func * lambda)%type.
Fixpoint apply_adapters (l : list adapter) (f : func) : option (list link * func) :=
  match l with
  | [] => Some ([], f)
  | a :: r =>
      match a f with
      | None => None
      | Some None => apply_adapters r f
      | Some (Some l) =>
          match apply_adapters r (apply_lambda_adapter f l) with
          | Some (ls, g) => Some ((f, l) :: ls, g)
          | None => None
          end
      end
  end.

(** Lines 71-76, and [apply_all_adapters] as a whole on a function which is not a constructor, 14-76. *)
Definition force (g : func) : list link * func :=
  if o_force_lambda o (f_name g) && (match f_to_call g with None => true | Some _ => false end)
  then ([(g, adapt_force_lambda g)], apply_lambda_adapter g (adapt_force_lambda g))
  else ([], g).
Definition apply_all_adapters (f : func) : option (list link * func) :=
  match apply_adapters adapters f with
  | Some (ls, g) => Some (ls ++ fst (force g), snd (force g))
  | None => None
  end.

(** The code of the adapters, line 310-313. *)
Definition adapter_code (ls : list link) : str := concat (map (fun fl => lambda_text i (fst fl) (snd fl)) ls).
End Chain.
