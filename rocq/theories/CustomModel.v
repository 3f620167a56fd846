(** Model of the custom types of extension functions: crates/analyzer/src/analysis/diagnostics/chain_extension/extension_fn.rs L66-190. *)
From Verif Require Import Base.

(** [ast::Type], [ast::Path] and [ast::GenericArg]. [TyIn] are the five types with one type in them: arrays, parentheses, pointers,
    references and slices; [TyOther] are all kinds of types that the code ignores. A path has its text and the generic
    arguments of its last segment ([path.segment().generic_arg_list()]); a missing part is [None]. *)
Inductive ty :=
  | TyPath (p : option tpath)
  | TyIn (t : option ty)
  | TyTuple (l : list ty)
  | TyOther
with tpath := TPath (text : str) (args : option (list garg))
with garg := ArgType (t : option ty) | ArgOther.
Definition ptext (p : tpath) : str := match p with TPath s _ => s end.

Section Model.
  (** [ast::Adt], its range, [resolve_item::<ast::Adt>] at the function (ResolveModel), the diagnostic of
      [ensure_impl_scale_codec_traits] (ScaleFixModel) *)
  Context {adt diag : Type} (range : adt -> nat * nat) (resolve : tpath -> option adt) (check : adt -> option diag).
  Definition range_eqb (a b : nat * nat) : bool := (fst a =? fst b) && (snd a =? snd b).

  (** L131-156 [extract_custom_types] and L159-190 [extract_resolvable_custom_types]. The code first collects the paths of
      a type and then asks for the items of each; here a path is collected with its items, which are asked for at once. *)
  Fixpoint custom_types (t : ty) : option (list (tpath * option (list adt))) :=
    match t with
    | TyPath (Some p) => Some [(p, resolvable p)]
    | TyPath None => None
    | TyIn (Some t) => custom_types t
    | TyIn None => None
    | TyTuple l =>
        match (fix go (l : list ty) : list (tpath * option (list adt)) :=
                 match l with [] => [] | t :: l' => match custom_types t with Some x => x | None => [] end ++ go l' end) l with
        | [] => None
        | x => Some x
        end
    | TyOther => None
    end
  with resolvable (p : tpath) : option (list adt) :=
    match resolve p with
    | Some a => Some [a]
    | None =>
        match p with
        | TPath _ None => None
        | TPath _ (Some args) =>
            let paths := (fix go (l : list garg) : list (tpath * option (list adt)) :=
                            match l with [] => [] | a :: l' => match arg_types a with Some x => x | None => [] end ++ go l' end) args in
            Some (flat_map (fun x => match snd x with Some l => l | None => [] end) (unique_by str_eqb (fun x => ptext (fst x)) paths))
        end
    end
  with arg_types (a : garg) : option (list (tpath * option (list adt))) :=
    match a with ArgType (Some t) => custom_types t | _ => None end.

  (** L71-128 [ensure_custom_types_impl_scale_codec_traits]; [params] is the parameter list of the function with the types of
      the parameters that have one, [ret] its return type *)
  Definition param_types (params : option (list (option ty))) : option (list (tpath * option (list adt))) :=
    option_map (fun l => flat_map (fun x => x) (filter_map (fun t => match t with Some t => custom_types t | None => None end) l)) params.
  Definition signature_types (params : option (list (option ty))) (ret : option ty) : option (list (tpath * option (list adt))) :=
    match param_types params, match ret with Some t => custom_types t | None => None end with
    | Some ps, Some rs => Some (ps ++ rs)
    | Some ps, None => Some ps
    | None, rs => rs
    end.
  Definition codec_reports (params : option (list (option ty))) (ret : option ty) : list diag :=
    match signature_types params ret with
    | Some paths =>
        filter_map check (unique_by range_eqb range
          (flat_map (fun x => x) (filter_map (fun x => snd x) (unique_by str_eqb (fun x => ptext (fst x)) paths))))
    | None => []
    end.
End Model.
