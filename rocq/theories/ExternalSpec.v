(** What the properties about items of other crates (C85, C86) mean. *)
From Verif Require Import Base PositionModel TranslateModel CallableModel ResolveModel ResolveSpec ExternalModel.

(** ** C85 *)

(** A path as it is written: [w1::w2::..::wn] and what follows it (generic arguments); [g]: with [::] in front. *)
Fixpoint written (g : bool) (ws : list str) (tail : str) : rpath :=
  match ws with
  | [] => []
  | [w] => [Seg g (WName w) tail]
  | w :: ws' => Seg g (WName w) [] :: written false ws' tail
  end.
(** A use declaration may start with [::]; that is an empty first segment here. *)
Definition from_root (q : list str) : list str := match q with [] :: q' => q' | _ => q end.
Definition STAR : str := lit "*".

(** What a path written in a module stands for: its first word is a crate, a name the module imports (by itself or with
    everything else of its module), or an alias. *)
Inductive denotes (m : place) (crates : list str) : list str -> list str -> Prop :=
  | de_crate c r : In c crates -> denotes m crates (c :: r) (c :: r)
  | de_import q pre x r : introduces m q None -> from_root q = pre ++ [x] -> x <> STAR -> denotes m crates (x :: r) (pre ++ x :: r)
  | de_glob q pre x r : introduces m q None -> from_root q = pre ++ [STAR] -> denotes m crates (x :: r) (pre ++ x :: r)
  | de_alias q a r : introduces m q (Some a) -> denotes m crates (a :: r) (from_root q ++ r).

(** A module whose declarations import from the crates only; an alias is introduced once. *)
Definition imports_from (m : place) (crates : list str) : Prop :=
  (forall c t, In c (n_children (fst (item_list_root m))) -> n_data c = DUse (Some t) -> good_tree t)
  /\ (forall q a, introduces m q a -> exists c r, from_root q = c :: r /\ In c crates /\ Forall identifier (c :: removelast r)
        /\ (forall x, last_opt r = Some x -> identifier x \/ (a = None /\ x = STAR)))
  /\ (forall q a, introduces m q (Some a) -> identifier a)
  /\ (forall q q' a, introduces m q (Some a) -> introduces m q' (Some a) -> q = q').
(** The qualifiers an item can have, as lists of words. *)
Definition crate_names (qs : list (list str)) : list str := filter_map (fun q => hd_error q) qs.
Definition good_qualifiers (qs : list (list str)) : Prop := forall q, In q qs -> q <> [] /\ Forall identifier q.
(** The path is not that of a type alias of the file. *)
Definition no_type_alias (parse : str -> option rpath) (p : rpath) (m : place) : Prop :=
  forall n r, resolve_item parse is_type_alias n p m = Ret r -> r = None.
