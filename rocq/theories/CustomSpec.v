(** What C94 means: the types of a function and the items that they name. *)
From Verif Require Import Base CustomModel.

(** The paths of a type: itself, that of the type in an array, parentheses, pointer, reference or slice, and those of the fields of a tuple *)
Inductive names : ty -> tpath -> Prop :=
  | names_path p : names (TyPath (Some p)) p
  | names_in t p : names t p -> names (TyIn (Some t)) p
  | names_tuple l t p : In t l -> names t p -> names (TyTuple l) p.
(** The types of a function *)
Definition in_signature (params : option (list (option ty))) (ret : option ty) (t : ty) : Prop :=
  (exists l, params = Some l /\ In (Some t) l) \/ ret = Some t.
(** All paths of the function, those in generic arguments included *)
Inductive occurs (params : option (list (option ty))) (ret : option ty) : tpath -> Prop :=
  | occurs_top t p : in_signature params ret t -> names t p -> occurs params ret p
  | occurs_arg s args u q : occurs params ret (TPath s (Some args)) -> In (ArgType (Some u)) args -> names u q -> occurs params ret q.

(** The local items behind a path: its own, or else those of its generic arguments *)
Inductive stands_for {adt} (resolve : tpath -> option adt) : tpath -> adt -> Prop :=
  | stands_here p a : resolve p = Some a -> stands_for resolve p a
  | stands_arg s args u q a : resolve (TPath s (Some args)) = None -> In (ArgType (Some u)) args -> names u q -> stands_for resolve q a ->
      stands_for resolve (TPath s (Some args)) a.
Definition used {adt} (resolve : tpath -> option adt) params ret (a : adt) : Prop :=
  exists t p, in_signature params ret t /\ names t p /\ stands_for resolve p a.
(** Paths with the same text are the same, and items with the same range. *)
Definition by_text params ret : Prop := forall p q, occurs params ret p -> occurs params ret q -> ptext p = ptext q -> p = q.
Definition by_range {adt} (range : adt -> nat * nat) (resolve : tpath -> option adt) params ret : Prop :=
  forall a b, used resolve params ret a -> used resolve params ret b -> range a = range b -> a = b.
