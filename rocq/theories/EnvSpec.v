(** What the properties about environments and error codes (C86) mean. *)
From Verif Require Import Base PositionModel TranslateModel CallableModel EditModel UtilModel ResolveModel ResolveSpec ExternalModel ExternalSpec EnvModel.

(** The last word of a path is a name. *)
Definition last_word (p : rpath) (name : str) : Prop := exists q s, p = q ++ [s] /\ sg_word s = WName name.
(** A file holds an implementation of a trait of the crates for a type with the name. *)
Definition has_impl (parse : str -> option rpath) (root : snode) (trait : str) (qs : list str) (name : str) : Prop :=
  exists l tp sp n, in_file root l /\ n_data (fst l) = DImpl (Some tp) (Some sp)
    /\ is_external parse trait qs n tp l = Ret true /\ last_word sp name.
(** The paths of the traits implemented in a file are resolved within a depth of [n]. *)
Definition settled (parse : str -> option rpath) (root : snode) (trait : str) (qs : list str) (n : nat) : Prop :=
  forall l tp sp, in_file root l -> n_data (fst l) = DImpl (Some tp) sp -> is_external parse trait qs n tp l <> Spent.
(** The types of the paths in [impl] headers end in a name. *)
Definition named_impls (root : snode) : Prop :=
  forall l tp sp, in_file root l -> n_data (fst l) = DImpl tp (Some sp) -> exists name, last_word sp name.

(** [x] is the item a path names, seen from [ref]: [x], [self::x], [super::x], [crate::x] or [crate::m::x]. *)
Inductive names_item (want : snode -> bool) (root : snode) (ref : place) : rpath -> place -> Prop :=
  | ni_here name m x : scope_of ref m -> declares_item want name m x -> names_item want root ref [name_seg name] x
  | ni_self name m x : scope_of ref m -> declares_item want name m x -> names_item want root ref [self_seg; name_seg name] x
  | ni_super name m p up pm x : scope_of ref (m, p :: up) -> scope_of (p, up) pm -> declares_item want name pm x ->
      names_item want root ref [super_seg; name_seg name] x
  | ni_crate name x : declares_item want name (root, []) x -> names_item want root ref [crate_seg; name_seg name] x
  | ni_module name mname md x : only (module_named mname) (n_children root) md -> declares_item want name (md, [root]) x ->
      names_item want root ref [crate_seg; name_seg mname; name_seg name] x.

(** The only struct, enum or union of the file with the name is [x]; it is an item of the file or of a module of the file
    whose name no other module of the file has. [p] is its path. *)
Definition known_adt (root : snode) (name : str) (p : rpath) (x : place) : Prop :=
  identifier name /\ n_data root = DRoot
  /\ (forall l, in_file root l -> is_adt (fst l) = true -> n_name (fst l) = Some name -> l = x)
  /\ ((p = [crate_seg; name_seg name] /\ declares_item is_adt name (root, []) x)
      \/ exists mname md, identifier mname /\ p = [crate_seg; name_seg mname; name_seg name]
           /\ only (module_named mname) (n_children root) md /\ declares_item is_adt name (md, [root]) x).
Definition no_adt (root : snode) (name : str) : Prop :=
  forall l, in_file root l -> is_adt (fst l) = true -> n_name (fst l) <> Some name.

(** A path in the source: its words, where it starts, and the nodes the parser makes of it: the path, its qualifier, the
    qualifier of that and so on. *)
Record src_path := SrcPath { sp_words : list str; sp_offset : nat }.
Definition first_words (k : nat) (p : src_path) : str * trange :=
  let s := join_colons (firstn k (sp_words p)) in (s, (sp_offset p, sp_offset p + bytes s)).
Definition path_nodes (p : src_path) : list (str * trange) :=
  map (fun k => first_words k p) (rev (seq 1 (length (sp_words p)))).
Definition starts_with_self_error_code (p : src_path) : bool :=
  match sp_words p with a :: b :: _ => str_eqb a (lit "Self") && str_eqb b (lit "ErrorCode") | _ => false end.
