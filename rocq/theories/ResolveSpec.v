(** What the properties about use declarations and path resolution (C27-C29, C68) mean. *)
From Verif Require Import Base PositionModel TranslateModel CallableModel ResolveModel.

(** ** C27 *)
Definition SELF : str := lit "self".
Definition segments_of (o : option path_syntax) : list str := match o with Some p => ps_segments p | None => [] end.

(** What a use tree below the segments [pre] imports: the segments of a path and its alias. *)
Inductive imports : list str -> use_tree -> list str -> option str -> Prop :=
  | im_path pre p a : ps_segments p <> [SELF] -> imports pre (UseTree (Some p) UNone a) (pre ++ ps_segments p) a
  | im_self pre p a : ps_segments p = [SELF] -> pre <> [] -> imports pre (UseTree (Some p) UNone a) pre a
  | im_star pre o a : imports pre (UseTree o UStar a) (pre ++ segments_of o ++ [lit "*"]) a
  | im_list pre o l a t q b : In t l -> imports (pre ++ segments_of o) t q b -> imports pre (UseTree o (UList l) a) q b.

(** The paths of a tree are written without anything but spaces between their segments. *)
Inductive plain_tree : use_tree -> Prop :=
  | pt o tl a :
      (forall p, o = Some p -> ps_segments p <> [] /\ no_spaces (ps_text p) = join_colons (ps_segments p)) ->
      (forall l t, tl = UList l -> In t l -> plain_tree t) ->
      plain_tree (UseTree o tl a).
Definition self_leaf (t : use_tree) : Prop := exists p a, t = UseTree (Some p) UNone a /\ ps_segments p = [SELF].
(** [self] stands in a group with a path, or starts the path of the whole tree. *)
Inductive self_ok : bool -> use_tree -> Prop :=
  | so_leaf n o a : self_ok n (UseTree o UNone a)
  | so_star n o a : self_ok n (UseTree o UStar a)
  | so_list (n : bool) o l a :
      (n = true -> segments_of o <> [SELF]) ->
      (o = None -> forall t, In t l -> ~ self_leaf t) ->
      (forall t, In t l -> self_ok true t) ->
      self_ok n (UseTree o (UList l) a).
Definition good_tree (t : use_tree) : Prop := plain_tree t /\ self_ok false t /\ ~ self_leaf t.

(** ** Places of a file *)
Inductive in_file (root : snode) : place -> Prop :=
  | if_root : in_file root (root, [])
  | if_child l c : in_file root l -> In c (n_children (fst l)) -> in_file root (c, fst l :: snd l).

(** What the declarations of a scope (a module, function or file) introduce: a path, as an alias or not. *)
Inductive introduces (l : place) : list str -> option str -> Prop :=
  | in_use c t q a : In c (n_children (fst (item_list_root l))) -> n_data c = DUse (Some t) ->
      imports [] t q a -> introduces l q a
  | in_type c name ty : In c (n_children (fst (item_list_root l))) -> n_data c = DTypeAlias (Some name) (Some ty) ->
      introduces l (map seg_text ty) (Some name).

(** ** C28 *)
Definition terminates {A} (f : nat -> res A) : Prop := exists n, f n <> Spent.
Definition runs_forever {A} (f : nat -> res A) : Prop := forall n, f n = Spent.

(** Paths of identifiers, which may start with [crate], [self] or [super]. *)
Definition ident_char (c : char) : bool :=
  ((97 <=? c) && (c <=? 122) || (65 <=? c) && (c <=? 90) || (48 <=? c) && (c <=? 57) || (c =? 95))%N.
Definition identifier (s : str) : Prop :=
  s <> [] /\ forallb ident_char s = true /\ ~ In s [lit "crate"; lit "self"; lit "super"].
Definition name_seg (s : str) : seg := Seg false (WName s) [].
Definition star_seg : seg := Seg false (WBad (lit "*")) [].
Definition plain_name (s : seg) : Prop := exists n, s = name_seg n /\ identifier n.
Definition plain_head (s : seg) : Prop :=
  plain_name s \/ exists w, In w [WCrate; WSelf; WSuper] /\ s = Seg false w [].
Definition plain_path (p : rpath) : Prop :=
  exists h l, p = h :: l /\ plain_head h /\ Forall plain_name l.
(** What is used of the parser: it reads plain paths, also with a star at the end. *)
Definition parser_ok (parse : str -> option rpath) : Prop :=
  forall p, plain_path p -> parse (path_text p) = Some p /\ parse (path_text (p ++ [star_seg])) = Some (p ++ [star_seg]).

(** A file that uses other crates only: the paths of its declarations are plain, without stars, and start with a name
    that nothing in the file introduces. *)
Definition ends_in (p : list str) (n : str) : Prop := exists l, l <> [] /\ p = l ++ [n].
Definition foreign (root : snode) (n : str) : Prop :=
  (forall l, in_file root l -> is_module (fst l) = true -> n_name (fst l) <> Some n)
  /\ (forall l q a, in_file root l -> introduces l q a -> a <> Some n /\ ~ ends_in q n).
Definition uses_crates_only (root : snode) : Prop :=
  (forall l q a, in_file root l -> introduces l q a ->
     exists n r, q = n :: r /\ Forall identifier (n :: r) /\ foreign root n)
  /\ (forall l c t, in_file root l -> In c (n_children (fst l)) -> n_data c = DUse (Some t) -> good_tree t)
  /\ (forall l c name ty, in_file root l -> In c (n_children (fst l)) -> n_data c = DTypeAlias name (Some ty) -> plain_path ty).

(** ** C29 *)
(** The names of the modules around a place, outermost first. *)
Definition module_name (n : snode) : option str := if is_module n then n_name n else None.
Definition enclosing_modules (l : place) : list str := rev (filter_map module_name (snd l)).

(** ** C68 *)
(** The place of the item list of a file's module, and of an item in it. *)
Definition only {A} (P : A -> Prop) (l : list A) (x : A) : Prop :=
  exists l1 l2, l = l1 ++ x :: l2 /\ P x /\ forall y, In y (l1 ++ l2) -> ~ P y.
Definition module_named (name : str) (n : snode) : Prop := exists s, n_data n = DModule (Some s) /\ s = name.
(** The module around a node, or the file if there is none. *)
Inductive scope_of : place -> place -> Prop :=
  | sc_module l : is_module (fst l) = true -> scope_of l l
  | sc_root r : is_module r = false -> scope_of (r, []) (r, [])
  | sc_up n p up m : is_module n = false -> scope_of (p, up) m -> scope_of (n, p :: up) m.
(** [x] is the only item of the wanted kind and name that is declared in a module or file. *)
Definition declares_item (want : snode -> bool) (name : str) (m : place) (x : place) : Prop :=
  exists l n, x = (n, fst l :: snd l) /\ only (fun c => want c = true /\ n_name c = Some name) (n_children (fst l)) n
    /\ ((is_module (fst m) = false /\ n_data (fst m) = DRoot /\ l = m)
        \/ (is_module (fst m) = true
            /\ exists il, only (fun c => n_data c = DItemList) (n_children (fst m)) il /\ l = (il, fst m :: snd m))).
Definition crate_seg : seg := Seg false WCrate [].
Definition self_seg : seg := Seg false WSelf [].
Definition super_seg : seg := Seg false WSuper [].
Definition global_seg (s : str) : seg := Seg true (WName s) [].
