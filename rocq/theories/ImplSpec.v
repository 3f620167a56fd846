(** What C52 and C73 mean: implementations against the trait definition they implement. *)
From Verif Require Import Base PositionModel TranslateModel VersionModel SyntaxModel AttrModel SuggestSpec ImplModel.

(** ** C52: methods *)
Definition named (f : fn_item) (n : str) : Prop := exists o, fi_name f = Some (o, n).
(** The trait declares a method, or a message, of the given name. *)
Definition declares (t : trait_def) (n : str) : Prop := exists f, In f (td_methods t) /\ named f n.
Definition declares_message (t : trait_def) (n : str) : Prop :=
  n <> [] /\ exists f, In (Some f) (td_messages t) /\ named f n.
(** The messages of a trait are methods of it. *)
Definition messages_are_methods (t : trait_def) : Prop := forall f, In (Some f) (td_messages t) -> In f (td_methods t).
(** The functions of an [impl]. *)
Definition has_fn (i : impl_item) (f : fn_item) : Prop := exists l, im_items i = Some l /\ In (AFn f) l.
Definition implements (i : impl_item) (n : str) : Prop := exists f, has_fn i f /\ named f n.

(** Adding functions to an [impl]. *)
Definition with_fns (i : impl_item) (fs : list fn_item) : impl_item :=
  ImplItem (Some (match im_items i with Some l => l | None => [] end ++ map AFn fs))
    (im_decl_range i) (im_end i) (im_insert i) (im_children_indent i) (im_indent i).

(** ** C52: signatures *)
(** The parts of a node: the texts of its children that are neither white space nor comments. *)
Definition parts (n : lelem) : list str :=
  match snd n with Node _ cs => map text_of (filter (fun e => negb (is_trivia (kind_of e))) cs) | Tok _ _ => [] end.
(** Both absent, or both present and equal up to white space and comments between their parts. *)
Definition part_matches (declared implemented : option lelem) : Prop :=
  match declared, implemented with
  | Some d, Some i => concat (parts d) = concat (parts i)
  | None, None => True
  | _, _ => False
  end.
(** Equal up to white space and comments anywhere. *)
Definition same_tokens (a b : lelem) : Prop :=
  filter (fun t => negb (is_trivia (fst t))) (leaves (snd a)) = filter (fun t => negb (is_trivia (fst t))) (leaves (snd b)).

(** A parameter list as written: the parameters separated by commas. *)
Fixpoint with_commas (l : list str) : list str :=
  match l with [] => [] | [p] => [p] | p :: l' => p :: lit "," :: with_commas l' end.
Definition opt_list {A} (o : option A) : list A := match o with Some x => [x] | None => [] end.
Definition params_written (f : fn_item) : Prop :=
  (exists p, fi_params f = Some p
     /\ parts p = [lit "("] ++ with_commas (opt_list (fi_self f) ++ fi_other f) ++ [lit ")"])
  /\ (forall x, In x (opt_list (fi_self f) ++ fi_other f) -> x <> [])
  /\ match fi_ret f with
     | None => True
     | Some r => exists ty, fi_ret_ty f = Some ty /\ parts r = [lit "->"; ty]
     end.

(** ** C73: arguments *)
(** The known arguments of a function. *)
Definition known_args (f : fn_item) : list ink_arg :=
  filter (fun a => negb (arg_kind_eqb (ia_kind a) AUnknown)) (flat_map at_args (fi_attrs f)).
(** The argument of a kind that counts: the last one. *)
Definition declared_arg (f : fn_item) (k : arg_kind) (a : ink_arg) : Prop :=
  exists l1 l2, known_args f = l1 ++ a :: l2 /\ ia_kind a = k /\ forall b, In b l2 -> ia_kind b <> k.
Definition has_arg (f : fn_item) (k : arg_kind) : Prop := exists a, In a (flat_map at_args (fi_attrs f)) /\ ia_kind a = k.
(** The arguments an implemented message can have. *)
Definition message_args : list arg_kind := [AMessage; ADefault; APayable; ASelector].

(** The declaration of a message: of several messages of the same name the last one. *)
Definition declaration (t : trait_def) (n : str) (d : fn_item) : Prop :=
  n <> [] /\ named d n
  /\ exists l1 l2, td_messages t = l1 ++ Some d :: l2 /\ forall f, In (Some f) l2 -> ~ named f n.
(** A part of a function's signature. *)
Definition part_of (p : sig_part) (f : fn_item) : option lelem := match p with PParams => fi_params f | PReturn => fi_ret f end.
(** The code as it is inserted: in a new block if the [impl] has none. *)
Definition in_block (i : impl_item) (code : str) : str :=
  match im_items i with
  | Some _ => code
  | None => lit " {" ++ code ++ match im_indent i with Some s => s | None => [] end ++ lit "}"
  end.
(** The declaration has no (known) argument of the kind. *)
Definition lacks (decl : fn_item) (k : arg_kind) : Prop := k = AUnknown \/ ~ has_arg decl k.
(** The value of an argument, white space and comments aside. *)
Definition value_tokens (v : mvalue) : str := concat (map text_of (filter (fun e => negb (is_trivia (kind_of e))) (map snd (mv_elements v)))).
(** The kinds of argument that take a value. *)
Definition takes_value (k : arg_kind) : Prop := value_kind k <> VNone.
