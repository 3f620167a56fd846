(** What the properties about ink! traversal and scopes (C25, C26, C48, C66, C67) mean, independently of how the
    code walks the tree. *)
From Verif Require Import Base PositionModel VersionModel SyntaxModel AttrModel AttrSpec SuggestModel SuggestSpec TreeModel.
From Coq Require Import Sorted.

(** The ink! attributes written on a node. *)
Definition attrs_of (t : tree) : list ink_attr :=
  flat_map (fun c => match n_attr c with Some a => [a] | None => [] end) (n_children t).
Definition annotated (t : tree) : bool := match attrs_of t with [] => false | _ => true end.
Definition unannotated (l : list tree) : Prop := forall m, In m l -> annotated m = false.

(** [path t b n]: [n] is strictly below [t], and [b] are the nodes strictly between them, nearest to [n] first. *)
Inductive path (t : tree) : list tree -> tree -> Prop :=
  | path_child c : In c (n_children t) -> path t [] c
  | path_step b m c : path t b m -> In c (n_children m) -> path t (m :: b) c.

(** All nodes strictly below [t] in document order, with the nodes between ([up]: those above). *)
Fixpoint nodes_below (up : list tree) (t : tree) : list (list tree * tree) :=
  match t with Nd _ _ _ _ cs => flat_map (fun c => (up, c) :: nodes_below (c :: up) c) cs end.
Definition below (t : tree) : list (list tree * tree) := nodes_below [] t.

(** A node and all nodes below it. *)
Definition self_and_below (t : tree) : list tree := t :: map snd (below t).

(** Trees of the parser: ranges of children follow each other inside their parent; an attribute's range is that of
    its node, is not empty, and there are no attributes inside an attribute; nodes are told apart. *)
Fixpoint laid_out (s : nat) (l : list (nat * nat)) (e : nat) : Prop :=
  match l with
  | [] => s <= e
  | r :: l' => s <= fst r /\ fst r <= snd r /\ laid_out (snd r) l' e
  end.
Record node_ok (n : tree) : Prop := {
  ok_layout : laid_out (fst (n_range n)) (map n_range (n_children n)) (snd (n_range n));
  ok_attr : forall a, n_attr n = Some a ->
              n_kind n = ATTR /\ at_range a = n_range n /\ fst (n_range n) < snd (n_range n);
  ok_inside : n_kind n = ATTR -> forall d, In d (map snd (below n)) -> n_attr d = None }.
Record well_formed (t : tree) : Prop := {
  wf_nodes : forall n, In n (self_and_below t) -> node_ok n;
  wf_ids : NoDup (map n_id (self_and_below t)) }.

(** One attribute is written after another. *)
Definition written_before (a b : ink_attr) : Prop := snd (at_range a) <= fst (at_range b).
Definition in_source_order (l : list ink_attr) : Prop := StronglySorted written_before l.

(** ** C26: the attributes of the nearest annotated node of a list (nearest first) *)
Definition nearest_attrs (up : list tree) (l : list ink_attr) : Prop :=
  (unannotated up /\ l = [])
  \/ exists near a far, up = near ++ a :: far /\ unannotated near /\ annotated a = true /\ l = attrs_of a.

(** ** C48 *)

(** The primary attribute of an item, unknown attributes left aside. *)
Definition is_known (a : ink_attr) : bool := negb (attr_kind_unknown (at_kind a)).
Definition main_attr (attrs : list ink_attr) (p : ink_attr) : Prop :=
  primary_of (fun a b => kind_precedes (at_kind a) (at_kind b)) (filter is_known attrs) p.

(** What the ink! documentation allows directly inside what (directly: no other annotated item between). *)
Definition inside_contract (v : version) : list attr_kind :=
  map AkArg [AStorage; AEvent; AImpl; AConstructor; AMessage]
  ++ map AkMacro [MChainExtension; MStorageItem; MTest; MTraitDefinition; ME2ETest]
  ++ match v with V5 => map AkMacro [MEvent; MScaleDerive] | V4 => [] end.
Definition derive_ok (v : version) : list attr_kind := match v with V5 => [AkMacro MScaleDerive] | V4 => [] end.
Definition inside (v : version) (scope : attr_kind) : list attr_kind :=
  match scope with
  | AkMacro MContract => inside_contract v
  | AkMacro MTraitDefinition => AkArg AMessage :: derive_ok v
  | AkMacro MChainExtension => (match v with V4 => AkArg AExtension | V5 => AkArg AFunction end) :: derive_ok v
  | AkArg AImpl => AkArg AConstructor :: AkArg AMessage :: derive_ok v
  | AkMacro MTest | AkMacro ME2ETest => derive_ok v
  | AkArg AConstructor | AkArg AMessage | AkArg AExtension | AkArg AFunction => derive_ok v
  | _ => []
  end.
(** The scopes this check is made for. *)
Definition checked_scopes (v : version) : list attr_kind :=
  map AkMacro [MContract; MTraitDefinition; MChainExtension; MTest; ME2ETest]
  ++ map AkArg [AImpl; AConstructor; AMessage] ++ [match v with V4 => AkArg AExtension | V5 => AkArg AFunction end].
(** The scopes that hold other entities. *)
Definition container (v : version) (scope : attr_kind) : Prop :=
  exists k, In k (inside v scope) /\ k <> AkMacro MScaleDerive.

(** The attribute of a report, and the item that its quick fix removes: the annotated node when it is an item. *)
Definition reported_attr (r : scope_report) : ink_attr := match r with RInvalidScope a _ | RNotAllowed a _ => a end.
Definition removable_item (n : tree) (up : list tree) : option loc := if is_item (n_kind n) then Some (n, up) else None.

(** ** C66, C67 *)

(** An item is declared to be an entity of some kind by one of its attributes. *)
Definition declared (k : attr_kind) (t : tree) : Prop := exists a, In a (attrs_of t) /\ at_kind a = k.

(** No item among the nodes: what is below the first is directly in what is above the last. *)
Definition no_item (b : list tree) : Prop := forall m, In m b -> is_item (n_kind m) = false.

(** A message or constructor belongs to a contract when nothing annotated lies between them, or only its [impl]
    block (annotated [impl], or [namespace] or not yet complete). An event, trait definition etc. belongs to a
    file when nothing annotated lies between them, or only the contract. *)
Definition impl_like (o : tree) (a : ink_attr) : Prop :=
  at_kind a = AkArg AImpl
  \/ (n_kind o = IMPL /\ (at_kind a = AkArg ANamespace \/ attr_kind_unknown (at_kind a) = true)).
Definition contract_like (o : tree) (a : ink_attr) : Prop := at_kind a = AkMacro MContract.
Definition only_behind (between : tree -> ink_attr -> Prop) (b : list tree) : Prop :=
  unannotated b
  \/ exists b1 o b2 a, b = b1 ++ o :: b2 /\ unannotated b1 /\ unannotated b2 /\ In a (attrs_of o) /\ between o a.
(** The list holds exactly the items below [t] declared as [k], in the file or behind a node with an attribute as
    described. *)
Definition lists_items (k : attr_kind) (between : tree -> ink_attr -> Prop) (t : tree) (up : list tree) (l : list loc) : Prop :=
  forall x, In x l <-> exists b n, x = (n, b ++ t :: up) /\ path t b n /\ declared k n /\ only_behind between b.
Definition no_attribute (o : tree) (a : ink_attr) : Prop := False.
