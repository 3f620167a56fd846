(** Model of the ink! traversal of syntax trees: crates/ir/src/tree/utils.rs and crates/ir/src/iter.rs, of the
    entities the macro of crates/macro/src/entity.rs builds from them for a file and a contract
    (crates/ir/src/{file,contract,ink_impl}.rs), and of the diagnostics about where ink! attributes may stand
    (crates/analyzer/src/analysis/diagnostics/{common,contract,file}.rs).

    A rowan node is modelled by its identity, kind, text range, the ink! attribute it casts to (for [ATTR]
    nodes), and its child nodes; the tokens between them are left out, no function modelled here reads them.
    A [SyntaxNode] also knows its ancestors: [loc] is a node with its ancestors, nearest first. *)
From Verif Require Import Base PositionModel VersionModel SyntaxModel AttrModel SuggestModel.



Inductive tree := Nd (id : nat) (kind : skind) (range : nat * nat) (attr : option ink_attr) (children : list tree).

Definition n_id (t : tree) : nat := match t with Nd i _ _ _ _ => i end.
Definition n_kind (t : tree) : skind := match t with Nd _ k _ _ _ => k end.
Definition n_range (t : tree) : nat * nat := match t with Nd _ _ r _ _ => r end.
Definition n_attr (t : tree) : option ink_attr := match t with Nd _ _ _ a _ => a end.
Definition n_children (t : tree) : list tree := match t with Nd _ _ _ _ cs => cs end.

Definition loc : Type := (tree * list tree)%type.
Definition loc_kind (l : loc) : skind := n_kind (fst l).
Definition loc_range (l : loc) : nat * nat := n_range (fst l).
(** [SyntaxNode == SyntaxNode]: the same node *)
Definition loc_id (l : loc) : nat := n_id (fst l).
Definition loc_children (l : loc) : list loc := map (fun c => (c, fst l :: snd l)) (n_children (fst l)).
Definition loc_parent (l : loc) : option loc :=
  match snd l with [] => None | p :: up => Some (p, up) end.

(** tree/utils.rs L12-21 [attrs] and [ink_attrs] of a node *)
Definition ink_attrs (t : tree) : list ink_attr := filter_map n_attr (n_children t).

(** An ink! attribute found in the tree, with the node it is a child of. *)
Definition found : Type := (loc * ink_attr)%type.
Definition ink_attrs_at (l : loc) : list found := map (fun a => (l, a)) (ink_attrs (fst l)).

(** [SyntaxNode::descendants]: the node and everything below it, in document order *)
Fixpoint descendants (up : list tree) (t : tree) : list loc :=
  (t, up) :: match t with Nd _ _ _ _ cs => flat_map (descendants (t :: up)) cs end.

(** tree/utils.rs L24-34 [ink_attrs_descendants] *)
Definition ink_attrs_descendants (l : loc) : list found :=
  flat_map (fun c : loc =>
    filter_map (fun d : loc =>
      match n_attr (fst d), loc_parent d with Some a, Some p => Some (p, a) | _, _ => None end)
      (descendants (snd c) (fst c)))
    (filter (fun c => negb (skind_eqb (loc_kind c) ATTR)) (loc_children l)).

(** tree/utils.rs L38-51 [ink_attrs_closest_descendants] *)
Fixpoint closest (up : list tree) (t : tree) : list found :=
  match t with
  | Nd _ _ _ _ cs =>
      flat_map (fun c => match ink_attrs c with
                         | [] => closest (t :: up) c
                         | _ => ink_attrs_at (c, t :: up)
                         end) cs
  end.
Definition ink_attrs_closest_descendants (l : loc) : list found := closest (snd l) (fst l).

(** tree/utils.rs L55-61 [ink_attrs_in_scope] *)
Definition ink_attrs_in_scope (l : loc) : list found := ink_attrs_at l ++ ink_attrs_descendants l.

(** tree/utils.rs L64-77 [ink_attrs_ancestors]; the list of ancestors of a [loc] leaves out the node itself *)
Definition ink_attrs_ancestors (l : loc) : list ink_attr :=
  flat_map ink_attrs
    (filter (fun a => negb (skind_eqb (loc_kind l) ATTR)
                      || match loc_parent l with
                         | Some p => negb (range_eqb (loc_range p) (n_range a))
                         | None => true
                         end)
       (snd l)).

(** iter.rs L42-58 [IterSuccessors::next], called until it returns [None]: the state is the wrapped iterator and
    the source. None: the fuel is used up. *)
Fixpoint iter_collect {A S} (step : S -> option (option (list A) * S)) (fuel : nat) (next : option (list A))
    (source : S) : option (list A) :=
  match fuel with
  | 0 => None
  | S fuel =>
      match next with
      | Some (x :: l) => option_map (cons x) (iter_collect step fuel (Some l) source)
      | _ => match step source with
             | Some (next', source') => iter_collect step fuel next' source'
             | None => Some []
             end
      end
  end.

(** tree/utils.rs L89-100: the step of [ink_attrs_closest_ancestors] *)
Definition closest_step (source : option loc) : option (option (list ink_attr) * option loc) :=
  match source with
  | Some l => match ink_attrs (fst l) with
              | [] => Some (None, loc_parent l)
              | _ => Some (Some (ink_attrs (fst l)), None)
              end
  | None => None
  end.

(** tree/utils.rs L81-102 [ink_attrs_closest_ancestors] *)
Definition closest_source (l : loc) : option loc :=
  if skind_eqb (loc_kind l) ATTR then obind (loc_parent l) loc_parent else loc_parent l.
Definition ink_attrs_closest_ancestors (fuel : nat) (l : loc) : option (list ink_attr) :=
  iter_collect closest_step fuel None (closest_source l).

(** tree/utils.rs L105-118 [ink_args], [ink_args_by_kind], [ink_arg_by_kind] *)
Definition ink_args (t : tree) : list ink_arg := flat_map at_args (ink_attrs t).
Definition find_kind (k : arg_kind) (a : ink_attr) : option ink_arg :=
  find (fun x => arg_kind_eqb (ia_kind x) k) (at_args a).
Definition ink_args_by_kind (t : tree) (k : arg_kind) : list ink_arg := filter_map (find_kind k) (ink_attrs t).
Definition ink_arg_by_kind (t : tree) (k : arg_kind) : option ink_arg := find_map (find_kind k) (ink_attrs t).

(** ** Entities *)

(** [ast::Item::can_cast]; [OTHER 0] to [OTHER 9] stand for the item kinds without a name in the model (const,
    extern block, extern crate, macro call, macro rules, macro definition, static, type alias, trait alias,
    use). *)
Definition is_item (k : skind) : bool :=
  match k with
  | MODULE | STRUCT | ENUM | UNION | TRAIT | IMPL | FN => true
  | OTHER n => n <? 10
  | _ => false
  end.

(** tree/ast_ext.rs L12-45 [closest_ancestor_ast_type] and [parent_ast_item] for a node that is no attribute *)
Fixpoint nearest_item (up : list tree) : option loc :=
  match up with
  | [] => None
  | p :: up' => if is_item (n_kind p) then Some (p, up') else nearest_item up'
  end.
Definition parent_ast_item (l : loc) : option loc := nearest_item (snd l).

(** tree/ast_ext.rs L27-45 [parent_ast_item] for an attribute: the closest item above it, if the attribute is
    one of that item's own, i.e. if the node it is a child of is an item. *)
Definition attr_item (f : found) : option loc := if is_item (loc_kind (fst f)) then Some (fst f) else None.

(** macro/src/entity.rs L183-206 [can_cast] on an attribute, for an entity of one attribute kind; the entity's
    node is the node the attribute is a child of (L210-216). *)
Definition casts (k : attr_kind) (f : found) : bool := attr_kind_eqb (at_kind (snd f)) k.
Definition has_kind (k : attr_kind) (t : tree) : bool := existsb (fun a => attr_kind_eqb (at_kind a) k) (ink_attrs t).

(** tree/utils.rs L129-143 [ink_descendants] and [ink_closest_descendants]: the nodes of the entities *)
Definition ink_descendants (k : attr_kind) (l : loc) : list loc :=
  map fst (filter (casts k) (ink_attrs_descendants l)).
Definition ink_closest_descendants (k : attr_kind) (l : loc) : list loc :=
  map fst (filter (casts k) (ink_attrs_closest_descendants l)).

(** tree/utils.rs L146-152 [ink_parent]: the item right around an item, if it has an attribute of the kind *)
Definition ink_parent (k : attr_kind) (l : loc) : option loc :=
  obind (parent_ast_item l) (fun p => if has_kind k (fst p) then Some p else None).

(** tree/utils.rs L217-225 [is_possible_callable_ancestor] *)
Definition possible_callable_ancestor (f : found) : bool :=
  attr_kind_eqb (at_kind (snd f)) (AkArg AImpl)
  || ((attr_kind_eqb (at_kind (snd f)) (AkArg ANamespace) || attr_kind_unknown (at_kind (snd f)))
      && match attr_item f with Some i => skind_eqb (loc_kind i) IMPL | None => false end).

(** tree/utils.rs L229-255 [ink_peekable_quasi_closest_descendants] *)
Definition peek_descendants (k : attr_kind) (peek : found -> bool) (l : loc) : list loc :=
  unique_by Nat.eqb loc_id
    (flat_map (fun f => if casts k f then [fst f]
                        else if peek f then ink_closest_descendants k (fst f)
                        else [])
       (ink_attrs_closest_descendants l)).

(** tree/utils.rs L173-178 [ink_callable_closest_descendants] *)
Definition ink_callables (k : attr_kind) (l : loc) : list loc := peek_descendants k possible_callable_ancestor l.

(** traits/ast_type.rs L37-42 [parent_impl_item]: the [impl] right around a [fn] *)
Definition parent_impl_item (l : loc) : option loc :=
  match loc_kind l with
  | FN => match parent_ast_item l with
          | Some p => match loc_kind p with IMPL => Some p | _ => None end
          | None => None
          end
  | _ => None
  end.

(** ink_impl.rs L47-71 [can_cast]; [td]: the block implements a trait that resolves to an ink! trait definition
    (name resolution is modelled separately). *)
Definition is_callable (f : found) : bool := casts (AkArg AConstructor) f || casts (AkArg AMessage) f.
Definition impl_can_cast (td : loc -> bool) (l : loc) : bool :=
  has_kind (AkArg AImpl) (fst l)
  || (match loc_kind l with IMPL => true | _ => false end
      && (existsb is_callable (ink_attrs_closest_descendants l) || td l)).

(** tree/utils.rs L184-213 [ink_impl_closest_descendants] *)
Definition ink_impls (td : loc -> bool) (l : loc) : list loc :=
  unique_by Nat.eqb loc_id
    (filter (impl_can_cast td)
       (filter (fun c => skind_eqb (loc_kind c) IMPL) (loc_children l)
        ++ filter_map (fun f => if possible_callable_ancestor f then attr_item f
                                else if is_callable f then parent_impl_item (fst f)
                                else None)
             (ink_attrs_closest_descendants l))).

(** contract.rs (ir) L10-31 [Contract]: the entities of a contract *)
Record contract_ir := ContractIr {
  co_storage : option loc;
  co_events : list loc;
  co_impls : list loc;
  co_constructors : list loc;
  co_messages : list loc;
  co_tests : list loc;
  co_e2e_tests : list loc }.
Definition contract_of (td : loc -> bool) (l : loc) : contract_ir :=
  {| co_storage := hd_error (ink_closest_descendants (AkArg AStorage) l);
     co_events := ink_closest_descendants (AkArg AEvent) l;
     co_impls := ink_impls td l;
     co_constructors := ink_callables (AkArg AConstructor) l;
     co_messages := ink_callables (AkArg AMessage) l;
     co_tests := ink_closest_descendants (AkMacro MTest) l;
     co_e2e_tests := ink_closest_descendants (AkMacro ME2ETest) l |}.

(** file.rs (ir) L8-34 [InkFile]: the entities of a file *)
Definition peek_contract (f : found) : bool := casts (AkMacro MContract) f.
Record file_ir := FileIr {
  fi_contracts : list loc;
  fi_events_v2 : list loc;
  fi_trait_definitions : list loc;
  fi_chain_extensions : list loc;
  fi_storage_items : list loc;
  fi_tests : list loc;
  fi_e2e_tests : list loc }.
Definition file_of (l : loc) : file_ir :=
  {| fi_contracts := ink_closest_descendants (AkMacro MContract) l;
     fi_events_v2 := peek_descendants (AkMacro MEvent) peek_contract l;
     fi_trait_definitions := peek_descendants (AkMacro MTraitDefinition) peek_contract l;
     fi_chain_extensions := peek_descendants (AkMacro MChainExtension) peek_contract l;
     fi_storage_items := peek_descendants (AkMacro MStorageItem) peek_contract l;
     fi_tests := ink_closest_descendants (AkMacro MTest) l;
     fi_e2e_tests := ink_closest_descendants (AkMacro ME2ETest) l |}.

(** ** Diagnostics about scopes *)

(** attrs.rs L132-139 [siblings]: the other ink! attributes of the node (the code lists them backwards, then
    forwards; they are sorted where they are used) *)
Definition attr_siblings (f : found) : list ink_attr :=
  filter (fun b => negb (range_eqb (at_range b) (at_range (snd f)))) (ink_attrs (fst (fst f))).

(** common.rs L1840-1850 [is_primary_attribute] *)
Definition is_primary (f : found) : bool :=
  match hd_error (stable_sort (fun a => attr_rank (at_kind a))
                    (stable_sort (fun a => fst (at_range a)) (snd f :: attr_siblings f))) with
  | Some p => range_eqb (at_range p) (at_range (snd f))
  | None => false
  end.

(** The diagnostics, with the attribute they are placed on and, for the quick fix that removes the item, the
    item; the texts are left out. *)
Inductive scope_report :=
  | RInvalidScope (a : ink_attr) (item : option loc)
  | RNotAllowed (a : ink_attr) (item : option loc).

(** common.rs L1824-1869 [ensure_valid_quasi_direct_ink_descendants] *)
Definition ensure_valid_descendants (valid : attr_kind -> bool) (l : loc) : list scope_report :=
  filter_map (fun f => if is_primary f && negb (valid (at_kind (snd f)))
                       then Some (RInvalidScope (snd f) (attr_item f)) else None)
    (filter (fun f => negb (attr_kind_unknown (at_kind (snd f)))) (ink_attrs_closest_descendants l)).

(** common.rs L1872-1907 [ensure_no_ink_descendants] *)
Definition ensure_no_descendants (allow_scale_derive : bool) (l : loc) : list scope_report :=
  map (fun f => RNotAllowed (snd f) (attr_item f))
    (filter (fun f => negb (attr_kind_unknown (at_kind (snd f)))
                      && (negb allow_scale_derive || negb (casts (AkMacro MScaleDerive) f)))
       (ink_attrs_descendants l)).

(** common.rs L1782-1820 [ensure_valid_quasi_direct_ink_descendants_by_kind] *)
Definition valid_descendants (k : attr_kind) (v : version) : list attr_kind :=
  map AkMacro (descendant_macros k v) ++ map AkArg (descendant_args k v).
Definition ensure_scope (k : attr_kind) (v : version) (l : loc) : list scope_report :=
  let valid := valid_descendants k v in
  let allows_none := match valid with [] => true | _ => false end in
  let only_scale_derive :=
    negb allows_none && negb (existsb (fun x => negb (attr_kind_eqb x (AkMacro MScaleDerive))) valid) in
  if allows_none || only_scale_derive then ensure_no_descendants only_scale_derive l
  else ensure_valid_descendants
         (fun x => contains_kind valid x
                   || match v with
                      | V5 => attr_kind_eqb k (AkMacro MChainExtension) && attr_kind_eqb x (AkArg AExtension)
                      | V4 => false
                      end) l.

(** file.rs (diagnostics) L76-95: the scope of a file *)
Definition file_allows (v : version) (k : attr_kind) : bool :=
  match v, k with
  | V4, AkMacro m =>
      match m with
      | MContract | MChainExtension | MStorageItem | MTraitDefinition | MTest | ME2ETest => true
      | _ => false
      end
  | V5, AkMacro _ => true
  | _, AkArg _ => false
  end.
Definition file_scope (v : version) (l : loc) : list scope_report := ensure_valid_descendants (file_allows v) l.

(** diagnostics/contract.rs L582-620 [ensure_parent_contract] and L631-650 [ensure_root_items]: the items that
    are reported because they are not in the root of the contract *)
Definition in_contract_root (contract : loc) (i : loc) : bool :=
  match ink_parent (AkMacro MContract) i with
  | Some p => loc_id p =? loc_id contract
  | None => false
  end.
Definition ensure_root_items (td : loc -> bool) (contract : loc) : list loc :=
  filter (fun i => negb (in_contract_root contract i))
    (ink_closest_descendants (AkArg AStorage) contract
     ++ co_events (contract_of td contract) ++ co_impls (contract_of td contract)).

(** diagnostics/contract.rs L660-675 [ensure_impl_parent_for_callables] with common.rs L1726-1730
    [ensure_impl_parent]: the callables that are reported because they are not right inside an [impl] *)
Definition ensure_impl_parents (td : loc -> bool) (contract : loc) : list loc :=
  filter (fun i => negb (is_some (parent_impl_item i)))
    (co_constructors (contract_of td contract) ++ co_messages (contract_of td contract)).

(** common.rs L1697-1722 [ensure_contract_parent] *)
Definition ensure_contract_parent (i : loc) : bool := is_some (ink_parent (AkMacro MContract) i).
