(** Model of the quick fixes that move a misplaced item: crates/analyzer/src/analysis/actions.rs L84-136,
    diagnostics/common.rs L1697-1778, diagnostics/contract.rs L582-615 and diagnostics/contract/ink_impl.rs L308-359. *)
From Coq Require Import List.
From Verif Require Import Base Unicode PositionModel TranslateModel SyntaxModel CommandModel EditModel UtilModel ArgEditModel RuleModel EntityModel HintModel ExtractModel.
Import ListNotations.

Section Moves.
  Variable U : unicode.
  (** Whether one of the attributes of an item is [#[ink::contract]] (modelled in [TreeModel] and [AttrModel]), and what is read of a
      contract (see [EntityModel]) *)
  Variable is_contract : lelem -> bool.
  Variable read_contract : path -> contract.

  (** actions.rs L84-136 [move_item] and [move_item_with_affixes]: the edits *)
  Definition move_item (p : path) (offset : nat) (indent : str) (affixes : option str * option str) : list text_edit :=
    [edit_insert (moved_text U (prev_element (fst p) (snd p)) (text_of (snd (fst p))) (Some indent) (fst affixes) (snd affixes)) offset;
     edit_delete (lrange_of (fst p))].
  (** utils.rs L1208-1213 [item_children_indenting] *)
  Definition inner_indent (p : path) : str := item_children_indenting U (prev_element (fst p) (snd p)).
  (** [SyntaxNode == SyntaxNode]. Simplified: the same place and kind *)
  Definition same_node (a b : lelem) : bool := range_eqb (lrange_of a) (lrange_of b) && skind_eqb (lkind a) (lkind b).

  (** ir tree/utils.rs L146-152 [ink_parent], for contracts *)
  Definition contract_parent (p : path) : option path :=
    match parent_item p with Some q => if is_contract (fst q) then Some q else None | None => None end.
  (** ir tree/utils.rs L155-160 [ink_ancestors], for contracts: the first one *)
  Definition contract_above (p : path) : option path := closest is_contract (snd p).
  (** ir contract.rs [Contract::module] with [ast::Module::item_list] *)
  Definition root_list (c : path) : option lelem := if node_at MODULE (fst c) then child_node ITEM_LIST (fst c) else None.

  (** What is reported for an item: nothing, or a report with the edits of its quick fix (if it has one) *)
  Definition report := option (option (list text_edit)).

  (** diagnostics/common.rs L1697-1722 [ensure_contract_parent] *)
  Definition ensure_contract_parent (p : path) (scope : str) : report :=
    if is_some (contract_parent p) then None
    else Some (obind (contract_above p) (fun c =>
           option_map (fun l => move_item p (item_offset_by_scope l scope) (inner_indent c) (None, None)) (root_list c))).
  (** diagnostics/contract.rs L582-615 [ensure_parent_contract] *)
  Definition ensure_parent_contract (c p : path) (scope : str) : report :=
    if match contract_parent p with Some q => same_node (fst q) (fst c) | None => false end then None
    else Some (option_map (fun l => move_item p (item_offset_by_scope l scope) (inner_indent c) (None, None)) (root_list c)).

  (** ir traits/ast_type.rs L37-42 [parent_impl_item] *)
  Definition parent_impl (p : path) : option path :=
    if node_at FN (fst p)
    then match parent_item p with Some q => if node_at IMPL (fst q) then Some q else None | None => None end
    else None.
  (** diagnostics/contract/ink_impl.rs L308-336 [ensure_parent_impl] *)
  Definition to_impl (i p : path) : option (list text_edit) :=
    option_map (fun l => move_item p (assoc_offset_end l) (inner_indent i) (None, None)) (assoc_list (fst i)).
  Definition ensure_parent_impl (i p : path) : report :=
    if match parent_impl p with Some q => same_node (fst q) (fst i) | None => false end then None
    else Some (if node_at IMPL (fst i) then to_impl i p else None).
  (** ink_impl.rs L346-359 [ensure_callables_in_root]: the reports for the constructors and the messages of an impl block *)
  Definition ensure_callables_in_root (i : path) (constructors messages : list path) : list (option (list text_edit)) :=
    filter_map (ensure_parent_impl i) constructors ++ filter_map (ensure_parent_impl i) messages.

  (** rowan [siblings]: the nodes of the parent from the node on, in both directions; the node itself is the first of them. *)
  Fixpoint from_node (x : lelem) (l : list lelem) : list lelem :=
    match l with [] => [] | c :: l' => if same_node c x then l else from_node x l' end.
  Definition siblings_next (p : path) : list lelem :=
    match snd p with [] => [fst p] | q :: _ => from_node (fst p) (filter is_node (children_of q)) end.
  Definition siblings_prev (p : path) : list lelem :=
    match snd p with [] => [fst p] | q :: _ => from_node (fst p) (rev (filter is_node (children_of q))) end.
  Definition sibling_impl (p : path) : option path :=
    option_map (fun s => (s, snd p)) (oor (find (node_at IMPL) (siblings_prev p)) (find (node_at IMPL) (siblings_next p))).
  (** diagnostics/common.rs L1725-1778 [ensure_impl_parent] *)
  Definition ensure_impl_parent (p : path) : report :=
    if is_some (parent_impl p) then None
    else Some (oor (obind (oor (closest (node_at IMPL) (snd p)) (sibling_impl p)) (fun i => to_impl i p))
                   (obind (contract_above p) (fun c =>
                     option_map (fun r => move_item p (fst r) (fst (snd r)) (snd (snd r))) (callable_place U (read_contract c))))).
End Moves.
