(** Model of the actions that add an ink! attribute to the item at the cursor, or an argument to one of its attributes:
    crates/analyzer/src/analysis/actions/item.rs L131-291 [ink_macro_actions] and [ink_arg_actions], actions/attr.rs L11-103, and
    actions.rs L41-60 [actions] without the actions that add entities.

    The label, kind and range of an action are left out (the two actions of attr.rs L26-58 have no edits and are left out, too). *)
From Coq Require Import List.
From Verif Require Import Base Unicode PositionModel VersionModel TranslateModel SyntaxModel AttrModel EditModel SuggestModel FlattenModel ArgEditModel RuleModel ArgCheckModel EntityModel HintModel ExtractModel FocusModel.
Import ListNotations.

Section Annotate.
(** External code: the expression parser and the words of the path of an attribute (see HintModel). [ctx]: what SuggestModel reads from
    the surroundings of an item (modelled in TreeModel); [env] and [ids]: what ArgCheckModel reads from the surroundings of an
    attribute. *)
Context (px : expr_parser) (words : elem -> list str) (ctx : lelem -> item) (env : lelem -> option str) (ids : lelem -> arg_kind -> list N).

(** ir attrs.rs L36-101 [InkAttribute::can_cast] and [cast] *)
Definition ink_node (e : elem) : bool := attr_can_cast (AttrSyntax (words e) None (0, 0)).
Definition cast_at (a : lelem) : option ink_attr := attr_cast px (AttrSyntax (words (snd a)) (token_tree_of a) (lrange_of a)).
(** ir tree/utils.rs L18-22 [ink_attrs], with the nodes *)
Definition attrs_at (t : lelem) : list (lelem * ink_attr) :=
  filter_map (fun a => option_map (pair a) (cast_at a)) (child_nodes ATTR t).
Definition item_of (t : lelem) : item :=
  let c := ctx t in
  Item (lkind t) (map snd (attrs_at t)) (it_scope c) (it_trait_impl c) (it_td_message c) (it_cfg_test c) (it_cfg_e2e c).
(** item.rs L190-193: the primary attribute, with its node *)
Definition primary_at (t : lelem) : option (lelem * ink_attr) :=
  match primary_candidate (it_attrs (item_of t)) with
  | Some (p, _) => find (fun x : lelem * ink_attr => AttrModel.range_eqb (at_range (snd x)) (at_range p)) (attrs_at t)
  | None => None
  end.

(** item.rs L131-176 [ink_macro_actions] *)
Definition macro_actions (toks : list leaf) (t : lelem) (v : version) : list text_edit :=
  map (fun m => edit_insert (lit "#[" ++ macro_path_str m ++ lit "]") (attr_offset ink_node toks t)) (item_action_macros (item_of t) v).

(** utils.rs L1006-1123 for an attribute *)
Definition place_in (toks : list leaf) (a : lelem) (k : arg_kind) : option insertion :=
  arg_insert_place toks (child_token R_BRACK a) (token_tree_of a) (is_entity_type k).
(** attr.rs L77-98, item.rs L249-286 for an attribute that is extended *)
Definition extend (toks : list leaf) (a : lelem) (p : insertion) (k : arg_kind) : outcome text_edit :=
  obind_o (arg_insert_text toks (lrange_of a) (fst p) (env a) (ids a) k) (fun t =>
  let around s := opt_str (fst (snd p)) ++ s ++ opt_str (snd (snd p)) in
  Done (edit_insert_snippet (around (fst t)) (fst p) (option_map around (snd t)))).
(** item.rs L236-241, L249-286 for a new attribute: neither an attribute nor what is around it is looked at *)
Definition no_ids (_ : arg_kind) : list N := [].
Definition new_attribute (toks : list leaf) (t : lelem) (k : arg_kind) : text_edit :=
  let x := insert_text (InsertContext None None no_ids) k in
  let around s := lit "#[ink(" ++ s ++ lit ")]" in
  edit_insert_snippet (around (fst x)) (attr_offset ink_node toks t) (option_map around (snd x)).
(** item.rs L179-291 [ink_arg_actions] *)
Definition arg_actions (toks : list leaf) (t : lelem) (v : version) : outcome (list text_edit) :=
  collect (fun k =>
    match obind (primary_at t) (fun p => option_map (pair (fst p)) (place_in toks (fst p) k)) with
    | Some (a, p) => obind_o (extend toks a p k) (fun e => Done (Some e))
    | None => Done (Some (new_attribute toks t k))
    end) (item_action_args (item_of t) v).

(** item.rs L73-83: what is offered for an item or a field *)
Definition target_actions (toks : list leaf) (t : lelem) (v : version) : outcome (list (list text_edit)) :=
  obind_o (arg_actions toks t v) (fun args =>
  Done (map (fun e => [e]) (macro_actions toks t v ++ args)
        ++ match flatten_attrs (map snd (attrs_at t)) with Some es => [es] | None => [] end)).
(** item.rs L17-125 [actions], for attributes *)
Definition item_actions (root : elem) (r : trange) (v : version) : outcome (list (list text_edit)) :=
  obind_o (focus root r) (fun os =>
  fold_right (fun o rest => obind_o (match o with Attributes t _ => target_actions (file_toks root) t v | _ => Done [] end) (fun l =>
    obind_o rest (fun l' => Done (l ++ l')))) (Done []) os).

(** attr.rs L11-103 [actions]; [parent]: the node with the attribute *)
Definition attr_actions (toks : list leaf) (a : lelem) (parent : option lelem) (v : version) : outcome (list text_edit) :=
  match cast_at a, parent with
  | Some ia, Some t =>
      collect (fun k =>
        match place_in toks a k with
        | Some p => obind_o (extend toks a p k) (fun e => Done (Some e))
        | None => Done None
        end) (attr_action_args ia (closed_attr a) (item_of t) v)
  | _, _ => Done []
  end.
(** utils.rs L1236-1256 [covering_attribute] (as in HintModel), with the nodes around it *)
Definition covering_path (root : elem) (r : trange) : outcome (option path) :=
  if fst r =? snd r then
    obind_o (focused_token root (fst r)) (fun t => Done (match t with Some p => closest is_attr (snd p) | None => None end))
  else if contains_range (0, len_of root) r then
    let p := covering_element [] 0 root r in
    Done (if is_attr (fst p) then Some p else closest is_attr (snd p))
  else Done None.
(** attr.rs L11-16 *)
Definition attr_focus (root : elem) (r : trange) (v : version) : outcome (list (list text_edit)) :=
  obind_o (covering_path root r) (fun p =>
  match p with
  | Some (a, up) => obind_o (attr_actions (file_toks root) a (hd_error up) v) (fun l => Done (map (fun e => [e]) l))
  | None => Done []
  end).

(** actions.rs L41-60 [actions] *)
Definition attribute_actions (U : unicode) (root : elem) (r : trange) (v : version) : outcome (list (list text_edit)) :=
  obind_o (item_actions root r v) (fun l1 =>
  obind_o (attr_focus root r v) (fun l2 =>
  outcome_map (outcome_map (format_in U more_items root)) (unique_by edits_eqb (fun x => x) (l1 ++ l2)))).
End Annotate.
