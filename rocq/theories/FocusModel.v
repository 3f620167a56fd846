(** Model of where item actions apply: crates/analyzer/src/analysis/actions/item.rs L17-125 and L700-735, with
    analysis/utils.rs L1263-1282 and L1285-1442. *)
From Coq Require Import List.
From Verif Require Import Base PositionModel TranslateModel SyntaxModel AttrModel EditModel ArgEditModel RuleModel EntityModel HintModel ExtractModel.
Import ListNotations.

Definition VARIANT_LIST := OTHER 161.
Definition file_toks (root : elem) : list leaf := place_leaves 0 (leaves root).

(** utils.rs L1285-1375 [ast_item_declaration_range], the end *)
Definition curly_end (l : lelem) : nat := match child_token L_CURLY l with Some c => lf_end c | None => lend l end.
Definition semicolon_end (item : lelem) : option nat := option_map lf_end (child_token SEMICOLON item).
Definition declaration_end (item : lelem) : option nat :=
  match lkind item with
  | MODULE => match child_node ITEM_LIST item with Some l => Some (curly_end l) | None => semicolon_end item end
  | TRAIT | IMPL => option_map curly_end (child_node ASSOC_ITEM_LIST item)
  | FN => match child_node BLOCK_EXPR item with
          | Some b => Some (match child_node STMT_LIST b with Some s => curly_end s | None => lend b end)
          | None => semicolon_end item
          end
  | ENUM => option_map curly_end (child_node VARIANT_LIST item)
  | STRUCT => match field_list item with
              | Some l => Some (if skind_eqb (lkind l) RECORD_FIELD_LIST then curly_end l
                                else match semicolon_end item with
                                     | Some e => e
                                     | None => match child_token R_PAREN l with Some t => lf_end t | None => lend l end
                                     end)
              | None => semicolon_end item
              end
  | UNION => option_map curly_end (child_node RECORD_FIELD_LIST item)
  | k => if skind_eqb k TYPE_ALIAS then semicolon_end item else None
  end.
(** L1375-1402 *)
Definition declaration_range (toks : list leaf) (item : lelem) : outcome (option trange) :=
  match declaration_end item with
  | Some e => obind_o (mk_range (declaration_start toks item) e) (fun r => Done (Some r))
  | None => Done None
  end.
(** utils.rs L1405-1442 [ast_item_terminal_token] *)
Definition r_curly (l : option lelem) : option leaf := obind l (child_token R_CURLY).
Definition terminal (item : lelem) : option leaf :=
  match lkind item with
  | MODULE => oor (r_curly (child_node ITEM_LIST item)) (child_token SEMICOLON item)
  | TRAIT | IMPL => r_curly (child_node ASSOC_ITEM_LIST item)
  | FN => oor (r_curly (obind (child_node BLOCK_EXPR item) (child_node STMT_LIST))) (child_token SEMICOLON item)
  | ENUM => r_curly (child_node VARIANT_LIST item)
  | STRUCT => oor (match field_list item with
                   | Some l => if skind_eqb (lkind l) RECORD_FIELD_LIST then child_token R_CURLY l
                               else oor (child_token SEMICOLON item) (child_token R_PAREN l)
                   | None => None
                   end) (child_token SEMICOLON item)
  | UNION => r_curly (child_node RECORD_FIELD_LIST item)
  | k => if skind_eqb k TYPE_ALIAS then child_token SEMICOLON item else None
  end.

(** item.rs L704-711 [is_focused_on_item_declaration], L716-735 [is_focused_on_item_body], on the declaration's range *)
Definition on_declaration (decl : option trange) (item : lelem) (r : trange) : bool :=
  match decl with Some d => contains_range d r | None => false end
  || match terminal item with Some t => contains_range (lf_range t) r | None => false end.
Definition on_body (decl : option trange) (item : lelem) (r : trange) : bool :=
  match decl, terminal item with
  | Some d, Some t => (snd d <? lf_start t) && contains_range (snd d, lf_start t) r
  | _, _ => false
  end.

(** utils.rs L1263-1282 [parent_ast_item]; ir tree/item_at_offset.rs L107-121 for a cursor *)
Definition closed_attr (a : lelem) : bool := is_some (child_token R_BRACK a).
Definition parent_at (root : elem) (r : nat * nat) : outcome (option path) :=
  obind_o (focused_element root r) (fun f => Done (match f with
    | None => None
    | Some p =>
        if fst r =? snd r then
          match closest is_attr (snd p) with
          | Some (a, up) => if closed_attr a then parent_item (a, up) else None
          | None => parent_item p
          end
        else if item_at (fst p) then Some p else parent_item p
    end)).

(** item.rs L23-33: where the user asks for new code *)
Definition edit_range (f : lelem) (r : trange) : trange :=
  if skind_eqb (lkind f) WHITESPACE && contains_range (lrange_of f) r then r else (lend f, lend f).

(** What is offered: attributes for an item or a field (with the range that is marked), entities in an item (and where), entities
    for the file *)
Inductive offer :=
  | Attributes (target : lelem) (marked : trange)
  | Entities (item : lelem) (place : option trange)
  | RootEntities (place : trange).

(** item.rs L37-93, for the item at the place *)
Definition item_offers (root : elem) (f : path) (item : lelem) (r : trange) : outcome (list offer) :=
  let field := if skind_eqb (lkind item) STRUCT then option_map fst (closest (node_at RECORD_FIELD) (snd f)) else None in
  obind_o (declaration_range (file_toks root) item) (fun decl =>
  let d := on_declaration decl item r in
  let b := on_body decl item r in
  Done ((if is_some field || d
         then [Attributes (or_else field item) (match field with Some x => lrange_of x | None => or_else decl (lrange_of item) end)]
         else [])
        ++ (if d || (b && negb (is_some field)) then [Entities item (if b then Some (edit_range (fst f) r) else None)] else []))).
(** item.rs L17-125 [actions] *)
Definition focus (root : elem) (r : trange) : outcome (list offer) :=
  obind_o (focused_element root r) (fun f =>
  match f with
  | Some f =>
      obind_o (covering_attribute root r) (fun a =>
      match a with
      | Some _ => Done []
      | None =>
          obind_o (parent_at root r) (fun item =>
          match item with
          | Some (item, _) => item_offers root f item r
          | None => Done (match snd f with
                          | p :: _ => if skind_eqb (lkind p) SOURCE_FILE then [RootEntities (edit_range (fst f) r)] else []
                          | [] => []
                          end)
          end)
      end)
  | None => Done (if (len_of root =? 0) && contains_range (0, len_of root) r then [RootEntities r] else [])
  end).
