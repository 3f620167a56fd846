(** Model of crates/analyzer/src/analysis/extract.rs L28-94: extraction of an event into a package of its own. *)
From Coq Require Import List.
From Verif Require Import Base Unicode PositionModel TranslateModel SyntaxModel CommandModel AttrModel EditModel UtilModel ArgEditModel RuleModel EntityModel HintModel.
Import ListNotations.

(** rowan [prev_sibling_or_token] of [e], a child of the first element of [anc]. Simplified: the child is found by its start
    and kind (only empty siblings share both). *)
Fixpoint sibling_before (last : option elem) (e : lelem) (l : list lelem) : option elem :=
  match l with
  | [] => None
  | c :: l' => if (lstart c =? lstart e) && skind_eqb (lkind c) (lkind e) then last else sibling_before (Some (snd c)) e l'
  end.
Definition prev_element (e : lelem) (anc : list lelem) : option elem :=
  match anc with p :: _ => sibling_before None e (children_of p) | [] => None end.

(** utils.rs L1215-1233 [focused_element] on the whole file *)
Definition focused_element (root : elem) (r : nat * nat) : outcome (option path) :=
  if fst r =? snd r then focused_token root (fst r)
  else Done (if contains_range (0, len_of root) r then Some (covering_element [] 0 root r) else None).

(** ast_ext.rs L12-23 [closest_ancestor_ast_type]: the closest ancestor with a property, with its own ancestors *)
Fixpoint closest (p : lelem -> bool) (anc : list lelem) : option path :=
  match anc with a :: up => if p a then Some (a, up) else closest p up | [] => None end.
Definition item_at (e : lelem) : bool := item_node (snd e).
Definition node_at (k : skind) (e : lelem) : bool := is_node e && skind_eqb (lkind e) k.
(** ast_ext.rs L27-45 [parent_ast_item] *)
Definition parent_item (p : path) : option path :=
  match closest item_at (snd p) with
  | Some (it, up) =>
      if skind_eqb (lkind (fst p)) ATTR
      then if existsb (fun a => range_eqb (lrange_of a) (lrange_of (fst p))) (child_nodes ATTR it) then Some (it, up) else None
      else Some (it, up)
  | None => None
  end.

(** extract.rs L30-39 *)
Definition struct_at (root : elem) (r : nat * nat) : outcome (option path) :=
  obind_o (focused_element root r) (fun f => Done (match f with
    | Some p => if node_at STRUCT (fst p) then Some p
                else match parent_item p with Some (it, up) => if node_at STRUCT it then Some (it, up) else None | None => None end
    | None => None
    end)).

(** ra_ap_syntax [AttrsOwnerEdit::remove_attrs_and_docs] (ast/edit_in_place.rs): attributes and comments among the children are
    removed, each with the white space right after it. *)
Fixpoint remove_attrs_and_docs (ws : bool) (l : list elem) : list elem :=
  match l with
  | [] => []
  | c :: l' =>
      match kind_of c with
      | ATTR | COMMENT => remove_attrs_and_docs true l'
      | WHITESPACE => if ws then remove_attrs_and_docs false l' else c :: remove_attrs_and_docs false l'
      | _ => c :: remove_attrs_and_docs false l'
      end
  end.
Definition children (e : elem) : list elem := match e with Node _ cs => cs | Tok _ _ => [] end.

(** itertools [join] *)
Fixpoint join (sep : str) (l : list str) : str :=
  match l with [] => [] | [s] => s | s :: l' => s ++ sep ++ join sep l' end.
Definition is_empty (s : str) : bool := match s with [] => true | _ => false end.

Section Extract.
  (** The character classes; [InkAttribute::cast] of an attribute node (AttrModel.attr_cast) *)
  Context (U : unicode) (read : lelem -> option ink_attr).
  Definition struct_attrs (s : lelem) : list ink_attr := filter_map read (child_nodes ATTR s).
  (** ir event.rs, event_v2.rs [can_cast]: macro/src/entity.rs L183-206 *)
  Definition is_event (s : lelem) : bool :=
    existsb (fun a => attr_kind_eqb (at_kind a) (AkArg AEvent)) (struct_attrs s)
    || existsb (fun a => attr_kind_eqb (at_kind a) (AkMacro MEvent)) (struct_attrs s).
  (** ir tree/utils.rs L113-118 [ink_arg_by_kind] *)
  Definition struct_arg (s : lelem) (k : arg_kind) : option ink_arg :=
    hd_error (filter_map (fun a => find (fun x => arg_kind_eqb (ia_kind x) k) (at_args a)) (struct_attrs s)).

  (** extract.rs L53-79; [prev] is the element before the struct *)
  Definition event_comments (s : lelem) : str :=
    join nl (map text_of (filter (fun c => is_tok c && skind_eqb (kind_of c) COMMENT) (children (snd s)))).
  Definition kept_attrs (s : lelem) : str :=
    join nl (map (fun a => text_of (snd a)) (filter (fun a => negb (is_some (read a))) (child_nodes ATTR s))).
  Definition event_attr (s : lelem) : str :=
    let arg := match struct_arg s AAnonymous with Some a => Some a | None => struct_arg s ASignatureTopic end in
    lit "#[ink::event" ++ match arg with Some a => lit "(" ++ meta_str a ++ lit ")" | None => [] end ++ lit "]".
  Definition struct_content (s : lelem) (prev : option elem) : str :=
    let t := texts_of (remove_attrs_and_docs false (children (snd s))) in
    match item_indenting U prev with Some i => reduce_indenting t i | None => t end.
  Definition event_content (s : lelem) (prev : option elem) : str :=
    join nl (filter (fun t => negb (is_empty t)) [event_comments s; kept_attrs s; event_attr s; struct_content s prev]).

  (** extract.rs L29-94 [extract] *)
  Definition extract (root : elem) (r : nat * nat) : outcome (option extraction) :=
    obind_o (struct_at root r) (fun found =>
      match found with
      | Some (s, up) =>
          if is_event s then
            match child_node NAME s, closest (node_at MODULE) up with
            | Some name, Some (m, mup) =>
                match child_node ITEM_LIST m with
                | Some il =>
                    obind_o (format_in U more_items root (edit_delete (lrange_of s))) (fun e =>
                      Done (Some (Extraction (text_of (snd name)) (event_content s (prev_element s up)) [e]
                                    (item_offset_start il) (nl ++ item_children_indenting U (prev_element m mup)))))
                | None => Done None
                end
            | _, _ => Done None
            end
          else Done None
      | None => Done None
      end).
End Extract.
