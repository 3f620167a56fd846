(** Model of the migration of a file to ink! 5.0: crates/analyzer/src/analysis/migrate.rs L41-335 (events, chain
    extensions and derived SCALE traits; the migration of e2e tests is in ArgEditModel). *)
From Verif Require Import Base PositionModel TranslateModel SyntaxModel AttrModel EditModel CommandModel UtilModel ArgEditModel FlattenModel.

(** ** Chain extensions: migrate.rs L111-149 *)

(** A chain extension: its id ([ChainExtension::id], ir chain_extension.rs L25-27), whether it has an [extension]
    argument, its ink! attribute (closing bracket and token tree), and for each of its functions the range of the
    name of its [extension] argument, if it has one. *)
Record chain_ext := ChainExt {
  ce_id : option N; ce_arg : bool;
  ce_attr : option (option leaf * option lelem);
  ce_functions : list (option trange) }.
Definition U16_MAX : N := 65535.
(** L126 [suggest_unique_id(None, ..).unwrap_or(1)]: [None] when all ids are used *)
Definition next_id (max : N) (used : list N) : N :=
  match suggest_unique_id max None used with Found n => n | _ => 1%N end.
(** L119-138: the edit that adds the id, and the ids used from then on *)
Definition id_edits (max : N) (toks : list leaf) (used : list N) (c : chain_ext) : list text_edit * list N :=
  if ce_arg c then ([], used) else
  match ce_attr c with
  | Some (rb, tree) =>
      match arg_insert_place toks rb tree (is_entity_type AExtension) with
      | Some p => let id := next_id max used in
                  ([insert_edit p (lit "extension = " ++ dec id)], id :: used)
      | None => ([], used)
      end
  | None => ([], used)
  end.
(** L141-147 *)
Definition rename_edits (c : chain_ext) : list text_edit :=
  map (edit_replace (lit "function")) (filter_map (fun r => r) (ce_functions c)).
(** L118-148 *)
Fixpoint extension_loop (max : N) (toks : list leaf) (used : list N) (l : list chain_ext) : list text_edit :=
  match l with
  | [] => []
  | c :: l' => let (e, used') := id_edits max toks used c in e ++ rename_edits c ++ extension_loop max toks used' l'
  end.
(** L111-149 [chain_extensions] *)
Definition migrate_extensions (toks : list leaf) (l : list chain_ext) : list text_edit :=
  extension_loop U16_MAX toks (filter_map ce_id l) l.

(** ** Derived SCALE traits: migrate.rs L152-335 *)

(** An attribute of the file: the text of its path, its token tree, its range, the start of the item it belongs
    to ([parent_ast_item]), and which texts name a SCALE trait where it stands ([path_from_str] and
    [is_external_crate_item], L216-239). *)
Record mig_attr := MigAttr {
  ma_path : option str; ma_tree : option lelem; ma_range : trange; ma_item : option nat;
  ma_scale : str -> option arg_kind }.

(** The last token of an element that is not white space or a comment. *)
Definition last_solid (e : lelem) : option leaf :=
  last_opt (filter (fun t => negb (is_trivia (lf_kind t))) (place_leaves (fst e) (leaves (snd e)))).
(** L183-203: the first token tree after a [derive], with that token. [prev]: the closest token before, white
    space and comments aside. (A token tree starts with its delimiter, so that this token is in the tree.) *)
Fixpoint derive_child (prev : option leaf) (l : list lelem) : option (leaf * lelem) :=
  match l with
  | [] => None
  | e :: l' =>
      let go := derive_child (oor (last_solid e) prev) l' in
      match snd e, prev with
      | Node TOKEN_TREE _, Some t => if str_eqb (snd (snd t)) (lit "derive") then Some (t, e) else go
      | _, _ => go
      end
  end.
Definition children_at (t : lelem) : list lelem := match snd t with Node _ cs => place (fst t) cs | Tok _ _ => [] end.
Definition path_is (a : mig_attr) (s : str) : bool := match ma_path a with Some p => str_eqb p s | None => false end.
(** L171-207: the token tree of the derived traits; for [cfg_attr], with the [derive] token. *)
Definition derive_tree (a : mig_attr) : option (option leaf * lelem) :=
  if path_is a (lit "derive") then option_map (fun t => (None, t)) (ma_tree a)
  else if path_is a (lit "cfg_attr") then
    obind (ma_tree a) (fun t => option_map (fun p => (Some (fst p), snd p)) (derive_child None (children_at t)))
  else None.

(** analysis/utils.rs L2077-2085 [token_tree_to_non_delimited_meta_string] *)
Fixpoint until_token (stop : option nat) (l : list lelem) : list lelem :=
  match l with
  | [] => []
  | e :: l' => if match stop with Some o => lstart e =? o | None => false end then [] else e :: until_token stop l'
  end.
Definition meta_string (t : lelem) : str :=
  let cs := children_at t in
  let cs := match child_token L_PAREN t with Some _ => tl cs | None => cs end in
  texts_of (map snd (until_token (option_map lf_start (child_token R_PAREN t)) cs)).
(** [str::split(char)] *)
Fixpoint split_char (c : char) (s : str) : list str :=
  match s with
  | [] => [[]]
  | x :: s' =>
      if N.eqb x c then [] :: split_char c s'
      else match split_char c s' with
           | p :: ps => (x :: p) :: ps
           | [] => [[x]]
           end
  end.
Definition c_comma : char := 44%N.
Definition c_space : char := 32%N.
(** L212-214: the names *)
Definition derive_names (t : lelem) : list str :=
  split_char c_comma (filter (fun c => negb (N.eqb c c_space)) (meta_string t)).
(** L210-241 *)
Definition scale_items (a : mig_attr) (t : lelem) : list arg_kind := filter_map (ma_scale a) (derive_names t).
Definition other_items (a : mig_attr) (t : lelem) : list str :=
  filter (fun n => negb (is_some (ma_scale a n))) (derive_names t).

(** L279-301: whether a [cfg_attr] has other attributes than the [derive] that starts at [s] and ends at [e] *)
Fixpoint after_comma (l : list lelem) : list lelem :=
  match l with
  | [] => []
  | x :: l' => if skind_eqb (lkind x) COMMA then l' else after_comma l'
  end.
Definition has_other_attrs (t : lelem) (s e : nat) : bool :=
  existsb (fun x => negb (is_trivia (lkind x)) && ((lstart x <? s) || (e <? lend x)))
    (until_token (option_map lf_start (child_token R_PAREN t)) (after_comma (children_at t))).
(** analysis/utils.rs L1505-1531 [node_and_delimiter_range], its end *)
Definition node_delimiter_end (toks : list leaf) (n : lelem) (k : skind) : outcome nat :=
  match elem_last_leaf n with
  | Some t => obind_o (token_and_delimiter_range toks t k) (fun r => Done (snd r))
  | None => Done (lend n)
  end.
(** L303-320: the range of the [derive] and a comma *)
Definition derive_removal (toks : list leaf) (d : leaf) (t : lelem) : outcome trange :=
  obind_o (node_delimiter_end toks t COMMA) (fun after_end =>
  if after_end =? lend t
  then obind_o (token_and_delimiter_range toks d COMMA) (fun r => mk_range (fst r) (lend t))
  else mk_range (lf_start d) after_end).
(** L243-335: the edits of one attribute *)
Definition attr_edits (toks : list leaf) (a : mig_attr) : outcome (list text_edit) :=
  match derive_tree a with
  | None => Done []
  | Some (d, t) =>
      match scale_items a t with
      | [] => Done []
      | _ :: _ =>
          match other_items a t with
          | [] =>
              match d, ma_tree a with
              | Some d, Some cfg =>
                  if has_other_attrs cfg (lf_start d) (lend t)
                  then obind_o (derive_removal toks d t) (fun r => Done [edit_delete r])
                  else Done [edit_delete (ma_range a)]
              | _, _ => Done [edit_delete (ma_range a)]
              end
          | others => Done [edit_replace (lit "(" ++ join (lit ", ") others ++ lit ")") (lstart t, lend t)]
          end
      end
  end.
(** L246-255: the traits to derive, by the start of their item *)
Definition scale_map := list (nat * (nat * list arg_kind)).
Fixpoint add_scale (m : scale_map) (item o : nat) (ks : list arg_kind) : scale_map :=
  match m with
  | [] => [(item, (o, ks))]
  | (i, (o', ks')) :: m' => if i =? item then (i, (o', ks' ++ ks)) :: m' else (i, (o', ks')) :: add_scale m' item o ks
  end.
Definition item_start (a : mig_attr) : nat := match ma_item a with Some o => o | None => fst (ma_range a) end.
Definition attr_scale (a : mig_attr) : list arg_kind :=
  match derive_tree a with Some (_, t) => scale_items a t | None => [] end.
Definition collect_scale (attrs : list mig_attr) : scale_map :=
  fold_left (fun m a => match attr_scale a with [] => m | ks => add_scale m (item_start a) (fst (ma_range a)) ks end) attrs [].
(** L327-334; [ord]: the order of [HashMap::values] *)
Definition scale_derive_attr (ks : list arg_kind) : str :=
  lit "#[ink::scale_derive(" ++ join (lit ", ") (map arg_kind_str ks) ++ lit ")]".
Definition scale_inserts (ord : scale_map -> scale_map) (attrs : list mig_attr) : list text_edit :=
  map (fun e => edit_insert (scale_derive_attr (snd (snd e))) (fst (snd e))) (ord (collect_scale attrs)).
(** L152-335 [scale_derive] *)
Definition migrate_derives (toks : list leaf) (ord : scale_map -> scale_map) (attrs : list mig_attr) : outcome (list text_edit) :=
  obind_o (all_done (map (attr_edits toks) attrs)) (fun l => Done (concat l ++ scale_inserts ord attrs)).

(** ** Events: migrate.rs L42-108 *)

(** A legacy event: its text and range, the text of its ink! attribute, its [anonymous] argument (whether it is
    in that attribute, and the text of the attribute it is in otherwise), its indentation and its name. *)
Record legacy_event := LegacyEvent {
  ev_text : str; ev_range : trange; ev_attr : option str;
  ev_anonymous : option (bool * option str);
  ev_indent : option str; ev_name : option str }.
Record mig_contract := MigContract { mc_start : nat; mc_indent : option str; mc_use : option nat; mc_events : list legacy_event }.
(** L57-86: the text of the new event *)
Definition event_code (contract_indent : option str) (attr : str) (e : legacy_event) : str :=
  let code := str_replace attr (lit "#[ink::event" ++ (if is_some (ev_anonymous e) then lit "(anonymous)" else []) ++ lit "]") (ev_text e) in
  let code := match ev_anonymous e with
              | Some (false, Some anon) => str_replace anon [] code
              | _ => code
              end in
  let code := match ev_indent e with Some i => reduce_indenting code i | None => code end in
  match contract_indent with Some i => apply_indenting code i | None => code end.
(** L54-106 *)
Definition event_edits (c : mig_contract) (e : legacy_event) : list text_edit :=
  match ev_attr e with
  | None => []
  | Some attr =>
      edit_insert (event_code (mc_indent c) attr e) (mc_start c)
      :: match mc_use c, ev_name e with
         | Some o, Some n => [edit_insert (lit "use super::" ++ n ++ lit ";") o]
         | _, _ => []
         end
      ++ [edit_delete (ev_range e)]
  end.
(** L42-108 [events] *)
Definition migrate_events (cs : list mig_contract) : list text_edit :=
  flat_map (fun c => flat_map (event_edits c) (mc_events c)) cs.
