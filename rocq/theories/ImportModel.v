(** Model of the removal of imports that ink! 5 deprecates: crates/analyzer/src/analysis/migrate/e2e_test.rs L177-306. *)
From Verif Require Import Base PositionModel TranslateModel SyntaxModel AttrModel EditModel ArgEditModel RuleModel EntityModel.

(** ra_ap_syntax kinds without a name in the other files *)
Definition USE_TREE := OTHER 170.
Definition USE_TREE_LIST := OTHER 171.
Definition PATH_SEGMENT := OTHER 172.

(** The nodes of [use] items below a node, itself included, in the order of the file
    ([SyntaxNode::descendants] with [ast::Use::cast], L191) *)
Fixpoint uses_from (e : elem) (o : nat) : list lelem :=
  match e with
  | Tok _ _ => []
  | Node k cs =>
      (if skind_eqb k USE then [(o, e)] else [])
      ++ (fix go (l : list elem) (o : nat) : list lelem :=
            match l with [] => [] | c :: l' => uses_from c o ++ go l' (o + len_of c) end) cs o
  end.
Definition uses_in (n : lelem) : list lelem := uses_from (snd n) (fst n).

(** L224-229, L250-255 *)
Definition deprecated_name (s : str) : bool := str_eqb s (lit "build_message") || str_eqb s (lit "MessageBuilder").
(** L223-235: [path.segment()] and [path.qualifier()] of a path in one piece *)
Definition deprecated_path (p : lelem) : bool :=
  match child_node PATH_SEGMENT p with Some s => deprecated_name (text_of (snd s)) | None => false end
  && match child_node PATH p with Some q => str_eqb (text_of (snd q)) (lit "ink_e2e") | None => false end.
(** L249-256 *)
Definition deprecated_child (t : lelem) : bool :=
  match child_node PATH t with Some p => deprecated_name (text_of (snd p)) | None => false end.

(** [vec![utils::node_and_delimiter_range(..)]] and the flag [false] *)
Definition whole (toks : list leaf) (t : lelem) : outcome (list trange * bool) :=
  obind_o (node_and_delimiter_range toks t COMMA) (fun r => Done ([r], false)).
(** L244-283: the children of the tree [ink_e2e::{..}] *)
Definition from_e2e (toks : list leaf) (t : lelem) : outcome (list trange * bool) :=
  let children := match child_node USE_TREE_LIST t with Some l => child_nodes USE_TREE l | None => [] end in
  obind_o (all_done (map (fun c => node_and_delimiter_range toks c COMMA) (filter deprecated_child children))) (fun rs =>
  match rs with
  | [] => Done ([], true)
  | _ => match filter (fun c => negb (deprecated_child c)) children with
         | [] => whole toks t
         | _ => Done (rs, true)
         end
  end).

(** L284-291: the trees [ts] of a list at [p], one after the other, and what [inner] says of them *)
Definition each_tree (inner : elem -> nat -> outcome (list trange * bool)) : list elem -> nat -> outcome (list trange * bool) :=
  fix trees (ts : list elem) (p : nat) : outcome (list trange * bool) :=
    match ts with
    | [] => Done ([], false)
    | c :: ts' =>
        obind_o (if negb (is_tok c) && skind_eqb (kind_of c) USE_TREE then inner c p else Done ([], false))
        (fun r => obind_o (trees ts' (p + len_of c)) (fun rest => Done (fst r ++ fst rest, snd r || snd rest)))
    end.
(** [use_tree.use_tree_list()] among the children at [p], and what is done with the list's trees *)
Definition in_list {A} (f : list elem -> nat -> A) : list elem -> nat -> option A :=
  fix lists (l : list elem) (p : nat) : option A :=
    match l with
    | [] => None
    | Tok _ s :: l' => lists l' (p + bytes s)
    | Node k ts as c :: l' => if skind_eqb k USE_TREE_LIST then Some (f ts p) else lists l' (p + len_of c)
    end.
(** L219-305 [deprecated_imports_inner] for the tree [e] at [o]: the ranges to remove, and whether other items are imported *)
Fixpoint deprecated_inner (toks : list leaf) (e : elem) (o : nat) : outcome (list trange * bool) :=
  match child_node PATH (o, e) with
  | Some p =>
      if deprecated_path p then whole toks (o, e)
      else if str_eqb (text_of (snd p)) (lit "ink_e2e") then from_e2e toks (o, e)
      else Done ([], true)
  | None =>
      match e with
      | Tok _ _ => Done ([], true)
      | Node _ cs =>
          match in_list (each_tree (deprecated_inner toks)) cs o with
          | None => Done ([], true)
          | Some local =>
              obind_o local (fun r =>
              match fst r with
              | [] => Done ([], true)
              | _ => if snd r then Done (fst r, true) else whole toks (o, e)
              end)
          end
      end
  end.

(** L191-210: the ranges deleted for one [use] item *)
Definition use_removals (toks : list leaf) (u : lelem) : outcome (list trange) :=
  match child_node USE_TREE u with
  | Some t =>
      obind_o (deprecated_inner toks (snd t) (fst t)) (fun r =>
      match fst r with
      | [] => Done []
      | _ => if snd r then Done (fst r) else obind_o (node_and_delimiter_range toks u COMMA) (fun w => Done [w])
      end)
  | None => Done []
  end.

(** L180-190: where imports are looked for: the module right around the test, else the file. [parent] is the result of
    [ink_analyzer_ir::parent_ast_item] for the test's function, [root] the last of its ancestors. *)
Definition import_scope (parent : option lelem) (root : lelem) : option lelem :=
  match parent with
  | Some m => if skind_eqb (lkind m) MODULE then Some m else if skind_eqb (lkind root) SOURCE_FILE then Some root else None
  | None => if skind_eqb (lkind root) SOURCE_FILE then Some root else None
  end.

(** L177-212 [deprecated_imports] *)
Definition deprecated_imports (toks : list leaf) (parent : option lelem) (root : lelem) : outcome (list text_edit) :=
  match import_scope parent root with
  | Some scope => obind_o (all_done (map (use_removals toks) (uses_in scope))) (fun rs => Done (map delete_edit (concat rs)))
  | None => Done []
  end.
