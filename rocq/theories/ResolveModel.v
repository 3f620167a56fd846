(** Model of the use trees and path resolution of crates/ir/src/tree/ast_ext.rs and of
    crates/analyzer/src/resolution.rs. *)
From Verif Require Import Base Unicode PositionModel TranslateModel CommandModel CallableModel.

(** ** Paths *)

(** What the code reads from a path segment ([ast::PathSegment]): whether it starts with [::], its word ([crate],
    [self] and [super] are name references too; [WBad]: a segment without one, e.g. [*]) and the text of what
    follows (generic arguments). *)
Inductive word := WCrate | WSelf | WSuper | WName (s : str) | WBad (s : str).
Record seg := Seg { sg_colons : bool; sg_word : word; sg_tail : str }.
Definition rpath := list seg.
Definition word_text (w : word) : str :=
  match w with
  | WCrate => lit "crate" | WSelf => lit "self" | WSuper => lit "super" | WName s => s | WBad s => s
  end.
Definition seg_text (s : seg) : str := (if sg_colons s then lit "::" else []) ++ word_text (sg_word s) ++ sg_tail s.
(** ast_ext.rs L318-323 [path_to_string]; paths are taken without white space and comments in them. *)
Definition path_text (p : rpath) : str := join_colons (map seg_text p).
(** [PathSegment::name_ref] *)
Definition seg_name (s : seg) : option str := match sg_word s with WBad _ => None | w => Some (word_text w) end.
(** [Path::segment], [Path::qualifier] *)
Definition last_seg (p : rpath) : option seg := last_opt p.
Definition qualifier (p : rpath) : option rpath := match p with [] | [_] => None | _ => Some (removelast p) end.

(** ** Use trees *)

(** [ast::UseTree]: its path, what follows it and its alias ([rename]: a name or [_]). *)
Inductive use_tree := UseTree (path : option path_syntax) (tail : use_tail) (alias : option str)
with use_tail := UNone | UStar | UList (l : list use_tree).

(** ast_ext.rs L400-402 [remove_whitespace] *)
Definition no_spaces (s : str) : str := filter (fun c => negb (N.eqb c 32)) s.
(** ast_ext.rs L361-381 [add_prefix] *)
Definition add_prefix (path : option path_syntax) (subs : list (str * option str)) : list (str * option str) :=
  match path with
  | None => filter (fun x => negb (str_eqb (fst x) (lit "self"))) subs
  | Some p => map (fun x => (if str_eqb (fst x) (lit "self") then ps_text p else ps_text p ++ lit "::" ++ fst x, snd x)) subs
  end.
(** ast_ext.rs L352-398 [flatten_use_tree] *)
Fixpoint flatten_use_tree (t : use_tree) : list (str * option str) :=
  match t with
  | UseTree path (UList l) _ =>
      add_prefix path ((fix go (l : list use_tree) := match l with [] => [] | s :: l' => flatten_use_tree s ++ go l' end) l)
  | UseTree path UStar alias => add_prefix path [(lit "*", alias)]
  | UseTree (Some p) UNone alias => [(no_spaces (ps_text p), alias)]
  | UseTree None UNone _ => []
  end.

(** ** Syntax nodes *)

(** The nodes that matter for resolution; others are [DOther]. [DNamed k]: items of other kinds with a name (structs,
    enums and unions: 0, 1, 2). [DImpl]: the paths of the trait and of the type, where they are paths. *)
Inductive sdata :=
  | DRoot
  | DModule (name : option str)
  | DItemList
  | DFn (name : option str)
  | DBlock
  | DStmtList
  | DUse (t : option use_tree)
  | DTypeAlias (name : option str) (ty : option rpath)
  | DNamed (kind : nat) (name : option str)
  | DImpl (trait self_ty : option rpath)
  | DOther.
(** A node; [id] stands for its identity (its kind and range). *)
Inductive snode := SNode (id : nat) (data : sdata) (children : list snode).
Definition n_id (n : snode) : nat := let 'SNode i _ _ := n in i.
Definition n_data (n : snode) : sdata := let 'SNode _ d _ := n in d.
Definition n_children (n : snode) : list snode := let 'SNode _ _ c := n in c.
Definition n_name (n : snode) : option str :=
  match n_data n with DModule o | DFn o | DTypeAlias o _ | DNamed _ o => o | _ => None end.
Definition is_module (n : snode) : bool := match n_data n with DModule _ => true | _ => false end.
(** A node in its file: the node and its ancestors, innermost first. *)
Definition place := (snode * list snode)%type.
Definition children_at (l : place) : list place := map (fun c => (c, fst l :: snd l)) (n_children (fst l)).
Definition parent_at (l : place) : option place :=
  match snd l with [] => None | p :: up => Some (p, up) end.
(** [SyntaxNode::ancestors]: the node itself comes first. *)
Fixpoint ancestors_from (n : snode) (up : list snode) : list place :=
  (n, up) :: match up with [] => [] | p :: up' => ancestors_from p up' end.
Definition ancestors_at (l : place) : list place := ancestors_from (fst l) (snd l).
Definition same_node (a b : place) : bool := Nat.eqb (n_id (fst a)) (n_id (fst b)).
Definition named (name : str) (n : snode) : bool := match n_name n with Some s => str_eqb s name | None => false end.

(** ast_ext.rs L326-347 [resolve_item_list_root] *)
Definition item_list_root (l : place) : place :=
  match n_data (fst l) with
  | DModule _ =>
      match find (fun c => match n_data (fst c) with DItemList => true | _ => false end) (children_at l) with
      | Some c => c | None => l
      end
  | DFn _ =>
      match obind (find (fun c => match n_data (fst c) with DBlock => true | _ => false end) (children_at l))
              (fun b => find (fun c => match n_data (fst c) with DStmtList => true | _ => false end) (children_at b)) with
      | Some c => c | None => l
      end
  | _ => l
  end.

(** ast_ext.rs L174-183 [resolve_current_module] *)
Definition crate_root (l : place) : place := match last_opt (ancestors_at l) with Some r => r | None => l end.
Definition current_module (l : place) : place :=
  if is_module (fst l) then l
  else match find (fun a => is_module (fst a)) (ancestors_at l) with Some m => m | None => crate_root l end.

(** ast_ext.rs L255-299 [simple_use_paths_and_aliases_in_scope]: the paths (a set: each once) and the map from aliases
    to paths. *)
Definition use_results_of (n : snode) : list (str * option str) :=
  match n_data n with
  | DTypeAlias (Some name) (Some ty) => [(path_text ty, Some name)]
  | DUse (Some t) => flatten_use_tree t
  | _ => []
  end.
Definition use_results (l : place) : list (str * option str) :=
  map (fun x => (no_spaces (fst x), snd x)) (flat_map (fun c => use_results_of (fst c)) (children_at (item_list_root l))).
Definition set_add (s : str) (l : list str) : list str := if existsb (str_eqb s) l then l else l ++ [s].
Definition use_paths (l : place) : list str :=
  fold_left (fun acc x => match snd x with None => set_add (fst x) acc | Some _ => acc end) (use_results l) [].
Definition use_aliases (l : place) : list (str * str) :=
  fold_left (fun acc x => match snd x with None => acc | Some a => assoc_set a (fst x) acc end) (use_results l) [].

(** resolution.rs L13-30 [item_path] *)
Definition item_path (l : place) : option str :=
  option_map (fun name =>
    join_colons (lit "crate" :: filter_map (fun a => if is_module (fst a) then n_name (fst a) else None) (ancestors_at l)
                 ++ [name]))
    (n_name (fst l)).

(** ** Resolution *)

(** The result of a computation that is given a bound on its depth: [Spent] if it is not enough. *)
Inductive res (A : Type) := Spent | Ret (a : A).
Arguments Spent {A}.
Arguments Ret {A} _.
Fixpoint find_map_res {A B} (f : A -> res (option B)) (l : list A) : res (option B) :=
  match l with
  | [] => Ret None
  | x :: l' => match f x with Spent => Spent | Ret (Some y) => Ret (Some y) | Ret None => find_map_res f l' end
  end.

Section Resolve.
(** ast_ext.rs L301-307 [path_from_str]: the parser of expressions (external) *)
Variable parse : str -> option rpath.

(** ast_ext.rs L83-104 [resolve_item_path_from_use_scope_and_aliases]; the order of the set of paths is that of the
    declarations here. *)
Definition strip_star (s : str) : option str :=
  if ends_with (lit "::*") s then Some (firstn (length s - 3) s) else None.
Definition use_candidate (name s : str) : option str :=
  if ends_with (lit "::" ++ name) s then Some s
  else option_map (fun p => p ++ lit "::" ++ name) (strip_star s).
Definition candidate_texts (name : str) (l : place) : list str :=
  match assoc name (use_aliases l) with Some p => [p] | None => [] end
  ++ filter_map (use_candidate name) (use_paths l).
Definition candidates (name : str) (l : place) : list rpath :=
  filter (fun p => is_some (qualifier p)) (filter_map parse (candidate_texts name l)).

(** ast_ext.rs L190-199: a child module *)
Definition child_module (name : str) (root : place) : option place :=
  find (fun c => is_module (fst c) && named name (fst c)) (children_at root).

(** ast_ext.rs L185-252 [resolve_qualifier] *)
Fixpoint resolve_qualifier (fuel : nat) (p : rpath) (ref : place) {struct fuel} : res (option place) :=
  match fuel with
  | 0 => Spent
  | S fuel' =>
      let next (name : str) (root : place) : res (option place) :=
        match child_module name root with
        | Some m => Ret (Some m)
        | None =>
            find_map_res (fun q => if str_eqb (path_text q) (path_text p) then Ret None
                                   else resolve_qualifier fuel' q root) (candidates name root)
        end in
      let fix rest (o : option place) (segs : list seg) : res (option place) :=
        match o, segs with
        | None, _ => Ret None
        | Some node, [] => Ret (Some node)
        | Some node, s :: segs' =>
            match seg_name s with
            | None => Ret None
            | Some name => match next name node with Spent => Spent | Ret o' => rest o' segs' end
            end
        end in
      match p with
      | [] => Ret None
      | s :: segs =>
          let first :=
            if sg_colons s then
              match seg_name s with Some name => next name (crate_root ref) | None => Ret None end
            else match sg_word s with
                 | WCrate => Ret (Some (crate_root ref))
                 | WSelf => Ret (Some (current_module ref))
                 | WSuper => Ret (option_map current_module (parent_at (current_module ref)))
                 | _ => match seg_name s with Some name => next name (current_module ref) | None => Ret None end
                 end in
          match first with Spent => Spent | Ret o => rest o segs end
      end
  end.

(** ast_ext.rs L107-172 [resolve_item]; [want]: the nodes of the type of item looked for *)
Fixpoint resolve_item (want : snode -> bool) (fuel : nat) (p : rpath) (ref : place) {struct fuel} : res (option place) :=
  match fuel with
  | 0 => Spent
  | S fuel' =>
      match obind (last_seg p) seg_name with
      | None => Ret None
      | Some name =>
          match
            match qualifier p with
            | Some q => resolve_qualifier fuel' q ref
            | None => Ret (Some (current_module ref))
            end
          with
          | Spent => Spent
          | Ret None => Ret None
          | Ret (Some m) =>
              let root := item_list_root m in
              let through (at_ : place) : res (option place) :=
                find_map_res (fun q => if str_eqb (path_text q) (path_text p) then Ret None
                                       else resolve_item want fuel' q at_) (candidates name at_) in
              match find (fun c => want (fst c) && named name (fst c)) (children_at root) with
              | Some c => Ret (Some c)
              | None =>
                  match through root with
                  | Spent => Spent
                  | Ret (Some c) => Ret (Some c)
                  | Ret None =>
                      if match parent_at ref with Some q => same_node q root | None => false end then through ref
                      else Ret None
                  end
              end
          end
      end
  end.

(** ** Items of other crates *)

(** resolution.rs L291-304 [exhaustive_qualifiers], [is_crate_item_path] *)
Definition exhaustive_qualifiers (l : list str) : list str := flat_map (fun q => [lit "::" ++ q; q]) l.
Definition is_crate_item_path (path : str) (crates : list str) : bool :=
  existsb (fun q => str_eqb path q || starts_with (q ++ lit "::") path) (exhaustive_qualifiers crates).

Definition uses := (list str * list (str * str))%type.
Definition extend_uses (a b : uses) : uses :=
  (fold_left (fun acc s => set_add s acc) (fst b) (fst a), fold_left (fun acc x => assoc_set (fst x) (snd x) acc) (snd b) (snd a)).

(** resolution.rs L353-411 [match_path_to_external_crate_in_scope], given [external_crate_uses_and_aliases_in_scope] *)
Definition target_name (p : rpath) : option str :=
  match obind (last_seg p) seg_name with
  | Some n => Some n
  | None => match qualifier p with
            | Some q => if str_eqb (path_text p) (path_text q ++ lit "::*") then Some (lit "*") else None
            | None => None
            end
  end.
Fixpoint fold_res {A B} (f : B -> A -> res B) (l : list A) (b : B) : res B :=
  match l with [] => Ret b | x :: l' => match f b x with Spent => Spent | Ret b' => fold_res f l' b' end end.
(** One call of either function; [ext] and [mat] are the recursive calls. *)
Definition match_path_step (ext : place -> res uses) (mat : str -> place -> res uses) (fuel : nat) (crates : list str)
    (path : str) (ref : place) : res uses :=
  match parse path with
  | None => Ret ([], [])
  | Some p =>
      match qualifier p, target_name p with
      | Some q, Some name =>
          match resolve_qualifier fuel q ref with
          | Spent => Spent
          | Ret None => Ret ([], [])
          | Ret (Some node) =>
              if str_eqb name (lit "*") then
                match ext node with Spent => Spent | Ret u => Ret (extend_uses ([], []) u) end
              else
                fold_res (fun acc r =>
                  let text := path_text r in
                  if is_crate_item_path text crates then
                    Ret (if ends_with (lit "::" ++ name) text then (set_add text (fst acc), snd acc)
                         else (fst acc, assoc_set name text (snd acc)))
                  else if str_eqb text path then Ret acc
                  else match mat text node with Spent => Spent | Ret u => Ret (extend_uses acc u) end)
                  (candidates name node) ([], [])
          end
      | _, _ => Ret ([], [])
      end
  end.
(** resolution.rs L306-351 [external_crate_uses_and_aliases_in_scope]; the paths and aliases of other crates are taken
    one by one in the order of the list. *)
Definition external_uses_step (mat : str -> place -> res uses) (crates : list str) (ref : place) : res uses :=
  let own := filter (fun s => is_crate_item_path s crates) (use_paths ref) in
  match
    fold_res (fun acc s => if is_crate_item_path s crates then Ret acc
                           else match mat s ref with Spent => Spent | Ret u => Ret (extend_uses acc u) end)
      (use_paths ref) (own, use_aliases ref)
  with
  | Spent => Spent
  | Ret (paths, aliases) =>
      fold_res (fun acc x =>
        if is_crate_item_path (snd x) crates then Ret acc
        else
          let acc' := (fst acc, assoc_del (fst x) (snd acc)) in
          match obind (parse (snd x)) last_seg with
          | None => Ret acc'
          | Some target =>
              match mat (snd x) ref with
              | Spent => Spent
              | Ret u =>
                  match oor (hd_error (fst u)) (assoc (seg_text target) (snd u)) with
                  | Some t => Ret (fst acc', assoc_set (fst x) t (snd acc'))
                  | None => Ret acc'
                  end
              end
          end)
        aliases (paths, aliases)
  end.
Fixpoint match_path (crates : list str) (fuel : nat) (path : str) (ref : place) {struct fuel} : res uses :=
  match fuel with
  | 0 => Spent
  | S fuel' =>
      match_path_step
        (fun node => match fuel' with 0 => Spent | S fuel'' => external_uses_step (match_path crates fuel'') crates node end)
        (match_path crates fuel') fuel' crates path ref
  end.
Definition external_uses (crates : list str) (fuel : nat) (ref : place) : res uses :=
  match fuel with 0 => Spent | S fuel' => external_uses_step (match_path crates fuel') crates ref end.
End Resolve.
