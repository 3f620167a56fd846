(** Model of the recognition of items of other crates and of the checks that use it: crates/analyzer/src/resolution.rs,
    diagnostics/environment.rs, diagnostics/chain_extension/error_code.rs and [ensure_external_trait_impl] of
    diagnostics/common.rs. *)
From Verif Require Import Base Unicode PositionModel TranslateModel CommandModel CallableModel EditModel UtilModel ResolveModel.

(** [str::split("::")], given the reversed characters of the current piece *)
Fixpoint split_path (cur s : str) : list str :=
  match s with
  | [] => [rev cur]
  | c :: s' =>
      match N.eqb c 58, s' with
      | true, d :: s'' => if N.eqb d 58 then rev cur :: split_path [] s'' else split_path (c :: cur) s'
      | _, _ => split_path (c :: cur) s'
      end
  end.
Definition pieces (s : str) : list str := split_path [] s.

(** ** resolution.rs L76-229 [is_external_crate_item] *)

(** L285-291 [is_path_target] *)
Definition is_path_target (name : str) (p : rpath) : bool :=
  match obind (last_seg p) seg_name with Some s => str_eqb s name | None => false end.
(** L84-96 *)
Definition has_qualifier (p : rpath) (qs : list str) (strict : bool) : bool :=
  match qualifier p with
  | Some q => existsb (str_eqb (path_text q)) (if strict then qs else exhaustive_qualifiers qs)
  | None => false
  end.
(** L101-104: the crates *)
Definition crates_of (qs : list str) : list str := map (fun q => hd q (pieces q)) qs.
(** L108-119: the aliases of a path *)
Definition aliases_of (u : uses) (path : str) : list str :=
  map fst (filter (fun x => str_eqb (snd x) path) (snd u)).
(** L122-127, L133-136: the paths that introduce an item *)
Definition item_uses (item : str) (qs : list str) : list str :=
  flat_map (fun prefix => [prefix ++ lit "::" ++ item; prefix ++ lit "::*"]) (exhaustive_qualifiers qs).
Definition item_in_scope (u : uses) (item : str) (qs : list str) : bool :=
  existsb (fun s => existsb (str_eqb s) (fst u)) (item_uses item qs).
(** L129-138 *)
Definition item_aliases (u : uses) (item : str) (qs : list str) : list str := flat_map (aliases_of u) (item_uses item qs).
(** L148-206: one segment of a qualifier, the [idx]-th of [l] *)
Definition anchor_in_scope (u : uses) (p : rpath) (l : list str) (idx : nat) : bool :=
  let anchor := nth idx l [] in
  let pre := join_colons (firstn idx l) in
  let post := join_colons (skipn (S idx) l) in
  let with_post (s : str) : str := s ++ match post with [] => [] | _ => lit "::" end ++ post in
  let top := Nat.eqb idx 0 in
  (has_qualifier p [with_post anchor] (negb top) && (top || item_in_scope u anchor [pre]))
  || has_qualifier p
       (map with_post (if top then flat_map (aliases_of u) (exhaustive_qualifiers [anchor]) else item_aliases u anchor [pre]))
       (negb top).
Definition qualifier_in_scope (u : uses) (p : rpath) (qs : list str) : bool :=
  existsb (fun q => existsb (anchor_in_scope u p (pieces q)) (seq 0 (length (pieces q)))) qs.
(** L140-147, L224-226 (without the type alias) *)
Definition known_in_scope (name : str) (qs : list str) (u : uses) (p : rpath) : bool :=
  (is_path_target name p && ((negb (is_some (qualifier p)) && item_in_scope u name qs) || qualifier_in_scope u p qs))
  || (negb (is_some (qualifier p)) && existsb (fun a => is_path_target a p) (item_aliases u name qs)).
(** L76-229; [DTypeAlias]: type aliases. The second argument of [external_uses] bounds its depth, as in [resolve_item]. *)
Definition is_type_alias (n : snode) : bool := match n_data n with DTypeAlias _ _ => true | _ => false end.
Fixpoint is_external (parse : str -> option rpath) (name : str) (qs : list str) (fuel : nat) (p : rpath) (ref : place)
    {struct fuel} : res bool :=
  match fuel with
  | 0 => Spent
  | S fuel' =>
      if is_path_target name p && has_qualifier p qs false then Ret true
      else
        let root := current_module ref in
        match external_uses parse (crates_of qs) fuel' root with
        | Spent => Spent
        | Ret u =>
            if known_in_scope name qs u p then Ret true
            else
              match resolve_item parse is_type_alias fuel' p root with
              | Spent => Spent
              | Ret None => Ret false
              | Ret (Some t) =>
                  match n_data (fst t) with
                  | DTypeAlias _ (Some ty) => is_external parse name qs fuel' ty t
                  | _ => Ret false
                  end
              end
        end
  end.
