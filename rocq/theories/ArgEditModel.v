(** Model of the edits that remove and insert attribute arguments: crates/analyzer/src/analysis/utils.rs
    L1000-1187, L1468-1624 and the quick fixes and migrations built from them. *)
From Verif Require Import Base PositionModel TranslateModel SyntaxModel AttrModel.

(** ** Tokens of a file *)

(** A token with its start offset ([SyntaxToken]). *)
Definition leaf := (nat * (skind * str))%type.
Definition lf_kind (t : leaf) : skind := fst (snd t).
Definition lf_start (t : leaf) : nat := fst t.
Definition lf_end (t : leaf) : nat := fst t + bytes (snd (snd t)).

(** The tokens of a file (or of a part that starts at [o]) with their offsets. *)
Fixpoint place_leaves (o : nat) (l : list (skind * str)) : list leaf :=
  match l with
  | [] => []
  | t :: l' => (o, t) :: place_leaves (o + bytes (snd t)) l'
  end.

(** rowan [SyntaxToken::next_token] / [prev_token], repeated: all tokens of the file after (before) a token,
    nearest first. *)
Definition leaves_after (toks : list leaf) (t : leaf) : list leaf :=
  filter (fun x => lf_end t <=? lf_start x) toks.
Definition leaves_before (toks : list leaf) (t : leaf) : list leaf :=
  rev (filter (fun x => lf_end x <=? lf_start t) toks).

(** ir tree/ast_ext.rs L61-81 [closest_item_which], on the list of tokens reached by repeating the step *)
Fixpoint closest_which (goal halt : leaf -> bool) (l : list leaf) : option leaf :=
  match l with
  | [] => None
  | x :: l' => if goal x then Some x else if halt x then None else closest_which goal halt l'
  end.
(** The goal and halt conditions of [token_and_delimiter_range]. *)
Definition closest_delimiter (k : skind) (l : list leaf) : option leaf :=
  closest_which (fun x => skind_eqb (lf_kind x) k) (fun x => negb (is_trivia (lf_kind x))) l.

(** utils.rs L1469-1502 [token_and_delimiter_range] *)
Definition token_and_delimiter_range (toks : list leaf) (t : leaf) (k : skind) : outcome trange :=
  let next := closest_delimiter k (leaves_after toks t) in
  let prev := match next with None => closest_delimiter k (leaves_before toks t) | Some _ => None end in
  mk_range (lf_start (match prev with Some p => p | None => t end))
           (lf_end (match next with Some n => n | None => t end)).

(** rowan [SyntaxNode::first_token] / [last_token], and the token itself. *)
Definition elem_first_leaf (e : lelem) : option leaf := hd_error (place_leaves (fst e) (leaves (snd e))).
Definition elem_last_leaf (e : lelem) : option leaf := last_opt (place_leaves (fst e) (leaves (snd e))).

(** utils.rs L1539-1542 *)
Definition meta_last_leaf (m : meta) : option leaf := obind (last_opt (meta_elements m)) elem_last_leaf.
(** utils.rs L1584-1613 *)
Definition meta_first_leaf (m : meta) : option leaf :=
  oor (match m_name m with
       | MOk n => elem_first_leaf n
       | MErr l => obind (last_opt l) elem_first_leaf
       | MNone => None
       end)
  (oor (obind (m_eq m) elem_first_leaf)
       (obind (match m_value m with
               | MOk v => hd_error (mv_elements v)
               | MErr l => hd_error l
               | MNone => None
               end) elem_first_leaf)).

(** utils.rs L1533-1624 [ink_arg_and_delimiter_removal_range]. [parent] is the given attribute, or else the ink!
    attribute around the argument (L1545-1553). *)
Definition arg_removal_range (toks : list leaf) (arg : ink_arg) (parent : option ink_attr) : outcome trange :=
  let whole :=
    match parent with
    | Some a =>
        if length (at_args a) =? 1 then
          match at_kind a with
          | AkMacro _ => option_map (fun t => (lstart t, lend t)) (as_token_tree (at_syntax a))
          | AkArg _ => Some (as_range (at_syntax a))
          end
        else None
    | None => None
    end in
  match whole with
  | Some r => Done r
  | None =>
      obind_o (meta_range arg) (fun r =>
      obind_o (match meta_last_leaf arg with
               | Some t => token_and_delimiter_range toks t COMMA
               | None => Done r
               end) (fun er =>
      let e := snd er in
      obind_o (match (if e =? snd r then meta_first_leaf arg else None) with
               | Some t => token_and_delimiter_range toks t COMMA
               | None => Done r
               end) (fun sr => mk_range (fst sr) e)))
  end.

(** ** Insertion *)

(** [support::token]: the first direct child token of the kind. *)
Definition child_token (k : skind) (t : lelem) : option leaf :=
  match snd t with
  | Tok _ _ => None
  | Node _ cs =>
      find_map (fun c => match snd c with
                         | Tok k' s => if skind_eqb k' k then Some (fst c, (k', s)) else None
                         | Node _ _ => None
                         end) (place (fst t) cs)
  end.

Definition is_kind (ks : list skind) (t : leaf) : bool := existsb (skind_eqb (lf_kind t)) ks.
Definition comma_sp : str := lit ", ".
(** The separator is left out next to one of these tokens. *)
Definition sep_unless (ks : list skind) (t : option leaf) : option str :=
  match t with Some t => if is_kind ks t then None else Some comma_sp | None => None end.

(** Offset, prefix and suffix of an insertion. *)
Definition insertion := (nat * (option str * option str))%type.
(** utils.rs L1006-1123 [ink_arg_insert_offset_and_affixes]: [rb] is the closing bracket of the attribute, [tt]
    its token tree, [primary]: the argument is of an entity type (L1012-1014). *)
Definition arg_insert_place (toks : list leaf) (rb : option leaf) (tt : option lelem) (primary : bool)
  : option insertion :=
  match rb with
  | None => None
  | Some rb =>
      match tt with
      | None => Some (lf_start rb, (Some (lit "("), Some (lit ")")))
      | Some t =>
          let l := child_token L_PAREN t in
          let r := child_token R_PAREN t in
          let offset :=
            if primary then match l with Some p => lf_end p | None => lend t end
            else match r with Some p => lf_start p | None => lend t end in
          let prefix :=
            match l with
            | Some _ =>
                if primary then None
                else oor (obind r (fun p => sep_unless [COMMA; L_PAREN] (hd_error (leaves_before toks p))))
                         (sep_unless [COMMA; L_PAREN; R_PAREN] (elem_last_leaf t))
            | None => Some (lit "(")
            end in
          let suffix :=
            match r with
            | Some _ =>
                if primary
                then oor (obind l (fun p => sep_unless [COMMA; R_PAREN] (hd_error (leaves_after toks p))))
                         (sep_unless [COMMA; L_PAREN; R_PAREN] (elem_first_leaf t))
                else None
            | None => Some (lit ")")
            end in
          Some (offset, (prefix, suffix))
      end
  end.

(** utils.rs L1135-1187 [first_ink_arg_insert_offset_and_affixes] *)
Definition first_arg_insert_place (args : list ink_arg) (rb : option leaf) (tt : option lelem)
  : outcome (option insertion) :=
  match args with
  | a :: _ => obind_o (meta_range a) (fun r => Done (Some (fst r, (None, Some comma_sp))))
  | [] =>
      Done (oor (obind tt (fun t => option_map
                   (fun l => (lf_end l, (None, match child_token R_PAREN t with Some _ => None | None => Some (lit ")") end)))
                   (child_token L_PAREN t)))
           (oor (obind tt (fun t => option_map
                   (fun r => (lf_start r, (match child_token L_PAREN t with Some _ => None | None => Some (lit "(") end, None)))
                   (child_token R_PAREN t)))
                (option_map (fun b => (lf_start b, (Some (lit "("), Some (lit ")")))) rb)))
  end.

(** The inserted text: [format!("{prefix}{arg}{suffix}")] (all callers) as an edit. *)
Definition insert_edit (p : insertion) (text : str) : text_edit :=
  let '(o, (pre, suf)) := p in
  let s := fun x : option str => match x with Some x => x | None => [] end in
  TextEdit (s pre ++ text ++ s suf) (o, o) None.
Definition delete_edit (r : trange) : text_edit := TextEdit [] r None.

(** ** Actions with several edits *)

(** Collects the results of a computation that may panic. *)
Fixpoint all_done {A} (l : list (outcome A)) : outcome (list A) :=
  match l with
  | [] => Done []
  | o :: l' => obind_o o (fun a => obind_o (all_done l') (fun r => Done (a :: r)))
  end.
(** diagnostics/common.rs L1040-1078: the quick fix that removes the conflicting arguments [bad] of an attribute
    (all of them: the whole attribute; [Action::remove_attribute] deletes its range, actions.rs L62-74). *)
Definition remove_conflicting (toks : list leaf) (a : ink_attr) (bad : ink_arg -> bool) : outcome (list text_edit) :=
  let conflicting := filter bad (at_args a) in
  if length conflicting =? length (at_args a) then Done [delete_edit (as_range (at_syntax a))]
  else all_done (map (fun x => obind_o (arg_removal_range toks x (Some a)) (fun r => Done (delete_edit r))) conflicting).

(** diagnostics/common.rs L794-851: make the argument [x] of the attribute its first argument. *)
Definition make_first (toks : list leaf) (a : ink_attr) (rb : option leaf) (x : ink_arg) : outcome (list text_edit) :=
  obind_o (first_arg_insert_place (at_args a) rb (as_token_tree (at_syntax a))) (fun p =>
  match p with
  | None => Done []
  | Some p => obind_o (arg_removal_range toks x (Some a)) (fun r =>
                Done [insert_edit p (meta_str x); delete_edit r])
  end).

(** migrate/e2e_test.rs L38-62 [attribute]. The arguments of an e2e test are looked up by kind (ir tree/utils.rs
    L116-118 [ink_arg_by_kind]); simplified to functions with one ink! attribute. *)
Definition arg_of_kind (k : arg_kind) (a : ink_attr) : option ink_arg :=
  find (fun x => arg_kind_eqb (ia_kind x) k) (at_args a).
Definition migrate_e2e_attribute (toks : list leaf) (a : ink_attr) : outcome (list text_edit) :=
  let environment := arg_of_kind AEnvironment a in
  let additional := arg_of_kind AAdditionalContracts a in
  let keep := arg_of_kind AKeepAttr a in
  if negb (is_some environment) && (is_some additional || is_some additional) then
    Done (match as_token_tree (at_syntax a) with Some t => [delete_edit (lstart t, lend t)] | None => [] end)
  else
    let del := fun x : option ink_arg =>
      match x with
      | Some x => obind_o (arg_removal_range toks x (Some a)) (fun r => Done [delete_edit r])
      | None => Done []
      end in
    obind_o (del additional) (fun l1 => obind_o (del keep) (fun l2 => Done (l1 ++ l2))).
