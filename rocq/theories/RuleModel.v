(** Model of the rules for the items of a contract (functions, traits, structs, impl blocks) and of their quick
    fixes: crates/analyzer/src/analysis/diagnostics/common.rs L1196-1690, message.rs, contract/constructor.rs,
    contract/ink_impl.rs L102-277, chain_extension/extension_fn.rs, event.rs, and the ranges of
    analysis/utils.rs L1285-1532. *)
From Verif Require Import Base PositionModel TranslateModel SyntaxModel AttrModel EditModel ArgEditModel.

(** ** Kinds of syntax (ra_ap_syntax [SyntaxKind]) without a name in [SyntaxModel] *)
Definition CONST_KW := OTHER 100.    Definition ASYNC_KW := OTHER 101.   Definition UNSAFE_KW := OTHER 102.
Definition DEFAULT_KW := OTHER 103.  Definition AUTO_KW := OTHER 104.    Definition AMP := OTHER 105.
Definition DOT3 := OTHER 106.        Definition COLON := OTHER 107.
Definition VISIBILITY := OTHER 110.  Definition ABI := OTHER 111.        Definition NAME := OTHER 112.
Definition GENERIC_PARAM_LIST := OTHER 113.  Definition PARAM_LIST := OTHER 114.
Definition SELF_PARAM := OTHER 115.  Definition PARAM := OTHER 116.      Definition RET_TYPE := OTHER 117.
Definition BLOCK_EXPR := OTHER 118.  Definition STMT_LIST := OTHER 119.  Definition TYPE_BOUND_LIST := OTHER 120.
Definition CONST := OTHER 121.       Definition MACRO_CALL := OTHER 122. Definition TYPE_ALIAS := OTHER 123.
(** The kinds of [ast::Type] *)
Definition is_type (k : skind) : bool := match k with OTHER n => (130 <=? n) && (n <? 144) | _ => false end.

(** ** Access to children (ra_ap_syntax ast/support.rs [child], [children]; [token] is [child_token]) *)
Definition child_nodes (k : skind) (t : lelem) : list lelem :=
  match snd t with
  | Tok _ _ => []
  | Node _ cs => filter (fun c => negb (is_tok (snd c)) && skind_eqb (lkind c) k) (place (fst t) cs)
  end.
Definition child_node (k : skind) (t : lelem) : option lelem := hd_error (child_nodes k t).
(** [RetType::ty] *)
Definition child_type (t : lelem) : option lelem :=
  match snd t with
  | Tok _ _ => None
  | Node _ cs => find (fun c => negb (is_tok (snd c)) && is_type (lkind c)) (place (fst t) cs)
  end.
Definition lf_range (t : leaf) : trange := (lf_start t, lf_end t).
Definition lrange_of (e : lelem) : trange := (lstart e, lend e).

(** ** Ranges *)

(** ir tree/ast_ext.rs L48-58 [closest_non_trivia_token] on the tokens reached by repeating the step *)
Definition closest_solid (l : list leaf) : option leaf :=
  closest_which (fun x => negb (is_trivia (lf_kind x))) (fun x => negb (is_trivia (lf_kind x))) l.
(** utils.rs L1445-1453 [token_and_trivia_range] *)
Definition token_and_trivia_range (toks : list leaf) (t : leaf) : outcome trange :=
  mk_range (lf_start t) (match closest_solid (leaves_after toks t) with Some x => lf_start x | None => lf_end t end).
(** utils.rs L1456-1466 [node_and_trivia_range] *)
Definition node_and_trivia_range (toks : list leaf) (n : lelem) : outcome trange :=
  obind_o (match elem_last_leaf n with Some t => token_and_trivia_range toks t | None => Done (lrange_of n) end)
          (fun r => mk_range (lstart n) (snd r)).
(** utils.rs L1505-1530 [node_and_delimiter_range] *)
Definition node_and_delimiter_range (toks : list leaf) (n : lelem) (k : skind) : outcome trange :=
  obind_o (match elem_last_leaf n with
           | Some t => token_and_delimiter_range toks t k
           | None => Done (lrange_of n)
           end) (fun er =>
  let e := snd er in
  obind_o (match (if e =? lend n then elem_first_leaf n else None) with
           | Some t => token_and_delimiter_range toks t k
           | None => Done (lrange_of n)
           end) (fun sr => mk_range (fst sr) e)).

(** ra_ap_syntax [Comment::is_doc] ([CommentKind::from_text]: the first prefix of its table that fits) *)
Definition is_doc (t : str) : bool :=
  if starts_with (lit "/**/") t || starts_with (lit "/***") t || starts_with (lit "////") t then false
  else starts_with (lit "///") t || starts_with (lit "//!") t || starts_with (lit "/**") t || starts_with (lit "/*!") t.
(** [HasDocComments::doc_comments] (the doc comments among the direct children), [HasAttrs::attrs]; the last *)
Definition last_doc (item : lelem) : option leaf :=
  match snd item with
  | Tok _ _ => None
  | Node _ cs => last_opt (filter_map (fun c => match snd c with
                                                | Tok COMMENT s => if is_doc s then Some (fst c, (COMMENT, s)) else None
                                                | _ => None
                                                end) (place (fst item) cs))
  end.
Definition last_attr_leaf (item : lelem) : option leaf := obind (last_opt (child_nodes ATTR item)) elem_last_leaf.
(** utils.rs L1285-1402 [ast_item_declaration_range], the start, and the end for a [fn] *)
Definition declaration_start (toks : list leaf) (item : lelem) : nat :=
  let from := match last_doc item, last_attr_leaf item with
              | Some c, Some a => Some (if lf_end a <=? lf_end c then c else a)
              | Some c, None => Some c
              | None, o => o
              end in
  match obind from (fun t => closest_solid (leaves_after toks t)) with
  | Some t => lf_start t
  | None => lstart item
  end.
Definition fn_declaration_range (toks : list leaf) (item : lelem) : outcome (option trange) :=
  let e := match child_node BLOCK_EXPR item with
           | Some b => Some (match child_node STMT_LIST b with
                             | Some s => match child_token L_CURLY s with Some c => lf_end c | None => lend s end
                             | None => lend b
                             end)
           | None => option_map lf_end (child_token SEMICOLON item)
           end in
  match e with
  | Some e => obind_o (mk_range (declaration_start toks item) e) (fun r => Done (Some r))
  | None => Done None
  end.

(** ** Diagnostics *)

(** The messages: which rule is broken. *)
Inductive rule :=
  | RVisibility | RPub | RInherited | RGenerics | RConst | RAsync | RUnsafe | RAbi | RVariadic | RDefault
  | RNoReceiver | RReceiver | RReturn | RReturnSelf | RAuto | RSupertraits
  | RAssocConst | RAssocMacro | RAssocType | RBody.

(** A diagnostic: the broken rule, the range and the edits of each quick fix. *)
Record rdiag := RDiag { rd_rule : rule; rd_range : trange; rd_fixes : list (list text_edit) }.

Definition one_fix (r : rule) (at_range range : trange) : rdiag := RDiag r at_range [[edit_delete range]].
(** The results of one check, in an [outcome] because ranges are asserted to be ordered ([TextRange::new]) *)
Definition check := outcome (list rdiag).
Definition none : check := Done [].
Definition both (a b : check) : check := obind_o a (fun x => obind_o b (fun y => Done (x ++ y))).
Fixpoint checks (l : list check) : check := match l with [] => none | c :: l' => both c (checks l') end.

(** A keyword that must not be there: common.rs L1362-1408, L1534-1564; ink_impl.rs L104-134 *)
Definition no_keyword (r : rule) (k : skind) (toks : list leaf) (item : lelem) : check :=
  match child_token k item with
  | Some t => obind_o (token_and_trivia_range toks t) (fun rg => Done [one_fix r (lf_range t) rg])
  | None => none
  end.
(** common.rs L1297-1314 [ensure_no_generics], event.rs L66-84 [ensure_no_generics_on_struct] *)
Definition no_generics (item : lelem) : check :=
  match child_node GENERIC_PARAM_LIST item with
  | Some g => Done [one_fix RGenerics (lrange_of g) (lrange_of g)]
  | None => none
  end.
(** common.rs L1410-1424 *)
Definition no_abi (toks : list leaf) (item : lelem) : check :=
  match child_node ABI item with
  | Some a => obind_o (node_and_trivia_range toks a) (fun rg => Done [one_fix RAbi (lrange_of a) rg])
  | None => none
  end.
(** common.rs L1426-1449 *)
Definition no_variadic (toks : list leaf) (item : lelem) : check :=
  match child_node PARAM_LIST item with
  | Some pl =>
      checks (map (fun p => match child_token DOT3 p with
                            | Some t => obind_o (token_and_delimiter_range toks t COMMA)
                                                (fun rg => Done [one_fix RVariadic (lf_range t) rg])
                            | None => none
                            end) (child_nodes PARAM pl))
  | None => none
  end.
(** common.rs L1353-1450 [ensure_fn_invariants] *)
Definition fn_invariants (toks : list leaf) (item : lelem) : check :=
  checks [no_generics item; no_keyword RConst CONST_KW toks item; no_keyword RAsync ASYNC_KW toks item;
          no_keyword RUnsafe UNSAFE_KW toks item; no_abi toks item; no_variadic toks item].

Definition pub : str := lit "pub".
(** common.rs L1458-1519 [ensure_callable_invariants]; without a visibility the check succeeds, so that the
    alternatives of L1482-1491 are never reached. *)
Definition pub_or_inherited (toks : list leaf) (item : lelem) : check :=
  match child_node VISIBILITY item with
  | Some v =>
      if str_eqb (text_of (snd v)) pub then none
      else obind_o (node_and_trivia_range toks v) (fun rg =>
           Done [RDiag RVisibility (lrange_of v) [[edit_replace pub (lrange_of v)]; [edit_delete rg]]])
  | None => none
  end.
Definition callable_invariants (toks : list leaf) (item : lelem) : check :=
  both (pub_or_inherited toks item) (fn_invariants toks item).

(** common.rs L1278-1294 [ensure_no_self_receiver] *)
Definition no_self_receiver (toks : list leaf) (item : lelem) : check :=
  match obind (child_node PARAM_LIST item) (child_node SELF_PARAM) with
  | Some sp => obind_o (node_and_delimiter_range toks sp COMMA) (fun rg => Done [one_fix RNoReceiver (lrange_of sp) rg])
  | None => none
  end.
(** The declaration range or else the range of the item *)
Definition fn_range (toks : list leaf) (item : lelem) : outcome trange :=
  obind_o (fn_declaration_range toks item) (fun r => Done (match r with Some r => r | None => lrange_of item end)).
(** constructor.rs L64-95 [ensure_return_type] *)
Definition return_type (toks : list leaf) (item : lelem) : check :=
  obind_o (fn_range toks item) (fun rg =>
  match obind (child_node RET_TYPE item) child_type with
  | Some _ => none
  | None => Done [RDiag RReturn rg
                    (match child_node PARAM_LIST item with
                     | Some pl => [[edit_insert_snippet (lit " -> Self") (lend pl) (Some (lit " -> ${1:Self}"))]]
                     | None => []
                     end)]
  end).
(** message.rs L58-106 [ensure_receiver_is_self_ref] *)
Definition self_ref_receiver (toks : list leaf) (item : lelem) : check :=
  let pl := child_node PARAM_LIST item in
  obind_o (fn_range toks item) (fun rg =>
  if is_some (obind (obind pl (child_node SELF_PARAM)) (child_token AMP)) then none
  else Done [RDiag RReceiver rg
               (match obind pl (child_token L_PAREN) with
                | Some p =>
                    let suffix := if is_some (obind pl (child_node PARAM)) then comma_sp else [] in
                    [[edit_insert (lit "&self" ++ suffix) (lf_end p)];
                     [edit_insert (lit "&mut self" ++ suffix) (lf_end p)]]
                | None => []
                end)]).
(** message.rs L113-128 [ensure_not_return_self] *)
Definition not_return_self (toks : list leaf) (item : lelem) : check :=
  match child_node RET_TYPE item with
  | Some rt =>
      match child_type rt with
      | Some ty =>
          obind_o (node_and_trivia_range toks rt) (fun rg =>
          if str_eqb (text_of (snd ty)) (lit "Self") then Done [one_fix RReturnSelf (lrange_of ty) rg] else none)
      | None => none
      end
  | None => none
  end.

(** The functions of a contract and what is checked for each: constructor.rs L19-57, message.rs L19-51,
    extension_fn.rs L23-63; the generic checks and the checks of attributes around them are modelled elsewhere. *)
Inductive fn_entity := EConstructor | EMessage | EExtension.
Definition fn_diags (e : fn_entity) (toks : list leaf) (item : lelem) : check :=
  match e with
  | EConstructor => checks [callable_invariants toks item; no_self_receiver toks item; return_type toks item]
  | EMessage => checks [callable_invariants toks item; self_ref_receiver toks item; not_return_self toks item]
  | EExtension => checks [fn_invariants toks item; no_self_receiver toks item]
  end.

(** *** Visibility that must be [pub]: common.rs L1196-1245 (struct), L1569-1612 (trait), ink_impl.rs L210-274 (functions
    of inherent impl blocks). [range]: the reported range if there is no visibility,
    computed only then; [starts]: the first tokens of
    the parts that can follow, in the order in which they are tried. *)
Definition must_be_pub (range : outcome trange) (starts : list (option leaf)) (item : lelem) : check :=
  match child_node VISIBILITY item with
  | Some v =>
      if str_eqb (text_of (snd v)) pub then none
      else Done [RDiag RPub (lrange_of v) [[edit_replace pub (lrange_of v)]]]
  | None =>
      obind_o range (fun rg =>
      Done [RDiag RPub rg
              (match find_map (fun t => t) starts with
               | Some t => [[edit_replace (pub ++ lit " ") (lf_start t, lf_start t)]]
               | None => []
               end)])
  end.
Definition tok (k : skind) (item : lelem) : option leaf := child_token k item.
(** ink_impl.rs L182-276: a function of an impl block of a trait, or of an inherent impl block *)
Definition fn_visibility (of_trait : bool) (toks : list leaf) (item : lelem) : check :=
  if of_trait then
    match child_node VISIBILITY item with
    | Some v => obind_o (node_and_trivia_range toks v) (fun rg => Done [one_fix RInherited (lrange_of v) rg])
    | None => none
    end
  else
    must_be_pub (fn_range toks item)
      [tok DEFAULT_KW item; tok CONST_KW item; tok ASYNC_KW item; tok UNSAFE_KW item;
       obind (child_node ABI item) elem_first_leaf; tok FN_KW item] item.

(** common.rs L1317-1343 [ensure_no_trait_bounds] *)
Definition no_supertraits (item : lelem) : check :=
  match child_node TYPE_BOUND_LIST item with
  | Some b =>
      obind_o (mk_range (match child_token COLON item with Some c => lf_start c | None => lstart b end) (lend b))
              (fun rg => Done [one_fix RSupertraits rg rg])
  | None => none
  end.
(** common.rs L1529-1619 [ensure_trait_invariants] *)
Definition trait_invariants (toks : list leaf) (item : lelem) : check :=
  checks [no_keyword RUnsafe UNSAFE_KW toks item; no_keyword RAuto AUTO_KW toks item; no_generics item;
          must_be_pub (Done (lrange_of item)) [tok UNSAFE_KW item; tok AUTO_KW item; tok TRAIT_KW item] item;
          no_supertraits item].
(** common.rs L1196-1245 [ensure_pub_struct] for a struct, event.rs L20-60 *)
Definition event_invariants (item : lelem) : check :=
  checks [must_be_pub (Done (lrange_of item)) [tok STRUCT_KW item] item; no_generics item].
(** ink_impl.rs L102-138: the keywords and parameters of an impl block *)
Definition impl_invariants (toks : list leaf) (item : lelem) : check :=
  checks [no_keyword RDefault DEFAULT_KW toks item; no_keyword RUnsafe UNSAFE_KW toks item; no_generics item].

Inductive item_entity := ITrait | IEvent | IImpl.
Definition item_diags (e : item_entity) (toks : list leaf) (item : lelem) : check :=
  match e with
  | ITrait => trait_invariants toks item
  | IEvent => event_invariants item
  | IImpl => impl_invariants toks item
  end.

(** *** Items of a trait: common.rs L1627-1692 [ensure_trait_item_invariants] for trait definitions, with the handler
    of trait_definition.rs L158-171 for associated types; what is checked of a function itself is [fn_diags]. *)
Definition trait_item_diags (item : lelem) : check :=
  match child_node ASSOC_ITEM_LIST item with
  | Some l =>
      match snd l with
      | Tok _ _ => none
      | Node _ cs =>
          checks (map (fun c =>
            if is_tok (snd c) then none
            else if skind_eqb (lkind c) CONST then Done [one_fix RAssocConst (lrange_of c) (lrange_of c)]
            else if skind_eqb (lkind c) MACRO_CALL then Done [one_fix RAssocMacro (lrange_of c) (lrange_of c)]
            else if skind_eqb (lkind c) TYPE_ALIAS then Done [one_fix RAssocType (lrange_of c) (lrange_of c)]
            else if skind_eqb (lkind c) FN then
              match child_node BLOCK_EXPR c with
              | Some b => Done [one_fix RBody (lrange_of b) (lrange_of b)]
              | None => none
              end
            else none) (place (fst l) cs))
      end
  | None => none
  end.
