(** Model of inlay hints, hover content and signature help: crates/analyzer/src/analysis/inlay_hints.rs, hover.rs,
    signature_help.rs, the attribute lookup of analysis/utils.rs L1216-1261 and the token lookup of
    crates/ir/src/tree/item_at_offset.rs. *)
From Verif Require Import Base PositionModel VersionModel TranslateModel SyntaxModel AttrModel SuggestModel.

(** ** Inlay hints *)

(** args.rs L539-566 [InkArgValueKind::detail] *)
Definition value_detail (v : arg_value_kind) : str :=
  match v with
  | VPath VPEnvironment => lit "A `ink::env::Environment` implementation."
  | VPath VPSandbox => lit "A `drink::Sandbox` implementation."
  | VString VSCommaList => lit "A comma separated list."
  | VString VSHex => lit "A 32 byte hex string."
  | VString VSIdentifier => lit "A valid Rust identifier."
  | VString VSSpaceList => lit "A space separated list."
  | VString VSUrl => lit "A URL."
  | VArg k true => arg_kind_str k
  | VChoice k1 k2 true => arg_kind_str k1 ++ lit " | " ++ arg_kind_str k2
  | _ => []
  end.

(** [TextRange::contains_range]: [outer.contains_range(inner)] *)
Definition contains_range (outer inner : nat * nat) : bool :=
  (fst outer <=? fst inner) && (snd inner <=? snd outer).

(** [arg.name().map(|name| name.syntax().text_range()).unwrap_or_else(|| arg.text_range())] *)
Definition name_range (a : ink_arg) : outcome (nat * nat) :=
  match m_name a with MOk n => Done (lstart n, lend n) | _ => meta_range a end.

(** inlay_hints.rs L25-53 [process_inlay_hint]: the hint of one argument, with the range it applies to. *)
Definition arg_hint (range : option (nat * nat)) (v : version) (is_constructor : bool) (a : ink_arg)
  : outcome (option (inlay_hint * (nat * nat))) :=
  let included := match range with
                  | None => Done true
                  | Some r => obind_o (meta_range a) (fun ar => Done (contains_range r ar))
                  end in
  obind_o included (fun inc =>
    if inc then
      let k := match v with V5 => value_kind_v5 (ia_kind a) (Some is_constructor) | V4 => value_kind (ia_kind a) end in
      match value_kind_str k with
      | [] => Done None
      | label => obind_o (name_range a) (fun nr =>
          Done (Some (InlayHint (snd nr) label (match value_detail k with [] => None | d => Some d end), nr)))
      end
    else Done None).

(** inlay_hints.rs L60-66: an argument followed by the chain of its nested arguments. *)
Fixpoint nested_chain (a : ink_arg) : list ink_arg :=
  a :: match m_nested a with Some n => nested_chain n | None => [] end.

Fixpoint collect {A B} (f : A -> outcome (option B)) (l : list A) : outcome (list B) :=
  match l with
  | [] => Done []
  | x :: l' => obind_o (f x) (fun y => obind_o (collect f l') (fun ys =>
                 Done (match y with Some b => b :: ys | None => ys end)))
  end.

(** inlay_hints.rs L22-70 [inlay_hints]; [attrs] is [file.tree().ink_attrs_in_scope()] (see TreeModel). *)
Definition inlay_hints (attrs : list ink_attr) (range : option (nat * nat)) (v : version)
  : outcome (list (inlay_hint * (nat * nat))) :=
  collect (fun p => arg_hint range v (fst p) (snd p))
    (flat_map (fun a => map (pair (attr_kind_eqb (at_kind a) (AkArg AConstructor))) (flat_map nested_chain (at_args a)))
       attrs).

(** ** Elements of a file *)

(** An element with its ancestors, innermost first. *)
Definition path := (lelem * list lelem)%type.

(** All elements below (and including) [e] at [o], in document order (parents first). *)
Fixpoint paths (anc : list lelem) (o : nat) (e : elem) : list path :=
  ((o, e), anc) ::
  match e with
  | Tok _ _ => []
  | Node _ cs =>
      (fix go (l : list elem) (p : nat) : list path :=
         match l with [] => [] | c :: l' => paths ((o, e) :: anc) p c ++ go l' (p + len_of c) end) cs o
  end.

(** rowan [SyntaxNode::token_at_offset]: panics outside the node; otherwise the (at most two) non-empty tokens that
    touch the offset. Simplified: the tokens are looked up in the list of all tokens instead of by descent. *)
Definition touches (off : nat) (e : lelem) : bool :=
  negb (len_of (snd e) =? 0) && (lstart e <=? off) && (off <=? lend e).
Definition tokens_at (root : elem) (off : nat) : outcome (list path) :=
  if off <=? len_of root
  then Done (filter (fun p => is_tok (snd (fst p)) && touches off (fst p)) (paths [] 0 root))
  else Panic.

(** item_at_offset.rs L33-47 [focused_token] *)
Definition focused_token (root : elem) (off : nat) : outcome (option path) :=
  match tokens_at root off with
  | Panic => Panic
  | Done [] => Done None
  | Done [t] => Done (Some t)
  | Done (l :: r :: _) =>
      if is_trivia (lkind (fst l)) && negb (is_trivia (lkind (fst r))) then Done (Some r) else Done (Some l)
  end.

(** rowan [SyntaxNode::covering_element] of a non-empty range inside the node: descend into the child that contains
    the range. *)
Fixpoint covering_element (anc : list lelem) (o : nat) (e : elem) (r : nat * nat) : path :=
  match e with
  | Tok _ _ => ((o, e), anc)
  | Node _ cs =>
      (fix go (l : list elem) (p : nat) : path :=
         match l with
         | [] => ((o, e), anc)
         | c :: l' => if contains_range (p, p + len_of c) r then covering_element ((o, e) :: anc) p c r
                      else go l' (p + len_of c)
         end) cs o
  end.

Definition is_attr (e : lelem) : bool := skind_eqb (lkind e) ATTR.

(** utils.rs L1236-1256 [covering_attribute] on the whole file (L1216-1233 [focused_element] inlined);
    item_at_offset.rs L97-100 [parent_attr]; ast_ext.rs L12-23 [closest_ancestor_ast_type] *)
Definition covering_attribute (root : elem) (r : nat * nat) : outcome (option lelem) :=
  if fst r =? snd r then
    obind_o (focused_token root (fst r)) (fun t =>
      Done (match t with Some p => find is_attr (snd p) | None => None end))
  else if contains_range (0, len_of root) r then
    let p := covering_element [] 0 root r in
    Done (if is_attr (fst p) then Some (fst p) else find is_attr (snd p))
  else Done None.

(** ** Hover *)

(** ra_ap_syntax accessor [Attr::path().segments()]: texts and ranges of the path segments (external). *)
Definition path_reader := lelem -> list (str * (nat * nat)).

Definition children_of (e : lelem) : list lelem :=
  match snd e with Node _ cs => place (fst e) cs | Tok _ _ => [] end.
Definition is_node (e : lelem) : bool := negb (is_tok (snd e)).
(** [Attr::token_tree]: the first token tree of the attribute's meta node *)
Definition token_tree_of (a : lelem) : option lelem :=
  obind (find (fun c => is_node c && skind_eqb (lkind c) META) (children_of a))
    (fun m => find (fun c => is_node c && skind_eqb (lkind c) TOKEN_TREE) (children_of m)).

(** What [InkAttribute::cast] reads from the attribute (AttrModel). *)
Definition read_attr (pr : path_reader) (a : lelem) : attr_syntax :=
  AttrSyntax (map fst (pr a)) (token_tree_of a) (lstart a, lend a).
(** attrs.rs L53, L93-100: the [ink_macro] segment is the second one *)
Definition macro_segment (pr : path_reader) (a : lelem) : option (nat * nat) :=
  match pr a with _ :: s :: _ => Some (snd s) | _ => None end.

(** hover.rs L73-145 [content]: the name of the documentation constant (the texts, all non-empty, are in hover/args.rs
    and hover/macros.rs); the empty string is the absence of documentation. *)
Definition hover_content (k : attr_kind) (v : version) (primary : option attr_kind) : str :=
  match k with
  | AkArg a =>
      match a, v with
      | AAdditionalContracts, V5 => lit "ADDITIONAL_CONTRACTS_DOC_V5_DEPRECATED"
      | AAdditionalContracts, V4 => lit "ADDITIONAL_CONTRACTS_DOC"
      | AAnonymous, V5 => lit "ANONYMOUS_DOC_V5"
      | AAnonymous, V4 => lit "ANONYMOUS_DOC"
      | ABackend, V5 | ANode, V5 | AUrl, V5 | ARuntimeOnly, V5 | ASandbox, V5 => lit "BACKEND_DOC"
      | AConstructor, _ => lit "CONSTRUCTOR_DOC"
      | ADecode, V5 => lit "DECODE_DOC"
      | ADefault, _ => lit "DEFAULT_DOC"
      | ADerive, _ => lit "DERIVE_DOC"
      | AEncode, V5 => lit "ENCODE_DOC"
      | AEnv, _ | AEnvironment, _ => lit "ENV_DOC"
      | AEvent, _ => lit "EVENT_DOC"
      | AExtension, V5 => lit "EXTENSION_DOC_V5"
      | AExtension, V4 => lit "EXTENSION_DOC"
      | AFunction, V5 => lit "FUNCTION_DOC"
      | AHandleStatus, _ => lit "HANDLE_STATUS_DOC"
      | AImpl, _ => lit "IMPL_DOC"
      | AKeepAttr, V5 =>
          match primary with
          | Some (AkMacro ME2ETest) => lit "KEEP_ATTR_E2E_DOC_V5_DEPRECATED"
          | _ => lit "KEEP_ATTR_DOC_V5"
          end
      | AKeepAttr, V4 => lit "KEEP_ATTR_DOC"
      | AMessage, _ => lit "MESSAGE_DOC"
      | ANamespace, _ => lit "NAMESPACE_DOC"
      | APayable, _ => lit "PAYABLE_DOC"
      | ASelector, V5 => lit "SELECTOR_DOC_V5"
      | ASelector, V4 => lit "SELECTOR_DOC"
      | ASignatureTopic, V5 => lit "SIGNATURE_TOPIC"
      | AStorage, _ => lit "STORAGE_DOC"
      | ATopic, V5 => lit "TOPIC_DOC_V5"
      | ATopic, V4 => lit "TOPIC_DOC"
      | ATypeInfo, V5 => lit "TYPE_INFO_DOC"
      | _, _ => []
      end
  | AkMacro m =>
      match m, v with
      | MChainExtension, V5 => lit "CHAIN_EXTENSION_DOC_V5"
      | MChainExtension, V4 => lit "CHAIN_EXTENSION_DOC"
      | MContract, _ => lit "CONTRACT_DOC"
      | MEvent, V5 => lit "macros::EVENT_DOC"
      | MScaleDerive, V5 => lit "SCALE_DERIVE_DOC"
      | MStorageItem, _ => lit "STORAGE_ITEM_DOC"
      | MTest, _ => lit "TEST_DOC"
      | MTraitDefinition, _ => lit "TRAIT_DEFINITION_DOC"
      | ME2ETest, _ => lit "E2E_TEST_DOC"
      | _, _ => []
      end
  end.

(** [args.iter().find(|arg| arg.text_range().contains_range(range))] *)
Fixpoint find_arg (p : nat * nat -> bool) (l : list ink_arg) : outcome (option ink_arg) :=
  match l with
  | [] => Done None
  | a :: l' => obind_o (meta_range a) (fun ar => if p ar then Done (Some a) else find_arg p l')
  end.

Definition hover_of (content : str) (r : outcome (nat * nat)) : outcome (option hover) :=
  match content with [] => Done None | _ => obind_o r (fun r => Done (Some (Hover r content))) end.

(** hover.rs L22-70 [hover], for the covering ink! attribute [ia] whose macro segment is [ms] *)
Definition hover_attr (ia : ink_attr) (ms : option (nat * nat)) (r : nat * nat) (v : version) : outcome (option hover) :=
  obind_o (find_arg (fun ar => contains_range ar r) (at_args ia)) (fun arg =>
    match arg with
    | Some a =>
        let k := AkArg (ia_kind a) in
        let primary := if attr_kind_eqb (at_kind ia) k then None else Some (at_kind ia) in
        hover_of (hover_content k v primary) (name_range a)
    | None =>
        hover_of (hover_content (at_kind ia) v None)
          (Done (match at_kind ia with
                 | AkArg _ => match at_arg_name ia with Some n => (lstart n, lend n) | None => at_range ia end
                 | AkMacro _ => match ms with Some m => m | None => at_range ia end
                 end))
    end).
Definition hover_at (px : expr_parser) (pr : path_reader) (root : elem) (r : nat * nat) (v : version)
  : outcome (option hover) :=
  obind_o (covering_attribute root r) (fun a =>
    match a with
    | None => Done None
    | Some a =>
        match attr_cast px (read_attr pr a) with
        | None => Done None
        | Some ia => hover_attr ia (macro_segment pr a) r v
        end
    end).

(** ** Signature help *)

Definition kind_value (args : list arg_kind) (v : version) (k : arg_kind) : arg_value_kind :=
  match v with
  | V5 => value_kind_v5 k (if contains_arg args AConstructor then Some true else None)
  | V4 => value_kind k
  end.
(** signature_help.rs L256-263: the text of one parameter *)
Definition param_text (args : list arg_kind) (v : version) (k : arg_kind) : str :=
  let vk := kind_value args v k in
  arg_kind_str k ++ (match vk with VNone => [] | _ => lit ": " end) ++ value_kind_str vk.

(** signature_help.rs L301-315: the name of the focused argument is a non-empty prefix of the kind's name *)
Definition named_prefix (focused : option ink_arg) (k : arg_kind) : bool :=
  match focused with
  | Some a => match m_name a with
              | MOk n => match text_of (snd n) with [] => false | t => starts_with t (arg_kind_str k) end
              | _ => false
              end
  | None => false
  end.
Definition focused_kind (focused : option ink_arg) (k : arg_kind) : bool :=
  match focused with Some a => arg_kind_eqb (ia_kind a) k | None => false end.

(** signature_help.rs L240-317: the loop over the sorted arguments; the state is the signature text, the parameters,
    the active parameter and the active parameter by prefix. The documentation of parameters is left out. *)
Definition sig_state := (str * list parameter * option nat * option nat)%type.
Definition sig_step (args : list arg_kind) (v : version) (focused : option ink_arg) (st : sig_state) (k : arg_kind)
  : sig_state :=
  let '(signature, params, active, by_prefix) := st in
  let param := param_text args v k in
  let start := bytes signature + (match signature with [] => 0 | _ => bytes (lit ", ") end) in
  let signature' := signature ++ (match signature with [] => [] | _ => lit ", " end) ++ param in
  let params' := params ++ [MkParam (start, start + bytes param) None] in
  let idx := length params' - 1 in
  match active with
  | Some _ => (signature', params', active, by_prefix)
  | None =>
      if focused_kind focused k then (signature', params', Some idx, by_prefix)
      else if negb (is_some by_prefix) && named_prefix focused k then (signature', params', active, Some idx)
      else (signature', params', active, by_prefix)
  end.
(** signature_help.rs L228-330 [add_signature]: the signatures it pushes *)
Definition add_signature (args : list arg_kind) (focused : option ink_arg) (range : nat * nat) (v : version)
  : list signature :=
  let '(signature, params, active, by_prefix) :=
    fold_left (sig_step args v focused) (stable_sort arg_rank args) ([], [], None, None) in
  match signature, params with
  | _ :: _, _ :: _ => [Signature signature range params (oor (oor active by_prefix) (Some 0)) None]
  | _, _ => []
  end.

(** signature_help.rs L333-349 [anchor_signature] *)
Definition anchor_signature (k : arg_kind) (focused : option ink_arg) (range : nat * nat) (v : version)
  : list signature :=
  add_signature (k :: sibling_args (AkArg k) v) focused range v.

(** signature_help.rs L352-387 [complementary_signature] *)
Definition related_primaries (k : arg_kind) (v : version) : list arg_kind :=
  filter is_entity_type (k :: sibling_args (AkArg k) v).
Definition complementary_signature (k : arg_kind) (focused : option ink_arg) (range : nat * nat) (v : version)
  : list signature :=
  (if arg_kind_eqb k ANamespace then add_signature [k] focused range v else [])
  ++ match related_primaries k v with
     | [] => anchor_signature k focused range v
     | ps => flat_map (fun p => anchor_signature p focused range v) ps
     end.

(** Lexicographic order of strings ([Ord for String]; characters as code points, whose order is that of UTF-8). *)
Fixpoint str_leb (a b : str) : bool :=
  match a, b with
  | [], _ => true
  | _ :: _, [] => false
  | x :: a', y :: b' => if N.ltb x y then true else if N.eqb x y then str_leb a' b' else false
  end.
Fixpoint insert_str (x : str) (l : list str) : list str :=
  match l with [] => [x] | y :: l' => if str_leb x y then x :: l else y :: insert_str x l' end.
Definition sort_strs (l : list str) : list str := fold_right insert_str [] l.
Fixpoint join_strs (sep : str) (l : list str) : str :=
  match l with [] => [] | [x] => x | x :: l' => x ++ sep ++ join_strs sep l' end.
(** signature_help.rs L167-177: the key by which possible arguments are deduplicated *)
Definition lite_signature (v : version) (k : arg_kind) : str :=
  join_strs (lit ",") (sort_strs (map arg_kind_str (sibling_args (AkArg k) v ++ [k]))).

(** signature_help.rs L118-177: the possible arguments of an attribute without a known one *)
Definition possible_args (args : list arg_kind) (focused : option ink_arg) (v : version) : list arg_kind :=
  let matching := filter (fun k =>
    match focused with
    | Some a => match m_name a with
                | MOk n => match text_of (snd n) with [] => true | t => starts_with t (arg_kind_str k) end
                | _ => true
                end
    | None => true
    end) args in
  let replaced := flat_map (fun k =>
    if is_entity_type k || arg_kind_eqb k ANamespace then [k]
    else match related_primaries k v with [] => [k] | ps => ps end) matching in
  unique_by str_eqb (lite_signature v) (stable_sort arg_rank replaced).

(** What [signature_help] reads around the attribute: the attribute, the ink! attributes of the item it is applied to
    ([item_at_offset.parent_ast_item()], none for unclosed attributes), the kind of that item's keyword
    ([normalized_parent_item_syntax_kind]), and the item itself when it has that kind. *)
Record sig_context := SigContext {
  sc_attr : ink_attr;
  sc_item_attrs : option (list ink_attr);
  sc_item_kind : option skind;
  sc_item : option item }.

(** [TokenTree::l_paren_token], [r_paren_token] *)
Definition paren_token (k : skind) (t : lelem) : option lelem :=
  find (fun c => is_tok (snd c) && skind_eqb (lkind c) k) (children_of t).

(** signature_help.rs L44-62: the offset is among the arguments; the range where the signatures apply *)
Definition focused_range (t : lelem) (off : nat) : outcome (option (nat * nat)) :=
  match paren_token L_PAREN t with
  | None => Done None
  | Some l =>
      let before := match paren_token R_PAREN t with Some r => off <=? lstart r | None => true end in
      if (lstart t <=? off) && (off <? lend t) && (lend l <=? off) && before
      then obind_o (mk_range (lend l) (match paren_token R_PAREN t with Some r => lstart r | None => lend t end))
             (fun r => Done (Some r))
      else Done None
  end.

(** [TextRange::contains_inclusive] *)
Definition contains_inclusive (r : nat * nat) (off : nat) : bool := (fst r <=? off) && (off <=? snd r).

(** signature_help.rs L74-205: the signatures for an attribute, before deduplication *)
Definition raw_signatures (c : sig_context) (focused : option ink_arg) (range : nat * nat) (v : version)
  : list signature :=
  match at_kind (sc_attr c) with
  | AkArg k =>
      if is_entity_type k then anchor_signature k focused range v
      else
        let separate := obind (obind (sc_item_attrs c) primary_candidate)
          (fun p => match at_kind (fst p) with
                    | AkArg k' => if is_entity_type k' then Some k' else None
                    | AkMacro _ => None
                    end) in
        match separate with
        | Some k' => anchor_signature k' focused range v
        | None =>
            if negb (arg_kind_eqb k AUnknown) then complementary_signature k focused range v
            else
              match sc_item_kind c with
              | None => []
              | Some ik =>
                  let args := args_by_syntax ik v in
                  let args := match sc_item c with Some it => remove_invalid_for_scope args it v | None => args end in
                  flat_map (fun p =>
                    if is_entity_type p then anchor_signature p focused range v
                    else if is_complementary p then complementary_signature p focused range v
                    else []) (possible_args args focused v)
              end
        end
  | AkMacro _ =>
      match sibling_args (at_kind (sc_attr c)) v with
      | [] => []
      | args => add_signature args focused range v
      end
  end.

(** signature_help.rs L35-226 [signature_help], for the attribute found at the offset *)
Definition sig_key (s : signature) : str * (nat * nat) := (sg_label s, sg_range s).
Definition sig_key_eqb (a b : str * (nat * nat)) : bool := str_eqb (fst a) (fst b) && range_eqb (snd a) (snd b).
Definition signature_help (c : sig_context) (off : nat) (v : version) : outcome (list signature) :=
  match as_token_tree (at_syntax (sc_attr c)) with
  | None => Done []
  | Some t =>
      obind_o (focused_range t off) (fun r =>
        match r with
        | None => Done []
        | Some range =>
            obind_o (find_arg (fun ar => contains_inclusive ar off) (at_args (sc_attr c))) (fun focused =>
              Done (unique_by sig_key_eqb sig_key (raw_signatures c focused range v)))
        end)
  end.
