(** Model of the actions that add an ink! entity: the places of crates/analyzer/src/analysis/utils.rs L970-998, L1125-1133
    and L1627-1920, the texts of analysis/text_edit/common.rs, and actions/entity.rs. The label, kind and range of an
    action are left out: an action is modelled by its only edit. *)
From Verif Require Import Base Unicode VersionModel PositionModel TranslateModel SyntaxModel CommandModel AttrModel EditModel UtilModel ArgEditModel
  RuleModel TemplateModel.

(** ** Kinds of syntax without a name in [SyntaxModel] and [RuleModel] *)
Definition USE := OTHER 150.
Definition TUPLE_FIELD_LIST := OTHER 160.
(** [ast::Item::can_cast]: 121-123 are constants, macro calls and type aliases; 150-155 are [use], [extern crate],
    [static], [extern] blocks and macro definitions. *)
Definition more_items (n : nat) : bool := existsb (Nat.eqb n) [121; 122; 123; 150; 151; 152; 153; 154; 155].
Definition item_node (e : elem) : bool := negb (is_tok e) && is_item_kind more_items (kind_of e).
(** [ast::AssocItem::can_cast] *)
Definition assoc_node (e : elem) : bool :=
  negb (is_tok e) && existsb (skind_eqb (kind_of e)) [FN; CONST; MACRO_CALL; TYPE_ALIAS].
(** Children with a property; [ast::ItemList::items], [ast::AssocItemList::assoc_items] *)
Definition children_which (p : elem -> bool) (t : lelem) : list lelem :=
  match snd t with Tok _ _ => [] | Node _ cs => filter (fun c => p (snd c)) (place (fst t) cs) end.
Definition list_items (t : lelem) : list lelem := children_which item_node t.
Definition assoc_items (t : lelem) : list lelem := children_which assoc_node t.
Definition items_of (k : skind) (t : lelem) : list lelem := filter (fun c => skind_eqb (lkind c) k) (list_items t).
Definition or_else {A} (o : option A) (d : A) : A := match o with Some a => a | None => d end.

(** ** Places *)

(** utils.rs L1628-1646 [item_insert_offset_start] *)
Definition item_offset_start (l : lelem) : nat :=
  match last_opt (items_of USE l) with
  | Some it => lend it
  | None =>
      match child_token L_CURLY l with
      | Some c => lf_end c
      | None => match list_items l with it :: _ => lstart it | [] => lstart l end
      end
  end.
(** utils.rs L1649-1658 [item_insert_offset_end] *)
Definition item_offset_end (l : lelem) : nat :=
  match last_opt (list_items l) with Some it => lend it | None => item_offset_start l end.
(** utils.rs L1662-1669 [item_insert_offset_after_last_struct_or_start] *)
Definition item_offset_struct (l : lelem) : nat :=
  match last_opt (items_of STRUCT l) with Some it => lend it | None => item_offset_start l end.
(** utils.rs L1674-1698 [item_insert_offset_impl] *)
Definition item_offset_impl (l : lelem) : nat :=
  match oor (last_opt (items_of IMPL l)) (last_opt (items_of STRUCT l)) with
  | Some it => lend it
  | None => match items_of MODULE l with it :: _ => lstart it | [] => item_offset_end l end
  end.
(** utils.rs L1701-1716 [item_insert_offset_by_scope_name] *)
Definition item_offset_by_scope (l : lelem) (scope : str) : nat :=
  if str_eqb scope (lit "storage") then item_offset_start l
  else if str_eqb scope (lit "event") then item_offset_struct l
  else if str_eqb scope (lit "impl") then item_offset_impl l
  else item_offset_end l.
(** utils.rs L1719-1730 [assoc_item_insert_offset_start] *)
Definition assoc_offset_start (l : lelem) : nat :=
  match child_token L_CURLY l with
  | Some c => lf_end c
  | None => match assoc_items l with it :: _ => lstart it | [] => lstart l end
  end.
(** utils.rs L1733-1741 [assoc_item_insert_offset_end] *)
Definition assoc_offset_end (l : lelem) : nat :=
  match last_opt (assoc_items l) with Some it => lend it | None => assoc_offset_start l end.

(** A place for a field with what to write around it. *)
Definition field_place := (nat * (option str * option str))%type.
(** utils.rs L1744-1782 [field_insert_offset_start_and_affixes]; [indent] is the indentation of the fields. *)
Definition field_start (indent : str) (l : lelem) : field_place :=
  let record := skind_eqb (lkind l) RECORD_FIELD_LIST in
  match child_token (if record then L_CURLY else L_PAREN) l with
  | Some c => (lf_end c, (None, None))
  | None =>
      match child_nodes (if record then RECORD_FIELD else TUPLE_FIELD) l with
      | f :: _ => (lstart f, (None, Some (if record then nl ++ indent else comma_sp)))
      | [] => (lstart l, (None, None))
      end
  end.
(** utils.rs L1784-1842 [field_insert_offset_end_and_affixes] *)
Definition field_prefix (toks : list leaf) (last : lelem) (block : bool) : option str :=
  let has_comma := is_some (obind (elem_last_leaf last) (fun t => closest_delimiter COMMA (leaves_after toks t))) in
  if negb has_comma || block
  then Some ((if has_comma then [] else lit ",") ++ (if block then nl else lit " "))
  else None.
Definition field_end (toks : list leaf) (indent : str) (l : lelem) : outcome field_place :=
  let record := skind_eqb (lkind l) RECORD_FIELD_LIST in
  match last_opt (child_nodes (if record then RECORD_FIELD else TUPLE_FIELD) l) with
  | Some f => obind_o (node_and_delimiter_range toks f COMMA) (fun r => Done (snd r, (field_prefix toks f record, None)))
  | None => Done (field_start indent l)
  end.

(** utils.rs L971-998 [ink_attribute_insert_offset]; [ink] tells which attribute nodes are ink! attributes (modelled in
    [AttrModel]). *)
Definition ink_attr_nodes (ink : elem -> bool) (item : lelem) : list lelem :=
  filter (fun c => ink (snd c)) (child_nodes ATTR item).
Definition attr_offset (ink : elem -> bool) (toks : list leaf) (item : lelem) : nat :=
  let from := oor (obind (last_opt (ink_attr_nodes ink item)) elem_last_leaf)
             (oor (last_attr_leaf item)
                  (match elem_first_leaf item with Some t => if is_trivia (lf_kind t) then Some t else None | None => None end)) in
  match obind from (fun t => closest_solid (leaves_after toks t)) with Some t => lf_start t | None => lstart item end.
(** utils.rs L1126-1133 [first_ink_attribute_insert_offset] *)
Definition first_attr_offset (ink : elem -> bool) (toks : list leaf) (item : lelem) : nat :=
  match ink_attr_nodes ink item with a :: _ => lstart a | [] => attr_offset ink toks item end.

(** ** Texts *)

(** snippets.rs L3-65 *)
Definition STORAGE_PLAIN := join_lines [lit "#[ink(storage)]"; lit "pub struct Storage {}"].
Definition STORAGE_SNIPPET := join_lines [lit "#[ink(storage)]"; lit "pub struct ${1:Storage} {"; lit "    $2"; lit "}"].
Definition EVENT_PLAIN := join_lines [lit "#[ink(event)]"; lit "pub struct Event {}"].
Definition EVENT_SNIPPET := join_lines [lit "#[ink(event)]"; lit "pub struct ${1:Event} {"; lit "    $2"; lit "}"].
Definition EVENT_PLAIN_V2 := join_lines [lit "#[ink::event]"; lit "pub struct Event {}"].
Definition EVENT_SNIPPET_V2 := join_lines [lit "#[ink::event]"; lit "pub struct ${1:Event} {"; lit "    $2"; lit "}"].
Definition TOPIC_PLAIN := join_lines [lit "#[ink(topic)]"; lit "my_topic: bool,"].
Definition TOPIC_SNIPPET := join_lines [lit "#[ink(topic)]"; lit "${1:my_topic}: ${2:bool},"].
Definition CONSTRUCTOR_PLAIN :=
  join_lines [lit "#[ink(constructor)]"; lit "pub fn new() -> Self {"; lit "    todo!()"; lit "}"].
Definition CONSTRUCTOR_SNIPPET :=
  join_lines [lit "#[ink(constructor)]"; lit "pub fn ${1:new}() -> ${2:Self} {"; lit "    ${3:todo!()}"; lit "}"].
Definition MESSAGE_PLAIN :=
  join_lines [lit "#[ink(message)]"; lit "pub fn my_message(&self) {"; lit "    todo!()"; lit "}"].
Definition MESSAGE_SNIPPET :=
  join_lines [lit "#[ink(message)]"; lit "pub fn ${1:my_message}(&${2:self}) {"; lit "    ${3:todo!()}"; lit "}"].
Definition TRAIT_MESSAGE_PLAIN := join_lines [lit "#[ink(message)]"; lit "fn my_message(&self);"].
Definition TRAIT_MESSAGE_SNIPPET := join_lines [lit "#[ink(message)]"; lit "fn ${1:my_message}(&${2:self});"].
Definition ERROR_CODE_PLAIN := lit "type ErrorCode = ();".
Definition ERROR_CODE_SNIPPET := lit "type ErrorCode = ${1:()};".
Definition EXTENSION_FN_PLAIN := join_lines [lit "#[ink(extension = 1)]"; lit "fn my_extension();"].
Definition EXTENSION_FN_SNIPPET := join_lines [lit "#[ink(extension = ${1:1})]"; lit "fn ${2:my_extension}();"].
Definition EXTENSION_FN_PLAIN_V5 := join_lines [lit "#[ink(function = 1)]"; lit "fn my_function();"].
Definition EXTENSION_FN_SNIPPET_V5 := join_lines [lit "#[ink(function = ${1:1})]"; lit "fn ${2:my_function}();"].
(** snippets.rs L67-98 *)
Definition INK_TEST_PLAIN := join_lines [lit "#[ink::test]"; lit "fn it_works() {"; lit "    todo!()"; lit "}"].
Definition INK_TEST_SNIPPET := join_lines [lit "#[ink::test]"; lit "fn ${1:it_works}() {"; lit "    ${2:todo!()}"; lit "}"].
Definition E2E_RESULT := lit "std::result::Result<(), Box<dyn std::error::Error>>".
Definition INK_E2E_TEST_PLAIN := join_lines
  [lit "#[ink_e2e::test]"; lit "async fn it_works(mut client: ink_e2e::Client<C, E>) -> " ++ E2E_RESULT ++ lit " {"; lit "    todo!();";
   []; lit "    Ok(())"; lit "}"].
Definition INK_E2E_TEST_SNIPPET := join_lines
  [lit "#[ink_e2e::test]"; lit "async fn ${1:it_works}(${2:mut client: ink_e2e::Client<C, E>}) -> ${3:" ++ E2E_RESULT ++ lit "} {";
   lit "    ${4:todo!();}"; []; lit "    Ok(())"; lit "}"].
Definition INK_E2E_TEST_PLAIN_V5 := join_lines
  [lit "#[ink_e2e::test]"; lit "async fn it_works<Client: E2EBackend>(mut client: Client) -> " ++ E2E_RESULT ++ lit " {"; lit "    todo!();";
   []; lit "    Ok(())"; lit "}"].
Definition INK_E2E_TEST_SNIPPET_V5 := join_lines
  [lit "#[ink_e2e::test]"; lit "async fn ${1:it_works}<${2:Client: E2EBackend}>(${3:mut client: Client}) -> ${4:" ++ E2E_RESULT ++ lit "} {";
   lit "    ${5:todo!();}"; []; lit "    Ok(())"; lit "}"].
(** snippets.rs L379-391 *)
Definition COMBINE_PLAIN := join_lines
  [lit "ink::combine_extensions! {"; lit "    pub struct CombinedChainExtension {"; lit "        pub ext1: Extension1,";
   lit "        pub ext2: Extension2,"; lit "    }"; lit "}"].
Definition COMBINE_SNIPPET := join_lines
  [lit "ink::combine_extensions! {"; lit "    pub struct ${1:CombinedChainExtension} {"; lit "        pub ${2:ext1}: ${3:Extension1},";
   lit "        pub ${4:ext2}: ${5:Extension2},"; lit "    }"; lit "}"].

(** text_edit/common.rs L27-38 [unique_text_and_snippet] *)
Definition unique_text (text snippet preferred : str) (names : list str) : str * str :=
  let name := suggest_unique_name preferred names in
  (str_replace preferred name text, str_replace preferred name snippet).
(** An edit with its text and snippet indented *)
Definition indented_edit (ts : str * str) (range : trange) (indent : str) : text_edit :=
  edit_replace_snippet (apply_indenting (fst ts) indent) range (Some (apply_indenting (snd ts) indent)).
(** L41-57 [text_edit_with_indent] *)
Definition edit_with_indent (ts : str * str) (range : trange) (indent : option str) : text_edit :=
  match indent with
  | Some i => indented_edit ts range i
  | None => edit_replace_snippet (fst ts) range (Some (snd ts))
  end.
(** The same with a prefix and a suffix around text and snippet *)
Definition affixed_edit (ts : str * str) (range : trange) (indent : str) (prefix suffix : option str) : text_edit :=
  let wrap s := opt_str prefix ++ apply_indenting s indent ++ opt_str suffix in
  edit_replace_snippet (wrap (fst ts)) range (Some (wrap (snd ts))).

(** The name of an item ([HasName::name]), and the names of items of a kind *)
Definition node_name (t : lelem) : option str := option_map (fun n => text_of (snd n)) (child_node NAME t).
(** L59-71 [mod_item_names!] *)
Definition item_names (k : skind) (list_ : option lelem) : list str :=
  match list_ with Some l => filter_map node_name (items_of k l) | None => [] end.

(** An item and the element in front of it, which holds its indentation. *)
Record item_at := ItemAt { im_prev : option elem; im_item : lelem }.
Section Edits.
Variable U : unicode.
Definition children_indent (i : item_at) : str := item_children_indenting U (im_prev i).

(** What is read of a contract (modelled in [TreeModel]): its module, the name of its storage struct, the names of its
    constructors and messages, and its impl blocks. *)
Record contract := Contract {
  ct_module : option item_at; ct_storage : option str; ct_callables : list str; ct_impls : list item_at }.
Definition module_list (c : contract) : option lelem := obind (ct_module c) (fun m => child_node ITEM_LIST (im_item m)).
(** utils.rs L1904-1920 [resolve_contract_name] *)
Definition contract_name (c : contract) : option str :=
  resolve_contract_name (ct_storage c) (obind (ct_module c) (fun m => node_name (im_item m))).

Definition at_offset (o : nat) : trange := (o, o).
(** text_edit/common.rs L92-118 [add_storage], entity.rs L22-46; [range]: where the user asked for it *)
Definition add_storage (c : contract) (range : option trange) : option text_edit :=
  match ct_module c with
  | None => None
  | Some m =>
      option_map (fun r =>
        let named s := match contract_name c with Some n => str_replace (lit "Storage") n s | None => s end in
        indented_edit (named STORAGE_PLAIN, named STORAGE_SNIPPET) r (children_indent m))
        (oor range (option_map (fun l => at_offset (item_offset_start l)) (module_list c)))
  end.
(** text_edit/common.rs L121-133 [add_event_v1], entity.rs L49-72 *)
Definition add_event (c : contract) (range : option trange) : option text_edit :=
  match ct_module c with
  | None => None
  | Some m =>
      option_map (fun r =>
        edit_with_indent (unique_text EVENT_PLAIN EVENT_SNIPPET (lit "Event") (item_names STRUCT (child_node ITEM_LIST (im_item m)))) r
          (match children_indent m with [] => None | i => Some i end))
        (oor range (option_map (fun l => at_offset (item_offset_struct l)) (module_list c)))
  end.
(** text_edit/common.rs L136-151 [add_event_v2], entity.rs L75-82: the action gives no module *)
Definition add_event2 (range : trange) (indent : option str) (module_ : option lelem) : text_edit :=
  edit_with_indent
    (match module_ with
     | Some m => unique_text EVENT_PLAIN_V2 EVENT_SNIPPET_V2 (lit "Event") (item_names STRUCT (child_node ITEM_LIST m))
     | None => (EVENT_PLAIN_V2, EVENT_SNIPPET_V2)
     end) range indent.
(** [ast::Struct::field_list] *)
Definition field_list (s : lelem) : option lelem :=
  match snd s with
  | Tok _ _ => None
  | Node _ cs => find (fun c => negb (is_tok (snd c)) && (skind_eqb (lkind c) RECORD_FIELD_LIST || skind_eqb (lkind c) TUPLE_FIELD_LIST))
                   (place (fst s) cs)
  end.
Definition field_names (s : lelem) : list str :=
  match field_list s with
  | Some l => if skind_eqb (lkind l) RECORD_FIELD_LIST then filter_map node_name (child_nodes RECORD_FIELD l) else []
  | None => []
  end.
(** text_edit/common.rs L154-194 [add_topic], entity.rs L85-117; the list of fields indents its fields like the struct
    does in the one case where that is asked for. *)
Definition add_topic (toks : list leaf) (s : item_at) (range : option trange) : outcome (option text_edit) :=
  obind_o (match range with
           | Some r => Done (Some (r, (None, None)))
           | None => match field_list (im_item s) with
                     | Some l => obind_o (field_end toks (children_indent s) l) (fun p => Done (Some (at_offset (fst p), snd p)))
                     | None => Done None
                     end
           end) (fun p =>
  Done (option_map (fun p => affixed_edit (unique_text TOPIC_PLAIN TOPIC_SNIPPET (lit "my_topic") (field_names (im_item s)))
                               (fst p) (children_indent s) (fst (snd p)) (snd (snd p))) p)).

(** [ast::Impl::trait_]: an impl block names a trait if it has two types *)
Definition type_nodes (t : lelem) : list lelem :=
  match snd t with Tok _ _ => [] | Node _ cs => filter (fun c => negb (is_tok (snd c)) && is_type (lkind c)) (place (fst t) cs) end.
Definition of_trait (t : lelem) : bool := 2 <=? length (type_nodes t).
Definition assoc_list (t : lelem) : option lelem := child_node ASSOC_ITEM_LIST t.
(** The names of the functions of an associated item list: text_edit/common.rs L196-209 [impl_fn_names] *)
Definition fn_names (t : lelem) : list str :=
  match assoc_list t with Some l => filter_map node_name (filter (fun c => skind_eqb (lkind c) FN) (assoc_items l)) | None => [] end.
(** Children with the element in front of each *)
Fixpoint with_prev (prev : option elem) (l : list lelem) : list item_at :=
  match l with [] => [] | c :: l' => ItemAt prev c :: with_prev (Some (snd c)) l' end.
Definition items_with_prev (l : lelem) : list item_at :=
  match snd l with
  | Tok _ _ => []
  | Node _ cs => filter (fun i => item_node (snd (im_item i))) (with_prev None (place (fst l) cs))
  end.
(** utils.rs L1886-1900 [callable_impl_indent_and_affixes] *)
Definition new_impl (c : contract) : option (str * (str * str)) :=
  match ct_module c, contract_name c with
  | Some m, Some name =>
      let indent := children_indent m in
      Some (indent ++ lit "    ", (indent ++ lit "impl " ++ name ++ lit " {" ++ nl, nl ++ indent ++ lit "}"))
  | _, _ => None
  end.
(** utils.rs L1832-1883 [callable_insert_offset_indent_and_affixes] *)
Definition callable_impl (c : contract) : option item_at :=
  oor (obind (module_list c) (fun l =>
         find (fun i => skind_eqb (lkind (im_item i)) IMPL && negb (of_trait (im_item i))) (items_with_prev l)))
      (find (fun i => negb (of_trait (im_item i))) (ct_impls c)).
Definition callable_place (c : contract) : option (nat * (str * (option str * option str))) :=
  match obind (callable_impl c) (fun i => option_map (fun l => (i, l)) (assoc_list (im_item i))) with
  | Some (i, l) => Some (assoc_offset_end l, (children_indent i, (None, None)))
  | None =>
      match module_list c, new_impl c with
      | Some l, Some (indent, (p, s)) => Some (item_offset_impl l, (indent, (Some p, Some s)))
      | _, _ => None
      end
  end.
(** entity.rs L268-305 [add_callable_to_impl] *)
Definition add_callable_to_impl (i : item_at) (range : option trange) (ts : str * str) : option text_edit :=
  option_map (fun r => indented_edit ts r (children_indent i))
    (oor range (option_map (fun l => at_offset (assoc_offset_end l)) (assoc_list (im_item i)))).
(** entity.rs L119-184 [add_callable_to_contract]; [parent]: the impl block of the contract at the range (if any) *)
Definition add_callable (c : contract) (range : option (trange * option item_at)) (ts : str * str) : option text_edit :=
  match obind range snd with
  | Some i => add_callable_to_impl i (option_map fst range) ts
  | None =>
      option_map (fun p => let '(r, (indent, (prefix, suffix))) := p in affixed_edit ts r indent prefix suffix)
        (oor (match range, new_impl c with
              | Some (r, _), Some (indent, (p, s)) => Some (r, (indent, (Some p, Some s)))
              | _, _ => None
              end)
             (option_map (fun p => (at_offset (fst p), snd p)) (callable_place c)))
  end.
(** entity.rs L196-232 *)
Definition add_constructor (c : contract) (range : option (trange * option item_at)) : option text_edit :=
  add_callable c range (unique_text CONSTRUCTOR_PLAIN CONSTRUCTOR_SNIPPET (lit "new") (ct_callables c)).
Definition add_message (c : contract) (range : option (trange * option item_at)) : option text_edit :=
  add_callable c range (unique_text MESSAGE_PLAIN MESSAGE_SNIPPET (lit "my_message") (ct_callables c)).
(** entity.rs L236-265 [add_message_selector_to_contract] *)
Definition add_selector_message (c : contract) (selector name : str) (range : option (trange * option item_at)) : option text_edit :=
  let ts := unique_text MESSAGE_PLAIN MESSAGE_SNIPPET name (ct_callables c) in
  let set s := str_replace (lit "#[ink(message)]") (lit "#[ink(message, selector = " ++ selector ++ lit ")]") s in
  add_callable c range (set (fst ts), set (snd ts)).
(** text_edit/common.rs L212-242, entity.rs L308-350 *)
Definition add_constructor_to_impl (i : item_at) (range : option trange) : option text_edit :=
  add_callable_to_impl i range (unique_text CONSTRUCTOR_PLAIN CONSTRUCTOR_SNIPPET (lit "new") (fn_names (im_item i))).
Definition add_message_to_impl (i : item_at) (range : option trange) : option text_edit :=
  add_callable_to_impl i range (unique_text MESSAGE_PLAIN MESSAGE_SNIPPET (lit "my_message") (fn_names (im_item i))).
(** text_edit/common.rs L255-279, entity.rs L353-377; [messages]: the names of the messages of the trait *)
Definition add_trait_message (t : item_at) (messages : list str) (range : option trange) : option text_edit :=
  option_map (fun r => indented_edit (unique_text TRAIT_MESSAGE_PLAIN TRAIT_MESSAGE_SNIPPET (lit "my_message") messages) r (children_indent t))
    (oor range (option_map (fun l => at_offset (assoc_offset_end l)) (assoc_list (im_item t)))).
(** text_edit/common.rs L300-309 [add_error_code_type], entity.rs L380-403 *)
Definition add_error_code (t : item_at) (range : option trange) : option text_edit :=
  option_map (fun r => indented_edit (ERROR_CODE_PLAIN, ERROR_CODE_SNIPPET) r (children_indent t))
    (oor range (option_map (fun l => at_offset (assoc_offset_start l)) (assoc_list (im_item t)))).
(** The functions of a chain extension with the attribute argument [extension] and, for version 5, [function]: name and id
    of each (ir chain_extension.rs L13-20) *)
Record chain_fns := ChainFns { cf_extensions : list (option str * option N); cf_functions : list (option str * option N) }.
(** text_edit/common.rs L304-349 [add_extension], entity.rs L406-437: for both versions the names and ids of the functions
    with the argument [extension] are avoided. *)
Definition add_extension (t : item_at) (fns : chain_fns) (range : option trange) (v : version) : option text_edit :=
  let exts := cf_extensions fns in
  let ts := match v with
            | V5 => unique_text EXTENSION_FN_PLAIN_V5 EXTENSION_FN_SNIPPET_V5 (lit "my_function") (filter_map fst exts)
            | V4 => unique_text EXTENSION_FN_PLAIN EXTENSION_FN_SNIPPET (lit "my_extension") (filter_map fst exts)
            end in
  let id := match suggest_unique_id U32_MAX None (filter_map snd exts) with Found n => n | _ => 1%N end in
  let ts := if (1 <? id)%N
            then (str_replace (lit "1)]") (dec id ++ lit ")]") (fst ts), str_replace (lit "1})]") (dec id ++ lit "})]") (snd ts))
            else ts in
  option_map (fun r => indented_edit ts r (children_indent t))
    (oor range (option_map (fun l => at_offset (assoc_offset_end l)) (assoc_list (im_item t)))).
(** text_edit/common.rs L358-411 [add_combine_extensions]; [exts]: the paths of the chain extensions of the file *)
Definition FIELD_INDENT := lit "        ".
Fixpoint combine_fields (i : N) (paths : list str) : list (str * str) :=
  match paths with
  | [] => []
  | p :: ps =>
      (FIELD_INDENT ++ lit "pub ext" ++ dec (i + 1) ++ lit ": " ++ p ++ lit ",",
       FIELD_INDENT ++ lit "pub ${" ++ dec (1 + i * 2 + 1) ++ lit ":ext" ++ dec (i + 1) ++ lit "}: ${" ++ dec (1 + i * 2 + 1 + 1) ++ lit ":" ++ p ++ lit "},")
      :: combine_fields (i + 1) ps
  end.
Definition add_combine (range : trange) (indent : option str) (exts : list str) : text_edit :=
  match combine_fields 0 exts with
  | [] => edit_with_indent (COMBINE_PLAIN, COMBINE_SNIPPET) range indent
  | fields =>
      let many := 1 <? length fields in
      edit_with_indent
        (str_replace (if many then join_lines [lit "        pub ext1: Extension1,"; lit "        pub ext2: Extension2,"]
                      else lit "        pub ext1: Extension1,") (join_lines (map fst fields)) COMBINE_PLAIN,
         str_replace (if many then join_lines [lit "        pub ${2:ext1}: ${3:Extension1},"; lit "        pub ${4:ext2}: ${5:Extension2},"]
                      else lit "        pub ${2:ext1}: ${3:Extension1},") (join_lines (map snd fields)) COMBINE_SNIPPET)
        range indent
  end.
(** text_edit/common.rs L431-478, entity.rs L440-491 *)
Definition add_test (m : item_at) (range : option trange) : option text_edit :=
  let l := child_node ITEM_LIST (im_item m) in
  option_map (fun r => indented_edit (unique_text INK_TEST_PLAIN INK_TEST_SNIPPET (lit "it_works") (item_names FN l)) r (children_indent m))
    (oor range (option_map (fun l => at_offset (item_offset_end l)) l)).
Definition add_e2e_test (m : item_at) (range : option trange) (v : version) : option text_edit :=
  let l := child_node ITEM_LIST (im_item m) in
  let '(plain, snippet) := match v with V5 => (INK_E2E_TEST_PLAIN_V5, INK_E2E_TEST_SNIPPET_V5) | V4 => (INK_E2E_TEST_PLAIN, INK_E2E_TEST_SNIPPET) end in
  option_map (fun r => indented_edit (unique_text plain snippet (lit "it_works") (item_names FN l)) r (children_indent m))
    (oor range (option_map (fun l => at_offset (item_offset_end l)) l)).
End Edits.
