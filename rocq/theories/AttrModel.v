(** Model of the ink! attribute IR: crates/ir/src/attrs.rs, attrs/args.rs, attrs/parser.rs, attrs/meta.rs,
    attrs/meta/{name,option,separator,value}.rs. *)
From Verif Require Import Base PositionModel SyntaxModel VersionModel.

(** args.rs L94-156 [InkArgKind] *)
Inductive arg_kind :=
  | AAdditionalContracts | AAnonymous | ABackend | AConstructor | ADecode | ADefault | ADerive | AEncode
  | AEnv | AEnvironment | AEvent | AExtension | AFunction | AHandleStatus | AImpl | AKeepAttr | AMessage
  | ANamespace | ANode | APayable | ARuntimeOnly | ASandbox | ASelector | ASignatureTopic | AStorage
  | ATopic | ATypeInfo | AUrl | AUnknown.
Scheme Equality for arg_kind.
Definition arg_kind_eqb := arg_kind_beq.

(** args.rs L158-222 [From<&str> for InkArgKind] *)
Definition arg_kind_of (s : str) : arg_kind :=
  if str_eqb s (lit "additional_contracts") then AAdditionalContracts
  else if str_eqb s (lit "anonymous") then AAnonymous
  else if str_eqb s (lit "backend") then ABackend
  else if str_eqb s (lit "constructor") then AConstructor
  else if str_eqb s (lit "Decode") then ADecode
  else if str_eqb s (lit "default") then ADefault
  else if str_eqb s (lit "derive") then ADerive
  else if str_eqb s (lit "Encode") then AEncode
  else if str_eqb s (lit "env") then AEnv
  else if str_eqb s (lit "environment") then AEnvironment
  else if str_eqb s (lit "event") then AEvent
  else if str_eqb s (lit "extension") then AExtension
  else if str_eqb s (lit "function") then AFunction
  else if str_eqb s (lit "handle_status") then AHandleStatus
  else if str_eqb s (lit "impl") then AImpl
  else if str_eqb s (lit "keep_attr") then AKeepAttr
  else if str_eqb s (lit "message") then AMessage
  else if str_eqb s (lit "namespace") then ANamespace
  else if str_eqb s (lit "node") then ANode
  else if str_eqb s (lit "payable") then APayable
  else if str_eqb s (lit "runtime_only") then ARuntimeOnly
  else if str_eqb s (lit "sandbox") then ASandbox
  else if str_eqb s (lit "selector") then ASelector
  else if str_eqb s (lit "signature_topic") then ASignatureTopic
  else if str_eqb s (lit "storage") then AStorage
  else if str_eqb s (lit "topic") then ATopic
  else if str_eqb s (lit "TypeInfo") then ATypeInfo
  else if str_eqb s (lit "url") then AUrl
  else AUnknown.

(** args.rs L224-291 [Display for InkArgKind] *)
Definition arg_kind_str (k : arg_kind) : str :=
  match k with
  | AAdditionalContracts => lit "additional_contracts"
  | AAnonymous => lit "anonymous"
  | ABackend => lit "backend"
  | AConstructor => lit "constructor"
  | ADecode => lit "Decode"
  | ADefault => lit "default"
  | ADerive => lit "derive"
  | AEncode => lit "Encode"
  | AEnv => lit "env"
  | AEnvironment => lit "environment"
  | AEvent => lit "event"
  | AExtension => lit "extension"
  | AFunction => lit "function"
  | AHandleStatus => lit "handle_status"
  | AImpl => lit "impl"
  | AKeepAttr => lit "keep_attr"
  | AMessage => lit "message"
  | ANamespace => lit "namespace"
  | ANode => lit "node"
  | APayable => lit "payable"
  | ARuntimeOnly => lit "runtime_only"
  | ASandbox => lit "sandbox"
  | ASelector => lit "selector"
  | ASignatureTopic => lit "signature_topic"
  | AStorage => lit "storage"
  | ATopic => lit "topic"
  | ATypeInfo => lit "TypeInfo"
  | AUrl => lit "url"
  | AUnknown => lit "unknown"
  end.

(** args.rs L297-338 [ink_arg_kind_sort_order], and the derived [Ord] (L397-410) *)
Definition arg_rank (k : arg_kind) : nat :=
  match k with
  | AConstructor | AEvent | AExtension | AFunction | AImpl | AMessage | AStorage | ATopic => 0
  | AAdditionalContracts | AAnonymous | ABackend | ADecode | ADefault | ADerive | AEncode | AEnv
  | AEnvironment | AHandleStatus | AKeepAttr | ANamespace | ANode | APayable | ARuntimeOnly | ASandbox
  | ASelector | ASignatureTopic | ATypeInfo | AUrl => 1
  | AUnknown => 10
  end.

(** args.rs L343-355 [is_entity_type], [is_complementary] *)
Definition is_entity_type (k : arg_kind) : bool := arg_rank k =? 0.
Definition is_complementary (k : arg_kind) : bool := arg_rank k =? 1.

(** args.rs L414-448 [InkArgValueKind] and its string and path kinds *)
Inductive value_string_kind := VSCommaList | VSDefault | VSHex | VSIdentifier | VSSpaceList | VSUrl.
Inductive value_path_kind := VPDefault | VPEnvironment | VPSandbox.
Inductive arg_value_kind :=
  | VNone | VU16 | VU32 | VU32OrWildcard | VU32OrWildcardOrComplement
  | VString (k : value_string_kind) | VBool | VPath (k : value_path_kind)
  | VArg (k : arg_kind) (required : bool) | VChoice (k1 k2 : arg_kind) (required : bool).

(** args.rs L459-487 [From<InkArgKind> for InkArgValueKind] *)
Definition value_kind (k : arg_kind) : arg_value_kind :=
  match k with
  | AAdditionalContracts => VString VSSpaceList
  | ABackend => VChoice ANode ARuntimeOnly true
  | AEnv | AEnvironment => VPath VPEnvironment
  | AExtension => VU32
  | AFunction => VU16
  | AHandleStatus | ADerive => VBool
  | AKeepAttr => VString VSCommaList
  | ANamespace => VString VSIdentifier
  | ANode => VArg AUrl false
  | ARuntimeOnly => VArg ASandbox false
  | ASandbox => VPath VPSandbox
  | ASelector => VU32OrWildcard
  | ASignatureTopic => VString VSHex
  | AUrl => VString VSUrl
  | _ => VNone
  end.

(** args.rs L490-498 [InkArgValueKind::from_v5] *)
Definition value_kind_v5 (k : arg_kind) (is_constructor : option bool) : arg_value_kind :=
  match k with
  | AExtension => VU16
  | ASelector => match is_constructor with Some true => VU32OrWildcard | _ => VU32OrWildcardOrComplement end
  | _ => value_kind k
  end.

(** args.rs L501-525 [Display for InkArgValueKind] *)
Definition value_kind_str (v : arg_value_kind) : str :=
  match v with
  | VU16 => lit "u16"
  | VU32 => lit "u32"
  | VU32OrWildcard => lit "u32 | _"
  | VU32OrWildcardOrComplement => lit "u32 | _ | @"
  | VString _ => lit "&str"
  | VBool => lit "bool"
  | VPath VPEnvironment => lit "impl Environment"
  | VPath VPSandbox => lit "impl drink::Sandbox"
  | VPath VPDefault => lit "Path"
  | VArg k true => arg_kind_str k
  | VChoice k1 k2 true => arg_kind_str k1 ++ lit " | " ++ arg_kind_str k2
  | _ => []
  end.

(** attrs.rs L211-230 [InkMacroKind] *)
Inductive macro_kind :=
  | MChainExtension | MContract | MEvent | MScaleDerive | MStorageItem | MTest | MTraitDefinition
  | ME2ETest | MUnknown.
Scheme Equality for macro_kind.
Definition macro_kind_eqb := macro_kind_beq.

(** attrs.rs L232-260 [From<(&str, &str)> for InkMacroKind] *)
Definition macro_kind_of (crate name : str) : macro_kind :=
  if str_eqb crate (lit "ink") then
    if str_eqb name (lit "chain_extension") then MChainExtension
    else if str_eqb name (lit "contract") then MContract
    else if str_eqb name (lit "event") then MEvent
    else if str_eqb name (lit "scale_derive") then MScaleDerive
    else if str_eqb name (lit "storage_item") then MStorageItem
    else if str_eqb name (lit "test") then MTest
    else if str_eqb name (lit "trait_definition") then MTraitDefinition
    else MUnknown
  else if str_eqb crate (lit "ink_e2e") && str_eqb name (lit "test") then ME2ETest
  else MUnknown.

(** attrs.rs L295-316 [path_as_str] *)
Definition macro_path_str (k : macro_kind) : str :=
  match k with
  | MChainExtension => lit "ink::chain_extension"
  | MContract => lit "ink::contract"
  | MEvent => lit "ink::event"
  | MScaleDerive => lit "ink::scale_derive"
  | MStorageItem => lit "ink::storage_item"
  | MTest => lit "ink::test"
  | MTraitDefinition => lit "ink::trait_definition"
  | ME2ETest => lit "ink_e2e::test"
  | MUnknown => []
  end.
(** attrs.rs L321-342 [macro_name] *)
Definition macro_name (k : macro_kind) : str :=
  match k with
  | MChainExtension => lit "chain_extension"
  | MContract => lit "contract"
  | MEvent => lit "event"
  | MScaleDerive => lit "scale_derive"
  | MStorageItem => lit "storage_item"
  | MTest => lit "test"
  | MTraitDefinition => lit "trait_definition"
  | ME2ETest => lit "test"
  | MUnknown => []
  end.
(** attrs.rs L347-366 [crate_name] *)
Definition macro_crate (k : macro_kind) : str :=
  match k with
  | ME2ETest => lit "ink_e2e"
  | MUnknown => []
  | _ => lit "ink"
  end.

(** attrs.rs L165-171 [InkAttributeKind] *)
Inductive attr_kind := AkMacro (k : macro_kind) | AkArg (k : arg_kind).
Definition attr_kind_eqb (a b : attr_kind) : bool :=
  match a, b with
  | AkMacro x, AkMacro y => macro_kind_eqb x y
  | AkArg x, AkArg y => arg_kind_eqb x y
  | _, _ => false
  end.

(** attrs.rs L173-191 [Ord for InkAttributeKind]: the comparison is that of this rank (macros are equal to
    each other and before all arguments; arguments compare by their rank). *)
Definition attr_rank (k : attr_kind) : nat :=
  match k with AkMacro _ => 0 | AkArg a => S (arg_rank a) end.

(** attrs.rs L199-205 [is_unknown] *)
Definition attr_kind_unknown (k : attr_kind) : bool :=
  match k with AkMacro MUnknown | AkArg AUnknown => true | _ => false end.

(** ** Meta items *)

(** meta/option.rs L8-16 [MetaOption] *)
Inductive moption (A : Type) := MOk (a : A) | MErr (elems : list lelem) | MNone.
Arguments MOk {A} _.
Arguments MErr {A} _.
Arguments MNone {A}.
Definition mo_some {A} (o : moption A) : bool := match o with MNone => false | _ => true end.
Definition mo_ok {A} (o : moption A) : option A := match o with MOk a => Some a | _ => None end.

(** meta/value.rs L15-23 [MetaValue]. The [expr] field holds what the code reads from the expression: for
    a literal the kind of its token, for a path [PATH], and its text ([to_string]). *)
Inductive vexpr := VELiteral (k : skind) (text : str) | VEPath (text : str).
Record mvalue := MValue {
  mv_elements : list lelem;
  mv_token : option lelem;
  mv_expr : option vexpr }.

(** meta.rs L26-48 [MetaNameValue]; [parent_tt] is dropped (only used to find the enclosing attribute). *)
Inductive meta := Meta {
  m_name : moption lelem;
  m_eq : option lelem;
  m_value : moption mvalue;
  m_nested : option meta;
  m_start : nat;
  m_end : option nat }.

(** meta.rs L81-95 [MetaNameValue::empty] (the containment assertions are not modelled). *)
Definition meta_empty (start : nat) (end_ : option nat) : meta := Meta MNone None MNone None start end_.

(** [ra_ap_syntax::hacks::parse_expr_from_str], external: [Some] only for literals and paths here (value.rs
    L65-73 drops all others). *)
Definition expr_parser := str -> option vexpr.

(** value.rs L33-77 [MetaValue::parse] *)
Definition non_trivia (l : list lelem) : list lelem := filter (fun e => negb (is_trivia (lkind e))) l.
Definition value_parse (px : expr_parser) (elems : list lelem) : option mvalue :=
  match elems with
  | [] => None
  | _ =>
      let as_expr :=
        match px (texts_of (map snd elems)) with
        | Some e => Some (MValue elems None (Some e))
        | None => None
        end in
      match non_trivia elems with
      | [e] =>
          if (skind_eqb (lkind e) UNDERSCORE || skind_eqb (lkind e) AT) && is_tok (snd e)
          then Some (MValue elems (Some e) None)
          else as_expr
      | _ => as_expr
      end
  end.

(** value.rs L85-97 [kind]; the panic of a value with neither token nor expression is the [None] case. *)
Definition value_skind (v : mvalue) : option skind :=
  match mv_token v with
  | Some t => Some (lkind t)
  | None =>
      match mv_expr v with
      | Some (VELiteral k _) => Some k
      | Some (VEPath _) => Some PATH
      | None => None
      end
  end.
(** value.rs L246-257 [Display] *)
Definition value_text (v : mvalue) : str :=
  match mv_token v with
  | Some t => text_of (snd t)
  | None => match mv_expr v with Some (VELiteral _ s) => s | Some (VEPath s) => s | None => [] end
  end.

(** value.rs L100-130 [text_range]. [TextRange::new] panics when the start is after the end. *)
Definition mk_range (s e : nat) : outcome (nat * nat) := if s <=? e then Done (s, e) else Panic.
Definition value_range (v : mvalue) : outcome (nat * nat) :=
  match mv_elements v with
  | [] => Panic
  | f :: _ =>
      let nt := non_trivia (mv_elements v) in
      let s := match hd_error nt with Some e => lstart e | None => lstart f end in
      let e := match last_opt nt with
               | Some e => lend e
               | None => match last_opt (mv_elements v) with Some l => lstart l | None => 0 end
               end in
      mk_range s e
  end.

(** [u16::from_str]/[u32::from_str] and [from_str_radix], on literals without sign: all characters must be
    digits of the radix, there must be one, and the value must be at most [max]. *)
Definition digit (radix : N) (c : char) : option N :=
  let d := if (48 <=? c)%N && (c <=? 57)%N then Some (c - 48)%N
           else if (97 <=? c)%N && (c <=? 122)%N then Some (c - 87)%N
           else if (65 <=? c)%N && (c <=? 90)%N then Some (c - 55)%N
           else None in
  match d with Some d => if (d <? radix)%N then Some d else None | None => None end.
Fixpoint digits_value (radix acc : N) (s : str) : option N :=
  match s with
  | [] => Some acc
  | c :: s' => match digit radix c with
               | Some d => digits_value radix (acc * radix + d)%N s'
               | None => None
               end
  end.
Definition parse_int (max radix : N) (s : str) : option N :=
  match s with
  | [] => None
  | _ => match digits_value radix 0 s with
         | Some n => if (n <=? max)%N then Some n else None
         | None => None
         end
  end.

(** value.rs L157-173 [as_int]; [max] is [T::MAX]. *)
Definition U16_MAX : N := 65535%N.
Definition U32_MAX : N := 4294967295%N.
Definition int_of_text (max : N) (t : str) : option N :=
  match strip_prefix (lit "0x") t with
  | Some h => parse_int max 16 h
  | None => parse_int max 10 t
  end.
Definition value_int (max : N) (v : mvalue) : option N :=
  match value_skind v with
  | Some INT_NUMBER => int_of_text max (value_text v)
  | _ => None
  end.

(** value.rs L176-182 [as_bool] *)
Definition value_bool (v : mvalue) : option bool :=
  match value_skind v with Some TRUE_KW => Some true | Some FALSE_KW => Some false | _ => None end.

(** value.rs L185-194 [as_string] *)
Fixpoint skip_while {A} (p : A -> bool) (l : list A) : list A :=
  match l with x :: l' => if p x then skip_while p l' else l | [] => [] end.
Fixpoint take_while {A} (p : A -> bool) (l : list A) : list A :=
  match l with x :: l' => if p x then x :: take_while p l' else [] | [] => [] end.
Definition is_quote (c : char) : bool := N.eqb c c_quote.
Definition string_of_text (t : str) : str :=
  take_while (fun c => negb (is_quote c)) (skip_while is_quote t).
Definition value_string (v : mvalue) : option str :=
  match value_skind v with
  | Some STRING => Some (string_of_text (value_text v))
  | _ => None
  end.

(** value.rs L132-144 [is_wildcard], [is_at_symbol] *)
Definition value_is_wildcard (v : mvalue) : bool :=
  match value_skind v with Some UNDERSCORE => true | _ => false end.
Definition value_is_at (v : mvalue) : bool :=
  match value_skind v with Some AT => true | _ => false end.

(** ** Parsing of meta items *)

(** parser.rs L31-38 [is_error_wrapped_closing_bracket] *)
Definition last_leaf (e : elem) : option (skind * str) := last_opt (leaves e).
Definition is_error_wrapped_closing_bracket (e : elem) : bool :=
  match e with
  | Node ERROR _ => match last_leaf e with Some (R_BRACK, _) => true | _ => false end
  | _ => false
  end.

(** parser.rs L134-152 [parse_meta_name]; name.rs L14-17 *)
Definition is_name_kind (k : skind) : bool := match k with IDENT | IMPL_KW => true | _ => false end.
Definition parse_meta_name (tokens : list lelem) : moption lelem :=
  match non_trivia tokens with
  | [] => MNone
  | [e] => if is_tok (snd e) && is_name_kind (lkind e) then MOk e else MErr tokens
  | _ => MErr tokens
  end.

(** parser.rs L155-164 [parse_meta_value] *)
Definition parse_meta_value (px : expr_parser) (tokens : list lelem) : moption mvalue :=
  match tokens with
  | [] => MNone
  | _ => match value_parse px tokens with Some v => MOk v | None => MErr tokens end
  end.

(** A child together with the meta items obtained when it is a token tree (so that the recursion of
    [parse_meta_items] is structural). *)
Definition pchild := (lelem * list meta)%type.

(** parser.rs L67-84: the elements before the first [=], the [=] and the elements after it. *)
Fixpoint split_eq (l : list pchild) : list pchild * option lelem * list pchild :=
  match l with
  | [] => ([], None, [])
  | c :: l' =>
      if skind_eqb (lkind (fst c)) EQ then
        ([], if is_tok (snd (fst c)) then Some (fst c) else None, l')
      else
        let r := split_eq l' in (c :: fst (fst r), snd (fst r), snd r)
  end.

Definition is_tt (e : lelem) : bool :=
  match snd e with Node TOKEN_TREE _ => true | _ => false end.

(** parser.rs L87-107: the nested meta item of the elements before the equal sign. *)
Definition nested_of (name : list pchild) : option meta :=
  match filter (fun c => is_tt (fst c)) name with
  | [(tree, items)] =>
      match items with
      | [m] => Some m
      | _ => if str_eqb (text_of (snd tree)) (lit "(") || str_eqb (text_of (snd tree)) (lit "()")
             then Some (meta_empty (lstart tree) (Some (lend tree)))
             else None
      end
  | _ => None
  end.
(** parser.rs L111-127 *)
Definition build_meta (last : nat) (mn : moption lelem) (eq : option lelem) (mv : moption mvalue)
    (nested : option meta) : meta :=
  if mo_some mn || is_some eq || mo_some mv || is_some nested
  then Meta mn eq mv nested last None
  else meta_empty last None.
(** parser.rs L62-127: one comma separated group. [last] is [last_separator_offset]. *)
Definition parse_group (px : expr_parser) (last : nat) (group : list pchild) : meta :=
  let '(name, eq, value) := split_eq group in
  let nested := nested_of name in
  let name_elems :=
    match nested with
    | Some _ => filter (fun e => negb (skind_eqb (lkind e) TOKEN_TREE)) (map fst name)
    | None => map fst name
    end in
  build_meta last (parse_meta_name name_elems) eq (parse_meta_value px (map fst value)) nested.

(** itertools [group_by(|t| t.kind() == COMMA)]: maximal runs of commas and of other elements; L54-60: a run
    of commas sets the last separator offset to the end of its first comma. [cur] is the current run of
    other elements, latest first; [in_commas]: the previous element was a comma. *)
Fixpoint parse_groups (px : expr_parser) (last : nat) (in_commas : bool) (cur : list pchild) (l : list pchild)
  : list meta :=
  match l with
  | [] => match cur with [] => [] | _ => [parse_group px last (rev cur)] end
  | c :: l' =>
      if skind_eqb (lkind (fst c)) COMMA then
        match cur with
        | [] => parse_groups px (if in_commas then last else lend (fst c)) true [] l'
        | _ => parse_group px last (rev cur) :: parse_groups px (lend (fst c)) true [] l'
        end
      else parse_groups px last false (c :: cur) l'
  end.

(** [TokenTree::l_paren_token] / [r_paren_token]: a direct child token of the kind. *)
Definition has_token (k : skind) (cs : list elem) : bool :=
  existsb (fun e => is_tok e && skind_eqb (kind_of e) k) cs.

(** parser.rs L22-131 [parse_meta_items] of a token tree starting at [o]. The comparison with [r_paren] is by
    identity with the first direct [')'] token, which is the first such token met. *)
Fixpoint parse_meta_items (px : expr_parser) (e : elem) (o : nat) {struct e} : list meta :=
  match e with
  | Tok _ _ => []
  | Node _ cs =>
      let children :=
        (fix ann (l : list elem) (o : nat) : list pchild :=
           match l with
           | [] => []
           | c :: l' =>
               ((o, c), match c with Node TOKEN_TREE _ => parse_meta_items px c o | _ => [] end)
                 :: ann l' (o + len_of c)
           end) cs o in
      let l_paren := find (fun e => is_tok e && skind_eqb (kind_of e) L_PAREN) cs in
      let start :=
        match find (fun c => is_tok (snd (fst c)) && skind_eqb (lkind (fst c)) L_PAREN) children with
        | Some p => lend (fst p)
        | None => o
        end in
      let body := match l_paren with Some _ => skipn 1 children | None => children end in
      let taken :=
        take_while (fun c => negb (is_tok (snd (fst c)) && skind_eqb (lkind (fst c)) R_PAREN)
                             && negb (is_error_wrapped_closing_bracket (snd (fst c)))) body in
      parse_groups px start false [] taken
  end.

(** args.rs L20-31 [From<MetaNameValue> for InkArg] *)
Definition arg_kind_of_meta (m : meta) : arg_kind :=
  match m_name m with MOk n => arg_kind_of (text_of (snd n)) | _ => AUnknown end.
(** args.rs L13-18 [InkArg] *)
Definition ink_arg := meta.
Definition ia_kind (a : ink_arg) : arg_kind := arg_kind_of_meta a.

(** parser.rs L10-19 [parse_ink_args]; the argument is the attribute's token tree with its offset. *)
Definition parse_ink_args (px : expr_parser) (tt : option lelem) : list ink_arg :=
  match tt with Some t => parse_meta_items px (snd t) (fst t) | None => [] end.

(** meta.rs L123-182 [MetaNameValue::text_range] *)
Definition items_range (l : list lelem) : outcome (option (nat * nat)) :=
  match l, last_opt l with
  | f :: _, Some t => match mk_range (lstart f) (lend t) with Done r => Done (Some r) | Panic => Panic end
  | _, _ => Done None
  end.
Definition upd (acc : option nat * option nat) (r : option (nat * nat)) : option nat * option nat :=
  match r with
  | Some (s, e) => (oor (fst acc) (Some s), Some e)
  | None => acc
  end.
Definition obind_o {A B} (o : outcome A) (f : A -> outcome B) : outcome B :=
  match o with Done a => f a | Panic => Panic end.
Fixpoint meta_range (m : meta) : outcome (nat * nat) :=
  let name_r :=
    match m_name m with
    | MOk n => Done (Some (lstart n, lend n))
    | MErr items => items_range items
    | MNone => Done None
    end in
  let eq_r := match m_eq m with Some e => Some (lstart e, lend e) | None => None end in
  let nested_r :=
    match m_nested m with
    | Some n => match meta_range n with Done r => Done (Some r) | Panic => Panic end
    | None => Done None
    end in
  let value_r :=
    match m_value m with
    | MOk v => match value_range v with Done r => Done (Some r) | Panic => Panic end
    | MErr items => items_range items
    | MNone => Done None
    end in
  obind_o name_r (fun nr => obind_o nested_r (fun sr => obind_o value_r (fun vr =>
    let acc := upd (upd (upd (upd (None, None) nr) eq_r) sr) vr in
    mk_range (match fst acc with Some s => s | None => m_start m end)
             (match oor (snd acc) (m_end m) with Some e => e | None => m_start m end)))).

(** meta.rs L199-224 [elements] *)
Fixpoint meta_elements_raw (m : meta) : list lelem :=
  match m_name m with MOk n => [n] | MErr l => l | MNone => [] end
  ++ match m_eq m with Some e => [e] | None => [] end
  ++ match m_value m with MOk v => mv_elements v | MErr l => l | MNone => [] end
  ++ match m_nested m with Some n => stable_sort lstart (meta_elements_raw n) | None => [] end.
Definition meta_elements (m : meta) : list lelem := stable_sort lstart (meta_elements_raw m).

(** meta.rs L227-246 [Display for MetaNameValue] *)
Fixpoint meta_str (m : meta) : str :=
  match m_name m with MOk n => text_of (snd n) | MErr l => texts_of (map snd l) | MNone => [] end
  ++ match m_nested m with Some n => lit "(" ++ meta_str n ++ lit ")" | None => [] end
  ++ match m_eq m with Some _ => lit " = " | None => [] end
  ++ match m_value m with MOk v => value_text v | MErr l => texts_of (map snd l) | MNone => [] end.

(** ** Attributes *)

(** What the code reads from an [ast::Attr]: the segments of its path (as text) and its token tree. *)
Record attr_syntax := AttrSyntax {
  as_segments : list str;
  as_token_tree : option lelem;
  as_range : nat * nat }.

(** attrs.rs L17-32 [InkAttribute] *)
Record ink_attr := InkAttr {
  at_kind : attr_kind;
  at_args : list ink_arg;
  at_syntax : attr_syntax;
  at_arg_name : option lelem }.

(** attrs.rs L36-40 [can_cast] *)
Definition attr_can_cast (a : attr_syntax) : bool :=
  match as_segments a with
  | s :: _ => str_eqb s (lit "ink") || str_eqb s (lit "ink_e2e")
  | [] => false
  end.

(** attrs.rs L43-101 [cast] *)
Definition attr_cast (px : expr_parser) (a : attr_syntax) : option ink_attr :=
  if attr_can_cast a then
    match as_segments a with
    | [] => None
    | crate :: rest =>
        let args := parse_ink_args px (as_token_tree a) in
        match rest with
        | [m] => Some (InkAttr (AkMacro (macro_kind_of crate m)) args a None)
        | _ :: _ :: _ => Some (InkAttr (AkMacro MUnknown) args a None)
        | [] =>
            match hd_error (stable_sort (fun x => arg_rank (ia_kind x)) args) with
            | None =>
                match as_token_tree a with
                | Some _ => Some (InkAttr (AkArg AUnknown) args a None)
                | None => Some (InkAttr (AkMacro MUnknown) args a None)
                end
            | Some p => Some (InkAttr (AkArg (ia_kind p)) args a (mo_ok (m_name p)))
            end
        end
    end
  else None.

(** crates/analyzer/src/analysis/utils.rs L451-476 [primary_ink_attribute_candidate]. *)
Definition at_range (a : ink_attr) : nat * nat := as_range (at_syntax a).
Definition range_eqb (a b : nat * nat) : bool := (fst a =? fst b) && (snd a =? snd b).
Definition primary_candidate (attrs : list ink_attr) : option (ink_attr * bool) :=
  match attrs with
  | [] => None
  | first :: _ =>
      match hd_error (stable_sort (fun a => attr_rank (at_kind a))
                        (filter (fun a => negb (attr_kind_unknown (at_kind a))) attrs)) with
      | None => None
      | Some p => Some (p, range_eqb (at_range first) (at_range p))
      end
  end.
