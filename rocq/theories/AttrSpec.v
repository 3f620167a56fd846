(** What the attribute properties C20-C23, C56, C61, C62 mean, independently of how the code computes them. *)
From Verif Require Import Base PositionModel SyntaxModel AttrModel.

(** ** C20: the ink! names *)

(** The argument names of the ink! language and their kinds. *)
Definition arg_names : list (str * arg_kind) :=
  [ (lit "additional_contracts", AAdditionalContracts); (lit "anonymous", AAnonymous);
    (lit "backend", ABackend); (lit "constructor", AConstructor); (lit "Decode", ADecode);
    (lit "default", ADefault); (lit "derive", ADerive); (lit "Encode", AEncode); (lit "env", AEnv);
    (lit "environment", AEnvironment); (lit "event", AEvent); (lit "extension", AExtension);
    (lit "function", AFunction); (lit "handle_status", AHandleStatus); (lit "impl", AImpl);
    (lit "keep_attr", AKeepAttr); (lit "message", AMessage); (lit "namespace", ANamespace);
    (lit "node", ANode); (lit "payable", APayable); (lit "runtime_only", ARuntimeOnly);
    (lit "sandbox", ASandbox); (lit "selector", ASelector); (lit "signature_topic", ASignatureTopic);
    (lit "storage", AStorage); (lit "topic", ATopic); (lit "TypeInfo", ATypeInfo); (lit "url", AUrl) ].

(** The attribute macros: crate, name, kind. *)
Definition macro_names : list (str * str * macro_kind) :=
  [ (lit "ink", lit "chain_extension", MChainExtension); (lit "ink", lit "contract", MContract);
    (lit "ink", lit "event", MEvent); (lit "ink", lit "scale_derive", MScaleDerive);
    (lit "ink", lit "storage_item", MStorageItem); (lit "ink", lit "test", MTest);
    (lit "ink", lit "trait_definition", MTraitDefinition); (lit "ink_e2e", lit "test", ME2ETest) ].

(** ** C21: primary arguments *)

(** Arguments that define an ink! entity. *)
Definition entity_args : list arg_kind :=
  [AConstructor; AEvent; AExtension; AFunction; AImpl; AMessage; AStorage; ATopic].

(** [a] takes precedence over [b]: entity arguments, then known ones, then unknown ones. *)
Definition precedes (a b : arg_kind) : Prop :=
  (In a entity_args /\ ~ In b entity_args) \/ (a <> AUnknown /\ b = AUnknown).

(** [x] is the primary element of [l]: nothing precedes it, and it precedes all elements before it. *)
Definition primary_of {A} (prec : A -> A -> Prop) (l : list A) (x : A) : Prop :=
  exists before after, l = before ++ x :: after
    /\ (forall y, In y before -> prec x y)
    /\ (forall y, In y after -> ~ prec y x).

(** ** C56: precedence of attributes: macros, then by argument. *)
Definition kind_precedes (a b : attr_kind) : Prop :=
  match a, b with
  | AkMacro _, AkArg _ => True
  | AkArg x, AkArg y => precedes x y
  | _, AkMacro _ => False
  end.
Definition known_kind (k : attr_kind) : Prop := k <> AkMacro MUnknown /\ k <> AkArg AUnknown.

(** ** C22: the written arguments *)

(** The parser wraps a [']'] met inside an unclosed list in an error node. *)
Definition closing_error (e : elem) : Prop :=
  exists cs l t, e = Node ERROR cs /\ leaves e = l ++ [(R_BRACK, t)].
Definition plain_element (e : elem) : Prop := (forall t, e <> Tok R_PAREN t) /\ ~ closing_error e.

(** The part of a token tree that holds arguments: what follows the opening parenthesis, up to the closing one
    (or up to a [']'] that closes an unbalanced attribute). *)
Inductive region : list elem -> list elem -> Prop :=
  | region_open o rest body : region_end rest body -> region (Tok L_PAREN o :: rest) body
  | region_bare cs body :
      (forall o, ~ In (Tok L_PAREN o) cs) -> region_end cs body -> region cs body
with region_end : list elem -> list elem -> Prop :=
  | re_close body t after : Forall plain_element body -> region_end (body ++ Tok R_PAREN t :: after) body
  | re_error body e after : closing_error e -> Forall plain_element body -> region_end (body ++ e :: after) body
  | re_all body : Forall plain_element body -> region_end body body.

(** Offset of the first argument: after the opening parenthesis. *)
Definition region_start (o : nat) (cs : list elem) : nat :=
  match cs with Tok L_PAREN t :: _ => o + bytes t | _ => o end.

(** [l] is [segments] separated by commas; segments contain no comma at their top level, and may be empty. *)
Inductive comma_separated : list lelem -> list (list lelem) -> Prop :=
  | cs_last s : (forall e, In e s -> lkind e <> COMMA) -> comma_separated s [s]
  | cs_more s c rest segs :
      (forall e, In e s -> lkind e <> COMMA) -> lkind c = COMMA ->
      comma_separated rest segs ->
      comma_separated (s ++ c :: rest) (s :: segs).

(** The arguments are the segments that are not empty. *)
Definition nonempty {A} (l : list A) : bool := match l with [] => false | _ => true end.

(** The name part of a segment is what precedes its first [=]; the value part is what follows it. *)
Definition split_at_eq (seg name : list lelem) (eq : option lelem) (value : list lelem) : Prop :=
  match eq with
  | Some q => seg = name ++ q :: value /\ lkind q = EQ
  | None => seg = name /\ value = []
  end
  /\ (forall e, In e name -> lkind e <> EQ).

Definition significant (l : list lelem) : list lelem := filter (fun e => negb (is_trivia (lkind e))) l.
Definition name_token (e : lelem) : Prop :=
  exists t, snd e = Tok IDENT t \/ snd e = Tok IMPL_KW t.

(** What an argument's name says about the elements it was written with. *)
Definition name_reads (elems : list lelem) (name : moption lelem) : Prop :=
  match name with
  | MOk n => significant elems = [n] /\ name_token n
  | MNone => significant elems = []
  | MErr es => es = elems /\ significant elems <> [] /\ (forall n, significant elems = [n] -> ~ name_token n)
  end.

(** What an argument's value says about the elements it was written with. *)
Definition value_reads (px : expr_parser) (elems : list lelem) (value : moption mvalue) : Prop :=
  match value with
  | MNone => elems = []
  | MErr es => es = elems /\ elems <> [] /\ px (texts_of (map snd elems)) = None
  | MOk v =>
      mv_elements v = elems /\ elems <> []
      /\ ((exists k t e, significant elems = [e] /\ snd e = Tok k t /\ (k = UNDERSCORE \/ k = AT)
                         /\ mv_token v = Some e /\ mv_expr v = None)
          \/ (mv_token v = None /\ mv_expr v = px (texts_of (map snd elems)) /\ mv_expr v <> None))
  end.

(** The elements of a name part that are parenthesised lists. *)
Definition trees (l : list lelem) : list lelem :=
  filter (fun e => match snd e with Node TOKEN_TREE _ => true | _ => false end) l.
Definition without_trees (l : list lelem) : list lelem :=
  filter (fun e => negb (skind_eqb (lkind e) TOKEN_TREE)) l.

(** One argument is what its segment says: [name], optional [(nested)], optional [= value]; when the name
    part does not hold exactly one list with exactly one argument in it, the lists are part of the name. *)
Definition reads (px : expr_parser) (items_of : lelem -> list meta) (seg : list lelem) (m : meta) : Prop :=
  exists name eq value,
    split_at_eq seg name eq value
    /\ m_eq m = match eq with Some q => if is_tok (snd q) then Some q else None | None => None end
    /\ value_reads px value (m_value m)
    /\ ((exists t n, trees name = [t] /\ items_of t = [n] /\ m_nested m = Some n
                     /\ name_reads (without_trees name) (m_name m))
        \/ (exists t n, trees name = [t] /\ length (items_of t) <> 1
                        /\ (text_of (snd t) = lit "(" \/ text_of (snd t) = lit "()")
                        /\ m_nested m = Some n /\ m_name n = MNone /\ m_eq n = None
                        /\ m_value n = MNone /\ m_nested n = None
                        /\ name_reads (without_trees name) (m_name m))
        \/ (m_nested m = None /\ name_reads name (m_name m)
            /\ (forall t, trees name = [t] -> length (items_of t) <> 1))).

(** Tokens that carry content (not white space, comments, commas or parentheses). *)
Definition content (l : list (skind * str)) : list (skind * str) :=
  filter (fun p => match fst p with WHITESPACE | COMMENT | COMMA | L_PAREN | R_PAREN => false | _ => true end) l.

(** Token trees as the parser builds them for balanced input: delimiters only at the ends. *)
Definition delimiters : list (elem * elem) :=
  [ (Tok L_PAREN (lit "("), Tok R_PAREN (lit ")"));
    (Tok L_CURLY (lit "{"), Tok R_CURLY (lit "}"));
    (Tok L_BRACK (lit "["), Tok R_BRACK (lit "]")) ].
Inductive balanced : elem -> Prop :=
  | bal_tok k t : k <> L_PAREN -> k <> R_PAREN -> k <> TOKEN_TREE -> t <> [] -> balanced (Tok k t)
  | bal_tree o cs c : Forall balanced cs -> In (o, c) delimiters ->
      balanced (Node TOKEN_TREE (o :: cs ++ [c])).

(** ** C22, completeness: arguments as one would write them *)

(** An argument: a name, optionally one parenthesised argument, optionally [= value]. *)
Inductive warg := WArg (name : str) (nested : option warg) (value : option (list elem)).

Definition trivia (l : list elem) : Prop := forall e, In e l -> exists k t, e = Tok k t /\ is_trivia k = true.

(** The ways of writing an argument, with arbitrary white space and comments between its parts. *)
Inductive writes : warg -> list elem -> Prop :=
  | writes_arg name nested value t1 nk t2 np t3 vp :
      trivia t1 -> trivia t2 -> trivia t3 ->
      (nk = IDENT \/ nk = IMPL_KW) ->
      writes_nested nested np ->
      writes_value value vp ->
      writes (WArg name nested value) (t1 ++ Tok nk name :: t2 ++ np ++ t3 ++ vp)
with writes_nested : option warg -> list elem -> Prop :=
  | wn_none : writes_nested None []
  | wn_some w seg c :
      writes w seg ->
      (c = [] \/ exists t, c = [Tok COMMA t]) ->
      writes_nested (Some w) [Node TOKEN_TREE (Tok L_PAREN (lit "(") :: seg ++ c ++ [Tok R_PAREN (lit ")")])]
with writes_value : option (list elem) -> list elem -> Prop :=
  | wv_none : writes_value None []
  | wv_some v : v <> [] -> (forall e, In e v -> kind_of e <> COMMA /\ plain_element e) ->
      writes_value (Some v) (Tok EQ (lit "=") :: v).

(** A list of arguments, separated by commas, optionally with a comma right before the closing parenthesis. *)
Inductive writes_args : list warg -> list elem -> Prop :=
  | wa_none : writes_args [] []
  | wa_last w seg c : writes w seg -> (c = [] \/ exists t, c = [Tok COMMA t]) -> writes_args [w] (seg ++ c)
  | wa_more w seg t w' ws rest : writes w seg -> writes_args (w' :: ws) rest ->
      writes_args (w :: w' :: ws) (seg ++ Tok COMMA t :: rest).

(** The parsed argument is the written one. *)
Inductive is_arg : warg -> meta -> Prop :=
  | is_arg_intro name nested value m n :
      m_name m = MOk n -> text_of (snd n) = name ->
      is_nested nested (m_nested m) ->
      (value = None -> m_eq m = None /\ m_value m = MNone) ->
      (forall v, value = Some v ->
         m_eq m <> None
         /\ (map snd (match m_value m with MOk x => mv_elements x | MErr l => l | MNone => [] end) = v)) ->
      is_arg (WArg name nested value) m
with is_nested : option warg -> option meta -> Prop :=
  | in_none : is_nested None None
  | in_some w m : is_arg w m -> is_nested (Some w) (Some m).

(** ** C61: the argument's range exists, starts at its name and contains it. *)
Definition covers_name (m : meta) : Prop :=
  exists n e, m_name m = MOk n /\ meta_range m = Done (lstart n, e) /\ lend n <= e.

(** ** C63: string literals of the Rust reference: without escapes, raw, and with escaped quotes. *)
Definition plain_string (s : str) : Prop := ~ In c_quote s /\ ~ In 92%N s.
Inductive string_denotes : str -> str -> Prop :=
  | sd_plain s : plain_string s -> string_denotes (lit """" ++ s ++ lit """") s
  | sd_raw s : ~ In c_quote s -> string_denotes (lit "r""" ++ s ++ lit """") s
  | sd_escaped_quote a b s : plain_string a -> string_denotes (lit """" ++ b ++ lit """") s ->
      string_denotes (lit """" ++ a ++ lit "\""" ++ b ++ lit """") (a ++ lit """" ++ s).

(** ** C23: integer literals of the Rust reference *)

Definition int_suffixes : list str :=
  [ []; lit "u8"; lit "u16"; lit "u32"; lit "u64"; lit "u128"; lit "usize";
    lit "i8"; lit "i16"; lit "i32"; lit "i64"; lit "i128"; lit "isize" ].

(** [radix_digits radix s n]: [s] is a sequence of digits of the radix and underscores, with a digit, and
    denotes [n]. *)
Definition digit_char (radix : N) (c : char) (d : N) : Prop :=
  (d < radix)%N /\ ((48 <= c <= 57 /\ d = c - 48) \/ (97 <= c <= 102 /\ d = c - 87) \/ (65 <= c <= 70 /\ d = c - 55))%N.
Inductive radix_digits (radix : N) : str -> N -> Prop :=
  | rd_first c d : digit_char radix c d -> radix_digits radix [c] d
  | rd_digit s n c d : radix_digits radix s n -> digit_char radix c d -> radix_digits radix (s ++ [c]) (n * radix + d)%N
  | rd_under s n : radix_digits radix s n -> radix_digits radix (s ++ [c_underscore]) n
  | rd_lead s n : radix_digits radix s n -> radix <> 10%N -> radix_digits radix (c_underscore :: s) n.

(** The value a Rust integer literal denotes. *)
Inductive denotes : str -> N -> Prop :=
  | den_dec s suf n : radix_digits 10 s n -> In suf int_suffixes -> denotes (s ++ suf) n
  | den_hex s suf n : radix_digits 16 s n -> In suf int_suffixes -> denotes (lit "0x" ++ s ++ suf) n
  | den_oct s suf n : radix_digits 8 s n -> In suf int_suffixes -> denotes (lit "0o" ++ s ++ suf) n
  | den_bin s suf n : radix_digits 2 s n -> In suf int_suffixes -> denotes (lit "0b" ++ s ++ suf) n.
