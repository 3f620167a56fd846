(** What the properties C81-C84 mean: the documented values of attribute arguments, and arguments that have one. *)
From Verif Require Import Base PositionModel TranslateModel SyntaxModel VersionModel AttrModel AttrSpec ArgCheckModel.

(** ** Documented values *)

(** What follows the name of an argument: nothing; [= value] of some form; or another argument in parentheses. *)
Inductive form :=
  | FBare
  | FNumber (limit : N) (symbols : list skind)
  | FText | FIdentifierText | FHexText | FUrlText
  | FBoolean | FPath
  | FGroup (options : list str) (required : bool).

(** The arguments of the ink! language, by name. In ink! 5 the ids of chain extensions have 16 bits, and the
    selector of a message (not that of a constructor) may be [@]. *)
Definition largest (bits : N) : N := (2 ^ bits - 1)%N.
Definition documented (v : version) (constructor : bool) : list (str * form) :=
  [ (lit "additional_contracts", FText); (lit "anonymous", FBare);
    (lit "backend", FGroup [lit "node"; lit "runtime_only"] true);
    (lit "constructor", FBare); (lit "Decode", FBare); (lit "default", FBare); (lit "derive", FBoolean);
    (lit "Encode", FBare); (lit "env", FPath); (lit "environment", FPath); (lit "event", FBare);
    (lit "extension", FNumber (match v with V4 => largest 32 | V5 => largest 16 end) []);
    (lit "function", FNumber (largest 16) []); (lit "handle_status", FBoolean); (lit "impl", FBare);
    (lit "keep_attr", FText); (lit "message", FBare); (lit "namespace", FIdentifierText);
    (lit "node", FGroup [lit "url"] false); (lit "payable", FBare);
    (lit "runtime_only", FGroup [lit "sandbox"] false); (lit "sandbox", FPath);
    (lit "selector", FNumber (largest 32)
       (match v with V4 => [UNDERSCORE] | V5 => if constructor then [UNDERSCORE] else [UNDERSCORE; AT] end));
    (lit "signature_topic", FHexText); (lit "storage", FBare); (lit "topic", FBare); (lit "TypeInfo", FBare);
    (lit "url", FUrlText) ].

(** ** Values *)

(** The value is written as this one token or literal, or as a path. *)
Inductive shows (v : mvalue) : skind -> str -> Prop :=
  | shows_token e : mv_token v = Some e -> shows v (lkind e) (text_of (snd e))
  | shows_literal k t : mv_token v = None -> mv_expr v = Some (VELiteral k t) -> shows v k t.
Definition shows_path (v : mvalue) : Prop := exists t, mv_expr v = Some (VEPath t).
(** [C63]: the literal ["s"] where [s] has neither quotes nor escapes. *)
Definition shows_string (v : mvalue) (s : str) : Prop := plain_string s /\ shows v STRING (lit """" ++ s ++ lit """").

(** Decimal digits, or [0x] and hexadecimal digits. *)
Definition simple_number (t : str) (n : N) : Prop :=
  ~ In c_underscore t
  /\ (radix_digits 10 t n \/ exists h, t = lit "0x" ++ h /\ radix_digits 16 h n).

Section Forms.
  Context (X : externals) (ver : version) (constructor : bool).

  Inductive fits (v : mvalue) : form -> Prop :=
    | fits_number limit symbols t n :
        shows v INT_NUMBER t -> simple_number t n -> (n <= limit)%N -> fits v (FNumber limit symbols)
    | fits_symbol limit symbols k t : In k symbols -> shows v k t -> fits v (FNumber limit symbols)
    | fits_text t : shows v STRING t -> fits v FText
    | fits_identifier s : shows_string v s -> x_ident X s = Some s -> fits v FIdentifierText
    | fits_hex s b : shows_string v s -> x_hex X s = Some b -> length b = 32 -> fits v FHexText
    | fits_url a b : shows_string v (a ++ lit "://" ++ b) -> fits v FUrlText
    | fits_true t : shows v TRUE_KW t -> fits v FBoolean
    | fits_false t : shows v FALSE_KW t -> fits v FBoolean
    | fits_path : shows_path v -> fits v FPath.

  Definition named (m : meta) (name : str) : Prop := exists n, m_name m = MOk n /\ text_of (snd n) = name.
  Definition has_form (m : meta) (f : form) : Prop :=
    exists name, named m name /\ In (name, f) (documented ver constructor).

  (** ** C81: arguments that are written as documented *)
  Inductive well_formed : meta -> Prop :=
    | wf_bare m : has_form m FBare -> m_eq m = None -> m_value m = MNone -> m_nested m = None -> well_formed m
    | wf_value m f v : has_form m f -> m_value m = MOk v -> fits v f -> m_nested m = None -> well_formed m
    | wf_alone m options : has_form m (FGroup options false) ->
        m_eq m = None -> m_value m = MNone -> m_nested m = None -> well_formed m
    | wf_group m options required n name : has_form m (FGroup options required) ->
        m_eq m = None -> m_value m = MNone -> m_nested m = Some n ->
        named n name -> In name options -> well_formed n -> well_formed m.

  (** An argument with a part its form does not have, which the checks overlook: parentheses after an argument
      that takes none, or [=] without a readable value after an argument that takes parentheses. *)
  Definition takes_group (m : meta) : Prop := exists options required, has_form m (FGroup options required).
  Inductive stray : meta -> Prop :=
    | stray_group m n : m_nested m = Some n -> ~ takes_group m -> stray m
    | stray_value m : takes_group m -> (m_eq m <> None \/ m_value m <> MNone) ->
        (forall v, m_value m <> MOk v) -> stray m
    | stray_inside m n : m_nested m = Some n -> stray n -> stray m.
End Forms.

(** An argument and the arguments nested in it. *)
Inductive within : meta -> meta -> Prop :=
  | within_self m : within m m
  | within_nested m n x : m_nested m = Some n -> within n x -> within m x.

(** All string values are plain literals, and values are a token or an expression, not both (as parsed, C22). *)
Definition simple_values (m : meta) : Prop :=
  forall x v, within m x -> m_value x = MOk v ->
    (mv_token v = None \/ mv_expr v = None) /\ (forall t, shows v STRING t -> exists s, shows_string v s).

(** All arguments have a range (C61). *)
Definition all_ranged (m : meta) : Prop := forall x, within m x -> exists r, meta_range x = Done r.

(** The attribute the argument belongs to is [#[ink(constructor, ..)]]. *)
Definition is_constructor (attr : option ink_attr) (c : bool) : Prop :=
  c = true <-> exists a, attr = Some a /\ at_kind a = AkArg AConstructor.

(** ** C82: what an argument written by a fix is *)

(** A report with one quick fix, which writes the text over the range. *)
Definition one_fix (d : UtilModel.adiag) (text : str) (r : trange) (snippet : option str) : Prop :=
  exists label, UtilModel.ad_fixes d = Some [Action label AkQuickFix r [TextEdit text r snippet]].
(** Forms of values. *)
Definition takes_value (f : form) : Prop := f <> FBare /\ forall options required, f <> FGroup options required.
(** Forms of arguments that may stand alone. *)
Definition stands_alone (f : form) : Prop := f = FBare \/ exists options, f = FGroup options false.

(** ** C83: snippets *)

(** Accepting all placeholders [${1:text}] and leaving [$1] empty. *)
Inductive accepted : str -> str -> Prop :=
  | acc_nil : accepted [] []
  | acc_char c s t : c <> 36%N -> accepted s t -> accepted (c :: s) (c :: t)
  | acc_hole x s t : ~ In 125%N x -> accepted s t -> accepted (lit "${1:" ++ x ++ lit "}" ++ s) (x ++ t)
  | acc_stop s t : accepted s t -> accepted (lit "$1" ++ s) t.

(** ** Reading the written text back *)

(** The parser of expressions reads numbers, plain strings, [true] and these paths as such, after a space. *)
Record reads_values (px : expr_parser) (paths : list str) : Prop := {
  rv_number : forall n, px (c_space :: dec n) = Some (VELiteral INT_NUMBER (dec n));
  rv_string : forall s, plain_string s ->
    px (c_space :: lit """" ++ s ++ lit """") = Some (VELiteral STRING (lit """" ++ s ++ lit """"));
  rv_true : px (lit " true") = Some (VELiteral TRUE_KW (lit "true"));
  rv_path : forall p, In p paths -> px (c_space :: p) = Some (VEPath p) }.

(** The tokens of [name] and [name(option)]. *)
Definition alone (name : str) : list elem := [Tok IDENT name].
Definition grouped (name option : str) : list elem :=
  [Tok IDENT name; Node TOKEN_TREE [Tok L_PAREN (lit "("); Tok IDENT option; Tok R_PAREN (lit ")")]].
(** The tokens of [(name = value)]. *)
Definition value_tokens (value : list elem) : Prop :=
  value <> []
  /\ forall e, In e value -> plain_element e /\ kind_of e <> COMMA /\ kind_of e <> UNDERSCORE /\ kind_of e <> AT.
Definition assignment (name : str) (value : list elem) : list elem :=
  Tok IDENT name :: Tok WHITESPACE (lit " ") :: Tok EQ (lit "=") :: Tok WHITESPACE (lit " ") :: value.
Definition in_parens (l : list elem) : elem := Node TOKEN_TREE (Tok L_PAREN (lit "(") :: l ++ [Tok R_PAREN (lit ")")]).

(** The first token at or after an offset that is neither white space nor a comment. *)
Definition first_solid (toks : list ArgEditModel.leaf) (o : nat) (t : option ArgEditModel.leaf) : Prop :=
  match t with
  | Some x => exists a b, toks = a ++ x :: b /\ o <= ArgEditModel.lf_start x /\ is_trivia (ArgEditModel.lf_kind x) = false
                /\ forall y, In y a -> o <= ArgEditModel.lf_start y -> is_trivia (ArgEditModel.lf_kind y) = true
  | None => forall y, In y toks -> o <= ArgEditModel.lf_start y -> is_trivia (ArgEditModel.lf_kind y) = true
  end.

(** An unknown attribute: no macro or argument of ink! has this name. *)
Definition unknown_attribute (a : ink_attr) : Prop := at_kind a = AkMacro MUnknown \/ at_kind a = AkArg AUnknown.
