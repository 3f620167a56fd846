(** Model of the checks of attribute arguments and of the text offered for them:
    crates/analyzer/src/analysis/diagnostics/common.rs L22-72 and L106-446, analysis/utils.rs L744-968, and
    crates/ir/src/attrs/meta/value.rs L196-231. *)
From Verif Require Import Base PositionModel TranslateModel SyntaxModel VersionModel AttrModel UtilModel EditModel
  ArgEditModel HintModel.

(** ** Values (ir meta/value.rs) *)

(** Library functions the checks call: [serde_hex::from_hex] (the bytes, or nothing on an error) and the first
    identifier token of a text parsed as a source file ([SourceFile::parse], value.rs L206-213). *)
Record externals := Externals { x_hex : str -> option (list N); x_ident : str -> option str }.

(** value.rs L203-218 [as_ident] (its text) *)
Definition value_ident (X : externals) (v : mvalue) : option str :=
  obind (value_string v) (fun s =>
  obind (x_ident X s) (fun i => if str_eqb i s then Some i else None)).
(** value.rs L223-226 [as_hex_vec], L229-231 [as_hex_32] ([try_into] of a vector to an array of 32 bytes) *)
Definition value_hex_vec (X : externals) (v : mvalue) : option (list N) := obind (value_string v) (x_hex X).
Definition value_hex_32 (X : externals) (v : mvalue) : option (list N) :=
  obind (value_hex_vec X v) (fun b => if length b =? 32 then Some b else None).
(** value.rs L196-201 [as_path_with_inaccurate_text_range] *)
Definition value_is_path (v : mvalue) : bool :=
  match mv_expr v with Some (VEPath _) => true | _ => false end.

(** common.rs L443-446 [is_url_like]: the pattern occurs somewhere in the text. *)
Fixpoint occurs (p s : str) : bool :=
  starts_with p s || match s with [] => false | _ :: s' => occurs p s' end.
Definition is_url_like (s : str) : bool := occurs (lit "://") s.

(** ** The inserted text of an argument (utils.rs L744-968) *)

(** utils.rs L756-782: the first token at or after the offset that is not trivia. The offset must lie in the
    attribute ([token_at_offset] asserts it). *)
Definition next_solid (toks : list leaf) (attr : trange) (o : nat) : outcome (option leaf) :=
  if (fst attr <=? o) && (o <=? snd attr) then
    let inside := filter (fun t => (fst attr <=? lf_start t) && (lf_end t <=? snd attr)) toks in
    Done (match last_opt (filter (fun t => (lf_start t <=? o) && (o <=? lf_end t)) inside) with
          | Some t =>
              let ok := fun x => (o <=? lf_start x) && negb (is_trivia (lf_kind x)) in
              if ok t then Some t else closest_which ok ok (leaves_after toks t)
          | None => None
          end)
  else Panic.

(** What the text depends on: the kind of the next token, when an offset and an attribute are given; the path
    of an [Environment] type in scope (resolution.rs, utils.rs L838-850); and for each kind of argument the ids
    already in use around the attribute (utils.rs L853-866, L873-886, L901-940), see CallableModel for ids. *)
Record insert_context := InsertContext {
  ic_next : option skind;
  ic_env : option str;
  ic_ids : arg_kind -> list N }.

(** utils.rs L869, L889, L943 [suggest_unique_id(None, ..).unwrap_or(1)] *)
Definition id_or_one (max : N) (used : list N) : N :=
  match suggest_unique_id max None used with Found n => n | _ => 1%N end.
Definition snippet_of (s : str) : str := lit "${1:" ++ s ++ lit "}".
Definition quoted (s : str) : str := lit """" ++ s ++ lit """".

(** utils.rs L828-953: default value and its snippet *)
Definition default_value (c : insert_context) (k : arg_kind) : str * str :=
  let plain := fun s => (s, snippet_of s) in
  match k with
  | AAdditionalContracts | AKeepAttr | ASignatureTopic => (quoted [], quoted (lit "$1"))
  | ABackend => plain (lit "node")
  | ADerive | AHandleStatus => plain (lit "true")
  | AEnv | AEnvironment => plain (match ic_env c with Some p => p | None => lit "ink::env::DefaultEnvironment" end)
  | AExtension => plain (dec (id_or_one U32_MAX (ic_ids c k)))
  | AFunction => plain (dec (id_or_one U16_MAX (ic_ids c k)))
  | ANamespace => (quoted (lit "my_namespace"), quoted (snippet_of (lit "my_namespace")))
  | ASandbox => plain (lit "ink_e2e::MinimalSandbox")
  | ASelector => plain (dec (id_or_one U32_MAX (ic_ids c k)))
  | AUrl => (quoted (lit "ws://127.0.0.1:9000"), quoted (snippet_of (lit "ws://127.0.0.1:9000")))
  | _ => ([], [])
  end.

(** utils.rs L784-801 *)
Definition inserts_eq (c : insert_context) (k : arg_kind) : bool :=
  match value_kind k with
  | VNone | VArg _ _ | VChoice _ _ _ => false
  | _ => match ic_next c with Some EQ => false | _ => true end
  end.
(** utils.rs L803-825 *)
Definition inserts_nested (c : insert_context) (k : arg_kind) : bool :=
  negb (inserts_eq c k) &&
  match value_kind k with
  | VArg _ true | VChoice _ _ true => match ic_next c with Some L_PAREN => false | _ => true end
  | _ => false
  end.
(** utils.rs L748-968 [ink_arg_insert_text] *)
Definition insert_text (c : insert_context) (k : arg_kind) : str * option str :=
  let e := inserts_eq c k in
  let n := inserts_nested c k in
  let '(tv, sv) := if e || n then default_value c k else ([], []) in
  let around := fun v => arg_kind_str k ++ (if e then lit " = " else []) ++ (if n then lit "(" else []) ++ v
                         ++ (if n then lit ")" else []) in
  (around tv, if e || n then Some (around sv) else None).

(** utils.rs L782-817: whether the token behind the offset is looked at ([next_non_trivia_token], L755-781) *)
Definition looks_ahead (k : arg_kind) : bool :=
  match value_kind k with VNone | VArg _ false | VChoice _ _ false => false | _ => true end.
(** utils.rs L748-782 with an attribute and an offset; an offset outside the attribute is noticed only by those that look *)
Definition arg_insert_text (toks : list leaf) (attr : trange) (o : nat) (env : option str) (ids : arg_kind -> list N)
    (k : arg_kind) : outcome (str * option str) :=
  if looks_ahead k then obind_o (next_solid toks attr o) (fun t => Done (insert_text (InsertContext (option_map lf_kind t) env ids) k))
  else Done (insert_text (InsertContext None env ids) k).

(** ** Checks of arguments (common.rs L157-440) *)

Definition mo_text (o : moption lelem) : str :=
  match o with MOk n => text_of (snd n) | MErr l => texts_of (map snd l) | MNone => [] end.
Definition tick (s : str) : str := lit "`" ++ s ++ lit "`".
Definition quickfix (label : str) (range : trange) (edit : text_edit) : action := Action label AkQuickFix range [edit].

(** common.rs L237-262 *)
Definition can_be_wildcard (k : arg_value_kind) : bool :=
  match k with VU32OrWildcard | VU32OrWildcardOrComplement => true | _ => false end.
Definition can_be_complement (k : arg_value_kind) : bool :=
  match k with VU32OrWildcardOrComplement => true | _ => false end.
Definition u32_or_wildcard (k : arg_value_kind) (v : mvalue) : bool :=
  is_some (value_int U32_MAX v) || (can_be_wildcard k && value_is_wildcard v)
  || (can_be_complement k && value_is_at v).
(** common.rs L278-291 *)
Definition string_fits (X : externals) (k : value_string_kind) (v : mvalue) : bool :=
  match value_string v with
  | Some s =>
      match k with
      | VSHex => is_some (value_hex_32 X v)
      | VSIdentifier => is_some (value_ident X v)
      | VSUrl => is_url_like s
      | _ => true
      end
  | None => false
  end.
Definition value_ok (o : moption mvalue) (p : mvalue -> bool) : bool :=
  match o with MOk v => p v | _ => false end.

Section Validate.
  Context (X : externals) (ver : version) (toks : list leaf) (attr : option ink_attr) (env : option str)
    (ids : arg_kind -> list N).

  (** common.rs L191-198 *)
  Definition expected (k : arg_kind) : arg_value_kind :=
    match ver with
    | V5 => value_kind_v5 k (option_map (fun a => attr_kind_eqb (at_kind a) (AkArg AConstructor)) attr)
    | V4 => value_kind k
    end.

  (** common.rs L199-217 [add_diagnostic]: no offset is given *)
  Definition value_diag (m : meta) (message : str) : outcome (list adiag) :=
    obind_o (meta_range m) (fun r =>
    let '(text, snippet) := insert_text (InsertContext None env ids) (ia_kind m) in
    Done [ADiag message r SevError
            (Some [quickfix (lit "Add `" ++ mo_text (m_name m) ++ lit "` argument value") r
                     (edit_replace_snippet text r snippet)])]).
  Definition unless (b : bool) (d : outcome (list adiag)) : outcome (list adiag) := if b then Done [] else d.

  (** common.rs L163-189 *)
  Definition unknown_arg (m : meta) : outcome (list adiag) :=
    let name := mo_text (m_name m) in
    obind_o (arg_removal_range toks m attr) (fun range =>
    obind_o (meta_range m) (fun r =>
    Done [ADiag (match name with [] => lit "Missing ink! attribute argument."
                 | _ => lit "Unknown ink! attribute argument: '" ++ name ++ lit "'." end)
            r (match name with [] => SevError | _ => SevWarning end)
            (Some [quickfix (lit "Remove unknown ink! attribute argument: '" ++ name ++ lit "'.") range
                     (edit_delete range)])])).

  (** common.rs L340-363: a value where a nested argument is expected *)
  Definition nested_value (m : meta) (default : arg_kind) (v : mvalue) : outcome (list adiag) :=
    let name := mo_text (m_name m) in
    obind_o (meta_range m) (fun r =>
    Done [ADiag (tick name ++ lit " argument should use nested meta-item syntax (e.g. `" ++ name ++ lit "("
                 ++ arg_kind_str default ++ lit ")`).") r SevError
            (Some [quickfix (lit "Replace with `" ++ name ++ lit "(" ++ value_text v ++ lit ")`") r
                     (edit_replace_snippet (name ++ lit "(" ++ value_text v ++ lit ")") r
                        (Some (name ++ lit "(" ++ snippet_of (value_text v) ++ lit ")")))])]).
  (** common.rs L364-396: the nested argument is missing *)
  Definition nested_missing (m : meta) (options : list arg_kind) : outcome (list adiag) :=
    let name := mo_text (m_name m) in
    obind_o (meta_range m) (fun r =>
    Done [ADiag (tick name ++ lit " argument should have a nested meta-item"
                 ++ match options with
                    | o :: _ => lit " (e.g. `" ++ name ++ lit "(" ++ arg_kind_str o ++ lit ")`)"
                    | [] => []
                    end ++ lit ".") r SevError
            (match options with
             | [] => None
             | _ => Some (map (fun o => quickfix (lit "Add `(" ++ arg_kind_str o ++ lit ")`") r
                               (edit_replace_snippet (name ++ lit "(" ++ arg_kind_str o ++ lit ")") r
                                  (Some (name ++ lit "(" ++ snippet_of (arg_kind_str o) ++ lit ")")))) options)
             end)]).
  (** common.rs L401-437: another nested argument than the expected ones *)
  Definition nested_other (m n : meta) (default : arg_kind) (options : list arg_kind) : outcome (list adiag) :=
    let name := mo_text (m_name m) in
    obind_o (meta_range n) (fun r =>
    Done [ADiag (lit "Unknown option `" ++ meta_str n ++ lit "` for `" ++ name ++ lit "` argument"
                 ++ match options with
                    | [] => []
                    | [_] => lit ", expected: " ++ tick (arg_kind_str default)
                    | o :: os => lit ", expected one of: " ++ tick (arg_kind_str o)
                                 ++ flat_map (fun x => lit ", " ++ tick (arg_kind_str x)) os
                    end ++ lit ".") r SevError
            (match options with
             | [] => None
             | _ => Some (map (fun o => quickfix (lit "Replace with " ++ tick (arg_kind_str o)) r
                               (edit_replace_snippet (arg_kind_str o) r (Some (snippet_of (arg_kind_str o))))) options)
             end)]).

  (** common.rs L218-323: arguments without a nested argument *)
  Definition validate_value (k : arg_value_kind) (m : meta) : outcome (list adiag) :=
    let name := mo_text (m_name m) in
    match k with
    | VNone =>
        if is_some (m_eq m) || mo_some (m_value m) then
          obind_o (meta_range m) (fun r =>
          Done [ADiag (tick name ++ lit " argument shouldn't have a value.") r SevError
                  (Some [quickfix (lit "Remove `" ++ name ++ lit "` argument value") r (edit_replace name r)])])
        else Done []
    | VU16 =>
        unless (value_ok (m_value m) (fun v => is_some (value_int U16_MAX v)))
          (value_diag m (tick name ++ lit " argument should have an `integer` (`u16`) value."))
    | VU32 | VU32OrWildcard | VU32OrWildcardOrComplement =>
        unless (value_ok (m_value m) (u32_or_wildcard k))
          (value_diag m (tick name ++ lit " argument should have an `integer` (`u32`) "
             ++ (if can_be_complement k then lit ", wildcard/underscore (`_`) or wildcard complement (`@`) symbol"
                 else if can_be_wildcard k then lit "or wildcard/underscore (`_`)" else [])
             ++ lit " value."))
    | VString s =>
        unless (value_ok (m_value m) (string_fits X s))
          (value_diag m (tick name ++ lit " argument should have a `string` (`&str`) value"
             ++ match value_detail k with [] => lit "." | d => lit " - " ++ d end))
    | VBool =>
        unless (value_ok (m_value m) (fun v => is_some (value_bool v)))
          (value_diag m (tick name ++ lit " argument should have a `boolean` (`bool`) value."))
    | VPath _ =>
        unless (value_ok (m_value m) value_is_path)
          (value_diag m (tick name ++ lit " argument should have a `path` (e.g. `foo::bar::Baz`) value."))
    | VArg _ _ | VChoice _ _ _ => Done []
    end.

  (** The nested arguments a kind of value allows (common.rs L325-339): the options and whether one is required *)
  Definition nested_options (k : arg_value_kind) : option (arg_kind * list arg_kind * bool) :=
    match k with
    | VArg a required => Some (a, [a], required)
    | VChoice a b required => Some (a, [a; b], required)
    | _ => None
    end.

  (** common.rs L157-440 [validate_arg] with [nested_arg_validator] *)
  Fixpoint validate_arg (m : meta) : outcome (list adiag) :=
    match arg_kind_of_meta m with
    | AUnknown => unknown_arg m
    | k =>
        match nested_options (expected k) with
        | None => validate_value (expected k) m
        | Some (default, options, required) =>
            match m_value m with
            | MOk v => nested_value m default v
            | _ =>
                match m_nested m with
                | None => if required then nested_missing m options else Done []
                | Some n =>
                    if existsb (arg_kind_eqb (ia_kind n)) options then validate_arg n
                    else nested_other m n default options
                end
            end
        end
    end.
End Validate.

(** ** Unknown attributes (common.rs L106-141) *)

(** An attribute with its text and the range of its macro path segment (attrs.rs L49-99 [ink_macro]). *)
Record listed_attr := ListedAttr { la_attr : ink_attr; la_text : str; la_macro : option trange }.
Definition unknown_attr (a : listed_attr) : option adiag :=
  if attr_kind_unknown (at_kind (la_attr a)) then
    Some (ADiag (lit "Unknown ink! attribute: " ++ tick (la_text a))
            (match la_macro a with
             | Some r => r
             | None => match at_arg_name (la_attr a) with
                       | Some n => (lstart n, lend n)
                       | None => at_range (la_attr a)
                       end
             end) SevWarning
            (Some [quickfix (lit "Remove " ++ tick (la_text a) ++ lit " attribute.") (at_range (la_attr a))
                     (edit_delete (at_range (la_attr a)))]))
  else None.
Definition unknown_attrs (l : list listed_attr) : list adiag := filter_map unknown_attr l.

(** ** The generic checks of an entity (common.rs L22-52): identifiers, attributes and arguments, in this order.
    [l] is [ink_attrs_in_scope] (TreeModel), [e] the entity's syntax at [o]; the surroundings of each attribute
    (environment path and ids in use) are given by [around]. The two last checks (L54-71) are modelled in
    SuggestModel ([ensure_no_duplicate_attributes_and_arguments], [validate_entity_attributes]). *)
Definition validate_args (X : externals) (ver : version) (toks : list leaf)
    (around : ink_attr -> option str * (arg_kind -> list N)) (a : ink_attr) : outcome (list adiag) :=
  obind_o (all_done (map (validate_arg X ver toks (Some a) (fst (around a)) (snd (around a))) (at_args a)))
    (fun l => Done (concat l)).
Definition generic_checks (X : externals) (ver : version) (toks : list leaf)
    (around : ink_attr -> option str * (arg_kind -> list N)) (e : elem) (o : nat) (l : list listed_attr)
  : outcome (list adiag) :=
  obind_o (all_done (map (fun a => validate_args X ver toks around (la_attr a)) l)) (fun r =>
  Done (ensure_no_ink_identifiers e o ++ unknown_attrs l ++ concat r)).
