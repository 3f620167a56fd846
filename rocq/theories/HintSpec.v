(** What the properties of inlay hints (C43), hover (C54) and signature help (C15, analyzer side) mean. *)
From Coq Require Import Permutation.
From Verif Require Import Base PositionModel VersionModel TranslateModel SyntaxModel AttrModel AttrSpec SuggestSpec HintModel.

Definition inside (inner outer : nat * nat) : Prop := fst outer <= fst inner /\ snd inner <= snd outer.

(** ** C43 *)

(** The arguments that take a value, and how the hint describes the value. Optional nested arguments
    ([node], [runtime_only]) have no hint. *)
Definition value_hints (v : version) (constructor : bool) : list (arg_kind * str) :=
  [ (AAdditionalContracts, lit "&str");
    (ABackend, lit "node | runtime_only");
    (ADerive, lit "bool");
    (AEnv, lit "impl Environment");
    (AEnvironment, lit "impl Environment");
    (AExtension, match v with V4 => lit "u32" | V5 => lit "u16" end);
    (AFunction, lit "u16");
    (AHandleStatus, lit "bool");
    (AKeepAttr, lit "&str");
    (ANamespace, lit "&str");
    (ASandbox, lit "impl drink::Sandbox");
    (ASelector, match v, constructor with V5, false => lit "u32 | _ | @" | _, _ => lit "u32 | _" end);
    (ASignatureTopic, lit "&str");
    (AUrl, lit "&str") ].

(** An argument with the arguments nested in it, outermost first. *)
Fixpoint with_nested (a : ink_arg) : list ink_arg :=
  match m_nested a with Some n => a :: with_nested n | None => [a] end.

(** The arguments of the file in order, each with whether its attribute is a constructor's. *)
Definition args_in_order (attrs : list ink_attr) : list (bool * ink_arg) :=
  flat_map (fun a => flat_map (fun x => map (fun y => (if attr_kind_eqb (at_kind a) (AkArg AConstructor) then true else false, y))
                                          (with_nested x)) (at_args a)) attrs.

(** The argument takes a value and lies in the requested range (the whole file when there is none). *)
Definition wanted (range : option (nat * nat)) (v : version) (x : bool * ink_arg) : Prop :=
  (exists label, In (ia_kind (snd x), label) (value_hints v (fst x)))
  /\ (forall r, range = Some r -> exists ar, meta_range (snd x) = Done ar /\ inside ar r).

(** The hint says which values are expected, right after the argument's name, and applies to the name. *)
Definition hint_for (v : version) (x : bool * ink_arg) (h : inlay_hint * (nat * nat)) : Prop :=
  exists n, m_name (snd x) = MOk n
    /\ In (ia_kind (snd x), ih_label (fst h)) (value_hints v (fst x))
    /\ ih_position (fst h) = lend n
    /\ snd h = (lstart n, lend n).

(** [hs] are the hints of exactly the wanted elements of [l], in order. *)
Inductive hinted (range : option (nat * nat)) (v : version) : list (bool * ink_arg) -> list (inlay_hint * (nat * nat)) -> Prop :=
  | hd_nil : hinted range v [] []
  | hd_skip x l hs : ~ wanted range v x -> hinted range v l hs -> hinted range v (x :: l) hs
  | hd_take x l h hs : wanted range v x -> hint_for v x h -> hinted range v l hs -> hinted range v (x :: l) (h :: hs).

(** ** C54 *)

(** [e] is an element of the file [root], at its place. *)
Inductive element_of : lelem -> lelem -> Prop :=
  | eo_self e : element_of e e
  | eo_child o k cs c e : In c (place o cs) -> element_of c e -> element_of (o, Node k cs) e.
Definition in_file (root : elem) (e : lelem) : Prop := element_of (0, root) e.

Definition range_of (e : lelem) : nat * nat := (lstart e, lend e).

(** An attribute without attributes inside it. *)
Definition plain_attr (a : lelem) : Prop :=
  lkind a = ATTR /\ is_tok (snd a) = false /\ forall e, element_of a e -> lkind e = ATTR -> e = a.

(** The requested range lies in the attribute; a cursor (an empty range) strictly inside. *)
Definition points_into (r : nat * nat) (a : lelem) : Prop :=
  inside r (range_of a) /\ fst r <= snd r /\ (fst r = snd r -> lstart a < fst r < lend a).

(** [x] is the first argument whose range contains [r]. *)
Definition first_containing (args : list ink_arg) (r : nat * nat) (x : ink_arg) : Prop :=
  exists before after, args = before ++ x :: after
    /\ (exists ar, meta_range x = Done ar /\ inside r ar)
    /\ (forall y, In y before -> exists ar, meta_range y = Done ar /\ ~ inside r ar).
Definition none_containing (args : list ink_arg) (r : nat * nat) : Prop :=
  forall y, In y args -> exists ar, meta_range y = Done ar /\ ~ inside r ar.

(** The arguments and macros each version documents. *)
Definition documented_args (v : version) : list arg_kind :=
  [AAdditionalContracts; AAnonymous; AConstructor; ADefault; ADerive; AEnv; AEnvironment; AEvent; AExtension;
   AHandleStatus; AImpl; AKeepAttr; AMessage; ANamespace; APayable; ASelector; AStorage; ATopic]
  ++ match v with
     | V4 => []
     | V5 => [ABackend; ADecode; AEncode; AFunction; ANode; ARuntimeOnly; ASandbox; ASignatureTopic; ATypeInfo; AUrl]
     end.
Definition documented_macros (v : version) : list macro_kind :=
  [MChainExtension; MContract; MStorageItem; MTest; MTraitDefinition; ME2ETest]
  ++ match v with V4 => [] | V5 => [MEvent; MScaleDerive] end.
Definition has_docs (v : version) (k : attr_kind) : Prop :=
  match k with AkArg a => In a (documented_args v) | AkMacro m => In m (documented_macros v) end.

(** Kinds that share their documentation: the environment arguments, and [backend] with what is nested in it. *)
Definition same_topic (a b : attr_kind) : Prop :=
  a = b
  \/ (In a [AkArg AEnv; AkArg AEnvironment] /\ In b [AkArg AEnv; AkArg AEnvironment])
  \/ (let backend := [AkArg ABackend; AkArg ANode; AkArg AUrl; AkArg ARuntimeOnly; AkArg ASandbox] in
      In a backend /\ In b backend).

(** The segments of an attribute's path lie in the attribute (ra_ap_syntax). *)
Definition segments_inside (pr : path_reader) : Prop :=
  forall a s, In s (pr a) -> inside (snd s) (range_of a).

(** ** C15 *)

(** The texts joined by [", "]. *)
Fixpoint joined (l : list str) : str :=
  match l with [] => [] | [x] => x | x :: l' => x ++ lit ", " ++ joined l' end.

(** A parameter is the argument's name, followed by the values it takes, if any; the optional nested argument of
    [node] and [runtime_only] is not named. *)
Definition describes (v : version) (args : list arg_kind) (k : arg_kind) (t : str) : Prop :=
  exists constructor, (constructor = true <-> In AConstructor args)
    /\ ((exists label, In (k, label) (value_hints v constructor) /\ t = arg_kind_str k ++ lit ": " ++ label)
        \/ ((k = ANode \/ k = ARuntimeOnly) /\ t = arg_kind_str k ++ lit ": ")
        \/ ((forall label, ~ In (k, label) (value_hints v constructor)) /\ k <> ANode /\ k <> ARuntimeOnly
            /\ t = arg_kind_str k)).

(** The ranges of the texts in their joined text: in order, each of exactly its text. *)
Fixpoint laid_out (o : nat) (texts : list str) (ranges : list (nat * nat)) : Prop :=
  match texts, ranges with
  | [], [] => True
  | t :: texts', r :: ranges' => r = (o, o + bytes t) /\ laid_out (o + bytes t + bytes (lit ", ")) texts' ranges'
  | _, _ => False
  end.

(** The sets of arguments that are shown together: what an attribute declares with all its companions, the
    arguments of a macro, and the arguments that are left when it is not known which macro they belong to. *)
Inductive shown_together (v : version) : list arg_kind -> Prop :=
  | st_entity k opts : options v (AkArg k) = Some opts -> shown_together v (k :: opts)
  | st_macro m opts : options v (AkMacro m) = Some opts -> opts <> [] -> shown_together v opts
  | st_alone k : shown_together v [k]
  | st_env : shown_together v [AEnv; AKeepAttr]
  | st_keep_attr : shown_together v [AKeepAttr; AEnv; ANamespace].

(** The argument at the cursor: the first one whose range contains or touches it. *)
Definition touched (off : nat) (x : ink_arg) : Prop := exists ar, meta_range x = Done ar /\ fst ar <= off <= snd ar.
Definition argument_at (args : list ink_arg) (off : nat) (focused : option ink_arg) : Prop :=
  match focused with
  | Some x => exists before after, args = before ++ x :: after /\ touched off x
      /\ forall y, In y before -> exists ar, meta_range y = Done ar /\ ~ fst ar <= off <= snd ar
  | None => forall y, In y args -> exists ar, meta_range y = Done ar /\ ~ fst ar <= off <= snd ar
  end.
(** It is [k]; or what is written of its name is the start of [k]'s. *)
Definition on_arg (focused : option ink_arg) (k : arg_kind) : Prop := exists a, focused = Some a /\ ia_kind a = k.
Definition starts_arg (focused : option ink_arg) (k : arg_kind) : Prop :=
  exists a n rest, focused = Some a /\ m_name a = MOk n /\ text_of (snd n) <> []
    /\ arg_kind_str k = text_of (snd n) ++ rest.

(** [s] shows the arguments [args], entities first; the active one is the one at the cursor, if it is among them,
    or else the first whose name starts as written, or else the first. *)
Definition shows (v : version) (args : list arg_kind) (focused : option ink_arg) (s : signature) : Prop :=
  exists kinds texts i k,
    Permutation kinds args /\ ForallOrdPairs (fun a b => ~ precedes b a) kinds
    /\ Forall2 (describes v args) kinds texts
    /\ sg_label s = joined texts /\ laid_out 0 texts (map pa_range (sg_parameters s))
    /\ sg_active s = Some i /\ nth_error kinds i = Some k
    /\ ((exists k', In k' args /\ on_arg focused k') -> on_arg focused k)
    /\ ((forall k', In k' args -> ~ on_arg focused k') ->
        ((exists k', In k' args /\ starts_arg focused k') ->
           starts_arg focused k /\ forall j k', j < i -> nth_error kinds j = Some k' -> ~ starts_arg focused k')
        /\ ((forall k', In k' args -> ~ starts_arg focused k') -> i = 0)).

(** What is shown for the arguments [args]: their names and values, entities first *)
Definition labelled (v : version) (args : list arg_kind) (l : str) : Prop :=
  exists kinds texts, Permutation kinds args /\ ForallOrdPairs (fun a b => ~ precedes b a) kinds /\ Forall2 (describes v args) kinds texts /\ l = joined texts.
(** None of the attributes says which entity the item is. *)
Definition no_entity_attr (attrs : option (list ink_attr)) : Prop :=
  forall l a k, attrs = Some l -> In a l -> at_kind a = AkArg k -> ~ In k entity_args.
(** Nothing is written of the name of the argument at the cursor, or the beginning of [k]'s. *)
Definition fits (focused : option ink_arg) (k : arg_kind) : Prop :=
  forall a n, focused = Some a -> m_name a = MOk n -> exists rest, arg_kind_str k = text_of (snd n) ++ rest.

(** The first token of kind [k] among the children of [t]. *)
Definition first_token (t : lelem) (k : skind) (e : lelem) : Prop :=
  exists before after, children_of t = before ++ e :: after /\ is_tok (snd e) = true /\ lkind e = k
    /\ forall y, In y before -> is_tok (snd y) = true -> lkind y <> k.
(** The cursor is in [range]: between the parentheses of the attribute's list, which may be unclosed. *)
Definition between_parens (t : lelem) (off : nat) (range : nat * nat) : Prop :=
  fst range <= off <= snd range /\ lstart t <= off < lend t
  /\ exists l, first_token t L_PAREN l /\ fst range = lend l
       /\ ((exists r, first_token t R_PAREN r /\ snd range = lstart r)
           \/ (forall r, ~ first_token t R_PAREN r) /\ snd range = lend t).

(** Token trees as the lexer and parser build them: commas are written, and an opening parenthesis that is not the
    delimiter of a nested tree is the first token of its tree. *)
Definition well_delimited (t : elem) : Prop :=
  forall o k cs, element_of (0, t) (o, Node k cs) ->
    (forall e, In e cs -> kind_of e = COMMA -> 0 < len_of e)
    /\ (forall before after p, cs = before ++ Tok L_PAREN p :: after -> before = []).
