(** What C51 and C75 mean: the traits a type derives or implements, before and after the quick fix. *)
From Verif Require Import Base Unicode PositionModel TranslateModel SyntaxModel AttrModel AttrSpec VersionModel ArgEditModel ArgEditSpec MigrateModel MigrateSpec ScaleFixModel.

(** Attributes with balanced lists in parentheses, also for a [derive] in the list. *)
Definition plain_attr (x : item_attr) : Prop := forall t, ia_tree x = Some t -> exists o body, t = (o, paren_tree body) /\ Forall balanced body
  /\ forall l k bl cs r, body = l ++ Tok k (lit "derive") :: bl ++ Node TOKEN_TREE cs :: r -> blank bl -> exists b, Node TOKEN_TREE cs = paren_tree b.
Definition plain_item (a : adt) : Prop := forall x, In x (ad_attrs a) -> plain_attr x.
(** Whether a text names a trait depends on the text without white space. *)
Definition names_by_text (named : str -> arg_kind -> bool) : Prop :=
  (forall s k, named s k = named (squeeze s) k) /\ forall k, named [] k = false.

(** The list of an attribute: [derive(body)], or [cfg_attr(.., derive(body), ..)]. *)
Inductive derive_list (x : item_attr) : list elem -> Prop :=
  | standalone o body : ia_path x = Some (lit "derive") -> ia_tree x = Some (o, paren_tree body) -> derive_list x body
  | conditional o l k bl body r : ia_path x = Some (lit "cfg_attr") ->
      ia_tree x = Some (o, paren_tree (l ++ Tok k (lit "derive") :: bl ++ paren_tree body :: r)) ->
      is_trivia k = false -> blank bl -> derive_list x body.
(** The type derives the trait named [n]. *)
Definition derives_name (a : adt) (n : str) : Prop :=
  exists x body ns, In x (ad_attrs a) /\ derive_list x body /\ lists_names (texts_of body) ns /\ In n ns.
(** The type derives or implements the trait. *)
Definition provides (v : version) (a : adt) (k : arg_kind) : Prop :=
  (exists n, derives_name a n /\ ad_named a n k = true)
  \/ (v = V5 /\ exists x arg, In x (ad_ink a) /\ at_kind x = AkMacro MScaleDerive /\ In arg (at_args x) /\ ia_kind arg = k)
  \/ ad_implemented a k = true.
(** At most one attribute of each kind. *)
Definition at_most_one {A} (p : A -> bool) (l : list A) : Prop := length (filter p l) <= 1.

(** The names [ns] in a list as rustc accepts it: separated by single commas, possibly with a comma at the end. *)
Definition well_listed (s : str) (ns : list str) : Prop :=
  exists ps last, s = comma_list (ps ++ [last]) /\ (forall p, In p (ps ++ [last]) -> ~ In 44%N p)
    /\ (forall p, In p ps -> squeeze p <> []) /\ ns = map squeeze ps ++ (match squeeze last with [] => [] | n => [n] end).

(** Expanding the placeholders [${i:text}] of a snippet; an editor visits them in the order of their numbers: they are numbered
    in the order of the text, from [i] up to [j]. *)
Inductive expands_in : N -> N -> str -> str -> Prop :=
  | expands_nil i : expands_in i i [] []
  | expands_char i j c s t : c <> 36%N -> expands_in i j s t -> expands_in i j (c :: s) (c :: t)
  | expands_hole i j x s t : ~ In 125%N x -> expands_in (i + 1) j s t ->
      expands_in i j (lit "${" ++ dec i ++ lit ":" ++ x ++ lit "}" ++ s) (x ++ t).
Definition expands (s t : str) : Prop := exists j, expands_in 1 j s t.

(** The type [a'] is [a] with other attributes. *)
Definition same_but (a a' : adt) : Prop :=
  ad_named a' = ad_named a /\ ad_implemented a' = ad_implemented a.
(** The attribute [derive(new)]. *)
Definition derive_attr (x : item_attr) (new : str) : Prop :=
  ia_path x = Some (lit "derive")
  /\ exists o body, ia_tree x = Some (o, paren_tree body) /\ Forall balanced body /\ texts_of body = new.
(** [o] is the place before what follows the last attribute and the trivia after it. *)
Definition after_attributes (toks : list leaf) (a : adt) (o : nat) : Prop :=
  (ad_attrs a = [] /\ o = ad_start a)
  \/ exists l x before trivia t after, ad_attrs a = l ++ [x] /\ toks = before ++ trivia ++ t :: after
     /\ (forall u, In u before -> lf_start u < snd (ia_range x))
     /\ (forall u, In u trivia -> snd (ia_range x) <= lf_start u /\ is_trivia (lf_kind u) = true)
     /\ snd (ia_range x) <= lf_start t /\ is_trivia (lf_kind t) = false /\ o = lf_start t.
(** The tokens [n1, n2, ...]. *)
Fixpoint named_tokens (ns : list str) : list elem :=
  match ns with [] => [] | [n] => [Tok IDENT n] | n :: ns' => Tok IDENT n :: Tok COMMA (lit ",") :: Tok WHITESPACE (lit " ") :: named_tokens ns' end.
Definition ordered (toks : list leaf) : Prop :=
  forall l t m u r, toks = l ++ t :: m ++ u :: r -> lf_start t <= lf_start u.
