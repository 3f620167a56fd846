(** What C87 and C88 mean: the code an action adds, and where it goes. *)
From Verif Require Import Base Unicode VersionModel PositionModel TranslateModel SyntaxModel EditSpec UtilSpec ArgEditSpec RuleModel RuleSpec EntityModel.

(** ** C87: the code that is added *)

(** Lines of code, indented; empty lines stay empty. *)
Definition indent_line (i l : str) : str := match l with [] => [] | _ => i ++ l end.
Definition code (i : str) (ls : list str) : str := unlines (map (indent_line i) ls).

(** What can be added, and its lines. *)
Inductive entity :=
  | NStorage | NEvent | NEvent2 | NTopic | NConstructor | NMessage | NSelectorMessage (selector : str) | NTraitMessage
  | NErrorCode | NExtension (id : N) | NFunction (id : N) | NTest | NE2eTest (v : version).
Definition lines_of (e : entity) (name : str) : list str :=
  match e with
  | NStorage => [lit "#[ink(storage)]"; lit "pub struct " ++ name ++ lit " {}"]
  | NEvent => [lit "#[ink(event)]"; lit "pub struct " ++ name ++ lit " {}"]
  | NEvent2 => [lit "#[ink::event]"; lit "pub struct " ++ name ++ lit " {}"]
  | NTopic => [lit "#[ink(topic)]"; name ++ lit ": bool,"]
  | NConstructor => [lit "#[ink(constructor)]"; lit "pub fn " ++ name ++ lit "() -> Self {"; lit "    todo!()"; lit "}"]
  | NMessage => [lit "#[ink(message)]"; lit "pub fn " ++ name ++ lit "(&self) {"; lit "    todo!()"; lit "}"]
  | NSelectorMessage s =>
      [lit "#[ink(message, selector = " ++ s ++ lit ")]"; lit "pub fn " ++ name ++ lit "(&self) {"; lit "    todo!()"; lit "}"]
  | NTraitMessage => [lit "#[ink(message)]"; lit "fn " ++ name ++ lit "(&self);"]
  | NErrorCode => [lit "type ErrorCode = ();"]
  | NExtension id => [lit "#[ink(extension = " ++ dec id ++ lit ")]"; lit "fn " ++ name ++ lit "();"]
  | NFunction id => [lit "#[ink(function = " ++ dec id ++ lit ")]"; lit "fn " ++ name ++ lit "();"]
  | NTest => [lit "#[ink::test]"; lit "fn " ++ name ++ lit "() {"; lit "    todo!()"; lit "}"]
  | NE2eTest V4 =>
      [lit "#[ink_e2e::test]";
       lit "async fn " ++ name ++ lit "(mut client: ink_e2e::Client<C, E>) -> std::result::Result<(), Box<dyn std::error::Error>> {";
       lit "    todo!();"; []; lit "    Ok(())"; lit "}"]
  | NE2eTest V5 =>
      [lit "#[ink_e2e::test]";
       lit "async fn " ++ name ++ lit "<Client: E2EBackend>(mut client: Client) -> std::result::Result<(), Box<dyn std::error::Error>> {";
       lit "    todo!();"; []; lit "    Ok(())"; lit "}"]
  end.

(** What an editor makes of a snippet if nothing is typed: placeholders [${i:text}] become their text, tab stops [$i]
    nothing. *)
Inductive fills : str -> str -> Prop :=
  | fills_nil : fills [] []
  | fills_char c s t : c <> 36%N -> fills s t -> fills (c :: s) (c :: t)
  | fills_hole i x s t : ~ In 125%N x -> fills s t -> fills (lit "${" ++ dec i ++ lit ":" ++ x ++ lit "}" ++ s) (x ++ t)
  | fills_stop i s t : (forall c r, s = c :: r -> ~ (48 <= c <= 57)%N) -> fills s t -> fills (lit "$" ++ dec i ++ s) t.

(** The edit writes these lines with this indentation between [before] and [after]; its snippet is the same code up to
    white space. *)
Definition wrote (U : unicode) (before i after : str) (ls : list str) (edit : text_edit) : Prop :=
  te_text edit = before ++ code i ls ++ after
  /\ exists s t, te_snippet edit = Some s /\ fills s t /\ visible U t = visible U (te_text edit).
Definition writes (U : unicode) (before i after : str) (e : entity) (name : str) (edit : text_edit) : Prop :=
  wrote U before i after (lines_of e name) edit.
(** [combine_extensions!] with a field for each chain extension *)
Fixpoint combined_fields (n : nat) (paths : list str) : list str :=
  match paths with
  | [] => []
  | p :: ps => (lit "        pub ext" ++ dec (N.of_nat n) ++ lit ": " ++ p ++ lit ",") :: combined_fields (S n) ps
  end.
Definition combined (paths : list str) : list str :=
  [lit "ink::combine_extensions! {"; lit "    pub struct CombinedChainExtension {"] ++ combined_fields 1 paths ++ [lit "    }"; lit "}"].

(** Names without line breaks and braces *)
Definition clean (s : str) : Prop := forall c, In c s -> c <> c_nl /\ c <> c_cr /\ c <> 125%N /\ c <> 36%N.
(** The preferred name, or else the preferred name with the first suffix (from 2) that is not taken; the preferred one if
    254 such names are taken. *)
Definition chosen (preferred : str) (taken : str -> Prop) (name : str) : Prop :=
  (exists k, k <= 253 /\ name = candidate preferred k /\ ~ taken name /\ forall j, j < k -> taken (candidate preferred j))
  \/ (name = preferred /\ forall k, k <= 253 -> taken (candidate preferred k)).
(** Some item of the kind in the list has the name. *)
Definition declares (k : skind) (l : list elem) (name : str) : Prop :=
  exists a nm b, In (Node k (a ++ Node NAME nm :: b)) l /\ (forall cs, ~ In (Node NAME cs) a) /\ texts_of nm = name.
(** The indentation inside an item after [prev]: the item's own indentation (read backwards) twice, or four spaces if it
    has none. *)
Definition body_indent (prev : option elem) (i : str) : Prop :=
  (exists e own, prev = Some e /\ kind_of e = WHITESPACE /\ ends_with_indent (text_of e) own /\ own <> [] /\ i = rev own ++ rev own)
  \/ ((forall e own, prev = Some e -> kind_of e = WHITESPACE -> ends_with_indent (text_of e) own -> own = []) /\ i = lit "    ").
(** White space consists of white space. *)
Definition blank_prev (U : unicode) (prev : option elem) : Prop :=
  forall e, prev = Some e -> kind_of e = WHITESPACE -> all_white U (text_of e).

(** ** C88: places *)

(** A list in braces, in its place in a file *)
Definition lbrace : elem := Tok L_CURLY (lit "{").
Definition rbrace : elem := Tok R_CURLY (lit "}").
Definition braced (K : skind) (l : list elem) : elem := Node K (lbrace :: l ++ [rbrace]).
(** An item with such a list: [head] in front of it, nothing of the same kind in [head]. *)
Definition item_with (K L : skind) (head l tail : list elem) : elem := Node K (head ++ braced L l :: tail).
Definition heads (L : skind) (head : list elem) : Prop := forall cs, ~ In (Node L cs) head.

Definition has_kind (k : skind) (e : elem) : bool := item_node e && skind_eqb (kind_of e) k.
Definition nothing (p : elem -> bool) (l : list elem) : Prop := forall x, In x l -> p x = false.
(** Items (the last five: [extern crate], [static], [extern] blocks and the two kinds of macro definitions), and items of traits and
    impl blocks *)
Definition an_item (e : elem) : bool :=
  match e with
  | Tok _ _ => false
  | Node k _ => existsb (skind_eqb k) [MODULE; STRUCT; ENUM; UNION; TRAIT; IMPL; FN; CONST; MACRO_CALL; TYPE_ALIAS; USE; OTHER 151; OTHER 152; OTHER 153; OTHER 154; OTHER 155]
  end.
Definition an_assoc_item (e : elem) : bool :=
  match e with Tok _ _ => false | Node k _ => existsb (skind_eqb k) [FN; CONST; MACRO_CALL; TYPE_ALIAS] end.
(** Between [a] and [b] is right after the last element with the property *)
Definition after_last (p : elem -> bool) (a b : list elem) : Prop :=
  exists a' x, a = a' ++ [x] /\ p x = true /\ nothing p b.
Definition before_first (p : elem -> bool) (a b : list elem) : Prop :=
  exists x b', b = x :: b' /\ p x = true /\ nothing p a.
(** After the last [use], or else right after the brace *)
Definition at_start (a b : list elem) : Prop := after_last (has_kind USE) a b \/ (nothing (has_kind USE) b /\ a = []).
Definition at_end (a b : list elem) : Prop := after_last an_item a b \/ (nothing an_item b /\ a = []).
Definition after_structs (a b : list elem) : Prop :=
  after_last (has_kind STRUCT) a b \/ (nothing (has_kind STRUCT) (a ++ b) /\ at_start a b).
Definition for_impl (a b : list elem) : Prop :=
  after_last (has_kind IMPL) a b
  \/ (nothing (has_kind IMPL) (a ++ b)
      /\ (after_last (has_kind STRUCT) a b
          \/ (nothing (has_kind STRUCT) (a ++ b)
              /\ (before_first (has_kind MODULE) a b \/ (nothing (has_kind MODULE) (a ++ b) /\ at_end a b))))).
Definition assoc_at_end (a b : list elem) : Prop := after_last an_assoc_item a b \/ (nothing an_assoc_item b /\ a = []).

(** Inserting the edit's text between [a] and [b] in the list *)
Definition inserts (pre post : list (skind * str)) (K L : skind) (head a b tail : list elem) (edit : text_edit) : Prop :=
  applied (in_file pre (item_with K L head (a ++ b) tail) post) edit
    (text pre ++ texts_of head ++ lit "{" ++ texts_of a ++ te_text edit ++ texts_of b ++ lit "}" ++ texts_of tail ++ text post).
(** The item is in the file, after [prev]. *)
Definition placed (pre : list (skind * str)) (prev : option elem) (K L : skind) (head l tail : list elem) : item_at :=
  ItemAt prev (at_place pre (item_with K L head l tail)).

(** The edit is at the given range, or else in the list at a place with the property. *)
Definition goes (P : list elem -> list elem -> Prop) (pre post : list (skind * str)) (K L : skind) (head l tail : list elem) (range : option trange)
    (edit : text_edit) : Prop :=
  match range with
  | Some r => te_range edit = r
  | None => exists a b, l = a ++ b /\ P a b /\ inserts pre post K L head a b tail edit
  end.
(** The name in the head of an item *)
Definition named (head : list elem) (name : str) : Prop :=
  exists a nm b, head = a ++ Node NAME nm :: b /\ (forall cs, ~ In (Node NAME cs) a) /\ texts_of nm = name.

(** *** Fields *)
Definition field_ok (k : skind) (e : elem) : Prop :=
  exists cs, e = Node k cs /\ solid cs /\ (forall s r, leaves_of cs <> (COMMA, s) :: r) /\ (forall s r, leaves_of cs <> r ++ [(COMMA, s)]).
(** [fields k items body]: [body] lists [items] with commas between them and maybe one after the last. *)
Inductive fields (k : skind) : list elem -> list elem -> Prop :=
  | fields_none t : blank t -> fields k [] t
  | fields_last e t1 t2 : field_ok k e -> blank t1 -> blank t2 -> fields k [e] (t1 ++ e :: t2)
  | fields_comma e t1 t2 t3 : field_ok k e -> blank t1 -> blank t2 -> blank t3 -> fields k [e] (t1 ++ e :: t2 ++ comma :: t3)
  | fields_more e t1 t2 f l body : field_ok k e -> blank t1 -> blank t2 -> fields k (f :: l) body ->
      fields k (e :: f :: l) (t1 ++ e :: t2 ++ comma :: body).

Definition no_field_list (head : list elem) : Prop := heads RECORD_FIELD_LIST head /\ heads TUPLE_FIELD_LIST head.

(** A new field goes behind the last one and its comma, with what is missing between them. *)
Definition field_gap (items a b : list elem) (sep : str) : Prop :=
  (items = [] /\ a = [] /\ sep = [])
  \/ (exists a' f its, items = its ++ [f] /\ a = a' ++ [f] /\ blank b /\ sep = lit "," ++ [c_nl])
  \/ (exists a' f its w, items = its ++ [f] /\ a = a' ++ f :: w ++ [comma] /\ blank w /\ blank b /\ sep = [c_nl]).

(** *** Attributes *)

(** Attributes, comments and white space in front of an item *)
Definition front_only (l : list elem) : Prop :=
  Forall (fun e => (exists cs, e = Node ATTR cs /\ solid cs) \/ (exists k s, e = Tok k s /\ is_trivia k = true /\ s <> [])) l.
Definition is_ink (ink : elem -> bool) (e : elem) : bool := negb (is_tok e) && skind_eqb (kind_of e) ATTR && ink e.
(** Behind the last ink! attribute and before another attribute or the item proper; without ink! attributes, behind all
    attributes *)
Definition attr_place (ink : elem -> bool) (a b : list elem) : Prop :=
  (exists a' x w, a = a' ++ x :: w /\ is_ink ink x = true /\ blank w /\ nothing (is_ink ink) b /\ (b = [] \/ exists cs b', b = Node ATTR cs :: b'))
  \/ (nothing (is_ink ink) (a ++ b) /\ b = []).
(** At the first ink! attribute, or else as above *)
Definition first_attr_place (ink : elem -> bool) (a b : list elem) : Prop :=
  before_first (is_ink ink) a b \/ (nothing (is_ink ink) (a ++ b) /\ attr_place ink a b).

(** *** Callables *)

(** Constructors and messages, how they are called first, and the actions for contracts and impl blocks *)
Inductive callable : entity -> str -> (unicode -> contract -> option (trange * option item_at) -> option text_edit) ->
    (unicode -> item_at -> option trange -> option text_edit) -> Prop :=
  | callable_constructor : callable NConstructor (lit "new") add_constructor add_constructor_to_impl
  | callable_message : callable NMessage (lit "my_message") add_message add_message_to_impl.
(** An impl block without a trait: at most one type in its head *)
Definition type_elem (e : elem) : bool := negb (is_tok e) && is_type (kind_of e).
Definition inherent (e : elem) : Prop := exists cs, e = Node IMPL cs /\ length (filter type_elem cs) <= 1.
(** The name of the contract: its storage struct's, or else made from its module's *)
Definition contract_named (c : contract) (head : list elem) (name : str) : Prop :=
  ct_storage c = Some name \/ (ct_storage c = None /\ exists nm, named head nm /\ pascal_of nm name).
(** It has such a name, without line breaks and braces. *)
Definition has_name (c : contract) (head : list elem) : Prop :=
  (exists s, ct_storage c = Some s /\ clean s) \/ (ct_storage c = None /\ exists nm, named head nm /\ clean nm).
(** What surrounds a callable in a new impl block *)
Definition impl_before (i name : str) : str := i ++ lit "impl " ++ name ++ lit " {" ++ [c_nl].
Definition impl_after (i : str) : str := [c_nl] ++ i ++ lit "}".
