(** What C103 means: the kinds of items entities are for, attributes and parts taken out, and what a report marks. *)
From Coq Require Import List Sorting.
From Verif Require Import Base Unicode PositionModel TranslateModel SyntaxModel AttrModel EditModel EditSpec ArgEditModel ArgEditSpec RuleModel RuleSpec ChainSpec EntityModel EntitySpec
  HintModel ExtractModel ImportModel MoveSpec StructureModel.
Import ListNotations.

(** What each entity is for; nothing is said of attributes that do not declare one. *)
Definition kinds_for (k : attr_kind) : list skind :=
  match k with
  | AkArg AConstructor | AkArg AMessage | AkArg AExtension | AkArg AFunction | AkMacro MTest | AkMacro ME2ETest => [FN]
  | AkMacro MTraitDefinition | AkMacro MChainExtension => [TRAIT]
  | AkArg AStorage | AkArg AEvent | AkMacro MEvent => [STRUCT]
  | AkMacro MStorageItem => [STRUCT; ENUM; UNION]
  | AkArg ATopic => [RECORD_FIELD; TUPLE_FIELD]
  | AkArg AImpl => [IMPL]
  | _ => []
  end.

(** The range of an element *)
Definition range_at (x : lelem) : trange := (fst x, fst x + bytes (text_of (snd x))).
(** The attribute after [a] is the first one that makes the item the entity. *)
Definition first_mark (ink : elem -> bool) (a cs : list elem) : Prop :=
  ink (Node ATTR cs) = true /\ forall cs', In (Node ATTR cs') a -> ink (Node ATTR cs') = false.
Definition no_mark (ink : elem -> bool) (cs : list elem) : Prop := forall cs', In (Node ATTR cs') cs -> ink (Node ATTR cs') = false.

(** An item: attributes, comments and white space; its declaration; a list in braces *)
Definition item_head (L : skind) (front head : list elem) : Prop :=
  front_only front /\ begins_solid head /\ no_docs head /\ (forall cs, ~ In (Node ATTR cs) head) /\ heads L head.
(** A module without a list: [mod name;] *)
Definition semicolon : elem := Tok SEMICOLON (lit ";").
Definition bodiless (front head tail : list elem) : elem := Node MODULE (front ++ head ++ semicolon :: tail).
Definition bodiless_ok (front head tail : list elem) : Prop :=
  item_head ITEM_LIST front head /\ (forall s, ~ In (Tok SEMICOLON s) head) /\ heads ITEM_LIST tail /\ trait_tail tail.
Definition bodiless_declaration (front head : list elem) : list elem :=
  (if existsb annotation front then [] else front) ++ head ++ [semicolon].

(** A report that there is one item too many: it marks the item; its fixes remove the attribute, and the item. *)
Definition removes_item (pre post : list (skind * str)) (item : elem) (fx : list text_edit) : Prop :=
  effect (in_file pre item post) fx (text pre ++ text post).
Definition removes_attr (pre post : list (skind * str)) (K : skind) (a cs b : list elem) (fx : list text_edit) : Prop :=
  effect (in_file pre (Node K (a ++ Node ATTR cs :: b)) post) fx (in_file pre (Node K (a ++ b)) post).
Definition surplus (ink : elem -> bool) (y : lelem) (d : sdiag) : Prop :=
  sd_problem d = PTooMany /\ sd_range d = range_at y
  /\ ((exists K a cs b fx1 fx2, snd y = Node K (a ++ Node ATTR cs :: b) /\ first_mark ink a cs /\ sd_fixes d = [fx1; fx2]
         /\ forall pre post, fst y = bytes (text pre) -> removes_attr pre post K a cs b fx1 /\ removes_item pre post (snd y) fx2)
      \/ ((forall K cs, snd y = Node K cs -> no_mark ink cs) /\ exists fx, sd_fixes d = [fx]
         /\ forall pre post, fst y = bytes (text pre) -> removes_item pre post (snd y) fx)).

(** What a contract must have at least one of *)
Inductive demands : entity -> str -> problem -> (unicode -> list leaf -> lelem -> list lelem -> contract -> outcome (list sdiag)) -> Prop :=
  | demands_constructor : demands NConstructor (lit "new") PNoConstructor contains_constructor
  | demands_message : demands NMessage (lit "my_message") PNoMessage contains_message.

(** *** Parts that may not be there *)

Definition has_child (p c : lelem) : Prop := exists k cs, snd p = Node k cs /\ In c (place (fst p) cs).
Definition is_kind (k : skind) (e : lelem) : Prop := exists cs, snd e = Node k cs.
(** The file with the item without [x] *)
Definition rid_of (pre post : list (skind * str)) (item : elem) (x : lelem) (fx : list text_edit) : Prop :=
  exists item', cut (bytes (text pre)) x [item] [item'] /\ effect (in_file pre item post) fx (in_file pre item' post).
Definition apart_in_order (xs : list lelem) : Prop := StronglySorted (fun a b => lend a <= lstart b) xs.
(** The reports are for [P], in the order of the file, each once and with one fix that removes it *)
Definition reports_each (pre post : list (skind * str)) (item : elem) (p : problem) (P : lelem -> Prop) (ds : list sdiag) : Prop :=
  exists xs, (forall x, In x xs <-> P x) /\ apart_in_order xs
    /\ Forall2 (fun x d => sd_problem d = p /\ sd_range d = range_at x /\ exists fx, sd_fixes d = [fx] /\ rid_of pre post item x fx) xs ds.

(** [#[cfg(..)]] *)
Definition named_cfg (e : elem) : Prop :=
  exists a m b c p d, e = Node ATTR (a ++ Node META m :: b) /\ heads META a /\ m = c ++ Node PATH p :: d /\ heads PATH c /\ texts_of p = lit "cfg".
(** Such an attribute of a named field of the struct *)
Definition cfg_of_field (pre : list (skind * str)) (item : elem) (x : lelem) : Prop :=
  exists h l t f, item = Node STRUCT (h ++ Node RECORD_FIELD_LIST l :: t) /\ no_field_list h
    /\ In f (place (bytes (text pre ++ texts_of h)) l) /\ is_kind RECORD_FIELD f /\ has_child f x /\ named_cfg (snd x).

(** The segments of a path: [a], [b] and [c] of [a::b::c] *)
Inductive segment_of : lelem -> lelem -> Prop :=
  | segment_own p s : has_child p s -> is_kind PATH_SEGMENT s -> segment_of p s
  | segment_qualifier p q s : has_child p q -> is_kind PATH q -> segment_of q s -> segment_of p s.
(** The type an impl block is for: its second type, or its only one *)
Definition self_type_at (cs h : list elem) (T : elem) (t : list elem) : Prop :=
  cs = h ++ T :: t /\ type_elem T = true
  /\ ((exists T1, filter type_elem h = [T1]) \/ (filter type_elem h = [] /\ filter type_elem t = [])).
(** The generic arguments of a segment of that type's path *)
Definition arguments_of_self (pre : list (skind * str)) (item : elem) (x : lelem) : Prop :=
  exists cs h t a p b s k sa g sb, item = Node IMPL cs /\ self_type_at cs h (Node PATH_TYPE (a ++ Node PATH p :: b)) t /\ heads PATH a
    /\ segment_of (bytes (text pre ++ texts_of h ++ texts_of a), Node PATH p) s /\ snd s = Node k (sa ++ Node GENERIC_ARG_LIST g :: sb)
    /\ heads GENERIC_ARG_LIST sa /\ x = (fst s + bytes (texts_of sa), Node GENERIC_ARG_LIST g).
