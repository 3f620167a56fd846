(** What C96 means: what the user points at, and where new code goes. *)
From Coq Require Import List.
From Verif Require Import Base Unicode PositionModel TranslateModel SyntaxModel AttrModel EditSpec ArgEditModel RuleModel RuleSpec ChainSpec EntityModel EntitySpec HintModel HintSpec
  ExtractSpec FocusModel.
Import ListNotations.

(** An item with a body in braces: attributes, comments and white space; its declaration; its body *)
Definition brace_list (lk : skind) (inner : list elem) : elem := Node lk (Tok L_CURLY (lit "{") :: inner ++ [Tok R_CURLY (lit "}")]).
Definition braced (K : skind) (front decl : list elem) (lk : skind) (inner : list elem) : elem := Node K (front ++ decl ++ [brace_list lk inner]).
Definition has_list (K lk : skind) : Prop :=
  In (K, lk) [(MODULE, ITEM_LIST); (TRAIT, ASSOC_ITEM_LIST); (IMPL, ASSOC_ITEM_LIST); (STRUCT, RECORD_FIELD_LIST); (UNION, RECORD_FIELD_LIST); (ENUM, VARIANT_LIST)].
Definition braced_ok (K : skind) (front decl : list elem) (lk : skind) (inner : list elem) : Prop :=
  has_list K lk
  /\ front_only front
  /\ begins_solid (decl ++ [brace_list lk inner]) /\ no_docs decl
  /\ (forall e, In e decl -> ~ In (kind_of e) [ATTR; ITEM_LIST; ASSOC_ITEM_LIST; RECORD_FIELD_LIST; TUPLE_FIELD_LIST; VARIANT_LIST])
  /\ (forall e, In e inner -> kind_of e <> L_CURLY /\ kind_of e <> R_CURLY).
(** Where the declaration begins, where the body begins, where it ends *)
Definition decl_start (o : nat) (front : list elem) : nat := if existsb annotation front then o + bytes (texts_of front) else o.
Definition body_start (o : nat) (front decl : list elem) : nat := o + bytes (texts_of (front ++ decl)) + 1.
Definition body_end (o : nat) (front decl inner : list elem) : nat := body_start o front decl + bytes (texts_of inner).

(** A function: with a body, or with a semicolon instead *)
Definition block (inner : list elem) : elem := Node BLOCK_EXPR [brace_list STMT_LIST inner].
Definition function (front decl : list elem) (last : elem) : elem := Node FN (front ++ decl ++ [last]).
Definition function_ok (front decl : list elem) (last : elem) (inner : list elem) : Prop :=
  (last = block inner \/ (last = Tok SEMICOLON (lit ";") /\ inner = []))
  /\ front_only front
  /\ begins_solid (decl ++ [last]) /\ no_docs decl
  /\ (forall e, In e decl -> ~ In (kind_of e) [ATTR; BLOCK_EXPR; SEMICOLON])
  /\ (forall e, In e inner -> kind_of e <> L_CURLY /\ kind_of e <> R_CURLY).

(** An item that ends in a semicolon: [mod a;], [struct S;], [struct S(u8);], [type A = u8;] *)
Definition semi : elem := Tok SEMICOLON (lit ";").
Definition short (K : skind) (front decl : list elem) : elem := Node K (front ++ decl ++ [semi]).
Definition short_ok (K : skind) (front decl : list elem) : Prop :=
  In K [MODULE; STRUCT; TYPE_ALIAS]
  /\ front_only front
  /\ begins_solid (decl ++ [semi]) /\ no_docs decl
  /\ (forall e, In e decl -> ~ In (kind_of e) [ATTR; SEMICOLON; ITEM_LIST; RECORD_FIELD_LIST]).

Definition touching (off : nat) (e : lelem) : Prop := lstart e <= off <= lend e.
(** No item, attribute or field in [e] touches the cursor. *)
Definition direct (off : nat) (e : lelem) : Prop :=
  forall k cs c x, snd e = Node k cs -> In c (place (fst e) cs) -> element_of c x -> touching off x ->
    item_node (snd x) = false /\ lkind x <> ATTR /\ lkind x <> RECORD_FIELD.
(** What is around the item is no attribute and no field. *)
Definition outside (up : list lelem) : Prop := forall x, In x up -> lkind x <> ATTR /\ lkind x <> RECORD_FIELD.
(** A place for new code: at the cursor if it is in white space, otherwise behind the token at the cursor *)
Definition new_code_at (root : elem) (off : nat) (p : nat * nat) : Prop :=
  exists t k s, in_file root t /\ snd t = Tok k s /\ touching off t
    /\ ((k = WHITESPACE /\ p = (off, off)) \/ (k <> WHITESPACE /\ p = (lend t, lend t))).

(** Only for what is around the place the user points at something is offered. *)
Definition offer_sound (root : elem) (r : nat * nat) (of : offer) : Prop :=
  match of with
  | Attributes t _ => in_file root t /\ inside r (range_of t) /\ (item_node (snd t) = true \/ exists cs, snd t = Node RECORD_FIELD cs)
  | Entities i _ => in_file root i /\ inside r (range_of i) /\ item_node (snd i) = true
  | RootEntities _ => exists e, in_file root e /\ inside r (range_of e) /\ (snd e = root \/ lkind e = SOURCE_FILE)
  end.
