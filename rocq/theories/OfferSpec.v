(** What "what is offered to be added belongs there" (C99) means, in terms of the annotations of [TreeSpec]. *)
From Verif Require Import Base Unicode EditSpec PositionModel VersionModel SyntaxModel AttrModel AttrSpec SuggestModel SuggestSpec
  TreeModel TreeSpec VisitSpec OfferModel.

(** ** Conditional compilation *)

(** The words one after the other, with white space before each and at the end. *)
Inductive spaced (U : unicode) : list str -> str -> Prop :=
  | spaced_end w : all_white U w -> spaced U [] w
  | spaced_word w x xs r : all_white U w -> spaced U xs r -> spaced U (x :: xs) (w ++ x ++ r).
(** The words stand between an opening parenthesis or a comma and a comma or a closing parenthesis. *)
Definition operand (U : unicode) (words : list str) (s : str) : Prop :=
  exists before o m c after, s = before ++ o :: m ++ c :: after
    /\ In o (lit "(,") /\ In c (lit ",)") /\ spaced U words m.

(** The predicates of conditional compilation, when they hold (given the options that are set and the values of
    keys), and how they are written. *)
Inductive cfg := COption (name : str) | CPair (key value : str) | CNot (c : cfg) | CAll (l : list cfg) | CAny (l : list cfg).
Fixpoint holds (options : str -> bool) (pairs : str -> str -> bool) (c : cfg) : bool :=
  match c with
  | COption n => options n
  | CPair k x => pairs k x
  | CNot c => negb (holds options pairs c)
  | CAll l => forallb (holds options pairs) l
  | CAny l => existsb (holds options pairs) l
  end.
Fixpoint separated (l : list str) : str :=
  match l with
  | [] => []
  | [s] => s
  | s :: l' => s ++ lit ", " ++ separated l'
  end.
Fixpoint written (c : cfg) : str :=
  match c with
  | COption n => n
  | CPair k x => k ++ lit " = """ ++ x ++ lit """"
  | CNot c => lit "not(" ++ written c ++ lit ")"
  | CAll l => lit "all(" ++ separated (map written l) ++ lit ")"
  | CAny l => lit "any(" ++ separated (map written l) ++ lit ")"
  end.
Definition cfg_attr (c : cfg) : plain_attr := (Some (lit "cfg"), Some (lit "(" ++ written c ++ lit ")")).
Definition TEST := COption (lit "test").
Definition E2E := CPair (lit "feature") (lit "e2e-tests").
(** The predicate is the one given, or a conjunction with it. *)
Definition demands (c d : cfg) : Prop := c = d \/ exists l, c = CAll l /\ In d l.
(** Whatever satisfies the predicate is a test build. *)
Definition only_tests (c : cfg) : Prop := forall options pairs, holds options pairs c = true -> options (lit "test") = true.

(** ** Contracts *)

Definition callable (n : tree) : Prop := declared (AkArg AConstructor) n \/ declared (AkArg AMessage) n.
(** An impl block of the module: nothing annotated is around it, and it is annotated [impl], or (annotated with
    nothing but a namespace or something unfinished, or not at all) it has a constructor or message. *)
Definition own_impl (t : tree) (b : list tree) (n : tree) : Prop :=
  path t b n /\ unannotated b
  /\ ((declared (AkArg AImpl) n /\ is_item (n_kind n) = true)
      \/ (n_kind n = IMPL
          /\ (exists a, In a (attrs_of n) /\ (at_kind a = AkArg ANamespace \/ attr_kind_unknown (at_kind a) = true))
          /\ exists b' f, path n b' f /\ unannotated b' /\ callable f)
      \/ (n_kind n = IMPL /\ annotated n = false
          /\ exists b' f, path n b' f /\ unannotated b' /\ no_item b' /\ n_kind f = FN /\ callable f)).
(** A constructor or message that is added in the body of the module needs a block for itself. *)
Definition has_own_impl (F : facts) (t : tree) (up : list tree) : Prop :=
  exists b n, own_impl t b n /\ (n_kind n = IMPL -> fa_trait F (n, b ++ t :: up) = false).
Definition room_for_callables (F : facts) (place : option bool) (t : tree) (up : list tree) : Prop :=
  place = None \/ (place = Some true /\ ~ has_own_impl F t up).

(** The (first) selector of a callable, and whether it is the wildcard [_]. *)
Definition has_selector (n : tree) (x : ink_arg) : Prop :=
  exists before after, flat_map at_args (attrs_of n) = before ++ x :: after
    /\ ia_kind x = ASelector /\ forall y, In y before -> ia_kind y <> ASelector.
Definition wild (x : ink_arg) : Prop := exists y, m_value x = MOk y /\ value_skind y = Some UNDERSCORE.
Definition takes_all (n : tree) : Prop := exists x, has_selector n x /\ wild x.
(** A message of the contract, or of the block. *)
Definition contract_message (t n : tree) : Prop :=
  exists b, path t b n /\ declared (AkArg AMessage) n /\ only_behind impl_like b.
Definition block_message (t n : tree) : Prop := exists b, path t b n /\ declared (AkArg AMessage) n /\ unannotated b.

(** The contract right around something. *)
Definition contract_around (up : list tree) (p : tree) (far : list tree) : Prop :=
  exists near, up = near ++ p :: far /\ no_item near /\ is_item (n_kind p) = true /\ declared (AkMacro MContract) p.
(** A block that is for constructors and messages: it is annotated [impl], it has some already, or it is right
    inside a contract. *)
Definition for_callables (t : tree) (up : list tree) : Prop :=
  declared (AkArg AImpl) t \/ (exists b f, path t b f /\ unannotated b /\ callable f)
  \/ exists p far, contract_around up p far.

(** ** What is offered *)

Definition offered_in_contract (F : facts) (v : version) (place : option bool) (t : tree) (up : list tree) (e : new_item) : Prop :=
  match e with
  | NMigrate => v = V4
  | NEvent2 => v = V5
  | NEvent => True
  | NStorage => forall b n, path t b n -> unannotated b -> ~ declared (AkArg AStorage) n
  | NConstructor => room_for_callables F place t up
  | NMessage => room_for_callables F place t up /\ (v = V5 -> forall n, contract_message t n -> ~ takes_all n)
  | _ => False
  end.
Definition offered_in_block (F : facts) (v : version) (t : tree) (up : list tree) (e : new_item) : Prop :=
  fa_trait F (t, up) = false /\ for_callables t up
  /\ match e with
     | NConstructor => True
     | NMessage => v = V5 -> forall n, takes_all n ->
                     ~ block_message t n /\ forall p far, contract_around up p far -> ~ contract_message p n
     | _ => False
     end.
Definition offered_in_trait (F : facts) (v : version) (t : tree) (up : list tree) (e : new_item) : Prop :=
  match e with
  | NMigrate => v = V4 /\ (is_a (AkMacro MChainExtension) t \/ is_a (AkMacro MTraitDefinition) t)
  | NMessage => is_a (AkMacro MTraitDefinition) t
  | NExtension => is_a (AkMacro MChainExtension) t
  | NErrorCode => is_a (AkMacro MChainExtension) t /\ fa_error_code F (t, up) = false
  | _ => False
  end.
Definition is_event (t : tree) : Prop :=
  declared (AkMacro MEvent) t \/ declared (AkArg AEvent) t.
Definition offered_in_struct (v : version) (t : tree) (e : new_item) : Prop :=
  match e with
  | NTopic => is_event t
  | NExtract => declared (AkMacro MEvent) t /\ ~ declared (AkArg AEvent) t \/ (declared (AkArg AEvent) t /\ v = V5)
  | NMigrate => v = V4 /\ declared (AkMacro MStorageItem) t /\ ~ is_event t
  | _ => False
  end.
Definition offered_in_data (v : version) (t : tree) (e : new_item) : Prop :=
  e = NMigrate /\ v = V4 /\ declared (AkMacro MStorageItem) t.
Definition offered_in_module (U : unicode) (F : facts) (t : tree) (up : list tree) (e : new_item) : Prop :=
  exists p s, In (Some p, Some s) (fa_attrs F (t, up)) /\ spaced U [lit "cfg"] p /\ operand U [lit "test"] s
    /\ match e with
       | NTest => True
       | NE2ETest => operand U [lit "feature"; lit "="; lit """e2e-tests"""] s
       | _ => False
       end.
Definition offered_in_file (v : version) (t : tree) (e : new_item) : Prop :=
  match e with
  | NMigrate => v = V4
  | NEvent2 | NCombine => v = V5
  | NTraitDefinition | NChainExtension | NStorageItem | NEnvironment => True
  | NContract => forall b n, path t b n -> unannotated b -> ~ declared (AkMacro MContract) n
  | _ => False
  end.

(** The actions that are offered whenever they make sense, wherever the new code would go. *)
Definition needs_place (e : new_item) : bool :=
  match e with NMigrate | NExtract | NEvent2 => false | _ => true end.

(** The attribute of the new code, if it has one and goes inside the item. *)
Definition new_kind (v : version) (e : new_item) : option attr_kind :=
  match e with
  | NStorage => Some (AkArg AStorage)
  | NEvent => Some (AkArg AEvent)
  | NConstructor => Some (AkArg AConstructor)
  | NMessage => Some (AkArg AMessage)
  | NTopic => Some (AkArg ATopic)
  | NExtension => Some (match v with V4 => AkArg AExtension | V5 => AkArg AFunction end)
  | _ => None
  end.
Definition root_kind (e : new_item) : option attr_kind :=
  match e with
  | NContract => Some (AkMacro MContract)
  | NEvent2 => Some (AkMacro MEvent)
  | NTraitDefinition => Some (AkMacro MTraitDefinition)
  | NChainExtension => Some (AkMacro MChainExtension)
  | NStorageItem => Some (AkMacro MStorageItem)
  | _ => None
  end.

(** Predicates without negation and alternative, of plain names and values. *)
Definition plain_text (U : unicode) (s : str) : Prop :=
  forall x, In x s -> u_whitespace U x = false /\ ~ In x (lit "(,)").
Inductive conjunction (U : unicode) : cfg -> Prop :=
  | conj_option n : plain_text U n -> conjunction U (COption n)
  | conj_pair k x : plain_text U k -> plain_text U x -> conjunction U (CPair k x)
  | conj_all l : (forall c, In c l -> conjunction U c) -> conjunction U (CAll l).
