(** What C98 means: which line a completion replaces, and what is offered for it. *)
From Coq Require Import List.
From Verif Require Import Base Unicode PositionModel VersionModel TranslateModel SyntaxModel AttrModel EditSpec UtilSpec EntityModel EntitySpec HintModel HintSpec ExtractSpec FocusSpec CompleteModel.
Import ListNotations.

(** ** The line of the cursor *)

(** Bytes [lo] to [hi] of the text: from the beginning of the cursor's line up to its end, or up to white space at its end. *)
Definition line_range (U : unicode) (text : str) (off : nat) (r : nat * nat) : Prop :=
  exists before line white rest,
    text = before ++ line ++ white ++ rest /\ bytes before = fst r /\ bytes (before ++ line) = snd r
    /\ fst r <= off <= snd r
    /\ (before = [] \/ exists b, before = b ++ [c_nl])
    /\ ~ In c_nl (line ++ white) /\ all_white U white
    /\ (rest = [] \/ exists c, rest = c_nl :: c).
(** Only white space goes over the end of a line. *)
Definition one_line_tokens (root : elem) : Prop := forall k t, In (k, t) (leaves root) -> k <> WHITESPACE -> ~ In c_nl t.

(** ** The token at the cursor *)

Definition token (root : elem) (x : lelem) (up : list lelem) : Prop := around root x up /\ is_tok (snd x) = true.
Definition is_blank (x : lelem) : Prop := lkind x = WHITESPACE \/ lkind x = COMMENT.
(** Between two tokens, the cursor is on the one that is no white space and no comment; otherwise on the left one. *)
Definition cursor_on (root : elem) (off : nat) (x : lelem) (up : list lelem) : Prop :=
  token root x up /\ touching off x
  /\ forall y upy, token root y upy -> touching off y -> y <> x ->
       (is_blank y /\ ~ is_blank x) \/ (lstart x < lstart y /\ ~ (is_blank x /\ ~ is_blank y)).

(** ** What is offered *)

(** The words of a range *)
Definition word_in (root : elem) (r : nat * nat) (w : str) : Prop :=
  exists x up, token root x up /\ ~ is_blank x /\ text_of (snd x) = w /\ fst r <= lstart x /\ lend x <= snd r.
Definition no_words (root : elem) (r : nat * nat) : Prop := forall w, ~ word_in root r w.
(** The line is blank, or one of its words is part of a keyword. *)
Definition fits (root : elem) (r : nat * nat) (keywords : list str) : Prop :=
  no_words root r \/ exists w k, word_in root r w /\ In k keywords /\ occurs w k.
Definition keywords (e : entity) : list str :=
  match e with
  | EStorage => [lit "struct"; lit "storage"]
  | EEventV2 | EEvent => [lit "struct"; lit "event"]
  | ETest => [lit "fn"; lit "test"]
  | EE2ETest => [lit "async"; lit "fn"; lit "test"; lit "e2e"]
  | EConstructor => [lit "fn"; lit "constructor"; lit "new"]
  | EMessage | ETraitMessage => [lit "fn"; lit "message"]
  | EErrorCode => [lit "type"; lit "error"; lit "code"; lit "ErrorCode"]
  | EExtension => [lit "fn"; lit "extension"; lit "function"]
  | ETopic => []
  | EContract => [lit "mod"; lit "contract"]
  | ETraitDefinition => [lit "trait"; lit "definition"; lit "trait_definition"]
  | EChainExtension => [lit "trait"; lit "chain"; lit "extension"; lit "chain_extension"]
  | ECombine => [lit "ink"; lit "combine"; lit "extensions"; lit "combine_extensions"]
  | EStorageItem => [lit "struct"; lit "enum"; lit "storage"; lit "item"; lit "storage_item"]
  | EEnvironment => [lit "struct"; lit "enum"; lit "environment"; lit "derive"; lit "scale"; lit "scale_derive"; lit "scale_info";
                     lit "encode"; lit "decode"; lit "type"; lit "info"; lit "type_info"]
  end.

(** Where an entity has its place: in which item, or outside of items *)
Inductive belongs (v : version) (contracts : bool) : option around_item -> entity -> Prop :=
  | b_storage : belongs v contracts (Some (IsContract false)) EStorage
  | b_event2 s : v = V5 -> belongs v contracts (Some (IsContract s)) EEventV2
  | b_event s : belongs v contracts (Some (IsContract s)) EEvent
  | b_test e : belongs v contracts (Some (IsModule true e)) ETest
  | b_e2e t : belongs v contracts (Some (IsModule t true)) EE2ETest
  | b_constructor : belongs v contracts (Some (IsImpl false true)) EConstructor
  | b_message : belongs v contracts (Some (IsImpl false true)) EMessage
  | b_trait_message : belongs v contracts (Some IsTraitDefinition) ETraitMessage
  | b_error_code : belongs v contracts (Some (IsChainExtension false)) EErrorCode
  | b_extension c : belongs v contracts (Some (IsChainExtension c)) EExtension
  | b_topic : belongs v contracts (Some (IsStruct true)) ETopic
  | b_contract : contracts = false -> belongs v contracts None EContract
  | b_root_event2 : v = V5 -> belongs v contracts None EEventV2
  | b_trait : belongs v contracts None ETraitDefinition
  | b_chain : belongs v contracts None EChainExtension
  | b_combine : v = V5 -> belongs v contracts None ECombine
  | b_storage_item : belongs v contracts None EStorageItem
  | b_environment : belongs v contracts None EEnvironment.

(** The innermost item around something *)
Inductive innermost : list lelem -> option (lelem * list lelem) -> Prop :=
  | in_none up : (forall a, In a up -> item_node (snd a) = false) -> innermost up None
  | in_some inner i up : (forall a, In a inner -> item_node (snd a) = false) -> item_node (snd i) = true -> innermost (inner ++ i :: up) (Some (i, up)).
(** The item a completion is for: around the cursor if the line has no words or the cursor is in fields; otherwise the item around
    the one that is being written. *)
Definition in_fields (up : list lelem) : Prop := exists a, In a up /\ (lkind a = RECORD_FIELD \/ lkind a = RECORD_FIELD_LIST).
Definition plain_line (root : elem) (r : nat * nat) (x : lelem) (up : list lelem) : Prop :=
  in_fields up \/ (lkind x = WHITESPACE /\ no_words root r).
Inductive host (root : elem) (r : nat * nat) (x : lelem) (up : list lelem) : option (lelem * list lelem) -> Prop :=
  | h_around i : plain_line root r x up -> innermost up i -> host root r x up i
  | h_root : ~ plain_line root r x up -> innermost up None -> host root r x up None
  | h_parent i up' j : ~ plain_line root r x up -> innermost up (Some (i, up')) -> innermost up' j -> host root r x up j.
(** What is being written goes beyond the line and the token at the cursor. *)
Definition goes_on (root : elem) (r : nat * nat) (x : lelem) (up : list lelem) : Prop :=
  ~ plain_line root r x up /\ exists i up', innermost up (Some (i, up')) /\ snd r < lend i /\ lend x < lend i.
(** The next word of the file could not be parsed. *)
Definition broken_after (root : elem) (x : lelem) : Prop :=
  exists y p up, token root y (p :: up) /\ ~ is_blank y /\ lend x <= lstart y /\ lkind p = ERROR
    /\ forall z upz, token root z upz -> ~ is_blank z -> lend x <= lstart z -> lstart y <= lstart z.

Section Offered.
  Context (facts : lelem * list lelem -> around_item) (contracts : bool) (v : version) (root : elem) (r : nat * nat) (x : lelem) (up : list lelem).
  Definition is_offered (e : entity) : Prop :=
    (goes_on root r x up -> broken_after root x)
    /\ (exists h, host root r x up h /\ belongs v contracts (option_map facts h) e)
    /\ (e = ETopic \/ fits root r (keywords e))
    /\ (e = EStorage \/ e = EContract -> ~ broken_after root x).
End Offered.
