(** What "every ink! attribute is checked or reported" (C97) means. The documented places of entities are those of
    C48 ([inside]), with the file around everything and topics inside events. *)
From Verif Require Import Base PositionModel VersionModel SyntaxModel AttrModel AttrSpec SuggestModel SuggestSpec TreeModel TreeSpec.

(** What may stand in a file outside any other entity. *)
Definition in_the_file (v : version) : list attr_kind :=
  map AkMacro [MContract; MChainExtension; MStorageItem; MTraitDefinition; MTest; ME2ETest]
  ++ match v with V5 => map AkMacro [MEvent; MScaleDerive] | V4 => [] end.
(** What may stand directly in an entity. *)
Definition belongs_in (v : version) (scope : attr_kind) : list attr_kind :=
  match scope with
  | AkArg AEvent | AkMacro MEvent => [AkArg ATopic]
  | _ => inside v scope
  end.

(** An item is what its main attribute declares. *)
Definition is_a (k : attr_kind) (n : tree) : Prop := exists a, main_attr (attrs_of n) a /\ at_kind a = k.

(** [in_place v t b n k]: in the file [t], the item [n] below the nodes [b] is a [k], and it and all annotated
    items around it are where they belong. *)
Inductive in_place (v : version) (t : tree) : list tree -> tree -> attr_kind -> Prop :=
  | in_place_file b n k :
      path t b n -> unannotated b -> is_a k n -> In k (in_the_file v) -> in_place v t b n k
  | in_place_inside outer p s b n k :
      in_place v t outer p s -> path p b n -> unannotated b -> is_a k n -> In k (belongs_in v s) ->
      in_place v t (b ++ p :: outer) n k.

(** An item that is annotated as something the version knows, without attributes of unknown ink! macros. *)
Definition plainly_annotated (v : version) (m : tree) : Prop :=
  exists k, is_a k m /\ declares v k /\ forall x, In x (attrs_of m) -> at_kind x <> AkMacro MUnknown.

(** The functions of chain extensions (version 5) as the grammar has them: a function right in the item list of
    the annotated trait. *)
Definition method_in (b : list tree) (n : tree) : Prop :=
  exists items p outer, b = items :: p :: outer
    /\ annotated items = false /\ annotated p = true
    /\ n_kind p = TRAIT /\ n_kind items = ASSOC_ITEM_LIST /\ n_kind n = FN
    /\ exists before after, n_children p = before ++ items :: after
         /\ forall c, In c before -> n_kind c <> ASSOC_ITEM_LIST.
(** The annotated node has the syntax without which the analyzer does not see the entity. *)
Definition seen (b : list tree) (n : tree) (k : attr_kind) : Prop :=
  (k = AkArg AImpl -> is_item (n_kind n) = true) /\ (k = AkArg AFunction -> method_in b n).

(** ** The reports *)

(** Kinds that name an entity in some version. *)
Definition names_entity (k : attr_kind) : Prop := declares V4 k \/ declares V5 k.
(** The node [p] is checked as an [s]: it is declared to be one; impl blocks can do without (C66), and version 5
    still checks what is declared as [extension]. *)
Definition counts_as (v : version) (s : attr_kind) (p : tree) : Prop :=
  declared s p
  \/ (s = AkArg AImpl /\ n_kind p = IMPL)
  \/ (v = V5 /\ s = AkArg AFunction /\ declared (AkArg AExtension) p).
