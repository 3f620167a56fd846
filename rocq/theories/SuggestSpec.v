(** What the suggestion and attribute diagnostic properties C36, C39, C44, C45, C65 mean, independently of how
    the code computes them. *)
From Verif Require Import Base PositionModel SyntaxModel VersionModel AttrModel AttrSpec SuggestModel.

(** ** C44, C45: the item after a suggestion has been accepted *)

(** The kind of an attribute is that of its macro, or of its primary argument (C21). *)
Definition kind_agrees (a : ink_attr) : Prop :=
  match at_kind a with
  | AkMacro _ => True
  | AkArg k =>
      (at_args a = [] /\ k = AUnknown)
      \/ exists p, primary_of (fun x y => precedes (ia_kind x) (ia_kind y)) (at_args a) p /\ ia_kind p = k
  end.

(** The attributes of an item are at different places. *)
Definition distinct_places (attrs : list ink_attr) : Prop := NoDup (map at_range attrs).

(** The same attribute, possibly moved. *)
Definition alike (a b : ink_attr) : Prop :=
  at_kind a = at_kind b /\ map ia_kind (at_args a) = map ia_kind (at_args b).

(** [a'] is [a] with the argument [x] written somewhere in its list. *)
Definition with_arg (a a' : ink_attr) (x : ink_arg) : Prop :=
  (exists l r l' r', at_args a = l ++ r /\ at_args a' = l' ++ x :: r'
     /\ map ia_kind l = map ia_kind l' /\ map ia_kind r = map ia_kind r')
  /\ match at_kind a with AkMacro m => at_kind a' = AkMacro m | AkArg _ => exists k, at_kind a' = AkArg k end
  /\ kind_agrees a /\ kind_agrees a'.

(** The attributes before and after [x] has been written into [a]. *)
Record edited (attrs attrs' : list ink_attr) (a a' : ink_attr) (x : ink_arg) : Prop := {
  ed_split : exists l r l' r', attrs = l ++ a :: r /\ attrs' = l' ++ a' :: r'
               /\ Forall2 alike l l' /\ Forall2 alike r r';
  ed_with : with_arg a a' x;
  ed_places : distinct_places attrs;
  ed_places' : distinct_places attrs' }.

(** The kinds that are present on an item. *)
Definition present_args (attrs : list ink_attr) : list arg_kind := map ia_kind (flat_map at_args attrs).

(** ** C36: duplicates *)

(** The written arguments of an item, with their attribute. *)
Definition placed_args (attrs : list ink_attr) : list (ink_attr * ink_arg) :=
  flat_map (fun a => map (pair a) (at_args a)) attrs.

(** ** C65: the documented attributes of the ink! language *)

(** The attribute macros with the arguments they take, and the arguments that declare an entity with the
    arguments that can accompany them. *)
Definition options (v : version) (k : attr_kind) : option (list arg_kind) :=
  match k, v with
  | AkMacro MContract, _ => Some [AEnv; AKeepAttr]
  | AkMacro MTraitDefinition, _ => Some [AKeepAttr; ANamespace]
  | AkMacro MStorageItem, _ => Some [ADerive]
  | AkMacro MTest, _ => Some []
  | AkMacro MChainExtension, V4 => Some []
  | AkMacro MChainExtension, V5 => Some [AExtension]
  | AkMacro MEvent, V5 => Some [AAnonymous; ASignatureTopic]
  | AkMacro MScaleDerive, V5 => Some [AEncode; ADecode; ATypeInfo]
  | AkMacro ME2ETest, V4 => Some [AAdditionalContracts; AEnvironment; AKeepAttr]
  | AkMacro ME2ETest, V5 => Some [ABackend; AEnvironment]
  | AkArg AStorage, _ => Some []
  | AkArg ATopic, _ => Some []
  | AkArg AEvent, V4 => Some [AAnonymous]
  | AkArg AEvent, V5 => Some [AAnonymous; ASignatureTopic]
  | AkArg AImpl, _ => Some [ANamespace]
  | AkArg AConstructor, _ => Some [ADefault; APayable; ASelector]
  | AkArg AMessage, _ => Some [ADefault; APayable; ASelector]
  | AkArg AExtension, V4 => Some [AHandleStatus]
  | AkArg AFunction, V5 => Some [AHandleStatus]
  | _, _ => None
  end.

(** Two arguments exclude each other; one macro requires an argument. *)
Definition compatible (v : version) (k : attr_kind) (args : list arg_kind) : Prop :=
  (v = V5 -> ~ (In AAnonymous args /\ In ASignatureTopic args))
  /\ (v = V5 -> k = AkMacro MChainExtension -> In AExtension args).

(** The attributes of an item, as documented: one macro with its arguments, or an entity argument first, then
    its companions in the same or in further attributes; nothing twice. *)
Inductive documented (v : version) : list ink_attr -> Prop :=
  | doc_macro a m opts :
      at_kind a = AkMacro m -> options v (AkMacro m) = Some opts ->
      NoDup (map ia_kind (at_args a)) -> incl (map ia_kind (at_args a)) opts ->
      compatible v (AkMacro m) (map ia_kind (at_args a)) ->
      documented v [a]
  | doc_entity a x xs more k opts :
      at_args a = x :: xs -> ia_kind x = k -> at_kind a = AkArg k -> options v (AkArg k) = Some opts ->
      NoDup (k :: map ia_kind xs ++ present_args more) ->
      incl (map ia_kind xs ++ present_args more) opts ->
      (forall b, In b more -> exists y, In y (at_args b) /\ at_kind b = AkArg (ia_kind y)) ->
      compatible v (AkArg k) (map ia_kind xs ++ present_args more) ->
      documented v (a :: more).

(** The kinds that declare something by themselves. *)
Definition declares (v : version) (k : attr_kind) : Prop := exists opts, options v k = Some opts.

(** ** C44: where the documented attributes belong *)

(** Two kinds go together: one is the other's entity, or both are options of one entity, and they do not exclude
    each other. *)
Definition exclusive (v : version) (a b : arg_kind) : Prop :=
  v = V5 /\ ((a = AAnonymous /\ b = ASignatureTopic) \/ (a = ASignatureTopic /\ b = AAnonymous)).
Definition goes_with (v : version) (k : attr_kind) (a : arg_kind) : Prop :=
  k <> AkArg a
  /\ (exists e opts, options v e = Some opts
       /\ (k = e \/ exists b, k = AkArg b /\ In b opts /\ ~ exclusive v b a)
       /\ (e = AkArg a \/ In a opts)).

(** The ink! items that contain others, as far as their attribute tells. *)
Inductive scope := InContract | InEvent | InImpl | InTrait | InExtension | InType | InOther.
Definition scope_of (k : attr_kind) : scope :=
  match k with
  | AkMacro MContract | AkArg AEnv | AkArg AKeepAttr => InContract
  | AkMacro MEvent | AkArg AEvent | AkArg AAnonymous | AkArg ASignatureTopic => InEvent
  | AkMacro MTraitDefinition => InTrait
  | AkMacro MChainExtension => InExtension
  | AkArg AImpl | AkArg ANamespace => InImpl
  | AkMacro MStorageItem | AkMacro MScaleDerive | AkArg AStorage => InType
  | _ => InOther
  end.

(** The arguments with the ink! items in which they are written. *)
Definition homes (v : version) (a : arg_kind) : list scope :=
  match a, v with
  | AStorage, _ | AEvent, _ | AAnonymous, _ => [InContract]
  | ASignatureTopic, V5 => [InContract]
  | AImpl, _ | ANamespace, _ => [InContract]
  | AConstructor, _ => [InContract; InImpl]
  | AMessage, _ | ADefault, _ | APayable, _ | ASelector, _ => [InContract; InImpl; InTrait]
  | ATopic, _ => [InEvent]
  | AExtension, V4 => [InExtension]
  | AFunction, V5 => [InExtension]
  | AHandleStatus, _ => [InExtension]
  | _, _ => []
  end.
Definition belongs (v : version) (a : arg_kind) (k : attr_kind) : Prop := In (scope_of k) (homes v a).

(** The attribute macros with the ink! items in which they are written. *)
Definition macro_homes (v : version) (m : macro_kind) : list scope :=
  match m, v with
  | MChainExtension, _ | MStorageItem, _ | MTest, _ | MTraitDefinition, _ | ME2ETest, _ => [InContract]
  | MEvent, V5 => [InContract]
  | MScaleDerive, V5 => [InContract; InImpl; InTrait; InExtension; InOther]
  | _, _ => []
  end.
Definition macro_belongs (v : version) (m : macro_kind) (k : attr_kind) : Prop := In (scope_of k) (macro_homes v m).

(** The Rust items that carry them, by the item or its keyword. *)
Definition carriers (v : version) (a : arg_kind) : list skind :=
  match a, v with
  | AStorage, _ | AEvent, _ | AAnonymous, _ => [STRUCT; STRUCT_KW]
  | ASignatureTopic, V5 => [STRUCT; STRUCT_KW]
  | ATopic, _ => [RECORD_FIELD]
  | AConstructor, _ | AMessage, _ | ADefault, _ | APayable, _ | ASelector, _ | AHandleStatus, _ => [FN; FN_KW]
  | AExtension, V4 => [FN; FN_KW]
  | AFunction, V5 => [FN; FN_KW]
  | AImpl, _ | ANamespace, _ => [IMPL; IMPL_KW]
  | _, _ => []
  end.
Definition macro_carriers (v : version) (m : macro_kind) : list skind :=
  match m, v with
  | MContract, _ => [MODULE; MOD_KW]
  | MChainExtension, _ | MTraitDefinition, _ => [TRAIT; TRAIT_KW]
  | MStorageItem, _ => [STRUCT; STRUCT_KW; ENUM; ENUM_KW; UNION; UNION_KW]
  | MScaleDerive, V5 => [STRUCT; STRUCT_KW; ENUM; ENUM_KW; UNION; UNION_KW]
  | MEvent, V5 => [STRUCT; STRUCT_KW]
  | MTest, _ | ME2ETest, _ => [FN; FN_KW]
  | _, _ => []
  end.
