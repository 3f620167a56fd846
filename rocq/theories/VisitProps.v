(** C97: every ink! item of a file is checked as what it is, or it or something around it is reported as being
    out of place; and nothing is reported that is in its place. *)
From Verif Require Import Base BaseFacts PositionModel VersionModel SyntaxModel AttrModel AttrSpec SuggestModel SuggestSpec
  AttrProofs SuggestProofs TreeModel TreeSpec TreeProofs TreeProps VisitModel VisitSpec VisitProofs.
From Coq Require Import Lia.

(** What is where it belongs is checked as what it is (a SCALE derive has no checks of its own). *)
Theorem C97_checked_partial v td t b n k :
  well_formed t -> n_kind t = SOURCE_FILE ->
  in_place v t b n k -> k <> AkMacro MScaleDerive -> seen b n k ->
  In (k, (n, b ++ [t])) (checks v td (t, [])).
Proof. apply in_place_checked. Qed.

(** Any other item makes a report on itself or on an item around it. *)
Theorem C97_reported_partial v td t b n :
  well_formed t -> n_kind t = SOURCE_FILE ->
  path t b n -> plainly_annotated v n ->
  (forall near m far, b = near ++ m :: far -> annotated m = true ->
     plainly_annotated v m /\ ~ is_a (AkMacro MScaleDerive) m /\ forall k, is_a k m -> seen far m k) ->
  (forall k, ~ in_place v t b n k) ->
  exists m a, In m (n :: b) /\ main_attr (attrs_of m) a /\ In a (misplaced v td (t, [])).
Proof.
  intros Hwf Hr Hp Hn Hb Hno.
  destruct (placed_or_reported v td t Hwf Hr (length b) b n (le_n _) Hp Hn Hb) as [[k Hk]|H]; [|exact H].
  exfalso. exact (Hno k Hk).
Qed.

(** Together: no ink! item goes unnoticed. *)
Theorem C97_covered_partial v td t b n :
  well_formed t -> n_kind t = SOURCE_FILE ->
  path t b n -> plainly_annotated v n -> ~ is_a (AkMacro MScaleDerive) n -> (forall k, is_a k n -> seen b n k) ->
  (forall near m far, b = near ++ m :: far -> annotated m = true ->
     plainly_annotated v m /\ ~ is_a (AkMacro MScaleDerive) m /\ forall k, is_a k m -> seen far m k) ->
  (exists k, is_a k n /\ In (k, (n, b ++ [t])) (checks v td (t, [])))
  \/ exists m a, In m (n :: b) /\ main_attr (attrs_of m) a /\ In a (misplaced v td (t, [])).
Proof.
  intros Hwf Hr Hp Hn Hns Hseen Hb.
  destruct (placed_or_reported v td t Hwf Hr (length b) b n (le_n _) Hp Hn Hb) as [[k Hk]|H]; [|right; exact H].
  pose proof (in_place_is _ _ _ _ _ Hk) as Hi. left. exists k. split; [exact Hi|].
  apply in_place_checked; [exact Hwf | exact Hr | exact Hk | intros ->; exact (Hns Hi) | exact (Hseen k Hi)].
Qed.

(** Checks only run on items that are declared as what they are checked as (impl blocks can do without). *)
Theorem C97_checks_entities v td t k l :
  well_formed t -> n_kind t = SOURCE_FILE -> In (k, l) (checks v td (t, [])) ->
  exists b n, l = (n, b ++ [t]) /\ path t b n /\ counts_as v k n.
Proof.
  intros Hwf Hr H. destruct (checks_sound v td t _ Hwf Hr H) as (b & n & E & Hp & _ & Hc). cbn [fst] in *.
  injection E as ->. exists b, n. auto.
Qed.

(** Every report is about an attribute that is not allowed in the file outside of other items, or not allowed
    inside an item that is checked. *)
Theorem C97_reports v td t a :
  well_formed t -> n_kind t = SOURCE_FILE -> In a (misplaced v td (t, [])) -> declares v (at_kind a) ->
  (exists b n, path t b n /\ unannotated b /\ main_attr (attrs_of n) a /\ ~ In (at_kind a) (in_the_file v))
  \/ exists s outer p b n, path t outer p /\ counts_as v s p /\ path p b n /\ In a (attrs_of n)
       /\ ~ In (at_kind a) (belongs_in v s).
Proof.
  intros Hwf Hr Ha Hd. destruct (misplaced_sound v td t a Hwf Hr Ha) as [H|(s & o & p & b & n & H1 & H2 & _ & H3 & H4 & _ & H5)].
  - left. exact H.
  - right. exists s, o, p, b, n. auto 8.
Qed.

(** In a file where every attribute that names an entity is the main attribute of an item in its place, and impl
    blocks hold constructors and messages (and derives) only, no such attribute is reported. *)
Theorem C97_quiet v td t a :
  well_formed t -> n_kind t = SOURCE_FILE ->
  (forall b n k, path t b n -> declared k n -> names_entity k -> in_place v t b n k) ->
  (forall outer p b n k, path t outer p -> n_kind p = IMPL -> path p b n -> unannotated b -> declared k n -> declares v k ->
     In k (belongs_in v (AkArg AImpl))) ->
  In a (misplaced v td (t, [])) -> ~ declares v (at_kind a).
Proof. intros Hwf Hr H1 H2. apply quiet; assumption. Qed.

(** ** Examples *)

(** [#[ink::contract] mod c { #[ink(storage)] struct S; #[ink(event)] struct E { #[ink(topic)] x: u8 }
     #[ink(impl)] impl S { #[ink(message)] fn m() } }
    #[ink::chain_extension] trait X { #[ink(function)] fn f(); }] *)
Definition vx_topic := Nd 27 RECORD_FIELD (27, 30) None [exn (AkArg ATopic) 28].
Definition vx_fields := Nd 26 RECORD_FIELD_LIST (26, 31) None [vx_topic].
Definition vx_event := Nd 24 STRUCT (24, 32) None [exn (AkArg AEvent) 25; vx_fields].
Definition vx_storage := Nd 20 STRUCT (20, 23) None [exn (AkArg AStorage) 21].
Definition vx_message := Nd 36 FN (36, 39) None [exn (AkArg AMessage) 37].
Definition vx_assoc := Nd 35 ASSOC_ITEM_LIST (35, 40) None [vx_message].
Definition vx_impl := Nd 33 IMPL (33, 41) None [exn (AkArg AImpl) 34; vx_assoc].
Definition vx_items := Nd 13 ITEM_LIST (13, 42) None [vx_storage; vx_event; vx_impl].
Definition vx_contract := Nd 11 MODULE (11, 43) None [exn (AkMacro MContract) 12; vx_items].
Definition vx_fn := Nd 53 FN (53, 56) None [exn (AkArg AFunction) 54].
Definition vx_methods := Nd 52 ASSOC_ITEM_LIST (52, 57) None [vx_fn].
Definition vx_trait := Nd 50 TRAIT (50, 58) None [exn (AkMacro MChainExtension) 51; vx_methods].
Definition vx_file := Nd 0 SOURCE_FILE (0, 60) None [vx_contract; vx_trait].
Ltac wf_tree :=
  split;
  [ let n := fresh in let Hn := fresh in
    intros n Hn; cbn in Hn; repeat destruct Hn as [<-|Hn]; try destruct Hn;
    (split; [cbn; repeat split; lia
            | let a := fresh in let Ha := fresh in
              intros a Ha; try discriminate Ha; injection Ha as <-; cbn; repeat split; lia
            | let E := fresh in let d := fresh in let Hd := fresh in
              cbn; intros E d Hd; try discriminate E; destruct Hd])
  | cbn; repeat constructor; cbn; intuition congruence ].
Example vx_file_well_formed : well_formed vx_file.
Proof. wf_tree. Qed.
Lemma one_attr_main n a : attrs_of n = [a] -> is_known a = true -> main_attr (attrs_of n) a.
Proof.
  intros E Hk. unfold main_attr. rewrite E. cbn [filter]. rewrite Hk. exists [], []. split; [reflexivity|].
  split; intros x [].
Qed.
Lemma one_attr_is n a : attrs_of n = [a] -> is_known a = true -> is_a (at_kind a) n.
Proof. intros E Hk. exists a. split; [exact (one_attr_main _ _ E Hk) | reflexivity]. Qed.
Ltac one_kind k i := match goal with |- is_a _ ?n => exact (one_attr_is n (snd (exa k i)) eq_refl eq_refl) end.
Ltac bare := let m := fresh in let H := fresh in intros m H; cbn in H; repeat destruct H as [<-|H]; try destruct H; reflexivity.
Example vx_contract_placed : in_place V5 vx_file [] vx_contract (AkMacro MContract).
Proof.
  apply in_place_file; [apply path_child; left; reflexivity | bare | one_kind (AkMacro MContract) 12 | vm_compute; tauto].
Qed.
Example vx_impl_placed : in_place V5 vx_file [vx_items; vx_contract] vx_impl (AkArg AImpl).
Proof.
  apply (in_place_inside V5 vx_file [] vx_contract (AkMacro MContract) [vx_items]); [exact vx_contract_placed | | bare | one_kind (AkArg AImpl) 34 | vm_compute; tauto].
  apply path_step; [apply path_child|]; cbn; tauto.
Qed.
Example vx_message_placed :
  in_place V5 vx_file [vx_assoc; vx_impl; vx_items; vx_contract] vx_message (AkArg AMessage).
Proof.
  apply (in_place_inside V5 vx_file [vx_items; vx_contract] vx_impl (AkArg AImpl) [vx_assoc]);
    [exact vx_impl_placed | | bare | one_kind (AkArg AMessage) 37 | vm_compute; tauto].
  apply path_step; [apply path_child|]; cbn; tauto.
Qed.
Example vx_function_placed : in_place V5 vx_file [vx_methods; vx_trait] vx_fn (AkArg AFunction).
Proof.
  apply (in_place_inside V5 vx_file [] vx_trait (AkMacro MChainExtension) [vx_methods]).
  - apply in_place_file; [apply path_child; cbn; tauto | bare | one_kind (AkMacro MChainExtension) 51 | vm_compute; tauto].
  - apply path_step; [apply path_child|]; cbn; tauto.
  - bare.
  - one_kind (AkArg AFunction) 54.
  - vm_compute; tauto.
Qed.
Example vx_function_seen : seen [vx_methods; vx_trait] vx_fn (AkArg AFunction).
Proof.
  split; [discriminate|]. intros _. exists vx_methods, vx_trait, []. do 6 (split; [reflexivity|]).
  exists [exn (AkMacro MChainExtension) 51], []. split; [reflexivity|]. intros c [<-|[]]; discriminate.
Qed.
Lemma one_declared n a k : attrs_of n = [a] -> declared k n -> k = at_kind a.
Proof. intros E (x & Hx & <-). rewrite E in Hx. destruct Hx as [<-|[]]. reflexivity. Qed.
Lemma none_declared n k : attrs_of n = [] -> ~ declared k n.
Proof. intros E (x & Hx & _). rewrite E in Hx. destruct Hx. Qed.
(** Everything in that file is in its place. *)
Example vx_all_placed b n k : path vx_file b n -> declared k n -> names_entity k -> in_place V5 vx_file b n k.
Proof.
  intros Hp Hd _. apply below_path in Hp. cbn in Hp.
  assert (Hstorage : in_place V5 vx_file [vx_items; vx_contract] vx_storage (AkArg AStorage)).
  { apply (in_place_inside V5 vx_file [] vx_contract (AkMacro MContract) [vx_items]); [exact vx_contract_placed | | bare | one_kind (AkArg AStorage) 21 | vm_compute; tauto].
    apply path_step; [apply path_child|]; cbn; tauto. }
  assert (Hevent : in_place V5 vx_file [vx_items; vx_contract] vx_event (AkArg AEvent)).
  { apply (in_place_inside V5 vx_file [] vx_contract (AkMacro MContract) [vx_items]); [exact vx_contract_placed | | bare | one_kind (AkArg AEvent) 25 | vm_compute; tauto].
    apply path_step; [apply path_child|]; cbn; tauto. }
  assert (Htopic : in_place V5 vx_file [vx_fields; vx_event; vx_items; vx_contract] vx_topic (AkArg ATopic)).
  { apply (in_place_inside V5 vx_file [vx_items; vx_contract] vx_event (AkArg AEvent) [vx_fields]); [exact Hevent | | bare | one_kind (AkArg ATopic) 28 | vm_compute; tauto].
    apply path_step; [apply path_child|]; cbn; tauto. }
  assert (Htrait : in_place V5 vx_file [] vx_trait (AkMacro MChainExtension)).
  { apply in_place_file; [apply path_child; cbn; tauto | bare | one_kind (AkMacro MChainExtension) 51 | vm_compute; tauto]. }
  repeat match type of Hp with _ \/ _ => destruct Hp as [Hp|Hp] end; try contradiction; injection Hp as <- <-;
    match type of Hd with declared _ ?m =>
      let l := eval vm_compute in (attrs_of m) in
      match l with
      | [] => exfalso; exact (none_declared m k eq_refl Hd)
      | [?a] => pose proof (one_declared m a k eq_refl Hd) as E; cbn in E; subst k;
            first [ exact vx_contract_placed | exact Hstorage | exact Hevent | exact Htopic | exact vx_impl_placed
                  | exact vx_message_placed | exact Htrait | exact vx_function_placed ]
      end
    end.
Qed.
Example vx_impl_blocks outer p b n k :
  path vx_file outer p -> n_kind p = IMPL -> path p b n -> unannotated b -> declared k n -> declares V5 k ->
  In k (belongs_in V5 (AkArg AImpl)).
Proof.
  intros Ho Hi Hp _ Hd _. apply below_path in Ho. cbn in Ho.
  repeat match type of Ho with _ \/ _ => destruct Ho as [Ho|Ho] end; try contradiction; injection Ho as <- <-; try discriminate Hi.
  apply below_path in Hp. cbn in Hp. repeat match type of Hp with _ \/ _ => destruct Hp as [Hp|Hp] end; try contradiction; injection Hp as <- <-;
    match type of Hd with declared _ ?m =>
      let l := eval vm_compute in (attrs_of m) in
      match l with
      | [] => exfalso; exact (none_declared m k eq_refl Hd)
      | [?a] => pose proof (one_declared m a k eq_refl Hd) as E; cbn in E; subst k; vm_compute; tauto
      end
    end.
Qed.
(** The checks of that file and its reports. *)
Example vx_checks :
  map (fun c => (fst c, loc_id (snd c))) (checks V5 (fun _ => false) (vx_file, []))
  = [(AkMacro MContract, 11); (AkArg AStorage, 20); (AkArg AEvent, 24); (AkArg ATopic, 27); (AkArg AImpl, 33);
     (AkArg AMessage, 36); (AkMacro MChainExtension, 50); (AkArg AFunction, 53)]
  /\ misplaced V5 (fun _ => false) (vx_file, []) = [].
Proof. vm_compute. auto. Qed.

(** The same [struct E { #[ink(topic)] x: u8 }], without its [event] attribute, directly in the contract: the
    topic is reported. *)
Definition vy_struct := Nd 24 STRUCT (24, 32) None [vx_fields].
Definition vy_items := Nd 13 ITEM_LIST (13, 42) None [vy_struct].
Definition vy_contract := Nd 11 MODULE (11, 43) None [exn (AkMacro MContract) 12; vy_items].
Definition vy_file := Nd 0 SOURCE_FILE (0, 60) None [vy_contract].
Example vy_file_well_formed : well_formed vy_file.
Proof. wf_tree. Qed.
Example vy_reported : misplaced V5 (fun _ => false) (vy_file, []) = [snd (exa (AkArg ATopic) 28)].
Proof. reflexivity. Qed.
Example vy_hypotheses :
  path vy_file [vx_fields; vy_struct; vy_items; vy_contract] vx_topic
  /\ plainly_annotated V5 vx_topic /\ (forall k, ~ in_place V5 vy_file [vx_fields; vy_struct; vy_items; vy_contract] vx_topic k)
  /\ (forall near m far, [vx_fields; vy_struct; vy_items; vy_contract] = near ++ m :: far -> annotated m = true ->
        plainly_annotated V5 m /\ ~ is_a (AkMacro MScaleDerive) m /\ forall k, is_a k m -> seen far m k).
Proof.
  assert (Hc : is_a (AkMacro MContract) vy_contract) by one_kind (AkMacro MContract) 12.
  assert (Ht : is_a (AkArg ATopic) vx_topic) by one_kind (AkArg ATopic) 28.
  split; [|split; [|split]].
  - repeat (apply path_step; [|cbn; tauto]). apply path_child. cbn. tauto.
  - exists (AkArg ATopic). split; [exact Ht|]. split; [eexists; reflexivity|].
    intros x [<-|[]]. discriminate.
  - intros k H. rewrite (is_a_unique _ _ _ (in_place_is _ _ _ _ _ H) Ht) in H.
    destruct (place_topic _ _ _ _ H) as (o & p & b' & s & E & Hs & Ho & _ & Hu).
    pose proof (declared_annotated _ _ (is_a_declared _ _ (in_place_is _ _ _ _ _ Ho))) as Hpa.
    destruct b' as [|x1 [|x2 [|x3 [|x4 b']]]]; injection E; intros; subst; try discriminate Hpa.
    + assert (s = AkMacro MContract) by exact (is_a_unique _ _ _ (in_place_is _ _ _ _ _ Ho) Hc). subst s.
      destruct Hs; discriminate.
    + destruct b'; discriminate.
  - intros near m far E Hm.
    assert (m = vy_contract).
    { destruct near as [|x1 [|x2 [|x3 [|x4 near]]]]; injection E; intros; subst; try discriminate Hm; [reflexivity|].
      destruct near; discriminate. }
    subst m. split; [|split].
    + exists (AkMacro MContract). split; [exact Hc|]. split; [eexists; reflexivity|]. intros x [<-|[]]. discriminate.
    + intros H. discriminate (is_a_unique _ _ _ H Hc).
    + intros k H. rewrite (is_a_unique _ _ _ H Hc). split; discriminate.
Qed.

(** ** What the statements above leave out *)

(** Inside an item with a SCALE derive nothing is checked or reported:
    [#[ink::scale_derive(Encode)] struct E { #[ink(topic)] x: u8 }]. *)
Definition vz_struct := Nd 24 STRUCT (24, 32) None [exn (AkMacro MScaleDerive) 25; vx_fields].
Definition vz_file := Nd 0 SOURCE_FILE (0, 60) None [vz_struct].
Example vz_file_well_formed : well_formed vz_file.
Proof. wf_tree. Qed.
Theorem C97_scale_derive_refuted :
  exists v td t b n, well_formed t /\ n_kind t = SOURCE_FILE /\ path t b n
    /\ (forall m, In m (n :: b) -> annotated m = true -> plainly_annotated v m)
    /\ is_a (AkArg ATopic) n /\ (forall k, ~ in_place v t b n k)
    /\ misplaced v td (t, []) = [] /\ checks v td (t, []) = [].
Proof.
  exists V5, (fun _ => false), vz_file, [vx_fields; vz_struct], vx_topic.
  assert (Hc : is_a (AkMacro MScaleDerive) vz_struct) by one_kind (AkMacro MScaleDerive) 25.
  assert (Ht : is_a (AkArg ATopic) vx_topic) by one_kind (AkArg ATopic) 28.
  split; [exact vz_file_well_formed|]. split; [reflexivity|].
  split; [repeat (apply path_step; [|cbn; tauto]); apply path_child; cbn; tauto|].
  split.
  { intros m [<-|[<-|[<-|[]]]] Hm; [|discriminate Hm|].
    - exists (AkArg ATopic). split; [exact Ht|]. split; [eexists; reflexivity|]. intros x [<-|[]]. discriminate.
    - exists (AkMacro MScaleDerive). split; [exact Hc|]. split; [eexists; reflexivity|]. intros x [<-|[]]. discriminate. }
  split; [exact Ht|]. split; [|split; reflexivity].
  intros k H. rewrite (is_a_unique _ _ _ (in_place_is _ _ _ _ _ H) Ht) in H.
  destruct (place_topic _ _ _ _ H) as (o & p & b' & s & E & Hs & Ho & _ & Hu).
  pose proof (declared_annotated _ _ (is_a_declared _ _ (in_place_is _ _ _ _ _ Ho))) as Hpa.
  destruct b' as [|x1 [|x2 b']]; injection E; intros; subst; try discriminate Hpa.
  - assert (s = AkMacro MScaleDerive) by exact (is_a_unique _ _ _ (in_place_is _ _ _ _ _ Ho) Hc). subst s.
    destruct Hs; discriminate.
  - destruct b'; discriminate.
Qed.

(** Version 5 checks functions of chain extensions only where they are functions: [#[ink(function = 1)]] on the
    error type goes unnoticed, [#[ink(extension = 1)]] in version 4 does not. *)
Definition vw_file (k : arg_kind) : tree :=
  Nd 0 SOURCE_FILE (0, 60) None
    [Nd 50 TRAIT (50, 58) None
       [exn (AkMacro MChainExtension) 51;
        Nd 52 ASSOC_ITEM_LIST (52, 57) None [Nd 53 (OTHER 7) (53, 56) None [exn (AkArg k) 54]]]].
Theorem C97_function_refuted :
  exists td t4 t5 b4 b5 n4 n5,
    well_formed t4 /\ well_formed t5 /\ n_kind t4 = SOURCE_FILE /\ n_kind t5 = SOURCE_FILE
    /\ in_place V4 t4 b4 n4 (AkArg AExtension) /\ in_place V5 t5 b5 n5 (AkArg AFunction)
    /\ In (AkArg AExtension, (n4, b4 ++ [t4])) (checks V4 td (t4, []))
    /\ ~ In (AkArg AFunction, (n5, b5 ++ [t5])) (checks V5 td (t5, []))
    /\ misplaced V5 td (t5, []) = [].
Proof.
  pose (n k := Nd 53 (OTHER 7) (53, 56) None [exn (AkArg k) 54]).
  pose (l k := Nd 52 ASSOC_ITEM_LIST (52, 57) None [n k]).
  pose (x k := Nd 50 TRAIT (50, 58) None [exn (AkMacro MChainExtension) 51; l k]).
  exists (fun _ => false), (vw_file AExtension), (vw_file AFunction), [l AExtension; x AExtension], [l AFunction; x AFunction],
    (n AExtension), (n AFunction).
  split; [wf_tree|]. split; [wf_tree|]. split; [reflexivity|]. split; [reflexivity|].
  assert (P : forall v k, In (AkArg k) (belongs_in v (AkMacro MChainExtension)) -> is_a (AkArg k) (n k) ->
                in_place v (vw_file k) [l k; x k] (n k) (AkArg k)).
  { intros v k Hk Hn. apply (in_place_inside v (vw_file k) [] (x k) (AkMacro MChainExtension) [l k]).
    - apply in_place_file; [apply path_child; left; reflexivity | bare | one_kind (AkMacro MChainExtension) 51 | destruct v; vm_compute; tauto].
    - apply path_step; [apply path_child; cbn; tauto | cbn; tauto].
    - bare.
    - exact Hn.
    - exact Hk. }
  split; [apply P; [vm_compute; tauto | one_kind (AkArg AExtension) 54]|].
  split; [apply P; [vm_compute; tauto | one_kind (AkArg AFunction) 54]|].
  split; [vm_compute; tauto|]. split; [|reflexivity]. vm_compute. intuition discriminate.
Qed.

(** [#[ink(impl)]] on something that is no item, e.g. on a field of a struct in a contract, is neither checked nor
    reported. *)
Definition vi_field := Nd 27 RECORD_FIELD (27, 30) None [exn (AkArg AImpl) 28].
Definition vi_struct := Nd 24 STRUCT (24, 32) None [Nd 26 RECORD_FIELD_LIST (26, 31) None [vi_field]].
Definition vi_contract := Nd 11 MODULE (11, 43) None [exn (AkMacro MContract) 12; Nd 13 ITEM_LIST (13, 42) None [vi_struct]].
Definition vi_file := Nd 0 SOURCE_FILE (0, 60) None [vi_contract].
Theorem C97_impl_refuted :
  exists v td t b n, well_formed t /\ n_kind t = SOURCE_FILE /\ in_place v t b n (AkArg AImpl)
    /\ n_kind n = RECORD_FIELD
    /\ ~ In (AkArg AImpl, (n, b ++ [t])) (checks v td (t, [])) /\ misplaced v td (t, []) = [].
Proof.
  exists V5, (fun _ => false), vi_file,
    [Nd 26 RECORD_FIELD_LIST (26, 31) None [vi_field]; vi_struct; Nd 13 ITEM_LIST (13, 42) None [vi_struct]; vi_contract], vi_field.
  split; [wf_tree|]. split; [reflexivity|]. split.
  - apply (in_place_inside V5 vi_file [] vi_contract (AkMacro MContract)
             [Nd 26 RECORD_FIELD_LIST (26, 31) None [vi_field]; vi_struct; Nd 13 ITEM_LIST (13, 42) None [vi_struct]]).
    + apply in_place_file; [apply path_child; left; reflexivity | bare | one_kind (AkMacro MContract) 12 | vm_compute; tauto].
    + repeat (apply path_step; [|cbn; tauto]). apply path_child. cbn. tauto.
    + bare.
    + one_kind (AkArg AImpl) 28.
    + vm_compute; tauto.
  - split; [reflexivity|]. split; [|reflexivity]. vm_compute. intuition discriminate.
Qed.

Print Assumptions C97_checked_partial.
Print Assumptions C97_reported_partial.
Print Assumptions C97_covered_partial.
Print Assumptions C97_checks_entities.
Print Assumptions C97_reports.
Print Assumptions C97_quiet.
Print Assumptions C97_scale_derive_refuted.
Print Assumptions C97_function_refuted.
Print Assumptions C97_impl_refuted.
