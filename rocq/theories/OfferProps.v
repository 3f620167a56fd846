(** C99: what is offered to be added belongs there. *)
From Verif Require Import Base BaseFacts Unicode EditSpec PositionModel VersionModel SyntaxModel AttrModel AttrSpec SuggestModel
  SuggestSpec AttrProofs SuggestProofs TreeModel TreeSpec TreeProofs TreeProps VisitModel VisitSpec VisitProofs VisitProps
  CallableModel OfferModel OfferSpec OfferProofs.
From Coq Require Import Lia.

Section Props.
Variables (U : unicode) (F : facts).
Hypothesis HU : unicode_ok U.
(** Only the implementation of a trait can be that of an ink! trait definition. *)
Hypothesis HF : forall l, fa_td F l = true -> fa_trait F l = true.

Lemma when_In b e x : In x (when b e) <-> b = true /\ x = e.
Proof. unfold when. destruct b; cbn; intuition (auto; discriminate). Qed.
Lemma add_opt_In l e x : In x (add_opt F l e) <-> fa_room F l e = true /\ x = e.
Proof. apply when_In. Qed.
Lemma if_In (b : bool) (l : list new_item) x : In x (if b then l else []) <-> b = true /\ In x l.
Proof. destruct b; cbn; intuition (auto; discriminate). Qed.
Lemma if_not_In (b : bool) (l : list new_item) x : In x (if b then [] else l) <-> b = false /\ In x l.
Proof. destruct b; cbn; intuition (auto; discriminate). Qed.
Lemma v4_eq v : v4 v = true <-> v = V4.
Proof. destruct v; cbn; intuition discriminate. Qed.
Lemma v5_eq v : v5 v = true <-> v = V5.
Proof. destruct v; cbn; intuition discriminate. Qed.

(** In a contract. *)
Theorem C99_contract v place t up e :
  NoDup (map n_id (self_and_below t)) -> n_kind t = MODULE -> (forall c, In c (n_children t) -> n_kind c <> IMPL) ->
  declared (AkMacro MContract) t ->
  In e (item_entities U F v place (t, up)) <->
  offered_in_contract F v place t up e /\ (needs_place e = true -> fa_room F (t, up) e = true).
Proof.
  intros Hnd Hk Hch Hd. unfold item_entities, loc_kind. cbn [fst]. rewrite Hk, (proj2 (has_kind_declared _ _) Hd).
  unfold contract_entities. cbv zeta. rewrite !in_app_iff, if_not_In, if_In, in_app_iff, if_In, !add_opt_In, !when_In, v4_eq, v5_eq.
  assert (Hst : is_some (co_storage (contract_of (fa_td F) (t, up))) = false <->
                forall b n, path t b n -> unannotated b -> ~ declared (AkArg AStorage) n).
  { pose proof (C66_storage (fa_td F) t up) as H. destruct (co_storage (contract_of (fa_td F) (t, up))) as [l|].
    - destruct H as (b & n & before & -> & Hdn & Hun & (after & Ebl) & _). cbn [is_some]. split; [discriminate|].
      intros Hno. exfalso. apply (Hno b n); try assumption. apply below_path. rewrite Ebl. apply in_app_iff. right. left. reflexivity.
    - split; [intros _; exact H | reflexivity]. }
  rewrite Hst.
  assert (Hpl : match place with
                | None => true
                | Some body => body && negb (existsb (fun i => negb (implements_trait F i)) (co_impls (contract_of (fa_td F) (t, up))))
                end = true <-> room_for_callables F place t up).
  { unfold room_for_callables. destruct place as [[]|]; cbn [andb].
    - rewrite negb_true_iff, <- (own_impl_spec F HF t up Hnd Hk Hch). destruct (existsb _ _); split; intros H.
      + discriminate.
      + destruct H as [H|[_ H]]; [discriminate | destruct (H eq_refl)].
      + right. split; [reflexivity | discriminate].
      + reflexivity.
    - split; [discriminate|]. intros [H|[H _]]; discriminate.
    - split; [left; reflexivity | reflexivity]. }
  rewrite Hpl.
  assert (Hw : negb (v5 v) || negb (existsb wildcard_message (co_messages (contract_of (fa_td F) (t, up)))) = true
               <-> (v = V5 -> forall n, contract_message t n -> ~ takes_all n)).
  { rewrite orb_true_iff, !negb_true_iff, no_wildcard.
    assert (Hm : (forall l, In l (co_messages (contract_of (fa_td F) (t, up))) -> ~ takes_all (fst l))
                 <-> forall n, contract_message t n -> ~ takes_all n).
    { cbn [contract_of co_messages]. split.
      - intros H n (b & Hp & Hdn & Hb). apply (H (n, b ++ t :: up)). apply C66_callables; auto. exists b, n. auto.
      - intros H l Hl. apply C66_callables in Hl; auto. destruct Hl as (b & n & -> & Hp & Hdn & Hb).
        apply H. exists b. auto. }
    rewrite Hm. destruct v; cbn [v5]; split; intros H; auto; try (left; reflexivity).
    - intros E. discriminate E.
    - destruct H as [H|H]; [discriminate | auto]. }
  rewrite Hw.
  destruct e; cbn [offered_in_contract needs_place]; split; intros H;
    repeat match type of H with _ \/ _ => destruct H as [H|H] end;
    try (repeat match goal with H : _ /\ _ |- _ => destruct H end; discriminate); intuition (auto; try discriminate).
Qed.

(** In an impl block. *)
Theorem C99_block v place t up e :
  n_kind t = IMPL ->
  (forall p far, contract_around up p far -> NoDup (map n_id (self_and_below p))) ->
  In e (item_entities U F v place (t, up)) <->
  offered_in_block F v t up e /\ fa_room F (t, up) e = true.
Proof.
  intros Hk Hnd. unfold item_entities, loc_kind. cbn [fst]. rewrite Hk. unfold impl_entities. cbv zeta.
  rewrite if_In, in_app_iff, if_In, !add_opt_In, andb_true_iff, negb_true_iff, (ink_parent_up t).
  pose proof (contract_around_spec up) as Hc. unfold offered_in_block, for_callables.
  destruct (fa_trait F (t, up)) eqn:Ef; [intuition discriminate|].
  pose proof (cast_plain F HF t up (fun _ => Ef)) as Hcast.
  set (par := ink_parent (AkMacro MContract) (Nd 0 IMPL (0, 0) None [], up)) in *.
  assert (Hfor : impl_can_cast (fa_td F) (t, up) || is_some par = true <->
    (declared (AkArg AImpl) t \/ (exists b f, path t b f /\ unannotated b /\ OfferSpec.callable f)
     \/ exists p far, contract_around up p far)).
  { rewrite orb_true_iff, Hcast.
    assert (Hp : is_some par = true <-> exists p far, contract_around up p far).
    { destruct par as [[p far]|]; cbn [is_some].
      - split; [intros _; exists p, far; exact Hc | reflexivity].
      - split; [discriminate | intros (p & far & H); destruct (Hc p far H)]. }
    rewrite Hp. intuition. }
  rewrite Hfor.
  assert (Hw : forall b1 b2 : bool,
    (b1 = true <-> exists n, takes_all n /\ exists p far, contract_around up p far /\ contract_message p n) ->
    (b2 = true <-> exists n, takes_all n /\ block_message t n) ->
    (negb (v5 v) || negb (b1 || b2) = true <->
      (v = V5 -> forall n, takes_all n -> ~ block_message t n /\ forall p far, contract_around up p far -> ~ contract_message p n))).
  { intros b1 b2 H1 H2. rewrite orb_true_iff, !negb_true_iff, orb_false_iff. split.
    - intros [H|[E1 E2]] -> n Ht; [discriminate H|]. split.
      + intros Hb. assert (b2 = true) by (apply H2; exists n; auto). congruence.
      + intros p far Hp Hm. assert (b1 = true) by (apply H1; exists n; split; [exact Ht|]; exists p, far; auto). congruence.
    - intros H. destruct v; [left; reflexivity|]. right. specialize (H eq_refl). split.
      + destruct b1; [|reflexivity]. destruct (proj1 H1 eq_refl) as (n & Ht & p & far & Hp & Hm).
        destruct (proj2 (H n Ht) p far Hp Hm).
      + destruct b2; [|reflexivity]. destruct (proj1 H2 eq_refl) as (n & Ht & Hm). destruct (proj1 (H n Ht) Hm). }
  rewrite Hw; clear Hw.
  - destruct e; split; intros H; repeat match type of H with _ \/ _ => destruct H as [H|H] end;
      try (repeat match goal with H : _ /\ _ |- _ => destruct H end; discriminate);
      intuition (auto; try discriminate).
  - destruct par as [[p far]|].
    + rewrite existsb_exists. cbn [contract_of co_messages]. split.
      * intros (l & Hl & Hwl). apply C66_callables in Hl; [|exact (Hnd p far Hc)|auto].
        destruct Hl as (b & n & -> & Hp & Hdn & Hb). apply wildcard_message_spec in Hwl. exists n. split; [exact Hwl|].
        exists p, far. split; [exact Hc|]. exists b. auto.
      * intros (n & Ht & p' & far' & Hp' & b & Hp & Hdn & Hb).
        destruct (contract_around_unique _ _ _ _ _ Hc Hp') as [<- <-].
        exists (n, b ++ p :: far). split; [|apply wildcard_message_spec; exact Ht].
        apply C66_callables; auto. exact (Hnd p far Hc). exists b, n. auto.
    + split; [discriminate|]. intros (n & _ & p & far & Hp & _). destruct (Hc p far Hp).
  - rewrite andb_true_iff, existsb_exists. split.
    + intros (_ & l & Hl & Hwl). apply closest_entities_In in Hl. destruct Hl as (b & n & -> & Hp & Hu & Hdn).
      apply wildcard_message_spec in Hwl. exists n. split; [exact Hwl|]. exists b. auto.
    + intros (n & Ht & b & Hp & Hdn & Hu). split.
      * apply Hcast. right. split; [exact Hk|]. exists b, n. split; [exact Hp|]. split; [exact Hu | right; exact Hdn].
      * exists (n, b ++ t :: up). split; [|apply wildcard_message_spec; exact Ht].
        apply closest_entities_In. exists b, n. auto.
Qed.

Lemma is_a_unique k k' t : is_a k t -> is_a k' t -> k = k'.
Proof.
  intros (a & Ha & <-) (a' & Ha' & <-). apply main_candidate in Ha, Ha'. destruct Ha as (b & E), Ha' as (b' & E').
  congruence.
Qed.
(** In a trait. *)
Theorem C99_trait v place t up e :
  n_kind t = TRAIT ->
  In e (item_entities U F v place (t, up)) <->
  offered_in_trait F v t up e /\ (needs_place e = true -> fa_room F (t, up) e = true).
Proof.
  intros Hk. unfold item_entities, loc_kind. cbn [fst]. rewrite Hk. unfold trait_entities. cbn [fst].
  destruct (primary_candidate (ink_attrs t)) as [[a b]|] eqn:Ep.
  - assert (Ha : is_a (at_kind a) t) by (exists a; split; [apply main_candidate; exists b; exact Ep | reflexivity]).
    assert (Hu : forall k, is_a k t -> at_kind a = k) by (intros k H; exact (is_a_unique _ _ _ Ha H)).
    assert (Hce : is_a (AkMacro MChainExtension) t <-> at_kind a = AkMacro MChainExtension)
      by (split; [intros H; apply Hu; exact H | intros <-; exact Ha]).
    assert (Htd : is_a (AkMacro MTraitDefinition) t <-> at_kind a = AkMacro MTraitDefinition)
      by (split; [intros H; apply Hu; exact H | intros <-; exact Ha]).
    unfold offered_in_trait. 
    destruct (at_kind a) as [[]|[]]; cbn [In];
      try (split; [intros []|]; destruct e; rewrite ?Hce, ?Htd; intuition discriminate).
    + rewrite !in_app_iff, if_not_In, !add_opt_In, when_In, v4_eq. destruct e; cbn [needs_place]; rewrite ?Hce, ?Htd;
        intuition (auto; discriminate).
    + rewrite !in_app_iff, !add_opt_In, when_In, v4_eq. destruct e; cbn [needs_place]; rewrite ?Hce, ?Htd;
        intuition (auto; discriminate).
  - assert (Hno : forall k, ~ is_a k t).
    { intros k (a & Ha & _). apply main_candidate in Ha. destruct Ha as (b & E). congruence. }
    pose proof (Hno (AkMacro MChainExtension)) as H1. pose proof (Hno (AkMacro MTraitDefinition)) as H2.
    split; [intros []|]. intros [H _]. unfold offered_in_trait in H. destruct e; tauto.
Qed.

(** In a struct, and in other data types. *)
Theorem C99_struct v place t up e :
  n_kind t = STRUCT ->
  In e (item_entities U F v place (t, up)) <->
  offered_in_struct v t e /\ (needs_place e = true -> fa_room F (t, up) e = true).
Proof.
  intros Hk. unfold item_entities, loc_kind. cbn [fst]. rewrite Hk. unfold struct_entities. cbn [fst].
  pose proof (has_kind_declared (AkArg AEvent) t) as H1. pose proof (has_kind_declared (AkMacro MEvent) t) as H2.
  pose proof (has_kind_declared (AkMacro MStorageItem) t) as H3. unfold offered_in_struct, is_event.
  destruct (has_kind (AkArg AEvent) t); [|destruct (has_kind (AkMacro MEvent) t)].
  - rewrite in_app_iff, add_opt_In, when_In, v5_eq. destruct e; cbn [needs_place]; intuition (auto; discriminate).
  - rewrite in_app_iff, add_opt_In. cbn [In]. destruct e; cbn [needs_place]; intuition (auto; discriminate).
  - rewrite when_In, andb_true_iff, v4_eq, H3. destruct e; cbn [needs_place]; intuition (auto; discriminate).
Qed.
Theorem C99_data v place t up e :
  n_kind t = ENUM \/ n_kind t = UNION ->
  In e (item_entities U F v place (t, up)) <-> offered_in_data v t e.
Proof.
  intros Hk. unfold item_entities, loc_kind, offered_in_data. cbn [fst].
  destruct Hk as [-> | ->]; rewrite when_In, andb_true_iff, v4_eq, has_kind_declared; tauto.
Qed.

(** In a module that is no contract. *)
Theorem C99_module v place t up e :
  n_kind t = MODULE -> ~ declared (AkMacro MContract) t ->
  In e (item_entities U F v place (t, up)) <-> offered_in_module U F t up e /\ fa_room F (t, up) e = true.
Proof.
  intros Hk Hd. unfold item_entities, loc_kind. cbn [fst]. rewrite Hk.
  destruct (has_kind (AkMacro MContract) t) eqn:E; [apply has_kind_declared in E; contradiction|].
  unfold module_entities. rewrite in_app_iff, !if_In, !add_opt_In, !existsb_exists. unfold offered_in_module. split.
  - intros [[(a & Ha & H) [Hr ->]]|[(a & Ha & H) [Hr ->]]]; (split; [|exact Hr]).
    + apply (cfg_test_spec U HU) in H. destruct H as (p & s & -> & H1 & H2). exists p, s. auto.
    + apply (cfg_e2e_spec U HU) in H. destruct H as (p & s & -> & H1 & H2 & H3). exists p, s. auto.
  - intros [(p & s & Ha & H1 & H2 & He) Hr]. destruct e; try contradiction He.
    + left. split; [|auto]. exists (Some p, Some s). split; [exact Ha|]. apply (cfg_test_spec U HU). exists p, s. auto.
    + right. split; [|auto]. exists (Some p, Some s). split; [exact Ha|]. apply (cfg_e2e_spec U HU). exists p, s. auto.
Qed.

(** Outside of items. *)
Theorem C99_file v t up e :
  In e (root_entities v (t, up)) <-> offered_in_file v t e.
Proof.
  unfold root_entities. rewrite !in_app_iff, !when_In, v4_eq, v5_eq.
  assert (Hc : match fi_contracts (file_of (t, up)) with [] => true | _ => false end = true
               <-> forall b n, path t b n -> unannotated b -> ~ declared (AkMacro MContract) n).
  { cbn [file_of fi_contracts]. split.
    - intros H b n Hp Hu Hd. assert (Hin : In (n, b ++ t :: up) (ink_closest_descendants (AkMacro MContract) (t, up)))
        by (apply closest_entities_In; exists b, n; auto).
      destruct (ink_closest_descendants _ _); [destruct Hin | discriminate].
    - intros H. destruct (ink_closest_descendants _ _) as [|l ls] eqn:E; [reflexivity|]. exfalso.
      assert (Hin : In l (ink_closest_descendants (AkMacro MContract) (t, up))) by (rewrite E; left; reflexivity).
      apply closest_entities_In in Hin. destruct Hin as (b & n & _ & Hp & Hu & Hd). exact (H b n Hp Hu Hd). }
  rewrite Hc. cbn [In]. destruct e; cbn [offered_in_file]; intuition (auto; discriminate).
Qed.

(** Nothing is offered for other items, and nothing twice. *)
Theorem C99_other_items v place t up :
  ~ In (n_kind t) [MODULE; IMPL; TRAIT; STRUCT; ENUM; UNION] -> item_entities U F v place (t, up) = [].
Proof.
  intros H. unfold item_entities, loc_kind. cbn [fst]. destruct (n_kind t); try reflexivity; exfalso; apply H; cbn; tauto.
Qed.
Theorem C99_once v place l : NoDup (item_entities U F v place l) /\ NoDup (root_entities v l).
Proof.
  split.
  - unfold item_entities, contract_entities, module_entities, impl_entities, trait_entities, struct_entities, add_opt, when.
    destruct (loc_kind l); cbv zeta;
      repeat match goal with
             | |- context [if ?c then _ else _] => destruct c
             | |- context [match primary_candidate ?x with _ => _ end] => destruct (primary_candidate x) as [[? ?]|]
             | |- context [match at_kind ?x with _ => _ end] => destruct (at_kind x) as [[]|[]]
             end; cbn; repeat constructor; cbn; intuition discriminate.
  - unfold root_entities, when.
    repeat match goal with |- context [if ?c then _ else _] => destruct c end; cbn; repeat constructor; cbn; intuition discriminate.
Qed.

(** What is added inside an item may stand there (C48, C97), and what is added outside of items in the file. *)
Theorem C99_belongs v place t up e k :
  In e (item_entities U F v place (t, up)) -> new_kind v e = Some k ->
  exists s, counts_as v s t /\ In k (belongs_in v s).
Proof.
  unfold item_entities, loc_kind. cbn [fst]. intros H Hk.
  assert (W : forall s, counts_as v s t -> In k (belongs_in v s) -> exists s, counts_as v s t /\ In k (belongs_in v s))
    by (intros s H1 H2; exists s; auto).
  destruct (n_kind t) eqn:Ekind; try (destruct H; fail).
  - (* module *) destruct (has_kind (AkMacro MContract) t) eqn:Ed.
    + apply (W (AkMacro MContract)); [left; apply has_kind_declared; exact Ed|].
      unfold contract_entities in H. cbv zeta in H.
      rewrite !in_app_iff, if_not_In, if_In, in_app_iff, if_In, !add_opt_In, !when_In in H.
      destruct e; try discriminate Hk; injection Hk as <-;
        solve [ destruct v; vm_compute; tauto
              | exfalso; repeat match type of H with _ \/ _ => destruct H as [H|H] end;
                repeat match goal with H : _ /\ _ |- _ => destruct H | H : _ \/ _ |- _ => destruct H end; discriminate ].
    + unfold module_entities in H. rewrite in_app_iff, !if_In, !add_opt_In in H.
      exfalso. destruct H as [(_ & _ & ->)|(_ & _ & ->)]; discriminate Hk.
  - (* struct *) unfold struct_entities in H. cbn [fst] in H.
    destruct (has_kind (AkArg AEvent) t) eqn:E1; [|destruct (has_kind (AkMacro MEvent) t) eqn:E2].
    + rewrite in_app_iff, add_opt_In, when_In in H. destruct H as [[_ ->]|[_ ->]]; [|discriminate Hk]. injection Hk as <-.
      apply (W (AkArg AEvent)); [left; apply has_kind_declared; exact E1 | left; reflexivity].
    + rewrite in_app_iff, add_opt_In in H. destruct H as [[_ ->]|[<-|[]]]; [|discriminate Hk]. injection Hk as <-.
      apply (W (AkMacro MEvent)); [left; apply has_kind_declared; exact E2 | left; reflexivity].
    + rewrite when_In in H. destruct H as [_ ->]. discriminate Hk.
  - (* enum *) rewrite when_In in H. destruct H as [_ ->]. discriminate Hk.
  - (* union *) rewrite when_In in H. destruct H as [_ ->]. discriminate Hk.
  - (* trait *) unfold trait_entities in H. cbn [fst] in H.
    destruct (primary_candidate (ink_attrs t)) as [[a b]|] eqn:Ep; [|destruct H].
    assert (Hd : declared (at_kind a) t).
    { exists a. split; [|reflexivity]. rewrite <- attrs_of_ink. exact (primary_In _ _ _ Ep). }
    destruct (at_kind a) as [[]|[]] eqn:Ea; try (destruct H; fail).
    + apply (W (AkMacro MChainExtension)); [left; exact Hd|].
      rewrite !in_app_iff, if_not_In, !add_opt_In, when_In in H.
      destruct H as [[_ ->]|[(_ & _ & ->)|[_ ->]]]; try discriminate Hk. injection Hk as <-. destruct v; vm_compute; tauto.
    + apply (W (AkMacro MTraitDefinition)); [left; exact Hd|].
      rewrite !in_app_iff, !add_opt_In, when_In in H.
      destruct H as [[_ ->]|[_ ->]]; try discriminate Hk. injection Hk as <-. destruct v; vm_compute; tauto.
  - (* impl *) apply (W (AkArg AImpl)); [right; left; auto|].
    unfold impl_entities in H. cbv zeta in H. rewrite if_In, in_app_iff, if_In, !add_opt_In in H.
    destruct H as (_ & [[_ ->]|(_ & _ & ->)]); injection Hk as <-; destruct v; vm_compute; tauto.
Qed.
Theorem C99_belongs_in_file v l e k :
  In e (root_entities v l) -> root_kind e = Some k -> In k (in_the_file v).
Proof.
  unfold root_entities. rewrite !in_app_iff, !when_In, v4_eq, v5_eq. cbn [In]. intros H Hk.
  destruct e; try discriminate Hk; injection Hk as <-; try (destruct v; vm_compute; tauto).
  assert (v = V5) as -> by (intuition discriminate). vm_compute; tauto.
Qed.

(** Tests are offered in modules whose predicate is [test] or a conjunction with it, and end-to-end tests if it
    is also a conjunction with the feature. *)
Theorem C99_tests v place t up c :
  n_kind t = MODULE -> ~ declared (AkMacro MContract) t -> In (cfg_attr c) (fa_attrs F (t, up)) -> demands c TEST ->
  (fa_room F (t, up) NTest = true -> In NTest (item_entities U F v place (t, up)))
  /\ (demands c E2E -> fa_room F (t, up) NE2ETest = true -> In NE2ETest (item_entities U F v place (t, up))).
Proof.
  intros Hk Hd Ha Hc.
  assert (Hp : spaced U [lit "cfg"] (lit "cfg")).
  { apply (spaced_word U [] (lit "cfg") [] []); [exact (white_nil U) | apply spaced_end; exact (white_nil U)]. }
  pose proof (demanded_operand U HU [lit "test"] c TEST ltac:(discriminate) (spaced_test U) Hc) as Ht.
  split.
  - intros Hr. apply (C99_module v place t up NTest Hk Hd). split; [|exact Hr].
    exists (lit "cfg"), (lit "(" ++ written c ++ lit ")"). auto.
  - intros He Hr. apply (C99_module v place t up NE2ETest Hk Hd). split; [|exact Hr].
    exists (lit "cfg"), (lit "(" ++ written c ++ lit ")"). split; [exact Ha|]. split; [exact Hp|]. split; [exact Ht|].
    refine (demanded_operand U HU _ c E2E _ (spaced_e2e U HU) He). discriminate.
Qed.
(** In modules whose predicates are conjunctions, tests are only offered if the module is for tests only. *)
Theorem C99_tests_only_partial v place t up e :
  n_kind t = MODULE -> ~ declared (AkMacro MContract) t ->
  (forall p s, In (Some p, Some s) (fa_attrs F (t, up)) -> spaced U [lit "cfg"] p ->
     exists c, conjunction U c /\ (Some p, Some s) = cfg_attr c) ->
  In e (item_entities U F v place (t, up)) ->
  exists c, In (cfg_attr c) (fa_attrs F (t, up)) /\ only_tests c.
Proof.
  intros Hk Hd Ha He. apply (C99_module v place t up e Hk Hd) in He. destruct He as [(p & s & Hin & Hp & Ho & _) _].
  destruct (Ha p s Hin Hp) as (c & Hc & E). exists c. split; [rewrite <- E; exact Hin|].
  apply (conjunction_sound U HU c Hc). injection E as _ ->. exact Ho.
Qed.
(** In general this fails: a test is also offered in a module that is never compiled for tests. *)
Theorem C99_not_test_refuted : exists c,
  (forall options pairs, holds options pairs c = true -> options (lit "test") = false)
  /\ forall v place t up, n_kind t = MODULE -> ~ declared (AkMacro MContract) t ->
       In (cfg_attr c) (fa_attrs F (t, up)) -> fa_room F (t, up) NTest = true ->
       In NTest (item_entities U F v place (t, up)).
Proof.
  exists (CNot TEST). split.
  - intros options pairs H. cbn [holds TEST] in H. apply negb_true_iff. exact H.
  - intros v place t up Hk Hd Ha Hr. apply (C99_module v place t up NTest Hk Hd). split; [|exact Hr].
    exists (lit "cfg"), (lit "(not(test))"). split; [exact Ha|]. split.
    + apply (spaced_word U [] (lit "cfg") [] []); [exact (white_nil U) | apply spaced_end; exact (white_nil U)].
    + split; [|exact I]. exists (lit "(not"), 40%N, (lit "test"), 41%N, (lit ")").
      split; [reflexivity|]. split; [vm_compute; tauto|]. split; [vm_compute; tauto | apply (spaced_test U)].
Qed.
End Props.

(** ** Examples
    The contract of C97, seen with facts about it: room for everything, a test module, no trait implemented. *)
Definition ox_facts : facts :=
  Facts (fun _ => false) (fun _ => false) (fun _ => false)
        (fun l => if loc_id l =? 70 then [(Some (lit "doc"), None); cfg_attr (CAll [TEST; E2E])]
                  else if loc_id l =? 71 then [cfg_attr (CNot TEST)] else [])
        (fun _ _ => true).
Example ox_facts_ok l : fa_td ox_facts l = true -> fa_trait ox_facts l = true.
Proof. discriminate. Qed.
(** Its storage exists; in the body there is a block for constructors and messages; on the declaration both fit. *)
Example ox_contract :
  let at_ v place := item_entities ascii_unicode ox_facts v place (vx_contract, [vx_file]) in
  NoDup (map n_id (self_and_below vx_contract)) /\ n_kind vx_contract = MODULE
  /\ (forall c, In c (n_children vx_contract) -> n_kind c <> IMPL) /\ declared (AkMacro MContract) vx_contract
  /\ at_ V4 None = [NMigrate; NEvent; NConstructor; NMessage]
  /\ at_ V4 (Some true) = [NMigrate; NEvent]
  /\ at_ V5 (Some true) = [NEvent2; NEvent]
  /\ at_ V5 None = [NEvent2; NEvent; NConstructor; NMessage].
Proof.
  cbv zeta. split; [vm_compute; repeat (constructor; [cbn; intuition discriminate|]); constructor|].
  split; [reflexivity|]. split; [intros c [<-|[<-|[]]]; discriminate|].
  split; [apply has_kind_declared; reflexivity|]. repeat split; reflexivity.
Qed.
(** With a message that takes all selectors, no other message is offered in version 5. *)
Definition ox_wild_attr : tree :=
  Nd 37 ATTR (37, 38) (Some (InkAttr (AkArg AMessage)
    [Meta (MOk (0, Tok IDENT (lit "selector"))) (Some (9, Tok EQ (lit "=")))
       (MOk (MValue [(10, Tok UNDERSCORE (lit "_"))] (Some (10, Tok UNDERSCORE (lit "_"))) None)) None 0 None]
    (AttrSyntax [] None (37, 38)) None)) [].
Definition ox_message := Nd 36 FN (36, 39) None [ox_wild_attr].
Definition ox_assoc := Nd 35 ASSOC_ITEM_LIST (35, 40) None [ox_message].
Definition ox_impl := Nd 33 IMPL (33, 41) None [exn (AkArg AImpl) 34; ox_assoc].
Definition ox_items := Nd 13 ITEM_LIST (13, 42) None [ox_impl].
Definition ox_contract_tree := Nd 11 MODULE (11, 43) None [exn (AkMacro MContract) 12; ox_items].
Example ox_wild :
  takes_all ox_message /\ contract_message ox_contract_tree ox_message
  /\ item_entities ascii_unicode ox_facts V5 None (ox_contract_tree, []) = [NStorage; NEvent2; NEvent; NConstructor]
  /\ item_entities ascii_unicode ox_facts V4 None (ox_contract_tree, []) = [NMigrate; NStorage; NEvent; NConstructor; NMessage]
  /\ item_entities ascii_unicode ox_facts V5 None (ox_impl, [ox_items; ox_contract_tree]) = [NConstructor]
  /\ item_entities ascii_unicode ox_facts V4 None (ox_impl, [ox_items; ox_contract_tree]) = [NConstructor; NMessage].
Proof.
  split; [|split; [|repeat split; reflexivity]].
  - eexists. split; [exists [], []; split; [reflexivity | split; [reflexivity | intros y []]]|].
    eexists. split; reflexivity.
  - exists [ox_assoc; ox_impl; ox_items]. split; [apply below_path; vm_compute; tauto|].
    split; [apply has_kind_declared; reflexivity|].
    right. exists [ox_assoc], ox_impl, [ox_items], (snd (exa (AkArg AImpl) 34)). split; [reflexivity|].
    split; [intros x [<-|[]]; reflexivity|]. split; [intros x [<-|[]]; reflexivity|].
    split; [vm_compute; tauto | left; reflexivity].
Qed.
Example ox_others :
  item_entities ascii_unicode ox_facts V4 None (vx_trait, [vx_file]) = [NMigrate; NErrorCode; NExtension]
  /\ item_entities ascii_unicode ox_facts V5 None (vx_event, [vx_items; vx_contract; vx_file]) = [NTopic; NExtract]
  /\ item_entities ascii_unicode ox_facts V5 None (vx_impl, [vx_items; vx_contract; vx_file]) = [NConstructor; NMessage]
  /\ root_entities V4 (vx_file, []) = [NMigrate; NTraitDefinition; NChainExtension; NStorageItem; NEnvironment].
Proof. repeat split; reflexivity. Qed.
(** A module for tests, and one that is never compiled for them. *)
Example ox_tests :
  let mod_ n := (Nd n MODULE (n, 80) None [], [vx_file]) in
  demands (CAll [TEST; E2E]) TEST /\ demands (CAll [TEST; E2E]) E2E /\ conjunction ascii_unicode (CAll [TEST; E2E])
  /\ In (cfg_attr (CAll [TEST; E2E])) (fa_attrs ox_facts (mod_ 70))
  /\ written (CAll [TEST; E2E]) = lit "all(test, feature = ""e2e-tests"")"
  /\ item_entities ascii_unicode ox_facts V5 None (mod_ 70) = [NTest; NE2ETest]
  /\ item_entities ascii_unicode ox_facts V5 None (mod_ 71) = [NTest]
  /\ item_entities ascii_unicode ox_facts V5 None (mod_ 72) = [].
Proof.
  cbv zeta. split; [right; exists [TEST; E2E]; cbn; auto|]. split; [right; exists [TEST; E2E]; cbn; auto|].
  split.
  { assert (P : forall s, forallb (fun x => negb (u_whitespace ascii_unicode x) && negb (existsb (N.eqb x) (lit "(,)"))) s = true ->
                  plain_text ascii_unicode s).
    { intros s H x Hx. rewrite forallb_forall in H. specialize (H x Hx). apply andb_true_iff in H. destruct H as [H1 H2].
      apply negb_true_iff in H1, H2. split; [exact H1|]. intros Hi.
      assert (existsb (N.eqb x) (lit "(,)") = true) by (apply existsb_exists; exists x; split; [exact Hi | apply N.eqb_refl]).
      congruence. }
    apply conj_all. intros c [<-|[<-|[]]]; [apply conj_option | apply conj_pair]; apply P; reflexivity. }
  repeat split; try reflexivity. right. left. reflexivity.
Qed.

Print Assumptions C99_contract.
Print Assumptions C99_block.
Print Assumptions C99_trait.
Print Assumptions C99_struct.
Print Assumptions C99_data.
Print Assumptions C99_module.
Print Assumptions C99_file.
Print Assumptions C99_other_items.
Print Assumptions C99_once.
Print Assumptions C99_belongs.
Print Assumptions C99_belongs_in_file.
Print Assumptions C99_tests.
Print Assumptions C99_tests_only_partial.
Print Assumptions C99_not_test_refuted.
