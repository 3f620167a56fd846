(** Proofs about which checks run where (C97). *)
From Verif Require Import Base BaseFacts PositionModel VersionModel SyntaxModel AttrModel AttrSpec SuggestModel SuggestSpec
  AttrProofs SuggestProofs TreeModel TreeSpec TreeProofs TreeProps VisitModel VisitSpec.
From Coq Require Import Lia.

Lemma is_a_declared k n : is_a k n -> declared k n.
Proof.
  intros (a & (l1 & l2 & E & _) & Hk). exists a. split; [|exact Hk].
  assert (H : In a (filter is_known (attrs_of n))) by (rewrite E; apply in_app_iff; right; left; reflexivity).
  apply filter_In in H. apply H.
Qed.
Lemma declared_annotated k n : declared k n -> annotated n = true.
Proof. intros (a & Ha & _). apply annotated_spec. exists a. exact Ha. Qed.

Lemma in_place_path v t b n k : in_place v t b n k -> path t b n.
Proof.
  intros H. induction H as [b n k Hp|outer p s b n k _ IH Hp]; [exact Hp|]. exact (path_trans _ _ _ _ _ IH Hp).
Qed.
Lemma in_place_is v t b n k : in_place v t b n k -> is_a k n.
Proof. intros H. destruct H; assumption. Qed.
Lemma in_place_cases v t b n k :
  in_place v t b n k ->
  (In k (in_the_file v) /\ unannotated b)
  \/ exists outer p s b', b = b' ++ p :: outer /\ in_place v t outer p s /\ path p b' n /\ unannotated b'
       /\ In k (belongs_in v s).
Proof.
  intros H. destruct H as [b n k Hp Hu Hk Hin|outer p s b n k Ho Hp Hu Hk Hin]; [left; auto|].
  right. exists outer, p, s, b. auto.
Qed.

Ltac kinds H := match type of H with In _ (?f ?v ?s) => destruct v, s as [[]|[]]; vm_compute in H; intuition discriminate end.

Lemma place_contract v t b n : in_place v t b n (AkMacro MContract) -> unannotated b.
Proof.
  intros H. apply in_place_cases in H. destruct H as [[_ H]|(outer & p & s & b' & _ & _ & _ & _ & H)]; [exact H|].
  exfalso. kinds H.
Qed.
Lemma place_peek v t b n k :
  In k [AkMacro MTraitDefinition; AkMacro MChainExtension; AkMacro MEvent; AkMacro MStorageItem] ->
  in_place v t b n k -> only_behind contract_like b.
Proof.
  intros Hk H. apply in_place_cases in H. destruct H as [[_ H]|(outer & p & s & b' & -> & Ho & _ & Hu & H)]; [left; exact H|].
  assert (Hs : s = AkMacro MContract).
  { destruct Hk as [<-|[<-|[<-|[<-|[]]]]]; destruct v, s as [[]|[]]; vm_compute in H; intuition discriminate. }
  subst s. pose proof (place_contract _ _ _ _ Ho) as Huo. destruct (is_a_declared _ _ (in_place_is _ _ _ _ _ Ho)) as (a & Ha & Ek).
  right. exists b', p, outer, a. split; [reflexivity|]. auto.
Qed.
Lemma place_in_contract v t b n k :
  In k [AkArg AStorage; AkArg AEvent; AkArg AImpl] -> in_place v t b n k ->
  exists outer c b', b = b' ++ c :: outer /\ in_place v t outer c (AkMacro MContract) /\ path c b' n /\ unannotated b'.
Proof.
  intros Hk H. apply in_place_cases in H. destruct H as [[H _]|(outer & p & s & b' & -> & Ho & Hp & Hu & H)].
  - exfalso. destruct Hk as [<-|[<-|[<-|[]]]]; destruct v; vm_compute in H; intuition discriminate.
  - assert (Hs : s = AkMacro MContract).
    { destruct Hk as [<-|[<-|[<-|[]]]]; destruct v, s as [[]|[]]; vm_compute in H; intuition discriminate. }
    subst s. exists outer, p, b'. auto.
Qed.
Lemma place_test v t b n k :
  In k [AkMacro MTest; AkMacro ME2ETest] -> in_place v t b n k ->
  unannotated b
  \/ exists outer c b', b = b' ++ c :: outer /\ in_place v t outer c (AkMacro MContract) /\ path c b' n /\ unannotated b'.
Proof.
  intros Hk H. apply in_place_cases in H. destruct H as [[_ H]|(outer & p & s & b' & -> & Ho & Hp & Hu & H)]; [left; exact H|].
  right. assert (Hs : s = AkMacro MContract).
  { destruct Hk as [<-|[<-|[]]]; destruct v, s as [[]|[]]; vm_compute in H; intuition discriminate. }
  subst s. exists outer, p, b'. auto.
Qed.
Lemma place_callable v t b n k :
  In k [AkArg AConstructor; AkArg AMessage] -> in_place v t b n k ->
  (exists outer c b', b = b' ++ c :: outer /\ in_place v t outer c (AkMacro MContract) /\ path c b' n /\ only_behind impl_like b')
  \/ (k = AkArg AMessage /\ exists outer p b', b = b' ++ p :: outer /\ in_place v t outer p (AkMacro MTraitDefinition)
        /\ path p b' n /\ unannotated b').
Proof.
  intros Hk H. apply in_place_cases in H. destruct H as [[H _]|(outer & p & s & b' & -> & Ho & Hp & Hu & H)].
  { exfalso. destruct Hk as [<-|[<-|[]]]; destruct v; vm_compute in H; intuition discriminate. }
  assert (Hs : s = AkMacro MContract \/ s = AkArg AImpl \/ (k = AkArg AMessage /\ s = AkMacro MTraitDefinition)).
  { destruct Hk as [<-|[<-|[]]]; destruct v, s as [[]|[]]; vm_compute in H; intuition (try discriminate). }
  destruct Hs as [->|[->|[-> ->]]].
  - left. exists outer, p, b'. split; [reflexivity|]. split; [exact Ho|]. split; [exact Hp|]. left. exact Hu.
  - left. destruct (is_a_declared _ _ (in_place_is _ _ _ _ _ Ho)) as (a & Ha & Ek).
    apply place_in_contract in Ho; [|simpl; auto]. destruct Ho as (outer' & c & b2 & -> & Hc & Hpc & Hu2).
    exists outer', c, (b' ++ p :: b2). split; [rewrite <- app_assoc; reflexivity|]. split; [exact Hc|].
    split; [exact (path_trans _ _ _ _ _ Hpc Hp)|]. right. exists b', p, b2, a. split; [reflexivity|].
    split; [exact Hu|]. split; [exact Hu2|]. split; [exact Ha|]. left. exact Ek.
  - right. split; [reflexivity|]. exists outer, p, b'. auto.
Qed.
Lemma place_topic v t b n :
  in_place v t b n (AkArg ATopic) ->
  exists outer p b' s, b = b' ++ p :: outer /\ (s = AkArg AEvent \/ s = AkMacro MEvent) /\ in_place v t outer p s
    /\ path p b' n /\ unannotated b'.
Proof.
  intros H. apply in_place_cases in H. destruct H as [[H _]|(outer & p & s & b' & -> & Ho & Hp & Hu & H)].
  { exfalso. destruct v; vm_compute in H; intuition discriminate. }
  exists outer, p, b', s. split; [reflexivity|]. split; [|auto].
  destruct v, s as [[]|[]]; vm_compute in H; intuition (try discriminate).
Qed.
Lemma place_extension v t b n k :
  In k [AkArg AExtension; AkArg AFunction] -> in_place v t b n k ->
  k = extension_kind v
  /\ exists outer p b', b = b' ++ p :: outer /\ in_place v t outer p (AkMacro MChainExtension) /\ path p b' n /\ unannotated b'.
Proof.
  intros Hk H. apply in_place_cases in H. destruct H as [[H _]|(outer & p & s & b' & -> & Ho & Hp & Hu & H)].
  { exfalso. destruct Hk as [<-|[<-|[]]]; destruct v; vm_compute in H; intuition discriminate. }
  assert (Hs : k = extension_kind v /\ s = AkMacro MChainExtension).
  { destruct Hk as [<-|[<-|[]]]; destruct v, s as [[]|[]]; vm_compute in H; intuition (try discriminate). }
  destruct Hs as [-> ->]. split; [reflexivity|]. exists outer, p, b'. auto.
Qed.

(** Where the lists of checks are in the whole. *)
Lemma checks_contract v td l c x :
  In c (fi_contracts (file_of l)) -> In x (contract_checks td c) -> In x (checks v td l).
Proof. intros Hc Hx. unfold checks. apply in_app_iff. left. apply in_flat_map. exists c. auto. Qed.
Lemma checks_event v td l c x :
  In c (fi_events_v2 (file_of l)) -> In x (event_checks (AkMacro MEvent) c) -> In x (checks v td l).
Proof. intros Hc Hx. unfold checks. apply in_app_iff. right. apply in_app_iff. left. apply in_flat_map. exists c. auto. Qed.
Lemma checks_trait v td l c x :
  In c (fi_trait_definitions (file_of l)) -> In x (trait_definition_checks c) -> In x (checks v td l).
Proof.
  intros Hc Hx. unfold checks. do 2 (apply in_app_iff; right). apply in_app_iff. left. apply in_flat_map. exists c. auto.
Qed.
Lemma checks_chain v td l c x :
  In c (fi_chain_extensions (file_of l)) -> In x (chain_extension_checks v c) -> In x (checks v td l).
Proof.
  intros Hc Hx. unfold checks. do 3 (apply in_app_iff; right). apply in_app_iff. left. apply in_flat_map. exists c. auto.
Qed.

(** ** Subtrees *)
Lemma nodup_app_l {A} (l1 l2 : list A) : NoDup (l1 ++ l2) -> NoDup l1.
Proof.
  induction l1 as [|x l1 IH]; intros H; [constructor|]. simpl in H. apply NoDup_cons_iff in H. destruct H as [Hx H].
  constructor; [|exact (IH H)]. intros Hin. apply Hx. apply in_app_iff. left. exact Hin.
Qed.
Lemma nodup_app_r {A} (l1 l2 : list A) : NoDup (l1 ++ l2) -> NoDup l2.
Proof. induction l1 as [|x l1 IH]; intros H; [exact H|]. simpl in H. apply NoDup_cons_iff in H. apply IH. apply H. Qed.
Lemma nodup_child t c :
  NoDup (map n_id (self_and_below t)) -> In c (n_children t) -> NoDup (map n_id (self_and_below c)).
Proof.
  intros H Hc. unfold self_and_below in *. simpl in H. apply NoDup_cons_iff in H. destruct H as [_ H].
  rewrite below_children in H. apply in_split in Hc. destruct Hc as (l1 & l2 & E).
  rewrite E, flat_map_app in H. cbn [flat_map] in H. rewrite !map_app in H.
  apply nodup_app_r in H. change (map n_id (map snd (([], c) :: map (fun x => (fst x ++ [c], snd x)) (below c)))) with (n_id c :: map n_id (map snd (map (fun x => (fst x ++ [c], snd x)) (below c)))) in H.
  apply nodup_app_l in H.
  simpl in H. rewrite !map_map in H. cbn [snd] in H. simpl. rewrite map_map. exact H.
Qed.
Lemma nodup_path t b n : NoDup (map n_id (self_and_below t)) -> path t b n -> NoDup (map n_id (self_and_below n)).
Proof.
  intros H Hp. induction Hp as [c Hc|b m c _ IH Hc]; [exact (nodup_child _ _ H Hc) | exact (nodup_child _ _ IH Hc)].
Qed.
Lemma well_formed_path t b n : well_formed t -> path t b n -> well_formed n.
Proof.
  intros [H1 H2] Hp. split; [exact (all_ok_path _ _ _ H1 Hp) | exact (nodup_path _ _ _ H2 Hp)].
Qed.

(** ** impl blocks, from the file *)
Definition valid_loc (t : tree) (l : loc) : Prop := exists b n, l = (n, b ++ [t]) /\ path t b n.
Lemma valid_child t b c b' n : path t b c -> path c b' n -> valid_loc t (n, b' ++ c :: b ++ [t]).
Proof.
  intros H1 H2. exists (b' ++ c :: b), n. split; [rewrite <- app_assoc; reflexivity | exact (path_trans _ _ _ _ _ H1 H2)].
Qed.
Lemma valid_parent t l p : n_kind t = SOURCE_FILE -> valid_loc t l -> parent_ast_item l = Some p -> valid_loc t p.
Proof.
  intros Ht (b & n & -> & Hp) H. unfold parent_ast_item in H. cbn [snd] in H.
  pose proof (nearest_item_spec (b ++ [t])) as Hs. rewrite H in Hs. destruct p as [p far].
  destruct Hs as (near & E & _ & Hi). destruct (split_tail _ _ _ _ _ _ E) as [(c & -> & ->)|(c & ->)].
  - apply path_split in Hp. exists c, p. split; [reflexivity | apply Hp].
  - rewrite <- app_assoc in E. apply app_inv_head in E. destruct c as [|x c]; [|destruct c; discriminate].
    injection E as <- _. rewrite Ht in Hi. discriminate.
Qed.
Definition impl_candidates (l : loc) : list loc :=
  filter (fun c => skind_eqb (loc_kind c) IMPL) (loc_children l)
  ++ filter_map (fun f => if possible_callable_ancestor f then attr_item f
                          else if is_callable f then parent_impl_item (fst f)
                          else None)
       (ink_attrs_closest_descendants l).
Lemma impl_candidates_valid t b c x :
  n_kind t = SOURCE_FILE -> path t b c -> In x (impl_candidates (c, b ++ [t])) -> valid_loc t x.
Proof.
  intros Ht Hc H. unfold impl_candidates in H. apply in_app_iff in H. destruct H as [H|H].
  - apply filter_In in H. destruct H as [H _]. unfold loc_children in H. apply in_map_iff in H.
    destruct H as (d & <- & Hd). cbn [fst snd] in *. apply (valid_child t b c [] d Hc). apply path_child. exact Hd.
  - apply filter_map_In in H. destruct H as ([l a] & Hx & H). apply closest_In in Hx.
    destruct Hx as (b' & n & -> & Hp & _ & _). pose proof (valid_child _ _ _ _ _ Hc Hp) as Hv.
    match type of H with (if ?e then _ else _) = _ => destruct e end.
    + unfold attr_item in H. cbn [fst] in H. destruct (is_item _); [|discriminate]. injection H as <-. exact Hv.
    + match type of H with (if ?e then _ else _) = _ => destruct e end; [|discriminate].
      unfold parent_impl_item in H. cbn [fst] in H. destruct (loc_kind _); try discriminate.
      destruct (parent_ast_item _) as [p|] eqn:Ep; [|discriminate].
      destruct (loc_kind p); try discriminate. injection H as <-. exact (valid_parent _ _ _ Ht Hv Ep).
Qed.
Lemma impls_In td t b c x :
  well_formed t -> n_kind t = SOURCE_FILE -> path t b c ->
  (In x (ink_impls td (c, b ++ [t])) <-> In x (impl_candidates (c, b ++ [t])) /\ impl_can_cast td x = true).
Proof.
  intros [_ Hnd] Ht Hc. unfold ink_impls. fold (impl_candidates (c, b ++ [t])).
  rewrite (unique_loc_In t [] _ x Hnd); [apply filter_In|].
  intros y Hy. apply filter_In in Hy. destruct Hy as [Hy _]. exact (impl_candidates_valid _ _ _ _ Ht Hc Hy).
Qed.

(** ** Everything in its place is checked *)
Lemma in_check_all k l ls : In l ls -> In (k, l) (check_all k ls).
Proof. intros H. unfold check_all. apply in_map. exact H. Qed.
Lemma in_trait_fns p far items n :
  method_in (items :: p :: far) n -> In n (n_children items) -> forall up,
  In (n, items :: p :: up) (trait_fns (p, up)).
Proof.
  intros (i' & p' & o' & E & _ & _ & Hp & Hi & Hn & before & after & Ec & Hb) Hin up. injection E as <- <- <-.
  unfold trait_fns, loc_kind. cbn [fst]. rewrite Hp. unfold loc_children. cbn [fst snd]. rewrite Ec, map_app.
  assert (Ef : find (fun c : loc => skind_eqb (n_kind (fst c)) ASSOC_ITEM_LIST)
                 (map (fun c => (c, p :: up)) before ++ map (fun c => (c, p :: up)) (items :: after))
               = Some (items, p :: up)).
  { clear Ec. induction before as [|x before IH].
    - cbn [map app find fst]. rewrite Hi. reflexivity.
    - cbn [map app find fst]. destruct (skind_eqb (n_kind x) ASSOC_ITEM_LIST) eqn:Ex.
      + apply skind_eqb_eq in Ex. exfalso. exact (Hb x (or_introl eq_refl) Ex).
      + apply IH. intros c Hc. apply Hb. right. exact Hc. }
  rewrite Ef. apply filter_In. cbn [fst snd]. rewrite Hn. split; [|reflexivity].
  apply in_map_iff. exists n. auto.
Qed.
Lemma in_place_checked v td t b n k :
  well_formed t -> n_kind t = SOURCE_FILE -> in_place v t b n k -> k <> AkMacro MScaleDerive -> seen b n k ->
  In (k, (n, b ++ [t])) (checks v td (t, [])).
Proof.
  intros Hwf Hroot H Hne [Himpl Hfun]. pose proof (wf_ids _ Hwf) as Hnd.
  pose proof (is_a_declared _ _ (in_place_is _ _ _ _ _ H)) as Hd. pose proof (in_place_path _ _ _ _ _ H) as Hpath.
  assert (Hcontract : forall outer c, in_place v t outer c (AkMacro MContract) ->
            In (c, outer ++ [t]) (fi_contracts (file_of (t, [])))).
  { intros outer c Hc. unfold file_of. cbn [fi_contracts]. apply C66_closest_entities. exists outer, c.
    split; [reflexivity|]. split; [exact (in_place_path _ _ _ _ _ Hc)|]. split; [exact (place_contract _ _ _ _ Hc)|].
    exact (is_a_declared _ _ (in_place_is _ _ _ _ _ Hc)). }
  assert (Hpeek : forall s outer p, In s [AkMacro MTraitDefinition; AkMacro MChainExtension; AkMacro MEvent; AkMacro MStorageItem] ->
            in_place v t outer p s -> In (p, outer ++ [t]) (peek_descendants s peek_contract (t, []))).
  { intros s outer p Hs Hp. apply C66_file_entities; [exact Hnd | intros ->; simpl in Hs; intuition discriminate |].
    exists outer, p. split; [reflexivity|]. split; [exact (in_place_path _ _ _ _ _ Hp)|].
    split; [exact (is_a_declared _ _ (in_place_is _ _ _ _ _ Hp)) | exact (place_peek _ _ _ _ _ Hs Hp)]. }
  assert (Hclosest : forall outer c b' k', path c b' n -> unannotated b' -> declared k' n ->
            In (n, b' ++ c :: outer ++ [t]) (ink_closest_descendants k' (c, outer ++ [t]))).
  { intros outer c b' k' Hp Hu Hdk. apply C66_closest_entities. exists b', n. auto. }
  assert (Hin_c : forall k' outer c b', b = b' ++ c :: outer -> in_place v t outer c (AkMacro MContract) ->
            In (k', (n, b' ++ c :: outer ++ [t])) (contract_checks td (c, outer ++ [t])) ->
            In (k', (n, b ++ [t])) (checks v td (t, []))).
  { intros k' outer c b' -> Hc Hx. apply (checks_contract _ _ _ _ _ (Hcontract _ _ Hc)).
    rewrite <- app_assoc. exact Hx. }
  assert (Hkind : In k (in_the_file v) \/ exists s, In k (belongs_in v s)).
  { apply in_place_cases in H. destruct H as [[H _]|(? & ? & s & ? & _ & _ & _ & _ & H)]; eauto. }
  destruct k as [m|a].
  - destruct m; try congruence.
    + (* chain extension *) eapply checks_chain; [|left; reflexivity]. apply (Hpeek (AkMacro MChainExtension)); [simpl; auto | exact H].
    + (* contract *) eapply checks_contract; [|left; reflexivity]. apply Hcontract. exact H.
    + (* event *) eapply checks_event; [|left; reflexivity]. apply (Hpeek (AkMacro MEvent)); [simpl; auto | exact H].
    + (* storage item *) unfold checks. do 4 (apply in_app_iff; right). apply in_app_iff. left. apply in_check_all.
      apply (Hpeek (AkMacro MStorageItem)); [simpl; auto | exact H].
    + (* test *) destruct (place_test _ _ _ _ _ (or_introl eq_refl) H) as [Hu|(outer & c & b' & Eb & Hc & Hp & Hu)].
      * unfold checks. do 5 (apply in_app_iff; right). apply in_app_iff. left. apply in_check_all.
        apply C66_closest_entities. exists b, n. auto.
      * apply (Hin_c _ _ _ _ Eb Hc). unfold contract_checks. right. do 5 (apply in_app_iff; right). apply in_app_iff. left.
        apply in_check_all. apply Hclosest; assumption.
    + (* trait definition *) eapply checks_trait; [|left; reflexivity]. apply (Hpeek (AkMacro MTraitDefinition)); [simpl; auto | exact H].
    + (* e2e test *) destruct (place_test _ _ _ _ _ (or_intror (or_introl eq_refl)) H) as [Hu|(outer & c & b' & Eb & Hc & Hp & Hu)].
      * unfold checks. do 6 (apply in_app_iff; right). apply in_check_all.
        apply C66_closest_entities. exists b, n. auto.
      * apply (Hin_c _ _ _ _ Eb Hc). unfold contract_checks. right. do 6 (apply in_app_iff; right).
        apply in_check_all. apply Hclosest; assumption.
    + exfalso. destruct Hkind as [Hk|[s Hk]].
      * destruct v; vm_compute in Hk; intuition discriminate.
      * kinds Hk.
  - assert (Ha : In a [AConstructor; AEvent; AExtension; AFunction; AImpl; AMessage; AStorage; ATopic]).
    { destruct Hkind as [Hk|[s Hk]].
      - destruct a, v; vm_compute in Hk |- *; intuition (try discriminate).
      - destruct v, s as [[]|[]]; vm_compute in Hk; repeat match type of Hk with _ \/ _ => destruct Hk as [Hk|Hk] end; try contradiction; try discriminate;
          injection Hk as <-; simpl; tauto. }
    assert (Hcall : forall k', k' = AkArg AConstructor \/ k' = AkArg AMessage ->
              forall outer c b', in_place v t outer c (AkMacro MContract) -> path c b' n -> only_behind impl_like b' ->
              declared k' n -> In (n, b' ++ c :: outer ++ [t]) (ink_callables k' (c, outer ++ [t]))).
    { intros k' Hk' outer c b' Hc Hp Hb Hdk. apply C66_callables; [|exact Hk'|].
      - exact (nodup_path _ _ _ Hnd (in_place_path _ _ _ _ _ Hc)).
      - exists b', n. auto. }
    destruct Ha as [<-|[<-|[<-|[<-|[<-|[<-|[<-|[<-|[]]]]]]]]].
    + (* constructor *) destruct (place_callable _ _ _ _ _ (or_introl eq_refl) H) as [(outer & c & b' & Eb & Hc & Hp & Hb)|[E _]]; [|discriminate].
      apply (Hin_c _ _ _ _ Eb Hc). unfold contract_checks. right. do 3 (apply in_app_iff; right). apply in_app_iff. left.
      apply in_check_all. apply Hcall; auto.
    + (* event *) destruct (place_in_contract _ _ _ _ (AkArg AEvent) ltac:(simpl; auto) H) as (outer & c & b' & Eb & Hc & Hp & Hu).
      apply (Hin_c _ _ _ _ Eb Hc). unfold contract_checks. right. apply in_app_iff. right. apply in_app_iff. left.
      apply in_flat_map. exists (n, b' ++ c :: outer ++ [t]). split; [apply Hclosest; assumption | left; reflexivity].
    + (* extension *) destruct (place_extension _ _ _ _ (AkArg AExtension) ltac:(simpl; auto) H) as [Ek (outer & p & b' & Eb & Hc & Hp & Hu)].
      apply (checks_chain _ _ _ (p, outer ++ [t])); [apply (Hpeek (AkMacro MChainExtension)); [simpl; auto | exact Hc]|].
      unfold chain_extension_checks. right. apply in_app_iff. right. rewrite <- Ek. apply in_check_all.
      rewrite Eb, <- app_assoc. apply Hclosest; assumption.
    + (* function *) destruct (place_extension _ _ _ _ (AkArg AFunction) ltac:(simpl; auto) H) as [Ek (outer & p & b' & Eb & Hc & Hp & Hu)].
      apply (checks_chain _ _ _ (p, outer ++ [t])); [apply (Hpeek (AkMacro MChainExtension)); [simpl; auto | exact Hc]|].
      unfold chain_extension_checks. right. apply in_app_iff. left. rewrite <- Ek. apply in_check_all.
      pose proof (Hfun eq_refl) as Hm. destruct Hm as (items & p' & o' & Eb' & Hi1 & Hp1 & Hm).
      assert (Hpa : annotated p = true) by exact (declared_annotated _ _ (is_a_declared _ _ (in_place_is _ _ _ _ _ Hc))).
      assert (Eq : b' = [items] /\ p' = p /\ o' = outer).
      { rewrite Eb' in Eb. destruct b' as [|x b']; [injection Eb as <- _; congruence|].
        injection Eb as <- Eb. destruct b' as [|y b']; [injection Eb as <- <-; auto|].
        injection Eb as <- Eb. exfalso. specialize (Hu p' ltac:(simpl; auto)). congruence. }
      destruct Eq as (-> & -> & ->). unfold trait_entities. apply filter_In. split.
      * rewrite Eb. cbn [app]. apply (in_trait_fns p outer items n).
        -- exists items, p, outer. auto.
        -- inversion Hp; subst. assumption.
      * apply has_kind_declared. exact Hd.
    + (* impl *) destruct (place_in_contract _ _ _ _ (AkArg AImpl) ltac:(simpl; auto) H) as (outer & c & b' & Eb & Hc & Hp & Hu).
      apply (Hin_c _ _ _ _ Eb Hc). unfold contract_checks. right. do 2 (apply in_app_iff; right). apply in_app_iff. left.
      apply in_check_all. unfold contract_of. cbn [co_impls].
      apply (impls_In td t outer c); [exact Hwf | exact Hroot | exact (in_place_path _ _ _ _ _ Hc)|]. split.
      * unfold impl_candidates. apply in_app_iff. right. apply filter_map_In. destruct Hd as (x & Hx & Ex).
        exists ((n, b' ++ c :: outer ++ [t]), x). split; [apply closest_In; exists b', n; auto|].
        assert (Ep : possible_callable_ancestor (n, b' ++ c :: outer ++ [t], x) = true).
        { unfold possible_callable_ancestor. cbn [snd]. rewrite Ex. reflexivity. }
        rewrite Ep. unfold attr_item, loc_kind. cbn [fst]. rewrite (Himpl eq_refl). reflexivity.
      * unfold impl_can_cast. apply orb_true_iff. left. apply has_kind_declared. exact Hd.
    + (* message *) destruct (place_callable _ _ _ _ (AkArg AMessage) ltac:(simpl; auto) H) as [(outer & c & b' & Eb & Hc & Hp & Hb)|[_ (outer & p & b' & Eb & Hc & Hp & Hu)]].
      * apply (Hin_c _ _ _ _ Eb Hc). unfold contract_checks. right. do 4 (apply in_app_iff; right). apply in_app_iff. left.
        apply in_check_all. apply Hcall; auto.
      * apply (checks_trait _ _ _ (p, outer ++ [t])); [apply (Hpeek (AkMacro MTraitDefinition)); [simpl; auto | exact Hc]|].
        unfold trait_definition_checks. right. apply in_app_iff. right. apply in_check_all.
        rewrite Eb, <- app_assoc. apply Hclosest; assumption.
    + (* storage *) destruct (place_in_contract _ _ _ _ (AkArg AStorage) ltac:(simpl; auto) H) as (outer & c & b' & Eb & Hc & Hp & Hu).
      apply (Hin_c _ _ _ _ Eb Hc). unfold contract_checks. right. apply in_app_iff. left. apply in_check_all. apply Hclosest; assumption.
    + (* topic *) destruct (place_topic _ _ _ _ H) as (outer & p & b' & s & Eb & Hs & Hc & Hp & Hu).
      assert (Ht : In (AkArg ATopic, (n, b ++ [t])) (event_checks s (p, outer ++ [t]))).
      { unfold event_checks. right. apply in_check_all. rewrite Eb, <- app_assoc. apply Hclosest; assumption. }
      destruct Hs as [-> | ->].
      * destruct (place_in_contract _ _ _ _ (AkArg AEvent) ltac:(simpl; auto) Hc) as (outer' & c & b2 & Eo & Hcc & Hpc & Hu2).
        apply (checks_contract _ _ _ _ _ (Hcontract _ _ Hcc)). unfold contract_checks. right. apply in_app_iff. right.
        apply in_app_iff. left. apply in_flat_map. exists (p, outer ++ [t]). split; [|exact Ht].
        rewrite Eo, <- app_assoc. apply C66_closest_entities. exists b2, p.
        split; [reflexivity|]. split; [exact Hpc|]. split; [exact Hu2|]. exact (is_a_declared _ _ (in_place_is _ _ _ _ _ Hc)).
      * apply (checks_event _ _ _ (p, outer ++ [t])); [apply (Hpeek (AkMacro MEvent)); [simpl; auto | exact Hc] | exact Ht].
Qed.

(** ** What is not in its place is reported *)
Lemma nearest_annotated b :
  unannotated b \/ exists near p far, b = near ++ p :: far /\ unannotated near /\ annotated p = true.
Proof.
  induction b as [|x b IH]; [left; intros m []|]. destruct (annotated x) eqn:E.
  - right. exists [], x, b. split; [reflexivity|]. split; [intros m [] | exact E].
  - destruct IH as [IH|(near & p & far & -> & Hn & Hp)].
    + left. intros m [<-|Hm]; auto.
    + right. exists (x :: near), p, far. split; [reflexivity|]. split; [|exact Hp]. intros m [<-|Hm]; auto.
Qed.
Lemma main_known l a : main_attr l a -> is_known a = true /\ In a l.
Proof.
  intros (l1 & l2 & E & _).
  assert (H : In a (filter is_known l)) by (rewrite E; apply in_app_iff; right; left; reflexivity).
  apply filter_In in H. destruct H. auto.
Qed.
Lemma main_unique l a a' : main_attr l a -> main_attr l a' -> at_kind a = at_kind a'.
Proof.
  intros (l1 & l2 & E & H1 & H2) (l1' & l2' & E' & H1' & H2'). rewrite E in E'.
  assert (C : (exists m, l1' = l1 ++ a :: m /\ l2 = m ++ a' :: l2') \/ (l1 = l1' /\ a = a' /\ l2 = l2')
              \/ (exists m, l1 = l1' ++ a' :: m /\ l2' = m ++ a :: l2)).
  { clear - E'. revert l1' E'. induction l1 as [|x l1 IH]; intros [|y l1'] E'; simpl in E'.
    - injection E' as <- <-. right. left. auto.
    - injection E' as <- ->. left. exists l1'. auto.
    - injection E' as -> <-. right. right. exists l1. auto.
    - injection E' as <- E'. destruct (IH _ E') as [(m & -> & ->)|[(-> & -> & ->)|(m & -> & ->)]].
      + left. exists m. auto.
      + right. left. auto.
      + right. right. exists m. auto. }
  destruct C as [(m & -> & ->)|[(_ & -> & _)|(m & -> & ->)]]; [|reflexivity|].
  - exfalso. apply (H2 a'); [apply in_app_iff; right; left; reflexivity|]. apply H1'. apply in_app_iff. right. left. reflexivity.
  - exfalso. apply (H2' a); [apply in_app_iff; right; left; reflexivity|]. apply H1. apply in_app_iff. right. left. reflexivity.
Qed.
Lemma is_a_unique k k' n : is_a k n -> is_a k' n -> k = k'.
Proof. intros (a & Ha & <-) (a' & Ha' & <-). exact (main_unique _ _ _ Ha Ha'). Qed.

Lemma declares_cases v s :
  declares v s -> s <> AkMacro MScaleDerive ->
  In s (checked_scopes v) \/ In s [AkArg AStorage; AkArg ATopic; AkMacro MStorageItem] \/ In s [AkArg AEvent; AkMacro MEvent].
Proof.
  intros [o H] Hne. destruct s as [[]|[]], v; try discriminate H; try congruence; vm_compute; tauto.
Qed.
Lemma checked_out v s l : In s (checked_scopes v) -> out_of_place v (s, l) = map report_attr (ensure_scope s v l).
Proof.
  intros H. unfold out_of_place. cbn [fst snd].
  destruct v, s as [[]|[]]; vm_compute in H; try reflexivity; exfalso; intuition discriminate.
Qed.
Lemma scope_complete v s p up b n a :
  well_formed p -> declares v s -> s <> AkMacro MScaleDerive ->
  path p b n -> unannotated b -> main_attr (attrs_of n) a -> declares v (at_kind a) ->
  (forall x, In x (attrs_of n) -> at_kind x <> AkMacro MUnknown) ->
  In (at_kind a) (belongs_in v s) \/ In a (out_of_place v (s, (p, up))).
Proof.
  intros Hwf Hs Hne Hp Hu Hm Hd Hx. destruct (main_known _ _ Hm) as [Hk Ha].
  destruct (declares_cases v s Hs Hne) as [Hc|[Hc|Hc]].
  - assert (Eb : belongs_in v s = inside v s).
    { destruct v, s as [[]|[]]; vm_compute in Hc; try reflexivity; exfalso; intuition discriminate. }
    rewrite Eb, (checked_out v s _ Hc).
    destruct (in_dec kind_eq_dec (at_kind a) (inside v s)) as [Hi|Hi]; [left; exact Hi|]. right.
    destruct (container_cases v s Hc) as [[Hco _]|[Hco _]].
    + change a with (report_attr (RInvalidScope a (removable_item n (b ++ p :: up)))). apply in_map.
      apply C48_complete_partial; assumption.
    + change a with (report_attr (RNotAllowed a (removable_item n (b ++ p :: up)))). apply in_map.
      apply C48_no_descendants; [assumption..|]. exists b, n, a. split; [reflexivity|]. split; [exact Hp|].
      split; [exact Ha|]. split; [exact Hk|]. intros -> E. apply Hi. rewrite E.
      destruct s as [[]|[]]; vm_compute in Hc; try (exfalso; intuition discriminate); vm_compute; tauto.
  - right. assert (Eo : out_of_place v (s, (p, up)) = map report_attr (ensure_no_descendants false (p, up)))
      by (destruct Hc as [<-|[<-|[<-|[]]]]; reflexivity).
    rewrite Eo. change a with (report_attr (RNotAllowed a (removable_item n (b ++ p :: up)))). apply in_map.
    apply C48_nothing_below; [exact Hwf|]. exists b, n, a. auto.
  - destruct (attr_kind_eqb (at_kind a) (AkArg ATopic)) eqn:E.
    + left. apply attr_kind_eqb_eq in E. rewrite E. destruct Hc as [<-|[<-|[]]]; left; reflexivity.
    + right. assert (Eo : out_of_place v (s, (p, up)) = only_topics (p, up)) by (destruct Hc as [<-|[<-|[]]]; reflexivity).
      rewrite Eo. unfold only_topics. apply filter_In. split; [|rewrite E; reflexivity].
      apply in_map_iff. exists ((n, b ++ p :: up), a). split; [reflexivity|].
      apply C25_descendants_exact; [exact Hwf|]. exists b, n. auto.
Qed.
Lemma file_complete v t up b n a :
  well_formed t -> path t b n -> unannotated b -> main_attr (attrs_of n) a -> declares v (at_kind a) ->
  (forall x, In x (attrs_of n) -> at_kind x <> AkMacro MUnknown) ->
  In (at_kind a) (in_the_file v) \/ In a (map report_attr (file_scope v (t, up))).
Proof.
  intros Hwf Hp Hu Hm Hd Hx. destruct (main_known _ _ Hm) as [Hk Ha].
  destruct (at_kind a) as [m|k] eqn:E.
  - left. destruct Hd as [o Hd]. destruct m, v; try discriminate Hd; vm_compute; tauto.
  - right. change a with (report_attr (RInvalidScope a (removable_item n (b ++ t :: up)))). apply in_map.
    apply C48_file; [exact Hwf|]. exists b, n, a. split; [reflexivity|]. split; [exact Hp|]. split; [exact Hu|].
    split; [exact Hk|]. split; [apply main_primary; assumption|]. left. exists k. exact E.
Qed.

Lemma placed_or_reported v td t :
  well_formed t -> n_kind t = SOURCE_FILE -> forall sz b n,
  length b <= sz -> path t b n -> plainly_annotated v n ->
  (forall near m far, b = near ++ m :: far -> annotated m = true ->
     plainly_annotated v m /\ ~ is_a (AkMacro MScaleDerive) m /\ forall k, is_a k m -> seen far m k) ->
  (exists k, in_place v t b n k)
  \/ exists m a, In m (n :: b) /\ main_attr (attrs_of m) a /\ In a (misplaced v td (t, [])).
Proof.
  intros Hwf Hroot. induction sz as [|sz IH]; intros b n Hsz Hp (k & Hk & Hd & Hx) Hb.
  - destruct b; [|simpl in Hsz; lia]. destruct Hk as (a & Ha & <-).
    destruct (file_complete v t [] [] n a Hwf Hp (fun m (H : In m []) => match H with end) Ha Hd Hx) as [Hi|Hi].
    + left. exists (at_kind a). apply in_place_file; [exact Hp | intros m [] | exists a; auto | exact Hi].
    + right. exists n, a. split; [left; reflexivity|]. split; [exact Ha|]. unfold misplaced. apply in_app_iff. right. exact Hi.
  - destruct (nearest_annotated b) as [Hu|(near & p & far & -> & Hu & Hpa)].
    + destruct Hk as (a & Ha & <-). destruct (file_complete v t [] b n a Hwf Hp Hu Ha Hd Hx) as [Hi|Hi].
      * left. exists (at_kind a). apply in_place_file; [exact Hp | exact Hu | exists a; auto | exact Hi].
      * right. exists n, a. split; [left; reflexivity|]. split; [exact Ha|]. unfold misplaced. apply in_app_iff. right. exact Hi.
    + pose proof (path_split _ _ _ _ _ Hp) as [Hp2 Hp1]. destruct (Hb near p far eq_refl Hpa) as (Hpp & Hns & Hseen).
      destruct (IH far p) as [[s Hs]|(m & x & Hm & Hx1 & Hx2)].
      * rewrite app_length in Hsz. simpl in Hsz. lia.
      * exact Hp2.
      * exact Hpp.
      * intros near' m far' -> Hm. apply (Hb (near ++ p :: near') m far'); [|exact Hm]. rewrite <- app_assoc. reflexivity.
      * destruct Hpp as (s' & Hs' & Hds & Hxs). pose proof (in_place_is _ _ _ _ _ Hs) as Hsa.
        assert (s' = s) by exact (is_a_unique _ _ _ Hs' Hsa). subst s'.
        assert (Hne : s <> AkMacro MScaleDerive) by (intros ->; exact (Hns Hsa)).
        destruct Hk as (a & Ha & <-).
        destruct (scope_complete v s p (far ++ [t]) near n a (well_formed_path _ _ _ Hwf Hp2) Hds Hne Hp1 Hu Ha Hd Hx) as [Hi|Hi].
        -- left. exists (at_kind a). apply (in_place_inside v t far p s); [exact Hs | exact Hp1 | exact Hu | exists a; auto | exact Hi].
        -- right. exists n, a. split; [left; reflexivity|]. split; [exact Ha|]. unfold misplaced. apply in_app_iff. left.
           apply in_flat_map. exists (s, (p, far ++ [t])). split; [|exact Hi].
           apply in_place_checked; [exact Hwf | exact Hroot | exact Hs | exact Hne | exact (Hseen s Hsa)].
      * right. exists m, x. split; [|auto]. right. apply in_app_iff. right. exact Hm.
Qed.

(** ** Checks run on entities only, and report only what is not in its place *)
Definition check_kinds (v : version) : list attr_kind :=
  checked_scopes v ++ [AkArg AStorage; AkArg ATopic; AkMacro MStorageItem; AkArg AEvent; AkMacro MEvent].
Lemma in_check_all_inv x k ls : In x (check_all k ls) -> exists l, x = (k, l) /\ In l ls.
Proof. intros H. apply in_map_iff in H. destruct H as (l & <- & Hl). exists l. auto. Qed.
Lemma closest_valid t b c k x :
  path t b c -> In x (ink_closest_descendants k (c, b ++ [t])) ->
  exists b' n, x = (n, b' ++ [t]) /\ path t b' n /\ declared k n.
Proof.
  intros Hc H. apply C66_closest_entities in H. destruct H as (b' & n & -> & Hp & _ & Hd).
  exists (b' ++ c :: b), n. split; [rewrite <- app_assoc; reflexivity|]. split; [exact (path_trans _ _ _ _ _ Hc Hp) | exact Hd].
Qed.
Lemma trait_entities_valid t b c k x :
  path t b c -> In x (trait_entities k (c, b ++ [t])) -> exists b' n, x = (n, b' ++ [t]) /\ path t b' n /\ declared k n.
Proof.
  intros Hc H. unfold trait_entities in H. apply filter_In in H. destruct H as [H Hk]. apply has_kind_declared in Hk.
  unfold trait_fns in H. destruct (loc_kind _); try destruct H.
  destruct (find _ _) as [items|] eqn:E; [|destruct H]. apply find_some in E. destruct E as [E _].
  apply filter_In in H. destruct H as [H _]. unfold loc_children in E, H. cbn [fst snd] in *.
  apply in_map_iff in E. destruct E as (i & <- & Hi). cbn [fst snd] in H. apply in_map_iff in H. destruct H as (n & <- & Hn).
  exists (i :: c :: b), n. split; [reflexivity|]. split; [|exact Hk].
  apply path_step; [|exact Hn]. apply path_step; assumption.
Qed.
Definition sound_check (v : version) (t : tree) (x : check) : Prop :=
  exists b p, x = (fst x, (p, b ++ [t])) /\ path t b p /\ In (fst x) (check_kinds v) /\ counts_as v (fst x) p.
Lemma sound_of v t k l b p :
  l = (p, b ++ [t]) -> path t b p -> In k (check_kinds v) -> counts_as v k p -> sound_check v t (k, l).
Proof. intros -> Hp Hk Hc. exists b, p. cbn [fst]. auto. Qed.
Ltac kind_in v := destruct v; vm_compute; tauto.
Lemma event_checks_sound v t k b p x :
  (k = AkArg AEvent \/ k = AkMacro MEvent) -> path t b p -> declared k p -> In x (event_checks k (p, b ++ [t])) ->
  sound_check v t x.
Proof.
  intros Hk Hp Hd [<-|H].
  - apply (sound_of v t k _ b p); [reflexivity | exact Hp | destruct Hk as [-> | ->]; kind_in v | left; exact Hd].
  - apply in_check_all_inv in H. destruct H as (l & -> & H). destruct (closest_valid _ _ _ _ _ Hp H) as (b' & n & -> & Hn & Hdn).
    apply (sound_of v t _ _ b' n); [reflexivity | exact Hn | kind_in v | left; exact Hdn].
Qed.
Lemma checks_sound v td t x :
  well_formed t -> n_kind t = SOURCE_FILE -> In x (checks v td (t, [])) -> sound_check v t x.
Proof.
  intros Hwf Hroot H. pose proof (wf_ids _ Hwf) as Hnd. destruct (C66_file t [] Hnd) as (F1 & F2 & F3 & F4 & F5 & F6 & F7).
  unfold checks in H. rewrite !in_app_iff, !in_flat_map in H.
  assert (L : forall k between l y, lists_items k between t [] l -> In y l -> exists b n, y = (n, b ++ [t]) /\ path t b n /\ declared k n).
  { intros k between l y Hl Hy. apply Hl in Hy. destruct Hy as (b & n & -> & Hp & Hd & _). exists b, n. auto. }
  destruct H as [(l & Hl & H)|[(l & Hl & H)|[(l & Hl & H)|[(l & Hl & H)|[H|[H|H]]]]]].
  - destruct (L _ _ _ _ F1 Hl) as (b & c & -> & Hc & Hdc).
    assert (Hs : forall k l, In k (check_kinds v) -> In l (ink_closest_descendants k (c, b ++ [t])) -> sound_check v t (k, l)).
    { intros k l Hk Hin. destruct (closest_valid _ _ _ _ _ Hc Hin) as (b' & n & -> & Hn & Hdn).
      apply (sound_of v t _ _ b' n); [reflexivity | exact Hn | exact Hk | left; exact Hdn]. }
    assert (Hcl : forall k l, (k = AkArg AConstructor \/ k = AkArg AMessage) -> In l (ink_callables k (c, b ++ [t])) -> sound_check v t (k, l)).
    { intros k l Hk Hin. apply C66_callables in Hin; [|exact (nodup_path _ _ _ Hnd Hc)|exact Hk].
      destruct Hin as (b' & n & -> & Hp & Hd & _).
      apply (sound_of v t _ _ (b' ++ c :: b) n); [rewrite <- app_assoc; reflexivity | exact (path_trans _ _ _ _ _ Hc Hp) | destruct Hk as [-> | ->]; kind_in v | left; exact Hd]. }
    unfold contract_checks in H. destruct H as [<-|H].
    { apply (sound_of v t _ _ b c); [reflexivity | exact Hc | kind_in v | left; exact Hdc]. }
    rewrite !in_app_iff, in_flat_map in H. destruct H as [H|[(e & He & H)|[H|[H|[H|[H|H]]]]]].
    + apply in_check_all_inv in H. destruct H as (l & -> & H). apply Hs; [kind_in v | exact H].
    + cbn [contract_of co_events] in He. destruct (closest_valid _ _ _ _ _ Hc He) as (b' & n & -> & Hn & Hdn).
      exact (event_checks_sound v t _ b' n x (or_introl eq_refl) Hn Hdn H).
    + apply in_check_all_inv in H. destruct H as (l & -> & H). cbn [contract_of co_impls] in H.
      apply (impls_In td t b c l Hwf Hroot Hc) in H. destruct H as [H Hcast].
      destruct (impl_candidates_valid t b c l Hroot Hc H) as (b' & n & -> & Hn).
      apply (sound_of v t _ _ b' n); [reflexivity | exact Hn | kind_in v |].
      unfold impl_can_cast in Hcast. apply orb_true_iff in Hcast. destruct Hcast as [Hcast|Hcast].
      * left. apply has_kind_declared. exact Hcast.
      * right. left. split; [reflexivity|]. apply andb_true_iff in Hcast. destruct Hcast as [Hcast _].
        unfold loc_kind in Hcast. cbn [fst] in Hcast. destruct (n_kind n); congruence.
    + apply in_check_all_inv in H. destruct H as (l & -> & H). apply Hcl; [auto | exact H].
    + apply in_check_all_inv in H. destruct H as (l & -> & H). apply Hcl; [auto | exact H].
    + apply in_check_all_inv in H. destruct H as (l & -> & H). apply Hs; [kind_in v | exact H].
    + apply in_check_all_inv in H. destruct H as (l & -> & H). apply Hs; [kind_in v | exact H].
  - destruct (L _ _ _ _ F2 Hl) as (b & c & -> & Hc & Hdc).
    exact (event_checks_sound v t _ b c x (or_intror eq_refl) Hc Hdc H).
  - destruct (L _ _ _ _ F3 Hl) as (b & c & -> & Hc & Hdc). unfold trait_definition_checks in H. destruct H as [<-|H].
    { apply (sound_of v t _ _ b c); [reflexivity | exact Hc | kind_in v | left; exact Hdc]. }
    apply in_app_iff in H.
    destruct H as [H|H]; apply in_check_all_inv in H; destruct H as (l & -> & H);
      [destruct (trait_entities_valid _ _ _ _ _ Hc H) as (b' & n & -> & Hn & Hdn)
      |destruct (closest_valid _ _ _ _ _ Hc H) as (b' & n & -> & Hn & Hdn)];
      (apply (sound_of v t _ _ b' n); [reflexivity | exact Hn | kind_in v | left; exact Hdn]).
  - destruct (L _ _ _ _ F4 Hl) as (b & c & -> & Hc & Hdc). unfold chain_extension_checks in H. destruct H as [<-|H].
    { apply (sound_of v t _ _ b c); [reflexivity | exact Hc | kind_in v | left; exact Hdc]. }
    apply in_app_iff in H.
    destruct H as [H|H]; apply in_check_all_inv in H; destruct H as (l & -> & H);
      [destruct (trait_entities_valid _ _ _ _ _ Hc H) as (b' & n & -> & Hn & Hdn)
      |destruct (closest_valid _ _ _ _ _ Hc H) as (b' & n & -> & Hn & Hdn)];
      (apply (sound_of v t _ _ b' n); [reflexivity | exact Hn | kind_in v |]).
    + left. exact Hdn.
    + destruct v; [left; exact Hdn | right; right; auto].
  - apply in_check_all_inv in H. destruct H as (l & -> & H). destruct (L _ _ _ _ F5 H) as (b & c & -> & Hc & Hdc).
    apply (sound_of v t _ _ b c); [reflexivity | exact Hc | kind_in v | left; exact Hdc].
  - apply in_check_all_inv in H. destruct H as (l & -> & H). destruct (L _ _ _ _ F6 H) as (b & c & -> & Hc & Hdc).
    apply (sound_of v t _ _ b c); [reflexivity | exact Hc | kind_in v | left; exact Hdc].
  - apply in_check_all_inv in H. destruct H as (l & -> & H). destruct (L _ _ _ _ F7 H) as (b & c & -> & Hc & Hdc).
    apply (sound_of v t _ _ b c); [reflexivity | exact Hc | kind_in v | left; exact Hdc].
Qed.

Definition leaf_scope (v : version) (s : attr_kind) : Prop :=
  forall k, In k (belongs_in v s) -> k = AkMacro MScaleDerive \/ k = AkArg ATopic.
Lemma scope_sound v s p up a :
  well_formed p -> In s (check_kinds v) -> In a (out_of_place v (s, (p, up))) ->
  exists b n, path p b n /\ In a (attrs_of n) /\ (unannotated b \/ leaf_scope v s)
    /\ (declares v (at_kind a) -> ~ In (at_kind a) (belongs_in v s)).
Proof.
  intros Hwf Hs Ha. unfold check_kinds in Hs. apply in_app_iff in Hs. destruct Hs as [Hs|Hs].
  - rewrite (checked_out v s _ Hs) in Ha. apply in_map_iff in Ha. destruct Ha as (r & <- & Hr).
    assert (Eb : belongs_in v s = inside v s).
    { destruct v, s as [[]|[]]; vm_compute in Hs; try reflexivity; exfalso; intuition discriminate. }
    rewrite Eb. destruct (container_cases v s Hs) as [[Hco _]|[Hco _]].
    + apply C48_sound in Hr; [|assumption..]. destruct Hr as (b & n & x & -> & Hp & Hu & Hm & Hd).
      exists b, n. cbn [report_attr]. split; [exact Hp|]. split; [apply main_known; exact Hm|]. auto.
    + apply C48_no_descendants in Hr; [|assumption..]. destruct Hr as (b & n & x & -> & Hp & Hx & Hk & Hv).
      exists b, n. cbn [report_attr]. split; [exact Hp|]. split; [exact Hx|]. split.
      * right. intros k Hk'. rewrite Eb in Hk'. left.
        destruct (kind_eq_dec k (AkMacro MScaleDerive)) as [E|E]; [exact E|]. exfalso. apply Hco. exists k. auto.
      * intros _ Hin. apply Hco. exists (at_kind x). split; [exact Hin|].
        destruct v; [|exact (Hv eq_refl)].
        intros E. rewrite E in Hin. destruct s as [[]|[]]; vm_compute in Hs; try (exfalso; intuition discriminate);
          vm_compute in Hin; intuition discriminate.
  - assert (Hs' : In s [AkArg AStorage; AkArg ATopic; AkMacro MStorageItem] \/ In s [AkArg AEvent; AkMacro MEvent]).
    { simpl in *. tauto. }
    clear Hs. destruct Hs' as [Hs|Hs].
    + assert (Eo : out_of_place v (s, (p, up)) = map report_attr (ensure_no_descendants false (p, up)))
        by (destruct Hs as [<-|[<-|[<-|[]]]]; reflexivity).
      assert (Eb : belongs_in v s = []) by (destruct Hs as [<-|[<-|[<-|[]]]]; destruct v; reflexivity).
      rewrite Eo in Ha. apply in_map_iff in Ha. destruct Ha as (r & <- & Hr). apply C48_nothing_below in Hr; [|exact Hwf].
      destruct Hr as (b & n & x & -> & Hp & Hx & Hk). exists b, n. cbn [report_attr]. split; [exact Hp|]. split; [exact Hx|].
      split; [right; intros k Hk'; rewrite Eb in Hk'; destruct Hk'|]. rewrite Eb. intros _ [].
    + assert (Eo : out_of_place v (s, (p, up)) = only_topics (p, up)) by (destruct Hs as [<-|[<-|[]]]; reflexivity).
      assert (Eb : belongs_in v s = [AkArg ATopic]) by (destruct Hs as [<-|[<-|[]]]; reflexivity).
      rewrite Eo in Ha. unfold only_topics in Ha. apply filter_In in Ha. destruct Ha as [Ha Ht].
      apply in_map_iff in Ha. destruct Ha as ([l x] & E & Hx). cbn [snd] in E. subst x.
      apply C25_descendants_exact in Hx; [|exact Hwf]. destruct Hx as (b & n & _ & Hp & Hx).
      exists b, n. split; [exact Hp|]. split; [exact Hx|]. split.
      * right. intros k Hk. rewrite Eb in Hk. destruct Hk as [<-|[]]. auto.
      * intros _ Hin. rewrite Eb in Hin. destruct Hin as [Hin|[]]. rewrite <- Hin in Ht. discriminate.
Qed.

Lemma misplaced_sound v td t a :
  well_formed t -> n_kind t = SOURCE_FILE -> In a (misplaced v td (t, [])) ->
  (exists b n, path t b n /\ unannotated b /\ main_attr (attrs_of n) a /\ ~ In (at_kind a) (in_the_file v))
  \/ exists s outer p b n, path t outer p /\ counts_as v s p /\ In s (check_kinds v) /\ path p b n /\ In a (attrs_of n)
       /\ (unannotated b \/ leaf_scope v s) /\ (declares v (at_kind a) -> ~ In (at_kind a) (belongs_in v s)).
Proof.
  intros Hwf Hroot H. unfold misplaced in H. apply in_app_iff in H. destruct H as [H|H].
  - right. apply in_flat_map in H. destruct H as (x & Hx & H).
    destruct (checks_sound v td t x Hwf Hroot Hx) as (outer & p & E & Hp & Hk & Hc). rewrite E in H.
    destruct (scope_sound v (fst x) p _ a (well_formed_path _ _ _ Hwf Hp) Hk H) as (b & n & H1 & H2 & H3 & H4).
    exists (fst x), outer, p, b, n. auto 10.
  - left. apply in_map_iff in H. destruct H as (r & <- & Hr). apply C48_file in Hr; [|exact Hwf].
    destruct Hr as (b & n & x & -> & Hp & Hu & Hk & Hm & Hc). exists b, n. cbn [report_attr].
    split; [exact Hp|]. split; [exact Hu|]. split; [apply primary_known_main; assumption|].
    intros Hin. destruct Hc as [[k E]|[-> [E|E]]]; rewrite E in Hin; [destruct v|..]; vm_compute in Hin; intuition discriminate.
Qed.

(** ** A file with everything in place *)
Lemma in_place_below v t outer p s :
  in_place v t outer p s -> leaf_scope v s ->
  forall sz b n k, length b <= sz -> path p b n -> in_place v t (b ++ p :: outer) n k ->
  unannotated b /\ In k (belongs_in v s).
Proof.
  intros Hp Hl. assert (Hpa : annotated p = true) by exact (declared_annotated _ _ (is_a_declared _ _ (in_place_is _ _ _ _ _ Hp))).
  induction sz as [|sz IH]; intros b n k Hsz Hpath H; apply in_place_cases in H.
  - destruct b; [|simpl in Hsz; lia]. split; [intros m []|]. destruct H as [[_ Hu]|(o & q & s' & b' & E & Ho & _ & Hu & Hin)].
    + specialize (Hu p (or_introl eq_refl)). congruence.
    + destruct b' as [|x b'].
      * injection E as <- <-. rewrite (is_a_unique _ _ _ (in_place_is _ _ _ _ _ Hp) (in_place_is _ _ _ _ _ Ho)). exact Hin.
      * injection E as <- E. specialize (Hu p (or_introl eq_refl)). congruence.
  - destruct H as [[_ Hu]|(o & q & s' & b' & E & Ho & Hq & Hu & Hin)].
    { specialize (Hu p ltac:(apply in_app_iff; right; left; reflexivity)). congruence. }
    assert (Hsplit : (b' = b /\ q = p /\ o = outer) \/ exists c, b = b' ++ q :: c /\ o = c ++ p :: outer).
    { clear - E Hu Hpa. revert b' E Hu. induction b as [|x b IHb]; intros b' E Hu.
      - left. destruct b' as [|y b']; [injection E as <- <-; auto|]. injection E as <- _.
        specialize (Hu p (or_introl eq_refl)). congruence.
      - destruct b' as [|y b']; simpl in E.
        + injection E as <- <-. right. exists b. auto.
        + injection E as <- E. destruct (IHb b' E) as [(-> & -> & ->)|(c & -> & ->)].
          * intros m Hm. apply Hu. right. exact Hm.
          * left. auto.
          * right. exists c. auto. }
    destruct Hsplit as [(-> & -> & ->)|(c & -> & ->)].
    + split; [exact Hu|]. rewrite (is_a_unique _ _ _ (in_place_is _ _ _ _ _ Hp) (in_place_is _ _ _ _ _ Ho)). exact Hin.
    + exfalso. pose proof (path_split _ _ _ _ _ Hpath) as [Hpq _].
      destruct (IH c q s') as [_ Hs'].
      * rewrite app_length in Hsz. simpl in Hsz. lia.
      * exact Hpq.
      * exact Ho.
      * apply Hl in Hs'. destruct Hs' as [-> | ->]; destruct v; destruct Hin.
Qed.
Lemma quiet v td t :
  well_formed t -> n_kind t = SOURCE_FILE ->
  (forall b n k, path t b n -> declared k n -> names_entity k -> in_place v t b n k) ->
  (forall outer p b n k, path t outer p -> n_kind p = IMPL -> path p b n -> unannotated b -> declared k n -> declares v k ->
     In k (belongs_in v (AkArg AImpl))) ->
  forall a, In a (misplaced v td (t, [])) -> ~ declares v (at_kind a).
Proof.
  intros Hwf Hroot Hall Himpl a Ha Hd.
  assert (Hn : forall k, declares v k -> names_entity k) by (intros k Hk; destruct v; [left | right]; exact Hk).
  apply misplaced_sound in Ha; [|assumption..]. destruct Ha as [(b & n & Hp & Hu & Hm & Hni)|(s & outer & p & b & n & Hpo & Hc & Hs & Hp & Hx & Hl & Hni)].
  - destruct (main_known _ _ Hm) as [_ Hin].
    pose proof (Hall b n (at_kind a) Hp (ex_intro _ a (conj Hin eq_refl)) (Hn _ Hd)) as H. apply in_place_cases in H.
    destruct H as [[H _]|(o & q & s' & b' & -> & Ho & _ & _ & _)]; [contradiction|].
    specialize (Hu q ltac:(apply in_app_iff; right; left; reflexivity)).
    pose proof (declared_annotated _ _ (is_a_declared _ _ (in_place_is _ _ _ _ _ Ho))). congruence.
  - specialize (Hni Hd).
    assert (Hdn : declared (at_kind a) n) by (exists a; auto).
    pose proof (Hall _ n _ (path_trans _ _ _ _ _ Hpo Hp) Hdn (Hn _ Hd)) as H.
    destruct Hc as [Hc|[(-> & Hk)|(-> & -> & Hc)]].
    + assert (Hse : names_entity s).
      { destruct v, s as [[]|[]]; vm_compute in Hs;
          try (exfalso; intuition discriminate); (left; eexists; reflexivity) || (right; eexists; reflexivity). }
      pose proof (Hall _ p s Hpo Hc Hse) as Hps. destruct Hl as [Hu|Hl].
      * apply in_place_cases in H. pose proof (declared_annotated _ _ Hc) as Hpa.
        destruct H as [[_ H]|(o & q & s' & b' & E & Ho & Hq & Hu' & Hin)].
        { specialize (H p ltac:(apply in_app_iff; right; left; reflexivity)). congruence. }
        assert (Hqa : annotated q = true) by exact (declared_annotated _ _ (is_a_declared _ _ (in_place_is _ _ _ _ _ Ho))).
        assert (Eq : b' = b /\ q = p /\ o = outer).
        { clear - E Hu Hu' Hpa Hqa. revert b' E Hu'. induction b as [|x b IHb]; intros [|y b'] E Hu'; simpl in E.
          - injection E as <- <-. auto.
          - injection E as <- _. specialize (Hu' p (or_introl eq_refl)). congruence.
          - injection E as <- _. specialize (Hu x (or_introl eq_refl)). congruence.
          - injection E as <- E. destruct (IHb (fun m Hm => Hu m (or_intror Hm)) b' E (fun m Hm => Hu' m (or_intror Hm))) as (-> & -> & ->). auto. }
        destruct Eq as (-> & -> & ->). apply Hni.
        rewrite (is_a_unique _ _ _ (in_place_is _ _ _ _ _ Hps) (in_place_is _ _ _ _ _ Ho)). exact Hin.
      * apply Hni. exact (proj2 (in_place_below v t outer p s Hps Hl (length b) b n _ (le_n _) Hp H)).
    + destruct Hl as [Hu|Hl].
      * apply Hni. exact (Himpl _ _ _ _ _ Hpo Hk Hp Hu Hdn Hd).
      * specialize (Hl (AkArg AMessage)). destruct Hl as [Hl|Hl]; [destruct v; vm_compute; tauto | discriminate..].
    + pose proof (Hall _ p (AkArg AExtension) Hpo Hc (or_introl (ex_intro _ _ eq_refl))) as Hps.
      apply place_extension in Hps; [|simpl; auto]. destruct Hps as [E _]. discriminate.
Qed.
