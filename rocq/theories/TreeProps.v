(** Properties C25, C26, C48, C66 and C67: which ink! attributes and entities are found from where, and what is
    reported about their place. A [loc] is a node and the nodes above it (nearest first). *)
From Verif Require Import Base BaseFacts PositionModel VersionModel SyntaxModel AttrModel AttrSpec SuggestModel SuggestSpec
  AttrProofs SuggestProofs TreeModel TreeSpec TreeProofs.
From Coq Require Import Sorted Lia.

(** ** An example file
    [#[ink::contract] mod c { #[ink(storage)] #[ink(anonymous)] struct S; mod m { #[ink(event)] struct E; }
       impl S { #[ink(message)] fn f() { #[ink(topic)] x } } }] *)
Definition exa (k : attr_kind) (n : nat) : tree * ink_attr :=
  let a := InkAttr k [] (AttrSyntax [] None (n, S n)) None in (Nd n ATTR (n, S n) (Some a) [], a).
Definition exn (k : attr_kind) (n : nat) : tree := fst (exa k n).
Definition ex_topic_node := Nd 40 (OTHER 30) (40, 45) None [exn (AkArg ATopic) 41].
Definition ex_fn := Nd 30 FN (30, 50) None [exn (AkArg AMessage) 31; ex_topic_node].
Definition ex_impl := Nd 28 IMPL (28, 52) None [Nd 29 (OTHER 20) (29, 51) None [ex_fn]].
Definition ex_event := Nd 20 STRUCT (20, 24) None [exn (AkArg AEvent) 21].
Definition ex_inner := Nd 17 MODULE (17, 26) None [Nd 18 (OTHER 20) (18, 25) None [ex_event]].
Definition ex_storage := Nd 10 STRUCT (10, 16) None [exn (AkArg AStorage) 11; exn (AkArg AAnonymous) 12].
Definition ex_items := Nd 5 (OTHER 20) (5, 60) None [ex_storage; ex_inner; ex_impl].
Definition ex_contract := Nd 1 MODULE (1, 70) None [exn (AkMacro MContract) 2; ex_items].
Definition ex_file := Nd 0 (OTHER 50) (0, 80) None [ex_contract].
Example ex_file_well_formed : well_formed ex_file.
Proof.
  split.
  - intros n Hn. cbn in Hn. repeat destruct Hn as [<-|Hn]; try destruct Hn;
      (split; [cbn; repeat split; lia
              | intros a Ha; try discriminate Ha; injection Ha as <-; cbn; repeat split; lia
              | cbn; intros E d Hd; try discriminate E; destruct Hd]).
  - cbn. repeat constructor; cbn; intuition congruence.
Qed.
Example ex_contract_well_formed : well_formed ex_contract.
Proof.
  split.
  - intros n Hn. apply (wf_nodes _ ex_file_well_formed). cbn. right. exact Hn.
  - pose proof (wf_ids _ ex_file_well_formed) as H. cbn in H |- *. inversion H; assumption.
Qed.

(** ** C25 *)

(** The closest ink! descendants of a node are exactly the attributes of the nodes below it that have no other
    annotated node between. *)
Theorem C25_closest_exact t up l a :
  In (l, a) (ink_attrs_closest_descendants (t, up)) <->
  exists b n, l = (n, b ++ t :: up) /\ path t b n /\ unannotated b /\ In a (attrs_of n).
Proof. apply closest_In. Qed.

(** ... in the order of the text, and each once. *)
Theorem C25_closest_order t up :
  well_formed t ->
  map snd (ink_attrs_closest_descendants (t, up))
  = flat_map (fun x => attrs_of (snd x)) (filter (fun x => forallb (fun m => negb (annotated m)) (fst x)) (below t))
  /\ in_source_order (map snd (ink_attrs_closest_descendants (t, up)))
  /\ NoDup (map (fun x => at_range (snd x)) (ink_attrs_closest_descendants (t, up))).
Proof.
  intros [H _]. destruct (closest_ordered t up H) as [Ho Hi].
  change (ink_attrs_closest_descendants (t, up)) with (closest up t).
  split; [|split; [exact Ho|]].
  - rewrite closest_spec, map_flat_map. apply flat_map_ext_in. intros x _. apply attrs_at_snd.
  - rewrite <- (map_map snd at_range). exact (ordered_nodup _ _ _ Ho Hi).
Qed.

(** There are some whenever anything below is annotated. *)
Theorem C25_closest_exists t up :
  well_formed t ->
  (ink_attrs_closest_descendants (t, up) <> [] <-> exists b n, path t b n /\ annotated n = true).
Proof. intros [H _]. apply closest_exists. exact H. Qed.

(** All ink! descendants: the attributes of all nodes below, in the order of the text, and each once. *)
Theorem C25_descendants_exact t up l a :
  well_formed t ->
  (In (l, a) (ink_attrs_descendants (t, up)) <->
   exists b n, l = (n, b ++ t :: up) /\ path t b n /\ In a (attrs_of n)).
Proof. intros [H _]. rewrite ink_attrs_descendants_nodes by exact H. apply attr_nodes_In. Qed.
Theorem C25_descendants_order t up :
  well_formed t ->
  in_source_order (map snd (ink_attrs_descendants (t, up)))
  /\ NoDup (map (fun x => at_range (snd x)) (ink_attrs_descendants (t, up))).
Proof.
  intros [H _]. destruct (descendants_ordered t up H) as [Ho Hi]. split; [exact Ho|].
  rewrite <- (map_map snd at_range). exact (ordered_nodup _ _ _ Ho Hi).
Qed.

(** The attributes in the scope of a node: its own and all below. *)
Theorem C25_in_scope_exact t up a :
  well_formed t ->
  (In a (map snd (ink_attrs_in_scope (t, up))) <->
   In a (attrs_of t) \/ exists b n, path t b n /\ In a (attrs_of n)).
Proof.
  intros H. unfold ink_attrs_in_scope. rewrite map_app, in_app_iff.
  assert (E1 : In a (map snd (ink_attrs_at (t, up))) <-> In a (attrs_of t)).
  { unfold ink_attrs_at. rewrite map_map. cbn [snd fst]. rewrite map_id, attrs_of_ink. tauto. }
  assert (E2 : In a (map snd (ink_attrs_descendants (t, up))) <-> exists b n, path t b n /\ In a (attrs_of n)).
  { rewrite in_map_iff. split.
    - intros ([l x] & <- & Hx). apply C25_descendants_exact in Hx; [|exact H].
      destruct Hx as (b & n & _ & Hp & Ha). exists b, n. auto.
    - intros (b & n & Hp & Ha). exists ((n, b ++ t :: up), a). split; [reflexivity|].
      apply C25_descendants_exact; [exact H|]. exists b, n. auto. }
  tauto.
Qed.

Example C25_example :
  map (fun x => (n_id (fst (fst x)), fst (at_range (snd x)))) (ink_attrs_closest_descendants (ex_contract, [ex_file]))
  = [(10, 11); (10, 12); (20, 21); (30, 31)]
  /\ map (fun x => (n_id (fst (fst x)), fst (at_range (snd x)))) (ink_attrs_closest_descendants (ex_file, []))
     = [(1, 2)]
  /\ map (fun x => fst (at_range (snd x))) (ink_attrs_descendants (ex_contract, [ex_file])) = [11; 12; 21; 31; 41].
Proof. vm_compute. auto. Qed.

(** ** C26 *)

(** The closest ink! ancestors are the attributes of the nearest annotated node above; starting from an attribute,
    above the item the attribute is on. The search always ends. *)
Theorem C26_closest_ancestors n up :
  n_kind n <> ATTR ->
  exists r enough, nearest_attrs up r
    /\ forall fuel, enough <= fuel -> ink_attrs_closest_ancestors fuel (n, up) = Some r.
Proof.
  intros Hk. destruct (closest_ancestors_spec (n, up)) as (r & f & H1 & H2). exists r, f. split; [|exact H2].
  unfold loc_kind in H1. cbn [fst snd] in H1. destruct (skind_eqb (n_kind n) ATTR) eqn:E; [|exact H1].
  apply skind_eqb_eq in E. congruence.
Qed.
Theorem C26_closest_ancestors_attr n item up :
  n_kind n = ATTR ->
  exists r enough, nearest_attrs up r
    /\ forall fuel, enough <= fuel -> ink_attrs_closest_ancestors fuel (n, item :: up) = Some r.
Proof.
  intros Hk. destruct (closest_ancestors_spec (n, item :: up)) as (r & f & H1 & H2). exists r, f. split; [|exact H2].
  unfold loc_kind in H1. cbn [fst snd tl] in H1. rewrite Hk in H1. exact H1.
Qed.
(** That answer is one and the same however it is found. *)
Theorem C26_nearest_unique up r r' : nearest_attrs up r -> nearest_attrs up r' -> r = r'.
Proof. apply nearest_attrs_unique. Qed.

(** All ink! ancestors: the attributes of the nodes above, nearest first; an attribute is not its own ancestor. *)
Theorem C26_ancestors n up :
  n_kind n <> ATTR -> ink_attrs_ancestors (n, up) = flat_map attrs_of up.
Proof.
  intros Hk. unfold ink_attrs_ancestors, loc_kind. cbn [fst snd].
  destruct (skind_eqb (n_kind n) ATTR) eqn:E; [apply skind_eqb_eq in E; congruence|].
  rewrite filter_all by (intros; reflexivity). apply flat_map_ext_in. intros x _. apply attrs_of_ink.
Qed.
Theorem C26_ancestors_attr file b d item a :
  well_formed file -> path file b d -> n_attr d = Some a -> hd_error (b ++ [file]) = Some item ->
  ink_attrs_ancestors (d, b ++ [file]) = flat_map attrs_of (tl (b ++ [file])).
Proof. intros [H _] Hp Ha _. exact (ancestor_attrs_attr file b d a H Hp Ha). Qed.

(** The two searches agree: an annotated node finds the attributes of a node below exactly when that node finds
    its attributes above. *)
Theorem C26_agrees_with_C25 t up b n a :
  well_formed t -> annotated t = true -> path t b n -> n_kind n <> ATTR -> In a (attrs_of n) ->
  (In ((n, b ++ t :: up), a) (ink_attrs_closest_descendants (t, up)) <->
   exists enough, forall fuel, enough <= fuel -> ink_attrs_closest_ancestors fuel (n, b ++ t :: up) = Some (attrs_of t)).
Proof.
  intros [H Hnd] Ht Hp Hk Ha. destruct (C26_closest_ancestors n (b ++ t :: up) Hk) as (r & f & Hr & Hf). split.
  - intros Hin. apply closest_In in Hin. destruct Hin as (b' & n' & E & Hp' & Hu & Ha').
    assert (Hb : b' = b).
    { injection E as E1 E2. apply app_inv_tail in E2. congruence. }
    subst b'. exists f. intros fuel Hfu. rewrite (Hf fuel Hfu). f_equal.
    apply (nearest_attrs_unique (b ++ t :: up)); [exact Hr|]. apply (nearest_dual t up b n H Ht Hp). exact Hu.
  - intros (f' & Hf'). apply closest_In. exists b, n. split; [reflexivity|]. split; [exact Hp|]. split; [|exact Ha].
    apply (nearest_dual t up b n H Ht Hp). specialize (Hf (f + f') ltac:(lia)). specialize (Hf' (f + f') ltac:(lia)).
    rewrite Hf in Hf'. injection Hf' as <-. exact Hr.
Qed.
Example C26_example :
  option_map (map (fun a => fst (at_range a)))
    (ink_attrs_closest_ancestors 20 (ex_topic_node, [ex_fn; Nd 29 (OTHER 20) (29, 51) None [ex_fn]; ex_impl; ex_items; ex_contract; ex_file]))
  = Some [31]
  /\ option_map (map (fun a => fst (at_range a)))
       (ink_attrs_closest_ancestors 20 (ex_storage, [ex_items; ex_contract; ex_file])) = Some [2]
  /\ option_map (map (fun a => fst (at_range a)))
       (ink_attrs_closest_ancestors 20 (exn (AkArg AStorage) 11, [ex_storage; ex_items; ex_contract; ex_file])) = Some [2].
Proof. vm_compute. auto. Qed.

(** ** C48 *)

(** A scope holding other entities: what is reported is always the main attribute of an item directly inside,
    when the documentation does not allow it there; each once. *)
Theorem C48_sound scope v t up r :
  well_formed t -> In scope (checked_scopes v) -> container v scope ->
  In r (ensure_scope scope v (t, up)) ->
  exists b n a, r = RInvalidScope a (removable_item n (b ++ t :: up)) /\ path t b n /\ unannotated b
    /\ main_attr (attrs_of n) a /\ (declares v (at_kind a) -> ~ In (at_kind a) (inside v scope)).
Proof.
  intros [H _] Hs Hc Hr. destruct (container_cases v scope Hs) as [[_ E]|[Hn _]]; [|contradiction].
  rewrite E in Hr. apply valid_descendants_In in Hr; [|exact H].
  destruct Hr as (b & n & a & -> & Hp & Hu & Hk & Hm & Hv). exists b, n, a.
  split; [reflexivity|]. split; [exact Hp|]. split; [exact Hu|]. split; [apply primary_known_main; assumption|].
  intros Hd Hin. apply orb_false_iff in Hv. destruct Hv as [Hv _].
  apply (scope_table v scope _ Hs Hd) in Hin. apply contains_kind_In in Hin. congruence.
Qed.
Theorem C48_once scope v t up :
  well_formed t -> In scope (checked_scopes v) ->
  NoDup (map (fun r => at_range (reported_attr r)) (ensure_scope scope v (t, up))).
Proof.
  intros [H _] Hs. destruct (container_cases v scope Hs) as [[_ E]|[_ E]]; rewrite E;
    [apply valid_descendants_nodup | apply no_descendants_nodup]; exact H.
Qed.

(** ... and everything is reported that the documentation does not allow there, provided the item has no
    attribute of an unknown ink! macro (see below) and, in version 5, is not the [extension] that the check of
    chain extensions treats itself. *)
Theorem C48_complete_partial scope v t up b n a :
  well_formed t -> In scope (checked_scopes v) -> container v scope ->
  path t b n -> unannotated b -> main_attr (attrs_of n) a ->
  declares v (at_kind a) -> ~ In (at_kind a) (inside v scope) ->
  (forall x, In x (attrs_of n) -> at_kind x <> AkMacro MUnknown) ->
  In (RInvalidScope a (removable_item n (b ++ t :: up))) (ensure_scope scope v (t, up)).
Proof.
  intros [H _] Hs Hc Hp Hu Hm Hd Hi Hx. destruct (container_cases v scope Hs) as [[_ E]|[Hn _]]; [|contradiction].
  rewrite E. apply valid_descendants_In; [exact H|]. exists b, n, a.
  split; [reflexivity|]. split; [exact Hp|]. split; [exact Hu|].
  assert (Hk : is_known a = true).
  { destruct Hm as (l1 & l2 & E' & _). assert (In a (filter is_known (attrs_of n))) as Hin.
    { rewrite E'. apply in_app_iff. right. left. reflexivity. }
    apply filter_In in Hin. apply Hin. }
  split; [exact Hk|]. split; [apply main_primary; assumption|].
  apply orb_false_iff. split.
  - destruct (contains_kind (valid_descendants scope v) (at_kind a)) eqn:Ec; [|reflexivity].
    apply contains_kind_In in Ec. apply (scope_table v scope _ Hs Hd) in Ec. contradiction.
  - destruct v; [reflexivity|]. destruct (attr_kind_eqb (at_kind a) (AkArg AExtension)) eqn:Ex; [|apply andb_false_r].
    apply attr_kind_eqb_eq in Ex. rewrite Ex in Hd. destruct Hd as [o Hd]. discriminate.
Qed.

(** An unknown ink! macro hides what is beside it: [#[ink::foo] #[ink(topic)] struct S] directly in a contract is
    not reported, although [#[ink(topic)] struct S] is. *)
Definition ex_hidden : tree :=
  Nd 0 MODULE (0, 30) None [Nd 10 STRUCT (10, 20) None [exn (AkMacro MUnknown) 11; exn (AkArg ATopic) 12]].
Example ex_hidden_well_formed : well_formed ex_hidden.
Proof.
  split.
  - intros n Hn. cbn in Hn. repeat destruct Hn as [<-|Hn]; try destruct Hn;
      (split; [cbn; repeat split; lia
              | intros a Ha; try discriminate Ha; injection Ha as <-; cbn; repeat split; lia
              | cbn; intros E d Hd; try discriminate E; destruct Hd]).
  - cbn. repeat constructor; cbn; intuition congruence.
Qed.
Theorem C48_complete_refuted :
  exists scope v t up b n a,
    well_formed t /\ In scope (checked_scopes v) /\ container v scope
    /\ path t b n /\ unannotated b /\ main_attr (attrs_of n) a
    /\ declares v (at_kind a) /\ ~ In (at_kind a) (inside v scope)
    /\ ensure_scope scope v (t, up) = [].
Proof.
  exists (AkMacro MContract), V5, ex_hidden, [], [],
    (Nd 10 STRUCT (10, 20) None [exn (AkMacro MUnknown) 11; exn (AkArg ATopic) 12]), (snd (exa (AkArg ATopic) 12)).
  split; [exact ex_hidden_well_formed|]. split; [vm_compute; tauto|].
  split; [exists (AkArg AStorage); split; [vm_compute; tauto | discriminate]|].
  split; [apply path_child; left; reflexivity|]. split; [intros m []|].
  split.
  - exists [], []. split; [reflexivity|]. split; intros x [].
  - split; [eexists; reflexivity|]. split; [vm_compute; intuition congruence | reflexivity].
Qed.

(** A scope that holds no other entities: every known ink! attribute anywhere below is reported, except that
    version 5 allows [scale_derive]. *)
Theorem C48_no_descendants scope v t up r :
  well_formed t -> In scope (checked_scopes v) -> ~ container v scope ->
  (In r (ensure_scope scope v (t, up)) <->
   exists b n a, r = RNotAllowed a (removable_item n (b ++ t :: up)) /\ path t b n
     /\ In a (attrs_of n) /\ is_known a = true /\ (v = V5 -> at_kind a <> AkMacro MScaleDerive)).
Proof.
  intros [H _] Hs Hc. destruct (container_cases v scope Hs) as [[Hn _]|[_ E]]; [contradiction|].
  rewrite E, no_descendants_In by exact H. destruct v; split; intros (b & n & a & H1 & H2 & H3 & H4 & H5); exists b, n, a;
    repeat (split; try assumption); intros; try discriminate; auto.
Qed.

(** Storage, storage items and topics allow no ink! attribute anywhere below. *)
Theorem C48_nothing_below t up r :
  well_formed t ->
  (In r (ensure_no_descendants false (t, up)) <->
   exists b n a, r = RNotAllowed a (removable_item n (b ++ t :: up)) /\ path t b n
     /\ In a (attrs_of n) /\ is_known a = true).
Proof.
  intros [H _]. rewrite no_descendants_In by exact H.
  split; intros (b & n & a & H1 & H2 & H3 & H4); [destruct H4 as [H4 _]|]; exists b, n, a; repeat (split; try assumption); intros; discriminate.
Qed.

(** The file: macros only, and up to version 4 only those that exist there. *)
Theorem C48_file v t up r :
  well_formed t ->
  (In r (file_scope v (t, up)) <->
   exists b n a, r = RInvalidScope a (removable_item n (b ++ t :: up)) /\ path t b n /\ unannotated b
     /\ is_known a = true
     /\ primary_of (fun x y => kind_precedes (at_kind x) (at_kind y)) (attrs_of n) a
     /\ ((exists k, at_kind a = AkArg k)
         \/ (v = V4 /\ (at_kind a = AkMacro MEvent \/ at_kind a = AkMacro MScaleDerive)))).
Proof.
  intros [H _]. unfold file_scope. rewrite valid_descendants_In by exact H.
  split; intros (b & n & a & H1 & H2 & H3 & H4 & H5 & H6); exists b, n, a; repeat (split; try assumption).
  - unfold is_known in H4. destruct v, (at_kind a) as [m|k]; eauto; destruct m; try discriminate; auto.
  - destruct H6 as [[k ->]|[-> [-> | ->]]]; try reflexivity. destruct v; reflexivity.
Qed.

Example C48_example :
  map (fun r => fst (at_range (reported_attr r))) (ensure_scope (AkMacro MContract) V5 (ex_contract, [ex_file])) = []
  /\ map (fun r => fst (at_range (reported_attr r))) (ensure_scope (AkArg AMessage) V5 (ex_fn, [])) = [41]
  /\ map (fun r => fst (at_range (reported_attr r)))
       (ensure_scope (AkMacro MContract) V5
          (Nd 1 MODULE (1, 70) None [Nd 10 STRUCT (10, 16) None [exn (AkArg ATopic) 11]], [])) = [11].
Proof. vm_compute. auto. Qed.

(** ** C66 *)

(** Storage, events, tests and contracts: exactly the items declared as such with no other annotated node between. *)
Theorem C66_closest_entities k t up l :
  In l (ink_closest_descendants k (t, up)) <->
  exists b n, l = (n, b ++ t :: up) /\ path t b n /\ unannotated b /\ declared k n.
Proof. apply closest_entities_In. Qed.

(** The storage of a contract is the first such item, and there is one whenever there is such an item. *)
Theorem C66_storage td t up :
  match co_storage (contract_of td (t, up)) with
  | Some l => exists b n before, l = (n, b ++ t :: up) /\ declared (AkArg AStorage) n /\ unannotated b
                /\ (exists after, below t = before ++ (b, n) :: after)
                /\ forall b' n', In (b', n') before -> unannotated b' -> ~ declared (AkArg AStorage) n'
  | None => forall b n, path t b n -> unannotated b -> ~ declared (AkArg AStorage) n
  end.
Proof.
  unfold contract_of. cbn [co_storage]. rewrite closest_entities_list. unfold closest_nodes.
  set (g := fun a : ink_attr => attr_kind_eqb (at_kind a) (AkArg AStorage)).
  assert (Hg : forall n, declared (AkArg AStorage) n <-> filter g (attrs_of n) <> []).
  { intros n. split.
    - intros (a & Ha & Hk) E. assert (In a (filter g (attrs_of n))) as Hin
        by (apply filter_In; split; [exact Ha | unfold g; rewrite Hk; reflexivity]). rewrite E in Hin. destruct Hin.
    - intros Hne. destruct (filter g (attrs_of n)) as [|a l] eqn:E; [congruence|].
      assert (In a (filter g (attrs_of n))) as Hin by (rewrite E; left; reflexivity). apply filter_In in Hin.
      exists a. split; [apply Hin|]. apply attr_kind_eqb_eq. apply Hin. }
  assert (G : forall L : list (list tree * tree),
    match hd_error (flat_map (fun x => map (fun _ : ink_attr => (snd x, fst x ++ t :: up)) (filter g (attrs_of (snd x))))
                     (filter nearest_filter L)) with
    | Some l => exists b n before, l = (n, b ++ t :: up) /\ declared (AkArg AStorage) n /\ unannotated b
                  /\ (exists after, L = before ++ (b, n) :: after)
                  /\ forall b' n', In (b', n') before -> unannotated b' -> ~ declared (AkArg AStorage) n'
    | None => forall b n, In (b, n) L -> unannotated b -> ~ declared (AkArg AStorage) n
    end).
  { induction L as [|[b n] L IH]; [intros b n []|]. cbn [filter].
    destruct (nearest_filter (b, n)) eqn:En.
    - cbn [flat_map fst snd]. apply nearest_filter_spec in En. destruct (filter g (attrs_of n)) as [|a l] eqn:E.
      + cbn [map app]. destruct (hd_error _) as [l|] eqn:Eh; rewrite Eh in IH || idtac.
        * destruct IH as (b0 & n0 & before & E1 & E2 & E3 & (after & E4) & E5). exists b0, n0, ((b, n) :: before).
          split; [exact E1|]. split; [exact E2|]. split; [exact E3|]. split; [exists after; rewrite E4; reflexivity|].
          intros b' n' [Heq|Hin] Hu; [injection Heq as <- <-; rewrite Hg, E; tauto | apply (E5 b' n' Hin Hu)].
        * intros b' n' [Heq|Hin] Hu; [injection Heq as <- <-; rewrite Hg, E; tauto | apply (IH b' n' Hin Hu)].
      + cbn [map app hd_error]. exists b, n, []. split; [reflexivity|]. split; [apply Hg; rewrite E; discriminate|].
        split; [exact En|]. split; [exists L; reflexivity | intros b' n' []].
    - assert (Hn : ~ unannotated b) by (intros Hu; apply nearest_filter_spec with (n := n) in Hu; congruence).
      destruct (hd_error _) as [l|] eqn:Eh; rewrite Eh in IH || idtac.
      * destruct IH as (b0 & n0 & before & E1 & E2 & E3 & (after & E4) & E5). exists b0, n0, ((b, n) :: before).
        split; [exact E1|]. split; [exact E2|]. split; [exact E3|]. split; [exists after; rewrite E4; reflexivity|].
        intros b' n' [Heq|Hin] Hu; [injection Heq as <- <-; contradiction | apply (E5 b' n' Hin Hu)].
      * intros b' n' [Heq|Hin] Hu; [injection Heq as <- <-; contradiction | apply (IH b' n' Hin Hu)]. }
  specialize (G (below t)). destruct (hd_error _); [exact G|].
  intros b n Hp. apply G. apply below_path. exact Hp.
Qed.

(** Constructors and messages: exactly the items declared as such that belong to the contract, each once. *)
Lemma callable_peek t up o b2 a :
  possible_callable_ancestor ((o, b2 ++ t :: up), a) = true <-> impl_like o a.
Proof.
  unfold possible_callable_ancestor, impl_like, attr_item, loc_kind. cbn [fst snd].
  rewrite orb_true_iff, andb_true_iff, orb_true_iff, !attr_kind_eqb_eq.
  split; intros [H|H]; auto; right.
  - destruct H as [H1 H2]. destruct (is_item (n_kind o)); [|discriminate]. apply skind_eqb_eq in H2. tauto.
  - destruct H as [H1 H2]. rewrite H1. cbn. rewrite H1. split; [tauto | reflexivity].
Qed.
Theorem C66_callables k t up l :
  NoDup (map n_id (self_and_below t)) -> k = AkArg AConstructor \/ k = AkArg AMessage ->
  (In l (ink_callables k (t, up)) <->
   exists b n, l = (n, b ++ t :: up) /\ path t b n /\ declared k n /\ only_behind impl_like b).
Proof.
  intros Hnd Hk. unfold ink_callables. rewrite peek_In by exact Hnd.
  split; intros (b & n & H1 & H2 & H3 & H4); exists b, n; repeat (split; try assumption).
  - destruct H4 as [H4|(b1 & o & b2 & a & E & Hu1 & Hu2 & Ha & Hne & Hpk)]; [left; exact H4|].
    right. exists b1, o, b2, a. apply callable_peek in Hpk. auto.
  - destruct H4 as [H4|(b1 & o & b2 & a & E & Hu1 & Hu2 & Ha & Hpk)]; [left; exact H4|].
    right. exists b1, o, b2, a. split; [exact E|]. split; [exact Hu1|]. split; [exact Hu2|]. split; [exact Ha|].
    split; [|apply callable_peek; exact Hpk].
    intros E'. destruct Hpk as [Hp|[_ [Hp|Hp]]]; rewrite E' in Hp; destruct Hk as [-> | ->]; discriminate.
Qed.
Theorem C66_callables_once k l : NoDup (map loc_id (ink_callables k l)).
Proof. apply peek_nodup. Qed.

(** Events, trait definitions, chain extensions and storage items of a file: exactly the items declared as such
    in the file or directly in one of its contracts, each once. *)
Theorem C66_file_entities k t up l :
  NoDup (map n_id (self_and_below t)) -> k <> AkMacro MContract ->
  (In l (peek_descendants k peek_contract (t, up)) <->
   exists b n, l = (n, b ++ t :: up) /\ path t b n /\ declared k n /\ only_behind contract_like b).
Proof.
  intros Hnd Hk. rewrite peek_In by exact Hnd. unfold peek_contract.
  split; intros (b & n & H1 & H2 & H3 & H4); exists b, n; repeat (split; try assumption).
  - destruct H4 as [H4|(b1 & o & b2 & a & E & Hu1 & Hu2 & Ha & Hne & Hpk)]; [left; exact H4|].
    right. exists b1, o, b2, a. apply casts_eq in Hpk. auto.
  - destruct H4 as [H4|(b1 & o & b2 & a & E & Hu1 & Hu2 & Ha & Hpk)]; [left; exact H4|].
    right. exists b1, o, b2, a. split; [exact E|]. split; [exact Hu1|]. split; [exact Hu2|]. split; [exact Ha|].
    unfold contract_like in Hpk. split; [congruence | apply casts_eq; exact Hpk].
Qed.
Theorem C66_file_entities_once k l : NoDup (map loc_id (peek_descendants k peek_contract l)).
Proof. apply peek_nodup. Qed.

(** What each field of a contract and of a file lists. *)
Lemma closest_lists k t up : lists_items k no_attribute t up (ink_closest_descendants k (t, up)).
Proof.
  intros x. rewrite C66_closest_entities. split.
  - intros (b & n & H1 & H2 & H3 & H4). exists b, n. split; [exact H1|]. split; [exact H2|]. split; [exact H4|]. left. exact H3.
  - intros (b & n & H1 & H2 & H3 & H4). exists b, n. split; [exact H1|]. split; [exact H2|].
    destruct H4 as [H4|(b1 & o & b2 & a & _ & _ & _ & _ & [])]. split; assumption.
Qed.
Theorem C66_contract td t up : NoDup (map n_id (self_and_below t)) ->
  let c := contract_of td (t, up) in
  lists_items (AkArg AConstructor) impl_like t up (co_constructors c)
  /\ lists_items (AkArg AMessage) impl_like t up (co_messages c)
  /\ lists_items (AkArg AEvent) no_attribute t up (co_events c)
  /\ lists_items (AkMacro MTest) no_attribute t up (co_tests c)
  /\ lists_items (AkMacro ME2ETest) no_attribute t up (co_e2e_tests c).
Proof.
  intros Hnd c. split; [intros x; apply C66_callables; auto|]. split; [intros x; apply C66_callables; auto|].
  split; [apply closest_lists|]. split; apply closest_lists.
Qed.
Theorem C66_file t up : NoDup (map n_id (self_and_below t)) ->
  let f := file_of (t, up) in
  lists_items (AkMacro MContract) no_attribute t up (fi_contracts f)
  /\ lists_items (AkMacro MEvent) contract_like t up (fi_events_v2 f)
  /\ lists_items (AkMacro MTraitDefinition) contract_like t up (fi_trait_definitions f)
  /\ lists_items (AkMacro MChainExtension) contract_like t up (fi_chain_extensions f)
  /\ lists_items (AkMacro MStorageItem) contract_like t up (fi_storage_items f)
  /\ lists_items (AkMacro MTest) no_attribute t up (fi_tests f)
  /\ lists_items (AkMacro ME2ETest) no_attribute t up (fi_e2e_tests f).
Proof.
  intros Hnd f. split; [apply closest_lists|].
  do 4 (split; [intros x; apply C66_file_entities; [exact Hnd | discriminate]|]).
  split; apply closest_lists.
Qed.

(** The [impl] blocks of a contract: each lies in it, declares or holds something, and occurs once; and the block
    around every message and constructor of the contract is among them. *)
Theorem C66_impls_sound td t up l :
  NoDup (map n_id (self_and_below t)) -> n_kind t = MODULE -> In l (ink_impls td (t, up)) ->
  exists b n, l = (n, b ++ t :: up) /\ path t b n
    /\ (declared (AkArg AImpl) n
        \/ (n_kind n = IMPL /\ (td l = true \/ exists b' f, path n b' f /\ unannotated b'
              /\ (declared (AkArg AConstructor) f \/ declared (AkArg AMessage) f)))).
Proof.
  intros Hnd Ht H. unfold ink_impls in H.
  apply (proj1 (unique_loc_In t up _ l Hnd (fun x Hx => proj2 (impl_candidate_below td t up x Ht Hx)))) in H.
  apply impl_candidate_below in H; [|exact Ht]. destruct H as [Hc (b & n & -> & Hp)].
  exists b, n. split; [reflexivity|]. split; [exact Hp|].
  unfold impl_can_cast in Hc. apply orb_true_iff in Hc. destruct Hc as [Hc|Hc].
  - left. apply has_kind_declared. exact Hc.
  - right. apply andb_true_iff in Hc. destruct Hc as [Hk Hc]. unfold loc_kind in Hk. cbn [fst] in Hk.
    split; [destruct (n_kind n); congruence|]. apply orb_true_iff in Hc. destruct Hc as [Hc|Hc]; [right|left; exact Hc].
    apply existsb_exists in Hc. destruct Hc as ([l' a] & Hin & Hcall). apply closest_In in Hin.
    destruct Hin as (b' & f & -> & Hp' & Hu & Ha). exists b', f. split; [exact Hp'|]. split; [exact Hu|].
    unfold is_callable in Hcall. apply orb_true_iff in Hcall. rewrite !casts_eq in Hcall. cbn [snd] in Hcall.
    destruct Hcall as [Hcall|Hcall]; [left|right]; exists a; auto.
Qed.
Theorem C66_impls_once td l : NoDup (map loc_id (ink_impls td l)).
Proof. apply unique_by_nodup. apply Nat.eqb_eq. Qed.
Theorem C66_impls_cover td t up near p far n k :
  NoDup (map n_id (self_and_below t)) -> n_kind t = MODULE -> k = AkArg AConstructor \/ k = AkArg AMessage ->
  In (n, (near ++ p :: far) ++ t :: up) (ink_callables k (t, up)) ->
  n_kind n = FN -> no_item near -> n_kind p = IMPL -> unannotated near -> unannotated far ->
  In (p, far ++ t :: up) (ink_impls td (t, up)).
Proof.
  intros Hnd Ht Hk Hin Hn Hni Hp Hun Huf. apply C66_callables in Hin; [|exact Hnd|exact Hk].
  destruct Hin as (b & n' & E & Hpath & Hd & Hb). injection E as <- E. apply app_inv_tail in E. subst b.
  destruct Hb as [Hu|(b1 & o & b2 & a & E & Hu1 & Hu2 & Ha & Hl)].
  - apply (callable_impl td t up near p far n k); auto.
    left. apply Hu. apply in_app_iff. right. left. reflexivity.
  - assert (Ho : annotated o = true) by (apply annotated_spec; exists a; exact Ha).
    assert (Hin : In o (near ++ p :: far)) by (rewrite E; apply in_app_iff; right; left; reflexivity).
    apply in_app_iff in Hin. destruct Hin as [Hin|[->|Hin]].
    + specialize (Hun o Hin). congruence.
    + apply (callable_impl td t up near o far n k); auto. right. exists a. split; [exact Ha|].
      destruct Hl as [Hl|[_ Hl]]; tauto.
    + specialize (Huf o Hin). congruence.
Qed.

(** An attribute written twice makes two entities of one item: [#[ink(storage)] #[ink(storage)] struct S] is
    reported as two storage items, while the same message twice is one message. *)
Definition ex_twice : tree :=
  Nd 0 MODULE (0, 30) None [Nd 10 STRUCT (10, 20) None [exn (AkArg AStorage) 11; exn (AkArg AStorage) 12]].
Example ex_twice_well_formed : well_formed ex_twice.
Proof.
  split.
  - intros n Hn. cbn in Hn. repeat destruct Hn as [<-|Hn]; try destruct Hn;
      (split; [cbn; repeat split; lia
              | intros a Ha; try discriminate Ha; injection Ha as <-; cbn; repeat split; lia
              | cbn; intros E d Hd; try discriminate E; destruct Hd]).
  - cbn. repeat constructor; cbn; intuition congruence.
Qed.
Theorem C66_closest_once_refuted :
  exists t, well_formed t
    /\ (exists n, forall b m, path t b m -> declared (AkArg AStorage) m -> m = n)
    /\ length (ink_closest_descendants (AkArg AStorage) (t, [])) = 2
    /\ exactly_one (fun _ => true) (ink_closest_descendants (AkArg AStorage) (t, [])) <> [].
Proof.
  exists ex_twice. split; [exact ex_twice_well_formed|]. split; [|split; [reflexivity | vm_compute; discriminate]].
  exists (Nd 10 STRUCT (10, 20) None [exn (AkArg AStorage) 11; exn (AkArg AStorage) 12]).
  intros b m Hp Hd. assert (Hin : In m (map snd (below ex_twice))) by (apply below_In; exists b; exact Hp).
  cbn in Hin. repeat destruct Hin as [<-|Hin]; try destruct Hin; try reflexivity;
    destruct Hd as (a & Ha & _); destruct Ha.
Qed.
(** Without repeated attributes each such item is found once. *)
Theorem C66_closest_once k t up :
  well_formed t ->
  (forall b n, path t b n -> length (filter (fun a => attr_kind_eqb (at_kind a) k) (attrs_of n)) <= 1) ->
  NoDup (map loc_id (ink_closest_descendants k (t, up))).
Proof.
  intros [_ H] Hone. rewrite closest_entities_list, map_flat_map.
  assert (Hb : forall x, In x (closest_nodes t) -> In x (below t)) by (intros x Hx; apply filter_In in Hx; apply Hx).
  assert (Hnd : NoDup (map (fun x => n_id (snd x)) (closest_nodes t))).
  { unfold closest_nodes. apply (sub_nodup (fun x : list tree * tree => n_id (snd x)) _ (below t)); [eexists; reflexivity|].
    unfold self_and_below in H. cbn [map] in H. inversion H. rewrite map_map in *. assumption. }
  revert Hb Hnd. generalize (closest_nodes t). intros L. induction L as [|[b n] L IH]; intros Hb Hnd; [constructor|].
  cbn [flat_map fst snd]. cbn [map] in Hnd. inversion Hnd as [|x l Hx Hnd']. subst.
  assert (Hp : path t b n) by (apply below_path; apply Hb; left; reflexivity).
  specialize (Hone b n Hp).
  assert (IH' : NoDup (flat_map (fun x => map loc_id (map (fun _ : ink_attr => (snd x, fst x ++ t :: up))
      (filter (fun a : ink_attr => attr_kind_eqb (at_kind a) k) (attrs_of (snd x))))) L)).
  { apply IH; [intros x Hin; apply Hb; right; exact Hin | exact Hnd']. }
  destruct (filter _ (attrs_of n)) as [|a [|a' l]]; [exact IH' | | simpl in Hone; lia].
  cbn [map app]. constructor; [|exact IH'].
  intros Hin. apply Hx. apply in_flat_map in Hin. destruct Hin as ([b' n'] & Hin1 & Hin2).
  apply in_map_iff. exists (b', n'). split; [|exact Hin1]. rewrite map_map in Hin2. apply in_map_iff in Hin2.
  destruct Hin2 as (_ & E & _). exact E.
Qed.

Example C66_example :
  let c := contract_of (fun _ => false) (ex_contract, [ex_file]) in
  option_map loc_id (co_storage c) = Some 10 /\ map loc_id (co_events c) = [20]
  /\ map loc_id (co_messages c) = [30] /\ map loc_id (co_impls c) = [28] /\ co_constructors c = []
  /\ map loc_id (fi_contracts (file_of (ex_file, []))) = [1].
Proof. vm_compute. auto 10. Qed.

(** ** C67 *)

(** Storage, events and [impl] blocks of a contract are reported exactly when some other item lies between them
    and the contract. *)
Theorem C67_root_items td t up b n :
  NoDup (map n_id (self_and_below t)) -> n_kind t = MODULE -> declared (AkMacro MContract) t -> path t b n ->
  (In (n, b ++ t :: up) (ensure_root_items td (t, up)) <->
   (In (n, b ++ t :: up) (ink_closest_descendants (AkArg AStorage) (t, up))
    \/ In (n, b ++ t :: up) (co_events (contract_of td (t, up)))
    \/ In (n, b ++ t :: up) (co_impls (contract_of td (t, up))))
   /\ exists i, In i b /\ is_item (n_kind i) = true).
Proof.
  intros Hnd Ht Hd Hp. unfold ensure_root_items. rewrite filter_In, !in_app_iff, negb_true_iff.
  assert (Hi : is_item (n_kind t) = true) by (rewrite Ht; reflexivity).
  pose proof (in_root_spec t up b n Hnd Hi Hd Hp) as Hs.
  assert (E : in_contract_root (t, up) (n, b ++ t :: up) = false <-> exists i, In i b /\ is_item (n_kind i) = true).
  { split.
    - intros Ef. destruct (existsb (fun i => is_item (n_kind i)) b) eqn:Eb.
      + apply existsb_exists in Eb. exact Eb.
      + assert (no_item b) as Hno.
        { intros m Hm. destruct (is_item (n_kind m)) eqn:Em; [|reflexivity].
          assert (existsb (fun i => is_item (n_kind i)) b = true) by (apply existsb_exists; exists m; auto). congruence. }
        apply Hs in Hno. congruence.
    - intros (i & Hin & Hii). destruct (in_contract_root _ _) eqn:Er; [|reflexivity].
      pose proof (proj1 Hs eq_refl i Hin). congruence. }
  rewrite E. tauto.
Qed.
(** Messages and constructors are reported exactly when they are not functions whose nearest enclosing item is an
    [impl] block. *)
Theorem C67_callables td t up n above :
  In (n, above) (ensure_impl_parents td (t, up)) <->
  (In (n, above) (co_constructors (contract_of td (t, up))) \/ In (n, above) (co_messages (contract_of td (t, up))))
  /\ ~ (n_kind n = FN /\ exists near p far, above = near ++ p :: far /\ no_item near /\ n_kind p = IMPL).
Proof.
  unfold ensure_impl_parents. rewrite filter_In, in_app_iff, negb_true_iff.
  assert (E : is_some (parent_impl_item (n, above)) = true
              <-> n_kind n = FN /\ exists near p far, above = near ++ p :: far /\ no_item near /\ n_kind p = IMPL).
  { unfold parent_impl_item, parent_ast_item, loc_kind. cbn [fst snd]. split.
    - intros H. destruct (n_kind n); try discriminate. split; [reflexivity|].
      pose proof (nearest_item_spec above) as Hs. destruct (nearest_item above) as [[p far]|]; [|discriminate].
      destruct Hs as (near & E & Hn & _). exists near, p, far. split; [exact E|]. split; [exact Hn|].
      cbn [fst] in H. destruct (n_kind p); try discriminate; reflexivity.
    - intros [-> (near & p & far & -> & Hn & Hp)]. rewrite nearest_item_split; [|exact Hn|rewrite Hp; reflexivity].
      cbn [fst]. rewrite Hp. reflexivity. }
  rewrite <- E. destruct (is_some _); intuition congruence.
Qed.
Example C67_example :
  map loc_id (ensure_root_items (fun _ => false) (ex_contract, [ex_file])) = [20]
  /\ ensure_impl_parents (fun _ => false) (ex_contract, [ex_file]) = [].
Proof. vm_compute. auto. Qed.

Print Assumptions C25_closest_exact.
Print Assumptions C25_closest_order.
Print Assumptions C25_closest_exists.
Print Assumptions C25_descendants_exact.
Print Assumptions C25_descendants_order.
Print Assumptions C25_in_scope_exact.
Print Assumptions C26_closest_ancestors.
Print Assumptions C26_closest_ancestors_attr.
Print Assumptions C26_nearest_unique.
Print Assumptions C26_ancestors.
Print Assumptions C26_ancestors_attr.
Print Assumptions C26_agrees_with_C25.
Print Assumptions C48_sound.
Print Assumptions C48_once.
Print Assumptions C48_complete_partial.
Print Assumptions C48_complete_refuted.
Print Assumptions C48_no_descendants.
Print Assumptions C48_nothing_below.
Print Assumptions C48_file.
Print Assumptions C66_closest_entities.
Print Assumptions C66_storage.
Print Assumptions C66_callables.
Print Assumptions C66_callables_once.
Print Assumptions C66_file_entities.
Print Assumptions C66_file_entities_once.
Print Assumptions C66_contract.
Print Assumptions C66_file.
Print Assumptions C66_impls_sound.
Print Assumptions C66_impls_once.
Print Assumptions C66_impls_cover.
Print Assumptions C66_closest_once.
Print Assumptions C66_closest_once_refuted.
Print Assumptions C67_root_items.
Print Assumptions C67_callables.
