(** Property theorems about suggestions and attribute diagnostics (C36, C39, C44, C45, C65). *)
From Verif Require Import Base BaseFacts PositionModel SyntaxModel VersionModel AttrModel AttrSpec AttrProofs
  SuggestModel SuggestSpec SuggestProofs.

(** Attributes for the examples: [ex_attr k args n] is at place [n] and has the arguments named [args]. *)
Definition ex_arg (name : string) : ink_arg := Meta (MOk (0, Tok IDENT (lit name))) None MNone None 0 None.
Definition ex_attr (k : attr_kind) (args : list string) (n : nat) : ink_attr :=
  InkAttr k (map ex_arg args) (AttrSyntax [] None (n, S n)) None.

(** *** C36: duplicates *)

(** C36. An argument is reported as a duplicate exactly when an argument of the same known kind is written before
    it, in the same or in an earlier attribute of the item. *)
Theorem C36_duplicate_arguments : forall attrs a x,
  In (RDuplicateArg a x) (ensure_no_duplicates attrs) <->
  exists before after, placed_args attrs = before ++ (a, x) :: after /\ ia_kind x <> AUnknown
    /\ exists b y, In (b, y) before /\ ia_kind y = ia_kind x.
Proof.
  intros attrs a x. unfold ensure_no_duplicates. rewrite duplicates_arg. split.
  - intros (L & R & E & H1 & [[]|H2]). exists L, R. repeat split; try assumption.
    unfold placed_kinds in H2. apply in_map_iff in H2. destruct H2 as ([b y] & H2 & H3). exists b, y. split; assumption.
  - intros (L & R & E & H1 & b & y & H2 & H3). exists L, R. repeat split; try assumption. right.
    unfold placed_kinds. rewrite <- H3. apply (in_map (fun cy => ia_kind (snd cy)) L (b, y)). exact H2.
Qed.
(** C36. The same for attribute macros. *)
Theorem C36_duplicate_macros : forall attrs a,
  In (RDuplicateMacro a) (ensure_no_duplicates attrs) <->
  exists before after m, attrs = before ++ a :: after /\ at_kind a = AkMacro m /\ m <> MUnknown
    /\ exists b, In b before /\ at_kind b = AkMacro m.
Proof.
  intros attrs a. unfold ensure_no_duplicates. rewrite duplicates_macro. split.
  - intros (l & r & m & E & H1 & H2 & [[]|H3]). exists l, r, m. repeat split; try assumption.
    apply in_map_iff in H3. destruct H3 as (b & Hb & Hb'). exists b. split; assumption.
  - intros (l & r & m & E & H1 & H2 & b & Hb & Hb'). exists l, r, m. repeat split; try assumption. right.
    rewrite <- Hb'. apply in_map. exact Hb.
Qed.
(** C36. Nothing else is reported by the duplicate check. *)
Theorem C36_only_duplicates : forall attrs r,
  In r (ensure_no_duplicates attrs) -> (exists a, r = RDuplicateMacro a) \/ (exists a x, r = RDuplicateArg a x).
Proof. intros attrs r. apply duplicates_only. Qed.
(** C36. Of every known kind on the item, all arguments but one are reported, and that one is the first: removing
    what is reported loses no kind and leaves none twice. *)
Theorem C36_one_argument_stays : forall attrs k,
  NoDup (placed_args attrs) -> In k (present_args attrs) -> k <> AUnknown ->
  exists before kept after, placed_args attrs = before ++ kept :: after
    /\ ia_kind (snd kept) = k
    /\ ~ In (RDuplicateArg (fst kept) (snd kept)) (ensure_no_duplicates attrs)
    /\ (forall b y, In (b, y) before -> ia_kind y <> k)
    /\ (forall b y, In (b, y) after -> ia_kind y = k -> In (RDuplicateArg b y) (ensure_no_duplicates attrs)).
Proof.
  intros attrs k ND Hk Hu. rewrite <- placed_present in Hk.
  destruct (first_occurrence _ _ Hk) as (b & c & E & Hb). destruct (placed_split _ _ _ _ E) as (L & [a x] & R & EL & EB & EK & ER).
  simpl in EK. exists L, (a, x), R. split; [exact EL|]. split; [exact EK|]. simpl fst; simpl snd. split; [|split].
  - rewrite C36_duplicate_arguments. intros (L' & R' & E' & _ & d & y & Hd & Hy).
    assert (L = L').
    { rewrite EL in E', ND. clear -E' ND. revert L' E'. induction L as [|z L IH]; intros [|z' L'] E'; simpl in *.
      - reflexivity.
      - exfalso. injection E' as <- E'. inversion ND as [|? ? H _]; subst. apply H. apply in_app_iff; right; left; reflexivity.
      - exfalso. injection E' as -> E'. inversion ND as [|? ? H _]; subst. apply H. apply in_app_iff; right; left; reflexivity.
      - injection E' as -> E'. f_equal. apply IH; [inversion ND; assumption | exact E']. }
    subst L'. apply Hb. rewrite <- EB. unfold placed_kinds. rewrite <- EK, <- Hy.
    apply (in_map (fun cy => ia_kind (snd cy)) L (d, y)). exact Hd.
  - intros d y Hd Hy. apply Hb. rewrite <- EB. unfold placed_kinds. rewrite <- Hy.
    apply (in_map (fun cy => ia_kind (snd cy)) L (d, y)). exact Hd.
  - intros d y Hd Hy. apply C36_duplicate_arguments. apply in_split in Hd. destruct Hd as (R1 & R2 & ->).
    exists (L ++ (a, x) :: R1), R2. split; [rewrite EL, <- app_assoc; reflexivity|]. split; [congruence|].
    exists a, x. split; [apply in_app_iff; right; left; reflexivity | congruence].
Qed.
Example C36_example :
  let a := ex_attr (AkArg AMessage) ["message"%string; "payable"%string] 0 in
  let b := ex_attr (AkArg APayable) ["payable"%string; "foo"%string; "foo"%string] 1 in
  ensure_no_duplicates [a; b] = [RDuplicateArg b (ex_arg "payable")]
  /\ ensure_no_duplicates [a; a] = [RDuplicateArg a (ex_arg "message"); RDuplicateArg a (ex_arg "payable")].
Proof. split; reflexivity. Qed.
(** C36 is false for attribute macros: the quick fix removes the whole attribute (common.rs L466-474), with the
    arguments that are written only there, as in [#[ink::contract] #[ink::contract(env = E)]]. *)
Theorem C36_duplicate_macro_fix_refuted :
  exists a b x, ensure_no_duplicates [a; b] = [RDuplicateMacro b] /\ In x (at_args b)
    /\ ~ In (ia_kind x) (present_args [a]) /\ ia_kind x = AEnv.
Proof.
  exists (ex_attr (AkMacro MContract) [] 0), (ex_attr (AkMacro MContract) ["env"%string] 1), (ex_arg "env").
  split; [reflexivity|]. split; [left; reflexivity|]. split; [intros [] | reflexivity].
Qed.

(** *** C39: quantity rules *)

(** C39. "At least one": reported once, exactly when there is none. *)
Theorem C39_at_least_one : forall T (items : list T),
  (items = [] -> at_least_one items = [QMissing]) /\ (items <> [] -> at_least_one items = []).
Proof. intros T items. destruct items; split; try reflexivity; congruence. Qed.
(** C39. "At most one" and "exactly one": every item but the first is reported, once and in order. *)
Theorem C39_at_most_one : forall T attr (x : T) items,
  at_most_one attr (x :: items) = map (fun y => QTooMany y (attr y)) items
  /\ exactly_one attr (x :: items) = map (fun y => QTooMany y (attr y)) items.
Proof.
  intros T attr x items.
  assert (H : at_most_one attr (x :: items) = map (fun y => QTooMany y (attr y)) items) by (destruct items; reflexivity).
  split; [exact H|]. simpl. exact H.
Qed.
Theorem C39_none : forall T attr, @at_most_one T attr [] = [] /\ @exactly_one T attr [] = [QMissing].
Proof. intros; split; reflexivity. Qed.
(** C39. The checks accept exactly the right numbers of items. *)
Theorem C39_accepted : forall T attr (items : list T),
  (at_least_one items = [] <-> 1 <= length items)
  /\ (at_most_one attr items = [] <-> length items <= 1)
  /\ (exactly_one attr items = [] <-> length items = 1).
Proof.
  intros T attr items. destruct items as [|x [|y items]]; simpl; repeat split; intros; try reflexivity; try discriminate; lia.
Qed.

(** *** C44: suggestions *)

(** C44. What is suggested inside an attribute is not on the item already, and goes with its primary attribute. *)
Lemma completion_arguments : forall a it parent v k,
  In k (completion_args a it parent v) ->
  ~ In k (present_args (it_attrs it))
  /\ (forall p b, primary_candidate (it_attrs it) = Some (p, b) ->
        In k (sibling_args (at_kind p) v)
        /\ (v = V5 -> (k = ASignatureTopic -> ~ In AAnonymous (present_args (it_attrs it)))
                      /\ (k = AAnonymous -> ~ In ASignatureTopic (present_args (it_attrs it)))))
  /\ (attr_kind_unknown (at_kind a) = false -> In k (sibling_args (at_kind a) v))
  /\ (attr_kind_unknown (at_kind a) = true -> forall s, parent = Some s -> In k (args_by_syntax s v))
  /\ (forall c, at_kind a = AkArg c ->
        forall s, In s (it_scope it) -> descendant_args (at_kind s) v <> [] ->
        exists s', In s' (it_scope it) /\ In k (descendant_args (at_kind s') v)).
Proof.
  intros a it parent v k H. unfold completion_args in H. pose proof H as H0. apply remove_invalid_args_In in H.
  destruct H as (H1 & H2 & H3). split; [exact H2|]. split; [|split; [|split]].
  - intros p b P. split; [exact (H3 p b P)|]. intros ->.
    assert (H' : exists s, In k (remove_conflicting_args s it V5)).
    { unfold remove_invalid_args in H0. destruct (at_kind a); [|apply remove_invalid_for_scope_In in H0; destruct H0 as [H0 _]]; eexists; exact H0. }
    destruct H' as (s & H'). destruct (remove_conflicting_args_exclusive _ _ _ _ _ P H') as [E1 E2].
    split; intros Ek Hp; [apply E1 | apply E2]; split; assumption.
  - intros E. rewrite E in H1. exact H1.
  - intros E s ->. rewrite E in H1. exact H1.
  - intros c Ec s Hs Hne. destruct (remove_invalid_args_scope _ _ _ _ _ _ Ec H0) as [E|E].
    + exfalso. apply Hne. destruct (descendant_args (at_kind s) v) as [|d l] eqn:Ed; [reflexivity|].
      assert (Hd : In d (flat_map (fun a => descendant_args (at_kind a) v) (it_scope it))).
      { apply in_flat_map. exists s. split; [exact Hs | rewrite Ed; left; reflexivity]. }
      rewrite E in Hd. destruct Hd.
    + apply in_flat_map in E. exact E.
Qed.
(** C44. The argument actions on an attribute. *)
Lemma attribute_action_arguments : forall a closed it v k,
  In k (attr_action_args a closed it v) ->
  closed = true /\ it_td_message it = false
  /\ ~ In k (present_args (it_attrs it)) /\ In k (sibling_args (at_kind a) v)
  /\ (forall p b, primary_candidate (it_attrs it) = Some (p, b) -> In k (sibling_args (at_kind p) v))
  /\ (forall c, at_kind a = AkArg c ->
        forall s, In s (it_scope it) -> descendant_args (at_kind s) v <> [] ->
        exists s', In s' (it_scope it) /\ In k (descendant_args (at_kind s') v)).
Proof.
  intros a closed it v k H. unfold attr_action_args in H. destruct (closed && negb (it_td_message it)) eqn:C; [|destruct H].
  rewrite andb_true_iff, negb_true_iff in C. destruct C as [C1 C2]. split; [exact C1|]. split; [exact C2|].
  pose proof H as H0. apply remove_invalid_args_In in H. destruct H as (H1 & H2 & H3).
  split; [exact H2|]. split; [exact H1|]. split; [exact H3|].
  intros c Ec s Hs Hne. destruct (remove_invalid_args_scope _ _ _ _ _ _ Ec H0) as [E|E].
  - exfalso. apply Hne. destruct (descendant_args (at_kind s) v) as [|d l] eqn:Ed; [reflexivity|].
    assert (Hd : In d (flat_map (fun a => descendant_args (at_kind a) v) (it_scope it))).
    { apply in_flat_map. exists s. split; [exact Hs | rewrite Ed; left; reflexivity]. }
    rewrite E in Hd. destruct Hd.
  - apply in_flat_map in E. exact E.
Qed.
(** C44. The argument actions on an item's declaration. *)
Lemma item_action_arguments : forall it v k,
  In k (item_action_args it v) ->
  it_td_message it = false
  /\ ~ In k (present_args (it_attrs it))
  /\ (forall p b, primary_candidate (it_attrs it) = Some (p, b) -> In k (sibling_args (at_kind p) v))
  /\ (primary_candidate (it_attrs it) = None -> In k (args_by_syntax (it_kind it) v))
  /\ ~ (it_kind it = IMPL /\ it_trait_impl it = true /\ k = ANamespace)
  /\ ((forall p b m, primary_candidate (it_attrs it) = Some (p, b) -> at_kind p <> AkMacro m) ->
        forall s, In s (it_scope it) -> descendant_args (at_kind s) v <> [] ->
        exists s', In s' (it_scope it) /\ In k (descendant_args (at_kind s') v)).
Proof.
  intros it v k H. unfold item_action_args in H. destruct (it_td_message it); [destruct H|]. split; [reflexivity|].
  set (base := match primary_candidate (it_attrs it) with Some (p, _) => sibling_args (at_kind p) v | None => args_by_syntax (it_kind it) v end) in H.
  set (t := remove_invalid_for_item _ it) in H.
  assert (Ht : In k t).
  { destruct (primary_candidate (it_attrs it)) as [[p b]|];
      [destruct (at_kind p)|]; try (apply remove_invalid_for_scope_In in H); tauto. }
  unfold t in Ht. apply remove_invalid_for_item_In in Ht. destruct Ht as [Ht Hn].
  pose proof Ht as Hc. apply remove_conflicting_args_incl, remove_duplicate_args_In in Ht. destruct Ht as [Hb Hp].
  split; [exact Hp|]. split; [intros p b P; exact (remove_conflicting_args_sibling _ _ _ _ _ _ P Hc)|].
  split; [intros E; unfold base in Hb; rewrite E in Hb; exact Hb|]. split; [exact Hn|].
  intros Hm s Hs Hne.
  assert (Hsc : In k (remove_invalid_for_scope t it v)).
  { destruct (primary_candidate (it_attrs it)) as [[p b]|]; [|exact H].
    destruct (at_kind p) as [m|] eqn:Ek; [destruct (Hm p b m eq_refl Ek) | exact H]. }
  apply remove_invalid_for_scope_In in Hsc. destruct Hsc as [_ [E|E]].
  - exfalso. apply Hne. destruct (descendant_args (at_kind s) v) as [|d l] eqn:Ed; [reflexivity|].
    assert (Hd : In d (flat_map (fun a => descendant_args (at_kind a) v) (it_scope it))).
    { apply in_flat_map. exists s. split; [exact Hs | rewrite Ed; left; reflexivity]. }
    rewrite E in Hd. destruct Hd.
  - apply in_flat_map in E. exact E.
Qed.
(** C44. Nothing is suggested twice. *)
Theorem C44_no_repetition : forall a closed it parent v,
  NoDup (completion_args a it parent v) /\ NoDup (attr_action_args a closed it v) /\ NoDup (item_action_args it v)
  /\ NoDup (item_action_macros it v).
Proof.
  intros a closed it parent v. split; [|split; [|split]].
  - unfold completion_args. apply remove_invalid_args_NoDup. destruct (attr_kind_unknown (at_kind a)).
    + destruct parent; [apply args_by_syntax_NoDup | apply args_unknown_item_NoDup].
    + apply sibling_args_NoDup.
  - unfold attr_action_args. destruct (_ && _); [apply remove_invalid_args_NoDup, sibling_args_NoDup | constructor].
  - unfold item_action_args. destruct (it_td_message it); [constructor|].
    set (t := remove_invalid_for_item _ it).
    assert (Ht : NoDup t).
    { unfold t, remove_invalid_for_item. set (u := remove_conflicting_args _ it v).
      assert (Hu : NoDup u).
      { apply remove_conflicting_args_NoDup, NoDup_filter. destruct (primary_candidate (it_attrs it)) as [[p b]|];
          [apply sibling_args_NoDup | apply args_by_syntax_NoDup]. }
      destruct (_ && _); [apply NoDup_filter, Hu | exact Hu]. }
    clearbody t. destruct (primary_candidate (it_attrs it)) as [[p b]|];
      [destruct (at_kind p)|]; try apply remove_invalid_for_scope_NoDup; exact Ht.
  - unfold item_action_macros. destruct (it_attrs it); [|constructor].
    unfold remove_invalid_macros_for_cfg. set (u := remove_invalid_macros_for_scope _ it v).
    assert (Hu : NoDup u) by (apply remove_invalid_macros_for_scope_NoDup, NoDup_filter, macros_by_syntax_NoDup).
    destruct (existsb _ u); [apply NoDup_filter, Hu | exact Hu].
Qed.
(** C44. Nothing valid is hidden: a companion of the item's primary attribute that is absent, allowed in the
    scope and not excluded is offered. *)
Lemma item_action_complete : forall it v p b k,
  it_td_message it = false -> primary_candidate (it_attrs it) = Some (p, b) ->
  In k (sibling_args (at_kind p) v) -> ~ In k (present_args (it_attrs it)) ->
  (v = V5 -> ~ In AAnonymous (present_args (it_attrs it)) /\ ~ In ASignatureTopic (present_args (it_attrs it))) ->
  ~ (it_kind it = IMPL /\ it_trait_impl it = true /\ k = ANamespace) ->
  (forall c, at_kind p = AkArg c -> exists s, In s (it_scope it) /\ In k (descendant_args (at_kind s) v)) ->
  In k (item_action_args it v).
Proof.
  intros it v p b k Htd P Hs Hn Hex Hi Hsc. unfold item_action_args. rewrite Htd, P.
  set (t := remove_invalid_for_item _ it).
  assert (Ht : In k t).
  { apply remove_invalid_for_item_In. split; [|exact Hi].
    assert (Hd : In k (remove_duplicate_args (sibling_args (at_kind p) v) it)) by (apply remove_duplicate_args_In; tauto).
    assert (Hf : In k (filter (contains_arg (sibling_args (at_kind p) v)) (remove_duplicate_args (sibling_args (at_kind p) v) it))).
    { apply filter_In. split; [exact Hd | apply contains_arg_In; exact Hs]. }
    unfold remove_conflicting_args. rewrite P. destruct v; [exact Hf|].
    destruct (is_event_kind (at_kind p)) eqn:Ev; [|exact Hf]. destruct (Hex eq_refl) as [X1 X2].
    destruct (has_arg (it_attrs it) AAnonymous) eqn:A1; [apply has_arg_In in A1; contradiction|].
    destruct (has_arg (it_attrs it) ASignatureTopic) eqn:A2; [apply has_arg_In in A2; contradiction|].
    rewrite !orb_false_r. destruct (attr_kind_eqb (at_kind p) (AkArg AAnonymous) || _) eqn:E; [|exact Hf].
    apply filter_In. split; [exact Hf|].
    apply orb_true_iff in E. destruct E as [E|E]; apply attr_kind_eqb_eq in E; rewrite E in Hs |- *;
      simpl in Hs; destruct Hs as [<-|[]]; reflexivity. }
  clearbody t. destruct (at_kind p) as [m|c] eqn:Ek; [exact Ht|]. apply remove_invalid_for_scope_In.
  split; [exact Ht|]. right. apply in_flat_map. exact (Hsc c eq_refl).
Qed.
(** C44. Attribute macros are only offered on items without ink! attributes, where the enclosing ink! item allows
    them, and test macros only under [cfg(test)] / [cfg(all(test, feature = "e2e-tests"))]. *)
Lemma item_action_macros_exact : forall it v m,
  In m (item_action_macros it v) <->
  it_attrs it = [] /\ In m (macros_by_syntax (it_kind it) v)
  /\ (it_scope it = [] \/ exists s, In s (it_scope it) /\ In m (descendant_macros (at_kind s) v))
  /\ (m = MTest -> it_cfg_test it = true) /\ (m = ME2ETest -> it_cfg_test it = true /\ it_cfg_e2e it = true).
Proof.
  intros it v m. unfold item_action_macros. destruct (it_attrs it) eqn:Ea.
  - rewrite remove_invalid_macros_for_cfg_In, remove_invalid_macros_for_scope_In.
    unfold remove_duplicate_macros. rewrite Ea, filter_In, in_flat_map. simpl. tauto.
  - split; [intros [] | intros [H _]; discriminate H].
Qed.
(** C44. Macro completions: allowed by the enclosing ink! item, fitting what has been typed. *)
Lemma completion_macros_exact : forall it others keyword in_path crate prefix v m,
  In m (completion_macros it others keyword in_path crate prefix v) <->
  others = false
  /\ (match keyword with Some k => In m (macros_by_syntax k v) | None => in_path = true /\ In m (macros_unknown_item v) end)
  /\ (forall c, crate = Some c -> macro_crate m = c)
  /\ (forall p, prefix = Some p -> exists rest, macro_name m = p ++ rest)
  /\ (it_scope it = [] \/ exists s, In s (it_scope it) /\ In m (descendant_macros (at_kind s) v)).
Proof.
  intros it others keyword in_path crate prefix v m. unfold completion_macros. destruct others.
  { split; [intros [] | intros [H _]; discriminate H]. }
  rewrite remove_invalid_macros_for_scope_In, in_flat_map.
  set (s1 := match keyword with Some k => _ | None => _ end).
  assert (H1 : In m s1 <-> match keyword with Some k => In m (macros_by_syntax k v)
                           | None => in_path = true /\ In m (macros_unknown_item v) end).
  { unfold s1. destruct keyword; [tauto|]. destruct in_path; simpl; intuition discriminate. }
  set (s2 := match crate with Some c => _ | None => _ end).
  assert (H2 : In m s2 <-> In m s1 /\ (forall c, crate = Some c -> macro_crate m = c)).
  { unfold s2. destruct crate as [c|].
    - rewrite filter_In, str_eqb_eq. split; [intros [A B]; split; [exact A|]; intros d E; congruence|].
      intros [A B]. split; [exact A | apply B; reflexivity].
    - split; [intros A; split; [exact A | discriminate] | tauto]. }
  set (s3 := match prefix with Some p => _ | None => _ end).
  assert (H3 : In m s3 <-> In m s2 /\ (forall p, prefix = Some p -> exists rest, macro_name m = p ++ rest)).
  { unfold s3. destruct prefix as [p|].
    - rewrite filter_In, starts_with_app. split; [intros [A B]; split; [exact A|]; intros d E; injection E as <-; exact B|].
      intros [A B]. split; [exact A | apply B; reflexivity].
    - split; [intros A; split; [exact A | discriminate] | tauto]. }
  rewrite H3, H2, H1. tauto.
Qed.
(** C44. What is suggested inside an attribute is not on the item already, goes with its primary attribute and with
    the attribute itself, and belongs where it is written. *)
Theorem C44_completion_arguments : forall a it parent v k,
  In k (completion_args a it parent v) ->
  ~ In k (present_args (it_attrs it))
  /\ (forall p b, primary_candidate (it_attrs it) = Some (p, b) ->
        goes_with v (at_kind p) k
        /\ (forall x, In x (present_args (it_attrs it)) -> ~ exclusive v x k))
  /\ (attr_kind_unknown (at_kind a) = false -> goes_with v (at_kind a) k)
  /\ (attr_kind_unknown (at_kind a) = true -> forall s, parent = Some s -> In s (carriers v k))
  /\ (forall c, at_kind a = AkArg c ->
        forall s x, In s (it_scope it) -> declares v (at_kind s) -> belongs v x (at_kind s) ->
        exists s', In s' (it_scope it) /\ belongs v k (at_kind s')).
Proof.
  intros a it parent v k H. apply completion_arguments in H. destruct H as (H1 & H2 & H3 & H4 & H5).
  split; [exact H1|]. split; [|split; [|split]].
  - intros p b P. destruct (H2 p b P) as [A B]. split; [apply sibling_goes_with; exact A|].
    intros x Hx (-> & [[-> ->]|[-> ->]]); destruct (B eq_refl) as [B1 B2]; [exact (B1 eq_refl Hx) | exact (B2 eq_refl Hx)].
  - intros E. apply sibling_goes_with, H3, E.
  - intros E s Es. apply syntax_carriers, H4; assumption.
  - intros c Ec s x Hs Hd Hx. apply belongs_descendant in Hx; [|exact Hd].
    assert (Hne : descendant_args (at_kind s) v <> []) by (intros E; rewrite E in Hx; destruct Hx).
    destruct (H5 c Ec s Hs Hne) as (s' & Hs' & Hk). exists s'. split; [exact Hs' | apply descendant_belongs; exact Hk].
Qed.
(** C44. The argument actions on an attribute. *)
Theorem C44_attribute_action_arguments : forall a closed it v k,
  In k (attr_action_args a closed it v) ->
  closed = true /\ it_td_message it = false
  /\ ~ In k (present_args (it_attrs it)) /\ goes_with v (at_kind a) k
  /\ (forall p b, primary_candidate (it_attrs it) = Some (p, b) -> goes_with v (at_kind p) k)
  /\ (forall c, at_kind a = AkArg c ->
        forall s x, In s (it_scope it) -> declares v (at_kind s) -> belongs v x (at_kind s) ->
        exists s', In s' (it_scope it) /\ belongs v k (at_kind s')).
Proof.
  intros a closed it v k H. apply attribute_action_arguments in H. destruct H as (H1 & H2 & H3 & H4 & H5 & H6).
  split; [exact H1|]. split; [exact H2|]. split; [exact H3|]. split; [apply sibling_goes_with; exact H4|].
  split; [intros p b P; apply sibling_goes_with; exact (H5 p b P)|].
  intros c Ec s x Hs Hd Hx. apply belongs_descendant in Hx; [|exact Hd].
  assert (Hne : descendant_args (at_kind s) v <> []) by (intros E; rewrite E in Hx; destruct Hx).
  destruct (H6 c Ec s Hs Hne) as (s' & Hs' & Hk). exists s'. split; [exact Hs' | apply descendant_belongs; exact Hk].
Qed.
(** C44. The argument actions on an item's declaration. *)
Theorem C44_item_action_arguments : forall it v k,
  In k (item_action_args it v) ->
  it_td_message it = false
  /\ ~ In k (present_args (it_attrs it))
  /\ (forall p b, primary_candidate (it_attrs it) = Some (p, b) -> goes_with v (at_kind p) k)
  /\ (primary_candidate (it_attrs it) = None -> In (it_kind it) (carriers v k))
  /\ ~ (it_kind it = IMPL /\ it_trait_impl it = true /\ k = ANamespace)
  /\ ((forall p b m, primary_candidate (it_attrs it) = Some (p, b) -> at_kind p <> AkMacro m) ->
        forall s x, In s (it_scope it) -> declares v (at_kind s) -> belongs v x (at_kind s) ->
        exists s', In s' (it_scope it) /\ belongs v k (at_kind s')).
Proof.
  intros it v k H. apply item_action_arguments in H. destruct H as (H1 & H2 & H3 & H4 & H5 & H6).
  split; [exact H1|]. split; [exact H2|]. split; [intros p b P; apply sibling_goes_with; exact (H3 p b P)|].
  split; [intros E; apply syntax_carriers, H4, E|]. split; [exact H5|].
  intros Hm s x Hs Hd Hx. apply belongs_descendant in Hx; [|exact Hd].
  assert (Hne : descendant_args (at_kind s) v <> []) by (intros E; rewrite E in Hx; destruct Hx).
  destruct (H6 Hm s Hs Hne) as (s' & Hs' & Hk). exists s'. split; [exact Hs' | apply descendant_belongs; exact Hk].
Qed.
(** C44. Nothing valid is hidden: an option of the entity the item declares that is absent, belongs in the enclosing
    ink! item and is not excluded is offered. *)
Theorem C44_item_action_complete : forall it v p b opts k,
  it_td_message it = false -> primary_candidate (it_attrs it) = Some (p, b) ->
  options v (at_kind p) = Some opts -> In k opts -> ~ In k (present_args (it_attrs it)) ->
  (v = V5 -> ~ In AAnonymous (present_args (it_attrs it)) /\ ~ In ASignatureTopic (present_args (it_attrs it))) ->
  ~ (it_kind it = IMPL /\ it_trait_impl it = true /\ k = ANamespace) ->
  (forall c, at_kind p = AkArg c -> exists s, In s (it_scope it) /\ declares v (at_kind s) /\ belongs v k (at_kind s)) ->
  In k (item_action_args it v).
Proof.
  intros it v p b opts k H1 P O Hk H2 H3 H4 H5. apply (item_action_complete it v p b k); try assumption.
  - rewrite (sibling_options _ _ _ O). exact Hk.
  - intros c Ec. destruct (H5 c Ec) as (s & Hs & Hd & Hb). exists s. split; [exact Hs | apply belongs_descendant; assumption].
Qed.
(** C44. On an item without ink! attributes, every argument for that kind of Rust item is offered that belongs in the
    enclosing ink! item. *)
Theorem C44_item_action_first : forall it v k,
  it_td_message it = false -> it_attrs it = [] -> In (it_kind it) (carriers v k) ->
  ~ (it_kind it = IMPL /\ it_trait_impl it = true /\ k = ANamespace) ->
  (exists s, In s (it_scope it) /\ declares v (at_kind s) /\ belongs v k (at_kind s)) ->
  In k (item_action_args it v).
Proof.
  intros it v k Htd Ea Hc Hi (s & Hs & Hd & Hb). unfold item_action_args. rewrite Htd.
  assert (P : primary_candidate (it_attrs it) = None) by (rewrite Ea; reflexivity). rewrite P.
  apply remove_invalid_for_scope_In. split.
  - apply remove_invalid_for_item_In. split; [|exact Hi]. unfold remove_conflicting_args. rewrite P.
    apply remove_duplicate_args_In. split; [apply syntax_carriers; exact Hc | rewrite Ea; intros []].
  - right. apply in_flat_map. exists s. split; [exact Hs | apply belongs_descendant; assumption].
Qed.
(** C44. Attribute macros are only offered on items without ink! attributes, where the enclosing ink! item allows
    them, and test macros only under [cfg(test)] / [cfg(all(test, feature = "e2e-tests"))]; all that fit are. *)
Theorem C44_item_action_macros : forall it v m,
  (In m (item_action_macros it v) ->
     it_attrs it = [] /\ In (it_kind it) (macro_carriers v m)
     /\ (it_scope it = [] \/ exists s, In s (it_scope it) /\ macro_belongs v m (at_kind s))
     /\ (m = MTest -> it_cfg_test it = true) /\ (m = ME2ETest -> it_cfg_test it = true /\ it_cfg_e2e it = true))
  /\ (it_attrs it = [] -> In (it_kind it) (macro_carriers v m) ->
      (it_scope it = [] \/ exists s, In s (it_scope it) /\ declares v (at_kind s) /\ macro_belongs v m (at_kind s)) ->
      (m = MTest -> it_cfg_test it = true) -> (m = ME2ETest -> it_cfg_test it = true /\ it_cfg_e2e it = true) ->
      In m (item_action_macros it v)).
Proof.
  intros it v m. split.
  - intros H. apply item_action_macros_exact in H. destruct H as (H1 & H2 & H3 & H4 & H5).
    split; [exact H1|]. split; [apply syntax_macro_carriers; exact H2|]. split; [|split; assumption].
    destruct H3 as [H3|(s & Hs & Hk)]; [left; exact H3 | right]. exists s. split; [exact Hs | apply descendant_macro_belongs; exact Hk].
  - intros H1 H2 H3 H4 H5. apply item_action_macros_exact. split; [exact H1|]. split; [apply syntax_macro_carriers; exact H2|].
    split; [|split; assumption]. destruct H3 as [H3|(s & Hs & Hd & Hk)]; [left; exact H3 | right].
    exists s. split; [exact Hs | apply macro_belongs_descendant; assumption].
Qed.
(** C44. Macro completions: allowed by the enclosing ink! item, fitting what has been typed. *)
Theorem C44_completion_macros : forall it others keyword in_path crate prefix v m,
  (In m (completion_macros it others keyword in_path crate prefix v) ->
   others = false
   /\ (match keyword with
       | Some k => In k (macro_carriers v m)
       | None => in_path = true /\ macro_carriers v m <> []
       end)
   /\ (forall c, crate = Some c -> macro_crate m = c)
   /\ (forall p, prefix = Some p -> exists rest, macro_name m = p ++ rest)
   /\ (it_scope it = [] \/ exists s, In s (it_scope it) /\ macro_belongs v m (at_kind s)))
  /\ (others = false ->
      match keyword with Some k => In k (macro_carriers v m) | None => in_path = true /\ macro_carriers v m <> [] end ->
      (forall c, crate = Some c -> macro_crate m = c) ->
      (forall p, prefix = Some p -> exists rest, macro_name m = p ++ rest) ->
      (it_scope it = [] \/ exists s, In s (it_scope it) /\ declares v (at_kind s) /\ macro_belongs v m (at_kind s)) ->
      In m (completion_macros it others keyword in_path crate prefix v)).
Proof.
  intros it others keyword in_path crate prefix v m.
  assert (U : In m (macros_unknown_item v) <-> macro_carriers v m <> []).
  { destruct v, m; cbn; split; intros H; try discriminate; try tauto; intuition discriminate. }
  split.
  - intros H. apply completion_macros_exact in H. destruct H as (H1 & H2 & H3 & H4 & H5).
    split; [exact H1|]. split; [destruct keyword; [apply syntax_macro_carriers; exact H2 | rewrite <- U; exact H2]|].
    split; [exact H3|]. split; [exact H4|].
    destruct H5 as [H5|(s & Hs & Hk)]; [left; exact H5 | right]. exists s. split; [exact Hs | apply descendant_macro_belongs; exact Hk].
  - intros H1 H2 H3 H4 H5. apply completion_macros_exact. split; [exact H1|].
    split; [destruct keyword; [apply syntax_macro_carriers; exact H2 | rewrite U; exact H2]|].
    split; [exact H3|]. split; [exact H4|].
    destruct H5 as [H5|(s & Hs & Hd & Hk)]; [left; exact H5 | right]. exists s. split; [exact Hs | apply macro_belongs_descendant; assumption].
Qed.
Example C44_example :
  let a := ex_attr (AkArg AMessage) ["message"%string; "payable"%string] 0 in
  let c := ex_attr (AkMacro MContract) [] 9 in
  let it := Item FN [a] [c] false false false false in
  item_action_args it V5 = [ADefault; ASelector]
  /\ completion_args a it (Some FN) V5 = [ADefault; ASelector]
  /\ item_action_macros (Item STRUCT [] [c] false false false false) V5 = [MEvent; MScaleDerive; MStorageItem].
Proof. repeat split. Qed.
(** C44 is false where the enclosing ink! item allows no arguments at all: then nothing is filtered (utils.rs
    L634), e.g. [topic] is offered on a field of an ink! storage item, which no event contains. *)
Theorem C44_empty_scope_refuted :
  exists it k, In k (item_action_args it V5) /\ it_scope it <> []
    /\ ~ (exists s, In s (it_scope it) /\ belongs V5 k (at_kind s)).
Proof.
  exists (Item RECORD_FIELD [] [ex_attr (AkMacro MStorageItem) [] 0] false false false false), ATopic.
  split; [left; reflexivity|]. split; [discriminate|]. intros (s & [<-|[]] & H). unfold belongs in H. cbn in H. destruct H as [H|[]]. discriminate H.
Qed.

(** *** C45: what is suggested is not diagnosed *)

(** The suggestions of the three features for attribute [a] of the item. *)
Definition suggested (a : ink_attr) (it : item) (v : version) (k : arg_kind) : Prop :=
  (exists parent, In k (completion_args a it parent v))
  \/ (exists closed, In k (attr_action_args a closed it v))
  \/ In k (item_action_args it v).
Lemma suggested_fits a it v k : suggested a it v k ->
  k <> AUnknown /\ ~ In k (present_args (it_attrs it))
  /\ (forall p b, primary_candidate (it_attrs it) = Some (p, b) -> In k (sibling_args (at_kind p) v)).
Proof.
  intros [(parent & H)|[(closed & H)|H]].
  - pose proof H as H0. apply completion_arguments in H. destruct H as (H1 & H2 & H3 & H4 & _). split; [|split; [exact H1|]].
    + unfold completion_args in H0. apply remove_invalid_args_In in H0. destruct H0 as [H0 _].
      destruct (attr_kind_unknown (at_kind a)).
      * destruct parent; [eapply by_syntax_known | eapply unknown_item_known]; exact H0.
      * eapply sibling_known; exact H0.
    + intros p b P. apply (H2 p b P).
  - apply attribute_action_arguments in H. destruct H as (_ & _ & H1 & H2 & H3 & _).
    split; [eapply sibling_known; exact H2|]. split; assumption.
  - apply item_action_arguments in H. destruct H as (_ & H1 & H2 & H3 & _). split; [|split; assumption].
    destruct (primary_candidate (it_attrs it)) as [[p b]|].
    + eapply sibling_known. apply (H2 p b eq_refl).
    + eapply by_syntax_known. apply H3. reflexivity.
Qed.
(** C45. A suggested argument that is written into the attribute, at any place in its list, is not reported as
    conflicting, nor is the attribute reported if it was not before. *)
Theorem C45_no_conflict : forall it v a a' x attrs' ce ce',
  edited (it_attrs it) attrs' a a' x -> suggested a it v (ia_kind x) ->
  ~ In (RArgConflict a' x) (validate_entity attrs' ce' v)
  /\ (forall f, In (RAttrConflict a' f) (validate_entity attrs' ce' v) ->
      exists f0, In (RAttrConflict a f0) (validate_entity (it_attrs it) ce v)).
Proof.
  intros it v a a' x attrs' ce ce' Ed S. destruct (suggested_fits _ _ _ _ S) as (H1 & H2 & H3). split.
  - eapply accepted_no_conflict; eassumption.
  - intros f H. eapply accepted_attr_conflict; eassumption.
Qed.
(** C45. Nor is it, or any argument of its kind, reported as a duplicate. *)
Theorem C45_no_duplicate : forall it v a a' x attrs',
  edited (it_attrs it) attrs' a a' x -> suggested a it v (ia_kind x) ->
  forall b y, In (RDuplicateArg b y) (ensure_no_duplicates attrs') -> ia_kind y <> ia_kind x.
Proof.
  intros it v a a' x attrs' Ed S b y H Ey. destruct (suggested_fits _ _ _ _ S) as (_ & H2 & _).
  destruct (edited_kinds _ _ _ _ _ Ed) as (P & Q & E1 & E2).
  apply duplicates_arg in H. destruct H as (L & R & E & _ & [[]|HL]).
  rewrite <- placed_present, E, placed_kinds_app in E2. simpl in E2. rewrite E1 in H2. rewrite Ey in E2, HL.
  destruct (app_cases _ _ _ _ _ _ (eq_sym E2)) as [(M & E3 & E4)|[(E3 & _ & E4)|(M & E3 & E4)]].
  - apply H2. apply in_app_iff. left. rewrite E3. apply in_app_iff; right; left; reflexivity.
  - apply H2. apply in_app_iff. left. rewrite E3. exact HL.
  - apply H2. apply in_app_iff. right. rewrite E4. apply in_app_iff; right; left; reflexivity.
Qed.
(** The item with a new attribute that holds only [x]. *)
Definition added (attrs attrs' : list ink_attr) (a' : ink_attr) (x : ink_arg) : Prop :=
  exists l r, attrs = l ++ r /\ attrs' = l ++ a' :: r /\ at_kind a' = AkArg (ia_kind x) /\ at_args a' = [x].
(** C45. An argument suggested for an item without known ink! attributes, written in a new attribute, is not
    reported, neither itself nor its attribute. *)
Theorem C45_new_attribute : forall it v attrs' a' x ce,
  In (ia_kind x) (item_action_args it v) -> primary_candidate (it_attrs it) = None ->
  added (it_attrs it) attrs' a' x -> distinct_places attrs' ->
  ~ In (RArgConflict a' x) (validate_entity attrs' ce v)
  /\ (forall f, ~ In (RAttrConflict a' f) (validate_entity attrs' ce v))
  /\ ~ In (RDuplicateArg a' x) (ensure_no_duplicates attrs').
Proof.
  intros it v attrs' a' x ce H PN (l & r & E & E' & Ek & Ea) D.
  assert (S : suggested a' it v (ia_kind x)) by (right; right; exact H).
  destruct (suggested_fits _ _ _ _ S) as (Hu & Hn & _).
  assert (HU : forall y, In y (it_attrs it) -> ~ known y).
  { intros y Hy Ky. assert (HB : exists p, best (it_attrs it) p).
    { clear -Hy Ky. revert y Hy Ky. induction (it_attrs it) as [|z l IH]; intros y Hy Ky; [destruct Hy|].
      assert (Hz : known z \/ ~ known z) by (unfold known; destruct (attr_kind_unknown (at_kind z)); [right|left]; congruence).
      assert (Hl : (exists p, best l p) \/ (forall w, In w l -> ~ known w)).
      { clear -IH. destruct (existsb (fun w => negb (attr_kind_unknown (at_kind w))) l) eqn:X.
        - left. apply existsb_exists in X. destruct X as (w & Hw & Kw). rewrite negb_true_iff in Kw. exact (IH w Hw Kw).
        - right. intros w Hw Kw. assert (existsb (fun w => negb (attr_kind_unknown (at_kind w))) l = true).
          { apply existsb_exists. exists w. split; [exact Hw | rewrite negb_true_iff; exact Kw]. } congruence. }
      destruct Hz as [Hz|Hz], Hl as [(p & L & R & -> & Kp & B1 & B2)|Hl].
      - destruct (le_lt_dec (rank z) (rank p)) as [Hr|Hr].
        + exists z, [], (L ++ p :: R). repeat split; [exact Hz | intros w [] |]. intros w Hw Kw.
          apply in_app_iff in Hw. destruct Hw as [Hw|[<-|Hw]]; [specialize (B1 w Hw Kw); lia | exact Hr | specialize (B2 w Hw Kw); lia].
        + exists p, (z :: L), R. repeat split; [exact Kp | | exact B2]. intros w [<-|Hw] Kw; [exact Hr | apply B1; assumption].
      - exists z, [], l. repeat split; [exact Hz | intros w [] |]. intros w Hw Kw. destruct (Hl w Hw Kw).
      - exists p, (z :: L), R. repeat split; [exact Kp | | exact B2]. intros w [<-|Hw] Kw; [contradiction | apply B1; assumption].
      - destruct Hy as [->|Hy]; [contradiction | destruct (Hl y Hy Ky)]. }
    destruct HB as (p & HB). apply best_primary in HB. destruct HB as (b & HB). congruence. }
  assert (P : forall p b, primary_candidate attrs' = Some (p, b) -> p = a').
  { intros p b P. pose proof (primary_known _ _ _ P) as Kp. apply primary_In in P. rewrite E' in P.
    apply in_app_iff in P. destruct P as [P|[P|P]]; [|congruence|]; exfalso; apply (HU p); try exact Kp;
      rewrite E; apply in_app_iff; [left | right]; exact P. }
  split; [|split].
  - intros HC. apply validate_conflict in HC; [|exact I]. destruct HC as (p & b & Pp & HC). apply conflicts_arg in HC.
    destruct HC as (_ & _ & HC & _). congruence.
  - intros f HC. apply validate_conflict in HC; [|exact I]. destruct HC as (p & b & Pp & HC). rewrite (P p b Pp) in HC.
    apply conflicts_In in HC. destruct HC as (L & c & M & _ & HC). apply attr_conflicts_attr in HC.
    destruct HC as (<- & _ & HC & _). rewrite same_attr_refl in HC. discriminate HC.
  - intros HC. apply duplicates_arg in HC. destruct HC as (L & R & EL & _ & [[]|HL]).
    assert (EK : present_args attrs' = present_args l ++ ia_kind x :: present_args r).
    { rewrite E', present_app. unfold present_args at 2. simpl. rewrite Ea. reflexivity. }
    rewrite E, present_app in Hn. rewrite <- placed_present, EL, placed_kinds_app in EK. simpl in EK.
    destruct (app_cases _ _ _ _ _ _ (eq_sym EK)) as [(M & E3 & E4)|[(E3 & _ & E4)|(M & E3 & E4)]]; apply Hn; apply in_app_iff.
    + left. rewrite E3. apply in_app_iff; right; left; reflexivity.
    + left. rewrite E3. exact HL.
    + right. rewrite E4. apply in_app_iff; right; left; reflexivity.
Qed.
(** C45. A suggested attribute macro is accepted as it is, except [chain_extension] in ink! 5. *)
Theorem C45_macro : forall it v m a ce,
  In m (item_action_macros it v) -> at_kind a = AkMacro m -> at_args a = [] ->
  ensure_no_duplicates [a] = [] /\
  validate_entity [a] ce v = if match v, m with V5, MChainExtension => true | _, _ => false end
                             then [RMissingExtension a] else [].
Proof.
  intros it v m a ce H Ek Ea. apply item_action_macros_exact in H. destruct H as (_ & H & _).
  assert (Hm : m <> MUnknown) by (intros ->; destruct (it_kind it), v; simpl in H; intuition discriminate).
  split.
  - unfold ensure_no_duplicates. simpl. rewrite Ek, Ea. simpl. rewrite andb_false_r. reflexivity.
  - assert (P : primary_candidate [a] = Some (a, true)).
    { apply head_best; [unfold known; rewrite Ek; destruct m; try reflexivity; congruence | intros y []]. }
    unfold validate_entity. rewrite P, Ek. unfold conflicts, attr_conflicts, anonymous_signature, find_arg, all_args.
    rewrite same_attr_refl. simpl. rewrite Ea. simpl. destruct v, m; try reflexivity; congruence.
Qed.
Example C45_example :
  let a := ex_attr (AkArg AMessage) ["message"%string] 0 in
  let a' := ex_attr (AkArg AMessage) ["message"%string; "payable"%string] 0 in
  let b := ex_attr (AkArg ADefault) ["default"%string] 1 in
  let it := Item FN [a; b] [] false false false false in
  edited [a; b] [a'; b] a a' (ex_arg "payable") /\ suggested a it V5 (ia_kind (ex_arg "payable"))
  /\ validate_entity [a'; b] false V5 = [] /\ validate_entity [a; b] false V5 = [].
Proof.
  assert (PO : forall l : list ink_arg, match map ia_kind l with k :: ks => k = AMessage /\ forall j, In j ks -> arg_rank j = 1 | [] => False end ->
    primary_of (fun x y => precedes (ia_kind x) (ia_kind y)) l (hd (ex_arg "") l)).
  { intros [|x l] H; [destruct H|]. destruct H as [H1 H2]. exists [], l. split; [reflexivity|]. split; [intros y []|].
    intros y Hy. rewrite precedes_rank. simpl hd. rewrite H1. specialize (H2 (ia_kind y) (in_map _ _ _ Hy)).
    rewrite H2. simpl. lia. }
  split; [|split; [|split; reflexivity]].
  - constructor.
    + exists [], [ex_attr (AkArg ADefault) ["default"%string] 1], [], [ex_attr (AkArg ADefault) ["default"%string] 1].
      repeat split; repeat constructor.
    + split; [|split; [|split]].
      * exists [ex_arg "message"], [], [ex_arg "message"], []. repeat split.
      * exists AMessage. reflexivity.
      * right. exists (ex_arg "message"). split; [|reflexivity]. apply (PO [ex_arg "message"]). split; [reflexivity | intros j []].
      * right. exists (ex_arg "message"). split; [|reflexivity]. apply (PO [ex_arg "message"; ex_arg "payable"]).
        split; [reflexivity|]. intros j [<-|[]]. reflexivity.
    + repeat constructor; simpl; intuition discriminate.
    + repeat constructor; simpl; intuition discriminate.
  - right; right. vm_compute. tauto.
Qed.
(** C45 is false for the macro [chain_extension] in ink! 5: the action writes it without the [extension]
    argument, whose absence is an error. *)
Theorem C45_chain_extension_refuted :
  exists it a, In MChainExtension (item_action_macros it V5) /\ at_kind a = AkMacro MChainExtension
    /\ at_args a = [] /\ validate_entity [a] false V5 <> [].
Proof.
  exists (Item TRAIT [] [] false false false false), (ex_attr (AkMacro MChainExtension) [] 0).
  repeat split; [left; reflexivity | discriminate].
Qed.
(** C45 is false for the companions suggested by the "incomplete attribute" diagnostic in ink! 5: adding the
    suggested [extension] before [handle_status], or the suggested [ink_e2e::test] before [keep_attr], is itself
    reported. *)
Theorem C45_primary_suggestions_refuted :
  (exists p q k, primary_candidate [p] = Some (p, true) /\ In (RNoPrimary p [k]) (validate_entity [p] false V5)
     /\ k = AkArg AExtension /\ at_kind q = k /\ map ia_kind (at_args q) = [AExtension; AHandleStatus]
     /\ map ia_kind (at_args p) = [AHandleStatus] /\ validate_entity [q] false V5 <> [])
  /\ (exists p t ks, In (RNoPrimary p ks) (validate_entity [p] false V5) /\ In (AkMacro ME2ETest) ks
     /\ map ia_kind (at_args p) = [AKeepAttr]
     /\ at_kind t = AkMacro ME2ETest /\ at_args t = at_args p /\ validate_entity [t] false V5 <> []).
Proof.
  split.
  - exists (ex_attr (AkArg AHandleStatus) ["handle_status"%string] 0),
      (ex_attr (AkArg AExtension) ["extension"%string; "handle_status"%string] 0), (AkArg AExtension).
    repeat split; [left; reflexivity | discriminate].
  - exists (ex_attr (AkArg AKeepAttr) ["keep_attr"%string] 0), (ex_attr (AkMacro ME2ETest) ["keep_attr"%string] 0),
      [AkMacro MContract; AkMacro MTraitDefinition; AkMacro ME2ETest].
    repeat split; [left; reflexivity | right; right; left; reflexivity | discriminate].
Qed.

(** *** C65: documented combinations *)

(** C65. A documented combination is accepted: no duplicate, conflict, order or completeness report. *)
Theorem C65_documented_accepted : forall v attrs ce,
  documented v attrs -> validate_entity attrs ce v = [] /\ ensure_no_duplicates attrs = [].
Proof. intros v attrs ce. apply documented_accepted. Qed.
(** C65 (partial: where the primary attribute declares something, and without the ink! 5 pair [storage_item] and
    [scale_derive]). Only documented combinations are accepted. *)
Theorem C65_only_documented_partial : forall v attrs ce p b,
  distinct_places attrs -> Forall kind_agrees attrs ->
  primary_candidate attrs = Some (p, b) -> declares v (at_kind p) ->
  ~ (v = V5 /\ (at_kind p = AkMacro MStorageItem \/ at_kind p = AkMacro MScaleDerive)) ->
  validate_entity attrs ce v = [] -> ensure_no_duplicates attrs = [] -> documented v attrs.
Proof. intros v attrs ce p b. apply accepted_documented. Qed.
Example C65_example :
  let a := ex_attr (AkArg AMessage) ["message"%string; "payable"%string] 0 in
  let b := ex_attr (AkArg ASelector) ["selector"%string] 1 in
  documented V5 [a; b] /\ documented V4 [ex_attr (AkMacro MContract) ["keep_attr"%string; "env"%string] 0]
  /\ declares V5 (at_kind a) /\ kind_agrees b.
Proof.
  split; [|split; [|split]].
  - apply (doc_entity V5 _ (ex_arg "message") [ex_arg "payable"] _ AMessage [ADefault; APayable; ASelector]); try reflexivity.
    + repeat constructor; vm_compute; intuition discriminate.
    + intros k H. vm_compute in H. destruct H as [<-|[<-|[]]]; vm_compute; tauto.
    + intros b [<-|[]]. exists (ex_arg "selector"). split; [left; reflexivity | reflexivity].
    + split; [intros _ [H _]; vm_compute in H; intuition discriminate | discriminate].
  - apply (doc_macro V4 _ MContract [AEnv; AKeepAttr]); try reflexivity.
    + repeat constructor; vm_compute; intuition discriminate.
    + intros k H. vm_compute in H. destruct H as [<-|[<-|[]]]; vm_compute; tauto.
    + split; discriminate.
  - eexists; reflexivity.
  - right. exists (ex_arg "selector"). split; [|reflexivity]. exists [], []. repeat split; intros y [].
Qed.
(** C65 is false for the ink! 5 pair [#[ink::storage_item] #[ink::scale_derive(Encode)]]: the arguments of the
    second macro are reported, although the pair is allowed, and a [derive] argument on it is not. *)
Theorem C65_storage_item_scale_derive_refuted :
  (exists s d x, at_kind s = AkMacro MStorageItem /\ at_kind d = AkMacro MScaleDerive /\ at_args d = [x]
     /\ ia_kind x = AEncode /\ documented V5 [s] /\ documented V5 [d]
     /\ validate_entity [s; d] false V5 = [RArgConflict d x])
  /\ (exists s d x, at_kind s = AkMacro MStorageItem /\ at_kind d = AkMacro MScaleDerive /\ at_args d = [x]
     /\ ia_kind x = ADerive /\ validate_entity [s; d] false V5 = [] /\ ~ documented V5 [d]).
Proof.
  split.
  - exists (ex_attr (AkMacro MStorageItem) [] 0), (ex_attr (AkMacro MScaleDerive) ["Encode"%string] 1), (ex_arg "Encode").
    repeat split.
    + apply (doc_macro V5 _ MStorageItem [ADerive]); try reflexivity; [constructor | intros k [] |]. split; [intros _ [[] _] | discriminate].
    + apply (doc_macro V5 _ MScaleDerive [AEncode; ADecode; ATypeInfo]); try reflexivity.
      * repeat constructor. intros [].
      * intros k H. vm_compute in H. destruct H as [<-|[]]. left; reflexivity.
      * split; [intros _ [H _]; vm_compute in H; intuition discriminate | discriminate].
  - exists (ex_attr (AkMacro MStorageItem) [] 0), (ex_attr (AkMacro MScaleDerive) ["derive"%string] 1), (ex_arg "derive").
    repeat split. intros D. inversion D as [a m opts Ek Eo Hn Hi Hc | a x xs more k opts Ea Ex Ek Eo Hn Hi Hm Hc]; subst.
    + injection Ek as <-. simpl in Eo. injection Eo as <-. specialize (Hi ADerive (or_introl eq_refl)).
      simpl in Hi. intuition discriminate.
    + discriminate Ek.
Qed.
(** C65 is false for arguments that need a macro: [#[ink(derive)]] and [#[ink(env)]] alone are not reported as
    incomplete. *)
Theorem C65_incomplete_refuted :
  exists a b, map ia_kind (at_args a) = [ADerive] /\ map ia_kind (at_args b) = [AEnv]
    /\ at_kind a = AkArg ADerive /\ at_kind b = AkArg AEnv
    /\ validate_entity [a] false V5 = [] /\ validate_entity [b] false V5 = []
    /\ ~ declares V5 (at_kind a) /\ ~ declares V5 (at_kind b).
Proof.
  exists (ex_attr (AkArg ADerive) ["derive"%string] 0), (ex_attr (AkArg AEnv) ["env"%string] 0).
  repeat split; intros (o & H); discriminate H.
Qed.

Print Assumptions C36_duplicate_arguments.
Print Assumptions C36_duplicate_macros.
Print Assumptions C36_only_duplicates.
Print Assumptions C36_one_argument_stays.
Print Assumptions C36_duplicate_macro_fix_refuted.
Print Assumptions C39_at_least_one.
Print Assumptions C39_at_most_one.
Print Assumptions C39_none.
Print Assumptions C39_accepted.
Print Assumptions C44_completion_arguments.
Print Assumptions C44_attribute_action_arguments.
Print Assumptions C44_item_action_arguments.
Print Assumptions C44_no_repetition.
Print Assumptions C44_item_action_complete.
Print Assumptions C44_item_action_first.
Print Assumptions C44_item_action_macros.
Print Assumptions C44_completion_macros.
Print Assumptions C44_empty_scope_refuted.
Print Assumptions C45_no_conflict.
Print Assumptions C45_no_duplicate.
Print Assumptions C45_new_attribute.
Print Assumptions C45_macro.
Print Assumptions C45_chain_extension_refuted.
Print Assumptions C45_primary_suggestions_refuted.
Print Assumptions C65_documented_accepted.
Print Assumptions C65_only_documented_partial.
Print Assumptions C65_storage_item_scale_derive_refuted.
Print Assumptions C65_incomplete_refuted.

(** C65. The fix offered for an attribute in conflict with the primary one removes exactly the arguments that may not
    stand beside it, or the whole attribute if none may stay. *)
Theorem C65_conflict_fix : forall attrs ce v c f, In (RAttrConflict c f) (validate_entity attrs ce v) ->
  exists p b, primary_candidate attrs = Some (p, b) /\ In c attrs
    /\ match f with
       | FixArgs l => (forall x, In x l <-> In x (at_args c) /\ ~ In (ia_kind x) (sibling_args (at_kind p) v))
                      /\ exists x, In x (at_args c) /\ In (ia_kind x) (sibling_args (at_kind p) v)
       | FixAttr => (exists m, at_kind p = AkMacro m) \/ (exists m, at_kind c = AkMacro m)
                    \/ forall x, In x (at_args c) -> ~ In (ia_kind x) (sibling_args (at_kind p) v)
       end.
Proof.
  intros attrs ce v c f H. apply validate_conflict in H; [|exact I]. destruct H as (p & b & Hp & H). exists p, b. split; [exact Hp|].
  apply conflicts_In in H. destruct H as (L & c' & M & E & H). apply attr_conflicts_attr in H. destruct H as (<- & -> & _).
  split; [rewrite E; apply in_app_iff; right; left; reflexivity|]. unfold conflict_fix_of.
  destruct (at_kind p) as [m|k] eqn:Ep; [left; exists m; reflexivity|].
  destruct (at_kind c) as [m|k'] eqn:Ec; [right; left; exists m; reflexivity|].
  set (g := fun x => negb (contains_arg (sibling_args (AkArg k) v) (ia_kind x))).
  assert (G : forall x, g x = true <-> ~ In (ia_kind x) (sibling_args (AkArg k) v)).
  { intros x. unfold g. rewrite negb_true_iff. rewrite <- (contains_arg_In (sibling_args (AkArg k) v) (ia_kind x)).
    destruct (contains_arg _ _); split; intros; congruence. }
  destruct (length (filter g (at_args c)) =? length (at_args c)) eqn:El.
  - right. right. intros x Hx. apply Nat.eqb_eq in El. apply G. clear - El Hx. induction (at_args c) as [|y l IH]; [destruct Hx|].
    cbn [filter length] in El. destruct (g y) eqn:Ey.
    + cbn [length] in El. destruct Hx as [<-|Hx]; [exact Ey|]. apply IH; [lia | exact Hx].
    + exfalso. assert (Hl : length (filter g l) <= length l) by (clear; induction l as [|z l IH]; [reflexivity|]; cbn [filter]; destruct (g z); cbn [length]; lia). lia.
  - split; [intros x; rewrite filter_In, (G x); tauto|]. apply Nat.eqb_neq in El. clear - El G.
    assert (H : exists x, In x (at_args c) /\ g x = false).
    { induction (at_args c) as [|y l IH]; [contradiction El; reflexivity|]. cbn [filter length] in El. destruct (g y) eqn:Ey; [|exists y; split; [left; reflexivity | exact Ey]].
      cbn [length] in El. destruct IH as (x & Hx & Ex); [lia|]. exists x. split; [right; exact Hx | exact Ex]. }
    destruct H as (x & Hx & Ex). exists x. split; [exact Hx|]. unfold g in Ex. rewrite negb_false_iff in Ex. apply contains_arg_In. exact Ex.
Qed.
(** C65. Of [anonymous] and [signature_topic] the one that stands later is reported, and removed by the fix. *)
Theorem C65_anonymous_signature : forall attrs ce v x y, In (RAnonymousSignature x y) (validate_entity attrs ce v) ->
  v = V5 /\ ((ia_kind x = AAnonymous /\ ia_kind y = ASignatureTopic) \/ (ia_kind x = ASignatureTopic /\ ia_kind y = AAnonymous))
  /\ exists l1 l2 l3, flat_map at_args attrs = l1 ++ y :: l2 ++ x :: l3.
Proof.
  intros attrs ce v x y H.
  assert (A : v = V5 /\ exists k, In (RAnonymousSignature x y) (anonymous_signature k attrs)).
  { unfold validate_entity in H. destruct (primary_candidate attrs) as [[p b]|]; [|destruct H].
    set (rest := (_ ++ _ ++ _ ++ conflicts v p b attrs)%list) in H.
    assert (Hrest : ~ In (RAnonymousSignature x y) rest).
    { unfold rest. rewrite !in_app_iff. intros [Hr|[Hr|[Hr|Hr]]].
      - match type of Hr with In _ (if ?c then _ else _) => destruct c end; [|destruct Hr]. destruct Hr as [Hr|[]]; discriminate Hr.
      - match type of Hr with In _ (if ?c then _ else _) => destruct c end; [|destruct Hr].
        destruct (at_kind p); [destruct Hr|].
        match type of Hr with In _ (if ?c then _ else _) => destruct c end; [destruct Hr|]. destruct Hr as [Hr|[]]; discriminate Hr.
      - match type of Hr with In _ (if ?c then _ else _) => destruct c end; [|destruct Hr]. destruct Hr as [Hr|[]]; discriminate Hr.
      - apply conflicts_In in Hr. destruct Hr as (L & c & M & _ & Hr). unfold attr_conflicts in Hr.
        match type of Hr with In _ (if ?c then _ else _) => destruct c end; [|destruct Hr as [Hr|[]]; discriminate Hr].
        apply in_flat_map in Hr. destruct Hr as (z & _ & Hr). match type of Hr with In _ (if ?c then _ else _) => destruct c end; [|destruct Hr]. destruct Hr as [Hr|[]]; discriminate Hr. }
    clearbody rest. destruct v; [contradiction|]. split; [reflexivity|]. exists (at_kind p).
    set (r1 := anonymous_signature (at_kind p) attrs) in *.
    set (r2 := match at_kind p with AkMacro MChainExtension => _ | _ => _ end) in H.
    assert (H2 : ~ In (RAnonymousSignature x y) r2).
    { unfold r2. intros H2. destruct (at_kind p) as [[]|]; simpl in H2; try tauto;
        destruct (find_arg attrs AExtension); simpl in H2; try tauto; destruct H2 as [H2|[]]; discriminate H2. }
    clearbody r1 r2.
    set (r3 := match at_kind p with AkMacro ME2ETest => _ | _ => _ end) in H.
    set (r4 := match at_kind p with AkMacro ME2ETest => match find_arg attrs AKeepAttr with _ => _ end | _ => _ end) in H.
    assert (H3 : ~ In (RAnonymousSignature x y) r3).
    { unfold r3. intros H3. destruct (at_kind p) as [[]|[]]; simpl in H3; try tauto;
        destruct (find_arg attrs AAdditionalContracts); simpl in H3; try tauto; destruct H3 as [H3|[]]; discriminate H3. }
    assert (H4 : ~ In (RAnonymousSignature x y) r4).
    { unfold r4. intros H4. destruct (at_kind p) as [[]|[]]; simpl in H4; try tauto;
        destruct (find_arg attrs AKeepAttr); simpl in H4; try tauto; destruct H4 as [H4|[]]; discriminate H4. }
    clearbody r3 r4.
    assert (Hall : In (RAnonymousSignature x y) (r1 ++ r2 ++ r3 ++ r4 ++ rest) -> In (RAnonymousSignature x y) r1) by (rewrite !in_app_iff; tauto).
    assert (H12 : forall z, In (RAnonymousSignature x y) (r1 ++ r2 ++ [RDeprecatedExtension z]) -> In (RAnonymousSignature x y) r1).
    { intros z. rewrite !in_app_iff. intros [?|[?|[Hz|[]]]]; [assumption | tauto | discriminate Hz]. }
    assert (H123 : In (RAnonymousSignature x y) (r1 ++ r2 ++ r3) -> In (RAnonymousSignature x y) r1) by (rewrite !in_app_iff; tauto).
    destruct (at_kind p) as [m|k]; [apply Hall, H|]. destruct k; try (apply Hall, H).
    - destruct r3; [apply Hall, H | apply H123, H].
    - destruct ce; [|apply Hall, H]. destruct (find_arg attrs AExtension); [apply (H12 _ H) | apply Hall, H]. }
  destruct A as (-> & k & A). split; [reflexivity|]. unfold anonymous_signature in A. destruct (is_event_kind k); [|destruct A].
  unfold find_arg in A. change (all_args attrs) with (flat_map at_args attrs) in A.
  destruct (find (fun z => arg_kind_eqb (ia_kind z) AAnonymous) (flat_map at_args attrs)) as [a|] eqn:Ea; [|destruct A].
  destruct (find (fun z => arg_kind_eqb (ia_kind z) ASignatureTopic) (flat_map at_args attrs)) as [s|] eqn:Es; [|destruct A].
  assert (Ka : ia_kind a = AAnonymous) by (apply find_some in Ea; destruct Ea as [_ Ea]; apply internal_arg_kind_dec_bl; exact Ea).
  assert (Ks : ia_kind s = ASignatureTopic) by (apply find_some in Es; destruct Es as [_ Es]; apply internal_arg_kind_dec_bl; exact Es).
  destruct (find (fun z => arg_kind_eqb (ia_kind z) AAnonymous || arg_kind_eqb (ia_kind z) ASignatureTopic) (flat_map at_args attrs)) as [f|] eqn:Ef; [|destruct A].
  assert (W : forall (P Q : ink_arg -> bool) l u w, find P l = Some u -> find (fun z => P z || Q z) l = Some u -> find Q l = Some w -> (forall z, P z && Q z = false) ->
             exists l1 l2 l3, l = l1 ++ u :: l2 ++ w :: l3).
  { intros P Q l u w. induction l as [|z l IH]; [discriminate|]. cbn [find]. intros Hu Hb Hw Hd. destruct (P z) eqn:Pz.
    - injection Hu as ->. specialize (Hd u). rewrite Pz in Hd. cbn in Hd. rewrite Hd in Hw. apply find_some in Hw. destruct Hw as [Hw _].
      apply in_split in Hw. destruct Hw as (l2 & l3 & ->). exists [], l2, l3. reflexivity.
    - destruct (Q z) eqn:Qz; cbn [orb] in Hb.
      + injection Hb as ->. apply find_some in Hu. destruct Hu as [_ Hu]. congruence.
      + destruct (IH Hu Hb Hw Hd) as (l1 & l2 & l3 & ->). exists (z :: l1), l2, l3. reflexivity. }
  assert (D : forall z, arg_kind_eqb (ia_kind z) AAnonymous && arg_kind_eqb (ia_kind z) ASignatureTopic = false).
  { intros z. destruct (ia_kind z); reflexivity. }
  assert (F1 : forall (P Q : ink_arg -> bool) l u, find (fun z => P z || Q z) l = Some u -> P u = true -> find P l = Some u).
  { intros P Q l u. induction l as [|z l IH]; [discriminate|]. cbn [find]. destruct (P z) eqn:Pz; cbn [orb]; [auto|]. destruct (Q z); [|exact IH].
    intros Hz Pu. injection Hz as ->. congruence. }
  destruct (arg_kind_eqb (ia_kind f) AAnonymous) eqn:Kf; destruct A as [A|[]]; injection A as <- <-.
  - split; [right; auto|]. pose proof (F1 _ _ _ _ Ef Kf) as Fa. rewrite Ea in Fa. injection Fa as <-.
    apply (W (fun z => arg_kind_eqb (ia_kind z) AAnonymous) (fun z => arg_kind_eqb (ia_kind z) ASignatureTopic)); assumption.
  - split; [left; auto|].
    assert (Ef' : find (fun z => arg_kind_eqb (ia_kind z) ASignatureTopic || arg_kind_eqb (ia_kind z) AAnonymous) (flat_map at_args attrs) = Some f).
    { rewrite <- Ef. clear. induction (flat_map at_args attrs) as [|z l IH]; [reflexivity|]. cbn [find]. rewrite orb_comm, IH. reflexivity. }
    assert (Kf' : arg_kind_eqb (ia_kind f) ASignatureTopic = true).
    { apply find_some in Ef. destruct Ef as [_ Ef]. rewrite Kf in Ef. exact Ef. }
    pose proof (F1 _ _ _ _ Ef' Kf') as Fs. rewrite Es in Fs. injection Fs as <-.
    apply (W (fun z => arg_kind_eqb (ia_kind z) ASignatureTopic) (fun z => arg_kind_eqb (ia_kind z) AAnonymous)); try assumption.
    intros z. rewrite andb_comm. apply D.
Qed.
Print Assumptions C65_conflict_fix.
Print Assumptions C65_anonymous_signature.
(** C44. While an argument is typed, exactly the suggestions that begin with the typed text stay. *)
Theorem C44_typed_prefix : forall p a it parent v k,
  In k (filter_prefix p (completion_args a it parent v)) <->
  In k (completion_args a it parent v) /\ forall q, p = Some q -> exists r, arg_kind_str k = q ++ r.
Proof.
  intros p a it parent v k. unfold filter_prefix. destruct p as [q|].
  - rewrite filter_In. split; intros [H1 H2]; (split; [exact H1|]).
    + intros q' E. injection E as <-. apply starts_with_app. exact H2.
    + apply starts_with_app. apply H2. reflexivity.
  - split; [intros H; split; [exact H | discriminate] | intros [H _]; exact H].
Qed.
Print Assumptions C44_typed_prefix.
