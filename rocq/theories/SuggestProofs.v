(** Proofs about suggestions and attribute diagnostics. *)
From Verif Require Import Base BaseFacts PositionModel SyntaxModel VersionModel AttrModel AttrSpec AttrProofs
  SuggestModel SuggestSpec.

Lemma contains_arg_In l k : contains_arg l k = true <-> In k l.
Proof.
  unfold contains_arg. rewrite existsb_exists. split.
  - intros (y & Hy & E). apply arg_kind_eqb_eq in E. subst; exact Hy.
  - intros H. exists k. split; [exact H | apply arg_kind_eqb_eq; reflexivity].
Qed.
Lemma contains_arg_not l k : contains_arg l k = false <-> ~ In k l.
Proof. rewrite <- contains_arg_In. destruct (contains_arg l k); split; congruence. Qed.
Lemma contains_macro_In l k : contains_macro l k = true <-> In k l.
Proof.
  unfold contains_macro. rewrite existsb_exists. split.
  - intros (y & Hy & E). apply macro_kind_eqb_eq in E. subst; exact Hy.
  - intros H. exists k. split; [exact H | apply macro_kind_eqb_eq; reflexivity].
Qed.
Lemma contains_kind_In l k : contains_kind l k = true <-> In k l.
Proof.
  unfold contains_kind. rewrite existsb_exists. split.
  - intros (y & Hy & E). apply attr_kind_eqb_eq in E. subst; exact Hy.
  - intros H. exists k. split; [exact H | apply attr_kind_eqb_eq; reflexivity].
Qed.
Lemma attr_kind_eqb_refl k : attr_kind_eqb k k = true.
Proof. apply attr_kind_eqb_eq; reflexivity. Qed.
Lemma arg_kind_eqb_refl k : arg_kind_eqb k k = true.
Proof. apply arg_kind_eqb_eq; reflexivity. Qed.
Lemma arg_kind_eqb_neq a b : arg_kind_eqb a b = false <-> a <> b.
Proof. rewrite <- arg_kind_eqb_eq. destruct (arg_kind_eqb a b); split; congruence. Qed.
Lemma range_eqb_eq a b : range_eqb a b = true <-> a = b.
Proof.
  unfold range_eqb. rewrite andb_true_iff, !Nat.eqb_eq. destruct a, b; simpl. split.
  - intros [-> ->]; reflexivity.
  - intros E; injection E as -> ->; split; reflexivity.
Qed.
Lemma same_attr_refl a : same_attr a a = true.
Proof. apply range_eqb_eq; reflexivity. Qed.

(** ** Tables *)
Ltac in_cases :=
  repeat match goal with
         | H : In _ _ |- _ => simpl in H
         | H : _ \/ _ |- _ => destruct H as [H|H]
         | H : False |- _ => destruct H
         end.
Ltac nodup := repeat (constructor; [simpl; intuition discriminate|]); constructor.
Lemma sibling_args_NoDup k v : NoDup (sibling_args k v).
Proof. destruct k as [m|a]; [destruct m, v | destruct a, v]; simpl; nodup. Qed.
Lemma args_by_syntax_NoDup k v : NoDup (args_by_syntax k v).
Proof. destruct k, v; simpl; nodup. Qed.
Lemma args_unknown_item_NoDup v : NoDup (args_unknown_item v).
Proof. destruct v; simpl; nodup. Qed.
Lemma macros_by_syntax_NoDup k v : NoDup (macros_by_syntax k v).
Proof. destruct k, v; simpl; nodup. Qed.
Lemma macros_unknown_item_NoDup v : NoDup (macros_unknown_item v).
Proof. destruct v; simpl; nodup. Qed.
Lemma sibling_known k v x : In x (sibling_args k v) -> x <> AUnknown.
Proof. destruct k as [m|a]; [destruct m, v | destruct a, v]; simpl; intuition congruence. Qed.
Lemma by_syntax_known k v x : In x (args_by_syntax k v) -> x <> AUnknown.
Proof. destruct k, v; simpl; intuition congruence. Qed.
Lemma unknown_item_known v x : In x (args_unknown_item v) -> x <> AUnknown.
Proof. destruct v; simpl; intuition congruence. Qed.

(** ** Filters *)
Lemma remove_duplicate_args_In s it k :
  In k (remove_duplicate_args s it) <-> In k s /\ ~ In k (present_args (it_attrs it)).
Proof.
  unfold remove_duplicate_args. rewrite filter_In, negb_true_iff, contains_arg_not. reflexivity.
Qed.
Lemma has_arg_In attrs k : has_arg attrs k = true <-> In k (present_args attrs).
Proof.
  unfold has_arg, present_args, all_args. rewrite existsb_exists, in_map_iff. split.
  - intros (x & Hx & E). apply arg_kind_eqb_eq in E. exists x. split; [exact E | exact Hx].
  - intros (x & E & Hx). exists x. split; [exact Hx | apply arg_kind_eqb_eq; exact E].
Qed.
Lemma remove_conflicting_args_incl s it v k :
  In k (remove_conflicting_args s it v) -> In k s.
Proof.
  unfold remove_conflicting_args. destruct (primary_candidate (it_attrs it)) as [[p b]|]; [|tauto].
  destruct v; [|destruct (is_event_kind (at_kind p))].
  - rewrite filter_In; tauto.
  - destruct (_ || _); rewrite ?filter_In; tauto.
  - rewrite filter_In; tauto.
Qed.
Lemma remove_conflicting_args_sibling s it v k p b :
  primary_candidate (it_attrs it) = Some (p, b) ->
  In k (remove_conflicting_args s it v) -> In k (sibling_args (at_kind p) v).
Proof.
  unfold remove_conflicting_args. intros ->.
  destruct v; [|destruct (is_event_kind (at_kind p))].
  - rewrite filter_In, contains_arg_In; tauto.
  - destruct (_ || _); rewrite ?filter_In, ?contains_arg_In; tauto.
  - rewrite filter_In, contains_arg_In; tauto.
Qed.
Lemma sibling_event_V5 k : (In AAnonymous (sibling_args k V5) \/ In ASignatureTopic (sibling_args k V5)) ->
  is_event_kind k = true.
Proof. destruct k as [m|a]; [destruct m | destruct a]; simpl; intuition discriminate. Qed.
Lemma remove_conflicting_args_exclusive s it k p b :
  primary_candidate (it_attrs it) = Some (p, b) ->
  In k (remove_conflicting_args s it V5) ->
  ~ (k = ASignatureTopic /\ In AAnonymous (present_args (it_attrs it)))
  /\ ~ (k = AAnonymous /\ In ASignatureTopic (present_args (it_attrs it))).
Proof.
  intros E Hin. pose proof (remove_conflicting_args_sibling _ _ _ _ _ _ E Hin) as Hs.
  unfold remove_conflicting_args in Hin. rewrite E in Hin.
  assert (Hne : forall j, j = AAnonymous \/ j = ASignatureTopic -> k = j -> is_event_kind (at_kind p) = true).
  { intros j [->| ->] ->; apply sibling_event_V5; [left|right]; exact Hs. }
  split; intros [-> Hp]; apply has_arg_In in Hp.
  - rewrite (Hne ASignatureTopic (or_intror eq_refl) eq_refl) in Hin. rewrite Hp in Hin.
    rewrite orb_true_r in Hin. simpl orb in Hin. cbv iota in Hin. apply filter_In in Hin. destruct Hin as [_ Hin].
    simpl in Hin. discriminate.
  - rewrite (Hne AAnonymous (or_introl eq_refl) eq_refl) in Hin. rewrite Hp in Hin.
    rewrite !orb_true_r in Hin. cbv iota in Hin. apply filter_In in Hin. destruct Hin as [_ Hin].
    rewrite andb_true_iff in Hin. destruct Hin as [_ Hin]. simpl in Hin. discriminate.
Qed.
Lemma remove_invalid_for_scope_In s it v k :
  In k (remove_invalid_for_scope s it v) <->
  In k s /\ (flat_map (fun a => descendant_args (at_kind a) v) (it_scope it) = []
             \/ In k (flat_map (fun a => descendant_args (at_kind a) v) (it_scope it))).
Proof.
  unfold remove_invalid_for_scope.
  destruct (flat_map (fun a => descendant_args (at_kind a) v) (it_scope it)) as [|x l] eqn:E.
  - split; [intros H; split; [exact H | left; reflexivity] | tauto].
  - rewrite filter_In, contains_arg_In. split; [intros [H1 H2]; split; [exact H1 | right; exact H2]|].
    intros [H1 [H2|H2]]; [discriminate | split; assumption].
Qed.
Lemma remove_invalid_for_item_In s it k :
  In k (remove_invalid_for_item s it) <->
  In k s /\ ~ (it_kind it = IMPL /\ it_trait_impl it = true /\ k = ANamespace).
Proof.
  unfold remove_invalid_for_item. destruct (skind_eqb (it_kind it) IMPL && it_trait_impl it) eqn:E.
  - apply andb_true_iff in E. destruct E as [E1 E2]. apply skind_eqb_eq in E1.
    rewrite filter_In, negb_true_iff, arg_kind_eqb_neq. intuition.
  - split; [intros H; split; [exact H|] | tauto]. intros (E1 & E2 & _). rewrite E1, E2 in E. discriminate.
Qed.
Lemma remove_invalid_args_In s a it v k :
  In k (remove_invalid_args s a it v) ->
  In k s /\ ~ In k (present_args (it_attrs it))
  /\ (forall p b, primary_candidate (it_attrs it) = Some (p, b) -> In k (sibling_args (at_kind p) v)).
Proof.
  unfold remove_invalid_args. intros H.
  assert (H' : In k (remove_conflicting_args (remove_duplicate_args s it) it v)).
  { destruct (at_kind a); [exact H | apply remove_invalid_for_scope_In in H; tauto]. }
  split; [|split].
  - apply remove_conflicting_args_incl, remove_duplicate_args_In in H'. tauto.
  - apply remove_conflicting_args_incl, remove_duplicate_args_In in H'. tauto.
  - intros p b E. eapply remove_conflicting_args_sibling; eassumption.
Qed.
Lemma remove_invalid_args_scope s a it v k c :
  at_kind a = AkArg c -> In k (remove_invalid_args s a it v) ->
  flat_map (fun a => descendant_args (at_kind a) v) (it_scope it) = []
  \/ In k (flat_map (fun a => descendant_args (at_kind a) v) (it_scope it)).
Proof.
  unfold remove_invalid_args. intros ->. intros H. apply remove_invalid_for_scope_In in H. tauto.
Qed.

Lemma NoDup_filter' {A} (f : A -> bool) l : NoDup l -> NoDup (filter f l).
Proof. apply NoDup_filter. Qed.
Lemma remove_conflicting_args_NoDup s it v : NoDup s -> NoDup (remove_conflicting_args s it v).
Proof.
  intros H. unfold remove_conflicting_args. destruct (primary_candidate (it_attrs it)) as [[p b]|]; [|exact H].
  destruct v; [|destruct (is_event_kind (at_kind p)); [destruct (_ || _)|]]; repeat apply NoDup_filter; exact H.
Qed.
Lemma remove_invalid_for_scope_NoDup s it v : NoDup s -> NoDup (remove_invalid_for_scope s it v).
Proof.
  intros H. unfold remove_invalid_for_scope. destruct (flat_map _ _); [exact H | apply NoDup_filter, H].
Qed.
Lemma remove_invalid_args_NoDup s a it v : NoDup s -> NoDup (remove_invalid_args s a it v).
Proof.
  intros H. unfold remove_invalid_args.
  assert (H' : NoDup (remove_conflicting_args (remove_duplicate_args s it) it v))
    by (apply remove_conflicting_args_NoDup, NoDup_filter, H).
  destruct (at_kind a); [exact H' | apply remove_invalid_for_scope_NoDup, H'].
Qed.
Lemma remove_invalid_macros_for_scope_In s it v k :
  In k (remove_invalid_macros_for_scope s it v) <->
  In k s /\ (it_scope it = [] \/ In k (flat_map (fun a => descendant_macros (at_kind a) v) (it_scope it))).
Proof.
  unfold remove_invalid_macros_for_scope. destruct (it_scope it) as [|c l] eqn:E.
  - split; [intros H; split; [exact H | left; reflexivity] | tauto].
  - rewrite filter_In, andb_true_iff, contains_macro_In. split.
    + intros (H1 & _ & H2). split; [exact H1 | right; exact H2].
    + intros (H1 & [H2|H2]); [discriminate|]. split; [exact H1|]. split; [|exact H2].
      destruct (flat_map _ _); [destruct H2 | reflexivity].
Qed.
Lemma remove_invalid_macros_for_scope_NoDup s it v : NoDup s -> NoDup (remove_invalid_macros_for_scope s it v).
Proof.
  intros H. unfold remove_invalid_macros_for_scope. destruct (it_scope it); [exact H | apply NoDup_filter, H].
Qed.
Lemma remove_invalid_macros_for_cfg_In s it k :
  In k (remove_invalid_macros_for_cfg s it) <->
  In k s /\ (k = MTest -> it_cfg_test it = true)
  /\ (k = ME2ETest -> it_cfg_test it = true /\ it_cfg_e2e it = true).
Proof.
  unfold remove_invalid_macros_for_cfg.
  set (is_test := fun k => match k with MTest | ME2ETest => true | _ => false end).
  destruct (existsb is_test s) eqn:E.
  - rewrite filter_In. split.
    + intros [H1 H2]. split; [exact H1|].
      destruct k; simpl in H2; split; intros Ek; try discriminate Ek;
        destruct (it_cfg_test it), (it_cfg_e2e it); simpl in H2; try discriminate; auto.
    + intros (H1 & H2 & H3). split; [exact H1|]. destruct k; simpl; try reflexivity.
      * rewrite (H2 eq_refl). reflexivity.
      * destruct (H3 eq_refl) as [-> ->]. reflexivity.
  - split; [|tauto]. intros H. split; [exact H|].
    assert (Hk : is_test k = false).
    { destruct (is_test k) eqn:Ek; [|reflexivity].
      assert (existsb is_test s = true) by (apply existsb_exists; exists k; split; assumption). congruence. }
    split; intros ->; discriminate Hk.
Qed.

(** ** The primary attribute *)
Definition known (a : ink_attr) : Prop := attr_kind_unknown (at_kind a) = false.
Definition rank (a : ink_attr) : nat := attr_rank (at_kind a).
Definition best (attrs : list ink_attr) (p : ink_attr) : Prop :=
  exists L R, attrs = L ++ p :: R /\ known p
    /\ (forall y, In y L -> known y -> rank p < rank y)
    /\ (forall y, In y R -> known y -> rank p <= rank y).

Lemma filter_split {A} (f : A -> bool) l l1 x l2 :
  filter f l = l1 ++ x :: l2 ->
  exists L R, l = L ++ x :: R /\ filter f L = l1 /\ filter f R = l2.
Proof.
  revert l1; induction l as [|y l IH]; intros l1 H; simpl in H.
  - destruct l1; discriminate.
  - destruct (f y) eqn:E.
    + destruct l1 as [|z l1]; simpl in H; injection H as -> H.
      * exists [], l. repeat split. exact H.
      * destruct (IH _ H) as (L & R & -> & H1 & H2). exists (z :: L), R. simpl. rewrite E, H1. repeat split. exact H2.
    + destruct (IH _ H) as (L & R & -> & H1 & H2). exists (y :: L), R. simpl. rewrite E. repeat split; assumption.
Qed.
Lemma best_primary attrs p : best attrs p <-> exists b, primary_candidate attrs = Some (p, b).
Proof.
  unfold primary_candidate. split.
  - intros (L & R & -> & Hk & H1 & H2).
    assert (E : hd_error (stable_sort (fun a => attr_rank (at_kind a))
              (filter (fun a => negb (attr_kind_unknown (at_kind a))) (L ++ p :: R))) = Some p).
    { apply stable_sort_hd. rewrite filter_app. simpl. rewrite Hk. simpl.
      eexists _, _. split; [reflexivity|]. split; apply Forall_forall; intros y Hy; apply filter_In in Hy;
        destruct Hy as [Hy Hy']; rewrite negb_true_iff in Hy'.
      - apply (H1 y Hy Hy').
      - apply (H2 y Hy Hy'). }
    rewrite E. destruct (L ++ p :: R) as [|f l] eqn:El; [destruct L; discriminate|]. eexists; reflexivity.
  - intros (b & H). destruct attrs as [|f attrs]; [discriminate|].
    destruct (hd_error _) as [q|] eqn:E in H; [|discriminate]. injection H as -> <-.
    apply stable_sort_hd in E. destruct E as (l1 & l2 & E & H1 & H2).
    rewrite Forall_forall in H1, H2.
    destruct (filter_split _ _ _ _ _ E) as (L & R & EL & EL1 & EL2). exists L, R. split; [exact EL|].
    split; [|split].
    + assert (Hp : In p (filter (fun a => negb (attr_kind_unknown (at_kind a))) (f :: attrs)))
        by (rewrite E; apply in_app_iff; right; left; reflexivity).
      apply filter_In in Hp. destruct Hp as [_ Hp]. rewrite negb_true_iff in Hp. exact Hp.
    + intros y Hy Hk. apply (H1 y). rewrite <- EL1. apply filter_In. split; [exact Hy | rewrite negb_true_iff; exact Hk].
    + intros y Hy Hk. apply (H2 y). rewrite <- EL2. apply filter_In. split; [exact Hy | rewrite negb_true_iff; exact Hk].
Qed.
Lemma primary_first attrs p b f l :
  primary_candidate attrs = Some (p, b) -> attrs = f :: l -> (b = true <-> at_range f = at_range p).
Proof.
  intros H ->. unfold primary_candidate in H. destruct (hd_error _) as [q|]; [|discriminate].
  injection H as -> <-. apply range_eqb_eq.
Qed.
Lemma primary_In attrs p b : primary_candidate attrs = Some (p, b) -> In p attrs.
Proof.
  intros H. assert (B : best attrs p) by (apply best_primary; eexists; exact H).
  destruct B as (L & R & -> & _). apply in_app_iff; right; left; reflexivity.
Qed.
Lemma primary_known attrs p b : primary_candidate attrs = Some (p, b) -> known p.
Proof.
  intros H. assert (B : best attrs p) by (apply best_primary; eexists; exact H).
  destruct B as (L & R & _ & K & _). exact K.
Qed.

Lemma known_rank_arg k : attr_kind_unknown (AkArg k) = false <-> arg_rank k <= 1.
Proof. destruct k; simpl; split; intros H; try reflexivity; try lia; discriminate. Qed.

Lemma primary_of_map (l : list ink_arg) p :
  primary_of (fun x y => precedes (ia_kind x) (ia_kind y)) l p -> primary_of precedes (map ia_kind l) (ia_kind p).
Proof.
  intros (b & c & -> & H1 & H2). exists (map ia_kind b), (map ia_kind c). rewrite map_app. split; [reflexivity|].
  split; intros y Hy; apply in_map_iff in Hy; destruct Hy as (z & <- & Hz); [apply H1 | apply H2]; exact Hz.
Qed.
Lemma primary_of_unique l x y : primary_of precedes l x -> primary_of precedes l y -> x = y.
Proof.
  intros H1 H2. apply (stable_sort_primary arg_rank precedes l _ precedes_rank) in H1, H2. congruence.
Qed.
Lemma primary_of_least l x y : primary_of precedes l x -> In y l -> arg_rank x <= arg_rank y.
Proof.
  intros (b & c & -> & H1 & H2) Hy. apply in_app_iff in Hy. destruct Hy as [Hy|[->|Hy]]; [|lia|].
  - apply H1, precedes_rank in Hy. lia.
  - apply H2 in Hy. rewrite precedes_rank in Hy. lia.
Qed.
(** Writing one more element changes the primary one to it, or not at all. *)
Lemma primary_of_insert l r x p q :
  primary_of precedes (l ++ r) p -> primary_of precedes (l ++ x :: r) q -> q = p \/ q = x.
Proof.
  intros Hp (b & c & E & H1 & H2).
  assert (Hcase : q = x \/ primary_of precedes (l ++ r) q).
  { revert b E H1 H2. induction l as [|y l IH] using rev_ind; intros b E H1 H2.
    - simpl in *. destruct b as [|z b]; simpl in E; injection E as E1 E2; [left; congruence|].
      right. exists b, c. split; [exact E2|]. split; [|exact H2]. intros w Hw. apply H1. right; exact Hw.
    - clear IH. assert (Hs : exists m, (b = (l ++ [y]) ++ x :: m /\ r = m ++ q :: c)
                        \/ (b = l ++ [y] /\ q = x /\ r = c)
                        \/ (l ++ [y] = b ++ q :: m /\ c = m ++ x :: r)).
      { clear -E. revert b E. generalize (l ++ [y]) as k. induction k as [|z k IH]; intros b E; simpl in E.
        - destruct b as [|w b]; simpl in E; injection E as E1 E2.
          + exists []. right; left. repeat split; congruence.
          + exists b. left. split; [simpl; congruence | exact E2].
        - destruct b as [|w b]; simpl in E; injection E as E1 E2.
          + exists k. right; right. split; [simpl; congruence | congruence].
          + destruct (IH b E2) as (m & [(H1 & H2)|[(H1 & H2 & H3)|(H1 & H2)]]); exists m.
            * left. split; [simpl; congruence | exact H2].
            * right; left. repeat split; congruence.
            * right; right. split; [simpl; congruence | exact H2]. }
      destruct Hs as (m & [(-> & ->)|[(-> & -> & ->)|(Hl & ->)]]).
      + right. exists ((l ++ [y]) ++ m), c. split; [rewrite <- !app_assoc; reflexivity|]. split; [|exact H2].
        intros w Hw. apply H1. apply in_app_iff in Hw. apply in_app_iff. destruct Hw as [Hw|Hw]; [left; exact Hw|].
        right; right; exact Hw.
      + left; reflexivity.
      + right. rewrite Hl. exists b, (m ++ r). split; [rewrite <- app_assoc; reflexivity|]. split; [exact H1|].
        intros w Hw. apply H2. apply in_app_iff in Hw. apply in_app_iff. destruct Hw as [Hw|Hw]; [left; exact Hw|].
        right; right; exact Hw. }
  destruct Hcase as [->|Hq]; [right; reflexivity|]. left. eapply primary_of_unique; eassumption.
Qed.

Lemma alike_known a b : alike a b -> (known a <-> known b).
Proof. intros [E _]. unfold known. rewrite E. tauto. Qed.
Lemma alike_rank a b : alike a b -> rank a = rank b.
Proof. intros [E _]. unfold rank. rewrite E. reflexivity. Qed.

Lemma with_arg_kinds a a' x : with_arg a a' x ->
  exists l r, map ia_kind (at_args a) = l ++ r /\ map ia_kind (at_args a') = l ++ ia_kind x :: r.
Proof.
  intros [(l & r & l' & r' & E & E' & H1 & H2) _]. exists (map ia_kind l), (map ia_kind r).
  rewrite E, E', !map_app. simpl. rewrite H1, H2. split; reflexivity.
Qed.
(** The kind of the attribute after an argument was written into it. *)
Lemma with_arg_kind a a' x : with_arg a a' x -> ia_kind x <> AUnknown ->
  match at_kind a with
  | AkMacro _ => at_kind a' = at_kind a
  | AkArg AUnknown => at_kind a' = AkArg (ia_kind x)
  | AkArg _ => at_kind a' = at_kind a \/ at_kind a' = AkArg (ia_kind x)
  end.
Proof.
  intros W Hx. destruct (with_arg_kinds _ _ _ W) as (l & r & E & E').
  destruct W as (_ & Hk & Ha & Ha'). unfold kind_agrees in Ha, Ha'.
  destruct (at_kind a) as [m|k] eqn:Ek; [exact Hk|]. destruct Hk as (k' & Ek'). rewrite Ek' in Ha' |- *.
  destruct Ha' as [[E0 _]|(q & Hq & <-)]; [rewrite E0 in E'; destruct l; discriminate|].
  apply primary_of_map in Hq. rewrite E' in Hq.
  destruct Ha as [[E0 ->]|(p & Hp & <-)].
  - rewrite E0 in E. destruct l; [|discriminate]. destruct r; [|discriminate]. simpl in Hq.
    destruct Hq as (b & c & Eb & _ & _). destruct b as [|z b]; simpl in Eb; injection Eb as Eb1 Eb2;
      [congruence | destruct b; discriminate].
  - apply primary_of_map in Hp. rewrite E in Hp. pose proof (primary_of_insert _ _ _ _ _ Hp Hq) as Hc.
    destruct (ia_kind p) eqn:Ep; try (destruct Hc as [-> | ->]; [left|right]; reflexivity).
    destruct Hc as [Hc| ->]; [|reflexivity]. exfalso.
    assert (Hl : arg_rank (ia_kind q) <= arg_rank (ia_kind x)).
    { eapply primary_of_least; [exact Hq|]. apply in_app_iff; right; left; reflexivity. }
    rewrite Hc in Hl. clear -Hl Hx. destruct (ia_kind x); simpl in Hl; try lia. congruence.
Qed.
Lemma with_arg_rank a a' x : with_arg a a' x -> ia_kind x <> AUnknown -> known a -> known a' /\ rank a' <= rank a.
Proof.
  intros W Hx Hk. pose proof (with_arg_kind _ _ _ W Hx) as K. unfold known, rank in *.
  destruct (at_kind a) as [m|k] eqn:Ek.
  - rewrite K. split; [exact Hk | lia].
  - destruct (at_kind a') as [m'|k'] eqn:Ek'; [destruct k; intuition discriminate|].
    destruct (with_arg_kinds _ _ _ W) as (l & r & E & E').
    destruct W as (_ & _ & Ha & Ha'). unfold kind_agrees in Ha, Ha'. rewrite Ek in Ha. rewrite Ek' in Ha'.
    destruct Ha' as [[E0 _]|(q & Hq & <-)]; [rewrite E0 in E'; destruct l; discriminate|].
    destruct Ha as [[_ ->]|(p & Hp & <-)]; [discriminate Hk|].
    assert (Hl : arg_rank (ia_kind q) <= arg_rank (ia_kind p)).
    { eapply primary_of_least; [apply primary_of_map; exact Hq|]. rewrite E'.
      assert (Hin : In (ia_kind p) (l ++ r)).
      { rewrite <- E. apply in_map. destruct Hp as (b & c & -> & _). apply in_app_iff; right; left; reflexivity. }
      apply in_app_iff in Hin. apply in_app_iff. destruct Hin; [left|right;right]; assumption. }
    apply known_rank_arg in Hk. split; [apply known_rank_arg; lia | simpl; lia].
Qed.

Lemma Forall2_app_split {A B} (R : A -> B -> Prop) l l1 y l2 :
  Forall2 R l (l1 ++ y :: l2) -> exists k1 x k2, l = k1 ++ x :: k2 /\ Forall2 R k1 l1 /\ R x y /\ Forall2 R k2 l2.
Proof.
  intros H. apply Forall2_app_inv_r in H. destruct H as (k1 & k & H1 & H & ->).
  inversion H as [|x z k2 z2 Hx H2]; subst. exists k1, x, k2. repeat split; assumption.
Qed.
Lemma alike_back l l' : Forall2 alike l l' ->
  forall y, In y l -> exists y', In y' l' /\ alike y y'.
Proof.
  induction 1 as [|a b l l' H F IH]; intros y Hy; [destruct Hy|]. destruct Hy as [->|Hy].
  - exists b. split; [left; reflexivity | exact H].
  - destruct (IH y Hy) as (y' & H1 & H2). exists y'. split; [right; exact H1 | exact H2].
Qed.
Lemma app_cases {A} (l : list A) a r L p R : l ++ a :: r = L ++ p :: R ->
  (exists M, l = L ++ p :: M /\ R = M ++ a :: r) \/ (l = L /\ a = p /\ r = R)
  \/ (exists M, L = l ++ a :: M /\ r = M ++ p :: R).
Proof.
  revert L; induction l as [|y l IH]; intros [|z L] E; simpl in E; injection E as E1 E2.
  - right; left. repeat split; assumption.
  - right; right. exists L. subst. split; reflexivity.
  - left. exists l. subst. split; reflexivity.
  - destruct (IH L E2) as [(M & -> & ->)|[(-> & -> & ->)|(M & -> & ->)]].
    + left. exists M. subst; split; reflexivity.
    + right; left. subst; repeat split.
    + right; right. exists M. subst; split; reflexivity.
Qed.
Lemma distinct_split attrs l a r : distinct_places attrs -> attrs = l ++ a :: r ->
  forall y, In y l \/ In y r -> at_range y <> at_range a.
Proof.
  unfold distinct_places. intros D -> y Hy E. rewrite map_app in D. simpl in D. apply NoDup_remove_2 in D.
  apply D. apply in_app_iff. destruct Hy as [Hy|Hy]; [left|right]; rewrite <- E; apply in_map; exact Hy.
Qed.

(** After [x] was written into [a]: the primary attribute is [a'] or what it was. *)
Lemma primary_edited attrs attrs' a a' x p' b' :
  edited attrs attrs' a a' x -> ia_kind x <> AUnknown -> primary_candidate attrs' = Some (p', b') ->
  p' = a' \/ (exists p b, primary_candidate attrs = Some (p, b) /\ alike p p'
                /\ at_range p <> at_range a /\ at_range p' <> at_range a').
Proof.
  intros [(l & r & l' & r' & E & E' & Fl & Fr) W D D'] Hx Hp.
  assert (B : best attrs' p') by (apply best_primary; eexists; exact Hp).
  destruct B as (L' & R' & EB & Hk & H1 & H2). rewrite E' in EB.
  assert (Hra : known a -> known a' /\ rank a' <= rank a) by (apply with_arg_rank with (x := x); assumption).
  destruct (app_cases _ _ _ _ _ _ EB) as [(M' & El & ER)|[(El & Ea & ER)|(M' & El & ER)]].
  - right. rewrite El in Fl. destruct (Forall2_app_split _ _ _ _ _ Fl) as (L & p & M & -> & F1 & Ap & F2).
    assert (Bp : best attrs p).
    { exists L, (M ++ a :: r). split; [rewrite E, <- app_assoc; reflexivity|].
      split; [apply (alike_known _ _ Ap); exact Hk|]. rewrite (alike_rank _ _ Ap). split; intros y Hy Ky.
      - destruct (alike_back _ _ F1 y Hy) as (y' & Hy' & Ay). rewrite (alike_rank _ _ Ay).
        apply H1; [exact Hy' | apply (alike_known _ _ Ay); exact Ky].
      - apply in_app_iff in Hy. destruct Hy as [Hy|[<-|Hy]].
        + destruct (alike_back _ _ F2 y Hy) as (y' & Hy' & Ay). rewrite (alike_rank _ _ Ay).
          apply H2; [rewrite ER; apply in_app_iff; left; exact Hy' | apply (alike_known _ _ Ay); exact Ky].
        + destruct (Hra Ky) as [Ka' Hr]. specialize (H2 a'). rewrite ER in H2.
          assert (In a' (M' ++ a' :: r')) by (apply in_app_iff; right; left; reflexivity).
          specialize (H2 H Ka'). lia.
        + destruct (alike_back _ _ Fr y Hy) as (y' & Hy' & Ay). rewrite (alike_rank _ _ Ay).
          apply H2; [rewrite ER; apply in_app_iff; right; right; exact Hy' | apply (alike_known _ _ Ay); exact Ky]. }
    apply best_primary in Bp. destruct Bp as (b & Bp). exists p, b. split; [exact Bp|]. split; [exact Ap|].
    split.
    + apply (distinct_split attrs (L ++ p :: M) a r D E). left. apply in_app_iff; right; left; reflexivity.
    + apply (distinct_split attrs' l' a' r' D' E'). left. rewrite El. apply in_app_iff; right; left; reflexivity.
  - left. congruence.
  - right. rewrite ER in Fr. destruct (Forall2_app_split _ _ _ _ _ Fr) as (M & p & R & -> & F1 & Ap & F2).
    assert (Bp : best attrs p).
    { exists (l ++ a :: M), R. split; [rewrite E, <- app_assoc; reflexivity|].
      split; [apply (alike_known _ _ Ap); exact Hk|]. rewrite (alike_rank _ _ Ap). split; intros y Hy Ky.
      - apply in_app_iff in Hy. destruct Hy as [Hy|[<-|Hy]].
        + destruct (alike_back _ _ Fl y Hy) as (y' & Hy' & Ay). rewrite (alike_rank _ _ Ay).
          apply H1; [rewrite El; apply in_app_iff; left; exact Hy' | apply (alike_known _ _ Ay); exact Ky].
        + destruct (Hra Ky) as [Ka' Hr].
          assert (Hin : In a' L') by (rewrite El; apply in_app_iff; right; left; reflexivity).
          specialize (H1 a' Hin Ka'). lia.
        + destruct (alike_back _ _ F1 y Hy) as (y' & Hy' & Ay). rewrite (alike_rank _ _ Ay).
          apply H1; [rewrite El; apply in_app_iff; right; right; exact Hy' | apply (alike_known _ _ Ay); exact Ky].
      - destruct (alike_back _ _ F2 y Hy) as (y' & Hy' & Ay). rewrite (alike_rank _ _ Ay).
        apply H2; [exact Hy' | apply (alike_known _ _ Ay); exact Ky]. }
    apply best_primary in Bp. destruct Bp as (b & Bp). exists p, b. split; [exact Bp|]. split; [exact Ap|].
    split.
    + apply (distinct_split attrs l a (M ++ p :: R) D E). right. apply in_app_iff; right; left; reflexivity.
    + apply (distinct_split attrs' l' a' r' D' E'). right. rewrite ER. apply in_app_iff; right; left; reflexivity.
Qed.

(** The converse for an edit that does not change the kind of [a]: if [a'] is the primary attribute, [a] was. *)
Lemma primary_back attrs attrs' a a' x b' :
  edited attrs attrs' a a' x -> at_kind a' = at_kind a -> primary_candidate attrs' = Some (a', b') ->
  exists b, primary_candidate attrs = Some (a, b).
Proof.
  intros [(l & r & l' & r' & E & E' & Fl & Fr) W D D'] Hk Hp. apply best_primary.
  assert (B : best attrs' a') by (apply best_primary; eexists; exact Hp).
  destruct B as (L' & R' & EB & Ka & H1 & H2). rewrite E' in EB.
  assert (Hs : l' = L' /\ r' = R').
  { destruct (app_cases _ _ _ _ _ _ EB) as [(M' & El & ER)|[(El & Ea & ER)|(M' & El & ER)]].
    - exfalso. apply (distinct_split attrs' l' a' r' D' E' a'); [|reflexivity].
      left. rewrite El. apply in_app_iff; right; left; reflexivity.
    - split; assumption.
    - exfalso. apply (distinct_split attrs' l' a' r' D' E' a'); [|reflexivity].
      right. rewrite ER. apply in_app_iff; right; left; reflexivity. }
  destruct Hs as [-> ->].
  assert (Er : rank a' = rank a) by (unfold rank; rewrite Hk; reflexivity).
  exists l, r. split; [exact E|]. split; [unfold known in *; rewrite <- Hk; exact Ka|]. rewrite <- Er.
  split; intros y Hy Ky.
  - destruct (alike_back _ _ Fl y Hy) as (y' & Hy' & Ay). rewrite (alike_rank _ _ Ay).
    apply H1; [exact Hy' | apply (alike_known _ _ Ay); exact Ky].
  - destruct (alike_back _ _ Fr y Hy) as (y' & Hy' & Ay). rewrite (alike_rank _ _ Ay).
    apply H2; [exact Hy' | apply (alike_known _ _ Ay); exact Ky].
Qed.

(** ** Conflicts *)
Lemma attr_conflicts_attr v p skip a c f :
  In (RAttrConflict c f) (attr_conflicts v p skip a) <->
  c = a /\ f = conflict_fix_of v p a /\ same_attr a p = false /\ skip = false /\ valid_sibling_attr v p a = false.
Proof.
  unfold attr_conflicts. destruct (same_attr a p || skip || valid_sibling_attr v p a) eqn:E.
  - split.
    + intros H. apply in_flat_map in H. destruct H as (x & _ & H). destruct (_ && _ && _); simpl in H; [|destruct H].
      destruct H as [H|[]]; discriminate H.
    + intros (_ & _ & H1 & H2 & H3). rewrite H1, H2, H3 in E. discriminate E.
  - apply orb_false_iff in E. destruct E as [E E3]. apply orb_false_iff in E. destruct E as [E1 E2].
    simpl. split.
    + intros [H|[]]. injection H as <- <-. repeat split; assumption.
    + intros (-> & -> & _). left; reflexivity.
Qed.
Lemma attr_conflicts_arg v p skip a c x :
  In (RArgConflict c x) (attr_conflicts v p skip a) <->
  c = a /\ In x (at_args a) /\ (same_attr a p || skip || valid_sibling_attr v p a = true)
  /\ at_kind a <> AkArg (ia_kind x) /\ ~ In (ia_kind x) (sibling_args (at_kind p) v)
  /\ already_deprecated v p (ia_kind x) = false.
Proof.
  unfold attr_conflicts. destruct (same_attr a p || skip || valid_sibling_attr v p a) eqn:E.
  - rewrite in_flat_map. split.
    + intros (y & Hy & H). destruct (_ && _ && _) eqn:C; simpl in H; [|destruct H].
      destruct H as [H|[]]. injection H as <- <-. rewrite !andb_true_iff, !negb_true_iff in C.
      destruct C as [[C1 C2] C3]. repeat split; try assumption.
      * intros EK. rewrite EK, attr_kind_eqb_refl in C1. discriminate.
      * apply contains_arg_not; exact C2.
    + intros (-> & Hx & _ & C1 & C2 & C3). exists x. split; [exact Hx|].
      apply contains_arg_not in C2. rewrite C2, C3.
      destruct (attr_kind_eqb (at_kind a) (AkArg (ia_kind x))) eqn:EK; [apply attr_kind_eqb_eq in EK; congruence|].
      left; reflexivity.
  - split; [intros [H|[]]; discriminate H | intros (_ & _ & H & _); discriminate H].
Qed.
Lemma attr_conflicts_only v p skip a r : In r (attr_conflicts v p skip a) ->
  (exists f, r = RAttrConflict a f) \/ (exists x, r = RArgConflict a x).
Proof.
  unfold attr_conflicts. destruct (_ || _).
  - intros H. apply in_flat_map in H. destruct H as (x & _ & H). destruct (_ && _ && _); simpl in H; [|destruct H].
    destruct H as [<-|[]]. right; eexists; reflexivity.
  - intros [<-|[]]. left; eexists; reflexivity.
Qed.

(** Where a report about an attribute comes from. *)
Lemma conflicts_In v p b attrs r :
  In r (conflicts v p b attrs) <->
  exists l c m, attrs = l ++ c :: m /\ In r (attr_conflicts v p (match l with [] => negb b | _ => false end) c).
Proof.
  unfold conflicts. destruct attrs as [|a attrs].
  - split; [intros [] | intros (l & c & m & E & _); destruct l; discriminate].
  - rewrite in_app_iff, in_flat_map. split.
    + intros [H|(c & Hc & H)].
      * exists [], a, attrs. split; [reflexivity | exact H].
      * apply in_split in Hc. destruct Hc as (l & m & ->). exists (a :: l), c, m. split; [reflexivity | exact H].
    + intros ([|y l] & c & m & E & H); simpl in E; injection E as -> E.
      * left; exact H.
      * right. exists c. split; [rewrite E; apply in_app_iff; right; left; reflexivity | exact H].
Qed.
Lemma conflicts_arg v p b attrs c x :
  In (RArgConflict c x) (conflicts v p b attrs) ->
  In c attrs /\ In x (at_args c) /\ at_kind c <> AkArg (ia_kind x)
  /\ ~ In (ia_kind x) (sibling_args (at_kind p) v).
Proof.
  intros H. apply conflicts_In in H. destruct H as (l & d & m & -> & H). apply attr_conflicts_arg in H.
  destruct H as (-> & Hx & _ & H1 & H2 & _). split; [apply in_app_iff; right; left; reflexivity|].
  repeat split; assumption.
Qed.
Lemma conflicts_only v p b attrs r : In r (conflicts v p b attrs) ->
  (exists a f, r = RAttrConflict a f) \/ (exists a x, r = RArgConflict a x).
Proof.
  intros H. apply conflicts_In in H. destruct H as (l & d & m & -> & H). apply attr_conflicts_only in H.
  destruct H as [(f & ->)|(x & ->)]; [left|right]; eexists _, _; reflexivity.
Qed.

Definition is_conflict (r : report) : Prop :=
  match r with RAttrConflict _ _ | RArgConflict _ _ => True | _ => False end.

Ltac not_in_ifs :=
  repeat match goal with
         | H : In _ (_ ++ _) |- _ => apply in_app_iff in H; destruct H as [H|H]
         | H : In _ (if ?c then _ else _) |- _ => destruct c
         | H : In _ (match ?c with _ => _ end) |- _ => destruct c
         | H : In _ (_ :: _) |- _ => destruct H as [H|H]
         | H : In _ [] |- _ => destruct H
         | H : _ = _ |- _ => discriminate H
         end.
Lemma anonymous_signature_no_conflict k attrs r : In r (anonymous_signature k attrs) -> is_conflict r -> False.
Proof.
  unfold anonymous_signature. intros H C.
  repeat match type of H with
         | In _ (if ?c then _ else _) => destruct c
         | In _ (match ?c with _ => _ end) => destruct c
         end; simpl in H; try tauto; destruct H as [<-|[]]; exact C.
Qed.
Lemma validate_conflict attrs ce v r :
  In r (validate_entity attrs ce v) -> is_conflict r ->
  exists p b, primary_candidate attrs = Some (p, b) /\ In r (conflicts v p b attrs).
Proof.
  unfold validate_entity. intros H C. destruct (primary_candidate attrs) as [[p b]|]; [|destruct H].
  exists p, b. split; [reflexivity|].
  set (rest := (_ ++ _ ++ _ ++ conflicts v p b attrs)%list) in H.
  assert (Hif : forall (c : bool) y, In r (if c then [y] else []) -> ~ is_conflict y -> False).
  { intros c y Hr Hy. destruct c; [|destruct Hr]. destruct Hr as [<-|[]]. exact (Hy C). }
  assert (Hrest : In r rest -> In r (conflicts v p b attrs)).
  { unfold rest. rewrite !in_app_iff. intros [Hr|[Hr|[Hr|Hr]]]; [| | |exact Hr]; exfalso.
    - apply Hif in Hr; [exact Hr | simpl; tauto].
    - match type of Hr with In _ (if ?c then _ else _) => destruct c end; [|destruct Hr].
      destruct (at_kind p); [destruct Hr|].
      match type of Hr with In _ (if ?c then _ else _) => destruct c end; [destruct Hr|].
      destruct Hr as [<-|[]]; exact C.
    - apply Hif in Hr; [exact Hr | simpl; tauto]. }
  clearbody rest. destruct v; [apply Hrest, H|].
  set (r1 := anonymous_signature (at_kind p) attrs) in H.
  set (r2 := match at_kind p with AkMacro MChainExtension => _ | _ => _ end) in H.
  assert (H1 : ~ In r r1) by (intros H1; eapply anonymous_signature_no_conflict; eassumption).
  assert (H2 : ~ In r r2).
  { unfold r2. intros H2. destruct (at_kind p) as [[]|]; simpl in H2; try tauto;
      destruct (find_arg attrs AExtension); simpl in H2; try tauto; destruct H2 as [<-|[]]; destruct C. }
  clearbody r1 r2.
  set (r3 := match at_kind p with AkMacro ME2ETest => _ | _ => _ end) in H.
  set (r4 := match at_kind p with AkMacro ME2ETest => match find_arg attrs AKeepAttr with _ => _ end | _ => _ end) in H.
  assert (H3 : ~ In r r3).
  { unfold r3. intros H3. destruct (at_kind p) as [[]|[]]; simpl in H3; try tauto;
      destruct (find_arg attrs AAdditionalContracts); simpl in H3; try tauto; destruct H3 as [<-|[]]; destruct C. }
  assert (H4 : ~ In r r4).
  { unfold r4. intros H4. destruct (at_kind p) as [[]|[]]; simpl in H4; try tauto;
      destruct (find_arg attrs AKeepAttr); simpl in H4; try tauto; destruct H4 as [<-|[]]; destruct C. }
  clearbody r3 r4.
  assert (Hall : In r (r1 ++ r2 ++ r3 ++ r4 ++ rest) -> In r (conflicts V5 p b attrs)).
  { intros Hr. rewrite !in_app_iff in Hr. tauto. }
  assert (H12 : forall x, In r (r1 ++ r2 ++ [RDeprecatedExtension x]) -> False).
  { intros x Hr. rewrite !in_app_iff in Hr. simpl in Hr. destruct Hr as [?|[?|[<-|[]]]]; tauto. }
  assert (H123 : In r (r1 ++ r2 ++ r3) -> False).
  { intros Hr. rewrite !in_app_iff in Hr. tauto. }
  destruct (at_kind p) as [m|k]; [apply Hall, H|].
  destruct k; try (apply Hall, H).
  - destruct r3; [apply Hall, H | destruct (H123 H)].
  - destruct ce; [|apply Hall, H]. destruct (find_arg attrs AExtension); [destruct (H12 _ H) | apply Hall, H].
Qed.
Lemma validate_conflict_back attrs ce v p b r :
  primary_candidate attrs = Some (p, b) -> sibling_args (at_kind p) v <> [] ->
  In r (conflicts v p b attrs) -> In r (validate_entity attrs ce v).
Proof.
  intros E Hs H. unfold validate_entity. rewrite E.
  set (rest := (_ ++ _ ++ _ ++ conflicts v p b attrs)%list).
  assert (Hrest : In r rest) by (unfold rest; rewrite !in_app_iff; tauto).
  clearbody rest. destruct v; [exact Hrest|].
  destruct (at_kind p) as [m|k] eqn:Ek; [rewrite !in_app_iff; tauto|].
  destruct k; try (rewrite !in_app_iff; tauto); simpl in Hs; congruence.
Qed.

(** The kinds of an item after the edit. *)
Lemma alike_kinds l l' : Forall2 alike l l' -> present_args l = present_args l'.
Proof.
  unfold present_args. induction 1 as [|a b l l' [_ H] F IH]; [reflexivity|]. simpl. rewrite !map_app, H, IH. reflexivity.
Qed.
Lemma present_app l r : present_args (l ++ r) = present_args l ++ present_args r.
Proof. unfold present_args. rewrite flat_map_app, map_app. reflexivity. Qed.
Lemma edited_kinds attrs attrs' a a' x : edited attrs attrs' a a' x ->
  exists P Q, present_args attrs = P ++ Q /\ present_args attrs' = P ++ ia_kind x :: Q.
Proof.
  intros [(l & r & l' & r' & E & E' & Fl & Fr) W _ _]. destruct (with_arg_kinds _ _ _ W) as (K1 & K2 & H1 & H2).
  exists (present_args l ++ K1), (K2 ++ present_args r). rewrite E, E', !present_app.
  change (present_args (a :: r)) with (map ia_kind (at_args a ++ flat_map at_args r)).
  change (present_args (a' :: r')) with (map ia_kind (at_args a' ++ flat_map at_args r')).
  rewrite !map_app, H1, H2, <- (alike_kinds _ _ Fl).
  change (map ia_kind (flat_map at_args r')) with (present_args r'). rewrite <- (alike_kinds _ _ Fr).
  split; rewrite <- !app_assoc; reflexivity.
Qed.

(** A suggestion that passed the filters is never in conflict once it is written. *)
Lemma accepted_no_conflict attrs attrs' a a' x v ce :
  edited attrs attrs' a a' x -> ia_kind x <> AUnknown ->
  (forall p b, primary_candidate attrs = Some (p, b) -> In (ia_kind x) (sibling_args (at_kind p) v)) ->
  ~ In (RArgConflict a' x) (validate_entity attrs' ce v).
Proof.
  intros Ed Hx Hs H. apply validate_conflict in H; [|exact I]. destruct H as (p' & b' & Hp & H).
  apply conflicts_arg in H. destruct H as (_ & _ & H1 & H2).
  destruct (primary_edited _ _ _ _ _ _ _ Ed Hx Hp) as [->|(p & b & Hpp & [Ap _] & _)].
  - pose proof (with_arg_kind _ _ _ (ed_with _ _ _ _ _ Ed) Hx) as K.
    assert (Hk : at_kind a' = at_kind a).
    { destruct (at_kind a) as [m|[]]; try exact K; try (destruct K as [K|K]; [exact K | congruence]). congruence. }
    destruct (primary_back _ _ _ _ _ _ Ed Hk Hp) as (b & Hpa). apply H2. rewrite Hk. apply (Hs _ _ Hpa).
  - apply H2. rewrite <- Ap. apply (Hs _ _ Hpp).
Qed.
Lemma accepted_attr_conflict attrs attrs' a a' x v ce ce' f :
  edited attrs attrs' a a' x -> ia_kind x <> AUnknown ->
  (forall p b, primary_candidate attrs = Some (p, b) -> In (ia_kind x) (sibling_args (at_kind p) v)) ->
  In (RAttrConflict a' f) (validate_entity attrs' ce' v) ->
  exists f0, In (RAttrConflict a f0) (validate_entity attrs ce v).
Proof.
  intros Ed Hx Hs H. apply validate_conflict in H; [|exact I]. destruct H as (p' & b' & Hp & H).
  apply conflicts_In in H. destruct H as (L & c & M & EL & H). apply attr_conflicts_attr in H.
  destruct H as (<- & _ & Hsame & Hskip & Hval).
  destruct (primary_edited _ _ _ _ _ _ _ Ed Hx Hp) as [->|(p & b & Hpp & Ap & Hpa & Hpa')].
  { rewrite same_attr_refl in Hsame. discriminate. }
  pose proof Ed as [(l & r & l' & r' & E & E' & Fl & Fr) W D D'].
  exists (conflict_fix_of v p a). apply (validate_conflict_back _ _ _ p b); [exact Hpp | |].
  { specialize (Hs _ _ Hpp). intros E0. rewrite E0 in Hs. destruct Hs. }
  apply conflicts_In. exists l, a, r. split; [exact E|]. apply attr_conflicts_attr.
  split; [reflexivity|]. split; [reflexivity|]. split; [|split].
  - destruct (same_attr a p) eqn:Es; [|reflexivity]. apply range_eqb_eq in Es. congruence.
  - destruct l as [|y l]; [|reflexivity]. inversion Fl; subst l'.
    assert (HL : L = []).
    { rewrite E' in EL. simpl in EL. destruct L as [|z L]; [reflexivity|]. exfalso.
      simpl in EL. injection EL as Ez Er.
      apply (distinct_split attrs' [] a' r' D' E' a'); [|reflexivity]. right. rewrite Er.
      apply in_app_iff; right; left; reflexivity. }
    subst L. apply negb_false_iff in Hskip. exfalso. apply Hpa'.
    rewrite E' in Hp. symmetry. apply (primary_first _ _ _ a' r' Hp eq_refl). exact Hskip.
  - destruct (valid_sibling_attr v p a) eqn:Ev; [|reflexivity]. exfalso.
    assert (Hv : valid_sibling_attr v p' a' = true); [|congruence].
    destruct Ap as [Ap _]. pose proof (with_arg_kind _ _ _ W Hx) as K. specialize (Hs _ _ Hpp).
    clear -Ap Ev K Hs. unfold valid_sibling_attr in *. rewrite <- Ap.
    destruct (at_kind p) as [m|kp] eqn:Ekp.
    + destruct (at_kind a) as [ma|ka] eqn:Eka; [rewrite K; exact Ev|]. destruct v; [discriminate|].
      destruct m; try discriminate; destruct ka; discriminate.
    + destruct (at_kind a) as [ma|ka] eqn:Eka; [rewrite K; exact Ev|].
      assert (K' : at_kind a' = AkArg ka \/ at_kind a' = AkArg (ia_kind x)) by (destruct ka; tauto).
      destruct K' as [-> | ->]; [exact Ev|]. apply contains_arg_In. exact Hs.
Qed.

(** ** Duplicates *)
Lemma duplicate_args_seen a xs seen k :
  In k (snd (duplicate_args a xs seen)) <-> In k (map ia_kind xs) \/ In k seen.
Proof.
  revert seen; induction xs as [|x xs IH]; intros seen; simpl; [tauto|].
  destruct (duplicate_args a xs (ia_kind x :: seen)) as [rs s'] eqn:E. simpl.
  specialize (IH (ia_kind x :: seen)). rewrite E in IH. simpl in IH. rewrite IH. tauto.
Qed.
Lemma duplicate_args_In a xs seen r :
  In r (fst (duplicate_args a xs seen)) <->
  exists l y m, xs = l ++ y :: m /\ r = RDuplicateArg a y /\ ia_kind y <> AUnknown
    /\ (In (ia_kind y) seen \/ In (ia_kind y) (map ia_kind l)).
Proof.
  revert seen; induction xs as [|x xs IH]; intros seen.
  - simpl. split; [intros [] | intros (l & y & m & E & _); destruct l; discriminate].
  - simpl. destruct (duplicate_args a xs (ia_kind x :: seen)) as [rs s'] eqn:E. simpl.
    specialize (IH (ia_kind x :: seen)). rewrite E in IH. simpl in IH. rewrite in_app_iff, IH. clear IH E. split.
    + intros [H|(l & y & m & -> & -> & Hy & Hs)].
      * destruct (negb _ && _) eqn:C; simpl in H; [|destruct H]. destruct H as [<-|[]].
        rewrite andb_true_iff, negb_true_iff, arg_kind_eqb_neq, contains_arg_In in C. destruct C as [C1 C2].
        exists [], x, xs. repeat split; [exact C1 | left; exact C2].
      * exists (x :: l), y, m. repeat split; [exact Hy|]. simpl. tauto.
    + intros ([|z l] & y & m & Es & -> & Hy & Hs); simpl in Es; injection Es as -> ->.
      * left. assert (C : negb (arg_kind_eqb (ia_kind y) AUnknown) && contains_arg seen (ia_kind y) = true).
        { rewrite andb_true_iff, negb_true_iff, arg_kind_eqb_neq, contains_arg_In. split; [exact Hy|].
          destruct Hs as [Hs|[]]; exact Hs. }
        rewrite C. left; reflexivity.
      * right. exists l, y, m. repeat split; [exact Hy|]. simpl in Hs. simpl. tauto.
Qed.
Definition placed_kinds (l : list (ink_attr * ink_arg)) : list arg_kind := map (fun cy => ia_kind (snd cy)) l.
Lemma map_pair_split (a : ink_attr) (l : list ink_arg) L cy R :
  map (pair a) l = L ++ cy :: R -> exists l1 y l2, l = l1 ++ y :: l2 /\ L = map (pair a) l1 /\ cy = (a, y)
    /\ R = map (pair a) l2.
Proof.
  revert L; induction l as [|x l IH]; intros [|z L] E; simpl in E; try discriminate; injection E as E1 E2.
  - exists [], x, l. subst. repeat split.
  - destruct (IH L E2) as (l1 & y & l2 & -> & -> & -> & ->). exists (x :: l1), y, l2. subst. repeat split.
Qed.
Lemma placed_pair_kinds (a : ink_attr) (l : list ink_arg) : placed_kinds (map (pair a) l) = map ia_kind l.
Proof. unfold placed_kinds. rewrite map_map. reflexivity. Qed.
Lemma placed_kinds_app l r : placed_kinds (l ++ r) = placed_kinds l ++ placed_kinds r.
Proof. apply map_app. Qed.
Lemma placed_present attrs : placed_kinds (placed_args attrs) = present_args attrs.
Proof.
  unfold placed_args, present_args. induction attrs as [|a attrs IH]; [reflexivity|]. simpl.
  rewrite placed_kinds_app, placed_pair_kinds, IH, map_app. reflexivity.
Qed.
Lemma app_split_cases {A} (l1 l2 L : list A) x R : l1 ++ l2 = L ++ x :: R ->
  (exists M, l1 = L ++ x :: M /\ R = M ++ l2) \/ (exists M, L = l1 ++ M /\ l2 = M ++ x :: R).
Proof.
  revert L; induction l1 as [|y l1 IH]; intros L E.
  - right. exists L. split; [reflexivity | exact E].
  - destruct L as [|z L]; simpl in E; injection E as E1 E2.
    + left. exists l1. subst. split; reflexivity.
    + destruct (IH L E2) as [(M & -> & ->)|(M & -> & ->)].
      * left. exists M. subst; split; reflexivity.
      * right. exists M. subst; split; reflexivity.
Qed.

Lemma duplicates_arg attrs sm sa c y :
  In (RDuplicateArg c y) (duplicates attrs sm sa) <->
  exists L R, placed_args attrs = L ++ (c, y) :: R /\ ia_kind y <> AUnknown
    /\ (In (ia_kind y) sa \/ In (ia_kind y) (placed_kinds L)).
Proof.
  revert sm sa; induction attrs as [|a attrs IH]; intros sm sa.
  - simpl. split; [intros [] | intros (L & R & E & _); destruct L; discriminate].
  - simpl duplicates.
    destruct (match at_kind a with AkMacro m => _ | AkArg _ => _ end) as [rm sm'] eqn:Em.
    destruct (duplicate_args a (at_args a) sa) as [ra sa'] eqn:Ea.
    pose proof (duplicate_args_In a (at_args a) sa (RDuplicateArg c y)) as HA.
    pose proof (fun k => duplicate_args_seen a (at_args a) sa k) as HS. rewrite Ea in HA. rewrite Ea in HS. simpl in HA, HS.
    rewrite !in_app_iff, HA, IH. change (placed_args (a :: attrs)) with (map (pair a) (at_args a) ++ placed_args attrs).
    split.
    + intros [H|[(l & y0 & m & El & Er & Hy & Hs)|(L & R & EL & Hy & Hs)]].
      * destruct (at_kind a); injection Em as <- <-; [|destruct H]. destruct (_ && _); simpl in H; [|destruct H].
        destruct H as [H|[]]; discriminate H.
      * injection Er as -> <-. exists (map (pair a) l), (map (pair a) m ++ placed_args attrs). rewrite El, map_app.
        simpl. rewrite <- app_assoc. split; [reflexivity|]. split; [exact Hy|]. rewrite placed_pair_kinds. exact Hs.
      * exists (map (pair a) (at_args a) ++ L), R. rewrite EL, <- app_assoc. split; [reflexivity|].
        split; [exact Hy|]. rewrite placed_kinds_app, placed_pair_kinds, in_app_iff. rewrite HS in Hs. tauto.
    + intros (L & R & E & Hy & Hs). right. destruct (app_split_cases _ _ _ _ _ E) as [(M & E1 & ->)|(M & -> & E2)].
      * left. destruct (map_pair_split _ _ _ _ _ E1) as (l1 & y0 & l2 & El & -> & Ec & _). injection Ec as -> ->.
        exists l1, y0, l2. repeat split; [exact El | exact Hy|]. rewrite placed_pair_kinds in Hs. exact Hs.
      * right. exists M, R. split; [exact E2|]. split; [exact Hy|]. rewrite placed_kinds_app, placed_pair_kinds, in_app_iff in Hs.
        rewrite HS. tauto.
Qed.
Lemma duplicates_macro attrs sm sa c :
  In (RDuplicateMacro c) (duplicates attrs sm sa) <->
  exists l r m, attrs = l ++ c :: r /\ at_kind c = AkMacro m /\ m <> MUnknown
    /\ (In m sm \/ In (AkMacro m) (map at_kind l)).
Proof.
  revert sm sa; induction attrs as [|a attrs IH]; intros sm sa.
  - simpl. split; [intros [] | intros (l & r & m & E & _); destruct l; discriminate].
  - simpl duplicates.
    destruct (match at_kind a with AkMacro m => _ | AkArg _ => _ end) as [rm sm'] eqn:Em.
    destruct (duplicate_args a (at_args a) sa) as [ra sa'] eqn:Ea.
    pose proof (duplicate_args_In a (at_args a) sa (RDuplicateMacro c)) as HA. rewrite Ea in HA. simpl in HA.
    rewrite !in_app_iff, HA, IH.
    assert (HM : In (RDuplicateMacro c) rm <->
                 c = a /\ exists m, at_kind a = AkMacro m /\ m <> MUnknown /\ In m sm).
    { destruct (at_kind a) as [m|k]; injection Em as <- <-; [|split; [intros [] | intros (_ & m & E & _); discriminate]].
      destruct (negb (macro_kind_eqb m MUnknown) && contains_macro sm m) eqn:C.
      - rewrite andb_true_iff, negb_true_iff, contains_macro_In in C. destruct C as [C1 C2]. simpl. split.
        + intros [H|[]]. injection H as <-. split; [reflexivity|]. exists m. repeat split; [|exact C2].
          intros ->. discriminate C1.
        + intros [-> _]. left; reflexivity.
      - split; [intros []|]. intros (_ & m0 & Em & Hm & Hs). injection Em as <-. exfalso.
        apply contains_macro_In in Hs. rewrite Hs, andb_true_r, negb_false_iff in C. apply macro_kind_eqb_eq in C. congruence. }
    assert (HS : forall m, In m sm' <-> In m sm \/ at_kind a = AkMacro m).
    { intros m. destruct (at_kind a) as [m0|k]; injection Em as <- <-; simpl.
      - split; [intros [->|H]; [right; reflexivity | left; exact H] | intros [H|H]; [right; exact H | left; congruence]].
      - split; [tauto | intros [H|H]; [exact H | discriminate H]]. }
    rewrite HM. split.
    + intros [(-> & m & E1 & E2 & E3)|[(l & y & m & _ & E & _)|(l & r & m & -> & E1 & E2 & E3)]].
      * exists [], attrs, m. repeat split; [exact E1 | exact E2 | left; exact E3].
      * discriminate E.
      * exists (a :: l), r, m. repeat split; [exact E1 | exact E2|]. rewrite HS in E3. simpl. tauto.
    + intros ([|z l] & r & m & E & E1 & E2 & E3); simpl in E; injection E as -> ->.
      * left. split; [reflexivity|]. exists m. destruct E3 as [E3|[]]. repeat split; assumption.
      * right; right. exists l, r, m. repeat split; [exact E1 | exact E2|]. rewrite HS. simpl in E3. tauto.
Qed.
Lemma duplicates_only attrs sm sa r : In r (duplicates attrs sm sa) ->
  (exists c, r = RDuplicateMacro c) \/ (exists c y, r = RDuplicateArg c y).
Proof.
  revert sm sa; induction attrs as [|a attrs IH]; intros sm sa; simpl; [intros []|].
  destruct (match at_kind a with AkMacro m => _ | AkArg _ => _ end) as [rm sm'] eqn:Em.
  destruct (duplicate_args a (at_args a) sa) as [ra sa'] eqn:Ea. rewrite !in_app_iff. intros [H|[H|H]].
  - destruct (at_kind a); injection Em as <- <-; [|destruct H]. destruct (_ && _); simpl in H; [|destruct H].
    destruct H as [<-|[]]. left; eexists; reflexivity.
  - pose proof (proj1 (duplicate_args_In a (at_args a) sa r)) as HA. rewrite Ea in HA. simpl in HA.
    destruct (HA H) as (l & y & m & _ & -> & _). right; eexists _, _; reflexivity.
  - apply IH in H. exact H.
Qed.

Lemma first_occurrence (l : list arg_kind) k : In k l -> exists b c, l = b ++ k :: c /\ ~ In k b.
Proof.
  induction l as [|x l IH]; intros H; [destruct H|].
  destruct (arg_kind_eqb x k) eqn:E.
  - apply arg_kind_eqb_eq in E. subst. exists [], l. split; [reflexivity | intros []].
  - apply arg_kind_eqb_neq in E. destruct H as [H|H]; [congruence|]. destruct (IH H) as (b & c & -> & Hb).
    exists (x :: b), c. split; [reflexivity|]. intros [H1|H1]; [congruence | exact (Hb H1)].
Qed.
Lemma placed_split P b k c : placed_kinds P = b ++ k :: c ->
  exists L cy R, P = L ++ cy :: R /\ placed_kinds L = b /\ ia_kind (snd cy) = k /\ placed_kinds R = c.
Proof.
  revert b; induction P as [|x P IH]; intros [|z b] E; simpl in E; try discriminate; injection E as E1 E2.
  - exists [], x, P. repeat split; assumption.
  - destruct (IH b E2) as (L & cy & R & -> & <- & <- & <-). exists (x :: L), cy, R. simpl. rewrite E1. repeat split.
Qed.

(** ** Documented combinations *)
Lemma options_siblings v k opts : options v k = Some opts -> sibling_args k v = opts.
Proof. destruct k as [[]|[]], v; simpl; intros H; try discriminate H; injection H as <-; reflexivity. Qed.
Lemma options_primary v k opts : options v k = Some opts -> primary_suggestions k v = [].
Proof. destruct k as [[]|[]], v; simpl; intros H; try discriminate H; reflexivity. Qed.
Lemma options_rank v k opts : options v (AkArg k) = Some opts -> arg_rank k = 0.
Proof. destruct k, v; simpl; intros H; try discriminate H; reflexivity. Qed.
Lemma options_known v k opts : options v k = Some opts -> attr_kind_unknown k = false.
Proof. destruct k as [[]|[]], v; simpl; intros H; try discriminate H; reflexivity. Qed.
Lemma options_not_self v k opts : options v (AkArg k) = Some opts -> ~ In k opts.
Proof. destruct k, v; simpl; intros H; try discriminate H; injection H as <-; simpl; intuition discriminate. Qed.

Lemma find_arg_none attrs k : find_arg attrs k = None <-> ~ In k (present_args attrs).
Proof.
  unfold find_arg, present_args, all_args. induction (flat_map at_args attrs) as [|x l IH]; simpl; [tauto|].
  destruct (arg_kind_eqb (ia_kind x) k) eqn:E.
  - apply arg_kind_eqb_eq in E. split; [discriminate | intros H; destruct H; left; exact E].
  - apply arg_kind_eqb_neq in E. rewrite IH. tauto.
Qed.
Lemma find_arg_some attrs k : In k (present_args attrs) -> exists x, find_arg attrs k = Some x.
Proof.
  intros H. destruct (find_arg attrs k) as [x|] eqn:E; [exists x; reflexivity|].
  apply find_arg_none in E. contradiction.
Qed.
Lemma anonymous_signature_nil k attrs :
  anonymous_signature k attrs = [] <->
  (is_event_kind k = true -> ~ (In AAnonymous (present_args attrs) /\ In ASignatureTopic (present_args attrs))).
Proof.
  unfold anonymous_signature. destruct (is_event_kind k); [|split; [discriminate | reflexivity]].
  destruct (find_arg attrs AAnonymous) as [x|] eqn:E1.
  - destruct (find_arg attrs ASignatureTopic) as [y|] eqn:E2.
    + assert (P1 : In AAnonymous (present_args attrs)).
      { unfold find_arg in E1. apply find_some in E1. destruct E1 as [E1 E1']. apply arg_kind_eqb_eq in E1'.
        unfold present_args. rewrite <- E1'. apply in_map. exact E1. }
      assert (P2 : In ASignatureTopic (present_args attrs)).
      { unfold find_arg in E2. apply find_some in E2. destruct E2 as [E2 E2']. apply arg_kind_eqb_eq in E2'.
        unfold present_args. rewrite <- E2'. apply in_map. exact E2. }
      split; [|intros H; destruct (H eq_refl); split; assumption].
      intros H. exfalso. destruct (find _ (all_args attrs)) as [z|] eqn:Ez in H.
      * destruct (arg_kind_eqb (ia_kind z) AAnonymous); discriminate H.
      * unfold find_arg in E1. apply find_some in E1. destruct E1 as [E1 E1'].
        pose proof (find_none _ _ Ez x E1) as Hn. simpl in Hn. rewrite E1' in Hn. discriminate Hn.
    + apply find_arg_none in E2. split; [intros _ _ [_ H]; exact (E2 H) | reflexivity].
  - apply find_arg_none in E1. split; [intros _ _ [H _]; exact (E1 H) | reflexivity].
Qed.

Lemma head_best a l : known a -> (forall y, In y l -> rank a <= rank y) -> primary_candidate (a :: l) = Some (a, true).
Proof.
  intros K H. assert (B : best (a :: l) a).
  { exists [], l. repeat split; [exact K | intros y [] | intros y Hy _; apply H; exact Hy]. }
  apply best_primary in B. destruct B as (b & B). rewrite B.
  rewrite (proj2 (primary_first _ _ _ a l B eq_refl) eq_refl). reflexivity.
Qed.
Lemma conflicts_nil v p attrs :
  (forall c, In c attrs -> (same_attr c p = true \/ valid_sibling_attr v p c = true)
     /\ forall x, In x (at_args c) -> at_kind c = AkArg (ia_kind x) \/ In (ia_kind x) (sibling_args (at_kind p) v)) ->
  conflicts v p true attrs = [].
Proof.
  intros H. destruct (conflicts v p true attrs) as [|r rs] eqn:E; [reflexivity|]. exfalso.
  assert (Hr : In r (conflicts v p true attrs)) by (rewrite E; left; reflexivity).
  apply conflicts_In in Hr. destruct Hr as (l & c & m & -> & Hr).
  assert (Hc : In c (l ++ c :: m)) by (apply in_app_iff; right; left; reflexivity).
  destruct (H c Hc) as [H1 H2]. destruct (attr_conflicts_only _ _ _ _ _ Hr) as [(f & ->)|(x & ->)].
  - apply attr_conflicts_attr in Hr. destruct Hr as (_ & _ & E1 & _ & E2). destruct H1; congruence.
  - apply attr_conflicts_arg in Hr. destruct Hr as (_ & Hx & _ & E1 & E2 & _). destruct (H2 x Hx); tauto.
Qed.

Lemma documented_accepted v attrs ce :
  documented v attrs -> validate_entity attrs ce v = [] /\ ensure_no_duplicates attrs = [].
Proof.
  intros D.
  assert (Hnd : NoDup (present_args attrs) /\ NoDup (map at_kind (filter (fun a => match at_kind a with AkMacro _ => true | _ => false end) attrs))).
  { destruct D as [a m opts Ek Eo Hn Hi Hc | a x xs more k opts Ea Ex Ek Eo Hn Hi Hm Hc].
    - split; [unfold present_args; simpl; rewrite app_nil_r; exact Hn|]. simpl. rewrite Ek. simpl. rewrite Ek.
      constructor; [intros [] | constructor].
    - split.
      + unfold present_args. simpl. rewrite Ea. simpl. rewrite Ex, map_app. exact Hn.
      + assert (E : filter (fun a => match at_kind a with AkMacro _ => true | AkArg _ => false end) (a :: more) = []).
        { simpl. rewrite Ek. clear -Hm. induction more as [|b more IH]; [reflexivity|]. simpl.
          destruct (Hm b (or_introl eq_refl)) as (y & _ & ->). apply IH. intros c Hc. apply Hm. right; exact Hc. }
        rewrite E. constructor. }
  split.
  - destruct D as [a m opts Ek Eo Hn Hi [Hc1 Hc2] | a x xs more k opts Ea Ex Ek Eo Hn Hi Hm [Hc1 Hc2]].
    + assert (P : primary_candidate [a] = Some (a, true)).
      { apply head_best; [unfold known; rewrite Ek; eapply options_known; exact Eo | intros y []]. }
      assert (Hp : present_args [a] = map ia_kind (at_args a)) by (unfold present_args; simpl; rewrite app_nil_r; reflexivity).
      unfold validate_entity. rewrite P, Ek.
      rewrite conflicts_nil.
      2:{ intros c [<-|[]]. split; [left; apply same_attr_refl|]. intros y Hy. right. rewrite Ek, (options_siblings _ _ _ Eo).
          apply Hi. apply in_map. exact Hy. }
      rewrite (options_primary _ _ _ Eo). simpl.
      destruct v; [reflexivity|].
      assert (R1 : anonymous_signature (AkMacro m) [a] = []).
      { apply anonymous_signature_nil. intros _. rewrite Hp. apply Hc1. reflexivity. }
      rewrite R1.
      assert (R3 : ~ In AAdditionalContracts (present_args [a]) /\ (m = ME2ETest -> ~ In AKeepAttr (present_args [a]))).
      { rewrite Hp. split.
        - intros H. apply Hi in H. revert Eo H. clear. destruct m; simpl; intros E H; try discriminate E;
            injection E as <-; simpl in H; intuition discriminate.
        - intros -> H. apply Hi in H. simpl in Eo. injection Eo as <-. simpl in H. intuition discriminate. }
      destruct R3 as [R3 R4]. apply find_arg_none in R3.
      destruct m; simpl in Eo; try discriminate Eo; try rewrite R3; try reflexivity.
      * assert (RE : exists x, find_arg [a] AExtension = Some x).
        { apply find_arg_some. rewrite Hp. apply Hc2; reflexivity. }
        destruct RE as (x & ->). reflexivity.
      * rewrite (proj2 (find_arg_none [a] AKeepAttr) (R4 eq_refl)). reflexivity.
    + assert (P : primary_candidate (a :: more) = Some (a, true)).
      { apply head_best; [unfold known; rewrite Ek; eapply options_known; exact Eo|]. intros y Hy.
        destruct (Hm y Hy) as (z & _ & Ez). unfold rank. rewrite Ek, Ez. simpl. rewrite (options_rank _ _ _ Eo). lia. }
      unfold validate_entity. rewrite P, Ek.
      rewrite conflicts_nil.
      2:{ rewrite Ek, (options_siblings _ _ _ Eo). intros c Hc. destruct Hc as [<-|Hc].
          - split; [left; apply same_attr_refl|]. intros y Hy. rewrite Ea in Hy. destruct Hy as [<-|Hy].
            + left. congruence.
            + right. apply Hi. apply in_app_iff. left. apply in_map. exact Hy.
          - assert (Hmore : forall y, In y (at_args c) -> In (ia_kind y) opts).
            { intros y Hy. apply Hi. apply in_app_iff. right. unfold present_args. apply in_map. apply in_flat_map.
              exists c. split; assumption. }
            split; [|intros y Hy; right; apply Hmore; exact Hy].
            right. unfold valid_sibling_attr. rewrite Ek. destruct (Hm c Hc) as (z & Hz & ->).
            rewrite (options_siblings _ _ _ Eo). apply contains_arg_In. apply Hmore. exact Hz. }
      rewrite (options_primary _ _ _ Eo), Ea, Ex, arg_kind_eqb_refl. simpl.
      assert (HN : attr_kind_eqb (AkArg k) (AkArg ANamespace) = false).
      { destruct k, v; try reflexivity; discriminate Eo. }
      destruct v; [reflexivity|].
      assert (R1 : anonymous_signature (AkArg k) (a :: more) = []).
      { apply anonymous_signature_nil. intros _. intros [H1 H2]. apply (Hc1 eq_refl).
        unfold present_args in H1, H2. simpl in H1, H2. rewrite Ea in H1, H2. simpl in H1, H2. rewrite Ex, map_app in H1, H2.
        split.
        - destruct H1 as [H1|H1]; [|exact H1]. rewrite H1 in Eo. discriminate Eo.
        - destruct H2 as [H2|H2]; [|exact H2]. rewrite H2 in Eo. discriminate Eo. }
      rewrite R1. destruct k; try discriminate Eo; reflexivity.
  - destruct Hnd as [N1 N2]. unfold ensure_no_duplicates.
    destruct (duplicates attrs [] []) as [|r rs] eqn:E; [reflexivity|]. exfalso.
    assert (Hr : In r (duplicates attrs [] [])) by (rewrite E; left; reflexivity).
    destruct (duplicates_only _ _ _ _ Hr) as [(c & ->)|(c & y & ->)].
    + apply duplicates_macro in Hr. destruct Hr as (l & m & k & -> & E1 & _ & [[]|E3]).
      rewrite filter_app in N2. simpl in N2. rewrite E1 in N2. rewrite map_app in N2. simpl in N2. rewrite E1 in N2.
      apply NoDup_remove_2 in N2. apply N2. apply in_app_iff. left. apply in_map_iff in E3.
      destruct E3 as (b & Eb & Hb). apply in_map_iff. exists b. split; [exact Eb|]. apply filter_In. rewrite Eb.
      split; [exact Hb | reflexivity].
    + apply duplicates_arg in Hr. destruct Hr as (L & R & EL & _ & [[]|HL]).
      rewrite <- placed_present, EL, placed_kinds_app in N1. simpl in N1. apply NoDup_remove_2 in N1.
      apply N1. apply in_app_iff. left. exact HL.
Qed.

Lemma conflicts_nil_inv v p b attrs c l m :
  conflicts v p b attrs = [] -> attrs = l ++ c :: m ->
  (same_attr c p || match l with [] => negb b | _ => false end || valid_sibling_attr v p c = true)
  /\ forall x, In x (at_args c) -> at_kind c = AkArg (ia_kind x) \/ In (ia_kind x) (sibling_args (at_kind p) v)
                                   \/ already_deprecated v p (ia_kind x) = true.
Proof.
  intros E ->.
  assert (HN : forall r, ~ In r (attr_conflicts v p (match l with [] => negb b | _ => false end) c)).
  { intros r Hr. assert (In r (conflicts v p b (l ++ c :: m))); [|rewrite E in H; exact H].
    apply conflicts_In. exists l, c, m. split; [reflexivity | exact Hr]. }
  assert (H1 : same_attr c p || match l with [] => negb b | _ => false end || valid_sibling_attr v p c = true).
  { destruct (_ || _) eqn:C; [reflexivity|]. exfalso. apply orb_false_iff in C. destruct C as [C C3].
    apply orb_false_iff in C. destruct C as [C1 C2]. apply (HN (RAttrConflict c (conflict_fix_of v p c))).
    apply attr_conflicts_attr. repeat split; assumption. }
  split; [exact H1|]. intros x Hx.
  destruct (attr_kind_eqb (at_kind c) (AkArg (ia_kind x))) eqn:E1; [left; apply attr_kind_eqb_eq; exact E1|].
  destruct (contains_arg (sibling_args (at_kind p) v) (ia_kind x)) eqn:E2; [right; left; apply contains_arg_In; exact E2|].
  destruct (already_deprecated v p (ia_kind x)) eqn:E3; [right; right; reflexivity|]. exfalso.
  apply (HN (RArgConflict c x)). apply attr_conflicts_arg. repeat split; try assumption.
  - intros EK. rewrite EK, attr_kind_eqb_refl in E1. discriminate.
  - apply contains_arg_not. exact E2.
Qed.

(** The parts of the diagnostics for a primary attribute that declares something. *)
Lemma validate_nil_parts attrs ce v p b opts :
  primary_candidate attrs = Some (p, b) -> options v (at_kind p) = Some opts ->
  validate_entity attrs ce v = [] ->
  b = true /\ (forall k, at_kind p = AkArg k -> exists x xs, at_args p = x :: xs /\ ia_kind x = k)
  /\ conflicts v p b attrs = []
  /\ (v = V5 -> anonymous_signature (at_kind p) attrs = []
      /\ (at_kind p = AkMacro MChainExtension -> In AExtension (present_args attrs))
      /\ (at_kind p = AkMacro ME2ETest ->
          ~ In AAdditionalContracts (present_args attrs) /\ ~ In AKeepAttr (present_args attrs))).
Proof.
  intros P Eo E. unfold validate_entity in E. rewrite P, (options_primary _ _ _ Eo) in E.
  rewrite andb_true_r in E. simpl orb in E. cbv iota in E. simpl negb in E. rewrite andb_false_l in E. cbv iota in E.
  set (rest := ((if negb b then [RNotFirstAttr p] else []) ++ _)%list) in E.
  assert (HR : rest = [] /\ (v = V5 -> anonymous_signature (at_kind p) attrs = []
      /\ (at_kind p = AkMacro MChainExtension -> In AExtension (present_args attrs))
      /\ (at_kind p = AkMacro ME2ETest ->
          ~ In AAdditionalContracts (present_args attrs) /\ ~ In AKeepAttr (present_args attrs)))).
  { destruct v; [split; [exact E | discriminate]|]. clearbody rest.
    set (r1 := anonymous_signature (at_kind p) attrs) in *.
    destruct (at_kind p) as [m|k].
    - apply app_eq_nil in E. destruct E as [E1 E]. apply app_eq_nil in E. destruct E as [E2 E].
      apply app_eq_nil in E. destruct E as [E3 E]. apply app_eq_nil in E. destruct E as [E4 E5].
      split; [exact E5|]. intros _. split; [exact E1|]. split.
      + intros Em. injection Em as ->. destruct (find_arg attrs AExtension) as [x|] eqn:F; [|discriminate E2].
        unfold find_arg in F. apply find_some in F. destruct F as [F1 F2]. apply arg_kind_eqb_eq in F2.
        unfold present_args. rewrite <- F2. apply in_map. exact F1.
      + intros Em. injection Em as ->. split; apply find_arg_none.
        * destruct (find_arg attrs AAdditionalContracts); [discriminate E3 | reflexivity].
        * destruct (find_arg attrs AKeepAttr); [discriminate E4 | reflexivity].
    - assert (E' : r1 ++ rest = []).
      { destruct k; try discriminate Eo; exact E. }
      apply app_eq_nil in E'. destruct E' as [E1 E2]. split; [exact E2|]. intros _.
      split; [exact E1|]. split; discriminate. }
  destruct HR as [HR HV]. unfold rest in HR. apply app_eq_nil in HR. destruct HR as [HR1 HR].
  apply app_eq_nil in HR. destruct HR as [HR2 HR]. simpl in HR.
  split; [destruct b; [reflexivity | discriminate HR1]|]. split; [|split; [exact HR | exact HV]].
  intros k Ek. rewrite Ek in HR2. destruct (at_args p) as [|x xs]; [discriminate HR2|].
  destruct (arg_kind_eqb (ia_kind x) k) eqn:Ex; [|discriminate HR2]. apply arg_kind_eqb_eq in Ex.
  exists x, xs. split; [reflexivity | exact Ex].
Qed.

Lemma no_duplicates_NoDup attrs : ensure_no_duplicates attrs = [] ->
  (forall k, In k (present_args attrs) -> k <> AUnknown) -> NoDup (present_args attrs).
Proof.
  intros E H. rewrite <- placed_present in *.
  assert (HN : forall b k c, placed_kinds (placed_args attrs) = b ++ k :: c -> ~ In k b).
  { intros b k c Es Hk. destruct (placed_split _ _ _ _ Es) as (L & [d y] & R & EL & EB & EK & ER). simpl in EK.
    assert (HI : In (RDuplicateArg d y) (ensure_no_duplicates attrs)).
    { apply duplicates_arg. exists L, R. split; [exact EL|]. rewrite EK, EB. split; [|right; exact Hk].
      apply H. rewrite Es. apply in_app_iff. right; left; reflexivity. }
    rewrite E in HI. exact HI. }
  revert HN. generalize (placed_kinds (placed_args attrs)). clear. intros l. induction l as [|x l IH] using rev_ind; intros HN.
  - constructor.
  - apply NoDup_rev in IH.
    + rewrite <- (rev_involutive (l ++ [x])). apply NoDup_rev. rewrite rev_app_distr. simpl. constructor; [|exact IH].
      rewrite <- in_rev. apply (HN l x []). reflexivity.
    + intros b k c Es. apply (HN b k (c ++ [x])). rewrite Es, <- app_assoc. reflexivity.
Qed.

Lemma accepted_documented v attrs ce p b :
  distinct_places attrs -> Forall kind_agrees attrs ->
  primary_candidate attrs = Some (p, b) -> declares v (at_kind p) ->
  ~ (v = V5 /\ (at_kind p = AkMacro MStorageItem \/ at_kind p = AkMacro MScaleDerive)) ->
  validate_entity attrs ce v = [] -> ensure_no_duplicates attrs = [] -> documented v attrs.
Proof.
  intros D KA P (opts & Eo) Hexc HV HD.
  destruct (validate_nil_parts _ _ _ _ _ _ P Eo HV) as (-> & HF & HC & H5).
  pose proof (options_siblings _ _ _ Eo) as Es.
  assert (Hhd : exists more, attrs = p :: more).
  { destruct attrs as [|f more]; [discriminate P|]. pose proof (proj1 (primary_first _ _ _ f more P eq_refl) eq_refl) as Er.
    apply primary_In in P. destruct P as [->|P]; [exists more; reflexivity|]. exfalso.
    apply (distinct_split (f :: more) [] f more D eq_refl p); [right; exact P | congruence]. }
  destruct Hhd as (more & ->).
  assert (Hmore : forall c, In c more -> valid_sibling_attr v p c = true).
  { intros c Hc. apply in_split in Hc. destruct Hc as (l & m & ->).
    destruct (conflicts_nil_inv v p true (p :: l ++ c :: m) c (p :: l) m HC eq_refl) as [H1 _].
    rewrite orb_false_r in H1. apply orb_true_iff in H1. destruct H1 as [H1|H1]; [|exact H1].
    apply range_eqb_eq in H1. exfalso.
    apply (distinct_split (p :: l ++ c :: m) [] p (l ++ c :: m) D eq_refl c); [|exact H1].
    right. apply in_app_iff; right; left; reflexivity. }
  destruct (at_kind p) as [mk|k] eqn:Ek.
  - assert (more = []).
    { destruct more as [|c more]; [reflexivity|]. exfalso. specialize (Hmore c (or_introl eq_refl)).
      unfold valid_sibling_attr in Hmore. rewrite Ek in Hmore. destruct v; [discriminate Hmore|].
      destruct mk; try discriminate Hmore; apply Hexc; (split; [reflexivity|]); tauto. }
    subst more.
    assert (Hp : present_args [p] = map ia_kind (at_args p)) by (unfold present_args; simpl; rewrite app_nil_r; reflexivity).
    assert (Hi : incl (map ia_kind (at_args p)) opts).
    { intros k Hk. pose proof Hk as Hk0. apply in_map_iff in Hk. destruct Hk as (x & <- & Hx).
      destruct (conflicts_nil_inv v p true [p] p [] [] HC eq_refl) as [_ H2]. destruct (H2 x Hx) as [H|[H|H]].
      - congruence.
      - rewrite Ek, Es in H. exact H.
      - exfalso. unfold already_deprecated in H. rewrite Ek in H. destruct v; [discriminate H|].
        destruct (H5 eq_refl) as (_ & _ & H6). destruct mk; try discriminate H. rewrite Hp in H6.
        destruct (H6 eq_refl) as [H7 H8]. destruct (ia_kind x); try discriminate H; contradiction. }
    apply (doc_macro v p mk opts Ek Eo).
    + rewrite <- Hp. apply no_duplicates_NoDup; [exact HD|]. intros k Hk. rewrite Hp in Hk. apply Hi in Hk.
      rewrite <- Es in Hk. eapply sibling_known. exact Hk.
    + exact Hi.
    + split.
      * intros ->. destruct (H5 eq_refl) as (H6 & _). rewrite anonymous_signature_nil in H6. rewrite Hp in H6.
        intros [A1 A2]. apply H6; [|split; assumption].
        apply sibling_event_V5. left. rewrite Es. apply Hi. exact A1.
      * intros -> Em. rewrite <- Hp. destruct (H5 eq_refl) as (_ & H7 & _). apply H7. exact Em.
  - destruct (HF k eq_refl) as (x & xs & Ea & Ex).
    assert (Hk0 : k <> AUnknown) by (intros ->; destruct v; discriminate Eo).
    assert (Hall : forall c y, In c more -> In y (at_args c) -> In (ia_kind y) opts).
    { intros c y Hc Hy. pose proof (Hmore c Hc) as Hv. apply in_split in Hc. destruct Hc as (l & m & ->).
      destruct (conflicts_nil_inv v p true (p :: l ++ c :: m) c (p :: l) m HC eq_refl) as [_ H2].
      destruct (H2 y Hy) as [H|[H|H]].
      - unfold valid_sibling_attr in Hv. rewrite Ek, H, Es in Hv. apply contains_arg_In. exact Hv.
      - rewrite Ek, Es in H. exact H.
      - unfold already_deprecated in H. rewrite Ek in H. destruct v; discriminate H. }
    assert (Hxs0 : forall y, In y xs -> ia_kind y = k \/ In (ia_kind y) opts).
    { intros y Hy. destruct (conflicts_nil_inv v p true (p :: more) p [] more HC eq_refl) as [_ H2].
      assert (Hy' : In y (at_args p)) by (rewrite Ea; right; exact Hy).
      destruct (H2 y Hy') as [H|[H|H]].
      - left. congruence.
      - right. rewrite Ek, Es in H. exact H.
      - unfold already_deprecated in H. rewrite Ek in H. destruct v; discriminate H. }
    assert (Hpres : present_args (p :: more) = k :: map ia_kind xs ++ present_args more).
    { unfold present_args. simpl. rewrite Ea. simpl. rewrite Ex, map_app. reflexivity. }
    assert (Hopts : forall j, In j opts -> j <> AUnknown).
    { intros j Hj. rewrite <- Es in Hj. eapply sibling_known. exact Hj. }
    assert (HND : NoDup (k :: map ia_kind xs ++ present_args more)).
    { rewrite <- Hpres. apply no_duplicates_NoDup; [exact HD|]. rewrite Hpres. intros j [<-|Hj]; [exact Hk0|].
      apply in_app_iff in Hj. destruct Hj as [Hj|Hj].
      - apply in_map_iff in Hj. destruct Hj as (y & <- & Hy). destruct (Hxs0 y Hy) as [->|H]; [exact Hk0 | apply Hopts; exact H].
      - unfold present_args in Hj. apply in_map_iff in Hj. destruct Hj as (y & <- & Hy). apply in_flat_map in Hy.
        destruct Hy as (c & Hc & Hy). apply Hopts. eapply Hall; eassumption. }
    assert (Hi : incl (map ia_kind xs ++ present_args more) opts).
    { intros j Hj. apply in_app_iff in Hj. destruct Hj as [Hj|Hj].
      - pose proof Hj as Hj0. apply in_map_iff in Hj. destruct Hj as (y & <- & Hy). destruct (Hxs0 y Hy) as [E|H]; [|exact H].
        exfalso. inversion HND as [|? ? HN _]; subst. apply HN. apply in_app_iff. left. rewrite <- E. exact Hj0.
      - unfold present_args in Hj. apply in_map_iff in Hj. destruct Hj as (y & <- & Hy). apply in_flat_map in Hy.
        destruct Hy as (c & Hc & Hy). eapply Hall; eassumption. }
    apply (doc_entity v p x xs more k opts Ea Ex Ek Eo HND Hi).
    + intros c Hc. pose proof (Hmore c Hc) as Hv. unfold valid_sibling_attr in Hv. rewrite Ek in Hv.
      destruct (at_kind c) as [mc|kc] eqn:Ec.
      * rewrite (options_primary _ _ _ Eo) in Hv. discriminate Hv.
      * rewrite Es in Hv. apply contains_arg_In in Hv. rewrite Forall_forall in KA. specialize (KA c (or_intror Hc)).
        unfold kind_agrees in KA. rewrite Ec in KA. destruct KA as [[_ ->]|(y & (bb & cc & Ey & _) & <-)].
        -- destruct (Hopts _ Hv eq_refl).
        -- exists y. split; [rewrite Ey; apply in_app_iff; right; left; reflexivity | reflexivity].
    + split.
      * intros ->. destruct (H5 eq_refl) as (H6 & _). rewrite anonymous_signature_nil in H6. rewrite Hpres in H6.
        intros [A1 A2]. apply H6; [|split; right; assumption].
        apply sibling_event_V5. left. rewrite Es. apply Hi. exact A1.
      * intros -> Em. discriminate Em.
Qed.

(** ** The tables against the documented language *)
Lemma sibling_goes_with v k a : In a (sibling_args k v) -> goes_with v k a.
Proof.
  intros H.
  assert (Q : goes_with v k a \/ False).
  { left. destruct v, k as [m|b]; [destruct m | destruct b | destruct m | destruct b]; cbn [sibling_args] in H.
 all: repeat (destruct H as [<-|H]); try (destruct H).
 all: split; [discriminate|].
 all: match goal with |- exists e opts, options ?v _ = _ /\ (?k = _ \/ _) /\ _ =>
   first [ solve [exists k; eexists; split; [reflexivity|]; split; [left; reflexivity | right; cbn [In]; tauto]]
    | match goal with |- context [In ?a _] => solve [
         exists (AkArg a); eexists; split; [reflexivity|]; split; [right; eexists; split; [reflexivity|]; split; [cbn [In]; tauto | unfold exclusive; intuition congruence] | left; reflexivity]
       | exists (AkMacro MContract); eexists; split; [reflexivity|]; split; [right; eexists; split; [reflexivity|]; split; [cbn [In]; tauto | unfold exclusive; intuition congruence] | right; cbn [In]; tauto]
       | exists (AkMacro MTraitDefinition); eexists; split; [reflexivity|]; split; [right; eexists; split; [reflexivity|]; split; [cbn [In]; tauto | unfold exclusive; intuition congruence] | right; cbn [In]; tauto]
       | exists (AkArg AMessage); eexists; split; [reflexivity|]; split; [right; eexists; split; [reflexivity|]; split; [cbn [In]; tauto | unfold exclusive; intuition congruence] | right; cbn [In]; tauto] ] end ] end. }
  tauto.
Qed.
Lemma sibling_options v k opts : options v k = Some opts -> sibling_args k v = opts.
Proof. destruct v, k as [m|b]; [destruct m | destruct b | destruct m | destruct b]; cbn; intros E; try discriminate E; injection E as <-; reflexivity. Qed.
Lemma descendant_belongs v k a : In a (descendant_args k v) -> belongs v a k.
Proof. destruct v, k as [m|b]; [destruct m | destruct b | destruct m | destruct b]; cbn; intros H; repeat (destruct H as [<-|H]); try destruct H; unfold belongs; cbn; tauto. Qed.
Lemma belongs_descendant v k a : declares v k -> belongs v a k -> In a (descendant_args k v).
Proof. intros (o & D). destruct v, k as [m|b]; [destruct m | destruct b | destruct m | destruct b]; try discriminate D; destruct a; unfold belongs; cbn; intros H; repeat (destruct H as [H|H]); try discriminate H; try destruct H; tauto. Qed.
Lemma descendant_macro_belongs v k a : In a (descendant_macros k v) -> macro_belongs v a k.
Proof. destruct v, k as [m|b]; [destruct m | destruct b | destruct m | destruct b]; cbn; intros H; repeat (destruct H as [<-|H]); try destruct H; unfold macro_belongs; cbn; tauto. Qed.
Lemma macro_belongs_descendant v k a : declares v k -> macro_belongs v a k -> In a (descendant_macros k v).
Proof. intros (o & D). destruct v, k as [m|b]; [destruct m | destruct b | destruct m | destruct b]; try discriminate D; destruct a; unfold macro_belongs; cbn; intros H; repeat (destruct H as [H|H]); try discriminate H; try destruct H; tauto. Qed.
Lemma syntax_carriers v k a : In a (args_by_syntax k v) <-> In k (carriers v a).
Proof. split; [destruct v, k; cbn; intros H; repeat (destruct H as [<-|H]); try destruct H; cbn; tauto|].
 destruct v, a; cbn; intros H; repeat (destruct H as [<-|H]); try destruct H; cbn; tauto. Qed.
Lemma syntax_macro_carriers v k a : In a (macros_by_syntax k v) <-> In k (macro_carriers v a).
Proof. split; [destruct v, k; cbn; intros H; repeat (destruct H as [<-|H]); try destruct H; cbn; tauto|].
 destruct v, a; cbn; intros H; repeat (destruct H as [<-|H]); try destruct H; cbn; tauto. Qed.
