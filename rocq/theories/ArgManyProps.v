(** C40 for several arguments; C107: the attributes of e2e tests after a migration. *)
From Coq Require Import Lia Permutation.
From Verif Require Import Base BaseFacts PositionModel PositionProofs TranslateModel SyntaxModel AttrModel AttrSpec AttrProofs AttrProps EditSpec
  ArgEditModel ArgEditSpec ArgEditProofs ArgEditProps ChainSpec ArgManySpec ArgManyProofs.

(** C40 (partial: as above, and not if the last two arguments both go while an earlier one stays). The quick fix for
    conflicting arguments leaves a well-formed list of exactly the others; without others, it removes the attribute. *)
Theorem C40_conflicting_partial : forall px syn attr pre body post cores bad,
  attr_cast px syn = Some attr -> as_token_tree syn = Some (tree_at pre body) ->
  listed cores false body -> 2 <= length cores -> Forall plain_argument cores ->
  (forall rest x y, at_args attr = rest ++ [x; y] -> ~ (bad x = true /\ bad y = true)) ->
  exists edits body' b', remove_conflicting (place_leaves 0 (file_tokens pre body post)) attr bad = Done edits
    /\ rewritten (file_text pre body post) edits (file_text pre body' post)
    /\ listed (unchosen cores (map bad (at_args attr))) b' body' /\ (b' = true -> padded body).
Proof.
  intros px syn attr pre body post cores bad Hc Ht H Hl Hp Hb. destruct (cast_args _ _ _ _ Hc Ht) as [Ha _].
  destruct (removal_done px pre body post cores attr H Hl Hp Ha) as (El & Hdone & _).
  destruct (done_ranges (toks_of pre body post) attr bad (at_args attr)) as (edits & Ed & Em).
  { intros a Hin. apply (In_nth_error (at_args attr)) in Hin as (i & Hi). exact (Hdone i a Hi). }
  assert (Ene : (length (filter bad (at_args attr)) =? length (at_args attr)) = false).
  { apply Nat.eqb_neq. intros E. destruct (at_args attr) as [|y0 l0 _] eqn:Eargs using rev_ind; [cbn in El; lia|].
    destruct l0 as [|x0 l0 _] using rev_ind; [cbn in El; lia|].
    assert (Hall : forall x, In x ((l0 ++ [x0]) ++ [y0]) -> bad x = true).
    { clear - E. revert E. generalize ((l0 ++ [x0]) ++ [y0]). intros l E x Hx. induction l as [|z l IH]; [contradiction|].
      assert (Hle : length (filter bad l) <= length l) by (clear; induction l as [|y l IHl]; cbn [filter length]; [lia|]; destruct (bad y); cbn [length]; lia). cbn [filter length] in E. destruct (bad z) eqn:Ez; cbn [length] in E; [|lia].
      destruct Hx as [<-|Hx]; [exact Ez|]. apply IH; [lia|exact Hx]. }
    apply (Hb l0 x0 y0); [rewrite <- app_assoc; reflexivity|]. split; apply Hall; rewrite !in_app_iff; cbn; auto. }
  destruct (remove_many px pre body post cores attr bad edits H Hl Hp Ha Hb) as (body' & b' & H1 & H2 & H3); [rewrite Em; apply Permutation_refl|].
  exists edits, body', b'. split; [|auto]. unfold remove_conflicting. rewrite Ene. exact Ed.
Qed.
Print Assumptions C40_conflicting_partial.

(** C107 (partial: arguments as above; not the last two, see C41_e2e_migration_refuted). With an environment, or
    without additional contracts: the arguments that ink! 5 does not have go, and exactly the others stay. *)
Theorem C107_others_stay_partial : forall px syn attr pre body post cores,
  attr_cast px syn = Some attr -> as_token_tree syn = Some (tree_at pre body) ->
  listed cores false body -> 2 <= length cores -> Forall plain_argument cores -> once_each attr ->
  (forall rest x y, at_args attr = rest ++ [x; y] -> ~ (dropped x = true /\ dropped y = true)) ->
  gives AEnvironment attr \/ ~ gives AAdditionalContracts attr ->
  exists edits body' b', migrate_e2e_attribute (place_leaves 0 (file_tokens pre body post)) attr = Done edits
    /\ rewritten (file_text pre body post) edits (file_text pre body' post)
    /\ listed (unchosen cores (map dropped (at_args attr))) b' body' /\ (b' = true -> padded body).
Proof.
  intros px syn attr pre body post cores Hc Ht H Hl Hp Honce Hb Henv. destruct (cast_args _ _ _ _ Hc Ht) as [Ha _].
  destruct (removal_done px pre body post cores attr H Hl Hp Ha) as (El & Hdone & _).
  set (toks := place_leaves 0 (file_tokens pre body post)). change (toks_of pre body post) with toks in Hdone.
  assert (Hfind : forall k, match arg_of_kind k attr with Some x => In x (at_args attr) /\ ia_kind x = k | None => ~ gives k attr end).
  { intros k. destruct (arg_of_kind k attr) as [x|] eqn:E.
    - apply find_some in E as [Hin E]. split; [exact Hin|]. apply arg_kind_eqb_eq, E.
    - intros (x & Hin & <-). apply (find_none _ _ E) in Hin. rewrite (proj2 (arg_kind_eqb_eq _ _) eq_refl) in Hin. discriminate. }
  assert (Hcond : negb (is_some (arg_of_kind AEnvironment attr)) && (is_some (arg_of_kind AAdditionalContracts attr) || is_some (arg_of_kind AAdditionalContracts attr)) = false).
  { pose proof (Hfind AEnvironment) as H1. pose proof (Hfind AAdditionalContracts) as H2.
    destruct (arg_of_kind AEnvironment attr); [reflexivity|]. destruct (arg_of_kind AAdditionalContracts attr) as [x|]; [|reflexivity].
    exfalso. destruct Henv as [G|G]; [exact (H1 G)|]. apply G. exists x. exact H2. }
  set (opt := fun x : option ink_arg => match x with Some x => [x] | None => [] end).
  assert (Hperm : Permutation (filter dropped (at_args attr)) (opt (arg_of_kind AAdditionalContracts attr) ++ opt (arg_of_kind AKeepAttr attr))).
  { assert (Huniq : forall x y, In x (filter dropped (at_args attr)) -> In y (filter dropped (at_args attr)) -> ia_kind x = ia_kind y -> x = y).
    { unfold once_each in Honce. revert Honce. generalize (filter dropped (at_args attr)). clear. intros l. induction l as [|z l IH]; intros Hn x y Hx Hy E; [contradiction|].
      cbn [map] in Hn. inversion Hn as [|? ? Hni Hn']; subst. destruct Hx as [<-|Hx], Hy as [<-|Hy]; [reflexivity|..].
      - exfalso. apply Hni. rewrite E. apply in_map, Hy.
      - exfalso. apply Hni. rewrite <- E. apply in_map, Hx.
      - apply IH; assumption. }
    pose proof (Hfind AAdditionalContracts) as H1. pose proof (Hfind AKeepAttr) as H2.
    apply NoDup_Permutation; [exact (NoDup_map_inv _ _ Honce)| |].
    - destruct (arg_of_kind AAdditionalContracts attr) as [x|], (arg_of_kind AKeepAttr attr) as [y|]; cbn [opt app]; repeat constructor; cbn; try tauto.
      intros [->|[]]. destruct H1 as [_ H1], H2 as [_ H2]. congruence.
    - intros z. rewrite in_app_iff. split.
      + intros Hz. pose proof Hz as Hz'. apply filter_In in Hz' as [Hin Hd]. unfold dropped in Hd. destruct (ia_kind z) eqn:Ek; try discriminate.
        * left. destruct (arg_of_kind AAdditionalContracts attr) as [x|]; [|destruct H1; exists z; auto]. left. destruct H1 as [Hx Kx].
          apply Huniq; [apply filter_In; split; [exact Hx|unfold dropped; rewrite Kx; reflexivity]|exact Hz|congruence].
        * right. destruct (arg_of_kind AKeepAttr attr) as [x|]; [|destruct H2; exists z; auto]. left. destruct H2 as [Hx Kx].
          apply Huniq; [apply filter_In; split; [exact Hx|unfold dropped; rewrite Kx; reflexivity]|exact Hz|congruence].
      + intros [Hz|Hz].
        * destruct (arg_of_kind AAdditionalContracts attr) as [x|]; [|contradiction]. destruct Hz as [<-|[]]. destruct H1 as [Hx Kx]. apply filter_In. split; [exact Hx|unfold dropped; rewrite Kx; reflexivity].
        * destruct (arg_of_kind AKeepAttr attr) as [x|]; [|contradiction]. destruct Hz as [<-|[]]. destruct H2 as [Hx Kx]. apply filter_In. split; [exact Hx|unfold dropped; rewrite Kx; reflexivity]. }
  set (del := fun x : option ink_arg => match x with Some x => obind_o (arg_removal_range toks x (Some attr)) (fun r => Done [delete_edit r]) | None => Done [] end).
  assert (Hdel : forall k, exists es, del (arg_of_kind k attr) = Done es
            /\ (k = AAdditionalContracts \/ k = AKeepAttr -> map (fun e => (te_range e, te_text e)) es = map (fun r => (r, [])) (filter_map (range_of toks attr dropped) (opt (arg_of_kind k attr))))).
  { intros k. pose proof (Hfind k) as Hk. unfold del. destruct (arg_of_kind k attr) as [x|]; [|exists []; split; [reflexivity|intros _; reflexivity]].
    destruct Hk as [Hin Kx]. apply (In_nth_error (at_args attr)) in Hin as (i & Hi). destruct (Hdone i x Hi) as (r & Er). rewrite Er. cbn [obind_o].
    exists [delete_edit r]. split; [reflexivity|]. intros Hk. cbn [opt filter_map]. unfold range_of. rewrite Er.
    assert (Hd : dropped x = true) by (unfold dropped; rewrite Kx; destruct Hk as [->| ->]; reflexivity). rewrite Hd. reflexivity. }
  destruct (Hdel AAdditionalContracts) as (e1 & E1 & M1). destruct (Hdel AKeepAttr) as (e2 & E2 & M2).
  destruct (remove_many px pre body post cores attr dropped (e1 ++ e2) H Hl Hp Ha Hb) as (body' & b' & H1 & H2 & H3).
  - rewrite map_app, M1, M2 by auto. rewrite <- map_app. apply Permutation_map. rewrite <- (filter_map_app).
    change (toks_of pre body post) with toks. rewrite (filter_perm dropped (range_of toks attr dropped) (at_args attr)).
    + apply Permutation_sym, filter_map_perm, Hperm.
    + intros a _ Hn. unfold range_of in Hn. destruct (dropped a); [reflexivity|contradiction].
  - exists (e1 ++ e2), body', b'. split; [|auto]. unfold migrate_e2e_attribute. rewrite Hcond.
    change (obind_o (del (arg_of_kind AAdditionalContracts attr)) (fun l1 => obind_o (del (arg_of_kind AKeepAttr attr)) (fun l2 => Done (l1 ++ l2))) = Done (e1 ++ e2)).
    rewrite E1. cbn [obind_o]. rewrite E2. reflexivity.
Qed.
Print Assumptions C107_others_stay_partial.

(** C107. Without an environment but with additional contracts, the whole list goes: *)
Theorem C107_list_goes : forall px syn attr pre body post,
  attr_cast px syn = Some attr -> as_token_tree syn = Some (tree_at pre body) ->
  gives AAdditionalContracts attr -> ~ gives AEnvironment attr ->
  exists edits, migrate_e2e_attribute (place_leaves 0 (file_tokens pre body post)) attr = Done edits
    /\ rewritten (file_text pre body post) edits (ArgEditSpec.text pre ++ ArgEditSpec.text post).
Proof.
  intros px syn attr pre body post Hc Ht (x & Hin & Kx) Hne. destruct (cast_args _ _ _ _ Hc Ht) as [_ Hs].
  unfold migrate_e2e_attribute.
  assert (E1 : arg_of_kind AEnvironment attr = None).
  { destruct (arg_of_kind AEnvironment attr) as [y|] eqn:E; [|reflexivity]. exfalso. apply Hne. apply find_some in E as [Hy E]. exists y. split; [exact Hy|apply arg_kind_eqb_eq, E]. }
  assert (E2 : is_some (arg_of_kind AAdditionalContracts attr) = true).
  { destruct (arg_of_kind AAdditionalContracts attr) eqn:E; [reflexivity|]. apply (find_none _ _ E) in Hin. rewrite Kx in Hin. discriminate. }
  rewrite E1, E2, Hs, Ht. cbn [is_some negb andb orb]. eexists. split; [reflexivity|].
  exists [Same (ArgEditSpec.text pre); Other (text_of (paren_tree body)) []; Same (ArgEditSpec.text post)].
  unfold file_text, file_tokens. rewrite !text_app, text_leaves. cbn [old_text new_text flat_map changes map]. rewrite !app_nil_r.
  split; [reflexivity|]. split; [reflexivity|]. apply Permutation_refl.
Qed.
Print Assumptions C107_list_goes.
(** C107. An attribute with neither of the two is not changed. *)
Theorem C107_unchanged : forall toks attr, ~ gives AAdditionalContracts attr -> ~ gives AKeepAttr attr -> migrate_e2e_attribute toks attr = Done [].
Proof.
  intros toks attr H1 H2.
  assert (G : forall k, ~ gives k attr -> arg_of_kind k attr = None).
  { intros k H. destruct (arg_of_kind k attr) as [y|] eqn:E; [|reflexivity]. exfalso. apply H. apply find_some in E as [Hy E]. exists y. split; [exact Hy|apply arg_kind_eqb_eq, E]. }
  unfold migrate_e2e_attribute. rewrite (G _ H1), (G _ H2). destruct (is_some (arg_of_kind AEnvironment attr)); reflexivity.
Qed.
Print Assumptions C107_unchanged.

(** C107 is false: without an environment, the list goes as a whole even if it has arguments that ink! 5 knows. *)
Theorem C107_backend_refuted : exists attr edits keep,
  attr_cast no_expr (ink_syntax [lit "ink_e2e"; lit "test"] [word "additional_contracts"; comma; space; word "backend"]) = Some attr
  /\ In keep (at_args attr) /\ ia_kind keep = ABackend /\ dropped keep = false
  /\ migrate_e2e_attribute (place_leaves 0 (file_tokens ink_pre [word "additional_contracts"; comma; space; word "backend"] ink_post)) attr = Done edits
  /\ rewritten (file_text ink_pre [word "additional_contracts"; comma; space; word "backend"] ink_post) edits (lit "#[ink] fn").
Proof.
  eexists _, _, _. split; [vm_compute; reflexivity|]. split; [right; left; reflexivity|]. split; [reflexivity|]. split; [reflexivity|]. split; [vm_compute; reflexivity|].
  exists [Same (lit "#[ink"); Other (lit "(additional_contracts, backend)") []; Same (lit "] fn")]. repeat split; try (vm_compute; reflexivity).
Qed.
Print Assumptions C107_backend_refuted.

(** The hypotheses are met: [#[ink_e2e::test(additional_contracts, environment, keep_attr)]] *)
Example C107_example : exists attr,
  attr_cast no_expr (ink_syntax [lit "ink_e2e"; lit "test"] (three_words "additional_contracts" "environment" "keep_attr")) = Some attr
  /\ once_each attr /\ gives AEnvironment attr /\ map dropped (at_args attr) = [true; false; true]
  /\ (forall rest x y, at_args attr = rest ++ [x; y] -> ~ (dropped x = true /\ dropped y = true))
  /\ edits_of migrate_e2e_attribute [lit "ink_e2e"; lit "test"] (three_words "additional_contracts" "environment" "keep_attr")
     = Some (Done [TextEdit [] (6, 27) None; TextEdit [] (39, 50) None]).
Proof.
  eexists. split; [vm_compute; reflexivity|]. split; [unfold once_each; vm_compute; repeat constructor; cbn; intuition discriminate|].
  split; [eexists; split; [right; left; reflexivity|reflexivity]|]. split; [vm_compute; reflexivity|]. split; [|vm_compute; reflexivity].
  intros rest x y E [Hx Hy].
  assert (Em : map dropped (rest ++ [x; y]) = [true; false; true]) by (rewrite <- E; vm_compute; reflexivity).
  rewrite map_app in Em. cbn [map] in Em. destruct (map dropped rest) as [|b1 [|b2 l]]; cbn [app] in Em; try discriminate.
  - injection Em as _ E2 _. congruence.
  - injection Em as _ _ E2. apply (f_equal (@length bool)) in E2. rewrite app_length in E2. cbn [length] in E2. lia.
Qed.
