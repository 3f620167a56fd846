(** Proofs about [OfferModel]. *)
From Verif Require Import Base BaseFacts Unicode EditSpec PositionModel VersionModel SyntaxModel AttrModel AttrSpec SuggestModel
  SuggestSpec AttrProofs SuggestProofs TreeModel TreeSpec TreeProofs TreeProps VisitSpec CallableModel OfferModel OfferSpec.
From Coq Require Import Lia.

(** ** Conditional compilation *)
Section Cfg.
Variable U : unicode.
Lemma skip_white_app w s : all_white U w -> skip_white U (w ++ s) = skip_white U s.
Proof.
  induction w as [|c w IH]; intros H; [reflexivity|]. cbn [app skip_white]. rewrite (H c (or_introl eq_refl)).
  apply IH. intros x Hx. apply H. right. exact Hx.
Qed.
Lemma skip_white_split s : exists w, s = w ++ skip_white U s /\ all_white U w.
Proof.
  induction s as [|c s IH]; [exists []; split; [reflexivity | intros c []]|]. cbn [skip_white].
  destruct (u_whitespace U c) eqn:E; [|exists []; split; [reflexivity | intros x []]].
  destruct IH as (w & Es & Hw). exists (c :: w). split; [cbn [app]; rewrite <- Es; reflexivity|].
  intros x [<-|Hx]; [exact E | apply Hw; exact Hx].
Qed.
Definition solid_start (w : str) : Prop := exists c r, w = c :: r /\ u_whitespace U c = false.
Lemma skip_white_solid w s : solid_start w -> skip_white U (w ++ s) = w ++ s.
Proof. intros (c & r & -> & E). cbn [app skip_white]. rewrite E. reflexivity. Qed.
Lemma is_close_In c : is_close c = true <-> In c (lit ",)").
Proof.
  unfold is_close. rewrite orb_true_iff, !N.eqb_eq. vm_compute (lit ",)"). cbn [In]. intuition auto.
Qed.
Lemma is_open_In c : is_open c = true <-> In c (lit "(,").
Proof.
  unfold is_open. rewrite orb_true_iff, !N.eqb_eq. vm_compute (lit "(,"). cbn [In]. intuition auto.
Qed.
Hypothesis HU : unicode_ok U.
Lemma close_solid c : In c (lit ",)") -> u_whitespace U c = false.
Proof.
  intros H. vm_compute in H. destruct H as [<-|[<-|[]]]; rewrite (uo_whitespace U HU); try reflexivity; lia.
Qed.
Lemma operand_at_spec words : forall s, Forall solid_start words ->
  (operand_at U words s = true <-> exists m c after, s = m ++ c :: after /\ In c (lit ",)") /\ spaced U words m).
Proof.
  induction words as [|w words IH]; intros s Hs; cbn [operand_at].
  - destruct (skip_white_split s) as (x & Es & Hx). split.
    + intros H. destruct (skip_white U s) as [|c r]; [discriminate|]. exists x, c, r.
      split; [exact Es|]. split; [apply is_close_In; exact H | apply spaced_end; exact Hx].
    + intros (m & c & after & -> & Hc & Hm). inversion Hm as [m' Hw|]; subst. rewrite skip_white_app by exact Hw.
      cbn [skip_white]. rewrite (close_solid c Hc). apply is_close_In. exact Hc.
  - inversion Hs as [|? ? Hw Hws]; subst. split.
    + intros H. destruct (strip_prefix w (skip_white U s)) as [r|] eqn:E; [|discriminate].
      apply strip_prefix_some in E. apply IH in H; [|exact Hws]. destruct H as (m & c & after & -> & Hc & Hm).
      destruct (skip_white_split s) as (x & Es & Hx). rewrite E in Es.
      exists (x ++ w ++ m), c, after. split; [rewrite Es, <- !app_assoc; reflexivity|]. split; [exact Hc|].
      apply spaced_word; assumption.
    + intros (m & c & after & -> & Hc & Hm). inversion Hm as [|x ? ? r Hx Hr]; subst.
      rewrite <- !app_assoc, skip_white_app, skip_white_solid by assumption.
      rewrite (proj2 (strip_prefix_some w (w ++ r ++ c :: after) (r ++ c :: after)) eq_refl).
      apply IH; [exact Hws|]. exists r, c, after. auto.
Qed.
Lemma has_operand_spec words : Forall solid_start words -> forall s, has_operand U words s = true <-> operand U words s.
Proof.
  intros Hw. induction s as [|o s IH]; cbn [has_operand].
  - split; [discriminate|]. intros ([|? ?] & ? & ? & ? & ? & E & _); discriminate E.
  - rewrite orb_true_iff, andb_true_iff, IH, is_open_In, (operand_at_spec words s Hw). split.
    + intros [[Ho (m & c & after & -> & Hc & Hm)]|(before & o' & m & c & after & -> & H)].
      * exists [], o, m, c, after. auto.
      * exists (o :: before), o', m, c, after. auto.
    + intros ([|b before] & o' & m & c & after & E & Ho & Hc & Hm); cbn [app] in E; injection E as -> ->.
      * left. split; [exact Ho|]. exists m, c, after. auto.
      * right. exists before, o', m, c, after. auto.
Qed.
Lemma all_white_rev w : all_white U w -> all_white U (rev w).
Proof. intros H c Hc. apply H. apply in_rev. exact Hc. Qed.
Lemma trim_spec p x : solid_start x -> solid_start (rev x) ->
  (trim U p = x <-> exists w w', p = w ++ x ++ w' /\ all_white U w /\ all_white U w').
Proof.
  intros Hx Hr. unfold trim. split.
  - intros E. destruct (skip_white_split p) as (w & Ep & Hw).
    destruct (skip_white_split (rev (skip_white U p))) as (w' & Ep' & Hw').
    exists w, (rev w'). split; [|split; [exact Hw | apply all_white_rev; exact Hw']].
    rewrite <- E, <- rev_app_distr, <- Ep', rev_involutive. exact Ep.
  - intros (w & w' & -> & Hw & Hw'). rewrite skip_white_app, skip_white_solid by assumption.
    rewrite rev_app_distr, skip_white_app by (apply all_white_rev; exact Hw').
    rewrite <- (app_nil_r (rev x)), skip_white_solid by exact Hr. rewrite app_nil_r. apply rev_involutive.
Qed.
Lemma ascii_solid c r : (c < 128)%N -> ascii_white c = false -> solid_start (c :: r).
Proof. intros Hc Hw. exists c, r. split; [reflexivity|]. rewrite (uo_whitespace U HU) by exact Hc. exact Hw. Qed.
Lemma test_solid : Forall solid_start TEST_WORDS.
Proof. repeat constructor; vm_compute; apply ascii_solid; reflexivity. Qed.
Lemma e2e_solid : Forall solid_start E2E_WORDS.
Proof. repeat constructor; vm_compute; apply ascii_solid; reflexivity. Qed.
Lemma cfg_path p : str_eqb (trim U p) (lit "cfg") = true <-> spaced U [lit "cfg"] p.
Proof.
  rewrite str_eqb_eq, trim_spec by (vm_compute; apply ascii_solid; reflexivity). split.
  - intros (w & w' & -> & Hw & Hw'). apply spaced_word; [exact Hw | apply spaced_end; exact Hw'].
  - intros H. inversion H as [|w x xs r Hw Hr]; subst. inversion Hr as [w' Hw'|]; subst. exists w, r. auto.
Qed.
Lemma cfg_test_spec a : is_cfg_test U a = true <->
  exists p s, a = (Some p, Some s) /\ spaced U [lit "cfg"] p /\ operand U [lit "test"] s.
Proof.
  destruct a as [[p|] [s|]]; unfold is_cfg_test; cbn [fst snd]; rewrite andb_true_iff; split;
    try (intros [H1 H2]; discriminate); try (intros (? & ? & E & _); discriminate E).
  - intros [H1 H2]. exists p, s. split; [reflexivity|]. split; [apply cfg_path; exact H1|].
    apply (has_operand_spec TEST_WORDS test_solid). exact H2.
  - intros (p' & s' & E & H1 & H2). injection E as <- <-. split; [apply cfg_path; exact H1|].
    apply (has_operand_spec TEST_WORDS test_solid). exact H2.
Qed.
Lemma cfg_e2e_spec a : is_cfg_e2e U a = true <->
  exists p s, a = (Some p, Some s) /\ spaced U [lit "cfg"] p /\ operand U [lit "test"] s
    /\ operand U [lit "feature"; lit "="; lit """e2e-tests"""] s.
Proof.
  unfold is_cfg_e2e. rewrite andb_true_iff, cfg_test_spec. split.
  - intros [(p & s & -> & H1 & H2) H3]. exists p, s. split; [reflexivity|]. split; [exact H1|]. split; [exact H2|].
    apply (has_operand_spec E2E_WORDS e2e_solid). exact H3.
  - intros (p & s & -> & H1 & H2 & H3). split; [exists p, s; auto|]. cbn [snd].
    apply (has_operand_spec E2E_WORDS e2e_solid). exact H3.
Qed.
End Cfg.

(** ** Selectors *)
Lemma find_map_args k l : find_map (find_kind k) l = find (fun x => arg_kind_eqb (ia_kind x) k) (flat_map at_args l).
Proof.
  induction l as [|a l IH]; [reflexivity|]. cbn [find_map flat_map]. unfold find_kind at 1.
  assert (H : forall xs ys : list ink_arg, find (fun x => arg_kind_eqb (ia_kind x) k) (xs ++ ys)
              = match find (fun x => arg_kind_eqb (ia_kind x) k) xs with
                | Some y => Some y | None => find (fun x => arg_kind_eqb (ia_kind x) k) ys end).
  { induction xs as [|x xs IHx]; intros ys; [reflexivity|]. cbn [app find].
    destruct (arg_kind_eqb (ia_kind x) k); [reflexivity | apply IHx]. }
  rewrite H. destruct (find _ (at_args a)); [reflexivity | exact IH].
Qed.
Lemma find_first {A} (f : A -> bool) l x :
  find f l = Some x <-> exists before after, l = before ++ x :: after /\ f x = true /\ forall y, In y before -> f y = false.
Proof.
  induction l as [|y l IH]; cbn [find].
  - split; [discriminate|]. intros ([|? ?] & ? & E & _); discriminate E.
  - destruct (f y) eqn:E.
    + split.
      * intros H. injection H as <-. exists [], l. split; [reflexivity|]. split; [exact E | intros z []].
      * intros ([|z before] & after & El & Hx & Hb); cbn [app] in El; injection El as -> ->; [reflexivity|].
        specialize (Hb z (or_introl eq_refl)). congruence.
    + rewrite IH. split.
      * intros (before & after & -> & Hx & Hb). exists (y :: before), after. split; [reflexivity|]. split; [exact Hx|].
        intros z [<-|Hz]; [exact E | apply Hb; exact Hz].
      * intros ([|z before] & after & El & Hx & Hb); cbn [app] in El; injection El as -> ->; [congruence|].
        exists before, after. split; [reflexivity|]. split; [exact Hx|]. intros z' Hz. apply Hb. right. exact Hz.
Qed.
Lemma selector_spec n x : ink_arg_by_kind n ASelector = Some x <-> has_selector n x.
Proof.
  unfold ink_arg_by_kind, has_selector. rewrite find_map_args, find_first, attrs_of_ink.
  split; intros (b & a & E & H1 & H2); exists b, a; (split; [exact E|]); split.
  - apply arg_kind_eqb_eq. exact H1.
  - intros y Hy Hk. specialize (H2 y Hy). apply arg_kind_eqb_eq in Hk. congruence.
  - apply arg_kind_eqb_eq. exact H1.
  - intros y Hy. destruct (arg_kind_eqb (ia_kind y) ASelector) eqn:Ek; [|reflexivity].
    apply arg_kind_eqb_eq in Ek. destruct (H2 y Hy Ek).
Qed.
Lemma is_wildcard_spec x : is_wildcard x = true <-> wild x.
Proof.
  unfold is_wildcard, selector_kind_of, arg_value, wild. split.
  - intros H. destruct (m_value x) as [y| |]; try discriminate H. exists y. split; [reflexivity|].
    destruct (value_skind y) as [[]|]; try discriminate H. reflexivity.
  - intros (y & -> & ->). reflexivity.
Qed.
Lemma wildcard_message_spec l : wildcard_message l = true <-> takes_all (fst l).
Proof.
  unfold wildcard_message, takes_all. split.
  - intros H. destruct (ink_arg_by_kind (fst l) ASelector) as [x|] eqn:E; [|discriminate].
    exists x. split; [apply selector_spec; exact E | apply is_wildcard_spec; exact H].
  - intros (x & Hs & Hw). apply selector_spec in Hs. rewrite Hs. apply is_wildcard_spec. exact Hw.
Qed.
Lemma no_wildcard (ls : list loc) : existsb wildcard_message ls = false <-> forall l, In l ls -> ~ takes_all (fst l).
Proof.
  split.
  - intros H l Hl Ht. apply wildcard_message_spec in Ht.
    assert (existsb wildcard_message ls = true) by (apply existsb_exists; exists l; auto). congruence.
  - intros H. destruct (existsb wildcard_message ls) eqn:E; [|reflexivity]. apply existsb_exists in E.
    destruct E as (l & Hl & E). apply wildcard_message_spec in E. destruct (H l Hl E).
Qed.

(** ** Impl blocks of a contract *)
Section Facts.
Variable F : facts.
Hypothesis HF : forall l, fa_td F l = true -> fa_trait F l = true.

Lemma cast_plain n up :
  (n_kind n = IMPL -> fa_trait F (n, up) = false) ->
  (impl_can_cast (fa_td F) (n, up) = true <->
   declared (AkArg AImpl) n \/ (n_kind n = IMPL /\ exists b f, path n b f /\ unannotated b /\ OfferSpec.callable f)).
Proof.
  intros Hf. unfold impl_can_cast. cbn [fst]. rewrite orb_true_iff, has_kind_declared, andb_true_iff, orb_true_iff.
  unfold loc_kind. cbn [fst]. split; (intros [H|[Hk H]]; [left; exact H | right]).
  - assert (Ek : n_kind n = IMPL) by (destruct (n_kind n); congruence). split; [exact Ek|].
    destruct H as [H|H]; [|apply HF in H; specialize (Hf Ek); congruence].
    apply existsb_exists in H. destruct H as ([l' a] & Hin & Hcall). apply closest_In in Hin.
    destruct Hin as (b' & f & -> & Hp' & Hu & Ha). exists b', f. split; [exact Hp'|]. split; [exact Hu|].
    unfold is_callable in Hcall. apply orb_true_iff in Hcall. rewrite !casts_eq in Hcall. cbn [snd] in Hcall.
    destruct Hcall as [Hcall|Hcall]; [left|right]; exists a; auto.
  - rewrite Hk. split; [reflexivity|]. left. apply existsb_exists.
    destruct H as (b & f & Hp & Hu & Hc).
    assert (Hc' : exists a, In a (attrs_of f) /\ (at_kind a = AkArg AConstructor \/ at_kind a = AkArg AMessage))
      by (destruct Hc as [(a & Ha & E)|(a & Ha & E)]; exists a; auto).
    destruct Hc' as (a & Ha & E). exists ((f, b ++ n :: up), a). split; [apply closest_In; exists b, f; auto|].
    unfold is_callable, casts. cbn [snd]. destruct E as [-> | ->]; reflexivity.
Qed.

Lemma own_impl_spec t up :
  NoDup (map n_id (self_and_below t)) -> n_kind t = MODULE -> (forall c, In c (n_children t) -> n_kind c <> IMPL) ->
  (existsb (fun i => negb (implements_trait F i)) (co_impls (contract_of (fa_td F) (t, up))) = true
   <-> has_own_impl F t up).
Proof.
  intros Hnd Ht Hch. rewrite existsb_exists. cbn [contract_of co_impls]. unfold ink_impls.
  assert (Himpl : forall n up', implements_trait F (n, up') = false <-> (n_kind n = IMPL -> fa_trait F (n, up') = false)).
  { intros n up'. unfold implements_trait, loc_kind. cbn [fst]. destruct (n_kind n); split; intros H; try reflexivity; try discriminate; auto. }
  split.
  - intros (l & Hl & Hn). apply negb_true_iff in Hn.
    apply (proj1 (unique_loc_In t up _ l Hnd (fun x Hx => proj2 (impl_candidate_below (fa_td F) t up x Ht Hx)))) in Hl.
    apply filter_In in Hl. destruct Hl as [Hl Hcast]. apply in_app_iff in Hl. destruct Hl as [Hl|Hl].
    { exfalso. apply filter_In in Hl. destruct Hl as [Hl Hk]. unfold loc_children in Hl. apply in_map_iff in Hl.
      destruct Hl as (c & <- & Hc). apply skind_eqb_eq in Hk. exact (Hch c Hc Hk). }
    apply filter_map_In in Hl. destruct Hl as ([l' a] & Hx & H). apply closest_In in Hx.
    destruct Hx as (b & n & -> & Hp & Hu & Ha).
    match type of H with (if ?c then _ else _) = _ => destruct c eqn:Epk end.
    + apply callable_peek in Epk. unfold attr_item, loc_kind in H. cbn [fst] in H.
      destruct (is_item (n_kind n)) eqn:Ei; [|discriminate]. injection H as <-.
      pose proof (proj1 (Himpl _ _) Hn) as Hn1; clear Hn; rename Hn1 into Hn. exists b, n. split; [|exact Hn]. split; [exact Hp|]. split; [exact Hu|].
      destruct Epk as [E|[Hk E]]; [left; split; [exists a; auto | exact Ei]|].
      apply cast_plain in Hcast; [|exact Hn]. destruct Hcast as [Hd|[_ Hcall]]; [left; auto|].
      right. left. split; [exact Hk|]. split; [exists a; auto | exact Hcall].
    + match type of H with (if ?c then _ else _) = _ => destruct c eqn:Ec end; [|discriminate].
      unfold parent_impl_item, parent_ast_item in H. cbn [fst snd] in H.
      destruct (loc_kind (n, b ++ t :: up)) eqn:Ek0; try discriminate. unfold loc_kind in Ek0. cbn [fst] in Ek0.
      pose proof (nearest_item_spec (b ++ t :: up)) as Hs.
      destruct (nearest_item (b ++ t :: up)) as [[p far]|]; [|discriminate].
      destruct Hs as (near & E & Hni & Hpi). destruct (loc_kind (p, far)) eqn:Ek; try discriminate. injection H as <-.
      unfold loc_kind in Ek. cbn [fst] in Ek.
      destruct (split_tail _ _ _ _ _ _ E) as [(c & -> & ->)|(c & ->)].
      * apply path_split in Hp. destruct Hp as [Hp2 Hp1]. exists c, p. pose proof (proj1 (Himpl _ _) Hn) as Hn1; clear Hn; rename Hn1 into Hn. split; [|exact Hn].
        split; [exact Hp2|]. split; [intros m Hm; apply Hu; apply in_app_iff; right; right; exact Hm|].
        right. right. split; [exact Ek|]. split; [apply Hu; apply in_app_iff; right; left; reflexivity|].
        exists near, n. split; [exact Hp1|]. split; [intros m Hm; apply Hu; apply in_app_iff; left; exact Hm|].
        split; [exact Hni|]. split; [exact Ek0|].
        unfold is_callable in Ec. apply orb_true_iff in Ec. rewrite !casts_eq in Ec. cbn [snd] in Ec.
        destruct Ec as [Ec|Ec]; [left|right]; exists a; auto.
      * exfalso. rewrite <- app_assoc in E. apply app_inv_head in E. destruct c as [|x c].
        -- injection E as <- _. congruence.
        -- injection E as <- _. assert (Hin : In t (b ++ t :: c)) by (apply in_app_iff; right; left; reflexivity).
           specialize (Hni t Hin). rewrite Ht in Hni. discriminate.
  - intros (b & n & (Hp & Hu & H) & Hf). exists (n, b ++ t :: up).
    split; [|apply negb_true_iff, Himpl; exact Hf].
    apply (unique_loc_In t up); [exact Hnd | intros x Hx; apply (impl_candidate_below (fa_td F) t up x Ht Hx) |].
    apply filter_In. rewrite (cast_plain n _ Hf). split.
    + apply in_app_iff. right. apply filter_map_In.
      destruct H as [[(a & Ha & Ek) Hi]|[(Hk & (a & Ha & Ek) & _)|(Hk & Hun & b' & f & Hp' & Hu' & Hni & Hfn & Hc)]].
      * exists ((n, b ++ t :: up), a). split; [apply closest_In; exists b, n; auto|].
        match goal with |- (if ?c then _ else _) = _ => replace c with true end.
        -- unfold attr_item, loc_kind. cbn [fst]. rewrite Hi. reflexivity.
        -- symmetry. apply callable_peek. left. exact Ek.
      * exists ((n, b ++ t :: up), a). split; [apply closest_In; exists b, n; auto|].
        match goal with |- (if ?c then _ else _) = _ => replace c with true end.
        -- unfold attr_item, loc_kind. cbn [fst]. rewrite Hk. reflexivity.
        -- symmetry. apply callable_peek. right. auto.
      * assert (Hc' : exists a, In a (attrs_of f) /\ (at_kind a = AkArg AConstructor \/ at_kind a = AkArg AMessage))
          by (destruct Hc as [(a & Ha & E)|(a & Ha & E)]; exists a; auto).
        destruct Hc' as (a & Ha & E). exists ((f, (b' ++ n :: b) ++ t :: up), a). split.
        -- apply closest_In. exists (b' ++ n :: b), f. split; [reflexivity|]. split; [apply path_trans; assumption|].
           split; [|exact Ha]. intros m Hm. apply in_app_iff in Hm. destruct Hm as [Hm|[<-|Hm]]; auto.
        -- assert (E1 : possible_callable_ancestor (f, (b' ++ n :: b) ++ t :: up, a) = false).
           { unfold possible_callable_ancestor. cbn [snd]. destruct E as [-> | ->]; reflexivity. }
           rewrite E1.
           assert (E2 : is_callable (f, (b' ++ n :: b) ++ t :: up, a) = true).
           { unfold is_callable, casts. cbn [snd]. destruct E as [-> | ->]; reflexivity. }
           rewrite E2. unfold parent_impl_item, parent_ast_item, loc_kind. cbn [fst snd]. rewrite Hfn.
           rewrite <- app_assoc. cbn [app]. rewrite nearest_item_split; [|exact Hni|rewrite Hk; reflexivity].
           cbn [fst]. rewrite Hk. reflexivity.
    + destruct H as [[Hd _]|[(Hk & _ & Hc)|(Hk & _ & b' & f & Hp' & Hu' & _ & _ & Hc)]]; [left; exact Hd | right; auto|].
      right. split; [exact Hk|]. exists b', f. auto.
Qed.

Lemma contract_around_spec up :
  match ink_parent (AkMacro MContract) (Nd 0 IMPL (0, 0) None [], up) with
  | Some (p, far) => contract_around up p far
  | None => forall p far, ~ contract_around up p far
  end.
Proof.
  unfold ink_parent, parent_ast_item. cbn [snd]. pose proof (nearest_item_spec up) as H.
  destruct (nearest_item up) as [[p far]|] eqn:En; cbn [obind fst].
  - destruct H as (near & E & Hn & Hi). destruct (has_kind (AkMacro MContract) p) eqn:Ek.
    + exists near. apply has_kind_declared in Ek. auto.
    + intros p' far' (near' & E' & Hn' & Hi' & Hd). subst up.
      rewrite E', (nearest_item_split _ _ _ Hn' Hi') in En. injection En as -> ->.
      apply has_kind_declared in Hd. congruence.
  - intros p far (near & -> & Hn & Hi & _). rewrite (nearest_item_split _ _ _ Hn Hi) in En. discriminate.
Qed.
Lemma ink_parent_up t up : ink_parent (AkMacro MContract) (t, up) = ink_parent (AkMacro MContract) (Nd 0 IMPL (0, 0) None [], up).
Proof. reflexivity. Qed.
Lemma contract_around_unique up p far p' far' : contract_around up p far -> contract_around up p' far' -> p = p' /\ far = far'.
Proof.
  intros (n1 & -> & H1 & H2 & _) (n2 & E & H3 & H4 & _). pose proof (nearest_item_split _ _ far H1 H2) as N1.
  rewrite E, (nearest_item_split _ _ far' H3 H4) in N1. injection N1 as <- <-. auto.
Qed.

Lemma main_candidate t a : (exists b, primary_candidate (ink_attrs t) = Some (a, b)) <-> main_attr (attrs_of t) a.
Proof.
  rewrite <- best_primary, attrs_of_ink. unfold best, main_attr, primary_of. split.
  - intros (L & R & -> & Hk & H1 & H2). exists (filter is_known L), (filter is_known R).
    rewrite filter_app. cbn [filter]. unfold is_known at 2. rewrite Hk. split; [reflexivity|].
    split; intros y Hy; apply filter_In in Hy; destruct Hy as [Hy Hyk]; apply negb_true_iff in Hyk.
    + apply kind_precedes_rank. apply (H1 y Hy Hyk).
    + rewrite kind_precedes_rank. specialize (H2 y Hy Hyk). unfold rank in H2. lia.
  - intros (l1 & l2 & E & H1 & H2). destruct (filter_split _ _ _ _ _ E) as (L & R & Et & <- & <-).
    exists L, R. split; [exact Et|]. split.
    + assert (Hin : In a (filter is_known (attrs_of t))) by (rewrite E; apply in_app_iff; right; left; reflexivity).
      apply filter_In in Hin. apply negb_true_iff. apply Hin.
    + split; intros y Hy Hk.
      * apply kind_precedes_rank. apply H1. apply filter_In. split; [exact Hy | apply negb_true_iff; exact Hk].
      * specialize (H2 y (proj2 (filter_In _ _ _) (conj Hy (proj2 (negb_true_iff _) Hk)))).
        rewrite kind_precedes_rank in H2. unfold rank. lia.
Qed.
End Facts.

(** ** How predicates are written *)
Definition delim (c : char) : bool := is_open c || is_close c.
Fixpoint segs (s : str) : list str :=
  match s with
  | [] => [[]]
  | c :: s' => if delim c then [] :: segs s' else match segs s' with x :: l => (c :: x) :: l | [] => [] end
  end.
Lemma segs_cons s : exists x l, segs s = x :: l.
Proof.
  induction s as [|c s (x & l & E)]; [exists [], []; reflexivity|]. cbn [segs]. destruct (delim c); [eauto|].
  rewrite E. eauto.
Qed.
Lemma segs_app d y : delim d = true -> forall x, segs (x ++ d :: y) = segs x ++ segs y.
Proof.
  intros Hd. induction x as [|c x IH]; cbn [app segs].
  - rewrite Hd. reflexivity.
  - rewrite IH. destruct (delim c); [reflexivity|]. destruct (segs_cons x) as (z & l & ->). reflexivity.
Qed.
Lemma segs_free x : (forall c, In c x -> delim c = false) -> segs x = [x].
Proof.
  induction x as [|c x IH]; intros H; [reflexivity|]. cbn [segs]. rewrite (H c (or_introl eq_refl)).
  rewrite IH; [reflexivity|]. intros d Hd. apply H. right. exact Hd.
Qed.
Lemma segs_space s m : In m (segs (lit " " ++ s)) -> In m (segs s) \/ exists x, m = lit " " ++ x /\ In x (segs s).
Proof.
  change (lit " " ++ s) with (32%N :: s). cbn [segs]. change (delim 32%N) with false. cbv iota.
  destruct (segs_cons s) as (x & l & ->). intros [<-|H]; [right; exists x; split; [reflexivity | left; reflexivity] | left; right; exact H].
Qed.
Section Written.
Variable U : unicode.
Hypothesis HU : unicode_ok U.
Lemma delim_solid c : delim c = true -> u_whitespace U c = false.
Proof.
  unfold delim, is_open, is_close. rewrite !orb_true_iff, !N.eqb_eq.
  intros [[-> | ->]|[-> | ->]]; rewrite (uo_whitespace U HU); try reflexivity; lia.
Qed.
Lemma white_free w c : all_white U w -> In c w -> delim c = false.
Proof. intros Hw Hc. destruct (delim c) eqn:E; [|reflexivity]. apply delim_solid in E. rewrite (Hw c Hc) in E. discriminate. Qed.
Lemma spaced_test_inv m : spaced U [lit "test"] m -> exists w w', m = w ++ lit "test" ++ w' /\ all_white U w /\ all_white U w'.
Proof.
  intros H. inversion H as [|w x xs r Hw Hr]; subst. inversion Hr as [w' Hw'|]; subst. exists w, r. auto.
Qed.
Lemma operand_seg s : operand U [lit "test"] s -> exists m, spaced U [lit "test"] m /\ In m (segs s).
Proof.
  intros (before & o & m & c & after & -> & Ho & Hc & Hm). exists m. split; [exact Hm|].
  assert (Hf : forall x, In x m -> delim x = false).
  { destruct (spaced_test_inv m Hm) as (w & w' & -> & Hw & Hw'). intros x Hx.
    apply in_app_iff in Hx. destruct Hx as [Hx|Hx]; [exact (white_free w x Hw Hx)|].
    apply in_app_iff in Hx. destruct Hx as [Hx|Hx]; [|exact (white_free w' x Hw' Hx)].
    vm_compute in Hx. repeat destruct Hx as [<-|Hx]; try reflexivity. destruct Hx. }
  rewrite segs_app by (unfold delim; apply orb_true_iff; left; apply is_open_In; exact Ho).
  rewrite segs_app by (unfold delim; apply orb_true_iff; right; apply is_close_In; exact Hc).
  rewrite (segs_free m Hf). apply in_app_iff. right. left. reflexivity.
Qed.
(** The texts between delimiters. *)
Inductive piece : cfg -> str -> Prop :=
  | piece_leaf c : (forall l, c <> CAll l) -> piece c (written c)
  | piece_all l : piece (CAll l) (lit "all")
  | piece_end l : piece (CAll l) []
  | piece_in l c m : In c l -> piece c m -> piece (CAll l) m
  | piece_pad l m : piece (CAll l) m -> piece (CAll l) (lit " " ++ m).
Lemma plain_free x : plain_text U x -> forall c, In c x -> delim c = false.
Proof.
  intros H c Hc. destruct (H c Hc) as [_ Hn]. destruct (delim c) eqn:E; [|reflexivity]. exfalso. apply Hn.
  unfold delim in E. apply orb_true_iff in E. rewrite is_open_In, is_close_In in E. vm_compute. vm_compute in E. tauto.
Qed.
Lemma separated_pieces (l : list cfg) :
  (forall c, In c l -> forall m, In m (segs (written c)) -> piece c m) ->
  forall m, In m (segs (separated (map written l))) -> piece (CAll l) m.
Proof.
  intros H. assert (G : forall l', (forall c, In c l' -> In c l) -> forall m, In m (segs (separated (map written l'))) -> piece (CAll l) m).
  { induction l' as [|c l' IH]; intros Hl m Hm.
    - cbn in Hm. destruct Hm as [<-|[]]. apply piece_end.
    - destruct l' as [|c' l''].
      + cbn [map separated] in Hm. apply (piece_in l c); [apply Hl; left; reflexivity|].
        apply H; [apply Hl; left; reflexivity | exact Hm].
      + assert (E : separated (map written (c :: c' :: l''))
                    = written c ++ 44%N :: lit " " ++ separated (map written (c' :: l''))) by reflexivity.
        rewrite E, segs_app in Hm by reflexivity. apply in_app_iff in Hm. destruct Hm as [Hm|Hm].
        * apply (piece_in l c); [apply Hl; left; reflexivity|]. apply H; [apply Hl; left; reflexivity | exact Hm].
        * assert (IH' := IH (fun x Hx => Hl x (or_intror Hx))). apply segs_space in Hm.
          destruct Hm as [Hm|(x & -> & Hx)]; [exact (IH' m Hm)|]. clear -IH' Hx. specialize (IH' x Hx).
          apply piece_pad. exact IH'. }
  apply G. auto.
Qed.
Lemma written_pieces c : conjunction U c -> forall m, In m (segs (written c)) -> piece c m.
Proof.
  induction 1 as [n Hn|k x Hk Hx|l Hl IH]; intros m Hm.
  - cbn [written] in Hm. rewrite (segs_free n (plain_free n Hn)) in Hm. destruct Hm as [<-|[]].
    apply (piece_leaf (COption n)). discriminate.
  - assert (Hf : forall c, In c (written (CPair k x)) -> delim c = false).
    { intros c Hc. cbn [written] in Hc. apply in_app_iff in Hc. destruct Hc as [Hc|Hc]; [exact (plain_free k Hk c Hc)|].
      apply in_app_iff in Hc. destruct Hc as [Hc|Hc].
      - vm_compute in Hc. repeat destruct Hc as [<-|Hc]; try reflexivity. destruct Hc.
      - apply in_app_iff in Hc. destruct Hc as [Hc|Hc]; [exact (plain_free x Hx c Hc)|].
        vm_compute in Hc. repeat destruct Hc as [<-|Hc]; try reflexivity. destruct Hc. }
    rewrite (segs_free _ Hf) in Hm. destruct Hm as [<-|[]]. apply (piece_leaf (CPair k x)). discriminate.
  - assert (E : written (CAll l) = lit "all" ++ 40%N :: separated (map written l) ++ 41%N :: []) by reflexivity.
    rewrite E, segs_app, segs_app in Hm by reflexivity. apply in_app_iff in Hm. destruct Hm as [Hm|Hm].
    + vm_compute in Hm. destruct Hm as [<-|[]]. apply piece_all.
    + apply in_app_iff in Hm. destruct Hm as [Hm|Hm]; [apply separated_pieces; assumption|].
      cbn in Hm. destruct Hm as [<-|[]]. apply piece_end.
Qed.
Lemma white_app w x : all_white U (w ++ x) <-> all_white U w /\ all_white U x.
Proof.
  unfold all_white. split.
  - intros H. split; intros c Hc; apply H; apply in_app_iff; auto.
  - intros [H1 H2] c Hc. apply in_app_iff in Hc. destruct Hc; auto.
Qed.
Lemma t_solid : u_whitespace U 116%N = false.
Proof. rewrite (uo_whitespace U HU); [reflexivity | lia]. Qed.
Lemma piece_test c m : piece c m -> conjunction U c -> spaced U [lit "test"] m -> only_tests c.
Proof.
  induction 1 as [c Hc|l|l|l c m Hin Hp IH|l m Hp IH]; intros Hconj Hm.
  - destruct (spaced_test_inv _ Hm) as (w & w' & E & Hw & Hw'). inversion Hconj as [n Hn|k x Hk Hx|l Hl]; subst.
    + cbn [written] in E. subst n.
      assert (w = []) as ->.
      { destruct w as [|y w]; [reflexivity|]. destruct (Hn y (or_introl eq_refl)) as [H _].
        rewrite (Hw y (or_introl eq_refl)) in H. discriminate. }
      assert (w' = []) as ->.
      { destruct w' as [|y w']; [reflexivity|].
        destruct (Hn y) as [H _]; [apply in_app_iff; right; apply in_app_iff; right; left; reflexivity|].
        rewrite (Hw' y (or_introl eq_refl)) in H. discriminate. }
      intros options pairs H. cbn [holds] in H. exact H.
    + exfalso. assert (Hin : In 61%N (w ++ lit "test" ++ w')).
      { rewrite <- E. cbn [written]. apply in_app_iff. right. apply in_app_iff. left. vm_compute. tauto. }
      assert (Hq : u_whitespace U 61%N = false) by (rewrite (uo_whitespace U HU); [reflexivity | lia]).
      apply in_app_iff in Hin. destruct Hin as [Hin|Hin]; [rewrite (Hw _ Hin) in Hq; discriminate|].
      apply in_app_iff in Hin. destruct Hin as [Hin|Hin]; [|rewrite (Hw' _ Hin) in Hq; discriminate].
      vm_compute in Hin. repeat destruct Hin as [Hin|Hin]; try discriminate Hin. destruct Hin.
    + exfalso. exact (Hc l eq_refl).
  - exfalso. destruct (spaced_test_inv _ Hm) as (w & w' & E & _). assert (Hin : In 116%N (lit "all"))
      by (rewrite E; apply in_app_iff; right; left; reflexivity).
    vm_compute in Hin. repeat destruct Hin as [Hin|Hin]; try discriminate Hin. destruct Hin.
  - exfalso. destruct (spaced_test_inv _ Hm) as ([|y w] & w' & E & _); discriminate E.
  - inversion Hconj as [| |l' Hl]; subst. specialize (IH (Hl c Hin) Hm). intros options pairs H. apply (IH options pairs).
    cbn [holds] in H. rewrite forallb_forall in H. apply H. exact Hin.
  - apply IH; [exact Hconj|]. destruct (spaced_test_inv _ Hm) as (w & w' & E & Hw & Hw').
    destruct w as [|y w]; [discriminate E|]. injection E as _ E. subst m.
    apply (spaced_word U w (lit "test") [] w'); [intros z Hz; apply Hw; right; exact Hz | apply spaced_end; exact Hw'].
Qed.
Lemma conjunction_sound c : conjunction U c -> operand U [lit "test"] (lit "(" ++ written c ++ lit ")") -> only_tests c.
Proof.
  intros Hc Ho. destruct (operand_seg _ Ho) as (m & Hm & Hin).
  change (lit "(" ++ written c ++ lit ")") with ([] ++ 40%N :: written c ++ 41%N :: []) in Hin.
  rewrite segs_app, segs_app in Hin by reflexivity. apply in_app_iff in Hin. destruct Hin as [Hin|Hin].
  - destruct Hin as [<-|[]]. destruct (spaced_test_inv _ Hm) as ([|y w] & w' & E & _); discriminate E.
  - apply in_app_iff in Hin. destruct Hin as [Hin|Hin].
    + exact (piece_test c m (written_pieces c Hc m Hin) Hc Hm).
    + destruct Hin as [<-|[]]. destruct (spaced_test_inv _ Hm) as ([|y w] & w' & E & _); discriminate E.
Qed.

(** A conjunct is found. *)
Lemma spaced_pad words m : words <> [] -> spaced U words m -> spaced U words (lit " " ++ m).
Proof.
  intros Hne H. destruct H as [w Hw|w x xs r Hw Hr]; [congruence|].
  rewrite app_assoc. apply spaced_word; [|exact Hr]. apply white_app. split; [|exact Hw].
  intros c Hc; vm_compute in Hc; destruct Hc as [<-|[]]. rewrite (uo_whitespace U HU); [reflexivity | lia].
Qed.
Lemma separated_operand words d rest : words <> [] -> spaced U words (written d) ->
  forall l, In d l -> forall pre o m0, In o (lit "(,") -> (m0 = [] \/ m0 = lit " ") ->
  operand U words (pre ++ o :: m0 ++ separated (map written l) ++ 41%N :: rest).
Proof.
  intros Hne Hd. induction l as [|c l IH]; intros Hin pre o m0 Ho Hm0; [destruct Hin|].
  destruct Hin as [->|Hin].
  - assert (Hs : spaced U words (m0 ++ written d)) by (destruct Hm0 as [-> | ->]; [exact Hd | apply spaced_pad; assumption]).
    destruct l as [|c' l].
    + exists pre, o, (m0 ++ written d), 41%N, rest. cbn [map separated]. split; [rewrite <- app_assoc; reflexivity|].
      split; [exact Ho|]. split; [vm_compute; tauto | exact Hs].
    + exists pre, o, (m0 ++ written d), 44%N, (lit " " ++ separated (map written (c' :: l)) ++ 41%N :: rest).
      split; [|split; [exact Ho|]; split; [vm_compute; tauto | exact Hs]].
      change (separated (map written (d :: c' :: l))) with (written d ++ lit ", " ++ separated (map written (c' :: l))).
      rewrite <- !app_assoc. reflexivity.
  - destruct l as [|c' l]; [destruct Hin|].
    specialize (IH Hin (pre ++ o :: m0 ++ written c) 44%N (lit " ") ltac:(vm_compute; tauto) (or_intror eq_refl)).
    change (separated (map written (c :: c' :: l))) with (written c ++ lit ", " ++ separated (map written (c' :: l))).
    rewrite <- app_assoc in IH. cbn [app] in IH. rewrite <- !app_assoc in IH. rewrite <- !app_assoc. exact IH.
Qed.
Lemma demanded_operand words c d : words <> [] -> spaced U words (written d) -> demands c d ->
  operand U words (lit "(" ++ written c ++ lit ")").
Proof.
  intros Hne Hd [->|(l & -> & Hin)].
  - exists [], 40%N, (written d), 41%N, []. split; [reflexivity|]. split; [vm_compute; tauto|]. split; [vm_compute; tauto | exact Hd].
  - change (lit "(" ++ written (CAll l) ++ lit ")")
      with (lit "(all" ++ 40%N :: [] ++ (separated (map written l) ++ lit ")") ++ lit ")").
    rewrite <- app_assoc. apply (separated_operand words d (lit ")") Hne Hd l Hin); [vm_compute; tauto | left; reflexivity].
Qed.
Lemma white_space : all_white U (lit " ").
Proof. intros c Hc; vm_compute in Hc; destruct Hc as [<-|[]]. rewrite (uo_whitespace U HU); [reflexivity | lia]. Qed.
Lemma white_nil : all_white U [].
Proof. intros c []. Qed.
Lemma spaced_test : spaced U [lit "test"] (written TEST).
Proof. apply (spaced_word U [] (lit "test") [] []); [exact white_nil | apply spaced_end; exact white_nil]. Qed.
Lemma spaced_e2e : spaced U [lit "feature"; lit "="; lit """e2e-tests"""] (written E2E).
Proof.
  apply (spaced_word U [] (lit "feature") _ (lit " = ""e2e-tests""")); [exact white_nil|].
  apply (spaced_word U (lit " ") (lit "=") _ (lit " ""e2e-tests""")); [exact white_space|].
  apply (spaced_word U (lit " ") (lit """e2e-tests""") _ []); [exact white_space | apply spaced_end; exact white_nil].
Qed.
End Written.
