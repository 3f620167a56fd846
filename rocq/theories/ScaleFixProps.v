(** C51 and C75: which SCALE traits are reported as missing, and the fix that adds them. *)
From Coq Require Import Lia.
From Verif Require Import Base BaseFacts Unicode PositionModel TranslateModel SyntaxModel AttrModel AttrSpec AttrProofs EditModel EditSpec VersionModel
  UtilModel AttrProps ArgEditModel ArgEditSpec ArgEditProofs ArgEditProps FlattenModel MigrateModel MigrateSpec MigrateProofs MigrateProps ScaleFixModel ScaleFixSpec ScaleFixProofs.

(** ** C75: the traits reported *)
(** A trait that the type neither derives nor implements is reported. *)
Theorem C75_complete : forall v a k, plain_item a -> names_by_text (ad_named a) ->
  In k scale_traits -> ~ provides v a k -> In k (missing_traits v a).
Proof.
  intros v a k Hp Hn Hk H. unfold missing_traits. apply filter_In. split; [exact Hk|]. rewrite !andb_true_iff, !negb_true_iff.
  split; [split|].
  - match goal with |- ?b = false => destruct b eqn:E; [|reflexivity] end. exfalso. apply H. right. left. apply scale_derive_arg. exact E.
  - match goal with |- ?b = false => destruct b eqn:E; [|reflexivity] end. exfalso. apply H. left. apply derived_sound; assumption.
  - match goal with |- ?b = false => destruct b eqn:E; [|reflexivity] end. exfalso. apply H. right. right. exact E.
Qed.
Print Assumptions C75_complete.

(** With at most one attribute of each kind, the diagnostic names exactly the missing traits, in order. Missing for
    the full property: several attributes of the same kind, for which it fails ([C75_second_derive_refuted]). *)
Theorem C75_exact_partial : forall U toks v prefix a, plain_item a -> names_by_text (ad_named a) ->
  at_most_one (attr_path_is (lit "derive")) (ad_attrs a) -> at_most_one (attr_path_is (lit "cfg_attr")) (ad_attrs a) ->
  at_most_one (fun x => attr_kind_eqb (at_kind x) (AkMacro MScaleDerive)) (ad_ink a) ->
  exists p, (forall k, In k [AEncode; ADecode; ATypeInfo] -> (p k = true <-> ~ provides v a k))
    /\ let ks := filter p [AEncode; ADecode; ATypeInfo] in
       (scale_diagnostic U toks v prefix a = None <-> ks = [])
       /\ (ks <> [] -> exists label edit, scale_diagnostic U toks v prefix a
            = Some (prefix ++ lit " must implement the " ++ join (lit ", ") (map (fun k => lit "`" ++ trait_path k ++ lit "`") ks)
                    ++ lit " trait" ++ (match ks with [_] => [] | _ => lit "s" end) ++ lit ".", (ad_declaration a, (label, edit)))).
Proof.
  intros U toks v prefix a Hp Hn H1 H2 H3.
  assert (E : exists p, missing_traits v a = filter p scale_traits /\ forall k, p k = true <-> ~ provides v a k).
  { eexists. split; [unfold missing_traits; reflexivity|]. intros k. cbv beta. rewrite !andb_true_iff, !negb_true_iff. split.
    - intros [[E1 E2] E3] [(n & Hd & En)|[(-> & x & arg & Hx & Kx & Ha & Ek)|Hi]]; [| |congruence].
      + pose proof (derived_complete a k n Hp Hn H1 H2 Hd En). congruence.
      + assert (Ef : scale_derive_attr_of V5 a = Some x) by (apply find_only; [exact H3|exact Hx|apply attr_kind_eqb_eq; exact Kx]).
        rewrite Ef in E1. assert (C : existsb (fun arg => arg_kind_eqb (ia_kind arg) k) (at_args x) = true); [|congruence].
        apply existsb_exists. exists arg. split; [exact Ha|]. apply internal_arg_kind_dec_lb. exact Ek.
    - intros H. split; [split|].
      + match goal with |- ?b = false => destruct b eqn:E; [|reflexivity] end. exfalso. apply H. right. left. apply scale_derive_arg. exact E.
      + match goal with |- ?b = false => destruct b eqn:E; [|reflexivity] end. exfalso. apply H. left. apply derived_sound; assumption.
      + match goal with |- ?b = false => destruct b eqn:E; [|reflexivity] end. exfalso. apply H. right. right. exact E. }
  destruct E as (p & Em & Hpk). exists p. split; [intros k _; apply Hpk|]. cbv zeta. change [AEncode; ADecode; ATypeInfo] with scale_traits. rewrite <- Em.
  unfold scale_diagnostic. destruct (missing_traits v a) as [|k ks]; [split; [split; reflexivity|intros C; contradiction]|]. split; [split; discriminate|].
  intros _. unfold plural, shown_traits. destruct ks; eexists; eexists; reflexivity.
Qed.
Print Assumptions C75_exact_partial.

(** ** C51: the fix *)
Lemma missing_provided v a k : plain_item a -> names_by_text (ad_named a) -> In k scale_traits -> ~ In k (missing_traits v a) -> provides v a k.
Proof.
  intros Hp Hn Hk H. unfold missing_traits in H.
  match type of H with ~ In k (filter ?f _) => assert (E : f k = false) by (destruct (f k) eqn:E; [exfalso; apply H; apply filter_In; auto|reflexivity]) end.
  cbv beta in E. rewrite !andb_false_iff, !negb_false_iff in E. destruct E as [[E|E]|E].
  - right. left. apply scale_derive_arg. exact E.
  - left. apply derived_sound; assumption.
  - right. right. exact E.
Qed.
Lemma no_dollar_traits v ks : ~ In 36%N (plain_traits v ks).
Proof.
  unfold plain_traits. induction ks as [|k ks IH]; [intros []|]. assert (Hk : ~ In 36%N (trait_text v k)) by (destruct v, k; cbv; intuition discriminate).
  destruct ks as [|k' ks]; [exact Hk|]. cbn [map] in *. change (join (lit ", ") (trait_text v k :: trait_text v k' :: map (trait_text v) ks)) with (trait_text v k ++ lit ", " ++ join (lit ", ") (trait_text v k' :: map (trait_text v) ks)).
  intros Hi. apply in_app_or in Hi as [Hi|Hi]; [exact (Hk Hi)|]. apply in_app_or in Hi as [Hi|Hi]; [cbv in Hi; intuition discriminate|exact (IH Hi)].
Qed.
Lemma expands_traits v ks : exists j, expands_in 1 j (snippet_traits v ks) (plain_traits v ks).
Proof.
  apply expands_joined; [cbv; intuition discriminate|]. intros x Hx. apply in_map_iff in Hx as (k & <- & _). destruct v, k; cbv; intuition discriminate.
Qed.
Lemma keeps_names a a' l x r x' ns new : same_but a a' -> ad_attrs a = l ++ x :: r -> ad_attrs a' = l ++ x' :: r ->
  derive_attr x' new -> (exists ms, well_listed new (ns ++ ms)) -> (exists m, derive_attr x m /\ well_listed m ns) ->
  forall n, derives_name a n -> derives_name a' n.
Proof.
  intros Hs Ea Ea' (Px' & o' & body' & Et' & Hb' & Etx') (ms & Hnew) (m & (Px & o & body & Et & Hb & Etx) & Hm) n (y & body0 & ns0 & Hy & Hd & Hns0 & Hin).
  rewrite Ea in Hy. apply in_app_or in Hy as [Hy|[<-|Hy]].
  - exists y, body0, ns0. rewrite Ea'. split; [apply in_or_app; left; exact Hy|]. auto.
  - destruct Hd as [o0 b0 P0 T0|o0 l0 k0 bl0 b0 r0 P0 T0 _ _]; [|rewrite Px in P0; discriminate]. rewrite Et in T0. injection T0 as <- T0. apply app_inj_tail in T0 as [<- _].
    rewrite Etx in Hns0. pose proof (lists_names_fun _ _ _ Hns0 (well_listed_names _ _ Hm)) as ->.
    exists x', body', (ns ++ ms). rewrite Ea'. split; [apply in_or_app; right; left; reflexivity|]. split; [apply (standalone x' o' body' Px' Et')|].
    split; [rewrite Etx'; apply well_listed_names; exact Hnew|apply in_or_app; left; exact Hin].
  - exists y, body0, ns0. rewrite Ea'. split; [apply in_or_app; right; right; exact Hy|]. auto.
Qed.

(** ink! 4, the type has a [derive] with some names: the fix rewrites exactly that attribute to one that lists the
    same names and then the missing traits; with it the type derives all that it did, and no trait is missing. The
    snippet has the same text. Missing for the full property: an empty list, for which it fails
    ([C51_empty_derive_refuted]), and ink! 5 ([C51_existing_v5_refuted]). *)
Theorem C51_existing_v4_partial : forall U toks prefix a l x r m ns,
  plain_item a -> names_by_text (ad_named a) -> (forall k, In k scale_traits -> ad_named a (trait_path k) k = true) ->
  ad_attrs a = l ++ x :: r -> (forall y, In y l -> ia_path y <> Some (lit "derive")) ->
  derive_attr x m -> well_listed m ns -> ns <> [] -> (forall c, In c m -> u_whitespace U c = white c) ->
  forall message range label edit, scale_diagnostic U toks V4 prefix a = Some (message, (range, (label, edit))) ->
  te_range edit = ia_range x
  /\ exists new, te_text edit = lit "#[derive(" ++ new ++ lit ")]"
     /\ well_listed new (ns ++ map trait_path (missing_traits V4 a))
     /\ (~ In 36%N m -> exists s, te_snippet edit = Some s /\ expands s (te_text edit))
     /\ forall a' x', same_but a a' -> ad_attrs a' = l ++ x' :: r -> derive_attr x' new ->
        (forall n, derives_name a n -> derives_name a' n) /\ (forall k, In k scale_traits -> provides V4 a' k).
Proof.
  intros U toks prefix a l x r m ns Hp Hn Hpaths Ea Hl Hx Hm Hns HU message range label edit E.
  destruct Hx as (Px & o & body & Et & Hb & Etx). subst m.
  unfold scale_diagnostic in E. remember (missing_traits V4 a) as ks eqn:Eks. destruct ks as [|k0 ks0]; [discriminate|].
  set (ks := k0 :: ks0) in *. injection E as _ _ _ E. subst edit.
  assert (Ed : derive_attr_of a = Some x).
  { unfold derive_attr_of. rewrite Ea. clear - Hl Px. induction l as [|y l IH]; cbn [app find].
    - rewrite (proj2 (path_is_iff _ x) Px). reflexivity.
    - destruct (attr_path_is (lit "derive") y) eqn:Ey; [exfalso; apply (Hl y (or_introl eq_refl)); apply path_is_iff; exact Ey|]. apply IH. intros z Hz. apply Hl. right. exact Hz. }
  assert (Em : derive_meta_of a = Some (texts_of body)) by (unfold derive_meta_of; rewrite Ed; cbn [obind]; rewrite Et; cbn [option_map]; rewrite meta_balanced by exact Hb; reflexivity).
  unfold scale_fix. rewrite Ed, Em. cbn [option_map]. unfold edit_replace_snippet. cbn [te_range te_text te_snippet]. split; [reflexivity|].
  exists (meta_prefix U (texts_of body) ++ plain_traits V4 ks). split; [rewrite <- !app_assoc; reflexivity|].
  assert (Hnew : well_listed (meta_prefix U (texts_of body) ++ plain_traits V4 ks) (ns ++ map trait_path ks)) by (apply extended; [exact Hm|exact Hns|exact HU|discriminate]).
  split; [exact Hnew|]. split.
  { intros H36. destruct (expands_traits V4 ks) as (j & Hj). eexists. split; [reflexivity|]. exists j. eapply (expands_app (lit "#[")); [apply expands_plain; cbv; intuition discriminate|].
    eapply (expands_app (lit "derive")); [apply expands_plain; cbv; intuition discriminate|]. eapply (expands_app (lit "(")); [apply expands_plain; cbv; intuition discriminate|].
    eapply expands_app; [apply expands_plain; unfold meta_prefix; intros Hi; apply in_app_or in Hi as [Hi|Hi]; [exact (H36 Hi)|]; destruct (ends_with _ _); cbv in Hi; intuition discriminate|].
    eapply expands_app; [exact Hj|]. apply expands_plain; cbv; intuition discriminate. }
  intros a' x' Hsame Ea' Hx'.
  assert (Hkeep : forall n, derives_name a n -> derives_name a' n).
  { apply (keeps_names a a' l x r x' ns _ Hsame Ea Ea' Hx'); [exists (map trait_path ks); exact Hnew|]. exists (texts_of body). split; [|exact Hm]. split; [exact Px|]. exists o, body. auto. }
  split; [exact Hkeep|]. intros k Hk. destruct (in_dec arg_kind_eq_dec k ks) as [Hin|Hin].
  - left. exists (trait_path k). destruct Hsame as [-> _]. split; [|apply Hpaths; exact Hk]. destruct Hx' as (Px' & o' & body' & Et' & Hb' & Etx').
    exists x', body', (ns ++ map trait_path ks). rewrite Ea'. split; [apply in_or_app; right; left; reflexivity|]. split; [apply (standalone x' o' body' Px' Et')|].
    split; [rewrite Etx'; apply well_listed_names; exact Hnew|]. apply in_or_app. right. apply in_map. exact Hin.
  - rewrite Eks in Hin. destruct (missing_provided V4 a k Hp Hn Hk Hin) as [(n & Hd & En)|[(C & _)|Hi]]; [|discriminate|].
    + left. exists n. split; [apply Hkeep; exact Hd|]. destruct Hsame as [-> _]. exact En.
    + right. right. destruct Hsame as [_ ->]. exact Hi.
Qed.
Print Assumptions C51_existing_v4_partial.

Lemma new_offset toks a : (forall x, last_opt (ad_attrs a) = Some x -> exists t, In t toks /\ snd (ia_range x) <= lf_start t /\ is_trivia (lf_kind t) = false) ->
  (exists l1 l2, toks = l1 ++ l2 /\ forall x, last_opt (ad_attrs a) = Some x -> (forall t, In t l1 -> lf_start t < snd (ia_range x)) /\ forall t, In t l2 -> snd (ia_range x) <= lf_start t) ->
  after_attributes toks a (new_attr_offset toks a).
Proof.
  intros Hex (l1 & l2 & Etoks & Hcut). unfold new_attr_offset. destruct (last_opt (ad_attrs a)) as [x|] eqn:El.
  - right. destruct (Hcut x eq_refl) as [H1 H2]. destruct (Hex x eq_refl) as (t0 & Ht0 & Hs0 & Hk0).
    assert (Ef : filter (fun t => snd (ia_range x) <=? lf_start t) toks = l2).
    { rewrite Etoks, filter_app. rewrite (filter_none _ l1) by (intros t Ht; apply Nat.leb_gt; apply H1; exact Ht). cbn [app]. apply filter_all. intros t Ht. apply Nat.leb_le. apply H2. exact Ht. }
    rewrite Ef. assert (Hin : In t0 l2) by (rewrite <- Ef; apply filter_In; split; [exact Ht0|apply Nat.leb_le; exact Hs0]).
    assert (Hf : exists trivia t after, l2 = trivia ++ t :: after /\ (forall u, In u trivia -> is_trivia (lf_kind u) = true) /\ is_trivia (lf_kind t) = false
      /\ find (fun t => negb (is_trivia (lf_kind t))) l2 = Some t).
    { clear - Hin Hk0. induction l2 as [|u l IH]; [destruct Hin|]. cbn [find]. destruct (is_trivia (lf_kind u)) eqn:Eu; cbn [negb].
      - destruct Hin as [->|Hin]; [congruence|]. destruct (IH Hin) as (tr & t & af & -> & Ha & Hb & Hc). exists (u :: tr), t, af. split; [reflexivity|]. split; [|split; [exact Hb|exact Hc]].
        intros w [<-|Hw]; [exact Eu|apply Ha; exact Hw].
      - exists [], u, l. split; [reflexivity|]. split; [intros w []|]. split; [exact Eu|reflexivity]. }
    destruct Hf as (trivia & t & after & E2 & Htr & Hk & ->). apply last_opt_some in El as (l & El). exists l, x, l1, trivia, t, after.
    split; [exact El|]. split; [rewrite Etoks, E2; reflexivity|]. split; [exact H1|]. split; [intros u Hu; split; [apply H2; rewrite E2; apply in_or_app; left; exact Hu|apply Htr; exact Hu]|].
    split; [apply H2; rewrite E2; apply in_or_app; right; left; reflexivity|]. split; [exact Hk|reflexivity].
  - left. split; [|reflexivity]. destruct (ad_attrs a) as [|y l]; [reflexivity|]. exfalso. clear - El. revert y El. induction l as [|z l IH]; intros y El; [discriminate|]. apply (IH z). exact El.
Qed.
Lemma ordered_cut toks e : ordered toks -> exists l1 l2, toks = l1 ++ l2 /\ (forall t, In t l1 -> lf_start t < e) /\ forall t, In t l2 -> e <= lf_start t.
Proof.
  induction toks as [|t toks IH]; intros H; [exists [], []; split; [reflexivity|]; split; intros t []|].
  destruct (Nat.lt_ge_cases (lf_start t) e) as [Hlt|Hge].
  - destruct IH as (l1 & l2 & -> & H1 & H2); [intros l u m w r E; apply (H (t :: l) u m w r); rewrite E; reflexivity|].
    exists (t :: l1), l2. split; [reflexivity|]. split; [intros u [<-|Hu]; [exact Hlt|apply H1; exact Hu]|exact H2].
  - exists [], (t :: toks). split; [reflexivity|]. split; [intros u []|]. intros u [<-|Hu]; [exact Hge|]. apply in_split in Hu as (m & r & ->).
    pose proof (H [] t m u r eq_refl). lia.
Qed.
Lemma find_absent {A} (p : A -> bool) l : (forall x, In x l -> p x = false) -> find p l = None.
Proof. intros H. induction l as [|x l IH]; [reflexivity|]. cbn [find]. rewrite (H x (or_introl eq_refl)). apply IH. intros y Hy. apply H. right. exact Hy. Qed.
Lemma names_incl a a' n : incl (ad_attrs a) (ad_attrs a') -> derives_name a n -> derives_name a' n.
Proof. intros H (x & body & ns & Hx & R). exists x, body, ns. split; [apply H; exact Hx|exact R]. Qed.

(** No attribute to extend: a new one with exactly the missing traits is inserted before the item's first token after
    its attributes. *)
Theorem C51_new : forall U toks v prefix a,
  plain_item a -> names_by_text (ad_named a) ->
  match v with
  | V4 => forall x, In x (ad_attrs a) -> ia_path x <> Some (lit "derive")
  | V5 => forall x, In x (ad_ink a) -> at_kind x <> AkMacro MScaleDerive
  end ->
  ordered toks -> (forall l x, ad_attrs a = l ++ [x] -> exists t, In t toks /\ snd (ia_range x) <= lf_start t /\ is_trivia (lf_kind t) = false) ->
  forall message range label edit, scale_diagnostic U toks v prefix a = Some (message, (range, (label, edit))) ->
  exists o new, te_range edit = (o, o) /\ after_attributes toks a o
    /\ te_text edit = match v with V4 => lit "#[derive(" | V5 => lit "#[ink::scale_derive(" end ++ new ++ lit ")]"
    /\ (exists s, te_snippet edit = Some s /\ expands s (te_text edit))
    /\ match v with
       | V4 => forall a' x', same_but a a' -> incl (x' :: ad_attrs a) (ad_attrs a') -> derive_attr x' new ->
                 (forall k, In k scale_traits -> ad_named a (trait_path k) k = true) ->
                 (forall n, derives_name a n -> derives_name a' n) /\ (forall k, In k scale_traits -> provides V4 a' k)
       | V5 => exists body, texts_of body = new /\
                 forall px q r a', same_but a a' -> incl (ad_attrs a) (ad_attrs a') ->
                 (exists x', attr_cast px (AttrSyntax [lit "ink"; lit "scale_derive"] (Some (q, paren_tree body)) r) = Some x' /\ In x' (ad_ink a')) ->
                 (forall n, derives_name a n -> derives_name a' n) /\ (forall k, In k scale_traits -> provides V5 a' k)
       end.
Proof.
  intros U toks v prefix a Hp Hn Hno Hord Hnext message range label edit E.
  unfold scale_diagnostic in E. remember (missing_traits v a) as ks eqn:Eks. destruct ks as [|k0 ks0]; [discriminate|]. set (ks := k0 :: ks0) in *. injection E as _ _ _ E. subst edit.
  exists (new_attr_offset toks a), (plain_traits v ks).
  assert (Hafter : after_attributes toks a (new_attr_offset toks a)).
  { apply new_offset.
    - intros x Hx. apply last_opt_some in Hx as (l & El). apply (Hnext l x El).
    - destruct (last_opt (ad_attrs a)) as [x|] eqn:El.
      + destruct (ordered_cut toks (snd (ia_range x)) Hord) as (l1 & l2 & Et & H1 & H2). exists l1, l2. split; [exact Et|]. intros y Ey. injection Ey as <-. auto.
      + exists [], toks. split; [reflexivity|]. discriminate. }
  assert (Eedit : exists path, path = match v with V4 => lit "derive" | V5 => lit "ink::scale_derive" end
    /\ scale_fix U toks v a ks = TextEdit (lit "#[" ++ path ++ lit "(" ++ [] ++ plain_traits v ks ++ lit ")]") (new_attr_offset toks a, new_attr_offset toks a)
         (Some (lit "#[" ++ path ++ lit "(" ++ [] ++ snippet_traits v ks ++ lit ")]"))).
  { eexists. split; [reflexivity|]. unfold scale_fix, edit_replace_snippet. destruct v.
    - unfold derive_attr_of. rewrite find_absent; [reflexivity|]. intros x Hx. destruct (attr_path_is (lit "derive") x) eqn:Ex; [|reflexivity]. apply path_is_iff in Ex. exfalso. exact (Hno x Hx Ex).
    - unfold scale_derive_attr_of. rewrite find_absent; [reflexivity|]. intros x Hx. destruct (attr_kind_eqb _ _) eqn:Ex; [|reflexivity]. apply attr_kind_eqb_eq in Ex. exfalso. exact (Hno x Hx Ex). }
  destruct Eedit as (path & Epath & Eedit). rewrite Eedit. cbn [te_range te_text te_snippet]. split; [reflexivity|]. split; [exact Hafter|].
  split; [subst path; destruct v; reflexivity|]. split.
  { destruct (expands_traits v ks) as (j & Hj). eexists. split; [reflexivity|]. exists j. eapply (expands_app (lit "#[")); [apply expands_plain; cbv; intuition discriminate|].
    eapply expands_app; [apply expands_plain; subst path; destruct v; cbv; intuition discriminate|]. eapply (expands_app (lit "(")); [apply expands_plain; cbv; intuition discriminate|].
    eapply (expands_app []); [constructor|]. eapply expands_app; [exact Hj|]. apply expands_plain; cbv; intuition discriminate. }
  destruct v.
  - intros a' x' Hsame Hincl (Px' & o' & body' & Et' & Hb' & Etx') Hpaths.
    assert (Hkeep : forall n, derives_name a n -> derives_name a' n) by (intros n; apply names_incl; intros y Hy; apply Hincl; right; exact Hy).
    split; [exact Hkeep|]. intros k Hk. destruct (in_dec arg_kind_eq_dec k ks) as [Hin|Hin].
    + left. exists (trait_path k). destruct Hsame as [-> _]. split; [|apply Hpaths; exact Hk].
      exists x', body', (map trait_path ks). split; [apply Hincl; left; reflexivity|]. split; [apply (standalone x' o' body' Px' Et')|].
      split; [rewrite Etx'; apply well_listed_names; apply fresh_list; discriminate|apply in_map; exact Hin].
    + rewrite Eks in Hin. destruct (missing_provided V4 a k Hp Hn Hk Hin) as [(n & Hd & En)|[(C & _)|Hi]]; [|discriminate|].
      * left. exists n. split; [apply Hkeep; exact Hd|]. destruct Hsame as [-> _]. exact En.
      * right. right. destruct Hsame as [_ ->]. exact Hi.
  - exists (named_tokens (map arg_kind_str ks)). split.
    { unfold plain_traits. change (trait_text V5) with arg_kind_str. generalize (map arg_kind_str ks). clear. induction l as [|n l IH]; [reflexivity|]. destruct l as [|m l]; [cbn; apply app_nil_r|].
      change (named_tokens (n :: m :: l)) with (Tok IDENT n :: Tok COMMA (lit ",") :: Tok WHITESPACE (lit " ") :: named_tokens (m :: l)).
      change (join (lit ", ") (n :: m :: l)) with (n ++ lit ", " ++ join (lit ", ") (m :: l)). rewrite <- IH. reflexivity. }
    intros px q r a' Hsame Hincl (x' & Ex' & Hx').
    assert (Hkeep : forall n, derives_name a n -> derives_name a' n) by (intros n; apply names_incl; exact Hincl).
    split; [exact Hkeep|]. intros k Hk. destruct (in_dec arg_kind_eq_dec k ks) as [Hin|Hin].
    + right. left. split; [reflexivity|]. exists x'.
      assert (Eargs : exists f, ks = filter f scale_traits) by (rewrite Eks; eexists; reflexivity). destruct Eargs as (f & Ef).
      assert (Ek : at_kind x' = AkMacro MScaleDerive /\ map ia_kind (at_args x') = ks).
      { rewrite Ef in Ex'. rewrite Ef. clear - Ex'. cbn in Ex'. cbn [filter scale_traits]. destruct (f AEncode), (f ADecode), (f ATypeInfo); cbn in Ex'; injection Ex' as <-; split; reflexivity. }
      destruct Ek as [Ek1 Ek2]. rewrite <- Ek2 in Hin. apply in_map_iff in Hin as (arg & Ea & Harg). exists arg. auto.
    + rewrite Eks in Hin. destruct (missing_provided V5 a k Hp Hn Hk Hin) as [(n & Hd & En)|[(_ & x & _ & Hx & Kx & _)|Hi]]; [|exfalso; exact (Hno x Hx Kx)|].
      * left. exists n. split; [apply Hkeep; exact Hd|]. destruct Hsame as [-> _]. exact En.
      * right. right. destruct Hsame as [_ ->]. exact Hi.
Qed.
Print Assumptions C51_new.

(** ** Cases *)
Definition ex_named (s : str) (k : arg_kind) : bool := match ex_scale s with Some k' => arg_kind_eqb k' k | None => false end.
Lemma ex_named_ok : names_by_text ex_named.
Proof. destruct ex_scale_by_name as [H1 H2]. split; [intros s k|intros k]; unfold ex_named; [rewrite <- H1; reflexivity|rewrite H2; reflexivity]. Qed.
Definition ex_attr_of (o : nat) (body : list elem) : item_attr := ItemAttr (Some (lit "derive")) (Some (o + 8, paren_tree body)) (o, o + 11 + lens body).
Definition ex_type (attrs : list item_attr) (ink : list ink_attr) : adt := Adt 0 attrs ink (Some (lit "T")) (40, 50) ex_named (fun _ => false).
Definition flat_tokens (l : list elem) : Prop := Forall (fun e => match e with Tok k t => k <> L_PAREN /\ k <> R_PAREN /\ k <> TOKEN_TREE /\ t <> [] | Node _ _ => False end) l.
Lemma flat_balanced l : flat_tokens l -> Forall balanced l.
Proof. intros H. apply Forall_impl with (2 := H). intros [k t|k cs] He; [destruct He as (H1 & H2 & H3 & H4); constructor; assumption|destruct He]. Qed.
Lemma flat_plain o body : flat_tokens body -> plain_attr (ex_attr_of o body).
Proof.
  intros H t E. injection E as <-. exists (o + 8), body. split; [reflexivity|]. split; [apply flat_balanced; exact H|].
  intros l k bl cs r -> _. exfalso. unfold flat_tokens in H. rewrite Forall_app in H. destruct H as [_ H]. inversion H as [|? ? _ H']; subst. rewrite Forall_app in H'. destruct H' as [_ H']. inversion H' as [|? ? C _]; subst. exact C.
Qed.
Ltac flat := repeat (apply Forall_cons; [repeat split; discriminate|]); apply Forall_nil.
Definition debug_encode : list elem := [word "Debug"; tok_comma; sp] ++ path_toks "scale" "Encode" ++ [tok_comma].

(** [#[derive(Debug, scale::Encode,)]]: the other two are added. *)
Example C51_example_existing :
  plain_item (ex_type [ex_attr_of 0 debug_encode] []) /\ (forall k, In k scale_traits -> ex_named (trait_path k) k = true)
  /\ derive_attr (ex_attr_of 0 debug_encode) (texts_of debug_encode) /\ well_listed (texts_of debug_encode) [lit "Debug"; lit "scale::Encode"]
  /\ (forall c, In c (texts_of debug_encode) -> u_whitespace ascii_unicode c = white c)
  /\ scale_diagnostic ascii_unicode [] V4 (lit "Error code") (ex_type [ex_attr_of 0 debug_encode] [])
     = Some (lit "Error code must implement the `scale::Decode`, `scale_info::TypeInfo` traits.", ((40, 50),
        (lit "Derive `scale::Decode`, `scale_info::TypeInfo` trait implementations for `T`.",
         TextEdit (lit "#[derive(Debug, scale::Encode,scale::Decode, scale_info::TypeInfo)]") (0, 32)
           (Some (lit "#[derive(Debug, scale::Encode,${1:scale::Decode}, ${2:scale_info::TypeInfo})]"))))).
Proof.
  split; [intros x [<-|[]]; apply flat_plain; flat|]. split; [intros k [<-|[<-|[<-|[]]]]; reflexivity|].
  split; [split; [reflexivity|]; exists 8, debug_encode; split; [reflexivity|]; split; [apply flat_balanced; flat|reflexivity]|].
  split; [exists [lit "Debug"; lit " scale::Encode"], []; split; [reflexivity|]; split; [|split; [|reflexivity]]; cbn [app]; intros p Hp; repeat (destruct Hp as [<-|Hp]; [cbv; intuition discriminate|]); destruct Hp|].
  split; [intros c Hc; cbv in Hc; repeat (destruct Hc as [<-|Hc]; [reflexivity|]); destruct Hc|]. vm_compute. reflexivity.
Qed.
(** No attribute but a doc comment's and [#[allow(..)]]: a new one before [pub]. *)
Definition ex_allow : item_attr := ItemAttr (Some (lit "allow")) (Some (7, paren_tree [word "x"])) (0, 11).
Definition ex_toks : list leaf := place_leaves 0 [(POUND, lit "#"); (L_BRACK, lit "["); (IDENT, lit "allow(x)"); (R_BRACK, lit "]"); (WHITESPACE, lit " "); (IDENT, lit "pub")].
Example C51_example_new :
  plain_item (ex_type [ex_allow] []) /\ ordered ex_toks /\ (forall x, In x (ad_attrs (ex_type [ex_allow] [])) -> ia_path x <> Some (lit "derive"))
  /\ option_map (fun d => snd (snd (snd d))) (scale_diagnostic ascii_unicode ex_toks V5 (lit "Error code") (ex_type [ex_allow] []))
     = Some (TextEdit (lit "#[ink::scale_derive(Encode, Decode, TypeInfo)]") (12, 12) (Some (lit "#[ink::scale_derive(${1:Encode}, ${2:Decode}, ${3:TypeInfo})]"))).
Proof.
  split.
  { intros x [<-|[]] t E. injection E as <-. exists 7, [word "x"]. split; [reflexivity|]. split; [apply flat_balanced; flat|].
    intros l k bl cs r E. exfalso. destruct l as [|? [|? ?]]; discriminate. }
  split; [|split; [intros x [<-|[]]; discriminate|vm_compute; reflexivity]].
  intros l t m u r E. unfold ex_toks in E. cbn in E.
  repeat (destruct l as [|? l]; cbn [app] in E; [injection E as <- E; repeat (destruct m as [|? m]; cbn [app] in E; [injection E as <- E; cbn; lia|injection E as _ E]); destruct m; discriminate|injection E as _ E]).
  destruct l; discriminate.
Qed.

(** ink! 5: the fix replaces [#[ink::scale_derive(Encode)]] by the missing traits only, so [Encode] is no longer derived. *)
Definition scale_derive_attr (o : nat) (names : list str) : option ink_attr :=
  attr_cast (fun _ => None) (AttrSyntax [lit "ink"; lit "scale_derive"] (Some (o + 19, paren_tree (named_tokens names))) (o, o + 22 + lens (named_tokens names))).
Theorem C51_existing_v5_refuted : exists U toks a x edit message range label x' a',
  scale_derive_attr 0 [lit "Encode"] = Some x /\ ad_ink a = [x] /\ provides V5 a AEncode
  /\ scale_diagnostic U toks V5 (lit "Error code") a = Some (message, (range, (label, edit)))
  /\ te_range edit = as_range (at_syntax x) /\ te_text edit = lit "#[ink::scale_derive(" ++ texts_of (named_tokens [lit "Decode"; lit "TypeInfo"]) ++ lit ")]"
  /\ scale_derive_attr 0 [lit "Decode"; lit "TypeInfo"] = Some x' /\ ad_ink a' = [x'] /\ same_but a a' /\ ad_attrs a' = ad_attrs a
  /\ ~ provides V5 a' AEncode.
Proof.
  destruct (scale_derive_attr 0 [lit "Encode"]) as [x|] eqn:Ex; [|discriminate]. destruct (scale_derive_attr 0 [lit "Decode"; lit "TypeInfo"]) as [x'|] eqn:Ex'; [|discriminate].
  exists ascii_unicode, [], (ex_type [] [x]), x. eexists _, _, _, _, x', (ex_type [] [x']).
  split; [reflexivity|]. split; [reflexivity|]. split.
  { right. left. split; [reflexivity|]. vm_compute in Ex. injection Ex as <-. eexists _, _. split; [left; reflexivity|]. split; [reflexivity|]. split; [left; reflexivity|reflexivity]. }
  split; [vm_compute in Ex; injection Ex as <-; vm_compute; reflexivity|]. split; [vm_compute in Ex; injection Ex as <-; reflexivity|].
  split; [reflexivity|]. split; [reflexivity|]. split; [reflexivity|]. split; [split; reflexivity|]. split; [reflexivity|].
  intros [(n & (y & b & ns & [] & _) & _)|[(_ & y & arg & [<-|[]] & _ & Harg & Ek)|C]]; [|discriminate].
  vm_compute in Ex'. injection Ex' as <-. cbn [at_args] in Harg. destruct Harg as [<-|[<-|[]]]; vm_compute in Ek; discriminate.
Qed.
Print Assumptions C51_existing_v5_refuted.

(** ink! 4: the list of [#[derive()]] becomes one that starts with a comma. *)
Theorem C51_empty_derive_refuted : exists U toks a x edit message range label new,
  ad_attrs a = [x] /\ derive_attr x [] /\ plain_item a
  /\ scale_diagnostic U toks V4 (lit "Error code") a = Some (message, (range, (label, edit)))
  /\ te_text edit = lit "#[derive(" ++ new ++ lit ")]" /\ ~ exists ns, well_listed new ns.
Proof.
  exists ascii_unicode, [], (ex_type [ex_attr_of 0 []] []), (ex_attr_of 0 []). eexists _, _, _, _, (lit ", scale::Encode, scale::Decode, scale_info::TypeInfo").
  split; [reflexivity|]. split; [split; [reflexivity|]; exists 8, []; split; [reflexivity|]; split; [constructor|reflexivity]|].
  split; [intros x [<-|[]]; apply flat_plain; constructor|]. split; [vm_compute; reflexivity|]. split; [vm_compute; reflexivity|].
  intros (ns & ps & x & E & Hc & Hs & _). assert (Hsp : split_char c_comma (comma_list (ps ++ [x])) = ps ++ [x]) by (apply split_comma_list; [destruct ps; discriminate|exact Hc]).
  rewrite <- E in Hsp. vm_compute in Hsp. destruct ps as [|p ps]; [discriminate|]. cbn [app] in Hsp. injection Hsp as <- _. apply (Hs []); [left; reflexivity|reflexivity].
Qed.
Print Assumptions C51_empty_derive_refuted.

(** Traits derived by a second [derive] attribute are reported as missing. *)
Definition all_three : list elem := path_toks "scale" "Encode" ++ tok_comma :: path_toks "scale" "Decode" ++ tok_comma :: path_toks "scale_info" "TypeInfo".
Theorem C75_second_derive_refuted : exists v a, plain_item a /\ names_by_text (ad_named a)
  /\ (forall k, In k scale_traits -> provides v a k) /\ missing_traits v a = [AEncode; ADecode; ATypeInfo].
Proof.
  exists V4, (ex_type [ex_attr_of 0 [word "Debug"]; ex_attr_of 20 all_three] []).
  split; [intros x [<-|[<-|[]]]; apply flat_plain; flat|]. split; [exact ex_named_ok|]. split; [|vm_compute; reflexivity].
  assert (Hl : lists_names (texts_of all_three) [lit "scale::Encode"; lit "scale::Decode"; lit "scale_info::TypeInfo"]).
  { exists [lit "scale::Encode"; lit "scale::Decode"; lit "scale_info::TypeInfo"]. split; [discriminate|]. split; [reflexivity|]. split; [|reflexivity].
    intros p Hp; repeat (destruct Hp as [<-|Hp]; [cbv; intuition discriminate|]); destruct Hp. }
  intros k Hk. left. exists (trait_path k). split; [|destruct Hk as [<-|[<-|[<-|[]]]]; reflexivity].
  exists (ex_attr_of 20 all_three), all_three. eexists. split; [right; left; reflexivity|]. split; [apply (standalone _ 28); reflexivity|]. split; [exact Hl|].
  destruct Hk as [<-|[<-|[<-|[]]]]; cbn; auto.
Qed.
Print Assumptions C75_second_derive_refuted.
(** One [derive] and one [cfg_attr]: [Encode] and [TypeInfo] are found, [Decode] is reported. *)
Definition ex_cfg_body : list elem := [word "feature"; tok_comma; sp; word "derive"; paren_tree (path_toks "scale_info" "TypeInfo")].
Definition ex_cfg : item_attr := ItemAttr (Some (lit "cfg_attr")) (Some (50, paren_tree ex_cfg_body)) (40, 90).
Example C75_example :
  let a := ex_type [ex_attr_of 0 debug_encode; ex_cfg] [] in
  plain_item a /\ at_most_one (attr_path_is (lit "derive")) (ad_attrs a) /\ at_most_one (attr_path_is (lit "cfg_attr")) (ad_attrs a)
  /\ missing_traits V4 a = [ADecode].
Proof.
  cbv zeta. split; [|split; [cbv; lia|split; [cbv; lia|vm_compute; reflexivity]]].
  intros x [<-|[<-|[]]]; [apply flat_plain; flat|]. intros t E. injection E as <-. exists 50, ex_cfg_body. split; [reflexivity|]. split.
  - repeat (apply Forall_cons; [constructor; discriminate|]). apply Forall_cons; [|apply Forall_nil]. apply (bal_tree (Tok L_PAREN (lit "(")) (path_toks "scale_info" "TypeInfo")); [|left; reflexivity]. apply flat_balanced. flat.
  - intros l k bl cs r E Hbl. unfold ex_cfg_body in E.
    assert (Hin : In (Node TOKEN_TREE cs) ex_cfg_body) by (unfold ex_cfg_body; rewrite E; apply in_or_app; right; right; apply in_or_app; right; left; reflexivity).
    cbn in Hin. repeat (destruct Hin as [C|Hin]; [try discriminate C|]); [|destruct Hin]. rewrite <- C. exists (path_toks "scale_info" "TypeInfo"). reflexivity.
Qed.
