(** Property C105 (a migrated manifest is consistent). *)
From Verif Require Import Base BaseFacts Unicode PositionModel TranslateModel VersionModel VersionSpec VersionProofs CommandModel CommandSpec CommandProofs CommandProps ManifestSpec.

(** After the migration no feature refers to one of the removed dependencies, if at most [scale/std] and [scale-info/std] for [std] did before. *)
Theorem C105_features_partial : forall doc doc' name, migrate_doc doc = Some doc' -> In name [lit "scale"; lit "scale-info"] -> only_std doc name ->
  value_at doc' (lit "dependencies") name = None /\ forall f s, lists doc' f s -> ~ refers_to name s.
Proof.
  intros doc doc' name H Hn Ho. destruct (C17_everything_else _ _ H) as ((S1 & S2) & _ & _ & _ & _ & _ & Hs & Hf & _).
  split; [destruct Hn as [<-|[<-|[]]]; assumption|]. intros f s (l & E & Hl) R.
  destruct (str_eqb f (lit "std")) eqn:Ef.
  - apply str_eqb_eq in Ef. subst f. rewrite Hs in E. destruct (value_at doc (lit "features") (lit "std")) as [t|] eqn:Et; [|discriminate].
    destruct t; try discriminate. injection E as <-. apply filter_In in Hl as [Hl Hk].
    destruct (Ho (lit "std") s) as [_ ->]; [eexists; split; eassumption | exact R|].
    destruct Hn as [<-|[<-|[]]]; vm_compute in Hk; discriminate.
  - apply str_eqb_neq in Ef. rewrite (Hf f Ef) in E. destruct (Ho f s) as [-> _]; [eexists; split; eassumption | exact R|]. apply Ef. reflexivity.
Qed.
(** References to other dependencies keep what they refer to. *)
Theorem C105_others : forall doc doc' name, migrate_doc doc = Some doc' -> ~ In name [lit "scale"; lit "scale-info"] ->
  well_founded_features doc name -> well_founded_features doc' name.
Proof.
  intros doc doc' name H Hn Hw (f & s & (l & E & Hl) & R). destruct (C17_everything_else _ _ H) as (_ & Hd & _ & _ & _ & _ & Hs & Hf & _).
  assert (X : exists v, value_at doc (lit "dependencies") name = Some v).
  { apply Hw. exists f, s. split; [|exact R]. destruct (str_eqb f (lit "std")) eqn:Ef.
    - apply str_eqb_eq in Ef. subst f. rewrite Hs in E. destruct (value_at doc (lit "features") (lit "std")) as [t|] eqn:Et; [|discriminate].
      destruct t; try discriminate. injection E as <-. apply filter_In in Hl as [Hl _]. eexists. split; eassumption.
    - apply str_eqb_neq in Ef. rewrite (Hf f Ef) in E. eexists. split; eassumption. }
  destruct X as (v & X). destruct (str_eqb name (lit "ink")) eqn:Ei.
  - apply str_eqb_eq in Ei. subst name. assert (D : depends doc (lit "ink") v).
    { unfold value_at in X. unfold depends. destruct (assoc (lit "dependencies") doc) as [t|]; [|discriminate]. destruct t; try discriminate. eexists. split; [reflexivity | exact X]. }
    destruct (C17_ink_entry _ _ _ H D) as (m & (deps & D1 & D2) & _). exists (TInline m). unfold value_at. rewrite D1. exact D2.
  - apply str_eqb_neq in Ei. exists v. rewrite Hd; [exact X|]. intros [<-|Y]; [apply Ei; reflexivity | apply Hn; exact Y].
Qed.

Definition all_values (feats : list (str * toml)) : list (str * str) :=
  flat_map (fun p => match snd p with TArr l => filter_map (fun t => match t with TStr s => Some (fst p, s) | _ => None end) l | _ => [] end) feats.
Lemma lists_values doc feats f s : assoc (lit "features") doc = Some (TTable feats) -> lists doc f s -> In (f, s) (all_values feats).
Proof.
  intros E (l & H & Hl). unfold value_at in H. rewrite E in H. clear E. induction feats as [|[k v] feats IH]; [discriminate|]. cbn [assoc] in H.
  unfold all_values. cbn [flat_map]. apply in_app_iff. destruct (str_eqb f k) eqn:Ek; [|right; apply IH, H].
  apply str_eqb_eq in Ek. subst k. injection H as ->. left. cbn [snd fst]. clear IH. induction l as [|t l IH]; [destruct Hl|]. cbn [filter_map].
  destruct Hl as [->|Hl]; [left; reflexivity|]. destruct t; try (apply IH, Hl). right. apply IH, Hl.
Qed.
Lemma refers_starts n s : refers_to n s -> starts_with n s = true \/ s = lit "dep:" ++ n.
Proof.
  intros [(f & ->)|[(f & ->)|[->| ->]]]; [left|left|right; reflexivity|left]; apply starts_with_app; eexists; [reflexivity | reflexivity | symmetry; apply app_nil_r].
Qed.
Lemma not_refers n s : starts_with n s = false -> str_eqb s (lit "dep:" ++ n) = false -> ~ refers_to n s.
Proof. intros H1 H2 R. apply refers_starts in R as [R|R]; [congruence|]. subst s. rewrite str_eqb_refl in H2. discriminate. Qed.

(** The usual manifest meets the conditions. *)
Example C105_case : only_std ex_manifest (lit "scale") /\ only_std ex_manifest (lit "scale-info") /\ lists ex_manifest (lit "std") (lit "scale/std")
  /\ (exists doc', migrate_doc ex_manifest = Some doc') /\ well_founded_features ex_manifest (lit "ink") /\ lists ex_manifest (lit "std") (lit "ink/std") /\ refers_to (lit "ink") (lit "ink/std").
Proof.
  assert (F : exists feats, assoc (lit "features") ex_manifest = Some (TTable feats) /\ all_values feats = [(lit "default", lit "std"); (lit "std", lit "ink/std"); (lit "std", lit "scale/std")])
    by (eexists; split; vm_compute; reflexivity).
  destruct F as (feats & F & V).
  assert (L : forall f s, lists ex_manifest f s -> (f, s) = (lit "default", lit "std") \/ (f, s) = (lit "std", lit "ink/std") \/ (f, s) = (lit "std", lit "scale/std")).
  { intros f s Hl. apply (lists_values _ _ _ _ F) in Hl. rewrite V in Hl. destruct Hl as [Hl|[Hl|[Hl|[]]]]; rewrite <- Hl; tauto. }
  split; [|split; [|split; [|split; [|split; [|split]]]]].
  - intros f s Hl Hr. apply L in Hl as [Hl|[Hl|Hl]]; injection Hl as -> ->; [exfalso; revert Hr; apply not_refers; vm_compute; reflexivity | exfalso; revert Hr; apply not_refers; vm_compute; reflexivity | split; reflexivity].
  - intros f s Hl Hr. apply L in Hl as [Hl|[Hl|Hl]]; injection Hl as -> ->; exfalso; revert Hr; apply not_refers; vm_compute; reflexivity.
  - eexists. split; [vm_compute; reflexivity | right; left; reflexivity].
  - eexists. vm_compute. reflexivity.
  - intros _. eexists. vm_compute. reflexivity.
  - eexists. split; [vm_compute; reflexivity | left; reflexivity].
  - left. exists (lit "std"). reflexivity.
Qed.

(** Finding: any other value that refers to [scale] stays although the dependency is removed, so that Cargo refuses the manifest. *)
Theorem C105_features_refuted : exists doc doc' f s, migrate_doc doc = Some doc' /\ well_founded_features doc (lit "scale")
  /\ lists doc' f s /\ refers_to (lit "scale") s /\ value_at doc' (lit "dependencies") (lit "scale") = None.
Proof.
  exists [(lit "dependencies", TTable [(lit "ink", TStr (lit "4.3.0")); (lit "scale", TStr (lit "3"))]);
          (lit "features", TTable [(lit "std", TArr [TStr (lit "scale/std")]); (lit "full", TArr [TStr (lit "scale/full")])])].
  eexists. exists (lit "full"), (lit "scale/full"). split; [vm_compute; reflexivity|].
  split; [intros _; eexists; vm_compute; reflexivity|]. split; [eexists; split; [vm_compute; reflexivity | left; reflexivity]|].
  split; [left; exists (lit "full"); reflexivity | vm_compute; reflexivity].
Qed.

(** Finding: the options of [ink_e2e] are lost, those of [ink] are not. *)
Theorem C105_options_refuted : exists doc doc' m k v, migrate_doc doc = Some doc' /\ value_at doc (lit "dev-dependencies") (lit "ink_e2e") = Some (TInline m)
  /\ k <> lit "version" /\ assoc k m = Some v /\ exists dep, value_at doc' (lit "dev-dependencies") (lit "ink_e2e") = Some dep /\ assoc k (entry_keys dep) = None.
Proof.
  exists [(lit "dependencies", TTable [(lit "ink", TStr (lit "4.3.0"))]);
          (lit "dev-dependencies", TTable [(lit "ink_e2e", TInline [(lit "version", TStr (lit "4.3.0")); (lit "features", TArr [TStr (lit "sandbox")])])])].
  eexists. eexists. exists (lit "features"), (TArr [TStr (lit "sandbox")]). split; [vm_compute; reflexivity|]. split; [vm_compute; reflexivity|].
  split; [intros E; vm_compute in E; discriminate E|]. split; [vm_compute; reflexivity|]. eexists. split; vm_compute; reflexivity.
Qed.
(** Finding: [ink_e2e] is looked for in [dev-dependencies] only; elsewhere it keeps its version. *)
Theorem C105_elsewhere_refuted : exists doc doc', migrate_doc doc = Some doc' /\ value_at doc' (lit "dependencies") (lit "ink_e2e") = Some (TStr (lit "4.3.0")).
Proof.
  exists [(lit "dependencies", TTable [(lit "ink", TStr (lit "4.3.0")); (lit "ink_e2e", TStr (lit "4.3.0"))])].
  eexists. split; vm_compute; reflexivity.
Qed.
(** Finding: dependencies written as an inline table are refused, although the version of the project is read from them. *)
Theorem C105_inline_refuted : exists doc, migrate_doc doc = None
  /\ forall parse f p text, fs_is_file f p = true -> fs_read f p = Some text -> parse text = Some doc ->
       parse_inner parse f p false = Some (InkVersion (Some (lit "4.3.0")) None None false).
Proof.
  exists [(lit "dependencies", TInline [(lit "ink", TStr (lit "4.3.0"))])]. split; [vm_compute; reflexivity|].
  intros parse f p text Hf Hr Hp. unfold parse_inner. rewrite Hf, Hr, Hp. vm_compute. reflexivity.
Qed.

Print Assumptions C105_features_partial.
Print Assumptions C105_others.
Print Assumptions C105_features_refuted.
Print Assumptions C105_options_refuted.
Print Assumptions C105_elsewhere_refuted.
Print Assumptions C105_inline_refuted.
