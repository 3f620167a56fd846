From Verif Require Import Base BaseFacts Unicode PositionModel PositionSpec PositionProofs PositionProps TranslateModel TranslateProofs VersionModel VersionSpec VersionProofs CommandModel CommandSpec.

(** * Association lists *)
Lemma assoc_set_id {A} k (v : A) m : assoc k m = Some v -> assoc_set k v m = m.
Proof.
  induction m as [|[k' v'] m IH]; simpl; [discriminate|].
  destruct (str_eqb k k') eqn:E.
  - intros H. injection H as ->. apply str_eqb_eq in E. subst. reflexivity.
  - intros H. rewrite IH by exact H. reflexivity.
Qed.
Lemma assoc_del_same {A} k (m : list (str * A)) : assoc k (assoc_del k m) = None.
Proof.
  induction m as [|[k' v'] m IH]; [reflexivity|]. unfold assoc_del in *; cbn [filter fst].
  destruct (str_eqb k k') eqn:E; cbn [negb]; [exact IH|]. cbn [assoc]. rewrite E. exact IH.
Qed.
Lemma assoc_del_other {A} k k' (m : list (str * A)) : k <> k' -> assoc k' (assoc_del k m) = assoc k' m.
Proof.
  intros H. induction m as [|[k0 v0] m IH]; [reflexivity|]. unfold assoc_del in *; cbn [filter fst].
  destruct (str_eqb k k0) eqn:E; cbn [negb]; cbn [assoc].
  - apply str_eqb_eq in E. subst k0. rewrite (proj2 (str_eqb_neq k' k)) by congruence. exact IH.
  - destruct (str_eqb k' k0); [reflexivity | exact IH].
Qed.
Lemma assoc_del_id {A} k (m : list (str * A)) : assoc k m = None -> assoc_del k m = m.
Proof.
  induction m as [|[k' v'] m IH]; [reflexivity|]. cbn [assoc]. unfold assoc_del in *; cbn [filter fst].
  destruct (str_eqb k k') eqn:E; [discriminate|]. intros H. cbn [negb]. rewrite IH by exact H. reflexivity.
Qed.
Lemma assoc_set_keys {A} k (v : A) m : is_some (assoc k m) = true -> map fst (assoc_set k v m) = map fst m.
Proof.
  induction m as [|[k' v'] m IH]; simpl; [discriminate|].
  destruct (str_eqb k k') eqn:E; cbn [map fst].
  - apply str_eqb_eq in E. subst. reflexivity.
  - intros H. rewrite IH by exact H. reflexivity.
Qed.
Lemma assoc_del_keys {A} k (m : list (str * A)) :
  map fst (assoc_del k m) = filter (fun x => negb (str_eqb k x)) (map fst m).
Proof.
  unfold assoc_del. induction m as [|[k' v'] m IH]; [reflexivity|]. cbn [filter map fst].
  destruct (str_eqb k k'); cbn [negb map fst]; rewrite <- IH; reflexivity.
Qed.
Lemma assoc_map {A B} (g : A -> B) k m : assoc k (map (fun p => (fst p, g (snd p))) m) = option_map g (assoc k m).
Proof. induction m as [|[k' v'] m IH]; [reflexivity|]. cbn [map assoc fst snd]. destruct (str_eqb k k'); [reflexivity | exact IH]. Qed.

Ltac keyneq := let H := fresh in intros H; vm_compute in H; discriminate.

(** * Manifest migration *)
Lemma to_inline_entries m : to_inline (TTable m) = TInline (inline_entries m).
Proof. cbn [to_inline]. f_equal. induction m as [|[k v] m IH]; [reflexivity|]. cbn. f_equal. exact IH. Qed.

Definition dep_entries (dep : toml) : list (str * toml) :=
  match dep with TTable m => inline_entries m | TInline m => m | _ => [] end.

Lemma new_ink_dep_shape dep : exists m', new_ink_dep dep = TInline m'
  /\ assoc (lit "version") m' = Some V500
  /\ assoc (lit "default-features") m' =
       match assoc (lit "default-features") (dep_entries dep) with Some v => Some v | None => Some (TBool false) end
  /\ forall k, k <> lit "version" -> k <> lit "default-features" -> assoc k m' = assoc k (dep_entries dep).
Proof.
  assert (Hdf : forall m k, assoc k (default_features m) =
     if str_eqb k (lit "default-features") then
       match assoc (lit "default-features") m with Some v => Some v | None => Some (TBool false) end
     else assoc k m).
  { intros m k. unfold default_features, has_key.
    destruct (str_eqb k (lit "default-features")) eqn:E.
    - apply str_eqb_eq in E. subst k. destruct (assoc (lit "default-features") m) eqn:Ea; cbn [is_some]; [exact Ea|].
      apply assoc_set_same.
    - destruct (assoc (lit "default-features") m); cbn [is_some]; [reflexivity|].
      apply assoc_set_other. apply str_eqb_neq in E. congruence. }
  assert (Hcore : forall m, let m' := default_features (assoc_set (lit "version") V500 m) in
     assoc (lit "version") m' = Some V500
     /\ assoc (lit "default-features") m' =
       match assoc (lit "default-features") m with Some v => Some v | None => Some (TBool false) end
     /\ forall k, k <> lit "version" -> k <> lit "default-features" -> assoc k m' = assoc k m).
  { intros m m'. subst m'. split; [|split].
    - rewrite Hdf. change (str_eqb (lit "version") (lit "default-features")) with false. apply assoc_set_same.
    - rewrite Hdf, str_eqb_refl. rewrite assoc_set_other by keyneq. reflexivity.
    - intros k H1 H2. rewrite Hdf, (proj2 (str_eqb_neq k _) H2). apply assoc_set_other. congruence. }
  assert (Hother : exists m', TInline [(lit "version", V500); (lit "default-features", TBool false)] = TInline m'
     /\ assoc (lit "version") m' = Some V500
     /\ assoc (lit "default-features") m' = Some (TBool false)
     /\ forall k, k <> lit "version" -> k <> lit "default-features" -> assoc k m' = None).
  { eexists. split; [reflexivity|]. split; [reflexivity|]. split; [reflexivity|].
    intros k H1 H2. cbn [assoc]. rewrite (proj2 (str_eqb_neq k _) H1), (proj2 (str_eqb_neq k _) H2). reflexivity. }
  destruct dep as [s|b|z|l|m|m|s]; cbn [new_ink_dep dep_entries]; try exact Hother.
  - eexists. split; [reflexivity | apply Hcore].
  - eexists. split; [reflexivity|]. destruct (Hcore m) as [H1 [H2 H3]]. unfold inline_entries. rewrite !assoc_map.
    rewrite H1, H2. split; [reflexivity|]. split.
    + destruct (assoc (lit "default-features") m); reflexivity.
    + intros k K1 K2. rewrite !assoc_map, H3 by assumption. reflexivity.
Qed.

Lemma new_ink_dep_idem dep : new_ink_dep (new_ink_dep dep) = new_ink_dep dep.
Proof.
  destruct (new_ink_dep_shape dep) as [m' [-> [H1 [H2 _]]]]. cbn [new_ink_dep].
  rewrite assoc_set_id by exact H1. unfold default_features, has_key. rewrite H2.
  destruct (assoc (lit "default-features") (dep_entries dep)); reflexivity.
Qed.

Lemma dev_deps_assoc doc k : k <> lit "dev-dependencies" -> assoc k (migrate_dev_deps doc) = assoc k doc.
Proof.
  intros H. unfold migrate_dev_deps. destruct (as_table _) as [m|]; [|reflexivity].
  destruct (has_key _ m); [|reflexivity]. apply assoc_set_other. congruence.
Qed.
Lemma features_assoc doc k : k <> lit "features" -> assoc k (migrate_features doc) = assoc k doc.
Proof.
  intros H. unfold migrate_features. destruct (as_table _) as [m|]; [|reflexivity].
  destruct (assoc _ m) as [[ | | | | | | ]|]; try reflexivity. apply assoc_set_other. congruence.
Qed.
Lemma as_table_some t m : as_table t = Some m -> t = Some (TTable m).
Proof. destruct t as [[]|]; simpl; intros H; try discriminate. injection H as ->. reflexivity. Qed.

Lemma dev_deps_own doc :
  assoc (lit "dev-dependencies") (migrate_dev_deps doc) =
  match assoc (lit "dev-dependencies") doc with
  | Some (TTable m) => Some (TTable (if has_key (lit "ink_e2e") m then assoc_set (lit "ink_e2e") V500 m else m))
  | x => x
  end.
Proof.
  unfold migrate_dev_deps. destruct (assoc (lit "dev-dependencies") doc) as [t|] eqn:E; [|cbn; exact E].
  destruct t; cbn [as_table]; try exact E. destruct (has_key _ m); [apply assoc_set_same | exact E].
Qed.
Lemma features_own doc :
  assoc (lit "features") (migrate_features doc) =
  match assoc (lit "features") doc with
  | Some (TTable m) => Some (TTable match assoc (lit "std") m with
                                    | Some (TArr l) => assoc_set (lit "std") (TArr (filter keep_feature l)) m
                                    | _ => m end)
  | x => x
  end.
Proof.
  unfold migrate_features. destruct (assoc (lit "features") doc) as [t|] eqn:E; [|cbn; exact E].
  destruct t; cbn [as_table]; try exact E. destruct (assoc (lit "std") m) as [[ | | | | | | ]|]; try exact E.
  apply assoc_set_same.
Qed.

Lemma dev_deps_idem doc : 
  assoc (lit "dev-dependencies") doc = assoc (lit "dev-dependencies") (migrate_dev_deps doc) -> migrate_dev_deps doc = doc.
Proof.
  rewrite dev_deps_own. unfold migrate_dev_deps.
  destruct (assoc (lit "dev-dependencies") doc) as [t|] eqn:E; [|reflexivity]. destruct t; cbn [as_table]; try reflexivity.
  destruct (has_key _ m) eqn:Ek; [|reflexivity]. intros H. injection H as H. apply assoc_set_id. congruence.
Qed.
Lemma features_idem doc :
  assoc (lit "features") doc = assoc (lit "features") (migrate_features doc) -> migrate_features doc = doc.
Proof.
  rewrite features_own. unfold migrate_features.
  destruct (assoc (lit "features") doc) as [t|] eqn:E; [|reflexivity]. destruct t; cbn [as_table]; try reflexivity.
  destruct (assoc (lit "std") m) as [[ | | | | | | ]|] eqn:Es; try reflexivity. intros H. injection H as H.
  apply assoc_set_id. rewrite <- H. exact E.
Qed.

Lemma filter_idem {A} (p : A -> bool) l : filter p (filter p l) = filter p l.
Proof. induction l as [|x l IH]; [reflexivity|]. simpl. destruct (p x) eqn:E; [simpl; rewrite E, IH; reflexivity | exact IH]. Qed.
Lemma assoc_del_idem {A} k (m : list (str * A)) : assoc_del k (assoc_del k m) = assoc_del k m.
Proof. apply filter_idem. Qed.

Definition new_deps (dep : toml) (deps : list (str * toml)) : list (str * toml) :=
  assoc_del (lit "scale-info") (assoc_del (lit "scale") (assoc_set (lit "ink") (new_ink_dep dep) deps)).

Lemma migrate_doc_eq doc doc' :
  migrate_doc doc = Some doc' <->
  exists deps dep, assoc (lit "dependencies") doc = Some (TTable deps) /\ assoc (lit "ink") deps = Some dep
    /\ doc' = migrate_features (migrate_dev_deps (assoc_set (lit "dependencies") (TTable (new_deps dep deps)) doc)).
Proof.
  unfold migrate_doc. split.
  - destruct (as_table (assoc (lit "dependencies") doc)) as [deps|] eqn:E; [|discriminate].
    apply as_table_some in E. destruct (assoc (lit "ink") deps) as [dep|] eqn:E2; [|discriminate].
    intros H. injection H as <-. exists deps, dep. auto.
  - intros [deps [dep [-> [H ->]]]]. cbn [as_table]. rewrite H. reflexivity.
Qed.

Lemma new_deps_ink dep deps : assoc (lit "ink") (new_deps dep deps) = Some (new_ink_dep dep).
Proof. unfold new_deps. rewrite !assoc_del_other by keyneq. apply assoc_set_same. Qed.
Lemma new_deps_scale dep deps : assoc (lit "scale") (new_deps dep deps) = None /\ assoc (lit "scale-info") (new_deps dep deps) = None.
Proof.
  unfold new_deps. split; [|apply assoc_del_same]. rewrite assoc_del_other by keyneq. apply assoc_del_same.
Qed.
Lemma new_deps_other dep deps k : k <> lit "ink" -> k <> lit "scale" -> k <> lit "scale-info" ->
  assoc k (new_deps dep deps) = assoc k deps.
Proof.
  intros H1 H2 H3. unfold new_deps. rewrite !assoc_del_other by congruence. apply assoc_set_other. congruence.
Qed.
Lemma new_deps_idem dep deps : new_deps (new_ink_dep dep) (new_deps dep deps) = new_deps dep deps.
Proof.
  unfold new_deps at 1. rewrite new_ink_dep_idem, assoc_set_id by apply new_deps_ink.
  rewrite !assoc_del_id; [reflexivity|apply new_deps_scale|rewrite assoc_del_id; apply new_deps_scale].
Qed.

Lemma migrate_idem doc doc' : migrate_doc doc = Some doc' -> migrate_doc doc' = Some doc'.
Proof.
  intros H. apply migrate_doc_eq in H as [deps [dep [H1 [H2 ->]]]].
  set (doc1 := assoc_set (lit "dependencies") (TTable (new_deps dep deps)) doc).
  set (doc2 := migrate_dev_deps doc1). set (doc3 := migrate_features doc2).
  assert (Hd : assoc (lit "dependencies") doc3 = Some (TTable (new_deps dep deps))).
  { subst doc3 doc2 doc1. rewrite features_assoc, dev_deps_assoc by keyneq. apply assoc_set_same. }
  apply migrate_doc_eq. exists (new_deps dep deps), (new_ink_dep dep).
  split; [exact Hd|]. split; [apply new_deps_ink|].
  rewrite new_deps_idem, (assoc_set_id _ _ doc3 Hd).
  assert (E2 : migrate_dev_deps doc3 = doc3).
  { apply dev_deps_idem. rewrite dev_deps_own. subst doc3. rewrite features_assoc by keyneq. subst doc2.
    rewrite dev_deps_own. destruct (assoc (lit "dev-dependencies") doc1) as [[ | | | | |m| ]|]; try reflexivity.
    do 2 f_equal. destruct (has_key (lit "ink_e2e") m) eqn:Ek.
    - unfold has_key. rewrite assoc_set_same. cbn [is_some]. symmetry. apply assoc_set_id. apply assoc_set_same.
    - rewrite Ek. reflexivity. }
  rewrite E2. symmetry. apply features_idem. rewrite features_own. subst doc3. rewrite features_own.
  destruct (assoc (lit "features") doc2) as [[ | | | | |m| ]|]; try reflexivity.
  do 2 f_equal. destruct (assoc (lit "std") m) as [[ | | |l| | | ]|] eqn:Es; try (rewrite Es; reflexivity).
  rewrite assoc_set_same, filter_idem. symmetry. apply assoc_set_id. apply assoc_set_same.
Qed.

(** * Package names *)
Definition not_hyphen (c : char) : bool := negb (N.eqb c c_hyphen).
Fixpoint nd (prev : bool) (s : str) : bool :=
  match s with
  | [] => true
  | c :: s' => if N.eqb c c_hyphen then negb prev && nd true s' else nd false s'
  end.
Lemma nd_weaken s : forall b, nd true s = true -> nd b s = true.
Proof. destruct s as [|c s]; intros b; [reflexivity|]. simpl. destruct (N.eqb c c_hyphen); [discriminate | auto]. Qed.
Lemma nd_app a : forall p b, nd p (a ++ b) = true -> nd p a = true.
Proof.
  induction a as [|c a IH]; intros p b H; [reflexivity|]. simpl in *. destruct (N.eqb c c_hyphen).
  - apply andb_true_iff in H as [H1 H2]. rewrite H1. apply (IH true b H2).
  - apply (IH false b H).
Qed.
Lemma nd_no_double s : nd false s = true -> ~ exists a b, s = a ++ lit "--" ++ b.
Proof.
  intros H [a [b E]]. rewrite E in H. clear E.
  enough (K : forall p, nd p (a ++ lit "--" ++ b) <> true) by exact (K false H). clear H s.
  induction a as [|c a IH]; intros p H.
  - change (lit "--") with [c_hyphen; c_hyphen] in H. cbn [app nd] in H.
    destruct p; vm_compute in H; discriminate.
  - cbn [app nd] in H. destruct (N.eqb c c_hyphen).
    + apply andb_true_iff in H as [_ H]. apply (IH true H).
    + apply (IH false H).
Qed.
Lemma nd_free l s : l <> [] -> ~ In c_hyphen l -> forall p, nd p (l ++ s) = nd false s.
Proof.
  induction l as [|c l IH]; intros Hl Hn p; [congruence|]. cbn [app nd].
  assert (Hc : N.eqb c c_hyphen = false) by (apply N.eqb_neq; intros ->; apply Hn; left; reflexivity).
  rewrite Hc. destruct l as [|d l]; [reflexivity|]. apply IH; [discriminate|]. intros H; apply Hn; right; exact H.
Qed.

Section PackageName.
  Variable U : unicode.
  Hypothesis HU : unicode_ok U.

  Definition pn_char (c : char) : Prop := c = c_hyphen \/ u_alphanumeric U c = true.

  Lemma hyphen_not_alnum : u_alphanumeric U c_hyphen = false.
  Proof. rewrite (uo_alphanumeric U HU) by reflexivity. reflexivity. Qed.
  Lemma alnum_not_hyphen c : u_alphanumeric U c = true -> N.eqb c c_hyphen = false.
  Proof. intros H. apply N.eqb_neq. intros ->. rewrite hyphen_not_alnum in H. discriminate. Qed.
  Lemma not_alnum_not_upper c : u_alphanumeric U c = false -> u_uppercase U c = false.
  Proof. intros H. destruct (u_uppercase U c) eqn:E; [|reflexivity]. rewrite (uo_upper_alnum U HU c E) in H. discriminate. Qed.

  Lemma pn_loop_chars s : forall f u h, Forall pn_char (pn_loop U f u h s).
  Proof.
    induction s as [|c s IH]; intros f u h; [constructor|]. cbn [pn_loop].
    assert (Hpre : forall b : bool, Forall pn_char (if b then [c_hyphen] else [])).
    { intros []; constructor; [left; reflexivity | constructor]. }
    destruct (u_alphanumeric U c) eqn:E; [|destruct (negb h)]; apply Forall_app; split; try apply Hpre; auto;
      constructor; auto; [right; exact E | left; reflexivity].
  Qed.
  Lemma pn_loop_nd s : forall f u h, nd h (pn_loop U f u h s) = true.
  Proof.
    induction s as [|c s IH]; intros f u h; [reflexivity|]. cbn [pn_loop].
    destruct (u_alphanumeric U c) eqn:E.
    - destruct (negb f && u_uppercase U c && negb u && negb h) eqn:Ep.
      + apply andb_true_iff in Ep as [_ Eh]. cbn [app nd]. rewrite N.eqb_refl, Eh, (alnum_not_hyphen c E). apply IH.
      + cbn [app nd]. rewrite (alnum_not_hyphen c E). apply IH.
    - rewrite (not_alnum_not_upper c E), andb_false_r. cbn [andb app].
      destruct h; cbn [negb]; [apply IH|]. cbn [nd]. rewrite N.eqb_refl. apply IH.
  Qed.
  Lemma pn_loop_content s : forall f u h,
    filter not_hyphen (pn_loop U f u h s) = filter (u_alphanumeric U) s.
  Proof.
    induction s as [|c s IH]; intros f u h; [reflexivity|]. cbn [pn_loop filter].
    assert (Hpre : forall (b : bool) l, filter not_hyphen ((if b then [c_hyphen] else []) ++ l)
       = filter not_hyphen l) by (intros [] l; reflexivity).
    destruct (u_alphanumeric U c) eqn:E; [|destruct (negb h)]; rewrite Hpre; cbn [filter].
    - unfold not_hyphen at 1. rewrite (alnum_not_hyphen c E). cbn [negb]. rewrite IH. reflexivity.
    - change (not_hyphen c_hyphen) with false. apply IH.
    - apply IH.
  Qed.

  Lemma lower_hyphen : u_lower U c_hyphen = [c_hyphen].
  Proof. rewrite (uo_lower U HU) by reflexivity. reflexivity. Qed.
  Lemma lower_nd l : Forall pn_char l -> forall p, nd p (flat_map (u_lower U) l) = nd p l.
  Proof.
    induction 1 as [|c l Hc Hl IH]; intros p; [reflexivity|]. cbn [flat_map nd].
    destruct Hc as [->|Hc].
    - rewrite lower_hyphen, N.eqb_refl. cbn [app nd]. rewrite N.eqb_refl, IH. reflexivity.
    - rewrite (alnum_not_hyphen c Hc), nd_free; [apply IH | apply (uo_lower_nonempty U HU c Hc) | apply (uo_lower_hyphen U HU c Hc)].
  Qed.
  Lemma lower_content l : Forall pn_char l ->
    filter not_hyphen (flat_map (u_lower U) l)
    = flat_map (u_lower U) (filter not_hyphen l).
  Proof.
    induction 1 as [|c l Hc Hl IH]; [reflexivity|]. cbn [flat_map filter]. rewrite filter_app, IH.
    destruct Hc as [->|Hc].
    - rewrite lower_hyphen. reflexivity.
    - unfold not_hyphen at 3. rewrite (alnum_not_hyphen c Hc). cbn [negb flat_map]. f_equal.
      pose proof (uo_lower_hyphen U HU c Hc) as Hn. induction (u_lower U c) as [|d r IHr]; [reflexivity|].
      cbn [filter]. unfold not_hyphen at 1. rewrite (proj2 (N.eqb_neq d c_hyphen)) by (intros ->; apply Hn; left; reflexivity).
      cbn [negb]. f_equal. apply IHr. intros H; apply Hn; right; exact H.
  Qed.
End PackageName.

Lemma drop_hyphens_split s : exists h, s = h ++ drop_hyphens s /\ Forall (eq c_hyphen) h.
Proof.
  induction s as [|c s [h [H1 H2]]]; [exists []; split; [reflexivity | constructor]|]. cbn [drop_hyphens].
  destruct (N.eqb c c_hyphen) eqn:E.
  - apply N.eqb_eq in E. subst c. exists (c_hyphen :: h). split; [cbn [app]; congruence | constructor; auto].
  - exists []. split; [reflexivity | constructor].
Qed.
Lemma drop_hyphens_hd s c r : drop_hyphens s = c :: r -> c <> c_hyphen.
Proof.
  induction s as [|d s IH]; cbn [drop_hyphens]; [discriminate|]. destruct (N.eqb d c_hyphen) eqn:E; [exact IH|].
  intros H. injection H as -> _. apply N.eqb_neq. exact E.
Qed.
Lemma trim_end_split s : exists h, s = trim_end_hyphens s ++ h /\ Forall (eq c_hyphen) h.
Proof.
  destruct (drop_hyphens_split (rev s)) as [h [H1 H2]]. exists (rev h). split; [|apply Forall_rev; exact H2].
  unfold trim_end_hyphens. rewrite <- rev_app_distr, <- H1, rev_involutive. reflexivity.
Qed.
Lemma trim_end_last s a : trim_end_hyphens s <> a ++ [c_hyphen].
Proof.
  unfold trim_end_hyphens. intros H. destruct (drop_hyphens (rev s)) as [|c r] eqn:E.
  - destruct a; discriminate.
  - cbn [rev] in H. apply app_inj_tail in H as [_ H]. eapply drop_hyphens_hd; eassumption.
Qed.
Lemma filter_hyphens h : Forall (eq c_hyphen) h -> filter not_hyphen h = [].
Proof. induction 1 as [|c h <- Hh IH]; [reflexivity|]. cbn [filter]. change (not_hyphen c_hyphen) with false. exact IH. Qed.

Lemma package_name_spec U name pkg crate : unicode_ok U -> package_name U name = Some (pkg, crate) ->
  (exists c r, pkg = c :: r /\ u_alphabetic U c = true)
  /\ (forall a, pkg <> a ++ [c_hyphen])
  /\ (~ exists a b, pkg = a ++ lit "--" ++ b)
  /\ filter not_hyphen pkg = flat_map (u_lower U) (filter (u_alphanumeric U) name)
  /\ crate = map (fun c => if N.eqb c c_hyphen then c_underscore else c) pkg.
Proof.
  intros HU. unfold package_name.
  destruct (negb (existsb _ name)); [discriminate|]. destruct name as [|c name]; [discriminate|].
  destruct (u_alphabetic U c) eqn:Ea; [|discriminate].
  generalize (eq_refl (flat_map (u_lower U) (pn_loop U true false false (c :: name)))).
  generalize (flat_map (u_lower U) (pn_loop U true false false (c :: name))) at 1 3 4. intros full Efull H.
  injection H as <- <-.
  pose proof (pn_loop_chars U (c :: name) true false false) as Hch.
  pose proof (pn_loop_nd U HU (c :: name) true false false) as Hnd.
  pose proof (pn_loop_content U HU (c :: name) true false false) as Hco.
  rewrite <- (lower_nd U HU _ Hch) in Hnd.
  pose proof (lower_content U HU _ Hch) as Hlo. rewrite Hco in Hlo.
  rewrite <- Efull in Hnd, Hlo.
  destruct (trim_end_split full) as [h [H1 H2]].
  split; [|split; [|split; [|split; [|reflexivity]]]].
  - destruct (uo_lower_alpha U HU c Ea) as [d [r [Hd1 Hd2]]].
    assert (Hfull : exists r', full = d :: r').
    { rewrite Efull. cbn [pn_loop]. rewrite (uo_alpha_alnum U HU c Ea). cbn [negb andb app flat_map]. rewrite Hd1.
      eexists. reflexivity. }
    destruct Hfull as [r' Hfull].
    destruct (trim_end_hyphens full) as [|x l].
    + exfalso. cbn [app] in H1. rewrite <- H1, Hfull in H2. apply Forall_inv in H2. subst d.
      rewrite (uo_alphabetic U HU) in Hd2 by reflexivity. discriminate.
    + rewrite Hfull in H1. cbn [app] in H1. injection H1 as K _. exists x, l. split; [reflexivity | congruence].
  - intros a. apply trim_end_last.
  - apply nd_no_double. apply (nd_app _ false h). rewrite <- H1. exact Hnd.
  - rewrite <- Hlo. transitivity (filter not_hyphen (trim_end_hyphens full ++ h)); [|rewrite <- H1; reflexivity].
    rewrite filter_app, (filter_hyphens h H2), app_nil_r. reflexivity.
Qed.

Lemma package_name_none U name : unicode_ok U ->
  (package_name U name = None <-> forall c r, name = c :: r -> u_alphabetic U c = false).
Proof.
  intros HU. unfold package_name. split.
  - intros H c r ->. destruct (u_alphabetic U c) eqn:E; [|reflexivity]. exfalso. revert H.
    cbn [existsb]. rewrite (uo_alpha_alnum U HU c E). discriminate.
  - intros H. destruct (negb (existsb _ name)); [reflexivity|]. destruct name as [|c r]; [reflexivity|].
    rewrite (H c r eq_refl). reflexivity.
Qed.

(** * Directory choice *)
Definition nth_dir (name : str) (k : nat) : str := match k with 0 => name | _ => name ++ dec (N.of_nat k) end.
Lemma free_dir_spec f dir name fuel : forall count,
  exists k, count <= k <= count + fuel /\ free_dir f dir name count fuel = nth_dir name k
    /\ (forall j, count <= j < k -> fs_exists f (nth_dir name j :: dir) = true)
    /\ (k < count + fuel -> fs_exists f (nth_dir name k :: dir) = false).
Proof.
  induction fuel as [|fuel IH]; intros count; cbn [free_dir]; fold (nth_dir name count).
  - exists count. split; [lia|]. split; [reflexivity|]. split; intros; lia.
  - destruct (fs_exists f (nth_dir name count :: dir)) eqn:E.
    + destruct (IH (S count)) as [k [H1 [H2 [H3 H4]]]]. exists k. split; [lia|]. split; [exact H2|]. split.
      * intros j Hj. destruct (Nat.eq_dec j count) as [->|Hne]; [exact E | apply H3; lia].
      * intros Hk. apply H4. lia.
    + exists count. split; [lia|]. split; [reflexivity|]. split; [intros; lia | intros _; exact E].
Qed.
Lemma event_package_dir_spec f dir name d :
  event_package_dir f dir name = Some d <->
  exists k, k <= 10 /\ d = nth_dir name k /\ fs_exists f (d :: dir) = false
    /\ forall j, j < k -> fs_exists f (nth_dir name j :: dir) = true.
Proof.
  unfold event_package_dir. destruct (free_dir_spec f dir name 10 0) as [k [H1 [H2 [H3 H4]]]]. rewrite H2.
  destruct (fs_exists f (nth_dir name k :: dir)) eqn:E.
  - split; [discriminate|]. intros [k' [K1 [-> [K2 K3]]]].
    destruct (Nat.lt_ge_cases k 10) as [Hlt|Hge]; [discriminate H4; lia|].
    assert (k = 10) by lia. subst k. destruct (Nat.eq_dec k' 10) as [->|Hne]; [congruence|].
    rewrite (H3 k') in K2 by lia. discriminate.
  - split.
    + intros H. injection H as <-. exists k. split; [lia|]. split; [reflexivity|]. split; [exact E|]. intros j Hj. apply H3. lia.
    + intros [k' [K1 [-> [K2 K3]]]]. f_equal.
      destruct (Nat.lt_trichotomy k k') as [Hlt|[->|Hlt]]; [|reflexivity|].
      * rewrite (K3 k Hlt) in E. discriminate.
      * rewrite (H3 k') in K2 by lia. discriminate.
Qed.

(** * ASCII package names *)
Lemma ascii_lower_ok c : ascii_alnum c = true -> ascii_lower (to_ascii_lower c) = true \/ ascii_digit (to_ascii_lower c) = true.
Proof.
  unfold ascii_alnum, ascii_alpha, to_ascii_lower. destruct (ascii_upper c) eqn:E.
  - intros _. left. unfold ascii_upper in E. apply andb_true_iff in E as [E1 E2]. rewrite N.leb_le in E1, E2.
    unfold ascii_lower. rewrite andb_true_iff, !N.leb_le. lia.
  - cbn [orb]. rewrite orb_true_iff. auto.
Qed.
Lemma package_name_ascii U name pkg crate : unicode_ok U -> Forall (fun c => (c < 128)%N) name ->
  package_name U name = Some (pkg, crate) ->
  Forall (fun c => ascii_lower c = true \/ ascii_digit c = true \/ c = c_hyphen) pkg.
Proof.
  intros HU Ha H. apply (package_name_spec U name pkg crate HU) in H as [_ [_ [_ [H _]]]].
  apply Forall_forall. intros c Hc. destruct (N.eq_dec c c_hyphen) as [->|Hne]; [auto|].
  assert (Hin : In c (filter not_hyphen pkg)).
  { apply filter_In. split; [exact Hc|]. unfold not_hyphen. rewrite (proj2 (N.eqb_neq c c_hyphen) Hne). reflexivity. }
  rewrite H in Hin. apply in_flat_map in Hin as [d [Hd1 Hd2]]. apply filter_In in Hd1 as [Hd1 Hd3].
  rewrite Forall_forall in Ha. specialize (Ha d Hd1).
  rewrite (uo_lower U HU d Ha) in Hd2. rewrite (uo_alphanumeric U HU d Ha) in Hd3.
  destruct Hd2 as [<-|[]]. destruct (ascii_lower_ok d Hd3); auto.
Qed.

(** * The extraction handler *)
Lemma find_cargo_toml_dir f p c : fs_is_file f [] = false -> find_cargo_toml f p = Some c -> exists dir, c = CARGO_TOML :: dir.
Proof.
  intros Hr H. destruct p as [|x d].
  - unfold find_cargo_toml in H. cbn [set_file_name find_up path_pop] in H.
    destruct (fs_is_file f [CARGO_TOML]) eqn:E.
    + rewrite E in H. injection H as <-. exists []. reflexivity.
    + rewrite Hr in H. discriminate.
  - apply find_cargo_toml_spec in H as [k [_ [-> _]]]. eexists. reflexivity.
Qed.

Lemma extract_ok P U ex f snaps enc u range r : fs_is_file f [] = false ->
  handle_extract_event P U ex f snaps enc u range = HOk r ->
  exists sn e p dir d crate,
    assoc u snaps = Some sn /\ ex (sn_text sn) (sn_lang sn) range = Done (Some e)
    /\ pf_to_path P u = Some p /\ find_cargo_toml f p = Some (CARGO_TOML :: dir)
    /\ package_name U (ex_name e) = Some (er_name r, crate)
    /\ event_package_dir f dir (er_name r) = Some d
    /\ (exists cu lu, pf_from_path P (CARGO_TOML :: d :: dir) = Some cu
         /\ pf_from_path P (lit "lib.rs" :: lit "src" :: d :: dir) = Some lu
         /\ er_files r = [(lu, ex_content e); (cu, str_replace (lit "my_package") (er_name r) CARGO_TOML_MINIMAL_V5)])
    /\ (exists mu ir me, pf_from_path P (CARGO_TOML :: dir) = Some mu
         /\ to_lsp_range (sn_context sn) (ex_import_offset e, ex_import_offset e) = Some ir
         /\ er_edits r = [(u, translate_edits (sn_context sn) (ex_edits e)
                             ++ [LspTextEdit ir (ex_import_indent e ++ lit "use " ++ crate ++ lit "::" ++ ex_name e ++ lit ";")]);
                          (mu, [me])]
         /\ exists old new_, fs_read f (CARGO_TOML :: dir) = Some old
             /\ add_dependency_to_cargo_toml P old (er_name r)
                  (TInline [(lit "path", TStr d); (lit "default-features", TBool false)]) = Some new_
             /\ whole_file_edit enc old new_ = Some me).
Proof.
  intros Hr. unfold handle_extract_event. intros H.
  destruct (negb _); [discriminate|]. destruct (assoc u snaps) as [sn|] eqn:E1; [|discriminate].
  destruct (ex _ _ range) as [[e|]|] eqn:E2; [|discriminate|discriminate].
  destruct (pf_to_path P u) as [p|] eqn:E3; cbn [obind] in H; [|discriminate].
  destruct (find_cargo_toml f p) as [cp|] eqn:E4; [|discriminate].
  destruct (package_name U (ex_name e)) as [[pkg crate]|] eqn:E5; [|discriminate].
  destruct (find_cargo_toml_dir f p cp Hr E4) as [dir ->]. cbn [path_pop] in H.
  destruct (event_package_dir f dir pkg) as [d|] eqn:E6; [|discriminate].
  destruct (pf_from_path P (CARGO_TOML :: d :: dir)) as [cu|] eqn:E7; [|discriminate].
  destruct (pf_from_path P (lit "lib.rs" :: lit "src" :: d :: dir)) as [lu|] eqn:E8; [|discriminate].
  destruct (to_lsp_range (sn_context sn) (ex_import_offset e, ex_import_offset e)) as [ir|] eqn:E9; [|discriminate].
  destruct (fs_read f (CARGO_TOML :: dir)) as [old|] eqn:E10; [|discriminate].
  destruct (pf_from_path P (CARGO_TOML :: dir)) as [mu|] eqn:E11; [|discriminate].
  destruct (add_dependency_to_cargo_toml P old pkg _) as [new_|] eqn:E12; [|discriminate].
  destruct (whole_file_edit enc old new_) as [me|] eqn:E13; [|discriminate].
  injection H as <-. exists sn, e, p, dir, d, crate. cbn [er_name er_files er_edits].
  repeat (split; [first [assumption|reflexivity]|]). split.
  - exists cu, lu. auto.
  - exists mu, ir, me. split; [exact E11|]. split; [exact E9|]. split; [reflexivity|]. exists old, new_. auto.
Qed.

(** ** Document changes *)
Lemma store_set_same s u t : store_set s u t u = Some t.
Proof. unfold store_set. rewrite str_eqb_refl. reflexivity. Qed.
Lemma store_set_other s u v t : u <> v -> store_set s u t v = s v.
Proof. intros H. unfold store_set. rewrite (proj2 (str_eqb_neq u v) H). reflexivity. Qed.
Lemma perform_app ed a : forall b s, perform ed (a ++ b) s = match perform ed a s with Some s' => perform ed b s' | None => None end.
Proof.
  induction a as [|[u|u es] a IH]; intros b s; cbn [app perform]; [reflexivity| |].
  - destruct (s u); [reflexivity | apply IH].
  - destruct (s u) as [t|]; [|reflexivity]. destruct (ed t es); [apply IH | reflexivity].
Qed.
Lemma perform_files ed files : inserts ed -> forall s, NoDup (map fst files) -> (forall u, In u (map fst files) -> s u = None) ->
  exists s', perform ed (file_ops files) s = Some s' /\ (forall u t, In (u, t) files -> s' u = Some t)
    /\ (forall u, ~ In u (map fst files) -> s' u = s u).
Proof.
  intros He. induction files as [|[u t] files IH]; intros s Hn Hs.
  - exists s. split; [reflexivity|]. split; [intros u t [] | reflexivity].
  - cbn [map fst] in Hn. inversion Hn as [|x l Hu Hn']; subst.
    change (file_ops ((u, t) :: files)) with (OpCreate u :: OpEdit u [LspTextEdit default_range t] :: file_ops files).
    cbn [perform]. rewrite (Hs u (or_introl eq_refl)), store_set_same. rewrite (He t : ed [] [LspTextEdit default_range t] = Some t).
    destruct (IH (store_set (store_set s u []) u t) Hn') as (s' & E & H1 & H2).
    { intros v Hv. assert (u <> v) by (intros ->; contradiction). rewrite !store_set_other by assumption. apply Hs. right. exact Hv. }
    exists s'. split; [exact E|]. split.
    + intros v w [Hv|Hv]; [|exact (H1 v w Hv)]. injection Hv as <- <-. rewrite (H2 u Hu). apply store_set_same.
    + intros v Hv. rewrite H2 by (intros C; apply Hv; right; exact C).
      assert (u <> v) by (intros ->; apply Hv; left; reflexivity). rewrite !store_set_other by assumption. reflexivity.
Qed.
Lemma perform_edits ed edits : forall s, NoDup (map fst edits) ->
  (forall u es, In (u, es) edits -> exists t t', s u = Some t /\ ed t es = Some t') ->
  exists s', perform ed (map (fun p => OpEdit (fst p) (snd p)) edits) s = Some s'
    /\ (forall u es t, In (u, es) edits -> s u = Some t -> s' u = ed t es)
    /\ (forall u, ~ In u (map fst edits) -> s' u = s u).
Proof.
  induction edits as [|[u es] edits IH]; intros s Hn Hs.
  - exists s. split; [reflexivity|]. split; [intros u es t [] | reflexivity].
  - cbn [map fst] in Hn. inversion Hn as [|x l Hu Hn']; subst. cbn [map perform fst snd].
    destruct (Hs u es (or_introl eq_refl)) as (t & t' & E1 & E2). rewrite E1, E2.
    destruct (IH (store_set s u t') Hn') as (s' & E & H1 & H2).
    { intros v ws Hv. assert (u <> v) by (intros ->; apply Hu; apply in_map_iff; exists (v, ws); auto).
      rewrite store_set_other by assumption. apply Hs. right. exact Hv. }
    exists s'. split; [exact E|]. split.
    + intros v ws w [Hv|Hv] Ew.
      * injection Hv as <- <-. rewrite (H2 u Hu), store_set_same. congruence.
      * apply (H1 v ws w Hv). assert (u <> v) by (intros ->; apply Hu; apply in_map_iff; exists (v, ws); auto).
        rewrite store_set_other by assumption. exact Ew.
    + intros v Hv. rewrite H2 by (intros C; apply Hv; right; exact C).
      assert (u <> v) by (intros ->; apply Hv; left; reflexivity). apply store_set_other. assumption.
Qed.

(** Making tables inline changes nothing else *)
Fixpoint inline_same (t : toml) : same_value t (to_inline t).
Proof.
  destruct t as [s|b|z|l|m|m|s]; cbn [to_inline]; try apply same_refl.
  - apply same_array. induction l as [|v l IH]; constructor; [apply inline_same | exact IH].
  - apply same_inline. induction m as [|[k v] m IH]; constructor; [apply inline_same | exact IH].
  - apply same_table. induction m as [|[k v] m IH]; constructor; [apply inline_same | exact IH].
Qed.
(** Edits are sent as they are *)
Lemma translate_sent k t es : (forall e, In e es -> fst (te_range e) <= snd (te_range e)) -> sent (new_context t k) es (translate_edits (new_context t k) es).
Proof.
  induction es as [|e es IH]; intros H; [constructor|]. unfold translate_edits. cbn [filter_map].
  assert (IH' := IH (fun x Hx => H x (or_intror Hx))). destruct (to_lsp_range (new_context t k) (te_range e)) as [r|] eqn:E.
  - apply sent_edit; [|reflexivity|exact IH']. cbn [le_range]. specialize (H e (or_introl eq_refl)). destruct (te_range e) as [s x]. exact (C14_range_roundtrip k t s x r H E).
  - apply sent_skip; [exact E | exact IH'].
Qed.
Lemma manifest_text pkg : str_replace (lit "my_package") pkg CARGO_TOML_MINIMAL_V5 = event_manifest pkg.
Proof. unfold event_manifest. cbn [join_lines]. rewrite <- !app_assoc. vm_compute. reflexivity. Qed.
