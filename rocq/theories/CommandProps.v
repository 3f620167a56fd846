(** Properties C16, C17, C18, C58 and C59 (custom commands). *)
From Verif Require Import Base BaseFacts Unicode PositionModel PositionSpec PositionProofs PositionProps
  TranslateModel TranslateProofs VersionModel VersionSpec VersionProofs VersionProps CommandModel CommandSpec CommandProofs.

(** C16. A package name that is produced starts with a letter, does not end in a hyphen, has no doubled hyphen,
    loses no letter or digit of the event name (they appear in order, lower-cased, separated by hyphens only), and
    the crate name is the package name with hyphens turned into underscores. *)
Theorem C16_package_name : forall U name pkg crate,
  unicode_ok U -> package_name U name = Some (pkg, crate) ->
  (exists c r, pkg = c :: r /\ u_alphabetic U c = true)
  /\ (forall a, pkg <> a ++ lit "-")
  /\ (~ exists a b, pkg = a ++ lit "--" ++ b)
  /\ filter (fun c => negb (N.eqb c c_hyphen)) pkg = flat_map (u_lower U) (filter (u_alphanumeric U) name)
  /\ crate = map (fun c => if N.eqb c c_hyphen then c_underscore else c) pkg.
Proof. exact package_name_spec. Qed.
Print Assumptions C16_package_name.

(** C16. For ASCII event names the package name consists of lower-case letters, digits and hyphens. *)
Theorem C16_ascii_package_name : forall U name pkg crate,
  unicode_ok U -> Forall (fun c => (c < 128)%N) name -> package_name U name = Some (pkg, crate) ->
  Forall package_char pkg.
Proof. exact package_name_ascii. Qed.
Print Assumptions C16_ascii_package_name.

(** C16. Names are refused exactly when they do not start with a letter. *)
Theorem C16_refused_iff : forall U name,
  unicode_ok U -> (package_name U name = None <-> ~ exists c r, name = c :: r /\ u_alphabetic U c = true).
Proof.
  intros U name HU. rewrite (package_name_none U name HU). split.
  - intros H [c [r [E1 E2]]]. rewrite (H c r E1) in E2. discriminate.
  - intros H c r E. destruct (u_alphabetic U c) eqn:Ea; [|reflexivity]. exfalso. apply H. eauto.
Qed.
Print Assumptions C16_refused_iff.
Example C16_example :
  package_name ascii_unicode (lit "MyERC20_Transfer__Event_") = Some (lit "my-erc20-transfer-event", lit "my_erc20_transfer_event")
  /\ package_name ascii_unicode (lit "_Event") = None.
Proof. split; vm_compute; reflexivity. Qed.

(** C17. Refused exactly without a regular [dependencies] section containing ink. *)
Theorem C17_refused_iff : forall doc, migrate_doc doc = None <-> ~ exists dep, depends doc (lit "ink") dep.
Proof.
  intros doc. split.
  - intros H [dep [deps [H1 H2]]].
    assert (K : migrate_doc doc = Some (migrate_features (migrate_dev_deps (assoc_set (lit "dependencies") (TTable (new_deps dep deps)) doc)))).
    { apply migrate_doc_eq. exists deps, dep. auto. }
    rewrite K in H. discriminate.
  - intros H. destruct (migrate_doc doc) as [doc'|] eqn:E; [|reflexivity]. exfalso. apply H.
    apply migrate_doc_eq in E as [deps [dep [H1 [H2 _]]]]. exists dep, deps. auto.
Qed.
Print Assumptions C17_refused_iff.

(** C17. The ink entry: requires 5.0.0, disables default features unless it said otherwise, and keeps its other
    keys (a value that was a table becomes an inline table). *)
Theorem C17_ink_entry : forall doc doc' dep,
  migrate_doc doc = Some doc' -> depends doc (lit "ink") dep ->
  exists m, depends doc' (lit "ink") (TInline m)
    /\ assoc (lit "version") m = Some (TStr (lit "5.0.0"))
    /\ (assoc (lit "default-features") (entry_keys dep) = None -> assoc (lit "default-features") m = Some (TBool false))
    /\ forall k v, k <> lit "version" -> assoc k (entry_keys dep) = Some v ->
         exists v', assoc k m = Some v' /\ same_value v v'.
Proof.
  intros doc doc' dep H [deps [H1 H2]]. apply migrate_doc_eq in H as [deps0 [dep0 [K1 [K2 ->]]]].
  rewrite K1 in H1. injection H1 as ->. rewrite K2 in H2. injection H2 as ->.
  destruct (new_ink_dep_shape dep) as [m [Em [M1 [M2 M3]]]]. exists m.
  assert (Hin : forall k v, assoc k (entry_keys dep) = Some v -> assoc k (dep_entries dep) = Some v \/ assoc k (dep_entries dep) = Some (to_inline v)).
  { intros k v Hk. destruct dep; cbn [entry_keys dep_entries] in *; try discriminate; [left; exact Hk|].
    right. unfold inline_entries. rewrite assoc_map, Hk. reflexivity. }
  split; [|split; [exact M1|split]].
  - exists (new_deps dep deps). rewrite <- Em, new_deps_ink. split; [|reflexivity].
    rewrite features_assoc, dev_deps_assoc by keyneq. apply assoc_set_same.
  - intros Hd. rewrite M2. replace (assoc (lit "default-features") (dep_entries dep)) with (@None toml); [reflexivity|].
    destruct dep; cbn [entry_keys dep_entries] in *; try reflexivity; [symmetry; exact Hd|].
    unfold inline_entries. rewrite assoc_map, Hd. reflexivity.
  - intros k v Hk Hv. destruct (Hin k v Hv) as [Hi|Hi];
    (destruct (str_eqb k (lit "default-features")) eqn:Ed;
     [apply str_eqb_eq in Ed; subst k; rewrite M2, Hi | apply str_eqb_neq in Ed; rewrite M3, Hi by assumption]);
    (eexists; split; [reflexivity|]); first [apply same_refl | apply inline_same].
Qed.
Print Assumptions C17_ink_entry.

(** C17. Everything else: the scale dependencies and their std features go, a declared ink_e2e is set to 5.0.0,
    and every other value at every other place is the same, in the same order. *)
Theorem C17_everything_else : forall doc doc', migrate_doc doc = Some doc' ->
  (value_at doc' (lit "dependencies") (lit "scale") = None /\ value_at doc' (lit "dependencies") (lit "scale-info") = None)
  /\ (forall k, ~ In k [lit "ink"; lit "scale"; lit "scale-info"] ->
       value_at doc' (lit "dependencies") k = value_at doc (lit "dependencies") k)
  /\ section_keys doc' (lit "dependencies")
     = filter (fun k => negb (str_eqb (lit "scale") k || str_eqb (lit "scale-info") k)) (section_keys doc (lit "dependencies"))
  /\ (value_at doc' (lit "dev-dependencies") (lit "ink_e2e")
      = match value_at doc (lit "dev-dependencies") (lit "ink_e2e") with None => None | Some _ => Some (TStr (lit "5.0.0")) end)
  /\ (forall k, k <> lit "ink_e2e" -> value_at doc' (lit "dev-dependencies") k = value_at doc (lit "dev-dependencies") k)
  /\ section_keys doc' (lit "dev-dependencies") = section_keys doc (lit "dev-dependencies")
  /\ (value_at doc' (lit "features") (lit "std")
      = match value_at doc (lit "features") (lit "std") with
        | Some (TArr l) => Some (TArr (filter (fun t => match t with
                                                        | TStr s => negb (str_eqb s (lit "scale/std") || str_eqb s (lit "scale-info/std"))
                                                        | _ => true end) l))
        | x => x end)
  /\ (forall k, k <> lit "std" -> value_at doc' (lit "features") k = value_at doc (lit "features") k)
  /\ section_keys doc' (lit "features") = section_keys doc (lit "features")
  /\ (forall s, ~ In s [lit "dependencies"; lit "dev-dependencies"; lit "features"] -> assoc s doc' = assoc s doc)
  /\ map fst doc' = map fst doc.
Proof.
  intros doc doc' H. apply migrate_doc_eq in H as [deps [dep [H1 [H2 ->]]]].
  set (doc1 := assoc_set (lit "dependencies") (TTable (new_deps dep deps)) doc).
  assert (Hd : assoc (lit "dependencies") (migrate_features (migrate_dev_deps doc1)) = Some (TTable (new_deps dep deps))).
  { rewrite features_assoc, dev_deps_assoc by keyneq. apply assoc_set_same. }
  assert (Hdev : assoc (lit "dev-dependencies") doc1 = assoc (lit "dev-dependencies") doc) by (apply assoc_set_other; keyneq).
  assert (Hft : assoc (lit "features") (migrate_dev_deps doc1) = assoc (lit "features") doc).
  { rewrite dev_deps_assoc by keyneq. apply assoc_set_other; keyneq. }
  unfold value_at, section_keys. rewrite Hd, H1.
  rewrite features_own, Hft. rewrite (features_assoc _ (lit "dev-dependencies")) by keyneq. rewrite dev_deps_own, Hdev.
  split; [apply new_deps_scale|].
  split. { intros k Hk. apply new_deps_other; intros ->; apply Hk; [left|right; left|right; right; left]; reflexivity. }
  split. { unfold new_deps. rewrite !assoc_del_keys, assoc_set_keys by (rewrite H2; reflexivity).
    induction (map fst deps) as [|k l IH]; [reflexivity|]. cbn [filter].
    destruct (str_eqb (lit "scale") k); cbn [negb orb filter]; [exact IH|].
    destruct (str_eqb (lit "scale-info") k); cbn [negb]; rewrite IH; reflexivity. }
  split. { destruct (assoc (lit "dev-dependencies") doc) as [[ | | | | |m| ]|]; try reflexivity. unfold has_key.
    destruct (assoc (lit "ink_e2e") m) eqn:E; cbn [is_some]; [apply assoc_set_same | exact E]. }
  split. { intros k Hk. destruct (assoc (lit "dev-dependencies") doc) as [[ | | | | |m| ]|]; try reflexivity.
    destruct (has_key _ m); [apply assoc_set_other; congruence | reflexivity]. }
  split. { destruct (assoc (lit "dev-dependencies") doc) as [[ | | | | |m| ]|]; try reflexivity.
    destruct (has_key _ m) eqn:E; [apply assoc_set_keys; exact E | reflexivity]. }
  split. { destruct (assoc (lit "features") doc) as [[ | | | | |m| ]|]; try reflexivity.
    destruct (assoc (lit "std") m) as [[ | | |l| | | ]|] eqn:E; try exact E. apply assoc_set_same. }
  split. { intros k Hk. destruct (assoc (lit "features") doc) as [[ | | | | |m| ]|]; try reflexivity.
    destruct (assoc (lit "std") m) as [[ | | |l| | | ]|]; try reflexivity. apply assoc_set_other; congruence. }
  split. { destruct (assoc (lit "features") doc) as [[ | | | | |m| ]|]; try reflexivity.
    destruct (assoc (lit "std") m) as [[ | | |l| | | ]|] eqn:E; try reflexivity. apply assoc_set_keys. rewrite E. reflexivity. }
  split.
  - intros s Hs. rewrite features_assoc, dev_deps_assoc by (intros ->; apply Hs; simpl; auto).
    apply assoc_set_other. intros <-. apply Hs. left. reflexivity.
  - assert (K1 : map fst doc1 = map fst doc) by (apply assoc_set_keys; rewrite H1; reflexivity).
    rewrite <- K1. clear K1. transitivity (map fst (migrate_dev_deps doc1)).
    + unfold migrate_features. destruct (assoc (lit "features") (migrate_dev_deps doc1)) as [[ | | | | |m| ]|] eqn:E; try reflexivity.
      cbn [as_table]. destruct (assoc (lit "std") m) as [[ | | |l| | | ]|]; try reflexivity.
      apply assoc_set_keys. rewrite E. reflexivity.
    + unfold migrate_dev_deps. destruct (assoc (lit "dev-dependencies") doc1) as [[ | | | | |m| ]|] eqn:E; try reflexivity.
      cbn [as_table]. destruct (has_key _ m); [|reflexivity]. apply assoc_set_keys. rewrite E. reflexivity.
Qed.
Print Assumptions C17_everything_else.

(** C17. Migrating twice is migrating once. *)
Theorem C17_idempotent : forall doc doc', migrate_doc doc = Some doc' -> migrate_doc doc' = Some doc'.
Proof. exact migrate_idem. Qed.
Print Assumptions C17_idempotent.

(** C17. At the level of the file text, if the TOML library reads back what it prints. *)
Theorem C17_text_idempotent : forall P text text',
  (forall doc, pf_parse P (pf_render P doc) = Some doc) ->
  migrate_cargo_toml P text = Some text' -> migrate_cargo_toml P text' = Some text'.
Proof.
  intros P text text' HP H. unfold migrate_cargo_toml in *. destruct (pf_parse P text) as [doc|]; [|discriminate].
  destruct (migrate_doc doc) as [doc'|] eqn:E; [|discriminate]. injection H as <-.
  rewrite HP, (migrate_idem _ _ E). reflexivity.
Qed.
Print Assumptions C17_text_idempotent.

(** C17. What the migrate command proposes: code edits for the document, and one edit replacing the whole text of
    the nearest manifest by its migration. *)
Theorem C17_command : forall P mig f snaps enc u r,
  fsys_ok f -> (forall t v e, In e (mig t v) -> fst (te_range e) <= snd (te_range e)) ->
  handle_migrate_project P mig f snaps enc u = HOk r ->
  exists sn p c cu text text' code e,
    assoc u snaps = Some sn /\ sent (new_context (sn_text sn) (sn_encoding sn)) (mig (sn_text sn) (sn_lang sn)) code
    /\ pf_to_path P u = Some p /\ find_cargo_toml f p = Some c /\ pf_from_path P c = Some cu
    /\ fs_read f c = Some text /\ migrate_cargo_toml P text = Some text'
    /\ mr_edits r = [(u, code); (cu, [e])] /\ replaces_all enc text e text'.
Proof.
  intros P mig f snaps enc u r Hf Hm H. unfold handle_migrate_project in H.
  destruct (negb _); [discriminate|]. destruct (assoc u snaps) as [sn|]; [|discriminate].
  destruct (pf_to_path P u) as [p|] eqn:E1; cbn [obind] in H; [|discriminate].
  destruct (find_cargo_toml f p) as [c|] eqn:E2; [|discriminate].
  destruct (fs_read f c) as [text|] eqn:E3; [|discriminate].
  destruct (pf_from_path P c) as [cu|] eqn:E4; [|discriminate].
  destruct (migrate_cargo_toml P text) as [text'|] eqn:E5; [|discriminate].
  unfold whole_file_edit in H. destruct (to_lsp_range (new_context text enc) (0, bytes text)) as [lr|] eqn:E6; [|discriminate].
  injection H as <-. exists sn, p, c, cu, text, text'. eexists. eexists.
  split; [reflexivity|]. split; [apply translate_sent; apply Hm|].
  do 6 (split; [first [assumption | reflexivity]|]). split; [reflexivity|].
  cbn [le_range]. apply C14_range_roundtrip; [lia | exact E6].
Qed.
Print Assumptions C17_command.

Definition ex_manifest : list (str * toml) :=
  [(lit "package", TTable [(lit "name", TStr (lit "flipper"))]);
   (lit "dependencies", TTable [(lit "ink", TStr (lit "4.3.0")); (lit "scale", TStr (lit "3")); (lit "serde", TStr (lit "1"))]);
   (lit "features", TTable [(lit "default", TArr [TStr (lit "std")]); (lit "std", TArr [TStr (lit "ink/std"); TStr (lit "scale/std")])])].
Example C17_example :
  migrate_doc ex_manifest = Some
  [(lit "package", TTable [(lit "name", TStr (lit "flipper"))]);
   (lit "dependencies", TTable [(lit "ink", TInline [(lit "version", TStr (lit "5.0.0")); (lit "default-features", TBool false)]);
                                (lit "serde", TStr (lit "1"))]);
   (lit "features", TTable [(lit "default", TArr [TStr (lit "std")]); (lit "std", TArr [TStr (lit "ink/std")])])].
Proof. vm_compute. reflexivity. Qed.

(** C59 (refuted). After the migration the project need not be an ink! 5 project: an ink entry inherited from the
    workspace keeps inheriting, so its version is still the workspace's. *)
Theorem C59_migrated_manifest_is_v5_refuted :
  (forall dep, inherits dep -> inherits (new_ink_dep dep))
  /\ exists doc doc' dep dep', migrate_doc doc = Some doc' /\ depends doc (lit "ink") dep /\ inherits dep
       /\ depends doc' (lit "ink") dep' /\ inherits dep'.
Proof.
  split.
  - intros dep [m [Hm Hw]]. destruct (new_ink_dep_shape dep) as [m' [-> [_ [_ H3]]]].
    exists m'. split; [right; reflexivity|]. rewrite H3 by keyneq.
    destruct Hm as [-> | ->]; cbn [dep_entries]; [|exact Hw]. unfold inline_entries. rewrite assoc_map, Hw. reflexivity.
  - exists [(lit "dependencies", TTable [(lit "ink", TInline [(lit "workspace", TBool true)])])].
    eexists. eexists. eexists. split; [vm_compute; reflexivity|].
    split; [eexists; split; vm_compute; reflexivity|]. split; [eexists; split; [right; reflexivity | reflexivity]|].
    split; [eexists; split; vm_compute; reflexivity|]. eexists. split; [right; reflexivity | vm_compute; reflexivity].
Qed.
Print Assumptions C59_migrated_manifest_is_v5_refuted.

(** C59 (proved part). An ink entry with its own version requirement is detected as ink! 5 afterwards. *)
Theorem C59_migrated_manifest_partial : forall U doc doc' dep,
  unicode_ok U -> migrate_doc doc = Some doc' -> depends doc (lit "ink") dep ->
  exists m, depends doc' (lit "ink") (TInline m) /\ requires (TInline m) (lit "5.0.0")
    /\ forall pth git w, guess_version U (InkVersion (Some (lit "5.0.0")) pth git w) = V5.
Proof.
  intros U doc doc' dep HU H Hd. destruct (C17_ink_entry doc doc' dep H Hd) as [m [H1 [H2 _]]]. exists m.
  split; [exact H1|]. split; [right; exists m; split; [right; reflexivity | exact H2]|].
  intros pth git w. change (lit "5.0.0") with (requirement [] (lit "5") (lit "0") (lit "0")).
  assert (Hn : forall d, ascii_digit d = true -> is_num [d]) by (intros d Hd'; split; [discriminate | constructor; [exact Hd' | constructor]]).
  apply guess_simple; [exact HU | left; reflexivity | apply Hn; reflexivity | apply Hn; reflexivity | apply Hn; reflexivity | left; reflexivity].
Qed.
Print Assumptions C59_migrated_manifest_partial.

(** C18. The directory for an extracted event: beside the manifest, the first of name, name1 … name10 that does not
    exist; none if all eleven exist. *)
Theorem C18_first_free : forall f dir name d,
  event_package_dir f dir name = Some d <->
  exists k, k <= 10 /\ d = candidate name k /\ fs_exists f (d :: dir) = false
    /\ forall j, j < k -> fs_exists f (candidate name j :: dir) = true.
Proof. exact event_package_dir_spec. Qed.
Print Assumptions C18_first_free.

Theorem C18_none_free : forall f dir name,
  event_package_dir f dir name = None <-> forall k, k <= 10 -> fs_exists f (candidate name k :: dir) = true.
Proof.
  intros f dir name. split.
  - intros H. assert (K : forall n k, k < n -> k <= 10 -> fs_exists f (candidate name k :: dir) = true).
    { induction n as [|n IH]; intros k Hk Hle; [lia|].
      destruct (fs_exists f (candidate name k :: dir)) eqn:E; [reflexivity|]. exfalso.
      assert (Hs : event_package_dir f dir name = Some (candidate name k)).
      { apply event_package_dir_spec. exists k. repeat split; auto. intros j Hj. apply IH; lia. }
      congruence. }
    intros k Hk. apply (K (S k)); lia.
  - intros H. destruct (event_package_dir f dir name) as [d|] eqn:E; [|reflexivity].
    apply event_package_dir_spec in E as [k [Hk [-> [Hf _]]]]. change (nth_dir name k) with (candidate name k) in Hf.
    rewrite (H k Hk) in Hf. discriminate.
Qed.
Print Assumptions C18_none_free.

(** C18. The extract command creates exactly two files, both inside a directory next to the contract's manifest that
    does not exist, so no existing file is overwritten; the only other changes are edits of the document and of the
    manifest. *)
Theorem C18_extract_creates : forall P U ex f snaps enc u range r,
  fsys_ok f -> handle_extract_event P U ex f snaps enc u range = HOk r ->
  exists p dir d lib cargo mu lu cu ce me,
    pf_to_path P u = Some p /\ find_cargo_toml f p = Some (CARGO_TOML :: dir)
    /\ (exists k, k <= 10 /\ d = candidate (er_name r) k)
    /\ pf_from_path P (lit "lib.rs" :: lit "src" :: d :: dir) = Some lu
    /\ pf_from_path P (lit "Cargo.toml" :: d :: dir) = Some cu
    /\ er_files r = [(lu, lib); (cu, cargo)]
    /\ pf_from_path P (lit "Cargo.toml" :: dir) = Some mu
    /\ er_edits r = [(u, ce); (mu, [me])]
    /\ (forall under, fs_exists f (under ++ d :: dir) = false).
Proof.
  intros P U ex f snaps enc u range r Hf H. apply extract_ok in H; [|apply (fo_root f Hf)].
  destruct H as (sn & e & p & dir & d & crate & H1 & H2 & H3 & H4 & H5 & H6 & (cu & lu & H7 & H8 & H9) & (mu & ir & me & H10 & H11 & H12 & _)).
  apply event_package_dir_spec in H6 as [k [K1 [K2 [K3 K4]]]].
  exists p, dir, d, (ex_content e). eexists. exists mu, lu, cu. eexists. exists me.
  split; [exact H3|]. split; [exact H4|]. split; [exists k; auto|]. split; [exact H8|]. split; [exact H7|].
  split; [exact H9|]. split; [exact H10|]. split; [exact H12|].
  induction under as [|x under IH]; [exact K3|]. cbn [app].
  destruct (fs_exists f (x :: under ++ d :: dir)) eqn:E; [|reflexivity].
  apply (fo_parent f Hf) in E. congruence.
Qed.
Print Assumptions C18_extract_creates.

(** C18. What the extract command writes: the code of the event and the manifest of its package into the new files, the edits
    of the extraction and an import of the event into the document, and the manifest with the new dependency. *)
Theorem C18_extract_contents : forall P U ex f snaps enc u range r,
  fsys_ok f -> (forall t v x e b, ex t v x = Done (Some e) -> In b (ex_edits e) -> fst (te_range b) <= snd (te_range b)) ->
  handle_extract_event P U ex f snaps enc u range = HOk r ->
  exists sn e crate lu cu mu ce im me d dir old new_,
    assoc u snaps = Some sn /\ ex (sn_text sn) (sn_lang sn) range = Done (Some e)
    /\ package_name U (ex_name e) = Some (er_name r, crate)
    /\ er_files r = [(lu, ex_content e); (cu, event_manifest (er_name r))]
    /\ er_edits r = [(u, ce ++ [im]); (mu, [me])]
    /\ sent (new_context (sn_text sn) (sn_encoding sn)) (ex_edits e) ce
    /\ from_lsp_text_range (new_context (sn_text sn) (sn_encoding sn)) (le_range im) = Some (ex_import_offset e, ex_import_offset e)
    /\ le_new_text im = ex_import_indent e ++ lit "use " ++ crate ++ lit "::" ++ ex_name e ++ lit ";"
    /\ fs_read f (CARGO_TOML :: dir) = Some old
    /\ add_dependency_to_cargo_toml P old (er_name r) (TInline [(lit "path", TStr d); (lit "default-features", TBool false)]) = Some new_
    /\ replaces_all enc old me new_.
Proof.
  intros P U ex f snaps enc u range r Hf Hx H. apply extract_ok in H; [|apply (fo_root f Hf)].
  destruct H as (sn & e & p & dir & d & crate & H1 & H2 & H3 & H4 & H5 & H6 & (cu & lu & H7 & H8 & H9) & (mu & ir & me & H10 & H11 & H12 & old & new_ & H13 & H14 & H15)).
  exists sn, e, crate, lu, cu, mu. eexists. eexists. exists me, d, dir, old, new_.
  split; [exact H1|]. split; [exact H2|]. split; [exact H5|]. split; [rewrite H9, manifest_text; reflexivity|]. split; [exact H12|].
  split; [apply translate_sent; intros b Hb; exact (Hx _ _ _ _ b H2 Hb)|].
  split; [cbn [le_range]; apply C14_range_roundtrip; [lia | exact H11]|]. split; [reflexivity|].
  split; [exact H13|]. split; [exact H14|].
  unfold whole_file_edit in H15. destruct (to_lsp_range (new_context old enc) (0, bytes old)) as [lr|] eqn:E; [|discriminate]. injection H15 as <-.
  split; [reflexivity|]. cbn [le_range]. apply C14_range_roundtrip; [lia | exact E].
Qed.
Print Assumptions C18_extract_contents.

Example C18_example :
  let f := Fsys (fun _ => false) (fun p => match p with [a; b] => str_eqb a (lit "ev") || str_eqb a (lit "ev1")
                                             | [_] | [] => true | _ => false end) (fun _ => None) in
  fsys_ok f /\ event_package_dir f [lit "proj"] (lit "ev") = Some (lit "ev2").
Proof.
  split; [|vm_compute; reflexivity]. split; [reflexivity|].
  intros c [|b [|b' [|b'' p]]]; simpl; intros H; try reflexivity; discriminate.
Qed.

(** C58. Declaring the event package as a dependency: the manifest gains that entry, and every other value stays,
    in the same order. *)
Theorem C58_dependency_added_partial : forall doc doc' name item,
  add_dependency doc name item = Some doc' ->
  value_at doc' (lit "dependencies") name = Some item
  /\ (forall k, k <> name -> value_at doc' (lit "dependencies") k = value_at doc (lit "dependencies") k)
  /\ section_keys doc' (lit "dependencies")
     = section_keys doc (lit "dependencies")
       ++ (match value_at doc (lit "dependencies") name with Some _ => [] | None => [name] end)
  /\ (forall s, s <> lit "dependencies" -> assoc s doc' = assoc s doc)
  /\ map fst doc' = map fst doc.
Proof.
  intros doc doc' name item H. unfold add_dependency in H.
  destruct (as_table (assoc (lit "dependencies") doc)) as [deps|] eqn:E; [|discriminate].
  apply as_table_some in E. injection H as <-. unfold value_at, section_keys. rewrite assoc_set_same, E.
  split; [apply assoc_set_same|]. split; [intros k Hk; apply assoc_set_other; congruence|]. split.
  - clear E. induction deps as [|[k v] deps IH]; [reflexivity|]. cbn [assoc_set assoc map fst].
    destruct (str_eqb name k) eqn:Ek; cbn [map fst].
    + apply str_eqb_eq in Ek. subst k. rewrite app_nil_r. reflexivity.
    + rewrite IH. reflexivity.
  - split; [intros s Hs; apply assoc_set_other; congruence|]. apply assoc_set_keys. rewrite E. reflexivity.
Qed.
Print Assumptions C58_dependency_added_partial.

(** C58 (refuted). A dependency that happens to have the event package's name is overwritten, although the package
    directory was only checked on disk. *)
Theorem C58_no_dependency_lost_refuted : exists doc doc' name item,
  value_at doc (lit "dependencies") name = Some (TStr (lit "1.0"))
  /\ add_dependency doc name item = Some doc'
  /\ value_at doc' (lit "dependencies") name <> Some (TStr (lit "1.0")).
Proof.
  exists [(lit "dependencies", TTable [(lit "transfer", TStr (lit "1.0"))])]. eexists.
  exists (lit "transfer"), (TInline [(lit "path", TStr (lit "transfer"))]).
  split; [reflexivity|]. split; [reflexivity|]. vm_compute. discriminate.
Qed.
Print Assumptions C58_no_dependency_lost_refuted.

(** C70. A created project has its two files, [lib.rs] and [Cargo.toml], with the contents of the template. *)
Theorem C70_created_files : forall P new_project name root r, handle_create_project P new_project name root = HOk r ->
  exists lib cargo lu cu, new_project name = Some (lib, cargo)
    /\ pf_join P root (lit "lib.rs") = Some lu /\ pf_join P root (lit "Cargo.toml") = Some cu
    /\ cr_files r = [(lu, lib); (cu, cargo)] /\ cr_uri r = root /\ cr_name r = name.
Proof.
  intros P np name root r H. unfold handle_create_project in H.
  destruct (pf_join P root (lit "lib.rs")) as [lu|]; [|discriminate].
  change CARGO_TOML with (lit "Cargo.toml") in H. destruct (pf_join P root (lit "Cargo.toml")) as [cu|]; [|discriminate].
  destruct (np name) as [[lib cargo]|]; [|discriminate]. injection H as <-. exists lib, cargo, lu, cu. auto 10.
Qed.
Print Assumptions C70_created_files.
(** C70. A client that performs the changes of a created project has exactly the files, and nothing else changed. *)
Theorem C70_create_written : forall ed r s, inserts ed ->
  NoDup (map fst (cr_files r)) -> (forall u, In u (map fst (cr_files r)) -> s u = None) ->
  exists s', perform ed (create_changes r) s = Some s' /\ (forall u t, In (u, t) (cr_files r) -> s' u = Some t)
    /\ (forall u, ~ In u (map fst (cr_files r)) -> s' u = s u).
Proof. intros ed r s He Hn Hs. exact (perform_files ed (cr_files r) He s Hn Hs). Qed.
Print Assumptions C70_create_written.
(** C70. A client that performs the changes of an extraction has the new files and the edited ones, and nothing else
    changed. *)
Theorem C70_extract_written : forall ed r s, inserts ed ->
  NoDup (map fst (er_files r) ++ map fst (er_edits r)) -> (forall u, In u (map fst (er_files r)) -> s u = None) ->
  (forall u es, In (u, es) (er_edits r) -> exists t t', s u = Some t /\ ed t es = Some t') ->
  exists s', perform ed (extract_changes r) s = Some s' /\ (forall u t, In (u, t) (er_files r) -> s' u = Some t)
    /\ (forall u es t, In (u, es) (er_edits r) -> s u = Some t -> s' u = ed t es)
    /\ (forall u, ~ In u (map fst (er_files r)) -> ~ In u (map fst (er_edits r)) -> s' u = s u).
Proof.
  intros ed r s He Hn Hs Hed. unfold extract_changes. rewrite perform_app.
  assert (Hn1 : NoDup (map fst (er_files r))).
  { revert Hn. generalize (map fst (er_edits r)) as b. generalize (map fst (er_files r)) as a. induction a as [|x a IH]; intros b H; [constructor|].
    inversion H as [|y l H1 H2]; subst. constructor; [intros C; apply H1; apply in_app_iff; left; exact C | exact (IH b H2)]. }
  assert (Hn2 : NoDup (map fst (er_edits r))).
  { revert Hn. generalize (map fst (er_edits r)) as b. generalize (map fst (er_files r)) as a. induction a as [|x a IH]; intros b H; [exact H|].
    inversion H; subst. apply IH. assumption. }
  assert (Hd : forall u, In u (map fst (er_files r)) -> In u (map fst (er_edits r)) -> False).
  { revert Hn. generalize (map fst (er_edits r)) as b. generalize (map fst (er_files r)) as a. induction a as [|x a IH]; intros b H u Hu Hu'; [destruct Hu|].
    inversion H as [|y l H1 H2]; subst. destruct Hu as [->|Hu]; [apply H1; apply in_app_iff; right; exact Hu' | exact (IH b H2 u Hu Hu')]. }
  destruct (perform_files ed (er_files r) He s Hn1 Hs) as (s1 & -> & F1 & F2).
  destruct (perform_edits ed (er_edits r) s1 Hn2) as (s2 & E & G1 & G2).
  { intros u es Hu. destruct (Hed u es Hu) as (t & t' & E1 & E2). exists t, t'. split; [|exact E2]. rewrite F2; [exact E1|].
    intros C. apply (Hd u C). apply in_map_iff. exists (u, es). auto. }
  exists s2. split; [exact E|]. split; [|split].
  - intros u t Hu. rewrite G2; [exact (F1 u t Hu)|]. intros C. apply (Hd u); [|exact C]. apply in_map_iff. exists (u, t). auto.
  - intros u es t Hu Et. apply (G1 u es t Hu). rewrite F2; [exact Et|]. intros C. apply (Hd u C). apply in_map_iff. exists (u, es). auto.
  - intros u H1 H2. rewrite (G2 u H2). exact (F2 u H1).
Qed.
Print Assumptions C70_extract_written.
Example C70_example :
  let ed := fun t es => match es with [e] => Some (le_new_text e ++ t) | _ => None end in
  let s := fun u => if str_eqb u (lit "c") then Some (lit "old") else None in
  let r := ExtractResp (lit "n") (lit "u") [(lit "a", lit "x"); (lit "b", lit "y")] [(lit "c", [LspTextEdit ((0, 0), (0, 0)) (lit "+")])] in
  inserts ed /\ exists s', perform ed (extract_changes r) s = Some s' /\ s' (lit "a") = Some (lit "x") /\ s' (lit "c") = Some (lit "+old").
Proof.
  cbv zeta. split; [intros t; rewrite app_nil_r; reflexivity|]. eexists. split; [reflexivity|]. split; reflexivity.
Qed.
