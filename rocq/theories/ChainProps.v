(** C89: functions of chain extensions and trait definitions. C90: associated types of chain extensions. *)
From Coq Require Import Permutation Sorted.
From Verif Require Import Base BaseFacts Unicode VersionModel PositionModel PositionProofs TranslateModel SyntaxModel CommandModel AttrModel AttrSpec AttrProofs EditModel EditSpec
  UtilModel UtilSpec UtilProofs ArgEditModel ArgEditSpec ArgEditProofs ArgEditProps ArgCheckSpec ArgCheckProofs RuleModel RuleSpec RuleProofs CallableModel
  EntityModel EntitySpec EntityProofs EntityProps ChainModel ChainSpec ChainProofs.

(** ** C89 *)

(** C89. In a chain extension exactly the functions without the ink! attribute of the version are reported, each at its
    signature (for ink! 5 functions that still have the [extension] argument are left to another rule). Each fix gives
    its function an attribute with an id; the ids are different from one another and from those in use, and each is the
    least such id. *)
Theorem C89_functions v read toks places ids : Forall (in_place toks) places -> (N.of_nat (length ids + length places) < id_max v)%N ->
  exists ds rs, chain_fns v read (place_leaves 0 toks) ids (map placed_at places) = Done ds
    /\ those (fun p => missing_id v read (snd (fst p))) places (map fst rs)
    /\ Forall2 (fun r d => method_reported CNotExtension read [wanted v; AHandleStatus] (id_attribute v (snd r)) (fst r) d) rs ds
    /\ NoDup (map snd rs) /\ (forall id, In id (map snd rs) -> (1 <= id <= id_max v)%N /\ ~ In id ids)
    /\ ((forall p, In p places -> v = V5 -> ~ mentions read AExtension (snd (fst p))) ->
        forall r1 p id r2 n, rs = r1 ++ (p, id) :: r2 -> (1 <= n < id)%N -> In n ids \/ In n (map snd r1)).
Proof.
  intros H Hl. destruct (chain_fns_spec v read toks places ids H Hl) as (ds & rs & H1 & H2 & H3 & H4 & H5 & H6).
  assert (E : forall p : list (skind * str) * method * list (skind * str), the_method p = snd (fst p)) by (intros [[? ?] ?]; reflexivity).
  exists ds, rs. split; [exact H1|]. split; [|split; [exact H3|split; [exact H4|split; [exact H5|]]]].
  - clear - H2 E. induction H2; [constructor | apply those_in; [rewrite <- E; assumption | assumption] | apply those_out; [rewrite <- E; assumption | assumption]].
  - intros Hx. apply H6. intros p Hp Hv. rewrite E. exact (Hx p Hp Hv).
Qed.
(** C89. In a trait definition exactly the functions that are no ink! messages are reported, at their signature; the fix
    makes them messages. *)
Theorem C89_trait_functions read pre m post : method_ok m ->
  let toks := file_leaves pre (method_tree m) post in
  (trait_fn read toks (at_place pre (method_tree m)) = Done [] <-> marked_as read AMessage m)
  /\ (~ marked_as read AMessage m -> exists d, trait_fn read toks (at_place pre (method_tree m)) = Done [d]
      /\ method_reported CNotMessage read [AMessage; ADefault; APayable; ASelector] (lit "#[ink(message)]") (pre, m, post) d).
Proof. apply trait_fn_spec. Qed.

Lemma has_wildcard_spec a : has_wildcard a = true <-> exists v t, m_value a = MOk v /\ shows v UNDERSCORE t.
Proof.
  unfold has_wildcard, arg_value. destruct (m_value a) as [v|l|]; [|split; [discriminate | intros (v & t & [=] & _)]..].
  unfold value_is_wildcard. split.
  - destruct (value_skind v) as [x|] eqn:E; [|discriminate]. destruct x; try discriminate. intros _. exists v. eexists. split; [reflexivity|]. apply kind_shows; [exact E|discriminate].
  - intros (v' & t & [= <-] & H). apply shows_kind in H. destruct H as [-> _]. reflexivity.
Qed.
Lemma wildcards_app toks a b : wildcard_diags toks (a ++ b) = obind_o (wildcard_diags toks a) (fun x => obind_o (wildcard_diags toks b) (fun y => Done (x ++ y))).
Proof.
  unfold wildcard_diags. rewrite flat_map_app. generalize (flat_map (fun attr => map (wildcard_diag toks attr) (filter has_wildcard (at_args attr))) a).
  generalize (flat_map (fun attr => map (wildcard_diag toks attr) (filter has_wildcard (at_args attr))) b). intros y x. induction x as [|[z|] x IH]; cbn [app all_done obind_o]; [|rewrite IH|reflexivity].
  - destruct (all_done y); reflexivity.
  - destruct (all_done x); cbn [obind_o]; [destruct (all_done y); reflexivity | reflexivity].
Qed.
(** C89. The attributes of a function are judged one by one ... *)
Theorem C89_wildcards_each toks attrs dss : Forall2 (fun a ds => wildcard_diags toks [a] = Done ds) attrs dss ->
  wildcard_diags toks attrs = Done (concat dss).
Proof.
  intros H. induction H as [|a ds attrs dss Ha _ IH]; [reflexivity|]. change (a :: attrs) with ([a] ++ attrs). rewrite wildcards_app, Ha, IH. reflexivity.
Qed.
(** ... and of the arguments of an attribute exactly those with the value [_] are reported; the fix leaves the others. *)
Theorem C89_wildcards px syn attr pre body post cores b :
  attr_cast px syn = Some attr -> as_token_tree syn = Some (tree_at pre body) ->
  listed cores b body -> 2 <= length cores -> Forall plain_argument cores -> (b = true -> exists body0, body = body0 ++ [comma]) ->
  exists ds is, wildcard_diags (place_leaves 0 (file_tokens pre body post)) [attr] = Done ds
    /\ Forall2 (wildcard_fixed attr pre body post cores) is ds
    /\ StronglySorted lt is /\ (forall i, In i is <-> wildcard_at attr i).
Proof.
  intros Hc Ht H Hl Hp Hb. destruct (cast_args _ _ _ _ Hc Ht) as [Ha _].
  assert (Hlen : length (at_args attr) = length cores).
  { rewrite Ha. unfold parse_ink_args, tree_at. cbn [fst snd]. destruct b.
    - destruct (Hb eq_refl) as (body0 & ->). apply (listed_args_trailing px cores), H.
    - apply (listed_args_length px cores); [exact H|]. destruct cores; [cbn in Hl; lia | discriminate]. }
  set (toks := place_leaves 0 (file_tokens pre body post)).
  assert (G : forall i a, nth_error (at_args attr) i = Some a -> exists d, wildcard_diag toks attr a = Done d /\ wildcard_fixed attr pre body post cores i d).
  { intros i a Ei. assert (Hi : i < length cores) by (rewrite <- Hlen; apply nth_error_Some; congruence).
    destruct (nth_error cores i) as [c|] eqn:Ec; [|apply nth_error_None in Ec; lia].
    assert (Hpc : plain_argument c) by (rewrite Forall_forall in Hp; apply Hp; apply nth_error_In in Ec; exact Ec).
    destruct (C40_others_stay_partial px syn attr pre body post cores b i c Hc Ht H Hl Ec Hpc) as (a' & r & body' & b' & Ea' & Er & Hs & Hl' & _).
    rewrite Ei in Ea'. injection Ea' as <-.
    destruct (removal_exact px pre body post cores b attr H Hl Ha) as (ps & _ & _ & _ & Hx). destruct (Hx i c Ec Hpc) as (a' & B1 & t1 & t2 & B2 & r' & Ea' & _ & _ & _ & _ & _ & _ & (E & Em) & _).
    rewrite Ei in Ea'. injection Ea' as <-. unfold wildcard_diag. unfold toks. rewrite Er. cbn [obind_o]. rewrite Em. cbn [obind_o]. eexists. split; [reflexivity|]. split; [reflexivity|].
    split; [exists a; split; [exact Ei | exact Em]|]. exists (edit_delete r), body', b'. split; [reflexivity|]. split; [exact Hs | exact Hl']. }
  assert (L : forall l k, (forall i a, nth_error l i = Some a -> nth_error (at_args attr) (k + i) = Some a) ->
    exists ds is, all_done (map (wildcard_diag toks attr) (filter has_wildcard l)) = Done ds /\ Forall2 (wildcard_fixed attr pre body post cores) is ds
      /\ StronglySorted lt is /\ Forall (fun i => k <= i) is /\ (forall i, In (k + i) is <-> exists a, nth_error l i = Some a /\ has_wildcard a = true)).
  { induction l as [|a l IH]; intros k Hk.
    - exists [], []. split; [reflexivity|]. split; [constructor|]. split; [constructor|]. split; [constructor|]. intros i. split; [intros []|]. intros (a & E & _). destruct i; discriminate.
    - destruct (IH (S k)) as (ds & is & H1 & H2 & H3 & H4 & H5); [intros i x Ex; rewrite <- (Hk (S i) x Ex); f_equal; lia|].
      assert (H0 : nth_error (at_args attr) k = Some a) by (rewrite <- (Hk 0 a eq_refl); f_equal; lia).
      assert (Hn : ~ In k is) by (intros C; rewrite Forall_forall in H4; apply H4 in C; lia).
      cbn [filter]. destruct (has_wildcard a) eqn:Ew.
      + destruct (G k a H0) as (d & Ed & Hd). exists (d :: ds), (k :: is). cbn [map all_done]. rewrite Ed. cbn [obind_o]. rewrite H1. split; [reflexivity|]. split; [constructor; assumption|].
        split; [constructor; [exact H3|]; rewrite Forall_forall in *; intros x Hx; apply H4 in Hx; lia|]. split; [constructor; [lia|]; rewrite Forall_forall in *; intros x Hx; apply H4 in Hx; lia|].
        intros [|i]; [rewrite Nat.add_0_r; split; [intros _; exists a; auto | intros _; left; reflexivity]|]. cbn [nth_error In]. rewrite <- H5. replace (k + S i) with (S k + i) by lia. split; [intros [C|C]; [lia | exact C] | intros C; right; exact C].
      + exists ds, is. split; [exact H1|]. split; [exact H2|]. split; [exact H3|]. split; [rewrite Forall_forall in *; intros x Hx; apply H4 in Hx; lia|].
        intros [|i]; [rewrite Nat.add_0_r; split; [intros C; destruct (Hn C) | intros (x & [= <-] & C); congruence]|]. cbn [nth_error]. rewrite <- H5. replace (k + S i) with (S k + i) by lia. reflexivity. }
  destruct (L (at_args attr) 0 (fun i a E => E)) as (ds & is & H1 & H2 & H3 & _ & H5). exists ds, is.
  split; [unfold wildcard_diags; cbn [flat_map]; rewrite app_nil_r; exact H1|]. split; [exact H2|]. split; [exact H3|].
  intros i. rewrite (H5 i). unfold wildcard_at. split.
  - intros (a & Ea & Hw). apply has_wildcard_spec in Hw. destruct Hw as (v & t & Hv & Hs). exists a, v, t. auto.
  - intros (a & v & t & Ea & Hv & Hs). exists a. split; [exact Ea|]. apply has_wildcard_spec. eauto.
Qed.

(** C89. If it is the only argument, the whole attribute is removed. *)
Theorem C89_only_wildcard px syn attr k pre body post c :
  attr_cast px syn = Some attr -> as_token_tree syn = Some (tree_at pre body) -> at_kind attr = AkArg k ->
  listed [c] false body -> wildcard_at attr 0 -> (exists a r, at_args attr = [a] /\ meta_range a = Done r) ->
  exists d, wildcard_diags (place_leaves 0 (file_tokens pre body post)) [attr] = Done [d] /\ cd_rule d = CWildcard
    /\ cd_fix d = Some [edit_delete (as_range syn)].
Proof.
  intros Hc Ht Hk H (a & v & t & Ea & Hv & Hs) (a1 & r & E1 & Em). destruct (C40_only_argument px syn attr pre body post c false Hc Ht H ltac:(discriminate)) as (a2 & E2 & Hr). rewrite Hk in Hr.
  rewrite E1 in E2, Ea. injection E2 as <-. injection Ea as <-.
  unfold wildcard_diags. cbn [flat_map]. rewrite E1. cbn [filter]. assert (W : has_wildcard a1 = true) by (apply has_wildcard_spec; eauto). rewrite W. cbn [map app all_done]. unfold wildcard_diag. rewrite Hr. cbn [obind_o].
  rewrite Em. eexists. split; [reflexivity|]. split; reflexivity.
Qed.
Lemma dec_argument id : argument (extension_argument id).
Proof.
  assert (D : dec id <> []) by (destruct (dec id) eqn:E; [destruct (dec_nonempty id); exact E | discriminate]).
  split; [|split].
  - repeat (constructor; [split; [apply bal_tok; first [discriminate | exact D] | discriminate]|]). constructor.
  - eexists _, _. split; reflexivity.
  - exists [Tok IDENT (lit "extension"); sp; Tok EQ (lit "="); sp]. eexists. split; reflexivity.
Qed.
Lemma plain_affix x : In x [None; Some (lit "("); Some (lit ")"); Some comma_sp] -> ~ In 36%N (or_else x []).
Proof. intros H C. repeat (destruct H as [<-|H]; [vm_compute in C; intuition discriminate|]). destruct H. Qed.
Lemma sep_affix ks x : In (sep_unless ks x) [None; Some (lit "("); Some (lit ")"); Some comma_sp].
Proof. unfold sep_unless. destruct x as [x|]; [destruct (is_kind ks x)|]; cbn [In]; auto 6. Qed.
Lemma oor_affix (L : list (option str)) x y : In x L -> In y L -> In (oor x y) L.
Proof. destruct x; cbn [oor]; auto. Qed.
Lemma affixes toks rb tt primary n p s : arg_insert_place toks rb tt primary = Some (n, (p, s)) -> ~ In 36%N (or_else p []) /\ ~ In 36%N (or_else s []).
Proof.
  assert (N : forall ks (x : option leaf) f, In (obind x (fun p => sep_unless ks (f p))) [None; Some (lit "("); Some (lit ")"); Some comma_sp]).
  { intros ks x f. destruct x; cbn [obind]; [apply sep_affix | left; reflexivity]. }
  unfold arg_insert_place. destruct rb as [rb|]; [|discriminate]. destruct tt as [t|].
  - intros [= _ <- <-]. split; apply plain_affix.
    + destruct (child_token L_PAREN t); [destruct primary; [left; reflexivity | apply oor_affix; [apply N | apply sep_affix]] | cbn [In]; auto].
    + destruct (child_token R_PAREN t); [destruct primary; [apply oor_affix; [apply N | apply sep_affix] | left; reflexivity] | cbn [In]; auto].
  - intros [= _ <- <-]. split; apply plain_affix; cbn [In]; auto.
Qed.
Lemma suggested ids : id_suggested ids (match suggest_unique_id U16_MAX None ids with Found n => n | _ => 1%N end).
Proof.
  pose proof (suggest_unique_id_spec U16_MAX None ids) as H. cbv zeta iota in H. specialize (H ltac:(vm_compute; discriminate)).
  destruct (suggest_unique_id U16_MAX None ids); [left; exact H | right; auto | destruct H].
Qed.
Lemma extension_text id : texts_of (extension_argument id) = lit "extension = " ++ dec id.
Proof. unfold extension_argument, texts_of. cbn [flat_map text_of sp]. rewrite app_nil_r. reflexivity. Qed.
Lemma id_inserted attrs rg toks rb tt ids p before after : arg_by_kind attrs AExtension = None ->
  arg_insert_place toks rb tt false = Some p ->
  let id := match suggest_unique_id U16_MAX None ids with Found n => n | _ => 1%N end in
  applied before (insert_edit p (texts_of (extension_argument id))) after ->
  id_reported rg before after (extension_arg attrs rg (arg_insert_place toks rb tt false) ids).
Proof.
  intros Ha Hp id Hx. unfold extension_arg. rewrite Ha, Hp. cbn [is_some option_map]. fold id. destruct p as [n [p s]]. destruct (affixes _ _ _ _ _ _ _ Hp) as [A B].
  eexists. split; [reflexivity|]. rewrite extension_text in Hx. unfold insert_edit in Hx. cbn [te_snippet te_text edit_insert_snippet].
  split.
  - unfold applied in *. cbn [te_range te_text edit_insert_snippet] in *. destruct Hx as (a & m & z & E1 & E2 & E3 & E4). exists a, m, z. split; [exact E1|]. split; [exact E2|]. split; [exact E3|]. rewrite E4.
    unfold edit_insert_snippet. cbn [te_text]. unfold or_else. rewrite <- !app_assoc. reflexivity.
  - eexists. split; [reflexivity|]. apply fills_before; [exact A|].
    assert (F : fills (lit "extension = " ++ lit "${" ++ dec 1 ++ lit ":" ++ dec id ++ lit "}" ++ or_else s []) (lit "extension = " ++ dec id ++ or_else s [])).
    { apply fills_before; [vm_compute; intuition discriminate|]. apply fills_hole; [apply dec_no_brace | apply fills_plain, B]. }
    exact F.
Qed.

(** C89. A chain extension for ink! 5 without an [extension] argument is reported at its attribute; the fix adds the
    argument behind the others, with the least id no chain extension of the file uses. *)
Theorem C89_extension_argument attrs rg pre body post rb ids cores b : listed cores b body ->
  (b = true -> exists body0, body = body0 ++ [comma]) -> (cores = [] -> body = []) ->
  let ds := extension_arg attrs rg (arg_insert_place (place_leaves 0 (file_tokens pre body post)) (Some rb) (Some (tree_at pre body)) false) ids in
  ((exists a, arg_by_kind attrs AExtension = Some a) -> ds = [])
  /\ (arg_by_kind attrs AExtension = None -> exists id body',
      id_suggested ids id /\ listed (cores ++ [extension_argument id]) false body' /\ id_reported rg (file_text pre body post) (file_text pre body' post) ds).
Proof.
  intros H Hb Hc ds. split; [intros (a & E); unfold ds, extension_arg; rewrite E; reflexivity|]. intros Ha.
  set (id := match suggest_unique_id U16_MAX None ids with Found n => n | _ => 1%N end).
  destruct (C42_inserted_last_partial pre body post rb cores b (extension_argument id) H (dec_argument id) Hb Hc) as (p & body' & Ep & Hx & Hl).
  exists id, body'. split; [apply suggested|]. split; [exact Hl|]. exact (id_inserted _ _ _ _ _ _ _ _ _ Ha Ep Hx).
Qed.
(** C89. The same for an attribute without arguments. *)
Theorem C89_extension_argument_alone attrs rg pre post toks bracket ids : arg_by_kind attrs AExtension = None ->
  exists id, id_suggested ids id
    /\ id_reported rg (text (pre ++ bracket :: post)) (file_text pre (extension_argument id) (bracket :: post))
         (extension_arg attrs rg (arg_insert_place toks (Some (bytes (text pre), bracket)) None false) ids).
Proof.
  intros Ha. set (id := match suggest_unique_id U16_MAX None ids with Found n => n | _ => 1%N end).
  destruct (C42_list_added pre post toks None false (extension_argument id) bracket) as (_ & p & Ep & Hx).
  exists id. split; [apply suggested|]. exact (id_inserted _ _ _ _ _ _ _ _ _ Ha Ep Hx).
Qed.

(** ** C90 *)

(** C90. An associated type of a chain extension is reported once for each thing that is wrong with it, at that part; the
    fix mends it (see below) and changes nothing else. *)
Theorem C90_alias pre post a toks tr : alias_ok a -> name_ok (al_name a) ->
  exists ds, alias_diags toks tr (at_place pre (alias_tree a)) = Done ds
    /\ NoDup (map cd_rule ds) /\ (forall r, In r (map cd_rule ds) <-> alias_wrong a r)
    /\ Forall (fun d => ok_marks pre a d /\ (fixable a (cd_rule d) -> ok_fix pre post a d)) ds.
Proof.
  intros Hok Hn. destruct (good_name pre post a Hok Hn toks tr) as (l1 & E1 & G1). destruct (good_generics pre post a Hok) as (l2 & E2 & G2).
  destruct (good_bounds pre post a Hok) as (l3 & E3 & G3). pose proof (good_type pre post a Hok) as G4.
  unfold alias_diags. rewrite E1. cbn [obind_o]. rewrite E2. cbn [obind_o]. rewrite E3. cbn [obind_o]. eexists. split; [reflexivity|].
  set (l4 := alias_type (at_place pre (alias_tree a))) in *. clearbody l4.
  assert (R : forall r l, good pre post a r l -> NoDup (map cd_rule l) /\ (forall x, In x (map cd_rule l) <-> x = r /\ alias_wrong a r)
            /\ Forall (fun d => ok_marks pre a d /\ (fixable a (cd_rule d) -> ok_fix pre post a d)) l).
  { intros r l [[-> Hw]|(d & -> & Er & Hw & Hm & Hf)].
    - split; [constructor|]. split; [|constructor]. intros x. split; [intros [] | intros [_ C]; contradiction].
    - cbn [map]. split; [constructor; [intros [] | constructor]|]. split; [|constructor; [rewrite Er; auto | constructor]]. intros x. cbn [In]. rewrite Er. intuition congruence. }
  destruct (R _ _ G1) as (N1 & I1 & F1). destruct (R _ _ G2) as (N2 & I2 & F2). destruct (R _ _ G3) as (N3 & I3 & F3). destruct (R _ _ G4) as (N4 & I4 & F4).
  rewrite !map_app. split; [|split].
  - assert (AP : forall (x y : list crule), NoDup x -> NoDup y -> (forall r, In r x -> ~ In r y) -> NoDup (x ++ y)).
    { induction x as [|r x IH]; intros y Hx Hy Hd; [exact Hy|]. inversion Hx; subst. cbn [app]. constructor; [intros C; apply in_app_or in C; destruct C as [C|C]; [contradiction|]; apply (Hd r); [left; reflexivity | exact C]|].
      apply IH; [assumption | exact Hy|]. intros z Hz. apply Hd. right. exact Hz. }
    apply AP; [exact N1 | apply AP; [exact N2 | apply AP; [exact N3 | exact N4|]|]|].
    + intros r H3 H4. apply I3 in H3. apply I4 in H4. destruct H3 as [-> _]. destruct H4 as [[=] _].
    + intros r H2 H. apply I2 in H2. destruct H2 as [-> _]. apply in_app_or in H. destruct H as [H|H]; [apply I3 in H | apply I4 in H]; destruct H as [[=] _].
    + intros r H1 H. apply I1 in H1. destruct H1 as [-> _]. apply in_app_or in H. destruct H as [H|H]; [apply I2 in H | apply in_app_or in H; destruct H as [H|H]; [apply I3 in H | apply I4 in H]]; destruct H as [[=] _].
  - intros r. rewrite !in_app_iff, I1, I2, I3, I4. split; [intuition congruence|]. intros H. inversion H; subst; intuition.
  - apply Forall_app. split; [exact F1|]. apply Forall_app. split; [exact F2|]. apply Forall_app. split; [exact F3 | exact F4].
Qed.
(** C90. What a fix is for is no longer wrong, and nothing else becomes wrong. *)
Theorem C90_fixed a r a' : alias_ok a -> alias_fixed a r a' ->
  alias_ok a' /\ ~ alias_wrong a' r /\ forall r', r' <> r -> (alias_wrong a' r' <-> alias_wrong a r').
Proof.
  intros (H1 & H2 & H3 & H4 & H5) H. assert (Hsp : blank [sp]) by (constructor; [exists WHITESPACE, (lit " "); repeat split; discriminate | constructor]).
  inversion H as [n g h E Hg Hh|E|g cs h E|g h E Es|E Eb Es|g cs h E Eb Es]; subst; unfold alias_ok; cbn [al_front al_name al_generics al_gap al_bounds al_value al_semi].
  - split; [split; [exact H1|]; split; [right; exists g, (lit "ErrorCode"), h; repeat split; [exact Hg | exact Hh | discriminate]|]; auto|]. split.
    + intros W. inversion W as [W'| | |]. apply W'. exists g, h. auto.
    + intros r' Hr. split; intros W; inversion W; subst; try congruence; econstructor; eassumption.
  - split; [repeat (split; [assumption|]); assumption|]. split; [intros W; inversion W; discriminate|].
    intros r' Hr. split; intros W; inversion W; subst; try congruence; econstructor; eassumption.
  - rewrite E in H4. destruct H4 as [H4 H4']. split; [split; [exact H1|]; split; [exact H2|]; split; [apply blank_app; auto|]; split; [exact I | exact H5]|]. split; [intros W; inversion W; discriminate|].
    intros r' Hr. split; intros W; inversion W; subst; try congruence; econstructor; eassumption.
  - rewrite E in H5. destruct H5 as (Hg & Hh & _). split; [repeat (split; [assumption|]); split; [apply blank_nil|]; split; [apply blank_app; auto | split; reflexivity]|].
    split; [intros W; inversion W as [| | |W']; exact (W' _ _ _ eq_refl)|]. intros r' Hr. split; intros W; inversion W; subst; try congruence; econstructor; eassumption.
  - split; [split; [exact H1|]; split; [exact H2|]; split; [apply blank_app; auto|]; split; [exact I|]; split; [exact Hsp|]; split; [apply blank_nil | split; reflexivity]|].
    split; [intros W; inversion W as [| | |W']; exact (W' _ _ _ eq_refl)|]. intros r' Hr. split; intros W; inversion W; subst; try congruence; try (econstructor; eassumption); cbn in *; congruence.
  - rewrite Eb in H4. destruct H4 as [Hg Hh]. split; [repeat (split; [assumption|]); split; [split; [exact Hg | apply blank_app; auto]|]; split; [exact Hsp|]; split; [apply blank_nil | split; reflexivity]|].
    split; [intros W; inversion W as [| | |W']; exact (W' _ _ _ eq_refl)|]. intros r' Hr. split; intros W; inversion W; subst; try congruence; econstructor; try eassumption; reflexivity.
Qed.
(** C90. A type without a name is reported at the declaration of the trait, without a fix. *)
Theorem C90_no_name pre post prepos K front head l tail cs : trait_head front head -> trait_tail tail -> (forall n, ~ In (Node NAME n) cs) ->
  let item := item_with K ASSOC_ITEM_LIST (front ++ head) l tail in
  exists rg, alias_name (file_leaves pre item post) (at_place pre item) (prepos, Node TYPE_ALIAS cs) = Done [CDiag CName rg None]
    /\ marks pre item (leaves_of (declaration front head)) rg.
Proof.
  intros Hh Ht Hn item. destruct (trait_range_spec pre post K front head l tail Hh Ht) as (rg & Er & Hm). exists rg. split; [|exact Hm].
  unfold alias_name, is_error_code, node_name. rewrite child_node_none.
  - cbn [option_map]. unfold item. rewrite Er. reflexivity.
  - apply forallb_forall. intros e He. apply Bool.negb_true_iff. unfold node_of. destruct e as [k s|k c]; [reflexivity|]. cbn [is_tok negb andb kind_of].
    destruct (skind_eqb k NAME) eqn:E; [|reflexivity]. apply skind_eqb_eq in E. subst k. destruct (Hn c He).
Qed.
(** C90. A chain extension with types called [ErrorCode]: all but the first are reported, each where it is; the fix deletes
    it. *)
Theorem C90_superfluous U pre post prev K head l tail : heads ASSOC_ITEM_LIST head -> (exists e, In e l /\ error_code e) ->
  let item := item_with K ASSOC_ITEM_LIST head l tail in
  exists ds ps, quantity_diags U (file_leaves pre item post) (placed pre prev K ASSOC_ITEM_LIST head l tail) = Done ds
    /\ later error_code false [] l ps /\ Forall2 (superfluous pre post head tail) ps ds.
Proof.
  intros Hh (e & He & Hc) item. unfold quantity_diags, placed. cbn [im_item]. rewrite list_child by exact Hh. rewrite codes_at.
  pose proof (first_code pre post head tail l []) as H. rewrite lens_nil, Nat.add_0_r in H. destruct (filter is_code _) as [|c more].
  - destruct (H e He Hc).
  - destruct H as (_ & ps & H1 & H2). eexists _, ps. split; [reflexivity|]. split; [exact H1 | exact H2].
Qed.
(** C90. A chain extension without such a type is reported at the declaration; the fix adds one at the start. *)
Theorem C90_no_error_code U pre post prev K front head l tail : unicode_ok U -> blank_prev U prev -> trait_head front head -> trait_tail tail ->
  (forall e, In e l -> ~ error_code e) ->
  let item := item_with K ASSOC_ITEM_LIST (front ++ head) l tail in
  exists rg i edit, quantity_diags U (file_leaves pre item post) (placed pre prev K ASSOC_ITEM_LIST (front ++ head) l tail) = Done [CDiag CNoErrorCode rg (Some [edit])]
    /\ marks pre item (leaves_of (declaration front head)) rg
    /\ body_indent prev i /\ writes U [] i [] NErrorCode [] edit /\ inserts pre post K ASSOC_ITEM_LIST (front ++ head) [] l tail edit.
Proof.
  intros HU Hp Hh Ht Hn item. assert (Hl : heads ASSOC_ITEM_LIST (front ++ head)).
  { destruct Hh as (Hf & _ & _ & _ & Hl). intros cs C. apply in_app_or in C. destruct C as [C|C]; [exact (front_no_list front Hf cs C) | exact (Hl cs C)]. }
  unfold quantity_diags, placed. cbn [im_item]. rewrite list_child by exact Hl. rewrite codes_at.
  pose proof (first_code pre post (front ++ head) tail l []) as H. rewrite lens_nil, Nat.add_0_r in H. destruct (filter is_code _) as [|c more].
  - destruct (trait_range_spec pre post K front head l tail Hh Ht) as (rg & Er & Hm). unfold item. rewrite Er. cbn [obind_o].
    destruct (C87_error_code U pre post prev K (front ++ head) l tail None [] HU Hl Hp) as (i & edit & E & Hi & Hw & a & b & El & Ea & Hg). unfold placed in E. rewrite E. cbn [option_map].
    exists rg, i, edit. split; [reflexivity|]. split; [exact Hm|]. split; [exact Hi|]. split; [exact Hw|]. subst a. cbn [app] in El. subst b. exact Hg.
  - destruct H as ((e & He & Hc) & _). destruct (Hn e He Hc).
Qed.

(** ** Examples *)
Definition ex_ink (arg : string) : elem := Node ATTR [Tok POUND (lit "#"); Tok L_BRACK (lit "["); Tok IDENT (lit "ink"); Node TOKEN_TREE [Tok L_PAREN (lit "("); Tok IDENT (lit arg); Tok R_PAREN (lit ")")]; Tok R_BRACK (lit "]")].
Definition ex_read : reader := fun e =>
  if str_eqb (text_of e) (lit "#[ink(extension)]") then Some (Seen (AkArg AExtension) [AExtension])
  else if str_eqb (text_of e) (lit "#[ink(function)]") then Some (Seen (AkArg AFunction) [AFunction])
  else if str_eqb (text_of e) (lit "#[ink(topic)]") then Some (Seen (AkArg ATopic) [ATopic])
  else None.
Definition ex_method (front : list elem) : method := Method front [Tok FN_KW (lit "fn"); sp; ex_name (lit "f"); Node PARAM_LIST [Tok L_PAREN (lit "("); Tok R_PAREN (lit ")")]] WithoutBody.
Lemma ex_ink_solid arg : lit arg <> [] -> exists cs, ex_ink arg = Node ATTR cs /\ solid cs.
Proof.
  intros H. eexists. split; [reflexivity|]. split; [|split].
  - unfold tokens_ok. cbn. repeat (constructor; [first [discriminate | exact H]|]). constructor.
  - eexists _, _. split; reflexivity.
  - exists [(POUND, lit "#"); (L_BRACK, lit "["); (IDENT, lit "ink"); (L_PAREN, lit "("); (IDENT, lit arg); (R_PAREN, lit ")")], (R_BRACK, lit "]"). split; reflexivity.
Qed.
Lemma ex_method_ok arg : lit arg <> [] -> method_ok (ex_method [ex_ink arg; sp]).
Proof.
  intros H. unfold method_ok, ex_method. cbn [me_front me_head]. split; [|split; [|split; [|split; [|split]]]].
  - constructor; [left; apply ex_ink_solid, H|]. constructor; [right; exists WHITESPACE, (lit " "); repeat split; discriminate | constructor].
  - eexists _, _. split; reflexivity.
  - repeat (constructor; [intros c [=]|]). constructor.
  - intros cs C. cbn in C. intuition discriminate.
  - intros cs C. cbn in C. intuition discriminate.
  - intros cs C. cbn in C. intuition discriminate.
Qed.
(** [#[ink(function)] fn f(); #[ink(topic)] fn f(); #[ink(topic)] fn f();] with the id 1 in use *)
Definition ex_places (args : list string) : list (list (skind * str) * method * list (skind * str)) :=
  let m a := ex_method [ex_ink a; sp] in
  map (fun i => (flat_map (fun a => leaves (method_tree (m a))) (firstn i args), m (nth i args EmptyString), flat_map (fun a => leaves (method_tree (m a))) (skipn (S i) args)))
    (seq 0 (length args)).
Definition ex_toks (args : list string) : list (skind * str) := flat_map (fun a => leaves (method_tree (ex_method [ex_ink a; sp]))) args.
Definition fix_texts (ds : outcome (list cdiag)) : list (list str) :=
  match ds with Done ds => map (fun d => match cd_fix d with Some es => map te_text es | None => [] end) ds | Panic => [] end.
Example C89_example : let args := ["function"; "topic"; "topic"]%string in
  Forall (in_place (ex_toks args)) (ex_places args)
  /\ fix_texts (chain_fns V5 ex_read (place_leaves 0 (ex_toks args)) [1%N] (map placed_at (ex_places args)))
     = [[lit "#[ink(function = 2)]"; []]; [lit "#[ink(function = 3)]"; []]].
Proof.
  split; [|vm_compute; reflexivity]. unfold ex_places. cbn [length seq map].
  repeat (constructor; [split; [reflexivity | apply ex_method_ok; discriminate]|]). constructor.
Qed.
(** C89 is false for the least id if a function for ink! 5 has the [extension] argument: that function uses up an id. *)
Theorem C89_least_refuted : exists toks places,
  Forall (in_place toks) places
  /\ fix_texts (chain_fns V5 ex_read (place_leaves 0 toks) [] (map placed_at places)) = [[id_attribute V5 2; []]].
Proof.
  exists (ex_toks ["extension"; "topic"]%string), (ex_places ["extension"; "topic"]%string). split; [|vm_compute; reflexivity].
  unfold ex_places. cbn [length seq map]. repeat (constructor; [split; [reflexivity | apply ex_method_ok; discriminate]|]). constructor.
Qed.
(** C89 is false for the fixes of two rules: of three functions with the ids 1 and 1 and without id, the fix for the
    second (C37) and the one for the third suggest the same id. *)
Definition ex_id (n : N) : CallableModel.callable :=
  Callable [InkAttr (AkArg AFunction)
              [Meta (MOk (0, Tok IDENT (lit "function"))) (Some (9, Tok EQ (lit "="))) (MOk (MValue [(10, Tok INT_NUMBER (dec n))] None (Some (VELiteral INT_NUMBER (dec n))))) None 0 None]
              (AttrSyntax [] None (0, 20)) None] None None (0, 50) None.
Theorem C89_same_id_refuted : exists fns toks place,
  in_place toks place
  /\ map snd (overlapping_ids V5 fns) = [Some 2%N]
  /\ fix_texts (chain_fns V5 ex_read (place_leaves 0 toks) (filter_map (fn_id V5) fns) [placed_at place]) = [[id_attribute V5 2; []]].
Proof.
  exists [ex_id 1; ex_id 1], (ex_toks ["topic"]%string), ([], ex_method [ex_ink "topic"; sp], []).
  split; [split; [reflexivity | apply ex_method_ok; discriminate]|]. split; vm_compute; reflexivity.
Qed.
(** [type E<T>: B;] *)
Definition ex_alias : ChainSpec.alias :=
  Alias [] [sp; ex_name (lit "E")] (Some [Tok (OTHER 1) (lit "<"); ex_name (lit "T"); Tok (OTHER 2) (lit ">")]) [] (Some ([sp], [Tok IDENT (lit "B")], [])) None true.
Example C90_alias_example : alias_ok ex_alias /\ name_ok (al_name ex_alias)
  /\ match alias_diags (file_leaves [] (alias_tree ex_alias) []) (at_place [] (alias_tree ex_alias)) (at_place [] (alias_tree ex_alias)) with
     | Done ds => map cd_rule ds = [CName; CGenerics; CBounds; CNoType]
     | Panic => False
     end.
Proof.
  assert (B : blank [sp]) by (constructor; [exists WHITESPACE, (lit " "); repeat split; discriminate | constructor]).
  assert (N : name_ok (al_name ex_alias)).
  { exists [sp], (lit "E"), []. split; [reflexivity|]. split; [exact B|]. split; [constructor | discriminate]. }
  split; [|split; [exact N | vm_compute; reflexivity]]. split; [constructor|]. split; [right; exact N|]. split; [constructor|]. split; [split; [exact B | constructor] | exact I].
Qed.
(** C90 is false for a missing type with neither [=] nor [;]: the type is inserted in front of the keyword. *)
Theorem C90_type_refuted : exists a d edits, alias_ok a /\ name_ok (al_name a)
  /\ in_file [] (alias_tree a) [] = lit "type ErrorCode"
  /\ alias_diags (file_leaves [] (alias_tree a) []) (at_place [] (alias_tree a)) (at_place [] (alias_tree a)) = Done [d]
  /\ cd_fix d = Some edits /\ effect (lit "type ErrorCode") edits (lit " = ();type ErrorCode").
Proof.
  assert (B : blank [sp]) by (constructor; [exists WHITESPACE, (lit " "); repeat split; discriminate | constructor]).
  set (a := Alias [] [sp; ex_name (lit "ErrorCode")] None [] None None false).
  assert (N : name_ok (al_name a)).
  { exists [sp], (lit "ErrorCode"), []. split; [reflexivity|]. split; [exact B|]. split; [constructor | discriminate]. }
  exists a. eexists _, _. split; [split; [constructor|]; split; [right; exact N|]; split; [constructor|]; split; exact I|]. split; [exact N|]. split; [reflexivity|]. split; [vm_compute; reflexivity|]. split; [reflexivity|].
  eexists. split; [reflexivity|]. exists [], [], (lit "type ErrorCode"). repeat split.
Qed.
(** [trait T { type ErrorCode; type ErrorCode; }] *)
Definition ex_code : elem := alias_tree (Alias [] [sp; ex_name (lit "ErrorCode")] None [] None None true).
Example C90_quantity_example : error_code ex_code /\ trait_head [ex_ink "a"; sp] [Tok TRAIT_KW (lit "trait"); sp; ex_name (lit "T"); sp] /\ trait_tail [].
Proof.
  split; [|split].
  - eexists. split; [reflexivity|]. exists [Tok TYPE_KW (lit "type"); sp], [Tok IDENT (lit "ErrorCode")], [Tok SEMICOLON (lit ";")]. split; [reflexivity|]. split; [intros ns C; cbn in C; intuition discriminate | reflexivity].
  - split; [|split; [|split; [|split]]].
    + constructor; [left; apply ex_ink_solid; discriminate|]. constructor; [right; exists WHITESPACE, (lit " "); repeat split; discriminate | constructor].
    + eexists _, _. split; reflexivity.
    + repeat (constructor; [intros c [=]|]). constructor.
    + intros cs C. cbn in C. intuition discriminate.
    + intros cs C. cbn in C. intuition discriminate.
  - split; [constructor | intros cs []].
Qed.

Print Assumptions C89_functions.
Print Assumptions C89_trait_functions.
Print Assumptions C89_wildcards_each.
Print Assumptions C89_wildcards.
Print Assumptions C89_only_wildcard.
Print Assumptions C89_extension_argument.
Print Assumptions C89_extension_argument_alone.
Print Assumptions C89_least_refuted.
Print Assumptions C89_same_id_refuted.
Print Assumptions C90_alias.
Print Assumptions C90_fixed.
Print Assumptions C90_no_name.
Print Assumptions C90_superfluous.
Print Assumptions C90_no_error_code.
Print Assumptions C90_type_refuted.
