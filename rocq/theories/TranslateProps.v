(** Properties C55, C57 (code actions and client capabilities) and C15 (signature help, LSP side). *)
From Verif Require Import Base BaseFacts PositionModel PositionSpec PositionProofs TranslateModel TranslateSpec TranslateProofs.

(** C55. An action is dropped iff it is not a migrate/extract trigger and none of its edits can be translated. *)
Theorem C55_action_dropped_iff : forall ctx u res a,
  to_lsp_code_action ctx u res a = None <->
  (ac_kind a = AkQuickFix \/ ac_kind a = AkRefactor) /\
  (forall e, In e (ac_edits a) -> to_lsp_range ctx (te_range e) = None).
Proof.
  intros ctx u res a. rewrite to_lsp_code_action_none. unfold lsp_edits. rewrite filter_map_nil.
  split; intros [H1 H2]; (split; [destruct (ac_kind a); simpl in *; intuition congruence|]);
    intros e He; specialize (H2 e He); destruct (to_lsp_range ctx (te_range e)); congruence.
Qed.
Print Assumptions C55_action_dropped_iff.

(** C55. Triggers carry no edit; they use the resolve data iff the client can resolve edits, else a command;
    both carry the document and the range. *)
Definition started_command (k : action_kind) : str :=
  match k with AkMigrate => lit "migrateProject" | _ => lit "extractEvent" end.
Theorem C55_trigger_mechanism : forall ctx u res a x,
  ac_kind a = AkMigrate \/ ac_kind a = AkExtract ->
  to_lsp_code_action ctx u res a = Some x ->
  la_title x = ac_label a /\ la_edit x = None
  /\ (res = true -> la_command x = None /\ exists d, la_data x = Some d
        /\ jget (lit "command") d = Some (JStr (started_command (ac_kind a)))
        /\ jget (lit "uri") d = Some (JStr u)
        /\ jget (lit "range") d = Some (range_json (ac_range a)))
  /\ (res = false -> la_data x = None /\ exists d, la_command x
        = Some (LspCommand (ac_label a) (started_command (ac_kind a)) [d])
        /\ jget (lit "uri") d = Some (JStr u)
        /\ jget (lit "range") d = Some (range_json (ac_range a))).
Proof.
  intros ctx u res a x Hk. assert (E : started_command (ac_kind a) = trigger_command (ac_kind a)) by (destruct Hk as [-> | ->]; reflexivity).
  rewrite E. apply to_lsp_code_action_trigger. destruct Hk as [-> | ->]; reflexivity.
Qed.
Print Assumptions C55_trigger_mechanism.

(** C55. Other actions carry an edit of this document only: the plain texts of the translatable edits, in order,
    at their translated ranges; no command; snippets are only offered in the data. *)
Theorem C55_edit_action : forall ctx u res a x,
  ac_kind a = AkQuickFix \/ ac_kind a = AkRefactor ->
  to_lsp_code_action ctx u res a = Some x ->
  la_title x = ac_label a /\ la_command x = None
  /\ la_edit x = Some (u, lsp_edits ctx (ac_edits a)) /\ lsp_edits ctx (ac_edits a) <> []
  /\ (edit_snippets ctx (ac_edits a) = [] -> la_data x = None)
  /\ (edit_snippets ctx (ac_edits a) <> [] ->
        exists m, la_data x = Some (JObj [(lit "snippets", JObj m)])
        /\ forall t, assoc t m =
             match last_opt (filter (fun p => str_eqb t (fst p)) (edit_snippets ctx (ac_edits a))) with
             | Some p => Some (JStr (snd p)) | None => None end).
Proof.
  intros ctx u res a x Hk. apply to_lsp_code_action_edit. destruct Hk as [-> | ->]; reflexivity.
Qed.
Print Assumptions C55_edit_action.

(** C55. No edit on character boundaries of the document is lost or altered. *)
Theorem C55_no_edit_lost : forall k t es,
  (forall e, In e es -> on_boundaries t e) ->
  Forall2 (fun e le => le_new_text le = te_text e
       /\ to_lsp_range (new_context t k) (te_range e) = Some (le_range le)) es (lsp_edits (new_context t k) es).
Proof. exact lsp_edits_all. Qed.
Print Assumptions C55_no_edit_lost.

Example C55_ex :
  let a := Action (lit "Fix") AkQuickFix (0, 1) [TextEdit (lit "x") (0, 1) None; TextEdit (lit "y") (1, 1) (Some (lit "$1"))] in
  (forall e, In e (ac_edits a) -> on_boundaries (lit "ab") e)
  /\ exists x, to_lsp_code_action (new_context (lit "ab") UTF16) (lit "file:///a.rs") true a = Some x.
Proof.
  split; [|eexists; reflexivity].
  intros e [<-|[<-|[]]]; split.
  - exists []; split; [exists (lit "ab"); reflexivity | reflexivity].
  - exists (lit "a"); split; [exists (lit "b"); reflexivity | reflexivity].
  - exists (lit "a"); split; [exists (lit "b"); reflexivity | reflexivity].
  - exists (lit "a"); split; [exists (lit "b"); reflexivity | reflexivity].
Qed.

(** C55. Snippet text is used only with snippet support, and the item is then marked accordingly. *)
Theorem C55_completion_snippets : forall ctx sup c x,
  to_lsp_completion ctx sup c = Some x ->
  lc_label x = co_label c
  /\ to_lsp_range ctx (co_range c) = Some (le_range (lc_edit x))
  /\ (le_new_text (lc_edit x) = te_text (co_edit c) \/
      (sup = true /\ te_snippet (co_edit c) = Some (le_new_text (lc_edit x)) /\ lc_snippet_format x = Some true))
  /\ (sup = false -> lc_snippet_format x = None /\ le_new_text (lc_edit x) = te_text (co_edit c))
  /\ (lc_snippet_format x = Some true -> te_snippet (co_edit c) = Some (le_new_text (lc_edit x))).
Proof.
  intros ctx sup c x. unfold to_lsp_completion.
  destruct (to_lsp_range ctx (co_range c)) as [r|]; [|discriminate].
  intros H; injection H as <-; cbn [lc_label lc_edit le_range le_new_text lc_snippet_format].
  split; [reflexivity|]. split; [reflexivity|].
  destruct sup, (te_snippet (co_edit c)); simpl; repeat split; intros; try congruence; auto.
Qed.
Print Assumptions C55_completion_snippets.

(** C55 (refuted part). A client may support resolving edits while the server does not announce a resolve provider
    (it does so only when some code action kind is negotiated); triggers then carry only resolve data. *)
Theorem C55_resolve_announced_refuted : exists caps ctx u a x,
  code_action_edit_resolve_support caps = true /\
  sc_action_options (server_capabilities caps) = None /\
  to_lsp_code_action ctx u (code_action_edit_resolve_support caps) a = Some x /\
  la_command x = None /\ la_edit x = None.
Proof.
  exists (ClientCaps None None None (Some [lit "edit"]) None None None None None),
         (new_context (lit "ab") UTF16), (lit "file:///a.rs"), (Action (lit "Migrate") AkMigrate (0, 2) []).
  eexists. repeat split.
Qed.
Print Assumptions C55_resolve_announced_refuted.

(** C57 (refuted). Code actions have only kinds announced in the server capabilities: an action may have a kind
    that neither is announced nor has an announced prefix. *)
Theorem C57_kinds_announced_refuted : exists caps ctx u a x ks,
  sc_action_options (server_capabilities caps) = Some ks /\
  to_lsp_code_action ctx u (code_action_edit_resolve_support caps) a = Some x /\
  forall k, In k ks -> starts_with k (la_kind x) = false.
Proof.
  exists (ClientCaps None (Some [CAK_QUICKFIX]) None None None None None None None),
         (new_context (lit "ab") UTF16), (lit "file:///a.rs"),
         (Action (lit "Add") AkRefactor (0, 2) [TextEdit (lit "x") (0, 0) None]).
  eexists. eexists. repeat split. intros k [<-|[]]. reflexivity.
Qed.
Print Assumptions C57_kinds_announced_refuted.

(** C57. Announced kinds are supported by both sides. *)
Theorem C57_announced_kinds : forall caps ks,
  sc_action_options (server_capabilities caps) = Some ks ->
  ks <> [] /\ exists cks, cc_action_kinds caps = Some cks /\
  forall k, In k ks <-> In k cks /\ In k SERVER_CODE_ACTION_KINDS.
Proof.
  intros caps ks. unfold server_capabilities, code_actions_kinds; cbn [sc_action_options].
  destruct (cc_action_kinds caps) as [cks|]; [|discriminate].
  destruct (filter (fun k => existsb (str_eqb k) cks) SERVER_CODE_ACTION_KINDS) as [|k0 l] eqn:E; [discriminate|].
  intros H. assert (Hk : ks = k0 :: l) by congruence. clear H. subst ks.
  split; [discriminate|]. exists cks. split; [reflexivity|].
  intros k. rewrite <- E, filter_In, existsb_exists. split.
  - intros [H1 [x [H2 H3]]]. apply str_eqb_eq in H3. subst x. auto.
  - intros [H1 H2]. split; [exact H2|]. exists k. split; [exact H1 | apply str_eqb_refl].
Qed.
Print Assumptions C57_announced_kinds.

(** C15. The answer exists iff there are signatures; the active signature index is in range and its active
    parameter is reported; when the user had selected a signature that is still offered it stays active (its first
    occurrence), otherwise the first one is. *)
Theorem C15_active_signature : forall sigs sup prev ctx h,
  to_lsp_signature_help sigs sup prev ctx = Done (Some h) ->
  exists i s, lsh_active_signature h = Some i /\ nth_error sigs i = Some s
    /\ lsh_active_parameter h = sg_active s
    /\ length (lsh_signatures h) = length sigs
    /\ (forall l, user_selected prev l -> (exists s', In s' sigs /\ sg_label s' = l) ->
          sg_label s = l /\ forall j s', j < i -> nth_error sigs j = Some s' -> sg_label s' <> l)
    /\ ((forall l, user_selected prev l -> forall s', In s' sigs -> sg_label s' <> l) -> i = 0).
Proof.
  intros sigs sup prev ctx h. unfold to_lsp_signature_help.
  destruct sigs as [|s0 sigs]; [discriminate|].
  pose proof (outcome_map_spec (to_lsp_signature sup (pc_encoding ctx)) (s0 :: sigs)) as Hm.
  destruct (outcome_map (to_lsp_signature sup (pc_encoding ctx)) (s0 :: sigs)) as [ls|]; [|discriminate].
  intros H; injection H as <-; cbn [lsh_active_signature lsh_active_parameter lsh_signatures].
  destruct (select_active_some (s0 :: sigs) prev) as [i [s Hs]]; [discriminate|].
  exists i, s. rewrite Hs. split; [reflexivity|]. split; [eapply select_active_in; exact Hs|].
  split; [reflexivity|]. split; [symmetry; eapply Forall2_len; exact Hm|]. split.
  - intros l Hl He. destruct (select_active_retained _ _ _ Hl He) as [i' [s' [H1 [H2 H3]]]].
    rewrite Hs in H1; inversion H1; subst. auto.
  - intros Hd. rewrite (select_active_default (s0 :: sigs) prev s0 eq_refl Hd) in Hs. congruence.
Qed.
Print Assumptions C15_active_signature.

Theorem C15_no_signatures : forall sup prev ctx sigs,
  to_lsp_signature_help sigs sup prev ctx = Done None <-> sigs = [].
Proof.
  intros sup prev ctx sigs. destruct sigs as [|s sigs]; [split; reflexivity|].
  unfold to_lsp_signature_help. destruct (outcome_map _ (s :: sigs)); split; discriminate.
Qed.
Print Assumptions C15_no_signatures.

(** C15. A parameter whose range delimits [text] inside the label is sent as exactly that text, or as its
    code-unit offsets in the negotiated encoding. *)
Theorem C15_parameter_label : forall sup enc label p text,
  well_placed label (pa_range p) text ->
  exists pre post, label = pre ++ text ++ post /\
  to_lsp_param sup enc label p =
    Done (LspParam (if ss_offsets sup then LabelOffsets (units enc pre) (units enc pre + units enc text)
                    else LabelSimple text) (pa_detail p)).
Proof. exact to_lsp_param_spec. Qed.
Print Assumptions C15_parameter_label.

Example C15_ex :
  let s1 := Signature (lit "a: u32, b: bool") (0, 0) [MkParam (0, 6) None; MkParam (8, 15) None] (Some 1) None in
  let s2 := Signature (lit "c: u32") (0, 0) [MkParam (0, 6) None] (Some 0) None in
  well_placed (sg_label s1) (8, 15) (lit "b: bool")
  /\ to_lsp_signature_help [s1; s2] (SignatureSupport true false) (Some (Some 1, [lit "x"; lit "c: u32"])) (new_context [] UTF16)
     = Done (Some (LspSignatureHelp
         [LspSignature (lit "a: u32, b: bool") None (Some [LspParam (LabelSimple (lit "a: u32")) None; LspParam (LabelSimple (lit "b: bool")) None]) (Some 1);
          LspSignature (lit "c: u32") None (Some [LspParam (LabelSimple (lit "c: u32")) None]) (Some 0)] (Some 1) (Some 0))).
Proof. split; [exists (lit "a: u32, "), []; split; reflexivity | vm_compute; reflexivity]. Qed.

(** C15. Labels, documentation and parameters are kept in order; the active parameter of a signature is sent iff the
    client supports it. *)
Theorem C15_signature_kept : forall sup enc sg x,
  to_lsp_signature sup enc sg = Done x ->
  ls_label x = sg_label sg /\ ls_doc x = sg_detail sg
  /\ (ss_active sup = true -> ls_active x = sg_active sg) /\ (ss_active sup = false -> ls_active x = None)
  /\ (sg_parameters sg = [] -> ls_params x = None)
  /\ (sg_parameters sg <> [] -> exists ps, ls_params x = Some ps
        /\ Forall2 (fun p y => to_lsp_param sup enc (sg_label sg) p = Done y /\ lp_doc y = pa_detail p) (sg_parameters sg) ps).
Proof.
  intros sup enc sg x H. unfold to_lsp_signature in H.
  destruct (outcome_map (to_lsp_param sup enc (sg_label sg)) (sg_parameters sg)) as [ps|] eqn:E; [|discriminate].
  injection H as <-. cbn [ls_label ls_doc ls_active ls_params].
  split; [reflexivity|]. split; [reflexivity|]. split; [intros ->; reflexivity|]. split; [intros ->; reflexivity|].
  split; [intros ->; reflexivity|]. intros Hn. exists ps. split; [destruct (sg_parameters sg); [congruence | reflexivity]|].
  clear Hn. revert ps E. induction (sg_parameters sg) as [|p l IH]; intros ps E; cbn [outcome_map] in E.
  - injection E as <-. constructor.
  - destruct (to_lsp_param sup enc (sg_label sg) p) as [y|] eqn:Ep; [|discriminate].
    destruct (outcome_map (to_lsp_param sup enc (sg_label sg)) l) as [ys|]; [|discriminate]. injection E as <-.
    constructor; [|apply IH; reflexivity]. split; [exact Ep|]. unfold to_lsp_param in Ep.
    destruct (ss_offsets sup).
    + destruct (to_lsp_offset enc (sg_label sg) (fst (pa_range p))); [|discriminate].
      destruct (to_lsp_offset enc (sg_label sg) (snd (pa_range p))); [|discriminate]. injection Ep as <-. reflexivity.
    + destruct (slice (sg_label sg) (fst (pa_range p)) (snd (pa_range p))); [|discriminate]. injection Ep as <-. reflexivity.
Qed.
Print Assumptions C15_signature_kept.

(** C69. What the client receives has the content and the place of what was found: for every document and every result
    whose range lies on character boundaries. *)
Lemma range_at k t p1 p2 r : at_offset t p1 (fst r) -> at_offset t p2 (snd r) ->
  to_lsp_range (new_context t k) r = Some (spec_position k p1, spec_position k p2).
Proof.
  intros H1 H2. unfold to_lsp_range.
  assert (E1 : to_lsp_position (new_context t k) (fst r) = Some (spec_position k p1)) by (apply to_lsp_position_iff; exists p1; auto).
  assert (E2 : to_lsp_position (new_context t k) (snd r) = Some (spec_position k p2)) by (apply to_lsp_position_iff; exists p2; auto).
  rewrite E1, E2. reflexivity.
Qed.
Theorem C69_diagnostic : forall k t d p1 p2, at_offset t p1 (fst (di_range d)) -> at_offset t p2 (snd (di_range d)) ->
  exists x, to_lsp_diagnostic (new_context t k) d = Some x
    /\ ld_message x = di_message d /\ ld_range x = (spec_position k p1, spec_position k p2)
    /\ (di_severity d = SevError -> ld_severity x = 1) /\ (di_severity d = SevWarning -> ld_severity x = 2).
Proof.
  intros k t d p1 p2 H1 H2. unfold to_lsp_diagnostic. rewrite (range_at k t p1 p2 _ H1 H2). eexists. split; [reflexivity|].
  cbn [ld_message ld_range ld_severity]. split; [reflexivity|]. split; [reflexivity|]. split; intros ->; reflexivity.
Qed.
Print Assumptions C69_diagnostic.
Theorem C69_completion : forall k t sup c p1 p2, at_offset t p1 (fst (co_range c)) -> at_offset t p2 (snd (co_range c)) ->
  exists x, to_lsp_completion (new_context t k) sup c = Some x
    /\ lc_label x = co_label c /\ lc_detail x = co_detail c
    /\ le_range (lc_edit x) = (spec_position k p1, spec_position k p2)
    /\ (sup = false \/ te_snippet (co_edit c) = None -> le_new_text (lc_edit x) = te_text (co_edit c)).
Proof.
  intros k t sup c p1 p2 H1 H2. unfold to_lsp_completion. rewrite (range_at k t p1 p2 _ H1 H2). eexists. split; [reflexivity|].
  cbn [lc_label lc_detail lc_edit le_range le_new_text]. split; [reflexivity|]. split; [reflexivity|]. split; [reflexivity|].
  intros [->|E]; [reflexivity | rewrite E; destruct sup; reflexivity].
Qed.
Print Assumptions C69_completion.
Theorem C69_hover : forall k t h p1 p2, at_offset t p1 (fst (ho_range h)) -> at_offset t p2 (snd (ho_range h)) ->
  to_lsp_hover (new_context t k) h = Some (LspHover (ho_content h) (Some (spec_position k p1, spec_position k p2))).
Proof. intros k t h p1 p2 H1 H2. unfold to_lsp_hover. rewrite (range_at k t p1 p2 _ H1 H2). reflexivity. Qed.
Print Assumptions C69_hover.
Theorem C69_inlay_hint : forall k t h p, at_offset t p (ih_position h) ->
  to_lsp_inlay_hint (new_context t k) h = Some (LspInlay (spec_position k p) (lit ": " ++ ih_label h) (ih_detail h)).
Proof.
  intros k t h p H. unfold to_lsp_inlay_hint.
  assert (E : to_lsp_position (new_context t k) (ih_position h) = Some (spec_position k p)) by (apply to_lsp_position_iff; exists p; auto).
  rewrite E. reflexivity.
Qed.
Print Assumptions C69_inlay_hint.
(** Results with an end inside a character, or behind the text, are dropped. *)
Theorem C69_dropped : forall k t d, (forall p, ~ at_offset t p (fst (di_range d))) \/ (forall p, ~ at_offset t p (snd (di_range d))) ->
  to_lsp_diagnostic (new_context t k) d = None.
Proof.
  intros k t d H. unfold to_lsp_diagnostic, to_lsp_range.
  destruct H as [H|H].
  - rewrite (to_lsp_position_none k t _ H). reflexivity.
  - rewrite (to_lsp_position_none k t (snd (di_range d)) H). destruct (to_lsp_position (new_context t k) (fst (di_range d))); reflexivity.
Qed.
Print Assumptions C69_dropped.
Example C69_example :
  let t := [233%N; 10%N; 120%N] in
  at_offset t [233%N; 10%N] 3
  /\ to_lsp_diagnostic (new_context t UTF16) (Diagnostic (lit "m") (0, 3) SevWarning) = Some (LspDiagnostic ((0, 0), (1, 0)) (lit "m") 2)
  /\ to_lsp_diagnostic (new_context t UTF16) (Diagnostic (lit "m") (1, 3) SevWarning) = None.
Proof. split; [split; [exists [120%N]; reflexivity | reflexivity] | split; vm_compute; reflexivity]. Qed.
