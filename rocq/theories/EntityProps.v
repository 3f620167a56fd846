(** C87 and C88: the code that is added for ink! entities, and where it is added. *)
From Coq Require Import Lia.
From Verif Require Import Base BaseFacts Unicode VersionModel PositionModel PositionProofs TranslateModel SyntaxModel CommandModel AttrModel AttrProofs EditModel EditSpec EditProofs UtilModel UtilSpec
  UtilProofs ArgEditModel ArgEditSpec ArgEditProofs RuleModel RuleSpec RuleProofs EntityModel EntitySpec EntityProofs.

(** ** C87: the added code *)

Lemma split_goes (P : list elem -> list elem -> Prop) pre post K L head l tail edit n :
  at_split (bytes (text pre) + lens head) l P n -> te_range edit = at_offset n -> goes P pre post K L head l tail None edit.
Proof. intros (a & b & El & HP & En) Er. exists a, b. split; [exact El|]. split; [exact HP|]. apply inserts_at. rewrite Er, En. reflexivity. Qed.
Lemma range_goes (P : list elem -> list elem -> Prop) pre post K L head l tail range edit n r :
  at_split (bytes (text pre) + lens head) l P n -> oor range (Some (at_offset n)) = Some r -> te_range edit = r -> goes P pre post K L head l tail range edit.
Proof. intros H E Er. destruct range as [x|]; cbn [oor] in E; injection E as E; subst r; [exact Er | exact (split_goes P pre post K L head l tail edit n H Er)]. Qed.
Lemma no_margin : margin [].
Proof. split; [intros [] | discriminate]. Qed.
Lemma writes_unique U e preferred P S names i r : unicode_ok U -> templates preferred P S e -> cleanb preferred = true -> clean (second e) -> all_white U i ->
  writes U [] i [] e (suggest_unique_name preferred names) (indented_edit (unique_text P S preferred names) r i).
Proof.
  intros HU HT Hp Hs Hi. destruct (HT (suggest_unique_name preferred names)) as [E1 E2].
  pose proof (writes_generic U e (suggest_unique_name preferred names) i [] [] r _ _ HU (unique_clean _ _ Hp) Hs Hi (fun H => H) no_margin E1 E2) as W.
  cbn [app] in W. rewrite !app_nil_r in W. exact W.
Qed.
Lemma some_or {A} (range : option A) x : exists r, oor range (Some x) = Some r.
Proof. destruct range; eexists; reflexivity. Qed.

Lemma clean_pascal s : clean s -> clean (pascal_case s).
Proof.
  intros H. unfold pascal_case. generalize true. revert H. induction s as [|c s IH]; intros H b; [intros x []|]. cbn [pascal_loop].
  assert (Hs : clean s) by (intros x Hx; apply H; right; exact Hx). destruct (N.eqb c c_underscore); [apply (IH Hs true)|].
  destruct b; intros x [<-|Hx]; try (apply (IH Hs false), Hx); [|apply H; left; reflexivity].
  unfold to_ascii_upper. destruct (ascii_lower c) eqn:E; [|apply H; left; reflexivity]. unfold ascii_lower in E.
  apply andb_prop in E as [E1 E2]. apply N.leb_le in E1, E2. unfold c_nl, c_cr. repeat split; lia.
Qed.

(** A storage struct named after the contract's module goes to the start of the module. *)
Theorem C87_storage U c pre post prev head l tail nm range : unicode_ok U ->
  ct_module c = Some (placed pre prev MODULE ITEM_LIST head l tail) -> heads ITEM_LIST head -> blank_prev U prev ->
  ct_storage c = None -> named head nm -> clean nm ->
  exists name i edit, add_storage U c range = Some edit /\ pascal_of nm name /\ body_indent prev i /\ writes U [] i [] NStorage name edit
    /\ goes at_start pre post MODULE ITEM_LIST head l tail range edit.
Proof.
  intros HU Hm Hh Hp Hs (a & n & b & -> & Hn & En) Hc. exists (pascal_case nm), (item_children_indenting U prev).
  unfold add_storage, module_list, contract_name. rewrite Hm, Hs. cbn [obind placed im_item im_prev]. rewrite list_child by exact Hh. cbn [option_map].
  assert (Ename : node_name (at_place pre (item_with MODULE ITEM_LIST (a ++ Node NAME n :: b) l tail)) = Some nm).
  { apply node_name_spec. exists a, n, (b ++ braced ITEM_LIST l :: tail). split; [unfold item_with; rewrite <- app_assoc; reflexivity | auto]. }
  rewrite Ename. cbn [resolve_contract_name oor option_map].
  destruct (some_or range (at_offset (item_offset_start (bytes (text pre) + lens (a ++ Node NAME n :: b), braced ITEM_LIST l)))) as (r & Er). rewrite Er. cbn [option_map].
  eexists. split; [reflexivity|]. split; [apply pascal_case_spec|]. split; [apply indent_of, Hp|]. split.
  - destruct (storage_texts (pascal_case nm)) as [E1 E2].
    pose proof (writes_generic U NStorage (pascal_case nm) (item_children_indenting U prev) [] [] r _ _ HU (clean_pascal _ Hc) (fun c (H : In c []) => match H with end)
      (item_children_indenting_white U HU prev) (fun H => H) no_margin E1 E2) as W. cbn [app] in W. rewrite !app_nil_r in W. exact W.
  - eapply range_goes; [apply start_split | exact Er | reflexivity].
Qed.
(** An event gets the first free name among [Event], [Event2], ... and goes behind the structs. *)
Theorem C87_event U c pre post prev head l tail range : unicode_ok U ->
  ct_module c = Some (placed pre prev MODULE ITEM_LIST head l tail) -> heads ITEM_LIST head -> blank_prev U prev ->
  exists name i edit, add_event U c range = Some edit /\ chosen (lit "Event") (declares STRUCT l) name /\ body_indent prev i
    /\ writes U [] i [] NEvent name edit /\ goes after_structs pre post MODULE ITEM_LIST head l tail range edit.
Proof.
  intros HU Hm Hh Hp. unfold add_event, module_list. rewrite Hm. cbn [obind placed im_item im_prev]. rewrite list_child by exact Hh. cbn [option_map].
  set (names := item_names STRUCT (Some (bytes (text pre) + lens head, braced ITEM_LIST l))). exists (suggest_unique_name (lit "Event") names), (item_children_indenting U prev).
  destruct (some_or range (at_offset (item_offset_struct (bytes (text pre) + lens head, braced ITEM_LIST l)))) as (r & Er). rewrite Er. cbn [option_map].
  eexists. split; [reflexivity|]. split; [apply unique_chosen; intros x; apply item_names_spec; reflexivity|]. split; [apply indent_of, Hp|].
  assert (E : forall ts r i, edit_with_indent ts r (match i with [] => None | x :: i' => Some (x :: i') end) = indented_edit ts r i) by (intros [t s] r' [|x i]; [|reflexivity]; unfold indented_edit; cbn [edit_with_indent fst snd]; reflexivity).
  unfold children_indent. cbn [im_prev]. rewrite E. split.
  - apply writes_unique; [exact HU | apply event_texts | reflexivity | intros x [] | apply (item_children_indenting_white U HU)].
  - eapply range_goes; [apply struct_split | exact Er | reflexivity].
Qed.
(** The event of version 5: in a module like above; without one it is called [Event]. *)
Theorem C87_event2 U pre prev head l tail r indent : unicode_ok U -> heads ITEM_LIST head -> all_white U (opt_str indent) ->
  (exists name, chosen (lit "Event") (declares STRUCT l) name
     /\ writes U [] (opt_str indent) [] NEvent2 name (add_event2 r indent (Some (im_item (placed pre prev MODULE ITEM_LIST head l tail)))))
  /\ writes U [] (opt_str indent) [] NEvent2 (lit "Event") (add_event2 r indent None)
  /\ te_range (add_event2 r indent None) = r.
Proof.
  intros HU Hh Hi. assert (E : forall ts, edit_with_indent ts r indent = indented_edit ts r (opt_str indent)) by (intros [t s]; destruct indent; reflexivity).
  unfold add_event2. rewrite !E. split; [|split; [|reflexivity]].
  - unfold placed. cbn [im_item]. rewrite list_child by exact Hh. eexists. split; [|apply writes_unique; [exact HU | apply event2_texts | reflexivity | intros x [] | exact Hi]].
    apply unique_chosen. intros x. apply item_names_spec. reflexivity.
  - destruct (event2_texts (lit "Event")) as [E1 E2].
    pose proof (writes_generic U NEvent2 (lit "Event") (opt_str indent) [] [] r EVENT_PLAIN_V2 EVENT_SNIPPET_V2 HU (cleanb_ok (lit "Event") eq_refl) (fun c (H : In c []) => match H with end) Hi (fun H => H) no_margin E1 E2) as W.
    cbn [app] in W. rewrite !app_nil_r in W. exact W.
Qed.
(** A topic goes behind the last field, with a comma between them. *)
Theorem C87_topic U pre post prev head body tail items : unicode_ok U -> no_field_list head -> blank_prev U prev -> fields RECORD_FIELD items body ->
  let s := placed pre prev STRUCT RECORD_FIELD_LIST head body tail in
  let toks := file_leaves pre (item_with STRUCT RECORD_FIELD_LIST head body tail) post in
  (exists name i sep a b edit, add_topic U toks s None = Done (Some edit) /\ chosen (lit "my_topic") (declares RECORD_FIELD body) name /\ body_indent prev i
     /\ writes U sep i [] NTopic name edit /\ body = a ++ b /\ field_gap items a b sep /\ inserts pre post STRUCT RECORD_FIELD_LIST head a b tail edit)
  /\ (forall r, exists name i edit, add_topic U toks s (Some r) = Done (Some edit) /\ chosen (lit "my_topic") (declares RECORD_FIELD body) name /\ body_indent prev i
     /\ writes U [] i [] NTopic name edit /\ te_range edit = r).
Proof.
  intros HU Hh Hp Hf s toks. unfold add_topic, s, placed, children_indent. cbn [im_item im_prev]. rewrite field_list_at by exact Hh.
  set (names := field_names (at_place pre (item_with STRUCT RECORD_FIELD_LIST head body tail))).
  assert (Hch : chosen (lit "my_topic") (declares RECORD_FIELD body) (suggest_unique_name (lit "my_topic") names)).
  { apply unique_chosen. intros x. apply fields_names, Hh. }
  pose proof (item_children_indenting_white U HU prev) as Hw. destruct (topic_texts (suggest_unique_name (lit "my_topic") names)) as [E1 E2].
  assert (W : forall before r, ~ In 36%N before -> writes U before (item_children_indenting U prev) [] NTopic (suggest_unique_name (lit "my_topic") names)
    (edit_replace_snippet (before ++ apply_indenting (fst (unique_text TOPIC_PLAIN TOPIC_SNIPPET (lit "my_topic") names)) (item_children_indenting U prev) ++ []) r
       (Some (before ++ apply_indenting (snd (unique_text TOPIC_PLAIN TOPIC_SNIPPET (lit "my_topic") names)) (item_children_indenting U prev) ++ [])))).
  { intros before r Hb. apply writes_generic; [exact HU | apply unique_clean; reflexivity | intros x [] | exact Hw | exact Hb | exact no_margin | exact E1 | exact E2]. }
  split.
  - destruct (field_place_spec pre post STRUCT head body tail items (item_children_indenting U prev) Hf) as (a & b & sep & Eb & Hg & (p & Ep & Es)).
    unfold toks. rewrite Ep. cbn [obind_o option_map fst snd].
    exists (suggest_unique_name (lit "my_topic") names), (item_children_indenting U prev), sep, a, b. eexists.
    split; [reflexivity|]. split; [exact Hch|]. split; [apply indent_of, Hp|]. split.
    + unfold affixed_edit. cbn [opt_str]. rewrite <- Es. apply W. rewrite Es. destruct Hg as [(_ & _ & ->)|[(? & ? & ? & _ & _ & _ & ->)|(? & ? & ? & ? & _ & _ & _ & _ & ->)]]; apply no_In; reflexivity.
    + split; [exact Eb|]. split; [exact Hg|]. apply inserts_at. reflexivity.
  - intros r. cbn [obind_o option_map fst snd]. exists (suggest_unique_name (lit "my_topic") names), (item_children_indenting U prev). eexists.
    split; [reflexivity|]. split; [exact Hch|]. split; [apply indent_of, Hp|]. split; [|reflexivity]. apply (W []). intros [].
Qed.

Lemma callable_texts e preferred act act_impl : callable e preferred act act_impl -> exists P S, templates preferred P S e /\ cleanb preferred = true /\ second e = []
  /\ (forall U c range, act U c range = add_callable U c range (unique_text P S preferred (ct_callables c)))
  /\ (forall U i range, act_impl U i range = add_callable_to_impl U i range (unique_text P S preferred (fn_names (im_item i)))).
Proof.
  intros H. destruct H; [exists CONSTRUCTOR_PLAIN, CONSTRUCTOR_SNIPPET | exists MESSAGE_PLAIN, MESSAGE_SNIPPET]; (split; [first [apply constructor_texts | apply message_texts]|]); repeat split.
Qed.
Lemma in_list names : forall x : str, In x names <-> In x names.
Proof. reflexivity. Qed.
(** A constructor or message for an impl block gets the first free name among its functions and goes behind them. *)
Theorem C87_callable_in_impl U e preferred act act_impl pre post prev head l tail range : unicode_ok U -> callable e preferred act act_impl ->
  heads ASSOC_ITEM_LIST head -> blank_prev U prev ->
  exists name i edit, act_impl U (placed pre prev IMPL ASSOC_ITEM_LIST head l tail) range = Some edit /\ chosen preferred (declares FN l) name
    /\ body_indent prev i /\ writes U [] i [] e name edit /\ goes assoc_at_end pre post IMPL ASSOC_ITEM_LIST head l tail range edit.
Proof.
  intros HU Hc Hh Hp. destruct (callable_texts _ _ _ _ Hc) as (P & S & HT & Hcl & Hs & _ & ->). unfold add_callable_to_impl, assoc_list, placed, children_indent.
  cbn [im_item im_prev]. rewrite list_child by exact Hh. cbn [option_map].
  set (names := fn_names _). exists (suggest_unique_name preferred names), (item_children_indenting U prev).
  destruct (some_or range (at_offset (assoc_offset_end (bytes (text pre) + lens head, braced ASSOC_ITEM_LIST l)))) as (r & Er). rewrite Er. cbn [option_map].
  eexists. split; [reflexivity|]. split; [apply unique_chosen; intros x; apply fn_names_spec, Hh|]. split; [apply indent_of, Hp|]. split.
  - apply writes_unique; [exact HU | exact HT | exact Hcl | rewrite Hs; intros x [] | apply (item_children_indenting_white U HU)].
  - eapply range_goes; [apply assoc_split | exact Er | reflexivity].
Qed.
(** Likewise for a contract, at a place inside an impl block; the name is free among its constructors and messages. *)
Theorem C87_callable_at U e preferred act act_impl c r impl : unicode_ok U -> callable e preferred act act_impl -> blank_prev U (im_prev impl) ->
  exists name i edit, act U c (Some (r, Some impl)) = Some edit /\ chosen preferred (fun n => In n (ct_callables c)) name
    /\ body_indent (im_prev impl) i /\ writes U [] i [] e name edit /\ te_range edit = r.
Proof.
  intros HU Hc Hp. destruct (callable_texts _ _ _ _ Hc) as (P & S & HT & Hcl & Hs & -> & _). cbn [add_callable obind snd option_map fst add_callable_to_impl oor].
  exists (suggest_unique_name preferred (ct_callables c)), (item_children_indenting U (im_prev impl)). eexists.
  split; [reflexivity|]. split; [apply unique_chosen, in_list|]. split; [apply indent_of, Hp|]. split; [|reflexivity].
  apply writes_unique; [exact HU | exact HT | exact Hcl | rewrite Hs; intros x [] | apply (item_children_indenting_white U HU)].
Qed.
(** A message for a trait: free among the trait's messages, behind its last item. *)
Theorem C87_trait_message U pre post prev K head l tail messages range : unicode_ok U -> heads ASSOC_ITEM_LIST head -> blank_prev U prev ->
  exists name i edit, add_trait_message U (placed pre prev K ASSOC_ITEM_LIST head l tail) messages range = Some edit
    /\ chosen (lit "my_message") (fun n => In n messages) name /\ body_indent prev i /\ writes U [] i [] NTraitMessage name edit
    /\ goes assoc_at_end pre post K ASSOC_ITEM_LIST head l tail range edit.
Proof.
  intros HU Hh Hp. unfold add_trait_message, assoc_list, placed, children_indent. cbn [im_item im_prev]. rewrite list_child by exact Hh. cbn [option_map].
  exists (suggest_unique_name (lit "my_message") messages), (item_children_indenting U prev).
  destruct (some_or range (at_offset (assoc_offset_end (bytes (text pre) + lens head, braced ASSOC_ITEM_LIST l)))) as (r & Er). rewrite Er. cbn [option_map].
  eexists. split; [reflexivity|]. split; [apply unique_chosen, in_list|]. split; [apply indent_of, Hp|]. split.
  - apply writes_unique; [exact HU | apply trait_message_texts | reflexivity | intros x [] | apply (item_children_indenting_white U HU)].
  - eapply range_goes; [apply assoc_split | exact Er | reflexivity].
Qed.
(** An error code type goes to the start of the trait. *)
Theorem C87_error_code U pre post prev K head l tail range name : unicode_ok U -> heads ASSOC_ITEM_LIST head -> blank_prev U prev ->
  exists i edit, add_error_code U (placed pre prev K ASSOC_ITEM_LIST head l tail) range = Some edit
    /\ body_indent prev i /\ writes U [] i [] NErrorCode name edit /\ goes (fun a _ => a = []) pre post K ASSOC_ITEM_LIST head l tail range edit.
Proof.
  intros HU Hh Hp. unfold add_error_code, assoc_list, placed, children_indent. cbn [im_item im_prev]. rewrite list_child by exact Hh. cbn [option_map].
  exists (item_children_indenting U prev).
  destruct (some_or range (at_offset (assoc_offset_start (bytes (text pre) + lens head, braced ASSOC_ITEM_LIST l)))) as (r & Er). rewrite Er. cbn [option_map].
  eexists. split; [reflexivity|]. split; [apply indent_of, Hp|]. split.
  - destruct (error_code_texts []) as [E1 E2].
    pose proof (writes_generic U NErrorCode [] (item_children_indenting U prev) [] [] r ERROR_CODE_PLAIN ERROR_CODE_SNIPPET HU (fun c (H : In c []) => match H with end) (fun c (H : In c []) => match H with end)
      (item_children_indenting_white U HU prev) (fun H => H) no_margin E1 E2) as W. cbn [app] in W. rewrite !app_nil_r in W. exact W.
  - eapply range_goes; [|exact Er | reflexivity]. exists [], l. rewrite lens_nil, Nat.add_0_r. repeat split.
Qed.
(** A function for a chain extension: a free name and the least free id among the functions with the argument
    [extension]; behind the last item of the trait *)
Theorem C87_extension U v pre post prev K head l tail fns range : unicode_ok U -> heads ASSOC_ITEM_LIST head -> blank_prev U prev ->
  let e id := match v with V4 => NExtension id | V5 => NFunction id end in
  let preferred := match v with V4 => lit "my_extension" | V5 => lit "my_function" end in
  exists name id i edit, add_extension U (placed pre prev K ASSOC_ITEM_LIST head l tail) fns range v = Some edit
    /\ chosen preferred (fun n => In n (filter_map fst (cf_extensions fns))) name
    /\ (least_free 1 U32_MAX (filter_map snd (cf_extensions fns)) id
        \/ (id = 1%N /\ forall n, (1 <= n <= U32_MAX)%N -> In n (filter_map snd (cf_extensions fns))))
    /\ body_indent prev i /\ writes U [] i [] (e id) name edit /\ goes assoc_at_end pre post K ASSOC_ITEM_LIST head l tail range edit.
Proof.
  intros HU Hh Hp e preferred. unfold add_extension, assoc_list, placed, children_indent. cbn [im_item im_prev]. rewrite list_child by exact Hh. cbn [option_map].
  set (names := filter_map fst (cf_extensions fns)). set (ids := filter_map snd (cf_extensions fns)).
  set (id := match suggest_unique_id U32_MAX None ids with Found n => n | _ => 1%N end).
  assert (Hid : least_free 1 U32_MAX ids id \/ (id = 1%N /\ forall n, (1 <= n <= U32_MAX)%N -> In n ids)).
  { pose proof (suggest_unique_id_spec U32_MAX None ids ltac:(discriminate)) as H. unfold id. destruct (suggest_unique_id U32_MAX None ids); [left; exact H | right; auto | destruct H]. }
  exists (suggest_unique_name preferred names), id, (item_children_indenting U prev).
  destruct (some_or range (at_offset (assoc_offset_end (bytes (text pre) + lens head, braced ASSOC_ITEM_LIST l)))) as (r & Er). rewrite Er. cbn [option_map].
  eexists. split; [reflexivity|]. split; [apply unique_chosen, in_list|]. split; [exact Hid|]. split; [apply indent_of, Hp|]. split; [|eapply range_goes; [apply assoc_split | exact Er | reflexivity]].
  assert (Hp0 : cleanb preferred = true) by (destruct v; reflexivity).
  assert (Hc : clean (suggest_unique_name preferred names)) by (apply unique_clean, Hp0).
  assert (H93 : ~ In 93%N (suggest_unique_name preferred names)).
  { destruct (unique_candidate preferred names) as (k & ->). intros C. apply candidate_chars in C as [C|C]; [|lia]. destruct v; vm_compute in C; intuition discriminate. }
  assert (E : match v with V5 => unique_text EXTENSION_FN_PLAIN_V5 EXTENSION_FN_SNIPPET_V5 (lit "my_function") names | V4 => unique_text EXTENSION_FN_PLAIN EXTENSION_FN_SNIPPET (lit "my_extension") names end
     = unique_text (ext_plain v) (ext_snippet v) preferred names) by (destruct v; reflexivity).
  rewrite E. clear E. replace (e id) with (ext_entity v id) by (destruct v; reflexivity).
  assert (W : forall T S, T = unlines (shown (env_of (ext_entity v id) (suggest_unique_name preferred names)) (plain_parts (ext_entity v id))) ->
    S = unlines (shown (env_of (ext_entity v id) (suggest_unique_name preferred names)) (snippet_parts (ext_entity v id))) ->
    writes U [] (item_children_indenting U prev) [] (ext_entity v id) (suggest_unique_name preferred names) (indented_edit (T, S) r (item_children_indenting U prev))).
  { intros T S E1 E2. assert (H2 : clean (second (ext_entity v id))) by (destruct v; apply dec_clean).
    pose proof (writes_generic U (ext_entity v id) _ (item_children_indenting U prev) [] [] r _ _ HU Hc H2 (item_children_indenting_white U HU prev) (fun H => H) no_margin E1 E2) as W.
    cbn [app] in W. rewrite !app_nil_r in W. exact W. }
  destruct (1 <? id)%N eqn:E1.
  - destruct (ext_ids v id (suggest_unique_name preferred names) H93) as [X Y]. destruct v; apply W; [exact X | exact Y | exact X | exact Y].
  - assert (E2 : id = 1%N). { apply N.ltb_ge in E1. destruct Hid as [((Hl & _) & _)|[H _]]; [lia | exact H]. }
    clearbody id. subst id. destruct (ext_texts v (suggest_unique_name preferred names)) as [X Y]. destruct v; apply W; [exact X | exact Y | exact X | exact Y].
Qed.
(** Tests: free among the functions of the module, behind its last item *)
Theorem C87_test U pre post prev head l tail range : unicode_ok U -> heads ITEM_LIST head -> blank_prev U prev ->
  exists name i edit, add_test U (placed pre prev MODULE ITEM_LIST head l tail) range = Some edit /\ chosen (lit "it_works") (declares FN l) name
    /\ body_indent prev i /\ writes U [] i [] NTest name edit /\ goes at_end pre post MODULE ITEM_LIST head l tail range edit.
Proof.
  intros HU Hh Hp. unfold add_test, placed, children_indent. cbn [im_item im_prev]. rewrite list_child by exact Hh. cbn [option_map].
  set (names := item_names FN _). exists (suggest_unique_name (lit "it_works") names), (item_children_indenting U prev).
  destruct (some_or range (at_offset (item_offset_end (bytes (text pre) + lens head, braced ITEM_LIST l)))) as (r & Er). rewrite Er. cbn [option_map].
  eexists. split; [reflexivity|]. split; [apply unique_chosen; intros x; apply item_names_spec; reflexivity|]. split; [apply indent_of, Hp|]. split.
  - apply writes_unique; [exact HU | apply test_texts | reflexivity | intros x [] | apply (item_children_indenting_white U HU)].
  - eapply range_goes; [apply end_split' | exact Er | reflexivity].
Qed.
Theorem C87_e2e_test U v pre post prev head l tail range : unicode_ok U -> heads ITEM_LIST head -> blank_prev U prev ->
  exists name i edit, add_e2e_test U (placed pre prev MODULE ITEM_LIST head l tail) range v = Some edit /\ chosen (lit "it_works") (declares FN l) name
    /\ body_indent prev i /\ writes U [] i [] (NE2eTest v) name edit /\ goes at_end pre post MODULE ITEM_LIST head l tail range edit.
Proof.
  intros HU Hh Hp. unfold add_e2e_test, placed, children_indent. cbn [im_item im_prev]. rewrite list_child by exact Hh. cbn [option_map].
  set (names := item_names FN _). exists (suggest_unique_name (lit "it_works") names), (item_children_indenting U prev).
  destruct (some_or range (at_offset (item_offset_end (bytes (text pre) + lens head, braced ITEM_LIST l)))) as (r & Er). rewrite Er. cbn [option_map].
  destruct v; (eexists; split; [reflexivity|]; split; [apply unique_chosen; intros x; apply item_names_spec; reflexivity|]; split; [apply indent_of, Hp|]; split;
    [apply writes_unique; [exact HU | first [apply (e2e_texts V4) | apply (e2e_texts V5)] | reflexivity | intros x [] | apply (item_children_indenting_white U HU)]
    |eapply range_goes; [apply end_split' | exact Er | reflexivity]]).
Qed.
(** [combine_extensions!] gets a field for each chain extension, unless there is exactly one *)
Theorem C87_combine U r indent paths : unicode_ok U -> (forall p, In p paths -> clean p) -> all_white U (opt_str indent) -> length paths <> 1 ->
  wrote U [] (opt_str indent) [] (combined (match paths with [] => [lit "Extension1"; lit "Extension2"] | _ => paths end)) (add_combine r indent paths)
  /\ te_range (add_combine r indent paths) = r.
Proof.
  intros HU Hc Hi Hn. split; [apply combine_wrote; assumption|]. unfold add_combine, edit_with_indent. destruct (combine_fields 0 paths); destruct indent; reflexivity.
Qed.

(** ** C88: places *)

Lemma name_known c pre prev head l tail : ct_module c = Some (placed pre prev MODULE ITEM_LIST head l tail) -> has_name c head ->
  exists N, contract_name c = Some N /\ contract_named c head N /\ clean N.
Proof.
  intros Hm [(s & Es & Hs)|(En & nm & Hn & Hs)]; unfold contract_name.
  - exists s. rewrite Es. split; [reflexivity|]. split; [left; exact Es | exact Hs].
  - exists (pascal_case nm). rewrite En, Hm. cbn [obind placed im_item]. pose proof Hn as (a & n & b & Eh & Ha & Et).
    assert (E : node_name (at_place pre (item_with MODULE ITEM_LIST head l tail)) = Some nm).
    { apply node_name_spec. exists a, n, (b ++ braced ITEM_LIST l :: tail). split; [rewrite Eh; rewrite <- app_assoc; reflexivity | auto]. }
    rewrite E. split; [reflexivity|]. split; [right; split; [exact En|]; exists nm; split; [exact Hn | apply pascal_case_spec] | apply clean_pascal, Hs].
Qed.
Lemma writes_around U e preferred P S names i r p s : unicode_ok U -> templates preferred P S e -> cleanb preferred = true -> second e = [] -> all_white U i ->
  ~ In 36%N (opt_str p) -> margin (opt_str s) ->
  writes U (opt_str p) i (opt_str s) e (suggest_unique_name preferred names) (affixed_edit (unique_text P S preferred names) r i p s).
Proof.
  intros HU HT Hp Hs Hi Hb Ha. destruct (HT (suggest_unique_name preferred names)) as [E1 E2].
  refine (writes_generic U e (suggest_unique_name preferred names) i _ _ r _ _ HU (unique_clean _ _ Hp) _ Hi Hb Ha E1 E2). rewrite Hs. intros x [].
Qed.
Lemma new_impl_text U c pre prev head l tail : unicode_ok U -> ct_module c = Some (placed pre prev MODULE ITEM_LIST head l tail) -> has_name c head -> blank_prev U prev ->
  exists N i, contract_named c head N /\ body_indent prev i /\ new_impl U c = Some (i ++ lit "    ", (impl_before i N, impl_after i))
    /\ all_white U (i ++ lit "    ") /\ ~ In 36%N (impl_before i N) /\ margin (impl_after i).
Proof.
  intros HU Hm Hn Hp. destruct (name_known _ _ _ _ _ _ Hm Hn) as (N & E & HN & Hc). exists N, (item_children_indenting U prev).
  pose proof (item_children_indenting_white U HU prev) as Hw. pose proof (white_no36 U _ HU Hw) as H36.
  split; [exact HN|]. split; [apply indent_of, Hp|]. split; [unfold new_impl; rewrite Hm, E; reflexivity|]. split; [|split].
  - intros x Hx. apply in_app_or in Hx as [Hx|Hx]; [apply Hw, Hx|]. assert (Ex : x = 32%N) by (vm_compute in Hx; intuition congruence). subst x. rewrite (uo_whitespace U HU) by reflexivity. reflexivity.
  - unfold impl_before. intros C. apply in_app_or in C as [C|C]; [exact (H36 C)|]. apply in_app_or in C as [C|C]; [vm_compute in C; intuition discriminate|].
    apply in_app_or in C as [C|C]; [destruct (Hc _ C) as (_ & _ & _ & X); apply X; reflexivity | vm_compute in C; intuition discriminate].
  - split; [|intros c0 r [= <- _]; unfold c_nl; lia]. unfold impl_after. intros C. apply in_app_or in C as [C|C]; [vm_compute in C; intuition discriminate|].
    apply in_app_or in C as [C|C]; [exact (H36 C) | vm_compute in C; intuition discriminate].
Qed.
(** Inside the contract's module but outside impl blocks, a constructor or message is put in an impl block of its own. *)
Theorem C88_callable_alone U e preferred act act_impl c pre prev head l tail r : unicode_ok U -> callable e preferred act act_impl ->
  ct_module c = Some (placed pre prev MODULE ITEM_LIST head l tail) -> blank_prev U prev -> has_name c head ->
  exists name N i edit, act U c (Some (r, None)) = Some edit /\ chosen preferred (fun n => In n (ct_callables c)) name /\ contract_named c head N
    /\ body_indent prev i /\ writes U (impl_before i N) (i ++ lit "    ") (impl_after i) e name edit /\ te_range edit = r.
Proof.
  intros HU Hc Hm Hp Hn. destruct (callable_texts _ _ _ _ Hc) as (P & S & HT & Hcl & Hs & -> & _).
  destruct (new_impl_text U c pre prev head l tail HU Hm Hn Hp) as (N & i & HN & Hi & En & Hw & Hb & Ha).
  unfold add_callable. cbn [obind snd]. rewrite En. cbn [oor option_map].
  exists (suggest_unique_name preferred (ct_callables c)), N, i. eexists. split; [reflexivity|]. split; [apply unique_chosen, in_list|].
  split; [exact HN|]. split; [exact Hi|]. split; [|reflexivity].
  apply (writes_around U e preferred P S _ _ _ (Some (impl_before i N)) (Some (impl_after i))); assumption.
Qed.
Lemma callable_in U e preferred act act_impl c pre post prev K head l tail : unicode_ok U -> callable e preferred act act_impl ->
  callable_impl c = Some (placed pre prev K ASSOC_ITEM_LIST head l tail) -> heads ASSOC_ITEM_LIST head -> blank_prev U prev ->
  exists name i edit, act U c None = Some edit /\ chosen preferred (fun n => In n (ct_callables c)) name /\ body_indent prev i /\ writes U [] i [] e name edit
    /\ exists a b, l = a ++ b /\ assoc_at_end a b /\ inserts pre post K ASSOC_ITEM_LIST head a b tail edit.
Proof.
  intros HU Hc HI Hh Hp. destruct (callable_texts _ _ _ _ Hc) as (P & S & HT & Hcl & Hs & -> & _).
  unfold add_callable. cbn [obind]. unfold callable_place. rewrite HI. cbn [obind placed im_item]. unfold assoc_list. rewrite list_child by exact Hh. cbn [option_map oor fst snd].
  exists (suggest_unique_name preferred (ct_callables c)), (item_children_indenting U prev). eexists. split; [reflexivity|]. split; [apply unique_chosen, in_list|].
  split; [apply indent_of, Hp|]. split.
  - apply (writes_around U e preferred P S _ _ _ None None); try assumption; [apply (item_children_indenting_white U HU) | intros [] | apply no_margin].
  - eapply (split_goes assoc_at_end pre post K ASSOC_ITEM_LIST head l tail); [apply (assoc_split _ ASSOC_ITEM_LIST l) | reflexivity].
Qed.
(** A constructor or message for a contract goes behind the items of the first impl block of the contract's module that is
    not for a trait. *)
Theorem C88_callable U e preferred act act_impl c pre post prev head x ihead il itail y tail : unicode_ok U -> callable e preferred act act_impl ->
  let impl := item_with IMPL ASSOC_ITEM_LIST ihead il itail in
  ct_module c = Some (placed pre prev MODULE ITEM_LIST head (x ++ impl :: y) tail) -> heads ITEM_LIST head ->
  inherent impl -> (forall e, In e x -> ~ inherent e) -> heads ASSOC_ITEM_LIST ihead -> blank_prev U (last_opt (lbrace :: x)) ->
  exists name i edit, act U c None = Some edit /\ chosen preferred (fun n => In n (ct_callables c)) name /\ body_indent (last_opt (lbrace :: x)) i
    /\ writes U [] i [] e name edit
    /\ exists a b, il = a ++ b /\ assoc_at_end a b
       /\ inserts (pre ++ leaves_of head ++ (L_CURLY, lit "{") :: leaves_of x) (leaves_of y ++ (R_CURLY, lit "}") :: leaves_of tail ++ post)
            IMPL ASSOC_ITEM_LIST ihead a b itail edit.
Proof.
  intros HU Hc impl Hm Hh HI Hx Hih Hp. eapply callable_in; try eassumption.
  unfold callable_impl, module_list. rewrite Hm. cbn [obind placed im_item]. rewrite list_child by exact Hh. cbn [obind].
  rewrite (impl_found _ ITEM_LIST x impl y Hx HI). cbn [oor]. unfold placed, at_place. do 3 f_equal.
  rewrite !text_app, !bytes_app. cbn [text flat_map snd]. fold (text (leaves_of x)). rewrite !bytes_app, !text_leaves_of. unfold lens. change (bytes (lit "{")) with 1. lia.
Qed.
(** Without such an impl block in the module, an impl block of the contract found elsewhere is used, *)
Theorem C88_callable_elsewhere U e preferred act act_impl c pre prev head l tail pre' post' prev' ihead il itail ps qs : unicode_ok U -> callable e preferred act act_impl ->
  ct_module c = Some (placed pre prev MODULE ITEM_LIST head l tail) -> heads ITEM_LIST head -> (forall e, In e l -> ~ inherent e) ->
  let impl := placed pre' prev' IMPL ASSOC_ITEM_LIST ihead il itail in
  ct_impls c = ps ++ impl :: qs -> (forall i, In i ps -> exists cs, snd (im_item i) = Node IMPL cs /\ 2 <= length (filter type_elem cs)) ->
  inherent (snd (im_item impl)) -> heads ASSOC_ITEM_LIST ihead -> blank_prev U prev' ->
  exists name i edit, act U c None = Some edit /\ chosen preferred (fun n => In n (ct_callables c)) name /\ body_indent prev' i
    /\ writes U [] i [] e name edit
    /\ exists a b, il = a ++ b /\ assoc_at_end a b /\ inserts pre' post' IMPL ASSOC_ITEM_LIST ihead a b itail edit.
Proof.
  intros HU Hc Hm Hh Hl impl Ei Hps HI Hih Hp. eapply callable_in; try eassumption.
  unfold callable_impl, module_list. rewrite Hm. cbn [obind placed im_item]. rewrite list_child by exact Hh. cbn [obind]. rewrite (impl_not_found _ ITEM_LIST l Hl). cbn [oor].
  rewrite Ei. clear Ei. induction ps as [|i ps IH]; cbn [app find].
  - rewrite of_trait_eq. destruct HI as (cs & Ec & Hn). cbn [impl placed im_item at_place snd] in *. rewrite Ec. replace (2 <=? length (filter type_elem cs)) with false; [reflexivity|]. symmetry. apply Nat.leb_gt. lia.
  - rewrite of_trait_eq. destruct (Hps i (or_introl eq_refl)) as (cs & -> & Hn). replace (2 <=? length (filter type_elem cs)) with true by (symmetry; apply Nat.leb_le; exact Hn).
    cbn [negb]. apply IH. intros j Hj. apply Hps. right. exact Hj.
Qed.
(** and without any, a new impl block is made behind the last impl block or struct of the module. *)
Theorem C88_new_impl U e preferred act act_impl c pre post prev head l tail : unicode_ok U -> callable e preferred act act_impl ->
  ct_module c = Some (placed pre prev MODULE ITEM_LIST head l tail) -> heads ITEM_LIST head -> (forall e, In e l -> ~ inherent e) ->
  (forall i, In i (ct_impls c) -> exists cs, snd (im_item i) = Node IMPL cs /\ 2 <= length (filter type_elem cs)) ->
  has_name c head -> blank_prev U prev ->
  exists name N i edit, act U c None = Some edit /\ chosen preferred (fun n => In n (ct_callables c)) name /\ contract_named c head N /\ body_indent prev i
    /\ writes U (impl_before i N) (i ++ lit "    ") (impl_after i) e name edit
    /\ exists a b, l = a ++ b /\ for_impl a b /\ inserts pre post MODULE ITEM_LIST head a b tail edit.
Proof.
  intros HU Hc Hm Hh Hl Hi Hn Hp. destruct (callable_texts _ _ _ _ Hc) as (P & S & HT & Hcl & Hs & -> & _).
  destruct (new_impl_text U c pre prev head l tail HU Hm Hn Hp) as (N & i & HN & Hbi & En & Hw & Hb & Ha).
  assert (E : callable_impl c = None).
  { unfold callable_impl, module_list. rewrite Hm. cbn [obind placed im_item]. rewrite list_child by exact Hh. cbn [obind]. rewrite (impl_not_found _ ITEM_LIST l Hl). cbn [oor].
    revert Hi. generalize (ct_impls c). clear. intros ps Hps. induction ps as [|i ps IH]; [reflexivity|]. cbn [find].
    rewrite of_trait_eq. destruct (Hps i (or_introl eq_refl)) as (cs & -> & Hn). replace (2 <=? length (filter type_elem cs)) with true by (symmetry; apply Nat.leb_le; exact Hn).
    cbn [negb]. apply IH. intros j Hj. apply Hps. right. exact Hj. }
  unfold add_callable. cbn [obind]. unfold callable_place. rewrite E. cbn [obind]. rewrite En. unfold module_list. rewrite Hm. cbn [obind placed im_item]. rewrite list_child by exact Hh. cbn [option_map oor fst snd].
  exists (suggest_unique_name preferred (ct_callables c)), N, i. eexists. split; [reflexivity|]. split; [apply unique_chosen, in_list|].
  split; [exact HN|]. split; [exact Hbi|]. split.
  - apply (writes_around U e preferred P S _ _ _ (Some (impl_before i N)) (Some (impl_after i))); assumption.
  - eapply (split_goes for_impl pre post MODULE ITEM_LIST head l tail); [apply (impl_split _ ITEM_LIST l) | reflexivity].
Qed.
(** The place for an item of the module that is moved or added for a scope *)
Theorem C88_by_scope pre post head l tail scope edit :
  te_range edit = at_offset (item_offset_by_scope (bytes (text pre) + lens head, braced ITEM_LIST l) scope) ->
  exists a b, l = a ++ b /\ inserts pre post MODULE ITEM_LIST head a b tail edit
    /\ (scope = lit "storage" -> at_start a b) /\ (scope = lit "event" -> after_structs a b) /\ (scope = lit "impl" -> for_impl a b)
    /\ (scope <> lit "storage" -> scope <> lit "event" -> scope <> lit "impl" -> at_end a b).
Proof.
  intros Er. unfold item_offset_by_scope in Er.
  destruct (str_eqb scope (lit "storage")) eqn:E1; [apply str_eqb_eq in E1 | apply str_eqb_neq in E1; destruct (str_eqb scope (lit "event")) eqn:E2; [apply str_eqb_eq in E2 | apply str_eqb_neq in E2; destruct (str_eqb scope (lit "impl")) eqn:E3; [apply str_eqb_eq in E3 | apply str_eqb_neq in E3]]].
  - destruct (split_goes at_start pre post MODULE ITEM_LIST head l tail edit _ (start_split _ ITEM_LIST l) Er) as (a & b & El & Hp & Hi). exists a, b. subst scope. repeat split; try assumption; intros; first [contradiction | congruence | match goal with H : lit _ = lit _ |- _ => vm_compute in H; discriminate H end].
  - destruct (split_goes after_structs pre post MODULE ITEM_LIST head l tail edit _ (struct_split _ ITEM_LIST l) Er) as (a & b & El & Hp & Hi). exists a, b. subst scope. repeat split; try assumption; intros; first [contradiction | congruence | match goal with H : lit _ = lit _ |- _ => vm_compute in H; discriminate H end].
  - destruct (split_goes for_impl pre post MODULE ITEM_LIST head l tail edit _ (impl_split _ ITEM_LIST l) Er) as (a & b & El & Hp & Hi). exists a, b. subst scope. repeat split; try assumption; intros; first [contradiction | congruence | match goal with H : lit _ = lit _ |- _ => vm_compute in H; discriminate H end].
  - destruct (split_goes at_end pre post MODULE ITEM_LIST head l tail edit _ (end_split' _ ITEM_LIST l) Er) as (a & b & El & Hp & Hi). exists a, b. repeat split; try assumption; intros; first [assumption | contradiction].
Qed.
(** The place for an attribute of an item: behind the ink! attributes, or else behind all attributes; and for one that must
    come first. [front]: attributes and comments of the item *)
Theorem C88_attribute pre post K front core ink edit : front_only front -> begins_solid core -> (forall cs, ~ In (Node ATTR cs) core) ->
  let item := Node K (front ++ core) in
  (te_range edit = at_offset (attr_offset ink (file_leaves pre item post) (at_place pre item)) ->
     exists a b, front = a ++ b /\ attr_place ink a b
       /\ applied (in_file pre item post) edit (text pre ++ texts_of a ++ te_text edit ++ texts_of b ++ texts_of core ++ text post))
  /\ (te_range edit = at_offset (first_attr_offset ink (file_leaves pre item post) (at_place pre item)) ->
     exists a b, front = a ++ b /\ first_attr_place ink a b
       /\ applied (in_file pre item post) edit (text pre ++ texts_of a ++ te_text edit ++ texts_of b ++ texts_of core ++ text post)).
Proof.
  intros Hf Hc Hn item.
  assert (A : forall a b, front = a ++ b -> te_range edit = at_offset (bytes (text pre) + lens a) ->
    applied (in_file pre item post) edit (text pre ++ texts_of a ++ te_text edit ++ texts_of b ++ texts_of core ++ text post)).
  { intros a b E Er. unfold item. rewrite in_file_text. exists (text pre ++ texts_of a), [], (texts_of b ++ texts_of core ++ text post).
    rewrite Er, E. unfold at_offset. cbn [fst snd]. split; [rewrite !texts_of_app, <- !app_assoc; reflexivity|]. rewrite app_nil_r, !bytes_app. unfold lens. split; [lia|]. split; [lia|]. rewrite <- !app_assoc. reflexivity. }
  split; intros Er.
  - destruct (attr_offset_spec pre post K front core ink Hf Hc Hn) as (a & b & E & Hp & Eo). exists a, b. split; [exact E|]. split; [exact Hp|]. apply A; [exact E|]. rewrite Er. unfold item. rewrite Eo. reflexivity.
  - destruct (first_attr_offset_spec pre post K front core ink Hf Hc Hn) as (a & b & E & Hp & Eo). exists a, b. split; [exact E|]. split; [exact Hp|]. apply A; [exact E|]. rewrite Er. unfold item. rewrite Eo. reflexivity.
Qed.

(** The message the quick fix for a missing wildcard complement adds: see [C87_selector_name_refuted]. *)
Theorem C87_selector_message U c selector pre post prev head x ihead il itail y tail : unicode_ok U -> clean selector ->
  let impl := item_with IMPL ASSOC_ITEM_LIST ihead il itail in
  ct_module c = Some (placed pre prev MODULE ITEM_LIST head (x ++ impl :: y) tail) -> heads ITEM_LIST head ->
  inherent impl -> (forall e, In e x -> ~ inherent e) -> heads ASSOC_ITEM_LIST ihead -> blank_prev U (last_opt (lbrace :: x)) ->
  exists i edit, add_selector_message U c selector (lit "handler") None = Some edit /\ body_indent (last_opt (lbrace :: x)) i
    /\ writes U [] i [] (NSelectorMessage selector) (lit "my_message") edit
    /\ exists a b, il = a ++ b /\ assoc_at_end a b
       /\ inserts (pre ++ leaves_of head ++ (L_CURLY, lit "{") :: leaves_of x) (leaves_of y ++ (R_CURLY, lit "}") :: leaves_of tail ++ post)
            IMPL ASSOC_ITEM_LIST ihead a b itail edit.
Proof.
  intros HU Hsel impl Hm Hh HI Hx Hih Hp.
  assert (E : callable_impl c = Some (placed (pre ++ leaves_of head ++ (L_CURLY, lit "{") :: leaves_of x) (last_opt (lbrace :: x)) IMPL ASSOC_ITEM_LIST ihead il itail)).
  { unfold callable_impl, module_list. rewrite Hm. cbn [obind placed im_item]. rewrite list_child by exact Hh. cbn [obind].
    rewrite (impl_found _ ITEM_LIST x impl y Hx HI). cbn [oor]. unfold placed, at_place. do 3 f_equal.
    rewrite !text_app, !bytes_app. cbn [text flat_map snd]. fold (text (leaves_of x)). rewrite !bytes_app, !text_leaves_of. unfold lens. change (bytes (lit "{")) with 1. lia. }
  unfold add_selector_message, add_callable. cbn [obind]. unfold callable_place. rewrite E. cbn [obind placed im_item]. unfold assoc_list. rewrite list_child by exact Hih. cbn [option_map oor fst snd].
  exists (item_children_indenting U (last_opt (lbrace :: x))). eexists. split; [reflexivity|]. split; [apply indent_of, Hp|]. split.
  - refine (writes_generic U (NSelectorMessage selector) (lit "my_message") _ [] [] _ _ _ HU (cleanb_ok (lit "my_message") eq_refl) Hsel (item_children_indenting_white U HU _) (fun H => H) no_margin _ _).
    + unfold unique_text. apply selector_plain.
    + unfold unique_text. apply selector_snippet.
  - eapply (split_goes assoc_at_end _ _ IMPL ASSOC_ITEM_LIST ihead il itail); [apply (assoc_split _ ASSOC_ITEM_LIST il) | reflexivity].
Qed.

(** *** A contract *)
Definition ex_sp : elem := Tok WHITESPACE (lit " ").
Definition ex_nl : elem := Tok WHITESPACE (c_nl :: lit "    ").
Definition ex_name (s : str) : elem := Node NAME [Tok IDENT s].
Definition ex_type (s : str) : elem := Node (OTHER 130) [Tok IDENT s].
Definition ex_struct (s : str) : elem := Node STRUCT [Tok STRUCT_KW (lit "struct"); ex_sp; ex_name s; Tok SEMICOLON (lit ";")].
Definition ex_fn (s : str) : elem := Node FN [Tok FN_KW (lit "fn"); ex_sp; ex_name s; Node PARAM_LIST [Tok L_PAREN (lit "("); Tok R_PAREN (lit ")")]; Tok SEMICOLON (lit ";")].
Definition ex_impl_head (s : str) : list elem := [Tok IMPL_KW (lit "impl"); ex_sp; ex_type s; ex_sp].
Definition ex_impl (s : str) (l : list elem) : elem := item_with IMPL ASSOC_ITEM_LIST (ex_impl_head s) l [].
Definition ex_mod_head (s : str) : list elem := [Tok MOD_KW (lit "mod"); ex_sp; ex_name s; ex_sp].
Definition ex_module (l : list elem) : item_at := placed [] None MODULE ITEM_LIST (ex_mod_head (lit "my_token")) l [].
Definition ex_enum (s : str) : elem := Node ENUM [Tok ENUM_KW (lit "enum"); ex_sp; ex_name s; ex_sp; Tok L_CURLY (lit "{"); Tok R_CURLY (lit "}")].
Definition MY_MESSAGE := lit "my_message".
(** [mod my_token { struct MyToken; impl MyToken { fn my_message(); } }] *)
Definition ex_list (s : str) (l : list elem) : list elem := [ex_nl; ex_struct (lit "MyToken"); ex_nl] ++ ex_impl s l :: [ex_nl].
Definition ex_contract (s : str) (l : list elem) (callables : list str) : contract :=
  Contract (Some (ex_module (ex_list s l))) (Some (lit "MyToken")) callables [].
Lemma ex_heads s : heads ITEM_LIST (ex_mod_head s) /\ heads ASSOC_ITEM_LIST (ex_impl_head s).
Proof. split; intros cs H; cbn in H; intuition discriminate. Qed.
Lemma ex_inherent s l : inherent (ex_impl s l) /\ forall e, In e [ex_nl; ex_struct (lit "MyToken"); ex_nl] -> ~ inherent e.
Proof.
  split; [eexists; split; [reflexivity | vm_compute; repeat constructor]|]. intros e [<-|[<-|[<-|[]]]] (cs & C & _); discriminate.
Qed.
Lemma ex_blank U : unicode_ok U -> blank_prev U (Some ex_nl) /\ blank_prev U None.
Proof.
  intros HU. split; intros e E; [|discriminate]. injection E as <-. intros _ x Hx. vm_compute in Hx.
  assert (H : x = 10%N \/ x = 32%N) by intuition. destruct H as [->| ->]; rewrite (uo_whitespace U HU) by reflexivity; reflexivity.
Qed.
(** The hypotheses of the theorems for contracts hold for it. *)
Example C88_example U : unicode_ok U ->
  let c := ex_contract (lit "MyToken") [] [] in
  (exists name i edit, add_message U c None = Some edit /\ chosen MY_MESSAGE (fun n => In n []) name /\ body_indent (Some ex_nl) i /\ writes U [] i [] NMessage name edit)
  /\ (exists name i edit, add_event U c None = Some edit /\ chosen (lit "Event") (declares STRUCT (ex_list (lit "MyToken") [])) name /\ body_indent None i
        /\ writes U [] i [] NEvent name edit)
  /\ has_name c (ex_mod_head (lit "my_token"))
  /\ (exists name i edit, add_storage U (Contract (ct_module c) None [] []) None = Some edit /\ pascal_of (lit "my_token") name /\ body_indent None i
        /\ writes U [] i [] NStorage name edit).
Proof.
  intros HU c. destruct (ex_heads (lit "my_token")) as [H1 _]. destruct (ex_heads (lit "MyToken")) as [_ H2]. destruct (ex_inherent (lit "MyToken") []) as [H3 H4]. destruct (ex_blank U HU) as [H5 H6].
  split; [|split; [|split]].
  - destruct (C88_callable U _ _ _ _ c [] [] None _ [ex_nl; ex_struct (lit "MyToken"); ex_nl] _ [] [] [ex_nl] [] HU callable_message eq_refl H1 H3 H4 H2 H5) as (name & i & edit & A & B & C & D & _).
    exists name, i, edit. auto.
  - destruct (C87_event U c [] [] None _ (ex_list (lit "MyToken") []) [] None HU eq_refl H1 H6) as (name & i & edit & A & B & C & D & _). exists name, i, edit. auto.
  - left. exists (lit "MyToken"). split; [reflexivity | apply cleanb_ok; reflexivity].
  - destruct (C87_storage U (Contract (ct_module c) None [] []) [] [] None _ (ex_list (lit "MyToken") []) [] (lit "my_token") None HU eq_refl H1 H6 eq_refl) as (name & i & edit & A & B & C & D & _).
    + exists [Tok MOD_KW (lit "mod"); ex_sp], [Tok IDENT (lit "my_token")], [ex_sp]. split; [reflexivity|]. split; [|reflexivity]. intros cs H. cbn in H. intuition discriminate.
    + apply cleanb_ok. reflexivity.
    + exists name, i, edit. auto.
Qed.
(** Fields: [struct E { a: u8 }] and its new topic *)
Definition ex_field (s : str) : elem := Node RECORD_FIELD [ex_name s; Tok (OTHER 170) (lit ":"); ex_sp; Tok IDENT (lit "u8")].
Example C87_topic_example : no_field_list [Tok STRUCT_KW (lit "struct"); ex_sp; ex_name (lit "E"); ex_sp] /\ fields RECORD_FIELD [ex_field (lit "a")] [ex_nl; ex_field (lit "a"); ex_sp].
Proof.
  split; [split; intros cs H; cbn in H; intuition discriminate|].
  assert (B : forall s, s <> [] -> blank [Tok WHITESPACE s]) by (intros s Hs; constructor; [exists WHITESPACE, s; auto | constructor]).
  apply (fields_last RECORD_FIELD (ex_field (lit "a")) [ex_nl] [ex_sp]); [|apply B; discriminate | apply B; discriminate].
  eexists. split; [reflexivity|]. split; [|split; [intros s r C; vm_compute in C; discriminate|]].
  - split; [|split].
    + unfold tokens_ok. cbn. repeat (constructor; [discriminate|]). constructor.
    + eexists _, _. split; [reflexivity | reflexivity].
    + exists [(IDENT, lit "a"); (OTHER 170, lit ":"); (WHITESPACE, lit " ")], (IDENT, lit "u8"). split; reflexivity.
  - intros s r C. apply (f_equal (@rev _)) in C. rewrite rev_app_distr in C. vm_compute in C. discriminate.
Qed.
(** Attributes: [/*c*/ #[a] fn ...] *)
Definition ex_attr : elem := Node ATTR [Tok POUND (lit "#"); Tok L_BRACK (lit "["); Tok IDENT (lit "a"); Tok R_BRACK (lit "]")].
Example C88_attribute_example : front_only [Tok COMMENT (lit "/*c*/"); ex_sp; ex_attr; ex_nl] /\ begins_solid [Tok FN_KW (lit "fn")].
Proof.
  split.
  - constructor; [right; exists COMMENT, (lit "/*c*/"); repeat split; discriminate|]. constructor; [right; exists WHITESPACE, (lit " "); repeat split; discriminate|].
    constructor; [left; eexists; split; [reflexivity|]|constructor; [right; exists WHITESPACE, (c_nl :: lit "    "); repeat split; discriminate | constructor]].
    split; [|split].
    + unfold tokens_ok. cbn. repeat (constructor; [discriminate|]). constructor.
    + eexists _, _. split; reflexivity.
    + exists [(POUND, lit "#"); (L_BRACK, lit "["); (IDENT, lit "a")], (R_BRACK, lit "]"). split; reflexivity.
  - eexists _, _. split; reflexivity.
Qed.

(** ** Findings *)

(** The message with a selector may be called like a message the contract has. *)
Theorem C87_selector_name_refuted U : unicode_ok U -> exists c i edit, add_selector_message U c (lit "@") (lit "handler") None = Some edit
  /\ In MY_MESSAGE (ct_callables c) /\ writes U [] i [] (NSelectorMessage (lit "@")) MY_MESSAGE edit.
Proof.
  intros HU. destruct (ex_heads (lit "my_token")) as [H1 _]. destruct (ex_heads (lit "MyToken")) as [_ H2]. destruct (ex_inherent (lit "MyToken") [ex_fn MY_MESSAGE]) as [H3 H4]. destruct (ex_blank U HU) as [H5 _].
  destruct (C87_selector_message U (ex_contract (lit "MyToken") [ex_fn MY_MESSAGE] [MY_MESSAGE]) (lit "@") [] [] None _ [ex_nl; ex_struct (lit "MyToken"); ex_nl] _ [ex_fn MY_MESSAGE] [] [ex_nl] [] HU
    (cleanb_ok (lit "@") eq_refl) eq_refl H1 H3 H4 H2 H5) as (i & edit & A & _ & B & _).
  exists (ex_contract (lit "MyToken") [ex_fn MY_MESSAGE] [MY_MESSAGE]), i, edit. split; [exact A|]. split; [left; reflexivity | exact B].
Qed.
(** A constructor may be called like a function of the impl block it goes to, if that is neither constructor nor message. *)
Theorem C87_callable_name_refuted U : unicode_ok U -> exists c i edit, add_constructor U c None = Some edit
  /\ ct_module c = Some (ex_module (ex_list (lit "MyToken") [ex_fn (lit "new")])) /\ declares FN [ex_fn (lit "new")] (lit "new")
  /\ writes U [] i [] NConstructor (lit "new") edit.
Proof.
  intros HU. destruct (ex_heads (lit "my_token")) as [H1 _]. destruct (ex_heads (lit "MyToken")) as [_ H2]. destruct (ex_inherent (lit "MyToken") [ex_fn (lit "new")]) as [H3 H4]. destruct (ex_blank U HU) as [H5 _].
  destruct (C88_callable U _ _ _ _ (ex_contract (lit "MyToken") [ex_fn (lit "new")] []) [] [] None _ [ex_nl; ex_struct (lit "MyToken"); ex_nl] _ [ex_fn (lit "new")] [] [ex_nl] [] HU
    callable_constructor eq_refl H1 H3 H4 H2 H5) as (name & i & edit & A & B & _ & C & _).
  exists (ex_contract (lit "MyToken") [ex_fn (lit "new")] []), i, edit. split; [exact A|]. split; [reflexivity|]. split.
  - exists [Tok FN_KW (lit "fn"); ex_sp], [Tok IDENT (lit "new")]. eexists. split; [left; reflexivity|]. split; [|reflexivity]. intros cs H. cbn in H. intuition discriminate.
  - assert (E : name = lit "new"); [|rewrite E in C; exact C]. destruct B as [(k & _ & E & _ & Hj)|[E _]]; [|exact E]. destruct k as [|k]; [exact E|]. destruct (Hj 0 ltac:(lia)).
Qed.
(** An event may be called like an enum of its module. *)
Theorem C87_event_name_refuted U : unicode_ok U -> exists i edit,
  add_event U (Contract (Some (ex_module [ex_nl; ex_enum (lit "Event"); ex_nl])) None [] []) None = Some edit /\ writes U [] i [] NEvent (lit "Event") edit.
Proof.
  intros HU. destruct (ex_heads (lit "my_token")) as [H1 _]. destruct (ex_blank U HU) as [_ H6].
  destruct (C87_event U (Contract (Some (ex_module [ex_nl; ex_enum (lit "Event"); ex_nl])) None [] []) [] [] None _ _ [] None HU eq_refl H1 H6) as (name & i & edit & A & B & _ & C & _).
  exists i, edit. split; [exact A|]. assert (E : name = lit "Event"); [|rewrite E in C; exact C]. destruct B as [(k & _ & E & _ & Hj)|[E _]]; [|exact E]. destruct k as [|k]; [exact E|].
  destruct (Hj 0 ltac:(lia)) as (a & nm & b & [H|[H|[H|[]]]] & _); discriminate.
Qed.
(** For version 5, names and ids of the chain extension's functions are not avoided. *)
Theorem C87_function_refuted U : unicode_ok U -> exists fns i edit,
  add_extension U (placed [] None TRAIT ASSOC_ITEM_LIST [Tok TRAIT_KW (lit "trait")] [] []) fns None V5 = Some edit
  /\ In (Some (lit "my_function"), Some 1%N) (cf_functions fns) /\ writes U [] i [] (NFunction 1) (lit "my_function") edit.
Proof.
  intros HU. destruct (ex_blank U HU) as [_ H6]. set (fns := ChainFns [] [(Some (lit "my_function"), Some 1%N)]).
  destruct (C87_extension U V5 [] [] None TRAIT [Tok TRAIT_KW (lit "trait")] [] [] fns None HU) as (name & id & i & edit & A & B & C & _ & D & _); [intros cs H; cbn in H; intuition discriminate | exact H6|].
  exists fns, i, edit. split; [exact A|]. split; [left; reflexivity|].
  assert (E1 : name = lit "my_function"). { destruct B as [(k & _ & E & _ & Hj)|[E _]]; [|exact E]. destruct k as [|k]; [exact E|]. destruct (Hj 0 ltac:(lia)). }
  assert (E2 : id = 1%N). { destruct C as [((Hl & _) & _ & Hm)|[E _]]; [|exact E]. destruct (N.eq_dec id 1) as [E|E]; [exact E|]. destruct (Hm 1%N ltac:(lia)). }
  subst id. rewrite E1 in D. exact D.
Qed.
(** With exactly one chain extension, the combined one still has a field for [Extension2]. *)
Theorem C87_combine_refuted : exists p r, te_text (add_combine r None [p]) <> code [] (combined [p])
  /\ te_text (add_combine r None [p]) = code [] (combined [p; lit "Extension2"]).
Proof. exists (lit "crate::MyExtension"), (0, 0). split; [vm_compute; discriminate | vm_compute; reflexivity]. Qed.
(** Constructors and messages of a contract may end up in the impl block of another type. *)
Theorem C88_other_type_refuted U : unicode_ok U -> exists c name i edit, add_message U c None = Some edit /\ ct_storage c = Some (lit "MyToken")
  /\ ct_module c = Some (ex_module (ex_list (lit "Other") [])) /\ writes U [] i [] NMessage name edit
  /\ exists pre post, inserts pre post IMPL ASSOC_ITEM_LIST (ex_impl_head (lit "Other")) [] [] [] edit.
Proof.
  intros HU. destruct (ex_heads (lit "my_token")) as [H1 _]. destruct (ex_heads (lit "Other")) as [_ H2]. destruct (ex_inherent (lit "Other") []) as [H3 H4]. destruct (ex_blank U HU) as [H5 _].
  destruct (C88_callable U _ _ _ _ (ex_contract (lit "Other") [] []) [] [] None _ [ex_nl; ex_struct (lit "MyToken"); ex_nl] _ [] [] [ex_nl] [] HU
    callable_message eq_refl H1 H3 H4 H2 H5) as (name & i & edit & A & _ & _ & C & a & b & E & _ & Hi).
  exists (ex_contract (lit "Other") [] []), name, i, edit. split; [exact A|]. split; [reflexivity|]. split; [reflexivity|]. split; [exact C|].
  symmetry in E. apply app_eq_nil in E as [-> ->]. eexists _, _. exact Hi.
Qed.
(** The indentation inside an item that is indented by eight columns is sixteen columns. *)
Theorem C87_indent_refuted U : unicode_ok U -> forall i, body_indent (Some (Tok WHITESPACE (c_nl :: lit "        "))) i -> length i = 16.
Proof.
  intros HU i H.
  assert (W : ends_with_indent (c_nl :: lit "        ") (lit "        ")).
  { split; [vm_compute; intuition discriminate|]. right. exists []. reflexivity. }
  destruct H as [(e & own & Ee & _ & Ho & _ & ->)|[H _]].
  - injection Ee as <-. cbn [text_of] in Ho. rewrite (ends_unique _ _ _ Ho W). reflexivity.
  - pose proof (H _ _ eq_refl eq_refl W). discriminate.
Qed.
(** A topic for a struct with unnamed fields is written as a named field. *)
Theorem C87_tuple_topic_refuted : exists U toks s edit, add_topic U toks s None = Done (Some edit) /\ field_list (im_item s) <> None
  /\ (forall l, field_list (im_item s) = Some l -> lkind l = TUPLE_FIELD_LIST)
  /\ te_text edit = lit ", " ++ code (lit "    ") (lines_of NTopic (lit "my_topic")).
Proof.
  exists ascii_unicode.
  set (s := Node STRUCT [Tok STRUCT_KW (lit "struct"); ex_sp; ex_name (lit "E"); Node TUPLE_FIELD_LIST [Tok L_PAREN (lit "("); Node TUPLE_FIELD [Tok IDENT (lit "u8")]; Tok R_PAREN (lit ")")]; Tok SEMICOLON (lit ";")]).
  exists (file_leaves [] s []), (ItemAt None (at_place [] s)). eexists. split; [vm_compute; reflexivity|]. split; [vm_compute; discriminate|]. split; [intros l E; vm_compute in E; injection E as <-; reflexivity|].
  vm_compute. reflexivity.
Qed.

(** An item without the list an entity would go into ([mod a;], [struct S;], an item that is not finished) gets nothing, unless
    a place is asked for; then that is where it goes. *)
Lemma lacks_child L pre K cs : heads L cs -> child_node L (at_place pre (Node K cs)) = None.
Proof.
  intros H. unfold child_node, child_nodes, at_place. cbn [snd fst].
  destruct (filter (fun c => negb (is_tok (snd c)) && skind_eqb (lkind c) L) (place (bytes (text pre)) cs)) as [|c l] eqn:E; [reflexivity|]. exfalso.
  assert (Hc : In c (filter (fun c => negb (is_tok (snd c)) && skind_eqb (lkind c) L) (place (bytes (text pre)) cs))) by (rewrite E; left; reflexivity).
  apply filter_In in Hc as [Hc Hk]. apply place_In in Hc. apply andb_prop in Hk as [Ht Hk]. destruct c as [o e]. cbn [snd lkind] in *.
  destruct e as [k t|k x]; [discriminate|]. apply skind_eqb_eq in Hk. unfold lkind in Hk. cbn [kind_of snd] in Hk. subst k. exact (H _ Hc).
Qed.
Lemma lacks_fields pre K cs : no_field_list cs -> field_list (at_place pre (Node K cs)) = None.
Proof.
  intros [H1 H2]. unfold field_list, at_place. cbn [snd fst]. match goal with |- find ?f ?l = None => destruct (find f l) as [c|] eqn:E; [|reflexivity] end. exfalso.
  apply find_some in E as [Hc Hk]. apply place_In in Hc. apply andb_prop in Hk as [Ht Hk]. destruct c as [o e]. cbn [snd] in *.
  destruct e as [k t|k x]; [discriminate|]. unfold lkind in Hk. cbn [kind_of snd] in Hk.
  apply orb_prop in Hk as [Hk|Hk]; apply skind_eqb_eq in Hk; subst k; [exact (H1 _ Hc) | exact (H2 _ Hc)].
Qed.
Theorem C88_no_list U : forall pre prev K cs,
  let item := ItemAt prev (at_place pre (Node K cs)) in
  let only r (edit : option text_edit) := match r with None => edit = None | Some r => exists e, edit = Some e /\ te_range e = r end in
  (heads ITEM_LIST cs -> forall range v,
     only range (add_test U item range) /\ only range (add_e2e_test U item range v)
     /\ (forall c, ct_module c = Some item -> only range (add_storage U c range) /\ only range (add_event U c range))
     /\ (forall e preferred act act_impl c, callable e preferred act act_impl -> ct_module c = Some item ->
           (forall impl, In impl (ct_impls c) -> of_trait (im_item impl) = true) -> act U c None = None))
  /\ (heads ASSOC_ITEM_LIST cs -> forall range v fns messages,
     only range (add_trait_message U item messages range) /\ only range (add_error_code U item range) /\ only range (add_extension U item fns range v)
     /\ (forall e preferred act act_impl, callable e preferred act act_impl -> only range (act_impl U item range)))
  /\ (no_field_list cs -> forall toks, add_topic U toks item None = Done None).
Proof.
  intros pre prev K cs item only.
  assert (ON : forall (f : trange -> text_edit) range, (forall r, te_range (f r) = r) -> only range (option_map f (oor range None))).
  { intros f [r|] Hf; cbn; [exists (f r); split; [reflexivity | apply Hf] | reflexivity]. }
  assert (RI : forall ts r i, te_range (indented_edit ts r i) = r) by reflexivity.
  assert (RW : forall ts r i, te_range (edit_with_indent ts r i) = r) by (intros ts r [i|]; reflexivity).
  split; [|split].
  - intros H range v. pose proof (lacks_child ITEM_LIST pre K cs H) as E. split; [|split; [|split]].
    + unfold add_test. cbn [item im_item]. rewrite E. cbn [option_map]. apply ON. intros r. apply RI.
    + unfold add_e2e_test. cbn [item im_item]. rewrite E. cbn [option_map]. destruct v; apply ON; intros r; apply RI.
    + intros c Hm. unfold add_storage, add_event, module_list. rewrite Hm. cbn [obind item im_item]. rewrite E. cbn [option_map]. split; apply ON; intros r; [apply RI | apply RW].
    + intros e preferred act act_impl c Hc Hm Hi. destruct (callable_texts _ _ _ _ Hc) as (P & S & _ & _ & _ & -> & _). unfold add_callable. cbn [obind].
      unfold callable_place, callable_impl, module_list. rewrite Hm. cbn [obind item im_item]. rewrite E. cbn [obind oor].
      replace (find (fun i => negb (of_trait (im_item i))) (ct_impls c)) with (@None item_at); [reflexivity|].
      destruct (find (fun i => negb (of_trait (im_item i))) (ct_impls c)) as [x|] eqn:F; [|reflexivity]. apply find_some in F as [F1 F2]. rewrite (Hi _ F1) in F2. discriminate.
  - intros H range v fns messages. pose proof (lacks_child ASSOC_ITEM_LIST pre K cs H) as E. split; [|split; [|split]].
    + unfold add_trait_message, assoc_list. cbn [item im_item]. rewrite E. cbn [option_map]. apply ON. intros r. apply RI.
    + unfold add_error_code, assoc_list. cbn [item im_item]. rewrite E. cbn [option_map]. apply ON. intros r. apply RI.
    + unfold add_extension, assoc_list. cbn [item im_item]. rewrite E. cbn [option_map]. apply ON. intros r. apply RI.
    + intros e preferred act act_impl Hc. destruct (callable_texts _ _ _ _ Hc) as (P & S & _ & _ & _ & _ & ->). unfold add_callable_to_impl, assoc_list.
      cbn [item im_item]. rewrite E. cbn [option_map]. apply ON. intros r. apply RI.
  - intros H toks. unfold add_topic. cbn [item im_item]. rewrite (lacks_fields pre K cs H). reflexivity.
Qed.
(** [mod a;] has no list *)
Example C88_no_list_example : heads ITEM_LIST [Tok (OTHER 300) (lit "mod"); ex_sp; Node NAME [Tok IDENT (lit "a")]; Tok SEMICOLON (lit ";")]
  /\ no_field_list [Tok (OTHER 301) (lit "struct"); ex_sp; Node NAME [Tok IDENT (lit "S")]; Tok SEMICOLON (lit ";")].
Proof. repeat split; intros cs H; cbn in H; intuition discriminate. Qed.

Print Assumptions C87_storage.
Print Assumptions C87_event.
Print Assumptions C87_event2.
Print Assumptions C87_topic.
Print Assumptions C87_callable_in_impl.
Print Assumptions C87_callable_at.
Print Assumptions C87_trait_message.
Print Assumptions C87_error_code.
Print Assumptions C87_extension.
Print Assumptions C87_test.
Print Assumptions C87_e2e_test.
Print Assumptions C87_combine.
Print Assumptions C88_callable_alone.
Print Assumptions C88_callable.
Print Assumptions C88_callable_elsewhere.
Print Assumptions C88_new_impl.
Print Assumptions C88_by_scope.
Print Assumptions C88_attribute.
Print Assumptions C88_no_list.
Print Assumptions C87_selector_message.
Print Assumptions C87_selector_name_refuted.
Print Assumptions C87_callable_name_refuted.
Print Assumptions C87_event_name_refuted.
Print Assumptions C87_function_refuted.
Print Assumptions C87_combine_refuted.
Print Assumptions C88_other_type_refuted.
Print Assumptions C87_indent_refuted.
Print Assumptions C87_tuple_topic_refuted.
