(** Properties C43, C54, C72 and C15 (analyzer side): inlay hints, hover and signature help. *)
From Coq Require Import Lia Permutation.
From Verif Require Import Base BaseFacts PositionModel PositionSpec PositionProofs VersionModel TranslateModel TranslateSpec TranslateProofs
  SyntaxModel AttrModel AttrSpec AttrProofs AttrProps SuggestModel SuggestSpec HintModel HintSpec HintProofs.

(** C43. The hints are those of exactly the (nested) arguments that take a value and lie inside the range, in
    order; each stands right after the argument's name and says which values are expected. *)
Theorem C43_exact : forall attrs range v hs,
  inlay_hints attrs range v = Done hs -> hinted range v (args_in_order attrs) hs.
Proof. exact inlay_hints_spec. Qed.
Print Assumptions C43_exact.

(** C43. That answers every request without a range, and every request when the arguments have ranges. *)
Theorem C43_answered : forall attrs range v,
  (forall r, range = Some r -> forall a x, In a attrs -> In x (at_args a) -> exists ar, meta_range x = Done ar) ->
  exists hs, inlay_hints attrs range v = Done hs.
Proof. exact inlay_hints_total. Qed.
Print Assumptions C43_answered.

(** C43. In particular when the arguments are written name first. *)
Theorem C43_answered_written : forall px attrs range v,
  (forall a, In a attrs -> exists ws body o k, writes_args ws body
     /\ at_args a = parse_meta_items px (Node k (Tok L_PAREN (lit "(") :: body ++ [Tok R_PAREN (lit ")")])) o) ->
  exists hs, inlay_hints attrs range v = Done hs.
Proof.
  intros px attrs range v H. apply inlay_hints_total. intros r _ a x Ha Hx.
  destruct (H a Ha) as (ws & body & o & k & Hw & E). pose proof (C61_argument_range_partial px ws body o k Hw) as F.
  rewrite Forall_forall in F. rewrite E in Hx. destruct (F x Hx) as (n & e & _ & Hr & _). eauto.
Qed.
Print Assumptions C43_answered_written.

(** [#[ink::test(backend(node(url = "x")), payable)]], as the attribute at offset 0 with the arguments at 12. *)
Definition hint_syntax (segments : list str) (body : list elem) : attr_syntax :=
  AttrSyntax segments (Some (12, paren body)) (0, 12 + len_of (paren body) + 1).
Definition hint_attr (segments : list str) (body : list elem) : list ink_attr :=
  match attr_cast no_expr (hint_syntax segments body) with Some a => [a] | None => [] end.
Example C43_ex :
  let attrs := hint_attr [lit "ink_e2e"; lit "test"] ex_body in
  option_map (map (fun h => (ih_label (fst h), ih_position (fst h), snd h)))
    (match inlay_hints attrs (Some (0, 50)) V5 with Done hs => Some hs | Panic => None end)
  = Some [ (lit "node | runtime_only", 20, (13, 20)); (lit "&str", 29, (26, 29)) ]
  /\ (match inlay_hints attrs (Some (14, 50)) V5 with Done hs => length hs | Panic => 9 end) = 1.
Proof. split; reflexivity. Qed.

(** C43. A list of a list before a name, [#[ink((a) b)]], ends the request when a range is given. *)
Theorem C43_malformed_refuted : exists attrs r,
  attrs <> [] /\ inlay_hints attrs (Some r) V5 = Panic /\ exists hs, inlay_hints attrs None V5 = Done hs.
Proof.
  exists (hint_attr [lit "ink"] [paren [id_tok (lit "selector")]; sp; id_tok (lit "selector")]), (0, 90).
  split; [discriminate|]. split; [vm_compute; reflexivity | eexists; vm_compute; reflexivity].
Qed.
Print Assumptions C43_malformed_refuted.

(** C72. The values shown for [selector] depend on the attribute alone: a constructor's selector in an attribute of
    its own is said to accept [@], which constructors do not. *)
Theorem C72_split_constructor_refuted : exists constructor selector hs h,
  at_kind constructor = AkArg AConstructor
  /\ inlay_hints [constructor; selector] None V5 = Done hs /\ In h hs /\ ih_label (fst h) = lit "u32 | _ | @".
Proof.
  destruct (attr_cast no_expr (hint_syntax [lit "ink"] [id_tok (lit "constructor")])) as [c|] eqn:Ec; [|discriminate].
  destruct (attr_cast no_expr (hint_syntax [lit "ink"] [id_tok (lit "selector"); sp; eq_tok; sp; Tok INT_NUMBER (lit "1")])) as [s|] eqn:Es; [|discriminate].
  exists c, s. vm_compute in Ec, Es. injection Ec as <-. injection Es as <-. eexists _, _.
  split; [reflexivity|]. split; [vm_compute; reflexivity|]. split; [left; reflexivity|reflexivity].
Qed.
Print Assumptions C72_split_constructor_refuted.

(** ** C54 *)

(** C54. Inside an ink! attribute, the answer is the documentation of the first argument that contains the range, for
    the name of that argument; nothing if that argument has no documentation. *)
Theorem C54_first_argument : forall px pr root r v a ia x,
  in_file root a -> plain_attr a -> points_into r a -> attr_cast px (read_attr pr a) = Some ia ->
  first_containing (at_args ia) r x ->
  (has_docs v (AkArg (ia_kind x)) -> exists n, m_name x = MOk n
      /\ hover_at px pr root r v = Done (Some (Hover (range_of n) (hover_content (AkArg (ia_kind x)) v (Some (at_kind ia))))))
  /\ (~ has_docs v (AkArg (ia_kind x)) -> hover_at px pr root r v = Done None).
Proof.
  intros px pr root r v a ia x Hf Ha Hr Hc Hx. rewrite (hover_at_attr px pr root r v a ia Hf Ha Hr Hc).
  apply hover_attr_arg, Hx.
Qed.
Print Assumptions C54_first_argument.

(** C54. If no argument contains the range, the answer is the documentation of the attribute: of its macro, for the
    name of the macro, or of the argument that decides its kind, for the name of that argument. *)
Theorem C54_otherwise_the_attribute : forall px pr root r v a ia,
  in_file root a -> plain_attr a -> points_into r a -> attr_cast px (read_attr pr a) = Some ia ->
  none_containing (at_args ia) r ->
  (has_docs v (at_kind ia) ->
     exists hr, hover_at px pr root r v = Done (Some (Hover hr (hover_content (at_kind ia) v None)))
       /\ match at_kind ia with
          | AkMacro _ => forall s1 s2 rest, pr a = s1 :: s2 :: rest -> hr = snd s2
          | AkArg _ => forall n, at_arg_name ia = Some n -> hr = range_of n
          end)
  /\ (~ has_docs v (at_kind ia) -> hover_at px pr root r v = Done None).
Proof.
  intros px pr root r v a ia Hf Ha Hr Hc Hx. rewrite (hover_at_attr px pr root r v a ia Hf Ha Hr Hc).
  destruct (hover_attr_macro ia (macro_segment pr a) r v Hx) as [H1 H2]. split; [|exact H2].
  intros Hd. eexists. split; [apply H1, Hd|]. unfold fallback_range. destruct (at_kind ia).
  - intros s1 s2 rest E. unfold macro_segment. rewrite E. reflexivity.
  - intros n ->. reflexivity.
Qed.
Print Assumptions C54_otherwise_the_attribute.

(** C54. Every answer is about an attribute that contains the requested range, and its own range lies in there. *)
Theorem C54_range_inside : forall px pr root r v h,
  segments_inside pr -> fst r <= snd r -> hover_at px pr root r v = Done (Some h) ->
  exists a, in_file root a /\ lkind a = ATTR /\ inside r (range_of a) /\ inside (ho_range h) (range_of a).
Proof. exact hover_inside. Qed.
Print Assumptions C54_range_inside.

(** C54. Hence there is no answer outside of attributes. *)
Theorem C54_outside : forall px pr root r v h,
  segments_inside pr -> fst r <= snd r ->
  (forall a, in_file root a -> lkind a = ATTR -> ~ inside r (range_of a)) ->
  hover_at px pr root r v <> Done (Some h).
Proof.
  intros px pr root r v h Hs Hle Hn E. destruct (hover_inside px pr root r v h Hs Hle E) as (a & A & B & C & _).
  exact (Hn a A B C).
Qed.
Print Assumptions C54_outside.

(** C54. When the name of an argument is hit (all of it, a part of it or a cursor in or beside it), the answer is the
    documentation of that argument, for exactly its name, which contains the requested range. *)
Theorem C54_name_hit : forall px pr root r v a ia t x n,
  in_file root a -> plain_attr a -> points_into r a -> attr_cast px (read_attr pr a) = Some ia ->
  token_tree_of a = Some t -> well_delimited (snd t) ->
  (forall y, In y (at_args ia) -> exists ar, meta_range y = Done ar) ->
  In x (at_args ia) -> covers_name x -> m_name x = MOk n -> inside r (range_of n) ->
  has_docs v (AkArg (ia_kind x)) ->
  hover_at px pr root r v = Done (Some (Hover (range_of n) (hover_content (AkArg (ia_kind x)) v (Some (at_kind ia))))).
Proof.
  intros px pr root r v a ia t x n Hf Ha Hr Hc Ht Hw Hall Hx Hcov Hn Hi Hd.
  assert (Hs : separated (fst t) (at_args ia) (fst t + len_of (snd t))).
  { destruct (cast_fields _ _ _ Hc) as (E & _). rewrite E. unfold read_attr. cbn [as_token_tree]. rewrite Ht. unfold parse_ink_args.
    apply items_separated, Hw. }
  destruct (in_split _ _ Hx) as (b & af & E).
  destruct (separated_first _ _ _ Hs b x af n r E Hcov Hn Hi) as [Hfirst _].
  - apply Hr.
  - intros y Hy. apply Hall. rewrite E. apply in_or_app. left; exact Hy.
  - destruct (proj1 (C54_first_argument px pr root r v a ia x Hf Ha Hr Hc Hfirst) Hd) as (n' & En & Eh). congruence.
Qed.
Print Assumptions C54_name_hit.

(** C54. Different arguments and macros have different documentation (but for shared topics), and every argument and
    macro that is ever suggested has some. *)
Theorem C54_documentation_distinct : forall v k k' p p',
  has_docs v k -> has_docs v k' -> hover_content k v p = hover_content k' v p' -> same_topic k k'.
Proof.
  intros v k k' p p' H H' E.
  assert (K : forall k p, hover_content k v p = hover_content k v None
              \/ (k = AkArg AKeepAttr /\ hover_content k v p = lit "KEEP_ATTR_E2E_DOC_V5_DEPRECATED")).
  { intros k0 p0. destruct k0 as [m|a]; [left; reflexivity|]. destruct a; try (left; reflexivity).
    destruct v; [left; reflexivity|]. destruct p0 as [[[]|]|]; cbn; tauto. }
  apply (documented_iff v k None) in H. apply (documented_iff v k' None) in H'.
  destruct (K k p) as [E1|[-> E1]], (K k' p') as [E2|[-> E2]]; rewrite E1, E2 in E; clear K E1 E2.
  - destruct v, k as [[]|[]]; try (exfalso; apply H; reflexivity);
      destruct k' as [[]|[]]; try discriminate E; try (exfalso; apply H'; reflexivity);
      first [left; reflexivity | right; left; cbn; tauto | right; right; cbn; tauto].
  - exfalso. destruct v, k as [[]|[]]; discriminate E.
  - exfalso. destruct v, k' as [[]|[]]; discriminate E.
  - left; reflexivity.
Qed.
Print Assumptions C54_documentation_distinct.
Theorem C54_suggestions_documented : forall v,
  (forall k a, In a (sibling_args k v) -> has_docs v (AkArg a))
  /\ (forall s a, In a (args_by_syntax s v) -> has_docs v (AkArg a))
  /\ (forall s m, In m (macros_by_syntax s v) -> has_docs v (AkMacro m)).
Proof.
  intros v. repeat split.
  - intros [[]|[]] a; destruct v; cbn; intros H; repeat (destruct H as [<-|H]; [cbn; tauto|]); destruct H.
  - intros s a H. apply (documented_iff v _ None). destruct s, v; cbn in H; repeat (destruct H as [<-|H]; [discriminate|]); destruct H.
  - intros s m H. apply (documented_iff v _ None). destruct s, v; cbn in H; repeat (destruct H as [<-|H]; [discriminate|]); destruct H.
Qed.
Print Assumptions C54_suggestions_documented.

(** [#[ink(message, selector = 1)]] in a file. *)
Definition ink_path : path_reader := fun a => [(lit "ink", (lstart a + 2, lstart a + 5))].
Definition attr_elem (body : list elem) : elem :=
  Node ATTR [Tok POUND (lit "#"); Tok L_BRACK (lit "[");
             Node META [Node PATH [Tok IDENT (lit "ink")]; paren body]; Tok R_BRACK (lit "]")].
Definition file_with (body : list elem) : elem :=
  Node SOURCE_FILE [Node FN [attr_elem body; Tok WHITESPACE (lit " "); Tok FN_KW (lit "fn")]].
Definition ex_args : list elem :=
  [id_tok (lit "message"); comma_tok; sp; id_tok (lit "selector"); sp; eq_tok; sp; Tok INT_NUMBER (lit "1")].
Example C54_ex :
  hover_at no_expr ink_path (file_with ex_args) (17, 18) V5 = Done (Some (Hover (15, 23) (lit "SELECTOR_DOC_V5")))
  /\ hover_at no_expr ink_path (file_with ex_args) (6, 13) V5 = Done (Some (Hover (6, 13) (lit "MESSAGE_DOC")))
  /\ hover_at no_expr ink_path (file_with ex_args) (2, 5) V5 = Done (Some (Hover (6, 13) (lit "MESSAGE_DOC")))
  /\ hover_at no_expr ink_path (file_with ex_args) (30, 31) V5 = Done None.
Proof. repeat split; vm_compute; reflexivity. Qed.
(** The hypotheses of [C54_name_hit] hold there, for [selector]. *)
Example C54_name_hit_ex : exists a ia t x n,
  in_file (file_with ex_args) a /\ plain_attr a /\ points_into (17, 18) a
  /\ attr_cast no_expr (read_attr ink_path a) = Some ia
  /\ token_tree_of a = Some t /\ well_delimited (snd t)
  /\ (forall y, In y (at_args ia) -> exists ar, meta_range y = Done ar)
  /\ In x (at_args ia) /\ covers_name x /\ m_name x = MOk n /\ inside (17, 18) (range_of n)
  /\ has_docs V5 (AkArg (ia_kind x)).
Proof.
  exists (0, attr_elem ex_args).
  destruct (attr_cast no_expr (read_attr ink_path (0, attr_elem ex_args))) as [ia|] eqn:E; [|discriminate].
  exists ia. vm_compute in E. injection E as <-.
  eexists (5, paren ex_args), _, _. split; [|split; [|split; [|split; [reflexivity|split; [reflexivity|split; [|split]]]]]].
  - eapply eo_child; [left; reflexivity|]. eapply eo_child; [left; reflexivity|]. apply eo_self.
  - split; [reflexivity|]. split; [reflexivity|]. intros e H Hk. apply paths_all in H.
    assert (F : Forall (fun x => lkind x = ATTR -> x = (0, attr_elem ex_args)) (map fst (paths [] 0 (attr_elem ex_args)))).
    { vm_compute. repeat constructor; discriminate. }
    rewrite Forall_forall in F. exact (F e H Hk).
  - assert (EL : len_of (attr_elem ex_args) = 29) by reflexivity.
    unfold points_into, inside, range_of, lend, lstart. cbn [fst snd]. rewrite EL. lia.
  - assert (G : forall l, (forall e, In e l -> kind_of e = COMMA -> 0 < len_of e)
              -> (forall before after p, l = before ++ Tok L_PAREN p :: after -> before = []) ->
              (forall e, In e l -> is_tok e = true) -> well_delimited (Node TOKEN_TREE l)).
    { intros l A B C o k cs H. inversion H as [|? ? ? c ? Hc Hce]; subst; [split; assumption|]. exfalso.
      destruct c as [co ce]. apply place_In in Hc. apply C in Hc. destruct ce; [inversion Hce|discriminate]. }
    apply G.
    + intros e H K. cbn in H. repeat (destruct H as [<-|H]; [first [discriminate K | vm_compute; lia]|]). destruct H.
    + intros before after p H. destruct before as [|y before]; [reflexivity|]. exfalso. cbn in H.
      repeat (first [discriminate H | injection H as _ H | destruct before as [|? before]; cbn in H]).
    + intros e H. cbn in H. repeat (destruct H as [<-|H]; [reflexivity|]). destruct H.
  - intros y H. cbn in H. destruct H as [<-|[<-|[]]]; eexists; vm_compute; reflexivity.
  - split; [cbn; right; left; reflexivity|]. split; [eexists _, _; split; [reflexivity|]; split; [vm_compute; reflexivity|vm_compute; lia]|].
    split; [reflexivity|]. split; [vm_compute; lia|]. cbn. tauto.
Qed.

(** C54. The name of a nested argument is not an argument's name: hovering [url] in [backend(node(url = "x"))] answers
    with the documentation of [backend] for the range of [backend], which does not contain the request. *)
Theorem C54_nested_name_refuted : exists root r h,
  hover_at no_expr (fun a => [(lit "ink_e2e", (2, 9)); (lit "test", (11, 15))]) root r V5 = Done (Some h)
  /\ (exists n, in_file root n /\ snd n = Tok IDENT (lit "url") /\ r = range_of n) /\ ~ inside r (ho_range h).
Proof.
  exists (file_with ex_body), (19, 22), (Hover (6, 13) (lit "BACKEND_DOC")).
  split; [vm_compute; reflexivity|]. split; [|unfold inside; cbn; lia].
  exists (19, Tok IDENT (lit "url")). split; [|split; reflexivity].
  eapply eo_child; [left; reflexivity|]. eapply eo_child; [left; reflexivity|].
  eapply eo_child; [right; right; left; reflexivity|]. eapply eo_child; [right; left; reflexivity|].
  eapply eo_child; [right; right; left; reflexivity|]. eapply eo_child; [right; right; left; reflexivity|].
  eapply eo_child; [right; left; reflexivity|]. apply eo_self.
Qed.
Print Assumptions C54_nested_name_refuted.

(** ** C15 *)

(** C15. Signatures are offered only between the parentheses of an attribute; they apply to what is between them. Each
    shows arguments that belong together, with parameters that delimit exactly their texts, in order and without
    overlap, and with an existing active parameter, which is the one at the cursor if there is one. No two
    signatures read the same. *)
Theorem C15_signatures : forall c off v sigs,
  signature_help c off v = Done sigs ->
  NoDup (map sg_label sigs)
  /\ (forall s, In s sigs ->
        exists t args focused, as_token_tree (at_syntax (sc_attr c)) = Some t /\ between_parens t off (sg_range s)
          /\ argument_at (at_args (sc_attr c)) off focused
          /\ shown_together v args /\ shows v args focused s).
Proof.
  intros c off v sigs. unfold signature_help.
  destruct (as_token_tree (at_syntax (sc_attr c))) as [t|]; [|intros H; injection H as <-; split; [constructor|intros s []]].
  destruct (focused_range t off) as [[range|]|] eqn:Er; cbn [obind_o]; try discriminate;
    [|intros H; injection H as <-; split; [constructor|intros s []]].
  destruct (find_arg _ (at_args (sc_attr c))) as [focused|] eqn:Ef; [|discriminate]. cbn [obind_o].
  intros H; injection H as <-. apply focused_range_iff in Er. apply find_arg_at in Ef.
  assert (Hk : forall s, In s (unique_by sig_key_eqb sig_key (raw_signatures c focused range v)) -> known_signature focused range v s).
  { intros s Hs. apply raw_known with (c := c). unfold unique_by in Hs. eapply unique_by_aux_incl, Hs. }
  split.
  - pose proof (unique_by_nodup sig_key_eqb sig_key sig_key_eqb_eq (raw_signatures c focused range v)) as Hn.
    revert Hn Hk. generalize (unique_by sig_key_eqb sig_key (raw_signatures c focused range v)) as l.
    induction l as [|s l IH]; intros Hn Hk; constructor.
    + cbn [map] in Hn. inversion_clear Hn as [|? ? Hnot Hn']. intros Hin. apply Hnot. apply in_map_iff in Hin. destruct Hin as (s' & El & Hs').
      apply in_map_iff. exists s'. split; [|exact Hs']. unfold sig_key.
      destruct (Hk s (or_introl eq_refl)) as (? & _ & R1 & _). destruct (Hk s' (or_intror Hs')) as (? & _ & R2 & _). congruence.
    + apply IH; [inversion_clear Hn; assumption|]. intros s' Hs'. apply Hk. right; exact Hs'.
  - intros s Hs. destruct (Hk s Hs) as (args & A & B & C). exists t, args, focused. rewrite B. auto.
Qed.
Print Assumptions C15_signatures.

(** C72. An attribute whose kind is an entity shows exactly that entity with all its companions; a macro, exactly its
    arguments. *)
Theorem C72_entity_signature : forall c off v t range k focused,
  as_token_tree (at_syntax (sc_attr c)) = Some t -> between_parens t off range ->
  argument_at (at_args (sc_attr c)) off focused ->
  at_kind (sc_attr c) = AkArg k -> In k entity_args ->
  exists s args, signature_help c off v = Done [s] /\ sg_range s = range /\ shows v args focused s
    /\ args = k :: match options v (AkArg k) with Some opts => opts | None => [] end.
Proof.
  intros c off v t range k focused Ht Hb Ha Hk He. unfold signature_help. rewrite Ht.
  rewrite (proj2 (focused_range_iff t off range) Hb). cbn [obind_o].
  rewrite (proj2 (find_arg_at off _ focused) Ha). cbn [obind_o]. unfold raw_signatures. rewrite Hk.
  apply entity_rank in He. unfold is_entity_type. rewrite He. cbn [Nat.eqb].
  destruct (anchor_spec k focused range v) as (s & -> & Hr & Hs). exists s, (k :: sibling_args (AkArg k) v).
  split; [reflexivity|]. split; [exact Hr|]. split; [exact Hs|]. destruct k, v; try discriminate He; reflexivity.
Qed.
Print Assumptions C72_entity_signature.
Theorem C72_macro_signature : forall c off v t range m focused,
  as_token_tree (at_syntax (sc_attr c)) = Some t -> between_parens t off range ->
  argument_at (at_args (sc_attr c)) off focused ->
  at_kind (sc_attr c) = AkMacro m ->
  match options v (AkMacro m) with
  | Some (o :: opts) => exists s, signature_help c off v = Done [s] /\ sg_range s = range /\ shows v (o :: opts) focused s
  | _ => signature_help c off v = Done []
  end.
Proof.
  intros c off v t range m focused Ht Hb Ha Hk. unfold signature_help. rewrite Ht.
  rewrite (proj2 (focused_range_iff t off range) Hb). cbn [obind_o].
  rewrite (proj2 (find_arg_at off _ focused) Ha). cbn [obind_o]. unfold raw_signatures. rewrite Hk.
  assert (E : match options v (AkMacro m) with Some o => o | None => [] end = sibling_args (AkMacro m) v) by (destruct m, v; reflexivity).
  destruct (options v (AkMacro m)) as [[|o opts]|]; rewrite <- E; try reflexivity.
  destruct (add_signature_spec (o :: opts) focused range v) as (s & -> & Hr & Hs); [discriminate|]. exists s. auto.
Qed.
Print Assumptions C72_macro_signature.

(** C72. With the cursor in an attribute that only says something more about an entity, and without another attribute that says
    which entity it is, all the entities it may be are shown with all their arguments; [namespace] also alone. *)
Theorem C72_companion : forall c off v t range k focused,
  as_token_tree (at_syntax (sc_attr c)) = Some t -> between_parens t off range ->
  argument_at (at_args (sc_attr c)) off focused ->
  at_kind (sc_attr c) = AkArg k -> k <> AUnknown -> ~ In k entity_args -> no_entity_attr (sc_item_attrs c) ->
  exists sigs, signature_help c off v = Done sigs
    /\ (forall e opts, In e entity_args -> options v (AkArg e) = Some opts -> In k opts -> exists s, In s sigs /\ labelled v (e :: opts) (sg_label s))
    /\ (k = ANamespace -> exists s, In s sigs /\ labelled v [k] (sg_label s)).
Proof.
  intros c off v t range k focused Ht Hb Ha Hk Hu He Hn. unfold signature_help. rewrite Ht.
  rewrite (proj2 (focused_range_iff t off range) Hb). cbn [obind_o].
  rewrite (proj2 (find_arg_at off _ focused) Ha). cbn [obind_o]. eexists. split; [reflexivity|].
  assert (Er : raw_signatures c focused range v = complementary_signature k focused range v).
  { unfold raw_signatures. rewrite Hk. destruct (is_entity_type k) eqn:Ee; [apply entity_type_iff in Ee; contradiction|].
    rewrite no_separate by exact Hn. destruct (arg_kind_eqb k AUnknown) eqn:E; [apply arg_kind_eqb_eq in E; contradiction | reflexivity]. }
  rewrite Er. split.
  - intros e opts Hi Ho Hin. apply (shown_kept focused range v (e :: opts)); [discriminate|]. intros s Hs. unfold complementary_signature. apply in_or_app. right.
    destruct (companion_of v k e opts Hi Ho Hin) as (Hp & <-).
    destruct (related_primaries k v) as [|p ps]; [destruct Hp|]. apply in_flat_map. exists e. split; [exact Hp | exact Hs].
  - intros ->. apply (shown_kept focused range v [ANamespace]); [discriminate|]. intros s Hs. apply in_or_app. left. exact Hs.
Qed.
Print Assumptions C72_companion.

(** C72. With the cursor in an attribute without any known argument, on an item for which no other attribute says which entity it
    is, each argument that such an item may have, and that starts as what is written, is shown: an entity with all its arguments,
    another one with an entity that has it if there is one; [namespace] also alone. *)
Theorem C72_open : forall c off v t range ik focused k,
  as_token_tree (at_syntax (sc_attr c)) = Some t -> between_parens t off range ->
  argument_at (at_args (sc_attr c)) off focused ->
  at_kind (sc_attr c) = AkArg AUnknown -> no_entity_attr (sc_item_attrs c) -> sc_item_kind c = Some ik ->
  In k (match sc_item c with Some it => remove_invalid_for_scope (args_by_syntax ik v) it v | None => args_by_syntax ik v end) -> fits focused k ->
  exists sigs, signature_help c off v = Done sigs
    /\ (forall opts, In k entity_args -> options v (AkArg k) = Some opts -> exists s, In s sigs /\ labelled v (k :: opts) (sg_label s))
    /\ (~ In k entity_args -> forall e opts, In e entity_args -> options v (AkArg e) = Some opts -> In k opts -> k <> ANamespace -> exists s, In s sigs /\ labelled v (e :: opts) (sg_label s))
    /\ (k = ANamespace -> exists s, In s sigs /\ labelled v [k] (sg_label s)).
Proof.
  intros c off v t range ik focused k Ht Hb Ha Hk Hn Hik Hin Hfit. unfold signature_help. rewrite Ht.
  rewrite (proj2 (focused_range_iff t off range) Hb). cbn [obind_o].
  rewrite (proj2 (find_arg_at off _ focused) Ha). cbn [obind_o]. eexists. split; [reflexivity|].
  set (args := match sc_item c with Some it => remove_invalid_for_scope (args_by_syntax ik v) it v | None => args_by_syntax ik v end) in *.
  assert (Er : raw_signatures c focused range v = flat_map (open_signature focused range v) (possible_args args focused v)).
  { unfold raw_signatures. rewrite Hk. cbn [is_entity_type]. rewrite no_separate by exact Hn. cbn [arg_kind_eqb negb]. rewrite Hik. reflexivity. }
  rewrite Er. split; [|split].
  - intros opts He Ho. destruct (possible_entity args focused v k k) as (k' & Hk' & Hs); [exact Hin | exact Hfit | exact He | left; split; [reflexivity | exact He] |].
    apply (shown_kept focused range v (k :: opts)); [discriminate|]. intros s Hs'. apply in_flat_map. exists k'. split; [exact Hk'|]. apply Hs. rewrite <- (sibling_options v k opts He Ho) in Hs'. exact Hs'.
  - intros Hne e opts He Ho Hio Hns. destruct (possible_entity args focused v k e) as (k' & Hk' & Hs); [exact Hin | exact Hfit | exact He | right; split; [exact Hne|]; split; [exact Hns|]; exact (proj1 (companion_of v k e opts He Ho Hio)) |].
    apply (shown_kept focused range v (e :: opts)); [discriminate|]. intros s Hs'. apply in_flat_map. exists k'. split; [exact Hk'|]. apply Hs. rewrite <- (sibling_options v e opts He Ho) in Hs'. exact Hs'.
  - intros ->. apply (shown_kept focused range v [ANamespace]); [discriminate|]. intros s Hs. apply in_flat_map. exists ANamespace. split; [apply possible_namespace; [exact Hin | exact Hfit] | apply in_or_app; left; exact Hs].
Qed.
Print Assumptions C72_open.

(** C15. The request is answered whenever the arguments have ranges. *)
Theorem C15_answered : forall c off v,
  (forall y, In y (at_args (sc_attr c)) -> exists ar, meta_range y = Done ar) ->
  exists sigs, signature_help c off v = Done sigs.
Proof.
  intros c off v H. unfold signature_help. destruct (as_token_tree _) as [t|]; [|eauto].
  destruct (focused_range_total t off) as [[r|] ->]; cbn [obind_o]; [|eauto].
  assert (K : exists f, find_arg (fun ar => contains_inclusive ar off) (at_args (sc_attr c)) = Done f).
  { revert H. generalize (at_args (sc_attr c)). induction l as [|a l IH]; intros H; cbn [find_arg]; [eauto|].
    destruct (H a (or_introl eq_refl)) as [ar ->]. cbn [obind_o]. destruct (contains_inclusive ar off); [eauto|].
    apply IH. intros y Hy. apply H. right; exact Hy. }
  destruct K as [f ->]. cbn [obind_o]. eauto.
Qed.
Print Assumptions C15_answered.

(** C15. The analyzer's signatures are always translated: every parameter is sent as its text, or as the code-unit
    offsets of it, and the active parameter exists. *)
Theorem C15_answer_is_sent : forall c off v sigs sup prev ctx,
  signature_help c off v = Done sigs ->
  exists h, to_lsp_signature_help sigs sup prev ctx = Done h
    /\ (sigs <> [] -> exists h', h = Some h')
    /\ forall s, In s sigs ->
         (exists i, sg_active s = Some i /\ i < length (sg_parameters s))
         /\ exists texts, sg_label s = joined texts
              /\ Forall2 (fun p text => exists pre post, sg_label s = pre ++ text ++ post
                   /\ to_lsp_param sup (pc_encoding ctx) (sg_label s) p =
                        Done (LspParam (if ss_offsets sup
                                        then LabelOffsets (units (pc_encoding ctx) pre) (units (pc_encoding ctx) pre + units (pc_encoding ctx) text)
                                        else LabelSimple text) (pa_detail p)))
                 (sg_parameters s) texts.
Proof.
  intros c off v sigs sup prev ctx H. destruct (C15_signatures c off v sigs H) as [_ Hs].
  assert (K : forall s, In s sigs ->
         (exists i, sg_active s = Some i /\ i < length (sg_parameters s))
         /\ exists texts, sg_label s = joined texts
              /\ Forall2 (fun p text => exists pre post, sg_label s = pre ++ text ++ post
                   /\ to_lsp_param sup (pc_encoding ctx) (sg_label s) p =
                        Done (LspParam (if ss_offsets sup
                                        then LabelOffsets (units (pc_encoding ctx) pre) (units (pc_encoding ctx) pre + units (pc_encoding ctx) text)
                                        else LabelSimple text) (pa_detail p)))
                 (sg_parameters s) texts).
  { intros s Hin. destruct (Hs s Hin) as (t & args & focused & _ & _ & _ & _ & kinds & texts & i & k & _ & _ & Hd & El & Hl & Ea & Hk & _).
    pose proof (laid_out_placed texts [] _ Hl) as Hp. cbn [app] in Hp.
    assert (F : Forall2 (fun p text => well_placed (sg_label s) (pa_range p) text) (sg_parameters s) texts).
    { rewrite El. revert Hp. clear. generalize (joined texts) as L. generalize (sg_parameters s) as ps.
      induction texts as [|x texts IH]; intros [|p ps] L H; cbn [map] in H; inversion_clear H; constructor; auto. }
    split.
    - exists i. split; [exact Ea|]. pose proof (Forall2_len _ _ _ _ _ F) as L1. pose proof (Forall2_len _ _ _ _ _ Hd) as L2.
      assert (i < length kinds) by (apply nth_error_Some; congruence). lia.
    - exists texts. split; [exact El|]. clear - F. induction F as [|p x ps xs Hp F IH]; constructor; [|exact IH].
      apply to_lsp_param_spec, Hp. }
  assert (M : forall l, (forall s, In s l -> In s sigs) -> exists ls, outcome_map (to_lsp_signature sup (pc_encoding ctx)) l = Done ls).
  { induction l as [|s l IH]; intros Hl; cbn [outcome_map]; [eauto|].
    destruct (K s (Hl s (or_introl eq_refl))) as [_ (texts & El & F)].
    assert (P : exists ps, outcome_map (to_lsp_param sup (pc_encoding ctx) (sg_label s)) (sg_parameters s) = Done ps).
    { clear - F. generalize (sg_label s) as L, F. clear F. generalize (sg_parameters s) as ps. intros ps L F.
      induction F as [|p x ps xs (pre & post & _ & E) F IH]; cbn [outcome_map]; [eauto|]. rewrite E. destruct IH as [qs ->]. eauto. }
    destruct P as [ps P]. unfold to_lsp_signature at 1. rewrite P.
    destruct (IH (fun s' H' => Hl s' (or_intror H'))) as [ls ->]. eauto. }
  destruct (M sigs (fun s H0 => H0)) as [ls Hls].
  unfold to_lsp_signature_help. destruct sigs as [|s0 sigs0].
  - eexists. split; [reflexivity|]. split; [congruence|exact K].
  - rewrite Hls. eexists. split; [reflexivity|]. split; [eauto|exact K].
Qed.
Print Assumptions C15_answer_is_sent.

(** [#[ink(message, selector = 1)]], cursor on [selector]. *)
Definition ex_context (segments : list str) (body : list elem) : option sig_context :=
  option_map (fun a => SigContext a (Some [a]) (Some FN) None) (attr_cast no_expr (hint_syntax segments body)).
Definition help_at (segments : list str) (body : list elem) (off : nat) : list (str * list (nat * nat) * option nat) :=
  match ex_context segments body with
  | None => []
  | Some c => match signature_help c off V5 with
              | Done sigs => map (fun s => (sg_label s, map pa_range (sg_parameters s), sg_active s)) sigs
              | Panic => []
              end
  end.
Example C15_analyzer_ex :
  help_at [lit "ink"] ex_args 24
    = [(lit "message, default, payable, selector: u32 | _ | @", [(0, 7); (9, 16); (18, 25); (27, 48)], Some 3)]
  /\ help_at [lit "ink"] [id_tok (lit "pay")] 14
    = [(lit "constructor, default, payable, selector: u32 | _", [(0, 11); (13, 20); (22, 29); (31, 48)], Some 2);
       (lit "message, default, payable, selector: u32 | _ | @", [(0, 7); (9, 16); (18, 25); (27, 48)], Some 2)]
  /\ help_at [lit "ink"] ex_args 12 = [].
Proof. repeat split; vm_compute; reflexivity. Qed.

(** [#[ink(n)]] on an impl block *)
Example C72_open_ex : exists c t a n, ex_context [lit "ink"] [id_tok (lit "n")] = Some c
  /\ as_token_tree (at_syntax (sc_attr c)) = Some t /\ at_kind (sc_attr c) = AkArg AUnknown
  /\ at_args (sc_attr c) = [a] /\ m_name a = MOk n /\ text_of (snd n) = lit "n" /\ touched 14 a
  /\ match signature_help (SigContext (sc_attr c) (Some [sc_attr c]) (Some IMPL) None) 14 V5 with Done l => map sg_label l | Panic => [] end
     = [lit "namespace: &str"; lit "impl, namespace: &str"].
Proof.
  destruct (ex_context [lit "ink"] [id_tok (lit "n")]) as [c|] eqn:E; [|discriminate]. vm_compute in E. injection E as <-. eexists _, _, _, _.
  split; [reflexivity|]. split; [vm_compute; reflexivity|]. split; [reflexivity|]. split; [reflexivity|]. split; [reflexivity|]. split; [reflexivity|].
  split; [eexists; split; [vm_compute; reflexivity|]; vm_compute; repeat constructor|]. vm_compute. reflexivity.
Qed.

(** C72. [keep_attr] alone is shown with [env] and [namespace], which no attribute accepts together. *)
Theorem C72_keep_attr_refuted : exists c off sigs s,
  signature_help c off V5 = Done sigs /\ In s sigs
  /\ sg_label s = lit "keep_attr: &str, env: impl Environment, namespace: &str"
  /\ (forall k opts, options V5 k = Some opts -> ~ (In AEnv opts /\ In ANamespace opts)).
Proof.
  destruct (ex_context [lit "ink"] [id_tok (lit "keep_attr")]) as [c|] eqn:E; [|discriminate].
  exists c, 14. vm_compute in E. injection E as <-. eexists _, _. split; [vm_compute; reflexivity|]. split; [left; reflexivity|]. split; [vm_compute; reflexivity|].
  intros [[]|[]] opts H; cbn in H; try discriminate H; injection H as <-; cbn; intros [A B];
    repeat (destruct A as [A|A]; [try discriminate A|]); repeat (destruct B as [B|B]; [try discriminate B|]); try contradiction.
Qed.
Print Assumptions C72_keep_attr_refuted.
