(** C103: the shape of ink! entities — what is reported, what the report marks and what its fixes do. *)
From Coq Require Import List Lia Arith Sorting.
From Verif Require Import Base BaseFacts Unicode PositionModel PositionProofs TranslateModel SyntaxModel AttrModel AttrProps EditModel EditSpec EditProofs UtilModel UtilSpec ArgEditModel ArgEditSpec ArgEditProofs ArgEditProps
  RuleModel RuleSpec RuleProofs ChainSpec ChainProofs EntityModel EntitySpec EntityProofs EntityProps HintModel ExtractModel ImportModel MoveSpec StructureModel StructureSpec StructureProofs.
Import ListNotations.

(** ** The module of a contract *)

(** A module with a list in braces is not reported, *)
Theorem C103_module_inline ink pre post front head l tail : item_head ITEM_LIST front head -> trait_tail tail ->
  let item := item_with MODULE ITEM_LIST (front ++ head) l tail in
  inline_module ink (file_leaves pre item post) (at_place pre item) = Done [].
Proof.
  intros Hh Ht item. assert (HK : (MODULE = MODULE /\ ITEM_LIST = ITEM_LIST) \/ ((MODULE = TRAIT \/ MODULE = IMPL) /\ ITEM_LIST = ASSOC_ITEM_LIST)) by (left; auto).
  destruct (braced_declared pre post MODULE ITEM_LIST front head l tail HK Hh Ht) as (rg & E & _). unfold inline_module. fold item in E. rewrite E. cbn [obind_o].
  assert (Hb : heads ITEM_LIST (front ++ head)) by (exact (braced_heads MODULE ITEM_LIST front head [] [] HK Hh)). pose proof (list_child pre MODULE ITEM_LIST (front ++ head) l tail Hb) as El. fold item in El. rewrite El. reflexivity.
Qed.
(** and [mod name;] is: the report marks it without its attributes, and the fix puts an empty list in the place of the semicolon,
    after which nothing is reported. *)
Theorem C103_bodiless ink pre post front head tail : bodiless_ok front head tail ->
  let item := bodiless front head tail in
  let item' := item_with MODULE ITEM_LIST (front ++ head ++ [blank_one]) [] tail in
  exists rg fx, inline_module ink (file_leaves pre item post) (at_place pre item) = Done [SDiag PInline rg [fx]]
    /\ marks pre item (leaves_of (bodiless_declaration front head)) rg
    /\ effect (RuleSpec.in_file pre item post) fx (RuleSpec.in_file pre item' post)
    /\ inline_module ink (file_leaves pre item' post) (at_place pre item') = Done [].
Proof.
  intros Hok item item'. destruct (bodiless_declared pre post front head tail Hok) as (rg & E & Hm). exists rg. eexists. split; [|split; [exact Hm|split]].
  - unfold inline_module. fold item in E. rewrite E. cbn [obind_o]. pose proof (no_list pre front head tail Hok) as E1. pose proof (semi_found pre front head tail Hok) as E2. fold item in E1, E2.
    rewrite E1, E2. reflexivity.
  - apply bodiless_effect.
  - destruct Hok as ((H1 & H2 & H3 & H4 & H5) & _ & _ & Ht). apply C103_module_inline; [|exact Ht]. split; [exact H1|]. split; [apply begins_app, H2|].
    split; [apply Forall_app; split; [exact H3 | constructor; [intros c C; discriminate C | constructor]]|].
    split; [intros cs C; apply in_app_or in C; destruct C as [C|[C|[]]]; [exact (H4 cs C) | discriminate C]|]. apply heads_app; [exact H5|]. intros cs [C|[]]. discriminate C.
Qed.
(** Anything else marked as a contract is reported: the fixes remove the attribute, and the item (a list of items is not one). *)
Theorem C103_not_module ink pre post K a cs b : K <> MODULE -> first_mark ink a cs ->
  let item := Node K (a ++ Node ATTR cs :: b) in
  exists fx fx', inline_module ink (file_leaves pre item post) (at_place pre item)
    = Done [SDiag PKind (range_at (at_place pre item)) (if skind_eqb K ITEM_LIST then [fx] else [fx; fx'])]
    /\ removes_attr pre post K a cs b fx /\ removes_item pre post item fx'.
Proof.
  intros HK Hm item. exists (remove_node (bytes (ArgEditSpec.text pre) + lens a, Node ATTR cs)), (remove_node (at_place pre item)). split; [|split; [apply removed_attr | apply removed_item]].
  assert (N : node_at MODULE (at_place pre item) = false) by (unfold at_place, item; rewrite node_at_node; destruct (skind_eqb K MODULE) eqn:E; [apply skind_eqb_eq in E; contradiction | reflexivity]).
  unfold inline_module, declared. rewrite N. cbn [obind_o]. unfold remove_attr, item, at_place. rewrite attr_found by exact Hm. unfold lkind. cbn [snd kind_of app].
  destruct (skind_eqb K ITEM_LIST); reflexivity.
Qed.
Theorem C103_not_module_unmarked ink pre post K cs : K <> MODULE -> no_mark ink cs ->
  let item := Node K cs in
  exists fx, inline_module ink (file_leaves pre item post) (at_place pre item)
    = Done [SDiag PKind (range_at (at_place pre item)) (if skind_eqb K ITEM_LIST then [] else [fx])] /\ removes_item pre post item fx.
Proof.
  intros HK Hm item. exists (remove_node (at_place pre item)). split; [|apply removed_item].
  assert (N : node_at MODULE (at_place pre item) = false) by (unfold at_place, item; rewrite node_at_node; destruct (skind_eqb K MODULE) eqn:E; [apply skind_eqb_eq in E; contradiction | reflexivity]).
  unfold inline_module, declared. rewrite N. cbn [obind_o]. unfold remove_attr, item, at_place. rewrite attr_absent by exact Hm. unfold lkind. cbn [snd kind_of app].
  destruct (skind_eqb K ITEM_LIST); reflexivity.
Qed.

(** ** Kinds of items *)

(** An entity that is what it is to be is not reported (but see below for fields of tuples), *)
Theorem C103_fitting_partial ink k o K cs : In K (kinds_for k) -> K <> TUPLE_FIELD -> wrong_kind ink k (o, Node K cs) = [].
Proof.
  intros H N. unfold wrong_kind. replace (fits k (o, Node K cs)) with true; [reflexivity|]. symmetry.
  destruct k as [[]|[]]; cbn [kinds_for In] in H; unfold fits; rewrite ?node_at_node; repeat (destruct H as [<-|H]; [first [reflexivity | contradiction N; reflexivity]|]); destruct H.
Qed.
(** and one that is not is: the report marks the item, and its fix removes the attribute. *)
Theorem C103_kind ink k pre post K a cs b : kinds_for k <> [] -> ~ In K (kinds_for k) -> first_mark ink a cs ->
  let item := Node K (a ++ Node ATTR cs :: b) in
  exists fx, wrong_kind ink k (at_place pre item) = [SDiag PKind (range_at (at_place pre item)) [fx]] /\ removes_attr pre post K a cs b fx.
Proof.
  intros Hk H Hm item. exists (remove_node (bytes (ArgEditSpec.text pre) + lens a, Node ATTR cs)). split; [|apply removed_attr].
  assert (F : fits k (at_place pre item) = false).
  { assert (D : forall k', In k' (kinds_for k) -> skind_eqb K k' = false) by (intros k' Hk'; destruct (skind_eqb K k') eqn:E; [apply skind_eqb_eq in E; subst k'; contradiction | reflexivity]).
    destruct k as [[]|[]]; cbn [kinds_for] in Hk, D; try (contradiction Hk; reflexivity); unfold fits, at_place, item; rewrite !node_at_node, !D by (cbn [In]; auto); reflexivity. }
  unfold wrong_kind. rewrite F. unfold remove_attr. pose proof (attr_found ink (bytes (ArgEditSpec.text pre)) K a cs b Hm) as Ea. fold item in Ea. fold (at_place pre item) in Ea. rewrite Ea. destruct k as [[]|[]]; reflexivity.
Qed.
(** A topic on a field of a tuple struct is reported although tuple structs may be events with topics. *)
Theorem C103_tuple_topic_refuted : exists ink cs, In TUPLE_FIELD (kinds_for (AkArg ATopic)) /\ wrong_kind ink (AkArg ATopic) (0, Node TUPLE_FIELD cs) <> [].
Proof.
  exists (fun _ => true), [Node ATTR [Tok POUND (lit "#"); Tok L_BRACK (lit "["); Tok IDENT (lit "a"); Tok R_BRACK (lit "]")]; Tok IDENT (lit "u8")].
  split; [cbn; auto | vm_compute; discriminate].
Qed.

(** ** Numbers of items *)

Lemma mark_or_not ink cs : (exists a c b, cs = a ++ Node ATTR c :: b /\ first_mark ink a c) \/ no_mark ink cs.
Proof.
  induction cs as [|e cs IH]; [right; intros ? []|]. destruct e as [k s|k c].
  - destruct IH as [(a & c & b & -> & H1 & H2)|H]; [left; exists (Tok k s :: a), c, b; split; [reflexivity|]; split; [exact H1|]; intros cs' [C|C]; [discriminate C | exact (H2 _ C)] | right; intros cs' [C|C]; [discriminate C | exact (H _ C)]].
  - destruct (skind_eqb k ATTR) eqn:Ek.
    + apply skind_eqb_eq in Ek. subst k. destruct (ink (Node ATTR c)) eqn:Ei; [left; exists [], c, cs; split; [reflexivity|]; split; [exact Ei | intros ? []]|].
      destruct IH as [(a & c' & b & -> & H1 & H2)|H]; [left; exists (Node ATTR c :: a), c', b; split; [reflexivity|]; split; [exact H1|]; intros cs' [C|C]; [injection C as <-; exact Ei | exact (H2 _ C)] | right; intros cs' [C|C]; [injection C as <-; exact Ei | exact (H _ C)]].
    + assert (N : forall cs', Node k c <> Node ATTR cs') by (intros cs' C; injection C as -> _; rewrite skind_eqb_refl in Ek; discriminate).
      destruct IH as [(a & c' & b & -> & H1 & H2)|H]; [left; exists (Node k c :: a), c', b; split; [reflexivity|]; split; [exact H1|]; intros cs' [C|C]; [destruct (N _ C) | exact (H2 _ C)] | right; intros cs' [C|C]; [destruct (N _ C) | exact (H _ C)]].
Qed.
Lemma surplus_one ink y : surplus ink y (SDiag PTooMany (lrange_of y) (remove_attr ink y ++ [remove_node y])).
Proof.
  split; [reflexivity|]. split; [reflexivity|]. cbn [sd_fixes]. destruct y as [o [k s|K cs]].
  - right. split; [intros ? ? [=]|]. eexists. split; [reflexivity|]. intros pre post E. cbn [fst] in E. subst o. apply removed_item.
  - destruct (mark_or_not ink cs) as [(a & c & b & -> & Hm)|Hm].
    + left. exists K, a, c, b. eexists _, _. split; [reflexivity|]. split; [exact Hm|]. split; [unfold remove_attr; rewrite attr_found by exact Hm; reflexivity|].
      intros pre post E. cbn [fst] in E. subst o. split; [apply removed_attr | apply removed_item].
    + right. split; [intros K' cs' [= -> ->]; exact Hm|]. eexists. split; [unfold remove_attr; rewrite attr_absent by exact Hm; reflexivity|].
      intros pre post E. cbn [fst] in E. subst o. apply removed_item.
Qed.
(** Of several items of which there may be one, all but the first are reported; their fixes remove the attribute or the item. *)
Theorem C103_too_many ink : too_many ink [] = [] /\ forall x rest, Forall2 (surplus ink) rest (too_many ink (x :: rest)).
Proof.
  split; [reflexivity|]. intros x rest. unfold too_many. destruct rest as [|y rest]; [constructor|]. change (1 <? length (x :: y :: rest)) with true. cbn [skipn]. cbv match.
  induction (y :: rest) as [|z l IH]; [constructor|]. cbn [map]. constructor; [apply surplus_one | exact IH].
Qed.

Section Contracts.
  Variables (pre post : list (skind * str)) (front head l tail : list elem).
  Hypothesis Hh : item_head ITEM_LIST front head.
  Hypothesis Ht : trait_tail tail.
  Let item := item_with MODULE ITEM_LIST (front ++ head) l tail.
  Let toks := file_leaves pre item post.
  Lemma module_declared : exists rg, declared toks MODULE (at_place pre item) = Done rg /\ marks pre item (leaves_of (declaration front head)) rg.
  Proof. apply (braced_declared pre post MODULE ITEM_LIST); [left; auto | exact Hh | exact Ht]. Qed.
  Lemma module_heads : heads ITEM_LIST (front ++ head).
  Proof using Hh. apply (braced_heads MODULE ITEM_LIST front head [] []); [left; auto | exact Hh]. Qed.
End Contracts.
Section Assoc.
  Variables (pre post : list (skind * str)) (K : skind) (front head l tail : list elem).
  Hypothesis HK : K = TRAIT \/ K = IMPL.
  Hypothesis Hh : item_head ASSOC_ITEM_LIST front head.
  Hypothesis Ht : trait_tail tail.
  Let item := item_with K ASSOC_ITEM_LIST (front ++ head) l tail.
  Let toks := file_leaves pre item post.
  Lemma assoc_declared : exists rg, declared toks K (at_place pre item) = Done rg /\ marks pre item (leaves_of (declaration front head)) rg.
  Proof. apply (braced_declared pre post K ASSOC_ITEM_LIST); [right; auto | exact Hh | exact Ht]. Qed.
  Lemma assoc_heads : heads ASSOC_ITEM_LIST (front ++ head).
  Proof using HK Hh. apply (braced_heads K ASSOC_ITEM_LIST front head [] []); [right; auto | exact Hh]. Qed.
End Assoc.

(** A contract with several storage items *)
Theorem C103_storage_surplus U ink pre post front head l tail x rest c : item_head ITEM_LIST front head -> trait_tail tail ->
  let item := item_with MODULE ITEM_LIST (front ++ head) l tail in
  exists ds, storage_quantity U ink (file_leaves pre item post) (at_place pre item) (x :: rest) c = Done ds /\ Forall2 (surplus ink) rest ds.
Proof.
  intros Hh Ht item. destruct (module_declared pre post front head l tail Hh Ht) as (rg & E & _). fold item in E. unfold storage_quantity. rewrite E. cbn [obind_o].
  eexists. split; [reflexivity|]. apply (proj2 (C103_too_many ink)).
Qed.
(** A contract without storage: the report marks the declaration of its module, and the fix adds the storage behind the imports. *)
Theorem C103_no_storage U ink pre post prev front head l tail c nm : unicode_ok U -> item_head ITEM_LIST front head -> trait_tail tail ->
  ct_module c = Some (placed pre prev MODULE ITEM_LIST (front ++ head) l tail) -> blank_prev U prev -> ct_storage c = None -> named (front ++ head) nm -> clean nm ->
  let item := item_with MODULE ITEM_LIST (front ++ head) l tail in
  exists rg edit name i, storage_quantity U ink (file_leaves pre item post) (at_place pre item) [] c = Done [SDiag PNoStorage rg [[edit]]]
    /\ marks pre item (leaves_of (declaration front head)) rg /\ pascal_of nm name /\ body_indent prev i /\ writes U [] i [] NStorage name edit
    /\ goes at_start pre post MODULE ITEM_LIST (front ++ head) l tail None edit.
Proof.
  intros HU Hh Ht Hm Hp Hs Hn Hc item. destruct (module_declared pre post front head l tail Hh Ht) as (rg & E & Hr). fold item in E.
  destruct (C87_storage U c pre post prev (front ++ head) l tail nm None HU Hm (module_heads front head Hh) Hp Hs Hn Hc) as (name & i & edit & Ee & A & B & C & D).
  exists rg, edit, name, i. unfold storage_quantity. rewrite E, Ee. cbn [obind_o only_edit]. auto 6.
Qed.
(** With a constructor, or message, there is no report that there is none. *)
Theorem C103_enough U e preferred p check pre post front head l tail x rest c : demands e preferred p check -> item_head ITEM_LIST front head -> trait_tail tail ->
  let item := item_with MODULE ITEM_LIST (front ++ head) l tail in
  check U (file_leaves pre item post) (at_place pre item) (x :: rest) c = Done [].
Proof.
  intros Hd Hh Ht item. destruct (module_declared pre post front head l tail Hh Ht) as (rg & E & _). fold item in E.
  destruct Hd; unfold contains_constructor, contains_message; rewrite E; reflexivity.
Qed.
(** Without one, the fix adds one to the first impl block of the module that is not for a trait, *)
Theorem C103_into_impl U e preferred p check pre post prev front head x ihead il itail y tail c : unicode_ok U -> demands e preferred p check ->
  let impl := item_with IMPL ASSOC_ITEM_LIST ihead il itail in
  let l := x ++ impl :: y in
  item_head ITEM_LIST front head -> trait_tail tail ->
  ct_module c = Some (placed pre prev MODULE ITEM_LIST (front ++ head) l tail) ->
  inherent impl -> (forall e, In e x -> ~ inherent e) -> heads ASSOC_ITEM_LIST ihead -> blank_prev U (last_opt (lbrace :: x)) ->
  let item := item_with MODULE ITEM_LIST (front ++ head) l tail in
  exists rg edit name i a b, check U (file_leaves pre item post) (at_place pre item) [] c = Done [SDiag p rg [[edit]]]
    /\ marks pre item (leaves_of (declaration front head)) rg /\ chosen preferred (fun n => In n (ct_callables c)) name
    /\ body_indent (last_opt (lbrace :: x)) i /\ writes U [] i [] e name edit /\ il = a ++ b /\ assoc_at_end a b
    /\ inserts (pre ++ leaves_of (front ++ head) ++ (L_CURLY, lit "{") :: leaves_of x) (leaves_of y ++ (R_CURLY, lit "}") :: leaves_of tail ++ post)
         IMPL ASSOC_ITEM_LIST ihead a b itail edit.
Proof.
  intros HU Hd impl l Hh Ht Hm HI Hx Hih Hp item. destruct (module_declared pre post front head l tail Hh Ht) as (rg & E & Hr). fold item in E.
  assert (H : exists act act_impl, callable e preferred act act_impl /\ check U (file_leaves pre item post) (at_place pre item) [] c = Done [SDiag p rg (only_edit (act U c None))]).
  { destruct Hd; eexists _, _; (split; [constructor|]); unfold contains_constructor, contains_message; rewrite E; reflexivity. }
  destruct H as (act & act_impl & Hca & Ec).
  destruct (C88_callable U e preferred act act_impl c pre post prev (front ++ head) x ihead il itail y tail HU Hca Hm (module_heads front head Hh) HI Hx Hih Hp) as (name & i & edit & Ee & A & B & C & a & b & D & F & G).
  exists rg, edit, name, i, a, b. rewrite Ec, Ee. cbn [only_edit]. auto 10.
Qed.
(** and without such an impl block, it adds a new impl block behind the last impl block or struct. *)
Theorem C103_into_new_impl U e preferred p check pre post prev front head l tail c : unicode_ok U -> demands e preferred p check ->
  item_head ITEM_LIST front head -> trait_tail tail ->
  ct_module c = Some (placed pre prev MODULE ITEM_LIST (front ++ head) l tail) -> (forall e, In e l -> ~ inherent e) ->
  (forall i, In i (ct_impls c) -> exists cs, snd (im_item i) = Node IMPL cs /\ 2 <= length (filter type_elem cs)) ->
  has_name c (front ++ head) -> blank_prev U prev ->
  let item := item_with MODULE ITEM_LIST (front ++ head) l tail in
  exists rg edit name N i a b, check U (file_leaves pre item post) (at_place pre item) [] c = Done [SDiag p rg [[edit]]]
    /\ marks pre item (leaves_of (declaration front head)) rg /\ chosen preferred (fun n => In n (ct_callables c)) name
    /\ contract_named c (front ++ head) N /\ body_indent prev i /\ writes U (impl_before i N) (i ++ lit "    ") (impl_after i) e name edit
    /\ l = a ++ b /\ for_impl a b /\ inserts pre post MODULE ITEM_LIST (front ++ head) a b tail edit.
Proof.
  intros HU Hd Hh Ht Hm Hl Hi Hn Hp item. destruct (module_declared pre post front head l tail Hh Ht) as (rg & E & Hr). fold item in E.
  assert (H : exists act act_impl, callable e preferred act act_impl /\ check U (file_leaves pre item post) (at_place pre item) [] c = Done [SDiag p rg (only_edit (act U c None))]).
  { destruct Hd; eexists _, _; (split; [constructor|]); unfold contains_constructor, contains_message; rewrite E; reflexivity. }
  destruct H as (act & act_impl & Hca & Ec).
  destruct (C88_new_impl U e preferred act act_impl c pre post prev (front ++ head) l tail HU Hca Hm (module_heads front head Hh) Hl Hi Hn Hp) as (name & N & i & edit & Ee & A & B & C & D & a & b & F & G & I).
  exists rg, edit, name, N, i, a, b. rewrite Ec, Ee. cbn [only_edit]. auto 12.
Qed.

(** A trait definition without messages: the fix adds one at the end of the trait. With one, nothing is reported. *)
Theorem C103_trait_message U pre post prev front head l tail : unicode_ok U -> item_head ASSOC_ITEM_LIST front head -> trait_tail tail -> blank_prev U prev ->
  let t := placed pre prev TRAIT ASSOC_ITEM_LIST (front ++ head) l tail in
  let item := item_with TRAIT ASSOC_ITEM_LIST (front ++ head) l tail in
  (forall x rest, trait_contains_message U (file_leaves pre item post) t (x :: rest) = Done [])
  /\ exists rg edit i, trait_contains_message U (file_leaves pre item post) t [] = Done [SDiag PNoMessage rg [[edit]]]
    /\ marks pre item (leaves_of (declaration front head)) rg /\ body_indent prev i /\ writes U [] i [] NTraitMessage (lit "my_message") edit
    /\ goes assoc_at_end pre post TRAIT ASSOC_ITEM_LIST (front ++ head) l tail None edit.
Proof.
  intros HU Hh Ht Hp t item. destruct (assoc_declared pre post TRAIT front head l tail (or_introl eq_refl) Hh Ht) as (rg & E & Hr). fold item in E.
  destruct (C87_trait_message U pre post prev TRAIT (front ++ head) l tail [] None HU (assoc_heads TRAIT front head (or_introl eq_refl) Hh) Hp) as (name & i & edit & Ee & A & B & C & D).
  assert (name = lit "my_message") as ->.
  { destruct A as [(k & _ & -> & _ & A)|[-> _]]; [|reflexivity]. destruct k as [|k]; [reflexivity|]. destruct (A 0 ltac:(lia)). }
  unfold trait_contains_message. change (im_item t) with (at_place pre item). rewrite E. cbn [obind_o]. split; [reflexivity|].
  exists rg, edit, i. change (node_at TRAIT (at_place pre item)) with true. cbv match. fold t in Ee. rewrite Ee. cbn [only_edit]. auto.
Qed.
(** An impl block that is not annotated and has no constructor and no message: one of each is offered, at the end of the block. *)
Theorem C103_impl_callables U pre post prev front head l tail annotated constructors messages : unicode_ok U -> item_head ASSOC_ITEM_LIST front head -> trait_tail tail -> blank_prev U prev ->
  let t := placed pre prev IMPL ASSOC_ITEM_LIST (front ++ head) l tail in
  let item := item_with IMPL ASSOC_ITEM_LIST (front ++ head) l tail in
  (annotated = true \/ constructors <> [] \/ messages <> [] -> annotation_or_callable U (file_leaves pre item post) t annotated constructors messages = Done [])
  /\ (annotated = false -> constructors = [] -> messages = [] ->
      exists rg edit1 edit2 name1 name2 i, annotation_or_callable U (file_leaves pre item post) t annotated constructors messages = Done [SDiag PNoCallable rg [[edit1]; [edit2]]]
        /\ marks pre item (leaves_of (declaration front head)) rg /\ body_indent prev i
        /\ chosen (lit "new") (declares FN l) name1 /\ writes U [] i [] NConstructor name1 edit1 /\ goes assoc_at_end pre post IMPL ASSOC_ITEM_LIST (front ++ head) l tail None edit1
        /\ chosen (lit "my_message") (declares FN l) name2 /\ writes U [] i [] NMessage name2 edit2 /\ goes assoc_at_end pre post IMPL ASSOC_ITEM_LIST (front ++ head) l tail None edit2).
Proof.
  intros HU Hh Ht Hp t item. destruct (assoc_declared pre post IMPL front head l tail (or_intror eq_refl) Hh Ht) as (rg & E & Hr). fold item in E.
  unfold annotation_or_callable. change (im_item t) with (at_place pre item). rewrite E. cbn [obind_o]. split.
  - intros H. destruct annotated, constructors, messages; try reflexivity. destruct H as [H|[H|H]]; [discriminate H | contradiction H; reflexivity | contradiction H; reflexivity].
  - intros -> -> ->. pose proof (assoc_heads IMPL front head (or_intror eq_refl) Hh) as Hhe.
    destruct (C87_callable_in_impl U _ _ _ _ pre post prev (front ++ head) l tail None HU callable_constructor Hhe Hp) as (n1 & i1 & e1 & E1 & A1 & B1 & C1 & D1).
    destruct (C87_callable_in_impl U _ _ _ _ pre post prev (front ++ head) l tail None HU callable_message Hhe Hp) as (n2 & i2 & e2 & E2 & A2 & B2 & C2 & D2).
    assert (i1 = i2) as <-.
    { clear - B1 B2. destruct B1 as [(e & own & -> & K1 & O1 & N1 & ->)|[F1 ->]], B2 as [(e' & own' & P2 & K2 & O2 & N2 & ->)|[F2 ->]].
      - injection P2 as <-. assert (own = own') as -> by (eapply ends_unique; eassumption). reflexivity.
      - contradiction N1. eapply F2; eauto.
      - contradiction N2. eapply F1; eauto.
      - reflexivity. }
    change (node_at IMPL (at_place pre item)) with true. cbv match. fold t in E1, E2. rewrite E1, E2. cbn [only_edit app].
    exists rg, e1, e2, n1, n2, i1. auto 12.
Qed.

(** ** Parts that may not be there *)

(** Each [cfg] attribute of a named field of an event is reported, and nothing else; the fix removes just that attribute. *)
Theorem C103_cfg pre post item : reports_each pre post item PCfg (cfg_of_field pre item) (no_cfg_fields (at_place pre item)).
Proof.
  unfold no_cfg_fields. apply reports_spec; [apply cfg_in | apply cfg_sorted|]. intros x Hx. apply cfg_deep, cfg_in, Hx.
Qed.
(** Each list of generic arguments of the type an impl block is for is reported, and nothing else; the fix removes just that list. *)
Theorem C103_self_args pre post item : reports_each pre post item PSelfArgs (arguments_of_self pre item) (self_args (at_place pre item)).
Proof.
  rewrite self_args_map. apply reports_spec; [apply args_in | apply args_sorted|]. intros x Hx. apply args_deep, args_in, Hx.
Qed.

(** A namespace is reported just for impl blocks for traits. *)
Theorem C103_namespace_inherent toks o K cs arg : K <> IMPL \/ length (filter type_elem cs) <= 1 \/ arg = None -> no_trait_namespace toks (o, Node K cs) arg = Done [].
Proof.
  intros H. unfold no_trait_namespace. rewrite node_at_node, of_trait_eq. cbn [snd]. destruct (skind_eqb K IMPL) eqn:E; [|reflexivity]. apply skind_eqb_eq in E. destruct (2 <=? length (filter type_elem cs)) eqn:E2; [|reflexivity].
  apply Nat.leb_le in E2. cbn [andb]. destruct H as [H|[H| ->]]; [contradiction | lia | reflexivity].
Qed.
(** The fix removes it from the other arguments of the attribute (partial: arguments written [name] or [name = value], see C40), *)
Theorem C103_namespace_partial px syn attr pre body post cores i core o cs :
  attr_cast px syn = Some attr -> as_token_tree syn = Some (tree_at pre body) ->
  listed cores false body -> 2 <= length cores -> nth_error cores i = Some core -> plain_argument core -> 2 <= length (filter type_elem cs) ->
  exists a r m body' b', nth_error (at_args attr) i = Some a
    /\ no_trait_namespace (place_leaves 0 (file_tokens pre body post)) (o, Node IMPL cs) (Some (a, attr)) = Done [SDiag PNamespace m [[edit_delete r]]]
    /\ meta_range a = Done m /\ spliced (file_text pre body post) r [] (file_text pre body' post) /\ listed (without i cores) b' body'.
Proof.
  intros Hc Hs Hl H2 Hi Hp Ht. destruct (C40_others_stay_partial px syn attr pre body post cores false i core Hc Hs Hl H2 Hi Hp) as (a & r & body' & b' & Ea & Er & Hsp & Hb & _).
  destruct (cast_args _ _ _ _ Hc Hs) as [Ha _].
  assert (En : length (at_args attr) = length cores) by (rewrite Ha; unfold parse_ink_args, tree_at; cbn [fst snd]; apply listed_args_length; [exact Hl | intros ->; cbn in H2; lia]).
  assert (Hm : exists m, meta_range a = Done m).
  { unfold arg_removal_range in Er. rewrite En in Er. destruct (length cores =? 1) eqn:E1; [apply Nat.eqb_eq in E1; lia|]. destruct (meta_range a) as [m|]; [exists m; reflexivity | discriminate Er]. }
  destruct Hm as (m & Em). exists a, r, m, body', b'. split; [exact Ea|]. split; [|auto]. unfold no_trait_namespace. rewrite node_at_node, skind_eqb_refl, of_trait_eq. cbn [snd].
  apply Nat.leb_le in Ht. rewrite Ht. cbn [andb]. rewrite Er. cbn [obind_o]. rewrite Em. reflexivity.
Qed.
(** and alone, the whole attribute. *)
Theorem C103_namespace_only px syn attr pre body post core k o cs :
  attr_cast px syn = Some attr -> as_token_tree syn = Some (tree_at pre body) -> listed [core] false body -> at_kind attr = AkArg k -> 2 <= length (filter type_elem cs) ->
  exists a, at_args attr = [a] /\ forall m, meta_range a = Done m ->
    no_trait_namespace (place_leaves 0 (file_tokens pre body post)) (o, Node IMPL cs) (Some (a, attr)) = Done [SDiag PNamespace m [[edit_delete (as_range syn)]]].
Proof.
  intros Hc Hs Hl Hk Ht. destruct (C40_only_argument px syn attr pre body post core false Hc Hs Hl ltac:(discriminate)) as (a & Ea & Er). rewrite Hk in Er.
  exists a. split; [exact Ea|]. intros m Em. unfold no_trait_namespace. rewrite node_at_node, skind_eqb_refl, of_trait_eq. cbn [snd]. apply Nat.leb_le in Ht. rewrite Ht. cbn [andb]. rewrite Er. cbn [obind_o]. rewrite Em. reflexivity.
Qed.

(** ** Cases *)

(** [#[a] mod my_token;], [#[a] mod my_token { .. }], [trait T { fn my_message(); }], and an impl block *)
Definition st_front : list elem := [ex_attr; ex_sp].
Definition st_all (e : elem) : bool := true.
Ltac not_in := intros cs H; cbn in H; intuition discriminate.
Lemma st_front_ok : front_only st_front.
Proof.
  constructor; [left; eexists; split; [reflexivity|]|constructor; [right; exists WHITESPACE, (lit " "); repeat split; discriminate | constructor]].
  split; [|split].
  - unfold tokens_ok. cbn. repeat (constructor; [discriminate|]). constructor.
  - eexists _, _. split; reflexivity.
  - exists [(POUND, lit "#"); (L_BRACK, lit "["); (IDENT, lit "a")], (R_BRACK, lit "]"). split; reflexivity.
Qed.
Definition st_name : list elem := [Tok MOD_KW (lit "mod"); ex_sp; ex_name (lit "my_token")].
Lemma docs_none l : forallb (fun e => negb (skind_eqb (kind_of e) COMMENT)) l = true -> no_docs l.
Proof. intros H. apply Forall_forall. intros e He c ->. rewrite forallb_forall in H. discriminate (H _ He). Qed.
Lemma st_head L k s rest : (L = ITEM_LIST \/ L = ASSOC_ITEM_LIST) -> is_trivia k = false -> forallb (fun e => negb (skind_eqb (kind_of e) COMMENT || skind_eqb (kind_of e) ATTR || skind_eqb (kind_of e) L)) (Tok k s :: rest) = true ->
  item_head L st_front (Tok k s :: rest).
Proof.
  intros HL Hk H. rewrite forallb_forall in H. split; [exact st_front_ok|]. split; [eexists _, _; split; [reflexivity | exact Hk]|]. split; [|split].
  - apply docs_none, forallb_forall. intros e He. specialize (H _ He). destruct (skind_eqb (kind_of e) COMMENT); [discriminate H | reflexivity].
  - intros cs C. specialize (H _ C). cbn [kind_of] in H. rewrite skind_eqb_refl, orb_true_r in H. discriminate H.
  - intros cs C. specialize (H _ C). cbn [kind_of] in H. rewrite skind_eqb_refl, orb_true_r in H. discriminate H.
Qed.
Lemma st_tail : trait_tail [].
Proof. split; [constructor | intros cs []]. Qed.
(** The hypotheses about modules, traits and impl blocks hold for them. *)
Example C103_bodiless_example : bodiless_ok st_front st_name []
  /\ inline_module st_all (file_leaves [] (bodiless st_front st_name []) []) (at_place [] (bodiless st_front st_name []))
     = Done [SDiag PInline (5, 18) [[edit_replace (lit " {}") (17, 18)]]].
Proof.
  split; [|vm_compute; reflexivity]. split; [apply st_head; [left; reflexivity | reflexivity | reflexivity]|]. split; [intros s H; cbn in H; intuition discriminate|]. split; [intros cs [] | exact st_tail].
Qed.
Example C103_module_example : item_head ITEM_LIST st_front (ex_mod_head (lit "my_token")) /\ named (st_front ++ ex_mod_head (lit "my_token")) (lit "my_token") /\ clean (lit "my_token").
Proof.
  split; [apply st_head; [left; reflexivity | reflexivity | reflexivity]|]. split; [|apply cleanb_ok; reflexivity].
  exists (st_front ++ [Tok MOD_KW (lit "mod"); ex_sp]), [Tok IDENT (lit "my_token")], [ex_sp]. split; [reflexivity|]. split; [not_in | reflexivity].
Qed.
Definition st_contract (l : list elem) : contract := Contract (Some (placed [] None MODULE ITEM_LIST (st_front ++ ex_mod_head (lit "my_token")) l [])) None [] [].
(** A contract without anything: its storage, and its constructor and message in new impl blocks *)
Example C103_empty_contract_example U ink : unicode_ok U ->
  let c := st_contract [] in
  let item := item_with MODULE ITEM_LIST (st_front ++ ex_mod_head (lit "my_token")) [] [] in
  (exists rg edit i name, storage_quantity U ink (file_leaves [] item []) (at_place [] item) [] c = Done [SDiag PNoStorage rg [[edit]]] /\ pascal_of (lit "my_token") name /\ writes U [] i [] NStorage name edit)
  /\ (exists rg edit N i name, contains_message U (file_leaves [] item []) (at_place [] item) [] c = Done [SDiag PNoMessage rg [[edit]]]
        /\ writes U (impl_before i N) (i ++ lit "    ") (impl_after i) NMessage name edit).
Proof.
  intros HU c item. destruct C103_module_example as (Hh & Hn & Hc). destruct (ex_blank U HU) as [_ Hp]. split.
  - destruct (C103_no_storage U ink [] [] None st_front (ex_mod_head (lit "my_token")) [] [] c (lit "my_token") HU Hh st_tail eq_refl Hp eq_refl Hn Hc) as (rg & edit & name & i & E & _ & Hnm & _ & W & _).
    exists rg, edit, i, name. auto.
  - destruct (C103_into_new_impl U _ _ _ _ [] [] None st_front (ex_mod_head (lit "my_token")) [] [] c HU demands_message Hh st_tail eq_refl) as (rg & edit & name & N & i & a & b & E & _ & _ & _ & _ & W & _).
    + intros e [].
    + intros i [].
    + right. split; [reflexivity|]. exists (lit "my_token"). auto.
    + exact Hp.
    + exists rg, edit, N, i, name. auto.
Qed.
(** With an impl block *)
Example C103_into_impl_example U : unicode_ok U ->
  let l := ex_list (lit "MyToken") [] in
  let item := item_with MODULE ITEM_LIST (st_front ++ ex_mod_head (lit "my_token")) l [] in
  exists rg edit name i, contains_constructor U (file_leaves [] item []) (at_place [] item) [] (st_contract l) = Done [SDiag PNoConstructor rg [[edit]]] /\ writes U [] i [] NConstructor name edit.
Proof.
  intros HU l item. destruct C103_module_example as (Hh & _). destruct (ex_inherent (lit "MyToken") []) as [H3 H4]. destruct (ex_blank U HU) as [H5 _]. destruct (ex_heads (lit "MyToken")) as [_ H2].
  destruct (C103_into_impl U _ _ _ _ [] [] None st_front (ex_mod_head (lit "my_token")) [ex_nl; ex_struct (lit "MyToken"); ex_nl] (ex_impl_head (lit "MyToken")) [] [] [ex_nl] [] (st_contract l) HU demands_constructor Hh st_tail eq_refl H3 H4 H2 H5)
    as (rg & edit & name & i & a & b & E & _ & _ & _ & W & _). exists rg, edit, name, i. auto.
Qed.
(** Kinds and numbers *)
Example C103_kind_example : kinds_for (AkArg AMessage) <> [] /\ ~ In STRUCT (kinds_for (AkArg AMessage)) /\ first_mark st_all [] [Tok POUND (lit "#")]
  /\ In FN (kinds_for (AkArg AMessage)) /\ length (too_many st_all [(0, ex_struct (lit "A")); (9, ex_struct (lit "B")); (18, ex_struct (lit "C"))]) = 2.
Proof. repeat split; try reflexivity; try discriminate; try (left; reflexivity); [intros [H|[]]; discriminate H | intros ? []]. Qed.
Example C103_impl_example : item_head ASSOC_ITEM_LIST st_front (ex_impl_head (lit "MyToken")).
Proof. apply st_head; [right; reflexivity | reflexivity | reflexivity]. Qed.

(** [struct E { #[cfg(x)] a: u8 }]: its attribute is reported. *)
Definition st_cfg : elem :=
  Node ATTR [Tok POUND (lit "#"); Tok L_BRACK (lit "["); Node META [Node PATH [Tok IDENT (lit "cfg")]; Tok L_PAREN (lit "("); Tok IDENT (lit "x"); Tok R_PAREN (lit ")")]; Tok R_BRACK (lit "]")].
Definition st_event : elem :=
  Node STRUCT [Tok STRUCT_KW (lit "struct"); ex_sp; ex_name (lit "E"); ex_sp;
    Node RECORD_FIELD_LIST [lbrace; Node RECORD_FIELD [ex_attr; ex_sp; st_cfg; ex_sp; ex_name (lit "a")]; rbrace]].
Example C103_cfg_example : no_cfg_fields (at_place [] st_event) = [SDiag PCfg (15, 24) [[edit_delete (15, 24)]]].
Proof. vm_compute. reflexivity. Qed.
(** [impl a<x>::b<y> {}]: both lists are. *)
Definition st_args (s : str) : elem := Node GENERIC_ARG_LIST [Tok (OTHER 171) (lit "<"); Tok IDENT s; Tok (OTHER 172) (lit ">")].
Definition st_impl : elem :=
  Node IMPL [Tok IMPL_KW (lit "impl"); ex_sp;
    Node PATH_TYPE [Node PATH [Node PATH [Node PATH_SEGMENT [Tok IDENT (lit "a"); st_args (lit "x")]]; Tok (OTHER 173) (lit "::"); Node PATH_SEGMENT [Tok IDENT (lit "b"); st_args (lit "y")]]];
    ex_sp; Node ASSOC_ITEM_LIST [lbrace; rbrace]].
Example C103_self_args_example : map sd_range (self_args (at_place [] st_impl)) = [(6, 9); (12, 15)].
Proof. vm_compute. reflexivity. Qed.
(** [#[ink(message, payable)]]: the hypotheses about arguments hold for it. *)
Example C103_namespace_example : exists attr, attr_cast no_expr (ink_syntax [lit "ink"] two_words) = Some attr /\ listed [[word "message"]; [word "payable"]] false two_words /\ plain_argument [word "payable"].
Proof. eexists. split; [vm_compute; reflexivity|]. split; [exact two_words_listed | apply word_plain]. Qed.

(** ** Findings *)

(** The fix for a module that has neither a list nor a semicolon replaces the whole contract, with its attribute, by [{}]. *)
Definition st_unclosed : elem := Node MODULE (st_front ++ st_name).
Theorem C103_unclosed_refuted : exists rg fx,
  inline_module st_all (file_leaves [] st_unclosed []) (at_place [] st_unclosed) = Done [SDiag PInline rg [fx]]
  /\ effect (lit "#[a] mod my_token") fx (lit "{}").
Proof.
  eexists _, _. split; [vm_compute; reflexivity|]. eexists. split; [reflexivity|]. exists [], (lit "#[a] mod my_token"), []. repeat split.
Qed.
(** The fix for a trait without messages may add a message called like a function of the trait. *)
Definition st_trait_head : list elem := [Tok (OTHER 174) (lit "trait"); ex_sp; ex_name (lit "T"); ex_sp].
Theorem C103_trait_name_refuted : exists rg edit i,
  let l := [ex_fn (lit "my_message")] in
  let item := item_with TRAIT ASSOC_ITEM_LIST (st_front ++ st_trait_head) l [] in
  trait_contains_message ascii_unicode (file_leaves [] item []) (placed [] None TRAIT ASSOC_ITEM_LIST (st_front ++ st_trait_head) l []) [] = Done [SDiag PNoMessage rg [[edit]]]
  /\ declares FN l (lit "my_message") /\ writes ascii_unicode [] i [] NTraitMessage (lit "my_message") edit
  /\ goes assoc_at_end [] [] TRAIT ASSOC_ITEM_LIST (st_front ++ st_trait_head) l [] None edit.
Proof.
  assert (Hh : item_head ASSOC_ITEM_LIST st_front st_trait_head) by (apply st_head; [right; reflexivity | reflexivity | reflexivity]).
  destruct (C103_trait_message ascii_unicode [] [] None st_front st_trait_head [ex_fn (lit "my_message")] [] ascii_unicode_ok Hh st_tail (proj2 (ex_blank _ ascii_unicode_ok))) as (_ & rg & edit & i & E & _ & _ & W & G).
  exists rg, edit, i. cbv zeta. split; [exact E|]. split; [|split; [exact W | exact G]].
  exists [Tok FN_KW (lit "fn"); ex_sp], [Tok IDENT (lit "my_message")]. eexists. split; [left; reflexivity|]. split; [not_in | reflexivity].
Qed.

Print Assumptions C103_module_inline.
Print Assumptions C103_bodiless.
Print Assumptions C103_not_module.
Print Assumptions C103_not_module_unmarked.
Print Assumptions C103_fitting_partial.
Print Assumptions C103_kind.
Print Assumptions C103_tuple_topic_refuted.
Print Assumptions C103_too_many.
Print Assumptions C103_storage_surplus.
Print Assumptions C103_no_storage.
Print Assumptions C103_enough.
Print Assumptions C103_into_impl.
Print Assumptions C103_into_new_impl.
Print Assumptions C103_trait_message.
Print Assumptions C103_impl_callables.
Print Assumptions C103_cfg.
Print Assumptions C103_self_args.
Print Assumptions C103_namespace_inherent.
Print Assumptions C103_namespace_partial.
Print Assumptions C103_namespace_only.
Print Assumptions C103_unclosed_refuted.
Print Assumptions C103_trait_name_refuted.
