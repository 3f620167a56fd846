(** Proofs for C103. *)
From Coq Require Import List Lia Arith Sorting.
From Verif Require Import Base BaseFacts Unicode PositionModel PositionProofs TranslateModel SyntaxModel AttrModel AttrProofs EditModel EditSpec EditProofs UtilModel ArgEditModel ArgEditSpec ArgEditProofs RuleModel RuleSpec RuleProofs
  ChainSpec ChainProofs EntityModel EntitySpec EntityProofs HintModel HintSpec HintProofs ExtractModel ExtractSpec FocusModel ImportModel MoveSpec MoveProofs StructureModel StructureSpec.
Import ListNotations.

(** ** Removing a node *)
Lemma range_at_eq x : lrange_of x = range_at x.
Proof. reflexivity. Qed.
Lemma effect_delete A (x : lelem) C : fst x = bytes A -> effect (A ++ text_of (snd x) ++ C) (remove_node x) (A ++ C).
Proof. intros E. exists (edit_delete (lrange_of x)). split; [reflexivity|]. apply deleted; unfold lstart, lend, len_of; rewrite E; reflexivity. Qed.
Lemma in_file_any pre e post : RuleSpec.in_file pre e post = ArgEditSpec.text pre ++ text_of e ++ ArgEditSpec.text post.
Proof. unfold RuleSpec.in_file. rewrite !text_app, text_leaves. reflexivity. Qed.
Lemma removed_item pre post e : removes_item pre post e (remove_node (at_place pre e)).
Proof. unfold removes_item. rewrite in_file_any. apply (effect_delete (ArgEditSpec.text pre) (at_place pre e)). reflexivity. Qed.
Lemma removed_attr pre post K a cs b : removes_attr pre post K a cs b (remove_node (bytes (ArgEditSpec.text pre) + lens a, Node ATTR cs)).
Proof.
  unfold removes_attr. rewrite !in_file_text, !texts_of_app. change (texts_of (Node ATTR cs :: b)) with (text_of (Node ATTR cs) ++ texts_of b).
  rewrite <- !app_assoc. rewrite (app_assoc (ArgEditSpec.text pre)), (app_assoc (ArgEditSpec.text pre)).
  apply (effect_delete (ArgEditSpec.text pre ++ texts_of a) (bytes (ArgEditSpec.text pre) + lens a, Node ATTR cs)). cbn [fst]. rewrite bytes_app. reflexivity.
Qed.
Lemma rid pre post item x : (exists item', cut (bytes (ArgEditSpec.text pre)) x [item] [item']) -> rid_of pre post item x (remove_node x).
Proof.
  intros (item' & Hc). exists item'. split; [exact Hc|]. destruct (cut_text _ _ _ _ Hc) as (p & q & E1 & E2 & E3).
  cbn [texts_of flat_map] in E1, E2. rewrite app_nil_r in E1, E2. rewrite !in_file_any, E1, E2, <- !app_assoc. rewrite (app_assoc (ArgEditSpec.text pre)), (app_assoc (ArgEditSpec.text pre)).
  apply effect_delete. rewrite bytes_app. lia.
Qed.

(** ** The attribute of the entity *)
Lemma find_app' {A} (f : A -> bool) a b : find f (a ++ b) = match find f a with Some x => Some x | None => find f b end.
Proof. induction a as [|x a IH]; [reflexivity|]. cbn [app find]. destruct (f x); [reflexivity | exact IH]. Qed.
Lemma find_none' {A} (p : A -> bool) l : (forall y, In y l -> p y = false) -> find p l = None.
Proof. induction l as [|x l IH]; intros H; [reflexivity|]. cbn [find]. rewrite (H x) by (left; reflexivity). apply IH. intros y Hy. apply H. right. exact Hy. Qed.
Lemma node_at_node k o cs K : node_at k (o, Node K cs) = skind_eqb K k.
Proof. reflexivity. Qed.
Lemma attr_found ink o K a cs b : first_mark ink a cs -> entity_attr ink (o, Node K (a ++ Node ATTR cs :: b)) = Some (o + lens a, Node ATTR cs).
Proof.
  intros [H1 H2]. unfold entity_attr, child_nodes. cbn [snd fst]. rewrite place_app, filter_app, find_app'. fold (lens a).
  replace (find _ (filter _ (place o a))) with (@None lelem).
  - cbn [place filter snd]. unfold lkind. cbn [snd is_tok negb kind_of andb]. rewrite skind_eqb_refl. cbn [find snd]. rewrite H1. reflexivity.
  - symmetry. apply find_none'. intros c Hc. apply filter_In in Hc. destruct Hc as [Hc E]. apply place_In in Hc. destruct c as [q [k s|k cs']]; [discriminate E|].
    cbn [snd is_tok negb andb lkind kind_of] in *. apply skind_eqb_eq in E. subst k. apply H2, Hc.
Qed.
Lemma attr_absent ink o K cs : no_mark ink cs -> entity_attr ink (o, Node K cs) = None.
Proof.
  intros H. unfold entity_attr, child_nodes. cbn [snd fst]. apply find_none'. intros c Hc. apply filter_In in Hc. destruct Hc as [Hc E]. apply place_In in Hc.
  destruct c as [q [k s|k cs']]; [discriminate E|]. cbn [snd is_tok negb andb lkind kind_of] in *. apply skind_eqb_eq in E. subst k. apply H, Hc.
Qed.

(** ** What is marked *)
Section Declared.
  Variables (pre post : list (skind * str)) (K L : skind) (front head : list elem) (x : elem) (tail : list elem) (t : skind * str) (more : list (skind * str)).
  Hypothesis Hh : item_head L front head.
  Hypothesis Hx : leaves x = t :: more.
  Hypothesis Hd : forall c, x = Tok COMMENT c -> is_doc c = false.
  Hypothesis Ha : kind_of x <> ATTR.
  Hypothesis Ht : trait_tail tail.
  Let item := Node K (front ++ head ++ x :: tail).
  Let toks := file_leaves pre item post.
  Hypothesis He : declaration_end (at_place pre item) = Some (bytes (ArgEditSpec.text pre) + lens (front ++ head) + bytes (snd t)).
  Lemma declared_spec : exists rg, declared toks K (at_place pre item) = Done rg
    /\ marks pre item (leaves_of ((if existsb annotation front then [] else front) ++ head) ++ [t]) rg.
  Proof.
    destruct Hh as (Hf & Hb & Hdo & Hat & Hl). destruct Ht as (Hd2 & Ha2).
    assert (S1 : begins_solid (head ++ x :: tail)) by (apply begins_app; exact Hb).
    assert (S2 : no_docs (head ++ x :: tail)) by (apply Forall_app; split; [exact Hdo|]; constructor; [exact Hd | exact Hd2]).
    assert (S3 : forall cs, ~ In (Node ATTR cs) (head ++ x :: tail)).
    { intros cs C. apply in_app_or in C. destruct C as [C|[C|C]]; [exact (Hat cs C) | apply Ha; rewrite C; reflexivity | exact (Ha2 cs C)]. }
    pose proof (item_start pre post K front (head ++ x :: tail) Hf S1 S2 S3) as Es. fold item in Es. fold toks in Es.
    unfold declared. unfold node_at, is_node, lkind, at_place. cbn [snd is_tok negb kind_of andb]. unfold item at 1 2. cbn [is_tok negb kind_of andb]. rewrite skind_eqb_refl. fold (at_place pre item).
    unfold declaration_range. rewrite He, Es. set (o := bytes (ArgEditSpec.text pre)) in *.
    set (s := o + (if existsb annotation front then lens front else 0)).
    assert (Hle : s <= o + lens (front ++ head) + bytes (snd t)) by (unfold s; rewrite lens_app; destruct (existsb annotation front); lia).
    unfold mk_range. apply Nat.leb_le in Hle. rewrite Hle. cbn [obind_o or_else]. eexists. split; [reflexivity|].
    exists (leaves_of (if existsb annotation front then front else [])), (more ++ leaves_of tail). split.
    - unfold item. rewrite leaves_node. change (x :: tail) with ([x] ++ tail). rewrite !leaves_of_app.
      assert (El : leaves_of [x] = t :: more) by (unfold leaves_of; cbn [flat_map]; rewrite app_nil_r; exact Hx).
      rewrite El. destruct (existsb annotation front); cbn [app]; change (leaves_of []) with (@nil (skind * str)); rewrite ?app_nil_r, <- ?app_assoc; cbn [app]; rewrite <- ?app_assoc; reflexivity.
    - unfold s. f_equal; rewrite ?text_app, ?bytes_app, ?bytes_texts; fold o.
      + destruct (existsb annotation front); rewrite ?lens_nil; lia.
      + assert (E1 : bytes (ArgEditSpec.text [t]) = bytes (snd t)) by (unfold ArgEditSpec.text; cbn [flat_map]; rewrite app_nil_r; reflexivity).
        rewrite ?leaves_of_app, ?text_app, ?bytes_app, ?bytes_texts, E1, !lens_app. destruct (existsb annotation front); rewrite ?lens_nil; lia.
  Qed.
End Declared.

Lemma heads_app L a b : heads L a -> heads L b -> heads L (a ++ b).
Proof. intros Ha Hb cs C. apply in_app_or in C. destruct C as [C|C]; [exact (Ha cs C) | exact (Hb cs C)]. Qed.
Lemma front_heads L l : front_only l -> L <> ATTR -> heads L l.
Proof.
  intros H N cs C. unfold front_only in H. rewrite Forall_forall in H. destruct (H _ C) as [(cs' & E & _)|(k & s & E & _)]; [|discriminate E]. injection E as E _. exact (N E).
Qed.

Section Braced.
  Variables (pre post : list (skind * str)) (K L : skind) (front head l tail : list elem).
  Hypothesis HK : (K = MODULE /\ L = ITEM_LIST) \/ ((K = TRAIT \/ K = IMPL) /\ L = ASSOC_ITEM_LIST).
  Hypothesis Hh : item_head L front head.
  Hypothesis Ht : trait_tail tail.
  Let item := item_with K L (front ++ head) l tail.
  Lemma braced_heads : heads L (front ++ head).
  Proof. destruct Hh as (Hf & _ & _ & _ & Hl). apply heads_app; [apply front_heads; [exact Hf|] | exact Hl]. destruct HK as [[_ ->]|[_ ->]]; discriminate. Qed.
  Lemma braced_declared : exists rg, declared (file_leaves pre item post) K (at_place pre item) = Done rg /\ marks pre item (leaves_of (declaration front head)) rg.
  Proof.
    assert (Ei : item = Node K (front ++ head ++ braced L l :: tail)) by (unfold item, item_with; rewrite <- app_assoc; reflexivity).
    assert (Ed : declaration_end (at_place pre item) = Some (bytes (ArgEditSpec.text pre) + lens (front ++ head) + bytes (snd (L_CURLY, lit "{")))).
    { pose proof (list_child pre K L (front ++ head) l tail braced_heads) as E. fold item in E. unfold declaration_end. change (lkind (at_place pre item)) with K.
      destruct HK as [[EK HL]|[[EK|EK] HL]]; rewrite EK; rewrite HL in E at 1; rewrite E; unfold curly_end; cbn [option_map]; rewrite braced_open; reflexivity. }
    assert (E : leaves_of (declaration front head) = leaves_of ((if existsb annotation front then [] else front) ++ head) ++ [(L_CURLY, lit "{")]).
    { unfold declaration. rewrite !app_assoc, (leaves_of_app _ [lbrace]). reflexivity. }
    rewrite E. rewrite Ei in Ed |- *.
    apply (declared_spec pre post K L front head (braced L l) tail (L_CURLY, lit "{") (leaves_of (l ++ [rbrace]))); try assumption.
    - unfold braced. rewrite leaves_node. change (lbrace :: l ++ [rbrace]) with ([lbrace] ++ l ++ [rbrace]). rewrite leaves_of_app. reflexivity.
    - intros c [=].
    - cbn [kind_of braced]. destruct HK as [[_ ->]|[_ ->]]; discriminate.
  Qed.
End Braced.

(** A module without a list *)
Section Bodiless.
  Variables (pre post : list (skind * str)) (front head tail : list elem).
  Hypothesis Hok : bodiless_ok front head tail.
  Let item := bodiless front head tail.
  Lemma front_toks k s : front_only front -> is_trivia k = false -> ~ In (Tok k s) front.
  Proof.
    intros H N C. unfold front_only in H. rewrite Forall_forall in H. destruct (H _ C) as [(cs' & E & _)|(k' & s' & E & Hk & _)]; [discriminate E|]. injection E as -> ->. congruence.
  Qed.
  Lemma semi_found : child_token SEMICOLON (at_place pre item) = Some (bytes (ArgEditSpec.text pre) + lens (front ++ head), (SEMICOLON, lit ";")).
  Proof.
    destruct Hok as ((Hf & _) & Hs & _). unfold item, bodiless, at_place. rewrite app_assoc. unfold semicolon. rewrite child_token_at; [reflexivity|].
    apply forallb_forall. intros e He. destruct e as [k s|k cs]; [|reflexivity]. cbn [tok_of]. destruct (skind_eqb k SEMICOLON) eqn:E; [|unfold tok_of; cbn; rewrite ?E; reflexivity].
    apply skind_eqb_eq in E. subst k. exfalso. apply in_app_or in He. destruct He as [He|He]; [exact (front_toks SEMICOLON s Hf eq_refl He) | exact (Hs s He)].
  Qed.
  Lemma no_list : child_node ITEM_LIST (at_place pre item) = None.
  Proof.
    destruct Hok as ((Hf & _ & _ & _ & Hl) & _ & Htl & _). unfold item, bodiless, at_place. apply child_node_none. apply forallb_forall. intros e He. destruct e as [k s|k cs]; [reflexivity|].
    unfold node_of. cbn [is_tok negb andb kind_of]. destruct (skind_eqb k ITEM_LIST) eqn:E; [|reflexivity]. apply skind_eqb_eq in E. subst k. exfalso.
    apply in_app_or in He. destruct He as [He|He]; [exact (front_heads ITEM_LIST front Hf ltac:(discriminate) cs He)|]. apply in_app_or in He. destruct He as [He|[He|He]]; [exact (Hl cs He) | discriminate He | exact (Htl cs He)].
  Qed.
  Lemma bodiless_declared : exists rg, declared (file_leaves pre item post) MODULE (at_place pre item) = Done rg /\ marks pre item (leaves_of (bodiless_declaration front head)) rg.
  Proof.
    assert (Ed : declaration_end (at_place pre item) = Some (bytes (ArgEditSpec.text pre) + lens (front ++ head) + bytes (snd (SEMICOLON, lit ";")))).
    { unfold declaration_end. change (lkind (at_place pre item)) with MODULE. cbv match. rewrite no_list. unfold semicolon_end. rewrite semi_found. reflexivity. }
    assert (E : leaves_of (bodiless_declaration front head) = leaves_of ((if existsb annotation front then [] else front) ++ head) ++ [(SEMICOLON, lit ";")]).
    { unfold bodiless_declaration. rewrite !app_assoc, (leaves_of_app _ [semicolon]). reflexivity. }
    rewrite E. destruct Hok as (Hh & _ & _ & Ht).
    apply (declared_spec pre post MODULE ITEM_LIST front head semicolon tail (SEMICOLON, lit ";") []); try assumption; try discriminate. reflexivity.
  Qed.
  Lemma bodiless_effect : effect (RuleSpec.in_file pre item post) [edit_replace (lit " {}") (lf_range (bytes (ArgEditSpec.text pre) + lens (front ++ head), (SEMICOLON, lit ";")))]
    (RuleSpec.in_file pre (item_with MODULE ITEM_LIST (front ++ head ++ [blank_one]) [] tail) post).
  Proof.
    eexists. split; [reflexivity|]. unfold item, bodiless, item_with. rewrite !in_file_text.
    replace (ArgEditSpec.text pre ++ texts_of (front ++ head ++ semicolon :: tail) ++ ArgEditSpec.text post) with ((ArgEditSpec.text pre ++ texts_of (front ++ head)) ++ lit ";" ++ (texts_of tail ++ ArgEditSpec.text post))
      by (rewrite !texts_of_app; change (texts_of (semicolon :: tail)) with (lit ";" ++ texts_of tail); rewrite <- !app_assoc; reflexivity).
    replace (ArgEditSpec.text pre ++ texts_of ((front ++ head ++ [blank_one]) ++ EntitySpec.braced ITEM_LIST [] :: tail) ++ ArgEditSpec.text post) with ((ArgEditSpec.text pre ++ texts_of (front ++ head)) ++ lit " {}" ++ (texts_of tail ++ ArgEditSpec.text post))
      by (rewrite !texts_of_app; change (texts_of (EntitySpec.braced ITEM_LIST [] :: tail)) with (lit "{}" ++ texts_of tail); change (texts_of [blank_one]) with (lit " "); rewrite <- !app_assoc; reflexivity).
    apply replaced; unfold lf_range, lf_start, lf_end; cbn [fst snd]; rewrite bytes_app; reflexivity.
  Qed.
End Bodiless.

(** ** Elements in order *)
Definition before (a b : lelem) : Prop := lend a <= lstart b.
Lemma place_bounds o l x : In x (place o l) -> o <= lstart x /\ lend x <= o + lens l.
Proof.
  revert o. induction l as [|e l IH]; intros o; [intros []|]. cbn [place]. rewrite lens_cons. intros [<-|H].
  - unfold lstart, lend, len_of. cbn [fst snd]. lia.
  - destruct (IH _ H). unfold len_of in *. lia.
Qed.
Lemma place_sorted o l : StronglySorted before (place o l).
Proof.
  revert o. induction l as [|e l IH]; intros o; [constructor|]. cbn [place]. constructor; [apply IH|]. apply Forall_forall. intros x Hx. apply place_bounds in Hx. exact (proj1 Hx).
Qed.
Lemma filter_sorted (f : lelem -> bool) l : StronglySorted before l -> StronglySorted before (filter f l).
Proof.
  induction 1 as [|x l H IH Hx]; [constructor|]. cbn [filter]. destruct (f x); [|exact IH]. constructor; [exact IH|]. rewrite Forall_forall in *. intros y Hy. apply filter_In in Hy. apply Hx, Hy.
Qed.
Definition in_range (p x : lelem) : Prop := lstart p <= lstart x /\ lend x <= lend p.
Lemma app_sorted a b : StronglySorted before a -> StronglySorted before b -> (forall x y, In x a -> In y b -> before x y) -> StronglySorted before (a ++ b).
Proof.
  induction 1 as [|x a H IH Hx]; intros Hb Hab; [exact Hb|]. cbn [app]. constructor; [apply IH; [exact Hb | intros; apply Hab; [right|]; assumption]|].
  apply Forall_app. split; [exact Hx|]. apply Forall_forall. intros y Hy. apply Hab; [left; reflexivity | exact Hy].
Qed.
Lemma flat_sorted (g : lelem -> list lelem) l : StronglySorted before l -> (forall x, In x l -> StronglySorted before (g x) /\ forall y, In y (g x) -> in_range x y) ->
  StronglySorted before (flat_map g l).
Proof.
  induction 1 as [|x l H IH Hx]; intros Hg; [constructor|]. cbn [flat_map]. apply app_sorted.
  - apply (Hg x). left. reflexivity.
  - apply IH. intros y Hy. apply Hg. right. exact Hy.
  - intros a b Ha Hb. apply in_flat_map in Hb. destruct Hb as (z & Hz & Hb). destruct (Hg x (or_introl eq_refl)) as [_ Hr]. destruct (Hg z (or_intror Hz)) as [_ Hr'].
    specialize (Hr _ Ha). specialize (Hr' _ Hb). rewrite Forall_forall in Hx. specialize (Hx _ Hz). unfold in_range, before in *. lia.
Qed.

(** ** Children *)
Lemma child_nodes_iff k p x : In x (child_nodes k p) <-> has_child p x /\ is_kind k x.
Proof.
  unfold child_nodes, has_child, is_kind. destruct p as [o [k' s|k' cs]]; cbn [snd fst].
  - split; [intros [] | intros [(? & ? & [=] & _) _]].
  - rewrite filter_In. split.
    + intros [H E]. split; [exists k', cs; auto|]. destruct x as [q [k2 s2|k2 cs2]]; [discriminate E|]. cbn [snd is_tok negb andb lkind kind_of] in *. apply skind_eqb_eq in E. subst k2. exists cs2. reflexivity.
    + intros [(k2 & cs2 & [= <- <-] & H) (cs3 & E)]. split; [exact H|]. rewrite E. unfold lkind. rewrite E. cbn [is_tok negb kind_of andb]. apply skind_eqb_refl.
Qed.
Lemma child_nodes_bounds k p x : In x (child_nodes k p) -> in_range p x.
Proof.
  intros H. apply child_nodes_iff in H. destruct H as [(k' & cs & E & H) _]. apply place_bounds in H. destruct p as [o e]. cbn [snd fst] in *. subst e. unfold in_range, lstart, lend at 2, len_of. cbn [fst snd]. rewrite text_of_node. exact H.
Qed.
Lemma child_nodes_sorted k p : StronglySorted before (child_nodes k p).
Proof. unfold child_nodes. destruct (snd p); [constructor|]. apply (filter_sorted (fun c => _)), place_sorted. Qed.
Lemma child_node_iff k o K cs x : child_node k (o, Node K cs) = Some x <-> exists a c b, cs = a ++ Node k c :: b /\ heads k a /\ x = (o + lens a, Node k c).
Proof.
  split.
  - unfold child_node. intros H. assert (Hin : In x (child_nodes k (o, Node K cs))) by (destruct (child_nodes k (o, Node K cs)); [discriminate|]; injection H as ->; left; reflexivity).
    unfold child_nodes in *. cbn [snd fst] in *. clear Hin. revert o H. induction cs as [|e cs IH]; intros o H; [discriminate|]. cbn [place filter] in H.
    destruct (negb (is_tok (snd (o, e))) && skind_eqb (lkind (o, e)) k) eqn:E.
    + cbn [hd_error] in H. injection H as <-. destruct e as [k2 s2|k2 c]; [discriminate|]. cbn [snd is_tok negb andb lkind kind_of] in E. apply skind_eqb_eq in E. subst k2.
      exists [], c, cs. split; [reflexivity|]. split; [intros ? []|]. rewrite lens_nil, Nat.add_0_r. reflexivity.
    + destruct (IH _ H) as (a & c & b & -> & Ha & ->). exists (e :: a), c, b. split; [reflexivity|]. split; [|rewrite lens_cons; f_equal; lia].
      intros cs' [->|C]; [|exact (Ha cs' C)]. cbn [snd is_tok negb andb lkind kind_of] in E. rewrite skind_eqb_refl in E. discriminate.
  - intros (a & c & b & -> & Ha & ->). apply child_node_at. apply forallb_forall. intros e He. destruct e as [k2 s|k2 c2]; [reflexivity|]. unfold node_of. cbn [is_tok negb andb kind_of].
    destruct (skind_eqb k2 k) eqn:E; [|reflexivity]. apply skind_eqb_eq in E. subst k2. destruct (Ha _ He).
Qed.

(** ** Parts deep inside *)
Inductive deep : lelem -> lelem -> Prop :=
  | deep_child p x : has_child p x -> deep p x
  | deep_in p c x : has_child p c -> deep c x -> deep p x.
Lemma deep_cut p x : deep p x -> exists k cs cs', snd p = Node k cs /\ cut (fst p) x cs cs'.
Proof.
  induction 1 as [p x (k & cs & E & H)|p c x (k & cs & E & H) _ (k' & cs' & cs2 & E' & IH)]; exists k, cs; destruct (in_place _ _ _ H) as (l1 & l2 & -> & Ef).
  - exists (l1 ++ l2). split; [exact E|]. constructor. exact Ef.
  - rewrite E' in *. exists (l1 ++ Node k' cs2 :: l2). split; [exact E|]. constructor. rewrite <- Ef. exact IH.
Qed.
Lemma deep_rid pre post item x : deep (at_place pre item) x -> rid_of pre post item x (remove_node x).
Proof.
  intros H. destruct (deep_cut _ _ H) as (k & cs & cs' & E & Hc). cbn [at_place fst snd] in *. apply rid. exists (Node k cs'). rewrite E.
  apply (cut_in (bytes (ArgEditSpec.text pre)) x [] k cs cs' []). cbn [texts_of flat_map]. change (bytes []) with 0. rewrite Nat.add_0_r. exact Hc.
Qed.
Lemma reports_spec pre post item p P xs : (forall x, In x xs <-> P x) -> StronglySorted before xs -> (forall x, In x xs -> deep (at_place pre item) x) ->
  reports_each pre post item p P (map (fun x => SDiag p (lrange_of x) [remove_node x]) xs).
Proof.
  intros H1 H2 H3. exists xs. split; [exact H1|]. split; [exact H2|]. clear H1 H2. induction xs as [|x xs IH]; [constructor|]. cbn [map]. constructor.
  - split; [reflexivity|]. split; [reflexivity|]. exists (remove_node x). split; [reflexivity|]. apply deep_rid, H3. left. reflexivity.
  - apply IH. intros y Hy. apply H3. right. exact Hy.
Qed.

(** The first element with a property *)
Lemma find_place (q : elem -> bool) cs : forall o x, find (fun c => q (snd c)) (place o cs) = Some x
  <-> exists a c b, cs = a ++ c :: b /\ q c = true /\ (forall e, In e a -> q e = false) /\ x = (o + lens a, c).
Proof.
  induction cs as [|e cs IH]; intros o x; cbn [place find snd].
  - split; [discriminate|]. intros ([|] & ? & ? & [=] & _).
  - destruct (q e) eqn:E.
    + split.
      * intros [= <-]. exists [], e, cs. repeat split; [exact E | intros ? [] | rewrite lens_nil, Nat.add_0_r; reflexivity].
      * intros ([|e' a] & c & b & Ec & Hq & Ha & ->); cbn [app] in Ec; injection Ec as -> ->; [rewrite lens_nil, Nat.add_0_r; reflexivity|]. rewrite (Ha e') in E by (left; reflexivity). discriminate.
    + rewrite IH. split.
      * intros (a & c & b & -> & Hq & Ha & ->). exists (e :: a), c, b. repeat split; [exact Hq | intros ? [<-|He]; [exact E | exact (Ha _ He)] | rewrite lens_cons; f_equal; lia].
      * intros ([|e' a] & c & b & Ec & Hq & Ha & ->); cbn [app] in Ec; injection Ec as -> ->; [congruence|]. exists a, c, b. repeat split; [exact Hq | intros; apply Ha; right; assumption | rewrite lens_cons; f_equal; lia].
Qed.

(** ** [cfg] attributes of fields *)
Definition cfg_attr (a : lelem) : bool := match attr_path a with Some p => str_eqb (text_of (snd p)) (lit "cfg") | None => false end.
Lemma cfg_named o cs : cfg_attr (o, Node ATTR cs) = true <-> named_cfg (Node ATTR cs).
Proof.
  unfold cfg_attr, attr_path. split.
  - destruct (child_node META (o, Node ATTR cs)) as [m|] eqn:Em; [|discriminate]. cbn [obind]. destruct (child_node PATH m) as [p|] eqn:Ep; [|discriminate]. intros H. apply str_eqb_eq in H.
    apply child_node_iff in Em. destruct Em as (a & m' & b & -> & Ha & ->). apply child_node_iff in Ep. destruct Ep as (c & p' & d & -> & Hc & ->).
    exists a, (c ++ Node PATH p' :: d), b, c, p', d. repeat split; assumption.
  - intros (a & m & b & c & p & d & E & Ha & -> & Hc & Hp). injection E as ->.
    assert (Em : child_node META (o, Node ATTR (a ++ Node META (c ++ Node PATH p :: d) :: b)) = Some (o + lens a, Node META (c ++ Node PATH p :: d))) by (apply child_node_iff; do 3 eexists; split; [reflexivity|]; split; [exact Ha | reflexivity]).
    rewrite Em. cbn [obind]. assert (Ep : child_node PATH (o + lens a, Node META (c ++ Node PATH p :: d)) = Some (o + lens a + lens c, Node PATH p)) by (apply child_node_iff; do 3 eexists; split; [reflexivity|]; split; [exact Hc | reflexivity]).
    rewrite Ep. apply str_eqb_eq. exact Hp.
Qed.
Definition list_elem (e : elem) : bool := negb (is_tok e) && (skind_eqb (kind_of e) RECORD_FIELD_LIST || skind_eqb (kind_of e) TUPLE_FIELD_LIST).
Lemma no_list_elem h : no_field_list h <-> forall e, In e h -> list_elem e = false.
Proof.
  split.
  - intros [H1 H2] e He. destruct e as [|k cs]; [reflexivity|]. unfold list_elem. cbn [is_tok negb kind_of andb].
    destruct (skind_eqb k RECORD_FIELD_LIST) eqn:E1; [apply skind_eqb_eq in E1; subst k; destruct (H1 _ He)|]. destruct (skind_eqb k TUPLE_FIELD_LIST) eqn:E2; [apply skind_eqb_eq in E2; subst k; destruct (H2 _ He) | reflexivity].
  - intros H. split; intros cs C; apply H in C; discriminate C.
Qed.
Lemma field_list_iff o K cs x : field_list (o, Node K cs) = Some x <-> exists h c t, cs = h ++ c :: t /\ list_elem c = true /\ no_field_list h /\ x = (o + lens h, c).
Proof.
  unfold field_list. cbn [snd fst]. etransitivity; [apply (find_place list_elem cs o x)|].
  split; intros (a & c & b & E & Hc & Ha & Ex); exists a, c, b; repeat split; try assumption; try (apply no_list_elem in Ha; apply Ha); apply no_list_elem, Ha.
Qed.
Lemma kids_kind k p x : In x (child_nodes k p) -> exists o cs, x = (o, Node k cs).
Proof. intros H. apply child_nodes_iff in H. destruct H as [_ (cs & E)]. destruct x as [o e]. cbn in E. subst e. exists o, cs. reflexivity. Qed.
Lemma cfg_in pre item x : In x (cfg_attrs (at_place pre item)) <-> cfg_of_field pre item x.
Proof.
  unfold cfg_attrs, at_place. split.
  - destruct item as [|K cs]; [intros []|]. rewrite node_at_node. destruct (skind_eqb K STRUCT) eqn:EK; [|intros []]. apply skind_eqb_eq in EK. subst K.
    destruct (field_list _) as [l|] eqn:El; [|intros []]. apply field_list_iff in El. destruct El as (h & c & t & -> & Hc & Hh & ->).
    destruct (skind_eqb (lkind _) RECORD_FIELD_LIST) eqn:EL; [|intros []]. destruct c as [|L l]; [discriminate Hc|]. unfold lkind in EL. cbn [snd kind_of] in EL. apply skind_eqb_eq in EL. subst L.
    intros H. apply in_flat_map in H. destruct H as (f & Hf & H). apply filter_In in H. destruct H as [H Ec]. apply child_nodes_iff in Hf. destruct Hf as [(k' & l' & E & Hf) Hk]. cbn [snd fst] in *. injection E as <- <-.
    destruct (kids_kind _ _ _ H) as (q & cs & ->). apply child_nodes_iff in H. destruct H as [H _]. exists h, l, t, f. rewrite bytes_app. repeat split; try assumption; try apply Hh. cbn [snd]. apply (cfg_named q cs). exact Ec.
  - intros (h & l & t & f & -> & Hh & Hf & Hk & Hx & Hn). rewrite node_at_node, skind_eqb_refl.
    assert (El : field_list (bytes (ArgEditSpec.text pre), Node STRUCT (h ++ Node RECORD_FIELD_LIST l :: t)) = Some (bytes (ArgEditSpec.text pre) + lens h, Node RECORD_FIELD_LIST l)).
    { apply field_list_iff. exists h, (Node RECORD_FIELD_LIST l), t. repeat split; try reflexivity; apply Hh. }
    rewrite El. unfold lkind at 1. cbn [snd kind_of]. rewrite skind_eqb_refl. apply in_flat_map. exists f. split.
    + apply child_nodes_iff. split; [|exact Hk]. exists RECORD_FIELD_LIST, l. split; [reflexivity|]. cbn [fst]. rewrite bytes_app in Hf. exact Hf.
    + apply filter_In. pose proof Hn as (a & m & b & c & p & d & E & _). destruct x as [q e]. cbn [snd] in *. rewrite E in *. split; [|apply (cfg_named q); exact Hn]. apply child_nodes_iff. split; [exact Hx|]. eexists. reflexivity.
Qed.
Lemma cfg_sorted item : StronglySorted before (cfg_attrs item).
Proof.
  unfold cfg_attrs. destruct (node_at STRUCT item); [|constructor]. destruct (field_list item) as [l|]; [|constructor]. destruct (skind_eqb _ _); [|constructor].
  apply flat_sorted; [apply child_nodes_sorted|]. intros f _. split; [apply filter_sorted, child_nodes_sorted|]. intros y Hy. apply filter_In in Hy. eapply child_nodes_bounds, Hy.
Qed.
Lemma cfg_deep pre item x : cfg_of_field pre item x -> deep (at_place pre item) x.
Proof.
  intros (h & l & t & f & -> & Hh & Hf & Hk & Hx & Hn). rewrite bytes_app in Hf. apply deep_in with (bytes (ArgEditSpec.text pre) + lens h, Node RECORD_FIELD_LIST l).
  - exists STRUCT, (h ++ Node RECORD_FIELD_LIST l :: t). split; [reflexivity|]. cbn [at_place fst]. rewrite place_app. apply in_or_app. right. left. reflexivity.
  - apply deep_in with f; [|apply deep_child, Hx]. exists RECORD_FIELD_LIST, l. split; [reflexivity | exact Hf].
Qed.

(** ** Generic arguments of the self type *)
Definition own_segments (c : lelem) : list lelem :=
  match snd c with
  | Tok _ _ => []
  | Node k _ => if skind_eqb k PATH then segments (snd c) (fst c) else if skind_eqb k PATH_SEGMENT then [c] else []
  end.
Lemma segments_node k cs o : segments (Node k cs) o = flat_map own_segments (place o cs).
Proof.
  cbn [segments]. revert o. induction cs as [|c cs IH]; intros o; [reflexivity|]. cbn [place flat_map]. rewrite IH. reflexivity.
Qed.
Lemma segments_range e : forall o, StronglySorted before (segments e o) /\ forall s, In s (segments e o) -> in_range (o, e) s.
Proof.
  induction e as [k t|k cs IH] using elem_ind'; intros o; [split; [constructor | intros ? []]|]. rewrite segments_node.
  assert (G : forall c, In c (place o cs) -> StronglySorted before (own_segments c) /\ forall y, In y (own_segments c) -> in_range c y).
  { intros c Hc. unfold own_segments. destruct c as [q e]. cbn [snd fst]. destruct e as [k' t|k' cs']; [split; [constructor | intros ? []]|].
    destruct (skind_eqb k' PATH).
    - rewrite Forall_forall in IH. apply IH. apply place_In in Hc. exact Hc.
    - destruct (skind_eqb k' PATH_SEGMENT); [|split; [constructor | intros ? []]]. split; [repeat constructor|]. intros y [<-|[]]. unfold in_range. lia. }
  split; [apply flat_sorted; [apply place_sorted | exact G]|]. intros s H. apply in_flat_map in H. destruct H as (c & Hc & H). apply (proj2 (G c Hc)) in H.
  apply place_bounds in Hc. unfold in_range in *. unfold lstart at 1, lend at 2, len_of. cbn [fst snd]. rewrite text_of_node. unfold lens in Hc. lia.
Qed.
Lemma segments_iff e : forall o s, In s (segments e o) <-> segment_of (o, e) s.
Proof.
  induction e as [k t|k cs IH] using elem_ind'; intros o s.
  - split; [intros []|]. intros H. inversion H; subst; match goal with Hc : has_child _ _ |- _ => destruct Hc as (? & ? & Ec & _); discriminate Ec end.
  - rewrite segments_node, in_flat_map. split.
    + intros (c & Hc & H). destruct c as [q c]. unfold own_segments in H. cbn [snd fst] in H. destruct c as [k' t|k' cs']; [destruct H|].
      destruct (skind_eqb k' PATH) eqn:E; [|destruct (skind_eqb k' PATH_SEGMENT) eqn:E2; [|destruct H]].
      * apply skind_eqb_eq in E. subst k'. apply segment_qualifier with (q, Node PATH cs'); [exists k, cs; split; [reflexivity | exact Hc] | exists cs'; reflexivity|].
        rewrite Forall_forall in IH. apply (IH (Node PATH cs')); [exact (place_In _ _ _ Hc) | exact H].
      * apply skind_eqb_eq in E2. subst k'. destruct H as [<-|[]]. apply segment_own; [exists k, cs; split; [reflexivity | exact Hc] | exists cs'; reflexivity].
    + remember (o, Node k cs) as p eqn:Ep. intros H. destruct H as [p s (k' & cs' & Ec & Hc) (cs2 & E2)|p q s (k' & cs' & Ec & Hc) (cs2 & E2) Hs]; subst p; cbn [snd fst] in Ec, Hc; injection Ec as <- <-.
      * exists s. split; [exact Hc|]. unfold own_segments. rewrite E2. change (skind_eqb PATH_SEGMENT PATH) with false. cbv match. rewrite skind_eqb_refl. left. reflexivity.
      * exists q. split; [exact Hc|]. unfold own_segments. rewrite E2, skind_eqb_refl. destruct q as [oq eq]. cbn [snd fst] in *. subst eq.
        rewrite Forall_forall in IH. apply (IH (Node PATH cs2)); [exact (place_In _ _ _ Hc) | exact Hs].
Qed.
Lemma filter_first (q : elem -> bool) cs : forall o x r, filter (fun c => q (snd c)) (place o cs) = x :: r ->
  exists a c b, cs = a ++ c :: b /\ q c = true /\ filter q a = [] /\ x = (o + lens a, c) /\ r = filter (fun c => q (snd c)) (place (o + lens (a ++ [c])) b).
Proof.
  induction cs as [|e cs IH]; intros o x r; [discriminate|]. cbn [place filter snd]. destruct (q e) eqn:E.
  - intros [= <- <-]. exists [], e, cs. rewrite lens_nil, Nat.add_0_r. cbn [app]. rewrite lens_cons, lens_nil, Nat.add_0_r. auto.
  - intros H. apply IH in H. destruct H as (a & c & b & -> & Hq & Ha & -> & ->). exists (e :: a), c, b. cbn [filter app]. rewrite E, !lens_cons. repeat split; try assumption; [f_equal; lia | do 2 f_equal; lia].
Qed.
Lemma filter_place_nil (q : elem -> bool) o cs : filter q cs = [] <-> filter (fun c => q (snd c)) (place o cs) = [].
Proof. rewrite <- (filter_place q o cs). split; [|intros ->; reflexivity]. destruct (filter (fun c => q (snd c)) (place o cs)); [reflexivity | discriminate]. Qed.
Lemma self_type_iff o cs x : self_type (o, Node IMPL cs) = Some x <-> exists h T t, self_type_at cs h T t /\ x = (o + lens h, T).
Proof.
  unfold self_type, type_nodes. cbn [snd fst]. change (fun c : nat * elem => negb (is_tok (snd c)) && is_type (lkind c)) with (fun c : lelem => type_elem (snd c)). split.
  - destruct (filter _ _) as [|t1 r] eqn:E; [discriminate|]. apply filter_first in E. destruct E as (a & c & b & -> & Hq & Ha & -> & ->).
    destruct (filter (fun c0 => type_elem (snd c0)) (place (o + lens (a ++ [c])) b)) as [|t2 r] eqn:E2.
    + intros H; injection H as <-. exists a, c, b. split; [|reflexivity]. split; [reflexivity|]. split; [exact Hq|]. right. split; [exact Ha|]. apply filter_place_nil in E2. exact E2.
    + intros H; injection H as <-. apply filter_first in E2. destruct E2 as (a2 & c2 & b2 & -> & Hq2 & Ha2 & -> & _). exists (a ++ c :: a2), c2, b2. split.
      * split; [rewrite <- app_assoc; reflexivity|]. split; [exact Hq2|]. left. exists c. rewrite filter_app, Ha. cbn [filter app]. rewrite Hq, Ha2. reflexivity.
      * f_equal. rewrite !lens_app, !lens_cons, lens_nil. lia.
  - intros (h & T & t & (-> & HT & Hc) & ->). rewrite place_app, filter_app. cbn [place filter snd]. rewrite HT. destruct Hc as [(T1 & Hh)|[Hh Ht]].
    + rewrite <- (filter_place type_elem o h) in Hh. change (map snd (filter (fun c : lelem => type_elem (snd c)) (place o h)) = [T1]) in Hh.
      destruct (filter (fun c : lelem => type_elem (snd c)) (place o h)) as [|y [|]]; try discriminate Hh. reflexivity.
    + apply (filter_place_nil type_elem o h) in Hh. apply (filter_place_nil type_elem (o + bytes (texts_of h) + len_of T) t) in Ht.
      match goal with |- match ?A ++ ?B :: ?C with _ => _ end = _ => replace A with (@nil lelem) by (symmetry; exact Hh); replace C with (@nil lelem) by (symmetry; exact Ht) end. reflexivity.
Qed.
Definition args_of_segment (s : lelem) : list lelem := match child_node GENERIC_ARG_LIST s with Some g => [g] | None => [] end.
Definition self_arg_lists (item : lelem) : list lelem :=
  if node_at IMPL item then
    match self_type item with
    | Some t => if node_at PATH_TYPE t then match child_node PATH t with Some p => flat_map args_of_segment (segments (snd p) (fst p)) | None => [] end else []
    | None => []
    end
  else [].
Lemma self_args_map item : self_args item = map (fun g => SDiag PSelfArgs (lrange_of g) [remove_node g]) (self_arg_lists item).
Proof.
  unfold self_args, self_arg_lists. destruct (node_at IMPL item); [|reflexivity]. destruct (self_type item) as [t|]; [|reflexivity]. destruct (node_at PATH_TYPE t); [|reflexivity].
  destruct (child_node PATH t) as [p|]; [|reflexivity]. induction (segments (snd p) (fst p)) as [|s l IH]; [reflexivity|]. cbn [filter_map flat_map]. rewrite map_app, <- IH. unfold args_of_segment.
  destruct (child_node GENERIC_ARG_LIST s); reflexivity.
Qed.
Lemma child_in k p x : child_node k p = Some x -> In x (child_nodes k p).
Proof. unfold child_node. destruct (child_nodes k p); [discriminate|]. intros [= <-]. left. reflexivity. Qed.
Lemma args_in pre item x : In x (self_arg_lists (at_place pre item)) <-> arguments_of_self pre item x.
Proof.
  unfold self_arg_lists, at_place. split.
  - destruct item as [|K cs]; [intros []|]. rewrite node_at_node. destruct (skind_eqb K IMPL) eqn:EK; [|intros []]. apply skind_eqb_eq in EK. subst K.
    destruct (self_type _) as [ty|] eqn:Et; [|intros []]. apply self_type_iff in Et. destruct Et as (h & T & t & HT & ->). destruct T as [|KT ct]; [intros []|]. rewrite node_at_node.
    destruct (skind_eqb KT PATH_TYPE) eqn:EK; [|intros []]. apply skind_eqb_eq in EK. subst KT. destruct (child_node PATH _) as [p|] eqn:Ep; [|intros []]. apply child_node_iff in Ep. destruct Ep as (a & p' & b & -> & Ha & ->).
    cbn [fst snd]. intros H. apply in_flat_map in H. destruct H as (s & Hs & H). apply segments_iff in Hs. unfold args_of_segment in H. destruct (child_node GENERIC_ARG_LIST s) as [g|] eqn:Eg; [|destruct H]. destruct H as [<-|[]].
    destruct s as [os [ks ts|ks cs']]; [discriminate Eg|]. apply child_node_iff in Eg. destruct Eg as (sa & g' & sb & -> & Hsa & ->).
    exists cs, h, t, a, p', b, (os, Node ks (sa ++ Node GENERIC_ARG_LIST g' :: sb)), ks, sa, g', sb. rewrite !bytes_app, Nat.add_assoc. repeat split; try assumption; try apply HT.
  - intros (cs & h & t & a & p & b & s & k & sa & g & sb & -> & HT & Ha & Hs & Es & Hsa & ->). rewrite node_at_node, skind_eqb_refl.
    assert (Et : self_type (bytes (ArgEditSpec.text pre), Node IMPL cs) = Some (bytes (ArgEditSpec.text pre) + lens h, Node PATH_TYPE (a ++ Node PATH p :: b))) by (apply self_type_iff; eauto).
    rewrite Et, node_at_node, skind_eqb_refl.
    assert (Ep : child_node PATH (bytes (ArgEditSpec.text pre) + lens h, Node PATH_TYPE (a ++ Node PATH p :: b)) = Some (bytes (ArgEditSpec.text pre) + lens h + lens a, Node PATH p)) by (apply child_node_iff; do 3 eexists; split; [reflexivity|]; split; [exact Ha | reflexivity]).
    rewrite Ep. cbn [fst snd]. apply in_flat_map. exists s. split; [apply segments_iff; rewrite !bytes_app, Nat.add_assoc in Hs; exact Hs|]. destruct s as [os e]. cbn [snd fst] in *. subst e. unfold args_of_segment.
    assert (Eg : child_node GENERIC_ARG_LIST (os, Node k (sa ++ Node GENERIC_ARG_LIST g :: sb)) = Some (os + lens sa, Node GENERIC_ARG_LIST g)) by (apply child_node_iff; do 3 eexists; split; [reflexivity|]; split; [exact Hsa | reflexivity]).
    rewrite Eg. left. reflexivity.
Qed.
Lemma args_sorted item : StronglySorted before (self_arg_lists item).
Proof.
  unfold self_arg_lists. destruct (node_at IMPL item); [|constructor]. destruct (self_type item) as [t|]; [|constructor]. destruct (node_at PATH_TYPE t); [|constructor].
  destruct (child_node PATH t) as [p|]; [|constructor]. apply flat_sorted; [apply segments_range|]. intros s _. unfold args_of_segment. destruct (child_node GENERIC_ARG_LIST s) as [g|] eqn:E; [|split; [constructor | intros ? []]].
  split; [repeat constructor|]. intros y [<-|[]]. eapply child_nodes_bounds, child_in, E.
Qed.
Lemma segment_deep p s : segment_of p s -> forall x, has_child s x -> deep p x.
Proof. induction 1 as [p s H _|p q s H _ _ IH]; intros x Hx; (eapply deep_in; [exact H|]); [apply deep_child, Hx | apply IH, Hx]. Qed.
Lemma child_split o K a c b : has_child (o, Node K (a ++ c :: b)) (o + bytes (texts_of a), c).
Proof. exists K, (a ++ c :: b). split; [reflexivity|]. cbn [fst]. rewrite place_app. apply in_or_app. right. left. reflexivity. Qed.
Lemma args_deep pre item x : arguments_of_self pre item x -> deep (at_place pre item) x.
Proof.
  intros (cs & h & t & a & p & b & s & k & sa & g & sb & -> & (-> & _) & _ & Hs & Es & _ & ->). eapply deep_in; [apply child_split|]. eapply deep_in; [apply child_split|].
  rewrite !bytes_app, Nat.add_assoc in Hs. eapply segment_deep; [exact Hs|]. destruct s as [os e]. cbn [snd fst] in *. subst e. apply child_split.
Qed.
