(** Proofs about the model of inlay hints, hover and signature help. *)
From Coq Require Import Lia Permutation.
From Verif Require Import Base BaseFacts PositionModel PositionProofs VersionModel TranslateModel TranslateSpec SyntaxModel AttrModel AttrSpec AttrProofs SuggestModel SuggestSpec HintModel HintSpec.

(** ** Inlay hints *)

Lemma contains_range_inside outer inner : contains_range outer inner = true <-> inside inner outer.
Proof. unfold contains_range, inside. rewrite andb_true_iff, !Nat.leb_le. reflexivity. Qed.

Definition hint_kind (v : version) (c : bool) (k : arg_kind) : arg_value_kind :=
  match v with V5 => value_kind_v5 k (Some c) | V4 => value_kind k end.
Lemma hint_label v c k label :
  In (k, label) (value_hints v c) <-> value_kind_str (hint_kind v c k) = label /\ label <> [].
Proof.
  split.
  - cbn [value_hints In]. intros H.
    repeat (destruct H as [H|H]; [injection H as <- <-; destruct v, c; split; [reflexivity|discriminate|reflexivity|discriminate
                                                                                     |reflexivity|discriminate|reflexivity|discriminate]|]).
    destruct H.
  - intros [<- H]. destruct v, c, k; cbn in H |- *; try (exfalso; apply H; reflexivity); tauto.
Qed.

Lemma hint_label_named v c a : value_kind_str (hint_kind v c (ia_kind a)) <> [] -> exists n, m_name a = MOk n.
Proof.
  unfold ia_kind, arg_kind_of_meta. destruct (m_name a) as [n|l|]; [eauto| |];
    intros H; exfalso; apply H; destruct v, c; reflexivity.
Qed.

Lemma with_nested_chain a : with_nested a = nested_chain a.
Proof.
  revert a. fix IH 1. intros [nm eq vl [n|] s e]; cbn [with_nested nested_chain m_nested]; [rewrite IH|]; reflexivity.
Qed.
Lemma args_in_order_eq attrs :
  args_in_order attrs =
  flat_map (fun a => map (pair (attr_kind_eqb (at_kind a) (AkArg AConstructor))) (flat_map nested_chain (at_args a))) attrs.
Proof.
  unfold args_in_order. apply flat_map_ext. intros a.
  induction (at_args a) as [|x l IH]; [reflexivity|]. cbn [flat_map]. rewrite map_app, <- IH. f_equal.
  rewrite with_nested_chain. apply map_ext. intros y.
  destruct (attr_kind_eqb (at_kind a) (AkArg AConstructor)); reflexivity.
Qed.

Lemma arg_hint_spec range v c a o :
  arg_hint range v c a = Done o ->
  match o with
  | None => ~ wanted range v (c, a)
  | Some h => wanted range v (c, a) /\ hint_for v (c, a) h
  end.
Proof.
  unfold arg_hint. fold (hint_kind v c (ia_kind a)).
  set (inc := match range with None => Done true | Some r => obind_o (meta_range a) (fun ar => Done (contains_range r ar)) end).
  assert (Hinc : forall b, inc = Done b ->
    if b then forall r, range = Some r -> exists ar, meta_range a = Done ar /\ inside ar r
    else exists r ar, range = Some r /\ meta_range a = Done ar /\ ~ inside ar r).
  { intros b. unfold inc. destruct range as [r|].
    - destruct (meta_range a) as [ar|]; [|discriminate]. cbn [obind_o]. intros H; injection H as <-.
      destruct (contains_range r ar) eqn:E.
      + intros r' Hr; injection Hr as <-. exists ar. split; [reflexivity|]. apply contains_range_inside, E.
      + exists r, ar. repeat split. intros K. apply contains_range_inside in K. congruence.
    - intros H; injection H as <-. intros r Hr; discriminate. }
  destruct inc as [b|]; [|discriminate]. specialize (Hinc b eq_refl). cbn [obind_o].
  destruct b.
  - destruct (value_kind_str (hint_kind v c (ia_kind a))) as [|ch s] eqn:El.
    + intros H; injection H as <-. intros [[l Hl] _]. apply hint_label in Hl. destruct Hl as [<- Hl]. cbn [fst snd] in Hl. congruence.
    + destruct (hint_label_named v c a) as [n Hn]; [rewrite El; discriminate|].
      unfold name_range. rewrite Hn. cbn [obind_o]. intros H; injection H as <-.
      assert (Hl : In (ia_kind a, ch :: s) (value_hints v c)) by (apply hint_label; split; [exact El|discriminate]).
      split.
      * split; [exists (ch :: s); exact Hl | exact Hinc].
      * exists n. cbn [fst snd ih_label ih_position]. auto.
  - intros H; injection H as <-. intros [_ Hw]. destruct Hinc as (r & ar & -> & Er & Hni).
    destruct (Hw r eq_refl) as (ar' & E' & Hi). cbn [snd] in E'. congruence.
Qed.

Lemma inlay_hints_spec attrs range v hs :
  inlay_hints attrs range v = Done hs -> hinted range v (args_in_order attrs) hs.
Proof.
  unfold inlay_hints. rewrite args_in_order_eq.
  generalize (flat_map (fun a => map (pair (attr_kind_eqb (at_kind a) (AkArg AConstructor))) (flat_map nested_chain (at_args a))) attrs).
  intros l. revert hs. induction l as [|[c a] l IH]; intros hs; cbn [collect fst snd].
  - intros H; injection H as <-. constructor.
  - destruct (arg_hint range v c a) as [o|] eqn:E; [|discriminate]. cbn [obind_o].
    destruct (collect _ l) as [ys|]; [|discriminate]. cbn [obind_o]. intros H; injection H as <-.
    apply arg_hint_spec in E. destruct o as [h|].
    + destruct E. apply hd_take; auto.
    + apply hd_skip; auto.
Qed.

Lemma meta_range_nested a x : meta_range a = Done x -> forall y, In y (with_nested a) -> exists r, meta_range y = Done r.
Proof.
  revert a x. fix IH 1. intros [nm eq vl nested s e] x H y Hy. cbn [with_nested m_nested] in Hy.
  destruct nested as [n|].
  - destruct Hy as [<-|Hy]; [eauto|].
    assert (K : exists r, meta_range n = Done r).
    { cbn [meta_range m_name m_eq m_value m_nested m_start m_end] in H.
      destruct (match nm with MOk n => Done (Some (lstart n, lend n)) | MErr items => items_range items | MNone => Done None end);
        [|discriminate]. cbn [obind_o] in H. destruct (meta_range n); [eauto|discriminate]. }
    destruct K as [r K]. apply (IH n r K y Hy).
  - destruct Hy as [<-|[]]. eauto.
Qed.

Lemma inlay_hints_total attrs range v :
  (forall r, range = Some r -> forall a x, In a attrs -> In x (at_args a) -> exists ar, meta_range x = Done ar) ->
  exists hs, inlay_hints attrs range v = Done hs.
Proof.
  intros H. unfold inlay_hints.
  assert (K : forall p, In p (flat_map (fun a => map (pair (attr_kind_eqb (at_kind a) (AkArg AConstructor))) (flat_map nested_chain (at_args a))) attrs) ->
     exists o, arg_hint range v (fst p) (snd p) = Done o).
  { intros [c y] Hp. apply in_flat_map in Hp. destruct Hp as (a & Ha & Hp). apply in_map_iff in Hp.
    destruct Hp as (y' & E & Hy). injection E as _ ->. apply in_flat_map in Hy. destruct Hy as (x & Hx & Hy).
    rewrite <- with_nested_chain in Hy. cbn [fst snd]. unfold arg_hint. fold (hint_kind v c (ia_kind y)).
    assert (KI : exists b, match range with None => Done true | Some r => obind_o (meta_range y) (fun ar => Done (contains_range r ar)) end = Done b).
    { destruct range as [r|]; [|eauto]. destruct (H r eq_refl a x Ha Hx) as [ar Har].
      destruct (meta_range_nested _ _ Har y Hy) as [r' ->]. cbn [obind_o]. eauto. }
    destruct KI as [b ->]. cbn [obind_o]. destruct b; [|eauto].
    destruct (value_kind_str (hint_kind v c (ia_kind y))) eqn:El; [eauto|].
    destruct (hint_label_named v c y) as [n Hn]; [rewrite El; discriminate|]. unfold name_range. rewrite Hn. cbn [obind_o]. eauto. }
  revert K. generalize (flat_map (fun a => map (pair (attr_kind_eqb (at_kind a) (AkArg AConstructor))) (flat_map nested_chain (at_args a))) attrs).
  intros l. induction l as [|p l IH]; intros K; cbn [collect]; [eauto|].
  destruct (K p (or_introl eq_refl)) as [o ->]. cbn [obind_o].
  destruct IH as [hs ->]; [intros q Hq; apply K; right; exact Hq|]. cbn [obind_o]. eauto.
Qed.

(** ** Elements of a file *)

Lemma paths_node anc o k cs :
  paths anc o (Node k cs) =
  ((o, Node k cs), anc) :: flat_map (fun c => paths ((o, Node k cs) :: anc) (fst c) (snd c)) (place o cs).
Proof.
  cbn [paths]. f_equal. generalize ((o, Node k cs) :: anc). intros anc'. revert o.
  induction cs as [|c cs IH]; intros o; [reflexivity|]. cbn [place flat_map fst snd]. f_equal. apply IH.
Qed.

Lemma covering_node anc o k cs r :
  covering_element anc o (Node k cs) r =
  match find (fun c => contains_range (fst c, fst c + len_of (snd c)) r) (place o cs) with
  | Some c => covering_element ((o, Node k cs) :: anc) (fst c) (snd c) r
  | None => ((o, Node k cs), anc)
  end.
Proof.
  cbn [covering_element]. generalize ((o, Node k cs) :: anc), ((o, Node k cs), anc). intros anc' d. revert o.
  induction cs as [|c cs IH]; intros o; [reflexivity|]. cbn [place find fst snd].
  destruct (contains_range (o, o + len_of c) r); [reflexivity|]. apply IH.
Qed.

Lemma len_of_node k cs : len_of (Node k cs) = bytes (texts_of cs).
Proof. unfold len_of. rewrite text_of_node. reflexivity. Qed.

Lemma place_bounds o cs c : In c (place o cs) -> o <= lstart c /\ lend c <= o + bytes (texts_of cs).
Proof.
  revert o. induction cs as [|x cs IH]; intros o; [contradiction|]. cbn [place texts_of flat_map].
  rewrite bytes_app. intros [<-|H].
  - unfold lstart, lend, len_of; cbn [fst snd]. lia.
  - apply IH in H. unfold texts_of, len_of in *. lia.
Qed.

Lemma place_split o cs c : In c (place o cs) ->
  exists l1 l2, place o cs = l1 ++ c :: l2
    /\ (forall x, In x l1 -> lend x <= lstart c) /\ (forall x, In x l2 -> lend c <= lstart x).
Proof.
  revert o. induction cs as [|x cs IH]; intros o; [contradiction|]. cbn [place]. intros [<-|H].
  - exists [], (place (o + len_of x) cs). split; [reflexivity|]. split; [intros y []|].
    intros y Hy. apply place_ge in Hy. exact Hy.
  - pose proof (place_ge _ _ _ H) as Hge. destruct (IH _ H) as (l1 & l2 & -> & H1 & H2).
    exists ((o, x) :: l1), l2. split; [reflexivity|]. split; [|exact H2].
    intros y [<-|Hy]; [exact Hge | apply H1, Hy].
Qed.

Lemma element_bounds e a : element_of e a -> lstart e <= lstart a /\ lend a <= lend e.
Proof.
  induction 1 as [e|o k cs c e Hc _ IH]; [lia|].
  apply place_bounds in Hc. unfold lend at 2, lstart at 1. cbn [fst snd]. rewrite len_of_node. lia.
Qed.

(** The ancestors listed with an element contain it. *)
Lemma paths_anc anc o e p : In p (paths anc o e) ->
  element_of (o, e) (fst p) /\ exists mid, snd p = mid ++ anc
    /\ (forall x, In x mid -> element_of (o, e) x /\ element_of x (fst p)).
Proof.
  revert anc o p. induction e as [k t|k cs IH] using elem_ind'; intros anc o p.
  - intros [<-|[]]. split; [constructor|]. exists []. split; [reflexivity | intros x []].
  - rewrite paths_node. intros [<-|H].
    + split; [constructor|]. exists []. split; [reflexivity | intros x []].
    + apply in_flat_map in H. destruct H as (c & Hc & H).
      pose proof (place_In _ _ _ Hc) as Hin. rewrite Forall_forall in IH.
      destruct (IH _ Hin _ _ _ H) as (He & mid & Es & Hm).
      assert (Hec : element_of (o, Node k cs) (fst p)).
      { eapply eo_child; [exact Hc|]. destruct c; exact He. }
      split; [exact Hec|]. exists (mid ++ [(o, Node k cs)]). split; [rewrite <- app_assoc; exact Es|].
      intros x Hx. apply in_app_iff in Hx. destruct Hx as [Hx|[<-|[]]].
      * destruct (Hm x Hx) as [A B]. split; [|exact B]. eapply eo_child; [exact Hc|]. destruct c; exact A.
      * split; [constructor | exact Hec].
Qed.

(** The elements below [a] are a block of the elements of the file; the others are before or after it. *)
Lemma paths_block e a : element_of e a -> forall anc,
  exists pre post up, paths anc (fst e) (snd e) = pre ++ paths up (fst a) (snd a) ++ post
    /\ (forall p, In p pre -> is_tok (snd (fst p)) = true -> lend (fst p) <= lstart a)
    /\ (forall p, In p post -> is_tok (snd (fst p)) = true -> lend a <= lstart (fst p)).
Proof.
  induction 1 as [e|o k cs c e Hc He IH]; intros anc.
  - exists [], [], anc. rewrite app_nil_r. repeat split; intros p [].
  - cbn [fst snd]. rewrite paths_node. destruct (place_split _ _ _ Hc) as (l1 & l2 & -> & H1 & H2).
    rewrite flat_map_app. cbn [flat_map]. destruct (IH ((o, Node k cs) :: anc)) as (pre & post & up & -> & Hpre & Hpost).
    pose proof (element_bounds _ _ He) as Hb.
    set (f := fun c0 : nat * elem => paths ((o, Node k cs) :: anc) (fst c0) (snd c0)).
    assert (KB : forall l x, In x (flat_map f l) -> exists y, In y l /\ lstart y <= lstart (fst x) /\ lend (fst x) <= lend y).
    { intros l x Hx. apply in_flat_map in Hx. destruct Hx as (y & Hy & Hx). apply paths_anc in Hx. destruct Hx as [Hx _].
      apply element_bounds in Hx. exists y. destruct y; auto. }
    exists (((o, Node k cs), anc) :: flat_map f l1 ++ pre), (post ++ flat_map f l2), up.
    split; [cbn [app]; rewrite <- !app_assoc; reflexivity|]. split.
    + intros p [<-|Hp] Ht; [discriminate Ht|]. apply in_app_iff in Hp. destruct Hp as [Hp|Hp]; [|apply Hpre; assumption].
      destruct (KB _ _ Hp) as (y & Hy & A & B). apply H1 in Hy. lia.
    + intros p Hp Ht. apply in_app_iff in Hp. destruct Hp as [Hp|Hp]; [apply Hpost; assumption|].
      destruct (KB _ _ Hp) as (y & Hy & A & B). apply H2 in Hy. lia.
Qed.

(** Every offset of a non-empty element touches one of its tokens. *)
Lemma token_touching e : forall anc o off, 0 < len_of e -> o <= off <= o + len_of e ->
  exists p, In p (paths anc o e) /\ is_tok (snd (fst p)) = true /\ touches off (fst p) = true.
Proof.
  induction e as [k t|k cs IH] using elem_ind'; intros anc o off Hl Ho.
  - exists ((o, Tok k t), anc). split; [left; reflexivity|]. split; [reflexivity|].
    unfold touches, lstart, lend. cbn [fst snd]. rewrite !andb_true_iff, negb_true_iff, Nat.eqb_neq, !Nat.leb_le. lia.
  - rewrite paths_node. rewrite len_of_node in Hl, Ho.
    assert (K : exists c, In c (place o cs) /\ 0 < len_of (snd c) /\ lstart c <= off <= lend c).
    { clear IH. revert o Ho. induction cs as [|x cs IHc]; intros o Ho.
      - cbn in Hl. lia.
      - cbn [place texts_of flat_map] in Hl, Ho |- *. rewrite bytes_app in Hl, Ho. fold (len_of x) in Hl, Ho.
        change (flat_map text_of cs) with (texts_of cs) in Hl, Ho.
        destruct (Nat.eq_dec (len_of x) 0) as [E0|E0].
        + destruct (IHc ltac:(lia) (o + len_of x) ltac:(lia)) as (c & Hc & A). exists c. split; [right; exact Hc|exact A].
        + destruct (le_lt_dec off (o + len_of x)) as [L|L].
          * exists (o, x). split; [left; reflexivity|]. unfold lstart, lend; cbn [fst snd]. lia.
          * destruct (IHc ltac:(lia) (o + len_of x) ltac:(lia)) as (c & Hc & A). exists c. split; [right; exact Hc|exact A]. }
    destruct K as (c & Hc & Hlc & Hoc). pose proof (place_In _ _ _ Hc) as Hin. rewrite Forall_forall in IH.
    destruct (IH _ Hin ((o, Node k cs) :: anc) (fst c) off Hlc Hoc) as (p & Hp & A).
    exists p. split; [|exact A]. right. apply in_flat_map. exists c. auto.
Qed.

(** Below an attribute without attributes in it, the closest attribute is that one. *)
Lemma find_attr_down a down up : plain_attr a -> (forall x, In x down -> element_of a x) ->
  find is_attr (down ++ a :: up) = Some a.
Proof.
  intros (Hk & _ & Hp) Hd. induction down as [|x down IH]; cbn [app find].
  - unfold is_attr. rewrite Hk, skind_eqb_refl. reflexivity.
  - destruct (is_attr x) eqn:E.
    + unfold is_attr in E. apply skind_eqb_eq in E. rewrite (Hp x); [reflexivity | apply Hd; left; reflexivity | exact E].
    + apply IH. intros y Hy; apply Hd; right; exact Hy.
Qed.

Lemma paths_below anc a p : is_tok (snd a) = false -> In p (paths anc (fst a) (snd a)) -> is_tok (snd (fst p)) = true ->
  exists down up, snd p = down ++ a :: up /\ (forall x, In x down -> element_of a x).
Proof.
  intros Ha Hp Ht. destruct a as [o [k t|k cs]]; [discriminate Ha|]. cbn [fst snd] in Hp. rewrite paths_node in Hp.
  destruct Hp as [<-|Hp]; [discriminate Ht|]. apply in_flat_map in Hp. destruct Hp as (c & Hc & Hp).
  apply paths_anc in Hp. destruct Hp as (_ & mid & Es & Hm). exists mid, anc. split; [exact Es|].
  intros x Hx. eapply eo_child; [exact Hc|]. destruct c. apply (Hm x Hx).
Qed.

Lemma filter_none {A} (f : A -> bool) l : (forall x, In x l -> f x = false) -> filter f l = [].
Proof.
  induction l as [|x l IH]; intros H; [reflexivity|]. cbn [filter]. rewrite (H x (or_introl eq_refl)).
  apply IH. intros y Hy; apply H; right; exact Hy.
Qed.

Lemma focused_in_attr root a off : in_file root a -> plain_attr a -> lstart a < off < lend a ->
  exists p, focused_token root off = Done (Some p) /\ find is_attr (snd p) = Some a.
Proof.
  intros Hf Ha Ho. unfold focused_token, tokens_at.
  pose proof (element_bounds _ _ Hf) as Hb. unfold lend at 2 in Hb. cbn [fst snd] in Hb.
  rewrite (proj2 (Nat.leb_le off (len_of root))) by lia.
  destruct (paths_block _ _ Hf []) as (pre & post & up & E & Hpre & Hpost). cbn [fst snd] in E. rewrite E.
  set (f := fun p : path => is_tok (snd (fst p)) && touches off (fst p)).
  match goal with |- context [filter ?g ?l] => change (filter g l) with (@filter path f l) end.
  rewrite !filter_app, (filter_none f pre), (filter_none f post).
  2:{ intros p Hp. unfold f. destruct (is_tok (snd (fst p))) eqn:Et; [|reflexivity]. specialize (Hpost p Hp Et).
      unfold touches. rewrite (proj2 (Nat.leb_gt (lstart (fst p)) off)) by lia. rewrite andb_false_r. reflexivity. }
  2:{ intros p Hp. unfold f. destruct (is_tok (snd (fst p))) eqn:Et; [|reflexivity]. specialize (Hpre p Hp Et).
      unfold touches. rewrite (proj2 (Nat.leb_gt off (lend (fst p)))) by lia. rewrite andb_false_r. reflexivity. }
  rewrite app_nil_r. cbn [app].
  assert (Hin : forall p, In p (filter f (paths up (fst a) (snd a))) -> find is_attr (snd p) = Some a).
  { intros p Hp. apply filter_In in Hp. destruct Hp as [Hp Hfp]. unfold f in Hfp. apply andb_true_iff in Hfp.
    destruct (paths_below up a p) as (down & up' & -> & Hd); [apply Ha|exact Hp|apply Hfp|].
    apply find_attr_down; assumption. }
  destruct (token_touching (snd a) up (fst a) off) as (p & Hp & Ht & Htt);
    [unfold lstart, lend in Ho; lia | unfold lstart, lend in Ho; lia |].
  assert (Hp' : In p (filter f (paths up (fst a) (snd a)))) by (apply filter_In; split; [exact Hp|]; unfold f; rewrite Ht, Htt; reflexivity).
  destruct (filter f (paths up (fst a) (snd a))) as [|x [|y l]]; [destruct Hp'| |].
  - exists x. split; [reflexivity|]. apply Hin. left; reflexivity.
  - destruct (is_trivia (lkind (fst x)) && negb (is_trivia (lkind (fst y)))).
    + exists y. split; [reflexivity|]. apply Hin. right; left; reflexivity.
    + exists x. split; [reflexivity|]. apply Hin. left; reflexivity.
Qed.

Lemma find_place_containing o cs c r : In c (place o cs) -> fst r < snd r -> inside r (range_of c) ->
  find (fun c => contains_range (fst c, fst c + len_of (snd c)) r) (place o cs) = Some c.
Proof.
  intros Hc Hr Hi. destruct (place_split _ _ _ Hc) as (l1 & l2 & -> & H1 & _).
  induction l1 as [|x l1 IH]; cbn [app find].
  - rewrite (proj2 (contains_range_inside _ r)); [reflexivity|exact Hi].
  - destruct (contains_range (fst x, fst x + len_of (snd x)) r) eqn:E.
    + apply contains_range_inside in E. specialize (H1 x (or_introl eq_refl)).
      unfold inside, range_of, lstart, lend in *. cbn [fst snd] in *. lia.
    + apply IH. intros y Hy; apply H1; right; exact Hy.
Qed.

Lemma covering_chain e : forall anc o r, fst r < snd r ->
  let p := covering_element anc o e r in
  exists mid, fst p :: snd p = mid ++ (o, e) :: anc /\ (forall x, In x mid -> element_of (o, e) x)
    /\ element_of (o, e) (fst p)
    /\ (forall x, In x (mid ++ [(o, e)]) -> element_of x (fst p))
    /\ (inside r (range_of (o, e)) -> inside r (range_of (fst p))).
Proof.
  induction e as [k t|k cs IH] using elem_ind'; intros anc o r Hr.
  - exists []. cbn [covering_element fst snd app]. split; [reflexivity|]. split; [intros x []|]. split; [apply eo_self|].
    split; [intros x [<-|[]]; apply eo_self | tauto].
  - cbv zeta. rewrite covering_node.
    destruct (find (fun c => contains_range (fst c, fst c + len_of (snd c)) r) (place o cs)) as [c|] eqn:E.
    + apply find_some in E. destruct E as [Hc Hcr]. apply contains_range_inside in Hcr.
      pose proof (place_In _ _ _ Hc) as Hin. rewrite Forall_forall in IH.
      destruct (IH _ Hin ((o, Node k cs) :: anc) (fst c) r Hr) as (mid & Em & Hm & He & Hd & Hi). cbv zeta in *.
      assert (Ec : c = (fst c, snd c)) by (destruct c; reflexivity). rewrite <- Ec in *.
      assert (HE : element_of (o, Node k cs) (fst (covering_element ((o, Node k cs) :: anc) (fst c) (snd c) r))).
      { eapply eo_child; [exact Hc|exact He]. }
      exists (mid ++ [c]). split; [rewrite Em, <- app_assoc; reflexivity|]. split.
      * intros x Hx. apply in_app_iff in Hx. destruct Hx as [Hx|[<-|[]]].
        -- eapply eo_child; [exact Hc|]. apply Hm, Hx.
        -- eapply eo_child; [exact Hc|]. constructor.
      * split; [exact HE|]. split.
        -- intros x Hx. apply in_app_iff in Hx. destruct Hx as [Hx|[<-|[]]]; [apply Hd, Hx | exact HE].
        -- intros _. apply Hi. exact Hcr.
    + exists []. cbn [fst snd app]. split; [reflexivity|]. split; [intros x []|]. split; [apply eo_self|].
      split; [intros x [<-|[]]; apply eo_self | tauto].
Qed.

Lemma covering_in e a : element_of e a -> forall anc r, fst r < snd r -> inside r (range_of a) ->
  exists down up, fst (covering_element anc (fst e) (snd e) r) :: snd (covering_element anc (fst e) (snd e) r) = down ++ a :: up
    /\ (forall x, In x down -> element_of a x).
Proof.
  induction 1 as [e|o k cs c e Hc He IH]; intros anc r Hr Hi.
  - destruct (covering_chain (snd e) anc (fst e) r Hr) as (mid & Em & Hm & _). cbv zeta in Em.
    assert (Ee : e = (fst e, snd e)) by (destruct e; reflexivity).
    exists mid, anc. rewrite Em. rewrite <- Ee in *. split; [reflexivity|exact Hm].
  - cbn [fst snd]. rewrite covering_node. rewrite (find_place_containing o cs c r Hc Hr).
    + apply IH; assumption.
    + apply element_bounds in He. unfold inside, range_of in *. cbn [fst snd] in *. lia.
Qed.

Lemma covering_attribute_complete root a r : in_file root a -> plain_attr a -> points_into r a ->
  covering_attribute root r = Done (Some a).
Proof.
  intros Hf Ha (Hi & Hle & Hemp). unfold covering_attribute. destruct (Nat.eqb_spec (fst r) (snd r)) as [E|E].
  - destruct (focused_in_attr root a (fst r) Hf Ha (Hemp E)) as (p & -> & Hp). cbn [obind_o]. rewrite Hp. reflexivity.
  - pose proof (element_bounds _ _ Hf) as Hb.
    rewrite (proj2 (contains_range_inside (0, len_of root) r)).
    2:{ unfold inside, range_of, lend, lstart in *. cbn [fst snd] in *. lia. }
    destruct (covering_in _ _ Hf [] r ltac:(lia) Hi) as (down & up & Ed & Hd). cbn [fst snd] in Ed.
    assert (K : find is_attr (fst (covering_element [] 0 root r) :: snd (covering_element [] 0 root r)) = Some a)
      by (rewrite Ed; apply find_attr_down; assumption).
    cbn [find] in K. cbv zeta. destruct (is_attr (fst (covering_element [] 0 root r))); rewrite K; reflexivity.
Qed.

Lemma covering_attribute_sound root r a : covering_attribute root r = Done (Some a) -> fst r <= snd r ->
  in_file root a /\ lkind a = ATTR /\ inside r (range_of a).
Proof.
  unfold covering_attribute. intros H Hle. destruct (Nat.eqb_spec (fst r) (snd r)) as [E|E].
  - unfold focused_token, tokens_at in H. destruct (fst r <=? len_of root) eqn:El; [|discriminate].
    set (f := fun p : path => is_tok (snd (fst p)) && touches (fst r) (fst p)).
    match type of H with context [filter ?g ?l] => change (filter g l) with (@filter path f l) in H end.
    assert (K : forall p, In p (filter f (paths [] 0 root)) -> forall b, find is_attr (snd p) = Some b ->
              in_file root b /\ lkind b = ATTR /\ inside r (range_of b)).
    { intros p Hp b Hb. apply filter_In in Hp. destruct Hp as [Hp Hfp]. unfold f in Hfp. apply andb_true_iff in Hfp.
      apply find_some in Hb. destruct Hb as [Hb Hk]. unfold is_attr in Hk. apply skind_eqb_eq in Hk.
      apply paths_anc in Hp. destruct Hp as (_ & mid & Es & Hm). rewrite app_nil_r in Es. rewrite Es in Hb.
      destruct (Hm b Hb) as [A B]. split; [exact A|]. split; [exact Hk|].
      apply element_bounds in B. destruct Hfp as [_ Ht]. unfold touches in Ht. rewrite !andb_true_iff, !Nat.leb_le in Ht.
      unfold inside, range_of. cbn [fst snd]. lia. }
    destruct (filter f (paths [] 0 root)) as [|x [|y l]]; cbn [obind_o] in H.
    + discriminate.
    + injection H as H. apply (K x (or_introl eq_refl) a H).
    + destruct (is_trivia (lkind (fst x)) && negb (is_trivia (lkind (fst y)))); cbn [obind_o] in H; injection H as H.
      * apply (K y (or_intror (or_introl eq_refl)) a H).
      * apply (K x (or_introl eq_refl) a H).
  - destruct (contains_range (0, len_of root) r) eqn:Ec; [|discriminate]. cbv zeta in H. injection H as H.
    apply contains_range_inside in Ec.
    assert (K : find is_attr (fst (covering_element [] 0 root r) :: snd (covering_element [] 0 root r)) = Some a).
    { cbn [find]. destruct (is_attr (fst (covering_element [] 0 root r))); exact H. }
    destruct (covering_chain root [] 0 r ltac:(lia)) as (mid & Em & Hm & He & Hd & Hi). cbv zeta in *. rewrite Em in K.
    apply find_some in K. destruct K as [Hin Hk]. unfold is_attr in Hk. apply skind_eqb_eq in Hk.
    assert (Hia : in_file root a).
    { apply in_app_iff in Hin. destruct Hin as [Hin|[<-|[]]]; [apply Hm, Hin | constructor]. }
    split; [exact Hia|]. split; [exact Hk|].
    specialize (Hd a Hin). apply element_bounds in Hd. specialize (Hi Ec).
    unfold inside, range_of in *. cbn [fst snd] in *. lia.
Qed.

(** ** Hover *)

Lemma find_arg_some l r x : find_arg (fun ar => contains_range ar r) l = Done (Some x) <-> first_containing l r x.
Proof.
  induction l as [|a l IH]; cbn [find_arg].
  - split; [discriminate|]. intros (b & af & E & _). destruct b; discriminate.
  - destruct (meta_range a) as [ar|] eqn:Ea; cbn [obind_o].
    + destruct (contains_range ar r) eqn:Ec.
      * apply contains_range_inside in Ec. split.
        -- intros H; injection H as <-. exists [], l. split; [reflexivity|]. split; [exists ar; auto|]. intros y [].
        -- intros (b & af & E & _ & Hb). destruct b as [|y b]; [injection E as -> _; reflexivity|].
           injection E as <- _. destruct (Hb a (or_introl eq_refl)) as (ar' & E' & Hn). congruence.
      * assert (Hn : ~ inside r ar) by (intros K; apply contains_range_inside in K; congruence).
        rewrite IH. split.
        -- intros (b & af & -> & Hx & Hb). exists (a :: b), af. split; [reflexivity|]. split; [exact Hx|].
           intros y [<-|Hy]; [exists ar; auto | apply Hb, Hy].
        -- intros (b & af & E & Hx & Hb). destruct b as [|y b].
           ++ injection E as <- _. destruct Hx as (ar' & E' & Hi). congruence.
           ++ injection E as <- ->. exists b, af. split; [reflexivity|]. split; [exact Hx|]. intros z Hz; apply Hb; right; exact Hz.
    + split; [discriminate|]. intros (b & af & E & Hx & Hb). destruct b as [|y b].
      * injection E as <- _. destruct Hx as (ar' & E' & Hi). congruence.
      * injection E as <- _. destruct (Hb a (or_introl eq_refl)) as (ar' & E' & Hn). congruence.
Qed.

Lemma find_arg_none l r : find_arg (fun ar => contains_range ar r) l = Done None <-> none_containing l r.
Proof.
  unfold none_containing. induction l as [|a l IH]; cbn [find_arg].
  - split; [intros _ y [] | reflexivity].
  - destruct (meta_range a) as [ar|] eqn:Ea; cbn [obind_o].
    + destruct (contains_range ar r) eqn:Ec.
      * apply contains_range_inside in Ec. split; [discriminate|]. intros H.
        destruct (H a (or_introl eq_refl)) as (ar' & E' & Hn). congruence.
      * assert (Hn : ~ inside r ar) by (intros K; apply contains_range_inside in K; congruence).
        rewrite IH. split.
        -- intros H y [<-|Hy]; [exists ar; auto | apply H, Hy].
        -- intros H y Hy. apply H. right; exact Hy.
    + split; [discriminate|]. intros H. destruct (H a (or_introl eq_refl)) as (ar' & E' & Hn). congruence.
Qed.

Lemma documented_iff v k p : has_docs v k <-> hover_content k v p <> [].
Proof.
  destruct k as [m|a]; cbn [has_docs].
  - destruct v, m; cbn; split; intros H; try discriminate; try tauto;
      try (exfalso; apply H; reflexivity); exfalso; repeat (destruct H as [H|H]; [discriminate H|]); destruct H.
  - assert (E : (hover_content (AkArg a) v p <> []) <-> (hover_content (AkArg a) v None <> [])).
    { destruct a; try tauto. destruct v; [tauto|]. destruct p as [[[]|]|]; cbn; split; intros; discriminate. }
    rewrite E. destruct v, a; cbn; split; intros H; try discriminate; try tauto;
      try (exfalso; apply H; reflexivity); exfalso; repeat (destruct H as [H|H]; [discriminate H|]); destruct H.
Qed.

Lemma content_primary k v kind :
  hover_content (AkArg k) v (if attr_kind_eqb kind (AkArg k) then None else Some kind) = hover_content (AkArg k) v (Some kind).
Proof.
  destruct (attr_kind_eqb kind (AkArg k)) eqn:E; [|reflexivity]. apply attr_kind_eqb_eq in E. subst kind.
  destruct k; reflexivity.
Qed.

Lemma documented_named v a : has_docs v (AkArg (ia_kind a)) -> exists n, m_name a = MOk n.
Proof.
  unfold ia_kind, arg_kind_of_meta. destruct (m_name a) as [n|l|]; [eauto| |]; intros H; exfalso;
    apply (proj1 (documented_iff v (AkArg AUnknown) None)) in H; apply H; destruct v; reflexivity.
Qed.

Definition fallback_range (ia : ink_attr) (ms : option (nat * nat)) : nat * nat :=
  match at_kind ia with
  | AkArg _ => match at_arg_name ia with Some n => (lstart n, lend n) | None => at_range ia end
  | AkMacro _ => match ms with Some m => m | None => at_range ia end
  end.

Lemma hover_attr_arg ia ms r v x : first_containing (at_args ia) r x ->
  (has_docs v (AkArg (ia_kind x)) -> exists n, m_name x = MOk n
      /\ hover_attr ia ms r v = Done (Some (Hover (range_of n) (hover_content (AkArg (ia_kind x)) v (Some (at_kind ia))))))
  /\ (~ has_docs v (AkArg (ia_kind x)) -> hover_attr ia ms r v = Done None).
Proof.
  intros H. apply find_arg_some in H. unfold hover_attr. rewrite H. cbn [obind_o]. rewrite content_primary. split.
  - intros Hd. destruct (documented_named v x Hd) as [n Hn]. exists n. split; [exact Hn|].
    apply (documented_iff v _ (Some (at_kind ia))) in Hd. unfold hover_of, name_range. rewrite Hn.
    destruct (hover_content (AkArg (ia_kind x)) v (Some (at_kind ia))); [congruence|]. reflexivity.
  - intros Hd. assert (E : hover_content (AkArg (ia_kind x)) v (Some (at_kind ia)) = []).
    { destruct (hover_content (AkArg (ia_kind x)) v (Some (at_kind ia))) eqn:E; [reflexivity|].
      exfalso; apply Hd. apply (documented_iff v _ (Some (at_kind ia))). rewrite E. discriminate. }
    rewrite E. reflexivity.
Qed.

Lemma hover_attr_macro ia ms r v : none_containing (at_args ia) r ->
  (has_docs v (at_kind ia) ->
     hover_attr ia ms r v = Done (Some (Hover (fallback_range ia ms) (hover_content (at_kind ia) v None))))
  /\ (~ has_docs v (at_kind ia) -> hover_attr ia ms r v = Done None).
Proof.
  intros H. apply find_arg_none in H. unfold hover_attr. rewrite H. cbn [obind_o]. split.
  - intros Hd. apply (documented_iff v _ None) in Hd. unfold hover_of.
    destruct (hover_content (at_kind ia) v None); [congruence|]. reflexivity.
  - intros Hd. assert (E : hover_content (at_kind ia) v None = []).
    { destruct (hover_content (at_kind ia) v None) eqn:E; [reflexivity|].
      exfalso; apply Hd. apply (documented_iff v _ None). rewrite E. discriminate. }
    rewrite E. reflexivity.
Qed.

Lemma hover_at_attr px pr root r v a ia : in_file root a -> plain_attr a -> points_into r a ->
  attr_cast px (read_attr pr a) = Some ia -> hover_at px pr root r v = hover_attr ia (macro_segment pr a) r v.
Proof.
  intros Hf Ha Hr Hc. unfold hover_at. rewrite (covering_attribute_complete root a r Hf Ha Hr). cbn [obind_o].
  rewrite Hc. reflexivity.
Qed.

(** Names of arguments lie in the token tree. *)
Lemma parse_groups_In px l : forall last ic cur m, In m (parse_groups px last ic cur l) ->
  exists last' g, m = parse_group px last' g /\ incl g (rev cur ++ l).
Proof.
  induction l as [|c l IH]; intros last ic cur m; cbn [parse_groups].
  - destruct cur as [|x cur]; [intros []|]. intros [<-|[]]. exists last, (rev (x :: cur)). split; [reflexivity|].
    rewrite app_nil_r. apply incl_refl.
  - destruct (skind_eqb (lkind (fst c)) COMMA).
    + destruct cur as [|x cur].
      * intros H. destruct (IH _ _ _ _ H) as (l' & g & -> & Hg). exists l', g. split; [reflexivity|].
        intros y Hy. apply Hg in Hy. right; exact Hy.
      * intros [<-|H].
        -- exists last, (rev (x :: cur)). split; [reflexivity|]. apply incl_appl, incl_refl.
        -- destruct (IH _ _ _ _ H) as (l' & g & -> & Hg). exists l', g. split; [reflexivity|].
           intros y Hy. apply Hg in Hy. apply in_app_iff. right; right; exact Hy.
    + intros H. destruct (IH _ _ _ _ H) as (l' & g & -> & Hg). exists l', g. split; [reflexivity|].
      intros y Hy. apply Hg in Hy. cbn [rev] in Hy. rewrite <- app_assoc in Hy. exact Hy.
Qed.

Lemma parse_meta_name_In l n : parse_meta_name l = MOk n -> In n l.
Proof.
  unfold parse_meta_name. destruct (non_trivia l) as [|e [|e' r]] eqn:E; try discriminate.
  destruct (is_tok (snd e) && is_name_kind (lkind e)); [|discriminate]. intros H; injection H as <-.
  assert (K : In e (non_trivia l)) by (rewrite E; left; reflexivity). apply filter_In in K. apply K.
Qed.
Lemma split_eq_incl l : incl (fst (fst (split_eq l))) l.
Proof.
  induction l as [|c l IH]; cbn [split_eq]; [apply incl_refl|].
  destruct (skind_eqb (lkind (fst c)) EQ); cbn [fst]; [apply incl_nil_l|].
  apply incl_cons; [left; reflexivity | apply incl_tl, IH].
Qed.
Lemma parse_group_name px last g n : m_name (parse_group px last g) = MOk n -> In n (map fst g).
Proof.
  unfold parse_group. pose proof (split_eq_incl g) as Hi. destruct (split_eq g) as [[name eq] value]. cbn [fst] in Hi.
  destruct (build_meta_fields last
    (parse_meta_name (match nested_of name with Some _ => filter (fun e => negb (skind_eqb (lkind e) TOKEN_TREE)) (map fst name) | None => map fst name end))
    eq (parse_meta_value px (map fst value)) (nested_of name)) as (-> & _).
  intros H. apply parse_meta_name_In in H.
  assert (K : In n (map fst name)) by (destruct (nested_of name); [apply filter_In in H; apply H | exact H]).
  apply in_map_iff in K. destruct K as (c & <- & Hc). apply in_map, Hi, Hc.
Qed.
Lemma take_while_incl {A} (p : A -> bool) l : incl (take_while p l) l.
Proof.
  induction l as [|x l IH]; cbn [take_while]; [apply incl_refl|].
  destruct (p x); [|apply incl_nil_l]. apply incl_cons; [left; reflexivity | apply incl_tl, IH].
Qed.
Lemma skipn_incl {A} n (l : list A) : incl (skipn n l) l.
Proof. rewrite <- (firstn_skipn n l) at 2. apply incl_appr, incl_refl. Qed.

Lemma parse_items_name px e o m n : In m (parse_meta_items px e o) -> m_name m = MOk n -> inside (range_of n) (o, o + len_of e).
Proof.
  destruct e as [k t|k cs]; [intros []|]. rewrite parse_meta_items_node. cbv zeta. intros H Hn.
  apply parse_groups_In in H. destruct H as (last & g & -> & Hg). apply parse_group_name in Hn.
  apply in_map_iff in Hn. destruct Hn as (c & Ec & Hc). apply Hg in Hc. cbn [rev app] in Hc.
  apply take_while_incl in Hc.
  assert (K : In c (ann px (place o cs))).
  { destruct (find (fun e => is_tok e && skind_eqb (kind_of e) L_PAREN) cs); [apply skipn_incl in Hc|]; exact Hc. }
  unfold ann in K. apply in_map_iff in K. destruct K as (e & <- & He). cbn [fst] in Ec. subst n.
  apply place_bounds in He. unfold inside, range_of. cbn [fst snd]. rewrite len_of_node. lia.
Qed.

Lemma children_inside e c : In c (children_of e) -> inside (range_of c) (range_of e).
Proof.
  unfold children_of. destruct e as [o [k t|k cs]]; cbn [fst snd]; [intros []|].
  intros H. apply place_bounds in H. unfold inside, range_of, lend, lstart in *. cbn [fst snd]. rewrite len_of_node. lia.
Qed.
Lemma token_tree_inside a t : token_tree_of a = Some t -> inside (range_of t) (range_of a).
Proof.
  unfold token_tree_of. destruct (find _ (children_of a)) as [m|] eqn:E; [|discriminate]. cbn [obind].
  intros H. apply find_some in H. destruct H as [H _]. apply find_some in E. destruct E as [E _].
  apply children_inside in H. apply children_inside in E. unfold inside in *. lia.
Qed.

Lemma cast_fields px s ia : attr_cast px s = Some ia ->
  at_args ia = parse_ink_args px (as_token_tree s) /\ at_syntax ia = s
  /\ (forall n, at_arg_name ia = Some n -> exists x, In x (at_args ia) /\ m_name x = MOk n).
Proof.
  unfold attr_cast. destruct (attr_can_cast s); [|discriminate]. destruct (as_segments s) as [|c rest]; [discriminate|].
  destruct rest as [|m [|m' rest]].
  - destruct (hd_error (stable_sort (fun x => arg_rank (ia_kind x)) (parse_ink_args px (as_token_tree s)))) as [p|] eqn:E.
    + intros H; injection H as <-. cbn [at_args at_syntax at_arg_name]. split; [reflexivity|]. split; [reflexivity|].
      intros n Hn. exists p. split.
      * apply (Permutation_in p (Permutation_sym (stable_sort_perm (fun x => arg_rank (ia_kind x)) (parse_ink_args px (as_token_tree s))))).
        destruct (stable_sort _ _); [discriminate|]. injection E as ->. left; reflexivity.
      * unfold mo_ok in Hn. destruct (m_name p); congruence.
    + destruct (as_token_tree s); intros H; injection H as <-; cbn [at_args at_syntax at_arg_name];
        (split; [reflexivity|]; split; [reflexivity|]; discriminate).
  - intros H; injection H as <-; cbn [at_args at_syntax at_arg_name]. split; [reflexivity|]. split; [reflexivity|]. discriminate.
  - intros H; injection H as <-; cbn [at_args at_syntax at_arg_name]. split; [reflexivity|]. split; [reflexivity|]. discriminate.
Qed.

Lemma arg_name_inside px pr a ia x n : attr_cast px (read_attr pr a) = Some ia -> In x (at_args ia) -> m_name x = MOk n ->
  inside (range_of n) (range_of a).
Proof.
  intros Hc Hx Hn. destruct (cast_fields _ _ _ Hc) as (Ea & _ & _). rewrite Ea in Hx. unfold parse_ink_args, read_attr in Hx.
  cbn [as_token_tree] in Hx. destruct (token_tree_of a) as [t|] eqn:Et; [|destruct Hx].
  apply token_tree_inside in Et. pose proof (parse_items_name _ _ _ _ _ Hx Hn) as K.
  unfold inside, range_of, lstart, lend in *. cbn [fst snd] in *. lia.
Qed.

Lemma hover_inside px pr root r v h : segments_inside pr -> fst r <= snd r ->
  hover_at px pr root r v = Done (Some h) ->
  exists a, in_file root a /\ lkind a = ATTR /\ inside r (range_of a) /\ inside (ho_range h) (range_of a).
Proof.
  intros Hs Hle. unfold hover_at. destruct (covering_attribute root r) as [[a|]|] eqn:Ec; cbn [obind_o]; try discriminate.
  destruct (attr_cast px (read_attr pr a)) as [ia|] eqn:Ei; [|discriminate]. intros Hh.
  destruct (covering_attribute_sound _ _ _ Ec Hle) as (Hf & Hk & Hr). exists a. split; [exact Hf|]. split; [exact Hk|]. split; [exact Hr|].
  destruct (cast_fields _ _ _ Ei) as (_ & Esyn & Hname).
  assert (Hself : inside (at_range ia) (range_of a)).
  { unfold at_range. rewrite Esyn. unfold read_attr, inside, range_of. cbn [as_range fst snd]. lia. }
  unfold hover_attr in Hh. destruct (find_arg _ (at_args ia)) as [[x|]|] eqn:Ef; cbn [obind_o] in Hh; [| |discriminate].
  - apply find_arg_some in Ef. destruct (hover_attr_arg ia (macro_segment pr a) r v x Ef) as [Hd Hn].
    rewrite content_primary in Hh.
    destruct (hover_content (AkArg (ia_kind x)) v (Some (at_kind ia))) as [|ch ct] eqn:Econt; [discriminate|].
    destruct (documented_named v x) as [n Hnm]; [apply (documented_iff v _ (Some (at_kind ia))); rewrite Econt; discriminate|].
    unfold hover_of, name_range in Hh. rewrite Hnm in Hh. cbn [obind_o] in Hh. injection Hh as <-. cbn [ho_range].
    eapply arg_name_inside; [exact Ei| |exact Hnm]. destruct Ef as (b & af & -> & _). apply in_app_iff. right; left; reflexivity.
  - unfold hover_of in Hh. destruct (hover_content (at_kind ia) v None); [discriminate|]. cbn [obind_o] in Hh.
    injection Hh as <-. cbn [ho_range]. destruct (at_kind ia).
    + unfold macro_segment. pose proof (Hs a) as Hsa.
      destruct (pr a) as [|s1 [|s2 l]]; try exact Hself. apply Hsa. right; left; reflexivity.
    + destruct (at_arg_name ia) as [n|]; [|exact Hself]. destruct (Hname n eq_refl) as (x & Hx & Hnx).
      change (lstart n, lend n) with (range_of n). eapply arg_name_inside; eassumption.
Qed.

(** ** Order of arguments *)

Lemma items_range_bounds lo hi l r : (forall e, In e l -> lo <= lstart e /\ lend e <= hi) ->
  items_range l = Done (Some r) -> lo <= fst r /\ snd r <= hi.
Proof.
  intros H. unfold items_range. destruct l as [|f l']; [discriminate|]. remember (f :: l') as l eqn:El.
  destruct (last_opt l) as [t|] eqn:E; [|discriminate]. unfold mk_range.
  destruct (lstart f <=? lend t); [|discriminate]. intros K; injection K as <-. cbn [fst snd].
  apply last_opt_some in E. destruct E as [l0 E].
  assert (Hf : In f l) by (subst l; left; reflexivity).
  assert (Ht : In t l) by (rewrite E; apply in_app_iff; right; left; reflexivity).
  apply H in Hf. apply H in Ht. lia.
Qed.
Lemma value_range_bounds lo hi v r : (forall e, In e (mv_elements v) -> lo <= lstart e /\ lend e <= hi) ->
  value_range v = Done r -> lo <= fst r /\ snd r <= hi.
Proof.
  intros H. unfold value_range. destruct (mv_elements v) as [|f l'] eqn:El; [discriminate|]. rewrite <- El in *.
  assert (Hf : In f (mv_elements v)) by (rewrite El; left; reflexivity).
  assert (Hnt : forall e, In e (non_trivia (mv_elements v)) -> In e (mv_elements v)) by (intros e He; apply filter_In in He; apply He).
  assert (Hs : forall e, hd_error (non_trivia (mv_elements v)) = Some e -> In e (mv_elements v)).
  { intros e He. apply Hnt. destruct (non_trivia (mv_elements v)); [discriminate|]. injection He as ->. left; reflexivity. }
  assert (He : forall e, last_opt (non_trivia (mv_elements v)) = Some e -> In e (mv_elements v)).
  { intros e He. apply Hnt. apply last_opt_some in He. destruct He as [l0 ->]. apply in_app_iff. right; left; reflexivity. }
  assert (Hl : forall e, last_opt (mv_elements v) = Some e -> In e (mv_elements v)).
  { intros e Hl. apply last_opt_some in Hl. destruct Hl as [l0 ->]. apply in_app_iff. right; left; reflexivity. }
  destruct (hd_error (non_trivia (mv_elements v))) as [e1|]; destruct (last_opt (non_trivia (mv_elements v))) as [e2|];
    try (destruct (last_opt (mv_elements v)) as [e3|] eqn:E3); unfold mk_range;
    match goal with |- (if ?b then _ else _) = _ -> _ => destruct b; [|discriminate] | |- _ => try discriminate end;
    intros K; injection K as <-; cbn [fst snd];
    repeat match goal with
    | X : forall e, Some ?y = Some e -> In e _ |- _ => specialize (X y eq_refl); apply H in X
    end; apply H in Hf; unfold lstart, lend in *; try lia.
Qed.

Definition elems_in (lo hi : nat) (l : list lelem) : Prop := forall e, In e l -> lo <= lstart e /\ lend e <= hi.
Definition ranges_in (lo hi : nat) (m : meta) : Prop := forall r, meta_range m = Done r -> lo <= fst r /\ snd r <= hi.

Lemma meta_range_bounds lo hi m :
  match m_name m with MOk n => elems_in lo hi [n] | MErr l => elems_in lo hi l | MNone => True end ->
  match m_eq m with Some q => elems_in lo hi [q] | None => True end ->
  match m_value m with MOk v => elems_in lo hi (mv_elements v) | MErr l => elems_in lo hi l | MNone => True end ->
  match m_nested m with Some n => ranges_in lo hi n | None => True end ->
  lo <= m_start m <= hi -> match m_end m with Some e => e <= hi | None => True end ->
  ranges_in lo hi m.
Proof.
  destruct m as [nm eq vl nested st en]. cbn [m_name m_eq m_value m_nested m_start m_end].
  intros Hn Hq Hv Hx Hs He r. cbn [meta_range m_name m_eq m_value m_nested m_start m_end].
  set (nr := match nm with MOk n => Done (Some (lstart n, lend n)) | MErr items => items_range items | MNone => Done None end).
  assert (Kn : forall x, nr = Done (Some x) -> lo <= fst x /\ snd x <= hi).
  { unfold nr. destruct nm as [n|l|]; intros x Hx'.
    - injection Hx' as <-. apply (Hn n (or_introl eq_refl)).
    - apply (items_range_bounds lo hi l x Hn Hx').
    - discriminate. }
  destruct nr as [nr'|]; [|discriminate]. cbn [obind_o].
  set (sr := match nested with Some n => match meta_range n with Done r => Done (Some r) | Panic => Panic end | None => Done None end).
  assert (Ks : forall x, sr = Done (Some x) -> lo <= fst x /\ snd x <= hi).
  { unfold sr. destruct nested as [n|]; [|discriminate]. intros x Hx'. destruct (meta_range n) eqn:En; [|discriminate].
    injection Hx' as <-. apply (Hx _ En). }
  destruct sr as [sr'|]; [|discriminate]. cbn [obind_o].
  set (vr := match vl with MOk v => match value_range v with Done r => Done (Some r) | Panic => Panic end
             | MErr items => items_range items | MNone => Done None end).
  assert (Kv : forall x, vr = Done (Some x) -> lo <= fst x /\ snd x <= hi).
  { unfold vr. destruct vl as [v|l|]; intros x Hx'.
    - destruct (value_range v) eqn:Ev; [|discriminate]. injection Hx' as <-. apply (value_range_bounds lo hi v _ Hv Ev).
    - apply (items_range_bounds lo hi l x Hv Hx').
    - discriminate. }
  destruct vr as [vr'|]; [|discriminate]. cbn [obind_o].
  assert (Kq : forall q, eq = Some q -> lo <= lstart q /\ lend q <= hi).
  { intros q ->. apply Hq. left; reflexivity. }
  destruct nr' as [[s1 e1]|]; [specialize (Kn _ eq_refl); cbn [fst snd] in Kn|];
  destruct eq as [q|]; [specialize (Kq _ eq_refl)| |specialize (Kq _ eq_refl)|];
  (destruct sr' as [[s2 e2]|]; [specialize (Ks _ eq_refl); cbn [fst snd] in Ks|]);
  (destruct vr' as [[s3 e3]|]; [specialize (Kv _ eq_refl); cbn [fst snd] in Kv|]);
  (destruct en as [en|]); cbn [upd fst snd oor]; unfold mk_range;
  match goal with |- (if ?b then _ else _) = _ -> _ => destruct b; [|discriminate] end;
  intros K; injection K as <-; cbn [fst snd]; lia.
Qed.

Lemma elems_in_place o s : elems_in o (o + bytes (texts_of s)) (place o s).
Proof. intros e He. apply place_bounds, He. Qed.
Lemma elems_in_incl lo hi a b : incl a b -> elems_in lo hi b -> elems_in lo hi a.
Proof. intros Hi Hb e He. apply Hb, Hi, He. Qed.
Lemma split_at_eq_incl seg name eq value : split_at_eq seg name eq value ->
  incl name seg /\ incl value seg /\ (forall q, eq = Some q -> In q seg).
Proof.
  intros [H _]. destruct eq as [q|].
  - destruct H as [-> _]. split; [apply incl_appl, incl_refl|]. split; [apply incl_appr, incl_tl, incl_refl|].
    intros q' E; injection E as <-. apply in_app_iff. right; left; reflexivity.
  - destruct H as [-> ->]. split; [apply incl_refl|]. split; [apply incl_nil_l|]. discriminate.
Qed.

Lemma group_range px last o s lo :
  (forall t, In t (place o s) -> forall m, In m (parse_meta_items px (snd t) (fst t)) -> ranges_in (lstart t) (lend t) m) ->
  lo <= last -> last <= o ->
  ranges_in lo (o + bytes (texts_of s)) (parse_group px last (ann px (place o s))).
Proof.
  intros IH Hlo Hlast. destruct (parse_group_ann px last (place o s)) as (name & eq & value & Hsp & ->).
  set (qe := match eq with Some q => if is_tok (snd q) then Some q else None | None => None end).
  set (nst := nested_of (ann px name)). set (nm := parse_meta_name (name_elems nst name)).
  set (vl := parse_meta_value px value).
  destruct (split_at_eq_incl _ _ _ _ Hsp) as (In1 & In2 & In3).
  assert (Hpl : elems_in lo (o + bytes (texts_of s)) (place o s)).
  { intros e He. apply elems_in_place in He. lia. }
  destruct (build_meta_fields last nm qe vl nst) as (E1 & E2 & E3 & E4).
  apply meta_range_bounds.
  - rewrite E1. unfold nm. pose proof (parse_meta_name_reads (name_elems nst name)) as Hr.
    assert (Hi : incl (name_elems nst name) name).
    { unfold name_elems, without_trees. destruct nst; [|apply incl_refl]. intros x Hx. apply filter_In in Hx. apply Hx. }
    destruct (parse_meta_name (name_elems nst name)) as [n|l|] eqn:En; [| |exact I].
    + apply parse_meta_name_In in En. intros e [<-|[]]. apply Hpl, In1, Hi, En.
    + destruct Hr as (-> & _). apply (elems_in_incl _ _ _ _ (incl_tran Hi In1) Hpl).
  - rewrite E2. unfold qe. destruct eq as [q|]; [|exact I]. destruct (is_tok (snd q)); [|exact I].
    intros e [<-|[]]. apply Hpl, In3. reflexivity.
  - rewrite E3. unfold vl. pose proof (parse_meta_value_reads px value) as Hr.
    destruct (parse_meta_value px value) as [v|l|]; [| |exact I].
    + destruct Hr as (-> & _). apply (elems_in_incl _ _ _ _ In2 Hpl).
    + destruct Hr as (-> & _). apply (elems_in_incl _ _ _ _ In2 Hpl).
  - rewrite E4. unfold nst. rewrite nested_of_ann.
    destruct (trees name) as [|t [|t' l]] eqn:Et; try exact I.
    assert (Ht : In t (place o s)).
    { apply In1. assert (K : In t (trees name)) by (rewrite Et; left; reflexivity). apply filter_In in K. apply K. }
    pose proof (Hpl t Ht) as Hb.
    assert (He : ranges_in lo (o + bytes (texts_of s)) (meta_empty (lstart t) (Some (lend t)))).
    { apply meta_range_bounds; cbn; try exact I; unfold lstart, lend in *; lia. }
    destruct (parse_meta_items px (snd t) (fst t)) as [|m [|m' l']] eqn:Ep.
    + destruct (_ || _); [exact He | exact I].
    + intros r Hr. specialize (IH t Ht m). rewrite Ep in IH. specialize (IH (or_introl eq_refl) r Hr). lia.
    + destruct (_ || _); [exact He | exact I].
  - unfold build_meta, meta_empty. destruct (_ || _); cbn [m_start]; lia.
  - unfold build_meta. destruct (_ || _); exact I.
Qed.

(** The ranges of the arguments of a list are in order, with a separator between any two. *)
Inductive separated : nat -> list meta -> nat -> Prop :=
  | sep_nil lo hi : separated lo [] hi
  | sep_one lo m hi : ranges_in lo hi m -> separated lo [m] hi
  | sep_more lo m mid lo' ms hi : ranges_in lo mid m -> lo <= mid -> mid < lo' -> mid <= hi -> separated lo' ms hi -> separated lo (m :: ms) hi.

Definition written_commas (l : list elem) : Prop := forall e, In e l -> kind_of e = COMMA -> 0 < len_of e.

Lemma parse_groups_separated px hi : forall n body o last ic lo,
  length body <= n ->
  (forall t, In t (place o body) -> forall m, In m (parse_meta_items px (snd t) (fst t)) -> ranges_in (lstart t) (lend t) m) ->
  written_commas body -> lo <= last -> last <= o -> o + bytes (texts_of body) <= hi ->
  separated lo (parse_groups px last ic [] (ann px (place o body))) hi.
Proof.
  induction n as [|n IHn]; intros body o last ic lo Hlen IH Hc Hlo Hlast Hhi.
  - destruct body; [constructor | cbn in Hlen; lia].
  - assert (D : (forall e, In e body -> kind_of e <> COMMA) \/
               exists s c rest, body = s ++ c :: rest /\ kind_of c = COMMA /\ forall e, In e s -> kind_of e <> COMMA).
    { clear. induction body as [|e body IH]; [left; intros e []|].
      destruct (skind_eqb (kind_of e) COMMA) eqn:E.
      - apply skind_eqb_eq in E. right. exists [], e, body. repeat split; [exact E | intros x []].
      - assert (N : kind_of e <> COMMA) by (intros K; rewrite K, skind_eqb_refl in E; discriminate).
        destruct IH as [IH|(s & c & rest & -> & Hk & Hs)].
        + left. intros x [<-|Hx]; [exact N | apply IH, Hx].
        + right. exists (e :: s), c, rest. repeat split; [exact Hk|]. intros x [<-|Hx]; [exact N | apply Hs, Hx]. }
    destruct D as [D|(s & c & rest & -> & Hk & Hs)].
    + destruct body as [|e body']; [constructor|]. set (body := e :: body') in *.
      rewrite parse_groups_seg.
      * constructor. intros r Hr. pose proof (group_range px last o body lo IH Hlo Hlast r Hr). lia.
      * intros x Hx. unfold ann in Hx. apply in_map_iff in Hx. destruct Hx as (y & <- & Hy). cbn [fst]. apply D, (place_In _ _ _ Hy).
      * discriminate.
    + rewrite place_app in IH |- *. cbn [place] in IH |- *.
      unfold texts_of in Hhi. rewrite flat_map_app, bytes_app in Hhi. cbn [flat_map] in Hhi. rewrite bytes_app in Hhi.
      fold (texts_of s) in Hhi. fold (texts_of rest) in Hhi. fold (len_of c) in Hhi.
      set (oc := o + bytes (texts_of s)) in *.
      assert (Hcl : 0 < len_of c) by (apply Hc; [apply in_app_iff; right; left; reflexivity | exact Hk]).
      assert (Hrest : forall ic' lo', lo' <= oc + len_of c ->
                separated lo' (parse_groups px (oc + len_of c) ic' [] (ann px (place (oc + len_of c) rest))) hi).
      { intros ic' lo' Hlo'. apply IHn; try lia.
        - rewrite app_length in Hlen. cbn in Hlen. lia.
        - intros t Ht. apply IH. apply in_app_iff. right; right; exact Ht.
        - intros e He. apply Hc. apply in_app_iff. right; right; exact He. }
      unfold ann. rewrite map_app. cbn [map]. fold (ann px (place o s)). fold (ann px (place (oc + len_of c) rest)).
      destruct s as [|x s'].
      * cbn [place ann map app parse_groups fst]. unfold lkind at 1. cbn [snd fst]. rewrite Hk, skind_eqb_refl.
        unfold lend. cbn [fst snd]. cbn in oc.
        destruct ic.
        -- apply IHn; try lia.
           ++ cbn in Hlen. lia.
           ++ intros t Ht. apply IH. right; exact Ht.
           ++ intros e He. apply Hc. right; exact He.
        -- apply Hrest. lia.
      * set (s := x :: s') in *. rewrite parse_groups_seg_comma; [|intros y Hy; unfold ann in Hy; apply in_map_iff in Hy;
          destruct Hy as (z & <- & Hz); cbn [fst]; apply Hs, (place_In _ _ _ Hz) | discriminate | exact Hk].
        cbn [fst]. unfold lend at 1. cbn [fst snd].
        apply (sep_more _ _ oc (oc + len_of c)); try lia.
        -- apply group_range; [|exact Hlo|exact Hlast]. intros t Ht. apply IH. apply in_app_iff. left; exact Ht.
        -- apply Hrest. lia.
Qed.

Lemma taken_body px (l : list elem) o : exists body, take_while keep (ann px (place o l)) = ann px (place o body)
  /\ incl body l /\ bytes (texts_of body) <= bytes (texts_of l) /\ incl (place o body) (place o l).
Proof.
  revert o. induction l as [|e l IH]; intros o; cbn [place].
  - exists []. split; [reflexivity|]. split; [apply incl_refl|]. split; [cbn; lia | apply incl_refl].
  - change (ann px ((o, e) :: place (o + len_of e) l)) with ((o, e, items_at px (o, e)) :: ann px (place (o + len_of e) l)).
    cbn [take_while]. destruct (keep (o, e, items_at px (o, e))).
    + destruct (IH (o + len_of e)) as (b & Eb & Hb & Hl & Hp). exists (e :: b). cbn [place].
      change (ann px ((o, e) :: place (o + len_of e) b)) with ((o, e, items_at px (o, e)) :: ann px (place (o + len_of e) b)).
      rewrite Eb. split; [reflexivity|].
      split; [apply incl_cons; [left; reflexivity | apply incl_tl, Hb]|]. split.
      * unfold texts_of in *. cbn [flat_map]. rewrite !bytes_app. lia.
      * apply incl_cons; [left; reflexivity | apply incl_tl, Hp].
    + exists []. split; [reflexivity|]. split; [apply incl_nil_l|]. split; [cbn; lia | apply incl_nil_l].
Qed.

Lemma parse_meta_items_keep px k cs o :
  exists start body ob, parse_meta_items px (Node k cs) o = parse_groups px start false [] (ann px (place ob body))
    /\ incl body cs /\ incl (place ob body) (place o cs) /\ o <= start
    /\ ob + bytes (texts_of body) <= o + len_of (Node k cs)
    /\ ((forall a b p, cs = a ++ Tok L_PAREN p :: b -> a = []) -> start <= ob).
Proof.
  rewrite parse_meta_items_node. cbv zeta.
  change (fun c : lelem * list meta => negb (is_tok (snd (fst c)) && skind_eqb (lkind (fst c)) R_PAREN)
            && negb (is_error_wrapped_closing_bracket (snd (fst c)))) with keep.
  match goal with |- exists _ _ _, parse_groups px ?s _ _ _ = _ /\ _ => set (start := s) end.
  assert (Hst : o <= start).
  { unfold start. match goal with |- _ <= match ?f with _ => _ end => destruct f as [p|] eqn:E; [|lia] end. apply find_some in E. destruct E as [E _].
    unfold ann in E. apply in_map_iff in E. destruct E as (e & <- & He). cbn [fst]. apply place_ge in He. unfold lend, lstart in *. lia. }
  rewrite len_of_node.
  destruct (find (fun e => is_tok e && skind_eqb (kind_of e) L_PAREN) cs) as [p|] eqn:Ef.
  - destruct cs as [|c cs]; [discriminate|].
    match goal with |- context [take_while ?f ?l] =>
      change (take_while f l) with (@take_while pchild keep (ann px (place (o + len_of c) cs))) end.
    destruct (taken_body px cs (o + len_of c)) as (body & -> & Hb & Hl & Hp).
    exists start, body, (o + len_of c). split; [reflexivity|]. split; [apply incl_tl, Hb|].
    split; [apply incl_tl, Hp|]. split; [exact Hst|]. split.
    + unfold texts_of in *. cbn [flat_map]. rewrite bytes_app. fold (len_of c). lia.
    + intros H. unfold start. cbn [place ann map find fst snd]. unfold lkind. cbn [snd].
      assert (Hc : exists t, c = Tok L_PAREN t).
      { apply find_some in Ef. destruct Ef as [Hin Hp']. apply andb_true_iff in Hp'. destruct Hp' as [Ht Hk'].
        destruct p as [k0 t0|]; [|discriminate Ht]. apply skind_eqb_eq in Hk'. cbn in Hk'. subst k0.
        apply in_split in Hin. destruct Hin as (a & b & Eab). pose proof (H a b t0 Eab) as ->. injection Eab as -> _. eauto. }
      destruct Hc as [t ->].
      cbn. lia.
  - match goal with |- context [take_while ?f ?l] =>
      change (take_while f l) with (@take_while pchild keep (ann px (place o cs))) end.
    destruct (taken_body px cs o) as (body & -> & Hb & Hl & Hp).
    exists start, body, o. split; [reflexivity|]. split; [exact Hb|]. split; [exact Hp|]. split; [exact Hst|]. split; [lia|].
    intros _. unfold start.
    assert (K : find (fun c : lelem * list meta => is_tok (snd (fst c)) && skind_eqb (lkind (fst c)) L_PAREN) (ann px (place o cs)) = None).
    { clear - Ef. revert o Ef. induction cs as [|c cs IH]; intros o Ef; [reflexivity|]. cbn [find] in Ef.
      cbn [place ann map find fst snd]. unfold lkind at 1. cbn [snd]. destruct (is_tok c && skind_eqb (kind_of c) L_PAREN); [discriminate|].
      fold (ann px (place (o + len_of c) cs)). apply IH, Ef. }
    match goal with |- match ?f with _ => _ end <= _ => replace f with (@None pchild) by (symmetry; exact K) end. lia.
Qed.

Lemma place_shift o o' cs c : In c (place o cs) -> o <= fst c -> In (o' + (fst c - o), snd c) (place o' cs).
Proof.
  revert o o'. induction cs as [|x cs IH]; intros o o'; [intros []|]. cbn [place]. intros [<-|H] Hle.
  - left. cbn [fst snd]. f_equal. lia.
  - right. pose proof (place_ge _ _ _ H) as Hge. unfold lstart in Hge.
    specialize (IH _ (o' + len_of x) H Hge). replace (o' + (fst c - o)) with (o' + len_of x + (fst c - (o + len_of x))) by lia. exact IH.
Qed.
Lemma shift_element d e a : element_of e a -> element_of (fst e + d, snd e) (fst a + d, snd a).
Proof.
  induction 1 as [e|o k cs c e Hc _ IH]; [constructor|]. cbn [fst snd].
  eapply eo_child; [|exact IH]. pose proof (place_ge _ _ _ Hc) as Hge. unfold lstart in Hge.
  pose proof (place_shift o (o + d) cs c Hc Hge) as K. replace (o + d + (fst c - o)) with (fst c + d) in K by lia. exact K.
Qed.

Lemma items_separated px e : (forall o k cs, element_of (0, e) (o, Node k cs) ->
    written_commas cs /\ (forall a b p, cs = a ++ Tok L_PAREN p :: b -> a = [])) ->
  forall o, separated o (parse_meta_items px e o) (o + len_of e).
Proof.
  induction e as [k t|k cs IH] using elem_ind'; intros Hw o; [constructor|].
  destruct (Hw 0 k cs (eo_self _)) as [Hc Hp].
  destruct (parse_meta_items_keep px k cs o) as (start & body & ob & -> & Hb & Hpl & Hst & Hlen & Hob).
  apply (parse_groups_separated px _ (length body)); try lia.
  - intros t Ht m Hm. apply Hpl in Ht.
    assert (K : separated (fst t) (parse_meta_items px (snd t) (fst t)) (fst t + len_of (snd t))).
    { rewrite Forall_forall in IH. apply (IH (snd t)); [apply (place_In _ _ _ Ht)|].
      intros o' k' cs' He. apply (shift_element (fst t - o)) in He. cbn [fst snd] in He.
      eapply (Hw _ k' cs'). eapply eo_child; [|exact He].
      pose proof (place_ge _ _ _ Ht) as Hge. unfold lstart in Hge.
      assert (Et : t = (fst t, snd t)) by (destruct t; reflexivity). rewrite Et in Ht.
      apply (place_shift o 0) in Ht; [|exact Hge]. rewrite Nat.add_0_l in Ht. exact Ht. }
    clear - K Hm. unfold lstart, lend. revert Hm.
    assert (G : forall lo ms hi, separated lo ms hi -> In m ms -> forall lo0, lo0 <= lo -> ranges_in lo0 hi m).
    { clear. induction 1 as [lo hi|lo x hi Hx|lo x mid lo' ms hi Hx Hlm Hlt Hle Hs IHs]; intros Hm lo0 Hlo.
      - destruct Hm.
      - destruct Hm as [<-|[]]. intros r Hr. specialize (Hx r Hr). lia.
      - destruct Hm as [<-|Hm]; [intros r Hr; specialize (Hx r Hr); lia|].
        apply IHs; [exact Hm|lia]. }
    intros Hm. apply (G _ _ _ K Hm). lia.
  - intros x Hx. apply Hc, Hb, Hx.
  - apply Hob, Hp.
Qed.

Lemma separated_first lo ms hi : separated lo ms hi -> forall b x af n r,
  ms = b ++ x :: af -> covers_name x -> m_name x = MOk n -> inside r (range_of n) -> fst r <= snd r ->
  (forall y, In y b -> exists ar, meta_range y = Done ar) ->
  first_containing ms r x /\ lo <= fst r.
Proof.
  assert (KX : forall x n r, covers_name x -> m_name x = MOk n -> inside r (range_of n) ->
            exists ar, meta_range x = Done ar /\ inside r ar /\ fst ar <= fst r).
  { intros x n r (n' & e & E1 & E2 & E3) Hn Hi. assert (n' = n) by congruence. subst n'.
    exists (lstart n, e). unfold inside, range_of in *. cbn [fst snd] in *. repeat split; [exact E2|lia|lia|lia]. }
  induction 1 as [lo hi|lo m hi Hm|lo m mid lo' ms hi Hm Hlm Hlt Hle Hs IH]; intros b x af n r E Hc Hn Hi Hr Hb.
  - destruct b; discriminate.
  - destruct b as [|y b]; [|destruct b; discriminate]. injection E as -> <-.
    destruct (KX _ _ _ Hc Hn Hi) as (ar & Ea & Hia & Hf). split.
    + exists [], []. split; [reflexivity|]. split; [eauto|]. intros y [].
    + specialize (Hm ar Ea). lia.
  - destruct b as [|y b].
    + injection E as -> <-. destruct (KX _ _ _ Hc Hn Hi) as (ar & Ea & Hia & Hf). split.
      * exists [], ms. split; [reflexivity|]. split; [eauto|]. intros y [].
      * specialize (Hm ar Ea). lia.
    + injection E as -> ->. destruct (IH b x af n r eq_refl Hc Hn Hi Hr) as [(b' & af' & E' & Hx & Hb') Hlo];
        [intros z Hz; apply Hb; right; exact Hz|].
      split; [|lia]. exists (y :: b'), af'. rewrite E'. split; [reflexivity|]. split; [exact Hx|].
      intros z [<-|Hz]; [|apply Hb', Hz]. destruct (Hb y (or_introl eq_refl)) as [ar Ea].
      exists ar. split; [exact Ea|]. specialize (Hm ar Ea). unfold inside. lia.
Qed.

(** ** Signature help *)

Lemma arg_kind_str_nonempty k : arg_kind_str k <> [].
Proof. destruct k; discriminate. Qed.
Lemma param_text_nonempty args v k : param_text args v k <> [].
Proof. unfold param_text. destruct (arg_kind_str k) eqn:E; [destruct (arg_kind_str_nonempty k E)|discriminate]. Qed.
Lemma contains_arg_In l k : contains_arg l k = true <-> In k l.
Proof.
  unfold contains_arg. rewrite existsb_exists. split.
  - intros (x & H & E). apply arg_kind_eqb_eq in E. subst. exact H.
  - intros H. exists k. split; [exact H|]. apply arg_kind_eqb_eq. reflexivity.
Qed.
Lemma param_describes args v k : describes v args k (param_text args v k).
Proof.
  exists (contains_arg args AConstructor). split; [apply contains_arg_In|].
  unfold param_text, kind_value.
  destruct k, v, (contains_arg args AConstructor); cbn;
    first [ left; eexists; split; [|reflexivity]; cbn; tauto
          | right; left; split; [tauto|reflexivity]
          | right; right; split; [intros label H; repeat (destruct H as [H|H]; [discriminate H|]); exact H
                                 |split; [discriminate|]; split; [discriminate|reflexivity]] ].
Qed.

Lemma joined_snoc l x : l <> [] -> joined (l ++ [x]) = joined l ++ lit ", " ++ x.
Proof.
  induction l as [|y l IH]; [congruence|]. intros _. destruct l as [|z l]; [reflexivity|].
  change (joined ((y :: z :: l) ++ [x])) with (y ++ lit ", " ++ joined ((z :: l) ++ [x])). rewrite IH by discriminate.
  change (joined (y :: z :: l)) with (y ++ lit ", " ++ joined (z :: l)). rewrite <- !app_assoc. reflexivity.
Qed.
Lemma joined_nonempty l : l <> [] -> (forall x, In x l -> x <> []) -> joined l <> [].
Proof.
  destruct l as [|x [|y l]]; intros H K; [congruence| |].
  - apply (K x). left; reflexivity.
  - cbn [joined]. specialize (K x (or_introl eq_refl)). destruct x; [congruence|discriminate].
Qed.
Lemma laid_out_snoc l : forall o rs t, laid_out o l rs ->
  let s := o + bytes (joined l) + (match l with [] => 0 | _ => bytes (lit ", ") end) in
  laid_out o (l ++ [t]) (rs ++ [(s, s + bytes t)]).
Proof.
  induction l as [|x l IH]; intros o [|r rs] t H; cbn [laid_out app] in *; try contradiction.
  - cbn [joined]. replace (o + bytes [] + 0) with o by (cbn; lia). auto.
  - destruct H as [-> H]. split; [reflexivity|]. specialize (IH _ _ t H). cbv zeta in *.
    destruct l as [|y l].
    + cbn [joined] in *. replace (o + bytes x + bytes (lit ", ")) with (o + bytes x + bytes (lit ", ") + bytes [] + 0) at 2 3 by (cbn; lia).
      exact IH.
    + replace (o + bytes (joined (x :: y :: l)) + bytes (lit ", "))
        with (o + bytes x + bytes (lit ", ") + bytes (joined (y :: l)) + bytes (lit ", ")); [exact IH|].
      change (joined (x :: y :: l)) with (x ++ lit ", " ++ joined (y :: l)). rewrite !bytes_app. lia.
Qed.
(** Laid out ranges delimit their texts in the joined text. *)
Lemma laid_out_placed l : forall pre rs, laid_out (bytes pre) l rs ->
  Forall2 (fun r t => well_placed (pre ++ joined l) r t) rs l.
Proof.
  induction l as [|x l IH]; intros pre [|r rs] H; cbn [laid_out] in H; try contradiction; constructor.
  - destruct H as [-> _]. exists pre. destruct l as [|y l].
    + exists []. cbn [joined]. rewrite app_nil_r. auto.
    + exists (lit ", " ++ joined (y :: l)). auto.
  - destruct H as [_ H]. destruct l as [|y l].
    + destruct rs; [constructor|destruct H].
    + change (joined (x :: y :: l)) with (x ++ lit ", " ++ joined (y :: l)).
      replace (pre ++ x ++ lit ", " ++ joined (y :: l)) with ((pre ++ x ++ lit ", ") ++ joined (y :: l)) by (rewrite <- !app_assoc; reflexivity).
      apply IH. rewrite !bytes_app, Nat.add_assoc. exact H.
Qed.

(** The state of the loop after the arguments [ks]. *)
Record sig_inv (args : list arg_kind) (v : version) (focused : option ink_arg) (ks : list arg_kind) (st : sig_state) : Prop := {
  si_label : fst (fst (fst st)) = joined (map (param_text args v) ks);
  si_params : laid_out 0 (map (param_text args v) ks) (map pa_range (snd (fst (fst st))));
  si_len : length (snd (fst (fst st))) = length ks;
  si_active : match snd (fst st) with
              | Some i => exists k, nth_error ks i = Some k /\ focused_kind focused k = true
              | None => forall k, In k ks -> focused_kind focused k = false
              end;
  si_prefix : match snd st with
              | Some i => exists k, nth_error ks i = Some k /\ named_prefix focused k = true
                  /\ forall j k', j < i -> nth_error ks j = Some k' -> named_prefix focused k' = false
              | None => snd (fst st) = None -> forall k, In k ks -> named_prefix focused k = false
              end }.

Lemma nth_error_snoc_old {A} (l : list A) x i k : nth_error l i = Some k -> nth_error (l ++ [x]) i = Some k.
Proof. intros H. rewrite nth_error_app1; [exact H|]. apply nth_error_Some. congruence. Qed.
Lemma nth_error_snoc_new {A} (l : list A) x : nth_error (l ++ [x]) (length l) = Some x.
Proof. rewrite nth_error_app2 by lia. rewrite Nat.sub_diag. reflexivity. Qed.
Lemma nth_error_snoc_before {A} (l : list A) x j k : j < length l -> nth_error (l ++ [x]) j = Some k -> nth_error l j = Some k.
Proof. intros H E. rewrite nth_error_app1 in E by exact H. exact E. Qed.

Lemma sig_step_inv args v focused ks st k :
  sig_inv args v focused ks st -> sig_inv args v focused (ks ++ [k]) (sig_step args v focused st k).
Proof.
  destruct st as [[[label params] active] by_prefix]. intros [H1 H2 Hlen H3 H4]. cbn [fst snd] in *.
  set (T := param_text args v) in *.
  set (label' := label ++ (match label with [] => [] | _ => lit ", " end) ++ T k).
  assert (Hlab : ks <> [] -> label <> []).
  { intros Hks. rewrite H1. apply joined_nonempty.
    - destruct ks; [congruence|discriminate].
    - intros x Hx. apply in_map_iff in Hx. destruct Hx as (y & <- & _). apply param_text_nonempty. }
  assert (Elabel : label' = joined (map T (ks ++ [k]))).
  { unfold label'. rewrite map_app. cbn [map]. destruct ks as [|k0 ks].
    - cbn in H1. subst label. reflexivity.
    - rewrite joined_snoc by discriminate. rewrite <- H1. specialize (Hlab ltac:(discriminate)). destruct label; [congruence|reflexivity]. }
  set (start := bytes label + (match label with [] => 0 | _ => bytes (lit ", ") end)).
  assert (Hparams : laid_out 0 (map T (ks ++ [k])) (map pa_range (params ++ [MkParam (start, start + bytes (T k)) None]))).
  { rewrite !map_app. cbn [map pa_range]. pose proof (laid_out_snoc _ _ _ (T k) H2) as HL. cbv zeta in HL. rewrite <- H1 in HL.
    replace (0 + bytes label + (match map T ks with [] => 0 | _ => bytes (lit ", ") end)) with start in HL; [exact HL|].
    unfold start. destruct ks as [|k0 ks]; [cbn in H1; subst label; reflexivity|].
    specialize (Hlab ltac:(discriminate)). destruct label; [congruence|reflexivity]. }
  assert (Hlen' : length (params ++ [MkParam (start, start + bytes (T k)) None]) = length (ks ++ [k]))
    by (rewrite !app_length, Hlen; reflexivity).
  assert (Eidx : length (params ++ [MkParam (start, start + bytes (T k)) None]) - 1 = length ks).
  { rewrite app_length. cbn [length]. lia. }
  assert (Hold : forall i, (exists k0, nth_error ks i = Some k0 /\ named_prefix focused k0 = true
                    /\ forall j k', j < i -> nth_error ks j = Some k' -> named_prefix focused k' = false) ->
                 exists k0, nth_error (ks ++ [k]) i = Some k0 /\ named_prefix focused k0 = true
                    /\ forall j k', j < i -> nth_error (ks ++ [k]) j = Some k' -> named_prefix focused k' = false).
  { intros i (k0 & A & B & C). exists k0. split; [apply nth_error_snoc_old, A|]. split; [exact B|].
    intros j k' Hj E. apply (C j k' Hj). apply (nth_error_snoc_before ks k); [|exact E].
    assert (i < length ks) by (apply nth_error_Some; congruence). lia. }
  unfold sig_step. fold label'. fold T. fold start. rewrite Eidx.
  destruct active as [i|].
  - constructor; cbn [fst snd]; [exact Elabel|exact Hparams|exact Hlen'| |].
    + destruct H3 as (k0 & A & B). exists k0. split; [apply nth_error_snoc_old, A|exact B].
    + destruct by_prefix as [j|]; [|discriminate]. apply Hold, H4.
  - destruct (focused_kind focused k) eqn:Ek.
    + constructor; cbn [fst snd]; [exact Elabel|exact Hparams|exact Hlen'| |].
      * exists k. split; [apply nth_error_snoc_new|exact Ek].
      * destruct by_prefix as [j|]; [|discriminate]. apply Hold, H4.
    + assert (Hact : forall k0, In k0 (ks ++ [k]) -> focused_kind focused k0 = false).
      { intros k0 Hk0. apply in_app_iff in Hk0. destruct Hk0 as [Hk0|[<-|[]]]; [apply H3, Hk0 | exact Ek]. }
      destruct by_prefix as [j|]; cbn [is_some negb andb].
      * constructor; cbn [fst snd]; [exact Elabel|exact Hparams|exact Hlen'|exact Hact|]. apply Hold, H4.
      * destruct (named_prefix focused k) eqn:Ep; constructor; cbn [fst snd]; try exact Elabel; try exact Hparams; try exact Hlen'; try exact Hact.
        -- exists k. split; [apply nth_error_snoc_new|]. split; [exact Ep|]. intros j k' Hj E.
           apply (H4 eq_refl). apply (nth_error_snoc_before ks k) in E; [|exact Hj]. eapply nth_error_In, E.
        -- intros _ k0 Hk0. apply in_app_iff in Hk0. destruct Hk0 as [Hk0|[<-|[]]]; [apply (H4 eq_refl), Hk0 | exact Ep].
Qed.

Lemma sig_fold_inv args v focused ks :
  sig_inv args v focused ks (fold_left (sig_step args v focused) ks ([], [], None, None)).
Proof.
  induction ks as [|k ks IH] using rev_ind.
  - cbn. constructor; cbn; auto; intros; contradiction.
  - rewrite fold_left_app. cbn [fold_left]. apply sig_step_inv, IH.
Qed.

Lemma focused_kind_iff f k : focused_kind f k = true <-> on_arg f k.
Proof.
  unfold focused_kind, on_arg. destruct f as [a|].
  - rewrite arg_kind_eqb_eq. split; [eauto|]. intros (b & E & <-). injection E as <-. reflexivity.
  - split; [discriminate|]. intros (b & E & _). discriminate.
Qed.
Lemma starts_with_iff p t : starts_with p t = true <-> exists rest, t = p ++ rest.
Proof.
  split.
  - apply starts_with_app.
  - intros [rest ->]. induction p as [|c p IH]; [reflexivity|]. cbn [app starts_with]. rewrite N.eqb_refl. exact IH.
Qed.
Lemma named_prefix_iff f k : named_prefix f k = true <-> starts_arg f k.
Proof.
  unfold named_prefix, starts_arg. destruct f as [a|].
  - destruct (m_name a) as [n|l|] eqn:En.
    + destruct (text_of (snd n)) as [|c t] eqn:Et.
      * split; [discriminate|]. intros (b & n' & rest & E & E' & E2 & _). injection E as <-. rewrite En in E'. injection E' as <-. congruence.
      * rewrite starts_with_iff. split.
        -- intros [rest Hr]. exists a, n, rest. rewrite Et. repeat split; auto. discriminate.
        -- intros (b & n' & rest & E & E' & E2 & E3). injection E as <-. rewrite En in E'. injection E' as <-. rewrite Et in E3. eauto.
    + split; [discriminate|]. intros (b & n' & rest & E & E' & _). injection E as <-. congruence.
    + split; [discriminate|]. intros (b & n' & rest & E & E' & _). injection E as <-. congruence.
  - split; [discriminate|]. intros (b & n' & rest & E & _). discriminate.
Qed.

Lemma sorted_pairs l : ForallOrdPairs (fun a b => ~ precedes b a) (stable_sort arg_rank l).
Proof.
  pose proof (stable_sort_sorted arg_rank l) as H. induction H as [|a l' Hs IH Hf]; constructor.
  - eapply Forall_impl; [|exact Hf]. intros b Hb. rewrite precedes_rank. cbn beta in Hb. lia.
  - exact IH.
Qed.

Lemma add_signature_spec args focused range v : args <> [] ->
  exists s, add_signature args focused range v = [s] /\ sg_range s = range /\ shows v args focused s.
Proof.
  intros Hne. unfold add_signature. set (ks := stable_sort arg_rank args).
  pose proof (stable_sort_perm arg_rank args) as Hperm. fold ks in Hperm.
  pose proof (sig_fold_inv args v focused ks) as Hinv. pose proof (sorted_pairs args) as Hord. fold ks in Hord.
  destruct (fold_left (sig_step args v focused) ks ([], [], None, None)) as [[[label params] active] by_prefix].
  destruct Hinv as [H1 H2 Hlen H3 H4]. cbn [fst snd] in *.
  assert (Hks : ks <> []).
  { intros E. rewrite E in Hperm. destruct args; [congruence|]. apply Permutation_sym, Permutation_nil in Hperm; discriminate. }
  assert (Hl : label <> []).
  { rewrite H1. apply joined_nonempty.
    - destruct ks; [congruence|discriminate].
    - intros x Hx. apply in_map_iff in Hx. destruct Hx as (y & <- & _). apply param_text_nonempty. }
  assert (Hp : params <> []) by (intros ->; destruct ks; [congruence|discriminate]).
  eexists. split; [destruct label; [congruence|]; destruct params; [congruence|]; reflexivity|]. clear Hl Hp.
  split; [reflexivity|].
  assert (Hin : forall k, In k args <-> In k ks).
  { intros k. split; apply Permutation_in; [exact Hperm | exact (Permutation_sym Hperm)]. }
  assert (C : forall i k, (match active with Some _ => active | None => match by_prefix with Some _ => by_prefix | None => Some 0 end end) = Some i ->
     nth_error ks i = Some k ->
     ((exists k', In k' args /\ on_arg focused k') -> on_arg focused k) ->
     ((forall k', In k' args -> ~ on_arg focused k') ->
        ((exists k', In k' args /\ starts_arg focused k') ->
           starts_arg focused k /\ forall j k', j < i -> nth_error ks j = Some k' -> ~ starts_arg focused k')
        /\ ((forall k', In k' args -> ~ starts_arg focused k') -> i = 0)) ->
     shows v args focused (Signature label range params (oor (oor active by_prefix) (Some 0)) None)).
  { intros i k E1 E2 E3 E4. exists ks, (map (param_text args v) ks), i, k.
    split; [exact (Permutation_sym Hperm)|]. split; [exact Hord|]. split.
    { clear. induction ks as [|k0 ks0 IH]; constructor; [apply param_describes | exact IH]. }
    cbn [sg_label sg_parameters sg_active]. split; [exact H1|]. split; [exact H2|].
    split; [rewrite <- E1; destruct active, by_prefix; reflexivity|]. auto. }
  destruct active as [i|].
  - destruct H3 as (k & Hk & Hf). apply (C i k eq_refl Hk); rewrite focused_kind_iff in Hf; [auto|].
    intros Hn. exfalso. apply (Hn k); [|exact Hf]. apply Hin. eapply nth_error_In, Hk.
  - assert (NF : ~ exists k', In k' args /\ on_arg focused k').
    { intros (k' & A & B). apply Hin in A. apply focused_kind_iff in B. rewrite (H3 _ A) in B. discriminate. }
    destruct by_prefix as [i|].
    + destruct H4 as (k & Hk & Hf & Hb). apply (C i k eq_refl Hk); [tauto|]. intros _. apply named_prefix_iff in Hf. split.
      * intros _. split; [exact Hf|]. intros j k' Hj E. rewrite <- named_prefix_iff, (Hb j k' Hj E). discriminate.
      * intros Hn. exfalso. apply (Hn k); [|exact Hf]. apply Hin. eapply nth_error_In, Hk.
    + destruct ks as [|k0 ks'] eqn:Ek; [congruence|]. apply (C 0 k0 eq_refl eq_refl); [tauto|]. intros _. split; [|reflexivity].
      intros (k' & A & B). apply Hin in A. apply named_prefix_iff in B. rewrite (H4 eq_refl _ A) in B. discriminate.
Qed.

Definition known_signature (focused : option ink_arg) (range : nat * nat) (v : version) (s : signature) : Prop :=
  exists args, shown_together v args /\ sg_range s = range /\ shows v args focused s.

(** An argument that stands for itself: an entity, or one without related entities. *)
Definition standalone (k : arg_kind) (v : version) : bool := is_entity_type k || match related_primaries k v with [] => true | _ => false end.

Lemma anchor_together k v : standalone k v = true -> shown_together v (k :: sibling_args (AkArg k) v).
Proof.
  destruct k, v; intros H; try discriminate H; cbn;
    first [ exact (st_env _) | exact (st_keep_attr _) | apply st_entity; reflexivity | apply st_alone ].
Qed.

Lemma anchor_spec k focused range v :
  exists s, anchor_signature k focused range v = [s] /\ sg_range s = range /\ shows v (k :: sibling_args (AkArg k) v) focused s.
Proof. apply add_signature_spec. discriminate. Qed.
Lemma anchor_known k focused range v s : standalone k v = true ->
  In s (anchor_signature k focused range v) -> known_signature focused range v s.
Proof.
  intros Hst. destruct (anchor_spec k focused range v) as (s0 & -> & Hr & Hs).
  intros [<-|[]]. exists (k :: sibling_args (AkArg k) v). split; [apply anchor_together, Hst | auto].
Qed.
Lemma entity_known k focused range v s : is_entity_type k = true ->
  In s (anchor_signature k focused range v) -> known_signature focused range v s.
Proof. intros H. apply anchor_known. unfold standalone. rewrite H. reflexivity. Qed.
Lemma complementary_known k focused range v s : In s (complementary_signature k focused range v) -> known_signature focused range v s.
Proof.
  unfold complementary_signature. intros H. apply in_app_iff in H. destruct H as [H|H].
  - destruct (arg_kind_eqb k ANamespace) eqn:E; [|destruct H]. apply arg_kind_eqb_eq in E. subst k.
    destruct (add_signature_spec [ANamespace] focused range v) as (s0 & Es & Hr & Hs0); [discriminate|].
    rewrite Es in H. destruct H as [<-|[]]. exists [ANamespace]. split; [apply st_alone|auto].
  - destruct (related_primaries k v) as [|p ps] eqn:Er.
    + eapply anchor_known; [|exact H]. unfold standalone. rewrite Er. apply orb_true_r.
    + apply in_flat_map in H. destruct H as (q & Hq & H).
      assert (He : is_entity_type q = true).
      { rewrite <- Er in Hq. unfold related_primaries in Hq. apply filter_In in Hq. apply Hq. }
      eapply entity_known; [exact He|exact H].
Qed.
Lemma raw_known c focused range v s : In s (raw_signatures c focused range v) -> known_signature focused range v s.
Proof.
  unfold raw_signatures. destruct (at_kind (sc_attr c)) as [m|k] eqn:Ek.
  - destruct (sibling_args (AkMacro m) v) as [|a l] eqn:Es; [intros []|].
    destruct (add_signature_spec (a :: l) focused range v) as (s0 & E0 & Hr & Hs0); [discriminate|]. rewrite E0.
    intros [<-|[]]. exists (a :: l). split; [|auto]. rewrite <- Es. apply (st_macro v m); [|rewrite Es; discriminate].
    destruct m, v; try reflexivity; discriminate Es.
  - destruct (is_entity_type k) eqn:Hk; [apply entity_known, Hk|].
    cbv zeta. match goal with |- In s (match ?o with _ => _ end) -> _ => destruct o as [k'|] eqn:Eo end.
    + apply entity_known. destruct (obind (sc_item_attrs c) primary_candidate) as [p|]; [|discriminate]. cbn [obind] in Eo.
      destruct (at_kind (fst p)) as [|k2]; [discriminate|]. destruct (is_entity_type k2) eqn:E2; [|discriminate]. injection Eo as <-. exact E2.
    + destruct (negb (arg_kind_eqb k AUnknown)); [apply complementary_known|].
      destruct (sc_item_kind c) as [ik|]; [|intros []].
      intros H. apply in_flat_map in H. destruct H as (q & _ & H).
      destruct (is_entity_type q) eqn:Hq; [eapply entity_known; [exact Hq|exact H]|].
      destruct (is_complementary q); [eapply complementary_known; exact H | destruct H].
Qed.

Lemma sig_key_eqb_eq a b : sig_key_eqb a b = true <-> a = b.
Proof.
  unfold sig_key_eqb, range_eqb. rewrite !andb_true_iff, str_eqb_eq, !Nat.eqb_eq.
  destruct a as [l [s e]], b as [l' [s' e']]; cbn [fst snd]. split; [intros (-> & -> & ->); reflexivity|].
  intros H; injection H as -> -> ->; auto.
Qed.

Lemma find_arg_at off l f : find_arg (fun ar => contains_inclusive ar off) l = Done f <->  argument_at l off f.
Proof.
  assert (D : forall ar, contains_inclusive ar off = true <-> fst ar <= off <= snd ar)
    by (intros; unfold contains_inclusive; rewrite andb_true_iff, !Nat.leb_le; reflexivity).
  revert f. induction l as [|a l IH]; cbn [find_arg]; intros f.
  - unfold argument_at. split.
    + intros H; injection H as <-. intros y [].
    + destruct f as [x|]; [intros (b & af & E & _); destruct b; discriminate|reflexivity].
  - destruct (meta_range a) as [ar|] eqn:Ea; cbn [obind_o].
    + destruct (contains_inclusive ar off) eqn:Ec.
      * apply D in Ec. split.
        -- intros H; injection H as <-. exists [], l. split; [reflexivity|]. split; [exists ar; auto|]. intros y [].
        -- destruct f as [x|]; cbn [argument_at].
           ++ intros (b & af & E & Hx & Hb). destruct b as [|y b]; [injection E as -> _; reflexivity|].
              injection E as -> _. destruct (Hb y (or_introl eq_refl)) as (ar' & E' & Hn). congruence.
           ++ intros H. destruct (H a (or_introl eq_refl)) as (ar' & E' & Hn). congruence.
      * assert (Hn : ~ fst ar <= off <= snd ar) by (rewrite <- D, Ec; discriminate). rewrite IH. clear IH. destruct f as [x|]; cbn [argument_at].
        -- split.
           ++ intros (b & af & -> & Hx & Hb). exists (a :: b), af. split; [reflexivity|]. split; [exact Hx|].
              intros y [<-|Hy]; [eauto | apply Hb, Hy].
           ++ intros (b & af & E & Hx & Hb). destruct b as [|y b].
              ** injection E as <- <-. destruct Hx as (ar' & E' & H'). congruence.
              ** injection E as <- ->. exists b, af. split; [reflexivity|]. split; [exact Hx|]. intros z Hz. apply Hb. right; exact Hz.
        -- split.
           ++ intros H y [<-|Hy]; [eauto | apply H, Hy].
           ++ intros H y Hy. apply H. right; exact Hy.
    + split; [discriminate|]. destruct f as [x|]; cbn [argument_at].
      * intros (b & af & E & (ar & Ex & _) & Hb). destruct b as [|y b]; [injection E as -> _; congruence|].
        injection E as -> _. destruct (Hb y (or_introl eq_refl)) as (ar' & E' & _). congruence.
      * intros H. destruct (H a (or_introl eq_refl)) as (ar & E & _). congruence.
Qed.

Lemma find_first_token t k e : paren_token k t = Some e <-> first_token t k e.
Proof.
  unfold paren_token, first_token. generalize (children_of t) as l.
  assert (D : forall c, is_tok (snd c) && skind_eqb (lkind c) k = true <-> is_tok (snd c) = true /\ lkind c = k)
    by (intros; rewrite andb_true_iff, skind_eqb_eq; reflexivity).
  induction l as [|c l IH]; cbn [find].
  - split; [discriminate|]. intros (b & af & E & _). destruct b; discriminate.
  - destruct (is_tok (snd c) && skind_eqb (lkind c) k) eqn:Ec.
    + apply D in Ec. split.
      * intros H; injection H as <-. exists [], l. split; [reflexivity|]. split; [apply Ec|]. split; [apply Ec|]. intros y [].
      * intros (b & af & E & Ht & Hk & Hb). destruct b as [|y b]; [injection E as -> _; reflexivity|].
        injection E as -> _. exfalso. apply (Hb y (or_introl eq_refl)); apply Ec.
    + rewrite IH. assert (Hc : is_tok (snd c) = true -> lkind c <> k) by (intros A B; rewrite (proj2 (D c) (conj A B)) in Ec; discriminate).
      split.
      * intros (b & af & -> & Ht & Hk & Hb). exists (c :: b), af. split; [reflexivity|]. split; [exact Ht|]. split; [exact Hk|].
        intros y [<-|Hy]; [exact Hc | apply Hb, Hy].
      * intros (b & af & E & Ht & Hk & Hb). destruct b as [|y b].
        -- injection E as <- <-. exfalso. apply (Hc Ht Hk).
        -- injection E as <- ->. exists b, af. split; [reflexivity|]. split; [exact Ht|]. split; [exact Hk|]. intros z Hz. apply Hb. right; exact Hz.
Qed.
Lemma first_token_unique t k e e' : first_token t k e -> first_token t k e' -> e = e'.
Proof. rewrite <- !find_first_token. congruence. Qed.

Lemma focused_range_iff t off r : focused_range t off = Done (Some r) <-> between_parens t off r.
Proof.
  unfold focused_range, between_parens. destruct (paren_token L_PAREN t) as [l|] eqn:El.
  - pose proof (proj1 (find_first_token _ _ _) El) as Hl.
    destruct (paren_token R_PAREN t) as [rp|] eqn:Er.
    + pose proof (proj1 (find_first_token _ _ _) Er) as Hr. split.
      * destruct ((lstart t <=? off) && (off <? lend t) && (lend l <=? off) && (off <=? lstart rp)) eqn:E; [|discriminate].
        rewrite !andb_true_iff, !Nat.leb_le, Nat.ltb_lt in E. unfold mk_range.
        destruct (lend l <=? lstart rp) eqn:Eb; [|discriminate]. cbn [obind_o]. intros H; injection H as <-. cbn [fst snd].
        split; [lia|]. split; [lia|]. exists l. split; [exact Hl|]. split; [reflexivity|]. left. eauto.
      * intros (A & B & l' & Hl' & C & [(r' & Hr' & D)|[N _]]); [|destruct (N rp Hr)].
        assert (l' = l) by (eapply first_token_unique; eassumption). assert (r' = rp) by (eapply first_token_unique; eassumption). subst l' r'.
        rewrite (proj2 (Nat.leb_le (lstart t) off)), (proj2 (Nat.ltb_lt off (lend t))), (proj2 (Nat.leb_le (lend l) off)),
          (proj2 (Nat.leb_le off (lstart rp))) by lia. cbn [andb]. unfold mk_range.
        rewrite (proj2 (Nat.leb_le (lend l) (lstart rp))) by lia. cbn [obind_o]. rewrite <- C, <- D. destruct r; reflexivity.
    + assert (Hr : forall r0, ~ first_token t R_PAREN r0) by (intros r0 H0; apply find_first_token in H0; congruence). split.
      * destruct ((lstart t <=? off) && (off <? lend t) && (lend l <=? off) && true) eqn:E; [|discriminate].
        rewrite !andb_true_iff, !Nat.leb_le, Nat.ltb_lt in E. unfold mk_range.
        destruct (lend l <=? lend t) eqn:Eb; [|discriminate]. cbn [obind_o]. intros H; injection H as <-. cbn [fst snd].
        split; [lia|]. split; [lia|]. exists l. split; [exact Hl|]. split; [reflexivity|]. right. auto.
      * intros (A & B & l' & Hl' & C & [(r' & Hr' & D)|[N D]]); [destruct (Hr r' Hr')|].
        assert (l' = l) by (eapply first_token_unique; eassumption). subst l'.
        rewrite (proj2 (Nat.leb_le (lstart t) off)), (proj2 (Nat.ltb_lt off (lend t))), (proj2 (Nat.leb_le (lend l) off)) by lia.
        cbn [andb]. unfold mk_range. rewrite (proj2 (Nat.leb_le (lend l) (lend t))) by lia. cbn [obind_o]. rewrite <- C, <- D. destruct r; reflexivity.
  - split; [discriminate|]. intros (_ & _ & l & Hl & _). apply find_first_token in Hl. congruence.
Qed.
Lemma focused_range_total t off : exists r, focused_range t off = Done r.
Proof.
  unfold focused_range. destruct (paren_token L_PAREN t) as [l|] eqn:El; [|eauto].
  destruct (paren_token R_PAREN t) as [rp|] eqn:Er.
  - destruct ((lstart t <=? off) && (off <? lend t) && (lend l <=? off) && (off <=? lstart rp)) eqn:E; [|eauto].
    rewrite !andb_true_iff, !Nat.leb_le, Nat.ltb_lt in E. unfold mk_range.
    rewrite (proj2 (Nat.leb_le (lend l) (lstart rp))) by lia. cbn [obind_o]. eauto.
  - destruct ((lstart t <=? off) && (off <? lend t) && (lend l <=? off) && true) eqn:E; [|eauto].
    rewrite !andb_true_iff, !Nat.leb_le, Nat.ltb_lt in E. unfold mk_range.
    rewrite (proj2 (Nat.leb_le (lend l) (lend t))) by lia. cbn [obind_o]. eauto.
Qed.
Lemma between_inside t off r : between_parens t off r -> inside r (range_of t).
Proof.
  intros (A & B & l & (b & af & E & _) & C & D).
  assert (Hl : inside (range_of l) (range_of t)) by (apply children_inside; rewrite E; apply in_elt).
  unfold inside, range_of in *. cbn [fst snd] in *. assert (lstart l <= lend l) by (unfold lend, lstart; lia).
  destruct D as [(r' & (b' & af' & E' & _) & D)|[_ D]]; [|lia].
  assert (Hr : inside (range_of r') (range_of t)) by (apply children_inside; rewrite E'; apply in_elt).
  unfold inside, range_of in *. cbn [fst snd] in *. assert (lstart r' <= lend r') by (unfold lend, lstart; lia). lia.
Qed.

Lemma paths_all e a : element_of e a -> In a (map fst (paths [] (fst e) (snd e))).
Proof.
  intros H. destruct (paths_block e a H []) as (pre & post & up & -> & _). rewrite !map_app. apply in_or_app. right. apply in_or_app. left.
  destruct a as [o [k t|k cs]]; cbn [fst snd]; [left; reflexivity|]. rewrite paths_node. left. reflexivity.
Qed.

(** ** All signatures are shown *)
Lemma entity_type_iff k : is_entity_type k = true <-> In k entity_args.
Proof. destruct k; cbn; intuition (try discriminate). Qed.
Lemma no_separate attrs : no_entity_attr attrs ->
  obind (obind attrs primary_candidate) (fun p => match at_kind (fst p) with AkArg k' => if is_entity_type k' then Some k' else None | AkMacro _ => None end) = None.
Proof.
  intros H. destruct attrs as [l|]; [|reflexivity]. cbn [obind]. destruct (primary_candidate l) as [[p b]|] eqn:E; [|reflexivity]. cbn [obind fst].
  destruct (at_kind p) as [m|k] eqn:Ek; [reflexivity|]. destruct (is_entity_type k) eqn:Ee; [|reflexivity]. exfalso. apply entity_type_iff in Ee. refine (H l p k eq_refl _ Ek Ee).
  unfold primary_candidate in E. destruct l as [|f l]; [discriminate|]. match type of E with context [hd_error ?s] => destruct (hd_error s) as [x|] eqn:Eh; [|discriminate] end.
  injection E as <- _. assert (Hx : In x (stable_sort (fun a => attr_rank (at_kind a)) (filter (fun a => negb (attr_kind_unknown (at_kind a))) (f :: l)))).
  { destruct (stable_sort _ _) as [|y r]; [discriminate|]. injection Eh as <-. left. reflexivity. }
  apply stable_sort_In in Hx. apply filter_In in Hx. apply Hx.
Qed.
Lemma sibling_options v e opts : In e entity_args -> options v (AkArg e) = Some opts -> sibling_args (AkArg e) v = opts.
Proof. intros _ H. destruct v, e; cbn in H |- *; try discriminate H; injection H as <-; reflexivity. Qed.
Lemma companion_of v k e opts : In e entity_args -> options v (AkArg e) = Some opts -> In k opts -> In e (related_primaries k v) /\ sibling_args (AkArg e) v = opts.
Proof.
  intros He Ho Hk. split; [|exact (sibling_options v e opts He Ho)]. destruct v, e; cbn in Ho; try discriminate Ho; injection Ho as <-; cbn in Hk;
    repeat match type of Hk with _ \/ _ => destruct Hk as [Hk|Hk] end; try contradiction; subst k; cbn; tauto.
Qed.
Lemma shown_labelled v args focused s : shows v args focused s -> labelled v args (sg_label s).
Proof. intros (kinds & texts & i & k & H1 & H2 & H3 & H4 & _). exists kinds, texts. auto. Qed.
Lemma shown_kept focused range v args raw : args <> [] -> (forall s, In s (add_signature args focused range v) -> In s raw) ->
  exists s, In s (unique_by sig_key_eqb sig_key raw) /\ labelled v args (sg_label s).
Proof.
  intros Hne H. destruct (add_signature_spec args focused range v Hne) as (s & Es & _ & Hs). rewrite Es in H. specialize (H s (or_introl eq_refl)).
  destruct (unique_by_aux_complete sig_key_eqb sig_key sig_key_eqb_eq [] raw s H ltac:(intros [])) as (y & Hy & Ek). exists y. split; [exact Hy|].
  unfold sig_key in Ek. injection Ek as El _. rewrite El. exact (shown_labelled _ _ _ _ Hs).
Qed.
Definition open_signature (focused : option ink_arg) (range : nat * nat) (v : version) (p : arg_kind) : list signature :=
  if is_entity_type p then anchor_signature p focused range v else if is_complementary p then complementary_signature p focused range v else [].
Definition every_kind : list arg_kind :=
  [AAdditionalContracts; AAnonymous; ABackend; AConstructor; ADecode; ADefault; ADerive; AEncode; AEnv; AEnvironment; AEvent; AExtension; AFunction; AHandleStatus; AImpl; AKeepAttr; AMessage; ANamespace;
   ANode; APayable; ARuntimeOnly; ASandbox; ASelector; ASignatureTopic; AStorage; ATopic; ATypeInfo; AUrl; AUnknown].
Lemma every_kind_all k : In k every_kind.
Proof. destruct k; cbn; tauto. Qed.
Definition own_group (v : version) (k : arg_kind) : bool := is_entity_type k || arg_kind_eqb k ANamespace || match related_primaries k v with [] => true | _ => false end.
Lemma lite_unique v k e : own_group v k = true -> is_entity_type e = true \/ e = ANamespace -> lite_signature v k = lite_signature v e -> k = e.
Proof.
  assert (C : forallb (fun v => forallb (fun k => forallb (fun e => negb (own_group v k) || negb (is_entity_type e || arg_kind_eqb e ANamespace) || negb (str_eqb (lite_signature v k) (lite_signature v e)) || arg_kind_eqb k e) every_kind) every_kind) [V4; V5] = true)
    by (vm_compute; reflexivity).
  intros Hk He El. rewrite forallb_forall in C. specialize (C v ltac:(destruct v; cbn; tauto)). rewrite forallb_forall in C. specialize (C k (every_kind_all k)). rewrite forallb_forall in C. specialize (C e (every_kind_all e)).
  cbv beta in C. rewrite Hk, (proj2 (str_eqb_eq _ _) El) in C. replace (is_entity_type e || arg_kind_eqb e ANamespace) with true in C by (destruct He as [-> | ->]; reflexivity).
  cbn [negb orb] in C. apply arg_kind_eqb_eq in C. exact C.
Qed.
Definition replacing (v : version) (k : arg_kind) : list arg_kind :=
  if is_entity_type k || arg_kind_eqb k ANamespace then [k] else match related_primaries k v with [] => [k] | ps => ps end.
Lemma replacing_own v k x : In x (replacing v k) -> own_group v x = true.
Proof.
  unfold replacing, own_group. destruct (is_entity_type k || arg_kind_eqb k ANamespace) eqn:E; [intros [<-|[]]; rewrite E; reflexivity|].
  destruct (related_primaries k v) as [|p ps] eqn:Er; [intros [<-|[]]; rewrite E, Er; reflexivity|]. rewrite <- Er. unfold related_primaries. intros H. apply filter_In in H. destruct H as [_ ->]. reflexivity.
Qed.
Lemma possible_rep args focused v k e : In k args -> fits focused k -> In e (replacing v k) -> is_entity_type e = true \/ e = ANamespace -> In e (possible_args args focused v).
Proof.
  intros Hin Hfit He Hk. unfold possible_args. fold (replacing v).
  match goal with |- In e (unique_by str_eqb (lite_signature v) (stable_sort arg_rank ?r)) => set (rep := r) end.
  assert (Hr : In e (stable_sort arg_rank rep)).
  { apply stable_sort_In. unfold rep. apply in_flat_map. exists k. split; [|exact He]. apply filter_In. split; [exact Hin|].
    destruct focused as [a|]; [|reflexivity]. destruct (m_name a) as [n| |] eqn:En; try reflexivity. destruct (Hfit a n eq_refl En) as (rest & E). destruct (text_of (snd n)) as [|c t] eqn:Et; [reflexivity|].
    apply starts_with_app. exists rest. exact E. }
  destruct (unique_by_aux_complete str_eqb (lite_signature v) str_eqb_eq [] _ e Hr ltac:(intros [])) as (y & Hy & Ek).
  assert (Ey : y = e).
  { apply (lite_unique v y e); [|exact Hk | exact Ek]. apply unique_by_aux_incl in Hy. apply stable_sort_In in Hy. unfold rep in Hy. apply in_flat_map in Hy. destruct Hy as (z & _ & Hz). exact (replacing_own v z y Hz). }
  rewrite Ey in Hy. exact Hy.
Qed.
Lemma possible_entity args focused v k e : In k args -> fits focused k -> In e entity_args ->
  (e = k /\ In k entity_args) \/ (~ In k entity_args /\ k <> ANamespace /\ In e (related_primaries k v)) ->
  exists k', In k' (possible_args args focused v) /\ forall range s, In s (anchor_signature e focused range v) -> In s (open_signature focused range v k').
Proof.
  intros Hin Hfit He H. exists e. apply entity_type_iff in He. split.
  - apply (possible_rep args focused v k e Hin Hfit); [|left; exact He]. unfold replacing. destruct H as [(-> & _)|(Hn & Hns & Hr)].
    + rewrite He. left. reflexivity.
    + destruct (is_entity_type k) eqn:Ek; [apply entity_type_iff in Ek; contradiction|]. destruct (arg_kind_eqb k ANamespace) eqn:E; [apply arg_kind_eqb_eq in E; contradiction|].
      cbn [orb]. destruct (related_primaries k v); [destruct Hr | exact Hr].
  - intros range s Hs. unfold open_signature. rewrite He. exact Hs.
Qed.
Lemma possible_namespace args focused v : In ANamespace args -> fits focused ANamespace -> In ANamespace (possible_args args focused v).
Proof. intros Hin Hfit. apply (possible_rep args focused v ANamespace ANamespace Hin Hfit); [left; reflexivity | right; reflexivity]. Qed.
