(** Proofs for C95. *)
From Coq Require Import List Permutation Lia.
From Verif Require Import Base BaseFacts Unicode PositionModel PositionProofs TranslateModel SyntaxModel CommandModel AttrModel AttrProofs EditModel EditSpec EditProofs EditProps
  UtilModel UtilSpec UtilProofs ChainSpec ArgEditModel ArgEditProofs RuleModel EntityModel HintModel HintSpec HintProofs ExtractModel ExtractSpec.
Import ListNotations.

Lemma inside_element acc e s up : inside_of acc e s up -> element_of e s.
Proof. induction 1 as [|acc o k cs c e up Hc _ IH]; [constructor|]. exact (eo_child _ _ _ _ _ Hc IH). Qed.

Lemma inside_trans r e s : element_of e s -> inside r (range_of s) -> inside r (range_of e).
Proof. intros H. apply element_bounds in H. unfold inside, range_of. cbn [fst snd]. lia. Qed.

Lemma covering_inside acc e s up r : inside_of acc e s up -> fst r < snd r -> inside r (range_of s) ->
  covering_element acc (fst e) (snd e) r = covering_element up (fst s) (snd s) r.
Proof.
  induction 1 as [|acc o k cs c e up Hc Hi IH]; intros Hr Hin; [reflexivity|]. cbn [fst snd]. rewrite covering_node.
  rewrite (find_place_containing o cs c r Hc Hr). { apply IH; assumption. }
  exact (inside_trans r c e (inside_element _ _ _ _ Hi) Hin).
Qed.

Lemma paths_inside acc e s up : inside_of acc e s up ->
  exists pre post, paths acc (fst e) (snd e) = pre ++ paths up (fst s) (snd s) ++ post
    /\ (forall p, In p pre -> is_tok (snd (fst p)) = true -> lend (fst p) <= lstart s)
    /\ (forall p, In p post -> is_tok (snd (fst p)) = true -> lend s <= lstart (fst p)).
Proof.
  induction 1 as [acc e|acc o k cs c e up Hc Hi IH].
  - exists [], []. rewrite app_nil_r. repeat split; intros p [].
  - cbn [fst snd]. rewrite paths_node. destruct (place_split _ _ _ Hc) as (l1 & l2 & -> & H1 & H2).
    rewrite flat_map_app. cbn [flat_map]. destruct IH as (pre & post & -> & Hpre & Hpost).
    pose proof (element_bounds _ _ (inside_element _ _ _ _ Hi)) as Hb.
    set (f := fun c0 : nat * elem => paths ((o, Node k cs) :: acc) (fst c0) (snd c0)).
    assert (KB : forall l x, In x (flat_map f l) -> exists y, In y l /\ lstart y <= lstart (fst x) /\ lend (fst x) <= lend y).
    { intros l x Hx. apply in_flat_map in Hx. destruct Hx as (y & Hy & Hx). apply paths_anc in Hx. destruct Hx as [Hx _].
      apply element_bounds in Hx. exists y. destruct y; auto. }
    exists (((o, Node k cs), acc) :: flat_map f l1 ++ pre), (post ++ flat_map f l2).
    split; [cbn [app]; rewrite <- !app_assoc; reflexivity|]. split.
    + intros p [<-|Hp] Ht; [discriminate Ht|]. apply in_app_iff in Hp. destruct Hp as [Hp|Hp]; [|apply Hpre; assumption].
      destruct (KB _ _ Hp) as (y & Hy & A & B). apply H1 in Hy. lia.
    + intros p Hp Ht. apply in_app_iff in Hp. destruct Hp as [Hp|Hp]; [apply Hpost; assumption|].
      destruct (KB _ _ Hp) as (y & Hy & A & B). apply H2 in Hy. lia.
Qed.

(** The closest item from inside of a struct without items is the struct. *)
Lemma closest_here s up down : item_at s = true -> (forall x, In x down -> item_at x = false) -> closest item_at (down ++ s :: up) = Some (s, up).
Proof.
  intros Hs Hd. induction down as [|x down IH]; cbn [app closest]; [rewrite Hs; reflexivity|]. rewrite (Hd x (or_introl eq_refl)).
  apply IH. intros y Hy. apply Hd. right. exact Hy.
Qed.
Lemma struct_item o cs : item_at (o, Node STRUCT cs) = true.
Proof. reflexivity. Qed.
Lemma struct_not_item x : item_at x = false -> node_at STRUCT x = false.
Proof. destruct x as [o [k t|k cs]]; [reflexivity|]. unfold item_at, item_node, node_at, is_node, lkind. cbn [snd is_tok negb kind_of andb]. destruct k; try reflexivity. discriminate. Qed.

Lemma attributes_nodes s : attributes s = child_nodes ATTR s.
Proof.
  unfold attributes, child_nodes. destruct (snd s) as [k t|k cs]; [reflexivity|]. apply filter_ext. intros [o [k' t|k' cs']]; [reflexivity|].
  unfold attribute, lkind. cbn [snd is_tok negb kind_of andb]. destruct k'; reflexivity.
Qed.

(** Any focus inside of the struct that is not in an attribute of a field finds the struct. *)
Lemma parent_struct o cs up c x down : no_items (o, Node STRUCT cs) -> In c (place o cs) -> element_of c x ->
  (forall y, In y down -> element_of c y) ->
  (lkind x = ATTR -> In x (attributes (o, Node STRUCT cs))) ->
  node_at STRUCT x = false /\ parent_item (x, down ++ (o, Node STRUCT cs) :: up) = Some ((o, Node STRUCT cs), up).
Proof.
  intros Hn Hc Hx Hd Ha. assert (I : forall y, element_of c y -> item_at y = false) by (intros y Hy; exact (Hn _ _ _ _ eq_refl Hc Hy)).
  split; [apply struct_not_item, I, Hx|]. unfold parent_item. cbn [fst snd].
  match goal with |- context [closest item_at ?l] => replace (closest item_at l) with (Some ((o, Node STRUCT cs), up) : option path)
    by (symmetry; apply (closest_here (o, Node STRUCT cs) up down eq_refl); intros y Hy; apply I, Hd, Hy) end.
  destruct (skind_eqb (lkind x) ATTR) eqn:E; [|reflexivity]. apply skind_eqb_eq in E. specialize (Ha E). rewrite attributes_nodes in Ha.
  replace (existsb (fun a => range_eqb (lrange_of a) (lrange_of x)) (child_nodes ATTR (o, Node STRUCT cs))) with true; [reflexivity|].
  symmetry. apply existsb_exists. exists x. split; [exact Ha|]. unfold range_eqb. rewrite !Nat.eqb_refl. reflexivity.
Qed.

Lemma element_leaf e x : element_of e x -> forall k t, snd x = Tok k t -> In (k, t) (leaves (snd e)).
Proof.
  induction 1 as [e|o k cs c e Hc _ IH]; intros k' t E.
  - rewrite E. left. reflexivity.
  - cbn [snd]. rewrite leaves_node. apply in_flat_map. exists (snd c). split; [exact (place_In _ _ _ Hc) | apply IH, E].
Qed.

Lemma struct_found U root o cs up r : parsed U root -> around root (o, Node STRUCT cs) up -> no_items (o, Node STRUCT cs) -> points_at r (o, Node STRUCT cs) ->
  struct_at root r = Done (Some ((o, Node STRUCT cs), up)).
Proof.
  intros [_ Hp] Hs Hn ((Hin & Hr & Hcur) & Ha). unfold struct_at, focused_element. pose proof (inside_element _ _ _ _ Hs) as He.
  pose proof (element_bounds _ _ He) as Hb. unfold lstart at 1, lend at 2 in Hb. cbn [fst snd] in Hb.
  destruct (Nat.eqb_spec (fst r) (snd r)) as [E|E].
  - specialize (Hcur E). unfold focused_token, tokens_at. rewrite (proj2 (Nat.leb_le (fst r) (len_of root))) by (unfold inside, range_of in Hin; cbn [fst snd] in Hin; lia).
    destruct (paths_inside _ _ _ _ Hs) as (pre & post & Ep & Hpre & Hpost). cbn [fst snd] in Ep. rewrite Ep.
    set (f := fun p : path => is_tok (snd (fst p)) && touches (fst r) (fst p)).
    match goal with |- context [filter ?g ?l] => change (filter g l) with (@filter path f l) end.
    rewrite !filter_app, (filter_none f pre), (filter_none f post).
    2:{ intros p H. unfold f. destruct (is_tok (snd (fst p))) eqn:Et; [|reflexivity]. specialize (Hpost p H Et).
        unfold touches. rewrite (proj2 (Nat.leb_gt (lstart (fst p)) (fst r))) by lia. rewrite andb_false_r. reflexivity. }
    2:{ intros p H. unfold f. destruct (is_tok (snd (fst p))) eqn:Et; [|reflexivity]. specialize (Hpre p H Et).
        unfold touches. rewrite (proj2 (Nat.leb_gt (fst r) (lend (fst p)))) by lia. rewrite andb_false_r. reflexivity. }
    rewrite app_nil_r. cbn [app].
    assert (G : forall p, In p (filter f (paths up o (Node STRUCT cs))) ->
              (if node_at STRUCT (fst p) then Some p
               else match parent_item p with Some (it, up) => if node_at STRUCT it then Some (it, up) else None | None => None end) = Some ((o, Node STRUCT cs), up)).
    { intros p H. apply filter_In in H. destruct H as [H Hf]. unfold f in Hf. apply andb_true_iff in Hf. destruct Hf as [Ht _].
      rewrite paths_node in H. destruct H as [<-|H]; [discriminate Ht|]. apply in_flat_map in H. destruct H as (c & Hc & H).
      pose proof (paths_anc _ _ _ _ H) as (Hx & mid & Em & Hm). destruct p as [x anc]. cbn [fst snd] in *. subst anc.
      rewrite <- surjective_pairing in Hx.
      destruct (parent_struct o cs up c x mid Hn Hc Hx) as (N1 & N2).
      - intros y Hy. destruct (Hm y Hy) as [A _]. rewrite <- surjective_pairing in A. exact A.
      - intros Ek. exfalso. destruct x as [xo [xk xt|]]; [|discriminate Ht]. unfold lkind in Ek. cbn [snd kind_of] in Ek. subst xk.
        apply (Hp xt). apply (element_leaf (0, root) (xo, Tok ATTR xt)); [|reflexivity]. clear -He Hc Hx.
        assert (T : forall a b d, element_of a b -> element_of b d -> element_of a d).
        { intros a b d A. induction A as [|oo kk cc c0 e0 Hc0 _ IH]; [trivial|]. intros B. exact (eo_child _ _ _ _ _ Hc0 (IH B)). }
        apply (T _ _ _ He). exact (eo_child _ _ _ _ _ Hc Hx).
      - rewrite N1, N2. reflexivity. }
    destruct (token_touching (Node STRUCT cs) up o (fst r)) as (p & H & Ht & Htt);
      [unfold lstart, lend in Hcur; cbn [fst snd] in Hcur; lia | unfold lstart, lend in Hcur; cbn [fst snd] in Hcur; lia |].
    assert (H' : In p (filter f (paths up o (Node STRUCT cs)))) by (apply filter_In; split; [exact H|]; unfold f; rewrite Ht, Htt; reflexivity).
    cbn [fst snd]. destruct (filter f (paths up o (Node STRUCT cs))) as [|x [|y l]]; [destruct H'| |]; cbn [obind_o].
    + rewrite (G x) by (left; reflexivity). reflexivity.
    + destruct (is_trivia (lkind (fst x)) && negb (is_trivia (lkind (fst y)))); cbn [obind_o].
      * rewrite (G y) by (right; left; reflexivity). reflexivity.
      * rewrite (G x) by (left; reflexivity). reflexivity.
  - assert (Hlt : fst r < snd r) by lia. cbn [obind_o].
    replace (contains_range (0, len_of root) r) with true.
    2:{ symmetry. apply contains_range_inside. exact (inside_trans r (0, root) _ He Hin). }
    pose proof (covering_inside [] (0, root) _ up r Hs Hlt Hin) as CI. cbn [fst snd] in CI. rewrite CI, covering_node. clear CI.
    destruct (find (fun c => contains_range (fst c, fst c + len_of (snd c)) r) (place o cs)) as [c|] eqn:Ef; [|reflexivity].
    apply find_some in Ef. destruct Ef as [Hc Hcr]. apply contains_range_inside in Hcr.
    destruct (covering_chain (snd c) ((o, Node STRUCT cs) :: up) (fst c) r Hlt) as (mid & Em & Hm & Hx & _ & Hi). cbv zeta in *.
    set (p := covering_element ((o, Node STRUCT cs) :: up) (fst c) (snd c) r) in *. rewrite <- surjective_pairing in Em, Hm, Hx, Hi.
    assert (D : exists down, snd p = down ++ (o, Node STRUCT cs) :: up /\ forall y, In y down -> element_of c y).
    { destruct mid as [|y mid]; cbn [app] in Em; injection Em as E1 E2; rewrite E2.
      - exists []. split; [reflexivity | intros y []].
      - exists (mid ++ [c]). split; [rewrite <- app_assoc; reflexivity|]. intros z Hz. apply in_app_iff in Hz. destruct Hz as [Hz|[<-|[]]]; [|constructor].
        apply Hm. right. exact Hz. }
    destruct D as (down & Ed & Hd). destruct p as [x anc]. cbn [fst snd] in *. subst anc.
    destruct (parent_struct o cs up c x down Hn Hc Hx Hd) as (N1 & N2).
    + intros Ek. apply (Ha Hlt); [exact (eo_child _ _ _ _ _ Hc Hx) | exact Ek | exact (Hi Hcr)].
    + rewrite N1. match goal with |- context [parent_item ?q] => replace (parent_item q) with (Some ((o, Node STRUCT cs), up) : option path) by (symmetry; exact N2) end.
      reflexivity.
Qed.

(** ** The content *)

Lemma join_unlines_nl l : join nl l = unlines l.
Proof. induction l as [|a [|b l] IH]; [reflexivity | reflexivity|]. cbn [join unlines] in IH |- *. rewrite IH. reflexivity. Qed.

Lemma unlines_app2 a b : a <> [] -> b <> [] -> unlines (a ++ b) = unlines a ++ [c_nl] ++ unlines b.
Proof.
  intros Ha Hb. induction a as [|x a IH]; [contradiction|]. destruct a as [|y a].
  - cbn [app unlines]. destruct b; [contradiction | reflexivity].
  - change (unlines ((x :: y :: a) ++ b)) with (x ++ [c_nl] ++ unlines ((y :: a) ++ b)). rewrite IH by discriminate.
    cbn [unlines]. rewrite <- !app_assoc. reflexivity.
Qed.
Lemma unlines_full a : a <> [] -> (forall x, In x a -> x <> []) -> unlines a <> [].
Proof.
  intros Ha H. destruct a as [|x a]; [contradiction|]. specialize (H x (or_introl eq_refl)). destruct x; [contradiction|]. destruct a; discriminate.
Qed.

Lemma is_empty_full s : s <> [] -> is_empty s = false.
Proof. destruct s; [contradiction | reflexivity]. Qed.
Lemma join_parts C A line body : (forall x, In x C -> x <> []) -> (forall x, In x A -> x <> []) -> line <> [] -> body <> [] ->
  join nl (filter (fun t => negb (is_empty t)) [join nl C; join nl A; line; body]) = unlines (C ++ A ++ [line; body]).
Proof.
  intros HC HA Hl Hb. rewrite !(join_unlines_nl C), !(join_unlines_nl A). cbn [filter]. rewrite (is_empty_full line Hl), (is_empty_full body Hb). cbn [negb].
  destruct C as [|c C].
  - cbn [unlines is_empty negb app]. destruct A as [|a A].
    + cbn [unlines is_empty negb app]. apply join_unlines_nl.
    + rewrite (is_empty_full (unlines (a :: A))) by (apply unlines_full; [discriminate | exact HA]). cbn [negb].
      rewrite join_unlines_nl, unlines_app2 by discriminate. reflexivity.
  - rewrite (is_empty_full (unlines (c :: C))) by (apply unlines_full; [discriminate | exact HC]). cbn [negb].
    rewrite (unlines_app2 (c :: C)) by (try discriminate; destruct A; discriminate). destruct A as [|a A].
    + cbn [unlines is_empty negb app]. rewrite join_unlines_nl. reflexivity.
    + rewrite (is_empty_full (unlines (a :: A))) by (apply unlines_full; [discriminate | exact HA]). cbn [negb].
      rewrite (unlines_app2 (a :: A)) by discriminate. rewrite join_unlines_nl. reflexivity.
Qed.

Lemma remove_decl U decl : decl_ok U decl -> forall ws, remove_attrs_and_docs ws decl = decl.
Proof.
  intros (H1 & H2 & _) ws. assert (G : forall l, (forall e, In e l -> kind_of e <> ATTR /\ kind_of e <> COMMENT) -> remove_attrs_and_docs false l = l).
  { clear. induction l as [|e l IH]; intros H; [reflexivity|]. cbn [remove_attrs_and_docs]. rewrite IH by (intros x Hx; apply H; right; exact Hx).
    destruct (H e (or_introl eq_refl)) as [A B]. destruct (kind_of e); try reflexivity; contradiction. }
  destruct decl as [|e l]; [reflexivity|]. cbn [remove_attrs_and_docs]. rewrite (G l) by (intros x Hx; apply H1; right; exact Hx).
  destruct (H1 e (or_introl eq_refl)) as [A B]. specialize (H2 e l eq_refl). destruct (kind_of e); try reflexivity; contradiction.
Qed.
Lemma remove_heads U heads decl : Forall head_ok heads -> decl_ok U decl -> forall ws, remove_attrs_and_docs ws (flat_map head_elems heads ++ decl) = decl.
Proof.
  intros Hh Hd. induction Hh as [|[e w] heads He _ IH]; intros ws; cbn [flat_map app].
  - exact (remove_decl U decl Hd ws).
  - rewrite <- app_assoc. cbn [head_elems app remove_attrs_and_docs].
    assert (K : kind_of e = COMMENT \/ kind_of e = ATTR) by (destruct He as [(t & -> & _)|(cs & -> & _)]; [left | right]; reflexivity).
    destruct K as [-> | ->]; (destruct w; cbn [app remove_attrs_and_docs kind_of]; apply IH).
Qed.
Lemma comments_eq U heads decl : Forall head_ok heads -> decl_ok U decl ->
  map text_of (filter (fun c => is_tok c && skind_eqb (kind_of c) COMMENT) (flat_map head_elems heads ++ decl)) = comments heads.
Proof.
  intros Hh (Hd & _). rewrite filter_app. replace (filter _ decl) with (@nil elem).
  2:{ symmetry. apply filter_none. intros e He. destruct (Hd e He) as [_ H]. destruct (skind_eqb (kind_of e) COMMENT) eqn:E; [|apply andb_false_r].
      apply skind_eqb_eq in E. contradiction. }
  rewrite app_nil_r. induction Hh as [|[e w] heads He _ IH]; [reflexivity|]. unfold comments in *. cbn [flat_map]. rewrite filter_app, map_app, IH. f_equal.
  destruct He as [(t & -> & _)|(cs & -> & _)]; destruct w; reflexivity.
Qed.
Lemma comments_full heads x : Forall head_ok heads -> In x (comments heads) -> x <> [].
Proof.
  intros Hh Hx. apply in_flat_map in Hx. destruct Hx as ([e w] & He & Hx). rewrite Forall_forall in Hh. specialize (Hh _ He).
  destruct Hh as [(t & -> & Ht)|(cs & -> & _)]; [|destruct Hx]. destruct Hx as [<-|[]]. exact Ht.
Qed.
Lemma attributes_full U read o heads decl x : Forall head_ok heads -> decl_ok U decl -> In x (other_attrs read (o, struct_of heads decl)) -> x <> [].
Proof.
  intros Hh (Hd & _) Hx. unfold other_attrs in Hx. apply in_map_iff in Hx. destruct Hx as (a & <- & Ha). apply filter_In in Ha. destruct Ha as [Ha _].
  unfold attributes, struct_of in Ha. cbn [fst snd] in Ha. apply filter_In in Ha. destruct Ha as [Ha Hk]. apply place_In in Ha. destruct a as [ao a]. cbn [snd] in *.
  unfold attribute in Hk. cbn [snd] in Hk. destruct a as [|k cs]; [discriminate|]. destruct k; try discriminate Hk.
  apply in_app_iff in Ha. destruct Ha as [Ha|Ha]; [|destruct (Hd _ Ha) as [C _]; contradiction C; reflexivity].
  apply in_flat_map in Ha. destruct Ha as ([e w] & He & Ha). rewrite Forall_forall in Hh. specialize (Hh _ He). destruct Ha as [-> |Ha].
  - destruct Hh as [(t & E & _)|(cs' & E & Hn)]; [discriminate E|]. injection E as <-. rewrite text_of_node. exact Hn.
  - destruct w; [|destruct Ha]. destruct Ha as [E|[]]. discriminate E.
Qed.

Lemma struct_arg_spec read s k :
  match struct_arg read s k with Some x => carries read s k x | None => forall y, ~ carries read s k y end.
Proof.
  unfold struct_arg, struct_attrs, carries. rewrite <- attributes_nodes. induction (attributes s) as [|a l IH]; [intros y (b & i & [] & _)|].
  cbn [filter_map]. destruct (read a) as [i|] eqn:Er.
  - cbn [filter_map]. destruct (find (fun x => arg_kind_eqb (ia_kind x) k) (at_args i)) as [x|] eqn:Ef; cbn [hd_error].
    + apply find_some in Ef. destruct Ef as [Hx Ek]. apply arg_kind_eqb_eq in Ek. exists a, i. split; [left; reflexivity|]. auto.
    + pose proof (find_none _ _ Ef) as Hn. destruct (hd_error _) as [x|] in IH |- *.
      * destruct IH as (b & j & Hb & H). exists b, j. split; [right; exact Hb | exact H].
      * intros y (b & j & [<-|Hb] & Hj & Hy & Ek); [|apply (IH y); exists b, j; auto]. rewrite Er in Hj. injection Hj as <-.
        specialize (Hn y Hy). cbv beta in Hn. rewrite Ek in Hn. rewrite (proj2 (arg_kind_eqb_eq k k) eq_refl) in Hn. discriminate Hn.
  - destruct (hd_error _) as [x|] in IH |- *.
    + destruct IH as (b & j & Hb & H). exists b, j. split; [right; exact Hb | exact H].
    + intros y (b & j & [<-|Hb] & Hj & H); [congruence|]. apply (IH y). exists b, j. auto.
Qed.
Lemma event_attr_line read s : event_line read s (event_attr read s).
Proof.
  unfold event_attr. pose proof (struct_arg_spec read s AAnonymous) as HA. pose proof (struct_arg_spec read s ASignatureTopic) as HS.
  destruct (struct_arg read s AAnonymous) as [x|].
  - replace (lit "#[ink::event" ++ (lit "(" ++ meta_str x ++ lit ")") ++ lit "]") with (lit "#[ink::event(" ++ meta_str x ++ lit ")]").
    + apply el_anonymous, HA.
    + cbn. rewrite <- !app_assoc. reflexivity.
  - destruct (struct_arg read s ASignatureTopic) as [x|].
    + replace (lit "#[ink::event" ++ (lit "(" ++ meta_str x ++ lit ")") ++ lit "]") with (lit "#[ink::event(" ++ meta_str x ++ lit ")]").
      * apply el_signature; assumption.
      * cbn. rewrite <- !app_assoc. reflexivity.
    + apply el_plain; assumption.
Qed.
Lemma event_attr_full read s : event_attr read s <> [].
Proof. unfold event_attr. discriminate. Qed.

Lemma indenting_spec U prev i : indented_by U prev i ->
  match item_indenting U prev with Some j => j = i | None => i = [] end.
Proof.
  intros H. destruct H as [ws i c Hw He Hc|prev H].
  - unfold item_indenting. cbn [kind_of text_of]. rewrite (end_indenting_rev U ws i Hw He). apply (rev_repeat_eq c i Hc).
  - unfold item_indenting. destruct prev as [e|]; [|reflexivity]. specialize (H e eq_refl). destruct (kind_of e); try reflexivity. contradiction.
Qed.

Lemma content_spec U s prev i heads decl ls : unicode_ok U -> indented_by U prev i -> snd s = struct_of heads decl -> Forall head_ok heads -> decl_ok U decl ->
  tidy (texts_of decl) ls -> unindented i (texts_of decl) (struct_content U s prev) /\ struct_content U s prev <> [].
Proof.
  intros HU Hi Es Hh Hd Ht. unfold struct_content. rewrite Es. unfold struct_of. cbn [children]. rewrite (remove_heads U heads decl Hh Hd).
  assert (B : exists body, match item_indenting U prev with Some j => reduce_indenting (texts_of decl) j | None => texts_of decl end = body
                /\ body = reduce_indenting (texts_of decl) i).
  { pose proof (indenting_spec U prev i Hi) as E. destruct (item_indenting U prev); subst; eexists; split; reflexivity. }
  destruct B as (body & -> & ->). destruct (reduce_indenting_spec _ _ i Ht) as (ls' & -> & Hn & F). split.
  - exists ls, ls'. split; [apply Ht|]. auto.
  - destruct Hd as (_ & _ & (c & rest & Ec & Hc)). destruct Ht as ((El & Hne & Hl) & _). destruct F as [|l l' ls ls' D F]; [contradiction|].
    assert (Hnl : c <> c_nl). { intros ->. rewrite (uo_whitespace U HU) in Hc by reflexivity. discriminate Hc. }
    destruct l as [|x l]. { rewrite Ec in El. destruct ls; [discriminate El|]. cbn [unlines app] in El. injection El as E _. contradiction. }
    assert (x = c). { rewrite Ec in El. destruct ls; cbn [unlines app] in El; injection El as E _; congruence. } subst x.
    assert (l' = c :: l).
    { destruct D as [D|[-> _]]; [|reflexivity]. destruct i as [|d i]; [symmetry; exact D|]. injection D as -> _. exfalso.
      inversion Hi as [ws i' cc Hw He Hcc|]; subst. destruct He as (_ & [-> |(pre & ->)]).
      - rewrite (Hw d) in Hc; [discriminate Hc | left; reflexivity].
      - rewrite (Hw d) in Hc; [discriminate Hc | apply in_or_app; right; right; left; reflexivity]. }
    subst l'. destruct ls'; discriminate.
Qed.

Lemma event_content_spec U read s prev i heads decl ls : unicode_ok U -> indented_by U prev i -> snd s = struct_of heads decl -> Forall head_ok heads -> decl_ok U decl ->
  tidy (texts_of decl) ls -> exists body, unindented i (texts_of decl) body /\ new_file read s heads body (event_content U read s prev).
Proof.
  intros HU Hi Es Hh Hd Ht. destruct (content_spec U s prev i heads decl ls HU Hi Es Hh Hd Ht) as (Hb & Hf). exists (struct_content U s prev). split; [exact Hb|].
  exists (event_attr read s). split; [apply event_attr_line|]. unfold event_content, event_comments, kept_attrs. rewrite <- attributes_nodes. rewrite Es. unfold struct_of at 1. cbn [children].
  rewrite (comments_eq U heads decl Hh Hd). fold (other_attrs read s). apply join_parts.
  - intros x. apply comments_full, Hh.
  - intros x. destruct s as [o s]. cbn [snd] in Es. subst s. apply (attributes_full U read o heads decl); assumption.
  - apply event_attr_full.
  - exact Hf.
Qed.

(** ** Places *)

Lemma around_in_file root e up : around root e up -> in_file root e.
Proof. apply inside_element. Qed.
Lemma element_trans a b d : element_of a b -> element_of b d -> element_of a d.
Proof. intros A. induction A as [|o k cs c e Hc _ IH]; [trivial|]. intros B. exact (eo_child _ _ _ _ _ Hc (IH B)). Qed.

Lemma list_snoc_case {A} (l : list A) : l = [] \/ exists l' x, l = l' ++ [x].
Proof. induction l as [|x l _] using rev_ind; [left; reflexivity | right; exists l, x; reflexivity]. Qed.

Lemma inside_split acc e s up : inside_of acc e s up -> exists l, up = l ++ acc
  /\ forall l1 x l2, l = l1 ++ x :: l2 -> inside_of acc e x (l2 ++ acc) /\ exists k cs c, snd x = Node k cs /\ In c (place (fst x) cs) /\ inside_of (x :: l2 ++ acc) c s up.
Proof.
  induction 1 as [acc e|acc o k cs c e up Hc Hi IH].
  - exists []. split; [reflexivity|]. intros l1 x l2 E. destruct l1; discriminate E.
  - destruct IH as (l & -> & IH). exists (l ++ [(o, Node k cs)]). split; [rewrite <- app_assoc; reflexivity|]. intros l1 x l2 E.
    destruct (list_snoc_case l2) as [-> |(l3 & y & ->)].
    + apply app_inj_tail in E. destruct E as [-> <-]. cbn [app]. split; [constructor|]. exists k, cs, c. cbn [fst snd]. auto.
    + change (l1 ++ x :: l3 ++ [y]) with (l1 ++ (x :: l3) ++ [y]) in E. rewrite app_assoc in E. apply app_inj_tail in E. destruct E as [E <-].
      destruct (IH l1 x l3 E) as (A & B). rewrite <- !app_assoc. cbn [app]. split; [|exact B]. exact (io_child _ _ _ _ _ _ _ Hc A).
Qed.

Lemma prev_spec U root e up prev : parsed U root -> full root -> around root e up -> item_node (snd e) = true -> right_before e up prev -> prev_element e up = prev.
Proof.
  intros [Hl _] Hf Ha Hi Hb. destruct up as [|p up]; [symmetry; exact Hb|]. destruct Hb as (k & cs & l1 & l2 & Ep & Epl & Hp). unfold prev_element, children_of. rewrite Ep.
  assert (Fp : in_file root p).
  { destruct (inside_split _ _ _ _ Ha) as (l & E & H). rewrite app_nil_r in E. subst l. destruct (H [] p up eq_refl) as (A & _). exact (inside_element _ _ _ _ A). }
  assert (Fe : forall x, In x (place (fst p) cs) -> in_file root x).
  { intros x Hx. apply (element_trans _ p); [exact Fp|]. destruct p as [po pe]. cbn [fst snd] in *. subst pe. exact (eo_child _ _ _ _ _ Hx (eo_self x)). }
  assert (N : forall x, In x l1 -> (lstart x =? lstart e) && skind_eqb (lkind x) (lkind e) = false).
  { intros x Hx. destruct ((lstart x =? lstart e) && skind_eqb (lkind x) (lkind e)) eqn:E; [|reflexivity]. exfalso.
    apply andb_true_iff in E. destruct E as [E1 E2]. apply Nat.eqb_eq in E1. apply skind_eqb_eq in E2.
    assert (B : lend x <= lstart e).
    { clear -Epl Hx. revert Epl. generalize (fst p). revert l1 Hx. induction cs as [|c cs IH]; intros l1 Hx o E; [destruct l1; [destruct Hx | discriminate E]|].
      cbn [place] in E. destruct l1 as [|y l1]; [destruct Hx|]. injection E as <- E. destruct Hx as [<-|Hx].
      - assert (H : In e (place (o + len_of c) cs)) by (rewrite E; apply in_elt). apply place_ge in H. exact H.
      - exact (IH l1 Hx _ E). }
    assert (Fx : in_file root x) by (apply Fe; rewrite Epl; apply in_or_app; left; exact Hx).
    assert (L : 0 < len_of (snd x)).
    { destruct (is_tok (snd x)) eqn:Et.
      - destruct x as [xo [xk xt|]]; [|discriminate Et]. destruct (Hl xk xt (element_leaf _ _ Fx xk xt eq_refl)) as [Hn _].
        unfold len_of. cbn [snd text_of]. apply bytes_pos, Hn.
      - apply Hf; [exact Fx|]. unfold item_node in *. rewrite Et. cbn [negb andb]. apply andb_true_iff in Hi. destruct Hi as [_ Hi]. unfold lkind in E2. rewrite E2. exact Hi. }
    unfold lend, lstart in *; lia. }
  rewrite Epl. clear -N Hp. assert (G : forall last, sibling_before last e (l1 ++ e :: l2) = match last_opt l1 with Some x => Some (snd x) | None => last end).
  { clear Hp. induction l1 as [|x l1 IH]; intros last; cbn [app sibling_before].
    - rewrite Nat.eqb_refl, skind_eqb_refl. reflexivity.
    - rewrite (N x (or_introl eq_refl)). rewrite IH by (intros y Hy; apply N; right; exact Hy). destruct l1 as [|y l1]; [reflexivity|].
      change (last_opt (x :: y :: l1)) with (last_opt (y :: l1)). destruct (last_opt (y :: l1)) eqn:El; [reflexivity|]. apply last_opt_none in El. discriminate El. }
  rewrite G. destruct prev as [x|]; [|subst l1; reflexivity]. destruct Hp as (l & o & ->). rewrite last_opt_app. reflexivity.
Qed.
Lemma leaves_inside acc e s up : inside_of acc e s up ->
  exists pre post, leaves (snd e) = pre ++ leaves (snd s) ++ post /\ fst e + bytes (flat_map snd pre) = fst s.
Proof.
  induction 1 as [acc e|acc o k cs c e up Hc Hi IH].
  - exists [], []. rewrite app_nil_r. split; [reflexivity | cbn; lia].
  - destruct IH as (pre & post & E & B). cbn [fst snd]. rewrite leaves_node.
    assert (P : exists l1 l2, cs = l1 ++ snd c :: l2 /\ fst c = o + bytes (texts_of l1)).
    { clear -Hc. revert o Hc. induction cs as [|x cs IH]; intros o; [intros []|]. cbn [place]. intros [<-|H].
      - exists [], cs. split; [reflexivity | cbn; lia].
      - destruct (IH _ H) as (l1 & l2 & -> & E). exists (x :: l1), l2. split; [reflexivity|]. rewrite E. unfold texts_of, len_of. cbn [flat_map]. rewrite bytes_app. rewrite Nat.add_assoc. reflexivity. }
    destruct P as (l1 & l2 & -> & Eo). exists (leaves_of l1 ++ pre), (post ++ leaves_of l2). split.
    + unfold leaves_of. rewrite flat_map_app. cbn [flat_map]. rewrite E, <- !app_assoc. reflexivity.
    + assert (Q : bytes (flat_map snd (leaves_of l1)) = bytes (texts_of l1)).
      { change (flat_map snd (leaves_of l1)) with (ArgEditSpec.text (leaves_of l1)). rewrite text_leaves_of. reflexivity. }
      rewrite flat_map_app, bytes_app. match goal with |- o + (?x + _) = _ => replace x with (bytes (texts_of l1)) by (symmetry; exact Q) end.
      rewrite Nat.add_assoc, <- Eo. exact B.
Qed.

Lemma use_item_spec x : item_node (snd x) && skind_eqb (lkind x) USE = true <-> use_item x.
Proof.
  unfold use_item, item_node, lkind. destruct (snd x) as [k t|k cs]; cbn [is_tok negb andb kind_of].
  - split; [discriminate | intros (cs & E); discriminate E].
  - split.
    + intros H. apply andb_true_iff in H. destruct H as [_ H]. apply skind_eqb_eq in H. subst k. exists cs. reflexivity.
    + intros (cs' & E). injection E as -> ->. reflexivity.
Qed.
Lemma items_use il k cs : snd il = Node k cs -> items_of USE il = filter (fun x => item_node (snd x) && skind_eqb (lkind x) USE) (place (fst il) cs).
Proof.
  intros E. unfold items_of, list_items, children_which. rewrite E. generalize (place (fst il) cs). intros l. induction l as [|x l IH]; [reflexivity|].
  cbn [filter]. destruct (item_node (snd x)) eqn:Ei; cbn [filter andb]; rewrite IH; reflexivity.
Qed.
Lemma filter_last {A} (f : A -> bool) l x : last_opt (filter f l) = Some x -> exists l1 l2, l = l1 ++ x :: l2 /\ f x = true /\ forall y, In y l2 -> f y = false.
Proof.
  induction l as [|a l IH] using rev_ind; [discriminate|]. rewrite filter_app. cbn [filter]. destruct (f a) eqn:Ea.
  - rewrite last_opt_app. intros E. injection E as <-. exists l, []. split; [reflexivity|]. split; [exact Ea | intros y []].
  - rewrite app_nil_r. intros H. destruct (IH H) as (l1 & l2 & -> & Hx & Hn). exists l1, (l2 ++ [a]). split; [rewrite <- app_assoc; reflexivity|]. split; [exact Hx|].
    intros y Hy. apply in_app_iff in Hy. destruct Hy as [Hy|[<-|[]]]; [apply Hn, Hy | exact Ea].
Qed.
Lemma import_ok il c cs : snd il = Node ITEM_LIST (Tok L_CURLY c :: cs) -> import_place il (item_offset_start il).
Proof.
  intros E. unfold item_offset_start. rewrite (items_use il _ _ E). destruct (last_opt _) as [u|] eqn:El.
  - apply filter_last in El. destruct El as (l1 & l2 & Ep & Hu & Hn). apply (ip_use il _ _ l1 u l2 E Ep); [apply use_item_spec, Hu|].
    intros x Hx C. apply use_item_spec in C. rewrite (Hn x Hx) in C. discriminate C.
  - unfold child_token. rewrite E. cbn [place find_map snd fst skind_eqb skind_beq]. unfold lf_end. cbn [fst snd].
    refine (ip_brace il _ c cs E _). intros x Hx C. apply use_item_spec in C. apply last_opt_none in El.
    assert (F : In x (filter (fun x => item_node (snd x) && skind_eqb (lkind x) USE) (place (fst il) (Tok L_CURLY c :: cs)))) by (apply filter_In; auto).
    rewrite El in F. destruct F.
Qed.

Lemma import_split U root s up m il outer o : parsed U root -> full root -> around root s up -> in_module up m il outer -> (exists scs, snd s = Node STRUCT scs) -> import_place il o ->
  exists pre post, leaves root = pre ++ post /\ bytes (flat_map snd pre) = o /\ (o <= lstart s \/ lend s < o).
Proof.
  intros Hp Hf Ha (inner & -> & Hin & _ & _) (scs & Es) Hi.
  destruct (inside_split _ _ _ _ Ha) as (l & E & H). rewrite app_nil_r in E. subst l. destruct (H inner il (m :: outer) eq_refl) as (A & kk & cs & x & Ec & Hx & B).
  rewrite app_nil_r in *. assert (Hsx : element_of x s) by exact (inside_element _ _ _ _ B). pose proof (element_bounds _ _ Hsx) as Hb.
  assert (Ax : forall y, In y (place (fst il) cs) -> inside_of [] (0, root) y (il :: m :: outer)).
  { intros y Hy. clear -A Ec Hy. remember (m :: outer) as u eqn:Eu. clear Eu. revert A. generalize (@nil lelem) (0, root). intros acc e A.
    induction A as [acc e|acc o k cs0 c e up Hc _ IH].
    - destruct e as [eo ee]. cbn [fst snd] in *. subst ee. exact (io_child _ _ _ _ _ _ _ Hy (io_here _ _)).
    - exact (io_child _ _ _ _ _ _ _ Hc (IH Ec Hy)). }
  destruct Hi as [k cs' l1 u l2 E1 Ep Hu Hn|k c cs' E1 Hn].
  - rewrite Ec in E1. injection E1 as <- <-. assert (Hul : In u (place (fst il) cs)) by (rewrite Ep; apply in_elt).
    destruct (leaves_inside _ _ _ _ (Ax u Hul)) as (pre & post & El & Eb). cbn [fst snd] in El, Eb. exists (pre ++ leaves (snd u)), post.
    split; [rewrite <- app_assoc; exact El|]. split.
    { rewrite flat_map_app, bytes_app. rewrite <- EditProofs.text_leaves. unfold lend, len_of. rewrite <- Eb. reflexivity. }
    assert (Lu : 0 < len_of (snd u)).
    { apply Hf; [exact (inside_element _ _ _ _ (Ax u Hul))|]. destruct Hu as (ucs & ->). reflexivity. }
    (* x is u, before it or behind it *)
    assert (D : x = u \/ lend u <= lstart x \/ lend x <= lstart u).
    { clear -Ep Hx. revert l1 Ep Hx. generalize (fst il). induction cs as [|y cs IH]; intros o l1 Ep Hx; [destruct Hx|]. cbn [place] in *. destruct l1 as [|z l1].
      - injection Ep as <- Ep. destruct Hx as [<-|Hx]; [left; reflexivity|]. right. left. apply place_ge in Hx. exact Hx.
      - injection Ep as <- Ep. destruct Hx as [<-|Hx].
        + right. right. assert (Hu : In u (place (o + len_of y) cs)) by (rewrite Ep; apply in_elt). apply place_ge in Hu. exact Hu.
        + exact (IH _ l1 Ep Hx). }
    destruct D as [-> |[D|D]]; [exfalso|left; lia|right; unfold lend, lstart in *; lia].
    destruct Hu as (ucs & Eu). inversion B as [acc e E2 E3 E4|acc oo k2 cs2 c2 e2 up2 Hc2 Hi2 E2 E3 E4].
    + subst. rewrite Es in Eu. discriminate Eu.
    + subst. cbn [snd] in Eu. injection Eu as -> ->. destruct (inside_split _ _ _ _ Hi2) as (l & E5 & _).
      assert (I : In (oo, Node USE ucs) inner).
      { change (il :: m :: outer) with ([il; m] ++ outer) in *. assert (E6 : inner = l ++ [(oo, Node USE ucs)]).
        { apply (app_inv_tail (il :: m :: outer)). rewrite <- app_assoc. exact E5. }
        rewrite E6. apply in_elt. }
      destruct (Hin (oo, Node USE ucs)) as [_ C]; [apply in_or_app; left; exact I|]. apply C. reflexivity.
  - rewrite Ec in E1. injection E1 as -> ->. destruct (leaves_inside _ _ _ _ (Ax (fst il, Tok L_CURLY c) (or_introl eq_refl))) as (pre & post & El & Eb). cbn [fst snd leaves] in El, Eb.
    exists (pre ++ [(L_CURLY, c)]), post. split; [rewrite <- app_assoc; exact El|]. split; [rewrite flat_map_app, bytes_app; cbn [flat_map snd app]; rewrite app_nil_r, <- Eb; reflexivity|].
    left. destruct Hx as [<-|Hx].
    + exfalso. inversion B; subst. discriminate Es.
    + apply place_ge in Hx. unfold len_of in Hx. cbn [text_of] in Hx. unfold lstart in *. lia.
Qed.

Lemma leaves_le (p1 q1 p2 q2 : list (skind * str)) : p1 ++ q1 = p2 ++ q2 -> bytes (flat_map snd p1) <= bytes (flat_map snd p2) ->
  exists a, flat_map snd p2 = flat_map snd p1 ++ a.
Proof.
  unfold str. intros E H. destruct (app_eq_split _ _ _ _ E) as [(x & -> & _)|(x & -> & _)].
  - rewrite flat_map_app, bytes_app in H. assert (Z : flat_map snd x = []) by (apply bytes_zero; lia). exists []. rewrite flat_map_app, Z, !app_nil_r. reflexivity.
  - exists (flat_map snd x). apply flat_map_app.
Qed.
Lemma leaves_lt (p1 q1 p2 q2 : list (skind * str)) : p1 ++ q1 = p2 ++ q2 -> bytes (flat_map snd p1) < bytes (flat_map snd p2) ->
  exists y x, p2 = p1 ++ y :: x /\ q1 = (y :: x) ++ q2.
Proof.
  unfold str. intros E H. destruct (app_eq_split _ _ _ _ E) as [(x & -> & _)|(x & -> & Eq)].
  - rewrite flat_map_app, bytes_app in H. lia.
  - destruct x as [|y x]; [rewrite app_nil_r in H; lia|]. exists y, x. auto.
Qed.

Lemma delete_spec U root s up : parsed U root -> around root s up ->
  exists ed w, format_in U more_items root (edit_delete (lrange_of s)) = Done ed /\ te_text ed = [] /\ all_white U w
    /\ te_range ed = (lstart s, lend s + bytes w)
    /\ exists pre post, leaves root = pre ++ leaves (snd s) ++ post /\ bytes (flat_map snd pre) = lstart s
         /\ (w = [] \/ exists post', post = (WHITESPACE, w) :: post').
Proof.
  intros [Hl _] Ha. destruct (leaves_inside _ _ _ _ Ha) as (pre & post & El & Eb). cbn [fst snd] in El, Eb. cbn [Nat.add] in Eb.
  assert (Et : bytes (flat_map snd (pre ++ leaves (snd s))) = lend s).
  { rewrite flat_map_app, bytes_app, <- EditProofs.text_leaves. unfold lend, len_of. unfold lstart in *. rewrite <- Eb. reflexivity. }
  destruct (C33_total_partial U more_items root (edit_delete (lrange_of s))) as (ed & Ed).
  - exists (flat_map snd pre), (text_of (snd s)), (flat_map snd post). split.
    + rewrite (EditProofs.text_leaves root), (EditProofs.text_leaves (snd s)), El, !flat_map_app. reflexivity.
    + cbn [te_range edit_delete lrange_of fst snd]. split; [exact Eb|]. rewrite bytes_app. unfold lend, len_of. f_equal. exact Eb.
  - left. reflexivity.
  - pose proof (C33_deletion_partial U more_items root (edit_delete (lrange_of s)) ed (pre ++ leaves (snd s)) post Hl eq_refl Ed) as D. rewrite <- app_assoc in D.
    destruct (D El Et) as (T & _ & R). destruct R as [R|(ws & rest & Ep & R)].
    + exists ed, []. split; [exact Ed|]. split; [exact T|]. split; [intros c []|]. split; [rewrite R; cbn [bytes]; rewrite Nat.add_0_r; reflexivity|].
      exists pre, post. split; [exact El|]. split; [exact Eb | left; reflexivity].
    + exists ed, ws. split; [exact Ed|]. split; [exact T|]. split.
      { apply (Hl WHITESPACE ws); [|reflexivity]. rewrite El, Ep. apply in_or_app. right. apply in_or_app. right. left. reflexivity. }
      split; [exact R|]. exists pre, post. split; [exact El|]. split; [exact Eb|]. right. exists rest. exact Ep.
Qed.

Lemma file_spec U root s up m il outer o ed w import : parsed U root -> full root -> around root s up -> in_module up m il outer -> (exists scs, snd s = Node STRUCT scs) -> import_place il o ->
  te_text ed = [] -> te_range ed = (lstart s, lend s + bytes w) -> all_white U w ->
  (exists pre post, leaves root = pre ++ leaves (snd s) ++ post /\ bytes (flat_map snd pre) = lstart s /\ (w = [] \/ exists post', post = (WHITESPACE, w) :: post')) ->
  exists result, rewritten (text_of root) ([ed] ++ [edit_insert import o]) result /\ taken_out U (text_of root) s import o result.
Proof.
  intros Hp Hf Ha Hm Hs Hi Ht Hr Hw (pre & post & El & Eb & Hq).
  destruct (import_split U root s up m il outer o Hp Hf Ha Hm Hs Hi) as (pre2 & post2 & El2 & Eb2 & D).
  assert (Er : text_of root = flat_map snd pre ++ text_of (snd s) ++ flat_map snd post) by (rewrite (EditProofs.text_leaves root), (EditProofs.text_leaves (snd s)), El, !flat_map_app; reflexivity).
  assert (Q : exists c, flat_map snd post = w ++ c). { destruct Hq as [-> |(post' & ->)]; [eexists; reflexivity|]. cbn [flat_map snd]. eexists. reflexivity. }
  destruct Q as (c & Ec). destruct D as [D|D].
  - assert (S : exists a2, flat_map snd pre = flat_map snd pre2 ++ a2).
    { apply (leaves_le pre2 post2 pre (leaves (snd s) ++ post)); [rewrite <- El2; exact El|]. rewrite <- Eb2, <- Eb in D. exact D. }
    destruct S as (a2 & Ea). exists (flat_map snd pre2 ++ import ++ a2 ++ c). split.
    + exists [Same (flat_map snd pre2); Other [] import; Same a2; Other (text_of (snd s) ++ w) []; Same c]. cbn [old_text new_text flat_map app].
      rewrite !app_nil_r. split; [rewrite Er, Ec, Ea, <- !app_assoc; reflexivity|]. split; [reflexivity|].
      cbn [map changes te_range te_text edit_insert edit_insert_snippet app bytes Nat.add]. rewrite Hr, Ht.
      replace (bytes (flat_map snd pre2)) with o. rewrite !Nat.add_0_r.
      replace (o + bytes a2) with (lstart s) by (rewrite <- Eb, Ea, bytes_app, Eb2; reflexivity).
      rewrite bytes_app. unfold lend. fold (len_of (snd s)). rewrite Nat.add_assoc. apply perm_swap.
    + exists (flat_map snd pre), w, c. split; [rewrite Er, Ec; reflexivity|]. split; [exact Eb|]. split; [exact Hw|]. left. exists (flat_map snd pre2), a2. auto.
  - assert (S : exists c1 c2, c = c1 ++ c2 /\ flat_map snd pre2 = flat_map snd pre ++ text_of (snd s) ++ w ++ c1).
    { assert (Bl : bytes (flat_map snd (pre ++ leaves (snd s))) = lend s).
      { rewrite flat_map_app, bytes_app, <- EditProofs.text_leaves. unfold lend, len_of. unfold lstart in *. rewrite <- Eb. reflexivity. }
      destruct (leaves_lt (pre ++ leaves (snd s)) post pre2 post2) as (y & x & -> & Ex).
      - rewrite <- El2, <- app_assoc. symmetry. exact El.
      - rewrite <- Eb2, <- Bl in D. exact D.
      - rewrite !flat_map_app, (EditProofs.text_leaves (snd s)), <- app_assoc. rewrite Ex, flat_map_app in Ec.
        destruct Hq as [-> |(post' & Eq)].
        + exists (flat_map snd (y :: x)), (flat_map snd post2). split; [symmetry; exact Ec | reflexivity].
        + rewrite Eq in Ex. injection Ex as <- Ex. cbn [flat_map snd] in Ec |- *. rewrite <- app_assoc in Ec. apply app_inv_head in Ec.
          exists (flat_map snd x), (flat_map snd post2). split; [symmetry; exact Ec | reflexivity]. }
    destruct S as (c1 & c2 & -> & E2). exists (flat_map snd pre ++ c1 ++ import ++ c2). split.
    + exists [Same (flat_map snd pre); Other (text_of (snd s) ++ w) []; Same c1; Other [] import; Same c2]. cbn [old_text new_text flat_map app].
      rewrite !app_nil_r. split; [rewrite Er, Ec, <- !app_assoc; reflexivity|]. split; [reflexivity|].
      cbn [map changes te_range te_text edit_insert edit_insert_snippet app bytes Nat.add]. rewrite Hr, Ht.
      assert (Ow : o = lend s + bytes w + bytes c1). { rewrite <- Eb2, E2, !bytes_app. unfold lend, len_of, lstart in *. rewrite <- Eb, !Nat.add_assoc. reflexivity. }
      rewrite Ow. replace (bytes (flat_map snd pre)) with (lstart s) by (symmetry; exact Eb). rewrite bytes_app. fold (len_of (snd s)). unfold lend. rewrite !Nat.add_0_r, !Nat.add_assoc. apply Permutation_refl.
    + exists (flat_map snd pre), w, (c1 ++ c2). split; [rewrite Er, Ec; reflexivity|]. split; [exact Eb|]. split; [exact Hw|]. right. exists c1, c2.
      split; [reflexivity|]. split; [rewrite <- E2; exact Eb2 | reflexivity].
Qed.

Lemma closest_module up m il outer : in_module up m il outer -> closest (node_at MODULE) up = Some (m, outer).
Proof.
  intros (inner & -> & Hin & (k & Em) & _). change (il :: m :: outer) with ([il] ++ m :: outer). rewrite app_assoc.
  induction (inner ++ [il]) as [|x l IH]; cbn [app closest].
  - unfold node_at, is_node, lkind. rewrite Em. reflexivity.
  - replace (node_at MODULE x) with false; [apply IH; intros e He; apply Hin; right; exact He|]. symmetry. unfold node_at.
    destruct (Hin x (or_introl eq_refl)) as [H _]. destruct (skind_eqb (lkind x) MODULE) eqn:E; [apply skind_eqb_eq in E; contradiction | apply andb_false_r].
Qed.
Lemma list_child m il c cs : list_of m il -> snd il = Node ITEM_LIST (Tok L_CURLY c :: cs) -> child_node ITEM_LIST m = Some il.
Proof.
  intros (mcs & l1 & l2 & Em & Ep & Hn) Ei. unfold child_node, child_nodes. rewrite Em, Ep, filter_app, filter_none.
  - cbn [app filter]. unfold lkind. rewrite Ei. reflexivity.
  - intros x Hx. specialize (Hn x Hx). destruct (skind_eqb (lkind x) ITEM_LIST) eqn:E; [apply skind_eqb_eq in E; contradiction | apply andb_false_r].
Qed.
Lemma name_child s name : named (snd s) name -> exists n, child_node NAME s = Some n /\ text_of (snd n) = name.
Proof.
  intros (k & l1 & n & l2 & Es & (cs & En) & Et & Hn). unfold child_node, child_nodes. rewrite Es, place_app, filter_app, filter_none.
  - cbn [app place filter]. unfold lkind. cbn [snd]. rewrite En. cbn [is_tok negb kind_of andb]. replace (skind_eqb NAME NAME) with true by reflexivity.
    rewrite <- En. eexists. split; [reflexivity | exact Et].
  - intros x Hx. apply place_In in Hx. specialize (Hn _ Hx). destruct (skind_eqb (lkind x) NAME) eqn:E; [apply skind_eqb_eq in E; contradiction | apply andb_false_r].
Qed.
Lemma event_ok read s : event_struct read s -> is_event read s = true.
Proof.
  intros (a & i & Ha & Hr & Hk). unfold is_event, struct_attrs. rewrite <- attributes_nodes.
  assert (I : In i (filter_map read (attributes s))). { apply filter_map_In. exists a. auto. }
  apply orb_true_iff. destruct Hk as [Hk|Hk]; [left | right]; apply existsb_exists; exists i; rewrite Hk; auto.
Qed.

Lemma closest_some p anc x up : closest p anc = Some (x, up) -> p x = true /\ exists l, anc = l ++ x :: up.
Proof.
  revert x up. induction anc as [|a anc IH]; cbn [closest]; [discriminate|]. intros x up H. destruct (p a) eqn:E.
  - injection H as <- <-. split; [exact E|]. exists []. reflexivity.
  - destruct (IH _ _ H) as (Hp & l & ->). split; [exact Hp|]. exists (a :: l). reflexivity.
Qed.

Lemma focused_sound root r p : focused_element root r = Done (Some p) -> fst r <= snd r ->
  inside r (range_of (fst p)) /\ forall x, In x (fst p :: snd p) -> in_file root x /\ element_of x (fst p).
Proof.
  unfold focused_element. intros H Hle. destruct (Nat.eqb_spec (fst r) (snd r)) as [E|E].
  - unfold focused_token, tokens_at in H. destruct (fst r <=? len_of root) eqn:El; [|discriminate].
    set (f := fun p : path => is_tok (snd (fst p)) && touches (fst r) (fst p)).
    match type of H with context [filter ?g ?l] => change (filter g l) with (@filter path f l) in H end.
    assert (K : forall p, In p (filter f (paths [] 0 root)) -> inside r (range_of (fst p)) /\ forall x, In x (fst p :: snd p) -> in_file root x /\ element_of x (fst p)).
    { intros q Hp. apply filter_In in Hp. destruct Hp as [Hp Hfp]. unfold f in Hfp. apply andb_true_iff in Hfp.
      apply paths_anc in Hp. destruct Hp as (Hq & mid & Es & Hm). rewrite app_nil_r in Es. destruct Hfp as [_ Ht]. unfold touches in Ht. rewrite !andb_true_iff, !Nat.leb_le in Ht.
      split; [unfold inside, range_of; cbn [fst snd]; lia|]. intros x [<-|Hx]; [split; [exact Hq | constructor]|]. rewrite Es in Hx. exact (Hm x Hx). }
    destruct (filter f (paths [] 0 root)) as [|x [|y l]].
    + discriminate.
    + injection H as <-. apply K. left. reflexivity.
    + destruct (is_trivia (lkind (fst x)) && negb (is_trivia (lkind (fst y)))); injection H as <-; apply K; [right; left | left]; reflexivity.
  - destruct (contains_range (0, len_of root) r) eqn:Ec; [|discriminate]. injection H as <-. apply contains_range_inside in Ec.
    destruct (covering_chain root [] 0 r ltac:(lia)) as (mid & Em & Hm & He & Hd & Hi). cbv zeta in *. split; [apply Hi, Ec|].
    intros x Hx. rewrite Em in Hx. split; [|apply Hd, Hx]. apply in_app_iff in Hx. destruct Hx as [Hx|[<-|[]]]; [apply Hm, Hx | constructor].
Qed.

Lemma struct_sound root r s up : struct_at root r = Done (Some (s, up)) -> fst r <= snd r ->
  in_file root s /\ (exists cs, snd s = Node STRUCT cs) /\ inside r (range_of s).
Proof.
  unfold struct_at. intros H Hle. destruct (focused_element root r) as [f|] eqn:Ef; [|discriminate]. cbn [obind_o] in H. injection H as H. destruct f as [p|]; [|discriminate].
  destruct (focused_sound _ _ _ Ef Hle) as (Hi & Hx).
  assert (N : forall x, node_at STRUCT x = true -> exists cs, snd x = Node STRUCT cs).
  { intros [o e] G. unfold node_at, is_node, lkind in G. cbn [snd] in *. destruct e as [|k cs]; [discriminate|]. apply andb_true_iff in G. destruct G as [_ G]. apply skind_eqb_eq in G. cbn in G. subst k. eexists. reflexivity. }
  destruct (node_at STRUCT (fst p)) eqn:En.
  - injection H as E. subst p. cbn [fst snd] in *. split; [apply (Hx s); left; reflexivity|]. split; [apply N, En|]. exact Hi.
  - unfold parent_item in H. destruct (closest item_at (snd p)) as [[it u]|] eqn:Ec; [|discriminate].
    assert (E : (if node_at STRUCT it then Some (it, u) else None) = Some (s, up)).
    { destruct (skind_eqb (lkind (fst p)) ATTR); [destruct (existsb _ _); [exact H | discriminate] | exact H]. }
    destruct (node_at STRUCT it) eqn:Es; [|discriminate]. injection E as <- <-. destruct (closest_some _ _ _ _ Ec) as (_ & l & El).
    assert (I : In it (fst p :: snd p)) by (right; rewrite El; apply in_elt).
    split; [apply (Hx it I)|]. split; [apply N, Es|]. apply (inside_trans _ _ (fst p)); [apply Hx, I | exact Hi].
Qed.

Lemma event_sound read s : is_event read s = true -> event_struct read s.
Proof.
  unfold is_event, struct_attrs. rewrite <- attributes_nodes. intros H. apply orb_true_iff in H.
  assert (G : forall k, existsb (fun a => attr_kind_eqb (at_kind a) k) (filter_map read (attributes s)) = true -> exists a i, In a (attributes s) /\ read a = Some i /\ at_kind i = k).
  { intros k E. apply existsb_exists in E. destruct E as (i & Hi & Hk). apply filter_map_In in Hi. destruct Hi as (a & Ha & Hr). exists a, i. split; [exact Ha|]. split; [exact Hr|]. apply attr_kind_eqb_eq, Hk. }
  destruct H as [H|H]; destruct (G _ H) as (a & i & Ha & Hr & Hk); exists a, i; auto.
Qed.

Lemma extract_sound U read root r x : extract U read root r = Done (Some x) -> fst r <= snd r ->
  exists s n, in_file root s /\ (exists cs, snd s = Node STRUCT cs) /\ inside r (range_of s) /\ event_struct read s
    /\ child_node NAME s = Some n /\ ex_name x = text_of (snd n) /\ exists e, ex_edits x = [e] /\ format_in U more_items root (edit_delete (lrange_of s)) = Done e.
Proof.
  unfold extract. intros H Hle. destruct (struct_at root r) as [[[s up]|]|] eqn:Es; cbn [obind_o] in H; try discriminate.
  destruct (struct_sound _ _ _ _ Es Hle) as (H1 & H2 & H3). destruct (is_event read s) eqn:Ee; [|discriminate].
  destruct (child_node NAME s) as [n|] eqn:En; [|discriminate]. destruct (closest (node_at MODULE) up) as [[m mup]|]; [|discriminate].
  destruct (child_node ITEM_LIST m) as [il|]; [|discriminate]. destruct (format_in U more_items root (edit_delete (lrange_of s))) as [e|] eqn:Ed; cbn [obind_o] in H; [|discriminate].
  injection H as <-. exists s, n. split; [exact H1|]. split; [exact H2|]. split; [exact H3|]. split; [apply event_sound, Ee|]. split; [exact En|]. split; [reflexivity|].
  exists e. auto.
Qed.

Lemma around_up root e up : around root e up -> forall l x l2, up = l ++ x :: l2 -> around root x l2.
Proof.
  intros Ha l x l2 E. destruct (inside_split _ _ _ _ Ha) as (l0 & E0 & H). rewrite app_nil_r in E0. subst l0. destruct (H l x l2 E) as (A & _). rewrite app_nil_r in A. exact A.
Qed.

Lemma member_indent_spec U prev j : indented_by U prev j -> item_children_indenting U prev = member_indent j.
Proof.
  intros H. apply indenting_spec in H. unfold item_children_indenting, member_indent. destruct (item_indenting U prev) as [i|]; subst; reflexivity.
Qed.

Lemma extract_full U read root r s heads decl name up m il outer prev i mprev j ls :
  unicode_ok U -> extractable U read root r s heads decl name up m il outer ->
  right_before s up prev -> indented_by U prev i -> tidy (texts_of decl) ls -> right_before m outer mprev -> indented_by U mprev j ->
  exists content body ed o,
    extract U read root r = Done (Some (Extraction name content [ed] o (nl ++ member_indent j)))
    /\ new_file read s heads body content /\ unindented i (texts_of decl) body /\ import_place il o
    /\ forall import, exists result, rewritten (text_of root) ([ed] ++ [edit_insert import o]) result /\ taken_out U (text_of root) s import o result.
Proof.
  intros HU X Hb Hi Ht Hmb Hj. destruct X as [(Hp & Hf) (Es & Hh & Hd & Hn & Hname) He (Ha & Hm & Hl) Hat].
  assert (Fs : struct_at root r = Done (Some (s, up))).
  { destruct s as [o e]. cbn [snd] in Es. unfold struct_of in Es. subst e. apply (struct_found U); assumption. }
  destruct (name_child s name Hname) as (n & En & Ent). destruct (delete_spec U root s up Hp Ha) as (ed & w & Ed & Et & Hw & Er & Hrest).
  pose proof (closest_module up m il outer Hm) as Ec. destruct Hm as (inner & Eu & Hin & (mk & Em) & (c & cs & Eil)).
  assert (Am : around root m outer) by (apply (around_up root s up Ha (inner ++ [il])); rewrite <- app_assoc; exact Eu).
  assert (Ep : prev_element s up = prev) by (apply (prev_spec U root); [assumption | assumption | assumption | rewrite Es; reflexivity | assumption]).
  assert (Emp : prev_element m outer = mprev) by (apply (prev_spec U root); [assumption | assumption | assumption | rewrite Em; reflexivity | assumption]).
  destruct (event_content_spec U read s prev i heads decl ls HU Hi Es Hh Hd Ht) as (body & Hbody & Hnew).
  exists (event_content U read s prev), body, ed, (item_offset_start il).
  assert (Ip : import_place il (item_offset_start il)) by (apply (import_ok il c cs); exact Eil).
  split; [|split; [exact Hnew|split; [exact Hbody|split; [exact Ip|]]]].
  - unfold extract. rewrite Fs. cbn [obind_o]. rewrite (event_ok read s He), En, Ec, (list_child m il c cs Hl Eil), Ed. cbn [obind_o].
    rewrite Ep, Emp, (member_indent_spec U mprev j Hj), Ent. reflexivity.
  - intros import. apply (file_spec U root s up m il outer (item_offset_start il) ed w import Hp Hf Ha); try assumption.
    + exists inner. split; [exact Eu|]. split; [exact Hin|]. split; [exists mk; exact Em | exists c, cs; exact Eil].
    + eexists. exact Es.
Qed.
