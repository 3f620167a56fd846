(** Proofs about the removal of deprecated imports. *)
From Coq Require Import Lia Permutation.
From Verif Require Import Base BaseFacts PositionModel PositionProofs TranslateModel SyntaxModel AttrModel AttrProofs EditModel EditSpec
  ArgEditModel ArgEditSpec ArgEditProofs RuleModel RuleSpec RuleProofs EntityModel EntitySpec ChainModel ChainSpec ChainProofs ImportModel ImportSpec.

(** ** Children *)
Definition sel (k : skind) (o : nat) (cs : list elem) : list lelem :=
  filter (fun c => negb (is_tok (snd c)) && skind_eqb (lkind c) k) (place o cs).
Lemma child_nodes_sel k o K cs : child_nodes k (o, Node K cs) = sel k o cs.
Proof. reflexivity. Qed.
Lemma sel_app k o a b : sel k o (a ++ b) = sel k o a ++ sel k (o + lens a) b.
Proof. unfold sel. rewrite place_app, filter_app. reflexivity. Qed.
Lemma sel_tok k o k' s l : sel k o (Tok k' s :: l) = sel k (o + bytes s) l.
Proof. reflexivity. Qed.
Lemma sel_node k o cs l : sel k o (Node k cs :: l) = (o, Node k cs) :: sel k (o + len_of (Node k cs)) l.
Proof. unfold sel. cbn [place filter snd is_tok negb andb lkind kind_of]. unfold lkind. cbn [snd kind_of]. rewrite skind_eqb_refl. reflexivity. Qed.
Lemma sel_other k o k' cs l : k' <> k -> sel k o (Node k' cs :: l) = sel k (o + len_of (Node k' cs)) l.
Proof.
  intros H. unfold sel. cbn [place filter snd is_tok negb andb]. unfold lkind. cbn [snd kind_of].
  destruct (skind_eqb k' k) eqn:E; [apply skind_eqb_eq in E; contradiction | reflexivity].
Qed.
Lemma sel_no_node k l : no_node k l -> forall o, sel k o l = [].
Proof.
  induction l as [|e l IH]; intros H o; [reflexivity|]. assert (H' : no_node k l) by (intros cs Hi; apply (H cs); right; exact Hi).
  destruct e as [k' s|k' cs]; [rewrite sel_tok; apply IH, H'|]. rewrite sel_other; [apply IH, H'|]. intros ->. apply (H cs). left. reflexivity.
Qed.
Lemma no_node_app k a b : no_node k a -> no_node k b -> no_node k (a ++ b).
Proof. intros Ha Hb cs Hi. apply in_app_iff in Hi. destruct Hi as [Hi|Hi]; [apply (Ha cs Hi) | apply (Hb cs Hi)]. Qed.
Lemma blank_no_node k l : blank l -> no_node k l.
Proof. intros H cs Hi. unfold blank in H. rewrite Forall_forall in H. destruct (H _ Hi) as (k' & t & E & _). discriminate. Qed.
Lemma sep_no_node k sep : (exists a b, sep = a ++ Tok COLON2 (lit "::") :: b /\ blank a /\ blank b) -> no_node k sep.
Proof.
  intros (a & b & -> & Ha & Hb). apply no_node_app; [apply blank_no_node, Ha|]. intros cs [Hi|Hi]; [discriminate | apply (blank_no_node k b Hb cs Hi)].
Qed.
Lemma len_cons e l : lens (e :: l) = len_of e + lens l.
Proof. apply lens_cons. Qed.

(** ** Paths *)
Lemma path_node_kind p : exists cs, path_node p = Node PATH cs.
Proof. destruct p; eexists; reflexivity. Qed.
Lemma words_some p : words p <> [].
Proof. destruct p as [s|q sep s]; cbn [words]; [discriminate|]. destruct (words q); discriminate. Qed.
Lemma sep_colon sep : (exists a b, sep = a ++ Tok COLON2 (lit "::") :: b /\ blank a /\ blank b) -> In 58%N (texts_of sep).
Proof.
  intros (a & b & -> & _). rewrite texts_of_app. apply in_or_app. right. unfold texts_of. cbn [flat_map text_of]. apply in_or_app. left. left. reflexivity.
Qed.
Lemma path_text_qual q sep s : text_of (path_node (Qual q sep s)) = text_of (path_node q) ++ texts_of sep ++ texts_of s.
Proof.
  cbn [path_node]. rewrite text_of_node. unfold texts_of at 1. cbn [flat_map]. f_equal. fold (texts_of (sep ++ [Node PATH_SEGMENT s])).
  rewrite texts_of_app. f_equal. unfold texts_of at 1. cbn [flat_map]. rewrite app_nil_r. apply text_of_node.
Qed.
Lemma path_text_seg s : text_of (path_node (Seg s)) = texts_of s.
Proof. cbn [path_node]. rewrite text_of_node. unfold texts_of at 1. cbn [flat_map]. rewrite app_nil_r. apply text_of_node. Qed.
Lemma single p n : path_ok p -> ~ In 58%N n -> (text_of (path_node p) = n <-> words p = [n]).
Proof.
  intros H Hn. destruct p as [s|q sep s].
  - rewrite path_text_seg. cbn [words]. split; [intros ->; reflexivity | intros E; injection E as E; exact E].
  - rewrite path_text_qual. cbn [words]. split.
    + intros E. exfalso. apply Hn. rewrite <- E. apply in_or_app. right. apply in_or_app. left. apply sep_colon. destruct H as (_ & H & _). exact H.
    + intros E. exfalso. pose proof (words_some q) as W. destruct (words q) as [|w [|w' l]]; [contradiction | discriminate | discriminate].
Qed.
Lemma single_eqb p n : path_ok p -> ~ In 58%N n -> str_eqb (text_of (path_node p)) n = match words p with [w] => str_eqb w n | _ => false end.
Proof.
  intros H Hn. destruct (str_eqb (text_of (path_node p)) n) eqn:E.
  - apply str_eqb_eq in E. apply (single p n H Hn) in E. rewrite E. symmetry. apply str_eqb_refl.
  - apply str_eqb_neq in E. destruct (words p) as [|w [|w' l]] eqn:W; try reflexivity. symmetry. apply str_eqb_neq. intros ->. apply E.
    apply (single p n H Hn). exact W.
Qed.
Lemma no_colon s : existsb (N.eqb 58) s = false -> ~ In 58%N s.
Proof. intros H Hi. assert (existsb (N.eqb 58) s = true) by (apply existsb_exists; exists 58%N; split; [exact Hi | reflexivity]). congruence. Qed.
Lemma name_single p : path_ok p -> deprecated_name (text_of (path_node p)) = match words p with [w] => deprecated_name w | _ => false end.
Proof.
  intros H. unfold deprecated_name. rewrite !(single_eqb p _ H) by (apply no_colon; reflexivity). destruct (words p) as [|w [|w' l]]; reflexivity.
Qed.
Lemma deprecatedb_snoc w x : deprecatedb (w ++ [x]) = match w with [a] => str_eqb a (lit "ink_e2e") && deprecated_name x | _ => false end.
Proof. destruct w as [|a [|b [|c l]]]; reflexivity. Qed.
Lemma deprecated_iff w : deprecatedb w = true <-> deprecated w.
Proof.
  unfold deprecated. split.
  - destruct w as [|a [|b [|c l]]]; try discriminate. cbn [deprecatedb]. intros H. apply andb_prop in H. destruct H as [H1 H2].
    apply str_eqb_eq in H1. subst a. apply Bool.orb_prop in H2. destruct H2 as [H2|H2]; apply str_eqb_eq in H2; subst b; auto.
  - intros [-> | ->]; reflexivity.
Qed.
Lemma path_deprecated o p : path_ok p -> deprecated_path (o, path_node p) = deprecatedb (words p).
Proof.
  intros H. unfold deprecated_path, child_node. destruct p as [s|q sep s].
  - cbn [path_node]. rewrite !child_nodes_sel, sel_node, sel_other by discriminate. cbn. rewrite Bool.andb_false_r. reflexivity.
  - destruct H as (Hq & Hs & _). cbn [path_node words]. rewrite !child_nodes_sel. destruct (path_node_kind q) as (cq & Eq). rewrite Eq.
    rewrite sel_other by discriminate. rewrite sel_app, (sel_no_node _ _ (sep_no_node PATH_SEGMENT sep Hs)). cbn [app]. rewrite !sel_node. cbn [hd_error snd].
    rewrite <- Eq, (single_eqb q _ Hq) by (apply no_colon; reflexivity). rewrite deprecatedb_snoc, text_of_node.
    destruct (words q) as [|w [|w' l]]; try (rewrite Bool.andb_false_r; reflexivity). apply Bool.andb_comm.
Qed.

(** ** Tokens of a tree *)
Lemma tree_node_kind t : exists cs, tree_node t = Node USE_TREE cs.
Proof. destruct t; eexists; reflexivity. Qed.
Definition hushed (rf : list (skind * str)) : Prop :=
  forall o B, (forall o', closest_delimiter COMMA (place_leaves o' B) = None) -> closest_delimiter COMMA (place_leaves o (rf ++ B)) = None.
Lemma hushed_no_comma l : Forall (fun t : skind * str => fst t <> COMMA) l -> hushed l.
Proof.
  intros H. induction H as [|t l Ht _ IH]; intros o B HB; [apply HB|]. cbn [app place_leaves]. unfold closest_delimiter. cbn [closest_which].
  unfold lf_kind at 1 2. cbn [snd fst]. destruct (skind_eqb (fst t) COMMA) eqn:E; [apply skind_eqb_eq in E; contradiction|].
  destruct (is_trivia (fst t)); cbn [negb]; [apply (IH _ B HB) | reflexivity].
Qed.
Lemma hushed_solid g x l : blank g -> is_trivia (fst x) = false -> fst x <> COMMA -> hushed (leaves_of g ++ x :: l).
Proof. intros Hg Hx Hc o B _. rewrite <- app_assoc. apply no_next; assumption. Qed.

(** A node whose tokens are [solid], the first not followed by a comma *)
Definition item_like (cs : list elem) : Prop :=
  tokens_ok cs /\ (exists tf rf, leaves_of cs = tf :: rf /\ is_trivia (fst tf) = false /\ fst tf <> COMMA /\ hushed rf) /\ ends_solid cs.
Lemma tokens_ok_app a b : tokens_ok a -> tokens_ok b -> tokens_ok (a ++ b).
Proof. unfold tokens_ok. rewrite leaves_of_app. intros Ha Hb. apply Forall_app. auto. Qed.
Lemma tokens_ok_node k cs l : tokens_ok cs -> tokens_ok l -> tokens_ok (Node k cs :: l).
Proof. unfold tokens_ok. intros Ha Hb. change (Node k cs :: l) with ([Node k cs] ++ l). rewrite leaves_of_app, leaves_one. apply Forall_app. auto. Qed.
Lemma tokens_ok_blank g : blank g -> tokens_ok g.
Proof.
  intros H. induction H as [|e g (k & t & -> & _ & Ht) _ IH]; [constructor|]. unfold tokens_ok, leaves_of. cbn [flat_map leaves app]. constructor; [exact Ht | exact IH].
Qed.
Lemma tokens_ok_tok k s l : s <> [] -> tokens_ok l -> tokens_ok (Tok k s :: l).
Proof. intros Hs Hl. unfold tokens_ok, leaves_of. cbn [flat_map leaves app]. constructor; [exact Hs | exact Hl]. Qed.
Lemma no_comma_app a b : no_comma a -> no_comma b -> no_comma (a ++ b).
Proof. unfold no_comma. rewrite leaves_of_app. intros Ha Hb. apply Forall_app. auto. Qed.
Lemma no_comma_node k cs l : no_comma cs -> no_comma l -> no_comma (Node k cs :: l).
Proof. unfold no_comma. intros Ha Hb. change (Node k cs :: l) with ([Node k cs] ++ l). rewrite leaves_of_app, leaves_one. apply Forall_app. auto. Qed.
Lemma no_comma_blank g : blank g -> no_comma g.
Proof.
  intros H. induction H as [|e g (k & t & -> & Hk & _) _ IH]; [constructor|]. unfold no_comma, leaves_of. cbn [flat_map leaves app]. constructor; [|exact IH].
  cbn [fst]. intros ->. discriminate.
Qed.
Lemma sep_ok sep : (exists a b, sep = a ++ Tok COLON2 (lit "::") :: b /\ blank a /\ blank b) -> tokens_ok sep /\ no_comma sep.
Proof.
  intros (a & b & -> & Ha & Hb). split.
  - apply tokens_ok_app; [apply tokens_ok_blank, Ha|]. apply tokens_ok_tok; [discriminate | apply tokens_ok_blank, Hb].
  - apply no_comma_app; [apply no_comma_blank, Ha|]. pose proof (no_comma_blank b Hb) as N. unfold no_comma, leaves_of in *. cbn [flat_map leaves app].
    constructor; [discriminate | exact N].
Qed.
Lemma ends_app a b : ends_solid b -> ends_solid (a ++ b).
Proof. intros (r & t & E & H). exists (leaves_of a ++ r), t. rewrite leaves_of_app, E, app_assoc. auto. Qed.
Lemma ends_node k cs : ends_solid cs -> ends_solid [Node k cs].
Proof. intros (r & t & E & H). exists r, t. rewrite leaves_one. auto. Qed.
Lemma begins_node k cs l : begins_solid cs -> begins_solid (Node k cs :: l).
Proof.
  intros (t & r & E & H). exists t, (r ++ leaves_of l). change (Node k cs :: l) with ([Node k cs] ++ l). rewrite leaves_of_app, leaves_one, E. auto.
Qed.
(** The children of a path *)
Lemma path_cs p : path_ok p -> exists cs, path_node p = Node PATH cs /\ solid cs /\ no_comma cs.
Proof.
  induction p as [s|q IH sep s]; cbn [path_ok path_node].
  - intros [(Hs1 & Hs2 & Hs3) Hn]. eexists. split; [reflexivity|]. split; [split; [|split]|].
    + apply tokens_ok_node; [exact Hs1 | constructor].
    + apply begins_node, Hs2.
    + apply ends_node, Hs3.
    + apply no_comma_node; [exact Hn | constructor].
  - intros (Hq & Hsep & (Hs1 & Hs2 & Hs3) & Hn). destruct (IH Hq) as (cs & -> & (Hc1 & Hc2 & Hc3) & Hcn). destruct (sep_ok sep Hsep) as [Ho Hsn].
    eexists. split; [reflexivity|]. split; [split; [|split]|].
    + apply tokens_ok_node; [exact Hc1|]. apply tokens_ok_app; [exact Ho|]. apply tokens_ok_node; [exact Hs1 | constructor].
    + apply begins_node, Hc2.
    + change (ends_solid ((Node PATH cs :: sep) ++ [Node PATH_SEGMENT s])). apply ends_app, ends_node, Hs3.
    + apply no_comma_node; [exact Hcn|]. apply no_comma_app; [exact Hsn|]. apply no_comma_node; [exact Hn | constructor].
Qed.
Lemma path_item p l : path_ok p -> tokens_ok l -> no_comma l -> (l = [] \/ ends_solid l) -> item_like (path_node p :: l).
Proof.
  intros Hp Hl Hn He. destruct (path_cs p Hp) as (cs & -> & (Hc1 & (t & r & E & Ht) & Hc3) & Hcn). split; [|split].
  - apply tokens_ok_node; assumption.
  - pose proof (no_comma_node PATH cs l Hcn Hn) as N. unfold no_comma in N. exists t, (r ++ leaves_of l).
    change (Node PATH cs :: l) with ([Node PATH cs] ++ l) in *. rewrite leaves_of_app, leaves_one, E in *. cbn [app] in *. inversion N as [|? ? N1 N2]; subst.
    repeat split; auto. apply hushed_no_comma, N2.
  - destruct He as [-> | He]; [apply ends_node, Hc3|]. change (ends_solid ([Node PATH cs] ++ l)). apply ends_app, He.
Qed.
Lemma hushed_cut l1 x l2 : Forall (fun t : skind * str => fst t <> COMMA) l1 -> is_trivia (fst x) = false -> fst x <> COMMA -> hushed (l1 ++ x :: l2).
Proof.
  intros H Hx Hc o B _. revert o. induction H as [|t l Ht _ IH]; intros o; cbn [app place_leaves]; unfold closest_delimiter; cbn [closest_which];
    unfold lf_kind at 1 2; cbn [snd fst].
  - destruct (skind_eqb (fst x) COMMA) eqn:E; [apply skind_eqb_eq in E; contradiction|]. rewrite Hx. reflexivity.
  - destruct (skind_eqb (fst t) COMMA) eqn:E; [apply skind_eqb_eq in E; contradiction|]. destruct (is_trivia (fst t)); cbn [negb]; [apply IH | reflexivity].
Qed.

Lemma utree_ind' (P : utree -> Prop) :
  (forall p e, P (One p e)) ->
  (forall f l trail, Forall (fun x : entry => P (snd (fst x))) l -> P (Many f l trail)) ->
  forall t, P t.
Proof.
  intros H1 H2. fix IH 1. intros [p e|f l trail]; [apply H1|]. apply H2. induction l as [|[[a t] b] l IHl]; constructor; [apply IH | exact IHl].
Qed.

Definition nodes_of (l : list entry) : list (list elem * elem * list elem) := map (fun x : entry => match x with (a, s, b) => (a, tree_node s, b) end) l.
(** The text of the list between the braces *)
Definition body (l : list entry) (trail : option (list elem)) : list elem := between (nodes_of l) ++ trail_elems trail.
Lemma tree_many f l trail : tree_node (Many f l trail) = Node USE_TREE (front_elems f ++ [Node USE_TREE_LIST (lcurly :: body l trail ++ [rcurly])]).
Proof. unfold body. rewrite <- app_assoc. reflexivity. Qed.
Lemma body_one a t b trail : body [(a, t, b)] trail = a ++ tree_node t :: b ++ trail_elems trail.
Proof. unfold body. cbn [nodes_of map between]. rewrite <- app_assoc. reflexivity. Qed.
Lemma body_cons a t b x l trail : body ((a, t, b) :: x :: l) trail = a ++ tree_node t :: b ++ comma :: body (x :: l) trail.
Proof.
  unfold body. destruct x as [[a' t'] b']. cbn [nodes_of map between]. fold (nodes_of l). rewrite <- app_assoc. cbn [app]. rewrite <- app_assoc. cbn [app]. reflexivity.
Qed.

Lemma item_start cs l : item_like cs -> exists x r, leaves_of (Node USE_TREE cs :: l) = x :: r /\ is_trivia (fst x) = false /\ fst x <> COMMA.
Proof.
  intros (_ & (t & r & E & H1 & H2 & _) & _). exists t, (r ++ leaves_of l). change (Node USE_TREE cs :: l) with ([Node USE_TREE cs] ++ l).
  rewrite leaves_of_app, leaves_one, E. auto.
Qed.
Definition entry_fine (x : entry) : Prop :=
  match x with (a, t, b) => blank a /\ blank b /\ exists cs, tree_node t = Node USE_TREE cs /\ item_like cs end.
Lemma body_tokens l trail : l <> [] -> Forall entry_fine l -> trail_ok trail -> tokens_ok (body l trail).
Proof.
  intros Hn H Ht. assert (T : tokens_ok (trail_elems trail)).
  { destruct trail as [z|]; [|constructor]. apply tokens_ok_tok; [discriminate | apply tokens_ok_blank, Ht]. }
  induction H as [|[[a t] b] l (Ha & Hb & cs & E & (Hc & _)) Hl IH]; [contradiction|]. destruct l as [|x l].
  - rewrite body_one, E. apply tokens_ok_app; [apply tokens_ok_blank, Ha|]. apply tokens_ok_node; [exact Hc|]. apply tokens_ok_app; [apply tokens_ok_blank, Hb | exact T].
  - rewrite body_cons, E. apply tokens_ok_app; [apply tokens_ok_blank, Ha|]. apply tokens_ok_node; [exact Hc|]. apply tokens_ok_app; [apply tokens_ok_blank, Hb|].
    apply tokens_ok_tok; [discriminate|]. apply IH. discriminate.
Qed.
Lemma body_start l trail : l <> [] -> Forall entry_fine l -> exists g x r, leaves_of (body l trail) = leaves_of g ++ x :: r /\ blank g /\ is_trivia (fst x) = false /\ fst x <> COMMA.
Proof.
  intros Hn H. destruct H as [|[[a t] b] l (Ha & Hb & cs & E & Hc) Hl]; [contradiction|].
  assert (F : exists rest, body (@cons entry (a, t, b) l) trail = a ++ Node USE_TREE cs :: rest).
  { rewrite <- E. destruct l as [|x l]; [rewrite body_one | rewrite body_cons]; eauto. }
  destruct F as (rest & ->). destruct (item_start cs rest Hc) as (x & r & Ex & H1 & H2). exists a, x, r. rewrite leaves_of_app, Ex. auto.
Qed.
Lemma tree_item t : tree_ok t -> exists cs, tree_node t = Node USE_TREE cs /\ item_like cs.
Proof.
  induction t as [p e|f l trail IH] using utree_ind'; intros H; inversion H; subst.
  - eexists. split; [reflexivity|]. apply path_item; [assumption | | |]; destruct e as [|le|le]; cbn [ending_elems ending_ok] in *;
      try constructor; try reflexivity; try tauto; right; tauto.
  - rewrite tree_many. eexists. split; [reflexivity|].
    assert (Hl : Forall entry_fine l).
    { apply Forall_forall. intros [[a t] b] Hi. destruct (H6 a t b Hi) as (Ha & Ht & Hb). split; [exact Ha|]. split; [exact Hb|].
      rewrite Forall_forall in IH. apply (IH _ Hi Ht). }
    assert (T : tokens_ok (lcurly :: body l trail ++ [rcurly])).
    { apply tokens_ok_tok; [discriminate|]. apply tokens_ok_app; [apply body_tokens; assumption|]. apply tokens_ok_tok; [discriminate | constructor]. }
    assert (En : ends_solid [Node USE_TREE_LIST (lcurly :: body l trail ++ [rcurly])]).
    { apply ends_node. exists (leaves_of (lcurly :: body l trail)), (R_CURLY, lit "}"). split; [|reflexivity].
      change (lcurly :: body l trail ++ [rcurly]) with ((lcurly :: body l trail) ++ [rcurly]). rewrite leaves_of_app. reflexivity. }
    destruct f as [[p sep]|]; cbn [front_elems front_okay app] in *.
    + destruct H3 as [Hp Hsep]. destruct (path_cs p Hp) as (cs & -> & (Hc1 & (tf & rf & E & Htf) & Hc3) & Hcn). destruct (sep_ok sep Hsep) as [So Sn].
      split; [|split].
      * apply tokens_ok_node; [exact Hc1|]. apply tokens_ok_app; [exact So|]. apply tokens_ok_node; [exact T | constructor].
      * exists tf, (rf ++ leaves_of sep ++ (L_CURLY, lit "{") :: leaves_of (body l trail ++ [rcurly])).
        change (Node PATH cs :: sep ++ [Node USE_TREE_LIST (lcurly :: body l trail ++ [rcurly])])
          with ([Node PATH cs] ++ sep ++ [Node USE_TREE_LIST (lcurly :: body l trail ++ [rcurly])]).
        unfold no_comma in Hcn. rewrite E in Hcn. inversion Hcn as [|? ? N1 N2]; subst.
        split; [rewrite leaves_of_app, (leaves_of_app sep), !leaves_one, E; reflexivity|].
        repeat split; auto. rewrite app_assoc. apply hushed_cut; [apply Forall_app; split; assumption | reflexivity | discriminate].
      * change (ends_solid ((Node PATH cs :: sep) ++ [Node USE_TREE_LIST (lcurly :: body l trail ++ [rcurly])])). apply ends_app, En.
    + split; [apply tokens_ok_node; [exact T | constructor]|]. split; [|exact En].
      exists (L_CURLY, lit "{"), (leaves_of (body l trail ++ [rcurly])). rewrite leaves_one. split; [reflexivity|]. split; [reflexivity|]. split; [discriminate|].
      destruct (body_start l trail H5 Hl) as (g & x & r & Eb & Hg & Hx & Hc). rewrite leaves_of_app, Eb, <- app_assoc. cbn [app]. apply hushed_solid; assumption.
Qed.

(** ** A node and its comma *)
Lemma len_last cs r t : leaves_of cs = r ++ [t] -> lens cs = bytes (text r) + bytes (snd t).
Proof. intros E. rewrite <- bytes_texts, E, text_app, bytes_app. f_equal. unfold text. cbn [flat_map]. rewrite app_nil_r. reflexivity. Qed.
Lemma node_next A K cs g (B : list (skind * str)) : item_like cs -> blank g ->
  node_and_delimiter_range (place_leaves 0 (A ++ leaves_of cs ++ leaves_of g ++ (COMMA, lit ",") :: B)) (bytes (text A), Node K cs) COMMA
  = Done (bytes (text A), bytes (text A) + lens cs + lens g + 1).
Proof.
  intros (Hok & (tf & rf & Ef & _ & _ & _) & (rl & tl & El & Hl)) Hg.
  assert (Htl : snd tl <> []) by (unfold tokens_ok in Hok; rewrite El, Forall_forall in Hok; apply Hok, in_or_app; right; left; reflexivity).
  unfold node_and_delimiter_range. rewrite (last_leaf _ _ _ _ _ El).
  pose proof (delim_next (A ++ rl) tl g B Htl Hg) as D. rewrite text_app, bytes_app in D.
  replace (A ++ leaves_of cs ++ leaves_of g ++ (COMMA, lit ",") :: B) with ((A ++ rl) ++ tl :: leaves_of g ++ (COMMA, lit ",") :: B)
    by (rewrite El, <- !app_assoc; reflexivity).
  rewrite D. cbn [obind_o snd]. rewrite (len_last _ _ _ El). unfold lend. cbn [fst snd]. rewrite len_node, (len_last _ _ _ El).
  destruct (_ =? _) eqn:Eq; [apply Nat.eqb_eq in Eq; lia|]. cbn [obind_o]. unfold lrange_of, lstart. cbn [fst]. unfold mk_range.
  rewrite (proj2 (Nat.leb_le _ _)) by lia. f_equal. f_equal. lia.
Qed.
Lemma node_last A K cs (B : list (skind * str)) : item_like cs -> (forall o, closest_delimiter COMMA (place_leaves o B) = None) ->
  node_and_delimiter_range (place_leaves 0 (A ++ leaves_of cs ++ B)) (bytes (text A), Node K cs) COMMA
  = Done (match closest_delimiter COMMA (rev (place_leaves 0 A)) with Some p => lf_start p | None => bytes (text A) end, bytes (text A) + lens cs).
Proof.
  intros (Hok & (tf & rf & Ef & _ & _ & Hh) & (rl & tl & El & Hl)) HB.
  assert (Htl : snd tl <> []) by (unfold tokens_ok in Hok; rewrite El, Forall_forall in Hok; apply Hok, in_or_app; right; left; reflexivity).
  assert (Htf : snd tf <> []) by (unfold tokens_ok in Hok; rewrite Ef, Forall_forall in Hok; apply Hok; left; reflexivity).
  unfold node_and_delimiter_range. rewrite (last_leaf _ _ _ _ _ El), (first_leaf _ _ _ _ _ Ef).
  set (toks := place_leaves 0 (A ++ leaves_of cs ++ B)).
  assert (Etl : toks = place_leaves 0 ((A ++ rl) ++ tl :: B)) by (unfold toks; rewrite El, <- !app_assoc; reflexivity).
  assert (Etf : toks = place_leaves 0 (A ++ tf :: rf ++ B)) by (unfold toks; rewrite Ef; reflexivity).
  destruct (delim_done toks (bytes (text A) + bytes (text rl), tl) COMMA) as (r1 & -> & N1 & _). cbn [obind_o].
  rewrite N1; cycle 1.
  { rewrite Etl. pose proof (after_place 0 (A ++ rl) tl B Htl) as P. cbn [Nat.add] in P. rewrite text_app, bytes_app in P. rewrite P. apply HB. }
  unfold lf_end, lend. cbn [fst snd]. rewrite len_node, (len_last _ _ _ El), Nat.add_assoc, Nat.eqb_refl.
  unfold token_and_delimiter_range.
  pose proof (after_place 0 A tf (rf ++ B) Htf) as P. cbn [Nat.add] in P. rewrite Etf, P.
  rewrite (Hh _ B HB). pose proof (before_place 0 A tf (rf ++ B) Htf) as Q. cbn [Nat.add] in Q. rewrite Q.
  pose proof (bytes_pos _ Htf). pose proof (bytes_pos _ Htl).
  destruct (closest_delimiter COMMA (rev (place_leaves 0 A))) as [p|] eqn:Ep.
  - unfold closest_delimiter in Ep. apply RuleProofs.closest_In in Ep. apply in_rev in Ep. apply place_leaves_bounds in Ep. pose proof (lf_le p).
    unfold mk_range. unfold lf_end, lf_start in *. cbn [fst snd] in *. rewrite (proj2 (Nat.leb_le _ _)) by lia. cbn [obind_o fst].
    rewrite (proj2 (Nat.leb_le _ _)) by lia. reflexivity.
  - unfold mk_range, lf_end, lf_start. cbn [fst snd]. rewrite (proj2 (Nat.leb_le _ _)) by lia. cbn [obind_o fst].
    rewrite (proj2 (Nat.leb_le _ _)) by lia. reflexivity.
Qed.

(** ** Deletions *)
Definition dels (ps : list piece) : Prop := Forall (fun p => match p with Same _ => True | Other _ n => n = [] end) ps.
Lemma old_app a b : old_text (a ++ b) = old_text a ++ old_text b.
Proof. apply flat_map_app. Qed.
Lemma new_app a b : new_text (a ++ b) = new_text a ++ new_text b.
Proof. apply flat_map_app. Qed.
Lemma old_same s ps : old_text (Same s :: ps) = s ++ old_text ps.
Proof. reflexivity. Qed.
Lemma new_same s ps : new_text (Same s :: ps) = s ++ new_text ps.
Proof. reflexivity. Qed.
Lemma dels_changes ps : dels ps -> forall o, map (fun r => (r, [])) (map fst (changes o ps)) = changes o ps.
Proof.
  intros H. induction H as [|[s|s n] ps Hp _ IH]; intros o; [reflexivity | apply IH|]. cbn [changes map fst]. subst n. f_equal. apply IH.
Qed.
Lemma texts_cons e l : texts_of (e :: l) = text_of e ++ texts_of l.
Proof. reflexivity. Qed.

(** ** Going through a list *)
Fixpoint placed (o : nat) (l : list entry) : list (nat * utree) :=
  match l with
  | [] => []
  | (a, t, b) :: l' => (o + lens a, t) :: placed (o + lens a + len_of (tree_node t) + lens b + 1) l'
  end.

Section Walk.
  (** What becomes of a tree: it goes, or parts of it go. *)
  Variable R : utree -> option (list piece * utree).
  Definition stat_ok (x : entry) : Prop :=
    match R (snd (fst x)) with
    | None => True
    | Some (ps, t') => old_text ps = text_of (tree_node (snd (fst x))) /\ new_text ps = text_of (tree_node t') /\ smaller (snd (fst x)) t' /\ tree_ok t' /\ dels ps
    end.
  Definition entry_ranges (toks : list leaf) (x : nat * utree) (rs : list trange) : Prop :=
    match R (snd x) with
    | None => exists r, node_and_delimiter_range toks (fst x, tree_node (snd x)) COMMA = Done r /\ rs = [r]
    | Some (ps, _) => rs = map fst (changes (fst x) ps)
    end.
  Inductive fine : list entry -> option (list elem) -> Prop :=
    | fine_trail l z : fine l (Some z)
    | fine_kept a t b : R t <> None -> fine [(a, t, b)] None
    | fine_kept_gone a t b y : R t <> None -> fine [(a, t, b); y] None
    | fine_cons x y l : fine (y :: l) None -> fine (x :: y :: l) None.
  Definition remaining (l : list entry) : list (list str) :=
    flat_map (fun x : entry => match R (snd (fst x)) with None => [] | Some (_, t') => imports t' end) l.
  Definition gone (x : entry) : Prop := R (snd (fst x)) = None.
  Definition entry_okay (x : entry) : Prop := match x with (a, t, b) => blank a /\ tree_ok t /\ blank b end.
  Lemma okay_fine x : entry_okay x -> entry_fine x.
  Proof. destruct x as [[a t] b]. intros (Ha & Ht & Hb). split; [exact Ha|]. split; [exact Hb|]. apply tree_item, Ht. Qed.
  Lemma len_tree t : len_of (tree_node t) = lens (match tree_node t with Node _ cs => cs | Tok _ _ => [] end).
  Proof. destruct (tree_node_kind t) as (cs & ->). apply len_node. Qed.
  Definition outcome_of (l : list entry) (trail : option (list elem)) (ps : list piece) : Prop :=
    (exists z, blank z /\ trail <> None /\ Forall gone l /\ new_text ps = texts_of z)
    \/ (exists l' trail', l' <> [] /\ fewer l l' /\ imports_all l' = remaining l /\ trail_ok trail' /\ Forall entry_okay l'
        /\ new_text ps = texts_of (body l' trail')).

  Lemma no_comma_after B o : closest_delimiter COMMA (place_leaves o ((R_CURLY, lit "}") :: B)) = None.
  Proof. reflexivity. Qed.
  Lemma ranges_next A a t b rest : blank a -> blank b -> tree_ok t -> R t = None ->
    entry_ranges (place_leaves 0 (A ++ leaves_of (a ++ tree_node t :: b ++ [comma]) ++ rest)) (bytes (text A) + lens a, t)
      [(bytes (text A) + lens a, bytes (text A) + lens a + len_of (tree_node t) + lens b + 1)].
  Proof.
    intros Ha Hb Ht HR. unfold entry_ranges. cbn [fst snd]. rewrite HR. eexists. split; [|reflexivity]. destruct (tree_item t Ht) as (cs & E & Hc).
    rewrite E, len_node. pose proof (node_next (A ++ leaves_of a) USE_TREE cs b rest Hc Hb) as N. rewrite text_app, bytes_app, bytes_texts in N.
    replace (A ++ leaves_of (a ++ Node USE_TREE cs :: b ++ [comma]) ++ rest) with ((A ++ leaves_of a) ++ leaves_of cs ++ leaves_of b ++ (COMMA, lit ",") :: rest); [exact N|].
    rewrite leaves_of_app. change (Node USE_TREE cs :: b ++ [comma]) with ([Node USE_TREE cs] ++ b ++ [comma]). rewrite !leaves_of_app, leaves_one, <- !app_assoc. reflexivity.
  Qed.
  Lemma ranges_last A a t b rest : blank a -> blank b -> tree_ok t -> R t = None ->
    entry_ranges (place_leaves 0 (A ++ leaves_of (comma :: a ++ tree_node t :: b) ++ (R_CURLY, lit "}") :: rest)) (bytes (text A) + 1 + lens a, t)
      [(bytes (text A), bytes (text A) + 1 + lens a + len_of (tree_node t))].
  Proof.
    intros Ha Hb Ht HR. unfold entry_ranges. cbn [fst snd]. rewrite HR. eexists. split; [|reflexivity]. destruct (tree_item t Ht) as (cs & E & Hc).
    rewrite E, len_node.
    pose proof (node_last (A ++ (COMMA, lit ",") :: leaves_of a) USE_TREE cs (leaves_of b ++ (R_CURLY, lit "}") :: rest) Hc
      (fun o => no_next b (R_CURLY, lit "}") rest o Hb eq_refl ltac:(discriminate))) as N.
    rewrite prev_comma in N by exact Ha. unfold lf_start in N. cbn [fst] in N.
    assert (L : bytes (text (A ++ (COMMA, lit ",") :: leaves_of a)) = bytes (text A) + 1 + lens a).
    { rewrite text_app, bytes_app. change ((COMMA, lit ",") :: leaves_of a) with ([(COMMA, lit ",")] ++ leaves_of a). rewrite text_app, bytes_app, bytes_texts.
      change (bytes (text [(COMMA, lit ",")])) with 1. lia. }
    rewrite L in N.
    replace (A ++ leaves_of (comma :: a ++ Node USE_TREE cs :: b) ++ (R_CURLY, lit "}") :: rest)
      with ((A ++ (COMMA, lit ",") :: leaves_of a) ++ leaves_of cs ++ leaves_of b ++ (R_CURLY, lit "}") :: rest); [exact N|].
    change (comma :: a ++ Node USE_TREE cs :: b) with ([comma] ++ a ++ [Node USE_TREE cs] ++ b). rewrite !leaves_of_app, leaves_one, <- !app_assoc. reflexivity.
  Qed.
  Lemma lens_entry a t b : lens (a ++ tree_node t :: b ++ [comma]) = lens a + len_of (tree_node t) + lens b + 1.
  Proof. rewrite lens_app, lens_cons, lens_app. change (lens [comma]) with 1. lia. Qed.
  Lemma fewer_more a l l' : blank a -> fewer l l' -> forall a1 t1 b1 l1, l' = (a1, t1, b1) :: l1 -> fewer l ((a ++ a1, t1, b1) :: l1).
  Proof.
    intros Ha H. induction H as [|x l l' H IH|a0 t b x y t' l l' Hs Hx Hy H IH]; intros a1 t1 b1 l1 E; [discriminate| |].
    - apply fewer_gone. eapply IH, E.
    - injection E as <- <- <- <-. rewrite app_assoc. apply fewer_kept; auto. apply blank_app. auto.
  Qed.
  Lemma body_front a a1 t b l trail : body ((a ++ a1, t, b) :: l) trail = a ++ body ((a1, t, b) :: l) trail.
  Proof. destruct l as [|x l]; [rewrite !body_one | rewrite !body_cons]; rewrite <- app_assoc; reflexivity. Qed.

  Lemma gone_remaining l : Forall gone l -> remaining l = [].
  Proof. intros H. induction H as [|x l Hx _ IH]; [reflexivity|]. unfold remaining in *. cbn [flat_map]. unfold gone in Hx. rewrite Hx. exact IH. Qed.
  Ltac tx := repeat first [rewrite texts_of_app | rewrite texts_cons | rewrite old_app | rewrite new_app | rewrite old_same | rewrite new_same | rewrite <- app_assoc];
    change (texts_of []) with (@nil N); change (old_text []) with (@nil N); change (new_text []) with (@nil N); rewrite ?app_nil_r; cbn [app]; reflexivity.
  Lemma walk l : forall trail, l <> [] -> Forall entry_okay l -> Forall stat_ok l -> trail_ok trail -> fine l trail ->
    exists ps, old_text ps = texts_of (body l trail) /\ dels ps /\ outcome_of l trail ps
      /\ forall A B, let toks := place_leaves 0 (A ++ leaves_of (body l trail) ++ (R_CURLY, lit "}") :: B) in
           exists rss, Forall2 (entry_ranges toks) (placed (bytes (text A)) l) rss /\ concat rss = map fst (changes (bytes (text A)) ps).
  Proof.
    induction l as [|[[a t] b] l IH]; intros trail Hn Hok Hst Htr Hf; [contradiction|].
    pose proof (Forall_inv Hok) as (Ha & Ht & Hb). pose proof (Forall_inv_tail Hok) as Hokl.
    pose proof (Forall_inv Hst) as Hs. pose proof (Forall_inv_tail Hst) as Hstl. unfold stat_ok in Hs. cbn [fst snd] in Hs.
    destruct l as [|y l].
    - (* the last one *)
      destruct (R t) as [[psx t']|] eqn:ER.
      + destruct Hs as (So & Sn & Ss & St & Sd).
        exists (Same (texts_of a) :: psx ++ [Same (texts_of (b ++ trail_elems trail))]).
        split; [|split; [|split]].
        * rewrite body_one, old_same, old_app, So. tx.
        * constructor; [exact I|]. apply Forall_app. split; [exact Sd|]. constructor; [exact I | constructor].
        * right. exists [(a, t', b)], trail. split; [discriminate|]. split; [|split; [|split; [exact Htr|split]]].
          -- change a with ([] ++ a) at 2. rewrite <- (app_nil_r b) at 2. apply fewer_kept; [exact Ss | constructor | constructor | constructor].
          -- unfold imports_all, remaining. cbn [flat_map fst snd]. rewrite ER. reflexivity.
          -- constructor; [|constructor]. split; [exact Ha|]. split; [exact St | exact Hb].
          -- rewrite body_one, new_same, new_app, Sn. tx.
        * intros A B toks. exists [map fst (changes (bytes (text A) + lens a) psx)]. split.
          -- cbn [placed]. constructor; [|constructor]. unfold entry_ranges. cbn [fst snd]. rewrite ER. reflexivity.
          -- cbn [concat changes]. rewrite app_nil_r. fold (lens a). rewrite changes_app. cbn [changes]. rewrite app_nil_r. reflexivity.
      + destruct trail as [z|].
        2:{ exfalso. inversion Hf; subst. congruence. }
        exists [Same (texts_of a); Other (texts_of (tree_node t :: b ++ [comma])) []; Same (texts_of z)].
        split; [|split; [|split]].
        * rewrite body_one. cbn [old_text flat_map trail_elems]. tx.
        * repeat (constructor; [exact I || reflexivity|]). constructor.
        * left. exists (a ++ z). split; [apply blank_app; auto|]. split; [discriminate|]. split; [constructor; [exact ER | constructor]|].
          cbn [new_text flat_map]. rewrite app_nil_r, texts_of_app. reflexivity.
        * intros A B toks. exists [[(bytes (text A) + lens a, bytes (text A) + lens a + len_of (tree_node t) + lens b + 1)]]. split.
          -- cbn [placed]. constructor; [|constructor].
             pose proof (ranges_next A a t b (leaves_of z ++ (R_CURLY, lit "}") :: B) Ha Hb Ht ER) as N. unfold toks. rewrite body_one. cbn [trail_elems].
             replace (leaves_of (a ++ tree_node t :: b ++ comma :: z) ++ (R_CURLY, lit "}") :: B)
               with (leaves_of (a ++ tree_node t :: b ++ [comma]) ++ leaves_of z ++ (R_CURLY, lit "}") :: B); [exact N|].
             rewrite app_assoc, <- leaves_of_app. f_equal. f_equal. rewrite <- app_assoc. cbn [app]. rewrite <- app_assoc. reflexivity.
          -- cbn [concat changes map fst app]. fold (lens a). fold (lens (tree_node t :: b ++ [comma])). rewrite lens_cons, lens_app. change (lens [comma]) with 1.
             f_equal. f_equal. lia.
    - (* more follow *)
      assert (Etoks : forall A B, place_leaves 0 (A ++ leaves_of (body ((a, t, b) :: y :: l) trail) ++ (R_CURLY, lit "}") :: B)
        = place_leaves 0 ((A ++ leaves_of (a ++ tree_node t :: b ++ [comma])) ++ leaves_of (body (y :: l) trail) ++ (R_CURLY, lit "}") :: B)).
      { intros A B. f_equal. rewrite body_cons, <- app_assoc. f_equal. rewrite app_assoc, <- leaves_of_app. f_equal. f_equal.
        rewrite <- app_assoc. cbn [app]. rewrite <- app_assoc. reflexivity. }
      assert (LA : forall A, bytes (text (A ++ leaves_of (a ++ tree_node t :: b ++ [comma]))) = bytes (text A) + lens a + len_of (tree_node t) + lens b + 1).
      { intros A. rewrite text_app, bytes_app, bytes_texts, lens_entry. lia. }
      destruct (R t) as [[psx t']|] eqn:ER.
      + destruct Hs as (So & Sn & Ss & St & Sd).
        assert (D : fine (y :: l) trail \/ (trail = None /\ l = [] /\ R (snd (fst y)) = None)).
        { inversion Hf; subst; [left; constructor | | left; assumption]. destruct y as [[a2 t2] b2]. cbn [fst snd].
          destruct (R t2) eqn:E2; [left; apply fine_kept; congruence | right; auto]. }
        destruct D as [D|(-> & -> & ER2)].
        * destruct (IH trail ltac:(discriminate) Hokl Hstl Htr D) as (ps & I1 & I2 & I5 & I34).
          exists (Same (texts_of a) :: psx ++ Same (texts_of (b ++ [comma])) :: ps).
          split; [|split; [|split]].
          -- rewrite body_cons, old_same, old_app, So, old_same, I1. tx.
          -- constructor; [exact I|]. apply Forall_app. split; [exact Sd|]. constructor; [exact I | exact I2].
          -- right. destruct I5 as [(z & Hz & Hnz & Hg & Ez)|(l' & trail' & Hl' & Hfe & Him & Htr' & Hokl' & El')].
             ++ exists [(a, t', b)], (Some z). split; [discriminate|]. split; [|split; [|split; [exact Hz|split]]].
                ** change a with ([] ++ a) at 2. rewrite <- (app_nil_r b) at 2. apply fewer_kept; [exact Ss | constructor | constructor|].
                   clear -Hg. induction Hg; [constructor | apply fewer_gone; assumption].
                ** change (remaining ((a, t, b) :: y :: l)) with (match R t with None => [] | Some (_, t') => imports t' end ++ remaining (y :: l)).
                   rewrite ER, (gone_remaining _ Hg). reflexivity.
                ** constructor; [|constructor]. split; [exact Ha|]. split; [exact St | exact Hb].
                ** rewrite body_one, new_same, new_app, Sn, new_same, Ez. cbn [trail_elems]. tx.
             ++ exists ((a, t', b) :: l'), trail'. split; [discriminate|]. split; [|split; [|split; [exact Htr'|split]]].
                ** change a with ([] ++ a) at 2. rewrite <- (app_nil_r b) at 2. apply fewer_kept; [exact Ss | constructor | constructor | exact Hfe].
                ** unfold imports_all, remaining in *. cbn [flat_map fst snd]. rewrite ER. f_equal. exact Him.
                ** constructor; [|exact Hokl']. split; [exact Ha|]. split; [exact St | exact Hb].
                ** destruct l' as [|x' l']; [contradiction|]. rewrite body_cons, new_same, new_app, Sn, new_same, El'. tx.
          -- intros A B toks. destruct (I34 (A ++ leaves_of (a ++ tree_node t :: b ++ [comma])) B) as (rss & I3 & I4). rewrite LA in I3, I4. rewrite <- Etoks in I3.
             exists (map fst (changes (bytes (text A) + lens a) psx) :: rss). split.
             ++ cbn [placed]. constructor; [|exact I3]. unfold entry_ranges. cbn [fst snd]. rewrite ER. reflexivity.
             ++ cbn [concat changes]. fold (lens a). rewrite changes_app, map_app, I4. cbn [changes]. rewrite So. fold (len_of (tree_node t)).
                fold (lens (b ++ [comma])). rewrite lens_app. change (lens [comma]) with 1. rewrite !Nat.add_assoc. reflexivity.
        * destruct y as [[a2 t2] b2]. cbn [fst snd] in ER2. pose proof (Forall_inv Hokl) as (Ha2 & Ht2 & Hb2).
          exists (Same (texts_of a) :: psx ++ [Same (texts_of b); Other (texts_of (comma :: a2 ++ [tree_node t2])) []; Same (texts_of b2)]).
          split; [|split; [|split]].
          -- rewrite body_cons, body_one, old_same, old_app, So. cbn [old_text flat_map trail_elems]. tx.
          -- constructor; [exact I|]. apply Forall_app. split; [exact Sd|]. repeat (constructor; [exact I || reflexivity|]). constructor.
          -- right. exists [(a, t', b ++ b2)], None. split; [discriminate|]. split; [|split; [|split; [exact I|split]]].
             ++ change a with ([] ++ a) at 2. apply fewer_kept; [exact Ss | constructor | exact Hb2 | apply fewer_gone; constructor].
             ++ unfold imports_all, remaining. cbn [flat_map fst snd]. rewrite ER, ER2. reflexivity.
             ++ constructor; [|constructor]. split; [exact Ha|]. split; [exact St | apply blank_app; auto].
             ++ rewrite body_one, new_same, new_app, Sn. cbn [new_text flat_map trail_elems]. tx.
          -- intros A B toks.
             exists [map fst (changes (bytes (text A) + lens a) psx);
               [(bytes (text A) + lens a + len_of (tree_node t) + lens b, bytes (text A) + lens a + len_of (tree_node t) + lens b + 1 + lens a2 + len_of (tree_node t2))]].
             split.
             ++ cbn [placed]. constructor; [|constructor; [|constructor]].
                ** unfold entry_ranges. cbn [fst snd]. rewrite ER. reflexivity.
                ** pose proof (ranges_last (A ++ leaves_of (a ++ tree_node t :: b)) a2 t2 b2 B Ha2 Hb2 Ht2 ER2) as N.
                   rewrite text_app, bytes_app, bytes_texts, lens_app, lens_cons, !Nat.add_assoc in N.
                   replace toks with (place_leaves 0 ((A ++ leaves_of (a ++ tree_node t :: b)) ++ leaves_of (comma :: a2 ++ tree_node t2 :: b2) ++ (R_CURLY, lit "}") :: B)); [exact N|].
                   unfold toks. rewrite body_cons, body_one. cbn [trail_elems]. rewrite app_nil_r. f_equal. rewrite <- app_assoc. f_equal. rewrite app_assoc, <- leaves_of_app. f_equal. f_equal.
                   rewrite <- app_assoc. reflexivity.
             ++ cbn [concat changes]. fold (lens a). rewrite changes_app, map_app. cbn [changes map fst app]. rewrite So. fold (len_of (tree_node t)). fold (lens b).
                fold (lens (comma :: a2 ++ [tree_node t2])). rewrite lens_cons, lens_app. change (len_of comma) with 1.
                assert (E1 : lens [tree_node t2] = len_of (tree_node t2)) by (rewrite lens_cons; change (lens []) with 0; lia). rewrite E1, !Nat.add_assoc. reflexivity.
      + assert (D : fine (y :: l) trail) by (inversion Hf; subst; [constructor | congruence | assumption]).
        destruct (IH trail ltac:(discriminate) Hokl Hstl Htr D) as (ps & I1 & I2 & I5 & I34).
        exists (Same (texts_of a) :: Other (texts_of (tree_node t :: b ++ [comma])) [] :: ps).
        split; [|split; [|split]].
        * rewrite body_cons. cbn [old_text flat_map]. fold (old_text ps). rewrite I1. tx.
        * constructor; [exact I|]. constructor; [reflexivity | exact I2].
        * destruct I5 as [(z & Hz & Hnz & Hg & Ez)|(l' & trail' & Hl' & Hfe & Him & Htr' & Hokl' & El')].
          -- left. exists (a ++ z). split; [apply blank_app; auto|]. split; [exact Hnz|]. split; [constructor; [exact ER | exact Hg]|].
             cbn [new_text flat_map]. fold (new_text ps). rewrite Ez, texts_of_app. reflexivity.
          -- right. destruct l' as [|[[a1 t1] b1] l']; [contradiction|]. exists ((a ++ a1, t1, b1) :: l'), trail'. split; [discriminate|].
             split; [|split; [|split; [exact Htr'|split]]].
             ++ apply fewer_gone. eapply fewer_more; [exact Ha | exact Hfe | reflexivity].
             ++ unfold imports_all, remaining in *. cbn [flat_map fst snd] in *. rewrite ER. exact Him.
             ++ pose proof (Forall_inv Hokl') as (Hx1 & Hx2 & Hx3). pose proof (Forall_inv_tail Hokl') as Hx4. constructor; [|exact Hx4]. split; [apply blank_app; auto | split; assumption].
             ++ rewrite body_front. cbn [new_text flat_map]. fold (new_text ps). rewrite El', texts_of_app. reflexivity.
        * intros A B toks. destruct (I34 (A ++ leaves_of (a ++ tree_node t :: b ++ [comma])) B) as (rss & I3 & I4). rewrite LA in I3, I4. rewrite <- Etoks in I3.
          exists ([(bytes (text A) + lens a, bytes (text A) + lens a + len_of (tree_node t) + lens b + 1)] :: rss). split.
          -- cbn [placed]. constructor; [|exact I3]. unfold toks. rewrite Etoks, <- app_assoc. apply ranges_next; assumption.
          -- cbn [concat changes map fst app]. fold (lens a). fold (lens (tree_node t :: b ++ [comma])). rewrite I4, lens_cons, lens_app. change (lens [comma]) with 1.
             rewrite !Nat.add_assoc. reflexivity.
  Qed.
End Walk.

(** ** Choosing what becomes of each tree *)
Definition elem_dec : forall a b : elem, {a = b} + {a <> b}.
Proof.
  fix IH 1. intros a b. decide equality; try apply skind_eq_dec; try apply (list_eq_dec N.eq_dec). apply (list_eq_dec IH).
Defined.
Definition elems_dec := list_eq_dec elem_dec.
Definition upath_dec : forall a b : upath, {a = b} + {a <> b}.
Proof. decide equality; apply elems_dec. Defined.
Definition utree_dec : forall a b : utree, {a = b} + {a <> b}.
Proof.
  fix IH 1. intros a b. decide equality.
  - decide equality; apply elems_dec.
  - apply upath_dec.
  - decide equality. apply elems_dec.
  - apply list_eq_dec. intros [[x t] y] [[x' t'] y']. destruct (elems_dec x x') as [->|E]; [|right; congruence].
    destruct (elems_dec y y') as [->|E]; [|right; congruence]. destruct (IH t t') as [->|E]; [left; reflexivity | right; congruence].
  - decide equality. decide equality; [apply elems_dec | apply upath_dec].
Defined.
Lemma pick {B} (P : utree -> B -> Prop) (d : B) l : Forall (fun x => exists y, P x y) l -> exists f, Forall (fun x => P x (f x)) l.
Proof.
  induction l as [|x l IH]; intros H; [exists (fun _ => d); constructor|]. inversion H as [|? ? (y & Hy) Hl]; subst. destruct (IH Hl) as (f & Hf).
  exists (fun z => if utree_dec z x then y else f z). constructor; [destruct (utree_dec x x); [exact Hy | contradiction]|].
  rewrite Forall_forall in *. intros z Hz. destruct (utree_dec z x) as [->|_]; [exact Hy | apply Hf, Hz].
Qed.

(** ** What a tree imports *)
Lemma imports_many f l trail : imports (Many f l trail) = map (app (prefix_of f)) (imports_all l).
Proof.
  cbn [imports]. f_equal. unfold imports_all. induction l as [|[[a t] b] l IH]; [reflexivity|]. cbn [flat_map fst snd]. f_equal. exact IH.
Qed.
Lemma imports_some t : tree_ok t -> imports t <> [] /\ (forall w, In w (imports t) -> w <> []).
Proof.
  induction t as [p e|f l trail IH] using utree_ind'; intros H; inversion H; subst.
  - pose proof (words_some p) as W. destruct e; cbn [imports]; (split; [discriminate|]); intros w [<-|[]]; try exact W. destruct (words p); discriminate.
  - rewrite imports_many. split.
    + destruct l as [|[[a t] b] l]; [contradiction|]. pose proof (Forall_inv IH) as I1. cbn [fst snd] in I1.
      destruct (I1 (proj1 (proj2 (H6 a t b (or_introl eq_refl))))) as [I2 _]. unfold imports_all. cbn [flat_map fst snd].
      destruct (imports t); [contradiction | discriminate].
    + intros w Hw. apply in_map_iff in Hw. destruct Hw as (w' & <- & Hw). unfold imports_all in Hw. apply in_flat_map in Hw. destruct Hw as ([[a t] b] & Hi & Hw).
      rewrite Forall_forall in IH. destruct (IH _ Hi (proj1 (proj2 (H6 a t b Hi)))) as [_ I2]. specialize (I2 w' Hw).
      destruct (prefix_of f); [exact I2 | discriminate].
Qed.
Definition allb (t : utree) : bool := forallb deprecatedb (imports t).
Definition good (w : list str) : bool := negb (deprecatedb w).
Lemma goes_allb t : goes [] t <-> allb t = true.
Proof.
  unfold goes, allb. rewrite Forall_map, Forall_forall, forallb_forall. cbn [app]. split; intros H w Hw; apply deprecated_iff, H, Hw.
Qed.
Lemma filter_all {A} (f : A -> bool) l : forallb f l = true -> filter (fun x => negb (f x)) l = [].
Proof. induction l as [|x l IH]; [reflexivity|]. cbn [forallb filter]. intros H. apply andb_prop in H. destruct H as [-> H]. cbn [negb]. apply IH, H. Qed.

(** ** The list of a tree *)
Lemma list_children l trail p : Forall entry_okay l -> trail_ok trail ->
  child_nodes USE_TREE (p, Node USE_TREE_LIST (lcurly :: body l trail ++ [rcurly])) = map (fun x : nat * utree => (fst x, tree_node (snd x))) (placed (p + 1) l).
Proof.
  intros Hl Ht. rewrite child_nodes_sel. unfold lcurly. rewrite sel_tok. change (bytes (lit "{")) with 1.
  assert (T : forall o, sel USE_TREE o (trail_elems trail) = []).
  { intros o. destruct trail as [z|]; [|reflexivity]. cbn [trail_elems]. unfold comma. rewrite sel_tok. apply sel_no_node, blank_no_node, Ht. }
  assert (Z : forall o, sel USE_TREE o [rcurly] = []) by reflexivity.
  rewrite sel_app, Z, app_nil_r. generalize (p + 1) as o. induction Hl as [|[[a t] b] l (Ha & _ & Hb) Hl IH]; intros o.
  - unfold body. cbn [nodes_of map between app placed]. apply T.
  - cbn [placed map fst snd]. destruct (tree_node_kind t) as (cs & E). destruct l as [|y l].
    + rewrite body_one, sel_app, (sel_no_node _ _ (blank_no_node _ a Ha)), E, sel_node, sel_app, (sel_no_node _ _ (blank_no_node _ b Hb)), T. reflexivity.
    + rewrite body_cons, sel_app, (sel_no_node _ _ (blank_no_node _ a Ha)), E, sel_node, sel_app, (sel_no_node _ _ (blank_no_node _ b Hb)). cbn [app].
      f_equal. unfold comma. rewrite sel_tok. change (bytes (lit ",")) with 1. apply IH.
Qed.
Fixpoint seq_of (f : lelem -> outcome (list trange * bool)) (l : list lelem) : outcome (list trange * bool) :=
  match l with
  | [] => Done ([], false)
  | x :: l' => obind_o (f x) (fun r => obind_o (seq_of f l') (fun rest => Done (fst r ++ fst rest, snd r || snd rest)))
  end.
Lemma each_tree_sel inner ts : forall p, each_tree inner ts p = seq_of (fun x => inner (snd x) (fst x)) (sel USE_TREE p ts).
Proof.
  induction ts as [|c ts IH]; intros p; [reflexivity|]. cbn [each_tree]. fold (each_tree inner). rewrite IH. unfold sel. cbn [place filter snd].
  unfold lkind at 2. cbn [snd]. destruct (negb (is_tok c) && skind_eqb (kind_of c) USE_TREE); [reflexivity|]. cbn [obind_o].
  fold (sel USE_TREE (p + len_of c) ts). destruct (seq_of _ (sel USE_TREE (p + len_of c) ts)) as [[r b]|]; reflexivity.
Qed.

(** ** Ranges are always computed *)
Lemma node_done toks n k : exists r, node_and_delimiter_range toks n k = Done r.
Proof.
  unfold node_and_delimiter_range. destruct n as [o e].
  assert (L : bytes (text (leaves e)) = len_of e) by (rewrite text_leaves; reflexivity).
  assert (E1 : exists er, match elem_last_leaf (o, e) with Some t => token_and_delimiter_range toks t k | None => Done (lrange_of (o, e)) end = Done er /\ o <= snd er).
  { destruct (elem_last_leaf (o, e)) as [t|] eqn:E; [|exists (lrange_of (o, e)); split; [reflexivity | unfold lrange_of, lend; cbn [fst snd]; lia]].
    unfold elem_last_leaf in E. cbn [fst snd] in E. apply last_opt_some in E. destruct E as (l0 & E).
    assert (B : In t (place_leaves o (leaves e))) by (rewrite E; apply in_or_app; right; left; reflexivity). apply place_leaves_bounds in B.
    unfold token_and_delimiter_range. pose proof (lf_le t). destruct (closest_delimiter k (leaves_after toks t)) as [nx|] eqn:En.
    - unfold closest_delimiter in En. apply RuleProofs.closest_In in En. unfold leaves_after in En. apply filter_In in En. destruct En as [_ En]. apply Nat.leb_le in En. pose proof (lf_le nx).
      unfold mk_range. rewrite (proj2 (Nat.leb_le _ _)) by lia. eexists. split; [reflexivity|]. cbn [snd]. lia.
    - destruct (closest_delimiter k (leaves_before toks t)) as [p|] eqn:Ep.
      + unfold closest_delimiter in Ep. apply RuleProofs.closest_In in Ep. unfold leaves_before in Ep. apply in_rev in Ep. apply filter_In in Ep. destruct Ep as [_ Ep]. apply Nat.leb_le in Ep. pose proof (lf_le p).
        unfold mk_range. rewrite (proj2 (Nat.leb_le _ _)) by lia. eexists. split; [reflexivity|]. cbn [snd]. lia.
      + unfold mk_range. rewrite (proj2 (Nat.leb_le _ _)) by lia. eexists. split; [reflexivity|]. cbn [snd]. lia. }
  destruct E1 as (er & -> & Her). cbn [obind_o].
  assert (E2 : exists sr, match (if snd er =? lend (o, e) then elem_first_leaf (o, e) else None) with
                          | Some t => token_and_delimiter_range toks t k | None => Done (lrange_of (o, e)) end = Done sr /\ fst sr <= snd er).
  { destruct (snd er =? lend (o, e)) eqn:Q; [apply Nat.eqb_eq in Q|].
    2:{ eexists. split; [reflexivity|]. exact Her. }
    destruct (elem_first_leaf (o, e)) as [t|] eqn:E.
    2:{ eexists. split; [reflexivity|]. exact Her. }
    unfold elem_first_leaf in E. cbn [fst snd] in E.
    assert (B : In t (place_leaves o (leaves e))) by (destruct (place_leaves o (leaves e)); [discriminate|]; cbn in E; injection E as ->; left; reflexivity).
    apply place_leaves_bounds in B. pose proof (lf_le t). unfold lend in Q. cbn [fst snd] in Q.
    unfold token_and_delimiter_range. destruct (closest_delimiter k (leaves_after toks t)) as [nx|] eqn:En.
    - unfold closest_delimiter in En. apply RuleProofs.closest_In in En. unfold leaves_after in En. apply filter_In in En. destruct En as [_ En]. apply Nat.leb_le in En. pose proof (lf_le nx).
      unfold mk_range. rewrite (proj2 (Nat.leb_le _ _)) by lia. eexists. split; [reflexivity|]. cbn [fst]. lia.
    - destruct (closest_delimiter k (leaves_before toks t)) as [p|] eqn:Ep.
      + unfold closest_delimiter in Ep. apply RuleProofs.closest_In in Ep. unfold leaves_before in Ep. apply in_rev in Ep. apply filter_In in Ep. destruct Ep as [_ Ep]. apply Nat.leb_le in Ep. pose proof (lf_le p).
        unfold mk_range. rewrite (proj2 (Nat.leb_le _ _)) by lia. eexists. split; [reflexivity|]. cbn [fst]. lia.
      + unfold mk_range. rewrite (proj2 (Nat.leb_le _ _)) by lia. eexists. split; [reflexivity|]. cbn [fst]. lia. }
  destruct E2 as (sr & -> & Hsr). cbn [obind_o]. unfold mk_range. rewrite (proj2 (Nat.leb_le _ _)) by exact Hsr. eauto.
Qed.
Lemma whole_done toks t : exists r, whole toks t = Done ([r], false).
Proof. unfold whole. destruct (node_done toks t COMMA) as (r & ->). cbn [obind_o]. eauto. Qed.

(** ** Single trees *)
Lemma path_child o p l : child_node PATH (o, Node USE_TREE (path_node p :: l)) = Some (o, path_node p).
Proof. unfold child_node. rewrite child_nodes_sel. destruct (path_node_kind p) as (cs & ->). rewrite sel_node. reflexivity. Qed.
Lemma e2e_text p : path_ok p -> str_eqb (text_of (path_node p)) (lit "ink_e2e") = match words p with [w] => str_eqb w (lit "ink_e2e") | _ => false end.
Proof. intros H. apply single_eqb; [exact H | apply no_colon; reflexivity]. Qed.
Lemma deprecated_cut a w : a <> [] -> w <> [] -> deprecatedb (a ++ w) = true -> a = [lit "ink_e2e"] /\ exists x, w = [x] /\ deprecated_name x = true.
Proof.
  intros Ha Hw H. destruct a as [|x [|y a]]; [contradiction| |].
  - destruct w as [|z [|z' w]]; [contradiction| |discriminate]. cbn [app deprecatedb] in H. apply andb_prop in H. destruct H as [H1 H2]. apply str_eqb_eq in H1. subst x.
    split; [reflexivity|]. exists z. split; [reflexivity | exact H2].
  - exfalso. destruct a; [destruct w; [contradiction | discriminate] | discriminate].
Qed.
Definition dc (s : utree) : bool := forallb deprecatedb (map (app [lit "ink_e2e"]) (imports s)).
Lemma child_dep o s : tree_ok s -> with_path s -> (forall w, In w (imports s) -> ~ from_inside (lit "ink_e2e" :: w)) ->
  deprecated_child (o, tree_node s) = dc s /\ (dc s = false -> Forall (fun w => deprecatedb (lit "ink_e2e" :: w) = false) (imports s)).
Proof.
  intros Hok Hp Hin. unfold deprecated_child. destruct Hp as [p e|p sep l trail Hl]; inversion Hok; subst.
  - cbn [tree_node]. rewrite path_child. cbn [snd]. rewrite name_single by assumption. unfold dc.
    assert (E : forall w, words p = [w] -> deprecated_name w = true -> forall le, e = Star le -> False).
    { intros w Ew Hw le ->. apply (Hin (words p ++ [lit "*"])); [left; reflexivity|]. rewrite Ew. exists [lit "ink_e2e"; w], (lit "*"), []. split; [reflexivity|].
      apply deprecated_iff. cbn [deprecatedb]. rewrite str_eqb_refl. exact Hw. }
    destruct (words p) as [|w [|w' r]] eqn:W.
    + exfalso. apply (words_some p W).
    + destruct (deprecated_name w) eqn:Ew.
      * split; [|destruct e as [|le|le]; cbn [imports map forallb app]; try rewrite W; cbn [app deprecatedb]; unfold deprecated_name in Ew; rewrite ?str_eqb_refl, ?Ew; try discriminate].
        -- destruct e as [|le|le]; cbn [imports map forallb app]; rewrite ?W; cbn [app deprecatedb]; unfold deprecated_name in Ew; rewrite ?str_eqb_refl, ?Ew; try reflexivity.
           exfalso. exact (E w eq_refl Ew le eq_refl).
        -- exfalso. apply (E w eq_refl Ew le eq_refl).
      * split; [|intros _]; destruct e as [|le|le]; cbn [imports map forallb app]; rewrite ?W; cbn [app deprecatedb]; unfold deprecated_name in Ew; rewrite ?str_eqb_refl, ?Ew; try reflexivity;
          constructor; try constructor; cbn [deprecatedb]; rewrite ?str_eqb_refl, ?Ew; reflexivity.
    + split; [|intros _]; destruct e as [|le|le]; cbn [imports map forallb app]; rewrite ?W; cbn [app deprecatedb]; try reflexivity; try (constructor; [reflexivity | constructor]).
      all: destruct r; reflexivity || (constructor; [reflexivity | constructor]).
  - cbn [tree_node front_elems app]. rewrite path_child. cbn [snd]. cbn [front_okay] in H2. destruct H2 as [Hp Hsep]. rewrite name_single by exact Hp.
    destruct (imports_some _ Hok) as [Hi1 Hi2].
    assert (N : forall w, In w (imports (Many (Some (p, sep)) l trail)) -> deprecatedb (lit "ink_e2e" :: w) = false).
    { intros w Hw. rewrite imports_many in Hw. cbn [prefix_of] in Hw. apply in_map_iff in Hw. destruct Hw as (w' & <- & Hw).
      destruct (deprecatedb (lit "ink_e2e" :: words p ++ w')) eqn:Q; [|reflexivity]. exfalso.
      destruct (deprecated_cut (lit "ink_e2e" :: words p) w' ltac:(discriminate)) as [Q1 _]; [|exact Q | pose proof (words_some p); injection Q1 as Q1; contradiction].
      unfold imports_all in Hw. apply in_flat_map in Hw. destruct Hw as ([[a s] b] & Hia & Hw). destruct (H5 a s b Hia) as (_ & Hs & _).
      apply (proj2 (imports_some s Hs) w' Hw). }
    split.
    + transitivity false.
      * destruct (words p) as [|w [|w' r]] eqn:W; try reflexivity. destruct (deprecated_name w) eqn:Ew; [|reflexivity]. exfalso.
        rewrite imports_many in Hi1, Hin. cbn [prefix_of] in Hi1, Hin. rewrite W in Hi1, Hin. destruct (imports_all l) as [|w' r] eqn:El; [contradiction|].
        assert (Hw' : w' <> []).
        { assert (Hi : In w' (imports_all l)) by (rewrite El; left; reflexivity). unfold imports_all in Hi. apply in_flat_map in Hi. destruct Hi as ([[a s] b] & Hia & Hi).
          destruct (H5 a s b Hia) as (_ & Hs & _). apply (proj2 (imports_some s Hs) w' Hi). }
        destruct w' as [|x w']; [contradiction|].
        apply (Hin ([w] ++ x :: w')); [left; reflexivity|]. exists [lit "ink_e2e"; w], x, w'. split; [reflexivity|]. apply deprecated_iff. cbn [deprecatedb]. rewrite str_eqb_refl. exact Ew.
      * unfold dc. destruct (imports (Many (Some (p, sep)) l trail)) as [|w r] eqn:E; [contradiction|]. cbn [map forallb]. symmetry.
        apply Bool.andb_false_iff. left. apply N. left. reflexivity.
    + intros _. apply Forall_forall. exact N.
Qed.

(** ** Lists that can be cut *)
Lemma fine_of R l : l <> [] -> fine R l None \/ (exists x, l = [x] /\ gone R x)
  \/ (exists l0 x y, l = l0 ++ [x; y] /\ gone R x /\ gone R y).
Proof.
  induction l as [|[[a t] b] l IH]; intros Hn; [contradiction|]. destruct l as [|y l].
  - destruct (R t) eqn:E; [left; apply fine_kept; congruence | right; left; eexists; split; [reflexivity | exact E]].
  - destruct (IH ltac:(discriminate)) as [F|[(x & Ex & Hx)|(l0 & x & z & E & Hx & Hz)]].
    + left. apply fine_cons, F.
    + injection Ex as -> ->. destruct (R t) eqn:E; [left; apply fine_kept_gone; congruence|]. right. right. exists [], (a, t, b), x. repeat split; [exact E | exact Hx].
    + right. right. exists ((a, t, b) :: l0), x, z. rewrite E. auto.
Qed.
Lemma placed_tree l : forall o x, In x (placed o l) -> exists a b, In (a, snd x, b) l.
Proof.
  induction l as [|[[a t] b] l IH]; intros o x H; [contradiction|]. cbn [placed] in H. destruct H as [<-|H]; [exists a, b; left; reflexivity|].
  destruct (IH _ _ H) as (a' & b' & Hi). exists a', b'. right. exact Hi.
Qed.
Lemma map_snd_placed l : forall o, map snd (placed o l) = map (fun x : entry => snd (fst x)) l.
Proof. induction l as [|[[a t] b] l IH]; intros o; [reflexivity|]. cbn [placed map fst snd]. f_equal. apply IH. Qed.
Lemma many_leaves f l trail : leaves (tree_node (Many f l trail))
  = leaves_of (front_elems f) ++ (L_CURLY, lit "{") :: leaves_of (body l trail) ++ [(R_CURLY, lit "}")].
Proof. rewrite tree_many, leaves_node, leaves_of_app, leaves_one. change (lcurly :: body l trail ++ [rcurly]) with ([lcurly] ++ body l trail ++ [rcurly]). rewrite !leaves_of_app. reflexivity. Qed.
Lemma many_text f l trail : text_of (tree_node (Many f l trail)) = texts_of (front_elems f) ++ lit "{" ++ texts_of (body l trail) ++ lit "}".
Proof.
  rewrite tree_many, text_of_node, texts_of_app. f_equal. rewrite texts_cons, text_of_node. change (texts_of []) with (@nil N). rewrite app_nil_r.
  change (lcurly :: body l trail ++ [rcurly]) with ([lcurly] ++ body l trail ++ [rcurly]). rewrite !texts_of_app. reflexivity.
Qed.

(** What is known of a tree that stays *)
Definition stays_as (t : utree) (ps : list piece) (t' : utree) : Prop :=
  old_text ps = text_of (tree_node t) /\ new_text ps = text_of (tree_node t') /\ smaller t t' /\ tree_ok t' /\ dels ps
  /\ imports t' = filter good (imports t)
  /\ forall A B, deprecated_inner (place_leaves 0 (A ++ leaves (tree_node t) ++ B)) (tree_node t) (bytes (text A)) = Done (map fst (changes (bytes (text A)) ps), true).
Definition goes_whole (t : utree) : Prop := forall toks o, deprecated_inner toks (tree_node t) o = whole toks (o, tree_node t).
Definition settled (t : utree) : Prop :=
  (allb t = true -> goes_whole t) /\ (allb t = false -> exists ps t', stays_as t ps t').

Lemma filter_keep {A} (f : A -> bool) l : (forall x, In x l -> f x = true) -> filter f l = l.
Proof.
  induction l as [|x l IH]; intros H; [reflexivity|]. cbn [filter]. rewrite (H x (or_introl eq_refl)). f_equal. apply IH. intros y Hy. apply H. right. exact Hy.
Qed.
Lemma stays_same t : tree_ok t -> (forall w, In w (imports t) -> deprecatedb w = false) ->
  (forall toks o, deprecated_inner toks (tree_node t) o = Done ([], true)) -> stays_as t [Same (text_of (tree_node t))] t.
Proof.
  intros Ht Hi Hd. split; [apply app_nil_r|]. split; [apply app_nil_r|]. split; [constructor|]. split; [exact Ht|]. split; [constructor; [exact I | constructor]|].
  split; [symmetry; apply filter_keep; intros w Hw; unfold good; rewrite (Hi w Hw); reflexivity|]. intros A B. rewrite Hd. reflexivity.
Qed.
Lemma allb_none t : tree_ok t -> (forall w, In w (imports t) -> deprecatedb w = false) -> allb t = false.
Proof.
  intros Ht Hi. destruct (imports_some t Ht) as [Hn _]. unfold allb. destruct (imports t) as [|w r]; [contradiction|]. cbn [forallb]. rewrite (Hi w (or_introl eq_refl)). reflexivity.
Qed.

Lemma settled_one p e : tree_ok (One p e) -> (forall w, In w (imports (One p e)) -> ~ from_inside w) -> settled (One p e).
Proof.
  intros Hok Hin. inversion Hok; subst.
  assert (E : forall toks o, deprecated_inner toks (tree_node (One p e)) o = if deprecatedb (words p) then whole toks (o, tree_node (One p e)) else Done ([], true)).
  { intros toks o. cbn [tree_node]. cbn [deprecated_inner]. rewrite path_child, path_deprecated by assumption. destruct (deprecatedb (words p)); [reflexivity|].
    cbn [snd]. destruct (str_eqb _ _); [|reflexivity]. unfold from_e2e, child_node. rewrite child_nodes_sel. destruct (path_node_kind p) as (cs & ->).
    rewrite sel_other by discriminate. rewrite sel_no_node; [reflexivity|]. destruct e as [|le|le]; cbn [ending_elems ending_ok] in *; [intros cs' []| tauto | tauto]. }
  destruct (deprecatedb (words p)) eqn:D.
  - assert (Hs : forall le, e <> Star le).
    { intros le ->. apply (Hin (words p ++ [lit "*"])); [left; reflexivity|]. exists (words p), (lit "*"), []. split; [reflexivity | apply deprecated_iff, D]. }
    split; [intros _ toks o; apply E|]. intros F. exfalso. unfold allb in F. destruct e as [|le|le]; cbn [imports forallb] in F; try (rewrite D in F; discriminate).
    exact (Hs le eq_refl).
  - assert (N : forall w, In w (imports (One p e)) -> deprecatedb w = false).
    { intros w Hw. destruct e as [|le|le]; cbn [imports] in Hw; destruct Hw as [<-|[]]; try exact D. rewrite deprecatedb_snoc. destruct (words p) as [|x [|y r]]; try reflexivity.
      apply Bool.andb_false_r. }
    split; [rewrite (allb_none _ Hok N); discriminate|]. intros _. exists [Same (text_of (tree_node (One p e)))], (One p e). apply stays_same; [exact Hok | exact N | exact E].
Qed.

(** What the walk through the list makes of the tree *)
Lemma many_stays f l trail ps : front_okay f -> old_text ps = texts_of (body l trail) -> dels ps -> 
  forall l' trail', l' <> [] -> fewer l l' -> trail_ok trail' -> Forall entry_okay l' -> new_text ps = texts_of (body l' trail') ->
  let ps' := Same (texts_of (front_elems f) ++ lit "{") :: ps ++ [Same (lit "}")] in
  old_text ps' = text_of (tree_node (Many f l trail)) /\ new_text ps' = text_of (tree_node (Many f l' trail')) /\ smaller (Many f l trail) (Many f l' trail')
  /\ tree_ok (Many f l' trail') /\ dels ps'
  /\ forall o, changes o ps' = changes (o + lens (front_elems f) + 1) ps.
Proof.
  intros Hf Ho Hd l' trail' Hn Hfe Htr Hok Hnew ps'. unfold ps'. rewrite !many_text, old_same, new_same, old_app, new_app, Ho, Hnew.
  split; [rewrite <- app_assoc; reflexivity|]. split; [rewrite <- app_assoc; reflexivity|]. split; [constructor; exact Hfe|].
  split; [|split].
  - constructor; auto. intros a t b Hi. rewrite Forall_forall in Hok. specialize (Hok _ Hi). exact Hok.
  - constructor; [exact I|]. apply Forall_app. split; [exact Hd | constructor; [exact I | constructor]].
  - intros o. cbn [changes]. rewrite changes_app, bytes_app. fold (lens (front_elems f)). change (bytes (lit "{")) with 1. cbn [changes]. rewrite app_nil_r, Nat.add_assoc. reflexivity.
Qed.

(** ** Trees with a path and a list *)
Definition F (x : nat * utree) : lelem := (fst x, tree_node (snd x)).
Definition only_whole (s : utree) : option (list piece * utree) := if dc s then None else Some ([Same (text_of (tree_node s))], s).
Lemma e2e_ranges toks xs rss : Forall (fun x => deprecated_child (F x) = dc (snd x)) xs -> Forall2 (entry_ranges only_whole toks) xs rss ->
  all_done (map (fun c => node_and_delimiter_range toks c COMMA) (filter deprecated_child (map F xs))) = Done (concat rss).
Proof.
  intros Hd H. induction H as [|x rs xs rss Hx _ IH]; [reflexivity|]. inversion Hd as [|? ? D1 D2]; subst. specialize (IH D2).
  cbn [map filter]. rewrite D1. unfold entry_ranges, only_whole in Hx. destruct (dc (snd x)).
  - destruct Hx as (r & Hr & ->). cbn [map all_done]. unfold F at 1. rewrite Hr. cbn [obind_o]. rewrite IH. reflexivity.
  - rewrite IH. subst rs. reflexivity.
Qed.
Lemma all_done_some toks l : exists rs, all_done (map (fun c => node_and_delimiter_range toks c COMMA) l) = Done rs /\ length rs = length l.
Proof.
  induction l as [|c l (rs & E & L)]; [exists []; split; reflexivity|]. destruct (node_done toks c COMMA) as (r & Er). exists (r :: rs). cbn [map all_done].
  rewrite Er. cbn [obind_o]. rewrite E. split; [reflexivity | cbn [length]; f_equal; exact L].
Qed.
Lemma list_child f l trail o : front_okay f ->
  child_node USE_TREE_LIST (o, tree_node (Many f l trail)) = Some (o + lens (front_elems f), Node USE_TREE_LIST (lcurly :: body l trail ++ [rcurly])).
Proof.
  intros Hf. rewrite tree_many. unfold child_node. rewrite child_nodes_sel, sel_app, sel_no_node; [rewrite sel_node; reflexivity|].
  destruct f as [[p sep]|]; [|intros cs []]. cbn [front_elems front_okay] in *. destruct Hf as [_ Hs]. destruct (path_node_kind p) as (cs & ->).
  intros cs' [Hi|Hi]; [discriminate | apply (sep_no_node _ _ Hs cs' Hi)].
Qed.
Lemma filter_neg_all {A} (f : A -> bool) l : filter (fun x => negb (f x)) l = [] -> forallb f l = true.
Proof. induction l as [|x l IH]; [reflexivity|]. cbn [filter forallb]. destruct (f x); cbn [negb]; [exact IH | discriminate]. Qed.
Lemma forallb_map {A B} (f : B -> bool) (g : A -> B) l : forallb f (map g l) = forallb (fun x => f (g x)) l.
Proof. induction l as [|x l IH]; [reflexivity|]. cbn [map forallb]. rewrite IH. reflexivity. Qed.
Lemma forallb_flat {A B} (f : B -> bool) (g : A -> list B) l : forallb f (flat_map g l) = forallb (fun x => forallb f (g x)) l.
Proof. induction l as [|x l IH]; [reflexivity|]. cbn [flat_map forallb]. rewrite forallb_app, IH. reflexivity. Qed.
Lemma forallb_placed (f : utree -> bool) l : forall o, forallb (fun x => f (snd x)) (placed o l) = forallb (fun x : entry => f (snd (fst x))) l.
Proof. induction l as [|[[a t] b] l IH]; intros o; [reflexivity|]. cbn [placed forallb fst snd]. f_equal. apply IH. Qed.
Lemma forallb_eq {A} (f g : A -> bool) l : Forall (fun x => f x = g x) l -> forallb f l = forallb g l.
Proof. intros H. induction H as [|x l E _ IH]; [reflexivity|]. cbn [forallb]. rewrite E, IH. reflexivity. Qed.
Lemma allb_many f l trail : allb (Many f l trail) = forallb (fun x : entry => forallb deprecatedb (map (app (prefix_of f)) (imports (snd (fst x))))) l.
Proof. unfold allb. rewrite imports_many. unfold imports_all. rewrite flat_map_concat_map, concat_map, map_map, <- flat_map_concat_map, forallb_flat. reflexivity. Qed.
Lemma entries_okay f l trail : tree_ok (Many f l trail) -> front_okay f /\ trail_ok trail /\ l <> [] /\ Forall entry_okay l.
Proof. intros H. inversion H; subst. repeat split; auto. apply Forall_forall. intros [[a t] b] Hi. apply H6, Hi. Qed.

Lemma settled_path p sep l trail : tree_ok (Many (Some (p, sep)) l trail) -> (forall a t b, In (a, t, b) l -> with_path t) ->
  (forall w, In w (imports (Many (Some (p, sep)) l trail)) -> ~ from_inside w) -> ~ clash [] (Many (Some (p, sep)) l trail) ->
  settled (Many (Some (p, sep)) l trail).
Proof.
  intros Hok Hwp Hin Hcl. destruct (entries_okay _ _ _ Hok) as (Hf & Htr & Hn & Hl). pose proof Hf as [Hp Hsep]. destruct (imports_some _ Hok) as [Hi1 _].
  assert (Hws : forall w, In w (imports_all l) -> w <> []).
  { intros w Hw. unfold imports_all in Hw. apply in_flat_map in Hw. destruct Hw as ([[a s] b] & Hi & Hw). rewrite Forall_forall in Hl. destruct (Hl _ Hi) as (_ & Hs & _).
    apply (proj2 (imports_some s Hs) w Hw). }
  assert (E : forall toks o, deprecated_inner toks (tree_node (Many (Some (p, sep)) l trail)) o
    = if deprecatedb (words p) then whole toks (o, tree_node (Many (Some (p, sep)) l trail))
      else if match words p with [w] => str_eqb w (lit "ink_e2e") | _ => false end then from_e2e toks (o, tree_node (Many (Some (p, sep)) l trail)) else Done ([], true)).
  { intros toks o. cbn [tree_node]. cbn [deprecated_inner]. cbn [front_elems app]. rewrite path_child, path_deprecated by exact Hp. cbn [snd].
    rewrite e2e_text by exact Hp. reflexivity. }
  destruct (deprecatedb (words p)) eqn:D.
  { exfalso. rewrite imports_many in Hi1, Hin. cbn [prefix_of] in Hi1, Hin. destruct (imports_all l) as [|w r]; [contradiction|].
    pose proof (Hws w (or_introl eq_refl)) as Hw. destruct w as [|x w]; [contradiction|]. apply (Hin (words p ++ x :: w)); [left; reflexivity|].
    exists (words p), x, w. split; [reflexivity | apply deprecated_iff, D]. }
  destruct (match words p with [w] => str_eqb w (lit "ink_e2e") | _ => false end) eqn:W.
  2:{ assert (N : forall w, In w (imports (Many (Some (p, sep)) l trail)) -> deprecatedb w = false).
      { intros w Hw. rewrite imports_many in Hw. cbn [prefix_of] in Hw. apply in_map_iff in Hw. destruct Hw as (w' & <- & Hw).
        destruct (deprecatedb (words p ++ w')) eqn:Q; [|reflexivity]. destruct (deprecated_cut _ _ (words_some p) (Hws _ Hw) Q) as [Q1 _]. rewrite Q1, str_eqb_refl in W. discriminate. }
      split; [rewrite (allb_none _ Hok N); discriminate|]. intros _. eexists. eexists. apply stays_same; [exact Hok | exact N | exact E]. }
  assert (Wp : words p = [lit "ink_e2e"]).
  { destruct (words p) as [|w [|w' r]]; try discriminate. apply str_eqb_eq in W. subst w. reflexivity. }
  assert (CD : forall a s b, In (a, s, b) l -> forall o, deprecated_child (o, tree_node s) = dc s /\ (dc s = false -> Forall (fun w => deprecatedb (lit "ink_e2e" :: w) = false) (imports s))).
  { intros a s b Hi o. rewrite Forall_forall in Hl. apply child_dep; [apply (Hl _ Hi) | apply (Hwp _ _ _ Hi)|]. intros w Hw. apply Hin. rewrite imports_many. cbn [prefix_of].
    rewrite Wp. apply in_map_iff. exists w. split; [reflexivity|]. unfold imports_all. apply in_flat_map. exists (a, s, b). auto. }
  assert (Ea : allb (Many (Some (p, sep)) l trail) = forallb (fun x : entry => dc (snd (fst x))) l).
  { rewrite allb_many. cbn [prefix_of]. rewrite Wp. reflexivity. }
  assert (Dc : forall o, Forall (fun x => deprecated_child (F x) = dc (snd x)) (placed o l)).
  { intros o. apply Forall_forall. intros x Hx. destruct (placed_tree _ _ _ Hx) as (a & b & Hi). apply (CD a (snd x) b Hi). }
  assert (Ec : forall o, child_nodes USE_TREE (o, Node USE_TREE_LIST (lcurly :: body l trail ++ [rcurly])) = map F (placed (o + 1) l)) by (intros o; apply list_children; assumption).
  split.
  - intros A toks o. rewrite E. unfold from_e2e. rewrite list_child by exact Hf. rewrite Ec.
    set (xs := placed (o + lens (front_elems (Some (p, sep))) + 1) l).
    destruct (all_done_some toks (filter deprecated_child (map F xs))) as (rs & -> & Lr). cbn [obind_o].
    assert (Hall : forallb (fun c => deprecated_child c) (map F xs) = true).
    { rewrite forallb_map, (forallb_eq _ (fun x => dc (snd x))); [|apply Dc]. unfold xs. rewrite forallb_placed, <- Ea. exact A. }
    rewrite (filter_all deprecated_child _ Hall).
    destruct rs as [|r rs]; [|reflexivity]. exfalso. rewrite (filter_keep deprecated_child) in Lr by (apply forallb_forall, Hall).
    rewrite map_length in Lr. unfold xs in Lr. destruct l as [|[[a t] b] l]; [contradiction | discriminate].
  - intros A. 
    assert (St : Forall (stat_ok only_whole) l).
    { apply Forall_forall. intros [[a s] b] Hi. unfold stat_ok, only_whole. cbn [fst snd]. destruct (dc s); [exact I|]. rewrite Forall_forall in Hl. destruct (Hl _ Hi) as (_ & Hs & _).
      split; [apply app_nil_r|]. split; [apply app_nil_r|]. split; [constructor|]. split; [exact Hs | constructor; [exact I | constructor]]. }
    assert (Gd : forall x : entry, gone only_whole x -> goes [lit "ink_e2e"] (snd (fst x))).
    { intros x Hx. unfold gone, only_whole in Hx. destruct (dc (snd (fst x))) eqn:Q; [|discriminate]. unfold dc in Q. rewrite forallb_forall in Q. apply Forall_forall.
      intros w Hw. apply deprecated_iff, Q, Hw. }
    assert (Fi : fine only_whole l trail).
    { destruct trail as [z|]; [constructor|]. destruct (fine_of only_whole l Hn) as [Fi|[(x & -> & Hx)|(l0 & [[xa xs] xb] & [[ya ys] yb] & El & Hx & Hy)]]; [exact Fi| |].
      - exfalso. rewrite Ea in A. cbn [forallb] in A. unfold gone, only_whole in Hx. destruct (dc (snd (fst x))); [discriminate A | discriminate Hx].
      - exfalso. apply Hcl. constructor.
        + exists l0, xa, xs, xb, ya, ys, yb. cbn [app prefix_of]. rewrite Wp. split; [exact El|]. split; [apply (Gd _ Hx) | apply (Gd _ Hy)].
        + rewrite goes_allb, A. discriminate. }
    destruct (walk only_whole l trail Hn Hl St Htr Fi) as (ps & W1 & W2 & W5 & W34).
    assert (Ki : map (app [lit "ink_e2e"]) (remaining only_whole l) = filter good (map (app [lit "ink_e2e"]) (imports_all l))).
    { clear -CD. unfold remaining, imports_all. induction l as [|[[a s] b] l IH]; [reflexivity|]. cbn [flat_map fst snd]. rewrite !map_app, filter_app.
      rewrite <- IH by (intros a' s' b' Hi; apply (CD a' s' b'); right; exact Hi). f_equal. destruct (CD a s b (or_introl eq_refl) 0) as [_ C]. unfold only_whole. destruct (dc s) eqn:Q.
      - symmetry. apply filter_all, Q.
      - symmetry. apply filter_keep. intros w Hw. apply in_map_iff in Hw. destruct Hw as (w' & <- & Hw). unfold good. specialize (C eq_refl). rewrite Forall_forall in C.
        cbn [app]. rewrite (C w' Hw). reflexivity. }
    destruct W5 as [(z & Hz & Hnz & Hg & Ez)|(l' & trail' & Hl' & Hfe & Him & Htr' & Hokl' & El')].
    { exfalso. rewrite Ea in A. assert (Q : forallb (fun x : entry => dc (snd (fst x))) l = true); [|congruence]. apply forallb_forall. intros x Hx. rewrite Forall_forall in Hg.
      specialize (Hg x Hx). unfold gone, only_whole in Hg. destruct (dc (snd (fst x))); [reflexivity | discriminate]. }
    destruct (many_stays (Some (p, sep)) l trail ps Hf W1 W2 l' trail' Hl' Hfe Htr' Hokl' El') as (M1 & M2 & M3 & M4 & M5 & M6).
    eexists. exists (Many (Some (p, sep)) l' trail'). split; [exact M1|]. split; [exact M2|]. split; [exact M3|]. split; [exact M4|]. split; [exact M5|]. split.
    + rewrite !imports_many. cbn [prefix_of]. rewrite Wp, Him. exact Ki.
    + intros A' B'. rewrite M6, E. rewrite many_leaves. unfold from_e2e. rewrite list_child by exact Hf. rewrite Ec.
      destruct (W34 (A' ++ leaves_of (front_elems (Some (p, sep))) ++ [(L_CURLY, lit "{")]) B') as (rss & V3 & V4).
      assert (LA : bytes (text (A' ++ leaves_of (front_elems (Some (p, sep))) ++ [(L_CURLY, lit "{")])) = bytes (text A') + lens (front_elems (Some (p, sep))) + 1).
      { rewrite !text_app, !bytes_app, bytes_texts. change (bytes (text [(L_CURLY, lit "{")])) with 1. lia. }
      rewrite LA in V3, V4.
      replace (A' ++ (leaves_of (front_elems (Some (p, sep))) ++ (L_CURLY, lit "{") :: leaves_of (body l trail) ++ [(R_CURLY, lit "}")]) ++ B')
        with ((A' ++ leaves_of (front_elems (Some (p, sep))) ++ [(L_CURLY, lit "{")]) ++ leaves_of (body l trail) ++ (R_CURLY, lit "}") :: B')
        by (repeat (rewrite <- ?app_assoc; cbn [app]); reflexivity).
      rewrite (e2e_ranges _ _ _ (Dc _) V3). cbn [obind_o]. rewrite V4.
      destruct (map fst (changes (bytes (text A') + lens (front_elems (Some (p, sep))) + 1) ps)) as [|r rs] eqn:Er; [reflexivity|].
      destruct (filter (fun c => negb (deprecated_child c)) (map F (placed (bytes (text A') + lens (front_elems (Some (p, sep))) + 1) l))) eqn:Ef; [|reflexivity].
      exfalso. apply filter_neg_all in Ef. rewrite forallb_map, (forallb_eq _ (fun x => dc (snd x))) in Ef by apply Dc. rewrite forallb_placed, <- Ea in Ef. congruence.
Qed.

(** ** Trees in braces without a path *)
Lemma group_inner toks l trail o : Forall entry_okay l -> trail_ok trail ->
  deprecated_inner toks (tree_node (Many None l trail)) o
  = obind_o (seq_of (fun x => deprecated_inner toks (snd x) (fst x)) (map F (placed (o + 1) l)))
      (fun r => match fst r with [] => Done ([], true) | _ => if snd r then Done (fst r, true) else whole toks (o, tree_node (Many None l trail)) end).
Proof.
  intros Hl Ht. rewrite tree_many. cbn [front_elems app]. cbn [deprecated_inner].
  replace (child_node PATH (o, Node USE_TREE [Node USE_TREE_LIST (lcurly :: body l trail ++ [rcurly])])) with (@None lelem) by reflexivity.
  cbn [in_list]. rewrite skind_eqb_refl, each_tree_sel, <- (child_nodes_sel USE_TREE o USE_TREE_LIST), list_children by assumption. reflexivity.
Qed.
(** The tokens around a tree of a list *)
Lemma placed_leaves trail l : Forall entry_okay l -> forall A B x, In x (placed (bytes (text A)) l) ->
  exists A' B', A ++ leaves_of (body l trail) ++ B = A' ++ leaves (tree_node (snd x)) ++ B' /\ bytes (text A') = fst x.
Proof.
  intros Hl. induction Hl as [|[[a t] b] l _ Hl IH]; intros A B x Hx; [contradiction|]. cbn [placed] in Hx. destruct Hx as [<-|Hx].
  - cbn [fst snd]. exists (A ++ leaves_of a). assert (R : exists rest, body (@cons entry (a, t, b) l) trail = a ++ tree_node t :: rest).
    { destruct l; [rewrite body_one | rewrite body_cons]; eauto. }
    destruct R as (rest & ->). exists (leaves_of rest ++ B). split; [|rewrite text_app, bytes_app, bytes_texts; reflexivity].
    rewrite leaves_of_app. unfold leaves_of at 2. cbn [flat_map]. fold (leaves_of rest). rewrite <- !app_assoc. reflexivity.
  - destruct l as [|y l]; [contradiction|].
    assert (LA : bytes (text (A ++ leaves_of (a ++ tree_node t :: b ++ [comma]))) = bytes (text A) + lens a + len_of (tree_node t) + lens b + 1).
    { rewrite text_app, bytes_app, bytes_texts, lens_entry. lia. }
    rewrite <- LA in Hx. destruct (IH _ B x Hx) as (A' & B' & E & L). exists A', B'. split; [|exact L]. rewrite <- E, body_cons, <- app_assoc. f_equal.
    rewrite app_assoc, <- leaves_of_app. f_equal. f_equal. rewrite <- app_assoc. cbn [app]. rewrite <- app_assoc. reflexivity.
Qed.
Lemma group_all toks xs : Forall (fun x => goes_whole (snd x)) xs ->
  exists rs, seq_of (fun x => deprecated_inner toks (snd x) (fst x)) (map F xs) = Done (rs, false) /\ length rs = length xs.
Proof.
  intros H. induction H as [|x xs Hx _ (rs & E & L)]; [exists []; split; reflexivity|]. destruct (whole_done toks (F x)) as (r & Er). exists (r :: rs). cbn [map seq_of].
  unfold F at 1 2. cbn [fst snd]. rewrite Hx. change (fst x, tree_node (snd x)) with (F x). rewrite Er. cbn [obind_o]. rewrite E. split; [reflexivity | cbn [length]; f_equal; exact L].
Qed.
(** The choice of [R] fits the trees. *)
Definition suits (t : utree) (r : option (list piece * utree)) : Prop :=
  match r with None => allb t = true /\ goes_whole t | Some (ps, t') => allb t = false /\ stays_as t ps t' end.
Lemma group_some R toks xs rss : Forall (fun x => suits (snd x) (R (snd x))) xs ->
  Forall (fun x => exists A B, toks = place_leaves 0 (A ++ leaves (tree_node (snd x)) ++ B) /\ bytes (text A) = fst x) xs ->
  Forall2 (entry_ranges R toks) xs rss ->
  seq_of (fun x => deprecated_inner toks (snd x) (fst x)) (map F xs) = Done (concat rss, negb (forallb (fun x => allb (snd x)) xs)).
Proof.
  intros Hs Ht H. induction H as [|x rs xs rss Hx _ IH]; [reflexivity|]. inversion Hs as [|? ? S1 S2]; subst. inversion Ht as [|? ? (A & B & T1 & T1') T2]; subst.
  specialize (IH S2 T2). cbn [map seq_of]. unfold F at 1 2. cbn [fst snd]. unfold entry_ranges in Hx. unfold suits in S1. destruct (R (snd x)) as [[ps t']|].
  - destruct S1 as (Sa & _ & _ & _ & _ & _ & _ & Si). rewrite <- T1', Si. cbn [obind_o]. rewrite IH. cbn [obind_o fst snd]. rewrite Hx, <- T1'. cbn [forallb concat].
    rewrite Sa. reflexivity.
  - destruct S1 as (Sa & Sw). rewrite Sw. unfold whole. destruct Hx as (r & Hr & ->). rewrite Hr. cbn [obind_o]. rewrite IH. cbn [obind_o fst snd concat forallb]. rewrite Sa. reflexivity.
Qed.
Lemma settled_group l trail : tree_ok (Many None l trail) -> (forall a t b, In (a, t, b) l -> settled t) -> ~ clash [] (Many None l trail) -> settled (Many None l trail).
Proof.
  intros Hok Hset Hcl. destruct (entries_okay _ _ _ Hok) as (Hf & Htr & Hn & Hl).
  assert (Ea : allb (Many None l trail) = forallb (fun x : entry => allb (snd (fst x))) l).
  { rewrite allb_many. cbn [prefix_of]. apply forallb_eq, Forall_forall. intros x _. unfold allb. f_equal. apply map_id. }
  split.
  - intros A toks o. rewrite group_inner by assumption.
    assert (G : Forall (fun x => goes_whole (snd x)) (placed (o + 1) l)).
    { apply Forall_forall. intros x Hx. destruct (placed_tree _ _ _ Hx) as (a & b & Hi). apply (Hset _ _ _ Hi). rewrite Ea, forallb_forall in A. apply (A _ Hi). }
    destruct (group_all toks _ G) as (rs & -> & L). cbn [obind_o fst snd]. destruct rs; [|reflexivity]. exfalso. destruct l as [|[[a t] b] l]; [contradiction | discriminate].
  - intros A.
    destruct (pick suits None (map (fun x : entry => snd (fst x)) l)) as (R & HR).
    { apply Forall_map, Forall_forall. intros [[a t] b] Hi. cbn [fst snd]. destruct (Hset _ _ _ Hi) as [S1 S2]. destruct (allb t) eqn:Q.
      - exists None. split; [exact Q | apply S1; reflexivity].
      - destruct (S2 eq_refl) as (ps & t' & S). exists (Some (ps, t')). split; [exact Q | exact S]. }
    rewrite Forall_map in HR.
    assert (St : Forall (stat_ok R) l).
    { eapply Forall_impl; [|exact HR]. intros x Hx. unfold stat_ok. unfold suits in Hx. destruct (R (snd (fst x))) as [[ps t']|]; [|exact I]. destruct Hx as (_ & X1 & X2 & X3 & X4 & X5 & _). auto. }
    assert (Gd : forall x : entry, In x l -> gone R x -> goes [] (snd (fst x))).
    { intros x Hi Hx. rewrite Forall_forall in HR. specialize (HR x Hi). unfold gone in Hx. rewrite Hx in HR. destruct HR as [HR _]. apply goes_allb, HR. }
    assert (Fi : fine R l trail).
    { destruct trail as [z|]; [constructor|]. destruct (fine_of R l Hn) as [Fi|[(x & -> & Hx)|(l0 & [[xa xs] xb] & [[ya ys] yb] & El & Hx & Hy)]]; [exact Fi| |].
      - exfalso. rewrite Ea in A. cbn [forallb] in A. pose proof (Gd x (or_introl eq_refl) Hx) as G. apply goes_allb in G. rewrite G in A. discriminate.
      - exfalso. apply Hcl. constructor.
        + exists l0, xa, xs, xb, ya, ys, yb. cbn [app prefix_of]. split; [exact El|].
          split; [apply (Gd (xa, xs, xb)) | apply (Gd (ya, ys, yb))]; try assumption; rewrite El; apply in_or_app; right; [left | right; left]; reflexivity.
        + rewrite goes_allb, A. discriminate. }
    destruct (walk R l trail Hn Hl St Htr Fi) as (ps & W1 & W2 & W5 & W34).
    destruct W5 as [(z & Hz & Hnz & Hg & Ez)|(l' & trail' & Hl' & Hfe & Him & Htr' & Hokl' & El')].
    { exfalso. rewrite Ea in A. assert (Q : forallb (fun x : entry => allb (snd (fst x))) l = true); [|congruence]. apply forallb_forall. intros x Hx. rewrite Forall_forall in Hg.
      apply goes_allb, (Gd x Hx), Hg, Hx. }
    destruct (many_stays None l trail ps Hf W1 W2 l' trail' Hl' Hfe Htr' Hokl' El') as (M1 & M2 & M3 & M4 & M5 & M6).
    eexists. exists (Many None l' trail'). split; [exact M1|]. split; [exact M2|]. split; [exact M3|]. split; [exact M4|]. split; [exact M5|]. split.
    + rewrite !imports_many. cbn [prefix_of]. change (app (@nil str)) with (fun x : list str => x). rewrite !map_id, Him. clear -HR.
      unfold remaining, imports_all. induction HR as [|[[a t] b] l Hx _ IH]; [reflexivity|]. cbn [flat_map fst snd] in *. rewrite filter_app, <- IH. f_equal.
      unfold suits in Hx. destruct (R t) as [[ps t']|]; [apply Hx|]. destruct Hx as [Hx _]. symmetry. apply filter_all, Hx.
    + intros A' B'. rewrite M6, group_inner by assumption. rewrite many_leaves. cbn [front_elems]. change (lens []) with 0. rewrite Nat.add_0_r.
      destruct (W34 (A' ++ [(L_CURLY, lit "{")]) B') as (rss & V3 & V4).
      assert (LA : bytes (text (A' ++ [(L_CURLY, lit "{")])) = bytes (text A') + 1).
      { rewrite text_app, bytes_app. reflexivity. }
      replace (A' ++ (leaves_of [] ++ (L_CURLY, lit "{") :: leaves_of (body l trail) ++ [(R_CURLY, lit "}")]) ++ B')
        with ((A' ++ [(L_CURLY, lit "{")]) ++ leaves_of (body l trail) ++ (R_CURLY, lit "}") :: B')
        by (change (leaves_of []) with (@nil (skind * str)); repeat (rewrite <- ?app_assoc; cbn [app]); reflexivity).
      rewrite <- LA. rewrite (group_some R _ _ rss); [| | |exact V3].
      * cbn [obind_o fst snd]. rewrite forallb_placed, <- Ea, A, V4. cbn [negb]. destruct (map fst _); reflexivity.
      * apply Forall_forall. intros x Hx. destruct (placed_tree _ _ _ Hx) as (a & b & Hi). rewrite Forall_forall in HR. apply (HR _ Hi).
      * apply Forall_forall. intros x Hx. destruct (placed_leaves trail l Hl _ ((R_CURLY, lit "}") :: B') x Hx) as (A2 & B2 & E2 & L2). exists A2, B2. rewrite E2. auto.
Qed.

Lemma settled_all t : tree_ok t -> usual t -> (forall w, In w (imports t) -> ~ from_inside w) -> ~ clash [] t -> settled t.
Proof.
  induction t as [p e|f l trail IH] using utree_ind'; intros Hok Hu Hin Hcl; [apply settled_one; assumption|].
  destruct f as [[p sep]|].
  - apply settled_path; try assumption. inversion Hu as [? Hw|]; subst. inversion Hw as [|? ? ? ? Hw']; subst. exact Hw'.
  - apply settled_group; try assumption. intros a t b Hi. rewrite Forall_forall in IH. apply (IH _ Hi).
    + inversion Hok as [|? ? ? _ _ _ H]; subst. apply (H a t b Hi).
    + inversion Hu as [? Hw|? ? Hw]; subst; [inversion Hw | apply (Hw a t b Hi)].
    + intros w Hw. apply Hin. rewrite imports_many. cbn [prefix_of]. change (app (@nil str)) with (fun x : list str => x). rewrite map_id. apply in_flat_map. exists (a, t, b). auto.
    + intros Hc. apply Hcl. eapply clash_below; [exact Hi | exact Hc].
Qed.

(** ** Use declarations *)
Lemma opens_none post : opens post -> forall o, closest_delimiter COMMA (place_leaves o post) = None.
Proof.
  intros [(g & Hg & ->)|(g & x & r & Hg & -> & Hx & Hc)] o; [|apply no_next; assumption].
  rewrite <- (app_nil_r (leaves_of g)), skip_blank by exact Hg. reflexivity.
Qed.
Lemma closes_none pre : closes pre -> closest_delimiter COMMA (rev (place_leaves 0 pre)) = None.
Proof.
  intros [(g & Hg & ->)|(g & x & r & Hg & -> & Hx & Hc)]; [|apply no_prev; assumption].
  change (leaves_of g) with ([] ++ leaves_of g). rewrite skip_blank_back by exact Hg. reflexivity.
Qed.
Lemma use_item f t g : use_front f -> tree_ok t -> blank g -> item_like (f ++ tree_node t :: g ++ [Tok SEMICOLON (lit ";")]).
Proof.
  intros (Hf & (x & r & Ex & Hx & Hc & Hr) & _) Ht Hg. destruct (tree_item t Ht) as (cs & Ec & Hok & (tf & rf & Ef & Htf & Hcf & _) & _). split; [|split].
  - apply tokens_ok_app; [exact Hf|]. rewrite Ec. apply tokens_ok_node; [exact Hok|]. apply tokens_ok_app; [apply tokens_ok_blank, Hg|].
    constructor; [discriminate | constructor].
  - exists x, (r ++ leaves_of (tree_node t :: g ++ [Tok SEMICOLON (lit ";")])). split; [rewrite leaves_of_app, Ex; reflexivity|]. split; [exact Hx|]. split; [exact Hc|].
    rewrite Ec. change (Node USE_TREE cs :: g ++ [Tok SEMICOLON (lit ";")]) with ([Node USE_TREE cs] ++ g ++ [Tok SEMICOLON (lit ";")]).
    rewrite leaves_of_app, leaves_one, Ef. destruct Hr as [(b & Hb & ->)|(b & y & r' & Hb & -> & Hy & Hyc)].
    + cbn [app]. apply hushed_solid; assumption.
    + rewrite <- app_assoc. cbn [app]. apply hushed_solid; assumption.
  - exists (leaves_of f ++ leaves (tree_node t) ++ leaves_of g), (SEMICOLON, lit ";"). split; [|reflexivity].
    rewrite leaves_of_app. change (tree_node t :: g ++ [Tok SEMICOLON (lit ";")]) with ([tree_node t] ++ g ++ [Tok SEMICOLON (lit ";")]).
    rewrite leaves_of_app, Ec, leaves_one, leaves_of_app, leaves_node, <- !app_assoc. reflexivity.
Qed.
Lemma use_leaves f t g : leaves (use_node f t g) = leaves_of f ++ leaves (tree_node t) ++ leaves_of g ++ [(SEMICOLON, lit ";")].
Proof.
  unfold use_node. rewrite leaves_node, leaves_of_app. change (tree_node t :: g ++ [Tok SEMICOLON (lit ";")]) with ([tree_node t] ++ g ++ [Tok SEMICOLON (lit ";")]).
  destruct (tree_node_kind t) as (cs & ->). rewrite !leaves_of_app, leaves_one, leaves_node. reflexivity.
Qed.
Lemma use_text f t g : text_of (use_node f t g) = texts_of f ++ text_of (tree_node t) ++ texts_of g ++ lit ";".
Proof. unfold use_node. rewrite text_of_node, texts_of_app, texts_cons, texts_of_app. reflexivity. Qed.
(** The pieces of a part of a scope *)
Definition turns (c : chunk) (ps : list piece) : Prop :=
  old_text ps = text (chunk_leaves c) /\ becomes c (new_text ps) /\ dels ps.
Lemma one_use f t g : import_ok f t g -> exists ps, turns (Import f t g) ps
  /\ forall pre post, closes pre -> opens post ->
       use_removals (place_leaves 0 (pre ++ leaves (use_node f t g) ++ post)) (bytes (text pre), use_node f t g) = Done (map fst (changes (bytes (text pre)) ps)).
Proof.
  intros (Hf & Ht & Hg & _ & Hu & Hin & Hcl). destruct (settled_all t Ht Hu Hin Hcl) as [S1 S2].
  assert (Ed : goes [] t <-> Forall deprecated (imports t)) by (unfold goes; rewrite Forall_map; reflexivity).
  assert (Ec : forall o, child_node USE_TREE (o, use_node f t g) = Some (o + lens f, tree_node t)).
  { intros o. unfold child_node, use_node. rewrite child_nodes_sel, sel_app. destruct Hf as (_ & _ & Hf). rewrite (sel_no_node _ _ Hf).
    destruct (tree_node_kind t) as (cs & ->). rewrite sel_node. reflexivity. }
  destruct (allb t) eqn:Ea.
  - exists [Other (text_of (use_node f t g)) []]. split.
    + split; [cbn [old_text flat_map]; rewrite app_nil_r; symmetry; apply text_leaves|]. split; [|constructor; [reflexivity | constructor]].
      apply becomes_nothing, Ed, goes_allb, Ea.
    + intros pre post Hpre Hpost. unfold use_removals. rewrite Ec. cbn [fst snd]. rewrite (S1 eq_refl). unfold whole.
      destruct (node_done (place_leaves 0 (pre ++ leaves (use_node f t g) ++ post)) (bytes (text pre) + lens f, tree_node t) COMMA) as (r & ->). cbn [obind_o fst snd].
      unfold use_node. rewrite leaves_node. rewrite (node_last _ USE _ _ (use_item f t g Hf Ht Hg) (opens_none _ Hpost)), (closes_none _ Hpre). cbn [obind_o].
      cbn [changes map fst]. rewrite text_of_node. reflexivity.
  - destruct (S2 eq_refl) as (ps & t' & E1 & E2 & E3 & E4 & E5 & E6 & E7).
    exists (Same (texts_of f) :: ps ++ [Same (texts_of g ++ lit ";")]). split.
    + split; [|split].
      * cbn [chunk_leaves]. rewrite text_leaves, use_text, old_same, old_app, E1. cbn [old_text flat_map]. rewrite app_nil_r. reflexivity.
      * replace (new_text (Same (texts_of f) :: ps ++ [Same (texts_of g ++ lit ";")])) with (text_of (use_node f t' g)).
        -- apply becomes_less; try assumption. rewrite <- Ed, goes_allb, Ea. discriminate.
        -- rewrite use_text, new_same, new_app, E2. cbn [new_text flat_map]. rewrite app_nil_r. reflexivity.
      * constructor; [exact I|]. apply Forall_app. split; [exact E5 | constructor; [exact I | constructor]].
    + intros pre post _ _. unfold use_removals. rewrite Ec. cbn [fst snd]. rewrite use_leaves.
      specialize (E7 (pre ++ leaves_of f) (leaves_of g ++ (SEMICOLON, lit ";") :: post)).
      rewrite text_app, bytes_app, bytes_texts in E7.
      replace (pre ++ (leaves_of f ++ leaves (tree_node t) ++ leaves_of g ++ [(SEMICOLON, lit ";")]) ++ post)
        with ((pre ++ leaves_of f) ++ leaves (tree_node t) ++ leaves_of g ++ (SEMICOLON, lit ";") :: post) by (rewrite <- !app_assoc; reflexivity).
      rewrite E7. cbn [obind_o fst snd changes]. rewrite changes_app. cbn [changes]. rewrite app_nil_r. fold (lens f).
      destruct (map fst (changes (bytes (text pre) + lens f) ps)); reflexivity.
Qed.

(** ** Scopes *)
Fixpoint uses_among (l : list elem) (o : nat) : list lelem :=
  match l with [] => [] | c :: l' => uses_from c o ++ uses_among l' (o + len_of c) end.
Lemma uses_node k cs o : uses_from (Node k cs) o = (if skind_eqb k USE then [(o, Node k cs)] else []) ++ uses_among cs o.
Proof. reflexivity. Qed.
Lemma useless_none e : useless e -> forall o, uses_from e o = [].
Proof.
  induction e as [k s|k cs IH] using elem_ind'; intros H o; [reflexivity|]. rewrite uses_node. cbn [useless] in H. destruct H as [Hk H].
  destruct (skind_eqb k USE) eqn:E; [apply skind_eqb_eq in E; contradiction|]. cbn [app]. clear E Hk. revert o. induction IH as [|c cs Hc _ IH]; intros o; [reflexivity|].
  destruct H as [H1 H2]. cbn [uses_among]. rewrite (Hc H1). apply (IH H2).
Qed.
Lemma uses_among_app a b o : uses_among (a ++ b) o = uses_among a o ++ uses_among b (o + lens a).
Proof.
  revert o. induction a as [|c a IH]; intros o; cbn [app uses_among].
  - change (lens []) with 0. rewrite Nat.add_0_r. reflexivity.
  - rewrite IH, <- app_assoc. replace (lens (c :: a)) with (len_of c + lens a) by (unfold lens, len_of; rewrite texts_cons, bytes_app; reflexivity). rewrite Nat.add_assoc. reflexivity.
Qed.
Lemma useless_among l : Forall useless l -> forall o, uses_among l o = [].
Proof. intros H. induction H as [|c l Hc _ IH]; intros o; [reflexivity|]. cbn [uses_among]. rewrite (useless_none c Hc). apply IH. Qed.
Lemma uses_use f t g o : import_ok f t g -> uses_from (use_node f t g) o = [(o, use_node f t g)].
Proof.
  intros (_ & _ & Hg & Hn & _). unfold use_node. rewrite uses_node, skind_eqb_refl. cbn [app]. f_equal.
  change (tree_node t :: g ++ [Tok SEMICOLON (lit ";")]) with ([tree_node t] ++ g ++ [Tok SEMICOLON (lit ";")]). rewrite app_assoc, uses_among_app, (useless_among _ Hn).
  apply useless_among, Forall_app. split; [|constructor; [exact I | constructor]]. eapply Forall_impl; [|exact Hg]. intros e (k & s & -> & _). exact I.
Qed.
(** The use declarations of the parts at their places *)
Fixpoint uses_of (o : nat) (c : list chunk) : list lelem :=
  match c with
  | [] => []
  | Plain t :: c' => uses_of (o + bytes (snd t)) c'
  | Import f t g :: c' => (o, use_node f t g) :: uses_of (o + len_of (use_node f t g)) c'
  end.
Lemma text_single (t : skind * str) : text [t] = snd t.
Proof. unfold text. cbn [flat_map]. apply app_nil_r. Qed.
Lemma uses_of_app o a b : uses_of o (a ++ b) = uses_of o a ++ uses_of (o + bytes (text (flat_map chunk_leaves a))) b.
Proof.
  revert o. induction a as [|c a IH]; intros o; cbn [app flat_map].
  - change (bytes (text [])) with 0. rewrite Nat.add_0_r. reflexivity.
  - rewrite text_app, bytes_app. destruct c as [t|f t g]; cbn [uses_of chunk_leaves app]; rewrite IH, ?text_single, ?text_leaves, Nat.add_assoc; reflexivity.
Qed.
Lemma reads_leaves l c : reads l c -> leaves_of l = flat_map chunk_leaves c.
Proof.
  intros H. induction H as [|k s l c _ IH|f t g l c _ IH|k cs l c c' _ _ IH1 _ IH2]; [reflexivity| | |]; unfold leaves_of in *; cbn [flat_map chunk_leaves].
  - cbn [leaves app]. f_equal. exact IH.
  - rewrite IH. reflexivity.
  - rewrite flat_map_app, <- IH1, <- IH2. reflexivity.
Qed.
Lemma reads_uses l c : reads l c -> (forall f t g, In (Import f t g) c -> import_ok f t g) -> forall o, uses_among l o = uses_of o c.
Proof.
  intros H. induction H as [|k s l c _ IH|f t g l c _ IH|k cs l c c' Hk H1 IH1 _ IH2]; intros Hok o; [reflexivity| | |]; cbn [uses_among uses_of].
  - apply IH. intros f t g Hi. apply Hok. right. exact Hi.
  - rewrite uses_use by (apply Hok; left; reflexivity). cbn [app]. f_equal. apply IH. intros f' t' g' Hi. apply Hok. right. exact Hi.
  - rewrite uses_node. destruct (skind_eqb k USE) eqn:E; [apply skind_eqb_eq in E; contradiction|]. cbn [app]. rewrite uses_of_app, IH1, IH2.
    + f_equal. f_equal. f_equal. rewrite <- (reads_leaves _ _ H1), <- (leaves_node k), text_leaves. reflexivity.
    + intros f t g Hi. apply Hok, in_or_app. auto.
    + intros f t g Hi. apply Hok, in_or_app. auto.
Qed.
Lemma scope_removals post c : forall pre, imports_okay pre post c ->
  exists ps rs, Forall2 turns c ps
    /\ all_done (map (use_removals (place_leaves 0 (pre ++ flat_map chunk_leaves c ++ post))) (uses_of (bytes (text pre)) c)) = Done rs
    /\ concat rs = map fst (changes (bytes (text pre)) (concat ps)).
Proof.
  induction c as [|x c IH]; intros pre Hok; [exists [], []; repeat split; constructor|].
  destruct (IH (pre ++ chunk_leaves x)) as (ps & rs & F2 & D & C).
  { intros c1 f t g c2 E. destruct (Hok (x :: c1) f t g c2) as (H1 & H2 & H3); [cbn [app]; f_equal; exact E|]. split; [exact H1|]. split; [|exact H3].
    cbn [flat_map] in H2. rewrite <- app_assoc. exact H2. }
  rewrite <- app_assoc in D. cbn [flat_map]. destruct x as [t|f t g].
  - exists ([Same (snd t)] :: ps), rs. split; [constructor; [|exact F2]|].
    + split; [|split; [|constructor; [exact I | constructor]]].
      * cbn [chunk_leaves]. rewrite text_single. cbn [old_text flat_map]. apply app_nil_r.
      * cbn [new_text flat_map]. rewrite app_nil_r. constructor.
    + cbn [uses_of concat app changes chunk_leaves] in *. rewrite text_app, bytes_app, text_single in *. rewrite <- C. split; [exact D | reflexivity].
  - destruct (Hok [] f t g c eq_refl) as (Hi & Hc & Ho). destruct (one_use f t g Hi) as (p & Hp & Hu). specialize (Hu pre (flat_map chunk_leaves c ++ post)).
    cbn [flat_map] in Hc. rewrite app_nil_r in Hc. specialize (Hu Hc Ho).
    exists (p :: ps), (map fst (changes (bytes (text pre)) p) :: rs). split; [constructor; assumption|].
    cbn [chunk_leaves] in *. rewrite <- app_assoc. rewrite text_app, bytes_app, text_leaves in D, C. cbn [uses_of map]. split.
    + cbn [all_done]. rewrite Hu. cbn [obind_o]. fold (len_of (use_node f t g)) in D. rewrite D. reflexivity.
    + cbn [concat]. rewrite changes_app, map_app, C. destruct Hp as (Hp & _). rewrite Hp. cbn [chunk_leaves]. rewrite text_leaves. reflexivity.
Qed.
Lemma turns_texts c ps : Forall2 turns c ps -> old_text (concat ps) = text (flat_map chunk_leaves c) /\ dels (concat ps)
  /\ exists new, Forall2 becomes c new /\ new_text (concat ps) = concat new.
Proof.
  intros H. induction H as [|x p c ps (H1 & H2 & H3) _ (I1 & I2 & new & I3 & I4)].
  - split; [reflexivity|]. split; [constructor|]. exists []. split; [constructor | reflexivity].
  - cbn [concat flat_map]. rewrite old_app, new_app, text_app, H1, I1, I4. split; [reflexivity|]. split; [apply Forall_app; auto|].
    exists (new_text p :: new). split; [constructor; assumption | reflexivity].
Qed.
Lemma removed pre post k cs c parent root : reads cs c -> k <> USE -> imports_okay pre post c ->
  import_scope parent root = Some (bytes (text pre), Node k cs) ->
  exists edits new, deprecated_imports (place_leaves 0 (pre ++ leaves_of cs ++ post)) parent root = Done edits
    /\ Forall2 becomes c new /\ rewritten (text pre ++ texts_of cs ++ text post) edits (text pre ++ concat new ++ text post).
Proof.
  intros Hr Hk Hok Hs. destruct (scope_removals post c pre Hok) as (ps & rs & F2 & D & C). destruct (turns_texts c ps F2) as (T1 & T2 & new & T3 & T4).
  exists (map delete_edit (concat rs)), new. split; [|split; [exact T3|]].
  - unfold deprecated_imports. rewrite Hs. unfold uses_in. cbn [fst snd]. rewrite uses_node.
    destruct (skind_eqb k USE) eqn:E; [apply skind_eqb_eq in E; contradiction|]. cbn [app]. rewrite (reads_uses cs c Hr); cycle 1.
    { intros f t g Hi. apply in_split in Hi. destruct Hi as (c1 & c2 & Ec). apply (Hok c1 f t g c2 Ec). }
    rewrite (reads_leaves cs c Hr), D. reflexivity.
  - exists (Same (text pre) :: concat ps ++ [Same (text post)]). split; [|split].
    + rewrite old_same, old_app, T1, <- (reads_leaves cs c Hr). cbn [old_text flat_map]. rewrite app_nil_r. f_equal. f_equal. symmetry. apply text_leaves_of.
    + rewrite new_same, new_app, T4. cbn [new_text flat_map]. rewrite app_nil_r. reflexivity.
    + cbn [changes Nat.add]. rewrite changes_app. cbn [changes]. rewrite app_nil_r, C. rewrite map_map.
      rewrite (map_ext (fun x => (te_range (delete_edit x), te_text (delete_edit x))) (fun r => (r, []))) by reflexivity.
      rewrite (dels_changes _ T2). apply Permutation_refl.
Qed.

(** ** Nothing deprecated *)
Lemma filter_nothing {A} (f : A -> bool) l : (forall x, In x l -> f x = false) -> filter f l = [].
Proof.
  induction l as [|x l IH]; intros H; [reflexivity|]. cbn [filter]. rewrite (H x (or_introl eq_refl)). apply IH. intros y Hy. apply H. right. exact Hy.
Qed.
Lemma quiet_tree t : tree_ok t -> usual t -> (forall w, In w (imports t) -> ~ from_inside w /\ deprecatedb w = false) ->
  forall toks o, deprecated_inner toks (tree_node t) o = Done ([], true).
Proof.
  induction t as [p e|f l trail IH] using utree_ind'; intros Hok Hu Hin toks o.
  - inversion Hok; subst. cbn [tree_node]. cbn [deprecated_inner]. rewrite path_child, path_deprecated by assumption. cbn [snd].
    assert (D : deprecatedb (words p) = false).
    { destruct (deprecatedb (words p)) eqn:D; [|reflexivity]. destruct e as [|le|le].
      - destruct (Hin (words p) (or_introl eq_refl)) as [_ Q]. congruence.
      - destruct (Hin (words p) (or_introl eq_refl)) as [_ Q]. congruence.
      - destruct (Hin (words p ++ [lit "*"]) (or_introl eq_refl)) as [Q _]. exfalso. apply Q. exists (words p), (lit "*"), []. split; [reflexivity | apply deprecated_iff, D]. }
    rewrite D. destruct (str_eqb (text_of (path_node p)) (lit "ink_e2e")); [|reflexivity]. unfold from_e2e.
    replace (child_node USE_TREE_LIST (o, Node USE_TREE (path_node p :: ending_elems e))) with (@None lelem); [reflexivity|].
    unfold child_node. rewrite child_nodes_sel. destruct (path_node_kind p) as (cs & ->).
    rewrite sel_other by discriminate. rewrite sel_no_node; [reflexivity|]. destruct e as [|le|le]; cbn [ending_elems ending_ok] in *; [intros cs' []| tauto | tauto].
  - destruct (entries_okay _ _ _ Hok) as (Hf & Htr & Hn & Hl). destruct f as [[p sep]|].
    + assert (Hwp : forall a t b, In (a, t, b) l -> with_path t).
      { inversion Hu as [? Hw|]; subst. inversion Hw as [|? ? ? ? Hw']; subst. exact Hw'. }
      pose proof Hf as [Hp Hsep]. cbn [tree_node]. cbn [deprecated_inner]. cbn [front_elems app]. rewrite path_child, path_deprecated by exact Hp. cbn [snd].
      destruct (imports_some _ Hok) as [Hi1 _].
      assert (Hws : forall w, In w (imports_all l) -> w <> []).
      { intros w Hw. unfold imports_all in Hw. apply in_flat_map in Hw. destruct Hw as ([[a s] b] & Hi & Hw). rewrite Forall_forall in Hl. destruct (Hl _ Hi) as (_ & Hs & _).
        apply (proj2 (imports_some s Hs) w Hw). }
      rewrite imports_many in Hi1, Hin. cbn [prefix_of] in Hi1, Hin.
      destruct (deprecatedb (words p)) eqn:D.
      { exfalso. destruct (imports_all l) as [|w r]; [contradiction|].
        pose proof (Hws w (or_introl eq_refl)) as Hw. destruct w as [|x w]; [contradiction|]. apply (proj1 (Hin (words p ++ x :: w) (or_introl eq_refl))).
        exists (words p), x, w. split; [reflexivity | apply deprecated_iff, D]. }
      destruct (str_eqb (text_of (path_node p)) (lit "ink_e2e")) eqn:W; [|reflexivity].
      assert (Wp : words p = [lit "ink_e2e"]).
      { rewrite e2e_text in W by exact Hp. destruct (words p) as [|w [|w' r]]; try discriminate. apply str_eqb_eq in W. subst w. reflexivity. }
      unfold from_e2e. change (Node USE_TREE (path_node p :: sep ++ [Node USE_TREE_LIST (lcurly :: between (map (fun x => match x with (a, s, b) => (a, tree_node s, b) end) l) ++ trail_elems trail ++ [rcurly])]))
        with (tree_node (Many (Some (p, sep)) l trail)).
      rewrite list_child, list_children by assumption. change (fun x : nat * utree => (fst x, tree_node (snd x))) with F.
      match goal with |- context [filter deprecated_child ?x] => replace (filter deprecated_child x) with (@nil lelem); [reflexivity | symmetry] end.
      apply filter_nothing. intros c Hc. apply in_map_iff in Hc. destruct Hc as (x & <- & Hx). destruct (placed_tree _ _ _ Hx) as (a & b & Hi). unfold F.
      assert (In_all : forall w, In w (imports (snd x)) -> In w (imports_all l)) by (intros w Hw; apply in_flat_map; exists (a, snd x, b); auto).
      assert (Hs : tree_ok (snd x)) by (rewrite Forall_forall in Hl; apply (Hl _ Hi)).
      destruct (child_dep (fst x) (snd x)) as [C _]; [exact Hs | apply (Hwp _ _ _ Hi) | |].
      * intros w Hw. destruct (Hin (words p ++ w)) as [Q _]; [apply in_map, In_all, Hw|]. rewrite Wp in Q. exact Q.
      * rewrite C. unfold dc. destruct (imports_some _ Hs) as [Hne _]. destruct (imports (snd x)) as [|w r] eqn:Ew; [contradiction|]. cbn [map forallb].
        destruct (Hin (words p ++ w)) as [_ Q]; [apply in_map, In_all; rewrite ?Ew; left; reflexivity|]. rewrite Wp in Q. rewrite Q. reflexivity.
    + rewrite group_inner by assumption.
      assert (Q : forall xs, (forall x, In x xs -> deprecated_inner toks (tree_node (snd x)) (fst x) = Done ([], true)) ->
        exists b, seq_of (fun x => deprecated_inner toks (snd x) (fst x)) (map F xs) = Done ([], b)).
      { induction xs as [|x xs IHx]; intros H; [exists false; reflexivity|]. destruct (IHx (fun y Hy => H y (or_intror Hy))) as (b & E). exists true. cbn [map seq_of]. unfold F at 1 2. cbn [fst snd].
        rewrite (H x (or_introl eq_refl)). cbn [obind_o]. rewrite E. reflexivity. }
      destruct (Q (placed (o + 1) l)) as (b & ->); [|reflexivity]. intros x Hx. destruct (placed_tree _ _ _ Hx) as (a & b & Hi). rewrite Forall_forall in IH. apply (IH _ Hi).
      * rewrite Forall_forall in Hl. apply (Hl _ Hi).
      * inversion Hu as [? Hw|? ? Hw]; subst; [inversion Hw | apply (Hw _ _ _ Hi)].
      * intros w Hw. apply Hin. rewrite imports_many. cbn [prefix_of]. change (app (@nil str)) with (fun x : list str => x). rewrite map_id. apply in_flat_map. exists (a, snd x, b). auto.
Qed.
Lemma quiet toks k cs c o parent root : reads cs c -> k <> USE ->
  (forall f t g, In (Import f t g) c -> use_front f /\ tree_ok t /\ blank g /\ Forall useless (f ++ [tree_node t]) /\ usual t
    /\ forall w, In w (imports t) -> ~ from_inside w /\ ~ deprecated w) ->
  import_scope parent root = Some (o, Node k cs) -> deprecated_imports toks parent root = Done [].
Proof.
  intros Hr Hk Hok Hs. unfold deprecated_imports. rewrite Hs. unfold uses_in. cbn [fst snd]. rewrite uses_node.
  destruct (skind_eqb k USE) eqn:E; [apply skind_eqb_eq in E; contradiction|]. cbn [app]. clear E Hk Hs.
  assert (U : forall f t g o, In (Import f t g) c -> uses_from (use_node f t g) o = [(o, use_node f t g)] /\ use_removals toks (o, use_node f t g) = Done []).
  { intros f t g p Hi. destruct (Hok f t g Hi) as (Hf & Ht & Hg & Hn & Hu & Hin). split.
    - unfold use_node. rewrite uses_node, skind_eqb_refl. cbn [app]. f_equal.
      change (tree_node t :: g ++ [Tok SEMICOLON (lit ";")]) with ([tree_node t] ++ g ++ [Tok SEMICOLON (lit ";")]). rewrite app_assoc, uses_among_app, (useless_among _ Hn).
      apply useless_among, Forall_app. split; [|constructor; [exact I | constructor]]. eapply Forall_impl; [|exact Hg]. intros e (k' & s & -> & _). exact I.
    - unfold use_removals. replace (child_node USE_TREE (p, use_node f t g)) with (Some (p + lens f, tree_node t)).
      + cbn [fst snd]. rewrite quiet_tree; [reflexivity | exact Ht | exact Hu|]. intros w Hw. destruct (Hin w Hw) as [H1 H2]. split; [exact H1|].
        destruct (deprecatedb w) eqn:E; [|reflexivity]. apply deprecated_iff in E. contradiction.
      + symmetry. unfold child_node, use_node. rewrite child_nodes_sel, sel_app. destruct Hf as (_ & _ & Hf). rewrite (sel_no_node _ _ Hf).
        destruct (tree_node_kind t) as (cs' & ->). rewrite sel_node. reflexivity. }
  assert (A : forall o u, In u (uses_among cs o) -> use_removals toks u = Done []).
  { clear o Hok. induction Hr as [|k0 s l c _ IH|f t g l c _ IH|k' cs l c c' Hk H1 IH1 _ IH2]; intros o u Hu; [contradiction| | |]; cbn [uses_among] in Hu; apply in_app_or in Hu.
    - destruct Hu as [[]|Hu]. apply (IH (fun f t g p Hi => U f t g p (or_intror Hi)) _ _ Hu).
    - destruct (U f t g o (or_introl eq_refl)) as [U1 U2]. rewrite U1 in Hu. destruct Hu as [[<-|[]]|Hu]; [exact U2|].
      apply (IH (fun f t g p Hi => U f t g p (or_intror Hi)) _ _ Hu).
    - destruct Hu as [Hu|Hu].
      + rewrite uses_node in Hu. destruct (skind_eqb k' USE) eqn:E; [apply skind_eqb_eq in E; contradiction|].
        apply (IH1 (fun f t g p Hi => U f t g p (in_or_app _ _ _ (or_introl Hi))) _ _ Hu).
      + apply (IH2 (fun f t g p Hi => U f t g p (in_or_app _ _ _ (or_intror Hi))) _ _ Hu). }
  specialize (A o). revert A. generalize (uses_among cs o) as us. intros us A.
  assert (D : exists rs, all_done (map (use_removals toks) us) = Done rs /\ concat rs = []).
  { induction us as [|u us IHu]; [exists []; split; reflexivity|]. destruct (IHu (fun v Hv => A v (or_intror Hv))) as (rs & E & C). exists ([] :: rs).
    cbn [map all_done]. rewrite (A u (or_introl eq_refl)). cbn [obind_o]. rewrite E. split; [reflexivity | exact C]. }
  destruct D as (rs & -> & C). cbn [obind_o]. rewrite C. reflexivity.
Qed.
