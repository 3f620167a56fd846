(** Proofs about the rules for items and their quick fixes. *)
From Coq Require Import Lia.
From Verif Require Import Base BaseFacts PositionModel PositionProofs TranslateModel SyntaxModel AttrModel AttrSpec AttrProofs
  EditModel EditSpec ArgEditModel ArgEditSpec ArgEditProofs RuleModel RuleSpec.

(** ** Looking up children *)
Definition tok_of (k : skind) (e : elem) : bool := is_tok e && skind_eqb (kind_of e) k.
Definition node_of (k : skind) (e : elem) : bool := negb (is_tok e) && skind_eqb (kind_of e) k.

Lemma child_token_skip k o K a b : forallb (fun e => negb (tok_of k e)) a = true ->
  child_token k (o, Node K (a ++ b)) = child_token k (o + lens a, Node K b).
Proof.
  unfold child_token. cbn [snd fst]. revert o. induction a as [|e a IH]; intros o H.
  - rewrite lens_nil, Nat.add_0_r. reflexivity.
  - cbn [forallb] in H. apply andb_prop in H. destruct H as [He Ha]. cbn [app place find_map snd fst].
    rewrite lens_cons, Nat.add_assoc. destruct e as [k' s|k' cs].
    + unfold tok_of in He. cbn [is_tok kind_of andb] in He. apply Bool.negb_true_iff in He. rewrite He. apply IH, Ha.
    + apply IH, Ha.
Qed.
Lemma child_token_at k o K a t b : forallb (fun e => negb (tok_of k e)) a = true ->
  child_token k (o, Node K (a ++ Tok k t :: b)) = Some (o + lens a, (k, t)).
Proof.
  intros H. rewrite child_token_skip by exact H. unfold child_token. cbn [snd fst place find_map]. rewrite skind_eqb_refl. reflexivity.
Qed.
Lemma child_token_none k o K a : forallb (fun e => negb (tok_of k e)) a = true -> child_token k (o, Node K a) = None.
Proof.
  intros H. rewrite <- (app_nil_r a), child_token_skip by exact H. reflexivity.
Qed.
Lemma child_nodes_skip k o K a b : forallb (fun e => negb (node_of k e)) a = true ->
  child_nodes k (o, Node K (a ++ b)) = child_nodes k (o + lens a, Node K b).
Proof.
  unfold child_nodes. cbn [snd fst]. revert o. induction a as [|e a IH]; intros o H.
  - rewrite lens_nil, Nat.add_0_r. reflexivity.
  - cbn [forallb] in H. apply andb_prop in H. destruct H as [He Ha]. cbn [app place filter snd fst].
    rewrite lens_cons, Nat.add_assoc. apply Bool.negb_true_iff in He. unfold node_of in He. unfold lkind. cbn [snd]. rewrite He. apply IH, Ha.
Qed.
Lemma child_nodes_cons k o K cs b : child_nodes k (o, Node K (Node k cs :: b)) = (o, Node k cs) :: child_nodes k (o + len_of (Node k cs), Node K b).
Proof. unfold child_nodes. cbn [snd fst place filter is_tok negb andb]. unfold lkind. cbn [snd kind_of]. rewrite skind_eqb_refl. reflexivity. Qed.
Lemma child_node_at k o K a cs b : forallb (fun e => negb (node_of k e)) a = true ->
  child_node k (o, Node K (a ++ Node k cs :: b)) = Some (o + lens a, Node k cs).
Proof. intros H. unfold child_node. rewrite child_nodes_skip by exact H. rewrite child_nodes_cons. reflexivity. Qed.
Lemma child_nodes_none k o K a : forallb (fun e => negb (node_of k e)) a = true -> child_nodes k (o, Node K a) = [].
Proof. intros H. rewrite <- (app_nil_r a), child_nodes_skip by exact H. reflexivity. Qed.
Lemma child_node_none k o K a : forallb (fun e => negb (node_of k e)) a = true -> child_node k (o, Node K a) = None.
Proof. intros H. unfold child_node. rewrite child_nodes_none by exact H. reflexivity. Qed.

(** Which kinds occur in a list, besides white space and comments. *)
Definition only (ks : list skind) (l : list elem) : Prop := forall e, In e l -> In (kind_of e) ks \/ is_trivia (kind_of e) = true.
Lemma only_nil : only [] [].
Proof. intros e []. Qed.
Lemma only_app ka kb a b : only ka a -> only kb b -> only (ka ++ kb) (a ++ b).
Proof.
  intros Ha Hb e He. apply in_app_iff in He. rewrite in_app_iff. destruct He as [He|He]; [apply Ha in He | apply Hb in He]; tauto.
Qed.
Lemma only_cons kb e b : only kb b -> only (kind_of e :: kb) (e :: b).
Proof. intros Hb x [<-|Hx]; [left; left; reflexivity|]. apply Hb in Hx. cbn [In]. tauto. Qed.
Lemma only_blank l : blank l -> only [] l.
Proof. intros H e He. unfold blank in H. rewrite Forall_forall in H. destruct (H e He) as (k & t & -> & Hk & _). right. exact Hk. Qed.
Lemma only_keyword k s w : keyword_ok w -> only [k] (keyword k s w).
Proof.
  destruct w as [g|]; cbn [keyword keyword_ok]; intros H; [|intros e []].
  apply (only_cons [] (Tok k s) g). apply only_blank, H.
Qed.
Lemma only_noded k w : noded_ok w -> only [k] (noded k w).
Proof.
  destruct w as [[cs g]|]; cbn [noded noded_ok]; intros H; [|intros e []].
  apply (only_cons [] (Node k cs) g). apply only_blank, H.
Qed.
Lemma only_generics w : only [GENERIC_PARAM_LIST] (generics w).
Proof. destruct w as [cs|]; cbn [generics]; [|intros e []]. intros e [<-|[]]. left. left. reflexivity. Qed.
Lemma only_front l : front_ok l -> only [ATTR] l.
Proof.
  intros [H _] e He. rewrite Forall_forall in H. destruct (H e He) as [(cs & -> & _)|(k & s & -> & Hk & _)]; [left; left; reflexivity | right; exact Hk].
Qed.
Lemma only_name l : name_ok l -> only [NAME] l.
Proof.
  intros (g & n & h & -> & Hg & Hh & _). apply (only_app [] [NAME]); [apply only_blank, Hg|].
  apply (only_cons [] (Node NAME [Tok IDENT n])). apply only_blank, Hh.
Qed.
Lemma only_ending e : only [BLOCK_EXPR; SEMICOLON] (ending e).
Proof. destruct e; intros e [<-|[]]; left; cbn; auto. Qed.
Lemma only_no_tok ks l k : only ks l -> existsb (skind_eqb k) ks = false -> is_trivia k = false ->
  forallb (fun e => negb (tok_of k e)) l = true.
Proof.
  intros H Hk Ht. apply forallb_forall. intros e He. apply Bool.negb_true_iff. unfold tok_of. apply Bool.andb_false_iff. right.
  destruct (skind_eqb (kind_of e) k) eqn:E; [|reflexivity]. apply skind_eqb_eq in E. apply H in He. rewrite E in He.
  destruct He as [He|He]; [|congruence]. assert (C : existsb (skind_eqb k) ks = true).
  { apply existsb_exists. exists k. split; [exact He | apply skind_eqb_refl]. }
  congruence.
Qed.
Lemma only_no_node ks l k : only ks l -> existsb (skind_eqb k) ks = false -> is_trivia k = false ->
  forallb (fun e => negb (node_of k e)) l = true.
Proof.
  intros H Hk Ht. apply forallb_forall. intros e He. apply Bool.negb_true_iff. unfold node_of. apply Bool.andb_false_iff. right.
  destruct (skind_eqb (kind_of e) k) eqn:E; [|reflexivity]. apply skind_eqb_eq in E. apply H in He. rewrite E in He.
  destruct He as [He|He]; [|congruence]. assert (C : existsb (skind_eqb k) ks = true).
  { apply existsb_exists. exists k. split; [exact He | apply skind_eqb_refl]. }
  congruence.
Qed.
(** [only] for a concatenation of parts, from the hypotheses about the parts. *)
Ltac kinds :=
  repeat first
    [ apply only_app | apply only_keyword; assumption | apply only_noded; assumption | apply only_generics
    | apply only_front; assumption | apply only_name; assumption | apply only_ending | apply only_blank; assumption
    | apply only_nil | apply only_cons ].
Ltac no_tok := eapply only_no_tok; [kinds | reflexivity | reflexivity].
Ltac no_node := eapply only_no_node; [kinds | reflexivity | reflexivity].

(** ** Files and edits *)
Lemma in_file_text pre K cs post : in_file pre (Node K cs) post = text pre ++ texts_of cs ++ text post.
Proof. unfold in_file. rewrite !text_app, text_leaves, text_of_node. reflexivity. Qed.
Lemma deleted (A x C : str) p q : p = bytes A -> q = bytes A + bytes x ->
  applied (A ++ x ++ C) (edit_delete (p, q)) (A ++ C).
Proof.
  intros -> ->. exists A, x, C. cbn [edit_delete te_range te_text fst snd]. rewrite bytes_app. auto.
Qed.
Lemma replaced (A x C new : str) p q : p = bytes A -> q = bytes A + bytes x ->
  applied (A ++ x ++ C) (edit_replace new (p, q)) (A ++ new ++ C).
Proof.
  intros -> ->. exists A, x, C. unfold edit_replace, edit_replace_snippet. cbn [te_range te_text fst snd]. rewrite bytes_app. auto.
Qed.
Lemma inserted (A C new : str) p sn : p = bytes A ->
  applied (A ++ C) (edit_insert_snippet new p sn) (A ++ new ++ C).
Proof.
  intros ->. exists A, [], C. unfold edit_insert_snippet. cbn [te_range te_text fst snd app]. rewrite app_nil_r. auto.
Qed.

(** ** Ranges of a part and what follows it *)
Lemma solid_skip g : blank g -> forall o rest,
  closest_solid (place_leaves o (leaves_of g ++ rest)) = closest_solid (place_leaves (o + lens g) rest).
Proof.
  intros H. induction H as [|e g (k & t & -> & Hk & _) _ IH]; intros o rest; [cbn; rewrite Nat.add_0_r; reflexivity|].
  unfold leaves_of. cbn [flat_map leaves app place_leaves]. fold (leaves_of g). unfold closest_solid at 1. cbn [closest_which].
  unfold lf_kind at 1 2. cbn [snd fst]. rewrite Hk. cbn [negb]. fold (closest_solid (place_leaves (o + bytes t) (leaves_of g ++ rest))).
  rewrite IH, lens_cons. unfold len_of. cbn [text_of]. rewrite Nat.add_assoc. reflexivity.
Qed.
Lemma bytes_texts l : bytes (text (leaves_of l)) = lens l.
Proof. rewrite text_leaves_of. reflexivity. Qed.
Lemma after_token (pre : list (skind * str)) (t : skind * str) g b (post : list (skind * str)) : snd t <> [] -> blank g -> begins_solid b ->
  exists x, closest_solid (leaves_after (place_leaves 0 (pre ++ t :: leaves_of g ++ leaves_of b ++ post)) (bytes (text pre), t)) = Some x
    /\ lf_start x = bytes (text pre) + bytes (snd t) + lens g.
Proof.
  intros Ht Hg (x & r & E & Hx). pose proof (after_place 0 pre t (leaves_of g ++ leaves_of b ++ post) Ht) as E1.
  cbn [Nat.add] in E1. rewrite E1, solid_skip by exact Hg. rewrite E. cbn [app place_leaves]. unfold closest_solid. cbn [closest_which].
  unfold lf_kind. cbn [snd fst]. rewrite Hx. cbn [negb]. eexists. split; [reflexivity|]. unfold lf_start. cbn [fst]. lia.
Qed.
Lemma token_trivia (pre : list (skind * str)) (t : skind * str) g b (post : list (skind * str)) : snd t <> [] -> blank g -> begins_solid b ->
  token_and_trivia_range (place_leaves 0 (pre ++ t :: leaves_of g ++ leaves_of b ++ post)) (bytes (text pre), t)
  = Done (bytes (text pre), bytes (text pre) + bytes (snd t) + lens g).
Proof.
  intros Ht Hg Hb. destruct (after_token pre t g b post Ht Hg Hb) as (x & E & Ex).
  unfold token_and_trivia_range. rewrite E, Ex. unfold lf_start. cbn [fst]. unfold mk_range.
  rewrite (proj2 (Nat.leb_le _ _)) by lia. reflexivity.
Qed.
Lemma last_leaf o K cs r t : leaves_of cs = r ++ [t] -> elem_last_leaf (o, Node K cs) = Some (o + bytes (text r), t).
Proof.
  intros E. unfold elem_last_leaf. cbn [fst snd]. rewrite leaves_node, E, place_leaves_app. cbn [place_leaves]. apply last_opt_app.
Qed.
Lemma first_leaf o K cs r t : leaves_of cs = t :: r -> elem_first_leaf (o, Node K cs) = Some (o, t).
Proof. intros E. unfold elem_first_leaf. cbn [fst snd]. rewrite leaves_node, E. reflexivity. Qed.
Lemma node_trivia (pre : list (skind * str)) K cs g b (post : list (skind * str)) : solid cs -> blank g -> begins_solid b ->
  node_and_trivia_range (place_leaves 0 (pre ++ leaves_of cs ++ leaves_of g ++ leaves_of b ++ post)) (bytes (text pre), Node K cs)
  = Done (bytes (text pre), bytes (text pre) + lens cs + lens g).
Proof.
  intros (Hok & _ & (r & t & E & _)) Hg Hb. unfold node_and_trivia_range. rewrite (last_leaf _ _ _ _ _ E).
  assert (Ht : snd t <> []).
  { unfold tokens_ok in Hok. rewrite E, Forall_forall in Hok. apply Hok. apply in_or_app. right. left. reflexivity. }
  pose proof (token_trivia (pre ++ r) t g b post Ht Hg Hb) as T. rewrite text_app, bytes_app in T.
  rewrite E. replace (pre ++ (r ++ [t]) ++ leaves_of g ++ leaves_of b ++ post) with ((pre ++ r) ++ t :: leaves_of g ++ leaves_of b ++ post)
    by (rewrite <- !app_assoc; reflexivity).
  rewrite T. cbn [obind_o snd]. unfold lstart. cbn [fst].
  assert (L : lens cs = bytes (text r) + bytes (snd t)).
  { rewrite <- bytes_texts, E, text_app, bytes_app. f_equal. unfold text. cbn [flat_map]. rewrite app_nil_r. reflexivity. }
  unfold mk_range. rewrite (proj2 (Nat.leb_le _ _)) by lia. rewrite L, !Nat.add_assoc. reflexivity.
Qed.
Lemma begins_app a b : begins_solid a -> begins_solid (a ++ b).
Proof. intros (t & r & E & H). exists t, (r ++ leaves_of b). rewrite leaves_of_app, E. auto. Qed.
Lemma begins_tok k s l : is_trivia k = false -> begins_solid (Tok k s :: l).
Proof. intros H. exists (k, s), (leaves_of l). auto. Qed.
Lemma begins_node k cs l : begins_solid cs -> begins_solid (Node k cs :: l).
Proof. intros (t & r & E & H). exists t, (r ++ leaves_of l). unfold leaves_of at 1. cbn [flat_map]. rewrite leaves_node, E. auto. Qed.
Lemma begins_keyword k s w l : is_trivia k = false -> begins_solid l -> begins_solid (keyword k s w ++ l).
Proof. destruct w as [g|]; intros Hk Hl; [apply begins_tok, Hk | exact Hl]. Qed.
Lemma begins_noded k w l : noded_ok w -> begins_solid l -> begins_solid (noded k w ++ l).
Proof. destruct w as [[cs g]|]; intros Hk Hl; [apply begins_node, Hk | exact Hl]. Qed.
Lemma begins_ending e : begins_solid (ending e).
Proof. destruct e; [exists (L_CURLY, lit "{"), (leaves_of stmts ++ []) | exists (SEMICOLON, lit ";"), []]; split; try reflexivity. 
  unfold ending, leaves_of. cbn [flat_map]. rewrite leaves_node. unfold leaves_of. cbn [flat_map]. rewrite leaves_node. unfold leaves_of. cbn [flat_map leaves app]. rewrite !app_nil_r. reflexivity.
Qed.
Ltac begins :=
  repeat first [ apply begins_keyword; [reflexivity|] | apply begins_noded; [assumption|] | apply begins_tok; reflexivity | apply begins_ending ].

(** ** Functions *)
Definition sound_diag (pre post : list (skind * str)) (s : fn_src) (items : list elem) (can_fix : rule -> Prop) (d : rdiag) : Prop :=
  (exists part, marked s items (rd_rule d) part /\ marks pre (fn_tree s) part (rd_range d))
  /\ rd_fixes d <> []
  /\ (can_fix (rd_rule d) -> forall fx, In fx (rd_fixes d) ->
      exists s' items', fn_ok s' items' /\ repaired (rd_rule d) s items s' items'
        /\ effect (in_file pre (fn_tree s) post) fx (in_file pre (fn_tree s') post)).
Definition good pre post s items cf (c : check) (rs : list rule) : Prop :=
  exists ds, c = Done ds /\ map rd_rule ds = rs /\ Forall (sound_diag pre post s items cf) ds.

Lemma good_none pre post s items cf : good pre post s items cf none [].
Proof. exists []. repeat split. constructor. Qed.
Lemma good_both pre post s items cf a b ra rb : good pre post s items cf a ra -> good pre post s items cf b rb ->
  good pre post s items cf (both a b) (ra ++ rb).
Proof.
  intros (x & -> & <- & Hx) (y & -> & <- & Hy). exists (x ++ y). split; [reflexivity|]. split; [apply map_app | apply Forall_app; auto].
Qed.
Lemma good_one pre post s items cf d : sound_diag pre post s items cf d -> good pre post s items cf (Done [d]) [rd_rule d].
Proof. intros H. exists [d]. split; [reflexivity|]. split; [reflexivity|]. constructor; [exact H | constructor]. Qed.

Section Fn.
  Variables (pre post : list (skind * str)) (s : fn_src) (items : list elem) (cf : rule -> Prop).
  Hypothesis Hok : fn_ok s items.
  Let o := bytes (text pre).
  Let toks := file_leaves pre (fn_tree s) post.

  Lemma file_split a x b : fn_children s = a ++ x ++ b ->
    toks = place_leaves 0 ((pre ++ leaves_of a) ++ leaves_of x ++ leaves_of b ++ post).
  Proof.
    intros E. unfold toks, file_leaves, fn_tree. rewrite leaves_node, E, !leaves_of_app, <- !app_assoc. reflexivity.
  Qed.
  Lemma offset_split a : bytes (text (pre ++ leaves_of a)) = o + lens a.
  Proof. rewrite text_app, bytes_app, bytes_texts. reflexivity. Qed.
  Lemma marks_split a x b r : fn_children s = a ++ x ++ b -> r = (o + lens a, o + lens a + lens x) -> marks pre (fn_tree s) (leaves_of x) r.
  Proof.
    intros E ->. exists (leaves_of a), (leaves_of b). unfold fn_tree. rewrite leaves_node, E, !leaves_of_app. split; [reflexivity|].
    rewrite !text_app, !bytes_app, !bytes_texts. unfold o. rewrite !Nat.add_assoc. reflexivity.
  Qed.
  Lemma delete_split a x b p q K : fn_children s = a ++ x ++ b -> p = o + lens a -> q = o + lens a + lens x ->
    applied (in_file pre (fn_tree s) post) (edit_delete (p, q)) (in_file pre (Node K (a ++ b)) post).
  Proof.
    intros E -> ->. unfold fn_tree. rewrite !in_file_text, E, !texts_of_app.
    replace (text pre ++ (texts_of a ++ texts_of x ++ texts_of b) ++ text post)
      with ((text pre ++ texts_of a) ++ texts_of x ++ texts_of b ++ text post) by (rewrite <- !app_assoc; reflexivity).
    replace (text pre ++ (texts_of a ++ texts_of b) ++ text post)
      with ((text pre ++ texts_of a) ++ texts_of b ++ text post) by (rewrite <- !app_assoc; reflexivity).
    apply deleted; rewrite bytes_app; reflexivity.
  Qed.

  (** A keyword *)
  Lemma good_keyword r k w a wh b s' :
    fn_children s = a ++ keyword k w wh ++ b ->
    (forall g, wh = Some g -> fn_children s' = a ++ b) -> fn_ok s' items -> repaired r s items s' items ->
    forallb (fun e => negb (tok_of k e)) a = true -> forallb (fun e => negb (tok_of k e)) b = true ->
    keyword_ok wh -> begins_solid b -> w <> [] -> marked s items r [(k, w)] ->
    good pre post s items cf (no_keyword r k toks (at_place pre (fn_tree s))) (yes (is_some wh) r).
  Proof.
    intros E E' Hok' Hr Ha Hb Hg Hs Hw Hm. unfold no_keyword, at_place, fn_tree. rewrite E.
    destruct wh as [g|]; cbn [keyword is_some yes app] in *.
    - rewrite child_token_at by exact Ha. fold o.
      assert (Et : toks = place_leaves 0 ((pre ++ leaves_of a) ++ (k, w) :: leaves_of g ++ leaves_of b ++ post)).
      { rewrite (file_split a (Tok k w :: g) b E). unfold leaves_of at 2. cbn [flat_map leaves app]. rewrite <- !app_assoc. reflexivity. }
      pose proof (token_trivia (pre ++ leaves_of a) (k, w) g b post Hw Hg Hs) as R. rewrite <- Et in R. rewrite offset_split in R.
      rewrite R. cbn [obind_o snd]. apply (good_one _ _ _ _ _ (one_fix r _ _)). split; [|split; [discriminate|]].
      + exists [(k, w)]. split; [exact Hm|]. apply (marks_split a [Tok k w] (g ++ b)); [exact E|].
        cbn [one_fix rd_range]. unfold lf_range, lf_start, lf_end. cbn [fst snd]. rewrite lens_cons, lens_nil. unfold len_of. cbn [text_of].
        rewrite Nat.add_0_r. reflexivity.
      + intros _ fx [<-|[]]. exists s', items. split; [exact Hok'|]. split; [exact Hr|]. eexists. split; [reflexivity|].
        unfold fn_tree at 2. rewrite (E' g eq_refl). apply (delete_split a (Tok k w :: g) b); [exact E | reflexivity |].
        rewrite lens_cons. unfold len_of. cbn [text_of]. lia.
    - rewrite child_token_none; [apply good_none|]. rewrite forallb_app, Ha. exact Hb.
  Qed.

  Lemma lens_node k cs : lens [Node k cs] = lens cs.
  Proof. rewrite lens_cons, lens_nil, Nat.add_0_r. unfold len_of, lens. rewrite text_of_node. reflexivity. Qed.
  Lemma leaves_one k cs : leaves_of [Node k cs] = leaves_of cs.
  Proof. unfold leaves_of at 1. cbn [flat_map]. rewrite leaves_node, app_nil_r. reflexivity. Qed.
  Lemma len_node k cs : len_of (Node k cs) = lens cs.
  Proof. unfold len_of, lens. rewrite text_of_node. reflexivity. Qed.

  (** A node and what follows it: its range with what follows it, the marked tokens, and the text without it *)
  Lemma node_part k cs g a b :
    fn_children s = a ++ noded k (Some (cs, g)) ++ b -> solid cs -> blank g -> begins_solid b ->
    forallb (fun e => negb (node_of k e)) a = true ->
    child_node k (at_place pre (fn_tree s)) = Some (o + lens a, Node k cs)
    /\ node_and_trivia_range toks (o + lens a, Node k cs) = Done (o + lens a, o + lens a + lens cs + lens g)
    /\ lrange_of (o + lens a, Node k cs) = (o + lens a, o + lens a + lens cs)
    /\ marks pre (fn_tree s) (leaves_of cs) (o + lens a, o + lens a + lens cs)
    /\ (forall K, applied (in_file pre (fn_tree s) post) (edit_delete (o + lens a, o + lens a + lens cs + lens g)) (in_file pre (Node K (a ++ b)) post)).
  Proof.
    intros E Hs Hg Hb Ha. cbn [noded] in E.
    assert (E2 : fn_children s = a ++ [Node k cs] ++ g ++ b) by exact E.
    split; [|split; [|split; [|split]]].
    - unfold at_place, fn_tree. rewrite E. apply child_node_at, Ha.
    - rewrite (file_split a [Node k cs] (g ++ b) E2), leaves_one, leaves_of_app, <- (app_assoc (leaves_of g)), <- offset_split. apply node_trivia; assumption.
    - unfold lrange_of, lstart, lend. cbn [fst snd]. rewrite len_node. reflexivity.
    - rewrite <- (leaves_one k), <- (lens_node k cs). apply (marks_split a _ (g ++ b)); [exact E2 | reflexivity].
    - intros K. apply (delete_split a (Node k cs :: g) b); [exact E | reflexivity|]. rewrite lens_cons, len_node. lia.
  Qed.
  Lemma good_abi a b s' :
    fn_children s = a ++ noded ABI (f_abi s) ++ b ->
    fn_children s' = a ++ b -> fn_ok s' items -> repaired RAbi s items s' items ->
    forallb (fun e => negb (node_of ABI e)) a = true -> forallb (fun e => negb (node_of ABI e)) b = true ->
    noded_ok (f_abi s) -> begins_solid b ->
    good pre post s items cf (no_abi toks (at_place pre (fn_tree s))) (yes (is_some (f_abi s)) RAbi).
  Proof.
    intros E E' Hok' Hr Ha Hb Hg Hs. unfold no_abi. destruct (f_abi s) as [[cs g]|] eqn:Ew; cbn [is_some yes].
    - destruct Hg as [Hc Hg]. destruct (node_part ABI cs g a b E Hc Hg Hs Ha) as (-> & -> & R & M & D). cbn [obind_o].
      apply (good_one _ _ _ _ _ (one_fix RAbi _ _)). split; [|split; [discriminate|]].
      + exists (leaves_of cs). split; [eapply md_abi, Ew|]. cbn [one_fix rd_range]. rewrite R. exact M.
      + intros _ fx [<-|[]]. exists s', items. split; [exact Hok'|]. split; [exact Hr|]. eexists. split; [reflexivity|].
        unfold fn_tree at 2. rewrite E'. apply D.
    - cbn [noded] in E. unfold at_place, fn_tree. rewrite E, child_node_none; [apply good_none|]. cbn [app]. rewrite forallb_app, Ha. exact Hb.
  Qed.
  Lemma replace_split a k cs b new p q K : fn_children s = a ++ Node k cs :: b -> p = o + lens a -> q = o + lens a + lens cs ->
    applied (in_file pre (fn_tree s) post) (edit_replace (texts_of new) (p, q)) (in_file pre (Node K (a ++ Node k new :: b)) post).
  Proof.
    intros E -> ->. unfold fn_tree. rewrite !in_file_text, E. change (Node k cs :: b) with ([Node k cs] ++ b).
    change (Node k new :: b) with ([Node k new] ++ b). rewrite !texts_of_app.
    assert (T : forall x, texts_of [Node k x] = texts_of x).
    { intros x. unfold texts_of at 1. cbn [flat_map]. rewrite text_of_node, app_nil_r. reflexivity. }
    rewrite !T, <- !app_assoc, (app_assoc (text pre)), (app_assoc (text pre) (texts_of a)).
    apply replaced; rewrite bytes_app; reflexivity.
  Qed.
  Lemma good_vis a b s' s'' :
    fn_children s = a ++ noded VISIBILITY (f_vis s) ++ b ->
    fn_children s' = a ++ b -> fn_ok s' items -> repaired RVisibility s items s' items ->
    (forall cs g, f_vis s = Some (cs, g) -> fn_children s'' = a ++ noded VISIBILITY (Some (pub_only, g)) ++ b
       /\ fn_ok s'' items /\ repaired RVisibility s items s'' items) ->
    forallb (fun e => negb (node_of VISIBILITY e)) a = true -> forallb (fun e => negb (node_of VISIBILITY e)) b = true ->
    noded_ok (f_vis s) -> begins_solid b ->
    good pre post s items cf (pub_or_inherited toks (at_place pre (fn_tree s))) (yes (restricted (f_vis s)) RVisibility).
  Proof.
    intros E E' Hok' Hr H'' Ha Hb Hg Hs. unfold pub_or_inherited. destruct (f_vis s) as [[cs g]|] eqn:Ew; cbn [restricted].
    - destruct Hg as [Hc Hg]. destruct (node_part VISIBILITY cs g a b E Hc Hg Hs Ha) as (-> & -> & R & M & D).
      cbn [snd]. rewrite text_of_node. destruct (str_eqb (texts_of cs) pub); cbn [negb yes]; [apply good_none|]. cbn [obind_o].
      destruct (H'' cs g eq_refl) as (E2 & Hok2 & Hr2).
      apply (good_one _ _ _ _ _ (RDiag RVisibility _ _)). split; [|split; [discriminate|]].
      + exists (leaves_of cs). split; [eapply md_vis, Ew|]. cbn [rd_range]. rewrite R. exact M.
      + cbn [rd_fixes rd_rule]. intros _ fx [<-|[<-|[]]].
        * exists s'', items. split; [exact Hok2|]. split; [exact Hr2|]. eexists. split; [reflexivity|].
          unfold fn_tree at 2. rewrite E2, R. change pub with (texts_of pub_only). cbn [noded app]. eapply replace_split; [exact E | reflexivity | reflexivity].
        * exists s', items. split; [exact Hok'|]. split; [exact Hr|]. eexists. split; [reflexivity|].
          unfold fn_tree at 2. rewrite E'. apply D.
    - cbn [noded] in E. unfold at_place, fn_tree. rewrite E, child_node_none; [apply good_none|]. cbn [app]. rewrite forallb_app, Ha. exact Hb.
  Qed.
  Lemma good_generics a b s' :
    fn_children s = a ++ generics (f_generics s) ++ b ->
    fn_children s' = a ++ b -> fn_ok s' items -> repaired RGenerics s items s' items ->
    forallb (fun e => negb (node_of GENERIC_PARAM_LIST e)) a = true -> forallb (fun e => negb (node_of GENERIC_PARAM_LIST e)) b = true ->
    good pre post s items cf (no_generics (at_place pre (fn_tree s))) (yes (is_some (f_generics s)) RGenerics).
  Proof.
    intros E E' Hok' Hr Ha Hb. unfold no_generics. destruct (f_generics s) as [cs|] eqn:Ew; cbn [is_some yes generics app] in *.
    - unfold at_place, fn_tree. rewrite E, child_node_at by exact Ha. fold o.
      assert (R : lrange_of (o + lens a, Node GENERIC_PARAM_LIST cs) = (o + lens a, o + lens a + lens cs)).
      { unfold lrange_of, lstart, lend. cbn [fst snd]. rewrite len_node. reflexivity. }
      apply (good_one _ _ _ _ _ (one_fix RGenerics _ _)). rewrite R. split; [|split; [discriminate|]].
      + exists (leaves_of cs). split; [eapply md_generics, Ew|]. cbn [one_fix rd_range].
        rewrite <- (leaves_one GENERIC_PARAM_LIST), <- (lens_node GENERIC_PARAM_LIST cs). apply (marks_split a _ b); [exact E | reflexivity].
      + intros _ fx [<-|[]]. exists s', items. split; [exact Hok'|]. split; [exact Hr|]. eexists. split; [reflexivity|].
        unfold fn_tree at 2. rewrite E'. apply (delete_split a [Node GENERIC_PARAM_LIST cs] b); [exact E | reflexivity | rewrite lens_node; reflexivity].
    - unfold at_place, fn_tree. rewrite E, child_node_none; [apply good_none|]. rewrite forallb_app, Ha. exact Hb.
  Qed.
End Fn.

(** ** Parameters *)
Lemma blank_tok l : blank l -> Forall (fun e => is_tok e = true) l.
Proof. intros H. eapply Forall_impl; [|exact H]. intros e (k & t & -> & _). reflexivity. Qed.
Lemma toks_split t rest x k cs y : Forall (fun e => is_tok e = true) t -> t ++ rest = x ++ Node k cs :: y ->
  exists x', x = t ++ x' /\ rest = x' ++ Node k cs :: y.
Proof.
  intros H. revert x. induction H as [|e t He _ IH]; intros x E; [exists x; auto|].
  destruct x as [|e' x]; cbn [app] in E; injection E as E1 E2; [subst e; discriminate|]. destruct (IH x E2) as (x' & -> & ->).
  exists x'. subst e'. auto.
Qed.
Lemma params_pre x f l body : blank x -> params (f :: l) body -> params (f :: l) (x ++ body).
Proof.
  intros Hx H. inversion H as [|e t1 t2 He H1 H2|e t1 t2 t3 He H1 H2 H3|e t1 t2 g l' body' He H1 H2 Hb]; subst; rewrite app_assoc.
  - apply params_last; [|apply blank_app|]; auto.
  - apply params_comma; [|apply blank_app| |]; auto.
  - apply params_more; [|apply blank_app| |]; auto.
Qed.
Lemma params_blank body : params [] body -> blank body.
Proof. intros H. inversion H. assumption. Qed.
Lemma params_ok items body : params items body -> Forall param_ok items.
Proof. induction 1 as [t Ht|e t1 t2 He H1 H2|e t1 t2 t3 He H1 H2 H3|e t1 t2 f l body He H1 H2 Hb IH]; constructor; auto; constructor. Qed.
Lemma params_body items body e : params items body -> In e items -> In e body.
Proof.
  induction 1 as [t Ht|f t1 t2 He H1 H2|f t1 t2 t3 He H1 H2 H3|f t1 t2 g l body He H1 H2 Hb IH]; intros Hin.
  - destruct Hin.
  - destruct Hin as [<-|[]]. apply in_elt.
  - destruct Hin as [<-|[]]. apply in_elt.
  - destruct Hin as [<-|Hin]; [apply in_elt|]. apply in_or_app. right. right. apply in_or_app. right. right. apply IH, Hin.
Qed.
Lemma params_not_blank g l body : params (g :: l) body -> blank body -> False.
Proof.
  intros H Hb. pose proof (params_body _ _ g H (or_introl eq_refl)) as Hin. apply params_ok in H. apply Forall_inv in H.
  destruct H as (k & cs & -> & _). apply blank_tok in Hb. rewrite Forall_forall in Hb. apply Hb in Hin. discriminate.
Qed.
Lemma comma_tok : is_tok comma = true.
Proof. reflexivity. Qed.

(** What surrounds a parameter, and the list without it *)
Definition surrounded (items : list elem) (i : nat) (x y : list elem) : Prop :=
  (exists t2 z, y = t2 ++ comma :: z /\ blank t2 /\ params (without i items) (x ++ z))
  \/ (blank y /\ exists x' t1, x = x' ++ comma :: t1 /\ blank t1 /\ params (without i items) (x' ++ y))
  \/ (blank x /\ blank y /\ params (without i items) (x ++ y)).
Lemma params_occurrence items body : params items body -> forall x k cs y, body = x ++ Node k cs :: y ->
  exists i, nth_error items i = Some (Node k cs) /\ surrounded items i x y /\ (i = 0 -> blank x).
Proof.
  induction 1 as [t Ht|e t1 t2 He H1 H2|e t1 t2 t3 He H1 H2 H3|e t1 t2 f l body He H1 H2 Hb IH]; intros x k cs y E.
  - exfalso. assert (In (Node k cs) t) by (rewrite E; apply in_elt). apply blank_tok in Ht. rewrite Forall_forall in Ht.
    apply Ht in H. discriminate.
  - destruct (toks_split _ _ _ _ _ _ (blank_tok _ H1) E) as (x' & -> & E'). destruct x' as [|c x'].
    + cbn [app] in E'. injection E' as -> ->. exists 0. split; [reflexivity|]. rewrite app_nil_r. split; [|auto]. right. right.
      split; [exact H1|]. split; [exact H2|]. apply params_none, blank_app. auto.
    + exfalso. injection E' as _ E'. assert (In (Node k cs) t2) by (rewrite E'; apply in_elt). apply blank_tok in H2. rewrite Forall_forall in H2.
      apply H2 in H. discriminate.
  - destruct (toks_split _ _ _ _ _ _ (blank_tok _ H1) E) as (x' & -> & E'). destruct x' as [|c x'].
    + cbn [app] in E'. injection E' as -> <-. exists 0. split; [reflexivity|]. rewrite app_nil_r. split; [|auto]. left.
      exists t2, t3. split; [reflexivity|]. split; [exact H2|]. apply params_none, blank_app. auto.
    + exfalso. injection E' as _ E'. assert (In (Node k cs) (t2 ++ comma :: t3)) by (rewrite E'; apply in_elt).
      assert (F : Forall (fun e => is_tok e = true) (t2 ++ comma :: t3)).
      { apply Forall_app. split; [apply blank_tok, H2|]. constructor; [reflexivity | apply blank_tok, H3]. }
      rewrite Forall_forall in F. apply F in H. discriminate.
  - destruct (toks_split _ _ _ _ _ _ (blank_tok _ H1) E) as (x' & -> & E'). destruct x' as [|c x'].
    + cbn [app] in E'. injection E' as -> <-. exists 0. split; [reflexivity|]. rewrite app_nil_r. split; [|auto]. left.
      exists t2, body. split; [reflexivity|]. split; [exact H2|]. apply params_pre; assumption.
    + injection E' as <- E'. change (t2 ++ comma :: body) with (t2 ++ [comma] ++ body) in E'. rewrite app_assoc in E'.
      assert (F : Forall (fun e => is_tok e = true) (t2 ++ [comma])).
      { apply Forall_app. split; [apply blank_tok, H2|]. constructor; [reflexivity | constructor]. }
      destruct (toks_split _ _ _ _ _ _ F E') as (x2 & -> & E2). destruct (IH x2 k cs y E2) as (i & Hi & HS & H0).
      exists (S i). split; [exact Hi|]. split; [|discriminate].
      assert (W : without (S i) (e :: f :: l) = e :: without i (f :: l)) by reflexivity.
      destruct HS as [(t & z & -> & Ht & Hp)|[(Hy & x3 & t & -> & Ht & Hp)|(Hx & Hy & Hp)]].
      * left. exists t, z. split; [reflexivity|]. split; [exact Ht|]. rewrite W.
        replace ((t1 ++ e :: (t2 ++ [comma]) ++ x2) ++ z) with (t1 ++ e :: t2 ++ comma :: (x2 ++ z))
          by (rewrite <- ?app_assoc; cbn [app]; rewrite <- ?app_assoc; reflexivity).
        destruct (without i (f :: l)) as [|g l'] eqn:Ew.
        -- apply params_comma; try assumption. apply params_blank, Hp.
        -- apply params_more; assumption.
      * right. left. split; [exact Hy|]. exists (t1 ++ e :: t2 ++ comma :: x3), t. split; [rewrite <- ?app_assoc; cbn [app]; rewrite <- ?app_assoc; reflexivity|].
        split; [exact Ht|]. rewrite W.
        replace ((t1 ++ e :: t2 ++ comma :: x3) ++ y) with (t1 ++ e :: t2 ++ comma :: (x3 ++ y))
          by (rewrite <- ?app_assoc; cbn [app]; rewrite <- ?app_assoc; reflexivity).
        destruct (without i (f :: l)) as [|g l'] eqn:Ew.
        -- apply params_comma; try assumption. apply params_blank, Hp.
        -- apply params_more; assumption.
      * right. left. split; [exact Hy|]. exists (t1 ++ e :: t2), x2. split; [rewrite <- ?app_assoc; cbn [app]; rewrite <- ?app_assoc; reflexivity|].
        split; [exact Hx|]. rewrite W. destruct (without i (f :: l)) as [|g l'] eqn:Ew.
        -- rewrite <- app_assoc. cbn [app]. apply params_last; [exact He | exact H1 | apply blank_app; auto].
        -- exfalso. apply (params_not_blank _ _ _ Hp), blank_app. auto.
Qed.

Lemma params_filter items body f : params items body -> (forall e, is_tok e = true -> f e = false) -> filter f body = filter f items.
Proof.
  intros H Hf. assert (B : forall t, blank t -> filter f t = []).
  { intros t Ht. apply filter_none. intros e He. apply Hf. apply blank_tok in Ht. rewrite Forall_forall in Ht. apply Ht, He. }
  induction H as [t Ht|e t1 t2 He H1 H2|e t1 t2 t3 He H1 H2 H3|e t1 t2 g l body He H1 H2 Hb IH].
  - apply B, Ht.
  - rewrite filter_app, (B t1 H1). cbn [app filter]. rewrite (B t2 H2). reflexivity.
  - rewrite filter_app, (B t1 H1). cbn [app filter]. rewrite filter_app, (B t2 H2). cbn [app filter]. rewrite (Hf comma eq_refl), (B t3 H3). reflexivity.
  - rewrite filter_app, (B t1 H1). cbn [app]. cbn [filter]. rewrite filter_app, (B t2 H2). cbn [app]. cbn [filter]. rewrite (Hf comma eq_refl).
    rewrite IH. reflexivity.
Qed.
Lemma place_split q l p : In p (place q l) -> exists x y, l = x ++ snd p :: y /\ fst p = q + lens x.
Proof.
  revert q. induction l as [|e l IH]; intros q H; [destruct H|]. cbn [place] in H. destruct H as [<-|H].
  - exists [], l. cbn [snd fst]. rewrite lens_nil, Nat.add_0_r. auto.
  - destruct (IH _ H) as (x & y & -> & E). exists (e :: x), y. rewrite lens_cons. split; [reflexivity | lia].
Qed.
Lemma filter_place (f : elem -> bool) q l : map snd (filter (fun c => f (snd c)) (place q l)) = filter f l.
Proof.
  revert q. induction l as [|e l IH]; intros q; [reflexivity|]. cbn [place filter snd]. destruct (f e); cbn [map snd]; [f_equal|]; apply IH.
Qed.
Lemma child_nodes_snd k q K cs : map snd (child_nodes k (q, Node K cs)) = filter (node_of k) cs.
Proof. unfold child_nodes. cbn [snd fst]. apply (filter_place (node_of k)). Qed.
Lemma child_nodes_split k q K cs p : In p (child_nodes k (q, Node K cs)) ->
  exists x y c, cs = x ++ snd p :: y /\ fst p = q + lens x /\ snd p = Node k c.
Proof.
  intros H. unfold child_nodes in H. cbn [snd fst] in H. apply filter_In in H. destruct H as [H Hk].
  destruct (place_split _ _ _ H) as (x & y & E & Eo). apply andb_prop in Hk. destruct Hk as [Ht Hk]. apply skind_eqb_eq in Hk.
  unfold lkind in Hk. destruct (snd p) as [k' t|k' c] eqn:Ep; [discriminate|]. cbn [kind_of] in Hk. subst k'.
  exists x, y, c. auto.
Qed.

(** ** A token and its comma *)
Lemma leaves_comma l : leaves_of (comma :: l) = (COMMA, lit ",") :: leaves_of l.
Proof. reflexivity. Qed.
Lemma next_comma o (B : list (skind * str)) : closest_delimiter COMMA (place_leaves o ((COMMA, lit ",") :: B)) = Some (o, (COMMA, lit ",")).
Proof. reflexivity. Qed.
Lemma delim_next (A : list (skind * str)) (t : skind * str) g (B : list (skind * str)) : snd t <> [] -> blank g ->
  token_and_delimiter_range (place_leaves 0 (A ++ t :: leaves_of g ++ (COMMA, lit ",") :: B)) (bytes (text A), t) COMMA
  = Done (bytes (text A), bytes (text A) + bytes (snd t) + lens g + 1).
Proof.
  intros Ht Hg. unfold token_and_delimiter_range.
  pose proof (after_place 0 A t (leaves_of g ++ (COMMA, lit ",") :: B) Ht) as E. cbn [Nat.add] in E. rewrite E, skip_blank by exact Hg.
  rewrite next_comma. unfold lf_start, lf_end. cbn [fst snd]. change (bytes (lit ",")) with 1. unfold mk_range.
  rewrite (proj2 (Nat.leb_le _ _)) by lia. reflexivity.
Qed.
(** No comma follows. *)
Lemma no_next g x (B : list (skind * str)) o : blank g -> is_trivia (fst x) = false -> fst x <> COMMA ->
  closest_delimiter COMMA (place_leaves o (leaves_of g ++ x :: B)) = None.
Proof.
  intros Hg Hx Hc. rewrite skip_blank by exact Hg. cbn [place_leaves]. unfold closest_delimiter. cbn [closest_which]. unfold lf_kind. cbn [snd fst].
  destruct (skind_eqb (fst x) COMMA) eqn:E; [apply skind_eqb_eq in E; contradiction|]. rewrite Hx. reflexivity.
Qed.
Lemma no_prev (A : list (skind * str)) g x : blank g -> is_trivia (fst x) = false -> fst x <> COMMA ->
  closest_delimiter COMMA (rev (place_leaves 0 (A ++ x :: leaves_of g))) = None.
Proof.
  intros Hg Hx Hc. change (A ++ x :: leaves_of g) with (A ++ [x] ++ leaves_of g). rewrite app_assoc, skip_blank_back by exact Hg.
  rewrite place_leaves_app, rev_app_distr. cbn [place_leaves rev app]. unfold closest_delimiter. cbn [closest_which]. unfold lf_kind. cbn [snd fst].
  destruct (skind_eqb (fst x) COMMA) eqn:E; [apply skind_eqb_eq in E; contradiction|]. rewrite Hx. reflexivity.
Qed.
Lemma prev_comma (A : list (skind * str)) g : blank g ->
  closest_delimiter COMMA (rev (place_leaves 0 (A ++ (COMMA, lit ",") :: leaves_of g))) = Some (bytes (text A), (COMMA, lit ",")).
Proof.
  intros Hg. change (A ++ (COMMA, lit ",") :: leaves_of g) with (A ++ [(COMMA, lit ",")] ++ leaves_of g). rewrite app_assoc, skip_blank_back by exact Hg.
  rewrite place_leaves_app, rev_app_distr. reflexivity.
Qed.
Lemma delim_prev (A : list (skind * str)) g0 (t : skind * str) g x (B : list (skind * str)) :
  snd t <> [] -> blank g0 -> blank g -> is_trivia (fst x) = false -> fst x <> COMMA ->
  token_and_delimiter_range (place_leaves 0 ((A ++ (COMMA, lit ",") :: leaves_of g0) ++ t :: leaves_of g ++ x :: B))
    (bytes (text (A ++ (COMMA, lit ",") :: leaves_of g0)), t) COMMA
  = Done (bytes (text A), bytes (text (A ++ (COMMA, lit ",") :: leaves_of g0)) + bytes (snd t)).
Proof.
  intros Ht Hg0 Hg Hx Hc. unfold token_and_delimiter_range. set (A' := A ++ (COMMA, lit ",") :: leaves_of g0).
  pose proof (after_place 0 A' t (leaves_of g ++ x :: B) Ht) as E. cbn [Nat.add] in E. rewrite E.
  pose proof (before_place 0 A' t (leaves_of g ++ x :: B) Ht) as E2. cbn [Nat.add] in E2. rewrite E2.
  rewrite no_next by assumption. unfold A' at 1 3. rewrite prev_comma by exact Hg0. unfold lf_start, lf_end. cbn [fst snd].
  unfold mk_range. rewrite (proj2 (Nat.leb_le _ _)); [reflexivity|]. unfold A'. rewrite text_app, bytes_app. lia.
Qed.
Lemma delim_alone (A : list (skind * str)) y g0 (t : skind * str) g x (B : list (skind * str)) :
  snd t <> [] -> blank g0 -> is_trivia (fst y) = false -> fst y <> COMMA -> blank g -> is_trivia (fst x) = false -> fst x <> COMMA ->
  token_and_delimiter_range (place_leaves 0 ((A ++ y :: leaves_of g0) ++ t :: leaves_of g ++ x :: B))
    (bytes (text (A ++ y :: leaves_of g0)), t) COMMA
  = Done (bytes (text (A ++ y :: leaves_of g0)), bytes (text (A ++ y :: leaves_of g0)) + bytes (snd t)).
Proof.
  intros Ht Hg0 Hy Hyc Hg Hx Hc. unfold token_and_delimiter_range. set (A' := A ++ y :: leaves_of g0).
  pose proof (after_place 0 A' t (leaves_of g ++ x :: B) Ht) as E. cbn [Nat.add] in E. rewrite E.
  pose proof (before_place 0 A' t (leaves_of g ++ x :: B) Ht) as E2. cbn [Nat.add] in E2. rewrite E2.
  rewrite no_next by assumption. unfold A' at 1. rewrite no_prev by assumption. unfold lf_start, lf_end. cbn [fst snd].
  unfold mk_range. rewrite (proj2 (Nat.leb_le _ _)) by lia. reflexivity.
Qed.

(** ** Functions with a part changed are well formed *)
Lemma no_doc_node k cs : forall c, Node k cs = Tok COMMENT c -> is_doc c = false.
Proof. discriminate. Qed.
Lemma docs_other k s : k <> COMMENT -> forall c, Tok k s = Tok COMMENT c -> is_doc c = false.
Proof. intros H c E. injection E as -> _. contradiction. Qed.
Ltac ok_tac H :=
  unfold fn_ok in *; cbn [set_vis no_const no_async no_unsafe without_abi without_generics set_params set_ret
    f_front f_vis f_default f_const f_async f_unsafe f_abi f_name f_generics f_gap f_params f_params_gap f_ret f_where f_end] in *;
  decompose [and] H; repeat match goal with |- _ /\ _ => split end; try assumption; try exact I;
  unfold fn_parts, no_docs in *; cbn [set_vis no_const no_async no_unsafe without_abi without_generics set_params set_ret
    f_front f_vis f_default f_const f_async f_unsafe f_abi f_name f_generics f_gap f_params f_params_gap f_ret f_where f_end] in *;
  repeat match goal with h : Forall _ (_ ++ _) |- _ => apply Forall_app in h; destruct h | h : Forall _ (_ :: _) |- _ => apply Forall_cons_iff in h; destruct h end;
  repeat first [apply Forall_app; split | apply Forall_cons | apply Forall_nil | assumption | apply no_doc_node].

Lemma ok_no_vis s items : fn_ok s items -> fn_ok (set_vis None s) items.
Proof. intros H. ok_tac H. Qed.
Lemma ok_pub s items cs g : f_vis s = Some (cs, g) -> fn_ok s items -> fn_ok (set_vis (Some (pub_only, g)) s) items.
Proof.
  intros E H. unfold fn_ok in H. rewrite E in H. assert (S : solid pub_only).
  { split; [|split]; [repeat constructor; discriminate | exists (OTHER 108, lit "pub"), []; auto | exists [], (OTHER 108, lit "pub"); auto]. }
  unfold fn_parts in H. rewrite E in H.
  ok_tac H; cbn [noded noded_ok] in *; try tauto;
  repeat match goal with h : Forall _ (_ :: _) |- _ => apply Forall_cons_iff in h; destruct h end;
  repeat first [apply Forall_cons | assumption | apply no_doc_node].
Qed.
Lemma ok_no_const s items : fn_ok s items -> fn_ok (no_const s) items.
Proof. intros H. ok_tac H. Qed.
Lemma ok_no_async s items : fn_ok s items -> fn_ok (no_async s) items.
Proof. intros H. ok_tac H. Qed.
Lemma ok_no_unsafe s items : fn_ok s items -> fn_ok (no_unsafe s) items.
Proof. intros H. ok_tac H. Qed.
Lemma ok_without_abi s items : fn_ok s items -> fn_ok (without_abi s) items.
Proof. intros H. ok_tac H. Qed.
Lemma ok_without_generics s items : fn_ok s items -> fn_ok (without_generics s) items.
Proof. intros H. ok_tac H. Qed.
Lemma ok_set_params s items items' p : fn_ok s items -> params items' p -> receiver_first items' -> fn_ok (set_params p s) items'.
Proof. intros H Hp Hr. ok_tac H. Qed.
Lemma ok_no_ret s items : fn_ok s items -> fn_ok (set_ret (f_params_gap s) None s) items.
Proof. intros H. ok_tac H. Qed.
Lemma ok_add_ret s items : f_ret s = None -> fn_ok s items -> fn_ok (set_ret [blank_one] (Some (arrow_self, f_params_gap s)) s) items.
Proof.
  intros E H. assert (S : solid arrow_self).
  { split; [|split]; [repeat constructor; discriminate | exists (OTHER 109, lit "->"), [(WHITESPACE, lit " "); (IDENT, lit "Self")]; auto
      | exists [(OTHER 109, lit "->"); (WHITESPACE, lit " ")], (IDENT, lit "Self"); auto]. }
  ok_tac H; cbn [noded_ok ret_ok].
  - exists WHITESPACE, (lit " "). repeat split. discriminate.
  - split; assumption.
  - exists [Tok (OTHER 109) (lit "->"); blank_one], (Node (OTHER 135) [Tok IDENT (lit "Self")]), [].
    split; [reflexivity|]. split; [reflexivity|]. split; [reflexivity|]. split.
    + apply Forall_cons; [left; reflexivity|]. apply Forall_cons; [left; reflexivity|]. apply Forall_nil.
    + apply Forall_cons; [discriminate | apply Forall_nil].
  - apply docs_other. discriminate.
Qed.

Definition fn_before (s : fn_src) : list elem :=
  f_front s ++ noded VISIBILITY (f_vis s)
  ++ keyword DEFAULT_KW (lit "default") (f_default s) ++ keyword CONST_KW (lit "const") (f_const s)
  ++ keyword ASYNC_KW (lit "async") (f_async s) ++ keyword UNSAFE_KW (lit "unsafe") (f_unsafe s)
  ++ noded ABI (f_abi s) ++ Tok FN_KW (lit "fn") :: f_name s ++ generics (f_generics s) ++ f_gap s.
Definition fn_after (s : fn_src) : list elem :=
  f_params_gap s ++ noded RET_TYPE (f_ret s) ++ noded WHERE_CLAUSE (f_where s) ++ ending (f_end s).
Definition lpar : elem := Tok L_PAREN (lit "(").
Definition rpar : elem := Tok R_PAREN (lit ")").
Lemma fn_children_params s : fn_children s = fn_before s ++ Node PARAM_LIST (lpar :: f_params s ++ [rpar]) :: fn_after s.
Proof. unfold fn_children, fn_parts, fn_before, fn_after. repeat (rewrite <- ?app_assoc; cbn [app]). reflexivity. Qed.

Section Params.
  Variables (pre post : list (skind * str)) (s : fn_src) (items : list elem).
  Hypothesis Hok : fn_ok s items.
  Let o := bytes (text pre).
  Let toks := file_leaves pre (fn_tree s) post.
  (** Where the text between the parentheses starts *)
  Definition inside : nat := o + lens (fn_before s) + 1.

  Lemma tree_leaves : leaves (fn_tree s)
    = leaves_of (fn_before s) ++ (L_PAREN, lit "(") :: leaves_of (f_params s) ++ (R_PAREN, lit ")") :: leaves_of (fn_after s).
  Proof.
    unfold fn_tree. rewrite leaves_node, fn_children_params, leaves_of_app. f_equal. unfold leaves_of at 1. cbn [flat_map]. rewrite leaves_node.
    unfold leaves_of at 1. cbn [flat_map]. fold (leaves_of (f_params s ++ [rpar])). fold (leaves_of (fn_after s)). rewrite leaves_of_app.
    change (leaves lpar) with [(L_PAREN, lit "(")]. change (leaves_of [rpar]) with [(R_PAREN, lit ")")].
    repeat (rewrite <- ?app_assoc; cbn [app]). reflexivity.
  Qed.
  Lemma toks_params : toks = place_leaves 0 ((pre ++ leaves_of (fn_before s)) ++ (L_PAREN, lit "(") :: leaves_of (f_params s)
                                             ++ (R_PAREN, lit ")") :: leaves_of (fn_after s) ++ post).
  Proof. unfold toks, file_leaves. rewrite tree_leaves. repeat (rewrite <- ?app_assoc; cbn [app]). reflexivity. Qed.
  Lemma before_no_params : forallb (fun e => negb (node_of PARAM_LIST e)) (fn_before s) = true.
  Proof. unfold fn_ok in Hok. decompose [and] Hok. unfold fn_before. no_node. Qed.
  Lemma param_list_child : child_node PARAM_LIST (at_place pre (fn_tree s)) = Some (o + lens (fn_before s), Node PARAM_LIST (lpar :: f_params s ++ [rpar])).
  Proof. unfold at_place, fn_tree. rewrite fn_children_params. apply child_node_at, before_no_params. Qed.
  Lemma in_params_text K body : in_file pre (Node K (fn_before s ++ Node PARAM_LIST (lpar :: body ++ [rpar]) :: fn_after s)) post
    = (text pre ++ texts_of (fn_before s) ++ lit "(") ++ texts_of body ++ lit ")" ++ texts_of (fn_after s) ++ text post.
  Proof.
    rewrite in_file_text, texts_of_app. unfold texts_of at 2. cbn [flat_map]. fold (texts_of (fn_after s)). rewrite text_of_node.
    unfold texts_of at 2. cbn [flat_map text_of]. fold (texts_of (body ++ [rpar])). rewrite texts_of_app. unfold texts_of at 3. cbn [flat_map rpar text_of].
    repeat (rewrite <- ?app_assoc; cbn [app lpar rpar text_of]). reflexivity.
  Qed.
  Lemma inside_bytes : bytes (text pre ++ texts_of (fn_before s) ++ lit "(") = inside.
  Proof. rewrite !bytes_app. unfold inside, o, lens. change (bytes (lit "(")) with 1. lia. Qed.
  Lemma set_params_children p : fn_children (set_params p s) = fn_before s ++ Node PARAM_LIST (lpar :: p ++ [rpar]) :: fn_after s.
  Proof. apply (fn_children_params (set_params p s)). Qed.
  Lemma delete_param u v w p q : f_params s = u ++ v ++ w -> p = inside + lens u -> q = inside + lens u + lens v ->
    applied (in_file pre (fn_tree s) post) (edit_delete (p, q)) (in_file pre (fn_tree (set_params (u ++ w) s)) post).
  Proof.
    intros E -> ->. unfold fn_tree. rewrite set_params_children, fn_children_params, !in_params_text, E, !texts_of_app.
    rewrite <- inside_bytes. rewrite <- !(app_assoc (texts_of u)), !(app_assoc _ (texts_of u)), <- !(app_assoc (texts_of v)).
    apply deleted; rewrite !bytes_app; unfold lens; lia.
  Qed.
  Lemma insert_param v p sn : p = inside ->
    applied (in_file pre (fn_tree s) post) (edit_insert_snippet (texts_of v) p sn) (in_file pre (fn_tree (set_params (v ++ f_params s) s)) post).
  Proof.
    intros ->. unfold fn_tree. rewrite set_params_children, fn_children_params, !in_params_text, !texts_of_app, <- (app_assoc (texts_of v)).
    apply inserted. symmetry. apply inside_bytes.
  Qed.
  Lemma marks_inside u v w : leaves_of (f_params s) = u ++ v ++ w ->
    marks pre (fn_tree s) v (inside + bytes (text u), inside + bytes (text u) + bytes (text v)).
  Proof.
    intros E. exists (leaves_of (fn_before s) ++ (L_PAREN, lit "(") :: u), (w ++ (R_PAREN, lit ")") :: leaves_of (fn_after s)).
    split; [rewrite tree_leaves, E; repeat (rewrite <- ?app_assoc; cbn [app]); reflexivity|].
    assert (F : bytes (text ((L_PAREN, lit "(") :: u)) = 1 + bytes (text u)) by (unfold text; cbn [flat_map snd]; rewrite bytes_app; reflexivity).
    rewrite !text_app, !bytes_app, bytes_texts, F. unfold inside, o. f_equal; lia.
  Qed.
End Params.

(** ** Removing a parameter *)
Lemma closest_In goal halt l x : closest_which goal halt l = Some x -> In x l.
Proof.
  induction l as [|y l IH]; [discriminate|]. cbn [closest_which]. destruct (goal y); [intros E; injection E as ->; left; reflexivity|].
  destruct (halt y); [discriminate|]. right. auto.
Qed.
Lemma delim_done toks t k : exists r, token_and_delimiter_range toks t k = Done r
  /\ (closest_delimiter k (leaves_after toks t) = None -> snd r = lf_end t)
  /\ (closest_delimiter k (leaves_before toks t) = None -> fst r = lf_start t).
Proof.
  unfold token_and_delimiter_range. pose proof (lf_le t) as L.
  destruct (closest_delimiter k (leaves_after toks t)) as [n|] eqn:E.
  - apply closest_In in E. unfold leaves_after in E. apply filter_In in E. destruct E as [_ E]. apply Nat.leb_le in E.
    pose proof (lf_le n). unfold mk_range. rewrite (proj2 (Nat.leb_le _ _)) by lia. eexists. split; [reflexivity|]. split; [discriminate | reflexivity].
  - destruct (closest_delimiter k (leaves_before toks t)) as [p|] eqn:E2.
    + apply closest_In in E2. unfold leaves_before in E2. apply in_rev in E2. apply filter_In in E2. destruct E2 as [_ E2]. apply Nat.leb_le in E2.
      pose proof (lf_le p). unfold mk_range. rewrite (proj2 (Nat.leb_le _ _)) by lia. eexists. split; [reflexivity|]. split; [reflexivity | discriminate].
    + unfold mk_range. rewrite (proj2 (Nat.leb_le _ _)) by lia. eexists. split; [reflexivity|]. split; reflexivity.
Qed.
Lemma in_without {A} i (l : list A) x : In x (without i l) -> In x l.
Proof.
  unfold without. intros H. apply in_app_iff in H. rewrite <- (firstn_skipn i l), in_app_iff. destruct H as [H|H]; [auto|]. right.
  revert l H. induction i as [|i IH]; intros [|y l] H; cbn [skipn] in *; auto; try contradiction. right. exact H.
Qed.
Lemma receiver_without items i : receiver_first items -> receiver_first (without i items).
Proof.
  destruct items as [|e r]; intros H; [destruct i; exact I|]. cbn [receiver_first] in H. destruct i as [|i].
  - change (without 0 (e :: r)) with r. destruct r; [exact I|]. cbn [receiver_first]. inversion H. assumption.
  - change (without (S i) (e :: r)) with (e :: without i r). cbn [receiver_first]. rewrite Forall_forall in *.
    intros x Hx. apply H. eapply in_without, Hx.
Qed.
Lemma strip_parens b X k c Y : lpar :: b ++ [rpar] = X ++ Node k c :: Y ->
  exists x y, X = lpar :: x /\ Y = y ++ [rpar] /\ b = x ++ Node k c :: y.
Proof.
  intros E. destruct X as [|e X]; cbn [app] in E; [discriminate|]. injection E as <- E.
  destruct Y as [|z Y _] using rev_ind.
  - apply app_inj_tail in E. destruct E as [_ E]. discriminate.
  - exists X, Y. split; [reflexivity|]. replace (X ++ Node k c :: Y ++ [z]) with ((X ++ Node k c :: Y) ++ [z]) in E by (rewrite <- app_assoc; reflexivity).
    apply app_inj_tail in E. destruct E as [-> <-]. auto.
Qed.

Section Removal.
  Variables (pre post : list (skind * str)) (s : fn_src) (items : list elem).
  Hypothesis Hok : fn_ok s items.
  Let toks := file_leaves pre (fn_tree s) post.
  Let P := pre ++ leaves_of (fn_before s).
  Let R := leaves_of (fn_after s) ++ post.
  Let start := inside pre s.

  Lemma P_bytes : bytes (text P) + 1 = start.
  Proof. unfold P, start, inside. rewrite text_app, bytes_app, bytes_texts. reflexivity. Qed.
  Lemma paren_bytes l : bytes (text (P ++ (L_PAREN, lit "(") :: l)) = start + bytes (text l).
  Proof.
    rewrite <- P_bytes, text_app, bytes_app. change (text ((L_PAREN, lit "(") :: l)) with (lit "(" ++ text l). rewrite bytes_app.
    change (bytes (lit "(")) with 1. lia.
  Qed.
  Lemma toks_at x v y : f_params s = x ++ v ++ y ->
    toks = place_leaves 0 ((P ++ (L_PAREN, lit "(") :: leaves_of x) ++ leaves_of v ++ leaves_of y ++ (R_PAREN, lit ")") :: R).
  Proof.
    intros E. unfold toks. rewrite toks_params, E, !leaves_of_app. f_equal. unfold P, R. repeat (rewrite <- ?app_assoc; cbn [app]). reflexivity.
  Qed.
  Definition removal (i : nat) (rg : trange) : Prop :=
    exists p, params (without i items) p
      /\ applied (in_file pre (fn_tree s) post) (edit_delete rg) (in_file pre (fn_tree (set_params p s)) post).

  Lemma token_removal x t y i : f_params s = x ++ Node PARAM [Tok DOT3 t] :: y -> t <> [] -> surrounded items i x y ->
    exists rg, token_and_delimiter_range toks (start + lens x, (DOT3, t)) COMMA = Done rg /\ removal i rg.
  Proof.
    intros E Ht HS.
    assert (Et : toks = place_leaves 0 ((P ++ (L_PAREN, lit "(") :: leaves_of x) ++ (DOT3, t) :: leaves_of y ++ (R_PAREN, lit ")") :: R))
      by (exact (toks_at x [Node PARAM [Tok DOT3 t]] y E)).
    assert (Ln : lens [Node PARAM [Tok DOT3 t]] = bytes t).
    { rewrite lens_cons, lens_nil, len_node, lens_cons, lens_nil. unfold len_of. cbn [text_of]. lia. }
    destruct HS as [(t2 & z & -> & H2 & Hp)|[(Hy & x' & t1 & -> & H1 & Hp)|(Hx & Hy & Hp)]].
    - pose proof (delim_next (P ++ (L_PAREN, lit "(") :: leaves_of x) (DOT3, t) t2 (leaves_of z ++ (R_PAREN, lit ")") :: R) Ht H2) as D.
      rewrite paren_bytes, bytes_texts in D.
      rewrite Et, leaves_of_app, leaves_comma, <- (app_assoc (leaves_of t2)). cbn [app]. rewrite D. eexists. split; [reflexivity|]. exists (x ++ z). split; [exact Hp|].
      apply (delete_param pre post s x (Node PARAM [Tok DOT3 t] :: t2 ++ [comma]) z).
      + rewrite E. cbn [app]. rewrite <- app_assoc. reflexivity.
      + reflexivity.
      + change (Node PARAM [Tok DOT3 t] :: t2 ++ [comma]) with ([Node PARAM [Tok DOT3 t]] ++ t2 ++ [comma]). rewrite !lens_app, Ln.
        change (lens [comma]) with 1. cbn [snd]. unfold start. lia.
    - pose proof (delim_prev (P ++ (L_PAREN, lit "(") :: leaves_of x') t1 (DOT3, t) y (R_PAREN, lit ")") R Ht H1 Hy eq_refl ltac:(discriminate)) as D.
      assert (EA : (P ++ (L_PAREN, lit "(") :: leaves_of x') ++ (COMMA, lit ",") :: leaves_of t1
                   = P ++ (L_PAREN, lit "(") :: leaves_of (x' ++ comma :: t1)).
      { rewrite leaves_of_app, leaves_comma, <- app_assoc. reflexivity. }
      rewrite EA in D. rewrite Et. rewrite !paren_bytes, !bytes_texts in D. rewrite D. eexists. split; [reflexivity|].
      exists (x' ++ y). split; [exact Hp|]. apply (delete_param pre post s x' (comma :: t1 ++ [Node PARAM [Tok DOT3 t]]) y).
      + rewrite E. cbn [app]. repeat (rewrite <- ?app_assoc; cbn [app]). reflexivity.
      + reflexivity.
      + change (comma :: t1 ++ [Node PARAM [Tok DOT3 t]]) with ((comma :: t1) ++ [Node PARAM [Tok DOT3 t]]). rewrite !lens_app, Ln. cbn [snd]. unfold start. lia.
    - pose proof (delim_alone P (L_PAREN, lit "(") x (DOT3, t) y (R_PAREN, lit ")") R Ht Hx eq_refl ltac:(discriminate) Hy eq_refl ltac:(discriminate)) as D.
      rewrite Et. rewrite !paren_bytes, !bytes_texts in D. rewrite D. eexists. split; [reflexivity|].
      exists (x ++ y). split; [exact Hp|]. apply (delete_param pre post s x [Node PARAM [Tok DOT3 t]] y); [exact E | reflexivity |].
      rewrite Ln. reflexivity.
  Qed.

  Lemma first_removal k cs x y : f_params s = x ++ Node k cs :: y -> solid cs -> blank x -> surrounded items 0 x y ->
    exists rg, node_and_delimiter_range toks (start + lens x, Node k cs) COMMA = Done rg /\ removal 0 rg.
  Proof.
    intros E (Hok' & (tf & rf & Ef & Hf) & (rl & tl & El & Hl)) Hx HS.
    assert (Et : toks = place_leaves 0 ((P ++ (L_PAREN, lit "(") :: leaves_of x) ++ leaves_of cs ++ leaves_of y ++ (R_PAREN, lit ")") :: R)).
    { rewrite (toks_at x [Node k cs] y E), leaves_one. reflexivity. }
    assert (Htl : snd tl <> []) by (unfold tokens_ok in Hok'; rewrite El, Forall_forall in Hok'; apply Hok', in_or_app; right; left; reflexivity).
    assert (Htf : snd tf <> []) by (unfold tokens_ok in Hok'; rewrite Ef, Forall_forall in Hok'; apply Hok'; left; reflexivity).
    assert (L : lens cs = bytes (text rl) + bytes (snd tl)).
    { rewrite <- bytes_texts, El, text_app, bytes_app. f_equal. unfold text. cbn [flat_map]. rewrite app_nil_r. reflexivity. }
    assert (Etl : toks = place_leaves 0 ((P ++ (L_PAREN, lit "(") :: leaves_of x ++ rl) ++ tl :: leaves_of y ++ (R_PAREN, lit ")") :: R)).
    { rewrite Et, El. f_equal. repeat (rewrite <- ?app_assoc; cbn [app]). reflexivity. }
    assert (Etf : toks = place_leaves 0 ((P ++ (L_PAREN, lit "(") :: leaves_of x) ++ tf :: rf ++ leaves_of y ++ (R_PAREN, lit ")") :: R)).
    { rewrite Et, Ef. reflexivity. }
    assert (Ol : bytes (text (P ++ (L_PAREN, lit "(") :: leaves_of x ++ rl)) = start + lens x + bytes (text rl)).
    { rewrite paren_bytes, text_app, bytes_app, bytes_texts. lia. }
    assert (Of : bytes (text (P ++ (L_PAREN, lit "(") :: leaves_of x)) = start + lens x) by (rewrite paren_bytes, bytes_texts; reflexivity).
    assert (Elend : lend (start + lens x, Node k cs) = start + lens x + lens cs) by (unfold lend; cbn [fst snd]; rewrite len_node; reflexivity).
    unfold node_and_delimiter_range. rewrite (last_leaf _ _ _ _ _ El), (first_leaf _ _ _ _ _ Ef), Elend.
    pose proof (bytes_pos _ Htl) as Pl. pose proof (bytes_pos _ Htf) as Pf.
    destruct HS as [(t2 & z & -> & H2 & Hp)|[(Hy & x' & t1 & -> & H1 & Hp)|(_ & Hy & Hp)]].
    - pose proof (delim_next (P ++ (L_PAREN, lit "(") :: leaves_of x ++ rl) tl t2 (leaves_of z ++ (R_PAREN, lit ")") :: R) Htl H2) as D.
      rewrite Ol in D. rewrite Etl, leaves_of_app, leaves_comma, <- (app_assoc (leaves_of t2)). cbn [app]. rewrite D. cbn [obind_o snd].
      destruct (_ =? _) eqn:Eq; [apply Nat.eqb_eq in Eq; lia|]. cbn [obind_o]. unfold lrange_of, lstart. cbn [fst]. unfold mk_range.
      rewrite (proj2 (Nat.leb_le _ _)) by lia. eexists. split; [reflexivity|]. exists (x ++ z). split; [exact Hp|].
      apply (delete_param pre post s x (Node k cs :: t2 ++ [comma]) z).
      + rewrite E. cbn [app]. rewrite <- app_assoc. reflexivity.
      + reflexivity.
      + rewrite lens_cons, len_node, lens_app, L. change (lens [comma]) with 1. unfold start. lia.
    - exfalso. apply blank_app in Hx. destruct Hx as [_ Hx]. apply Forall_inv in Hx. destruct Hx as (k' & t' & E' & Hk & _).
      unfold comma in E'. injection E' as <- _. discriminate.
    - destruct (delim_done toks (start + lens x + bytes (text rl), tl) COMMA) as (r1 & -> & N1 & _). cbn [obind_o].
      rewrite N1; cycle 1.
      { rewrite Etl, <- Ol. pose proof (after_place 0 (P ++ (L_PAREN, lit "(") :: leaves_of x ++ rl) tl (leaves_of y ++ (R_PAREN, lit ")") :: R) Htl) as A.
        cbn [Nat.add] in A. rewrite A. apply no_next; [exact Hy | reflexivity | discriminate]. }
      unfold lf_end. cbn [fst snd]. rewrite L, !Nat.add_assoc, Nat.eqb_refl.
      destruct (delim_done toks (start + lens x, tf) COMMA) as (r2 & -> & _ & N2). cbn [obind_o].
      rewrite N2; cycle 1.
      { rewrite Etf, <- Of. pose proof (before_place 0 (P ++ (L_PAREN, lit "(") :: leaves_of x) tf (rf ++ leaves_of y ++ (R_PAREN, lit ")") :: R) Htf) as A.
        cbn [Nat.add] in A. rewrite A. apply no_prev; [exact Hx | reflexivity | discriminate]. }
      unfold lf_start. cbn [fst]. unfold mk_range. rewrite (proj2 (Nat.leb_le _ _)) by lia. eexists. split; [reflexivity|].
      exists (x ++ y). split; [exact Hp|]. apply (delete_param pre post s x [Node k cs] y); [exact E | reflexivity |].
      rewrite lens_node, L. unfold start. lia.
  Qed.
End Removal.

(** *** Variadic parameters *)
Lemma has_tok_split k c : existsb (fun e => is_tok e && skind_eqb (kind_of e) k) c = true ->
  exists a t b, c = a ++ Tok k t :: b /\ forallb (fun e => negb (tok_of k e)) a = true.
Proof.
  induction c as [|e c IH]; [discriminate|]. cbn [existsb]. destruct (is_tok e && skind_eqb (kind_of e) k) eqn:E.
  - intros _. apply andb_prop in E. destruct E as [E1 E2]. apply skind_eqb_eq in E2. destruct e as [k' t|]; [|discriminate]. cbn [kind_of] in E2. subst k'.
    exists [], t, c. auto.
  - intros H. destruct (IH H) as (a & t & b & -> & Ha). exists (e :: a), t, b. split; [reflexivity|]. cbn [forallb]. unfold tok_of at 1. rewrite E. exact Ha.
Qed.
Lemma has_tok_none k c : existsb (fun e => is_tok e && skind_eqb (kind_of e) k) c = false -> forallb (fun e => negb (tok_of k e)) c = true.
Proof.
  induction c as [|e c IH]; [reflexivity|]. cbn [existsb forallb]. intros H. apply Bool.orb_false_iff in H. destruct H as [H1 H2].
  unfold tok_of at 1. rewrite H1. apply IH, H2.
Qed.
Lemma good_checks {A} pre post s items cf (f : A -> check) (g : A -> bool) r l :
  (forall x, In x l -> good pre post s items cf (f x) (yes (g x) r)) ->
  good pre post s items cf (checks (map f l)) (map (fun _ => r) (filter g l)).
Proof.
  induction l as [|x l IH]; intros H; [apply good_none|]. cbn [map checks filter].
  replace (map (fun _ => r) (if g x then x :: filter g l else filter g l)) with (yes (g x) r ++ map (fun _ => r) (filter g l)) by (destruct (g x); reflexivity).
  apply good_both; [apply H; left; reflexivity | apply IH; intros y Hy; apply H; right; exact Hy].
Qed.
Lemma filter_sub {A} (f g : A -> bool) l : (forall x, f x = true -> g x = true) -> filter f (filter g l) = filter f l.
Proof.
  intros H. induction l as [|x l IH]; [reflexivity|]. cbn [filter]. destruct (g x) eqn:G; cbn [filter].
  - destruct (f x); [f_equal|]; exact IH.
  - destruct (f x) eqn:F; [apply H in F; congruence | exact IH].
Qed.
Lemma map_filter_snd {A B} (f : B -> bool) (l : list (A * B)) (r : rule) :
  map (fun _ => r) (filter (fun p => f (snd p)) l) = map (fun _ => r) (filter f (map snd l)).
Proof. induction l as [|x l IH]; [reflexivity|]. cbn [map filter]. destruct (f (snd x)); cbn [map]; [f_equal|]; exact IH. Qed.

Section Items.
  Variables (pre post : list (skind * str)) (s : fn_src) (items : list elem).
  Hypothesis Hok : fn_ok s items.
  Let toks := file_leaves pre (fn_tree s) post.
  Let cf := simple items.
  Let start := inside pre s.
  Let plist : lelem := (bytes (text pre) + lens (fn_before s), Node PARAM_LIST (lpar :: f_params s ++ [rpar])).

  Lemma H_params : params items (f_params s).
  Proof. unfold fn_ok in Hok. decompose [and] Hok. assumption. Qed.
  Lemma H_first : receiver_first items.
  Proof. unfold fn_ok in Hok. decompose [and] Hok. assumption. Qed.
  Lemma items_of k : k <> COMMA -> map snd (child_nodes k plist) = filter (node_of k) items.
  Proof.
    intros Hk. unfold plist. rewrite child_nodes_snd. change (lpar :: f_params s ++ [rpar]) with ([lpar] ++ f_params s ++ [rpar]).
    rewrite !filter_app. cbn [filter]. change (node_of k lpar) with false. change (node_of k rpar) with false. cbn [app]. rewrite app_nil_r.
    apply (params_filter _ _ _ H_params). intros e He. unfold node_of. rewrite He. reflexivity.
  Qed.
  Lemma item_at k p : In p (child_nodes k plist) ->
    exists x y c i, f_params s = x ++ Node k c :: y /\ p = (start + lens x, Node k c)
      /\ nth_error items i = Some (Node k c) /\ surrounded items i x y /\ (i = 0 -> blank x).
  Proof.
    intros H. destruct (child_nodes_split _ _ _ _ _ H) as (X & Y & c & E & Eo & Ep). rewrite Ep in E.
    destruct (strip_parens _ _ _ _ _ E) as (x & y & -> & -> & Eb). destruct (params_occurrence _ _ H_params _ _ _ _ Eb) as (i & Hi & HS & H0).
    exists x, y, c, i. split; [exact Eb|]. split; [|auto]. destruct p as [q e]. cbn [fst snd] in *. subst e. f_equal. rewrite Eo.
    change (lpar :: x) with ([lpar] ++ x). rewrite lens_app. change (lens [lpar]) with 1. unfold start, inside. lia.
  Qed.
  Lemma item_ok_at i e : nth_error items i = Some e -> param_ok e.
  Proof. intros H. apply nth_error_In in H. pose proof (params_ok _ _ H_params) as F. rewrite Forall_forall in F. apply F, H. Qed.

  Lemma good_variadic : good pre post s items cf (no_variadic toks (at_place pre (fn_tree s))) (map (fun _ => RVariadic) (filter variadic items)).
  Proof.
    unfold no_variadic. rewrite (param_list_child pre s items Hok). fold plist.
    replace (filter variadic items) with (filter variadic (filter (node_of PARAM) items)).
    2: { apply filter_sub. intros e He. unfold variadic in He. apply andb_prop in He. destruct He as [H1 H2].
         unfold node_of. rewrite H1. destruct e; [discriminate | reflexivity]. }
    rewrite <- items_of by discriminate. rewrite <- map_filter_snd. apply good_checks. intros p Hp.
    destruct (item_at _ _ Hp) as (x & y & c & i & E & -> & Hi & HS & _). cbn [snd].
    assert (V : variadic (Node PARAM c) = existsb (fun e => is_tok e && skind_eqb (kind_of e) DOT3) c) by reflexivity.
    rewrite V. destruct (existsb (fun e => is_tok e && skind_eqb (kind_of e) DOT3) c) eqn:Ex; cbn [yes].
    - destruct (has_tok_split _ _ Ex) as (a & t & b & -> & Ha). rewrite child_token_at by exact Ha.
      destruct (delim_done toks (start + lens x + lens a, (DOT3, t)) COMMA) as (rg & Erg & _ & _). rewrite Erg. cbn [obind_o].
      apply (good_one _ _ _ _ _ (one_fix RVariadic _ _)). split; [|split; [discriminate|]].
      + exists [(DOT3, t)]. split.
        * eapply md_variadic; [eapply nth_error_In, Hi | apply in_elt].
        * cbn [one_fix rd_range].
          assert (M : marks pre (fn_tree s) [(DOT3, t)] (start + bytes (text (leaves_of x ++ leaves_of a)), start + bytes (text (leaves_of x ++ leaves_of a)) + bytes (text [(DOT3, t)]))).
          { apply (marks_inside pre s (leaves_of x ++ leaves_of a) [(DOT3, t)] (leaves_of b ++ leaves_of y)).
            rewrite E. change (Node PARAM (a ++ Tok DOT3 t :: b) :: y) with ([Node PARAM (a ++ Tok DOT3 t :: b)] ++ y). rewrite !leaves_of_app, leaves_one.
            change (Tok DOT3 t :: b) with ([Tok DOT3 t] ++ b). rewrite !leaves_of_app. change (leaves_of [Tok DOT3 t]) with [(DOT3, t)].
            repeat (rewrite <- ?app_assoc; cbn [app]). reflexivity. }
          rewrite text_app, bytes_app, !bytes_texts in M. unfold text in M. cbn [flat_map snd] in M. rewrite app_nil_r, Nat.add_assoc in M. exact M.
      + cbn [one_fix rd_rule rd_fixes]. intros Hs fx [<-|[]]. unfold cf, simple in Hs.
        destruct (Hs (Node PARAM (a ++ Tok DOT3 t :: b)) (nth_error_In _ _ Hi)) as (t' & Et').
        { exact V. }
        injection Et' as Et'. assert (a = [] /\ t' = t /\ b = []) as (-> & -> & ->).
        { destruct a as [|e a]; cbn [app] in Et'; [injection Et'; auto|]. injection Et' as _ Et'. destruct a; discriminate. }
        assert (Ht : t <> []).
        { destruct (item_ok_at _ _ Hi) as (k & cs & Ek & _ & (Ht & _) & _). injection Ek as <- <-. unfold tokens_ok in Ht. cbn in Ht. inversion Ht. assumption. }
        destruct (token_removal pre post s items x t y i E Ht HS) as (rg' & Erg' & p & Hp' & Ha').
        rewrite lens_nil, Nat.add_0_r in Erg. unfold toks, start in Erg. rewrite Erg' in Erg. injection Erg as ->.
        exists (set_params p s), (without i items). split; [apply (ok_set_params s items); [exact Hok | exact Hp' | apply receiver_without, H_first]|].
        split; [eapply rp_variadic; [exact Hi | exact V]|]. eexists. split; [reflexivity | exact Ha'].
    - rewrite child_token_none by (apply has_tok_none, Ex). apply good_none.
  Qed.

  (** *** The receiver *)
  Lemma receiver_cases :
    (child_nodes SELF_PARAM plist = [] /\ existsb is_receiver items = false)
    \/ (exists x y c l rest, items = Node SELF_PARAM c :: l /\ child_nodes SELF_PARAM plist = (start + lens x, Node SELF_PARAM c) :: rest
        /\ f_params s = x ++ Node SELF_PARAM c :: y /\ surrounded items 0 x y /\ blank x).
  Proof.
    pose proof (items_of SELF_PARAM ltac:(discriminate)) as HI. destruct (child_nodes SELF_PARAM plist) as [|p rest] eqn:Ec.
    - left. split; [reflexivity|]. cbn [map] in HI. destruct (existsb is_receiver items) eqn:Ex; [|reflexivity]. exfalso.
      apply existsb_exists in Ex. destruct Ex as (e & He & Hr). assert (Hin : In e (filter (node_of SELF_PARAM) items)).
      { apply filter_In. split; [exact He|]. unfold node_of, is_receiver in *. rewrite Hr. pose proof (params_ok _ _ H_params) as F.
        rewrite Forall_forall in F. destruct (F e He) as (k & cs & -> & _). reflexivity. }
      rewrite <- HI in Hin. destruct Hin.
    - right. assert (Hp : In p (child_nodes SELF_PARAM plist)) by (rewrite Ec; left; reflexivity).
      destruct (item_at _ _ Hp) as (x & y & c & i & E & -> & Hi & HS & H0). assert (i = 0).
      { pose proof H_first as F. destruct items as [|e l]; [destruct i; discriminate|]. destruct i as [|i]; [reflexivity|]. cbn [nth_error] in Hi.
        cbn [receiver_first] in F. apply nth_error_In in Hi. rewrite Forall_forall in F. apply F in Hi. discriminate. }
      subst i. exists x, y, c, (tl items), rest. split; [destruct items; [discriminate | injection Hi as ->; reflexivity]|]. auto.
  Qed.
  Lemma good_no_receiver : good pre post s items cf (no_self_receiver toks (at_place pre (fn_tree s))) (yes (existsb is_receiver items) RNoReceiver).
  Proof.
    unfold no_self_receiver. rewrite (param_list_child pre s items Hok). fold plist. cbn [obind]. unfold child_node.
    destruct receiver_cases as [[-> ->]|(x & y & c & l & rest & Ei & -> & E & HS & Hx)]; [apply good_none|].
    assert (Hr : existsb is_receiver items = true) by (rewrite Ei; reflexivity). rewrite Hr. cbn [hd_error yes].
    assert (Hc : solid c).
    { destruct (item_ok_at 0 (Node SELF_PARAM c)) as (k & cs & Ek & _ & Hs & _); [rewrite Ei; reflexivity|]. injection Ek as <- <-. exact Hs. }
    destruct (first_removal pre post s items SELF_PARAM c x y E Hc Hx HS) as (rg & Erg & p & Hp & Ha). unfold toks, start. rewrite Erg. cbn [obind_o].
    apply (good_one _ _ _ _ _ (one_fix RNoReceiver _ _)). split; [|split; [discriminate|]].
    - exists (leaves (Node SELF_PARAM c)). split; [eapply md_no_receiver, Ei|]. cbn [one_fix rd_range].
      pose proof (marks_inside pre s (leaves_of x) (leaves (Node SELF_PARAM c)) (leaves_of y)) as M.
      rewrite bytes_texts, text_leaves in M. unfold lrange_of, lstart, lend. cbn [fst snd]. apply M. rewrite E, leaves_of_app. reflexivity.
    - cbn [one_fix rd_rule rd_fixes]. intros _ fx [<-|[]]. exists (set_params p s), l. rewrite Ei in Hp. change (without 0 (Node SELF_PARAM c :: l)) with l in Hp.
      split; [apply (ok_set_params s items); [exact Hok | exact Hp |]|].
      + pose proof (receiver_without items 0 H_first) as F. rewrite Ei in F. exact F.
      + split; [rewrite Ei; apply rp_no_receiver; reflexivity|]. eexists. split; [reflexivity | exact Ha].
  Qed.
End Items.

(** ** The range of the declaration *)
Definition front_elem (e : elem) : Prop :=
  (exists cs, e = Node ATTR cs /\ solid cs) \/ (exists k s, e = Tok k s /\ is_trivia k = true /\ s <> []).
Lemma attr_or_blank l : Forall front_elem l -> blank l \/ exists a cs b, l = a ++ Node ATTR cs :: b /\ blank b /\ solid cs.
Proof.
  induction 1 as [|e l He Hl IH]; [left; constructor|]. destruct IH as [IH|(a & cs & b & -> & Hb & Hc)].
  - destruct He as [(cs & -> & Hs)|(k & s & -> & Hk & Hs)]; [right; exists [], cs, l; auto|]. left. constructor; [exists k, s; auto | exact IH].
  - right. exists (e :: a), cs, b. auto.
Qed.
Lemma attr_split l : front_ok l -> exists a cs b, l = a ++ Node ATTR cs :: b /\ blank b /\ solid cs.
Proof.
  intros [H (cs & Hin)]. destruct (attr_or_blank l H) as [B|H']; [|exact H']. exfalso. apply blank_tok in B. rewrite Forall_forall in B. apply B in Hin. discriminate.
Qed.
Definition doc_of (c : lelem) : option leaf :=
  match snd c with Tok COMMENT s => if is_doc s then Some (fst c, (COMMENT, s)) else None | _ => None end.
Lemma filter_map_app {A B} (f : A -> option B) a b : filter_map f (a ++ b) = filter_map f a ++ filter_map f b.
Proof. induction a as [|x a IH]; [reflexivity|]. cbn [app filter_map]. destruct (f x); [cbn [app]; f_equal|]; exact IH. Qed.
Lemma last_opt_app2 {A} (a b : list A) : last_opt (a ++ b) = match last_opt b with Some x => Some x | None => last_opt a end.
Proof.
  destruct b as [|x b _] using rev_ind; [rewrite app_nil_r; reflexivity|]. rewrite app_assoc, !last_opt_app. reflexivity.
Qed.
Lemma no_docs_none l q : no_docs l -> filter_map doc_of (place q l) = [].
Proof.
  intros H. revert q. induction H as [|e l He _ IH]; intros q; [reflexivity|]. cbn [place filter_map]. unfold doc_of at 1. cbn [snd fst].
  destruct e as [k s|]; [destruct k; try apply IH; rewrite (He s eq_refl); apply IH | apply IH].
Qed.
(** The last doc comment of a list: none, or a comment with only others after it. *)
Lemma last_doc_split l q : match last_opt (filter_map doc_of (place q l)) with
  | None => True
  | Some d => exists a s b, l = a ++ Tok COMMENT s :: b /\ d = (q + lens a, (COMMENT, s))
  end.
Proof.
  destruct (last_opt _) as [d|] eqn:E; [|exact I]. apply last_opt_some in E. destruct E as (l' & E).
  assert (Hin : In d (filter_map doc_of (place q l))) by (rewrite E; apply in_or_app; right; left; reflexivity).
  apply filter_map_In in Hin. destruct Hin as (c & Hc & Hd). apply place_split in Hc. destruct Hc as (a & b & El & Eo).
  unfold doc_of in Hd. destruct c as [qc e]. cbn [fst snd] in *. destruct e as [k s|]; [|discriminate]. destruct k; try discriminate.
  destruct (is_doc s); [|discriminate]. injection Hd as <-. exists a, s, b. rewrite Eo. auto.
Qed.

Section Declaration.
  Variables (pre post : list (skind * str)) (front parts : list elem) (K : skind).
  Hypothesis Hf : front_ok front.
  Hypothesis Hd : no_docs parts.
  Hypothesis Ha : forallb (fun e => negb (node_of ATTR e)) parts = true.
  Hypothesis Hb : begins_solid parts.
  Let item := Node K (front ++ parts).
  Let toks := file_leaves pre item post.
  Let o := bytes (text pre).

  Lemma decl_start : declaration_start toks (at_place pre item) = o + lens front.
  Proof.
    destruct (attr_split front Hf) as (a & cs & b & Ef & Hbl & (Hok & _ & (r & t & Er & _))).
    assert (Ht : snd t <> []) by (unfold tokens_ok in Hok; rewrite Er, Forall_forall in Hok; apply Hok, in_or_app; right; left; reflexivity).
    assert (EA : last_attr_leaf (at_place pre item) = Some (o + lens a + bytes (text r), t)).
    { unfold last_attr_leaf, at_place, item. rewrite Ef, <- app_assoc. cbn [app].
      assert (N : child_nodes ATTR (o, Node K (a ++ Node ATTR cs :: b ++ parts)) = child_nodes ATTR (o, Node K a) ++ [(o + lens a, Node ATTR cs)]).
      { unfold child_nodes. cbn [snd fst]. rewrite place_app, filter_app. f_equal. cbn [place filter is_tok negb andb]. unfold lkind. cbn [snd kind_of].
        rewrite skind_eqb_refl. cbn [andb negb is_tok]. fold (lens a). f_equal. rewrite place_app, filter_app.
        assert (B : forall q, filter (fun c : lelem => negb (is_tok (snd c)) && skind_eqb (kind_of (snd c)) ATTR) (place q b) = []).
        { intros q. apply filter_none. intros c Hc. apply place_In in Hc. apply blank_tok in Hbl. rewrite Forall_forall in Hbl. rewrite (Hbl _ Hc). reflexivity. }
        rewrite B. cbn [app]. apply filter_none. intros c Hc. apply place_In in Hc. rewrite forallb_forall in Ha. specialize (Ha _ Hc).
        apply Bool.negb_true_iff in Ha. exact Ha. }
      unfold o in N. rewrite N, last_opt_app. cbn [obind]. apply last_leaf, Er. }
    assert (ED : last_doc (at_place pre item) = last_opt (filter_map doc_of (place o front))).
    { unfold last_doc, at_place, item. cbn [snd fst]. change (last_opt (filter_map doc_of (place o (front ++ parts))) = last_opt (filter_map doc_of (place o front))).
      rewrite place_app, filter_map_app, (no_docs_none parts _ Hd), app_nil_r. reflexivity. }
    unfold declaration_start. rewrite EA, ED. pose proof (last_doc_split front o) as LD.
    assert (Et0 : toks = place_leaves 0 (pre ++ leaves_of front ++ leaves_of parts ++ post)).
    { unfold toks, file_leaves, item. rewrite leaves_node, leaves_of_app, <- app_assoc. reflexivity. }
    assert (Hattr : forall x, closest_solid (leaves_after toks (o + lens a + bytes (text r), t)) = Some x -> lf_start x = o + lens front).
    { intros x Hx.
      destruct (after_token (pre ++ leaves_of a ++ r) t b parts post Ht Hbl Hb) as (x' & Ex & Es).
      rewrite !text_app, !bytes_app, bytes_texts, !Nat.add_assoc in Ex, Es.
      assert (Et : toks = place_leaves 0 ((pre ++ leaves_of a ++ r) ++ t :: leaves_of b ++ leaves_of parts ++ post)).
      { rewrite Et0, Ef. change (Node ATTR cs :: b) with ([Node ATTR cs] ++ b). rewrite !leaves_of_app, leaves_one, Er. repeat (rewrite <- ?app_assoc; cbn [app]). reflexivity. }
      rewrite Et in Hx. fold o in Ex. rewrite Hx in Ex. injection Ex as <-. rewrite Es. fold o. rewrite Ef, lens_app, lens_cons, len_node.
      rewrite <- (bytes_texts cs), Er, text_app, bytes_app.
      assert (TT : bytes (text [t]) = bytes (snd t)) by (unfold text; cbn [flat_map]; rewrite app_nil_r; reflexivity). rewrite TT. lia. }
    assert (Hattr' : exists x, closest_solid (leaves_after toks (o + lens a + bytes (text r), t)) = Some x).
    { destruct (after_token (pre ++ leaves_of a ++ r) t b parts post Ht Hbl Hb) as (x' & Ex & Es).
      rewrite !text_app, !bytes_app, bytes_texts, !Nat.add_assoc in Ex. fold o in Ex. exists x'. rewrite <- Ex. f_equal. f_equal.
      rewrite Et0, Ef. change (Node ATTR cs :: b) with ([Node ATTR cs] ++ b). rewrite !leaves_of_app, leaves_one, Er. repeat (rewrite <- ?app_assoc; cbn [app]). reflexivity. }
    destruct (last_opt (filter_map doc_of (place o front))) as [d|].
    - destruct LD as (a' & s & b' & Ef' & ->). destruct (lf_end _ <=? lf_end _) eqn:Eq.
      + (* the doc comment is later *)
        apply Nat.leb_le in Eq. unfold lf_end in Eq. cbn [fst snd] in Eq. cbn [obind].
        assert (E2 : a ++ Node ATTR cs :: b = a' ++ Tok COMMENT s :: b') by congruence.
        assert (exists m, b = m ++ Tok COMMENT s :: b') as (m & Em).
        { clear - E2 Eq Er Ht. destruct (Nat.le_gt_cases (length a') (length a)) as [Hl|Hl].
          - exfalso. assert (Pr : exists m, a = a' ++ m) by (exists (skipn (length a') a); apply (f_equal (firstn (length a'))) in E2;
              rewrite firstn_app, (firstn_app _ a'), firstn_all, Nat.sub_diag in E2; cbn [firstn] in E2; rewrite app_nil_r in E2;
              replace (length a' - length a) with 0 in E2 by lia; cbn [firstn] in E2; rewrite app_nil_r in E2;
              rewrite <- E2 at 1; symmetry; apply firstn_skipn).
            destruct Pr as (m & ->). rewrite <- app_assoc in E2. apply app_inv_head in E2. destruct m as [|e m]; cbn [app] in E2; [discriminate|].
            injection E2 as -> _. rewrite lens_app, lens_cons in Eq. unfold len_of in Eq. cbn [text_of] in Eq. apply bytes_pos in Ht. lia.
          - assert (Pr : exists m, a' = a ++ m) by (exists (skipn (length a) a'); apply (f_equal (firstn (length a))) in E2;
              rewrite firstn_app, (firstn_app _ a'), firstn_all, Nat.sub_diag in E2; cbn [firstn] in E2; rewrite app_nil_r in E2;
              replace (length a - length a') with 0 in E2 by lia; cbn [firstn] in E2; rewrite app_nil_r in E2;
              rewrite E2 at 1; symmetry; apply firstn_skipn).
            destruct Pr as (m & ->). rewrite <- app_assoc in E2. apply app_inv_head in E2. destruct m as [|e m]; cbn [app] in E2; [discriminate|].
            injection E2 as _ ->. exists m. reflexivity. }
        rewrite Em in Hbl. apply blank_app in Hbl. destruct Hbl as [_ Hbl]. apply Forall_cons_iff in Hbl. destruct Hbl as [(k' & s' & Es' & _ & Hs') Hbl].
        injection Es' as <- <-.
        destruct (after_token (pre ++ leaves_of a') (COMMENT, s) b' parts post Hs' Hbl Hb) as (x & Ex & Es).
        rewrite !text_app, !bytes_app, bytes_texts in Ex, Es. fold o in Ex, Es.
        assert (Et : toks = place_leaves 0 ((pre ++ leaves_of a') ++ (COMMENT, s) :: leaves_of b' ++ leaves_of parts ++ post)).
        { rewrite Et0, Ef'. change (Tok COMMENT s :: b') with ([Tok COMMENT s] ++ b'). rewrite !leaves_of_app. repeat (rewrite <- ?app_assoc; cbn [app]). reflexivity. }
        rewrite Et, Ex. rewrite Es, Ef', lens_app, lens_cons. unfold len_of. cbn [text_of snd]. lia.
      + cbn [obind]. destruct Hattr' as (x & Ex). rewrite Ex. apply Hattr, Ex.
    - cbn [obind]. destruct Hattr' as (x & Ex). rewrite Ex. apply Hattr, Ex.
  Qed.
End Declaration.

Section FnRange.
  Variables (pre post : list (skind * str)) (s : fn_src) (items : list elem).
  Hypothesis Hok : fn_ok s items.
  Let toks := file_leaves pre (fn_tree s) post.
  Let o := bytes (text pre).

  Definition head (s : fn_src) : list elem :=
    noded VISIBILITY (f_vis s)
    ++ keyword DEFAULT_KW (lit "default") (f_default s) ++ keyword CONST_KW (lit "const") (f_const s)
    ++ keyword ASYNC_KW (lit "async") (f_async s) ++ keyword UNSAFE_KW (lit "unsafe") (f_unsafe s)
    ++ noded ABI (f_abi s) ++ Tok FN_KW (lit "fn") :: f_name s ++ generics (f_generics s) ++ f_gap s
    ++ Node PARAM_LIST (Tok L_PAREN (lit "(") :: f_params s ++ [Tok R_PAREN (lit ")")]) :: f_params_gap s
    ++ noded RET_TYPE (f_ret s) ++ noded WHERE_CLAUSE (f_where s).
  Lemma fn_parts_head : fn_parts s = head s ++ ending (f_end s).
  Proof. unfold fn_parts, head. repeat (rewrite <- ?app_assoc; cbn [app]). reflexivity. Qed.
  Lemma declaration_head : declaration s = head s ++ match f_end s with WithBody _ => [Tok L_CURLY (lit "{")] | WithoutBody => [Tok SEMICOLON (lit ";")] end.
  Proof. unfold declaration, head. repeat (rewrite <- ?app_assoc; cbn [app]). reflexivity. Qed.
  Lemma parts_begin : begins_solid (fn_parts s).
  Proof. unfold fn_ok in Hok. decompose [and] Hok. unfold fn_parts. begins. Qed.
  Lemma start_of : declaration_start toks (at_place pre (fn_tree s)) = o + lens (f_front s).
  Proof.
    unfold fn_ok in Hok. decompose [and] Hok. unfold toks, fn_tree, fn_children. apply decl_start; try assumption; [|apply parts_begin].
    unfold fn_parts. no_node.
  Qed.
  Lemma head_no_block : forallb (fun e => negb (node_of BLOCK_EXPR e)) (f_front s ++ head s) = true.
  Proof. unfold fn_ok in Hok. decompose [and] Hok. unfold head. no_node. Qed.
  Lemma head_no_semi : forallb (fun e => negb (tok_of SEMICOLON e)) (f_front s ++ head s) = true.
  Proof. unfold fn_ok in Hok. decompose [and] Hok. unfold head. no_tok. Qed.
  Lemma declaration_range : exists rg, fn_range toks (at_place pre (fn_tree s)) = Done rg /\ marks pre (fn_tree s) (leaves_of (declaration s)) rg.
  Proof.
    set (MM := marks pre (fn_tree s) (leaves_of (declaration s))). unfold fn_range, fn_declaration_range. rewrite start_of. unfold at_place, fn_tree, fn_children. rewrite fn_parts_head, app_assoc.
    assert (L : forall x : elem, lens (declaration s) = lens (head s) + 1).
    { intros _. rewrite declaration_head, lens_app. destruct (f_end s); reflexivity. }
    assert (M : MM (o + lens (f_front s), o + lens (f_front s) + (lens (head s) + 1))).
    { unfold MM. exists (leaves_of (f_front s)), (match f_end s with WithBody l => leaves_of l | WithoutBody => [] end). split.
      - unfold fn_tree. rewrite leaves_node. unfold fn_children. rewrite leaves_of_app, fn_parts_head, declaration_head, !leaves_of_app, <- app_assoc. f_equal. f_equal.
        destruct (f_end s) as [l|]; cbn [ending]; [|reflexivity]. rewrite leaves_one, leaves_one. reflexivity.
      - rewrite !text_app, !bytes_app, !bytes_texts, (L (Tok FN_KW [])). unfold o. f_equal. lia. }
    destruct (f_end s) as [l|] eqn:Ee; cbn [ending].
    - rewrite child_node_at by exact head_no_block. change [Node STMT_LIST (Tok L_CURLY (lit "{") :: l)] with ([] ++ Node STMT_LIST (Tok L_CURLY (lit "{") :: l) :: []).
      rewrite child_node_at by reflexivity. change (Tok L_CURLY (lit "{") :: l) with ([] ++ Tok L_CURLY (lit "{") :: l). rewrite child_token_at by reflexivity.
      unfold lf_end. cbn [fst snd]. change (bytes (lit "{")) with 1. rewrite !lens_nil, lens_app. fold o. unfold mk_range.
      rewrite (proj2 (Nat.leb_le _ _)) by lia. cbn [obind_o]. eexists. split; [reflexivity|].
      replace (o + (lens (f_front s) + lens (head s)) + 0 + 0 + 1) with (o + lens (f_front s) + (lens (head s) + 1)) by lia. exact M.
    - rewrite child_node_none; cycle 1. { rewrite forallb_app, head_no_block. reflexivity. }
      rewrite child_token_at by exact head_no_semi. cbn [option_map]. unfold lf_end. cbn [fst snd]. change (bytes (lit ";")) with 1. rewrite lens_app. fold o. unfold mk_range.
      rewrite (proj2 (Nat.leb_le _ _)) by lia. cbn [obind_o]. eexists. split; [reflexivity|].
      replace (o + (lens (f_front s) + lens (head s)) + 1) with (o + lens (f_front s) + (lens (head s) + 1)) by lia. exact M.
  Qed.
End FnRange.

(** ** Return types, receivers and all rules together *)
Lemma type_found q a ty b K : is_tok ty = false -> is_type (kind_of ty) = true ->
  Forall (fun e => is_tok e = true \/ is_type (kind_of e) = false) a ->
  child_type (q, Node K (a ++ ty :: b)) = Some (q + lens a, ty).
Proof.
  intros Ht Hk H. unfold child_type. cbn [snd fst]. revert q. induction H as [|e a He _ IH]; intros q.
  - cbn [app place find snd]. unfold lkind. cbn [snd]. rewrite Ht, Hk. rewrite lens_nil, Nat.add_0_r. reflexivity.
  - cbn [app place find snd]. unfold lkind at 1. cbn [snd]. assert (F : negb (is_tok e) && is_type (kind_of e) = false) by (destruct He as [->| ->]; [reflexivity | apply Bool.andb_false_r]).
    rewrite F, IH, lens_cons, Nat.add_assoc. reflexivity.
Qed.
Lemma returned_found a ty b g : is_tok ty = false -> is_type (kind_of ty) = true ->
  Forall (fun e => is_tok e = true \/ is_type (kind_of e) = false) a -> returned (Some (a ++ ty :: b, g)) = Some ty.
Proof.
  intros Ht Hk H. cbn [returned]. induction H as [|e a He _ IH]; cbn [app find].
  - rewrite Ht, Hk. reflexivity.
  - assert (F : negb (is_tok e) && is_type (kind_of e) = false) by (destruct He as [->| ->]; [reflexivity | apply Bool.andb_false_r]).
    rewrite F. exact IH.
Qed.

Section All.
  Variables (pre post : list (skind * str)) (s : fn_src) (items : list elem).
  Hypothesis Hok : fn_ok s items.
  Let toks := file_leaves pre (fn_tree s) post.
  Let cf := simple items.
  Let o := bytes (text pre).
  Let good_ := good pre post s items cf.
  Let item := at_place pre (fn_tree s).

  (** What stands before and after the return type *)
  Definition ret_before (s : fn_src) : list elem := fn_before s ++ Node PARAM_LIST (lpar :: f_params s ++ [rpar]) :: f_params_gap s.
  Definition ret_after (s : fn_src) : list elem := noded WHERE_CLAUSE (f_where s) ++ ending (f_end s).
  Lemma fn_children_ret : fn_children s = ret_before s ++ noded RET_TYPE (f_ret s) ++ ret_after s.
  Proof. rewrite fn_children_params. unfold ret_before, ret_after, fn_after. repeat (rewrite <- ?app_assoc; cbn [app]). reflexivity. Qed.
  Lemma no_ret_before : forallb (fun e => negb (node_of RET_TYPE e)) (ret_before s) = true.
  Proof. unfold fn_ok in Hok. decompose [and] Hok. unfold ret_before, fn_before. no_node. Qed.
  Lemma no_ret_after : forallb (fun e => negb (node_of RET_TYPE e)) (ret_after s) = true.
  Proof. unfold fn_ok in Hok. decompose [and] Hok. unfold ret_after. no_node. Qed.
  Lemma ret_after_begins : begins_solid (ret_after s).
  Proof. unfold fn_ok in Hok. decompose [and] Hok. unfold ret_after. begins. Qed.

  Lemma good_return : good_ (return_type toks item) (yes (negb (is_some (f_ret s))) RReturn).
  Proof.
    unfold return_type. destruct (declaration_range pre post s items Hok) as (rg & Erg & M). unfold toks, item. rewrite Erg. cbn [obind_o].
    rewrite (param_list_child pre s items Hok). unfold at_place at 1. unfold fn_tree at 1. rewrite fn_children_ret.
    assert (Hret : ret_ok (f_ret s)) by (unfold fn_ok in Hok; decompose [and] Hok; assumption).
    destruct (f_ret s) as [[cs g]|] eqn:Ew; cbn [noded is_some negb yes].
    - cbn [app]. rewrite child_node_at by exact no_ret_before. cbn [obind]. destruct Hret as (a & ty & b & -> & H1 & H2 & H3 & _).
      rewrite type_found by assumption. apply good_none.
    - cbn [app]. rewrite child_node_none; [|rewrite forallb_app, no_ret_before, no_ret_after; reflexivity]. cbn [obind].
      apply (good_one _ _ _ _ _ (RDiag RReturn _ _)). split; [|split; [discriminate|]].
      + exists (leaves_of (declaration s)). split; [apply md_return | exact M].
      + cbn [rd_rule rd_fixes]. intros _ fx [<-|[]]. exists (set_ret [blank_one] (Some (arrow_self, f_params_gap s)) s), items.
        split; [apply ok_add_ret; assumption|]. split; [apply rp_return|]. eexists. split; [reflexivity|].
        unfold fn_tree. rewrite !fn_children_params, !in_file_text.
        unfold fn_before, fn_after. cbn [set_ret f_front f_vis f_default f_const f_async f_unsafe f_abi f_name f_generics f_gap f_params f_params_gap f_ret f_where f_end].
        rewrite Ew. fold (fn_before s). cbn [noded app].
        set (PL := Node PARAM_LIST (lpar :: f_params s ++ [rpar])). set (Z := noded WHERE_CLAUSE (f_where s) ++ ending (f_end s)).
        change (PL :: f_params_gap s ++ Z) with ([PL] ++ f_params_gap s ++ Z).
        change (PL :: blank_one :: Node RET_TYPE arrow_self :: f_params_gap s ++ Z) with ([PL] ++ (blank_one :: [Node RET_TYPE arrow_self]) ++ f_params_gap s ++ Z).
        rewrite !(texts_of_app (fn_before s)), !(texts_of_app [PL]), (texts_of_app (blank_one :: _)).
        change (texts_of (blank_one :: [Node RET_TYPE arrow_self])) with (lit " -> Self").
        rewrite <- !app_assoc. rewrite !(app_assoc (text pre)), !(app_assoc (text pre ++ texts_of (fn_before s))).
        apply inserted. unfold lend. cbn [fst snd]. fold PL. rewrite !bytes_app. unfold texts_of at 2. cbn [flat_map]. rewrite app_nil_r. reflexivity.
  Qed.

  Lemma good_not_self : good_ (not_return_self toks item)
    (yes (match returned (f_ret s) with Some ty => str_eqb (text_of ty) (lit "Self") | None => false end) RReturnSelf).
  Proof.
    unfold not_return_self. assert (Hret : ret_ok (f_ret s) /\ noded_ok (f_ret s)) by (unfold fn_ok in Hok; decompose [and] Hok; auto).
    destruct Hret as [Hret Hn]. destruct (f_ret s) as [[cs g]|] eqn:Ew.
    - destruct Hn as [Hs Hg].
      pose proof fn_children_ret as E. rewrite Ew in E.
      destruct (node_part pre post s RET_TYPE cs g (ret_before s) (ret_after s) E Hs Hg ret_after_begins no_ret_before) as (C & NT & R & M & D).
      unfold item, toks. rewrite C. destruct Hret as (a & ty & b & Ecs & H1 & H2 & H3 & H4). rewrite Ecs in *. rewrite (returned_found a ty b g H1 H2 H3), type_found by assumption.
      rewrite NT. cbn [obind_o snd].
      destruct (str_eqb (text_of ty) (lit "Self")); cbn [yes]; [|apply good_none].
      apply (good_one _ _ _ _ _ (one_fix RReturnSelf _ _)). split; [|split; [discriminate|]].
      + exists (leaves ty). split; [apply md_return_self; rewrite Ew; apply returned_found; assumption|].
        cbn [one_fix rd_range]. unfold lrange_of, lstart, lend. cbn [fst snd].
        exists (leaves_of (ret_before s) ++ leaves_of a), (leaves_of b ++ leaves_of (g ++ ret_after s)). split.
        * unfold fn_tree. rewrite leaves_node, E. cbn [noded]. cbn [app].
          change (Node RET_TYPE (a ++ ty :: b) :: g ++ ret_after s) with ([Node RET_TYPE (a ++ ty :: b)] ++ g ++ ret_after s).
          rewrite leaves_of_app, (leaves_of_app [_]), leaves_one, (leaves_of_app a). change (ty :: b) with ([ty] ++ b). rewrite (leaves_of_app [ty]).
          assert (LT : leaves_of [ty] = leaves ty) by (unfold leaves_of; cbn [flat_map]; apply app_nil_r). rewrite LT, <- !app_assoc. reflexivity.
        * rewrite !text_app, !bytes_app, !bytes_texts, text_leaves. unfold len_of, o. f_equal; lia.
      + cbn [one_fix rd_rule rd_fixes]. intros _ fx [<-|[]]. exists (set_ret (f_params_gap s) None s), items.
        split; [apply ok_no_ret, Hok|]. split; [apply rp_return_self|]. eexists. split; [reflexivity|].
        specialize (D FN). unfold fn_tree at 2.
        replace (fn_children (set_ret (f_params_gap s) None s)) with (ret_before s ++ ret_after s); [exact D|].
        rewrite fn_children_params. unfold ret_before, ret_after, fn_before, fn_after.
        cbn [set_ret f_front f_vis f_default f_const f_async f_unsafe f_abi f_name f_generics f_gap f_params f_params_gap f_ret f_where f_end noded app].
        repeat (rewrite <- ?app_assoc; cbn [app]). reflexivity.
    - unfold item, at_place, fn_tree. rewrite fn_children_ret, Ew. cbn [noded app].
      rewrite child_node_none; [apply good_none|]. rewrite forallb_app, no_ret_before, no_ret_after. reflexivity.
  Qed.

  Lemma self_params v : v = self_ref \/ v = self_mut -> existsb is_receiver items = false ->
    params (v :: items) (v :: (if items then [] else [comma; blank_one]) ++ f_params s) /\ receiver_first (v :: items).
  Proof.
    intros Hv Hr. pose proof (H_params s items Hok) as Hp. assert (Pv : param_ok v).
    { destruct Hv as [-> | ->]; eexists SELF_PARAM, _; (split; [reflexivity|]); (split; [left; reflexivity|]); split; [|split| |split].
      - split; [|split]; [repeat constructor; discriminate | eexists _, _; split; [reflexivity | reflexivity] |].
        exists [(AMP, lit "&")], (IDENT, lit "self"). split; reflexivity.
      - intros z r E. discriminate.
      - intros z r E. apply (f_equal (@rev _)) in E. rewrite rev_app_distr in E. cbn in E. discriminate.
      - split; [|split]; [repeat constructor; discriminate | eexists _, _; split; [reflexivity | reflexivity] |].
        exists [(AMP, lit "&"); (OTHER 126, lit "mut"); (WHITESPACE, lit " ")], (IDENT, lit "self"). split; reflexivity.
      - intros z r E. discriminate.
      - intros z r E. apply (f_equal (@rev _)) in E. rewrite rev_app_distr in E. cbn in E. discriminate. }
    split.
    - destruct items as [|f l] eqn:Ei; cbn [app].
      + apply (params_last v [] (f_params s)); [exact Pv | constructor | apply params_blank, Hp].
      + apply (params_more v [] [] f l (blank_one :: f_params s)); [exact Pv | constructor | constructor |].
        apply (params_pre [blank_one]); [|exact Hp]. constructor; [|constructor]. exists WHITESPACE, (lit " "). repeat split. discriminate.
    - cbn [receiver_first]. pose proof (params_ok _ _ Hp) as F. rewrite Forall_forall in *. intros e He. destruct (F e He) as (k & cs & Ee & [Hk|Hk] & _).
      + exfalso. assert (existsb is_receiver items = true); [|congruence]. apply existsb_exists. exists e. split; [exact He|]. rewrite Ee, Hk. reflexivity.
      + rewrite Ee. exact Hk.
  Qed.
  Let plist : lelem := (o + lens (fn_before s), Node PARAM_LIST (lpar :: f_params s ++ [rpar])).
  Lemma has_param : existsb is_receiver items = false -> is_some (child_node PARAM plist) = negb (match items with [] => true | _ => false end).
  Proof.
    intros Hr. unfold child_node. pose proof (items_of pre s items Hok PARAM ltac:(discriminate)) as E. fold o in E. fold plist in E.
    assert (F : filter (node_of PARAM) items = items).
    { apply filter_every. intros e He. pose proof (params_ok _ _ (H_params s items Hok)) as F. rewrite Forall_forall in F.
      destruct (F e He) as (k & cs & Ee & [Hk|Hk] & _); [|rewrite Ee, Hk; reflexivity].
      exfalso. assert (existsb is_receiver items = true); [|congruence]. apply existsb_exists. exists e. split; [exact He|]. rewrite Ee, Hk. reflexivity. }
    rewrite F in E. rewrite <- E. destruct (child_nodes PARAM plist); reflexivity.
  Qed.
  Lemma good_receiver : good_ (self_ref_receiver toks item) (yes (negb (by_reference items)) RReceiver).
  Proof.
    unfold self_ref_receiver. destruct (declaration_range pre post s items Hok) as (rg & Erg & M). unfold toks, item. rewrite Erg. cbn [obind_o].
    rewrite (param_list_child pre s items Hok). fold o. fold plist. cbn [obind].
    assert (Hby : is_some (obind (child_node SELF_PARAM plist) (child_token AMP)) = by_reference items).
    { unfold child_node. destruct (receiver_cases pre s items Hok) as [[Ec Hr]|(x & y & c & l & rest & Ei & Ec & _)];
        fold o in Ec; fold plist in Ec; rewrite Ec; cbn [hd_error obind is_some].
      - unfold by_reference. destruct items as [|e l]; [reflexivity|]. cbn [existsb] in Hr. apply Bool.orb_false_iff in Hr. destruct Hr as [-> _]. reflexivity.
      - rewrite Ei. cbn [by_reference]. change (is_receiver (Node SELF_PARAM c)) with true. cbn [andb has_tok].
        destruct (existsb (fun e => is_tok e && skind_eqb (kind_of e) AMP) c) eqn:Ex.
        + destruct (has_tok_split _ _ Ex) as (a & t & b & -> & Ha). rewrite child_token_at by exact Ha. reflexivity.
        + rewrite child_token_none by (apply has_tok_none, Ex). reflexivity. }
    rewrite Hby. destruct (by_reference items); cbn [negb yes]; [apply good_none|].
    assert (EP : child_token L_PAREN plist = Some (o + lens (fn_before s), (L_PAREN, lit "("))) by reflexivity.
    rewrite EP. cbn [obind].
    apply (good_one _ _ _ _ _ (RDiag RReceiver _ _)). split; [|split; [discriminate|]].
    - exists (leaves_of (declaration s)). split; [apply md_receiver | exact M].
    - cbn [rd_rule rd_fixes]. unfold cf at 1. cbn [simple]. intros Hr fx Hin. rewrite (has_param Hr) in Hin.
      assert (IN : forall v w, v = self_ref /\ w = lit "&self" \/ v = self_mut /\ w = lit "&mut self" ->
                fx = [edit_insert (w ++ (if negb match items with [] => true | _ => false end then comma_sp else [])) (lf_end (o + lens (fn_before s), (L_PAREN, lit "(")))] ->
                exists s' items', fn_ok s' items' /\ repaired RReceiver s items s' items' /\ effect (in_file pre (fn_tree s) post) fx (in_file pre (fn_tree s') post)).
      { intros v w Hvw ->. assert (Hv : v = self_ref \/ v = self_mut) by tauto. destruct (self_params v Hv Hr) as [Hp Hf].
        exists (set_params (v :: (if items then [] else [comma; blank_one]) ++ f_params s) s), (v :: items).
        split; [apply (ok_set_params s items); assumption|]. split; [apply rp_receiver, Hv|]. eexists. split; [reflexivity|].
        change (v :: (if items then [] else [comma; blank_one]) ++ f_params s) with ((v :: (if items then [] else [comma; blank_one])) ++ f_params s).
        assert (Tx : w ++ (if negb match items with [] => true | _ => false end then comma_sp else []) = texts_of (v :: (if items then [] else [comma; blank_one]))).
        { destruct Hvw as [[-> ->]|[-> ->]]; destruct items; reflexivity. }
        rewrite Tx. unfold edit_insert. apply insert_param. unfold lf_end. cbn [fst snd]. reflexivity. }
      destruct Hin as [<-|[<-|[]]].
      + apply (IN self_ref (lit "&self")); auto.
      + apply (IN self_mut (lit "&mut self")); auto.
  Qed.

  (** *** All rules *)
  Ltac assoc := repeat (rewrite <- ?app_assoc; cbn [app]); reflexivity.
  Lemma good_fn : good_ (fn_invariants toks item) (fn_broken s items).
  Proof.
    unfold fn_invariants, fn_broken. cbn [checks]. pose proof Hok as Hok'. unfold fn_ok in Hok'. decompose [and] Hok'.
    apply good_both; [|apply good_both; [|apply good_both; [|apply good_both; [|apply good_both; [|rewrite <- (app_nil_r (map _ _)); apply good_both; [|apply good_none]]]]]].
    - apply (good_generics pre post s items cf
        (f_front s ++ noded VISIBILITY (f_vis s) ++ keyword DEFAULT_KW (lit "default") (f_default s) ++ keyword CONST_KW (lit "const") (f_const s)
         ++ keyword ASYNC_KW (lit "async") (f_async s) ++ keyword UNSAFE_KW (lit "unsafe") (f_unsafe s) ++ noded ABI (f_abi s) ++ Tok FN_KW (lit "fn") :: f_name s)
        (f_gap s ++ Node PARAM_LIST (lpar :: f_params s ++ [rpar]) :: fn_after s) (without_generics s)).
      + unfold fn_children, fn_parts, fn_after. assoc.
      + unfold fn_children, fn_parts, fn_after, without_generics. cbn [f_front f_vis f_default f_const f_async f_unsafe f_abi f_name f_generics f_gap f_params f_params_gap f_ret f_where f_end generics]. assoc.
      + apply ok_without_generics, Hok.
      + apply rp_generics.
      + no_node.
      + unfold fn_after. no_node.
    - apply (good_keyword pre post s items cf RConst CONST_KW (lit "const")
        (f_front s ++ noded VISIBILITY (f_vis s) ++ keyword DEFAULT_KW (lit "default") (f_default s)) (f_const s)
        (keyword ASYNC_KW (lit "async") (f_async s) ++ keyword UNSAFE_KW (lit "unsafe") (f_unsafe s) ++ noded ABI (f_abi s)
         ++ Tok FN_KW (lit "fn") :: f_name s ++ generics (f_generics s) ++ f_gap s ++ Node PARAM_LIST (lpar :: f_params s ++ [rpar]) :: fn_after s) (no_const s)).
      + unfold fn_children, fn_parts, fn_after. assoc.
      + intros g Eg. unfold fn_children, fn_parts, fn_after, no_const. cbn [f_front f_vis f_default f_const f_async f_unsafe f_abi f_name f_generics f_gap f_params f_params_gap f_ret f_where f_end keyword]. assoc.
      + apply ok_no_const, Hok.
      + apply rp_const.
      + no_tok.
      + unfold fn_after. no_tok.
      + assumption.
      + begins.
      + discriminate.
      + apply md_const.
    - apply (good_keyword pre post s items cf RAsync ASYNC_KW (lit "async")
        (f_front s ++ noded VISIBILITY (f_vis s) ++ keyword DEFAULT_KW (lit "default") (f_default s) ++ keyword CONST_KW (lit "const") (f_const s)) (f_async s)
        (keyword UNSAFE_KW (lit "unsafe") (f_unsafe s) ++ noded ABI (f_abi s)
         ++ Tok FN_KW (lit "fn") :: f_name s ++ generics (f_generics s) ++ f_gap s ++ Node PARAM_LIST (lpar :: f_params s ++ [rpar]) :: fn_after s) (no_async s)).
      + unfold fn_children, fn_parts, fn_after. assoc.
      + intros g Eg. unfold fn_children, fn_parts, fn_after, no_async. cbn [f_front f_vis f_default f_const f_async f_unsafe f_abi f_name f_generics f_gap f_params f_params_gap f_ret f_where f_end keyword]. assoc.
      + apply ok_no_async, Hok.
      + apply rp_async.
      + no_tok.
      + unfold fn_after. no_tok.
      + assumption.
      + begins.
      + discriminate.
      + apply md_async.
    - apply (good_keyword pre post s items cf RUnsafe UNSAFE_KW (lit "unsafe")
        (f_front s ++ noded VISIBILITY (f_vis s) ++ keyword DEFAULT_KW (lit "default") (f_default s) ++ keyword CONST_KW (lit "const") (f_const s)
         ++ keyword ASYNC_KW (lit "async") (f_async s)) (f_unsafe s)
        (noded ABI (f_abi s)
         ++ Tok FN_KW (lit "fn") :: f_name s ++ generics (f_generics s) ++ f_gap s ++ Node PARAM_LIST (lpar :: f_params s ++ [rpar]) :: fn_after s) (no_unsafe s)).
      + unfold fn_children, fn_parts, fn_after. assoc.
      + intros g Eg. unfold fn_children, fn_parts, fn_after, no_unsafe. cbn [f_front f_vis f_default f_const f_async f_unsafe f_abi f_name f_generics f_gap f_params f_params_gap f_ret f_where f_end keyword]. assoc.
      + apply ok_no_unsafe, Hok.
      + apply rp_unsafe.
      + no_tok.
      + unfold fn_after. no_tok.
      + assumption.
      + begins.
      + discriminate.
      + apply md_unsafe.
    - apply (good_abi pre post s items cf
        (f_front s ++ noded VISIBILITY (f_vis s) ++ keyword DEFAULT_KW (lit "default") (f_default s) ++ keyword CONST_KW (lit "const") (f_const s)
         ++ keyword ASYNC_KW (lit "async") (f_async s) ++ keyword UNSAFE_KW (lit "unsafe") (f_unsafe s))
        (Tok FN_KW (lit "fn") :: f_name s ++ generics (f_generics s) ++ f_gap s ++ Node PARAM_LIST (lpar :: f_params s ++ [rpar]) :: fn_after s) (without_abi s)).
      + unfold fn_children, fn_parts, fn_after. assoc.
      + unfold fn_children, fn_parts, fn_after, without_abi. cbn [f_front f_vis f_default f_const f_async f_unsafe f_abi f_name f_generics f_gap f_params f_params_gap f_ret f_where f_end noded]. assoc.
      + apply ok_without_abi, Hok.
      + apply rp_abi.
      + no_node.
      + unfold fn_after. no_node.
      + assumption.
      + begins.
    - apply good_variadic, Hok.
  Qed.
  Lemma good_callable : good_ (callable_invariants toks item) (yes (restricted (f_vis s)) RVisibility ++ fn_broken s items).
  Proof.
    apply good_both; [|apply good_fn]. pose proof Hok as Hok'. unfold fn_ok in Hok'. decompose [and] Hok'.
    assert (E : forall w, fn_children (set_vis w s) = f_front s ++ noded VISIBILITY w ++ fn_parts (set_vis None s)) by (intros w; unfold fn_children, fn_parts; reflexivity).
    apply (good_vis pre post s items cf (f_front s) (fn_parts (set_vis None s)) (set_vis None s)
             (set_vis (match f_vis s with Some (_, g) => Some (pub_only, g) | None => None end) s)).
    - reflexivity.
    - apply (E None).
    - apply ok_no_vis, Hok.
    - apply rp_inherited.
    - intros cs g Ev. rewrite Ev. split; [apply E|]. split; [eapply ok_pub; eassumption | eapply rp_pub, Ev].
    - no_node.
    - unfold fn_parts. cbn [set_vis f_front f_vis f_default f_const f_async f_unsafe f_abi f_name f_generics f_gap f_params f_params_gap f_ret f_where f_end noded]. no_node.
    - assumption.
    - unfold fn_parts. cbn [set_vis f_front f_vis f_default f_const f_async f_unsafe f_abi f_name f_generics f_gap f_params f_params_gap f_ret f_where f_end noded app]. begins.
  Qed.
  Lemma good_all e : good_ (fn_diags e toks item) (broken e s items).
  Proof.
    destruct e; cbn [fn_diags checks broken]; rewrite <- ?app_assoc.
    - rewrite app_assoc. apply good_both; [apply good_callable|]. apply good_both; [apply good_no_receiver, Hok|].
      rewrite <- (app_nil_r (yes _ RReturn)). apply good_both; [apply good_return | apply good_none].
    - rewrite app_assoc. apply good_both; [apply good_callable|]. apply good_both; [apply good_receiver|].
      rewrite <- (app_nil_r (yes _ RReturnSelf)). apply good_both; [apply good_not_self | apply good_none].
    - apply good_both; [apply good_fn|]. rewrite <- (app_nil_r (yes _ RNoReceiver)). apply good_both; [apply good_no_receiver, Hok | apply good_none].
  Qed.
End All.

(** ** A repaired function breaks one rule less *)
Lemma variadic_without items i e : nth_error items i = Some e -> variadic e = true ->
  exists n, map (fun _ => RVariadic) (filter variadic items) = RVariadic :: repeat RVariadic n
    /\ map (fun _ => RVariadic) (filter variadic (without i items)) = repeat RVariadic n.
Proof.
  intros Hi Hv. assert (R : forall l : list elem, map (fun _ => RVariadic) l = repeat RVariadic (length l)) by (induction l as [|x l IH]; [reflexivity|]; cbn; f_equal; exact IH).
  assert (N : length (filter variadic items) = S (length (filter variadic (without i items)))).
  { apply nth_error_split in Hi. destruct Hi as (a & b & -> & <-). unfold without.
    rewrite firstn_app, firstn_all, Nat.sub_diag. cbn [firstn]. rewrite app_nil_r.
    assert (Sk : skipn (S (length a)) (a ++ e :: b) = b).
    { change (a ++ e :: b) with (a ++ [e] ++ b). rewrite app_assoc. replace (S (length a)) with (length (a ++ [e])) by (rewrite app_length; cbn; lia).
      rewrite skipn_app, skipn_all, Nat.sub_diag. reflexivity. }
    rewrite Sk, !filter_app, !app_length. cbn [filter]. rewrite Hv. cbn [length]. lia. }
  rewrite !R, N. exists (length (filter variadic (without i items))). split; reflexivity.
Qed.
Lemma receiver_kept items i e : nth_error items i = Some e -> is_receiver e = false -> existsb is_receiver (without i items) = existsb is_receiver items.
Proof.
  intros Hi Hv. apply nth_error_split in Hi. destruct Hi as (a & b & -> & <-). unfold without.
  rewrite firstn_app, firstn_all, Nat.sub_diag. cbn [firstn]. rewrite app_nil_r.
  assert (Sk : skipn (S (length a)) (a ++ e :: b) = b).
  { change (a ++ e :: b) with (a ++ [e] ++ b). rewrite app_assoc. replace (S (length a)) with (length (a ++ [e])) by (rewrite app_length; cbn; lia).
    rewrite skipn_app, skipn_all, Nat.sub_diag. reflexivity. }
  rewrite Sk, !existsb_app. cbn [existsb]. rewrite Hv. reflexivity.
Qed.
Lemma no_receiver_in_rest e l : Forall (fun e => kind_of e = PARAM) l -> is_receiver e = false -> by_reference (e :: l) = false /\ by_reference l = false.
Proof.
  intros H He. split; [cbn [by_reference]; rewrite He; reflexivity|]. destruct l as [|f l]; [reflexivity|]. apply Forall_inv in H. cbn [by_reference].
  unfold is_receiver. rewrite H. reflexivity.
Qed.
Lemma by_reference_without items i e : receiver_first items -> nth_error items i = Some e -> is_receiver e = false -> by_reference (without i items) = by_reference items.
Proof.
  intros Hf Hi He. destruct items as [|f l]; [destruct i; discriminate|]. destruct i as [|i].
  - injection Hi as ->. change (without 0 (e :: l)) with l. destruct (no_receiver_in_rest e l Hf He) as [-> ->]. reflexivity.
  - reflexivity.
Qed.
Lemma variadic_not_receiver e : variadic e = true -> is_receiver e = false.
Proof.
  unfold variadic, is_receiver. intros H. apply andb_prop in H. destruct H as [H _]. apply skind_eqb_eq in H. rewrite H. reflexivity.
Qed.
Lemma receiver_not_variadic e : is_receiver e = true -> variadic e = false.
Proof. intros H. destruct (variadic e) eqn:E; [apply variadic_not_receiver in E; congruence | reflexivity]. Qed.

Lemma yes_In b r q : In q (yes b r) -> b = true /\ q = r.
Proof. destruct b; cbn [yes]; [intros [<-|[]]; auto | intros []]. Qed.
Lemma drops_head r l : drops r (yes true r ++ l) (yes false r ++ l).
Proof. exists [], l. auto. Qed.
Lemma drops_last r : drops r (yes true r) (yes false r).
Proof. exists [], []. auto. Qed.
Lemma drops_skip r x l l' : drops r l l' -> drops r (x ++ l) (x ++ l').
Proof. intros (l1 & l2 & -> & ->). exists (x ++ l1), l2. rewrite <- !app_assoc. auto. Qed.
Lemma drops_left r x x' l : drops r x x' -> drops r (x ++ l) (x' ++ l).
Proof. intros (l1 & l2 & -> & ->). exists l1, (l2 ++ l). rewrite <- !app_assoc. auto. Qed.

Lemma fn_drops r s items s' items' : In r [RGenerics; RConst; RAsync; RUnsafe; RAbi; RVariadic] ->
  In r (fn_broken s items) -> repaired r s items s' items' -> drops r (fn_broken s items) (fn_broken s' items').
Proof.
  intros Hr Hin H. unfold fn_broken in *.
  inversion H; subst; try (exfalso; cbn in Hr; intuition discriminate); cbn [without_generics no_const no_async no_unsafe without_abi set_params f_generics f_const f_async f_unsafe f_abi is_some].
  - destruct (f_generics s); [apply drops_head|]. exfalso. rewrite !in_app_iff in Hin. intuition (try (apply yes_In in H0; intuition discriminate)).
    all: try (match goal with h : In _ (yes _ _) |- _ => apply yes_In in h; intuition discriminate end).
    all: try (match goal with h : In _ (map _ _) |- _ => apply in_map_iff in h; destruct h as (? & ? & ?); discriminate end).
  - apply drops_skip. destruct (f_const s); [apply drops_head|]. exfalso. rewrite !in_app_iff in Hin. intuition.
    all: try (match goal with h : In _ (yes _ _) |- _ => apply yes_In in h; intuition discriminate end).
    all: try (match goal with h : In _ (map _ _) |- _ => apply in_map_iff in h; destruct h as (? & ? & ?); discriminate end).
  - apply drops_skip, drops_skip. destruct (f_async s); [apply drops_head|]. exfalso. rewrite !in_app_iff in Hin. intuition.
    all: try (match goal with h : In _ (yes _ _) |- _ => apply yes_In in h; intuition discriminate end).
    all: try (match goal with h : In _ (map _ _) |- _ => apply in_map_iff in h; destruct h as (? & ? & ?); discriminate end).
  - apply drops_skip, drops_skip, drops_skip. destruct (f_unsafe s); [apply drops_head|]. exfalso. rewrite !in_app_iff in Hin. intuition.
    all: try (match goal with h : In _ (yes _ _) |- _ => apply yes_In in h; intuition discriminate end).
    all: try (match goal with h : In _ (map _ _) |- _ => apply in_map_iff in h; destruct h as (? & ? & ?); discriminate end).
  - do 4 apply drops_skip. destruct (f_abi s); [apply drops_head|]. exfalso. rewrite !in_app_iff in Hin. intuition.
    all: try (match goal with h : In _ (yes _ _) |- _ => apply yes_In in h; intuition discriminate end).
    all: try (match goal with h : In _ (map _ _) |- _ => apply in_map_iff in h; destruct h as (? & ? & ?); discriminate end).
  - do 5 apply drops_skip. destruct (variadic_without items i e H0 H1) as (n & -> & ->). exists [], (repeat RVariadic n). auto.
Qed.
Lemma fn_same_vis w s items : fn_broken (set_vis w s) items = fn_broken s items.
Proof. reflexivity. Qed.
Ltac absurd_rule := exfalso;
  repeat match goal with h : In _ (_ ++ _) |- _ => apply in_app_iff in h; destruct h as [h|h] end;
  match goal with
  | h : In _ (yes _ _) |- _ => apply yes_In in h; destruct h; discriminate
  | h : In _ (map _ _) |- _ => apply in_map_iff in h; destruct h as (? & ? & ?); discriminate
  end.
Lemma fn_rules_of e r s items s' items' : In r [RGenerics; RConst; RAsync; RUnsafe; RAbi; RVariadic] -> fn_ok s items ->
  In r (broken e s items) -> repaired r s items s' items' ->
  In r (fn_broken s items) /\ f_vis s' = f_vis s /\ f_ret s' = f_ret s
  /\ existsb is_receiver items' = existsb is_receiver items /\ by_reference items' = by_reference items.
Proof.
  intros Hr Hok Hin H. split.
  - destruct e; cbn [broken] in Hin; repeat match goal with h : In _ (_ ++ _) |- _ => apply in_app_iff in h; destruct h as [h|h] end; try assumption;
      apply yes_In in Hin; destruct Hin as [_ ->]; cbn in Hr; intuition discriminate.
  - assert (Hf : receiver_first items) by (unfold fn_ok in Hok; decompose [and] Hok; assumption).
    inversion H; subst; try (exfalso; cbn in Hr; intuition discriminate); cbn [without_generics no_const no_async no_unsafe without_abi set_params f_vis f_ret]; auto.
    split; [reflexivity|]. split; [reflexivity|].
    match goal with h : nth_error _ _ = Some _, h2 : variadic _ = true |- _ =>
      split; [eapply receiver_kept | eapply by_reference_without]; try eassumption; apply variadic_not_receiver, h2 end.
Qed.
Lemma repaired_drops e r s items s' items' : fn_ok s items -> In r (broken e s items) -> repaired r s items s' items' ->
  drops r (broken e s items) (broken e s' items').
Proof.
  intros Hok Hin H.
  assert (Hf : receiver_first items) by (unfold fn_ok in Hok; decompose [and] Hok; assumption).
  destruct (existsb (fun q => match q, r with RGenerics, RGenerics | RConst, RConst | RAsync, RAsync | RUnsafe, RUnsafe | RAbi, RAbi | RVariadic, RVariadic => true | _, _ => false end)
              [RGenerics; RConst; RAsync; RUnsafe; RAbi; RVariadic]) eqn:Er.
  - assert (Hr : In r [RGenerics; RConst; RAsync; RUnsafe; RAbi; RVariadic]) by (destruct r; cbn in Er |- *; auto 10; discriminate). clear Er.
    destruct (fn_rules_of e r s items s' items' Hr Hok Hin H) as (H1 & H2 & H3 & H4 & H5).
    pose proof (fn_drops r s items s' items' Hr H1 H) as D.
    destruct e; cbn [broken]; rewrite ?H2, ?H3, ?H4, ?H5.
    + apply drops_skip, drops_left, D.
    + apply drops_skip, drops_left, D.
    + apply drops_left, D.
  - inversion H; subst; try discriminate Er; clear Er.
    + destruct e; cbn [broken set_vis f_vis f_ret] in *; rewrite ?fn_same_vis; try (unfold fn_broken in Hin; absurd_rule).
      * replace (restricted (Some (pub_only, g))) with false by reflexivity. destruct (restricted (f_vis s)) eqn:Ev; [apply drops_head|]. unfold fn_broken in Hin. absurd_rule.
      * replace (restricted (Some (pub_only, g))) with false by reflexivity. destruct (restricted (f_vis s)) eqn:Ev; [apply drops_head|]. unfold fn_broken in Hin. absurd_rule.
    + destruct e; cbn [broken set_vis f_vis f_ret restricted] in *; rewrite ?fn_same_vis; try (unfold fn_broken in Hin; absurd_rule).
      * destruct (restricted (f_vis s)) eqn:Ev; [apply drops_head|]. unfold fn_broken in Hin. absurd_rule.
      * destruct (restricted (f_vis s)) eqn:Ev; [apply drops_head|]. unfold fn_broken in Hin. absurd_rule.
    + (* no receiver *)
      match goal with h : is_receiver ?x = true |- _ => rename h into He; rename x into e1 end.
      match goal with h : receiver_first (e1 :: ?x) |- _ => rename x into l end.
      assert (F : existsb is_receiver l = false).
      { clear - Hf. cbn [receiver_first] in Hf. induction Hf as [|x l Hx _ IH]; [reflexivity|]. cbn [existsb]. unfold is_receiver at 1. rewrite Hx. exact IH. }
      assert (B : fn_broken (set_params p s) l = fn_broken s (e1 :: l)).
      { unfold fn_broken. cbn [set_params f_generics f_const f_async f_unsafe f_abi filter]. rewrite (receiver_not_variadic _ He). reflexivity. }
      destruct e; cbn [broken] in *; rewrite ?B; cbn [set_params f_vis f_ret existsb]; rewrite ?He, ?F; cbn [orb].
      * apply drops_skip, drops_skip, drops_head.
      * unfold fn_broken in Hin. absurd_rule.
      * apply drops_skip. apply drops_last.
    + (* return type *)
      destruct e; cbn [broken] in *; try (unfold fn_broken in Hin; absurd_rule). cbn [set_ret f_vis f_ret is_some negb].
      change (fn_broken (set_ret [blank_one] (Some (arrow_self, f_params_gap s)) s) items') with (fn_broken s items').
      do 3 apply drops_skip. destruct (f_ret s) eqn:Ew; [cbn [is_some negb] in Hin; unfold fn_broken in Hin; absurd_rule|].
      cbn [is_some negb]. apply drops_last.
    + (* receiver by reference *)
      match goal with h : ?x = self_ref \/ _ |- _ => rename h into He; rename x into e1 end.
      assert (V : variadic e1 = false) by (destruct He as [-> | ->]; reflexivity).
      assert (B : fn_broken (set_params p s) (e1 :: items) = fn_broken s items).
      { unfold fn_broken. cbn [set_params f_generics f_const f_async f_unsafe f_abi filter]. rewrite V. reflexivity. }
      assert (R : by_reference (e1 :: items) = true) by (destruct He as [-> | ->]; reflexivity).
      destruct e; cbn [broken] in *; try (unfold fn_broken in Hin; absurd_rule). rewrite B. cbn [set_params f_vis f_ret]. rewrite R.
      apply drops_skip, drops_skip. destruct (by_reference items) eqn:Eb; [cbn [negb] in Hin; unfold fn_broken in Hin; absurd_rule|]. apply drops_head.
    + (* return Self *)
      destruct e; cbn [broken] in *; try (unfold fn_broken in Hin; absurd_rule). cbn [set_ret f_vis f_ret returned].
      change (fn_broken (set_ret (f_params_gap s) None s) items') with (fn_broken s items').
      do 3 apply drops_skip. destruct (match returned (f_ret s) with Some ty => str_eqb (text_of ty) (lit "Self") | None => false end) eqn:Ew;
        [apply drops_last | unfold fn_broken in Hin; absurd_rule].
Qed.

(** ** Every fix of a plain function *)
Lemma plain_simple e s items r : plain e items -> In r (broken e s items) -> simple items r.
Proof.
  intros [Hv Hm] Hin. destruct r; cbn [simple]; try exact I; [exact Hv|].
  destruct e; cbn [broken] in Hin; try (unfold fn_broken in Hin; absurd_rule). destruct (Hm eq_refl) as [Hb|Hr]; [|exact Hr].
  rewrite Hb in Hin. cbn [negb] in Hin. unfold fn_broken in Hin. absurd_rule.
Qed.
Lemma plain_repaired e r s items s' items' : fn_ok s items -> plain e items -> In r (broken e s items) -> repaired r s items s' items' -> plain e items'.
Proof.
  intros Hok [Hv Hm] Hin H.
  assert (Hf : receiver_first items) by (unfold fn_ok in Hok; decompose [and] Hok; assumption).
  inversion H; subst; try (split; assumption).
  - match goal with h : nth_error _ _ = Some _, h2 : variadic _ = true |- _ => rename h into Hi; rename h2 into He end.
    split; [intros x Hx; apply Hv; eapply in_without, Hx|]. intros E. specialize (Hm E).
    erewrite by_reference_without, receiver_kept; try eassumption; apply variadic_not_receiver; eassumption.
  - split; [intros x Hx; apply Hv; right; exact Hx|]. intros ->. cbn [broken] in Hin. unfold fn_broken in Hin. absurd_rule.
  - match goal with h : _ = self_ref \/ _ |- _ => rename h into He end. split.
    + intros x [<-|Hx] Hvx; [destruct He as [-> | ->]; discriminate | apply Hv; assumption].
    + intros _. left. destruct He as [-> | ->]; reflexivity.
Qed.
Lemma drops_length r l l' : drops r l l' -> length l = S (length l').
Proof. intros (l1 & l2 & -> & ->). rewrite !app_length. cbn. lia. Qed.
Lemma fixes_end e pre post : forall n s items, length (broken e s items) = n -> fn_ok s items -> plain e items -> ends_clean e pre post n s items.
Proof.
  induction n as [|n IH]; intros s items Hn Hok Hp; destruct (good_all pre post s items Hok e) as (ds & E & Er & F).
  - apply ec_clean. rewrite E. rewrite <- Er, map_length in Hn. apply length_zero_iff_nil in Hn. subst ds. reflexivity.
  - apply (ec_step _ _ _ _ _ _ ds); [exact E | intros ->; rewrite <- Er in Hn; discriminate | |].
    + intros d Hd. rewrite Forall_forall in F. apply (F d Hd).
    + intros d fx Hd Hfx. rewrite Forall_forall in F. destruct (F d Hd) as (_ & _ & Hfix).
      assert (Hin : In (rd_rule d) (broken e s items)) by (rewrite <- Er; apply in_map, Hd).
      destruct (Hfix (plain_simple e s items _ Hp Hin) fx Hfx) as (s' & items' & Hok' & Hrep & Heff).
      exists s', items'. split; [exact Hok'|]. split; [exact Heff|]. apply IH; [|exact Hok'|].
      * pose proof (drops_length _ _ _ (repaired_drops e _ _ _ _ _ Hok Hin Hrep)). lia.
      * apply (plain_repaired e (rd_rule d) s items s' items'); assumption.
Qed.

(** ** The parts of any item *)
Section Tree.
  Variables (pre post : list (skind * str)) (K : skind) (cs : list elem).
  Let o := bytes (text pre).
  Let tree := Node K cs.
  Let toks := file_leaves pre tree post.

  Lemma t_offset a : bytes (text (pre ++ leaves_of a)) = o + lens a.
  Proof. rewrite text_app, bytes_app, bytes_texts. reflexivity. Qed.
  Lemma t_marks a x b r : cs = a ++ x ++ b -> r = (o + lens a, o + lens a + lens x) -> marks pre tree (leaves_of x) r.
  Proof.
    intros E ->. exists (leaves_of a), (leaves_of b). unfold tree. rewrite leaves_node, E, !leaves_of_app. split; [reflexivity|].
    rewrite !text_app, !bytes_app, !bytes_texts. unfold o. rewrite !Nat.add_assoc. reflexivity.
  Qed.
  Lemma t_delete a x b p q K' : cs = a ++ x ++ b -> p = o + lens a -> q = o + lens a + lens x ->
    applied (in_file pre tree post) (edit_delete (p, q)) (in_file pre (Node K' (a ++ b)) post).
  Proof.
    intros E -> ->. unfold tree. rewrite !in_file_text, E, !texts_of_app.
    replace (text pre ++ (texts_of a ++ texts_of x ++ texts_of b) ++ text post)
      with ((text pre ++ texts_of a) ++ texts_of x ++ texts_of b ++ text post) by (rewrite <- !app_assoc; reflexivity).
    replace (text pre ++ (texts_of a ++ texts_of b) ++ text post)
      with ((text pre ++ texts_of a) ++ texts_of b ++ text post) by (rewrite <- !app_assoc; reflexivity).
    apply deleted; rewrite bytes_app; reflexivity.
  Qed.
  Lemma t_replace a x b new p q K' : cs = a ++ x ++ b -> p = o + lens a -> q = o + lens a + lens x ->
    applied (in_file pre tree post) (edit_replace (texts_of new) (p, q)) (in_file pre (Node K' (a ++ new ++ b)) post).
  Proof.
    intros E -> ->. unfold tree. rewrite !in_file_text, E, !texts_of_app.
    replace (text pre ++ (texts_of a ++ texts_of x ++ texts_of b) ++ text post)
      with ((text pre ++ texts_of a) ++ texts_of x ++ texts_of b ++ text post) by (rewrite <- !app_assoc; reflexivity).
    replace (text pre ++ (texts_of a ++ texts_of new ++ texts_of b) ++ text post)
      with ((text pre ++ texts_of a) ++ texts_of new ++ texts_of b ++ text post) by (rewrite <- !app_assoc; reflexivity).
    apply replaced; rewrite bytes_app; reflexivity.
  Qed.
  Lemma t_file a x b : cs = a ++ x ++ b -> toks = place_leaves 0 ((pre ++ leaves_of a) ++ leaves_of x ++ leaves_of b ++ post).
  Proof. intros E. unfold toks, file_leaves, tree. rewrite leaves_node, E, !leaves_of_app, <- !app_assoc. reflexivity. Qed.

  (** A check that reports nothing, or one part that is marked and whose fixes have these effects *)
  Definition finds (c : check) (b : bool) (r : rule) (part : list (skind * str)) (results : list str) : Prop :=
    if b then exists rg fixes, c = Done [RDiag r rg fixes] /\ marks pre tree part rg /\ Forall2 (effect (in_file pre tree post)) fixes results
    else c = Done [].
  Lemma t_keyword r k w a wh b : cs = a ++ keyword k w wh ++ b ->
    forallb (fun e => negb (tok_of k e)) a = true -> forallb (fun e => negb (tok_of k e)) b = true ->
    keyword_ok wh -> begins_solid b -> w <> [] ->
    finds (no_keyword r k toks (at_place pre tree)) (is_some wh) r [(k, w)] [in_file pre (Node K (a ++ b)) post].
  Proof.
    intros E Ha Hb Hg Hs Hw. unfold no_keyword, at_place, tree. rewrite E.
    destruct wh as [g|]; cbn [keyword is_some app finds] in *.
    - rewrite child_token_at by exact Ha. fold o.
      assert (Et : toks = place_leaves 0 ((pre ++ leaves_of a) ++ (k, w) :: leaves_of g ++ leaves_of b ++ post)).
      { rewrite (t_file a (Tok k w :: g) b E). unfold leaves_of at 2. cbn [flat_map leaves app]. rewrite <- !app_assoc. reflexivity. }
      pose proof (token_trivia (pre ++ leaves_of a) (k, w) g b post Hw Hg Hs) as R. rewrite <- Et in R. rewrite t_offset in R.
      rewrite R. cbn [obind_o snd]. eexists _, _. split; [reflexivity|]. split.
      + apply (t_marks a [Tok k w] (g ++ b)); [exact E|].
        unfold lf_range, lf_start, lf_end. cbn [fst snd]. rewrite lens_cons, lens_nil. unfold len_of. cbn [text_of]. rewrite Nat.add_0_r. reflexivity.
      + constructor; [|constructor]. eexists. split; [reflexivity|]. apply (t_delete a (Tok k w :: g) b); [exact E | reflexivity |].
        rewrite lens_cons. unfold len_of. cbn [text_of]. lia.
    - rewrite child_token_none; [reflexivity|]. rewrite forallb_app, Ha. exact Hb.
  Qed.
  Lemma t_node_none k a : cs = a -> forallb (fun e => negb (node_of k e)) a = true -> child_node k (at_place pre tree) = None.
  Proof. intros -> Ha. unfold at_place, tree. apply child_node_none, Ha. Qed.
  Lemma t_node_at k a x b : cs = a ++ Node k x :: b -> forallb (fun e => negb (node_of k e)) a = true ->
    child_node k (at_place pre tree) = Some (o + lens a, Node k x)
    /\ lrange_of (o + lens a, Node k x) = (o + lens a, o + lens a + lens x)
    /\ marks pre tree (leaves_of x) (o + lens a, o + lens a + lens x).
  Proof.
    intros E Ha. split; [unfold at_place, tree; rewrite E; apply child_node_at, Ha|]. split.
    - unfold lrange_of, lstart, lend. cbn [fst snd]. rewrite len_node. reflexivity.
    - rewrite <- (leaves_one k), <- (lens_node k x). apply (t_marks a _ b); [exact E | reflexivity].
  Qed.
  Lemma t_generics a w b : cs = a ++ generics w ++ b ->
    forallb (fun e => negb (node_of GENERIC_PARAM_LIST e)) a = true -> forallb (fun e => negb (node_of GENERIC_PARAM_LIST e)) b = true ->
    finds (no_generics (at_place pre tree)) (is_some w) RGenerics (match w with Some x => leaves_of x | None => [] end) [in_file pre (Node K (a ++ b)) post].
  Proof.
    intros E Ha Hb. unfold no_generics. destruct w as [x|]; cbn [is_some generics app finds] in *.
    - destruct (t_node_at _ _ _ _ E Ha) as (-> & R & M). rewrite R. eexists _, _. split; [reflexivity|]. split; [exact M|].
      constructor; [|constructor]. eexists. split; [reflexivity|]. apply (t_delete a [Node GENERIC_PARAM_LIST x] b); [exact E | reflexivity | rewrite lens_node; reflexivity].
    - rewrite (t_node_none _ _ E); [reflexivity|]. rewrite forallb_app, Ha. exact Hb.
  Qed.
  (** [pub], or nothing with the first token of [b] found *)
  Lemma t_pub range (starts : list (option leaf)) a w b x : cs = a ++ noded VISIBILITY w ++ b ->
    forallb (fun e => negb (node_of VISIBILITY e)) a = true -> forallb (fun e => negb (node_of VISIBILITY e)) b = true ->
    (w = None -> @find_map (option leaf) leaf (fun t => t) starts = Some (o + lens a, x)) ->
    forall part, (w = None -> exists rg, range = Done rg /\ marks pre tree part rg) ->
    finds (must_be_pub range starts (at_place pre tree)) (negb (is_pub w)) RPub
      (match w with Some (v, _) => leaves_of v | None => part end)
      [in_file pre (Node K (a ++ noded VISIBILITY (Some (pub_only, match w with Some (_, g) => g | None => [blank_one] end)) ++ b)) post].
  Proof.
    intros E Ha Hb Hx part Hr. unfold must_be_pub. destruct w as [[v g]|].
    - cbn [noded app] in E. destruct (t_node_at _ _ _ _ E Ha) as (-> & R & M). cbn [snd is_pub]. rewrite text_of_node, R.
      destruct (str_eqb (texts_of v) pub); cbn [negb finds]; [reflexivity|]. eexists _, _. split; [reflexivity|]. split; [exact M|].
      constructor; [|constructor]. eexists. split; [reflexivity|]. change pub with (texts_of [Node VISIBILITY pub_only]).
      change (noded VISIBILITY (Some (pub_only, g)) ++ b) with ([Node VISIBILITY pub_only] ++ (g ++ b)).
      apply (t_replace a [Node VISIBILITY v] (g ++ b)); [exact E | reflexivity | rewrite lens_node; reflexivity].
    - cbn [noded app] in E. rewrite (t_node_none _ _ E); [|rewrite forallb_app, Ha; exact Hb]. cbn [is_pub negb finds].
      destruct (Hr eq_refl) as (rg & -> & M). rewrite (Hx eq_refl). cbn [obind_o]. eexists _, _. split; [reflexivity|]. split; [exact M|].
      constructor; [|constructor]. eexists. split; [reflexivity|]. change (pub ++ lit " ") with (texts_of (noded VISIBILITY (Some (pub_only, [blank_one])))).
      apply (t_replace a [] b); [exact E | reflexivity | rewrite lens_nil, Nat.add_0_r; reflexivity].
  Qed.
  Lemma t_whole : marks pre tree (leaves tree) (lrange_of (at_place pre tree)).
  Proof.
    exists [], []. rewrite app_nil_r. split; [reflexivity|]. cbn [app]. rewrite app_nil_r, text_app, bytes_app, text_leaves. reflexivity.
  Qed.
  Lemma t_bounds a w b : cs = a ++ bounds w ++ b -> bounds_ok w ->
    forallb (fun e => negb (node_of TYPE_BOUND_LIST e)) a = true -> forallb (fun e => negb (node_of TYPE_BOUND_LIST e)) b = true ->
    forallb (fun e => negb (tok_of COLON e)) a = true ->
    finds (no_supertraits (at_place pre tree)) (is_some w) RSupertraits
      (match w with Some (g, x, _) => (COLON, lit ":") :: leaves_of g ++ leaves_of x | None => [] end)
      [in_file pre (Node K (a ++ match w with Some (_, _, h) => h | None => [] end ++ b)) post].
  Proof.
    intros E Hok Ha Hb Hc. unfold no_supertraits. destruct w as [[[g x] h]|]; cbn [is_some bounds finds] in *.
    - destruct Hok as (Hg & Hx & Hh).
      assert (E2 : cs = (a ++ Tok COLON (lit ":") :: g) ++ Node TYPE_BOUND_LIST x :: (h ++ b)) by (rewrite E; repeat (rewrite <- ?app_assoc; cbn [app]); reflexivity).
      assert (N : forallb (fun e => negb (node_of TYPE_BOUND_LIST e)) (a ++ Tok COLON (lit ":") :: g) = true).
      { rewrite forallb_app, Ha. cbn [forallb andb]. apply (only_no_node [] g TYPE_BOUND_LIST); [apply only_blank, Hg | reflexivity | reflexivity]. }
      destruct (t_node_at _ _ _ _ E2 N) as (-> & R & M).
      assert (C : child_token COLON (at_place pre tree) = Some (o + lens a, (COLON, lit ":"))) by (unfold at_place, tree; rewrite E; apply child_token_at, Hc).
      rewrite C. assert (R2 : lend (o + lens (a ++ Tok COLON (lit ":") :: g), Node TYPE_BOUND_LIST x) = o + lens (a ++ Tok COLON (lit ":") :: g) + lens x) by exact (f_equal snd R). rewrite R2. unfold lf_start. cbn [fst]. unfold mk_range.
      rewrite (proj2 (Nat.leb_le _ _)) by (rewrite lens_app; lia). cbn [obind_o]. eexists _, _. split; [reflexivity|].
      assert (L : o + lens (a ++ Tok COLON (lit ":") :: g) + lens x = o + lens a + lens (Tok COLON (lit ":") :: g ++ [Node TYPE_BOUND_LIST x])).
      { rewrite !lens_app, !lens_cons, lens_app, lens_node. lia. }
      rewrite L. assert (E3 : cs = a ++ (Tok COLON (lit ":") :: g ++ [Node TYPE_BOUND_LIST x]) ++ h ++ b)
        by (rewrite E; repeat (rewrite <- ?app_assoc; cbn [app]); reflexivity).
      split.
      + replace ((COLON, lit ":") :: leaves_of g ++ leaves_of x) with (leaves_of (Tok COLON (lit ":") :: g ++ [Node TYPE_BOUND_LIST x])).
        * apply (t_marks a _ (h ++ b)); [exact E3 | reflexivity].
        * change (Tok COLON (lit ":") :: g ++ [Node TYPE_BOUND_LIST x]) with ([Tok COLON (lit ":")] ++ g ++ [Node TYPE_BOUND_LIST x]).
          rewrite !leaves_of_app, leaves_one. reflexivity.
      + constructor; [|constructor]. eexists. split; [reflexivity|]. apply (t_delete a (Tok COLON (lit ":") :: g ++ [Node TYPE_BOUND_LIST x]) (h ++ b)); [exact E3 | reflexivity | reflexivity].
    - rewrite (t_node_none _ _ E); [reflexivity|]. cbn [app]. rewrite forallb_app, Ha. exact Hb.
  Qed.
End Tree.

(** ** Traits, structs and impl blocks *)
Lemma only_bounds w : bounds_ok w -> only [COLON; TYPE_BOUND_LIST] (bounds w).
Proof.
  destruct w as [[[g x] h]|]; cbn [bounds bounds_ok]; [|intros _ e []]. intros (Hg & _ & Hh).
  apply (only_cons [TYPE_BOUND_LIST] (Tok COLON (lit ":"))). apply (only_app [] [TYPE_BOUND_LIST]); [apply only_blank, Hg|].
  apply (only_cons [] (Node TYPE_BOUND_LIST x)). apply only_blank, Hh.
Qed.
Lemma only_gap_name l : gap_name_ok l -> only [NAME] l.
Proof.
  intros [H|H]; [|apply only_name, H]. intros e He. right. destruct (only_blank l H e He) as [[]|Ht]. exact Ht.
Qed.
Lemma only_fronts l : fronts l -> only [ATTR] l.
Proof.
  intros H e He. unfold fronts in H. rewrite Forall_forall in H. destruct (H e He) as [(cs & ->)|(k & s & -> & Hk)]; [left; left; reflexivity | right; exact Hk].
Qed.
Definition item_kinds : list skind := [VISIBILITY; DEFAULT_KW; UNSAFE_KW; AUTO_KW; GENERIC_PARAM_LIST; TYPE_BOUND_LIST; COLON].
Lemma rest_no_tok l k : rest_ok l -> In k item_kinds -> forallb (fun e => negb (tok_of k e)) l = true.
Proof.
  intros H Hk. apply forallb_forall. intros e He. apply Bool.negb_true_iff. unfold tok_of. apply Bool.andb_false_iff. right.
  destruct (skind_eqb (kind_of e) k) eqn:E; [|reflexivity]. apply skind_eqb_eq in E. exfalso. apply (H e He). rewrite E. exact Hk.
Qed.
Lemma rest_no_node l k : rest_ok l -> In k item_kinds -> forallb (fun e => negb (node_of k e)) l = true.
Proof.
  intros H Hk. apply forallb_forall. intros e He. apply Bool.negb_true_iff. unfold node_of. apply Bool.andb_false_iff. right.
  destruct (skind_eqb (kind_of e) k) eqn:E; [|reflexivity]. apply skind_eqb_eq in E. exfalso. apply (H e He). rewrite E. exact Hk.
Qed.
Lemma no_tok_both k a b : forallb (fun e => negb (tok_of k e)) a = true -> forallb (fun e => negb (tok_of k e)) b = true -> forallb (fun e => negb (tok_of k e)) (a ++ b) = true.
Proof. intros Ha Hb. rewrite forallb_app, Ha. exact Hb. Qed.
Lemma no_node_both k a b : forallb (fun e => negb (node_of k e)) a = true -> forallb (fun e => negb (node_of k e)) b = true -> forallb (fun e => negb (node_of k e)) (a ++ b) = true.
Proof. intros Ha Hb. rewrite forallb_app, Ha. exact Hb. Qed.
Ltac ikinds :=
  repeat first
    [ apply only_app | apply only_keyword; assumption | apply only_noded; assumption | apply only_generics
    | apply only_fronts; assumption | apply only_gap_name; assumption | apply only_bounds; assumption | apply only_blank; assumption
    | apply only_nil | apply only_cons ].
Ltac in_kinds := cbn; repeat first [left; reflexivity | right].
Ltac ino_tok e :=
  repeat match goal with |- forallb _ (_ ++ i_rest _) = true => apply no_tok_both end;
  first [ apply rest_no_tok; [assumption | in_kinds] | eapply only_no_tok; [ikinds | destruct e; reflexivity | reflexivity] ].
Ltac ino_node e :=
  repeat match goal with |- forallb _ (_ ++ i_rest _) = true => apply no_node_both end;
  first [ apply rest_no_node; [assumption | in_kinds] | eapply only_no_node; [ikinds | destruct e; reflexivity | reflexivity] ].
Lemma begins_item e l : begins_solid (item_keyword e :: l).
Proof. destruct e; apply begins_tok; reflexivity. Qed.
Ltac ibegins := apply begins_app; repeat first [ apply begins_keyword; [reflexivity|] | apply begins_noded; [assumption|] | apply begins_item ].
Ltac iassoc := unfold item_children; cbn [i_front i_vis i_default i_unsafe i_auto i_name i_generics i_gap i_bounds i_rest keyword generics bounds noded item_fixed];
  repeat (rewrite <- ?app_assoc; cbn [app]); reflexivity.

Definition sound_item (pre post : list (skind * str)) (e : item_entity) (s : item_src) (d : rdiag) : Prop :=
  (exists part, item_marked e s (rd_rule d) part /\ marks pre (item_tree e s) part (rd_range d))
  /\ exists fx, rd_fixes d = [fx] /\ effect (in_file pre (item_tree e s) post) fx (in_file pre (item_tree e (item_fixed (rd_rule d) s)) post).
Definition igood pre post e s (c : check) (rs : list rule) : Prop :=
  exists ds, c = Done ds /\ map rd_rule ds = rs /\ Forall (sound_item pre post e s) ds.
Lemma igood_none pre post e s : igood pre post e s none [].
Proof. exists []. repeat split. constructor. Qed.
Lemma igood_both pre post e s a b ra rb : igood pre post e s a ra -> igood pre post e s b rb -> igood pre post e s (both a b) (ra ++ rb).
Proof.
  intros (x & -> & <- & Hx) (y & -> & <- & Hy). exists (x ++ y). split; [reflexivity|]. split; [apply map_app | apply Forall_app; auto].
Qed.
Lemma finds_igood pre post e s c b r part R :
  finds pre post (item_kind e) (item_children e s) c b r part [R] -> (b = true -> item_marked e s r part) ->
  R = in_file pre (item_tree e (item_fixed r s)) post -> igood pre post e s c (yes b r).
Proof.
  intros H Hm ->. destruct b; cbn [finds yes] in *.
  - destruct H as (rg & fixes & -> & M & F). exists [RDiag r rg fixes]. split; [reflexivity|]. split; [reflexivity|]. constructor; [|constructor].
    split; [exists part; split; [apply Hm; reflexivity | exact M]|]. inversion F as [|fx R' l l' Hf Hl]; subst. inversion Hl; subst. exists fx. split; [reflexivity | exact Hf].
  - exists []. split; [exact H|]. split; [reflexivity | constructor].
Qed.

Section Item.
  Variables (pre post : list (skind * str)) (e : item_entity) (s : item_src).
  Hypothesis Hok : item_ok e s.
  Let toks := file_leaves pre (item_tree e s) post.
  Let item := at_place pre (item_tree e s).
  Let o := bytes (text pre).
  Let good_ := igood pre post e s.

  Lemma i_good_unsafe : good_ (no_keyword RUnsafe UNSAFE_KW toks item) (yes (is_some (i_unsafe s)) RUnsafe).
  Proof.
    pose proof Hok as Hok'. unfold item_ok in Hok'. decompose [and] Hok'.
    eapply finds_igood; [apply (t_keyword pre post (item_kind e) (item_children e s) RUnsafe UNSAFE_KW (lit "unsafe")
      (i_front s ++ noded VISIBILITY (i_vis s) ++ keyword DEFAULT_KW (lit "default") (i_default s)) (i_unsafe s)
      ((keyword AUTO_KW (lit "auto") (i_auto s) ++ item_keyword e :: i_name s ++ generics (i_generics s) ++ i_gap s ++ bounds (i_bounds s)) ++ i_rest s))
      | intros _; apply im_unsafe |].
    - iassoc.
    - ino_tok e.
    - apply no_tok_both; ino_tok e.
    - assumption.
    - ibegins.
    - discriminate.
    - unfold item_tree. f_equal. f_equal. iassoc.
  Qed.
  Lemma i_good_auto : good_ (no_keyword RAuto AUTO_KW toks item) (yes (is_some (i_auto s)) RAuto).
  Proof.
    pose proof Hok as Hok'. unfold item_ok in Hok'. decompose [and] Hok'.
    eapply finds_igood; [apply (t_keyword pre post (item_kind e) (item_children e s) RAuto AUTO_KW (lit "auto")
      (i_front s ++ noded VISIBILITY (i_vis s) ++ keyword DEFAULT_KW (lit "default") (i_default s) ++ keyword UNSAFE_KW (lit "unsafe") (i_unsafe s)) (i_auto s)
      ((item_keyword e :: i_name s ++ generics (i_generics s) ++ i_gap s ++ bounds (i_bounds s)) ++ i_rest s))
      | intros _; apply im_auto |].
    - iassoc.
    - ino_tok e.
    - apply no_tok_both; ino_tok e.
    - assumption.
    - ibegins.
    - discriminate.
    - unfold item_tree. f_equal. f_equal. iassoc.
  Qed.
  Lemma i_good_default : good_ (no_keyword RDefault DEFAULT_KW toks item) (yes (is_some (i_default s)) RDefault).
  Proof.
    pose proof Hok as Hok'. unfold item_ok in Hok'. decompose [and] Hok'.
    eapply finds_igood; [apply (t_keyword pre post (item_kind e) (item_children e s) RDefault DEFAULT_KW (lit "default")
      (i_front s ++ noded VISIBILITY (i_vis s)) (i_default s)
      ((keyword UNSAFE_KW (lit "unsafe") (i_unsafe s) ++ keyword AUTO_KW (lit "auto") (i_auto s) ++ item_keyword e :: i_name s ++ generics (i_generics s) ++ i_gap s ++ bounds (i_bounds s)) ++ i_rest s))
      | intros _; apply im_default |].
    - iassoc.
    - ino_tok e.
    - apply no_tok_both; ino_tok e.
    - assumption.
    - ibegins.
    - discriminate.
    - unfold item_tree. f_equal. f_equal. iassoc.
  Qed.
  Lemma i_good_generics : good_ (no_generics item) (yes (is_some (i_generics s)) RGenerics).
  Proof.
    pose proof Hok as Hok'. unfold item_ok in Hok'. decompose [and] Hok'.
    eapply finds_igood; [apply (t_generics pre post (item_kind e) (item_children e s)
      (i_front s ++ noded VISIBILITY (i_vis s) ++ keyword DEFAULT_KW (lit "default") (i_default s) ++ keyword UNSAFE_KW (lit "unsafe") (i_unsafe s)
       ++ keyword AUTO_KW (lit "auto") (i_auto s) ++ item_keyword e :: i_name s) (i_generics s)
      ((i_gap s ++ bounds (i_bounds s)) ++ i_rest s)) | |].
    - iassoc.
    - ino_node e.
    - apply no_node_both; ino_node e.
    - destruct (i_generics s) as [x|] eqn:E; [intros _; apply im_generics, E | discriminate].
    - unfold item_tree. f_equal. f_equal. iassoc.
  Qed.
  Lemma i_good_bounds : good_ (no_supertraits item) (yes (is_some (i_bounds s)) RSupertraits).
  Proof.
    pose proof Hok as Hok'. unfold item_ok in Hok'. decompose [and] Hok'.
    eapply finds_igood; [apply (t_bounds pre post (item_kind e) (item_children e s)
      (i_front s ++ noded VISIBILITY (i_vis s) ++ keyword DEFAULT_KW (lit "default") (i_default s) ++ keyword UNSAFE_KW (lit "unsafe") (i_unsafe s)
       ++ keyword AUTO_KW (lit "auto") (i_auto s) ++ item_keyword e :: i_name s ++ generics (i_generics s) ++ i_gap s) (i_bounds s) (i_rest s)) | |].
    - iassoc.
    - assumption.
    - ino_node e.
    - ino_node e.
    - ino_tok e.
    - destruct (i_bounds s) as [[[g x] h]|] eqn:E; [intros _; eapply im_bounds, E | discriminate].
    - unfold item_tree. f_equal. f_equal. iassoc.
  Qed.
  Lemma i_good_pub x starts : (i_vis s = None -> @find_map (option leaf) leaf (fun t => t) starts = Some (o + lens (i_front s), x)) ->
    good_ (must_be_pub (Done (lrange_of item)) starts item) (yes (negb (is_pub (i_vis s))) RPub).
  Proof.
    intros Hx. pose proof Hok as Hok'. unfold item_ok in Hok'. decompose [and] Hok'.
    eapply finds_igood; [apply (t_pub pre post (item_kind e) (item_children e s) (Done (lrange_of item)) starts (i_front s) (i_vis s)
      ((keyword DEFAULT_KW (lit "default") (i_default s) ++ keyword UNSAFE_KW (lit "unsafe") (i_unsafe s)
       ++ keyword AUTO_KW (lit "auto") (i_auto s) ++ item_keyword e :: i_name s ++ generics (i_generics s) ++ i_gap s ++ bounds (i_bounds s)) ++ i_rest s)
      x) with (part := leaves (item_tree e s)) | |].
    - iassoc.
    - ino_node e.
    - apply no_node_both; ino_node e.
    - exact Hx.
    - intros _. eexists. split; [reflexivity|]. apply t_whole.
    - destruct (i_vis s) as [[v g]|] eqn:E; intros _; [eapply im_vis, E | apply im_no_vis, E].
    - unfold item_tree. f_equal. f_equal. iassoc.
  Qed.
End Item.

Lemma trait_starts pre s : item_ok ITrait s -> i_vis s = None -> exists x,
  @find_map (option leaf) leaf (fun t => t) [tok UNSAFE_KW (at_place pre (item_tree ITrait s)); tok AUTO_KW (at_place pre (item_tree ITrait s)); tok TRAIT_KW (at_place pre (item_tree ITrait s))]
  = Some (bytes (text pre) + lens (i_front s), x).
Proof.
  intros Hok Hv. pose proof Hok as Hok'. unfold item_ok in Hok'. decompose [and] Hok'. cbn [shape] in *.
  unfold tok, at_place, item_tree, item_children. cbn [item_keyword]. rewrite Hv.
  match goal with h : i_default s = None |- _ => rewrite h end. cbn [noded keyword app].
  destruct (i_unsafe s) as [g|] eqn:Eu.
  - cbn [keyword app find_map]. exists (UNSAFE_KW, lit "unsafe"). rewrite child_token_at by (ino_tok ITrait). reflexivity.
  - cbn [keyword app find_map]. replace (child_token UNSAFE_KW _) with (@None leaf); cycle 1.
    { symmetry. apply child_token_none.
      replace (i_front s ++ keyword AUTO_KW (lit "auto") (i_auto s) ++ Tok TRAIT_KW (lit "trait") :: i_name s ++ generics (i_generics s) ++ i_gap s ++ bounds (i_bounds s) ++ i_rest s)
        with ((i_front s ++ keyword AUTO_KW (lit "auto") (i_auto s) ++ Tok TRAIT_KW (lit "trait") :: i_name s ++ generics (i_generics s) ++ i_gap s ++ bounds (i_bounds s)) ++ i_rest s)
        by (repeat (rewrite <- ?app_assoc; cbn [app]); reflexivity).
      apply no_tok_both; ino_tok ITrait. }
    destruct (i_auto s) as [g|] eqn:Ea.
    + cbn [keyword app]. exists (AUTO_KW, lit "auto"). rewrite child_token_at by (ino_tok ITrait). reflexivity.
    + cbn [keyword app]. replace (child_token AUTO_KW _) with (@None leaf); cycle 1.
      { symmetry. apply child_token_none.
        replace (i_front s ++ Tok TRAIT_KW (lit "trait") :: i_name s ++ generics (i_generics s) ++ i_gap s ++ bounds (i_bounds s) ++ i_rest s)
          with ((i_front s ++ Tok TRAIT_KW (lit "trait") :: i_name s ++ generics (i_generics s) ++ i_gap s ++ bounds (i_bounds s)) ++ i_rest s)
          by (repeat (rewrite <- ?app_assoc; cbn [app]); reflexivity).
        apply no_tok_both; ino_tok ITrait. }
      exists (TRAIT_KW, lit "trait"). rewrite child_token_at by (ino_tok ITrait). reflexivity.
Qed.
Lemma event_starts pre s : item_ok IEvent s -> i_vis s = None -> exists x,
  @find_map (option leaf) leaf (fun t => t) [tok STRUCT_KW (at_place pre (item_tree IEvent s))] = Some (bytes (text pre) + lens (i_front s), x).
Proof.
  intros Hok Hv. pose proof Hok as Hok'. unfold item_ok in Hok'. cbn [shape] in Hok'. decompose [and] Hok'.
  unfold tok, at_place, item_tree, item_children. cbn [item_keyword]. rewrite Hv.
  repeat match goal with h : _ = None |- _ => rewrite h end. cbn [noded keyword bounds app find_map].
  exists (STRUCT_KW, lit "struct"). rewrite child_token_at by (ino_tok IEvent). reflexivity.
Qed.
Lemma igood_all pre post e s : item_ok e s ->
  igood pre post e s (item_diags e (file_leaves pre (item_tree e s) post) (at_place pre (item_tree e s))) (item_broken e s).
Proof.
  intros Hok. destruct e; cbn [item_diags item_broken]; unfold trait_invariants, event_invariants, impl_invariants; cbn [checks].
  - apply igood_both; [apply i_good_unsafe, Hok|]. apply igood_both; [apply i_good_auto, Hok|]. apply igood_both; [apply i_good_generics, Hok|].
    apply igood_both.
    + destruct (i_vis s) as [v|] eqn:Ev; rewrite <- Ev.
      * apply (i_good_pub pre post ITrait s Hok (TRAIT_KW, [])). congruence.
      * destruct (trait_starts pre s Hok Ev) as (x & Hx). apply (i_good_pub pre post ITrait s Hok x). intros _. exact Hx.
    + rewrite <- (app_nil_r (yes _ _)). apply igood_both; [apply i_good_bounds, Hok | apply igood_none].
  - apply igood_both.
    + destruct (i_vis s) as [v|] eqn:Ev; rewrite <- Ev.
      * apply (i_good_pub pre post IEvent s Hok (STRUCT_KW, [])). congruence.
      * destruct (event_starts pre s Hok Ev) as (x & Hx). apply (i_good_pub pre post IEvent s Hok x). intros _. exact Hx.
    + rewrite <- (app_nil_r (yes _ _)). apply igood_both; [apply i_good_generics, Hok | apply igood_none].
  - apply igood_both; [apply i_good_default, Hok|]. apply igood_both; [apply i_good_unsafe, Hok|].
    rewrite <- (app_nil_r (yes _ _)). apply igood_both; [apply i_good_generics, Hok | apply igood_none].
Qed.
(** The fixed item is an item, and breaks one rule less. *)
Lemma solid_pub : solid pub_only.
Proof. split; [|split]; [repeat constructor; discriminate | exists (OTHER 108, lit "pub"), []; auto | exists [], (OTHER 108, lit "pub"); auto]. Qed.
Lemma blank_space : blank [blank_one].
Proof. constructor; [|constructor]. exists WHITESPACE, (lit " "). repeat split. discriminate. Qed.
Lemma item_fixed_ok e s r : item_ok e s -> In r (item_broken e s) -> item_ok e (item_fixed r s).
Proof.
  intros Hok Hin. unfold item_ok in *. decompose [and] Hok.
  assert (Hsh : shape e s) by assumption.
  destruct r; cbn [item_fixed i_front i_vis i_default i_unsafe i_auto i_name i_generics i_gap i_bounds i_rest]; repeat match goal with |- _ /\ _ => split end; try assumption; try exact I.
  all: try (destruct e; cbn [shape i_default i_vis i_unsafe i_auto i_bounds] in *; intuition; fail).
  - cbn [noded_ok]. split; [apply solid_pub|]. destruct (i_vis s) as [[v g]|]; [cbn [noded_ok] in *; tauto | apply blank_space].
  - destruct e; cbn [shape i_default i_vis i_unsafe i_auto i_bounds item_broken] in *; try tauto. exfalso. absurd_rule.
  - apply blank_app. split; [assumption|]. destruct (i_bounds s) as [[[g x] h]|]; [cbn [bounds_ok] in *; tauto | constructor].
Qed.
Lemma item_fixed_drops e s r : item_ok e s -> In r (item_broken e s) -> drops r (item_broken e s) (item_broken e (item_fixed r s)).
Proof.
  intros Hok Hin.
  assert (P : is_pub (Some (pub_only, match i_vis s with Some (_, g) => g | None => [blank_one] end)) = true) by reflexivity.
  destruct e; cbn [item_broken] in *.
  - repeat match goal with h : In _ (_ ++ _) |- _ => apply in_app_iff in h; destruct h as [h|h] end; apply yes_In in Hin; destruct Hin as [Hb ->];
      cbn [item_fixed i_front i_vis i_default i_unsafe i_auto i_name i_generics i_gap i_bounds i_rest is_some]; rewrite ?P; cbn [negb]; rewrite ?Hb.
    + apply drops_head.
    + apply drops_skip, drops_head.
    + apply drops_skip, drops_skip, drops_head.
    + do 3 apply drops_skip. apply drops_head.
    + do 4 apply drops_skip. apply drops_last.
  - repeat match goal with h : In _ (_ ++ _) |- _ => apply in_app_iff in h; destruct h as [h|h] end; apply yes_In in Hin; destruct Hin as [Hb ->];
      cbn [item_fixed i_front i_vis i_default i_unsafe i_auto i_name i_generics i_gap i_bounds i_rest is_some]; rewrite ?P; cbn [negb]; rewrite ?Hb.
    + apply drops_head.
    + apply drops_skip, drops_last.
  - repeat match goal with h : In _ (_ ++ _) |- _ => apply in_app_iff in h; destruct h as [h|h] end; apply yes_In in Hin; destruct Hin as [Hb ->];
      cbn [item_fixed i_front i_vis i_default i_unsafe i_auto i_name i_generics i_gap i_bounds i_rest is_some]; rewrite ?P; cbn [negb]; rewrite ?Hb.
    + apply drops_head.
    + apply drops_skip, drops_head.
    + apply drops_skip, drops_skip, drops_last.
Qed.

(** ** The visibility of the functions of an impl block *)
Lemma start_step o K cs k w wh a b (others : list (option leaf)) : cs = a ++ keyword k w wh ++ b ->
  forallb (fun e => negb (tok_of k e)) a = true -> forallb (fun e => negb (tok_of k e)) b = true ->
  (wh = None -> exists x, @find_map (option leaf) leaf (fun t => t) others = Some (o + lens a, x)) ->
  exists x, @find_map (option leaf) leaf (fun t => t) (child_token k (o, Node K cs) :: others) = Some (o + lens a, x).
Proof.
  intros -> Ha Hb H. destruct wh as [g|]; cbn [keyword app].
  - exists (k, w). cbn [find_map]. rewrite child_token_at by exact Ha. reflexivity.
  - rewrite child_token_none by (rewrite forallb_app, Ha; exact Hb). apply H. reflexivity.
Qed.
Definition fn_starts (item : lelem) : list (option leaf) :=
  [tok DEFAULT_KW item; tok CONST_KW item; tok ASYNC_KW item; tok UNSAFE_KW item; obind (child_node ABI item) elem_first_leaf; tok FN_KW item].
Lemma fn_starts_at pre s items : fn_ok s items -> f_vis s = None ->
  exists x, @find_map (option leaf) leaf (fun t => t) (fn_starts (at_place pre (fn_tree s))) = Some (bytes (text pre) + lens (f_front s), x).
Proof.
  intros Hok Hv. pose proof Hok as Hok'. unfold fn_ok in Hok'. decompose [and] Hok'.
  unfold fn_starts, tok, at_place, fn_tree.
  assert (E : fn_children s = f_front s ++ keyword DEFAULT_KW (lit "default") (f_default s) ++ keyword CONST_KW (lit "const") (f_const s)
    ++ keyword ASYNC_KW (lit "async") (f_async s) ++ keyword UNSAFE_KW (lit "unsafe") (f_unsafe s) ++ noded ABI (f_abi s) ++ Tok FN_KW (lit "fn") :: f_name s ++ generics (f_generics s) ++ f_gap s
    ++ Node PARAM_LIST (Tok L_PAREN (lit "(") :: f_params s ++ [Tok R_PAREN (lit ")")]) :: f_params_gap s
    ++ noded RET_TYPE (f_ret s) ++ noded WHERE_CLAUSE (f_where s) ++ ending (f_end s)) by (unfold fn_children, fn_parts; rewrite Hv; reflexivity).
  apply (start_step _ _ _ _ (lit "default") (f_default s) (f_front s) _ _ E); [no_tok | no_tok |]. intros Ed. rewrite Ed in E. cbn [keyword app] in E.
  apply (start_step _ _ _ _ (lit "const") (f_const s) (f_front s) _ _ E); [no_tok | no_tok |]. intros Ec. rewrite Ec in E. cbn [keyword app] in E.
  apply (start_step _ _ _ _ (lit "async") (f_async s) (f_front s) _ _ E); [no_tok | no_tok |]. intros Ea. rewrite Ea in E. cbn [keyword app] in E.
  apply (start_step _ _ _ _ (lit "unsafe") (f_unsafe s) (f_front s) _ _ E); [no_tok | no_tok |]. intros Eu. rewrite Eu in E. cbn [keyword app] in E.
  assert (Hab : noded_ok (f_abi s)) by assumption.
  destruct (f_abi s) as [[cs g]|] eqn:Eb; cbn [noded app] in E; rewrite E.
  - rewrite child_node_at by no_node. cbn [obind]. destruct Hab as [[_ [(t & l & Hl & _) _]] _]. rewrite (first_leaf _ _ _ l t Hl). exists t. reflexivity.
  - rewrite child_node_none by no_node. cbn [obind find_map]. rewrite child_token_at by no_tok. exists (FN_KW, lit "fn"). reflexivity.
Qed.
Lemma visibility_checked pre post s items of_trait : fn_ok s items ->
  exists ds, fn_visibility of_trait (file_leaves pre (fn_tree s) post) (at_place pre (fn_tree s)) = Done ds
    /\ map rd_rule ds = vis_broken of_trait s
    /\ Forall (fun d => marks pre (fn_tree s) (vis_marked s) (rd_range d)
         /\ exists fx, rd_fixes d = [fx] /\ effect (in_file pre (fn_tree s) post) fx (in_file pre (fn_tree (vis_fixed of_trait s)) post)) ds.
Proof.
  intros Hok. pose proof Hok as Hok'. unfold fn_ok in Hok'. decompose [and] Hok'.
  set (b := keyword DEFAULT_KW (lit "default") (f_default s) ++ keyword CONST_KW (lit "const") (f_const s)
    ++ keyword ASYNC_KW (lit "async") (f_async s) ++ keyword UNSAFE_KW (lit "unsafe") (f_unsafe s) ++ noded ABI (f_abi s) ++ Tok FN_KW (lit "fn") :: f_name s ++ generics (f_generics s) ++ f_gap s
    ++ Node PARAM_LIST (Tok L_PAREN (lit "(") :: f_params s ++ [Tok R_PAREN (lit ")")]) :: f_params_gap s
    ++ noded RET_TYPE (f_ret s) ++ noded WHERE_CLAUSE (f_where s) ++ ending (f_end s)).
  assert (Na : forallb (fun e => negb (node_of VISIBILITY e)) (f_front s) = true) by no_node.
  assert (Nb : forallb (fun e => negb (node_of VISIBILITY e)) b = true) by (unfold b; no_node).
  assert (E : fn_children s = f_front s ++ noded VISIBILITY (f_vis s) ++ b) by reflexivity.
  destruct of_trait; unfold fn_visibility, vis_broken, vis_fixed.
  - assert (Hv : noded_ok (f_vis s)) by assumption. unfold vis_marked. destruct (f_vis s) as [[cs g]|] eqn:Ev; cbn [is_some yes].
    + destruct Hv as [Hc Hg]. assert (Hb : begins_solid b) by (unfold b; begins).
      destruct (node_part pre post s VISIBILITY cs g (f_front s) b E Hc Hg Hb Na) as (-> & -> & R & M & D). cbn [obind_o].
      eexists. split; [reflexivity|]. split; [reflexivity|]. constructor; [|constructor]. cbn [one_fix rd_range rd_fixes]. rewrite R. split; [exact M|].
      eexists. split; [reflexivity|]. eexists. split; [reflexivity|]. apply D.
    + cbn [noded app] in E. unfold at_place, fn_tree. rewrite E, child_node_none by (rewrite forallb_app, Na; exact Nb). exists []. repeat split. constructor.
  - assert (F : finds pre post FN (fn_children s) (must_be_pub (fn_range (file_leaves pre (fn_tree s) post) (at_place pre (fn_tree s))) (fn_starts (at_place pre (fn_tree s))) (at_place pre (fn_tree s)))
        (negb (is_pub (f_vis s))) RPub (vis_marked s)
        [in_file pre (Node FN (f_front s ++ noded VISIBILITY (Some (pub_only, match f_vis s with Some (_, g) => g | None => [blank_one] end)) ++ b)) post]).
    { assert (X : exists x, f_vis s = None -> @find_map (option leaf) leaf (fun t => t) (fn_starts (at_place pre (fn_tree s))) = Some (bytes (text pre) + lens (f_front s), x)).
      { destruct (f_vis s) eqn:Ev; [exists (FN_KW, []); discriminate|]. destruct (fn_starts_at pre s items Hok Ev) as (x & Hx). exists x. intros _. exact Hx. }
      destruct X as (x & Hx).
      exact (t_pub pre post FN (fn_children s) _ _ (f_front s) (f_vis s) b x E Na Nb Hx (leaves_of (declaration s)) (fun _ => declaration_range pre post s items Hok)). }
    unfold fn_starts in F. destruct (negb (is_pub (f_vis s))); cbn [finds yes] in *.
    + destruct F as (rg & fixes & -> & M & F). eexists. split; [reflexivity|]. split; [reflexivity|]. constructor; [|constructor]. split; [exact M|].
      inversion F as [|fx R' l l' Hf Hl]; subst. inversion Hl; subst. exists fx. split; [reflexivity | exact Hf].
    + exists []. split; [exact F|]. split; [reflexivity | constructor].
Qed.
Lemma vis_fixed_ok of_trait s items : fn_ok s items -> fn_ok (vis_fixed of_trait s) items /\ vis_broken of_trait (vis_fixed of_trait s) = [].
Proof.
  intros Hok. destruct of_trait; cbn [vis_fixed vis_broken]; split; try reflexivity.
  - apply ok_no_vis, Hok.
  - destruct (f_vis s) as [[v g]|] eqn:Ev; [apply (ok_pub s items v g Ev Hok)|].
    pose proof Hok as Hok'. unfold fn_ok in Hok'. decompose [and] Hok'. unfold fn_ok. repeat match goal with |- _ /\ _ => split end; try assumption.
    + cbn [set_vis f_vis noded_ok]. split; [apply solid_pub | apply blank_space].
    + match goal with h : no_docs (fn_parts s) |- _ => revert h end. unfold fn_parts. cbn [set_vis f_vis f_default f_const f_async f_unsafe f_abi f_name f_generics f_gap f_params f_params_gap f_ret f_where f_end].
      rewrite Ev. cbn [noded app]. intros D. constructor; [intros c Hc; discriminate Hc|]. constructor; [intros c Hc; discriminate Hc | exact D].
Qed.

(** ** The items of a trait *)
Lemma leaves_trait a cs b : leaves (trait_with a cs b) = leaves_of a ++ leaves_of cs ++ leaves_of b.
Proof. unfold trait_with. rewrite leaves_node, leaves_of_app. reflexivity. Qed.
Lemma trait_text pre a cs b post : in_file pre (trait_with a cs b) post = text pre ++ texts_of a ++ texts_of cs ++ texts_of b ++ text post.
Proof. unfold in_file. rewrite leaves_trait, !text_app, !text_leaves_of, <- !app_assoc. reflexivity. Qed.
Lemma trait_cut pre post a cs b x v y p q : texts_of cs = x ++ v ++ y -> p = bytes (text pre) + lens a + bytes x -> q = p + bytes v ->
  forall cs', texts_of cs' = x ++ y ->
  applied (in_file pre (trait_with a cs b) post) (edit_delete (p, q)) (in_file pre (trait_with a cs' b) post).
Proof.
  intros E -> -> cs' E'. rewrite !trait_text, E, E'.
  replace (text pre ++ texts_of a ++ (x ++ v ++ y) ++ texts_of b ++ text post) with ((text pre ++ texts_of a ++ x) ++ v ++ y ++ texts_of b ++ text post) by (rewrite <- !app_assoc; reflexivity).
  replace (text pre ++ texts_of a ++ (x ++ y) ++ texts_of b ++ text post) with ((text pre ++ texts_of a ++ x) ++ y ++ texts_of b ++ text post) by (rewrite <- !app_assoc; reflexivity).
  apply deleted; rewrite !bytes_app; unfold lens; lia.
Qed.
Lemma block_split cs : existsb is_block cs = true -> exists u v w, cs = u ++ Node BLOCK_EXPR v :: w /\ forallb (fun e => negb (is_block e)) u = true.
Proof.
  induction cs as [|c cs IH]; [discriminate|]. cbn [existsb]. destruct (is_block c) eqn:Ec.
  - intros _. destruct c as [k t|k v]; [discriminate|]. unfold is_block in Ec. cbn in Ec. apply skind_eqb_eq in Ec. subst k. exists [], v, cs. split; reflexivity.
  - intros H. destruct (IH H) as (u & v & w & -> & Hu). exists (c :: u), v, w. split; [reflexivity|]. cbn [forallb]. rewrite Ec. exact Hu.
Qed.
Definition assoc_check (c : lelem) : check :=
  if is_tok (snd c) then none
  else if skind_eqb (lkind c) CONST then Done [one_fix RAssocConst (lrange_of c) (lrange_of c)]
  else if skind_eqb (lkind c) MACRO_CALL then Done [one_fix RAssocMacro (lrange_of c) (lrange_of c)]
  else if skind_eqb (lkind c) TYPE_ALIAS then Done [one_fix RAssocType (lrange_of c) (lrange_of c)]
  else if skind_eqb (lkind c) FN then
    match child_node BLOCK_EXPR c with
    | Some b => Done [one_fix RBody (lrange_of b) (lrange_of b)]
    | None => none
    end
  else none.
Lemma assoc_one pre post a b x c y :
  match assoc_broken c with
  | Some r => exists d, assoc_check (bytes (text pre) + lens a + lens x, c) = Done [d] /\ rd_rule d = r
      /\ assoc_report pre post a (x ++ c :: y) b (length x) d
  | None => assoc_check (bytes (text pre) + lens a + lens x, c) = Done []
  end.
Proof.
  set (q := bytes (text pre) + lens a + lens x).
  assert (W : forall r, assoc_broken c = Some r -> r <> RBody -> assoc_report pre post a (x ++ c :: y) b (length x) (one_fix r (lrange_of (q, c)) (lrange_of (q, c)))).
  { intros r Hr Hn. exists x, c, y, (leaves c), []. split; [reflexivity|]. split; [reflexivity|]. split; [exact Hr|]. split; [eapply af_item; eassumption|]. split.
    - exists [], []. rewrite app_nil_r. split; [reflexivity|]. cbn [app]. cbn [one_fix rd_range]. unfold lrange_of, lstart, lend. cbn [fst snd].
      rewrite !app_nil_r, !text_app, !bytes_app, !bytes_texts, text_leaves. unfold q, len_of. f_equal; lia.
    - eexists. split; [reflexivity|]. eexists. split; [reflexivity|]. cbn [app]. unfold lrange_of, lstart, lend. cbn [fst snd].
      apply (trait_cut _ _ _ _ _ (texts_of x) (text_of c) (texts_of y)); [rewrite texts_of_app; reflexivity | reflexivity | reflexivity | apply texts_of_app]. }
  destruct c as [k t|k cs].
  - reflexivity.
  - unfold assoc_check, lkind. cbn [is_tok snd kind_of]. unfold assoc_broken in *.
    destruct (skind_eqb k CONST); [eexists; split; [reflexivity|]; split; [reflexivity|]; apply W; [reflexivity | discriminate]|].
    destruct (skind_eqb k MACRO_CALL); [eexists; split; [reflexivity|]; split; [reflexivity|]; apply W; [reflexivity | discriminate]|].
    destruct (skind_eqb k TYPE_ALIAS); [eexists; split; [reflexivity|]; split; [reflexivity|]; apply W; [reflexivity | discriminate]|].
    destruct (skind_eqb k FN) eqn:Ek; [|reflexivity]. apply skind_eqb_eq in Ek. subst k. cbn [andb].
    change (existsb (fun z => negb (is_tok z) && skind_eqb (kind_of z) BLOCK_EXPR) cs) with (existsb is_block cs).
    destruct (existsb is_block cs) eqn:Eb.
    + destruct (block_split cs Eb) as (u & v & w & -> & Hu). rewrite child_node_at by exact Hu.
      eexists. split; [reflexivity|]. split; [reflexivity|].
      exists x, (Node FN (u ++ Node BLOCK_EXPR v :: w)), y, (leaves_of v), [Node FN (u ++ w)]. split; [reflexivity|]. split; [reflexivity|].
      split; [unfold assoc_broken; change (existsb (fun z => negb (is_tok z) && skind_eqb (kind_of z) BLOCK_EXPR)) with (existsb is_block); rewrite Eb; reflexivity|].
      split; [apply af_body, Hu|]. unfold lrange_of, lstart, lend. cbn [fst snd one_fix rd_range rd_fixes]. rewrite len_node. split.
      * exists (leaves_of u), (leaves_of w). split.
        -- rewrite leaves_node. change (Node BLOCK_EXPR v :: w) with ([Node BLOCK_EXPR v] ++ w). rewrite !leaves_of_app, leaves_one. reflexivity.
        -- rewrite !text_app, !bytes_app, !bytes_texts. unfold q. f_equal; lia.
      * eexists. split; [reflexivity|]. eexists. split; [reflexivity|].
        apply (trait_cut _ _ _ _ _ (texts_of x ++ texts_of u) (texts_of v) (texts_of w ++ texts_of y)).
        -- rewrite texts_of_app. change (Node FN (u ++ Node BLOCK_EXPR v :: w) :: y) with ([Node FN (u ++ Node BLOCK_EXPR v :: w)] ++ y). rewrite texts_of_app.
           unfold texts_of at 2. cbn [flat_map]. rewrite text_of_node, app_nil_r, texts_of_app. change (Node BLOCK_EXPR v :: w) with ([Node BLOCK_EXPR v] ++ w). rewrite texts_of_app.
           unfold texts_of at 3. cbn [flat_map]. rewrite text_of_node, app_nil_r, <- !app_assoc. reflexivity.
        -- rewrite bytes_app. unfold q, lens. lia.
        -- unfold lens. lia.
        -- rewrite !texts_of_app. unfold texts_of at 2. cbn [flat_map]. rewrite text_of_node, app_nil_r, texts_of_app, <- !app_assoc. reflexivity.
    + rewrite child_node_none; [reflexivity|]. clear - Eb. induction cs as [|c cs IH]; [reflexivity|]. cbn [existsb forallb] in *. apply Bool.orb_false_iff in Eb. destruct Eb as [E1 E2].
      change (node_of BLOCK_EXPR c) with (is_block c). rewrite E1. cbn [negb andb]. apply IH, E2.
Qed.
Lemma assoc_all pre post a b y : forall x,
  exists ds, checks (map assoc_check (place (bytes (text pre) + lens a + lens x) y)) = Done ds
    /\ map rd_rule ds = filter_map assoc_broken y
    /\ Forall2 (assoc_report pre post a (x ++ y) b)
         (filter (fun i => match nth_error (x ++ y) i with Some c => is_some (assoc_broken c) | None => false end) (seq (length x) (length y))) ds.
Proof.
  induction y as [|c y IH]; intros x; [exists []; repeat split; constructor|].
  cbn [place map checks length seq filter filter_map].
  assert (N : nth_error (x ++ c :: y) (length x) = Some c) by (rewrite nth_error_app2, Nat.sub_diag by lia; reflexivity). rewrite N.
  destruct (IH (x ++ [c])) as (ds & C & R & F). rewrite <- app_assoc in F. cbn [app] in F.
  rewrite app_length in F. cbn [length] in F. rewrite Nat.add_1_r in F.
  rewrite lens_app, lens_cons, lens_nil, Nat.add_0_r, Nat.add_assoc in C. rewrite C.
  pose proof (assoc_one pre post a b x c y) as H. destruct (assoc_broken c) as [r|]; cbn [is_some].
  - destruct H as (d & -> & Hr & Hd). exists (d :: ds). split; [reflexivity|]. split; [cbn [map]; rewrite Hr, R; reflexivity | constructor; assumption].
  - rewrite H. exists ds. split; [reflexivity|]. split; assumption.
Qed.
Lemma trait_items pre post a cs b : forallb (fun e => negb (node_of ASSOC_ITEM_LIST e)) a = true ->
  exists ds, trait_item_diags (at_place pre (trait_with a cs b)) = Done ds
    /\ map rd_rule ds = filter_map assoc_broken cs /\ Forall2 (assoc_report pre post a cs b) (reported_at cs) ds.
Proof.
  intros Ha. unfold trait_item_diags, at_place, trait_with. rewrite child_node_at by exact Ha. cbn [snd fst].
  destruct (assoc_all pre post a b cs []) as (ds & C & R & F). rewrite lens_nil, Nat.add_0_r in C. exists ds. split; [exact C|]. split; [exact R | exact F].
Qed.
(** One report less *)
Lemma filter_map_split {A B} (f : A -> option B) x y : filter_map f (x ++ y) = filter_map f x ++ filter_map f y.
Proof. apply filter_map_app. Qed.
Lemma assoc_fixed_drops x c y part c' r : assoc_fix c part c' -> assoc_broken c = Some r ->
  (forall u v w, c = Node FN (u ++ Node BLOCK_EXPR v :: w) -> forallb (fun e => negb (is_block e)) u = true -> existsb is_block w = false) ->
  drops r (filter_map assoc_broken (x ++ c :: y)) (filter_map assoc_broken (x ++ c' ++ y)).
Proof.
  intros Hf Hr Hone. rewrite !filter_map_app. cbn [filter_map]. rewrite Hr. apply drops_skip.
  assert (filter_map assoc_broken c' = []) as ->; [|exists [], (filter_map assoc_broken y); split; reflexivity].
  destruct Hf as [c r' H Hn|u v w Hu]; [reflexivity|]. specialize (Hone u v w eq_refl Hu). cbn [filter_map assoc_broken].
  change (existsb (fun z => negb (is_tok z) && skind_eqb (kind_of z) BLOCK_EXPR)) with (existsb is_block). rewrite existsb_app, Hone, Bool.orb_false_r.
  replace (existsb is_block u) with false; [reflexivity|]. symmetry. apply Bool.not_true_iff_false. intros H. apply existsb_exists in H. destruct H as (e & He & Hb).
  rewrite forallb_forall in Hu. specialize (Hu e He). rewrite Hb in Hu. discriminate Hu.
Qed.
