(** Proofs about the items of chain extensions and trait definitions. *)
From Coq Require Import Lia Permutation Sorted.
From Verif Require Import Base BaseFacts Unicode VersionModel PositionModel PositionProofs TranslateModel SyntaxModel CommandModel AttrModel AttrProofs
  EditModel EditSpec UtilModel UtilSpec UtilProofs ArgEditModel ArgEditSpec ArgEditProofs RuleModel RuleSpec RuleProofs CallableModel EntityModel EntitySpec
  EntityProofs ChainModel ChainSpec.

(** ** Several edits *)
Lemma changes_app o a b : changes o (a ++ b) = changes o a ++ changes (o + bytes (old_text a)) b.
Proof.
  revert o. induction a as [|p a IH]; intros o; cbn [app changes]; [rewrite Nat.add_0_r; reflexivity|].
  destruct p as [s|s t]; cbn [changes]; rewrite IH; cbn [app]; unfold old_text; cbn [flat_map]; rewrite bytes_app, Nat.add_assoc; reflexivity.
Qed.
Definition goesb (read : reader) (keep : list arg_kind) (e : elem) : bool :=
  is_ink (is_ink_attr read) e && negb (attr_is read keep (0, e)).
Definition piece_of (read : reader) (keep : list arg_kind) (e : elem) : piece :=
  if goesb read keep e then Other (text_of e) [] else Same (text_of e).
Lemma pieces_old read keep l : old_text (map (piece_of read keep) l) = texts_of l.
Proof.
  induction l as [|e l IH]; [reflexivity|]. unfold old_text in *. cbn [map flat_map]. rewrite IH. unfold piece_of. destruct (goesb read keep e); reflexivity.
Qed.
Lemma pieces_changes read keep l : forall o,
  changes o (map (piece_of read keep) l) = map (fun c => (lrange_of c, [])) (filter (fun c : lelem => goesb read keep (snd c)) (place o l)).
Proof.
  induction l as [|e l IH]; intros o; [reflexivity|]. cbn [map place filter snd]. unfold piece_of at 1. destruct (goesb read keep e); cbn [changes map]; rewrite IH; reflexivity.
Qed.
Lemma existsb_kind k ks : existsb (arg_kind_eqb k) ks = true <-> In k ks.
Proof.
  rewrite existsb_exists. split; [intros (x & H & E); apply arg_kind_eqb_eq in E; subst; exact H | intros H; exists k; split; [exact H | apply arg_kind_eqb_eq; reflexivity]].
Qed.
Lemma is_ink_true read e : is_ink (is_ink_attr read) e = true <-> exists cs s, e = Node ATTR cs /\ read e = Some s.
Proof.
  unfold is_ink, is_ink_attr. split.
  - intros H. apply andb_prop in H as [H1 H2]. apply andb_prop in H1 as [H0 H1]. destruct e as [k t|k cs]; [discriminate|]. apply skind_eqb_eq in H1. cbn [kind_of] in H1. subst k.
    destruct (read (Node ATTR cs)) as [s|]; [|discriminate]. exists cs, s. auto.
  - intros (cs & s & -> & E). rewrite E. reflexivity.
Qed.
Lemma attr_is_true read ks q e : attr_is read ks (q, e) = true <-> exists s k, read e = Some s /\ sn_kind s = AkArg k /\ In k ks.
Proof.
  unfold attr_is. cbn [snd]. destruct (read e) as [s|]; [|split; [discriminate | intros (s & k & E & _); discriminate]]. destruct (sn_kind s) as [m|k] eqn:Ek.
  - split; [discriminate | intros (s' & k & [= <-] & E & _); congruence].
  - rewrite existsb_kind. split; [intros H; exists s, k; auto | intros (s' & k' & [= <-] & E & H); rewrite Ek in E; injection E as <-; exact H].
Qed.
Lemma goesb_spec read keep e : goesb read keep e = false <-> stays read keep e.
Proof.
  unfold goesb, stays. destruct (is_ink (is_ink_attr read) e) eqn:E.
  - cbn [andb]. rewrite Bool.negb_false_iff, attr_is_true. apply is_ink_true in E. destruct E as (cs & s & Ee & Es). split; [auto|].
    intros [H|[H|H]]; [destruct (H cs Ee) | congruence | exact H].
  - split; [|reflexivity]. intros _. destruct e as [k t|k cs]; [left; discriminate|].
    destruct (read (Node k cs)) as [s|] eqn:Er; [|auto]. left. intros cs' [= -> ->].
    assert (X : is_ink (is_ink_attr read) (Node ATTR cs') = true) by (apply is_ink_true; eauto). congruence.
Qed.
Lemma pieces_new read keep l : kept read keep l (new_text (map (piece_of read keep) l)).
Proof.
  induction l as [|e l IH]; [constructor|]. unfold new_text in *. cbn [map flat_map]. unfold piece_of at 1. destruct (goesb read keep e) eqn:E.
  - apply kept_goes; [|exact IH]. intros H. apply goesb_spec in H. congruence.
  - apply kept_stays; [apply goesb_spec, E | exact IH].
Qed.
Lemma attr_is_at read ks c : attr_is read ks c = attr_is read ks (0, snd c).
Proof. reflexivity. Qed.

Section Attributes.
  Variables (read : reader) (keep : list arg_kind) (pre post : list (skind * str)) (front core : list elem) (new : str) (snippet : option str).
  Hypothesis Hf : front_only front.
  Hypothesis Hc : begins_solid core.
  Hypothesis Hn : forall cs, ~ In (Node ATTR cs) core.
  Let item := Node FN (front ++ core).
  Let toks := file_leaves pre item post.
  Let o := bytes (text pre).

  Lemma attrs_at : attrs_of read (at_place pre item) = filter (fun c : lelem => is_ink (is_ink_attr read) (snd c)) (place o front).
  Proof. apply ink_nodes. exact Hn. Qed.
  Lemma edits_rewrite : exists a b s, front = a ++ b /\ first_attr_place (is_ink_attr read) a b /\ kept read keep b s
    /\ rewritten (in_file pre item post) (attribute_edits read toks keep new snippet (at_place pre item))
         (text pre ++ texts_of a ++ new ++ s ++ texts_of core ++ text post).
  Proof.
    destruct (first_attr_offset_spec pre post FN front core (is_ink_attr read) Hf Hc Hn) as (a & b & E & Hp & Eo).
    exists a, b, (new_text (map (piece_of read keep) b)). split; [exact E|]. split; [exact Hp|]. split; [apply pieces_new|].
    exists (Same (text pre ++ texts_of a) :: Other [] new :: map (piece_of read keep) b ++ [Same (texts_of core ++ text post)]).
    assert (Na : nothing (is_ink (is_ink_attr read)) a).
    { destruct Hp as [(x & b' & _ & _ & H)|[H _]]; [exact H | intros y Hy; apply H, in_or_app; left; exact Hy]. }
    split; [|split].
    - unfold item. rewrite in_file_text, E, !texts_of_app. unfold old_text. cbn [flat_map app]. rewrite flat_map_app. fold (old_text (map (piece_of read keep) b)).
      rewrite pieces_old. cbn [flat_map]. rewrite app_nil_r, <- !app_assoc. reflexivity.
    - unfold new_text. cbn [flat_map app]. rewrite flat_map_app. cbn [flat_map]. rewrite app_nil_r, <- !app_assoc. reflexivity.
    - apply Permutation_refl'. unfold attribute_edits. cbn [map changes]. fold item in Eo. fold toks in Eo. rewrite Eo, attrs_at.
      rewrite changes_app, pieces_changes. cbn [changes]. rewrite app_nil_r. rewrite bytes_app. fold (lens a). fold o. change (bytes []) with 0. rewrite !Nat.add_0_r.
      cbn [Nat.add]. unfold edit_insert_snippet. cbn [te_range te_text]. f_equal. match goal with |- ?f (map ?g ?l) = _ => change (map (fun e => (te_range e, te_text e)) (map g l) = map (fun c => (lrange_of c, [])) (filter (fun c : lelem => goesb read keep (snd c)) (place (o + lens a) b))) end. rewrite map_map. cbn [edit_delete te_range te_text]. f_equal.
      rewrite E, place_app, filter_app.
      assert (Ea : filter (fun c : lelem => is_ink (is_ink_attr read) (snd c)) (place o a) = []).
      { apply filter_none. intros c Hc'. apply place_In in Hc'. apply Na, Hc'. }
      rewrite Ea. cbn [app]. fold (lens a). generalize (o + lens a). clear. intros q. generalize (place q b). intros l. induction l as [|c l IH]; [reflexivity|].
      cbn [filter]. unfold goesb at 1. destruct (is_ink (is_ink_attr read) (snd c)); cbn [andb filter]; [|exact IH]. rewrite <- attr_is_at. destruct (attr_is read keep c); cbn [negb]; [exact IH | f_equal; exact IH].
  Qed.
End Attributes.

(** ** The marked range *)
Lemma blank_front l : front_only l -> (forall cs, ~ In (Node ATTR cs) l) -> blank l.
Proof.
  intros H Hn. induction H as [|e l He _ IH]; [constructor|]. constructor; [|apply IH; intros cs C; apply (Hn cs); right; exact C].
  destruct He as [(cs & -> & _)|(k & s & -> & Hk & Hs)]; [destruct (Hn cs); left; reflexivity | exists k, s; auto].
Qed.
Section Start.
  Variables (pre post : list (skind * str)) (K : skind) (front parts : list elem).
  Hypothesis Hfront : front_only front.
  Hypothesis Hsol : begins_solid parts.
  Hypothesis Hdoc : no_docs parts.
  Hypothesis Hattr : forall cs, ~ In (Node ATTR cs) parts.
  Let item := Node K (front ++ parts).
  Let toks := file_leaves pre item post.
  Let o := bytes (text pre).

  Lemma no_attr_parts : forallb (fun e => negb (node_of ATTR e)) parts = true.
  Proof.
    apply forallb_forall. intros e He. apply Bool.negb_true_iff. unfold node_of. destruct e as [k t|k cs]; [reflexivity|]. cbn [is_tok negb andb kind_of].
    destruct (skind_eqb k ATTR) eqn:E; [|reflexivity]. apply skind_eqb_eq in E. subst k. destruct (Hattr cs He).
  Qed.
  Lemma item_start : declaration_start toks (at_place pre item) = o + (if existsb annotation front then lens front else 0).
  Proof.
    pose proof Hsol as Hb. pose proof Hdoc as Hd. pose proof Hfront as Hf.
    destruct (existsb (fun e => node_of ATTR e) front) eqn:Ea.
    - assert (F : front_ok front).
      { split; [exact Hf|]. apply existsb_exists in Ea. destruct Ea as (e & He & Hk). unfold node_of in Hk. destruct e as [k t|k cs]; [discriminate|]. cbn [is_tok negb andb kind_of] in Hk.
        apply skind_eqb_eq in Hk. subst k. exists cs. exact He. }
      assert (A : existsb annotation front = true).
      { destruct F as [_ (cs & Hin)]. apply existsb_exists. exists (Node ATTR cs). auto. }
      rewrite A. apply (decl_start pre post front parts K F Hd no_attr_parts Hb).
    - assert (Hbl : blank front).
      { apply blank_front; [exact Hf|]. intros cs Hin. assert (X : existsb (fun e => node_of ATTR e) front = true) by (apply existsb_exists; exists (Node ATTR cs); auto). congruence. }
      assert (Hno : last_attr_leaf (at_place pre item) = None).
      { unfold last_attr_leaf, at_place, item. rewrite child_nodes_none; [reflexivity|]. rewrite forallb_app. rewrite no_attr_parts, Bool.andb_true_r.
        apply forallb_forall. intros e He. apply blank_tok in Hbl. rewrite Forall_forall in Hbl. unfold node_of. rewrite (Hbl e He). reflexivity. }
      assert (ED : last_doc (at_place pre item) = last_opt (filter_map doc_of (place o front))).
      { unfold last_doc, at_place, item. cbn [snd fst]. change (last_opt (filter_map doc_of (place o (front ++ parts))) = last_opt (filter_map doc_of (place o front))).
        rewrite place_app, filter_map_app, (no_docs_none parts _ Hd), app_nil_r. reflexivity. }
      unfold declaration_start. rewrite Hno, ED. pose proof (last_doc_split front o) as LD.
      destruct (last_opt (filter_map doc_of (place o front))) as [d|] eqn:El.
      + destruct LD as (a & s & b & Ef & ->).
        assert (Hin : In (o + lens a, (COMMENT, s)) (filter_map doc_of (place o front))) by (apply last_opt_some in El; destruct El as (l' & ->); apply in_or_app; right; left; reflexivity).
        assert (A : existsb annotation front = true).
        { apply filter_map_In in Hin. destruct Hin as (c & Hc & Hdo). apply existsb_exists. exists (snd c). split; [apply place_In in Hc; exact Hc|].
          unfold doc_of in Hdo. destruct (snd c) as [k t|]; [|discriminate]. destruct k; try discriminate. cbn [annotation]. destruct (is_doc t); [reflexivity | discriminate]. }
        rewrite A. cbn [obind]. rewrite Ef in Hbl. apply blank_app in Hbl. destruct Hbl as [_ Hbl]. apply Forall_cons_iff in Hbl. destruct Hbl as [(k' & s' & Es' & _ & Hs') Hbl].
        injection Es' as <- <-. destruct (after_token (pre ++ leaves_of a) (COMMENT, s) b parts post Hs' Hbl Hb) as (x & Ex & Es).
        rewrite !text_app, !bytes_app, bytes_texts in Ex, Es. fold o in Ex, Es.
        assert (Et : toks = place_leaves 0 ((pre ++ leaves_of a) ++ (COMMENT, s) :: leaves_of b ++ leaves_of parts ++ post)).
        { unfold toks, file_leaves, item. rewrite leaves_node, Ef. change (Tok COMMENT s :: b) with ([Tok COMMENT s] ++ b). rewrite !leaves_of_app. repeat (rewrite <- ?app_assoc; cbn [app]). reflexivity. }
        rewrite Et, Ex, Es, Ef, lens_app, lens_cons. unfold len_of. cbn [text_of snd]. lia.
      + cbn [obind]. assert (A : existsb annotation front = false).
        { destruct (existsb annotation front) eqn:A; [|reflexivity]. exfalso. apply existsb_exists in A. destruct A as (e & He & Ha).
          destruct e as [k t|k cs].
          - destruct k; try discriminate. apply in_split in He. destruct He as (a & b & Ef). rewrite Ef, place_app, filter_map_app, last_opt_app2 in El. cbn [place filter_map] in El. unfold doc_of at 1 in El. cbn [snd fst] in El.
            cbn [annotation] in Ha. rewrite Ha in El. fold (lens a) in El.
            revert El. generalize (filter_map doc_of (place (o + lens a + len_of (Tok COMMENT t)) b)). intros l El.
            assert (exists y, last_opt ((o + lens a, (COMMENT, t)) :: l) = Some y) as (y & Ey).
            { generalize (o + lens a, (COMMENT, t)). clear. intros x. revert x. induction l as [|z l IH]; intros x; [exists x; reflexivity|]. destruct (IH z) as (y & Ey). exists y. exact Ey. }
            match type of El with match ?X with _ => _ end = _ => assert (E' : X = Some y) by exact Ey; rewrite E' in El end. discriminate.
          - apply blank_tok in Hbl. rewrite Forall_forall in Hbl. apply Hbl in He. discriminate. }
        rewrite A, Nat.add_0_r. reflexivity.
  Qed.
End Start.
Section Range.
  Variables (pre post : list (skind * str)) (m : method).
  Hypothesis Hok : method_ok m.
  Let front := me_front m.
  Let parts := me_head m ++ ending (me_end m).
  Let toks := file_leaves pre (method_tree m) post.
  Let o := bytes (text pre).

  Lemma parts_solid : begins_solid parts.
  Proof. destruct Hok as (_ & (t & r & E & Ht) & _). exists t, (r ++ leaves_of (ending (me_end m))). unfold parts. rewrite leaves_of_app, E. auto. Qed.
  Lemma parts_docs : no_docs parts.
  Proof. destruct Hok as (_ & _ & H & _). unfold parts, no_docs. apply Forall_app. split; [exact H|]. destruct (me_end m); cbn [ending]; constructor; try constructor; intros c [=]. Qed.
  Lemma parts_attr cs : ~ In (Node ATTR cs) parts.
  Proof. destruct Hok as (_ & _ & _ & H & _). unfold parts. intros C. apply in_app_or in C. destruct C as [C|C]; [exact (H cs C)|]. destruct (me_end m); cbn [ending] in C; destruct C as [C|[]]; discriminate. Qed.
  Lemma method_start : declaration_start toks (at_place pre (method_tree m)) = o + (if existsb annotation front then lens front else 0).
  Proof. apply (item_start pre post FN front parts (proj1 Hok) parts_solid parts_docs parts_attr). Qed.
  Lemma no_block_head : forallb (fun e => negb (node_of BLOCK_EXPR e)) (front ++ me_head m) = true.
  Proof.
    destruct Hok as (Hf & _ & _ & _ & H & _). apply forallb_forall. intros e He. apply Bool.negb_true_iff. unfold node_of. destruct e as [k t|k cs]; [reflexivity|]. cbn [is_tok negb andb kind_of].
    destruct (skind_eqb k BLOCK_EXPR) eqn:E; [|reflexivity]. apply skind_eqb_eq in E. subst k. apply in_app_or in He. destruct He as [He|He]; [|destruct (H cs He)].
    unfold front_only in Hf. rewrite Forall_forall in Hf. apply Hf in He. destruct He as [(? & E & _)|(? & ? & E & _)]; discriminate.
  Qed.
  Lemma no_semi_head : forallb (fun e => negb (tok_of SEMICOLON e)) (front ++ me_head m) = true.
  Proof.
    destruct Hok as (Hf & _ & _ & _ & _ & H). apply forallb_forall. intros e He. apply Bool.negb_true_iff. unfold tok_of. destruct e as [k t|k cs]; [|reflexivity]. cbn [is_tok negb andb kind_of].
    destruct (skind_eqb k SEMICOLON) eqn:E; [|reflexivity]. apply skind_eqb_eq in E. subst k. apply in_app_or in He. destruct He as [He|He]; [|destruct (H t He)].
    unfold front_only in Hf. rewrite Forall_forall in Hf. apply Hf in He. destruct He as [(? & E & _)|(? & ? & E & Ht & _)]; [discriminate|]. injection E as <- <-. discriminate.
  Qed.
  Lemma method_range : exists rg, fn_range toks (at_place pre (method_tree m)) = Done rg /\ marks pre (method_tree m) (leaves_of (signature m)) rg.
  Proof.
    set (MM := marks pre (method_tree m) (leaves_of (signature m))). unfold fn_range, fn_declaration_range. rewrite method_start.
    set (st := if existsb annotation front then lens front else 0). assert (Hst : st <= lens front) by (unfold st; destruct (existsb annotation front); lia).
    assert (M : MM (o + st, o + lens front + (lens (me_head m) + 1))).
    { unfold MM. exists (if existsb annotation front then leaves_of front else []), (match me_end m with WithBody l => leaves_of l | WithoutBody => [] end). split.
      - assert (X : leaves_of (ending (me_end m)) = leaves_of match me_end m with WithBody _ => [Tok L_CURLY (lit "{")] | WithoutBody => [Tok SEMICOLON (lit ";")] end
                    ++ match me_end m with WithBody l => leaves_of l | WithoutBody => [] end).
        { destruct (me_end m) as [l|]; cbn [ending]; [rewrite !leaves_one|]; reflexivity. }
        unfold method_tree, signature. fold front. rewrite leaves_node, !leaves_of_app, X. destruct (existsb annotation front); cbn [leaves_of flat_map app]; rewrite <- ?app_assoc; reflexivity.
      - unfold signature. fold front. rewrite !leaves_of_app, !text_app, !bytes_app, !bytes_texts. fold o.
        assert (L : lens match me_end m with WithBody _ => [Tok L_CURLY (lit "{")] | WithoutBody => [Tok SEMICOLON (lit ";")] end = 1) by (destruct (me_end m); reflexivity).
        rewrite L. unfold st. destruct (existsb annotation front); rewrite ?bytes_texts, ?lens_nil; change (bytes (text [])) with 0; f_equal; lia. }
    unfold at_place, method_tree. fold front. rewrite app_assoc.
    destruct (me_end m) as [l|] eqn:Ee; cbn [ending].
    - rewrite child_node_at by exact no_block_head. change [Node STMT_LIST (Tok L_CURLY (lit "{") :: l)] with ([] ++ Node STMT_LIST (Tok L_CURLY (lit "{") :: l) :: []).
      rewrite child_node_at by reflexivity. change (Tok L_CURLY (lit "{") :: l) with ([] ++ Tok L_CURLY (lit "{") :: l). rewrite child_token_at by reflexivity.
      unfold lf_end. cbn [fst snd]. change (bytes (lit "{")) with 1. rewrite !lens_nil, lens_app. fold o. unfold mk_range.
      rewrite (proj2 (Nat.leb_le _ _)) by lia. cbn [obind_o]. eexists. split; [reflexivity|].
      replace (o + (lens front + lens (me_head m)) + 0 + 0 + 1) with (o + lens front + (lens (me_head m) + 1)) by lia. exact M.
    - rewrite child_node_none; cycle 1. { rewrite forallb_app, no_block_head. reflexivity. }
      rewrite child_token_at by exact no_semi_head. cbn [option_map]. unfold lf_end. cbn [fst snd]. change (bytes (lit ";")) with 1. rewrite lens_app. fold o. unfold mk_range.
      rewrite (proj2 (Nat.leb_le _ _)) by lia. cbn [obind_o]. eexists. split; [reflexivity|].
      replace (o + (lens front + lens (me_head m)) + 1) with (o + lens front + (lens (me_head m) + 1)) by lia. exact M.
  Qed.
End Range.

(** ** Which functions *)
Lemma ink_attrs_In read m s : In s (ink_attrs read m) <-> exists cs, In (Node ATTR cs) (me_front m) /\ read (Node ATTR cs) = Some s.
Proof.
  unfold ink_attrs. rewrite filter_map_In. split.
  - intros (e & He & E). destruct e as [|k cs]; [discriminate|]. destruct k; try discriminate. exists cs. auto.
  - intros (cs & H & E). exists (Node ATTR cs). auto.
Qed.
Section Which.
  Variables (read : reader) (pre : list (skind * str)) (m : method).
  Hypothesis Hok : method_ok m.
  Lemma attrs_exist (f : lelem -> bool) (P : seen -> Prop) : (forall q e, f (q, e) = true <-> exists s, read e = Some s /\ P s) ->
    (existsb f (attrs_of read (at_place pre (method_tree m))) = true <-> exists s, In s (ink_attrs read m) /\ P s).
  Proof.
    intros Hf. unfold method_tree. rewrite attrs_at by (apply parts_attr; exact Hok). rewrite existsb_exists. split.
    - intros ([q e] & Hin & Hfe). apply filter_In in Hin. destruct Hin as [Hin Hink]. cbn [snd] in Hink. apply place_In in Hin. cbn [snd] in Hin.
      apply is_ink_true in Hink. destruct Hink as (cs & s & -> & Es). apply Hf in Hfe. destruct Hfe as (s' & Es' & HP). rewrite Es in Es'. injection Es' as <-.
      exists s. split; [|exact HP]. apply ink_attrs_In. exists cs. auto.
    - intros (s & Hs & HP). apply ink_attrs_In in Hs. destruct Hs as (cs & Hin & Es). apply in_split in Hin. destruct Hin as (a & b & E).
      exists (bytes (text pre) + lens a, Node ATTR cs). split; [|apply Hf; exists s; auto]. apply filter_In. split; [|cbn [snd]; apply is_ink_true; eauto].
      rewrite E, place_app. apply in_or_app. right. left. reflexivity.
  Qed.
  Lemma is_entity_spec k : is_entity read k (at_place pre (method_tree m)) = true <-> marked_as read k m.
  Proof.
    unfold is_entity, marked_as. apply attrs_exist. intros q e. rewrite attr_is_true. split.
    - intros (s & k' & E & Ek & [<-|[]]). exists s. auto.
    - intros (s & E & Ek). exists s, k. split; [exact E|]. split; [exact Ek | left; reflexivity].
  Qed.
  Lemma has_arg_spec k : has_arg read k (at_place pre (method_tree m)) = true <-> mentions read k m.
  Proof.
    unfold has_arg, mentions. apply attrs_exist. intros q e. cbn [snd]. destruct (read e) as [s|].
    - rewrite existsb_kind. split; [intros H; exists s; auto | intros (s' & [= <-] & H); exact H].
    - split; [discriminate | intros (s & E & _); discriminate].
  Qed.
End Which.

Lemma pigeon (used : list N) (max : N) : (forall m, (1 <= m <= max)%N -> In m used) -> (max <= N.of_nat (length used))%N.
Proof.
  intros H. set (l := map N.of_nat (seq 1 (N.to_nat max))).
  assert (ND : NoDup l). { apply FinFun.Injective_map_NoDup; [intros x y E; apply Nnat.Nat2N.inj, E | apply seq_NoDup]. }
  assert (I : incl l used). { intros x Hx. apply in_map_iff in Hx. destruct Hx as (n & <- & Hn). apply in_seq in Hn. apply H. lia. }
  pose proof (NoDup_incl_length ND I) as L. unfold l in L. rewrite map_length, seq_length in L. lia.
Qed.
Lemma next_id max used : (N.of_nat (length used) < max)%N ->
  exists id, suggest_unique_id_mut max None used = (Found id, id :: used) /\ least_free 1 max used id.
Proof.
  intros Hm. unfold suggest_unique_id_mut. pose proof (suggest_unique_id_spec max None used) as Hs. cbv zeta in Hs. assert (H1 : (1 <= max)%N) by lia. specialize (Hs H1).
  destruct (suggest_unique_id max None used) as [n| |].
  - exists n. auto.
  - apply pigeon in Hs. lia.
  - destruct Hs.
Qed.
Lemma wanted_eq v : id_kind v = wanted v. Proof. destruct v; reflexivity. Qed.
Lemma id_text v id : lit "#[ink(" ++ kind_name v ++ lit " = " ++ dec id ++ lit ")]" = id_attribute v id. Proof. destruct v; reflexivity. Qed.

Lemma dec_no_brace n : ~ In 125%N (dec n).
Proof. intros H. apply dec_range in H. lia. Qed.
Lemma id_snippet v id : fills (lit "#[ink(" ++ kind_name v ++ lit " = ${1:" ++ dec id ++ lit "})]") (id_attribute v id).
Proof.
  assert (E : lit "#[ink(" ++ kind_name v ++ lit " = ${1:" ++ dec id ++ lit "})]" = (lit "#[ink(" ++ kind_name v ++ lit " = ") ++ lit "${" ++ dec 1 ++ lit ":" ++ dec id ++ lit "}" ++ lit ")]").
  { rewrite <- !app_assoc. reflexivity. }
  assert (E' : id_attribute v id = (lit "#[ink(" ++ kind_name v ++ lit " = ") ++ dec id ++ lit ")]").
  { rewrite <- id_text, <- !app_assoc. reflexivity. }
  rewrite E, E'.
  apply fills_before; [destruct v; vm_compute; intuition discriminate|]. apply fills_hole; [apply dec_no_brace|]. apply fills_plain. vm_compute. intuition discriminate.
Qed.
Lemma edits_snippets read toks keep new snippet item : (forall s, snippet = Some s -> fills s new) ->
  Forall (fun e => match te_snippet e with Some s => fills s (te_text e) | None => True end) (attribute_edits read toks keep new snippet item).
Proof.
  intros H. unfold attribute_edits. constructor.
  - cbn [edit_insert_snippet te_snippet te_text]. destruct snippet as [s|]; [apply H; reflexivity | exact I].
  - apply Forall_forall. intros e He. apply in_map_iff in He. destruct He as (c & <- & _). exact I.
Qed.
Lemma fix_attributed read keep pre post m new snippet : method_ok m ->
  attributed read keep pre post m new (attribute_edits read (file_leaves pre (method_tree m) post) keep new snippet (at_place pre (method_tree m))).
Proof.
  intros Hok. destruct (edits_rewrite read keep pre post (me_front m) (me_head m ++ ending (me_end m)) new snippet (proj1 Hok) (parts_solid m Hok) (parts_attr m Hok)) as (a & b & s & E & Hp & Hk & HR).
  exists a, b, s. auto.
Qed.

Notation place3 := (list (skind * str) * method * list (skind * str))%type.
Definition the_method (p : place3) : method := let '(_, m, _) := p in m.
Section Functions.
  Variables (v : version) (read : reader) (toks : list (skind * str)).
  Lemma chain_fn_spec (p : place3) ids : in_place toks p -> (N.of_nat (length ids) < id_max v)%N ->
    exists id, least_free 1 (id_max v) ids id /\
      ((v = V5 /\ mentions read AExtension (the_method p) /\ chain_fn v read (place_leaves 0 toks) ids (placed_at p) = Done ([], id :: ids))
       \/ ((v = V5 -> ~ mentions read AExtension (the_method p))
           /\ exists d, chain_fn v read (place_leaves 0 toks) ids (placed_at p) = Done ([d], id :: ids)
              /\ method_reported CNotExtension read [wanted v; AHandleStatus] (id_attribute v id) p d)).
  Proof.
    destruct p as [[pre m] post]. intros [Et Hok] Hl. destruct (next_id _ _ Hl) as (id & Eid & Hid). exists id. split; [exact Hid|].
    unfold chain_fn, placed_at. rewrite Eid. cbv iota. rewrite (id_text v id), (wanted_eq v). rewrite Et. change (place_leaves 0 (pre ++ leaves (method_tree m) ++ post)) with (file_leaves pre (method_tree m) post).
    destruct (method_range pre post m Hok) as (rg & Er & HM). rewrite Er. cbn [obind_o the_method].
    assert (D : v = V5 /\ has_arg read AExtension (at_place pre (method_tree m)) = true
                \/ (v = V5 -> has_arg read AExtension (at_place pre (method_tree m)) = false)).
    { destruct v; [right; discriminate|]. destruct (has_arg _ _ _); auto. }
    destruct D as [[Ev D]|D].
    - left. split; [exact Ev|]. split; [apply (has_arg_spec read pre m Hok), D|]. rewrite Ev, D. reflexivity.
    - right. split; [intros Ev H; apply (has_arg_spec read pre m Hok) in H; rewrite (D Ev) in H; discriminate|].
      assert (F : match v with V4 => false | V5 => has_arg read AExtension (at_place pre (method_tree m)) end = false) by (destruct v; auto).
      rewrite F. eexists. split; [reflexivity|]. unfold method_reported. cbn [cd_rule cd_range cd_fix]. split; [reflexivity|]. split; [exact HM|]. eexists. split; [reflexivity|].
      split; [apply fix_attributed, Hok|]. apply edits_snippets. intros s [= <-]. apply id_snippet.
  Qed.
  Lemma chain_fns_spec (places : list place3) : forall ids, Forall (in_place toks) places -> (N.of_nat (length ids + length places) < id_max v)%N ->
    exists ds (rs : list (place3 * N)), chain_fns v read (place_leaves 0 toks) ids (map placed_at places) = Done ds
      /\ those (fun p => missing_id v read (the_method p)) places (map fst rs)
      /\ Forall2 (fun r d => method_reported CNotExtension read [wanted v; AHandleStatus] (id_attribute v (snd r)) (fst r) d) rs ds
      /\ NoDup (map snd rs) /\ (forall id, In id (map snd rs) -> (1 <= id <= id_max v)%N /\ ~ In id ids)
      /\ ((forall p, In p places -> v = V5 -> ~ mentions read AExtension (the_method p)) ->
          forall r1 p id r2 n, rs = r1 ++ (p, id) :: r2 -> (1 <= n < id)%N -> In n ids \/ In n (map snd r1)).
  Proof.
    induction places as [|p places IH]; intros ids Hp Hl.
    - exists [], []. split; [reflexivity|]. split; [constructor|]. split; [constructor|]. split; [constructor|]. split; [intros id []|]. intros _ r1 p id r2 n E. destruct r1; discriminate.
    - inversion Hp as [|? ? Hp1 Hp2]; subst. cbn [map chain_fns length] in *.
      assert (Ee : is_entity read (id_kind v) (placed_at p) = true <-> marked_as read (wanted v) (the_method p)).
      { rewrite wanted_eq. destruct p as [[pre m] post]. destruct Hp1 as [_ Hok]. apply is_entity_spec, Hok. }
      destruct (is_entity read (id_kind v) (placed_at p)) eqn:E.
      + destruct (IH ids Hp2) as (ds & rs & H1 & H2 & H3 & H4 & H5 & H6); [lia|]. exists ds, rs. split; [exact H1|]. split; [|split; [exact H3|split; [exact H4|split; [exact H5|]]]].
        * apply those_out; [|exact H2]. intros [C _]. apply C, Ee. reflexivity.
        * intros H. apply H6. intros q Hq. apply H. right. exact Hq.
      + destruct (chain_fn_spec p ids Hp1) as (id & (Hr & Hf & Hm) & Hcase); [lia|].
        destruct (IH (id :: ids) Hp2) as (ds & rs & H1 & H2 & H3 & H4 & H5 & H6); [cbn [length]; lia|].
        destruct Hcase as [(Ev & Hx & Ec)|(Hx & d & Ec & Hd)]; rewrite Ec; cbn [obind_o fst snd]; rewrite H1; cbn [obind_o app].
        * exists ds, rs. split; [reflexivity|]. split; [|split; [exact H3|split; [exact H4|split]]].
          -- apply those_out; [|exact H2]. intros [_ C]. exact (C Ev Hx).
          -- intros i Hi. destruct (H5 i Hi) as [A B]. split; [exact A|]. intros C. apply B. right. exact C.
          -- intros H. destruct (H p (or_introl eq_refl) Ev Hx).
        * exists (d :: ds), ((p, id) :: rs). split; [reflexivity|]. cbn [map fst snd]. split; [|split; [|split; [|split]]].
          -- apply those_in; [|exact H2]. split; [|exact Hx]. intros C. apply Ee in C. discriminate.
          -- constructor; [exact Hd | exact H3].
          -- constructor; [|exact H4]. intros C. destruct (H5 id C) as [_ B]. apply B. left. reflexivity.
          -- intros i [<-|Hi]; [auto|]. destruct (H5 i Hi) as [A B]. split; [exact A|]. intros C. apply B. right. exact C.
          -- intros H r1 q i r2 n Er Hn. destruct r1 as [|r r1].
             ++ injection Er as <- <- _. left. apply Hm, Hn.
             ++ injection Er as <- Er. cbn [map snd]. destruct (H6 (fun q Hq => H q (or_intror Hq)) r1 q i r2 n Er Hn) as [[<-|A]|A]; [right; left; reflexivity | left; exact A | right; right; exact A].
  Qed.
End Functions.

Lemma trait_fn_spec read pre m post : method_ok m ->
  (trait_fn read (file_leaves pre (method_tree m) post) (at_place pre (method_tree m)) = Done [] <-> marked_as read AMessage m)
  /\ (~ marked_as read AMessage m -> exists d, trait_fn read (file_leaves pre (method_tree m) post) (at_place pre (method_tree m)) = Done [d]
      /\ method_reported CNotMessage read [AMessage; ADefault; APayable; ASelector] (lit "#[ink(message)]") (pre, m, post) d).
Proof.
  intros Hok. unfold trait_fn. pose proof (is_entity_spec read pre m Hok AMessage) as Ee. destruct (method_range pre post m Hok) as (rg & Er & HM).
  destruct (is_entity read AMessage (at_place pre (method_tree m))).
  - split; [split; [intros _; apply Ee; reflexivity | reflexivity]|]. intros H. destruct H. apply Ee. reflexivity.
  - rewrite Er. cbn [obind_o]. split; [split; [discriminate | intros H; apply Ee in H; discriminate]|]. intros _. eexists. split; [reflexivity|].
    unfold method_reported. cbn [cd_rule cd_range cd_fix]. split; [reflexivity|]. split; [exact HM|]. eexists. split; [reflexivity|].
    split; [apply fix_attributed, Hok | apply edits_snippets; discriminate].
Qed.

(** ** Associated types *)
Section Cut.
  Variables (pre post : list (skind * str)) (K : skind) (cs a x b : list elem).
  Hypothesis E : cs = a ++ x ++ b.
  Let o := bytes (text pre).
  Lemma cut_marks : marks pre (Node K cs) (leaves_of x) (o + lens a, o + lens a + lens x).
  Proof.
    exists (leaves_of a), (leaves_of b). rewrite leaves_node, E, !leaves_of_app. split; [reflexivity|]. rewrite !text_app, !bytes_app, !bytes_texts. unfold o. rewrite !Nat.add_assoc. reflexivity.
  Qed.
  Lemma cut_effect e y p q : te_text e = texts_of y -> te_range e = (p, q) -> p = o + lens a -> q = o + lens a + lens x ->
    applied (in_file pre (Node K cs) post) e (in_file pre (Node K (a ++ y ++ b)) post).
  Proof.
    intros Et Er -> ->. rewrite !in_file_text, E, !texts_of_app. exists (text pre ++ texts_of a), (texts_of x), (texts_of b ++ text post). rewrite Er, Et. cbn [fst snd].
    split; [rewrite <- !app_assoc; reflexivity|]. rewrite !bytes_app. unfold lens, o. split; [reflexivity|]. split; [lia|]. rewrite <- !app_assoc. reflexivity.
  Qed.
End Cut.
Lemma only_front' l : front_only l -> only [ATTR] l.
Proof. intros H e He. unfold front_only in H. rewrite Forall_forall in H. destruct (H e He) as [(cs & -> & _)|(k & s & -> & Hk & _)]; [left; left; reflexivity | right; exact Hk]. Qed.
Lemma type_kind k t : is_type (kind_of t) = true -> is_type k = false -> skind_eqb k (kind_of t) = false.
Proof. intros H1 H2. destruct (skind_eqb k (kind_of t)) eqn:E; [|reflexivity]. apply skind_eqb_eq in E. rewrite E in H2. congruence. Qed.
Lemma only_no_type ks l q K : only ks l -> existsb is_type ks = false -> child_type (q, Node K l) = None.
Proof.
  intros H Hk. unfold child_type. cbn [snd fst]. destruct (find _ _) as [c|] eqn:F; [|reflexivity]. exfalso. apply find_some in F. destruct F as [Hin Hc]. apply place_In in Hin.
  apply andb_prop in Hc. destruct Hc as [_ Hc]. unfold lkind in Hc. destruct (H _ Hin) as [Hi|Hi].
  - assert (X : existsb is_type ks = true) by (apply existsb_exists; eauto). congruence.
  - destruct (kind_of (snd c)); discriminate.
Qed.
Definition lacks (k : skind) (l : list elem) : Prop := forall e, In e l -> kind_of e <> k.
Lemma lacks_app k a b : lacks k a -> lacks k b -> lacks k (a ++ b).
Proof. intros Ha Hb e He. apply in_app_or in He. destruct He; auto. Qed.
Lemma lacks_only ks l k : only ks l -> existsb (skind_eqb k) ks = false -> is_trivia k = false -> lacks k l.
Proof.
  intros H Hk Ht e He E. destruct (H e He) as [X|X]; [|congruence]. rewrite E in X. assert (C : existsb (skind_eqb k) ks = true) by (apply existsb_exists; exists k; split; [exact X | apply skind_eqb_refl]). congruence.
Qed.
Lemma lacks_tok k l : lacks k l -> forallb (fun e => negb (tok_of k e)) l = true.
Proof.
  intros H. apply forallb_forall. intros e He. apply Bool.negb_true_iff. unfold tok_of. apply Bool.andb_false_iff. right. destruct (skind_eqb (kind_of e) k) eqn:E; [|reflexivity]. apply skind_eqb_eq in E. destruct (H e He E).
Qed.
Lemma lacks_node k l : lacks k l -> forallb (fun e => negb (node_of k e)) l = true.
Proof.
  intros H. apply forallb_forall. intros e He. apply Bool.negb_true_iff. unfold node_of. apply Bool.andb_false_iff. right. destruct (skind_eqb (kind_of e) k) eqn:E; [|reflexivity]. apply skind_eqb_eq in E. destruct (H e He E).
Qed.

Definition semi_of (b : bool) : list elem := if b then [Tok SEMICOLON (lit ";")] else [].
Section Alias.
  Variables (pre post : list (skind * str)) (a : alias).
  Hypothesis Hok : alias_ok a.
  Let o := bytes (text pre).
  Let item := at_place pre (alias_tree a).
  Let A0 := al_front a ++ [Tok TYPE_KW (lit "type")].
  Let G := generics (al_generics a).
  Let B := bounds (al_bounds a).
  Let W := assigned (al_value a).
  Let S := semi_of (al_semi a).
  Lemma tree_eq : alias_tree a = Node TYPE_ALIAS (A0 ++ al_name a ++ G ++ al_gap a ++ B ++ W ++ S).
  Proof. unfold alias_tree, A0, G, B, W, S, semi_of. rewrite <- !app_assoc. reflexivity. Qed.
  Lemma only_A0 : only [ATTR; TYPE_KW] A0.
  Proof. destruct Hok as (H & _). apply (only_app [ATTR] [TYPE_KW]); [apply only_front', H | apply (only_cons [] (Tok TYPE_KW (lit "type"))), only_nil]. Qed.
  Lemma only_N : only [NAME] (al_name a).
  Proof. destruct Hok as (_ & [H|H] & _); [|apply only_name, H]. intros e He. right. destruct (only_blank _ H e He) as [[]|H']; exact H'. Qed.
  Lemma only_B : only [COLON; TYPE_BOUND_LIST] B.
  Proof.
    destruct Hok as (_ & _ & _ & H & _). unfold B. destruct (al_bounds a) as [[[g cs] h]|]; [|intros e []]. destruct H as [Hg Hh]. cbn [bounds].
    apply (only_cons [TYPE_BOUND_LIST] (Tok COLON (lit ":"))), (only_app [] [TYPE_BOUND_LIST]); [apply only_blank, Hg|]. apply (only_cons [] (Node TYPE_BOUND_LIST cs)), only_blank, Hh.
  Qed.
  Lemma only_W k : is_type k = false -> k <> EQ -> is_trivia k = false -> lacks k W.
  Proof.
    intros H1 H2 H3 e He. destruct Hok as (_ & _ & _ & _ & H). unfold W in He. destruct (al_value a) as [[[g t] h]|]; [|destruct He]. cbn [assigned] in He. destruct H as (Hg & Hh & Ht).
    destruct He as [<-|He]; [cbn; congruence|]. apply in_app_or in He. destruct He as [He|He]; [destruct (only_blank _ Hg e He) as [[]|X]; congruence|].
    apply in_app_or in He. destruct He as [He|He]; [|destruct (only_blank _ Hh e He) as [[]|X]; congruence].
    destruct t as [t|]; [|destruct He]. destruct He as [<-|[]]. destruct Ht as [_ Ht]. congruence.
  Qed.
  Lemma only_S : only [SEMICOLON] S.
  Proof. unfold S, semi_of. destruct (al_semi a); [apply (only_cons [] (Tok SEMICOLON (lit ";"))), only_nil | intros e []]. Qed.
  Lemma only_gap : only [] (al_gap a). Proof. apply only_blank, Hok. Qed.
  Hypothesis Hname : name_ok (al_name a).
  Definition good (r : crule) (res : list cdiag) : Prop :=
    (res = [] /\ ~ alias_wrong a r)
    \/ exists d, res = [d] /\ cd_rule d = r /\ alias_wrong a r /\ ok_marks pre a d /\ (fixable a r -> ok_fix pre post a d).

  Ltac lk := repeat match goal with |- lacks _ (_ ++ _) => apply lacks_app end; first
    [ eapply lacks_only; [first [apply only_A0 | apply only_N | apply only_generics | apply only_gap | apply only_B | apply only_S | apply only_blank; assumption | apply only_nil] | reflexivity | reflexivity]
    | apply only_W; [reflexivity | discriminate | reflexivity] ].

  Lemma name_of : exists g n h, al_name a = g ++ Node NAME [Tok IDENT n] :: h /\ blank g /\ blank h
    /\ child_node NAME item = Some (o + lens (A0 ++ g), Node NAME [Tok IDENT n]).
  Proof.
    destruct Hname as (g & n & h & E & Hg & Hh & _). exists g, n, h. split; [exact E|]. split; [exact Hg|]. split; [exact Hh|].
    unfold item, at_place. rewrite tree_eq, E. rewrite <- app_assoc, app_assoc. cbn [app]. apply child_node_at. apply lacks_node. lk.
  Qed.
  Lemma blank_no_node g k cs r g' : blank g -> blank g' -> forall k' cs' r', g ++ Node k cs :: r = g' ++ Node k' cs' :: r' -> g = g' /\ Node k cs = Node k' cs' /\ r = r'.
  Proof.
    intros H. revert g'. induction H as [|e g (ke & t & -> & _) _ IH]; intros g' Hg' k' cs' r' E.
    - destruct Hg' as [|e' g' (ke' & t' & -> & _) _]; cbn [app] in E; [injection E as -> -> ->; auto | discriminate].
    - destruct Hg' as [|e' g' (ke' & t' & -> & _) Hg']; cbn [app] in E; [discriminate|]. injection E as -> -> E. destruct (IH g' Hg' _ _ _ E) as (-> & X & ->). auto.
  Qed.
  Lemma good_name toks tr : exists l, alias_name toks tr item = Done l /\ good CName l.
  Proof.
    destruct name_of as (g & n & h & E & Hg & Hh & Ec). unfold alias_name, is_error_code, node_name. rewrite Ec. cbn [option_map snd]. rewrite text_of_node. unfold texts_of at 1. cbn [flat_map text_of]. rewrite app_nil_r.
    destruct (str_eqb n ERROR_CODE) eqn:En.
    - exists []. split; [reflexivity|]. left. split; [reflexivity|]. apply str_eqb_eq in En. subst n. intros H. inversion H as [X| | |]. apply X. exists g, h. auto.
    - eexists. split; [reflexivity|]. right. eexists. split; [reflexivity|]. cbn [cd_rule]. split; [reflexivity|]. 
      assert (Et : A0 ++ al_name a ++ G ++ al_gap a ++ B ++ W ++ S = (A0 ++ g) ++ [Node NAME [Tok IDENT n]] ++ h ++ G ++ al_gap a ++ B ++ W ++ S).
      { rewrite E. rewrite <- !app_assoc. cbn [app]. reflexivity. }
      split; [|split].
      + apply aw_name. intros (g' & h' & E' & Hg' & _). rewrite E in E'. destruct (blank_no_node _ _ _ _ _ Hg Hg' _ _ _ E') as (_ & X & _). injection X as ->. rewrite str_eqb_refl in En. discriminate.
      + exists (leaves_of [Node NAME [Tok IDENT n]]). split; [apply (am_name a n); exists g, h; auto|]. rewrite tree_eq. cbn [cd_range]. unfold lrange_of, lstart, lend. cbn [fst snd].
        replace (len_of (Node NAME [Tok IDENT n])) with (lens [Node NAME [Tok IDENT n]]) by (rewrite lens_cons, lens_nil; lia). exact (cut_marks pre TYPE_ALIAS _ _ _ _ Et).
      + intros _. eexists _, _. split; [reflexivity|]. split; [apply (af_name a n g h E Hg Hh)|]. split; [|constructor; [exact I | constructor]]. eexists. split; [reflexivity|].
        rewrite tree_eq. unfold alias_tree. cbn [al_front al_name al_generics al_gap al_bounds al_value al_semi].
        pose proof (cut_effect pre post TYPE_ALIAS _ _ _ _ Et (edit_replace ERROR_CODE (lrange_of (o + lens (A0 ++ g), Node NAME [Tok IDENT n]))) [Node NAME [Tok IDENT (lit "ErrorCode")]] _ _ eq_refl eq_refl eq_refl) as H.
        replace (lend (o + lens (A0 ++ g), Node NAME [Tok IDENT n])) with (o + lens (A0 ++ g) + lens [Node NAME [Tok IDENT n]]) in H by (rewrite lens_cons, lens_nil; unfold lend; cbn [fst snd]; lia).
        specialize (H eq_refl). refine (eq_ind _ (fun x => applied _ _ (in_file pre (Node TYPE_ALIAS x) post)) H _ _).
        unfold A0, G, B, W, S, semi_of. rewrite <- !app_assoc. cbn [app]. rewrite <- ?app_assoc. reflexivity.
  Qed.
  Lemma good_generics : exists l, as_cdiags CGenerics (no_generics item) = Done l /\ good CGenerics l.
  Proof.
    unfold no_generics. assert (Q : (exists cs, al_generics a = Some cs) \/ al_generics a = None) by (clear; destruct (al_generics a); eauto). destruct Q as [[cs Eg]|Eg].
    - assert (Et : A0 ++ al_name a ++ G ++ al_gap a ++ B ++ W ++ S = (A0 ++ al_name a) ++ [Node GENERIC_PARAM_LIST cs] ++ al_gap a ++ B ++ W ++ S).
      { unfold G; rewrite ?Eg. cbn [generics]. rewrite <- !app_assoc. reflexivity. }
      assert (Ec : child_node GENERIC_PARAM_LIST item = Some (o + lens (A0 ++ al_name a), Node GENERIC_PARAM_LIST cs)).
      { unfold item, at_place. rewrite tree_eq, Et. cbn [app]. apply child_node_at. apply lacks_node. lk. }
      rewrite Ec. eexists. split; [reflexivity|]. right. eexists. split; [reflexivity|]. cbn [cd_rule]. split; [reflexivity|]. split; [apply (aw_generics a cs Eg)|].
      assert (Er : lend (o + lens (A0 ++ al_name a), Node GENERIC_PARAM_LIST cs) = o + lens (A0 ++ al_name a) + lens [Node GENERIC_PARAM_LIST cs]) by (rewrite lens_cons, lens_nil; unfold lend; cbn [fst snd]; lia).
      split.
      + exists (leaves_of [Node GENERIC_PARAM_LIST cs]). split; [rewrite leaves_one; apply (am_generics a cs Eg)|]. rewrite tree_eq. cbn [cd_range rd_range RuleModel.one_fix]. unfold lrange_of. rewrite Er. exact (cut_marks pre TYPE_ALIAS _ _ _ _ Et).
      + intros _. eexists _, _. split; [reflexivity|]. split; [apply af_generics|]. split; [|constructor; [exact I | constructor]]. eexists. split; [reflexivity|].
        rewrite tree_eq. unfold alias_tree. cbn [al_front al_name al_generics al_gap al_bounds al_value al_semi].
        pose proof (cut_effect pre post TYPE_ALIAS _ _ _ _ Et (edit_delete (lrange_of (o + lens (A0 ++ al_name a), Node GENERIC_PARAM_LIST cs))) [] _ _ eq_refl eq_refl eq_refl Er) as H.
        refine (eq_ind _ (fun x => applied _ _ (in_file pre (Node TYPE_ALIAS x) post)) H _ _).
        unfold A0, B, W, S, semi_of. cbn [generics]. rewrite <- !app_assoc. cbn [app]. rewrite <- ?app_assoc. reflexivity.
    - assert (Ec : child_node GENERIC_PARAM_LIST item = None).
      { unfold item, at_place. rewrite tree_eq. apply child_node_none, lacks_node. unfold G; rewrite ?Eg. cbn [generics]. lk. }
      rewrite Ec. exists []. split; [reflexivity|]. left. split; [reflexivity|]. intros H. inversion H as [|cs X| |]. congruence.
  Qed.
  Lemma good_bounds : exists l, as_cdiags CBounds (no_supertraits item) = Done l /\ good CBounds l.
  Proof.
    unfold no_supertraits. assert (Q : (exists g cs h, al_bounds a = Some (g, cs, h)) \/ al_bounds a = None) by (clear; destruct (al_bounds a) as [[[? ?] ?]|]; eauto). destruct Q as [(g & cs & h & Eb)|Eb].
    - pose proof Hok as (_ & _ & _ & Hgh & _). rewrite Eb in Hgh. destruct Hgh as [Hg Hh].
      assert (Et : A0 ++ al_name a ++ G ++ al_gap a ++ B ++ W ++ S = (A0 ++ al_name a ++ G ++ al_gap a) ++ (Tok COLON (lit ":") :: g ++ [Node TYPE_BOUND_LIST cs]) ++ h ++ W ++ S).
      { unfold B; rewrite ?Eb. cbn [bounds]. rewrite <- !app_assoc. cbn [app]. rewrite <- !app_assoc. reflexivity. }
      assert (E1 : child_token COLON item = Some (o + lens (A0 ++ al_name a ++ G ++ al_gap a), (COLON, lit ":"))).
      { unfold item, at_place. rewrite tree_eq, Et. cbn [app]. apply child_token_at. apply lacks_tok. lk. }
      assert (E2 : child_node TYPE_BOUND_LIST item = Some (o + lens ((A0 ++ al_name a ++ G ++ al_gap a) ++ Tok COLON (lit ":") :: g), Node TYPE_BOUND_LIST cs)).
      { unfold item, at_place. rewrite tree_eq, Et. replace ((A0 ++ al_name a ++ G ++ al_gap a) ++ (Tok COLON (lit ":") :: g ++ [Node TYPE_BOUND_LIST cs]) ++ h ++ W ++ S)
          with (((A0 ++ al_name a ++ G ++ al_gap a) ++ Tok COLON (lit ":") :: g) ++ Node TYPE_BOUND_LIST cs :: h ++ W ++ S) by (rewrite <- !app_assoc; cbn [app]; rewrite <- !app_assoc; reflexivity).
        apply child_node_at. apply lacks_node. apply lacks_app; [lk|]. intros e [<-|He]; [discriminate|]. eapply lacks_only; [apply only_blank, Hg | reflexivity | reflexivity | exact He]. }
      rewrite E1, E2. unfold lf_start. cbn [fst].
      assert (Er : lend (o + lens ((A0 ++ al_name a ++ G ++ al_gap a) ++ Tok COLON (lit ":") :: g), Node TYPE_BOUND_LIST cs)
                   = o + lens (A0 ++ al_name a ++ G ++ al_gap a) + lens (Tok COLON (lit ":") :: g ++ [Node TYPE_BOUND_LIST cs])).
      { unfold lend. cbn [fst snd]. repeat (rewrite lens_app || rewrite lens_cons || rewrite lens_nil). lia. }
      rewrite Er. unfold mk_range. rewrite (proj2 (Nat.leb_le _ _)) by lia. cbn [obind_o]. eexists. split; [reflexivity|]. right. eexists. split; [reflexivity|]. cbn [cd_rule]. split; [reflexivity|]. split; [apply (aw_bounds a _ Eb)|].
      split.
      + eexists. split; [apply (am_bounds a g cs h Eb)|]. rewrite tree_eq. cbn [cd_range rd_range RuleModel.one_fix]. exact (cut_marks pre TYPE_ALIAS _ _ _ _ Et).
      + intros _. eexists _, _. split; [reflexivity|]. split; [apply (af_bounds a g cs h Eb)|]. split; [|constructor; [exact I | constructor]]. eexists. split; [reflexivity|].
        rewrite tree_eq. unfold alias_tree. cbn [al_front al_name al_generics al_gap al_bounds al_value al_semi].
        pose proof (cut_effect pre post TYPE_ALIAS _ _ _ _ Et (edit_delete (o + lens (A0 ++ al_name a ++ G ++ al_gap a), o + lens (A0 ++ al_name a ++ G ++ al_gap a) + lens (Tok COLON (lit ":") :: g ++ [Node TYPE_BOUND_LIST cs]))) [] _ _ eq_refl eq_refl eq_refl eq_refl) as H.
        refine (eq_ind _ (fun x => applied _ _ (in_file pre (Node TYPE_ALIAS x) post)) H _ _).
        unfold A0, G, W, S, semi_of. cbn [bounds]. rewrite <- !app_assoc. cbn [app]. rewrite <- ?app_assoc. reflexivity.
    - assert (Ec : child_node TYPE_BOUND_LIST item = None).
      { unfold item, at_place. rewrite tree_eq. apply child_node_none, lacks_node. unfold B; rewrite ?Eb. cbn [bounds]. lk. }
      rewrite Ec. exists []. split; [reflexivity|]. left. split; [reflexivity|]. intros H. inversion H as [| |w X|]. congruence.
  Qed.
  Lemma good_type : good CNoType (alias_type item).
  Proof.
    unfold alias_type.
    assert (Q : (exists g t h, al_value a = Some (g, Some t, h)) \/ (exists g h, al_value a = Some (g, None, h)) \/ al_value a = None) by (clear; destruct (al_value a) as [[[g [t|]] h]|]; eauto 6).
    destruct Q as [(g & t & h & Ev)|Q].
    - pose proof Hok as (_ & _ & _ & _ & Hv). rewrite Ev in Hv. destruct Hv as (Hg & Hh & Ht1 & Ht2).
      assert (Et : A0 ++ al_name a ++ G ++ al_gap a ++ B ++ W ++ S = (A0 ++ al_name a ++ G ++ al_gap a ++ B ++ Tok EQ (lit "=") :: g) ++ t :: h ++ S).
      { unfold W; rewrite ?Ev. cbn [assigned]. repeat (rewrite <- ?app_assoc; cbn [app]). reflexivity. }
      assert (Ec : child_type item = Some (o + lens (A0 ++ al_name a ++ G ++ al_gap a ++ B ++ Tok EQ (lit "=") :: g), t)).
      { unfold item, at_place. rewrite tree_eq, Et. apply type_found; [exact Ht1 | exact Ht2 |].
        assert (O : only ([ATTR; TYPE_KW] ++ [NAME] ++ [GENERIC_PARAM_LIST] ++ [] ++ [COLON; TYPE_BOUND_LIST] ++ EQ :: []) (A0 ++ al_name a ++ G ++ al_gap a ++ B ++ Tok EQ (lit "=") :: g)).
        { repeat apply only_app; [apply only_A0 | apply only_N | apply only_generics | apply only_gap | apply only_B |]. apply (only_cons [] (Tok EQ (lit "="))), only_blank, Hg. }
        apply Forall_forall. intros e He. right. destruct (O e He) as [X|X]; [cbn [app In] in X; decompose [or] X; try contradiction; match goal with E : _ = kind_of e |- _ => rewrite <- E end; reflexivity|].
        destruct (kind_of e); try reflexivity; discriminate. }
      rewrite Ec. cbn [is_some]. left. split; [reflexivity|]. intros H. inversion H as [| | |X]. exact (X g t h Ev).
    - assert (Nt : forall g t h, al_value a <> Some (g, Some t, h)) by (clear - Q; intros g t h E; destruct Q as [(g' & h' & Q)|Q]; congruence).
      assert (O : only ([ATTR; TYPE_KW] ++ [NAME] ++ [GENERIC_PARAM_LIST] ++ [] ++ [COLON; TYPE_BOUND_LIST] ++ [EQ] ++ [SEMICOLON]) (A0 ++ al_name a ++ G ++ al_gap a ++ B ++ W ++ S)).
      { repeat apply only_app; [apply only_A0 | apply only_N | apply only_generics | apply only_gap | apply only_B | | apply only_S].
        pose proof Hok as (_ & _ & _ & _ & Hv). unfold W. destruct Q as [(g & h & Ev)|Ev]; rewrite ?Ev in *; [|intros e []]. destruct Hv as (Hg & Hh & _). cbn [assigned]. apply (only_cons [] (Tok EQ (lit "="))). cbn [app].
        apply (only_app [] []); apply only_blank; assumption. }
      assert (Ec : child_type item = None) by (unfold item, at_place; rewrite tree_eq; apply (only_no_type _ _ _ _ O); reflexivity).
      rewrite Ec. cbn [is_some]. right. eexists. split; [reflexivity|]. cbn [cd_rule]. split; [reflexivity|]. split; [apply aw_type, Nt|]. split.
      { exists (leaves (alias_tree a)). split; [apply am_type|]. cbn [cd_range]. unfold marks. exists [], []. rewrite app_nil_r. split; [reflexivity|]. unfold lrange_of, lstart, lend, item, at_place. cbn [fst snd]. rewrite !app_nil_r.
        cbn [app]. rewrite text_app, bytes_app, text_leaves. reflexivity. }
      intros Hfix. specialize (Hfix eq_refl).
      assert (Semi : al_semi a = true -> child_token SEMICOLON item = Some (o + lens (A0 ++ al_name a ++ G ++ al_gap a ++ B ++ W), (SEMICOLON, lit ";"))).
      { intros Es. unfold item, at_place. rewrite tree_eq. replace (A0 ++ al_name a ++ G ++ al_gap a ++ B ++ W ++ S) with ((A0 ++ al_name a ++ G ++ al_gap a ++ B ++ W) ++ Tok SEMICOLON (lit ";") :: []).
        2: { unfold S, semi_of; rewrite Es. rewrite <- !app_assoc. reflexivity. }
        apply child_token_at, lacks_tok. lk. }
      assert (NoSemi : al_semi a = false -> child_token SEMICOLON item = None).
      { intros Es. unfold item, at_place. rewrite tree_eq. apply child_token_none, lacks_tok. unfold S, semi_of; rewrite Es. lk. }
      assert (NoEq : al_value a = None -> child_token EQ item = None).
      { intros Ev. unfold item, at_place. rewrite tree_eq. apply child_token_none, lacks_tok. unfold W; rewrite Ev. cbn [assigned]. lk. }
      assert (HasEq : forall g h, al_value a = Some (g, None, h) -> child_token EQ item = Some (o + lens (A0 ++ al_name a ++ G ++ al_gap a ++ B), (EQ, lit "="))).
      { intros g h Ev. unfold item, at_place. rewrite tree_eq. replace (A0 ++ al_name a ++ G ++ al_gap a ++ B ++ W ++ S) with ((A0 ++ al_name a ++ G ++ al_gap a ++ B) ++ Tok EQ (lit "=") :: g ++ h ++ S).
        2: { unfold W; rewrite Ev. cbn [assigned]. repeat (rewrite <- ?app_assoc; cbn [app]). reflexivity. }
        apply child_token_at, lacks_tok. lk. }
      destruct Q as [(g & h & Ev)|Ev].
      + rewrite (HasEq g h Ev). cbn [is_some option_map oor or_else app].
        assert (Et : A0 ++ al_name a ++ G ++ al_gap a ++ B ++ W ++ S = (A0 ++ al_name a ++ G ++ al_gap a ++ B ++ [Tok EQ (lit "=")]) ++ [] ++ g ++ h ++ S).
        { unfold W; rewrite ?Ev. cbn [assigned]. repeat (rewrite <- ?app_assoc; cbn [app]). reflexivity. }
        assert (El : forall x, lf_end (o + lens (A0 ++ al_name a ++ G ++ al_gap a ++ B), (EQ, lit "=")) = o + lens (A0 ++ al_name a ++ G ++ al_gap a ++ B ++ [Tok EQ (lit "=")]) + x - x).
        { intros x. unfold lf_end. cbn [fst snd]. repeat (rewrite lens_app || rewrite lens_cons || rewrite lens_nil). unfold len_of. cbn [text_of]. lia. }
        specialize (El 0). rewrite Nat.add_0_r, Nat.sub_0_r in El. rewrite El.
        eexists _, _. split; [reflexivity|]. cbn [cd_rule]. split; [apply (af_value a g h Ev); clear - Hfix Ev; intros Es; destruct Hfix as [X|X]; [congruence | rewrite Ev in X; injection X as -> ->; auto]|].
        assert (Q2 : al_semi a = true \/ (al_semi a = false /\ g = [] /\ h = [])).
        { clear - Hfix Ev. destruct Hfix as [X|X]; [auto|]. rewrite Ev in X. injection X as -> ->. destruct (al_semi a); auto. }
        destruct Q2 as [Es|(Es & Eg & Eh)].
        * rewrite (Semi Es). cbn [is_some app]. split; [|constructor; [cbn [te_snippet te_text edit_insert_snippet]; apply (fills_hole 1 (lit "()") [] []); [vm_compute; intuition discriminate | constructor] | constructor]].
          eexists. split; [reflexivity|]. rewrite tree_eq. unfold alias_tree. cbn [al_front al_name al_generics al_gap al_bounds al_value al_semi].
          pose proof (cut_effect pre post TYPE_ALIAS _ _ _ _ Et (edit_insert_snippet (lit "()") (o + lens (A0 ++ al_name a ++ G ++ al_gap a ++ B ++ [Tok EQ (lit "=")])) (Some (lit "${1:()}"))) [UNIT_TYPE] _ _ eq_refl eq_refl eq_refl) as H.
          rewrite lens_nil, Nat.add_0_r in H. specialize (H eq_refl). refine (eq_ind _ (fun x => applied _ _ (in_file pre (Node TYPE_ALIAS x) post)) H _ _).
          unfold A0, G, B, S, semi_of; rewrite Es. cbn [assigned]. repeat (rewrite <- ?app_assoc; cbn [app]). reflexivity.
        * rewrite (NoSemi Es). cbn [is_some app]. subst g h.
          assert (Et2 : A0 ++ al_name a ++ G ++ al_gap a ++ B ++ W ++ S = (A0 ++ al_name a ++ G ++ al_gap a ++ B ++ [Tok EQ (lit "=")]) ++ [] ++ []).
          { rewrite Et. unfold S, semi_of; rewrite Es. reflexivity. }
          split; [|constructor; [cbn [te_snippet te_text edit_insert_snippet]; apply (fills_hole 1 (lit "()") (lit ";") (lit ";")); [vm_compute; intuition discriminate | apply fills_char; [discriminate | constructor]] | constructor]].
          eexists. split; [reflexivity|]. rewrite tree_eq. unfold alias_tree. cbn [al_front al_name al_generics al_gap al_bounds al_value al_semi].
          pose proof (cut_effect pre post TYPE_ALIAS _ _ _ _ Et2 (edit_insert_snippet (lit "()" ++ lit ";") (o + lens (A0 ++ al_name a ++ G ++ al_gap a ++ B ++ [Tok EQ (lit "=")])) (Some (lit "${1:()}" ++ lit ";"))) [UNIT_TYPE; Tok SEMICOLON (lit ";")] _ _ eq_refl eq_refl eq_refl) as H.
          rewrite lens_nil, Nat.add_0_r in H. specialize (H eq_refl). refine (eq_ind _ (fun x => applied _ _ (in_file pre (Node TYPE_ALIAS x) post)) H _ _).
          unfold A0, G, B. cbn [assigned]. repeat (rewrite <- ?app_assoc; cbn [app]). reflexivity.
      + rewrite (NoEq Ev). assert (Es : al_semi a = true) by (clear - Hfix Ev; destruct Hfix as [X|X]; congruence). rewrite (Semi Es). cbn [is_some option_map oor or_else app lf_start fst].
        assert (Et : A0 ++ al_name a ++ G ++ al_gap a ++ B ++ W ++ S = (A0 ++ al_name a ++ G ++ al_gap a ++ B ++ W) ++ [] ++ S) by (cbn [app]; rewrite <- !app_assoc; reflexivity).
        pose proof (cut_effect pre post TYPE_ALIAS _ _ _ _ Et (edit_insert_snippet (lit " = ()") (o + lens (A0 ++ al_name a ++ G ++ al_gap a ++ B ++ W)) (Some (lit " = ${1:()}"))) [sp; Tok EQ (lit "="); sp; UNIT_TYPE] _ _ eq_refl eq_refl eq_refl) as H.
        rewrite lens_nil, Nat.add_0_r in H. specialize (H eq_refl).
        assert (Sn : Forall (fun e => match te_snippet e with Some s => fills s (te_text e) | None => True end) [edit_insert_snippet (lit " = ()") (o + lens (A0 ++ al_name a ++ G ++ al_gap a ++ B ++ W)) (Some (lit " = ${1:()}"))]).
        { constructor; [|constructor]. cbn [te_snippet te_text edit_insert_snippet]. apply (fills_before (lit " = ") (lit "()") (lit "${1:()}")); [vm_compute; intuition discriminate|].
          apply (fills_hole 1 (lit "()") [] []); [vm_compute; intuition discriminate | constructor]. }
        assert (Q2 : (exists g cs h, al_bounds a = Some (g, cs, h)) \/ al_bounds a = None) by (clear; destruct (al_bounds a) as [[[? ?] ?]|]; eauto).
        destruct Q2 as [(g & cs & h & Eb)|Eb].
        * eexists _, _. split; [reflexivity|]. cbn [cd_rule]. split; [apply (af_assign_bounds a g cs h Ev Eb Es)|]. split; [|exact Sn]. eexists. split; [reflexivity|]. rewrite tree_eq. unfold alias_tree. cbn [al_front al_name al_generics al_gap al_bounds al_value al_semi].
          refine (eq_ind _ (fun x => applied _ _ (in_file pre (Node TYPE_ALIAS x) post)) H _ _).
          unfold A0, G, B, W, S, semi_of; rewrite Es, Ev, Eb. cbn [assigned bounds]. repeat (rewrite <- ?app_assoc; cbn [app]). reflexivity.
        * eexists _, _. split; [reflexivity|]. cbn [cd_rule]. split; [apply (af_assign a Ev Eb Es)|]. split; [|exact Sn]. eexists. split; [reflexivity|]. rewrite tree_eq. unfold alias_tree. cbn [al_front al_name al_generics al_gap al_bounds al_value al_semi].
          refine (eq_ind _ (fun x => applied _ _ (in_file pre (Node TYPE_ALIAS x) post)) H _ _).
          unfold A0, G, B, W, S, semi_of; rewrite Es, Ev, Eb. cbn [assigned bounds]. repeat (rewrite <- ?app_assoc; cbn [app]). reflexivity.
  Qed.
End Alias.
(** *** The quantity of error codes *)
Lemma front_no_list front : front_only front -> heads ASSOC_ITEM_LIST front.
Proof. intros H cs Hin. unfold front_only in H. rewrite Forall_forall in H. destruct (H _ Hin) as [(c & [=] & _)|(k & s & [=] & _)]. Qed.
Lemma is_error_code_spec q e : is_tok e = false -> (is_error_code (q, e) = true <-> exists k cs, e = Node k cs /\ named cs (lit "ErrorCode")).
Proof.
  intros Ht. destruct e as [k s|k cs]; [discriminate|]. unfold is_error_code. pose proof (node_name_spec q k cs) as H. destruct (node_name (q, Node k cs)) as [n|] eqn:E.
  - split.
    + intros En. apply str_eqb_eq in En. subst n. exists k, cs. split; [reflexivity|]. apply (proj1 (H _) eq_refl).
    + intros (k' & cs' & Ee & Hn). injection Ee as <- <-. assert (X : Some n = Some (lit "ErrorCode")) by (apply H; exact Hn). injection X as ->. apply str_eqb_refl.
  - split; [discriminate|]. intros (k' & cs' & Ee & Hn). injection Ee as <- <-. assert (X : None = Some (lit "ErrorCode")) by (apply H; exact Hn). discriminate.
Qed.
Definition is_code (c : lelem) : bool := assoc_node (snd c) && (skind_eqb (lkind c) TYPE_ALIAS && is_error_code c).
Lemma is_code_spec c : is_code c = true <-> error_code (snd c).
Proof.
  destruct c as [q e]. unfold is_code, error_code, lkind, assoc_node. cbn [snd]. destruct (is_tok e) eqn:Et.
  - cbn [negb andb]. split; [discriminate|]. intros (cs & -> & _). discriminate.
  - cbn [negb andb]. pose proof (is_error_code_spec q e Et) as H. rewrite !Bool.andb_true_iff, H. split.
    + intros (_ & Hk & k & cs & -> & Hn). apply skind_eqb_eq in Hk. cbn [kind_of] in Hk. subst k. exists cs. auto.
    + intros (cs & -> & Hn). split; [reflexivity|]. split; [reflexivity|]. exists TYPE_ALIAS, cs. auto.
Qed.
Section Quantity.
  Variables (pre post : list (skind * str)) (head tail : list elem).
  Let o := bytes (text pre) + lens head + 1.
  Definition second (c : lelem) : cdiag := CDiag CSecondErrorCode (lrange_of c) (Some [edit_delete (lrange_of c)]).
  Lemma second_ok a e b : superfluous pre post head tail (a, e, b) (second (o + lens a, e)).
  Proof.
    unfold superfluous, second. cbn [cd_rule cd_range cd_fix]. split; [reflexivity|].
    assert (E1 : bytes (text pre ++ texts_of head ++ lit "{" ++ texts_of a) = o + lens a).
    { rewrite !bytes_app. fold (lens head) (lens a). change (bytes (lit "{")) with 1. unfold o. lia. }
    split; [rewrite (bytes_app _ (text_of e)), E1; reflexivity|]. eexists. split; [reflexivity|]. eexists. split; [reflexivity|]. unfold applied. cbn [te_range te_text edit_delete].
    eexists _, _, _. split; [reflexivity|]. split; [exact E1|]. split; [unfold lrange_of, lend, len_of; cbn [fst snd]; rewrite bytes_app, E1; reflexivity|]. reflexivity.
  Qed.
  Lemma more_codes l : forall a, exists ps, later error_code true a l ps
    /\ Forall2 (superfluous pre post head tail) ps (map second (filter is_code (place (o + lens a) l))).
  Proof.
    induction l as [|e l IH]; intros a; [exists []; split; constructor|]. destruct (IH (a ++ [e])) as (ps & H1 & H2).
    rewrite lens_app, lens_cons, lens_nil, Nat.add_0_r, Nat.add_assoc in H2. cbn [place filter].
    pose proof (is_code_spec (o + lens a, e)) as Hs. cbn [snd] in Hs. destruct (is_code (o + lens a, e)).
    - exists ((a, e, l) :: ps). split; [apply later_more; [apply Hs; reflexivity | exact H1]|]. cbn [map]. constructor; [apply second_ok | exact H2].
    - exists ps. split; [apply later_other; [intros C; apply Hs in C; discriminate | exact H1] | exact H2].
  Qed.
  Lemma first_code l : forall a, match filter is_code (place (o + lens a) l) with
    | [] => forall e, In e l -> ~ error_code e
    | _ :: more => (exists e, In e l /\ error_code e) /\ exists ps, later error_code false a l ps /\ Forall2 (superfluous pre post head tail) ps (map second more)
    end.
  Proof.
    induction l as [|e l IH]; intros a; [intros e []|]. specialize (IH (a ++ [e])).
    rewrite lens_app, lens_cons, lens_nil, Nat.add_0_r, Nat.add_assoc in IH. cbn [place filter].
    pose proof (is_code_spec (o + lens a, e)) as Hs. cbn [snd] in Hs. destruct (is_code (o + lens a, e)).
    - split; [exists e; split; [left; reflexivity | apply Hs; reflexivity]|]. destruct (more_codes l (a ++ [e])) as (ps & H1 & H2). rewrite lens_app, lens_cons, lens_nil, Nat.add_0_r, Nat.add_assoc in H2.
      exists ps. split; [apply later_first; [apply Hs; reflexivity | exact H1] | exact H2].
    - assert (Hn : ~ error_code e) by (intros C; apply Hs in C; discriminate). destruct (filter is_code _) as [|c more].
      + intros x [<-|Hx]; [exact Hn | apply IH, Hx].
      + destruct IH as ((x & Hx & Hc) & ps & H1 & H2). split; [exists x; split; [right; exact Hx | exact Hc]|]. exists ps. split; [apply later_other; assumption | exact H2].
  Qed.
End Quantity.
Lemma codes_at o l : error_codes (o, braced ASSOC_ITEM_LIST l) = filter is_code (place (o + 1) l).
Proof. unfold error_codes, assoc_items. rewrite braced_which by reflexivity. rewrite filter_two. reflexivity. Qed.

Section TraitRange.
  Variables (pre post : list (skind * str)) (K : skind) (front head l tail : list elem).
  Hypothesis Hh : trait_head front head.
  Hypothesis Ht : trait_tail tail.
  Let item := item_with K ASSOC_ITEM_LIST (front ++ head) l tail.
  Let toks := file_leaves pre item post.
  Lemma trait_range_spec : exists rg, trait_range toks (at_place pre item) = Done rg /\ marks pre item (leaves_of (declaration front head)) rg.
  Proof.
    destruct Hh as (Hf & Hb & Hd & Ha & Hl). destruct Ht as (Hd2 & Ha2).
    set (parts := head ++ braced ASSOC_ITEM_LIST l :: tail).
    assert (Ei : item = Node K (front ++ parts)) by (unfold item, item_with, parts; rewrite <- app_assoc; reflexivity).
    assert (S1 : begins_solid parts).
    { destruct Hb as (t & r & E & Hs). exists t. eexists. unfold parts. rewrite leaves_of_app, E. split; [reflexivity | exact Hs]. }
    assert (S2 : no_docs parts).
    { unfold parts, no_docs. apply Forall_app. split; [exact Hd|]. constructor; [intros c [=] | exact Hd2]. }
    assert (S3 : forall cs, ~ In (Node ATTR cs) parts).
    { intros cs C. unfold parts in C. apply in_app_or in C. destruct C as [C|[C|C]]; [exact (Ha cs C) | discriminate C | exact (Ha2 cs C)]. }
    pose proof (item_start pre post K front parts Hf S1 S2 S3) as Es. rewrite <- Ei in Es. fold toks in Es.
    unfold trait_range. unfold item at 1. rewrite list_child by (intros cs C; apply in_app_or in C; destruct C as [C|C]; [exact (front_no_list front Hf cs C) | exact (Hl cs C)]).
    rewrite Es, braced_open. unfold lf_end. cbn [snd fst]. change (bytes (lit "{")) with 1.
    set (o := bytes (text pre)) in *.
    set (s := o + (if existsb annotation front then lens front else 0)).
    assert (Hle : s <= o + lens (front ++ head) + 1) by (unfold s; rewrite lens_app; destruct (existsb annotation front); lia).
    unfold mk_range. apply Nat.leb_le in Hle. rewrite Hle. eexists. split; [reflexivity|].
    exists (leaves_of (if existsb annotation front then front else [])), (leaves_of (l ++ [rbrace]) ++ leaves_of tail).
    split.
    - rewrite Ei. unfold parts, declaration. rewrite leaves_node. change (braced ASSOC_ITEM_LIST l :: tail) with ([braced ASSOC_ITEM_LIST l] ++ tail). rewrite !leaves_of_app.
      assert (El : leaves_of [braced ASSOC_ITEM_LIST l] = leaves_of [lbrace] ++ leaves_of l ++ leaves_of [rbrace]).
      { unfold leaves_of at 1. cbn [flat_map]. rewrite app_nil_r. unfold braced. rewrite leaves_node. change (lbrace :: l ++ [rbrace]) with ([lbrace] ++ l ++ [rbrace]). rewrite !leaves_of_app. reflexivity. }
      rewrite El. destruct (existsb annotation front); cbn [app]; change (leaves_of []) with (@nil (skind * str)); rewrite ?app_nil_r, <- ?app_assoc; cbn [app]; rewrite <- ?app_assoc; reflexivity.
    - unfold declaration, s. f_equal; rewrite !text_app, !bytes_app, !bytes_texts; fold o.
      + destruct (existsb annotation front); rewrite ?lens_nil; lia.
      + rewrite !lens_app. change (lens [lbrace]) with 1. destruct (existsb annotation front); rewrite ?lens_nil; lia.
  Qed.
End TraitRange.
