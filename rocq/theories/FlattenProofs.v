From Coq Require Import Lia Permutation Sorting.Sorted.
From Verif Require Import Base BaseFacts PositionModel TranslateModel SyntaxModel AttrModel AttrSpec AttrProofs EditModel
  ArgEditSpec FlattenModel FlattenSpec.

(** ** What parsing leaves in every argument *)
Inductive vals (px : expr_parser) : meta -> Prop :=
  | vals_intro m ln lv : m_name m = parse_meta_name ln -> m_value m = parse_meta_value px lv ->
      (forall n, m_nested m = Some n -> vals px n) -> vals px m.

Definition vals_child px (c : pchild) : Prop := Forall (vals px) (snd c).
Lemma split_eq_incl (l : list pchild) :
  (forall c, In c (fst (fst (split_eq l))) -> In c l).
Proof.
  induction l as [|c l IH]; simpl; [tauto|]. destruct (skind_eqb (lkind (fst c)) EQ); simpl; [tauto|].
  intros x [<-|H]; [left; reflexivity | right; apply IH, H].
Qed.
Lemma nested_vals px name n : Forall (vals_child px) name -> nested_of name = Some n -> vals px n.
Proof.
  unfold nested_of. intros H. destruct (filter (fun c => is_tt (fst c)) name) as [|[t items] [|? ?]] eqn:E; try discriminate.
  assert (Hi : Forall (vals px) items).
  { assert (Hin : In (t, items) name) by (apply (proj1 (filter_In (fun c => is_tt (fst c)) (t, items) name)); rewrite E; left; reflexivity).
    rewrite Forall_forall in H. apply (H _ Hin). }
  destruct items as [|m [|? ?]].
  - destruct (_ || _); [|discriminate]. intros [= <-]. apply (vals_intro px _ [] []); try reflexivity. discriminate.
  - intros [= <-]. inversion Hi; assumption.
  - destruct (_ || _); [|discriminate]. intros [= <-]. apply (vals_intro px _ [] []); try reflexivity. discriminate.
Qed.
Lemma group_vals px last l : Forall (vals_child px) l -> vals px (parse_group px last l).
Proof.
  intros H. unfold parse_group. pose proof (split_eq_incl l) as Hi.
  destruct (split_eq l) as [[name eq] value]. simpl in Hi.
  match goal with |- vals _ (build_meta ?l ?a ?b ?c ?d) => destruct (build_meta_fields l a b c d) as (E1 & E2 & E3 & E4) end.
  eapply vals_intro; [exact E1 | exact E3 |].
  rewrite E4. intros n. apply nested_vals. rewrite Forall_forall in *. intros c Hc. apply H, Hi, Hc.
Qed.
Lemma groups_vals px l : forall last ic cur,
  Forall (vals_child px) cur -> Forall (vals_child px) l -> Forall (vals px) (parse_groups px last ic cur l).
Proof.
  induction l as [|c l IH]; intros last ic cur Hc Hl; simpl.
  - destruct cur; constructor; [|constructor]. apply group_vals. apply Forall_rev; assumption.
  - inversion Hl; subst. destruct (skind_eqb (lkind (fst c)) COMMA).
    + destruct cur; [apply IH; [constructor | assumption]|]. constructor; [apply group_vals, Forall_rev; assumption|].
      apply IH; [constructor | assumption].
    + apply IH; [constructor; assumption | assumption].
Qed.
Lemma take_while_incl {A} (f : A -> bool) l x : In x (take_while f l) -> In x l.
Proof. induction l as [|y l IH]; simpl; [tauto|]. destruct (f y); simpl; [tauto | contradiction]. Qed.
Lemma skipn_incl {A} n (l : list A) x : In x (skipn n l) -> In x l.
Proof. intros H. rewrite <- (firstn_skipn n l). apply in_app_iff. right; exact H. Qed.
Lemma parsed_vals px e : forall o, Forall (vals px) (parse_meta_items px e o).
Proof.
  induction e as [k t|k cs IH] using elem_ind'; intros o; [constructor|].
  rewrite parse_meta_items_node. cbv zeta. apply groups_vals; [constructor|].
  apply Forall_forall. intros c Hc. apply take_while_incl in Hc.
  assert (Hin : In c (ann px (place o cs))).
  { destruct (find (fun e : elem => is_tok e && skind_eqb (kind_of e) L_PAREN) cs); [eapply skipn_incl, Hc | exact Hc]. }
  unfold ann in Hin. apply in_map_iff in Hin. destruct Hin as (le & <- & Hle). apply place_In in Hle.
  unfold vals_child, items_at; simpl. rewrite Forall_forall in IH.
  destruct (snd le) as [|k' cs'] eqn:Es; [constructor|]. destruct k'; try constructor.
  apply IH. exact Hle.
Qed.

(** ** One argument, printed and read back *)
Definition sp1 : elem := Tok WHITESPACE (lit " ").

Scheme writes_mind := Induction for writes Sort Prop
  with wnested_mind := Induction for writes_nested Sort Prop
  with wvalue_mind := Induction for writes_value Sort Prop.

Lemma name_ok_tok l n : parse_meta_name l = MOk n -> exists k t, snd n = Tok k t /\ (k = IDENT \/ k = IMPL_KW).
Proof.
  unfold parse_meta_name. destruct (non_trivia l) as [|e [|? ?]]; try discriminate.
  destruct (is_tok (snd e) && is_name_kind (lkind e)) eqn:E; [|discriminate]. intros [= <-].
  apply andb_true_iff in E. destruct E as [E1 E2]. unfold lkind in E2.
  destruct (snd e) as [k t|]; [|discriminate]. exists k, t. split; [reflexivity|].
  simpl in E2. destruct k; try discriminate; auto.
Qed.

Lemma non_trivia_snd l : map snd (non_trivia l) = filter (fun e => negb (is_trivia (kind_of e))) (map snd l).
Proof.
  unfold non_trivia, lkind. induction l as [|x l IH]; simpl; [reflexivity|].
  destruct (is_trivia (kind_of (snd x))); simpl; [exact IH | f_equal; exact IH].
Qed.

(** What [value_parse] finds depends on the elements only. *)
Lemma value_parse_same px l l' x :
  value_parse px l = Some x -> l' <> [] ->
  filter (fun e => negb (is_trivia (kind_of e))) (map snd l) = filter (fun e => negb (is_trivia (kind_of e))) (map snd l') ->
  px (texts_of (map snd l)) = px (texts_of (map snd l')) ->
  exists y, value_parse px l' = Some y /\ value_skind x = value_skind y /\ value_text x = value_text y.
Proof.
  intros H Hne Hf Hp. unfold value_parse in *. destruct l as [|f r] eqn:El; [discriminate|]. rewrite <- El in *. clear El f r.
  destruct l' as [|f' r'] eqn:El'; [contradiction|]. rewrite <- El' in *. clear El' f' r' Hne.
  rewrite <- !non_trivia_snd in Hf. rewrite <- Hp. clear Hp.
  destruct (non_trivia l) as [|e [|e2 t]], (non_trivia l') as [|e' [|e2' t']]; try discriminate.
  - destruct (px _); [|discriminate]. injection H as <-. eexists; repeat split.
  - injection Hf as Hf. unfold lkind in *. rewrite <- Hf.
    destruct ((skind_eqb (kind_of (snd e)) UNDERSCORE || skind_eqb (kind_of (snd e)) AT) && is_tok (snd e)).
    + injection H as <-. eexists; repeat split; unfold value_skind, value_text, lkind; simpl; rewrite Hf; reflexivity.
    + destruct (px _); [|discriminate]. injection H as <-. eexists; repeat split.
  - destruct (px _); [|discriminate]. injection H as <-. eexists; repeat split.
Qed.
Lemma value_parse_none px l l' :
  value_parse px l = None -> l <> [] ->
  filter (fun e => negb (is_trivia (kind_of e))) (map snd l) = filter (fun e => negb (is_trivia (kind_of e))) (map snd l') ->
  px (texts_of (map snd l)) = px (texts_of (map snd l')) ->
  value_parse px l' = None.
Proof.
  intros H Hne Hf Hp. destruct (value_parse px l') as [y|] eqn:E; [|reflexivity]. exfalso.
  destruct (value_parse_same px l' l y E Hne (eq_sym Hf) (eq_sym Hp)) as (z & E2 & _). congruence.
Qed.

(** The tokens of a value as printed. *)
Lemma value_printed px lv v :
  prints_back px -> map snd lv = v -> v <> [] -> (forall e, In e v -> kind_of e <> COMMA /\ plain_element e) ->
  exists v', v' <> [] /\ (forall e, In e v' -> kind_of e <> COMMA /\ plain_element e)
    /\ texts_of v' = lit " " ++ match parse_meta_value px lv with MOk x => value_text x | MErr l => texts_of (map snd l) | MNone => [] end
    /\ forall lv', map snd lv' = v' -> same_value (parse_meta_value px lv) (parse_meta_value px lv').
Proof.
  intros [Hb Hp] Ev Hne Hv.
  assert (Hnl : lv <> []) by (intros ->; simpl in Ev; subst; contradiction).
  assert (Epm : forall l, l <> [] -> parse_meta_value px l = match value_parse px l with Some v => MOk v | None => MErr l end).
  { intros [|? ?]; [contradiction|reflexivity]. }
  assert (Hsp : kind_of sp1 <> COMMA /\ plain_element sp1).
  { split; [discriminate|]. split; [discriminate|]. intros (? & ? & ? & ? & _). discriminate. }
  rewrite (Epm lv Hnl). destruct (value_parse px lv) as [x|] eqn:Ex.
  - assert (Hx : (exists e, non_trivia lv = [e] /\ (lkind e = UNDERSCORE \/ lkind e = AT) /\ is_tok (snd e) = true /\ x = MValue lv (Some e) None)
              \/ exists e, px (texts_of v) = Some e /\ x = MValue lv None (Some e)).
    { unfold value_parse in Ex. destruct lv as [|f r] eqn:El; [contradiction|]. rewrite <- El in *. clear El.
      rewrite Ev in Ex. destruct (non_trivia lv) as [|e [|? ?]].
      - right. destruct (px (texts_of v)) as [e0|]; [|discriminate]. injection Ex as <-. eauto.
      - destruct ((skind_eqb (lkind e) UNDERSCORE || skind_eqb (lkind e) AT) && is_tok (snd e)) eqn:Ek.
        + left. exists e. apply andb_true_iff in Ek. destruct Ek as [Ek1 Ek2]. apply orb_true_iff in Ek1.
          rewrite !skind_eqb_eq in Ek1. injection Ex as <-. auto.
        + right. destruct (px (texts_of v)) as [e0|]; [|discriminate]. injection Ex as <-. eauto.
      - right. destruct (px (texts_of v)) as [e0|]; [|discriminate]. injection Ex as <-. eauto. }
    destruct Hx as [(e & Hnt & Hk & Ht & ->)|(e & Hpx & ->)].
    + exists [sp1; snd e]. split; [discriminate|]. split; [|split].
      * intros y [<-|[<-|[]]]; [exact Hsp|]. apply Hv. rewrite <- Ev. apply in_map.
        assert (In e (non_trivia lv)) by (rewrite Hnt; left; reflexivity). unfold non_trivia in H. apply filter_In in H. apply H.
      * unfold value_text; simpl. rewrite app_nil_r. reflexivity.
      * intros lv' Elv'. rewrite (Epm lv') by (intros ->; discriminate).
        assert (Hs : map snd (non_trivia lv') = [snd e]).
        { rewrite non_trivia_snd, Elv'. simpl. unfold lkind in Hk. destruct Hk as [-> | ->]; reflexivity. }
        unfold value_parse. destruct lv' as [|f' r'] eqn:El'; [discriminate|]. rewrite <- El' in *. clear El' f' r'.
        destruct (non_trivia lv') as [|e' [|? ?]]; try discriminate. injection Hs as Hs.
        assert (Hl : lkind e' = lkind e) by (unfold lkind; rewrite Hs; reflexivity).
        rewrite Hl, Hs, Ht. replace (skind_eqb (lkind e) UNDERSCORE || skind_eqb (lkind e) AT) with true
          by (symmetry; apply orb_true_iff; rewrite !skind_eqb_eq; exact Hk).
        simpl. apply sv_ok; unfold value_skind, value_text; simpl; [rewrite Hl | rewrite Hs]; reflexivity.
    + destruct (Hp _ _ Hpx) as (Hpb & w & (Hw1 & Hw2 & Hw3) & Hw).
      exists (sp1 :: w). split; [discriminate|]. split; [|split].
      * intros y [<-|Hy]; [exact Hsp | apply Hw2, Hy].
      * simpl. rewrite Hw. destruct e; reflexivity.
      * intros lv' Elv'. rewrite (Epm lv') by (intros ->; discriminate).
        assert (Hpx' : px (texts_of (map snd lv')) = Some e).
        { rewrite Elv'. change (texts_of (sp1 :: w)) with (lit " " ++ texts_of w). rewrite Hb, Hw. exact Hpb. }
        assert (E : value_parse px lv' = Some (MValue lv' None (Some e))).
        { unfold value_parse. rewrite Hpx'. destruct lv' as [|f' r'] eqn:El'; [discriminate|]. rewrite <- El' in *. clear El' f' r'.
          pose proof (non_trivia_snd lv') as Hs. rewrite Elv' in Hs. simpl in Hs.
          destruct (non_trivia lv') as [|e' [|? ?]]; try reflexivity. simpl in Hs. symmetry in Hs.
          destruct ((skind_eqb (lkind e') UNDERSCORE || skind_eqb (lkind e') AT) && is_tok (snd e')) eqn:Ek; [exfalso|reflexivity].
          apply andb_true_iff in Ek. destruct Ek as [Ek1 Ek2]. apply orb_true_iff in Ek1. rewrite !skind_eqb_eq in Ek1.
          unfold lkind in Ek1. destruct (snd e') as [k t|]; [|discriminate]. simpl in Ek1.
          destruct (Hw3 k t Hs). destruct Ek1; contradiction. }
        rewrite E. apply sv_ok; reflexivity.
  - exists (sp1 :: v). split; [discriminate|]. split; [|split].
    + intros y [<-|Hy]; [exact Hsp | apply Hv, Hy].
    + simpl. rewrite Ev. reflexivity.
    + intros lv' Elv'. rewrite (Epm lv') by (intros ->; discriminate).
      rewrite (value_parse_none px lv lv' Ex Hnl).
      * apply sv_err. rewrite Elv', Ev. reflexivity.
      * rewrite Elv', Ev. reflexivity.
      * rewrite Elv', Ev. change (texts_of (sp1 :: v)) with (lit " " ++ texts_of v). rewrite Hb. reflexivity.
Qed.

Definition printed (px : expr_parser) (w : warg) (m : meta) : Prop :=
  exists w' seg', writes w' seg' /\ texts_of seg' = meta_str m
    /\ (forall t, trivia t -> writes w' (t ++ seg'))
    /\ (forall m', is_arg w' m' -> vals px m' -> same_arg m m').

Lemma meta_str_eq m : meta_str m =
  match m_name m with MOk n => text_of (snd n) | MErr l => texts_of (map snd l) | MNone => [] end
  ++ match m_nested m with Some n => lit "(" ++ meta_str n ++ lit ")" | None => [] end
  ++ match m_eq m with Some _ => lit " = " | None => [] end
  ++ match m_value m with MOk v => value_text v | MErr l => texts_of (map snd l) | MNone => [] end.
Proof. destruct m; reflexivity. Qed.
Lemma texts_app a b : texts_of (a ++ b) = texts_of a ++ texts_of b.
Proof. apply flat_map_app. Qed.
Lemma texts_node k l : text_of (Node k l) = texts_of l.
Proof. simpl. unfold texts_of. induction l as [|x l IH]; simpl; [reflexivity | f_equal; exact IH]. Qed.

Lemma written_printed px w seg : prints_back px -> writes w seg ->
  forall m, is_arg w m -> vals px m -> printed px w m.
Proof.
  intros Hpb Hw.
  refine (writes_mind (fun w seg _ => forall m, is_arg w m -> vals px m -> printed px w m)
    (fun nw np _ => forall on, is_nested nw on -> (forall n, on = Some n -> vals px n) ->
       exists nw' np', writes_nested nw' np'
         /\ texts_of np' = match on with Some n => lit "(" ++ meta_str n ++ lit ")" | None => [] end
         /\ forall on', is_nested nw' on' -> (forall n, on' = Some n -> vals px n) -> same_nested on on')
    (fun ov vp _ => match ov with Some v => v <> [] /\ forall e, In e v -> kind_of e <> COMMA /\ plain_element e | None => True end)
    _ _ _ _ _ w seg Hw).
  - intros name nested value t1 nk t2 np t3 vp Ht1 Ht2 Ht3 Hnk _ Hn _ Hv m Ha Hvals.
    inversion Ha as [nm0 ne0 va0 m0 n En Etx Hnest Hnv Hsv]; subst.
    inversion Hvals as [m0 ln lv Eln Elv Hvn]; subst.
    destruct (Hn (m_nested m) Hnest Hvn) as (nw' & np' & Hwn & Htx & Hsn).
    rewrite En in Eln. symmetry in Eln. destruct (name_ok_tok _ _ Eln) as (k & t & Ekt & Hk).
    assert (Hnil : trivia []) by (intros ? []).
    assert (Hs1 : trivia [sp1]) by (intros ? [<-|[]]; exists WHITESPACE, (lit " "); split; reflexivity).
    destruct value as [v|].
    + destruct Hv as [Hv1 Hv2]. destruct (Hsv v eq_refl) as [Heq Hval]. clear Hnv Hsv.
      assert (Elvv : map snd lv = v).
      { rewrite Elv in Hval. unfold parse_meta_value in Hval. destruct lv as [|f r] eqn:El; [simpl in Hval; subst; contradiction|].
        rewrite <- El in *. destruct (value_parse px lv) as [x|] eqn:Ex; [|exact Hval].
        assert (Hm : mv_elements x = lv).
        { unfold value_parse in Ex. rewrite El in Ex. rewrite <- El in Ex. cbv zeta in Ex.
          destruct (non_trivia lv) as [|e [|? ?]]; [| destruct (_ && _) |];
            repeat match goal with H : match ?o with Some _ => _ | None => _ end = _ |- _ => destruct o; [|discriminate] end;
            try (injection Ex as <-; reflexivity). }
        rewrite Hm in Hval. exact Hval. }
      destruct (value_printed px lv v Hpb Elvv Hv1 Hv2) as (v' & Hv'1 & Hv'2 & Hv't & Hv's).
      exists (WArg (text_of (snd n)) nw' (Some v')), (Tok k t :: np' ++ [sp1] ++ Tok EQ (lit "=") :: v').
      split; [|split; [|split]].
      * rewrite Ekt. apply (writes_arg t nw' (Some v') [] k [] np' [sp1] (Tok EQ (lit "=") :: v')); try assumption.
        apply wv_some; assumption.
      * rewrite meta_str_eq, En, Elv. rewrite Ekt. cbn [texts_of flat_map app].
        change (flat_map text_of (np' ++ sp1 :: Tok EQ (lit "=") :: v')) with (texts_of (np' ++ sp1 :: Tok EQ (lit "=") :: v')).
        rewrite texts_app, Htx. destruct (m_eq m) as [q|]; [|contradiction]. simpl text_of at 1.
        f_equal. f_equal. cbn [texts_of flat_map]. fold (texts_of v'). rewrite Hv't. reflexivity.
      * intros tr Htr. rewrite Ekt. apply (writes_arg t nw' (Some v') tr k [] np' [sp1] (Tok EQ (lit "=") :: v')); try assumption.
        apply wv_some; assumption.
      * intros m' Ha' Hvals'. inversion Ha' as [nm1 ne1 va1 m1 n' En' Etx' Hnest' Hnv' Hsv']; subst.
        inversion Hvals' as [m1 ln' lv' Eln' Elv' Hvn']; subst.
        apply (same_arg_intro m m' n n'); try assumption; [symmetry; assumption | | |].
        { destruct (Hsv' v' eq_refl) as [Heq' _]. split; intros; contradiction. }
        { rewrite Elv, Elv'. apply Hv's. destruct (Hsv' v' eq_refl) as [_ Hval']. rewrite Elv' in Hval'.
          unfold parse_meta_value in Hval'. destruct lv' as [|f r] eqn:El; [simpl in Hval'; subst; contradiction|].
          rewrite <- El in *. destruct (value_parse px lv') as [x|] eqn:Ex; [|exact Hval'].
          assert (Hm : mv_elements x = lv').
          { unfold value_parse in Ex. rewrite El in Ex. rewrite <- El in Ex. cbv zeta in Ex.
            destruct (non_trivia lv') as [|e [|? ?]]; [| destruct (_ && _) |];
              repeat match goal with H : match ?o with Some _ => _ | None => _ end = _ |- _ => destruct o; [|discriminate] end;
              try (injection Ex as <-; reflexivity). }
          rewrite Hm in Hval'. exact Hval'. }
        { apply Hsn; assumption. }
    + destruct (Hnv eq_refl) as [Heq Hval]. clear Hnv Hsv.
      exists (WArg (text_of (snd n)) nw' None), (Tok k t :: np').
      assert (Ew : forall tr, trivia tr -> writes (WArg (text_of (snd n)) nw' None) (tr ++ Tok k t :: np')).
      { intros tr Htr. rewrite Ekt. replace (tr ++ Tok k t :: np') with (tr ++ Tok k t :: [] ++ np' ++ [] ++ []) by (simpl; rewrite app_nil_r; reflexivity).
        apply writes_arg; try assumption. apply wv_none. }
      split; [exact (Ew [] Hnil)|]. split; [|split; [exact Ew|]].
      * rewrite meta_str_eq, En, Hval, Heq, Ekt. cbn [texts_of flat_map]. fold (texts_of np'). rewrite Htx, !app_nil_r. reflexivity.
      * intros m' Ha' Hvals'. inversion Ha' as [nm1 ne1 va1 m1 n' En' Etx' Hnest' Hnv' Hsv']; subst.
        inversion Hvals' as [m1 ln' lv' Eln' Elv' Hvn']; subst. destruct (Hnv' eq_refl) as [Heq' Hval'].
        apply (same_arg_intro m m' n n'); try assumption; [symmetry; assumption | | |].
        { rewrite Heq, Heq'. tauto. }
        { rewrite Hval, Hval'. constructor. }
        { apply Hsn; assumption. }
  - intros on Hon _. inversion Hon; subst. exists None, []. split; [constructor|]. split; [reflexivity|].
    intros on' Hon' _. inversion Hon'; subst. constructor.
  - intros w0 seg0 c _ IH Hc on Hon Hvn. inversion Hon as [|w1 m1 Hm1]; subst.
    destruct (IH m1 Hm1 (Hvn m1 eq_refl)) as (w' & seg' & Hw' & Ht' & _ & Hs').
    exists (Some w'), [Node TOKEN_TREE (Tok L_PAREN (lit "(") :: seg' ++ [] ++ [Tok R_PAREN (lit ")")])].
    split; [apply wn_some; [exact Hw' | left; reflexivity]|]. split.
    + cbn [texts_of flat_map]. rewrite app_nil_r, texts_node. cbn [app]. change (Tok L_PAREN (lit "(") :: seg' ++ [Tok R_PAREN (lit ")")]) with ([Tok L_PAREN (lit "(")] ++ seg' ++ [Tok R_PAREN (lit ")")]).
      rewrite !texts_app, Ht'. reflexivity.
    + intros on' Hon' Hvn'. inversion Hon' as [|w2 m2 Hm2]; subst. constructor. apply Hs'; [exact Hm2 | apply Hvn'; reflexivity].
  - exact I.
  - intros v H1 H2. split; assumption.
Qed.

(** ** The whole list *)
Lemma join_printed px (ms : list meta) (P : meta -> Prop) :
  (forall m, In m ms -> exists w, printed px w m) ->
  exists ws body, writes_args ws body /\ texts_of body = join (lit ", ") (map meta_str ms)
    /\ Forall2 (fun m w' => forall m', is_arg w' m' -> vals px m' -> same_arg m m') ms ws
    /\ (ws <> [] -> exists w' ws', ws = w' :: ws' /\ writes_args ws ([sp1] ++ body)).
Proof.
  induction ms as [|m ms IH]; intros H.
  - exists [], []. split; [constructor|]. split; [reflexivity|]. split; [constructor|]. intros Hn; contradiction.
  - destruct (H m (or_introl eq_refl)) as (w & w' & seg' & Hw & Ht & Hl & Hs).
    destruct (IH (fun x Hx => H x (or_intror Hx))) as (ws & body & Hws & Htb & Hf & Hsp).
    assert (Hs1 : trivia [sp1]) by (intros ? [<-|[]]; exists WHITESPACE, (lit " "); split; reflexivity).
    destruct ms as [|m2 ms].
    + inversion Hf; subst. exists [w'], (seg' ++ []). split; [apply wa_last; [exact Hw | left; reflexivity]|].
      split; [rewrite app_nil_r; exact Ht|]. split; [constructor; [exact Hs | constructor]|].
      intros _. exists w', []. split; [reflexivity|]. rewrite app_assoc. apply wa_last; [apply Hl, Hs1 | left; reflexivity].
    + inversion Hf as [|? w2 ? ws2 Hm2 Hf2]; subst.
      destruct (Hsp ltac:(discriminate)) as (w3 & ws3 & [= <- <-] & Hsp').
      exists (w' :: w2 :: ws2), (seg' ++ Tok COMMA (lit ",") :: [sp1] ++ body).
      split; [apply wa_more; assumption|]. split; [|split].
      * rewrite texts_app, Ht. change (map meta_str (m :: m2 :: ms)) with (meta_str m :: map meta_str (m2 :: ms)).
        cbn [join]. destruct (map meta_str (m2 :: ms)) as [|x xs] eqn:Ex; [discriminate|]. f_equal.
        change (texts_of (Tok COMMA (lit ",") :: [sp1] ++ body)) with (lit ", " ++ texts_of body). rewrite Htb. reflexivity.
      * constructor; [exact Hs | exact Hf].
      * intros _. exists w', (w2 :: ws2). split; [reflexivity|]. rewrite app_assoc. apply wa_more; [apply Hl, Hs1 | exact Hsp'].
Qed.

(** ** Order *)
Lemma sorted_classes {A} (key : A -> nat) l :
  StronglySorted (fun a b => key a <= key b) l -> (forall x, In x l -> key x = 0 \/ key x = 1 \/ key x = 10) ->
  l = filter (fun x => key x =? 0) l ++ filter (fun x => key x =? 1) l ++ filter (fun x => key x =? 10) l.
Proof.
  intros H Hk. induction H as [|x l Hl IH Hx]; [reflexivity|].
  specialize (IH (fun y Hy => Hk y (or_intror Hy))).
  assert (Hnil : forall n, n < key x -> filter (fun y => key y =? n) l = []).
  { intros n Hn. apply filter_nil_ge. eapply Forall_impl; [|exact Hx]. simpl. intros; lia. }
  simpl. destruct (Hk x (or_introl eq_refl)) as [E|[E|E]]; rewrite E; simpl.
  - f_equal. exact IH.
  - rewrite (Hnil 0) in IH |- * by lia. simpl in *. f_equal. exact IH.
  - rewrite (Hnil 0), (Hnil 1) in IH |- * by lia. simpl in *. f_equal. exact IH.
Qed.
Lemma arg_rank_cases k : arg_rank k = 0 \/ arg_rank k = 1 \/ arg_rank k = 10.
Proof. destruct k; simpl; auto. Qed.
Lemma is_entity_rank k : is_entity k = (arg_rank k =? 0).
Proof. destruct k; reflexivity. Qed.
Lemma is_unknown_rank k : is_unknown k = (arg_rank k =? 10).
Proof. destruct k; reflexivity. Qed.
Lemma is_middle_rank k : negb (is_entity k) && negb (is_unknown k) = (arg_rank k =? 1).
Proof. destruct k; reflexivity. Qed.
Lemma stable_sort_by_precedence {A} (kind : A -> arg_kind) l :
  stable_sort (fun x => arg_rank (kind x)) l = by_precedence kind l.
Proof.
  set (key := fun x => arg_rank (kind x)).
  assert (Hc : forall x, In x (stable_sort key l) -> key x = 0 \/ key x = 1 \/ key x = 10) by (intros x _; apply arg_rank_cases).
  rewrite (sorted_classes key (stable_sort key l) (stable_sort_sorted key l) Hc).
  rewrite !stable_sort_stable. unfold by_precedence, key.
  f_equal; [|f_equal]; apply filter_ext; intros a;
    [symmetry; apply is_entity_rank | symmetry; apply is_middle_rank | symmetry; apply is_unknown_rank].
Qed.

Lemma insert_sorted_hd {A} (key : A -> nat) p l : (forall x, In x l -> key p <= key x) -> insert_sorted key p l = p :: l.
Proof.
  destruct l as [|y l]; intros H; simpl; [reflexivity|].
  specialize (H y (or_introl eq_refl)). apply Nat.leb_le in H. rewrite H. reflexivity.
Qed.
Lemma stable_sort_pick {A} (key : A -> nat) before p after :
  (forall x, In x before -> key p < key x) -> (forall x, In x after -> key p <= key x) ->
  stable_sort key (before ++ p :: after) = p :: stable_sort key (before ++ after).
Proof.
  intros Hb Ha. induction before as [|y before IH]; simpl.
  - apply insert_sorted_hd. intros x Hx. apply Ha. apply (stable_sort_In key), Hx.
  - rewrite IH by (intros x Hx; apply Hb; right; exact Hx). simpl.
    pose proof (Hb y (or_introl eq_refl)). destruct (Nat.leb_spec (key y) (key p)); [lia | reflexivity].
Qed.
Lemma filter_insert {A} (key : A -> nat) (f : A -> bool) x l :
  StronglySorted (fun a b => key a <= key b) l ->
  filter f (insert_sorted key x l) = if f x then insert_sorted key x (filter f l) else filter f l.
Proof.
  induction 1 as [|y l Hl IH Hy]; simpl; [destruct (f x); reflexivity|].
  destruct (key x <=? key y) eqn:E; simpl.
  - destruct (f x); [|reflexivity]. apply Nat.leb_le in E. symmetry. change (if f y then y :: filter f l else filter f l) with (filter f (y :: l)).
    apply insert_sorted_hd. intros z Hz. apply filter_In in Hz. destruct Hz as [[<-|Hz] _]; [exact E|].
    rewrite Forall_forall in Hy. specialize (Hy z Hz). simpl in Hy. lia.
  - rewrite IH. destruct (f y), (f x); simpl; rewrite ?E; reflexivity.
Qed.
Lemma filter_stable_sort {A} (key : A -> nat) (f : A -> bool) l :
  filter f (stable_sort key l) = stable_sort key (filter f l).
Proof.
  induction l as [|x l IH]; simpl; [reflexivity|].
  rewrite filter_insert by apply stable_sort_sorted. destruct (f x); simpl; rewrite IH; reflexivity.
Qed.
Lemma insert_sorted_ext {A} (k1 k2 : A -> nat) (x : A) l :
  (forall y z, In y (x :: l) -> In z (x :: l) -> (k1 y <=? k1 z) = (k2 y <=? k2 z)) -> insert_sorted k1 x l = insert_sorted k2 x l.
Proof.
  induction l as [|y l IH]; intros H; simpl; [reflexivity|].
  rewrite (H x y) by (simpl; auto). rewrite IH; [reflexivity|].
  intros a b Ha Hb. apply H; simpl in *; tauto.
Qed.
Lemma stable_sort_ext {A} (k1 k2 : A -> nat) l :
  (forall y z, In y l -> In z l -> (k1 y <=? k1 z) = (k2 y <=? k2 z)) -> stable_sort k1 l = stable_sort k2 l.
Proof.
  induction l as [|x l IH]; intros H; simpl; [reflexivity|].
  rewrite IH by (intros; apply H; right; assumption). apply insert_sorted_ext.
  intros y z Hy Hz. apply H; [destruct Hy as [<-|Hy]; [left; reflexivity | right; apply (stable_sort_In k2), Hy]
                            | destruct Hz as [<-|Hz]; [left; reflexivity | right; apply (stable_sort_In k2), Hz]].
Qed.
Lemma is_arg_attr_of a : is_arg_attr a = is_some (arg_of a).
Proof. unfold is_arg_attr, arg_of. destruct (at_kind a); reflexivity. Qed.
Lemma sorted_others l :
  filter is_arg_attr (stable_sort (fun a => attr_rank (at_kind a)) l) = by_precedence arg_or_unknown (arg_attrs l).
Proof.
  rewrite filter_stable_sort. rewrite <- stable_sort_by_precedence. unfold arg_attrs.
  rewrite (filter_ext _ _ is_arg_attr_of). apply stable_sort_ext.
  intros y z Hy Hz. apply filter_In in Hy, Hz. destruct Hy as [_ Hy], Hz as [_ Hz].
  unfold arg_or_unknown, arg_of in *. destruct (at_kind y), (at_kind z); try discriminate. reflexivity.
Qed.

(** ** The new attribute *)
Lemma same_arg_kind m m' : same_arg m m' -> ia_kind m = ia_kind m'.
Proof. intros H. inversion H as [? ? n n' E1 E2 E3]; subst. unfold ia_kind, arg_kind_of_meta. rewrite E1, E2, E3. reflexivity. Qed.

Lemma written_args px a : written px a -> forall m, In m (at_args a) -> exists w seg, writes w seg /\ is_arg w m /\ vals px m.
Proof.
  intros [Hc Ht] m Hm.
  assert (Ea : at_args a = parse_ink_args px (as_token_tree (at_syntax a))).
  { unfold attr_cast in Hc. destruct (attr_can_cast (at_syntax a)); [|discriminate].
    destruct (as_segments (at_syntax a)) as [|c [|x [|y r]]]; try discriminate; try (injection Hc as <-; reflexivity).
    destruct (hd_error _); [injection Hc as <-; reflexivity|].
    destruct (as_token_tree (at_syntax a)); injection Hc as <-; reflexivity. }
  rewrite Ea in Hm. destruct Ht as [Ht|(o & ws & body & Ht & Hw)]; rewrite Ht in Hm; cbn [parse_ink_args snd fst] in Hm; [contradiction|].
  pose proof (parse_written px ws body o TOKEN_TREE Hw) as Hf.
  assert (Hv : Forall (vals px) (parse_meta_items px (paren_tree body) o)) by apply parsed_vals.
  unfold paren_tree in *.
  assert (Hwr : Forall (fun w => exists seg, writes w seg) ws).
  { clear -Hw. induction Hw; apply Forall_forall; [intros ? []|intros ? [<-|[]]; eauto|]. intros x [<-|Hx]; [eauto|]. rewrite Forall_forall in IHHw. apply IHHw, Hx. }
  rewrite Forall_forall in Hv. specialize (Hv m Hm).
  revert Hm Hf. generalize (parse_meta_items px (Node TOKEN_TREE (Tok L_PAREN (lit "(") :: body ++ [Tok R_PAREN (lit ")")])) o).
  clear -Hv Hwr. intros l Hm Hf. revert Hm. induction Hf as [|w x ws' l' [H1 H2] Hf IH]; [intros []|].
  inversion Hwr as [|? ? [seg Hs] Hwr']; subst.
  intros [<-|Hm']; [exists w, seg; auto | apply IH; assumption].
Qed.

Lemma cast_args px syn a : attr_cast px syn = Some a -> at_args a = parse_ink_args px (as_token_tree syn) /\ at_syntax a = syn.
Proof.
  unfold attr_cast. destruct (attr_can_cast syn); [|discriminate].
  destruct (as_segments syn) as [|c [|x [|y r]]]; try discriminate; try (intros [= <-]; split; reflexivity).
  destruct (hd_error _); [intros [= <-]; split; reflexivity|].
  destruct (as_token_tree syn); intros [= <-]; split; reflexivity.
Qed.
(** The kind of an argument attribute is that of its first argument in order of precedence. *)
Lemma cast_arg_kind px syn a k : attr_cast px syn = Some a -> at_kind a = AkArg k ->
  k = match hd_error (by_precedence ia_kind (at_args a)) with Some m => ia_kind m | None => AUnknown end.
Proof.
  intros H Hk. destruct (cast_args _ _ _ H) as [Ea _]. rewrite <- stable_sort_by_precedence, Ea.
  unfold attr_cast in H. destruct (attr_can_cast syn); [|discriminate].
  destruct (as_segments syn) as [|c [|x [|y r]]]; try discriminate; try (injection H as <-; discriminate).
  destruct (hd_error (stable_sort (fun x => arg_rank (ia_kind x)) (parse_ink_args px (as_token_tree syn)))) as [m|] eqn:E.
  - injection H as <-. simpl in Hk. congruence.
  - destruct (as_token_tree syn); injection H as <-; simpl in Hk; congruence.
Qed.

Lemma by_precedence_same l l' : Forall2 same_arg l l' ->
  match hd_error (by_precedence ia_kind l) with Some m => ia_kind m | None => AUnknown end
  = match hd_error (by_precedence ia_kind l') with Some m => ia_kind m | None => AUnknown end.
Proof.
  intros H.
  assert (Hf : forall f : arg_kind -> bool, Forall2 same_arg (filter (fun x => f (ia_kind x)) l) (filter (fun x => f (ia_kind x)) l')).
  { intros f. induction H as [|m m' l l' Hm H IH]; [constructor|]. simpl. rewrite (same_arg_kind _ _ Hm).
    destruct (f (ia_kind m')); [constructor; assumption | exact IH]. }
  assert (Hb : Forall2 same_arg (by_precedence ia_kind l) (by_precedence ia_kind l')).
  { unfold by_precedence. apply Forall2_app; [apply (Hf is_entity)|]. apply Forall2_app; [apply (Hf (fun k => negb (is_entity k) && negb (is_unknown k))) | apply (Hf is_unknown)]. }
  destruct Hb as [|m m' r r' Hm _]; [reflexivity | apply same_arg_kind, Hm].
Qed.
Lemma by_precedence_idem {A} (kind : A -> arg_kind) l : by_precedence kind (by_precedence kind l) = by_precedence kind l.
Proof.
  rewrite <- !stable_sort_by_precedence. set (key := fun x => arg_rank (kind x)).
  pose proof (stable_sort_sorted key l) as H. induction H as [|x s Hs IH Hx]; [reflexivity|].
  simpl. rewrite IH. apply insert_sorted_hd. rewrite Forall_forall in Hx. exact Hx.
Qed.

Lemma path_text_known k : k <> MUnknown -> exists c m, macro_path_str k = path_text [c; m]
  /\ macro_kind_of c m = k /\ (c = lit "ink" \/ c = lit "ink_e2e").
Proof.
  intros H. exists (macro_crate k), (macro_name k).
  destruct k; try contradiction; (split; [reflexivity|]; split; [reflexivity|]; auto).
Qed.

Lemma flat_says px p others :
  prints_back px -> Forall (written px) (p :: others) ->
  at_kind p <> AkMacro MUnknown ->
  (forall a, In a others -> exists k, at_kind a = AkArg k) ->
  (forall a, In a others -> ~ kind_precedes (at_kind a) (at_kind p)) ->
  says px (flat_text p others) (at_kind p) (by_precedence ia_kind (at_args p ++ flat_map at_args others)).
Proof.
  intros Hpb Hw Hk Ho Hpre.
  set (args := by_precedence ia_kind (at_args p ++ flat_map at_args others)).
  assert (Hall : forall m, In m args -> exists w seg, writes w seg /\ is_arg w m /\ vals px m).
  { intros m Hm. unfold args in Hm. rewrite <- stable_sort_by_precedence in Hm. apply stable_sort_In in Hm.
    inversion Hw as [|? ? Hp Hos]; subst. rewrite Forall_forall in Hos.
    apply in_app_iff in Hm. destruct Hm as [Hm|Hm]; [apply (written_args px p Hp m Hm)|].
    apply in_flat_map in Hm. destruct Hm as (a & Ha & Hm). apply (written_args px a (Hos a Ha) m Hm). }
  destruct (join_printed px args (fun _ => True)) as (ws & body & Hws & Htx & Hf & _).
  { intros m Hm. destruct (Hall m Hm) as (w & seg & H1 & H2 & H3). exists w. apply (written_printed px w seg Hpb H1 m H2 H3). }
  assert (Hread : forall o, Forall2 same_arg args (parse_meta_items px (paren_tree body) o)).
  { intros o. pose proof (parse_written px ws body o TOKEN_TREE Hws) as Hp2. fold (paren_tree body) in Hp2.
    pose proof (parsed_vals px (paren_tree body) o) as Hv.
    clear -Hf Hp2 Hv. revert Hp2 Hv. generalize (parse_meta_items px (paren_tree body) o). revert ws Hf.
    induction args as [|m args IH]; intros ws Hf l Hp2 Hv; inversion Hf as [|? w ? ws' Hm Hf']; subst; inversion Hp2 as [|? m' ? l' [Ha _] Hp']; subst; [constructor|].
    inversion Hv; subst. constructor; [apply Hm; assumption | apply (IH ws'); assumption]. }
  assert (Htt : text_of (paren_tree body) = lit "(" ++ join (lit ", ") (map meta_str args) ++ lit ")").
  { unfold paren_tree. rewrite texts_node. change (Tok L_PAREN (lit "(") :: body ++ [Tok R_PAREN (lit ")")]) with ([Tok L_PAREN (lit "(")] ++ body ++ [Tok R_PAREN (lit ")")]).
    rewrite !texts_app, Htx. reflexivity. }
  assert (Etext : forall segs, flat_path (at_kind p) = path_text segs ->
     flat_text p others = lit "#[" ++ path_text segs ++ text_of (paren_tree body) ++ lit "]").
  { intros segs E. unfold flat_text. rewrite E, Htt. rewrite stable_sort_by_precedence. fold args.
    rewrite <- !app_assoc. reflexivity. }
  destruct (at_kind p) as [mk|k] eqn:Ek.
  - assert (Hmk : mk <> MUnknown) by congruence. destruct (path_text_known mk Hmk) as (c & m & Ep & Em & Hc).
    exists [c; m], (paren_tree body). split; [apply Etext; exact Ep|].
    intros o r. unfold attr_cast, attr_can_cast. cbn [as_segments as_token_tree].
    replace (str_eqb c (lit "ink") || str_eqb c (lit "ink_e2e")) with true by (destruct Hc as [-> | ->]; reflexivity).
    eexists. split; [reflexivity|]. split; [simpl; rewrite Em; reflexivity | apply Hread].
  - exists [lit "ink"], (paren_tree body). split; [apply Etext; reflexivity|].
    intros o r. 
    destruct (attr_cast px (AttrSyntax [lit "ink"] (Some (o, paren_tree body)) r)) as [a|] eqn:Ea.
    2:{ exfalso. unfold attr_cast in Ea. simpl in Ea. destruct (hd_error _); discriminate. }
    exists a. split; [reflexivity|]. destruct (cast_args _ _ _ Ea) as [Eargs _].
    assert (Hargs : Forall2 same_arg args (at_args a)) by (rewrite Eargs; apply Hread).
    split; [|exact Hargs].
    assert (Hka : exists k', at_kind a = AkArg k').
    { unfold attr_cast in Ea. simpl in Ea. destruct (hd_error _); injection Ea as <-; eexists; reflexivity. }
    destruct Hka as [k' Hk']. rewrite Hk'. f_equal. rewrite (cast_arg_kind _ _ _ _ Ea Hk').
    rewrite <- (by_precedence_same _ _ Hargs). unfold args. rewrite by_precedence_idem.
    inversion Hw as [|? ? [Hcp _] Hos]; subst. rewrite (cast_arg_kind _ _ _ _ Hcp Ek).
    rewrite <- !stable_sort_by_precedence.
    destruct (hd_error (stable_sort (fun x => arg_rank (ia_kind x)) (at_args p))) as [m0|] eqn:Em0.
    + assert (E : hd_error (stable_sort (fun x => arg_rank (ia_kind x)) (at_args p ++ flat_map at_args others)) = Some m0).
      { apply stable_sort_hd. apply stable_sort_hd in Em0. destruct Em0 as (l1 & l2 & E1 & F1 & F2).
        exists l1, (l2 ++ flat_map at_args others). split; [rewrite E1, <- app_assoc; reflexivity|]. split; [exact F1|].
        apply Forall_app. split; [exact F2|]. apply Forall_forall. intros m Hm. apply in_flat_map in Hm. destruct Hm as (b & Hb & Hm).
        destruct (Ho b Hb) as [kb Hkb]. pose proof (Hpre b Hb) as Hnp. rewrite Hkb, kind_precedes_rank in Hnp. simpl in Hnp.
        rewrite Forall_forall in Hos. destruct (Hos b Hb) as [Hcb _]. pose proof (cast_arg_kind _ _ _ _ Hcb Hkb) as Ekb.
        pose proof (cast_arg_kind _ _ _ _ Hcp Ek) as Ekp. rewrite <- stable_sort_by_precedence in Ekb, Ekp.
        assert (Hh : hd_error (stable_sort (fun x => arg_rank (ia_kind x)) (at_args p)) = Some m0)
          by (apply stable_sort_hd; exists l1, l2; auto).
        rewrite Hh in Ekp.
        destruct (hd_error (stable_sort (fun x => arg_rank (ia_kind x)) (at_args b))) as [mb|] eqn:Emb.
        - apply stable_sort_hd in Emb. destruct Emb as (b1 & b2 & E2 & G1 & G2). rewrite E2 in Hm.
          rewrite Forall_forall in G1, G2. rewrite <- Ekp, Ekb in *.
          apply in_app_iff in Hm. destruct Hm as [Hm|[<-|Hm]]; [specialize (G1 m Hm); simpl in G1; lia | lia | specialize (G2 m Hm); simpl in G2; lia].
        - exfalso. destruct (stable_sort (fun x => arg_rank (ia_kind x)) (at_args b)) as [|? ?] eqn:Es; [|discriminate].
          apply (stable_sort_In (fun x => arg_rank (ia_kind x))) in Hm. rewrite Es in Hm. destruct Hm. }
      rewrite E. reflexivity.
    + assert (Hp0 : at_args p = []).
      { destruct (at_args p) as [|m l] eqn:E0; [reflexivity|]. exfalso.
        assert (In m (stable_sort (fun x => arg_rank (ia_kind x)) (m :: l))) by (apply stable_sort_In; left; reflexivity).
        destruct (stable_sort (fun x => arg_rank (ia_kind x)) (m :: l)); [contradiction | discriminate]. }
      rewrite Hp0. simpl. pose proof (cast_arg_kind _ _ _ _ Hcp Ek) as Ekp. rewrite Hp0 in Ekp. simpl in Ekp. subst k.
      destruct (hd_error (stable_sort (fun x => arg_rank (ia_kind x)) (flat_map at_args others))) as [m|] eqn:Em; [|reflexivity].
      assert (Hm : In m (flat_map at_args others)).
      { apply (stable_sort_In (fun x => arg_rank (ia_kind x))). destruct (stable_sort (fun x => arg_rank (ia_kind x)) (flat_map at_args others)); [discriminate Em | injection Em as ->; left; reflexivity]. }
      apply in_flat_map in Hm. destruct Hm as (b & Hb & Hm).
      destruct (Ho b Hb) as [kb Hkb]. pose proof (Hpre b Hb) as Hnp. rewrite Hkb, kind_precedes_rank in Hnp. simpl in Hnp.
      rewrite Forall_forall in Hos. destruct (Hos b Hb) as [Hcb _]. pose proof (cast_arg_kind _ _ _ _ Hcb Hkb) as Ekb.
      rewrite <- stable_sort_by_precedence in Ekb.
      destruct (hd_error (stable_sort (fun x => arg_rank (ia_kind x)) (at_args b))) as [mb|] eqn:Emb.
      * apply stable_sort_hd in Emb. destruct Emb as (b1 & b2 & E2 & G1 & G2). rewrite E2 in Hm.
        rewrite Forall_forall in G1, G2. apply unknown_rank.
        assert (10 <= arg_rank (ia_kind mb)) by (rewrite <- Ekb; lia).
        apply in_app_iff in Hm. destruct Hm as [Hm|[<-|Hm]]; [specialize (G1 m Hm); simpl in G1; lia | lia | specialize (G2 m Hm); simpl in G2; lia].
      * exfalso. destruct (stable_sort (fun x => arg_rank (ia_kind x)) (at_args b)) as [|? ?] eqn:Es; [|discriminate].
        apply (stable_sort_In (fun x => arg_rank (ia_kind x))) in Hm. rewrite Es in Hm. destruct Hm.
Qed.

Lemma by_precedence_In {A} (kind : A -> arg_kind) l x : In x (by_precedence kind l) <-> In x l.
Proof. rewrite <- stable_sort_by_precedence. apply stable_sort_In. Qed.

(** The primary attribute and the others. *)
Lemma flatten_cases attrs :
  (attrs = [] /\ flatten_attrs attrs = None)
  \/ exists before p after, attrs = before ++ p :: after
       /\ (forall y, In y before -> kind_precedes (at_kind p) (at_kind y))
       /\ (forall y, In y after -> ~ kind_precedes (at_kind y) (at_kind p))
       /\ let others := by_precedence arg_or_unknown (arg_attrs (before ++ after)) in
          flatten_attrs attrs = match others with
            | [] => None
            | _ => Some (edit_replace (flat_text p others) (at_range p) :: map (fun a => edit_delete (at_range a)) others)
            end.
Proof.
  destruct (stable_sort (fun a => attr_rank (at_kind a)) attrs) as [|p rest] eqn:E.
  - left. split; [|unfold flatten_attrs; rewrite E; reflexivity].
    destruct attrs as [|a l]; [reflexivity|]. exfalso.
    assert (In a (stable_sort (fun a => attr_rank (at_kind a)) (a :: l))) by (apply stable_sort_In; left; reflexivity).
    rewrite E in H. destruct H.
  - right. assert (Hh : hd_error (stable_sort (fun a => attr_rank (at_kind a)) attrs) = Some p) by (rewrite E; reflexivity).
    apply stable_sort_hd in Hh. destruct Hh as (before & after & Ea & Hb & Hc).
    rewrite Forall_forall in Hb, Hc. exists before, p, after. split; [exact Ea|].
    split; [intros y Hy; apply kind_precedes_rank, Hb, Hy|].
    split; [intros y Hy; rewrite kind_precedes_rank; specialize (Hc y Hy); simpl in Hc; lia|].
    cbv zeta. rewrite <- sorted_others. unfold flatten_attrs. rewrite Ea.
    rewrite (stable_sort_pick (fun a => attr_rank (at_kind a)) before p after Hb Hc).
    destruct (filter is_arg_attr _); reflexivity.
Qed.
