(** Proofs for C96. *)
From Coq Require Import List Lia.
From Verif Require Import Base BaseFacts Unicode PositionModel PositionProofs TranslateModel SyntaxModel AttrModel AttrProofs EditSpec EditProofs ArgEditModel ArgEditProofs RuleModel RuleSpec RuleProofs
  ChainSpec ChainProofs EntityModel EntitySpec HintModel HintSpec HintProofs ExtractModel ExtractSpec ExtractProofs FocusModel FocusSpec.
Import ListNotations.

(** ** The cursor *)
(** What a cursor inside of a node is on: a token in one of its children. *)
Lemma cursor_in root o k cs up off : around root (o, Node k cs) up -> o < off < lend (o, Node k cs) ->
  exists c x down, focused_token root off = Done (Some (x, down ++ (o, Node k cs) :: up)) /\ is_tok (snd x) = true /\ touching off x
    /\ In c (place o cs) /\ element_of c x /\ (forall y, In y down -> element_of c y /\ element_of y x) /\ (is_tok (snd c) = true -> down = []).
Proof.
  intros Hs Hcur. pose proof (inside_element _ _ _ _ Hs) as He. pose proof (element_bounds _ _ He) as Hb. unfold lstart at 1, lend at 2 in Hb. cbn [fst snd] in Hb.
  unfold focused_token, tokens_at. rewrite (proj2 (Nat.leb_le off (len_of root))) by lia.
  destruct (paths_inside _ _ _ _ Hs) as (pre & post & Ep & Hpre & Hpost). cbn [fst snd] in Ep. rewrite Ep.
  set (f := fun p : path => is_tok (snd (fst p)) && touches off (fst p)).
  match goal with |- context [filter ?g ?l] => change (filter g l) with (@filter path f l) end.
  unfold lstart in Hpre, Hpost. cbn [fst snd] in Hpre, Hpost.
  rewrite !filter_app, (filter_none f pre), (filter_none f post).
  2:{ intros p H. unfold f. destruct (is_tok (snd (fst p))) eqn:Et; [|reflexivity]. specialize (Hpost p H Et).
      unfold touches, lstart. rewrite (proj2 (Nat.leb_gt (fst (fst p)) off)) by lia. rewrite andb_false_r. reflexivity. }
  2:{ intros p H. unfold f. destruct (is_tok (snd (fst p))) eqn:Et; [|reflexivity]. specialize (Hpre p H Et).
      unfold touches. rewrite (proj2 (Nat.leb_gt off (lend (fst p)))) by lia. rewrite andb_false_r. reflexivity. }
  rewrite app_nil_r. cbn [app].
  assert (G : forall p, In p (filter f (paths up o (Node k cs))) ->
            exists c x down, p = (x, down ++ (o, Node k cs) :: up) /\ is_tok (snd x) = true /\ touching off x
              /\ In c (place o cs) /\ element_of c x /\ (forall y, In y down -> element_of c y /\ element_of y x) /\ (is_tok (snd c) = true -> down = [])).
  { intros p H. apply filter_In in H. destruct H as [H Hf]. unfold f in Hf. apply andb_true_iff in Hf. destruct Hf as [Ht Htt].
    rewrite paths_node in H. destruct H as [<-|H]; [discriminate Ht|]. apply in_flat_map in H. destruct H as (c & Hc & H).
    pose proof H as Hp. pose proof (paths_anc _ _ _ _ H) as (Hx & mid & Em & Hm). destruct p as [x anc]. cbn [fst snd] in *. subst anc.
    exists c, x, mid. split; [reflexivity|]. split; [exact Ht|]. unfold touches in Htt. rewrite !andb_true_iff, !Nat.leb_le in Htt.
    split; [unfold touching; lia|]. split; [exact Hc|]. rewrite <- surjective_pairing in Hx, Hm. split; [exact Hx|]. split; [exact Hm|].
    intros Tc. destruct c as [q [kc sc|kc ccs]]; [|discriminate Tc]. cbn in Hp. destruct Hp as [Hp|[]]. injection Hp as _ Hp. destruct mid as [|m mid]; [reflexivity|]. exfalso.
    apply (f_equal (@length _)) in Hp. cbn in Hp. rewrite app_length in Hp. cbn in Hp. lia. }
  destruct (token_touching (Node k cs) up o off) as (p & H & Ht & Htt);
    [unfold lend in Hcur; cbn [fst snd] in Hcur; lia | unfold lend in Hcur; cbn [fst snd] in Hcur; lia |].
  assert (H' : In p (filter f (paths up o (Node k cs)))) by (apply filter_In; split; [exact H|]; unfold f; rewrite Ht, Htt; reflexivity).
  destruct (filter f (paths up o (Node k cs))) as [|x [|y l]]; [destruct H'| |].
  - destruct (G x (or_introl eq_refl)) as (c & x' & down & -> & R). exists c, x', down. split; [reflexivity | exact R].
  - destruct (is_trivia (lkind (fst x)) && negb (is_trivia (lkind (fst y)))).
    + destruct (G y (or_intror (or_introl eq_refl))) as (c & x' & down & -> & R). exists c, x', down. split; [reflexivity | exact R].
    + destruct (G x (or_introl eq_refl)) as (c & x' & down & -> & R). exists c, x', down. split; [reflexivity | exact R].
Qed.

Lemma find_closest p l : find p l = option_map fst (closest p l).
Proof. induction l as [|a l IH]; [reflexivity|]. cbn [find closest]. destruct (p a); [reflexivity | exact IH]. Qed.
Lemma closest_none p l : (forall x, In x l -> p x = false) -> closest p l = None.
Proof. induction l as [|a l IH]; intros H; [reflexivity|]. cbn [closest]. rewrite (H a (or_introl eq_refl)). apply IH. intros x Hx. apply H. right. exact Hx. Qed.
Lemma closest_skip p a l : (forall x, In x a -> p x = false) -> closest p (a ++ l) = closest p l.
Proof. induction a as [|x a IH]; intros H; [reflexivity|]. cbn [app closest]. rewrite (H x (or_introl eq_refl)). apply IH. intros y Hy. apply H. right. exact Hy. Qed.

Lemma touch_up off y x : element_of y x -> touching off x -> touching off y.
Proof. intros H. apply element_bounds in H. unfold touching. lia. Qed.

Lemma focus_item root off x anc item up : focused_token root off = Done (Some (x, anc)) -> lkind x <> ATTR -> (forall y, In y anc -> lkind y <> ATTR) ->
  closest item_at anc = Some (item, up) -> focus root (off, off) = item_offers root (x, anc) item (off, off).
Proof.
  intros Hf Hx Hn Hc. unfold focus, parent_at, covering_attribute, focused_element. cbn [fst snd]. rewrite Nat.eqb_refl, Hf. cbn [obind_o].
  assert (N : forall y, In y anc -> is_attr y = false).
  { intros y Hy. unfold is_attr. destruct (skind_eqb (lkind y) ATTR) eqn:E; [|reflexivity]. apply skind_eqb_eq in E. destruct (Hn y Hy E). }
  cbn [snd]. rewrite find_closest, (closest_none is_attr anc N). cbn [option_map obind_o]. unfold parent_item. cbn [fst snd]. rewrite Hc.
  destruct (skind_eqb (lkind x) ATTR) eqn:E; [apply skind_eqb_eq in E; contradiction|]. reflexivity.
Qed.

Lemma inside_child acc e o k cs up c : inside_of acc e (o, Node k cs) up -> In c (place o cs) -> inside_of acc e c ((o, Node k cs) :: up).
Proof.
  intros H Hc. remember (o, Node k cs) as s eqn:Es. induction H as [acc s|acc o' k' cs' c' e up Hc' _ IH].
  - subst s. apply (io_child _ _ _ _ c); [exact Hc | constructor].
  - apply (io_child _ _ _ _ c' _ _ Hc'). apply IH, Es.
Qed.

(** ** The parts of an item *)
Lemma braces_len lk inner : len_of (brace_list lk inner) = bytes (texts_of inner) + 2.
Proof. unfold brace_list. rewrite len_of_node. cbn [texts_of flat_map]. unfold texts_of. cbn [flat_map text_of]. rewrite flat_map_app, !bytes_app. cbn [flat_map text_of]. rewrite app_nil_r. change (bytes (lit "{")) with 1. change (bytes (lit "}")) with 1. lia. Qed.
Section Braced.
  Context (root : elem) (K : skind) (front decl : list elem) (lk : skind) (inner : list elem) (o : nat) (up : list lelem).
  Hypothesis Hok : braced_ok K front decl lk inner.
  Let item : lelem := (o, braced K front decl lk inner).
  Let L : lelem := (o + bytes (texts_of (front ++ decl)), brace_list lk inner).
  Hypothesis Ha : around root item up.
  Let b0 := body_start o front decl.
  Let b1 := body_end o front decl inner.

  Lemma parts_eq : front ++ decl ++ [brace_list lk inner] = (front ++ decl) ++ [brace_list lk inner].
  Proof. apply app_assoc. Qed.
  Lemma list_in : In L (place o (front ++ decl ++ [brace_list lk inner])).
  Proof. rewrite parts_eq, place_app. apply in_or_app. right. left. reflexivity. Qed.
  Lemma around_list : around root L (item :: up).
  Proof. apply (inside_child _ _ _ _ _ _ _ Ha list_in). Qed.

  Lemma list_len : len_of (brace_list lk inner) = bytes (texts_of inner) + 2.
  Proof. apply braces_len. Qed.
  Lemma item_end : lend item = b1 + 1.
  Proof.
    unfold lend, item. cbn [fst snd]. unfold braced. rewrite len_of_node, parts_eq. unfold b1, body_end, body_start. unfold texts_of at 1. rewrite flat_map_app, bytes_app. cbn [flat_map].
    rewrite app_nil_r. fold (texts_of (front ++ decl)). pose proof list_len as H. unfold len_of in H. rewrite H. lia.
  Qed.
  Lemma kind_lk e : In e (front ++ decl) -> kind_of e <> lk /\ kind_of e <> RECORD_FIELD_LIST /\ kind_of e <> TUPLE_FIELD_LIST.
  Proof.
    destruct Hok as (Hl & Hf & _ & _ & Hd & _). intros He. apply in_app_iff in He. destruct He as [He|He].
    - unfold front_only in Hf. rewrite Forall_forall in Hf. destruct (Hf e He) as [(cs & -> & _)|(k & s & -> & Hk & _)]; cbn [kind_of].
      + split; [|split; discriminate]. intros <-. unfold has_list in Hl. cbn [In] in Hl. repeat (destruct Hl as [Hl|Hl]; [discriminate Hl|]). destruct Hl.
      + split; [|split; intros ->; discriminate Hk]. intros ->. unfold has_list in Hl. cbn [In] in Hl. repeat (destruct Hl as [Hl|Hl]; [injection Hl as _ <-; discriminate Hk|]). destruct Hl.
    - specialize (Hd e He). split; [|split; intros E; apply Hd; rewrite E; cbn [In]; tauto]. intros E. apply Hd. rewrite E. unfold has_list in Hl. cbn [In] in Hl |- *.
      repeat (destruct Hl as [Hl|Hl]; [injection Hl as _ <-; tauto|]). destruct Hl.
  Qed.
  Lemma lacks_kind k : (forall e, In e (front ++ decl) -> kind_of e <> k) -> forallb (fun e => negb (node_of k e)) (front ++ decl) = true.
  Proof.
    intros H. apply forallb_forall. intros e He. specialize (H e He). unfold node_of. destruct (skind_eqb (kind_of e) k) eqn:E; [apply skind_eqb_eq in E; contradiction|]. rewrite andb_false_r. reflexivity.
  Qed.
  Lemma child_list : child_node lk item = Some L.
  Proof. unfold item, braced. rewrite parts_eq. unfold brace_list. apply child_node_at, lacks_kind. intros e He. apply kind_lk, He. Qed.
  Lemma curly_list : curly_end L = b0.
  Proof. unfold curly_end, L, brace_list. change (Tok L_CURLY (lit "{") :: inner ++ [Tok R_CURLY (lit "}")]) with ([] ++ Tok L_CURLY (lit "{") :: inner ++ [Tok R_CURLY (lit "}")]).
    rewrite child_token_at by reflexivity. unfold lf_end, lf_start, b0, body_start. cbn [fst snd]. rewrite lens_nil. change (bytes (lit "{")) with 1. lia. Qed.
  Lemma r_curly_list : child_token R_CURLY L = Some (b1, (R_CURLY, lit "}")).
  Proof.
    unfold L, brace_list. change (Tok L_CURLY (lit "{") :: inner ++ [Tok R_CURLY (lit "}")]) with ((Tok L_CURLY (lit "{") :: inner) ++ Tok R_CURLY (lit "}") :: []). rewrite child_token_at.
    - f_equal. f_equal. unfold b1, body_end, body_start, lens, texts_of. cbn [flat_map text_of]. rewrite bytes_app. change (bytes (lit "{")) with 1. lia.
    - cbn [forallb]. apply andb_true_iff. split; [reflexivity|]. apply forallb_forall. intros e He. destruct Hok as (_ & _ & _ & _ & _ & Hi). destruct (Hi e He) as [_ H].
      unfold tok_of. destruct e as [k s|k cs]; [|reflexivity]. cbn [kind_of is_tok andb] in *. destruct (skind_eqb k R_CURLY) eqn:E; [apply skind_eqb_eq in E; contradiction | reflexivity].
  Qed.
  Lemma fields_list : K = STRUCT -> field_list item = Some L /\ lk = RECORD_FIELD_LIST.
  Proof.
    intros EK. assert (El : lk = RECORD_FIELD_LIST).
    { destruct Hok as (Hl & _). unfold has_list in Hl. cbn [In] in Hl. rewrite EK in Hl. repeat (destruct Hl as [Hl|Hl]; [first [discriminate Hl | injection Hl as <-; reflexivity]|]). destruct Hl. }
    split; [|exact El]. unfold field_list, item, braced. cbn [fst snd]. rewrite parts_eq, place_app.
    assert (G : forall l q rest, (forall e, In e l -> kind_of e <> RECORD_FIELD_LIST /\ kind_of e <> TUPLE_FIELD_LIST) ->
              find (fun c : lelem => negb (is_tok (snd c)) && (skind_eqb (lkind c) RECORD_FIELD_LIST || skind_eqb (lkind c) TUPLE_FIELD_LIST)) (place q l ++ rest)
              = find (fun c : lelem => negb (is_tok (snd c)) && (skind_eqb (lkind c) RECORD_FIELD_LIST || skind_eqb (lkind c) TUPLE_FIELD_LIST)) rest).
    { induction l as [|e l IH]; intros q rest H; [reflexivity|]. cbn [place app find]. destruct (H e (or_introl eq_refl)) as [H1 H2]. unfold lkind at 1 2. cbn [snd].
      destruct (skind_eqb (kind_of e) RECORD_FIELD_LIST) eqn:E1; [apply skind_eqb_eq in E1; contradiction|]. destruct (skind_eqb (kind_of e) TUPLE_FIELD_LIST) eqn:E2; [apply skind_eqb_eq in E2; contradiction|].
      rewrite andb_false_r. apply IH. intros e' He'. apply H. right. exact He'. }
    rewrite G by (intros e He; apply kind_lk, He). cbn [place find]. unfold lkind. cbn [snd brace_list is_tok negb kind_of]. unfold L. rewrite El. reflexivity.
  Qed.
  Lemma decl_end_eq : declaration_end item = Some b0.
  Proof.
    unfold declaration_end. change (lkind item) with K. destruct Hok as (Hl & _). unfold has_list in Hl. cbn [In] in Hl. pose proof child_list as CL. pose proof fields_list as FL.
    repeat (destruct Hl as [Hl|Hl]; [injection Hl as EK El; rewrite <- EK; rewrite <- El in CL|]); [..|destruct Hl];
    try (destruct (FL (eq_sym EK)) as (-> & _); unfold L, lkind; cbn [snd brace_list kind_of]; rewrite <- El; cbn [skind_eqb skind_beq]);
    try (rewrite CL; cbn [option_map]); rewrite <- curly_list; reflexivity.
  Qed.
  Lemma terminal_eq : terminal item = Some (b1, (R_CURLY, lit "}")).
  Proof.
    unfold terminal. change (lkind item) with K. destruct Hok as (Hl & _). unfold has_list in Hl. cbn [In] in Hl. pose proof child_list as CL. pose proof fields_list as FL.
    repeat (destruct Hl as [Hl|Hl]; [injection Hl as EK El; rewrite <- EK; rewrite <- El in CL|]); [..|destruct Hl];
    try (destruct (FL (eq_sym EK)) as (-> & _); unfold L at 1, lkind; cbn [snd brace_list kind_of]; rewrite <- El; cbn [skind_eqb skind_beq]);
    try (unfold r_curly; rewrite CL; cbn [obind]); rewrite r_curly_list; reflexivity.
  Qed.
  Let ds := decl_start o front.
  Lemma b0_ge : o + bytes (texts_of front) < b0 /\ ds <= b0 /\ b0 <= b1.
  Proof.
    unfold b1, b0, ds, decl_start, body_end, body_start, texts_of. rewrite flat_map_app, bytes_app. destruct (existsb annotation front); lia.
  Qed.
  Lemma decl_start_eq : declaration_start (file_toks root) item = ds.
  Proof.
    destruct (leaves_inside _ _ _ _ Ha) as (pre & post & El & Eb). cbn [fst snd] in El, Eb. cbn [Nat.add] in Eb.
    destruct Hok as (Hl & Hf & Hb & Hd & Hk & _).
    pose proof (item_start pre post K front (decl ++ [brace_list lk inner]) Hf Hb) as H.
    unfold file_toks. rewrite El. unfold file_leaves, at_place in H. unfold item in *.
    cbn [fst] in Eb. match type of H with context [(bytes ?t, _)] => replace (bytes t) with o in H by (symmetry; exact Eb) end. unfold braced in *. match type of H with _ -> _ -> ?l = _ => change (l = ds); rewrite H end.
    - unfold ds, decl_start, lens. destruct (existsb annotation front); [reflexivity | lia].
    - unfold no_docs in *. apply Forall_app. split; [exact Hd|]. apply Forall_cons; [|apply Forall_nil]. intros c E. discriminate E.
    - intros cs C. apply in_app_or in C. destruct C as [C|[C|[]]].
      + apply (Hk _ C). left. reflexivity.
      + injection C as C _. unfold has_list in Hl. cbn [In] in Hl. rewrite C in Hl. repeat (destruct Hl as [Hl|Hl]; [discriminate Hl|]). destruct Hl.
  Qed.
  Lemma decl_range_eq : declaration_range (file_toks root) item = Done (Some (ds, b0)).
  Proof. unfold declaration_range. rewrite decl_end_eq, decl_start_eq. unfold mk_range. rewrite (proj2 (Nat.leb_le ds b0)) by apply b0_ge. reflexivity. Qed.
  Lemma item_is : item_at item = true.
  Proof.
    unfold item_at, item, braced. destruct Hok as (Hl & _). unfold has_list in Hl. cbn [In] in Hl.
    repeat (destruct Hl as [Hl|Hl]; [injection Hl as <- _; reflexivity|]). destruct Hl.
  Qed.
  Lemma on_decl_eq off : on_declaration (Some (ds, b0)) item (off, off) = ((ds <=? off) && (off <=? b0)) || ((b1 <=? off) && (off <=? b1 + 1)).
  Proof. unfold on_declaration. rewrite terminal_eq. reflexivity. Qed.
  Lemma on_body_eq off : on_body (Some (ds, b0)) item (off, off) = (b0 <? b1) && ((b0 <=? off) && (off <=? b1)).
  Proof. unfold on_body. rewrite terminal_eq. reflexivity. Qed.

  Lemma l_is : lkind L <> ATTR /\ lkind L <> RECORD_FIELD /\ item_at L = false.
  Proof.
    unfold lkind, item_at, item_node, L, brace_list. cbn [snd kind_of is_tok negb andb]. destruct Hok as (Hl & _). unfold has_list in Hl. cbn [In] in Hl.
    repeat (destruct Hl as [Hl|Hl]; [injection Hl as _ <-; repeat split; discriminate|]). destruct Hl.
  Qed.
  Lemma item_kind : lkind item <> ATTR /\ lkind item <> RECORD_FIELD.
  Proof.
    unfold lkind, item, braced. cbn [snd kind_of]. destruct Hok as (Hl & _). unfold has_list in Hl. cbn [In] in Hl.
    repeat (destruct Hl as [Hl|Hl]; [injection Hl as <- _; split; discriminate|]). destruct Hl.
  Qed.
  (** The item is what the cursor is on. *)
  Definition plain_el (y : lelem) : Prop := item_node (snd y) = false /\ lkind y <> ATTR /\ lkind y <> RECORD_FIELD.
  Lemma plain_offers off x mid : outside up -> focused_token root off = Done (Some (x, mid ++ item :: up)) -> plain_el x -> (forall y, In y mid -> plain_el y) ->
    focus root (off, off) =
      Done ((if ((ds <=? off) && (off <=? b0)) || ((b1 <=? off) && (off <=? b1 + 1)) then [Attributes item (ds, b0)] else [])
            ++ (if (((ds <=? off) && (off <=? b0)) || ((b1 <=? off) && (off <=? b1 + 1))) || ((b0 <? b1) && ((b0 <=? off) && (off <=? b1)))
                then [Entities item (if (b0 <? b1) && ((b0 <=? off) && (off <=? b1)) then Some (edit_range x (off, off)) else None)] else [])).
  Proof.
    intros Ho Hf Hx Hm. destruct item_kind as [I1 I2].
    rewrite (focus_item root off x (mid ++ item :: up) item up Hf).
    - unfold item_offers. rewrite decl_range_eq. cbn [obind_o fst snd].
      assert (Ef : option_map fst (closest (node_at RECORD_FIELD) (mid ++ item :: up)) = None).
      { rewrite closest_none; [reflexivity|]. intros y Hy. unfold node_at. destruct (skind_eqb (lkind y) RECORD_FIELD) eqn:E; [|apply andb_false_r]. apply skind_eqb_eq in E.
        apply in_app_or in Hy. destruct Hy as [Hy|[<-|Hy]]; [apply Hm in Hy; destruct Hy as (_ & _ & Hy) | | apply Ho in Hy; destruct Hy as (_ & Hy)]; contradiction. }
      rewrite Ef. replace (if skind_eqb (lkind item) STRUCT then None else None) with (@None lelem) by (destruct (skind_eqb (lkind item) STRUCT); reflexivity).
      rewrite on_decl_eq, on_body_eq. cbn [is_some orb negb or_else]. rewrite andb_true_r. reflexivity.
    - apply Hx.
    - intros y Hy. apply in_app_or in Hy. destruct Hy as [Hy|[<-|Hy]]; [apply Hm, Hy | exact I1 | apply Ho, Hy].
    - rewrite closest_skip by (intros y Hy; apply Hm, Hy). cbn [closest]. rewrite item_is. reflexivity.
  Qed.
  Lemma edit_new off x : in_file root x -> is_tok (snd x) = true -> touching off x -> new_code_at root off (edit_range x (off, off)).
  Proof.
    intros Hi Ht Hx. destruct x as [q [k s|k cs]]; [|discriminate Ht]. exists (q, Tok k s), k, s. split; [exact Hi|]. split; [reflexivity|]. split; [exact Hx|].
    unfold edit_range. change (lkind (q, Tok k s)) with k. destruct (skind_eqb k WHITESPACE) eqn:E.
    - left. apply skind_eqb_eq in E. split; [exact E|]. cbn [andb]. rewrite (proj2 (contains_range_inside _ _)); [reflexivity|]. unfold inside, range_of. unfold touching in Hx. cbn [fst snd]. unfold lrange_of. cbn [fst snd]. exact Hx.
    - right. split; [|reflexivity]. intros ->. rewrite skind_eqb_refl in E. discriminate E.
  Qed.
  Lemma tok_self c x : element_of c x -> is_tok (snd c) = true -> x = c.
  Proof. intros H Ht. inversion H; subst; [reflexivity|]. discriminate Ht. Qed.
  Lemma item_in : in_file root item.
  Proof. exact (inside_element _ _ _ _ Ha). Qed.
  Lemma list_file : in_file root L.
  Proof. exact (inside_element _ _ _ _ around_list). Qed.

  Lemma body_cursor off : outside up -> direct off L -> b0 <= off <= b1 -> b0 < b1 ->
    exists p, focus root (off, off) = Done ((if (off =? b0) || (off =? b1) then [Attributes item (ds, b0)] else []) ++ [Entities item (Some p)])
      /\ new_code_at root off p /\ (b0 < off < b1 -> b0 <= fst p /\ fst p <= snd p /\ snd p <= b1).
  Proof.
    intros Ho Hd Hb Hlt. pose proof b0_ge as (G1 & G2 & G3). destruct l_is as (L1 & L2 & L3).
    assert (EL : lend L = b1 + 1) by (unfold lend, L; cbn [fst snd]; rewrite list_len; unfold b1, body_end, body_start; lia).
    assert (ES : fst L + 1 = b0) by (unfold L, b0, body_start; cbn [fst]; lia).
    destruct (cursor_in root (fst L) lk (Tok L_CURLY (lit "{") :: inner ++ [Tok R_CURLY (lit "}")]) (item :: up) off around_list ltac:(change (fst L < off < lend L); lia))
      as (c & x & down & Hf & Ht & Hx & Hc & Hcx & Hdn & Hnil).
    change (focused_token root off = Done (Some (x, down ++ [L] ++ item :: up))) in Hf. rewrite app_assoc in Hf.
    assert (PX : forall y, element_of c y -> element_of y x -> plain_el y).
    { intros y Hy Hyx. exact (Hd lk _ c y eq_refl Hc Hy (touch_up _ _ _ Hyx Hx)). }
    assert (Ix : in_file root x).
    { apply (element_trans _ _ _ list_file). apply (eo_child _ _ _ c); [exact Hc | exact Hcx]. }
    exists (edit_range x (off, off)).
    rewrite (plain_offers off x _ Ho Hf).
    - split; [|split; [apply edit_new; assumption|]].
      + destruct (Nat.eqb_spec off b0) as [E0|E0].
        * rewrite (proj2 (Nat.leb_le ds off)), (proj2 (Nat.leb_le off b0)), (proj2 (Nat.leb_le b0 off)), (proj2 (Nat.leb_le off b1)), (proj2 (Nat.ltb_lt b0 b1)) by lia. reflexivity.
        * destruct (Nat.eqb_spec off b1) as [E1|E1].
          -- rewrite (proj2 (Nat.leb_gt off b0)), (proj2 (Nat.leb_le b1 off)), (proj2 (Nat.leb_le off (b1 + 1))), (proj2 (Nat.leb_le b0 off)), (proj2 (Nat.leb_le off b1)), (proj2 (Nat.ltb_lt b0 b1)) by lia.
             rewrite andb_false_r. reflexivity.
          -- rewrite (proj2 (Nat.leb_gt off b0)), (proj2 (Nat.leb_gt b1 off)), (proj2 (Nat.leb_le b0 off)), (proj2 (Nat.leb_le off b1)), (proj2 (Nat.ltb_lt b0 b1)) by lia.
             rewrite andb_false_r. reflexivity.
      + intros Hin. assert (Hxb : lend x <= b1).
        { cbn [place] in Hc. destruct Hc as [<-|Hc].
          - exfalso. apply (tok_self _ _) in Hcx; [|reflexivity]. subst x. unfold touching, lend in Hx. cbn [fst snd] in Hx. change (len_of (Tok L_CURLY (lit "{"))) with 1 in Hx. lia.
          - rewrite place_app in Hc. apply in_app_or in Hc. pose proof (element_bounds _ _ Hcx) as Bx.
            assert (Bc : lend c <= b1 \/ c = (b1, Tok R_CURLY (lit "}"))).
            { destruct Hc as [Hc|[<-|[]]].
              - left. apply place_bounds in Hc. unfold b1, body_end. change (len_of (Tok L_CURLY (lit "{"))) with 1 in Hc. unfold lend in Hc |- *. fold b0. rewrite ES in Hc. unfold lens in *. lia.
              - right. reflexivity. }
            destruct Bc as [Bc|Bc]; [lia|]. exfalso. subst c. apply (tok_self _ _) in Hcx; [|reflexivity]. subst x. unfold touching, lstart in Hx. cbn [fst] in Hx. lia. }
        unfold edit_range. destruct (skind_eqb (lkind x) WHITESPACE && contains_range (lrange_of x) (off, off)); cbn [fst snd]; unfold touching in Hx; lia.
    - apply PX; [exact Hcx | constructor].
    - intros y Hy. apply in_app_or in Hy. destruct Hy as [Hy|[<-|[]]]; [destruct (Hdn y Hy); apply PX; assumption | split; [exact L3 | split; [exact L1 | exact L2]]].
  Qed.

  Lemma head_cursor off : outside up -> direct off item -> o < off < b0 ->
    focus root (off, off) = Done (if ds <=? off then [Attributes item (ds, b0); Entities item None] else []).
  Proof.
    intros Ho Hd Hb. pose proof b0_ge as (G1 & G2 & G3). pose proof item_end as E.
    destruct (cursor_in root o K (front ++ decl ++ [brace_list lk inner]) up off Ha ltac:(change (o < off < lend item); lia))
      as (c & x & down & Hf & Ht & Hx & Hc & Hcx & Hdn & Hnil).
    assert (PX : forall y, element_of c y -> element_of y x -> plain_el y).
    { intros y Hy Hyx. exact (Hd K _ c y eq_refl Hc Hy (touch_up _ _ _ Hyx Hx)). }
    rewrite (plain_offers off x down Ho Hf).
    - rewrite (proj2 (Nat.leb_le off b0)), (proj2 (Nat.leb_gt b1 off)), (proj2 (Nat.leb_gt b0 off)) by lia. rewrite !andb_false_r, !andb_true_r, !orb_false_r. cbn [andb].
      destruct (ds <=? off); reflexivity.
    - apply PX; [exact Hcx | constructor].
    - intros y Hy. destruct (Hdn y Hy). apply PX; assumption.
  Qed.

  Lemma field_cursor off q fcs : K = STRUCT -> outside up -> In (q, Node RECORD_FIELD fcs) (place b0 inner) -> direct off (q, Node RECORD_FIELD fcs) ->
    q < off < lend (q, Node RECORD_FIELD fcs) ->
    focus root (off, off) = Done [Attributes (q, Node RECORD_FIELD fcs) (range_of (q, Node RECORD_FIELD fcs))].
  Proof.
    intros EK Ho Hq Hd Hb. pose proof b0_ge as (G1 & G2 & G3). destruct l_is as (L1 & L2 & L3). destruct item_kind as [I1 I2].
    assert (ES : fst L + 1 = b0) by (unfold L, b0, body_start; cbn [fst]; lia).
    set (fd := (q, Node RECORD_FIELD fcs) : lelem) in *.
    assert (Hfd : In fd (place (fst L) (Tok L_CURLY (lit "{") :: inner ++ [Tok R_CURLY (lit "}")]))).
    { cbn [place]. right. rewrite place_app. apply in_or_app. left. change (len_of (Tok L_CURLY (lit "{"))) with 1. rewrite ES. exact Hq. }
    pose proof (inside_child _ _ _ _ _ _ _ around_list Hfd) as Af.
    destruct (cursor_in root q RECORD_FIELD fcs (L :: item :: up) off Af Hb) as (c & x & down & Hf & Ht & Hx & Hc & Hcx & Hdn & Hnil).
    assert (PX : forall y, element_of c y -> element_of y x -> plain_el y).
    { intros y Hy Hyx. exact (Hd RECORD_FIELD _ c y eq_refl Hc Hy (touch_up _ _ _ Hyx Hx)). }
    assert (Bf : b0 <= q /\ lend fd <= b1).
    { pose proof (place_bounds _ _ _ Hq) as B. split; [exact (proj1 B) | exact (proj2 B)]. }
    rewrite (focus_item root off x (down ++ fd :: L :: item :: up) item up Hf).
    - unfold item_offers. rewrite decl_range_eq. cbn [obind_o fst snd]. change (lkind item) with K. rewrite EK. change (skind_eqb STRUCT STRUCT) with true. cbn match.
      rewrite closest_skip.
      2:{ intros y Hy. destruct (Hdn y Hy) as [Y1 Y2]. destruct (PX y Y1 Y2) as (_ & _ & Hn). unfold node_at. destruct (skind_eqb (lkind y) RECORD_FIELD) eqn:E; [apply skind_eqb_eq in E; contradiction | apply andb_false_r]. }
      cbn [closest]. change (node_at RECORD_FIELD fd) with true. cbn [option_map fst is_some orb negb or_else].
      rewrite on_decl_eq, on_body_eq.
      rewrite (proj2 (Nat.leb_gt off b0)), (proj2 (Nat.leb_gt b1 off)) by lia. rewrite !andb_false_r. cbn [andb orb]. reflexivity.
    - apply PX; [exact Hcx | constructor].
    - intros y Hy. apply in_app_or in Hy. destruct Hy as [Hy|[<-|[<-|[<-|Hy]]]]; [destruct (Hdn y Hy); apply PX; assumption | discriminate | exact L1 | exact I1 | apply Ho, Hy].
    - rewrite closest_skip by (intros y Hy; destruct (Hdn y Hy) as [Y1 Y2]; apply (PX y Y1 Y2)). cbn [closest]. change (item_at fd) with false. cbn match. rewrite L3. rewrite item_is. reflexivity.
  Qed.
End Braced.

(** ** Functions *)
Lemma offers_of root item up ds b0 t off x mid : outside up -> lkind item <> ATTR -> lkind item <> RECORD_FIELD -> item_at item = true ->
  declaration_range (file_toks root) item = Done (Some (ds, b0)) -> terminal item = Some t ->
  focused_token root off = Done (Some (x, mid ++ item :: up)) -> plain_el x -> (forall y, In y mid -> plain_el y) ->
  focus root (off, off) =
    Done ((if ((ds <=? off) && (off <=? b0)) || ((lf_start t <=? off) && (off <=? lf_end t)) then [Attributes item (ds, b0)] else [])
          ++ (if (((ds <=? off) && (off <=? b0)) || ((lf_start t <=? off) && (off <=? lf_end t))) || ((b0 <? lf_start t) && ((b0 <=? off) && (off <=? lf_start t)))
              then [Entities item (if (b0 <? lf_start t) && ((b0 <=? off) && (off <=? lf_start t)) then Some (edit_range x (off, off)) else None)] else [])).
Proof.
  intros Ho I1 I2 Hi Hr Ht Hf Hx Hm. rewrite (focus_item root off x (mid ++ item :: up) item up Hf).
  - unfold item_offers. rewrite Hr. cbn [obind_o fst snd].
    assert (Ef : option_map fst (closest (node_at RECORD_FIELD) (mid ++ item :: up)) = None).
    { rewrite closest_none; [reflexivity|]. intros y Hy. unfold node_at. destruct (skind_eqb (lkind y) RECORD_FIELD) eqn:E; [|apply andb_false_r]. apply skind_eqb_eq in E.
      apply in_app_or in Hy. destruct Hy as [Hy|[<-|Hy]]; [apply Hm in Hy; destruct Hy as (_ & _ & Hy) | | apply Ho in Hy; destruct Hy as (_ & Hy)]; contradiction. }
    rewrite Ef. replace (if skind_eqb (lkind item) STRUCT then None else None) with (@None lelem) by (destruct (skind_eqb (lkind item) STRUCT); reflexivity).
    unfold on_declaration, on_body. rewrite Ht. cbn [is_some orb negb or_else]. rewrite andb_true_r. reflexivity.
  - apply Hx.
  - intros y Hy. apply in_app_or in Hy. destruct Hy as [Hy|[<-|Hy]]; [apply Hm, Hy | exact I1 | apply Ho, Hy].
  - rewrite closest_skip by (intros y Hy; apply Hm, Hy). cbn [closest]. rewrite Hi. reflexivity.
Qed.

Section Func.
  Context (root : elem) (front decl : list elem) (last : elem) (inner : list elem) (o : nat) (up : list lelem).
  Hypothesis Hok : function_ok front decl last inner.
  Let item : lelem := (o, function front decl last).
  Let q := o + bytes (texts_of (front ++ decl)).
  Hypothesis Ha : around root item up.
  Let b0 := body_start o front decl.
  Let b1 := body_end o front decl inner.
  Let ds := decl_start o front.

  Lemma f_parts : front ++ decl ++ [last] = (front ++ decl) ++ [last].
  Proof. apply app_assoc. Qed.
  Lemma f_last_in : In (q, last) (place o (front ++ decl ++ [last])).
  Proof. rewrite f_parts, place_app. apply in_or_app. right. left. reflexivity. Qed.
  Lemma f_kinds e : In e (front ++ decl) -> kind_of e <> BLOCK_EXPR /\ kind_of e <> SEMICOLON.
  Proof.
    destruct Hok as (_ & Hf & _ & _ & Hd & _). intros He. apply in_app_iff in He. destruct He as [He|He].
    - unfold front_only in Hf. rewrite Forall_forall in Hf. destruct (Hf e He) as [(cs & -> & _)|(k & s & -> & Hk & _)]; cbn [kind_of];
        [split; discriminate | split; intros ->; discriminate Hk].
    - specialize (Hd e He). split; intros E; apply Hd; rewrite E; cbn [In]; tauto.
  Qed.
  Lemma f_le : o + bytes (texts_of front) <= q /\ ds <= q /\ b0 = q + 1 /\ b0 <= b1.
  Proof. unfold b1, b0, q, ds, decl_start, body_end, body_start, texts_of. rewrite flat_map_app, bytes_app. destruct (existsb annotation front); lia. Qed.
  Lemma f_start : declaration_start (file_toks root) item = ds.
  Proof.
    destruct (leaves_inside _ _ _ _ Ha) as (pre & post & El & Eb). cbn [fst snd] in El, Eb. cbn [Nat.add] in Eb.
    destruct Hok as (Hl & Hf & Hb & Hd & Hk & _).
    pose proof (item_start pre post FN front (decl ++ [last]) Hf Hb) as H.
    unfold file_toks. rewrite El. unfold file_leaves, at_place in H. unfold item in *.
    cbn [fst] in Eb. match type of H with context [(bytes ?t, _)] => replace (bytes t) with o in H by (symmetry; exact Eb) end. unfold function in *. match type of H with _ -> _ -> ?l = _ => change (l = ds); rewrite H end.
    - unfold ds, decl_start, lens. destruct (existsb annotation front); [reflexivity | lia].
    - unfold no_docs in *. apply Forall_app. split; [exact Hd|]. apply Forall_cons; [|apply Forall_nil]. intros c E. destruct Hl as [->|[-> _]]; discriminate E.
    - intros cs C. apply in_app_or in C. destruct C as [C|[C|[]]].
      + apply (Hk _ C). left. reflexivity.
      + destruct Hl as [->|[-> _]]; discriminate C.
  Qed.
  Lemma f_lacks k : (forall e, In e (front ++ decl) -> kind_of e <> k) -> forallb (fun e => negb (node_of k e)) (front ++ decl) = true.
  Proof.
    intros H. apply forallb_forall. intros e He. specialize (H e He). unfold node_of. destruct (skind_eqb (kind_of e) k) eqn:E; [apply skind_eqb_eq in E; contradiction|]. rewrite andb_false_r. reflexivity.
  Qed.
  Lemma f_ends : exists t, declaration_end item = Some b0 /\ terminal item = Some t
    /\ ((last = block inner /\ lf_start t = b1 /\ lf_end t = b1 + 1 /\ lend item = b1 + 1) \/ (last = Tok SEMICOLON (lit ";") /\ lf_start t = q /\ lf_end t = b0 /\ lend item = b0)).
  Proof.
    pose proof f_le as (_ & _ & E0 & _). destruct Hok as (Hl & _ & _ & _ & _ & Hi). unfold declaration_end, terminal. change (lkind item) with FN. cbv match.
    destruct Hl as [El|[El Ei]].
    - assert (C : child_node BLOCK_EXPR item = Some (q, block inner)).
      { unfold item, function. rewrite f_parts, El. unfold block. apply child_node_at, f_lacks. intros e He. apply f_kinds, He. }
      assert (S : child_node STMT_LIST (q, block inner) = Some (q, brace_list STMT_LIST inner)).
      { unfold block. change [brace_list STMT_LIST inner] with ([] ++ brace_list STMT_LIST inner :: []). unfold brace_list at 1. rewrite child_node_at by reflexivity. rewrite lens_nil, Nat.add_0_r. reflexivity. }
      exists (b1, (R_CURLY, lit "}")). rewrite C, S. cbn [obind]. rewrite S. split; [|split].
      + reflexivity.
      + assert (T : child_token R_CURLY (q, brace_list STMT_LIST inner) = Some (b1, (R_CURLY, lit "}"))).
        { unfold brace_list. change (Tok L_CURLY (lit "{") :: inner ++ [Tok R_CURLY (lit "}")]) with ((Tok L_CURLY (lit "{") :: inner) ++ Tok R_CURLY (lit "}") :: []). rewrite child_token_at.
          - f_equal. f_equal. unfold b1, body_end. change (body_start o front decl) with b0. rewrite E0. unfold lens, texts_of. cbn [flat_map text_of]. rewrite bytes_app. change (bytes (lit "{")) with 1. lia.
          - cbn [forallb]. apply andb_true_iff. split; [reflexivity|]. apply forallb_forall. intros e He. destruct (Hi e He) as [_ H].
            unfold tok_of. destruct e as [k s|k cs]; [|reflexivity]. cbn [kind_of is_tok andb] in *. destruct (skind_eqb k R_CURLY) eqn:E; [apply skind_eqb_eq in E; contradiction | reflexivity]. }
        unfold r_curly. cbn [obind]. rewrite T. reflexivity.
      + left. split; [exact El|]. split; [reflexivity|]. split; [reflexivity|]. unfold lend, item, function. cbn [fst snd]. rewrite len_of_node, f_parts, El. unfold texts_of at 1. rewrite flat_map_app, bytes_app. cbn [flat_map].
        rewrite app_nil_r. fold (texts_of (front ++ decl)). unfold block. cbn [text_of flat_map]. rewrite app_nil_r. pose proof (braces_len STMT_LIST inner) as H. unfold len_of in H.
        unfold b1, body_end, body_start. rewrite H. lia.
    - assert (C : child_node BLOCK_EXPR item = None).
      { unfold item, function. rewrite f_parts, El. apply child_node_none. rewrite forallb_app. apply andb_true_iff. split; [apply f_lacks; intros e He; apply f_kinds, He | reflexivity]. }
      assert (S : child_token SEMICOLON item = Some (q, (SEMICOLON, lit ";"))).
      { unfold item, function. rewrite f_parts, El. rewrite child_token_at; [reflexivity|]. apply forallb_forall. intros e He. destruct (f_kinds e He) as [_ H].
        unfold tok_of. destruct e as [k s|k cs]; [|reflexivity]. cbn [kind_of is_tok andb] in *. destruct (skind_eqb k SEMICOLON) eqn:E; [apply skind_eqb_eq in E; contradiction | reflexivity]. }
      exists (q, (SEMICOLON, lit ";")). rewrite C. unfold semicolon_end. rewrite S. cbn [option_map obind oor r_curly]. split; [f_equal; exact (eq_sym E0)|]. split; [reflexivity|].
      right. split; [exact El|]. split; [reflexivity|]. split; [exact (eq_sym E0)|]. unfold lend, item, function. cbn [fst snd]. rewrite len_of_node, f_parts, El. unfold texts_of. rewrite flat_map_app, bytes_app.
      cbn [flat_map text_of]. rewrite app_nil_r. unfold b0, body_start, texts_of. change (bytes (lit ";")) with 1. lia.
  Qed.
  Lemma f_range : declaration_range (file_toks root) item = Done (Some (ds, b0)).
  Proof. destruct f_ends as (t & E & _). unfold declaration_range. rewrite E, f_start. unfold mk_range. pose proof f_le. rewrite (proj2 (Nat.leb_le ds b0)) by lia. reflexivity. Qed.

  Lemma f_head off : outside up -> direct off item -> o < off < b0 ->
    focus root (off, off) = Done (if ds <=? off then [Attributes item (ds, b0); Entities item None] else []).
  Proof.
    intros Ho Hd Hb. pose proof f_le as (G1 & G2 & G3 & G4). destruct f_ends as (t & _ & Et & Ht).
    assert (Hend : b0 <= lend item) by (destruct Ht as [(_ & _ & _ & ->)|(_ & _ & _ & ->)]; lia).
    destruct (cursor_in root o FN (front ++ decl ++ [last]) up off Ha ltac:(change (o < off < lend item); lia)) as (c & x & down & Hf & Htk & Hx & Hc & Hcx & Hdn & Hnil).
    assert (PX : forall y, element_of c y -> element_of y x -> plain_el y).
    { intros y Hy Hyx. exact (Hd FN _ c y eq_refl Hc Hy (touch_up _ _ _ Hyx Hx)). }
    rewrite (offers_of root item up ds b0 t off x down Ho ltac:(discriminate) ltac:(discriminate) eq_refl f_range Et Hf).
    - rewrite (proj2 (Nat.leb_le off b0)), (proj2 (Nat.leb_gt b0 off)) by lia. rewrite !andb_false_r, !andb_true_r, !orb_false_r. cbn [andb].
      destruct Ht as [(_ & -> & _)|(_ & -> & _)].
      + rewrite (proj2 (Nat.leb_gt b1 off)) by lia. cbn [andb]. rewrite orb_false_r. destruct (ds <=? off); reflexivity.
      + destruct (Nat.leb_spec ds off) as [D|D]; [cbn [orb andb app]; reflexivity|].
        rewrite (proj2 (Nat.leb_gt q off)) by lia. reflexivity.
    - apply PX; [exact Hcx | constructor].
    - intros y Hy. destruct (Hdn y Hy). apply PX; assumption.
  Qed.
  Lemma f_body off : last = block inner -> outside up -> direct off (q, brace_list STMT_LIST inner) -> b0 < off < b1 ->
    exists p, focus root (off, off) = Done [Entities item (Some p)].
  Proof.
    intros El Ho Hd Hb. pose proof f_le as (G1 & G2 & G3 & G4). destruct f_ends as (t & _ & Et & Ht).
    destruct Ht as [(_ & Es & Ee & Elast)|(C & _)]; [|rewrite C in El; discriminate El].
    assert (A1 : around root (q, block inner) (item :: up)) by (rewrite <- El; exact (inside_child _ _ _ _ _ _ _ Ha f_last_in)).
    assert (A2 : around root (q, brace_list STMT_LIST inner) ((q, block inner) :: item :: up)) by (apply (inside_child _ _ _ _ _ _ _ A1); left; reflexivity).
    assert (EL : lend (q, brace_list STMT_LIST inner) = b1 + 1) by (unfold lend; cbn [fst snd]; rewrite (braces_len STMT_LIST inner); unfold b1, body_end; fold b0; lia).
    destruct (cursor_in root q STMT_LIST (Tok L_CURLY (lit "{") :: inner ++ [Tok R_CURLY (lit "}")]) _ off A2 ltac:(change (q < off < lend (q, brace_list STMT_LIST inner)); lia))
      as (c & x & down & Hf & Htk & Hx & Hc & Hcx & Hdn & Hnil).
    change (focused_token root off = Done (Some (x, down ++ [(q, brace_list STMT_LIST inner); (q, block inner)] ++ item :: up))) in Hf. rewrite app_assoc in Hf.
    assert (PX : forall y, element_of c y -> element_of y x -> plain_el y).
    { intros y Hy Hyx. exact (Hd STMT_LIST _ c y eq_refl Hc Hy (touch_up _ _ _ Hyx Hx)). }
    exists (edit_range x (off, off)).
    rewrite (offers_of root item up ds b0 t off x _ Ho ltac:(discriminate) ltac:(discriminate) eq_refl f_range Et Hf).
    - rewrite Es, (proj2 (Nat.leb_gt off b0)), (proj2 (Nat.leb_gt b1 off)), (proj2 (Nat.leb_le b0 off)), (proj2 (Nat.leb_le off b1)), (proj2 (Nat.ltb_lt b0 b1)) by lia.
      rewrite andb_false_r. reflexivity.
    - apply PX; [exact Hcx | constructor].
    - intros y Hy. apply in_app_or in Hy. destruct Hy as [Hy|[<-|[<-|[]]]]; [destruct (Hdn y Hy); apply PX; assumption | split; [reflexivity | split; discriminate] | split; [reflexivity | split; discriminate]].
  Qed.
End Func.

(** ** Items that end in a semicolon *)
Section Short.
  Context (root : elem) (K : skind) (front decl : list elem) (o : nat) (up : list lelem).
  Hypothesis Hok : short_ok K front decl.
  Let item : lelem := (o, short K front decl).
  Let q := o + bytes (texts_of (front ++ decl)).
  Hypothesis Ha : around root item up.
  Let b0 := body_start o front decl.
  Let ds := decl_start o front.

  Lemma s_parts : front ++ decl ++ [semi] = (front ++ decl) ++ [semi].
  Proof. apply app_assoc. Qed.
  Lemma s_kinds e : In e (front ++ decl) -> kind_of e <> SEMICOLON /\ kind_of e <> ITEM_LIST /\ kind_of e <> RECORD_FIELD_LIST.
  Proof.
    destruct Hok as (_ & Hf & _ & _ & Hd). intros He. apply in_app_iff in He. destruct He as [He|He].
    - unfold front_only in Hf. rewrite Forall_forall in Hf. destruct (Hf e He) as [(cs & -> & _)|(k & s & -> & Hk & _)]; cbn [kind_of];
        [repeat split; discriminate | repeat split; intros ->; discriminate Hk].
    - specialize (Hd e He). repeat split; intros E; apply Hd; rewrite E; cbn [In]; tauto.
  Qed.
  Lemma s_le : ds <= q /\ b0 = q + 1.
  Proof. unfold b0, q, ds, decl_start, body_start, texts_of. rewrite flat_map_app, bytes_app. destruct (existsb annotation front); lia. Qed.
  Lemma s_end : lend item = b0.
  Proof.
    unfold lend, item, short. cbn [fst snd]. rewrite len_of_node, s_parts. unfold texts_of. rewrite flat_map_app, bytes_app.
    cbn [flat_map text_of semi]. rewrite app_nil_r. unfold b0, body_start, texts_of. change (bytes (lit ";")) with 1. lia.
  Qed.
  Lemma s_start : declaration_start (file_toks root) item = ds.
  Proof.
    destruct (leaves_inside _ _ _ _ Ha) as (pre & post & El & Eb). cbn [fst snd] in El, Eb. cbn [Nat.add] in Eb.
    destruct Hok as (Hl & Hf & Hb & Hd & Hk).
    pose proof (item_start pre post K front (decl ++ [semi]) Hf Hb) as H.
    unfold file_toks. rewrite El. unfold file_leaves, at_place in H. unfold item in *.
    cbn [fst] in Eb. match type of H with context [(bytes ?t, _)] => replace (bytes t) with o in H by (symmetry; exact Eb) end. unfold short in *. match type of H with _ -> _ -> ?l = _ => change (l = ds); rewrite H end.
    - unfold ds, decl_start, lens. destruct (existsb annotation front); [reflexivity | lia].
    - unfold no_docs in *. apply Forall_app. split; [exact Hd|]. apply Forall_cons; [|apply Forall_nil]. intros c E. discriminate E.
    - intros cs C. apply in_app_or in C. destruct C as [C|[C|[]]]; [|discriminate C]. apply (Hk _ C). left. reflexivity.
  Qed.
  Lemma s_semi : child_token SEMICOLON item = Some (q, (SEMICOLON, lit ";")).
  Proof.
    unfold item, short. rewrite s_parts. unfold semi. rewrite child_token_at; [reflexivity|]. apply forallb_forall. intros e He. destruct (s_kinds e He) as [H _].
    unfold tok_of. destruct e as [k s|k cs]; [|reflexivity]. cbn [kind_of is_tok andb] in *. destruct (skind_eqb k SEMICOLON) eqn:E; [apply skind_eqb_eq in E; contradiction | reflexivity].
  Qed.
  Lemma s_fields l : field_list item = Some l -> skind_eqb (lkind l) RECORD_FIELD_LIST = false.
  Proof.
    intros H. destruct (skind_eqb (lkind l) RECORD_FIELD_LIST) eqn:E; [|reflexivity]. exfalso. apply skind_eqb_eq in E. unfold field_list, item, short in H. cbn [snd fst] in H.
    apply find_some in H as [H _]. apply place_In in H. rewrite s_parts in H. apply in_app_or in H as [H|[H|[]]].
    - destruct (s_kinds _ H) as (_ & _ & C). exact (C E).
    - unfold lkind in E. rewrite <- H in E. discriminate E.
  Qed.
  Lemma s_ends : declaration_end item = Some b0 /\ terminal item = Some (q, (SEMICOLON, lit ";")).
  Proof.
    pose proof s_le as (_ & E0). pose proof s_semi as S. pose proof s_fields as SF. destruct Hok as (HK & _).
    assert (D : semicolon_end item = Some b0) by (unfold semicolon_end; rewrite S; cbn [option_map]; f_equal; exact (eq_sym E0)).
    assert (C : child_node ITEM_LIST item = None).
    { unfold item, short. apply child_node_none. rewrite s_parts, forallb_app. apply andb_true_iff. split; [|reflexivity].
      apply forallb_forall. intros e He. destruct (s_kinds e He) as (_ & H & _). unfold node_of. destruct (skind_eqb (kind_of e) ITEM_LIST) eqn:E; [apply skind_eqb_eq in E; contradiction|]. rewrite andb_false_r. reflexivity. }
    unfold declaration_end, terminal. change (lkind item) with K. cbn [In] in HK. destruct HK as [<-|[<-|[<-|[]]]]; cbn match.
    - rewrite C. unfold r_curly. cbn [obind oor]. split; assumption.
    - destruct (field_list item) as [l|] eqn:F; [rewrite (SF l eq_refl), D, S; split; reflexivity | cbn [oor]; split; assumption].
    - change (skind_eqb TYPE_ALIAS TYPE_ALIAS) with true. cbn match. split; assumption.
  Qed.
  Lemma s_range : declaration_range (file_toks root) item = Done (Some (ds, b0)).
  Proof. destruct s_ends as (E & _). unfold declaration_range. rewrite E, s_start. unfold mk_range. pose proof s_le. rewrite (proj2 (Nat.leb_le ds b0)) by lia. reflexivity. Qed.

  Lemma s_cursor off : outside up -> direct off item -> o < off < b0 ->
    focus root (off, off) = Done (if ds <=? off then [Attributes item (ds, b0); Entities item None] else []).
  Proof.
    intros Ho Hd Hb. pose proof s_le as (G1 & G2). destruct s_ends as (_ & Et).
    destruct (cursor_in root o K (front ++ decl ++ [semi]) up off Ha ltac:(change (o < off < lend item); rewrite s_end; lia)) as (c & x & down & Hf & Htk & Hx & Hc & Hcx & Hdn & Hnil).
    assert (PX : forall y, element_of c y -> element_of y x -> plain_el y).
    { intros y Hy Hyx. exact (Hd K _ c y eq_refl Hc Hy (touch_up _ _ _ Hyx Hx)). }
    assert (HK : lkind item <> ATTR /\ lkind item <> RECORD_FIELD /\ item_at item = true).
    { destruct Hok as (HK & _). unfold item, short. cbn [In] in HK. destruct HK as [<-|[<-|[<-|[]]]]; repeat split; discriminate. }
    destruct HK as (K1 & K2 & K3).
    rewrite (offers_of root item up ds b0 (q, (SEMICOLON, lit ";")) off x down Ho K1 K2 K3 s_range Et Hf).
    - change (lf_start (q, (SEMICOLON, lit ";"))) with q. change (lf_end (q, (SEMICOLON, lit ";"))) with (q + 1). rewrite (proj2 (Nat.leb_le off b0)), (proj2 (Nat.ltb_ge b0 q)) by lia. rewrite !andb_true_r. cbn [andb].
      destruct (Nat.leb_spec ds off) as [D|D]; [cbn [orb andb app]; reflexivity|].
      rewrite (proj2 (Nat.leb_gt q off)) by lia. reflexivity.
    - apply PX; [exact Hcx | constructor].
    - intros y Hy. destruct (Hdn y Hy). apply PX; assumption.
  Qed.
End Short.

(** ** The file *)
Lemma root_cursor cs off : 0 < off < len_of (Node SOURCE_FILE cs) -> (forall c, In c (place 0 cs) -> touching off c -> is_tok (snd c) = true) ->
  exists p, focus (Node SOURCE_FILE cs) (off, off) = Done [RootEntities p] /\ new_code_at (Node SOURCE_FILE cs) off p.
Proof.
  intros Hb Hd. destruct (cursor_in (Node SOURCE_FILE cs) 0 SOURCE_FILE cs [] off (io_here _ _) Hb) as (c & x & down & Hf & Ht & Hx & Hc & Hcx & Hdn & Hnil).
  assert (Tc : is_tok (snd c) = true) by (apply (Hd c Hc); exact (touch_up _ _ _ Hcx Hx)).
  pose proof (tok_self _ _ Hcx Tc) as ->.
  rewrite (Hnil Tc) in Hf. cbn [app] in Hf. exists (edit_range c (off, off)).
  split.
  - unfold focus, covering_attribute, parent_at, focused_element. cbn [fst snd]. rewrite Nat.eqb_refl, Hf. cbn [obind_o find closest fst snd].
    change (is_attr (0, Node SOURCE_FILE cs)) with false. cbn [obind_o]. unfold parent_item. cbn [closest snd fst]. change (item_at (0, Node SOURCE_FILE cs)) with false. cbn match.
    destruct (skind_eqb (lkind c) ATTR); reflexivity.
  - apply edit_new; [|exact Tc | exact Hx]. apply (eo_child _ _ _ c); [exact Hc | constructor].
Qed.

(** ** Attributes *)
Lemma in_attribute root a r : in_file root a -> plain_attr a -> points_into r a -> focus root r = Done [].
Proof.
  intros Hf Ha Hr. pose proof (covering_attribute_complete root a r Hf Ha Hr) as Hc. unfold focus, focused_element.
  destruct Hr as (Hi & Hle & Hemp). pose proof (element_bounds _ _ Hf) as Hb. unfold lstart at 1, lend at 2 in Hb. cbn [fst snd] in Hb. unfold inside, range_of in Hi. cbn [fst snd] in Hi.
  destruct (Nat.eqb_spec (fst r) (snd r)) as [E|E].
  - pose proof Hc as Hc'. unfold covering_attribute in Hc'. rewrite E, Nat.eqb_refl in Hc'. rewrite E. destruct (focused_token root (snd r)) as [[p|]|]; cbn [obind_o] in *; [|discriminate Hc' | discriminate Hc'].
    rewrite Hc. reflexivity.
  - rewrite (proj2 (contains_range_inside (0, len_of root) r)) by (unfold inside; cbn [fst snd]; lia). cbn [obind_o]. rewrite Hc. reflexivity.
Qed.

(** ** Everything that is offered *)
Lemma closest_in p l a up : closest p l = Some (a, up) -> p a = true /\ In a l /\ incl up l.
Proof. intros H. destruct (closest_some _ _ _ _ H) as (Hp & d & ->). split; [exact Hp|]. split; [apply in_elt|]. intros x Hx. apply in_or_app. right. right. exact Hx. Qed.

Lemma focus_sound root r os : focus root r = Done os -> fst r <= snd r -> Forall (offer_sound root r) os.
Proof.
  intros H Hle. unfold focus in H. destruct (focused_element root r) as [f|] eqn:Ef; [|discriminate]. cbn [obind_o] in H. destruct f as [p|].
  2:{ injection H as <-. destruct (len_of root =? 0); cbn [andb]; [|constructor]. destruct (contains_range (0, len_of root) r) eqn:Ec; [|constructor].
      apply Forall_cons; [|constructor]. apply contains_range_inside in Ec. exists (0, root). split; [constructor|]. split; [exact Ec | left; reflexivity]. }
  destruct (focused_sound _ _ _ Ef Hle) as (Hi & Hx).
  assert (G : forall x, In x (fst p :: snd p) -> in_file root x /\ inside r (range_of x)).
  { intros x I. split; [apply Hx, I|]. apply (inside_trans _ _ (fst p)); [apply Hx, I | exact Hi]. }
  destruct (covering_attribute root r) as [[a|]|]; cbn [obind_o] in H; [injection H as <-; constructor | | discriminate].
  assert (P : forall q, parent_at root r = Done (Some q) -> In (fst q) (fst p :: snd p) /\ item_node (snd (fst q)) = true).
  { assert (PI : forall q0 q, incl (snd q0) (fst p :: snd p) -> parent_item q0 = Some q -> In (fst q) (fst p :: snd p) /\ item_node (snd (fst q)) = true).
    { intros q0 q Hq0 Hq. unfold parent_item in Hq. destruct (closest item_at (snd q0)) as [[it u]|] eqn:Ec; [|discriminate].
      assert (E : q = (it, u)) by (destruct (skind_eqb (lkind (fst q0)) ATTR); [destruct (existsb _ _); [congruence | discriminate] | congruence]).
      subst q. destruct (closest_in _ _ _ _ Ec) as (E1 & E2 & _). split; [apply Hq0, E2 | exact E1]. }
    intros q Hq. unfold parent_at in Hq. rewrite Ef in Hq. cbn [obind_o] in Hq. injection Hq as Hq.
    assert (Ip : incl (snd p) (fst p :: snd p)) by (intros x I; right; exact I).
    destruct (fst r =? snd r).
    - destruct (closest is_attr (snd p)) as [[a u]|] eqn:Ec; [|exact (PI p q Ip Hq)]. destruct (closed_attr a); [|discriminate].
      destruct (closest_in _ _ _ _ Ec) as (_ & _ & E3). refine (PI _ _ _ Hq). intros x I. right. apply E3, I.
    - destruct (item_at (fst p)) eqn:Ei; [injection Hq as <-; split; [left; reflexivity | exact Ei] | exact (PI p q Ip Hq)]. }
  destruct (parent_at root r) as [[[it u]|]|]; cbn [obind_o] in H; [| |discriminate].
  - destruct (P _ eq_refl) as (I & Hit). cbn [fst] in I, Hit. destruct (G it I) as (G1 & G2). unfold item_offers in H.
    destruct (declaration_range (file_toks root) it) as [d|]; [|discriminate]. cbn [obind_o] in H. injection H as <-. apply Forall_app. split.
    + match goal with |- Forall _ (if is_some ?f || _ then _ else _) => destruct f as [fd|] eqn:Efd end; cbn [is_some orb or_else].
      * apply Forall_cons; [|constructor]. destruct (skind_eqb (lkind it) STRUCT); [|discriminate]. destruct (closest (node_at RECORD_FIELD) (snd p)) as [[f' u']|] eqn:Ec; [|discriminate].
        injection Efd as <-. destruct (closest_in _ _ _ _ Ec) as (E1 & E2 & _). destruct (G f' (or_intror E2)) as (F1 & F2). split; [exact F1|]. split; [exact F2|]. right.
        destruct f' as [q [k s|k cs]]; [discriminate|]. unfold node_at in E1. apply andb_true_iff in E1. destruct E1 as [_ E1]. apply skind_eqb_eq in E1. cbn in E1. subst k. exists cs. reflexivity.
      * destruct (on_declaration d it r); [|constructor]. apply Forall_cons; [|constructor]. split; [exact G1|]. split; [exact G2|]. left. exact Hit.
    + match goal with |- Forall _ (if ?b then _ else _) => destruct b end; [|constructor]. apply Forall_cons; [|constructor]. split; [exact G1|]. split; [exact G2 | exact Hit].
  - injection H as <-. destruct (snd p) as [|y l] eqn:Es; [constructor|]. destruct (skind_eqb (lkind y) SOURCE_FILE) eqn:E; [|constructor]. apply Forall_cons; [|constructor].
    apply skind_eqb_eq in E. destruct (G y) as (Y1 & Y2); [right; left; reflexivity|]. exists y. split; [exact Y1|]. split; [exact Y2 | right; exact E].
Qed.
