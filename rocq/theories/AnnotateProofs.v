(** Proofs for C102. *)
From Coq Require Import List Lia.
From Verif Require Import Base BaseFacts Unicode PositionModel PositionProofs VersionModel TranslateModel SyntaxModel AttrModel AttrSpec AttrProofs AttrProps EditModel EditSpec EditProofs EditProps UtilModel UtilSpec UtilProofs ArgEditModel ArgEditSpec ArgEditProofs ArgEditProps
  SuggestModel SuggestSpec SuggestProps FlattenModel RuleModel RuleSpec ArgCheckModel ArgCheckSpec ArgCheckProofs EntityModel EntitySpec HintModel HintSpec HintProofs ExtractModel ExtractSpec ExtractProofs CompleteSpec CompleteProofs FocusModel FocusSpec FinishSpec FinishProofs AnnotateModel AnnotateSpec.
Import ListNotations.

(** ** Texts *)
Lemma insert_text_next next env ids k : next <> Some EQ -> next <> Some L_PAREN ->
  insert_text (InsertContext next env ids) k = insert_text (InsertContext None env ids) k.
Proof.
  intros H1 H2. assert (E1 : inserts_eq (InsertContext next env ids) k = inserts_eq (InsertContext None env ids) k).
  { unfold inserts_eq. cbn [ic_next]. destruct (value_kind k); try reflexivity; destruct next as [n|]; try reflexivity; destruct n; try reflexivity; contradiction H1; reflexivity. }
  assert (E2 : inserts_nested (InsertContext next env ids) k = inserts_nested (InsertContext None env ids) k).
  { unfold inserts_nested. rewrite E1. f_equal. cbn [ic_next]. destruct (value_kind k) as [| | | | | | | | ? [|] | ? ? [|]]; try reflexivity; destruct next as [n|]; try reflexivity; destruct n; try reflexivity; contradiction H2; reflexivity. }
  unfold insert_text. rewrite E1, E2. reflexivity.
Qed.
Lemma id_for_one bits used : (1 <= largest bits)%N -> id_for bits used (id_or_one (largest bits) used).
Proof.
  intros Hb. unfold id_for, least_free. destruct (in_dec N.eq_dec (id_or_one (largest bits) used) used) as [Hi|Hi].
  - right. assert (G : forall m, (1 <= m <= largest bits)%N -> In m used).
    { intros m Hm. destruct (in_dec N.eq_dec m used) as [H|H]; [exact H|]. destruct (id_or_one_least _ _ _ Hm H) as [_ X]. contradiction. }
    split; [|exact G]. unfold id_or_one. pose proof (suggest_unique_id_spec (largest bits) None used) as S. cbv zeta iota in S. specialize (S Hb).
    destruct (suggest_unique_id (largest bits) None used) as [n| |]; [|reflexivity|reflexivity]. destruct S as (A & B & _). exfalso. apply B, G. lia.
  - left. pose proof (id_or_one_range (largest bits) used Hb) as R. split; [exact R|]. split; [exact Hi|].
    intros m Hm. destruct (in_dec N.eq_dec m used) as [H|H]; [exact H|]. destruct (id_or_one_least (largest bits) used m ltac:(lia) H). lia.
Qed.
Lemma insert_default next env ids k : next <> Some EQ -> next <> Some L_PAREN -> default_text env ids k (fst (insert_text (InsertContext next env ids) k)).
Proof.
  intros H1 H2. rewrite insert_text_next by assumption.
  destruct k; try reflexivity; cbn [default_text].
  - destruct env; [|reflexivity]. unfold insert_text, inserts_nested, inserts_eq. cbn. rewrite app_nil_r. reflexivity.
  - destruct env; [|reflexivity]. unfold insert_text, inserts_nested, inserts_eq. cbn. rewrite app_nil_r. reflexivity.
  - exists (id_or_one (largest 32) (ids AExtension)). split; [apply id_for_one; discriminate|].
    unfold insert_text, inserts_nested, inserts_eq. cbn. rewrite app_nil_r. reflexivity.
  - exists (id_or_one (largest 16) (ids AFunction)). split; [apply id_for_one; discriminate|].
    unfold insert_text, inserts_nested, inserts_eq. cbn. rewrite app_nil_r. reflexivity.
  - exists (id_or_one (largest 32) (ids ASelector)). split; [apply id_for_one; discriminate|].
    unfold insert_text, inserts_nested, inserts_eq. cbn. rewrite app_nil_r. reflexivity.
Qed.
Lemma insert_accepted c k s : snd (insert_text c k) = Some s -> (forall p, ic_env c = Some p -> ~ In 125%N p) -> accepted s (fst (insert_text c k)).
Proof.
  unfold insert_text. intros H He. pose proof (default_accepted c k He) as Hd.
  assert (P : forall (b : bool) x, ~ In 36%N x -> accepted (if b then x else []) (if b then x else [])) by (intros [|] x Hx; [apply accepted_plain, Hx | apply acc_nil]).
  destruct (inserts_eq c k || inserts_nested c k); [|discriminate H].
  destruct (default_value c k) as [tv sv]. cbn [fst snd] in *. injection H as <-.
  apply accepted_app; [apply accepted_plain, name_no_dollar|].
  apply accepted_app; [apply P; vm_compute; intuition discriminate|]. apply accepted_app; [apply P; vm_compute; intuition discriminate|].
  apply accepted_app; [exact Hd | apply P; vm_compute; intuition discriminate].
Qed.
Lemma snippet_around c k (pre suf : option str) o : ~ In 36%N (opt_str pre) -> ~ In 36%N (opt_str suf) ->
  let t := insert_text c k in let around s := opt_str pre ++ s ++ opt_str suf in
  snippet_ok (ic_env c) (edit_insert_snippet (around (fst t)) o (option_map around (snd t))).
Proof.
  intros Hp Hs t around s H He. cbn [edit_insert_snippet te_snippet te_text] in *. destruct (snd t) as [x|] eqn:E; [|discriminate]. injection H as <-. unfold around.
  apply accepted_app; [apply accepted_plain, Hp|]. apply accepted_app; [|apply accepted_plain, Hs]. apply (insert_accepted c k x E He).
Qed.

(** ** Extending an attribute *)
Section Extend.
  Context (U : unicode) (env : lelem -> option str) (ids : lelem -> arg_kind -> list N) (root : elem) (Hlex : lexed U root).

  Lemma extend_at X a Y A T t B p k : stands root X a Y -> leaves (snd a) <> [] ->
    leaves root = A ++ T ++ t :: B -> (forall u, In u T -> is_trivia (fst u) = true) -> is_trivia (fst t) = false ->
    fst p = bytes (text A) -> lstart a <= fst p <= lend a ->
    extend env ids (file_toks root) a p k
    = (let x := insert_text (InsertContext (Some (fst t)) (env a) (ids a)) k in
       let around s := opt_str (fst (snd p)) ++ s ++ opt_str (snd (snd p)) in
       Done (edit_insert_snippet (around (fst x)) (fst p) (option_map around (snd x)))).
  Proof using Hlex.
    intros (EL & Ef) Hnn E HT Ht Ep Hb. unfold extend, file_toks.
    assert (Hne : forall u, In u (leaves root) -> snd u <> []) by (intros [kt st] Hu; apply (proj1 (Hlex _ _ Hu))).
    assert (Er : lrange_of a = (bytes (text X), bytes (text (X ++ leaves (snd a))))).
    { unfold lrange_of, lstart, lend. rewrite Ef, text_app, bytes_app, ArgEditProofs.text_leaves. reflexivity. }
    destruct (next_solid_first X (leaves (snd a)) Y (fst p)) as (y & En & Hf).
    - intros u Hu. apply Hne. rewrite EL. exact Hu.
    - exact Hnn.
    - unfold lrange_of in Er. injection Er as Er1 Er2. rewrite <- Er1, <- Er2. exact Hb.
    - rewrite Er, EL, (arg_insert_next _ _ _ _ _ _ _ En). cbn [obind_o]. rewrite <- EL, E, Ep in Hf.
      rewrite (first_solid_kind A T B t y); [reflexivity | | exact HT | exact Ht | exact Hf].
      intros u Hu. apply Hne. rewrite E. exact Hu.
  Qed.
  Lemma extend_total X a Y p k : stands root X a Y -> leaves (snd a) <> [] -> lstart a <= fst p <= lend a -> exists e, extend env ids (file_toks root) a p k = Done e /\ te_range e = (fst p, fst p) /\ te_text e <> [].
  Proof using Hlex.
    intros (EL & Ef) Hnn Hb. unfold extend, file_toks.
    assert (Hne : forall u, In u (leaves root) -> snd u <> []) by (intros [kt st] Hu; apply (proj1 (Hlex _ _ Hu))).
    assert (Er : lrange_of a = (bytes (text X), bytes (text (X ++ leaves (snd a))))).
    { unfold lrange_of, lstart, lend. rewrite Ef, text_app, bytes_app, ArgEditProofs.text_leaves. reflexivity. }
    destruct (next_solid_first X (leaves (snd a)) Y (fst p)) as (y & En & Hf).
    - intros u Hu. apply Hne. rewrite EL. exact Hu.
    - exact Hnn.
    - unfold lrange_of in Er. injection Er as Er1 Er2. rewrite <- Er1, <- Er2. exact Hb.
    - rewrite Er, EL, (arg_insert_next _ _ _ _ _ _ _ En). cbn [obind_o]. eexists. split; [reflexivity|]. split; [reflexivity|]. cbn [edit_insert_snippet te_text]. intros H. apply app_eq_nil in H. destruct H as [_ H]. apply app_eq_nil in H. destruct H as [H _].
      unfold insert_text in H. destruct (if _ || _ then _ else _) as [? ?]. cbn [fst] in H. apply app_eq_nil in H. destruct H as [H _]. destruct k; discriminate H.
  Qed.
End Extend.

(** ** Attributes as written *)
Section Written.
  Context (w1 w2 path w3 : list elem) (Hw : written w1 w2 path w3) (X Y : list (skind * str)).
  Let at_ args : lelem := (bytes (text X), attribute w1 w2 path args w3).

  Lemma find_blank (f : lelem -> bool) w : blank w -> (forall c, is_tok (snd c) = true -> is_trivia (lkind c) = true -> f c = false) -> forall o rest, find f (place o w ++ rest) = find f rest.
  Proof.
    intros H Hf. induction H as [|e w (k & t & -> & Hk & _) _ IH]; intros o rest; [reflexivity|]. cbn [place app find].
    rewrite (Hf (o, Tok k t) eq_refl Hk). apply IH.
  Qed.
  Lemma attr_leaves args : leaves (attribute w1 w2 path args w3) = leaves_of (attr_head w1 w2 path) ++ leaves_of args ++ leaves_of (attr_tail w3).
  Proof.
    unfold attribute, attr_head. rewrite leaves_node. unfold leaves_of. cbn [flat_map leaves app]. rewrite !flat_map_app. cbn [flat_map leaves app]. rewrite !flat_map_app. cbn [flat_map app].
    change (leaves (Node META (path ++ args))) with (flat_map leaves (path ++ args)). rewrite flat_map_app. f_equal. rewrite <- !app_assoc. f_equal. cbn [app]. f_equal. rewrite <- !app_assoc. reflexivity.
  Qed.
  Lemma tail_leaves : leaves_of (attr_tail w3) = leaves_of w3 ++ [(R_BRACK, lit "]")].
  Proof. unfold attr_tail. rewrite leaves_of_app. reflexivity. Qed.
  Lemma meta_found args : find (fun c => is_node c && skind_eqb (lkind c) META) (children_of (at_ args)) = Some (bytes (text X) + bytes (texts_of (Tok POUND (lit "#") :: w1 ++ Tok L_BRACK (lit "[") :: w2)), Node META (path ++ args)).
  Proof using Hw.
    destruct Hw as (H1 & H2 & H3 & _). unfold at_, attribute, children_of. cbn [fst snd place].
    match goal with |- find ?f (_ :: ?l) = _ => change (find f l = Some (bytes (text X) + bytes (texts_of (Tok POUND (lit "#") :: w1 ++ Tok L_BRACK (lit "[") :: w2)), Node META (path ++ args))) end.
    rewrite place_app, find_blank; [|exact H1 | intros [q e] G _; unfold is_node; cbn [snd] in *; rewrite G; reflexivity].
    cbn [place]. match goal with |- find ?f (_ :: ?l) = _ => change (find f l = Some (bytes (text X) + bytes (texts_of (Tok POUND (lit "#") :: w1 ++ Tok L_BRACK (lit "[") :: w2)), Node META (path ++ args))) end.
    rewrite place_app, find_blank; [|exact H2 | intros [q e] G _; unfold is_node; cbn [snd] in *; rewrite G; reflexivity].
    cbn [place find]. unfold is_node. cbn [snd is_tok negb andb lkind kind_of skind_eqb skind_beq]. do 2 f_equal.
    unfold texts_of. cbn [flat_map]. rewrite flat_map_app. cbn [flat_map]. rewrite !bytes_app. fold (texts_of w1) (texts_of w2). unfold len_of. lia.
  Qed.
  Lemma list_found body : token_tree_of (at_ [paren_tree body]) = Some (tree_at (before_args X w1 w2 path) body).
  Proof using Hw.
    unfold token_tree_of. rewrite meta_found. cbn [obind]. unfold children_of. cbn [fst snd]. rewrite place_app.
    assert (G : forall o l rest, (forall cs, ~ In (Node TOKEN_TREE cs) l) -> find (fun c => is_node c && skind_eqb (lkind c) TOKEN_TREE) (place o l ++ rest) = find (fun c => is_node c && skind_eqb (lkind c) TOKEN_TREE) rest).
    { intros o l rest. revert o. induction l as [|e l IH]; intros o H; [reflexivity|]. cbn [place app find].
      assert (E : is_node (o, e) && skind_eqb (lkind (o, e)) TOKEN_TREE = false).
      { destruct e as [k t|k cs]; [reflexivity|]. destruct (skind_eqb (lkind (o, Node k cs)) TOKEN_TREE) eqn:Ek; [|apply andb_false_r].
        exfalso. unfold lkind in Ek. cbn [snd kind_of] in Ek. apply skind_eqb_eq in Ek. subst k. apply (H cs). left. reflexivity. }
      rewrite E. apply IH. intros cs Hi. apply (H cs). right. exact Hi. }
    rewrite G by apply Hw. cbn [place find]. unfold is_node, paren_tree at 1. cbn [snd is_tok negb andb lkind kind_of skind_eqb skind_beq].
    unfold tree_at, before_args. do 2 f_equal. rewrite text_app, bytes_app, text_leaves_of. unfold attr_head. rewrite <- Nat.add_assoc. f_equal.
    replace (Tok POUND (lit "#") :: w1 ++ Tok L_BRACK (lit "[") :: w2 ++ path) with ((Tok POUND (lit "#") :: w1 ++ Tok L_BRACK (lit "[") :: w2) ++ path) by (cbn [app]; rewrite <- app_assoc; reflexivity).
    rewrite texts_of_app, bytes_app. reflexivity.
  Qed.
  Lemma no_list : token_tree_of (at_ []) = None.
  Proof using Hw.
    unfold token_tree_of. rewrite meta_found. cbn [obind]. unfold children_of. cbn [fst snd]. rewrite app_nil_r.
    destruct (find _ _) as [c|] eqn:E; [|reflexivity]. apply find_some in E. destruct E as [Hi E]. apply place_In in Hi. destruct c as [q e]. cbn [snd] in Hi.
    destruct e as [k t|k cs]; [discriminate E|]. unfold is_node in E. cbn [snd is_tok negb andb] in E. unfold lkind in E. cbn [snd kind_of] in E. apply skind_eqb_eq in E. subst k. exfalso. destruct Hw as (_ & _ & _ & Hp). exact (Hp _ Hi).
  Qed.
  Lemma bracket_found args : child_token R_BRACK (at_ args) = Some (bytes (text (X ++ leaves_of (attr_head w1 w2 path) ++ leaves_of args ++ leaves_of w3)), (R_BRACK, lit "]")).
  Proof using Hw.
    destruct Hw as (H1 & H2 & H3 & _).
    assert (G : forall w, blank w -> forall o rest, find_map (fun c : lelem => match snd c with Tok k' s => if skind_eqb k' R_BRACK then Some (fst c, (k', s)) else None | Node _ _ => None end) (place o w ++ rest)
      = find_map (fun c : lelem => match snd c with Tok k' s => if skind_eqb k' R_BRACK then Some (fst c, (k', s)) else None | Node _ _ => None end) rest).
    { intros w H. induction H as [|e w (k & t & -> & Hk & _) _ IH]; intros o rest; [reflexivity|]. cbn [place app find_map snd]. replace (skind_eqb k R_BRACK) with false by (destruct k; try reflexivity; discriminate Hk). apply IH. }
    unfold child_token, at_, attribute, attr_tail. cbn [fst snd place find_map].
    change (skind_eqb POUND R_BRACK) with false. cbn iota. rewrite place_app, G by exact H1. cbn [place find_map snd]. change (skind_eqb L_BRACK R_BRACK) with false. cbn iota.
    rewrite place_app, G by exact H2. cbn [place find_map snd]. rewrite place_app, G by exact H3. cbn [place find_map snd]. change (skind_eqb R_BRACK R_BRACK) with true. cbn iota. do 2 f_equal. cbn [fst].
    unfold attr_head. rewrite !text_app, !bytes_app, !text_leaves_of. unfold texts_of. cbn [flat_map]. rewrite !flat_map_app. cbn [flat_map]. rewrite !flat_map_app, !bytes_app. unfold len_of. rewrite text_of_node. unfold texts_of. rewrite flat_map_app, bytes_app. lia.
  Qed.
End Written.

Lemma attr_nonempty o w1 w2 path args w3 : lstart (o, attribute w1 w2 path args w3) < lend (o, attribute w1 w2 path args w3).
Proof. unfold lstart, lend, attribute, len_of. cbn [fst snd]. rewrite text_of_node. unfold texts_of. cbn [flat_map]. rewrite bytes_app. change (bytes (text_of (Tok POUND (lit "#")))) with 1. lia. Qed.

(** ** The place for an argument *)
Lemma place_affixes toks rb tt b p : arg_insert_place toks rb tt b = Some p -> ~ In 36%N (opt_str (fst (snd p))) /\ ~ In 36%N (opt_str (snd (snd p))).
Proof.
  assert (S : forall ks t, ~ In 36%N (opt_str (sep_unless ks t))) by (intros ks [t|]; cbn; [destruct (is_kind ks t); vm_compute; intuition discriminate | intros []]).
  assert (L1 : ~ In 36%N (opt_str (Some (lit "(")))) by (vm_compute; intuition discriminate).
  assert (L2 : ~ In 36%N (opt_str (Some (lit ")")))) by (vm_compute; intuition discriminate).
  assert (L3 : ~ In 36%N (opt_str (None : option str))) by (intros []).
  assert (O : forall x y : option str, ~ In 36%N (opt_str x) -> ~ In 36%N (opt_str y) -> ~ In 36%N (opt_str (oor x y))) by (intros [x|] y Hx Hy; assumption).
  unfold arg_insert_place. destruct rb as [rb|]; [|discriminate]. destruct tt as [t|]; [|intros H; injection H as <-; split; assumption].
  intros H. injection H as <-. cbn [fst snd]. split.
  - destruct (child_token L_PAREN t), (child_token R_PAREN t), b; cbn [obind]; auto.
  - destruct (child_token L_PAREN t), (child_token R_PAREN t), b; cbn [obind]; auto.
Qed.
Lemma place_some toks rb tt b : rb <> None <-> arg_insert_place toks rb tt b <> None.
Proof. unfold arg_insert_place. destruct rb; [|tauto]. destruct tt; split; discriminate. Qed.
Lemma entity_rank k : entity_argument k <-> is_entity_type k = true.
Proof. unfold entity_argument. split; [intros H; repeat (destruct H as [<-|H]; [reflexivity|]); destruct H | destruct k; intros H; try discriminate H; cbn; tauto]. Qed.
(** What follows the parenthesis *)
Lemma first_of_list cores b body post : listed cores b body -> (forall c cs, cores = c :: cs -> plain_argument c) ->
  exists T n s rest, leaves_of body ++ (R_PAREN, lit ")") :: post = T ++ (n, s) :: rest /\ (forall u, In u T -> is_trivia (fst u) = true) /\ is_trivia n = false /\ n <> EQ /\ n <> L_PAREN.
Proof.
  intros H Hp. assert (G : forall t1 c r, blank t1 -> plain_argument c -> exists T n s rest, leaves_of (t1 ++ c ++ r) ++ (R_PAREN, lit ")") :: post = T ++ (n, s) :: rest /\ (forall u, In u T -> is_trivia (fst u) = true) /\ is_trivia n = false /\ n <> EQ /\ n <> L_PAREN).
  { intros t1 c r Ht (k & n & rest & -> & Hk & _). exists (leaves_of t1), k, n, (leaves_of (rest ++ r) ++ (R_PAREN, lit ")") :: post).
    split; [rewrite leaves_of_app, <- app_assoc; f_equal|]. split; [apply blank_trivial, Ht|]. destruct Hk as [-> | ->]; repeat split; discriminate. }
  destruct H as [t Ht|c t1 t2 _ H1 _|c t1 t2 t3 _ H1 _ _|c t1 t2 d cs b body _ H1 _ _].
  - exists (leaves_of t), R_PAREN, (lit ")"), post. split; [reflexivity|]. split; [apply blank_trivial, Ht|]. repeat split; discriminate.
  - apply G; [exact H1 | eapply Hp; reflexivity].
  - apply G; [exact H1 | eapply Hp; reflexivity].
  - apply G; [exact H1 | eapply Hp; reflexivity].
Qed.

Section Extended.
  Context (U : unicode) (env : lelem -> option str) (ids : lelem -> arg_kind -> list N) (root : elem) (Hlex : lexed U root).
  Context (w1 w2 path w3 : list elem) (Hw : written w1 w2 path w3) (X Y : list (skind * str)).
  Let at_ args : lelem := (bytes (text X), attribute w1 w2 path args w3).
  Let pre := before_args X w1 w2 path.
  Let post := behind_args w3 Y.

  Lemma bounds args : leaves (snd (at_ args)) <> [] /\ lend (at_ args) = bytes (text (X ++ leaves (snd (at_ args)))).
  Proof. split; [discriminate|]. unfold lend, at_. cbn [fst snd]. rewrite text_app, bytes_app, ArgEditProofs.text_leaves. reflexivity. Qed.

  Section List_.
    Context (body : list elem) (cores : list (list elem)) (b : bool) (Hst : stands root X (at_ [paren_tree body]) Y) (Hl : listed cores b body) (Hfirst : forall c cs, cores = c :: cs -> plain_argument c).
    Let a := at_ [paren_tree body].

    Lemma file_is : leaves root = file_tokens pre body post.
    Proof using Hst. destruct Hst as (E & _). rewrite E. unfold at_. cbn [snd]. rewrite attr_leaves. unfold file_tokens, pre, post, before_args, behind_args. unfold leaves_of at 2. cbn [flat_map]. rewrite app_nil_r, <- !app_assoc. reflexivity. Qed.
    Lemma file_text_is : text_of root = file_text pre body post.
    Proof using Hst. unfold file_text. rewrite <- file_is. symmetry. apply ArgEditProofs.text_leaves. Qed.

    Lemma extended k : exists p e, place_in (file_toks root) a k = Some p /\ extend env ids (file_toks root) a p k = Done e /\ adds root pre body post cores b (env a) (ids a) k e.
    Proof using Hst Hl Hfirst Hlex Hw.
      unfold place_in, a, at_. rewrite (list_found _ _ _ _ Hw), (bracket_found _ _ _ _ Hw). unfold file_toks at 1. rewrite file_is. fold pre.
      set (rb := (bytes _, (R_BRACK, lit "]"))). set (at1 := (bytes (text X), attribute w1 w2 path [paren_tree body] w3)). set (toks := place_leaves 0 (file_tokens pre body post)).
      destruct (arg_insert_place toks (Some rb) (Some (tree_at pre body)) (is_entity_type k)) as [p|] eqn:Ep; [|exfalso; revert Ep; apply (proj1 (place_some toks (Some rb) _ _)); discriminate].
      assert (Hp : fst p = if is_entity_type k then bytes (text (pre ++ [(L_PAREN, lit "(")])) else bytes (text (pre ++ (L_PAREN, lit "(") :: leaves_of body))).
      { unfold arg_insert_place in Ep. rewrite child_lparen, (child_rparen pre _ _ _ Hl) in Ep. injection Ep as <-. cbn [fst]. destruct (is_entity_type k).
        - rewrite text_app, bytes_app. reflexivity.
        - change ((L_PAREN, lit "(") :: leaves_of body) with ([(L_PAREN, lit "(")] ++ leaves_of body). rewrite !text_app, !bytes_app, text_leaves_of. change (bytes (text [(L_PAREN, lit "(")])) with 1. unfold rparen, lf_start, lens. cbn [fst]. lia. }
      assert (EF : leaves root = (pre ++ [(L_PAREN, lit "(")]) ++ leaves_of body ++ (R_PAREN, lit ")") :: post).
      { rewrite file_is. unfold file_tokens. rewrite leaves_paren. rewrite <- !app_assoc. cbn [app]. rewrite <- app_assoc. reflexivity. }
      assert (Hin : lstart at1 <= fst p <= lend at1).
      { destruct (bounds [paren_tree body]) as (_ & Be). change (lend at1) with (lend (at_ [paren_tree body])). rewrite Be. unfold at_. cbn [snd]. rewrite attr_leaves. unfold lstart, at1. cbn [fst].
        assert (EA : X ++ leaves_of (attr_head w1 w2 path) ++ leaves_of [paren_tree body] ++ leaves_of (attr_tail w3) = (pre ++ (L_PAREN, lit "(") :: leaves_of body) ++ (R_PAREN, lit ")") :: leaves_of (attr_tail w3)).
        { unfold pre, before_args. unfold leaves_of at 2. cbn [flat_map]. rewrite app_nil_r, leaves_paren. rewrite <- !app_assoc. cbn [app]. rewrite <- !app_assoc. reflexivity. }
        rewrite EA, Hp. assert (Hx : bytes (text X) <= bytes (text pre)) by (unfold pre, before_args; rewrite text_app, bytes_app; lia).
        assert (Hy : bytes (text (pre ++ [(L_PAREN, lit "(")])) <= bytes (text (pre ++ (L_PAREN, lit "(") :: leaves_of body))).
        { change ((L_PAREN, lit "(") :: leaves_of body) with ([(L_PAREN, lit "(")] ++ leaves_of body). rewrite app_assoc, (text_app _ (leaves_of body)), bytes_app. lia. }
        assert (Hz : bytes (text pre) <= bytes (text (pre ++ [(L_PAREN, lit "(")]))) by (rewrite text_app, bytes_app; lia).
        rewrite (text_app _ ((R_PAREN, lit ")") :: _)), bytes_app. destruct (is_entity_type k); lia. }
      assert (Hnext : exists T n s rest, leaves root = (if is_entity_type k then pre ++ [(L_PAREN, lit "(")] else pre ++ (L_PAREN, lit "(") :: leaves_of body) ++ T ++ (n, s) :: rest /\ (forall u, In u T -> is_trivia (fst u) = true) /\ is_trivia n = false /\ n <> EQ /\ n <> L_PAREN).
      { destruct (is_entity_type k).
        - destruct (first_of_list _ _ _ post Hl Hfirst) as (T & n & s & rest & E & H). exists T, n, s, rest. rewrite EF, E. split; [reflexivity | exact H].
        - exists [], R_PAREN, (lit ")"), post. rewrite EF. split; [rewrite <- !app_assoc; reflexivity|]. split; [intros u []|]. repeat split; discriminate. }
      destruct Hnext as (T & n & s & rest & E & HT & Hn & Hn1 & Hn2).
      exists p. eexists. split; [reflexivity|]. split.
      - erewrite (extend_at U env ids root Hlex X at1 Y _ T (n, s) rest p k Hst); [reflexivity | discriminate | exact E | exact HT | exact Hn | rewrite Hp; destruct (is_entity_type k); reflexivity | exact Hin].
      - cbv zeta. destruct (place_affixes _ _ _ _ _ Ep) as [A1 A2]. split; [exact (snippet_around (InsertContext (Some n) (env at1) (ids at1)) k (fst (snd p)) (snd (snd p)) (fst p) A1 A2)|].
        exists (fst (insert_text (InsertContext (Some n) (env at1) (ids at1)) k)). split; [apply insert_default; congruence|]. intros new Hnew Et. rewrite file_text_is. cbn [fst]. rewrite <- Et. split.
        + intros Hk. apply entity_rank in Hk. rewrite Hk in Ep. destruct (insert_first pre body post rb cores b new Hl Hnew) as (p' & body' & b' & E1 & E2 & E3 & E4).
          pose proof (eq_trans (eq_sym Ep) E1) as E0. injection E0 as <-. exists body', b'. split; [exact E3|]. split; [exact E4|]. destruct p as (o & x & y). exact E2.
        + intros Hk Hb Hc. assert (Ek : is_entity_type k = false) by (destruct (is_entity_type k) eqn:Ek; [exfalso; apply Hk, entity_rank, Ek | reflexivity]). rewrite Ek in Ep.
          destruct (insert_last pre body post rb cores b new Hl Hnew Hb Hc) as (p' & body' & E1 & E2 & E3).
          pose proof (eq_trans (eq_sym Ep) E1) as E0. injection E0 as <-. exists body'. split; [exact E3|]. destruct p as (o & x & y). exact E2.
    Qed.
  End List_.

  (** An attribute without a list *)
  Lemma extended_list (Hst : stands root X (at_ []) Y) k : exists p e, place_in (file_toks root) (at_ []) k = Some p /\ extend env ids (file_toks root) (at_ []) p k = Done e
    /\ adds_list root (pre ++ leaves_of w3) ((R_BRACK, lit "]") :: Y) (env (at_ [])) (ids (at_ [])) k e.
  Proof using Hlex Hw.
    unfold place_in, at_. rewrite (no_list _ _ _ _ Hw), (bracket_found _ _ _ _ Hw). cbn [arg_insert_place]. unfold lf_start. cbn [fst].
    set (at1 := (bytes (text X), attribute w1 w2 path [] w3)). set (A := X ++ leaves_of (attr_head w1 w2 path) ++ leaves_of [] ++ leaves_of w3).
    assert (EL : leaves root = A ++ (R_BRACK, lit "]") :: Y).
    { destruct Hst as (E & _). rewrite E. unfold at_. cbn [snd]. rewrite attr_leaves, tail_leaves. unfold A. cbn [app]. do 2 (rewrite <- ?app_assoc; cbn [app]). reflexivity. }
    eexists. eexists. split; [reflexivity|]. split.
    - erewrite (extend_at U env ids root Hlex X at1 Y A [] (R_BRACK, lit "]") Y _ k Hst); [reflexivity | discriminate | exact EL | intros u [] | reflexivity | reflexivity |].
      cbn [fst]. destruct (bounds []) as (_ & Be). change (lend at1) with (lend (at_ [])). rewrite Be. unfold at_. cbn [snd]. rewrite attr_leaves, tail_leaves. unfold lstart, at1, A. cbn [fst].
      rewrite !text_app, !bytes_app. lia.
    - cbv zeta. cbn [fst snd]. split.
      + exact (snippet_around (InsertContext (Some R_BRACK) (env at1) (ids at1)) k (Some (lit "(")) (Some (lit ")")) (bytes (text A)) ltac:(vm_compute; intuition discriminate) ltac:(vm_compute; intuition discriminate)).
      + exists (fst (insert_text (InsertContext (Some R_BRACK) (env at1) (ids at1)) k)). split; [apply insert_default; discriminate|].
        exists (text A), [], (text ((R_BRACK, lit "]") :: Y)). cbn [edit_insert_snippet te_range te_text fst snd opt_str]. rewrite app_nil_r.
        assert (EA : pre ++ leaves_of w3 = A) by (unfold pre, before_args, A; cbn [app]; rewrite <- app_assoc; reflexivity).
        rewrite <- ArgEditProofs.text_leaves, EL, text_app, EA. repeat split. rewrite <- !app_assoc. reflexivity.
  Qed.
End Extended.

(** ** Casting *)
Section Items.
  Context (px : expr_parser) (words : elem -> list str) (ctx : lelem -> item) (env : lelem -> option str) (ids : lelem -> arg_kind -> list N).

  Lemma cast_ink a : is_some (cast_at px words a) = ink_node words (snd a).
  Proof.
    unfold cast_at, ink_node, attr_cast, attr_can_cast. cbn [as_segments as_token_tree]. destruct (words (snd a)) as [|s l]; [reflexivity|].
    destruct (_ || _); [|reflexivity]. destruct l as [|m [|? ?]]; try reflexivity. destruct (hd_error _); [reflexivity|]. destruct (token_tree_of a); reflexivity.
  Qed.
  Lemma cast_range a ia : cast_at px words a = Some ia -> at_range ia = lrange_of a.
  Proof.
    unfold cast_at, attr_cast, attr_can_cast. cbn [as_segments as_token_tree]. destruct (words (snd a)) as [|s l]; [discriminate|].
    destruct (_ || _); [|discriminate]. destruct l as [|m [|? ?]]; try (intros H; injection H as <-; reflexivity). destruct (hd_error _); [intros H; injection H as <-; reflexivity|].
    destruct (token_tree_of a); intros H; injection H as <-; reflexivity.
  Qed.
  Lemma attrs_at_In t a ia : In (a, ia) (attrs_at px words t) <-> In a (child_nodes ATTR t) /\ cast_at px words a = Some ia.
  Proof.
    unfold attrs_at. rewrite filter_map_In. split.
    - intros (x & Hx & E). destruct (cast_at px words x) eqn:C; [|discriminate]. cbn in E. injection E as -> ->. auto.
    - intros (Hx & E). exists a. rewrite E. auto.
  Qed.
  Lemma attrs_none o K cs : it_attrs (item_of px words ctx (o, Node K cs)) = [] <-> nothing (is_ink (ink_node words)) cs.
  Proof.
    unfold item_of. cbn [it_attrs]. split.
    - intros H x Hx. destruct (is_ink (ink_node words) x) eqn:E; [|reflexivity]. exfalso. unfold is_ink in E. rewrite !andb_true_iff in E. destruct E as ((E1 & E2) & E3).
      apply in_split in Hx. destruct Hx as (A & B & ->). set (c := (o + bytes (texts_of A), x)).
      assert (Hc : In c (child_nodes ATTR (o, Node K (A ++ x :: B)))).
      { unfold child_nodes. cbn [fst snd]. apply filter_In. split; [rewrite place_app; apply in_or_app; right; left; reflexivity|]. unfold lkind, c. cbn [snd]. rewrite E1, E2. reflexivity. }
      pose proof (cast_ink c) as C. unfold c at 2 in C. cbn [snd] in C. rewrite E3 in C. destruct (cast_at px words c) as [ia|] eqn:Ec; [|discriminate C].
      pose proof (proj2 (attrs_at_In _ c ia) (conj Hc Ec)) as Hi. destruct (attrs_at px words _); [destruct Hi | discriminate H].
    - intros H. destruct (attrs_at px words (o, Node K cs)) as [|[a ia] l] eqn:E; [reflexivity|]. exfalso.
      assert (Hi : In (a, ia) (attrs_at px words (o, Node K cs))) by (rewrite E; left; reflexivity). apply attrs_at_In in Hi. destruct Hi as (Hi & Hc).
      unfold child_nodes in Hi. cbn [fst snd] in Hi. apply filter_In in Hi. destruct Hi as (Hi & Hk). apply place_In in Hi. specialize (H _ Hi). unfold is_ink in H.
      unfold lkind in Hk. rewrite Hk in H. cbn [andb] in H. rewrite <- cast_ink, Hc in H. discriminate H.
  Qed.

  (** The primary attribute *)
  Lemma place_same cs : forall o x y, In x (place o cs) -> In y (place o cs) -> lrange_of x = lrange_of y -> lstart x < lend x -> x = y.
  Proof.
    induction cs as [|e cs IH]; intros o x y Hx Hy E Hl; [destruct Hx|]. cbn [place] in Hx, Hy. unfold lrange_of in E. injection E as E1 E2.
    destruct Hx as [<-|Hx], Hy as [<-|Hy].
    - reflexivity.
    - apply place_ge in Hy. unfold lstart, lend in *. cbn [fst snd] in *. lia.
    - apply place_ge in Hx. unfold lstart, lend in *. cbn [fst snd] in *. lia.
    - apply (IH _ x y Hx Hy); [unfold lrange_of; congruence | exact Hl].
  Qed.
  Lemma kind_dec (x y : ink_attr) : {kind_precedes (at_kind x) (at_kind y)} + {~ kind_precedes (at_kind x) (at_kind y)}.
  Proof. destruct (Compare_dec.lt_dec (attr_rank (at_kind x)) (attr_rank (at_kind y))) as [h|h]; [left; apply kind_precedes_rank, h | right; intros q; apply h, kind_precedes_rank, q]. Qed.
  Lemma primary_found t a ia : In a (child_nodes ATTR t) -> cast_at px words a = Some ia -> lstart a < lend a ->
    primary_of (fun x y => kind_precedes (at_kind x) (at_kind y)) (filter (fun x => negb (attr_kind_unknown (at_kind x))) (map snd (attrs_at px words t))) ia ->
    primary_at px words ctx t = Some (a, ia).
  Proof.
    intros Ha Hc Hl Hp. unfold primary_at. change (it_attrs (item_of px words ctx t)) with (map snd (attrs_at px words t)).
    destruct (primary_candidate (map snd (attrs_at px words t))) as [[p b]|] eqn:Ep.
    - destruct (C56_primary_attribute _ _ _ Ep) as (_ & _ & Hq & _).
      assert (E : p = ia) by (apply (primary_unique _ _ _ _ kind_dec Hq Hp)). subst p.
      destruct (find _ _) as [[a' ia']|] eqn:Ef.
      + apply find_some in Ef. destruct Ef as (Hi & Er). apply attrs_at_In in Hi. destruct Hi as (Hi & Hc'). cbn [snd] in Er.
        apply andb_true_iff in Er. rewrite !Nat.eqb_eq in Er. rewrite (cast_range _ _ Hc'), (cast_range _ _ Hc) in Er.
        assert (a' = a) as ->; [|congruence]. symmetry. unfold child_nodes in Hi, Ha. destruct (snd t) as [|k cs]; [destruct Ha|]. apply filter_In in Hi, Ha.
        apply (place_same cs (fst t)); [apply Ha | apply Hi | | exact Hl]. destruct (lrange_of a), (lrange_of a'); cbn in Er. destruct Er as [-> ->]. reflexivity.
      + exfalso. pose proof (find_none _ _ Ef (a, ia) (proj2 (attrs_at_In t a ia) (conj Ha Hc))) as H. cbn [snd] in H. unfold AttrModel.range_eqb in H. rewrite !Nat.eqb_refl in H. discriminate H.
    - exfalso. refine (proj1 (C56_primary_attribute_exists _) Ep ia _ _).
      + apply in_map_iff. exists (a, ia). split; [reflexivity | apply attrs_at_In; auto].
      + destruct Hp as (u & w & E & _). assert (Hi : In ia (u ++ ia :: w)) by apply in_elt. rewrite <- E in Hi. apply filter_In in Hi. destruct Hi as (_ & Hi). apply negb_true_iff in Hi.
        unfold attr_kind_unknown in Hi. split; intros Q; rewrite Q in Hi; discriminate Hi.
  Qed.
  Lemma no_primary t : (forall a, In a (map snd (attrs_at px words t)) -> ~ known_kind (at_kind a)) -> primary_at px words ctx t = None.
  Proof. intros H. unfold primary_at. change (it_attrs (item_of px words ctx t)) with (map snd (attrs_at px words t)). rewrite (proj2 (C56_primary_attribute_exists _) H). reflexivity. Qed.

  Lemma collect_forall2 {A B} (f : A -> outcome (option B)) (R : A -> B -> Prop) l : (forall x, In x l -> exists y, f x = Done (Some y) /\ R x y) -> exists ys, collect f l = Done ys /\ Forall2 R l ys.
  Proof.
    induction l as [|x l IH]; intros H; [exists []; split; [reflexivity | constructor]|]. destruct (H x (or_introl eq_refl)) as (y & Ey & Hy).
    destruct IH as (ys & Eys & Hys); [intros z Hz; apply H; right; exact Hz|]. exists (y :: ys). cbn [collect]. rewrite Ey, Eys. split; [reflexivity | constructor; assumption].
  Qed.
End Items.

(** ** Boundaries of tokens *)
Definition boundary (root : elem) (o : nat) : Prop := exists A B, leaves root = A ++ B /\ o = bytes (text A).
Lemma element_boundary root a : element_of (0, root) a -> boundary root (lstart a) /\ boundary root (lend a).
Proof.
  intros H. destruct (element_leaves _ _ H) as (A & C & E & Ef). cbn [fst snd] in E, Ef. rewrite Nat.add_0_l in Ef. split.
  - exists A, (leaves (snd a) ++ C). split; [exact E | exact Ef].
  - exists (A ++ leaves (snd a)), C. split; [rewrite E, <- app_assoc; reflexivity|]. unfold lend. rewrite Ef, text_app, bytes_app, ArgEditProofs.text_leaves. reflexivity.
Qed.
Lemma leaf_boundary root x : In x (file_toks root) -> boundary root (lf_start x).
Proof.
  unfold file_toks. intros H. apply in_split in H. destruct H as (l1 & l2 & E). unfold boundary.
  assert (G : forall l o l1, place_leaves o l = l1 ++ x :: l2 -> exists A B, l = A ++ B /\ lf_start x = o + bytes (text A)).
  { clear. induction l as [|t l IH]; intros o l1 E; [destruct l1; discriminate E|]. cbn [place_leaves] in E. destruct l1 as [|y l1]; cbn [app] in E; injection E as E1 E2.
    - subst x. exists [], (t :: l). split; [reflexivity|]. unfold lf_start. cbn [fst]. cbn. lia.
    - destruct (IH _ _ E2) as (A & B & -> & Ex). exists (t :: A), B. split; [reflexivity|]. rewrite Ex. change (text (t :: A)) with (snd t ++ text A). rewrite bytes_app. lia. }
  destruct (G _ _ _ E) as (A & B & E1 & E2). exists A, B. auto.
Qed.
Lemma find_map_found {A B} (f : A -> option B) l y : find_map f l = Some y -> exists x, In x l /\ f x = Some y.
Proof. induction l as [|x l IH]; cbn [find_map]; [discriminate|]. destruct (f x) eqn:E; [intros H; injection H as ->; exists x; split; [left; reflexivity | exact E]|]. intros H. destruct (IH H) as (z & Hz & Ez). exists z. split; [right; exact Hz | exact Ez]. Qed.
Lemma Forall2_right {A B} (R : A -> B -> Prop) l l' y : Forall2 R l l' -> In y l' -> exists x, In x l /\ R x y.
Proof. induction 1 as [|a b l l' H _ IH]; intros Hi; [destruct Hi|]. destruct Hi as [<-|Hi]; [exists a; split; [left; reflexivity | exact H]|]. destruct (IH Hi) as (x & Hx & E). exists x. split; [right; exact Hx | exact E]. Qed.
Lemma Forall2_left {A B} (R : A -> B -> Prop) l l' x : Forall2 R l l' -> In x l -> exists y, In y l' /\ R x y.
Proof. induction 1 as [|a b l l' H _ IH]; intros Hi; [destruct Hi|]. destruct Hi as [<-|Hi]; [exists b; split; [left; reflexivity | exact H]|]. destruct (IH Hi) as (y & Hx & E). exists y. split; [right; exact Hx | exact E]. Qed.
Lemma child_token_element k t x : child_token k t = Some x -> exists c, element_of t c /\ lstart c = lf_start x /\ lend c = lf_end x /\ leaves (snd c) <> [].
Proof.
  unfold child_token. destruct t as [o [|K cs]]; [discriminate|]. cbn [fst snd]. intros H. apply find_map_found in H. destruct H as (c & Hc & E). destruct c as [q [k' s|]]; [|discriminate E]. cbn [fst snd] in E.
  destruct (skind_eqb k' k); [|discriminate E]. injection E as <-. exists (q, Tok k' s). split; [eapply eo_child; [exact Hc | constructor]|]. repeat split. discriminate.
Qed.
Lemma tree_element a t : token_tree_of a = Some t -> element_of a t.
Proof.
  unfold token_tree_of. destruct (find _ (children_of a)) as [m|] eqn:Em; [|discriminate]. cbn [obind]. intros Et. apply find_some in Em, Et. destruct Em as (Em & _), Et as (Et & _).
  assert (G : forall a c, In c (children_of a) -> element_of a c).
  { intros [o [|K cs]] c H; [destruct H|]. eapply eo_child; [exact H | constructor]. }
  eapply element_trans; [apply G, Em | apply G, Et].
Qed.
Lemma element_has a c : element_of a c -> leaves (snd c) <> [] -> leaves (snd a) <> [].
Proof. intros H Hn E. destruct (element_leaves _ _ H) as (A & C & E1 & _). rewrite E in E1. symmetry in E1. apply app_eq_nil in E1. destruct E1 as (_ & E1). apply app_eq_nil in E1. apply Hn, E1. Qed.
Lemma place_in_bounds root toks a k p : element_of (0, root) a -> place_in toks a k = Some p -> lstart a <= fst p <= lend a /\ leaves (snd a) <> [] /\ boundary root (fst p).
Proof.
  intros Ha H. unfold place_in, arg_insert_place in H. destruct (child_token R_BRACK a) as [rb|] eqn:Er; [|discriminate].
  destruct (child_token_element _ _ _ Er) as (c & Hc & E1 & _ & Hn).
  assert (G : forall c, element_of a c -> (lstart a <= lstart c <= lend a /\ lstart a <= lend c <= lend a) /\ boundary root (lstart c) /\ boundary root (lend c)).
  { intros c' Hc'. pose proof (element_bounds _ _ Hc') as B. split; [unfold lstart, lend in *; lia | apply element_boundary, (element_trans _ _ _ Ha Hc')]. }
  assert (Q : (lstart a <= fst p <= lend a) /\ boundary root (fst p)); [|split; [apply Q | split; [apply (element_has _ _ Hc Hn) | apply Q]]].
  destruct (token_tree_of a) as [t|] eqn:Et; injection H as <-; cbn [fst].
  - pose proof (tree_element _ _ Et) as Ht. destruct (is_entity_type k).
    + destruct (child_token L_PAREN t) as [l|] eqn:El; [|split; apply (G _ Ht)]. destruct (child_token_element _ _ _ El) as (d & Hd & _ & <- & _). destruct (G _ (element_trans _ _ _ Ht Hd)) as ((_ & G1) & _ & G2). auto.
    + destruct (child_token R_PAREN t) as [l|] eqn:El; [|split; apply (G _ Ht)]. destruct (child_token_element _ _ _ El) as (d & Hd & <- & _ & _). destruct (G _ (element_trans _ _ _ Ht Hd)) as ((G1 & _) & G2 & _). auto.
  - rewrite <- E1. destruct (G _ Hc) as ((G1 & _) & G2 & _). auto.
Qed.
Lemma attr_offset_boundary root ink t : element_of (0, root) t -> boundary root (attr_offset ink (file_toks root) t).
Proof.
  intros Ht. unfold attr_offset. match goal with |- context [obind ?f _] => destruct f as [x|] end; cbn [obind]; [|apply element_boundary, Ht].
  destruct (closest_solid (leaves_after (file_toks root) x)) as [y|] eqn:Ey; [|apply element_boundary, Ht]. apply leaf_boundary.
  assert (G : forall p q l y, closest_which p q l = Some y -> In y l).
  { clear. intros p q l y. induction l as [|z l IH]; cbn [closest_which]; [discriminate|]. destruct (p z); [intros H; injection H as ->; left; reflexivity|]. destruct (q z); [discriminate|]. intros H. right. apply IH, H. }
  apply G in Ey. unfold leaves_after in Ey. apply filter_In in Ey. apply Ey.
Qed.

(** ** Nothing panics *)
Definition insertion_at (root : elem) (e : text_edit) : Prop := te_text e <> [] /\ exists o, te_range e = (o, o) /\ boundary root o.
Lemma insertion_formatted U more root e : insertion_at root e -> exists e', format_in U more root e = Done e'.
Proof.
  intros (_ & o & Er & A & B & E & ->). apply C33_total_partial; [|right; left; rewrite Er; reflexivity]. rewrite Er.
  exists (text A), [], (text B). rewrite <- ArgEditProofs.text_leaves, E, text_app. cbn [app fst snd]. rewrite app_nil_r. repeat split.
Qed.
Section Total.
  Context (U : unicode) (px : expr_parser) (words : elem -> list str) (ctx : lelem -> item) (env : lelem -> option str) (ids : lelem -> arg_kind -> list N) (root : elem) (Hlex : lexed U root).

  Lemma extend_ok a p k : element_of (0, root) a -> place_in (file_toks root) a k = Some p -> exists e, extend env ids (file_toks root) a p k = Done e /\ insertion_at root e.
  Proof using Hlex.
    intros Ha Hp. destruct (place_in_bounds root _ _ _ _ Ha Hp) as (Hb & Hn & Hr). destruct (element_leaves _ _ Ha) as (X & Y & E & Ef). cbn [fst snd] in E, Ef. rewrite Nat.add_0_l in Ef.
    destruct (extend_total U env ids root Hlex X a Y p k (conj E Ef) Hn Hb) as (e & He & Hr2 & Ht). exists e. split; [exact He|]. split; [exact Ht|]. exists (fst p). auto.
  Qed.
  Lemma attr_element t a : element_of (0, root) t -> In a (child_nodes ATTR t) -> element_of (0, root) a.
  Proof. intros Ht Ha. unfold child_nodes in Ha. destruct t as [o [|K cs]]; [destruct Ha|]. cbn [fst snd] in Ha. apply filter_In in Ha. eapply element_trans; [exact Ht|]. eapply eo_child; [apply Ha | constructor]. Qed.
  Lemma arg_actions_ok t v : element_of (0, root) t -> exists l, arg_actions px words ctx env ids (file_toks root) t v = Done l /\ Forall2 (fun _ e => insertion_at root e) (item_action_args (item_of px words ctx t) v) l.
  Proof using Hlex.
    intros Ht. apply collect_forall2. intros k _. destruct (primary_at px words ctx t) as [[a ia]|] eqn:Ep; cbn [obind option_map fst].
    - destruct (place_in (file_toks root) a k) as [p|] eqn:Epl; cbn [option_map].
      + assert (Ha : element_of (0, root) a).
        { unfold primary_at in Ep. destruct (primary_candidate _) as [[q b]|]; [|discriminate]. apply find_some in Ep. destruct Ep as (Hi & _). apply attrs_at_In in Hi. exact (attr_element _ _ Ht (proj1 Hi)). }
        destruct (extend_ok a p k Ha Epl) as (e & -> & He). exists e. split; [reflexivity | exact He].
      + eexists. split; [reflexivity|]. split; [discriminate|]. eexists. split; [reflexivity | apply attr_offset_boundary, Ht].
    - eexists. split; [reflexivity|]. split; [discriminate|]. eexists. split; [reflexivity | apply attr_offset_boundary, Ht].
  Qed.
  Lemma macro_actions_ok t v : element_of (0, root) t -> Forall (insertion_at root) (macro_actions px words ctx (file_toks root) t v).
  Proof. intros Ht. unfold macro_actions. apply Forall_forall. intros e He. apply in_map_iff in He. destruct He as (m & <- & _). split; [discriminate|]. eexists. split; [reflexivity | apply attr_offset_boundary, Ht]. Qed.
  Lemma attr_actions_ok a parent v : element_of (0, root) a -> exists l, attr_actions px words ctx env ids (file_toks root) a parent v = Done l /\ Forall (insertion_at root) l.
  Proof using Hlex.
    intros Ha. unfold attr_actions. destruct (cast_at px words a) as [ia|]; [|exists []; split; [reflexivity | constructor]]. destruct parent as [t|]; [|exists []; split; [reflexivity | constructor]].
    induction (attr_action_args ia (closed_attr a) (item_of px words ctx t) v) as [|k ks IH]; [exists []; split; [reflexivity | constructor]|]. destruct IH as (l & El & Hl).
    cbn [collect]. destruct (place_in (file_toks root) a k) as [p|] eqn:Ep.
    - destruct (extend_ok a p k Ha Ep) as (e & -> & He). cbn [obind_o]. rewrite El. exists (e :: l). split; [reflexivity | constructor; assumption].
    - cbn [obind_o]. rewrite El. exists l. split; [reflexivity | exact Hl].
  Qed.
End Total.

(** ** Formatting *)
Section Formatted.
  Context (px : expr_parser) (words : elem -> list str) (ctx : lelem -> item) (env : lelem -> option str) (ids : lelem -> arg_kind -> list N).
  Lemma formatted U root r v l : attribute_actions px words ctx env ids U root r v = Done l ->
    exists l1 l2 acts, item_actions px words ctx env ids root r v = Done l1 /\ attr_focus px words ctx env ids root r v = Done l2
      /\ keeps_firsts (fun act => act) (l1 ++ l2) acts /\ Forall2 (Forall2 (fun e e' => format_in U more_items root e = Done e')) acts l.
  Proof.
    unfold attribute_actions. destruct (item_actions px words ctx env ids root r v) as [l1|]; [|discriminate]. destruct (attr_focus px words ctx env ids root r v) as [l2|]; [|discriminate]. cbn [obind_o]. intros H.
    exists l1, l2, (unique_by edits_eqb (fun x => x) (l1 ++ l2)). split; [reflexivity|]. split; [reflexivity|].
    assert (G : forall A B (f : A -> outcome B) l l', outcome_map f l = Done l' -> Forall2 (fun x y => f x = Done y) l l').
    { intros A B f. induction l0 as [|x l0 IH]; intros l' E; cbn [outcome_map] in E; [injection E as <-; constructor|]. destruct (f x) eqn:Ex; [|discriminate]. destruct (outcome_map f l0) eqn:El; [|discriminate]. injection E as <-. constructor; [exact Ex | apply IH; reflexivity]. }
    split; [apply EditProofs.unique_keeps_firsts, edits_eqb_eq|]. apply G in H. induction H as [|act act' acts l E _ IH]; constructor; [apply G, E | exact IH].
  Qed.
End Formatted.

(** ** Selections *)
Lemma selected_attr root r a up : around root a up -> lkind a = ATTR -> (forall k cs c y, snd a = Node k cs -> In c (place (fst a) cs) -> element_of c y -> lkind y <> ATTR) ->
  fst r < snd r -> inside r (range_of a) -> covering_path root r = Done (Some (a, up)).
Proof.
  intros Ha Hk Hn Hr Hi. unfold covering_path. replace (fst r =? snd r) with false by (symmetry; apply Nat.eqb_neq; lia).
  pose proof (element_bounds _ _ (ExtractProofs.inside_element _ _ _ _ Ha)) as Hb.
  rewrite (proj2 (contains_range_inside (0, len_of root) r)) by (unfold inside, range_of, lend, lstart in *; cbn [fst snd] in *; lia). cbv zeta.
  pose proof (ExtractProofs.covering_inside [] (0, root) a up r Ha Hr Hi) as E. cbn [fst snd] in E. rewrite E. clear E.
  destruct a as [o [k t|k cs]]; cbn [fst snd].
  - cbn [covering_element fst]. unfold is_attr. rewrite Hk. reflexivity.
  - rewrite covering_node. destruct (find (fun c => contains_range (fst c, fst c + len_of (snd c)) r) (place o cs)) as [c|] eqn:E; [|cbn [fst]; unfold is_attr; rewrite Hk; reflexivity].
    apply find_some in E. destruct E as [Hc _].
    destruct (covering_chain (snd c) ((o, Node k cs) :: up) (fst c) r Hr) as (mid & Em & Hm & _). cbv zeta in *. rewrite <- surjective_pairing in Em, Hm. destruct (covering_element _ (fst c) (snd c) r) as [x xs]. cbn [fst snd] in *.
    assert (G : forall l y ys, y :: ys = l ++ (o, Node k cs) :: up -> (forall z, In z l -> is_attr z = false) -> (if is_attr y then Some (y, ys) else closest is_attr ys) = Some ((o, Node k cs), up)).
    { induction l as [|z l IH]; intros y ys El Hl; cbn [app] in El; injection El as -> ->.
      - unfold is_attr. rewrite Hk. reflexivity.
      - rewrite (Hl z (or_introl eq_refl)). assert (X : forall l, (forall z, In z l -> is_attr z = false) -> closest is_attr (l ++ (o, Node k cs) :: up) = Some ((o, Node k cs), up)).
        { clear -Hk. induction l as [|z l IH]; intros Hl; cbn [app closest]; [unfold is_attr; rewrite Hk; reflexivity|]. rewrite (Hl z (or_introl eq_refl)). apply IH. intros w Hw. apply Hl. right. exact Hw. }
        apply X. intros w Hw. apply Hl. right. exact Hw. }
    f_equal. apply (G (mid ++ [c])); [etransitivity; [exact Em | rewrite <- app_assoc; reflexivity]|].
    intros z Hz. unfold is_attr. destruct (skind_eqb (lkind z) ATTR) eqn:Ez; [|reflexivity]. apply skind_eqb_eq in Ez. exfalso. apply (Hn k cs c z eq_refl Hc); [|exact Ez].
    apply in_app_or in Hz. destruct Hz as [Hz|[<-|[]]]; [apply Hm, Hz | constructor].
Qed.
