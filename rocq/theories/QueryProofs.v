From Coq Require Import List Lia Arith PeanoNat Bool.
From Verif Require Import Base Unicode PositionModel PositionProofs VersionModel TranslateModel SyntaxModel AttrModel AttrSpec AttrProofs EditModel UtilModel EditSpec SuggestModel ArgEditModel ArgEditSpec ArgEditProofs RuleModel RuleSpec RuleProofs ArgCheckModel ArgCheckSpec ArgCheckProofs EntityModel EntitySpec EntityProofs HintModel HintSpec HintProofs ExtractModel ExtractSpec ExtractProofs FocusModel FocusSpec FocusProofs CompleteModel FinishModel FinishProofs ChainSpec ChainProofs AnnotateModel AnnotateProofs QuerySpec.
Import ListNotations.

(** ** Tokens at a position *)
Lemma past_token root off : len_of root < off -> focused_token root off = Panic.
Proof. intros H. unfold focused_token, tokens_at. rewrite (proj2 (Nat.leb_gt _ _) H). reflexivity. Qed.
Lemma tokens_at_done root off : off <= len_of root -> exists l, tokens_at root off = Done l
  /\ forall p, In p l -> In p (paths [] 0 root) /\ is_tok (snd (fst p)) = true /\ touches off (fst p) = true.
Proof.
  intros H. unfold tokens_at. rewrite (proj2 (Nat.leb_le _ _) H). eexists. split; [reflexivity|]. intros p Hp. apply filter_In in Hp. rewrite andb_true_iff in Hp. tauto.
Qed.
Lemma focused_done root off : off <= len_of root -> exists f, focused_token root off = Done f
  /\ forall p, f = Some p -> In p (paths [] 0 root) /\ is_tok (snd (fst p)) = true /\ touches off (fst p) = true.
Proof.
  intros H. unfold focused_token. destruct (tokens_at_done root off H) as (l & -> & Hl). destruct l as [|a [|b l]].
  - exists None. split; [reflexivity | discriminate].
  - exists (Some a). split; [reflexivity|]. intros p E. injection E as <-. apply Hl. left. reflexivity.
  - destruct (is_trivia (lkind (fst a)) && negb (is_trivia (lkind (fst b)))); eexists; (split; [reflexivity|]); intros p E; injection E as <-; apply Hl; cbn; tauto.
Qed.
Lemma path_in root p : In p (paths [] 0 root) -> HintSpec.in_file root (fst p) /\ forall x, In x (snd p) -> HintSpec.in_file root x.
Proof.
  intros H. destruct (paths_anc _ _ _ _ H) as (A & mid & E & B). split; [exact A|]. intros x Hx. rewrite E, app_nil_r in Hx. apply B, Hx.
Qed.
Lemma touching_bounds off e : touches off e = true -> lstart e <= off <= lend e.
Proof. unfold touches. rewrite !andb_true_iff, !Nat.leb_le. tauto. Qed.

(** ** Characters *)
Lemma split_at_boundary (A s B pre post : str) q off : pre ++ post = A ++ s ++ B -> q = bytes A -> off = bytes pre -> q <= off -> off <= q + bytes s ->
  exists x y, s = x ++ y /\ split_bytes (off - q) s = Done (x, y) /\ bytes x = off - q.
Proof.
  intros E -> -> H1 H2.
  assert (G : forall A pre, pre ++ post = A ++ s ++ B -> bytes A <= bytes pre -> exists m, pre = A ++ m /\ m ++ post = s ++ B).
  { clear. induction A as [|c A IH]; intros pre E H; [exists pre; auto|]. destruct pre as [|d pre].
    - cbn [bytes] in H. pose proof (utf8_len_pos c). lia.
    - cbn [app] in E. injection E as -> E. cbn [bytes] in H. destruct (IH pre E) as (m & -> & Em); [lia|]. exists m. auto. }
  destruct (G A pre E H1) as (m & -> & Em). clear G. rewrite bytes_app in *. replace (bytes A + bytes m - bytes A) with (bytes m) by lia.
  assert (G : forall m s, m ++ post = s ++ B -> bytes m <= bytes s -> exists y, s = m ++ y).
  { clear. induction m as [|c m IH]; intros s E H; [exists s; reflexivity|]. destruct s as [|d s].
    - cbn [bytes] in H. pose proof (utf8_len_pos c). lia.
    - cbn [app] in E. injection E as -> E. cbn [bytes] in H. destruct (IH s E) as (y & ->); [lia|]. exists y. reflexivity. }
  destruct (G m s Em) as (y & ->); [lia|]. exists m, y. split; [reflexivity|]. split; [|lia]. unfold split_bytes. rewrite take_bytes_at, skipn_app, skipn_all, Nat.sub_diag. reflexivity.
Qed.
Lemma leaf_text root x : In x (file_toks root) -> exists A B, text_of root = A ++ lf_text x ++ B /\ lf_start x = bytes A.
Proof.
  intros H. unfold file_toks in H.
  assert (G : forall l o, In x (place_leaves o l) -> exists A B, text l = A ++ lf_text x ++ B /\ lf_start x = o + bytes A).
  { clear. induction l as [|t l IH]; intros o H; [destruct H|]. cbn [place_leaves] in H. change (text (t :: l)) with (snd t ++ text l). destruct H as [<-|H].
    - exists [], (text l). split; [reflexivity|]. unfold lf_start. cbn. lia.
    - destruct (IH _ H) as (A & B & E & Es). exists (snd t ++ A), B. rewrite E, <- app_assoc. split; [reflexivity|]. rewrite bytes_app, Es. lia. }
  destruct (G _ _ H) as (A & B & E & Es). exists A, B. rewrite <- text_leaves. auto.
Qed.
Lemma token_leaf root p : In p (paths [] 0 root) -> is_tok (snd (fst p)) = true -> In (leaf_of (fst p)) (file_toks root).
Proof.
  intros H Ht. apply path_in in H. destruct H as (H & _). destruct p as [[o [k s|k cs]] up]; [|discriminate Ht]. cbn [fst snd] in *.
  destruct (element_leaves _ _ H) as (A & C & E & Ef). cbn [fst snd] in E, Ef. unfold file_toks. rewrite E, place_leaves_app. apply in_or_app. right. cbn [leaves app place_leaves]. left. unfold leaf_of, lstart, lkind. cbn. rewrite Ef. reflexivity.
Qed.
Lemma lf_range_text x : lf_end x = lf_start x + bytes (lf_text x).
Proof. reflexivity. Qed.
Lemma split_leaf root x off : In x (file_toks root) -> between_characters root off -> lf_start x <= off <= lf_end x ->
  exists a b, split_bytes (off - lf_start x) (lf_text x) = Done (a, b) /\ bytes a = off - lf_start x.
Proof.
  intros Hx (pre & post & E & ->) Hb. destruct (leaf_text _ _ Hx) as (A & B & E' & Es). rewrite E' in E. symmetry in E. rewrite lf_range_text in Hb.
  destruct (split_at_boundary A (lf_text x) B pre post (lf_start x) (bytes pre) E Es eq_refl) as (a & b & _ & H1 & H2); [lia | lia |]. exists a, b. auto.
Qed.
Lemma leaf_between root x : In x (file_toks root) -> between_characters root (lf_start x).
Proof. intros H. destruct (leaf_text _ _ H) as (A & B & E & Es). exists A, (lf_text x ++ B). auto. Qed.
Lemma leaf_len root x : In x (file_toks root) -> lf_end x <= len_of root.
Proof. intros H. destruct (leaf_text _ _ H) as (A & B & E & Es). unfold len_of. rewrite E, !bytes_app, lf_range_text. lia. Qed.
Lemma between_len root off : between_characters root off -> off <= len_of root.
Proof. intros (a & b & E & ->). unfold len_of. rewrite E, bytes_app. lia. Qed.

(** ** The item at a position *)
Lemma focused_element_done root r : range_in root r -> exists f, focused_element root r = Done f
  /\ forall p, f = Some p -> HintSpec.in_file root (fst p) /\ forall x, In x (snd p) -> HintSpec.in_file root x.
Proof.
  intros (H1 & H2). unfold focused_element. destruct (fst r =? snd r) eqn:E.
  - destruct (focused_done root (fst r)) as (f & -> & Hf); [apply Nat.eqb_eq in E; lia|]. exists f. split; [reflexivity|]. intros p Hp. apply path_in, Hf, Hp.
  - eexists. split; [reflexivity|]. intros p Hp. destruct (contains_range (0, len_of root) r); [|discriminate Hp]. injection Hp as <-.
    destruct (covering_chain root [] 0 r) as (mid & Em & Hm & _); [apply Nat.eqb_neq in E; lia|]. cbv zeta in *. destruct (covering_element [] 0 root r) as [x up]. cbn [fst snd] in *.
    split.
    + destruct mid as [|m mid]; cbn [app] in Em; injection Em as -> ->; [constructor | apply Hm; left; reflexivity].
    + intros y Hy. destruct mid as [|m mid]; cbn [app] in Em; injection Em as -> ->; [destruct Hy|]. apply in_app_or in Hy. destruct Hy as [Hy|[<-|[]]]; [apply Hm; right; exact Hy | constructor].
Qed.
Lemma closest_in p l a up : closest p l = Some (a, up) -> In a l /\ p a = true /\ forall x, In x up -> In x l.
Proof.
  induction l as [|x l IH]; cbn [closest]; [discriminate|]. destruct (p x) eqn:E; intros H.
  - injection H as -> ->. split; [left; reflexivity|]. split; [exact E|]. intros y Hy. right. exact Hy.
  - destruct (IH H) as (A & B & C). split; [right; exact A|]. split; [exact B|]. intros y Hy. right. apply C, Hy.
Qed.
Lemma parent_item_in p i : parent_item p = Some i -> In (fst i) (snd p) /\ item_node (snd (fst i)) = true.
Proof.
  unfold parent_item. destruct (closest item_at (snd p)) as [[it up]|] eqn:E; [|discriminate]. apply closest_in in E. destruct E as (E1 & E2 & _).
  destruct (skind_eqb (lkind (fst p)) ATTR); [destruct (existsb _ _); [|discriminate]|]; intros H; injection H as <-; split; assumption.
Qed.
Lemma parent_at_done root r : range_in root r -> exists i, parent_at root r = Done i
  /\ forall p, i = Some p -> HintSpec.in_file root (fst p) /\ item_node (snd (fst p)) = true.
Proof.
  intros Hr. unfold parent_at. destruct (focused_element_done root r Hr) as (f & -> & Hf). cbn [obind_o]. eexists. split; [reflexivity|].
  intros p Hp. destruct f as [f|]; [|discriminate Hp]. destruct (Hf f eq_refl) as (H1 & H2). destruct (fst r =? snd r).
  - destruct (closest is_attr (snd f)) as [[a up]|] eqn:E.
    + apply closest_in in E. destruct (closed_attr a); [|discriminate Hp]. apply parent_item_in in Hp. cbn [snd] in Hp. split; [apply H2, E, Hp | apply Hp].
    + apply parent_item_in in Hp. split; [apply H2, Hp | apply Hp].
  - destruct (item_at (fst f)) eqn:E.
    + injection Hp as <-. split; [exact H1 | exact E].
    + apply parent_item_in in Hp. split; [apply H2, Hp | apply Hp].
Qed.
Lemma covering_attribute_done root r : range_in root r -> exists a, covering_attribute root r = Done a.
Proof.
  intros Hr. unfold covering_attribute. destruct (fst r =? snd r) eqn:E; [|destruct (contains_range _ _); eexists; reflexivity].
  destruct (focused_done root (fst r)) as (f & -> & _); [apply Nat.eqb_eq in E; unfold range_in in Hr; lia|]. eexists. reflexivity.
Qed.

(** ** The range of a declaration *)
Lemma hd_filter {A} (f : A -> bool) l c : hd_error (filter f l) = Some c -> In c l /\ f c = true.
Proof. intros H. apply filter_In. destruct (filter f l) as [|x r]; [discriminate H|]. injection H as ->. left. reflexivity. Qed.
Section Declaration.
  Variables (K : skind) (front core : list elem) (o : nat).
  Hypothesis Hf : front_only front.
  Let item : lelem := (o, Node K (front ++ core)).
  Let q := o + lens front.

  Lemma part_bound c : In c (place o (front ++ core)) -> is_trivia (kind_of (snd c)) = false -> kind_of (snd c) <> ATTR -> q <= lstart c.
  Proof.
    intros Hc Ht Hk. rewrite place_app in Hc. apply in_app_or in Hc. destruct Hc as [Hc|Hc]; [|apply place_ge in Hc; exact Hc].
    apply place_In in Hc. unfold front_only in Hf. rewrite Forall_forall in Hf. destruct (Hf _ Hc) as [(cs & E & _)|(k & s & E & E2 & _)]; rewrite E in *; cbn [kind_of] in *; [contradiction | congruence].
  Qed.
  Lemma node_bound k c : child_node k item = Some c -> is_trivia k = false -> k <> ATTR -> q <= lstart c.
  Proof.
    unfold child_node, child_nodes, item. cbn [fst snd]. intros H Ht Hk. apply hd_filter in H. destruct H as (Hi & Hn). rewrite andb_true_iff in Hn. destruct Hn as (_ & Hn). apply skind_eqb_eq in Hn. unfold lkind in Hn. subst k. apply part_bound; assumption.
  Qed.
  Lemma token_bound k x : child_token k item = Some x -> is_trivia k = false -> k <> ATTR -> q <= lf_end x.
  Proof.
    unfold child_token, item. cbn [fst snd]. intros H Ht Hk. apply find_map_found in H. destruct H as ((p & e) & Hc & E). destruct e as [k' s|]; [|discriminate E]. cbn [fst snd] in E. destruct (skind_eqb k' k) eqn:Ek; [|discriminate E]. apply skind_eqb_eq in Ek. subst k'. injection E as <-.
    apply part_bound in Hc; [|exact Ht | exact Hk]. unfold lf_end, lstart in *. cbn [fst snd] in *. lia.
  Qed.
End Declaration.
Lemma lstart_lend e : lstart e <= lend e.
Proof. unfold lstart, lend. lia. Qed.
Lemma token_in e k x : child_token k e = Some x -> lstart e <= lf_end x.
Proof. intros H. destruct (child_token_element _ _ _ H) as (c & Hc & _ & E & _). apply element_bounds in Hc. pose proof (lstart_lend c). lia. Qed.
Lemma curly_bound e : lstart e <= curly_end e.
Proof. unfold curly_end. destruct (child_token L_CURLY e) eqn:E; [apply token_in in E; exact E | apply lstart_lend]. Qed.
Lemma child_node_element k e c : child_node k e = Some c -> element_of e c.
Proof.
  unfold child_node, child_nodes. destruct e as [p [|K cs]]; [discriminate|]. cbn [fst snd]. intros H. apply hd_filter in H. eapply eo_child; [apply H | constructor].
Qed.
Lemma declaration_bound K front core o e : front_only front -> declaration_end (o, Node K (front ++ core)) = Some e -> o + lens front <= e.
Proof.
  intros Hf. set (item := (o, Node K (front ++ core))). assert (S : forall e, semicolon_end item = Some e -> o + lens front <= e).
  { intros e' H. unfold semicolon_end in H. destruct (child_token SEMICOLON item) as [x|] eqn:E; [|discriminate H]. injection H as <-. apply (token_bound K front core o Hf SEMICOLON x E); [reflexivity | discriminate]. }
  assert (C : forall k c, child_node k item = Some c -> is_trivia k = false -> k <> ATTR -> o + lens front <= curly_end c).
  { intros k c H1 H2 H3. pose proof (node_bound K front core o Hf k c H1 H2 H3). pose proof (curly_bound c). lia. }
  assert (O : forall k, is_trivia k = false -> k <> ATTR -> option_map curly_end (child_node k item) = Some e -> o + lens front <= e).
  { intros k H1 H2 H. destruct (child_node k item) as [c|] eqn:E; [|discriminate H]. injection H as <-. apply (C k c E H1 H2). }
  unfold declaration_end. change (lkind item) with K.
  assert (D : (if skind_eqb K TYPE_ALIAS then semicolon_end item else None) = Some e -> o + lens front <= e) by (destruct (skind_eqb K TYPE_ALIAS); [apply S | discriminate]).
  destruct K; try exact D; clear D.
  all: try (apply O; [reflexivity | discriminate]).
  - destruct (child_node ITEM_LIST item) as [c|] eqn:E; [|apply S]. intros H. injection H as <-. apply (C _ _ E); [reflexivity | discriminate].
  - destruct (field_list item) as [l|] eqn:E; [|apply S].
    assert (B : o + lens front <= lstart l).
    { unfold field_list, item in E. cbn [fst snd] in E. apply find_some in E. destruct E as (Hi & Hk). rewrite andb_true_iff, orb_true_iff in Hk. unfold lkind in Hk.
      destruct Hk as (_ & [Hk|Hk]); apply skind_eqb_eq in Hk; apply (part_bound front core o Hf l Hi); rewrite Hk; try reflexivity; discriminate. }
    intros H. injection H as <-. destruct (skind_eqb (lkind l) RECORD_FIELD_LIST); [pose proof (curly_bound l); lia|].
    destruct (semicolon_end item) as [e'|] eqn:Es; [apply S; reflexivity|]. destruct (child_token R_PAREN l) as [x|] eqn:Ex; [apply token_in in Ex; lia | pose proof (lstart_lend l); lia].
  - destruct (child_node BLOCK_EXPR item) as [b|] eqn:E; [|apply S]. intros H. injection H as <-. apply (node_bound FN front core o Hf) in E; [|reflexivity | discriminate].
    destruct (child_node STMT_LIST b) as [s|] eqn:Es; [|pose proof (lstart_lend b); lia]. apply child_node_element, element_bounds in Es. pose proof (curly_bound s). lia.
Qed.

Lemma declaration_done root o K cs : HintSpec.in_file root (o, Node K cs) -> notes_in_front root -> declaration_range (file_toks root) (o, Node K cs) <> Panic.
Proof.
  intros Hi Hn. unfold declaration_range. destruct (declaration_end (o, Node K cs)) as [e|] eqn:E; [|discriminate].
  assert (Hk : In K declared).
  { unfold declaration_end in E. change (lkind (o, Node K cs)) with K in E. unfold declared.
    assert (D : (if skind_eqb K TYPE_ALIAS then semicolon_end (o, Node K cs) else None) = Some e -> K = TYPE_ALIAS) by (destruct (skind_eqb K TYPE_ALIAS) eqn:Q; [intros _; apply skind_eqb_eq, Q | discriminate]).
    destruct K; try (apply D in E; rewrite E); cbn; tauto. }
  destruct (Hn _ _ _ Hi Hk) as (front & core & -> & Hf & Hs & Hd & Ha). apply declaration_bound in E; [|exact Hf].
  destruct (element_leaves _ _ Hi) as (pre & post & El & Ef). cbn [fst snd] in El, Ef.
  pose proof (item_start pre post K front core Hf Hs Hd Ha) as Hst. unfold at_place, file_leaves in Hst. rewrite <- El in Hst. rewrite Nat.add_0_l in Ef. rewrite <- Ef in Hst. fold (file_toks root) in Hst. rewrite Hst.
  unfold mk_range. rewrite (proj2 (Nat.leb_le _ _)); [discriminate|]. destruct (existsb annotation front); lia.
Qed.

Lemma focus_done root r : range_in root r -> notes_in_front root -> exists l, focus root r = Done l
  /\ forall t m, In (Attributes t m) l -> HintSpec.in_file root t.
Proof.
  intros Hr Hn. unfold focus. destruct (focused_element_done root r Hr) as (f & -> & Hf). cbn [obind_o]. destruct f as [f|].
  2:{ eexists. split; [reflexivity|]. intros t m. destruct ((len_of root =? 0) && contains_range (0, len_of root) r); [intros [H|[]]; discriminate H | intros []]. }
  destruct (Hf f eq_refl) as (Hf1 & Hf2). destruct (covering_attribute_done root r Hr) as (a & ->). cbn [obind_o]. destruct a as [a|]; [eexists; split; [reflexivity | intros t m []]|].
  destruct (parent_at_done root r Hr) as (i & -> & Hi). cbn [obind_o]. destruct i as [[item up]|].
  2:{ eexists. split; [reflexivity|]. intros t m. destruct (snd f) as [|p l]; [intros [] |]. destruct (skind_eqb (lkind p) SOURCE_FILE); [intros [H|[]]; discriminate H | intros []]. }
  destruct (Hi _ eq_refl) as (H1 & H2). cbn [fst] in H1, H2. destruct item as [o [k s|K cs]]; [discriminate H2|].
  unfold item_offers. pose proof (declaration_done root o K cs H1 Hn) as Hd. destruct (declaration_range (file_toks root) (o, Node K cs)) as [d|]; [|contradiction]. cbn [obind_o]. eexists. split; [reflexivity|].
  intros t m Ht. apply in_app_or in Ht. destruct Ht as [Ht|Ht].
  - match type of Ht with In _ (if ?b then _ else _) => destruct b end; [|destruct Ht]. destruct Ht as [Ht|[]]. injection Ht as Ht _. subst t.
    destruct (skind_eqb (lkind (o, Node K cs)) STRUCT); [|exact H1]. destruct (closest (node_at RECORD_FIELD) (snd f)) as [[x xs]|] eqn:Ec; [|exact H1]. apply closest_in in Ec. exact (Hf2 _ (proj1 Ec)).
  - match type of Ht with In _ (if ?b then _ else _) => destruct b end; [|destruct Ht]. destruct Ht as [Ht|[]]. discriminate Ht.
Qed.

(** ** Completions *)
Lemma typed_done root p off : In p (paths [] 0 root) -> is_tok (snd (fst p)) = true -> touches off (fst p) = true -> between_characters root off ->
  exists t, typed (leaf_of (fst p)) off = Done t.
Proof.
  intros H1 H2 H3 H4. unfold typed. apply touching_bounds in H3. destruct (split_leaf root (leaf_of (fst p)) off (token_leaf _ _ H1 H2) H4) as (a & b & -> & _); [exact H3|]. eexists. reflexivity.
Qed.
Lemma macro_done pr punct around root off v : between_characters root off -> macro_completions pr punct around root off v <> Panic.
Proof.
  intros H. unfold macro_completions. destruct (focused_done root off (between_len _ _ H)) as (f & -> & Hf). cbn [obind_o]. destruct f as [p|]; [|discriminate]. destruct (Hf p eq_refl) as (H1 & H2 & H3).
  destruct (attr_at root p) as [a|]; [|discriminate]. destruct (typed_done root p off H1 H2 H3 H) as (t & Et). cbv zeta.
  match goal with |- (if ?b then _ else _) <> _ => destruct b end; [|discriminate]. rewrite Et.
  match goal with |- obind_o (if ?b then _ else _) _ <> _ => destruct b end; cbn [obind_o].
  all: match goal with |- match ?m with _ => _ end <> _ => destruct m end; [|discriminate].
  all: match goal with |- (if ?b then _ else _) <> _ => destruct b end; cbn [obind_o]; discriminate.
Qed.

Lemma while_in l x : In x (while_inline l) -> In x l.
Proof. induction l as [|t l IH]; cbn [while_inline]; [tauto|]. destruct (inline t); [|intros []]. intros [<-|H]; [left; reflexivity | right; apply IH, H]. Qed.
Lemma last_in {A} (l : list A) x : last_opt l = Some x -> In x l.
Proof.
  induction l as [|y l IH]; [discriminate|]. destruct l as [|z l]; [intros E; injection E as <-; left; reflexivity|]. intros E. right. apply IH, E.
Qed.
Lemma left_bound root f : In f (file_toks root) -> left_end (file_toks root) f <= lf_start f /\ exists x, In x (file_toks root) /\ left_end (file_toks root) f = lf_start x.
Proof.
  intros Hf. unfold left_end. destruct (last_opt (tokens_left (file_toks root) f)) as [x|] eqn:E; cbn [or_else]; [|split; [lia | exists f; auto]].
  apply last_in, while_in in E. unfold leaves_before in E. apply in_rev, filter_In in E. destruct E as (E & L). apply Nat.leb_le in L. split; [|exists x; auto].
  rewrite lf_range_text in L. lia.
Qed.
Lemma right_bound root f : lf_end f <= right_end (file_toks root) f.
Proof.
  unfold right_end. destruct (last_opt (tokens_right (file_toks root) f)) as [x|] eqn:E; cbn [or_else]; [|lia].
  apply last_in, while_in in E. unfold leaves_after in E. apply filter_In in E. destruct E as (_ & L). apply Nat.leb_le in L. rewrite (lf_range_text x). lia.
Qed.
Lemma line_done root f off : In f (file_toks root) -> between_characters root off -> lf_start f <= off <= lf_end f ->
  exists ln, line_of (file_toks root) f off = Done ln /\ ln_start ln <= ln_end ln /\ between_characters root (ln_start ln).
Proof.
  intros Hf Hb Ho. destruct (left_bound root f Hf) as (L1 & x & Hx & Lx). pose proof (right_bound root f) as R. pose proof (leaf_between root x Hx) as Bx. rewrite <- Lx in Bx.
  assert (E : lf_start f <= lf_end f) by (rewrite lf_range_text; lia).
  unfold line_of. destruct (skind_eqb (lf_kind f) WHITESPACE && mem_char c_nl (lf_text f)).
  - destruct (split_leaf root f off Hf Hb Ho) as (a & b & -> & _). cbn [obind_o fst snd]. destruct (mem_char c_nl a), (mem_char c_nl b); eexists; (split; [reflexivity|]); cbn [ln_start ln_end]; (split; [lia | assumption]).
  - eexists. split; [reflexivity|]. cbn [ln_start ln_end]. split; [lia | exact Bx].
Qed.
Lemma unindented_done U root start : between_characters root start -> exists s, unindented_start U root start = Done s /\ s <= start.
Proof.
  intros Hb. unfold unindented_start. destruct (tokens_at_done root start (between_len _ _ Hb)) as (l & -> & Hl). cbn [obind_o]. destruct l as [|p l]; [exists start; auto|].
  destruct (Hl p (or_introl eq_refl)) as (H1 & H2 & H3). apply touching_bounds in H3. cbv zeta. set (t := leaf_of (fst p)).
  assert (Ht : In t (file_toks root)) by (apply token_leaf; assumption).
  assert (W : forall w, (if skind_eqb (lf_kind t) WHITESPACE then Some t else hd_error (leaves_before (file_toks root) t)) = Some w -> In w (file_toks root) /\ lf_start w <= start).
  { intros w. destruct (skind_eqb (lf_kind t) WHITESPACE); intros E; [injection E as <-; split; [exact Ht | apply H3]|].
    assert (Hw : In w (leaves_before (file_toks root) t)) by (destruct (leaves_before (file_toks root) t); [discriminate E | injection E as ->; left; reflexivity]).
    unfold leaves_before in Hw. apply in_rev, filter_In in Hw. destruct Hw as (Hw & L). apply Nat.leb_le in L. split; [exact Hw|]. rewrite lf_range_text in L. change (lf_start t) with (lstart (fst p)) in L. lia. }
  match goal with |- context [match ?m with Some w => _ | None => Done start end] => destruct m as [w|] eqn:Ew end; [|exists start; auto].
  destruct (W w eq_refl) as (Hw & Lw). destruct (skind_eqb (lf_kind w) WHITESPACE); [|exists start; auto]. destruct (lf_end w <=? start) eqn:Le.
  - apply Nat.leb_le in Le. destruct (end_indenting U (lf_text w)); eexists; (split; [reflexivity|]); lia.
  - apply Nat.leb_gt in Le. destruct (split_leaf root w start Hw Hb) as (a & b & -> & _); [lia|]. cbn [obind_o]. eexists. split; [reflexivity|]. lia.
Qed.
Lemma entity_done U facts contracts root off v : between_characters root off -> entity_completions U facts contracts root off v <> Panic.
Proof.
  intros H. unfold entity_completions. pose proof (between_len _ _ H) as Hl. destruct (focused_done root off Hl) as (f & -> & Hf). cbn [obind_o]. destruct f as [p|]; [|discriminate].
  destruct (Hf p eq_refl) as (H1 & H2 & H3). cbv zeta. match goal with |- (if ?b then _ else _) <> _ => destruct b end; [discriminate|].
  destruct (line_done root (leaf_of (fst p)) off (token_leaf _ _ H1 H2) H) as (ln & -> & L1 & L2); [apply touching_bounds, H3|]. cbn [obind_o].
  destruct (unindented_done U root (ln_start ln) L2) as (s & -> & Ls). cbn [obind_o]. unfold mk_range. rewrite (proj2 (Nat.leb_le s (ln_end ln))) by lia. cbn [obind_o].
  destruct (parent_at_done root (off, off)) as (i & -> & _); [split; cbn; lia|]. cbn [obind_o].
  match goal with |- (if ?b then _ else _) <> _ => destruct b end; discriminate.
Qed.

(** ** Actions *)
Section Actions.
  Context (U : unicode) (px : expr_parser) (words : elem -> list str) (ctx : lelem -> item) (env : lelem -> option str) (ids : lelem -> arg_kind -> list N).
  Lemma item_actions_done root r v : lexed U root -> notes_in_front root -> range_in root r -> item_actions px words ctx env ids root r v <> Panic.
  Proof.
    intros Hlex Hn Hr. unfold item_actions. destruct (focus_done root r Hr Hn) as (l & -> & Hl). cbn [obind_o]. induction l as [|x l IH]; cbn [fold_right]; [discriminate|].
    assert (IH' : fold_right (fun o rest => obind_o (match o with Attributes t _ => target_actions px words ctx env ids (file_toks root) t v | _ => Done [] end) (fun l => obind_o rest (fun l' => Done (l ++ l')))) (Done []) l <> Panic) by (apply IH; intros t m Ht; apply (Hl t m); right; exact Ht).
    destruct (fold_right _ (Done []) l) as [l'|]; [|contradiction]. destruct x as [t m| |]; try discriminate.
    destruct (arg_actions_ok U px words ctx env ids root Hlex t v (Hl t m (or_introl eq_refl))) as (a & E & _). unfold target_actions. rewrite E. discriminate.
  Qed.
  Lemma attr_focus_done root r v : lexed U root -> range_in root r -> attr_focus px words ctx env ids root r v <> Panic.
  Proof.
    intros Hlex Hr. unfold attr_focus.
    assert (C : exists p, covering_path root r = Done p /\ forall a, p = Some a -> HintSpec.in_file root (fst a)).
    { unfold covering_path. destruct (focused_element_done root r Hr) as (f & E & Hf). unfold focused_element in E. destruct (fst r =? snd r).
      - rewrite E. cbn [obind_o]. eexists. split; [reflexivity|]. intros a Ha. destruct f as [p|]; [|discriminate Ha]. destruct a as [a up]. apply closest_in in Ha. exact (proj2 (Hf p eq_refl) _ (proj1 Ha)).
      - destruct (contains_range (0, len_of root) r); [|exists None; split; [reflexivity | discriminate]]. injection E as E. cbv zeta. eexists. split; [reflexivity|]. intros a Ha. symmetry in E.
        destruct (Hf _ E) as (F1 & F2). destruct (is_attr (fst (covering_element [] 0 root r))); [injection Ha as <-; exact F1|]. destruct a as [a up]. apply closest_in in Ha. exact (F2 _ (proj1 Ha)). }
    destruct C as (p & -> & Hp). cbn [obind_o]. destruct p as [[a up]|]; [|discriminate].
    destruct (attr_actions_ok U px words ctx env ids root Hlex a (hd_error up) v (Hp _ eq_refl)) as (l & -> & _). discriminate.
  Qed.
End Actions.

(** ** Hover *)
Lemma find_arg_done p l : (forall x, In x l -> exists r, meta_range x = Done r) -> exists o, find_arg p l = Done o /\ forall x, o = Some x -> In x l.
Proof.
  induction l as [|a l IH]; intros H; cbn [find_arg]; [eexists; split; [reflexivity | discriminate]|]. destruct (H a (or_introl eq_refl)) as (r & ->). cbn [obind_o].
  destruct (p r); [eexists; split; [reflexivity | intros x E; injection E as <-; left; reflexivity]|]. destruct IH as (o & E & Ho); [intros x Hx; apply H; right; exact Hx|].
  exists o. split; [exact E | intros x Hx; right; apply Ho, Hx].
Qed.
Lemma hover_of_done c r : r <> Panic -> hover_of c r <> Panic.
Proof. intros H. unfold hover_of. destruct c; [discriminate|]. destruct r; [discriminate | contradiction]. Qed.
Lemma hover_done px pr root r v : range_in root r -> arguments_ranged px pr root -> hover_at px pr root r v <> Panic.
Proof.
  intros Hr Ha. unfold hover_at. destruct (covering_attribute_done root r Hr) as (a & E). pose proof E as E'. rewrite E. cbn [obind_o]. destruct a as [a|]; [|discriminate].
  destruct (covering_attribute_sound root r a E' (proj1 Hr)) as (Hf & Hk & _). destruct (attr_cast px (read_attr pr a)) as [ia|] eqn:Ec; [|discriminate].
  unfold hover_attr. destruct (find_arg_done (fun ar => contains_range ar r) (at_args ia) (fun x => Ha a ia x Hf Hk Ec)) as (o & -> & Ho). cbn [obind_o].
  destruct o as [x|]; apply hover_of_done; [|discriminate]. unfold name_range. destruct (m_name x); [discriminate| |];
  destruct (Ha a ia x Hf Hk Ec (Ho x eq_refl)) as (q & ->); discriminate.
Qed.

(** ** Completions of arguments *)
Lemma collect_done {A B} (f : A -> outcome (option B)) l : (forall x, f x <> Panic) -> collect f l <> Panic.
Proof.
  intros H. induction l as [|x l IH]; cbn [collect]; [discriminate|]. destruct (f x) as [y|] eqn:E; [|destruct (H x E)]. cbn [obind_o].
  destruct (collect f l); [discriminate | contradiction].
Qed.
Lemma first_cursor_done off l : (forall x, In x l -> exists r, meta_range x = Done r) -> exists o, first_at_cursor off l = Done o /\ forall x, o = Some x -> In x l.
Proof.
  induction l as [|a l IH]; intros H; cbn [first_at_cursor]; [eexists; split; [reflexivity | discriminate]|]. unfold at_cursor. destruct (H a (or_introl eq_refl)) as (r & ->). cbn [obind_o].
  match goal with |- context [if ?b then Done (Some a) else _] => destruct b end; [eexists; split; [reflexivity | intros x E; injection E as <-; left; reflexivity]|].
  destruct IH as (o & E & Ho); [intros x Hx; apply H; right; exact Hx|]. exists o. split; [exact E | intros x Hx; right; apply Ho, Hx].
Qed.
Lemma innermost_done off : forall a, (forall x, within a x -> exists r, meta_range x = Done r) -> exists x, innermost_arg off a = Done x /\ within a x.
Proof.
  fix IH 1. intros a H. destruct a as [nm eq vl nested st en]; cbn [innermost_arg m_nested].
  destruct nested as [n|]; [|eexists; split; [reflexivity | constructor]]. unfold at_cursor. destruct (H n) as (r & ->); [eapply within_nested; [reflexivity | constructor]|]. cbn [obind_o].
  match goal with |- context [if ?b then _ else _] => destruct b end; [|eexists; split; [reflexivity | constructor]].
  destruct (IH n) as (x & E & Hx); [intros x Hx; apply H; eapply within_nested; [reflexivity | exact Hx]|]. exists x. split; [exact E | eapply within_nested; [reflexivity | exact Hx]].
Qed.
Lemma insert_done toks attr o env ids k : fst attr <= o <= snd attr -> exists t, arg_insert_text toks attr o env ids k = Done t.
Proof.
  intros H. unfold arg_insert_text. destruct (looks_ahead k); [|eexists; reflexivity]. unfold next_solid. rewrite (proj2 (Nat.leb_le _ _) (proj1 H)), (proj2 (Nat.leb_le _ _) (proj2 H)).
  cbn [andb obind_o]. eexists. reflexivity.
Qed.
Lemma closest_bounds root p a up : In p (paths [] 0 root) -> closest is_attr (snd p) = Some (a, up) ->
  HintSpec.in_file root a /\ lkind a = ATTR /\ lstart a <= lstart (fst p) /\ lend (fst p) <= lend a.
Proof.
  intros Hp Hc. destruct (closest_in _ _ _ _ Hc) as (Hi & Hk & _). unfold is_attr in Hk. apply skind_eqb_eq in Hk.
  apply paths_anc in Hp. destruct Hp as (_ & mid & Es & Hm). rewrite app_nil_r in Es. rewrite Es in Hi. destruct (Hm a Hi) as [A B]. apply element_bounds in B.
  split; [exact A|]. split; [exact Hk|]. exact B.
Qed.
Lemma closed_here root a : attributes_closed root -> HintSpec.in_file root a -> lkind a = ATTR -> closed_attr a = true.
Proof. intros H1 H2 H3. destruct (H1 a H2 H3) as (x & E). unfold closed_attr. rewrite E. reflexivity. Qed.
Lemma attr_there root px pr p a ia : attributes_closed root -> In p (paths [] 0 root) -> ink_attr_at px pr root p = Some (a, ia) ->
  attr_around p = Some a /\ attr_cast px (read_attr pr (fst a)) = Some ia.
Proof.
  intros Hcl Hp H. assert (N : forall q b, In q (paths [] 0 root) -> attr_around q = Some b -> closed_attr (fst b) = true).
  { intros q [b up] Hq Hb. destruct (closest_bounds root q b up Hq Hb) as (H1 & H2 & _). exact (closed_here root b Hcl H1 H2). }
  assert (U : unclosed_attr root p = None).
  { unfold unclosed_attr. destruct (attr_around p) as [b|] eqn:E; [rewrite (N p b Hp E); reflexivity|].
    destruct (prev_solid root (leaf_of (fst p))) as [t|]; [|reflexivity]. cbn [obind]. unfold token_path. destruct (find _ (paths [] 0 root)) as [q|] eqn:F; [|reflexivity]. cbn [obind].
    apply find_some in F. destruct F as [Hq _]. destruct (attr_around q) as [b|] eqn:Eb; [rewrite (N q b Hq Eb); reflexivity | reflexivity]. }
  unfold ink_attr_at in H. rewrite U in H. cbn [obind] in H. destruct (attr_around p) as [b|]; cbn [obind] in H; [|discriminate].
  destruct (attr_cast px (read_attr pr (fst b))) as [c|] eqn:E; cbn [option_map] in H; [|discriminate]. injection H as <- <-. auto.
Qed.
Lemma arguments_done px pr punct around env ids root off v : between_characters root off -> attributes_closed root -> arguments_placed px pr root ->
  argument_completions px pr punct around env ids root off v <> Panic.
Proof.
  intros Hb Hcl Hpl. unfold argument_completions. destruct (focused_done root off (between_len _ _ Hb)) as (f & -> & Hf). cbn [obind_o]. destruct f as [p|]; [|discriminate].
  destruct (Hf p eq_refl) as (H1 & H2 & H3). destruct (ink_attr_at px pr root p) as [[[a up] ia]|] eqn:Ea; [|discriminate].
  destruct (attr_there root px pr p (a, up) ia Hcl H1 Ea) as (Har & Hcast). cbn [fst] in *. destruct (closest_bounds root p a up H1 Har) as (Hfa & Hka & Hlo & Hhi).
  pose proof (lstart_lend (fst p)) as Hpl'. destruct (typed_done root p off H1 H2 H3 Hb) as (t & Et). cbv zeta.
  match goal with |- (if ?b then _ else _) <> _ => destruct b end; [|discriminate].
  assert (Hn : exists nested, nested_suggestions off (at_args ia) = Done nested /\ forall ks s r, nested = Some (ks, (s, r)) -> lstart a <= snd r <= lend a).
  { unfold nested_suggestions. destruct (first_cursor_done off (at_args ia)) as (o & -> & Ho).
    { intros x Hx. destruct (Hpl a ia x x Hfa Hka Hcast Hx (within_self x)) as (r & E & _). eauto. }
    cbn [obind_o]. destruct o as [top|]; [|eexists; split; [reflexivity | discriminate]].
    destruct (innermost_done off top) as (x & -> & Hx).
    { intros x Hx. destruct (Hpl a ia top x Hfa Hka Hcast (Ho top eq_refl) Hx) as (r & E & _). eauto. }
    cbn [obind_o]. destruct (nested_kinds (ia_kind x)) as [|k ks] eqn:Ek; [eexists; split; [reflexivity | discriminate]|].
    destruct (Hpl a ia top x Hfa Hka Hcast (Ho top eq_refl) Hx) as (r & Er & Hr & Hname). unfold nested_place.
    unfold ia_kind, arg_kind_of_meta in Ek. destruct (m_name x) as [n| |] eqn:En; [|discriminate Ek|discriminate Ek]. rewrite Er. cbn [obind_o]. unfold mk_range.
    rewrite (proj2 (Nat.leb_le _ _) (Hname n eq_refl)). cbn [obind_o]. eexists. split; [reflexivity|]. intros ks' s' r' E. injection E as _ _ <-. exact Hr. }
  destruct Hn as (nested & -> & Hnr). cbn [obind_o]. rewrite Et.
  match goal with |- obind_o (if ?b then _ else _) _ <> _ => destruct b eqn:Ed end; cbn [obind_o]; apply collect_done; intros k.
  all: match goal with |- context [arg_insert_text ?tk ?at_ ?o ?e ?i ?kk] => destruct (insert_done tk at_ o e i kk) as (w & ->) end; [|discriminate].
  all: unfold lrange_of; cbn [fst snd]; destruct nested as [[ks [s r]]|]; [exact (Hnr ks s r eq_refl)|]; 
    match goal with |- context [token_range ?d ?f] => assert (E' : snd (token_range d f) = lend (fst p)) by (destruct d; reflexivity) end; rewrite E'; lia.
Qed.

(** ** Extractions *)
Lemma delete_done U more root r : snd r <= len_of root -> format_in U more root (edit_delete r) <> Panic.
Proof.
  intros H. unfold format_in, format_edit. cbn [edit_delete te_range te_text]. rewrite (proj2 (Nat.ltb_ge _ _) H).
  destruct (covering_ws _ _); [unfold inside_ws; cbn [te_text]; discriminate | discriminate].
Qed.
Lemma struct_done root r : range_in root r -> exists f, struct_at root r = Done f /\ forall p, f = Some p -> HintSpec.in_file root (fst p).
Proof.
  intros H. unfold struct_at. destruct (focused_element_done root r H) as (f & -> & Hf). cbn [obind_o]. eexists. split; [reflexivity|]. intros q Hq.
  destruct f as [p|]; [|discriminate]. destruct (Hf p eq_refl) as (H1 & H2). destruct (node_at STRUCT (fst p)); [injection Hq as <-; exact H1|].
  destruct (parent_item p) as [[it up]|] eqn:E; [|discriminate]. destruct (node_at STRUCT it); [|discriminate]. injection Hq as <-. apply H2, (parent_item_in p (it, up) E).
Qed.
Lemma extract_done U read root r : range_in root r -> extract U read root r <> Panic.
Proof.
  intros H. unfold extract. destruct (struct_done root r H) as (f & -> & Hf). cbn [obind_o]. destruct f as [[s up]|]; [|discriminate].
  destruct (is_event read s); [|discriminate]. destruct (child_node NAME s) as [n|]; [|discriminate]. destruct (closest (node_at MODULE) up) as [[m mup]|]; [|discriminate].
  destruct (child_node ITEM_LIST m) as [il|]; [|discriminate].
  assert (B : snd (lrange_of s) <= len_of root) by (pose proof (element_bounds _ _ (Hf (s, up) eq_refl)) as [_ B]; exact B).
  pose proof (delete_done U more_items root (lrange_of s) B) as D. destruct (format_in U more_items root (edit_delete (lrange_of s))); [discriminate | contradiction].
Qed.

(** ** Written arguments *)
Lemma child_element (e c : lelem) : In c (children_of e) -> exists k cs, snd e = Node k cs /\ In (snd c) cs /\ element_of e c.
Proof.
  destruct e as [o [k t|k cs]]; intros H; [destruct H|]. exists k, cs. split; [reflexivity|]. cbn [children_of fst snd] in H. split; [|eapply eo_child; [exact H | constructor]].
  assert (M : map snd (place o cs) = cs) by apply map_snd_place. rewrite <- M. apply in_map, H.
Qed.
Lemma written_ranged px pr root : arguments_written px pr root -> arguments_ranged px pr root.
Proof.
  intros H a ia x Hf Hk Hc Hx. destruct (cast_fields px _ ia Hc) as (Ea & _ & _). rewrite Ea in Hx. cbn [as_token_tree read_attr] in Hx. unfold parse_ink_args in Hx.
  destruct (token_tree_of a) as [t|] eqn:Et; [|destruct Hx]. unfold token_tree_of in Et. destruct (find _ (children_of a)) as [m|] eqn:Em; [|discriminate]. cbn [obind] in Et.
  apply find_some in Em. destruct Em as [Hm Km]. apply find_some in Et. destruct Et as [Ht Kt]. apply andb_true_iff in Km. destruct Km as [_ Km]. apply andb_true_iff in Kt. destruct Kt as [Nt Kt].
  apply skind_eqb_eq in Km, Kt. destruct (child_element a m Hm) as (_ & _ & _ & _ & Hem). destruct (child_element m t Ht) as (k & mcs & Es & Hit & _).
  destruct m as [mo me]. cbn [snd] in Es. subst me. unfold lkind in Km. cbn [snd kind_of] in Km. subst k. destruct t as [o te]. unfold lkind in Kt. cbn [fst snd] in *.
  destruct te as [k tt|k cs]; [discriminate Nt|]. cbn [kind_of] in Kt. subst k. destruct (H a ia mo mcs cs Hf Hk Hc Hem Hit) as (ws & body & Hw & ->).
  pose proof (parse_written px ws body o TOKEN_TREE Hw) as F. clear - F Hx. induction F as [|w m0 ws' ms [_ (n & e & _ & Hr & _)] F IH]; [destruct Hx|].
  destruct Hx as [<-|Hx]; [eauto | apply IH, Hx].
Qed.

(** ** Completions inside attributes and outside of them *)
Lemma not_unclosed root p : attributes_closed root -> In p (paths [] 0 root) -> unclosed_attr root p = None.
Proof.
  intros Hcl Hp. assert (N : forall q b, In q (paths [] 0 root) -> attr_around q = Some b -> closed_attr (fst b) = true).
  { intros q [b up] Hq Hb. destruct (closest_bounds root q b up Hq Hb) as (H1 & H2 & _). exact (closed_here root b Hcl H1 H2). }
  unfold unclosed_attr. destruct (attr_around p) as [b|] eqn:E; [rewrite (N p b Hp E); reflexivity|].
  destruct (prev_solid root (leaf_of (fst p))) as [t|]; [|reflexivity]. cbn [obind]. unfold token_path. destruct (find _ (paths [] 0 root)) as [q|] eqn:F; [|reflexivity]. cbn [obind].
  apply find_some in F. destruct F as [Hq _]. destruct (attr_around q) as [b|] eqn:Eb; [rewrite (N q b Hq Eb); reflexivity | reflexivity].
Qed.
(** The cursor is at a token of an attribute. *)
Definition focus_in_attr (root : elem) (off : nat) : Prop := exists p b, focused_token root off = Done (Some p) /\ attr_around p = Some b.
Lemma focus_in root off p : focused_token root off = Done (Some p) -> In p (paths [] 0 root) /\ touches off (fst p) = true.
Proof.
  intros E. destruct (Nat.leb_spec off (len_of root)) as [L|L]; [|rewrite (past_token root off L) in E; discriminate].
  destruct (focused_done root off L) as (f & Ef & Hf). rewrite E in Ef. injection Ef as <-. destruct (Hf p eq_refl) as (A & _ & B). auto.
Qed.
Lemma focus_place root off : focus_in_attr root off -> exists a, HintSpec.in_file root a /\ lkind a = ATTR /\ lstart a <= off <= lend a.
Proof.
  intros (p & [a up] & E & Ha). destruct (focus_in root off p E) as (H1 & H2). destruct (closest_bounds root p a up H1 Ha) as (A & B & C & D).
  apply touching_bounds in H2. exists a. split; [exact A|]. split; [exact B|]. lia.
Qed.
Lemma macros_in_attr pr punct around root off v x l : attributes_closed root -> macro_completions pr punct around root off v = Done (x :: l) -> focus_in_attr root off.
Proof.
  intros Hcl H. unfold macro_completions in H. destruct (focused_token root off) as [[p|]|] eqn:E; cbn [obind_o] in H; [|discriminate|discriminate].
  unfold attr_at in H. destruct (focus_in root off p E) as (H1 & _). rewrite (not_unclosed root p Hcl H1) in H. destruct (attr_around p) as [b|] eqn:Eb; [|discriminate]. exists p, b. auto.
Qed.
Lemma arguments_in_attr px pr punct around env ids root off v x l : attributes_closed root ->
  argument_completions px pr punct around env ids root off v = Done (x :: l) -> focus_in_attr root off.
Proof.
  intros Hcl H. unfold argument_completions in H. destruct (focused_token root off) as [[p|]|] eqn:E; cbn [obind_o] in H; [|discriminate|discriminate].
  destruct (focus_in root off p E) as (H1 & _). destruct (ink_attr_at px pr root p) as [[a ia]|] eqn:Ea; [|discriminate].
  destruct (attr_there root px pr p a ia Hcl H1 Ea) as (Hr & _). exists p, a. auto.
Qed.
Lemma entities_outside U facts contracts root off v x l : entity_completions U facts contracts root off v = Done (x :: l) -> ~ focus_in_attr root off.
Proof.
  intros H (p & b & E & Hb). unfold entity_completions in H. rewrite E in H. cbn [obind_o] in H. unfold attr_around in Hb. rewrite Hb in H. cbn [is_some] in H. rewrite orb_true_r in H. discriminate.
Qed.
