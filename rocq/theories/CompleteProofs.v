(** Proofs for C98. *)
From Coq Require Import List Lia Sorting.Sorted.
From Verif Require Import Base BaseFacts Unicode PositionModel PositionProofs VersionModel TranslateModel SyntaxModel AttrModel AttrProofs EditModel EditSpec EditProofs UtilModel UtilSpec UtilProofs ArgEditModel ArgEditSpec ArgEditProofs RuleModel
  RuleSpec RuleProofs EntityModel EntitySpec HintModel HintSpec HintProofs ExtractModel ExtractSpec ExtractProofs FocusModel FocusSpec FocusProofs CompleteModel CompleteSpec.
Import ListNotations.

(** ** Tokens of a file *)

Definition is_tok_path (p : path) : bool := is_tok (snd (fst p)).
Definition path_leaf (p : path) : leaf := leaf_of (fst p).
Lemma leaf_of_tok o k s : leaf_of (o, Tok k s) = (o, (k, s)).
Proof. reflexivity. Qed.
Lemma paths_leaves e : forall anc o, map path_leaf (filter is_tok_path (paths anc o e)) = place_leaves o (leaves e).
Proof.
  induction e as [k t|k cs IH] using elem_ind'; intros anc o; [reflexivity|]. rewrite paths_node, leaves_node. cbn [filter is_tok_path snd fst is_tok].
  generalize ((o, Node k cs) :: anc). intros anc'. clear anc. revert o. induction IH as [|c cs Hc _ IHcs]; intros o; [reflexivity|].
  cbn [place flat_map fst snd]. rewrite filter_app, map_app, Hc, IHcs. unfold leaves_of. cbn [flat_map]. rewrite place_leaves_app, text_leaves. reflexivity.
Qed.
(** The elements listed are the elements with what is around them. *)
Lemma in_paths acc e p : In p (paths acc (fst e) (snd e)) <-> inside_of acc e (fst p) (snd p).
Proof.
  split.
  - destruct e as [o e]. cbn [fst snd]. revert acc o p. induction e as [k t|k cs IH] using elem_ind'; intros acc o p.
    + intros [<-|[]]. constructor.
    + rewrite paths_node. intros [<-|H]; [constructor|]. apply in_flat_map in H. destruct H as (c & Hc & H). rewrite Forall_forall in IH.
      apply (io_child acc o k cs c); [exact Hc|]. destruct c as [oc c]. apply (IH c (place_In _ _ _ Hc)). exact H.
  - destruct p as [x up]. cbn [fst snd]. induction 1 as [acc e|acc o k cs c e up Hc Hi IH].
    + destruct e as [o [k t|k cs]]; [left; reflexivity | cbn [fst snd]; rewrite paths_node; left; reflexivity].
    + cbn [fst snd]. rewrite paths_node. right. apply in_flat_map. exists c. auto.
Qed.
Definition tok_paths (root : elem) : list path := filter is_tok_path (paths [] 0 root).
Lemma in_tok_paths root x up : In (x, up) (tok_paths root) <-> token root x up.
Proof. unfold tok_paths, token, around. rewrite filter_In. change (paths [] 0 root) with (paths [] (fst (0, root)) (snd (0, root))). rewrite in_paths. reflexivity. Qed.
Lemma tok_paths_leaves root : map path_leaf (tok_paths root) = file_toks root.
Proof. apply paths_leaves. Qed.

Definition before (a b : leaf) : Prop := lf_end a <= lf_start b.
Lemma place_sorted_leaves l : forall o, StronglySorted before (place_leaves o l).
Proof.
  induction l as [|t l IH]; intros o; [constructor|]. cbn [place_leaves]. constructor; [apply IH|]. apply Forall_forall. intros x Hx. apply place_leaves_bounds in Hx.
  unfold before, lf_end. cbn [fst snd]. lia.
Qed.
Lemma sorted_map {A B} (R : B -> B -> Prop) (f : A -> B) l : StronglySorted R (map f l) -> StronglySorted (fun a b => R (f a) (f b)) l.
Proof.
  induction l as [|x l IH]; intros H; [constructor|]. cbn [map] in H. inversion H as [|? ? Hs Hf]; subst. constructor; [apply IH, Hs|].
  rewrite Forall_forall in Hf |- *. intros y Hy. apply Hf, in_map, Hy.
Qed.
Lemma sorted_filter {A} (R : A -> A -> Prop) f l : StronglySorted R l -> StronglySorted R (filter f l).
Proof.
  induction 1 as [|x l Hs IH Hf]; [constructor|]. cbn [filter]. destruct (f x); [|exact IH]. constructor; [exact IH|].
  rewrite Forall_forall in Hf |- *. intros y Hy. apply filter_In in Hy. apply Hf, Hy.
Qed.
Lemma place_leaves_split l : forall o L1 y L2, place_leaves o l = L1 ++ y :: L2 ->
  exists a b, l = a ++ snd y :: b /\ L1 = place_leaves o a /\ fst y = o + bytes (text a) /\ L2 = place_leaves (fst y + bytes (snd (snd y))) b.
Proof.
  induction l as [|t l IH]; intros o L1 y L2 E; [destruct L1; discriminate E|]. cbn [place_leaves] in E. destruct L1 as [|z L1]; cbn [app] in E; injection E as E1 E2.
  - subst y. exists [], l. cbn. rewrite Nat.add_0_r. auto.
  - subst z. destruct (IH _ _ _ _ E2) as (a & b & -> & -> & Ey & ->). exists (t :: a), b. cbn [app place_leaves]. repeat split; auto.
    rewrite Ey. change (text (t :: a)) with (snd t ++ text a). rewrite bytes_app. lia.
Qed.
Lemma tok_split root x up : token root x up -> exists k s a b P1 P2,
  x = (bytes (text a), Tok k s) /\ leaves root = a ++ (k, s) :: b /\ tok_paths root = P1 ++ (x, up) :: P2.
Proof.
  intros H. pose proof (proj2 H) as Ht. apply in_tok_paths in H. apply in_split in H. destruct H as (P1 & P2 & E).
  pose proof (tok_paths_leaves root) as El. rewrite E, map_app in El. cbn [map] in El. symmetry in El. apply place_leaves_split in El.
  destruct El as (a & b & El & _ & Ex & _). destruct x as [o [k s|]]; [|discriminate Ht]. cbn in Ex, El. exists k, s, a, b, P1, P2. subst o. auto.
Qed.

(** ** The cursor *)
Definition path_before (p q : path) : Prop := lend (fst p) <= lstart (fst q).
Lemma leaf_bounds x : is_tok (snd x) = true -> lf_start (leaf_of x) = lstart x /\ lf_end (leaf_of x) = lend x.
Proof. destruct x as [o [k s|]]; [|discriminate]. intros _. split; reflexivity. Qed.
Lemma tok_paths_sorted root : StronglySorted path_before (tok_paths root).
Proof.
  pose proof (place_sorted_leaves (leaves root) 0) as H. fold (file_toks root) in H. rewrite <- tok_paths_leaves in H. apply sorted_map in H.
  unfold tok_paths in *. remember (paths [] 0 root) as l. clear Heql. induction l as [|p l IH]; [constructor|]. cbn [filter] in *. destruct (is_tok_path p) eqn:Ep; [|apply IH, H].
  inversion H as [|? ? Hs Hf]; subst. constructor; [apply IH, Hs|]. rewrite Forall_forall in Hf |- *. intros q Hq. specialize (Hf q Hq). apply filter_In in Hq.
  unfold before, path_leaf in Hf. unfold path_before. destruct (leaf_bounds (fst p) Ep) as [_ <-]. destruct (leaf_bounds (fst q) (proj2 Hq)) as [<- _]. exact Hf.
Qed.
Lemma tokens_at_eq root off : off <= len_of root -> tokens_at root off = Done (filter (fun p => touches off (fst p)) (tok_paths root)).
Proof.
  intros H. unfold tokens_at. rewrite (proj2 (Nat.leb_le _ _) H). f_equal. unfold tok_paths. induction (paths [] 0 root) as [|[[o e] anc] l IH]; [reflexivity|]. cbn [filter].
  unfold is_tok_path at 1. cbn [fst snd]. destruct (is_tok e); cbn [andb]; [cbn [filter fst]; destruct (touches off (o, e)); rewrite IH; reflexivity | exact IH].
Qed.
Lemma trivia_blank x : is_trivia (lkind x) = true <-> is_blank x.
Proof. unfold is_blank. destruct (lkind x); cbn; split; try tauto; try discriminate; intros [H|H]; discriminate H. Qed.

Section Cursor.
  Context (U : unicode) (root : elem) (Hlex : lexed U root).
  Lemma token_nonempty x up : token root x up -> lstart x < lend x.
  Proof.
    intros H. destruct (tok_split _ _ _ H) as (k & s & a & b & _ & _ & -> & El & _). unfold lstart, lend. cbn [fst snd]. unfold len_of. cbn [text_of].
    assert (s <> []) by (apply (Hlex k s); rewrite El; apply in_app_iff; right; left; reflexivity). apply bytes_pos in H0. lia.
  Qed.
  Lemma touches_touching x up off : token root x up -> touches off x = true <-> touching off x.
  Proof.
    intros H. apply token_nonempty in H. unfold touches, touching. unfold lstart, lend in *. rewrite !andb_true_iff, negb_true_iff, Nat.eqb_neq, !Nat.leb_le. lia.
  Qed.
  Lemma cursor_focused off x up : cursor_on root off x up -> focused_token root off = Done (Some (x, up)).
  Proof.
    intros (Ht & Htt & Hbest). pose proof (element_bounds _ _ (inside_element _ _ _ _ (proj1 Ht))) as Hb. unfold lend at 2 in Hb. cbn [fst snd] in Hb.
    unfold focused_token. rewrite tokens_at_eq by (unfold touching in Htt; lia).
    pose proof (sorted_filter _ (fun p => touches off (fst p)) _ (tok_paths_sorted root)) as Hs.
    assert (Hin : In (x, up) (filter (fun p => touches off (fst p)) (tok_paths root))).
    { apply filter_In. split; [apply in_tok_paths, Ht | apply (touches_touching x up off Ht), Htt]. }
    assert (Hall : forall p, In p (filter (fun p => touches off (fst p)) (tok_paths root)) -> token root (fst p) (snd p) /\ touching off (fst p)).
    { intros p Hp. apply filter_In in Hp. destruct Hp as [Hp Hf]. destruct p as [y upy]. apply in_tok_paths in Hp. split; [exact Hp | apply (touches_touching y upy off Hp), Hf]. }
    destruct (filter (fun p => touches off (fst p)) (tok_paths root)) as [|l [|r rest]]; [destruct Hin | destruct Hin as [->|[]]; reflexivity|].
    pose proof (Hall l (or_introl eq_refl)) as [Hl Hlt]. pose proof (Hall r (or_intror (or_introl eq_refl))) as [Hr Hrt].
    inversion Hs as [|? ? Hs' Hf]; subst. inversion Hs' as [|? ? _ Hf']; subst. rewrite Forall_forall in Hf, Hf'.
    pose proof (Hf r (or_introl eq_refl)) as Hlr. unfold path_before in Hlr. pose proof (token_nonempty _ _ Hl) as Nl. pose proof (token_nonempty _ _ Hr) as Nr. unfold touching in Hlt, Hrt.
    destruct Hin as [->|[->|Hin]]; cbn [fst snd] in *.
    - assert (Ne : fst r <> x) by (intros E; rewrite E in *; lia). specialize (Hbest _ _ Hr Hrt Ne). rewrite <- !trivia_blank in Hbest.
      destruct (is_trivia (lkind x)), (is_trivia (lkind (fst r))); try reflexivity. exfalso. destruct Hbest as [[B _]|[_ B]]; [discriminate B|]. apply B. split; [reflexivity | discriminate].
    - assert (Ne : fst l <> x) by (intros E; rewrite E in *; lia). specialize (Hbest _ _ Hl Hlt Ne). rewrite <- !trivia_blank in Hbest.
      destruct Hbest as [[B C]|[B _]]; [|lia]. rewrite B. destruct (is_trivia (lkind x)); [destruct C; reflexivity | reflexivity].
    - exfalso. pose proof (Hf' _ Hin) as H1. unfold path_before in H1. cbn [fst] in H1. pose proof (Hall _ (or_intror (or_intror Hin))) as [_ H2]. unfold touching in H2. cbn [fst] in H2. lia.
  Qed.
End Cursor.

(** ** The line *)
Lemma inline_place o t : inline (o, t) = negb (is_trivia (fst t)) || negb (mem_char c_nl (snd t)).
Proof. reflexivity. Qed.
Definition inl (t : skind * str) : bool := negb (is_trivia (fst t)) || negb (mem_char c_nl (snd t)).
Lemma right_split B : forall o, exists B1 B2, B = B1 ++ B2 /\ while_inline (place_leaves o B) = place_leaves o B1
  /\ (forall t, In t B1 -> inl t = true) /\ (B2 = [] \/ exists t b, B2 = t :: b /\ inl t = false).
Proof.
  induction B as [|t B IH]; intros o.
  - exists [], []. repeat split; auto; intros ? [].
  - cbn [place_leaves while_inline]. rewrite inline_place. fold (inl t). destruct (inl t) eqn:E.
    + destruct (IH (o + bytes (snd t))) as (B1 & B2 & -> & -> & H1 & H2). exists (t :: B1), B2. repeat split; auto. intros x [<-|Hx]; auto.
    + exists [], (t :: B). split; [reflexivity|]. split; [reflexivity|]. split; [intros ? []|]. right. exists t, B. auto.
Qed.
Lemma left_split A : exists A1 A2, A = A1 ++ A2 /\ while_inline (rev (place_leaves 0 A)) = rev (place_leaves (bytes (text A1)) A2)
  /\ (forall t, In t A2 -> inl t = true) /\ (A1 = [] \/ exists a t, A1 = a ++ [t] /\ inl t = false).
Proof.
  induction A as [|t A IH] using rev_ind.
  - exists [], []. repeat split; auto; intros ? [].
  - rewrite place_leaves_app. cbn [place_leaves]. rewrite rev_app_distr. cbn [rev app while_inline]. rewrite inline_place. fold (inl t). destruct (inl t) eqn:E.
    + destruct IH as (A1 & A2 & -> & -> & H1 & H2). exists A1, (A2 ++ [t]). split; [rewrite app_assoc; reflexivity|]. split.
      * rewrite place_leaves_app. cbn [place_leaves]. rewrite rev_app_distr. cbn [rev app]. rewrite text_app, bytes_app. reflexivity.
      * split; [|exact H2]. intros x Hx. apply in_app_iff in Hx. destruct Hx as [Hx|[<-|[]]]; auto.
    + exists (A ++ [t]), []. rewrite app_nil_r. split; [reflexivity|]. split; [reflexivity|]. split; [intros ? []|]. right. exists A, t. auto.
Qed.
Lemma hd_rev_last {A} (l : list A) : last_opt (rev l) = hd_error l.
Proof. destruct l as [|x l]; [reflexivity|]. cbn [rev]. apply last_opt_app. Qed.

Lemma cons_eq {A} (x y : A) l m : x :: l = y :: m -> x = y /\ l = m.
Proof. intros E. injection E. auto. Qed.
Lemma filter_app_none {A} (f : A -> bool) l1 x l2 : (forall y, In y l1 -> f y = false) -> f x = true -> filter f (l1 ++ x :: l2) = x :: filter f l2.
Proof. intros H1 Hx. rewrite filter_app, (filter_none f l1 H1). cbn [filter app]. rewrite Hx. reflexivity. Qed.

Lemma bytes_rev s : bytes (rev s) = bytes s.
Proof. induction s as [|c s IH]; [reflexivity|]. cbn [rev]. rewrite bytes_app, IH. cbn [bytes]. lia. Qed.
Lemma indent_split U w : all_white U w -> In c_nl w -> exists u i, w = u ++ c_nl :: i /\ ~ In c_nl i /\ bytes (end_indenting U w) = bytes i.
Proof.
  intros Hw Hn. assert (G : exists u i, w = u ++ c_nl :: i /\ ~ In c_nl i).
  { clear Hw. induction w as [|c w IH]; [destruct Hn|]. destruct (in_dec N.eq_dec c_nl w) as [H|H].
    - destruct (IH H) as (u & i & -> & Hi). exists (c :: u), i. auto.
    - destruct Hn as [->|Hn]; [|contradiction]. exists [], w. auto. }
  destruct G as (u & i & -> & Hi). exists u, i. split; [reflexivity|]. split; [exact Hi|].
  rewrite (end_indenting_rev U _ i Hw); [|split; [exact Hi | right; exists u; reflexivity]]. apply bytes_rev.
Qed.

Section Line.
  Context (U : unicode) (root : elem) (Hlex : lexed U root) (Hone : one_line_tokens root).

  Lemma inl_true t : In t (leaves root) -> inl t = true -> ~ In c_nl (snd t).
  Proof.
    intros Hin H. destruct t as [k s]. unfold inl in H. cbn [fst snd] in *. destruct (skind_eqb k WHITESPACE) eqn:E.
    - apply skind_eqb_eq in E. subst k. cbn in H. apply negb_true_iff in H. intros C. apply mem_char_In in C. congruence.
    - apply (Hone k s Hin). intros ->. discriminate E.
  Qed.
  Lemma inl_false t : In t (leaves root) -> inl t = false -> fst t = WHITESPACE /\ In c_nl (snd t) /\ all_white U (snd t) .
  Proof.
    intros Hin H. destruct t as [k s]. unfold inl in H. cbn [fst snd] in *. apply orb_false_iff in H. destruct H as [_ H]. apply negb_false_iff, mem_char_In in H.
    destruct (skind_eqb k WHITESPACE) eqn:E; [|exfalso; apply (Hone k s Hin); [intros ->; discriminate E | exact H]].
    apply skind_eqb_eq in E. split; [exact E|]. split; [exact H|]. apply (Hlex k s Hin), E.
  Qed.

  Lemma len_root A B : leaves root = A ++ B -> len_of root = bytes (text A) + bytes (text B).
  Proof. intros E. unfold len_of. rewrite <- text_leaves, E, text_app. apply bytes_app. Qed.

  (** Inside of white space, or at its end *)
  Lemma unindent_ws A w1 w2 B : leaves root = A ++ (WHITESPACE, w1 ++ w2) :: B -> w1 <> [] ->
    unindented_start U root (bytes (text A) + bytes w1) = Done (bytes (text A) + bytes w1 - bytes (end_indenting U w1)).
  Proof.
    intros El Hw. pose proof (len_root _ _ El) as Hlen. change (text ((WHITESPACE, w1 ++ w2) :: B)) with ((w1 ++ w2) ++ text B) in Hlen. rewrite !bytes_app in Hlen.
    apply bytes_pos in Hw. unfold unindented_start. rewrite tokens_at_eq by lia. cbn [obind_o].
    pose proof (tok_paths_leaves root) as Hp. unfold file_toks in Hp. rewrite El, place_leaves_app in Hp. cbn [place_leaves Nat.add] in Hp.
    apply map_eq_app in Hp. destruct Hp as (P1 & P2 & Ep & E1 & E2). symmetry in E2. destruct P2 as [|p P2]; [discriminate E2|]. cbn [map] in E2. apply cons_eq in E2. destruct E2 as [Et E2].
    assert (Htok : forall q, In q (tok_paths root) -> lf_start (path_leaf q) = lstart (fst q) /\ lf_end (path_leaf q) = lend (fst q)).
    { intros q Hq. unfold tok_paths in Hq. apply filter_In in Hq. apply leaf_bounds, Hq. }
    rewrite Ep. rewrite filter_app_none.
    - change (leaf_of (fst p)) with (path_leaf p). rewrite <- Et. change (lf_kind (bytes (text A), (WHITESPACE, w1 ++ w2))) with WHITESPACE. cbn [skind_eqb].
      rewrite (skind_eqb_refl WHITESPACE). change (lf_kind (bytes (text A), (WHITESPACE, w1 ++ w2))) with WHITESPACE. rewrite (skind_eqb_refl WHITESPACE).
      change (lf_end (bytes (text A), (WHITESPACE, w1 ++ w2))) with (bytes (text A) + bytes (w1 ++ w2)). change (lf_start (bytes (text A), (WHITESPACE, w1 ++ w2))) with (bytes (text A)).
      change (lf_text (bytes (text A), (WHITESPACE, w1 ++ w2))) with (w1 ++ w2). rewrite bytes_app.
      destruct (bytes (text A) + (bytes w1 + bytes w2) <=? bytes (text A) + bytes w1) eqn:E.
      + apply Nat.leb_le in E. assert (w2 = []) by (apply bytes_zero; lia). subst w2. rewrite app_nil_r. cbn [bytes]. destruct (end_indenting U w1) eqn:Ei.
        * f_equal. cbn. lia.
        * f_equal. rewrite Nat.add_0_r. reflexivity.
      + replace (bytes (text A) + bytes w1 - bytes (text A)) with (bytes w1) by lia. unfold split_bytes. rewrite take_bytes_at. reflexivity.
    - intros q Hq. assert (Hl : In (path_leaf q) (place_leaves 0 A)) by (rewrite <- E1; apply in_map, Hq). apply place_leaves_bounds in Hl.
      destruct (Htok q) as [_ Eq]; [rewrite Ep; apply in_app_iff; left; exact Hq|]. unfold touches. rewrite <- Eq. rewrite (proj2 (Nat.leb_gt (bytes (text A) + bytes w1) (lf_end (path_leaf q)))) by lia. apply andb_false_r.
    - destruct (Htok p) as [Es Ee]; [rewrite Ep; apply in_app_iff; right; left; reflexivity|]. rewrite <- Et in Es, Ee.
      change (lf_end (bytes (text A), (WHITESPACE, w1 ++ w2))) with (bytes (text A) + bytes (w1 ++ w2)) in Ee. change (lf_start (bytes (text A), (WHITESPACE, w1 ++ w2))) with (bytes (text A)) in Es.
      rewrite bytes_app in Ee. destruct p as [[o e] anc]. unfold touches, lstart, lend in *. cbn [fst snd] in *.
      rewrite !andb_true_iff, negb_true_iff, Nat.eqb_neq, !Nat.leb_le. lia.
  Qed.
  Lemma unindent_0 : unindented_start U root 0 = Done 0.
  Proof.
    unfold unindented_start. rewrite tokens_at_eq by lia. cbn [obind_o]. pose proof (tok_paths_leaves root) as Hp. unfold file_toks in Hp |- *.
    destruct (leaves root) as [|t l] eqn:El; destruct (tok_paths root) as [|p P] eqn:Ep; try discriminate Hp; [reflexivity|].
    cbn [place_leaves map] in Hp. apply cons_eq in Hp. destruct Hp as [Et _].
    assert (Htk : is_tok (snd (fst p)) = true) by (assert (H : In p (tok_paths root)) by (rewrite Ep; left; reflexivity); apply filter_In in H; exact (proj2 H)).
    cbn [filter]. assert (Ne : snd t <> []) by (destruct t as [k s]; apply (Hlex k s); rewrite El; left; reflexivity). pose proof (bytes_pos _ Ne) as Np.
    destruct (leaf_bounds _ Htk) as [Es Ee]. change (leaf_of (fst p)) with (path_leaf p) in Es, Ee. rewrite Et in Es, Ee. unfold lf_start, lf_end in Es, Ee. cbn [fst snd] in Es, Ee.
    assert (Ht : touches 0 (fst p) = true).
    { unfold touches. rewrite !andb_true_iff, negb_true_iff, Nat.eqb_neq, !Nat.leb_le. unfold lend, lstart in *. lia. }
    rewrite Ht. change (leaf_of (fst p)) with (path_leaf p). rewrite Et. destruct (skind_eqb (lf_kind (0, t)) WHITESPACE) eqn:Ek.
    - rewrite Ek. unfold lf_end, lf_start. cbn [fst snd]. rewrite (proj2 (Nat.leb_gt _ _)) by lia.
      change (0 - 0) with (bytes []). unfold split_bytes. rewrite (take_bytes_at [] (lf_text (0, t)) : take_bytes (bytes []) (lf_text (0, t)) = Some []). reflexivity.
    - pose proof (before_place 0 [] t l Ne) as Hb. cbn [app text flat_map bytes Nat.add place_leaves rev] in Hb. cbn [place_leaves Nat.add].
      rewrite Hb. reflexivity.
  Qed.

  Definition solid (t : leaf) : Prop := is_trivia (lf_kind t) = false.
  Definition starts_line (L : list (skind * str)) (at_ : nat) (bf ind : str) : Prop :=
    unindented_start U root at_ = Done (bytes bf) /\ (bf = [] \/ exists b, bf = b ++ [c_nl]) /\ ~ In c_nl ind
    /\ (forall t, In t (place_leaves 0 L) -> solid t -> lf_end t <= bytes bf).
  Lemma start_in A w1 w2 B : leaves root = A ++ (WHITESPACE, w1 ++ w2) :: B -> In c_nl w1 ->
    exists bf ind, text A ++ w1 = bf ++ ind /\ starts_line (A ++ [(WHITESPACE, w1 ++ w2)]) (bytes (text A) + bytes w1) bf ind.
  Proof.
    intros El Hn. assert (Hw : all_white U (w1 ++ w2)) by (apply (Hlex WHITESPACE (w1 ++ w2)); [rewrite El; apply in_app_iff; right; left; reflexivity | reflexivity]).
    destruct (indent_split U w1) as (u & i & E & Hi & Hb); [intros c Hc; apply Hw, in_app_iff; auto | exact Hn |].
    exists (text A ++ u ++ [c_nl]), i. split; [subst w1; rewrite <- !app_assoc; reflexivity|]. split; [|split; [right; exists (text A ++ u); rewrite app_assoc; reflexivity | split; [exact Hi|]]].
    - rewrite (unindent_ws A w1 w2 B El) by (intros E0; subst w1; rewrite E0 in Hn; destruct Hn). f_equal. rewrite Hb. subst w1. rewrite !bytes_app. cbn [bytes]. change (utf8_len c_nl) with 1. lia.
    - intros t Ht Hs. rewrite place_leaves_app in Ht. apply in_app_iff in Ht. destruct Ht as [Ht|Ht].
      + apply place_leaves_bounds in Ht. rewrite bytes_app. lia.
      + destruct Ht as [<-|[]]. discriminate Hs.
  Qed.
  Lemma start_left A1 rest : leaves root = A1 ++ rest -> (A1 = [] \/ exists a t, A1 = a ++ [t] /\ inl t = false) ->
    exists bf ind, text A1 = bf ++ ind /\ starts_line A1 (bytes (text A1)) bf ind.
  Proof.
    intros El [->|(a & t & -> & Ht)].
    - exists [], []. split; [reflexivity|]. split; [apply unindent_0|]. split; [left; reflexivity|]. split; [intros []|]. intros t [].
    - destruct (inl_false t) as (Ek & Hn & Hw); [rewrite El; apply in_app_iff; left; apply in_app_iff; right; left; reflexivity | exact Ht |].
      destruct t as [kt w]. cbn [fst snd] in *. subst kt. rewrite <- app_assoc in El. cbn [app] in El.
      destruct (start_in a w [] rest) as (bf & ind & E & H); [rewrite app_nil_r; exact El | exact Hn |].
      exists bf, ind. rewrite text_app. change (text [(WHITESPACE, w)]) with (w ++ []). rewrite app_nil_r in *. split; [exact E|]. rewrite bytes_app. exact H.
  Qed.
  Lemma first_nl (w : str) : In c_nl w -> exists u i, w = u ++ c_nl :: i /\ ~ In c_nl u.
  Proof.
    induction w as [|c w IH]; intros H; [destruct H|]. destruct (N.eq_dec c c_nl) as [->|N].
    - exists [], w. auto.
    - destruct H as [H|H]; [congruence|]. destruct (IH H) as (u & i & -> & Hu). exists (c :: u), i. split; [reflexivity|]. intros [C|C]; auto.
  Qed.
  Definition ends_line (s : str) : Prop :=
    exists white rest, s = white ++ rest /\ ~ In c_nl white /\ all_white U white /\ (rest = [] \/ exists c, rest = c_nl :: c).
  Lemma end_ws w s : all_white U w -> In c_nl w -> ends_line (w ++ s).
  Proof.
    intros Hw Hn. destruct (first_nl w Hn) as (u & i & -> & Hu). exists u, (c_nl :: i ++ s). split; [rewrite <- app_assoc; reflexivity|]. split; [exact Hu|].
    split; [intros c Hc; apply Hw, in_app_iff; auto | right; eauto].
  Qed.
  Lemma end_right L B2 : leaves root = L ++ B2 -> (B2 = [] \/ exists t b, B2 = t :: b /\ inl t = false) -> ends_line (text B2).
  Proof.
    intros El [->|(t & b & -> & Ht)].
    - exists [], []. repeat split; auto; intros ? [].
    - destruct (inl_false t) as (_ & Hn & Hw); [rewrite El; apply in_app_iff; right; left; reflexivity | exact Ht |]. change (text (t :: b)) with (snd t ++ text b). apply end_ws; assumption.
  Qed.
  Lemma no_nl_text L : (forall t, In t L -> In t (leaves root)) -> (forall t, In t L -> inl t = true) -> ~ In c_nl (text L).
  Proof. intros H1 H2 C. apply in_flat_map in C. destruct C as (t & Ht & C). exact (inl_true t (H1 t Ht) (H2 t Ht) C). Qed.
  Lemma solid_texts_In o L w : In w (solid_texts (place_leaves o L)) <-> exists k, In (k, w) L /\ is_trivia k = false.
  Proof.
    unfold solid_texts. rewrite in_map_iff. split.
    - intros (t & <- & Ht). apply filter_In in Ht. destruct Ht as [Ht Hk]. exists (lf_kind t). split; [|apply negb_true_iff, Hk]. destruct t as [p [k s]]. revert o Ht. clear.
      induction L as [|x L IH]; intros o; [intros []|]. cbn [place_leaves]. intros [E|H]; [injection E as _ ->; left; reflexivity | right; apply (IH _ H)].
    - intros (k & H & Hk). assert (G : exists p, In (p, (k, w)) (place_leaves o L)).
      { clear Hk. revert o. induction L as [|x L IH]; intros o; [destruct H|]. destruct H as [->|H]; [exists o; left; reflexivity|]. destruct (IH H (o + bytes (snd x))) as (p & Hp). exists p. right. exact Hp. }
      destruct G as (p & Hp). exists (p, (k, w)). split; [reflexivity|]. apply filter_In. split; [exact Hp|]. unfold lf_kind. cbn [fst snd]. rewrite Hk. reflexivity.
  Qed.
  Lemma solid_texts_rev l w : In w (solid_texts (rev l)) <-> In w (solid_texts l).
  Proof. unfold solid_texts. rewrite !in_map_iff. split; intros (t & E & H); exists t; (split; [exact E|]); apply filter_In in H; apply filter_In; rewrite <- ?in_rev in *; exact H. Qed.

  (** What is found out about the line: its range, and the tokens with its words *)
  Definition found_line (f : leaf) (off : nat) (ln : line) (s0 : nat) : Prop :=
    line_of (file_toks root) f off = Done ln /\ unindented_start U root (ln_start ln) = Done s0 /\ line_range U (text_of root) off (s0, ln_end ln)
    /\ lf_end (or_else (ln_last ln) f) = Nat.max (ln_end ln) (lf_end f)
    /\ exists P M Q, leaves root = P ++ M ++ Q
        /\ (forall w, In w ((if is_trivia (lf_kind f) then [] else [lf_text f]) ++ ln_before ln ++ ln_after ln) <-> exists k, In (k, w) M /\ is_trivia k = false)
        /\ (forall t, In t (place_leaves 0 P) -> solid t -> lf_end t <= s0)
        /\ (forall t, In t (place_leaves (bytes (text P)) M) -> solid t -> s0 <= lf_start t /\ lf_end t <= ln_end ln)
        /\ (forall t, In t (place_leaves (bytes (text (P ++ M))) Q) -> solid t -> ln_end ln <= lf_start t).
  Lemma line_found A k s1 s2 B off : leaves root = A ++ (k, s1 ++ s2) :: B -> off = bytes (text A) + bytes s1 ->
    exists ln s0, found_line (bytes (text A), (k, s1 ++ s2)) off ln s0.
  Proof.
    intros El Eoff. set (s := s1 ++ s2) in *. set (f := (bytes (text A), (k, s))).
    assert (Ns : s <> []) by (apply (Hlex k s); rewrite El; apply in_app_iff; right; left; reflexivity).
    assert (Hb : leaves_before (file_toks root) f = rev (place_leaves 0 A)).
    { unfold file_toks. rewrite El. exact (before_place 0 A (k, s) B Ns). }
    assert (Ha : leaves_after (file_toks root) f = place_leaves (bytes (text A) + bytes s) B).
    { unfold file_toks. rewrite El. exact (after_place 0 A (k, s) B Ns). }
    destruct (left_split A) as (A1 & A2 & EA & Hl & HA2 & HA1). destruct (right_split B (bytes (text A) + bytes s)) as (B1 & B2 & EB & Hr & HB1 & HB2).
    assert (EtA : text A = text A1 ++ text A2) by (rewrite EA; apply text_app). assert (EtB : text B = text B1 ++ text B2) by (rewrite EB; apply text_app).
    assert (Etext : text_of root = text A ++ s ++ text B) by (rewrite <- text_leaves, El, text_app; reflexivity).
    assert (Ele : left_end (file_toks root) f = bytes (text A1)).
    { unfold left_end, tokens_left. rewrite Hb, Hl, hd_rev_last, hd_place. destruct A2; cbn [or_else]; [|reflexivity]. cbn in EtA. rewrite app_nil_r in EtA. unfold f, lf_start. cbn [fst]. rewrite EtA. reflexivity. }
    assert (Ere : right_end (file_toks root) f = bytes (text A) + bytes s + bytes (text B1)).
    { unfold right_end, tokens_right. rewrite Ha, Hr. destruct (list_snoc_case B1) as [->|(b & t & ->)].
      - cbn [place_leaves last_opt or_else]. unfold f, lf_end. cbn. lia.
      - rewrite place_leaves_app. cbn [place_leaves]. rewrite last_opt_app. cbn [or_else]. unfold lf_end. cbn [fst snd]. rewrite text_app, bytes_app. change (text [t]) with (snd t ++ []). rewrite app_nil_r. lia. }
    assert (Elast : lf_end (or_else (last_opt (tokens_right (file_toks root) f)) f) = bytes (text A) + bytes s + bytes (text B1)) by exact Ere.
    assert (Hs12 : bytes s = bytes s1 + bytes s2) by apply bytes_app.
    assert (Fe : lf_end f = bytes (text A) + bytes s) by reflexivity.
    assert (InA : forall t, In t A -> In t (leaves root)) by (intros t Ht; rewrite El; apply in_app_iff; left; exact Ht).
    assert (InB : forall t, In t B -> In t (leaves root)) by (intros t Ht; rewrite El; apply in_app_iff; right; right; exact Ht).
    assert (NA2 : ~ In c_nl (text A2)) by (apply no_nl_text; [intros t Ht; apply InA; rewrite EA; apply in_app_iff; auto | exact HA2]).
    assert (NB1 : ~ In c_nl (text B1)) by (apply no_nl_text; [intros t Ht; apply InB; rewrite EB; apply in_app_iff; auto | exact HB1]).
    destruct (start_left A1 (A2 ++ (k, s) :: B)) as (bf & ind & Ebf & Hst & Hbf & Hind & HP); [rewrite El, EA, <- app_assoc; reflexivity | exact HA1 |].
    destruct (end_right (A ++ (k, s) :: B1) B2) as (white & rest & Ewh & Nw & Ww & Hrest); [rewrite El, EB, <- app_assoc; reflexivity | exact HB2 |].
    assert (Bb : bytes (text A1) = bytes bf + bytes ind) by (rewrite Ebf; apply bytes_app).
    assert (BA : bytes (text A) = bytes (text A1) + bytes (text A2)) by (rewrite EtA; apply bytes_app).
    assert (Wl : forall w, In w (solid_texts (tokens_left (file_toks root) f)) <-> exists k, In (k, w) A2 /\ is_trivia k = false).
    { intros w. unfold tokens_left. rewrite Hb, Hl, solid_texts_rev. apply solid_texts_In. }
    assert (Wr : forall w, In w (solid_texts (tokens_right (file_toks root) f)) <-> exists k, In (k, w) B1 /\ is_trivia k = false).
    { intros w. unfold tokens_right. rewrite Ha, Hr. apply solid_texts_In. }
    assert (PB2 : forall o t, In t (place_leaves o B2) -> o <= lf_start t) by (intros o t Ht; apply place_leaves_bounds in Ht; lia).
    (* the whole line of a token without line breaks *)
    assert (Whole : ~ In c_nl s -> line_of (file_toks root) f off = Done (Line (left_end (file_toks root) f) (right_end (file_toks root) f) (solid_texts (tokens_left (file_toks root) f))
               (solid_texts (tokens_right (file_toks root) f)) (last_opt (tokens_right (file_toks root) f))) -> exists ln s0, found_line f off ln s0).
    { intros Nsn Hln. eexists _, (bytes bf). split; [exact Hln|]. cbn [ln_start ln_end ln_last ln_before ln_after]. rewrite Ele, Ere. split; [exact Hst|]. split; [|split].
      - exists bf, (ind ++ text A2 ++ s ++ text B1), white, rest. cbn [fst snd]. split; [|split; [reflexivity|]].
        { rewrite Etext, EtA, EtB, Ebf, Ewh, <- !app_assoc. reflexivity. }
        split; [rewrite !bytes_app; lia|]. split; [lia|]. split; [exact Hbf|]. split; [|split; [exact Ww | exact Hrest]].
        rewrite !in_app_iff. tauto.
      - rewrite Elast, Fe. lia.
      - exists A1, (A2 ++ (k, s) :: B1), B2. split; [rewrite El, EA, EB, <- !app_assoc; reflexivity|]. split; [|split; [exact HP|split]].
        + intros w. rewrite !in_app_iff, Wl, Wr. unfold f, lf_kind, lf_text. cbn [fst snd]. split.
          * intros [H|[(k' & H & Hk)|(k' & H & Hk)]].
            -- destruct (is_trivia k) eqn:Ek; [destruct H|]. destruct H as [<-|[]]. exists k. rewrite in_app_iff. cbn [In]. auto.
            -- exists k'. rewrite in_app_iff. auto.
            -- exists k'. rewrite in_app_iff. cbn [In]. auto.
          * intros (k' & H & Hk). apply in_app_iff in H. destruct H as [H|[H|H]]; eauto 6. injection H as -> ->. rewrite Hk. left. left. reflexivity.
        + intros t Ht _. apply place_leaves_bounds in Ht. rewrite text_app, bytes_app in Ht. change (text ((k, s) :: B1)) with (s ++ text B1) in Ht. rewrite bytes_app in Ht. lia.
        + intros t Ht _. apply PB2 in Ht. rewrite !text_app, !bytes_app in Ht. change (text ((k, s) :: B1)) with (s ++ text B1) in Ht. rewrite bytes_app in Ht. lia. }
    unfold line_of in Whole |- *. change (lf_kind f) with k in *. change (lf_text f) with s in *. change (lf_start f) with (bytes (text A)) in *.
    destruct (skind_eqb k WHITESPACE) eqn:Ek; cbn [andb] in Whole.
    2:{ apply Whole; [|reflexivity]. apply (Hone k s); [rewrite El; apply in_app_iff; right; left; reflexivity | intros ->; discriminate Ek]. }
    apply skind_eqb_eq in Ek. destruct (mem_char c_nl s) eqn:En.
    2:{ apply Whole; [|reflexivity]. intros C. apply mem_char_In in C. congruence. }
    clear Whole. assert (Ws : all_white U s) by (apply (Hlex k s); [rewrite El; apply in_app_iff; right; left; reflexivity | exact Ek]).
    assert (Esplit : split_bytes (off - bytes (text A)) s = Done (s1, s2)).
    { replace (off - bytes (text A)) with (bytes s1) by lia. unfold split_bytes, s. rewrite take_bytes_at, skipn_app, skipn_all, Nat.sub_diag. reflexivity. }
    assert (Eln : line_of (file_toks root) f off = Done (match mem_char c_nl s1, mem_char c_nl s2 with
          | true, true => Line off off [] [] None
          | true, false => Line off (right_end (file_toks root) f) [] (solid_texts (tokens_right (file_toks root) f)) (last_opt (tokens_right (file_toks root) f))
          | false, true => Line (left_end (file_toks root) f) off (solid_texts (tokens_left (file_toks root) f)) [] None
          | false, false => Line (left_end (file_toks root) f) (right_end (file_toks root) f) (solid_texts (tokens_left (file_toks root) f))
               (solid_texts (tokens_right (file_toks root) f)) (last_opt (tokens_right (file_toks root) f))
          end)).
    { unfold line_of. change (lf_kind f) with k. change (lf_text f) with s. change (lf_start f) with (bytes (text A)). rewrite Ek, (skind_eqb_refl WHITESPACE), En. cbn [andb]. rewrite Esplit. reflexivity. }
    assert (Tk : is_trivia (lf_kind f) = true) by (unfold f, lf_kind; cbn [fst snd]; rewrite Ek; reflexivity).
    destruct (mem_char c_nl s1) eqn:E1.
    - (* a line break before the cursor *)
      apply mem_char_In in E1. destruct (start_in A s1 s2 B) as (bf' & ind' & Eb' & Hst' & Hbf' & Hind' & HP'); [rewrite <- Ek; exact El | exact E1 |].
      assert (Bb' : bytes (text A) + bytes s1 = bytes bf' + bytes ind') by (rewrite <- !bytes_app, Eb'; reflexivity).
      fold s in HP'. rewrite <- Ek in HP'.
      assert (BP : bytes (text (A ++ [(k, s)])) = bytes (text A) + bytes s) by (rewrite text_app, bytes_app; change (text [(k, s)]) with (s ++ []); rewrite app_nil_r; reflexivity).
      destruct (mem_char c_nl s2) eqn:E2.
      + apply mem_char_In in E2. eexists _, (bytes bf'). split; [exact Eln|]. cbn [ln_start ln_end ln_last ln_before ln_after or_else]. rewrite Eoff. split; [exact Hst'|]. split; [|split].
        * destruct (end_ws s2 (text B)) as (wh & rs & Ew & Nw' & Ww' & Hr'); [intros c Hc; apply Ws, in_app_iff; auto | exact E2 |].
          exists bf', ind', wh, rs. cbn [fst snd]. split; [rewrite Etext; unfold s; rewrite <- app_assoc, Ew, app_assoc, Eb', <- app_assoc; reflexivity|]. split; [reflexivity|].
          split; [rewrite bytes_app; lia|]. split; [lia|]. split; [exact Hbf'|]. split; [rewrite in_app_iff; tauto|]. auto.
        * rewrite Fe. lia.
        * exists (A ++ [(k, s)]), [], B. split; [rewrite El, <- app_assoc; reflexivity|]. rewrite Tk. cbn [app In]. split; [intros w; split; [tauto | intros (k' & [] & _)]|]. split; [exact HP'|]. split; [intros t []|].
          rewrite app_nil_r. intros t Ht _. apply place_leaves_bounds in Ht. rewrite BP in Ht. lia.
      + eexists _, (bytes bf'). split; [exact Eln|]. cbn [ln_start ln_end ln_last ln_before ln_after]. rewrite Ere. rewrite Eoff at 1. split; [exact Hst'|]. split; [|split].
        * assert (N2 : ~ In c_nl s2) by (intros C; apply mem_char_In in C; congruence).
          exists bf', (ind' ++ s2 ++ text B1), white, rest. cbn [fst snd]. split; [|split; [reflexivity|]].
          { rewrite Etext. unfold s. rewrite EtB, Ewh. rewrite <- !app_assoc. rewrite (app_assoc (text A)), Eb', <- !app_assoc. reflexivity. }
          split; [rewrite !bytes_app; lia|]. split; [lia|]. split; [exact Hbf'|]. split; [rewrite !in_app_iff; tauto|]. auto.
        * rewrite Elast, Fe. lia.
        * exists (A ++ [(k, s)]), B1, B2. split; [rewrite El, EB, <- app_assoc; reflexivity|]. rewrite Tk. cbn [app]. split; [exact Wr|]. split; [exact HP'|]. split.
          -- intros t Ht _. apply place_leaves_bounds in Ht. rewrite BP in Ht. lia.
          -- intros t Ht _. apply PB2 in Ht. rewrite text_app, bytes_app, BP in Ht. lia.
    - destruct (mem_char c_nl s2) eqn:E2.
      2:{ exfalso. apply mem_char_In in En. unfold s in En. apply in_app_iff in En. rewrite <- !mem_char_In in En. destruct En; congruence. }
      apply mem_char_In in E2. assert (N1 : ~ In c_nl s1) by (intros C; apply mem_char_In in C; congruence).
      eexists _, (bytes bf). split; [exact Eln|]. cbn [ln_start ln_end ln_last ln_before ln_after or_else]. rewrite Ele. split; [exact Hst|]. split; [|split].
      + destruct (end_ws s2 (text B)) as (wh & rs & Ew & Nw' & Ww' & Hr'); [intros c Hc; apply Ws, in_app_iff; auto | exact E2 |].
        exists bf, (ind ++ text A2 ++ s1), wh, rs. cbn [fst snd]. split; [rewrite Etext; unfold s; rewrite EtA, Ebf, <- !app_assoc, Ew; reflexivity|]. split; [reflexivity|].
        split; [rewrite !bytes_app; lia|]. split; [lia|]. split; [exact Hbf|]. split; [rewrite !in_app_iff; tauto|]. auto.
      + rewrite Fe. lia.
      + exists A1, A2, ((k, s) :: B). split; [rewrite El, EA, <- app_assoc; reflexivity|]. rewrite Tk. cbn [app]. rewrite app_nil_r. split; [exact Wl|]. split; [exact HP|]. split.
        * intros t Ht _. apply place_leaves_bounds in Ht. lia.
        * intros t Ht Hs. cbn [place_leaves] in Ht. destruct Ht as [<-|Ht].
          -- unfold solid in Hs. change (lf_kind (bytes (text (A1 ++ A2)), (k, s))) with k in Hs. rewrite Ek in Hs. discriminate Hs.
          -- apply place_leaves_bounds in Ht. rewrite text_app, bytes_app in Ht. cbn [snd] in Ht. lia.
  Qed.

  (** ** Words *)
  Lemma leaf_token t : In t (file_toks root) -> exists x up, token root x up /\ leaf_of x = t.
  Proof. rewrite <- tok_paths_leaves. intros H. apply in_map_iff in H. destruct H as ([x up] & <- & H). apply in_tok_paths in H. exists x, up. auto. Qed.
  Lemma token_leaf x up : token root x up -> In (leaf_of x) (file_toks root).
  Proof. intros H. apply in_tok_paths in H. rewrite <- tok_paths_leaves. apply (in_map path_leaf) in H. exact H. Qed.
  Lemma solid_token x : solid (leaf_of x) <-> ~ is_blank x.
  Proof. unfold solid. change (lf_kind (leaf_of x)) with (lkind x). rewrite <- trivia_blank. destruct (is_trivia (lkind x)); split; congruence. Qed.
  Lemma in_place_leaf o L t : In t (place_leaves o L) -> In (snd t) L.
  Proof. revert o. induction L as [|x L IH]; intros o; [intros []|]. cbn [place_leaves]. intros [<-|H]; [left; reflexivity | right; apply (IH _ H)]. Qed.
  Lemma leaf_in_place t L : In t L -> forall o, exists p, In (p, t) (place_leaves o L).
  Proof. induction L as [|x L IH]; intros H o; [destruct H|]. destruct H as [->|H]; [exists o; left; reflexivity|]. destruct (IH H (o + bytes (snd x))) as (p & Hp). exists p. right. exact Hp. Qed.

  Lemma words_in f off ln s0 : found_line f off ln s0 -> forall w,
    word_in root (s0, ln_end ln) w <-> In w ((if is_trivia (lf_kind f) then [] else [lf_text f]) ++ ln_before ln ++ ln_after ln).
  Proof.
    intros (_ & _ & _ & _ & P & M & Q & El & HW & HP & HM & HQ) w. rewrite HW. clear HW.
    assert (Et : file_toks root = place_leaves 0 P ++ place_leaves (bytes (text P)) M ++ place_leaves (bytes (text (P ++ M))) Q).
    { unfold file_toks. rewrite El, !place_leaves_app, text_app, bytes_app. reflexivity. }
    split.
    - intros (x & up & Hx & Hb & Ew & H1 & H2). cbn [fst snd] in H1, H2. pose proof (token_nonempty U root Hlex x up Hx) as Hn. pose proof (token_leaf _ _ Hx) as Hl. rewrite Et in Hl.
      apply solid_token in Hb. destruct (leaf_bounds x (proj2 Hx)) as [E1 E2]. rewrite !in_app_iff in Hl. destruct Hl as [Hl|[Hl|Hl]].
      + specialize (HP _ Hl Hb). lia.
      + apply in_place_leaf in Hl. exists (lkind x). rewrite <- Ew. split; [exact Hl | exact Hb].
      + specialize (HQ _ Hl Hb). lia.
    - intros (k & Hin & Hk). destruct (leaf_in_place _ _ Hin (bytes (text P))) as (p & Hp). destruct (leaf_token (p, (k, w))) as (x & up & Hx & Ex); [rewrite Et, !in_app_iff; auto|].
      exists x, up. split; [exact Hx|]. split; [apply solid_token; unfold solid; rewrite Ex; exact Hk|]. destruct (leaf_bounds x (proj2 Hx)) as [E1 E2].
      specialize (HM (p, (k, w)) Hp Hk). rewrite Ex in E1, E2. cbn [fst snd]. split; [|lia]. change (text_of (snd x)) with (lf_text (leaf_of x)). rewrite Ex. reflexivity.
  Qed.
  Lemma contains_occurs o w : contains_str o w = true <-> occurs w o.
  Proof. rewrite <- occursb_spec. replace (contains_str o w) with (occursb w o); [reflexivity|]. induction o as [|c o IH]; [reflexivity|]. cbn [contains_str occursb]. rewrite IH. reflexivity. Qed.
  Lemma is_nil_eq {A} (l : list A) : is_nil l = true <-> l = [].
  Proof. destruct l; split; intros H; try reflexivity; discriminate H. Qed.
  Lemma leaf_nonempty t : In t (file_toks root) -> lf_text t <> [].
  Proof. intros H. apply in_place_leaf in H. destruct t as [p [k w]]. apply (Hlex k w), H. Qed.

  Lemma affix_fits f off ln s0 options : In f (file_toks root) -> found_line f off ln s0 ->
    is_line_affix_of (if is_trivia (lf_kind f) then [] else lf_text f) ln options = true <-> fits root (s0, ln_end ln) options.
  Proof.
    intros Hf Hln. pose proof (words_in _ _ _ _ Hln) as HW. set (W := (if is_trivia (lf_kind f) then [] else [lf_text f]) ++ ln_before ln ++ ln_after ln) in *.
    assert (NW : forall w, In w W -> w <> []).
    { intros w Hw. apply HW in Hw. destruct Hw as (x & up & Hx & _ & <- & _). change (text_of (snd x)) with (lf_text (leaf_of x)). apply leaf_nonempty, (token_leaf _ _ Hx). }
    assert (E : is_line_affix_of (if is_trivia (lf_kind f) then [] else lf_text f) ln options = true <-> W = [] \/ exists w, In w W /\ word_of options w = true).
    { unfold is_line_affix_of. rewrite !orb_true_iff, !andb_true_iff, !is_nil_eq, existsb_exists. pose proof (leaf_nonempty f Hf) as Nf. unfold W. clear -Nf. destruct (is_trivia (lf_kind f)); cbn [app].
      - split.
        + intros [[[[_ H] H2]|H]|H]; [left; rewrite H, H2; reflexivity | discriminate H | right; exact H].
        + intros [H|H]; [left; left; apply app_eq_nil in H; tauto | right; exact H].
      - split.
        + intros [[[[H _] _]|H]|(w & Hw & H)]; [contradiction | right; exists (lf_text f); cbn [In]; auto | right; exists w; cbn [In]; auto].
        + intros [H|(w & [<-|Hw] & H)]; [discriminate H | left; right; exact H | right; exists w; auto]. }
    rewrite E. clear E. unfold fits, no_words. split.
    - intros [H|(w & Hw & H)].
      + left. intros w C. apply HW in C. rewrite H in C. destruct C.
      + right. unfold word_of in H. apply andb_true_iff in H. destruct H as [_ H]. apply existsb_exists in H. destruct H as (o & Ho & H). exists w, o. split; [apply HW, Hw|]. split; [exact Ho | apply contains_occurs, H].
    - intros [H|(w & o & Hw & Ho & H)].
      + left. destruct W as [|w W]; [reflexivity|]. exfalso. apply (H w), HW. left. reflexivity.
      + right. exists w. apply HW in Hw. split; [exact Hw|]. unfold word_of. apply andb_true_iff. split; [destruct w; [destruct (NW [] Hw eq_refl) | reflexivity]|]. apply existsb_exists. exists o. split; [exact Ho | apply contains_occurs, H].
  Qed.

  (** ** What follows *)
  Lemma closest_solid_spec l : match closest_solid l with
    | Some t => exists l1 l2, l = l1 ++ t :: l2 /\ solid t /\ forall y, In y l1 -> ~ solid y
    | None => forall y, In y l -> ~ solid y end.
  Proof.
    unfold closest_solid. induction l as [|x l IH]; [intros y []|]. cbn [closest_which]. destruct (is_trivia (lf_kind x)) eqn:E; cbn [negb].
    - destruct (closest_which _ _ l) as [t|].
      + destruct IH as (l1 & l2 & -> & Ht & H). exists (x :: l1), l2. split; [reflexivity|]. split; [exact Ht|]. intros y [<-|Hy]; [unfold solid; congruence | apply H, Hy].
      + intros y [<-|Hy]; [unfold solid; congruence | apply IH, Hy].
    - exists [], l. split; [reflexivity|]. split; [exact E | intros y []].
  Qed.
  Lemma token_unique x y up upy : token root x up -> token root y upy -> lstart x = lstart y -> (x, up) = (y, upy).
  Proof.
    intros Hx Hy E. pose proof (token_nonempty U root Hlex _ _ Hx) as Nx. pose proof (token_nonempty U root Hlex _ _ Hy) as Ny.
    pose proof (tok_paths_sorted root) as Hs. pose proof (proj2 (in_tok_paths _ _ _) Hx) as Ix. pose proof (proj2 (in_tok_paths _ _ _) Hy) as Iy. clear Hx Hy.
    revert Ix Iy. induction Hs as [|p l Hs IH Hf]; [intros []|]. rewrite Forall_forall in Hf. intros [Ix|Ix] [Iy|Iy]; auto.
    - rewrite <- Ix, <- Iy. reflexivity.
    - subst p. specialize (Hf _ Iy). unfold path_before in Hf. cbn [fst] in Hf. lia.
    - subst p. specialize (Hf _ Ix). unfold path_before in Hf. cbn [fst] in Hf. lia.
  Qed.
  Lemma parent_kind_eq x up : token root x up -> parent_kind root (leaf_of x) = match up with p :: _ => Some (lkind p) | [] => None end.
  Proof.
    intros Hx. unfold parent_kind. change (lf_start (leaf_of x)) with (lstart x).
    assert (Hin : In (x, up) (paths [] 0 root)) by (apply in_tok_paths in Hx; apply filter_In in Hx; exact (proj1 Hx)).
    destruct (find _ (paths [] 0 root)) as [[y upy]|] eqn:E.
    - apply find_some in E. destruct E as [Iy Ey]. apply andb_true_iff in Ey. destruct Ey as [Ty Sy]. cbn [fst snd] in Ty, Sy. apply Nat.eqb_eq in Sy.
      assert (Hy : token root y upy) by (apply in_tok_paths; apply filter_In; split; [exact Iy | exact Ty]).
      pose proof (token_unique _ _ _ _ Hx Hy (eq_sym Sy)) as Eq. injection Eq as <- <-. reflexivity.
    - exfalso. apply (find_none _ _ E) in Hin. cbn [fst snd] in Hin. rewrite Nat.eqb_refl, andb_true_r in Hin. rewrite (proj2 Hx) in Hin. discriminate Hin.
  Qed.
  Lemma next_error_spec x up : token root x up -> next_is_error root (leaf_of x) = true <-> broken_after root x.
  Proof.
    intros Hx. destruct (leaf_bounds x (proj2 Hx)) as [Es Ee]. unfold next_is_error. pose proof (closest_solid_spec (leaves_after (file_toks root) (leaf_of x))) as Hc.
    assert (Hin : forall t, In t (leaves_after (file_toks root) (leaf_of x)) <-> In t (file_toks root) /\ lend x <= lf_start t).
    { intros t. unfold leaves_after. rewrite filter_In, Nat.leb_le, Ee. reflexivity. }
    assert (Hsort : StronglySorted before (leaves_after (file_toks root) (leaf_of x))) by (apply sorted_filter, place_sorted_leaves).
    destruct (closest_solid (leaves_after (file_toks root) (leaf_of x))) as [t|].
    - destruct Hc as (l1 & l2 & El & Ht & H1). destruct (proj1 (Hin t)) as [It Lt]; [rewrite El; apply in_app_iff; right; left; reflexivity|].
      destruct (leaf_token t It) as (y & upy & Hy & Ey). destruct (leaf_bounds y (proj2 Hy)) as [Ys Ye]. rewrite Ey in Ys, Ye. rewrite <- Ey, (parent_kind_eq y upy Hy).
      assert (First : forall z upz, token root z upz -> ~ is_blank z -> lend x <= lstart z -> lstart y <= lstart z).
      { intros z upz Hz Bz Lz. destruct (leaf_bounds z (proj2 Hz)) as [Zs Ze]. assert (Iz : In (leaf_of z) (leaves_after (file_toks root) (leaf_of x))) by (apply Hin; split; [apply (token_leaf _ _ Hz) | lia]).
        rewrite El in Iz, Hsort. apply in_app_iff in Iz. destruct Iz as [Iz|[Iz|Iz]].
        - exfalso. apply (H1 _ Iz), solid_token, Bz.
        - rewrite <- Iz in Zs. lia.
        - clear -Hsort Iz Zs Ys Ye. assert (S2 : StronglySorted before (t :: l2)) by (induction l1 as [|a l1 IH]; [exact Hsort | inversion Hsort; auto]). inversion S2 as [|? ? _ Hf]; subst. rewrite Forall_forall in Hf.
          specialize (Hf _ Iz). unfold before in Hf. pose proof (lf_le t). lia. }
      assert (By : ~ is_blank y) by (apply solid_token; rewrite Ey; exact Ht). split.
      + intros H. destruct upy as [|p upy]; [discriminate H|]. apply skind_eqb_eq in H. exists y, p, upy. split; [exact Hy|]. split; [exact By|]. split; [lia|]. split; [exact H | exact First].
      + intros (z & p & upz & Hz & Bz & Lz & Hp & Hfirst). pose proof (Hfirst y upy Hy By ltac:(lia)) as L1. pose proof (First z _ Hz Bz Lz) as L2.
        pose proof (token_unique _ _ _ _ Hy Hz ltac:(lia)) as Eq. injection Eq as -> ->. apply skind_eqb_eq, Hp.
    - split; [discriminate|]. intros (y & p & upy & Hy & By & Ly & _). exfalso. destruct (leaf_bounds y (proj2 Hy)) as [Ys Ye]. apply (Hc (leaf_of y)); [apply Hin; split; [apply (token_leaf _ _ Hy) | lia]|]. apply solid_token, By.
  Qed.

  (** ** The item around *)
  Lemma closest_innermost l : innermost l (closest item_at l).
  Proof.
    induction l as [|a l IH]; [constructor; intros a []|]. cbn [closest]. destruct (item_at a) eqn:E.
    - exact (in_some [] a l (fun x (H : In x []) => match H with end) E).
    - inversion IH as [up H Eu En|inner i up H Hi Eu En]; subst.
      + constructor. intros x [<-|Hx]; [exact E | apply H, Hx].
      + change (a :: inner ++ i :: up) with ((a :: inner) ++ i :: up). constructor; [|exact Hi]. intros x [<-|Hx]; [exact E | apply H, Hx].
  Qed.
  Lemma innermost_closest l o : innermost l o -> closest item_at l = o.
  Proof.
    intros [up H|inner i up H Hi].
    - apply closest_none. exact H.
    - rewrite closest_skip by exact H. cbn [closest]. unfold item_at at 1. rewrite Hi. reflexivity.
  Qed.
  Lemma item_no_attr i : item_node (snd i) = true -> skind_eqb (lkind i) ATTR = false.
  Proof. destruct i as [o [k s|k cs]]; [discriminate|]. unfold lkind. cbn [fst snd kind_of]. destruct (skind_eqb k ATTR) eqn:E; [|reflexivity]. apply skind_eqb_eq in E. subst k. discriminate. Qed.
End Line.

(** ** What is offered *)
Lemma in_offered b e e' : In e' (offered b e) <-> b = true /\ e' = e.
Proof. unfold offered. destruct b; cbn [In]; split; intros H; [destruct H as [<-|[]]; auto | destruct H as [_ ->]; auto | destruct H | destruct H; discriminate]. Qed.
Lemma in_event_v2 affix v e : In e (event_v2 affix v) <-> v = V5 /\ affix (keywords EEventV2) = true /\ e = EEventV2.
Proof.
  unfold event_v2. destruct v; [split; [intros [] | intros [H _]; discriminate H]|]. cbn [keywords].
  destruct (affix [lit "struct"; lit "event"]); cbn [In]; split; intros H; [destruct H as [<-|[]]; auto | destruct H as (_ & _ & ->); auto | destruct H | destruct H as (_ & H & _); discriminate H].
Qed.
Lemma andb_split a b : a && b = true <-> a = true /\ b = true.
Proof. apply andb_true_iff. Qed.
Definition shown (affix : list str -> bool) (error : bool) (v : version) (contracts : bool) (h : option around_item) (e : entity) : Prop :=
  belongs v contracts h e /\ (e = ETopic \/ affix (keywords e) = true) /\ (e = EStorage \/ e = EContract -> error = false).
Lemma shown_in affix error v contracts i e : In e (offers_in affix error v i) <-> shown affix error v contracts (Some i) e.
Proof.
  unfold shown. destruct i as [storage|test e2e|of_trait ink| |code|event|]; cbn [offers_in].
  - rewrite !in_app_iff, !in_offered, in_event_v2, !andb_split, !negb_true_iff. split.
    + intros [(((-> & A) & ->) & ->)|[(-> & A & ->)|(A & ->)]]; (split; [constructor; auto|]); (split; [right; exact A|]); intros [C|C]; auto; discriminate C.
    + intros (B & F & C). inversion B; subst; destruct F as [F|F]; try discriminate F; auto 6.
  - rewrite !in_app_iff, !in_offered, !andb_split. split.
    + intros [((-> & A) & ->)|((-> & A) & ->)]; (split; [constructor|]); (split; [right; exact A|]); intros [C|C]; discriminate C.
    + intros (B & F & C). inversion B; subst; destruct F as [F|F]; try discriminate F; auto.
  - destruct of_trait; cbn [orb]; [split; [intros [] | intros (B & _); inversion B]|]. destruct ink; cbn [negb]; [|split; [intros [] | intros (B & _); inversion B]].
    rewrite !in_app_iff, !in_offered. split.
    + intros [(A & ->)|(A & ->)]; (split; [constructor|]); (split; [right; exact A|]); intros [C|C]; discriminate C.
    + intros (B & F & C). inversion B; subst; destruct F as [F|F]; try discriminate F; auto.
  - rewrite in_offered. split.
    + intros (A & ->). split; [constructor|]. split; [right; exact A|]. intros [C|C]; discriminate C.
    + intros (B & F & C). inversion B; subst; destruct F as [F|F]; try discriminate F; auto.
  - rewrite !in_app_iff, !in_offered, !andb_split, !negb_true_iff. split.
    + intros [((-> & A) & ->)|(A & ->)]; (split; [constructor|]); (split; [right; exact A|]); intros [C|C]; discriminate C.
    + intros (B & F & C). inversion B; subst; destruct F as [F|F]; try discriminate F; auto.
  - rewrite in_offered. split.
    + intros (-> & ->). split; [constructor|]. split; [left; reflexivity|]. intros [C|C]; discriminate C.
    + intros (B & F & C). inversion B; subst. auto.
  - split; [intros [] | intros (B & _); inversion B].
Qed.
Lemma shown_at_root affix error v contracts e : In e (offers_at_root affix error v contracts) <-> shown affix error v contracts None e.
Proof.
  unfold shown, offers_at_root. rewrite !in_app_iff, !in_offered, in_event_v2, !andb_split, !negb_true_iff. split.
  - intros H. repeat match type of H with _ \/ _ => destruct H as [H|H] end; repeat match type of H with _ /\ _ => let H1 := fresh in destruct H as [H1 H] end; subst e;
      (split; [|split; [|intros [C|C]; try discriminate C; auto]]).
    all: try (right; match goal with A : _ /\ _ |- _ => apply A | A : _ |- _ => exact A end; fail).
    all: try (constructor; tauto).
    all: try (right; tauto).
    all: try (destruct v; [discriminate|]).
    all: try (constructor; reflexivity).
    all: try (right; assumption).
    all: tauto.
  - intros (B & F & C). inversion B; subst; destruct F as [F|F]; try discriminate F; auto 12.
Qed.

Lemma closest_spec_none p l : closest p l = None -> forall a, In a l -> p a = false.
Proof. induction l as [|x l IH]; intros H a Ha; [destruct Ha|]. cbn [closest] in H. destruct (p x) eqn:E; [discriminate H|]. destruct Ha as [<-|Ha]; [exact E | apply IH; assumption]. Qed.

Section Main.
  Context (U : unicode) (facts : path -> around_item) (contracts : bool) (root : elem) (v : version).
  Lemma completions_off off x up : parsed U root -> cursor_on root off x up -> lkind x = COMMENT \/ (exists a, In a up /\ lkind a = ATTR) ->
    entity_completions U facts contracts root off v = Done [].
  Proof.
    intros [Hlex _] Hc H. unfold entity_completions. rewrite (cursor_focused U root Hlex off x up Hc). cbn [obind_o fst snd]. change (lf_kind (leaf_of x)) with (lkind x).
    assert (E : skind_eqb (lkind x) COMMENT || is_some (closest is_attr up) = true); [|rewrite E; reflexivity]. apply orb_true_iff. destruct H as [-> |(a & Ha & Hk)]; [left; reflexivity|].
    right. destruct (closest is_attr up) eqn:Ec; [reflexivity|]. pose proof (closest_spec_none _ _ Ec a Ha) as C. unfold is_attr in C. rewrite Hk, skind_eqb_refl in C. discriminate C.
  Qed.

  Lemma completions_spec off x up : parsed U root -> one_line_tokens root -> cursor_on root off x up -> (exists a b, text_of root = a ++ b /\ bytes a = off) ->
    lkind x <> COMMENT -> (forall a, In a up -> lkind a <> ATTR) ->
    exists r l, entity_completions U facts contracts root off v = Done l /\ line_range U (text_of root) off r
      /\ forall e r', In (e, r') l <-> r' = r /\ is_offered facts contracts v root r x up e.
  Proof.
    intros [Hlex Hattr] Hone Hc (ta & tb & Et & Eoff) Hcom Hup. destruct Hc as (Hx & Htt & Hbest). pose proof (cursor_focused U root Hlex off x up (conj Hx (conj Htt Hbest))) as Hf.
    destruct (tok_split root x up Hx) as (k & s & A & B & _ & _ & Ex & El & _).
    assert (Etext : text_of root = text A ++ s ++ text B) by (rewrite <- text_leaves, El, text_app; reflexivity).
    assert (Hs : exists s1 s2, s = s1 ++ s2 /\ off = bytes (text A) + bytes s1).
    { unfold touching in Htt. rewrite Ex in Htt. unfold lstart, lend, len_of in Htt. cbn [fst snd text_of] in Htt. rewrite Et in Etext.
      destruct (prefix_le (text A) (s ++ text B) ta tb) as (y & -> & Ey); [symmetry; exact Etext | lia |]. rewrite bytes_app in Eoff.
      destruct (prefix_le y tb s (text B)) as (z & -> & _); [symmetry; exact Ey | lia |]. exists y, z. split; [reflexivity | lia]. }
    destruct Hs as (s1 & s2 & -> & Eo).
    destruct (line_found U root Hlex Hone A k s1 s2 B off El Eo) as (ln & s0 & Hln).
    assert (Elf : leaf_of x = (bytes (text A), (k, s1 ++ s2))) by (rewrite Ex; reflexivity). rewrite <- Elf in Hln.
    pose proof Hln as (Hl1 & Hl2 & Hl3 & Hl4 & _).
    assert (Hse : s0 <= ln_end ln) by (destruct Hl3 as (? & ? & ? & ? & _ & _ & _ & H & _); cbn [fst snd] in H; lia).
    pose proof (token_leaf root x up Hx) as Hin.
    pose proof (affix_fits U root Hlex (leaf_of x) off ln s0) as Haff. pose proof (words_in U root Hlex (leaf_of x) off ln s0 Hln) as HW.
    destruct (leaf_bounds x (proj2 Hx)) as [Es Ee].
    set (r := (s0, ln_end ln)) in *.
    set (direct := existsb (fun a => existsb (skind_eqb (lkind a)) RECORD_FIELDS) up || (skind_eqb (lkind x) WHITESPACE && is_nil (ln_before ln) && is_nil (ln_after ln))).
    assert (Hdirect : direct = true <-> plain_line root r x up).
    { unfold direct, plain_line, in_fields. rewrite orb_true_iff, existsb_exists, !andb_true_iff, !is_nil_eq, skind_eqb_eq.
      assert (E1 : (exists a, In a up /\ existsb (skind_eqb (lkind a)) RECORD_FIELDS = true) <-> (exists a, In a up /\ (lkind a = RECORD_FIELD \/ lkind a = RECORD_FIELD_LIST))).
      { split; intros (a & Ha & H); exists a; (split; [exact Ha|]); cbn [RECORD_FIELDS existsb] in *; rewrite orb_false_r, orb_true_iff, !skind_eqb_eq in *; exact H. }
      rewrite E1. assert (E2 : lkind x = WHITESPACE -> (ln_before ln = [] /\ ln_after ln = []) <-> no_words root r).
      { intros Ek. change (lf_kind (leaf_of x)) with (lkind x) in HW. rewrite Ek in HW. cbn [is_trivia app] in HW. unfold no_words. split.
        - intros [E3 E4] w C. apply HW in C. rewrite E3, E4 in C. destruct C.
        - intros H. destruct (ln_before ln ++ ln_after ln) as [|w W] eqn:E; [apply app_eq_nil in E; exact E|]. exfalso. apply (H w), HW. left. reflexivity. }
      tauto. }
    set (error := next_is_error root (leaf_of x)).
    assert (Herr : error = true <-> broken_after root x) by (apply (next_error_spec U root Hlex x up Hx)).
    assert (Hattr0 : closest is_attr up = None).
    { apply closest_none. intros a Ha. unfold is_attr. destruct (skind_eqb (lkind a) ATTR) eqn:E; [|reflexivity]. apply skind_eqb_eq in E. destruct (Hup a Ha E). }
    assert (Hpar : parent_at root (off, off) = Done (closest item_at up)).
    { unfold parent_at, focused_element. cbn [fst snd]. rewrite Nat.eqb_refl, Hf. cbn [obind_o snd]. rewrite Hattr0. f_equal. unfold parent_item. cbn [fst snd].
      destruct (closest item_at up) as [[it up']|]; [|reflexivity]. replace (skind_eqb (lkind x) ATTR) with false; [reflexivity|]. symmetry.
      destruct (skind_eqb (lkind x) ATTR) eqn:E; [|reflexivity]. apply skind_eqb_eq in E. exfalso. rewrite Ex in E. unfold lkind in E. cbn [snd kind_of] in E. subst k.
      apply (Hattr (s1 ++ s2)). rewrite El. apply in_app_iff. right. left. reflexivity. }
    set (affix := is_line_affix_of (if is_trivia (lf_kind (leaf_of x)) then [] else lf_text (leaf_of x)) ln).
    set (focused_item := if direct then None else closest item_at up).
    set (many := match focused_item with Some i => lf_end (or_else (ln_last ln) (leaf_of x)) <? lend (fst i) | None => false end).
    set (parent := if direct then closest item_at up else obind focused_item parent_item).
    set (es := match parent with Some i => offers_in affix error v (facts i) | None => offers_at_root affix error v contracts end).
    assert (Hmain : entity_completions U facts contracts root off v = Done (if many && negb error then [] else map (fun e => (e, r)) es)).
    { unfold entity_completions. rewrite Hf. cbn [obind_o fst snd]. change (lf_kind (leaf_of x)) with (lkind x) in *.
      replace (skind_eqb (lkind x) COMMENT) with false by (symmetry; destruct (skind_eqb (lkind x) COMMENT) eqn:E; [apply skind_eqb_eq in E; contradiction | reflexivity]).
      rewrite Hattr0. cbn [is_some orb]. rewrite Hl1. cbn [obind_o]. rewrite Hl2. cbn [obind_o]. unfold mk_range. rewrite (proj2 (Nat.leb_le _ _) Hse). cbn [obind_o]. rewrite Hpar. cbn [obind_o].
      fold direct. fold focused_item. fold many. fold error. fold affix. fold r. fold parent. fold es. destruct (many && negb error); reflexivity. }
    assert (Hhost : forall h, host root r x up h <-> h = parent).
    { intros h. assert (Hp : parent = if direct then closest item_at up else match closest item_at up with Some (i, up') => closest item_at up' | None => None end).
      { unfold parent, focused_item. destruct direct; [reflexivity|]. destruct (closest item_at up) as [[i up']|] eqn:E; [|reflexivity]. cbn [obind]. unfold parent_item. cbn [fst snd].
        pose proof (closest_innermost up) as Hi. rewrite E in Hi. inversion Hi as [|inner i0 u0 _ Hii E0 E9]; subst. rewrite (item_no_attr i Hii). destruct (closest item_at up') as [[? ?]|]; reflexivity. }
      rewrite Hp. destruct direct.
      - split.
        + intros [i _ Hi|Hn _|i up' j Hn _ _]; [symmetry; apply innermost_closest, Hi | destruct Hn; apply Hdirect; reflexivity..].
        + intros ->. apply h_around; [apply Hdirect; reflexivity | apply closest_innermost].
      - assert (Hn : ~ plain_line root r x up) by (rewrite <- Hdirect; discriminate). split.
        + intros [i Hd _|_ Hi|i up' j _ Hi Hj]; [contradiction | apply innermost_closest in Hi; rewrite Hi; reflexivity |].
          apply innermost_closest in Hi, Hj. rewrite Hi. symmetry. exact Hj.
        + intros ->. pose proof (closest_innermost up) as Hi. destruct (closest item_at up) as [[i up']|]; [apply (h_parent root r x up i up'); [exact Hn | exact Hi | apply closest_innermost] | apply h_root; assumption]. }
    assert (Hmany : many = true <-> goes_on root r x up).
    { unfold many, focused_item, goes_on. rewrite <- Hdirect. destruct direct.
      - split; [discriminate | intros [H _]; destruct H; reflexivity].
      - pose proof (closest_innermost up) as Hi. destruct (closest item_at up) as [[i up']|] eqn:E.
        + cbn [fst]. rewrite Nat.ltb_lt, Hl4, Ee. cbn [r snd]. split.
          * intros H. split; [discriminate|]. exists i, up'. split; [exact Hi | lia].
          * intros (_ & j & upj & Hj & H). apply innermost_closest in Hj. rewrite E in Hj. injection Hj as <- <-. lia.
        + split; [discriminate|]. intros (_ & j & upj & Hj & H). apply innermost_closest in Hj. rewrite E in Hj. discriminate Hj. }
    assert (Hes : forall e, In e es <-> shown affix error v contracts (option_map facts parent) e).
    { intros e. unfold es. destruct parent as [i|]; [apply shown_in | apply shown_at_root]. }
    exists r, (if many && negb error then [] else map (fun e => (e, r)) es). split; [exact Hmain|]. split; [exact Hl3|]. intros e r'.
    assert (Haf : affix (keywords e) = true <-> fits root r (keywords e)) by (apply Haff; assumption).
    assert (Hoff : is_offered facts contracts v root r x up e <-> (many && negb error = false) /\ In e es).
    { unfold is_offered. rewrite Hes. unfold shown. rewrite Haf. rewrite <- Hmany, <- Herr, andb_false_iff, negb_false_iff.
      assert (Eb : (exists h, host root r x up h /\ belongs v contracts (option_map facts h) e) <-> belongs v contracts (option_map facts parent) e).
      { split; [intros (h & Hh & Hb); apply Hhost in Hh; subst h; exact Hb | intros Hb; exists parent; split; [apply Hhost; reflexivity | exact Hb]]. }
      rewrite Eb. destruct many, error; intuition congruence. }
    rewrite Hoff. destruct (many && negb error).
    - split; [intros [] | intros (_ & H & _); discriminate H].
    - rewrite in_map_iff. split; [intros (e' & E & H); injection E as -> ->; auto | intros (-> & _ & H); exists e; auto].
  Qed.
End Main.

(** ** Nothing twice *)
Lemma nodup_in affix error v i : NoDup (offers_in affix error v i).
Proof.
  destruct i as [storage|test e2e|of_trait ink| |code|event|]; cbn [offers_in]; unfold event_v2;
    repeat match goal with |- context [affix ?l] => destruct (affix l) end; repeat match goal with b : bool |- _ => destruct b end; destruct v;
    cbn; repeat constructor; cbn; intuition discriminate.
Qed.
Lemma nodup_root affix error v contracts : NoDup (offers_at_root affix error v contracts).
Proof.
  unfold offers_at_root, event_v2. generalize (negb contracts && affix [lit "mod"; lit "contract"] && negb error). intros b.
  repeat match goal with |- context [affix ?l] => destruct (affix l) end; destruct b, v; cbn; repeat constructor; cbn; intuition discriminate.
Qed.
Lemma completions_once U facts contracts root v off l : entity_completions U facts contracts root off v = Done l -> NoDup (map fst l).
Proof.
  unfold entity_completions. destruct (focused_token root off) as [[p|]|]; cbn [obind_o]; [|intros E; injection E as <-; constructor | discriminate].
  destruct (skind_eqb _ COMMENT || is_some _); [intros E; injection E as <-; constructor|].
  destruct (line_of _ _ _) as [ln|]; cbn [obind_o]; [|discriminate]. destruct (unindented_start _ _ _) as [s0|]; cbn [obind_o]; [|discriminate].
  destruct (mk_range _ _) as [r|]; cbn [obind_o]; [|discriminate]. destruct (parent_at _ _) as [around|]; cbn [obind_o]; [|discriminate].
  match goal with |- (if ?c then _ else _) = _ -> _ => destruct c end; [intros E; injection E as <-; constructor|]. intros E. injection E as <-.
  rewrite map_map. cbn [fst]. rewrite map_id. match goal with |- NoDup (match ?o with Some _ => _ | None => _ end) => destruct o as [i|] end; [apply nodup_in | apply nodup_root].
Qed.
