(** Proofs for C85 and C86. *)
From Coq Require Import Lia.
From Verif Require Import Base BaseFacts PositionModel TranslateModel CommandModel CallableModel ResolveModel ResolveSpec ResolveProofs ExternalModel ExternalSpec.

Lemma pieces_split s : forall cur, split_path cur s = split_colons cur s.
Proof.
  assert (G : forall n s cur, length s <= n -> split_path cur s = split_colons cur s).
  { clear s. induction n as [|n IH]; intros [|c s] cur Hn; cbn [length] in Hn; [reflexivity | lia | reflexivity|].
    cbn [split_path split_colons]. destruct (N.eqb c 58).
    - destruct s as [|d s]; [reflexivity|]. cbn [length] in Hn.
      destruct (N.eqb d 58); [f_equal; apply IH; lia | apply IH; cbn [length]; lia].
    - apply IH. lia. }
  intros cur. apply (G (length s)). lia.
Qed.
Lemma pieces_join l : l <> [] -> (forall x, In x l -> ~ In 58%N x) -> pieces (join_colons l) = l.
Proof. intros H1 H2. unfold pieces. rewrite pieces_split. apply split_join; assumption. Qed.
Definition nocolon (x : str) : Prop := ~ In 58%N x.
Lemma ident_nocolon x : identifier x -> nocolon x.
Proof. intros (_ & H & _). apply ident_no_colon, H. Qed.
Lemma join_inj l l' : l <> [] -> l' <> [] -> (forall x, In x l -> nocolon x) -> (forall x, In x l' -> nocolon x) ->
  join_colons l = join_colons l' -> l = l'.
Proof. intros H1 H2 H3 H4 E. rewrite <- (pieces_join l H1 H3), <- (pieces_join l' H2 H4), E. reflexivity. Qed.
Lemma join_head l : l <> [] -> (forall x, In x l -> x <> [] /\ nocolon x) -> exists c s, join_colons l = c :: s /\ c <> 58%N.
Proof.
  intros Hn H. destruct l as [|x l]; [congruence|]. destruct (H x (or_introl eq_refl)) as [Hx Hc].
  destruct x as [|c x]; [congruence|]. exists c. assert (c <> 58%N) by (intros ->; apply Hc; left; reflexivity).
  destruct l as [|y l]; [exists x; auto|]. eexists. split; [reflexivity | assumption].
Qed.
Lemma join_not_global l s : l <> [] -> (forall x, In x l -> identifier x) -> join_colons l <> lit "::" ++ s.
Proof.
  intros Hn H E. destruct (join_head l Hn) as (c & t & E' & Hc).
  - intros x Hx. split; [apply (H x Hx) | apply ident_nocolon, H, Hx].
  - rewrite E' in E. apply (f_equal (hd 0%N)) in E. cbn in E. exact (Hc E).
Qed.
Lemma join_with_post x l : (forall y, In y l -> identifier y) ->
  x ++ match join_colons l with [] => [] | _ => lit "::" end ++ join_colons l = join_colons (x :: l).
Proof.
  intros H. destruct l as [|y l]; [cbn; apply app_nil_r|].
  destruct (join_head (y :: l) ltac:(discriminate)) as (c & t & E & _).
  - intros z Hz. split; [apply (H z Hz) | apply ident_nocolon, H, Hz].
  - change (join_colons (x :: y :: l)) with (x ++ lit "::" ++ join_colons (y :: l)). rewrite E. reflexivity.
Qed.
Lemma join_snoc l x : l <> [] -> join_colons (l ++ [x]) = join_colons l ++ lit "::" ++ x.
Proof. intros H. rewrite join_app; [reflexivity | exact H | discriminate]. Qed.

(** ** The path *)
Lemma written_snoc g init w tail : init <> [] ->
  exists q, qualifier (written g (init ++ [w]) tail) = Some q /\ path_text q = (if g then lit "::" else []) ++ join_colons init.
Proof.
  intros Hn. exists (match init with [] => [] | x :: l => Seg g (WName x) [] :: map name_seg l end). split.
  - assert (G : forall l h, qualifier (h :: written false (l ++ [w]) tail) = Some (h :: map name_seg l)).
    { induction l as [|x l IH]; intros h; [reflexivity|]. specialize (IH (name_seg x)). cbn [app written map].
      destruct (l ++ [w]) as [|y l'] eqn:E; [destruct l; discriminate|]. rewrite <- E in *.
      change (Seg false (WName x) []) with (name_seg x).
      destruct (written false (l ++ [w]) tail) as [|z zs] eqn:Ez; [destruct l; discriminate|].
      unfold qualifier in *. cbn [removelast] in *. injection IH as IH. rewrite <- IH. reflexivity. }
    destruct init as [|x l]; [congruence|]. specialize (G l (Seg g (WName x) [])). cbn [app written].
    destruct (l ++ [w]) as [|y l'] eqn:E; [destruct l; discriminate|]. rewrite <- E in *. exact G.
  - destruct init as [|x l]; [congruence|]. unfold path_text. cbn [map].
    assert (E : map seg_text (map name_seg l) = l).
    { rewrite map_map. erewrite map_ext; [apply map_id|]. intros a. unfold seg_text. cbn. apply app_nil_r. }
    rewrite E. unfold seg_text. cbn [sg_colons sg_word sg_tail word_text]. rewrite app_nil_r.
    destruct l as [|y l]; [reflexivity|]. destruct g; cbn [app lit]; [|reflexivity]. cbn. reflexivity.
Qed.
Lemma written_one g w tail : qualifier (written g [w] tail) = None.
Proof. reflexivity. Qed.
Lemma written_last g init w tail : exists g', last_seg (written g (init ++ [w]) tail) = Some (Seg g' (WName w) tail).
Proof.
  revert g. induction init as [|x init IH]; intros g; [exists g; reflexivity|]. cbn [app written].
  destruct (init ++ [w]) as [|y l] eqn:E; [destruct init; discriminate|]. rewrite <- E in *. destruct (IH false) as [g' Hg]. exists g'.
  unfold last_seg in *. destruct (written false (init ++ [w]) tail); [discriminate|]. exact Hg.
Qed.
Lemma target_written g init w tail a : is_path_target a (written g (init ++ [w]) tail) = true <-> w = a.
Proof.
  unfold is_path_target. destruct (written_last g init w tail) as [g' ->]. cbn. apply str_eqb_eq.
Qed.

(** ** What a scope introduces *)
Definition mem_text (l : list str) (s : str) : Prop := In s l \/ In (lit "::" ++ s) l.
Lemma existsb_str s l : existsb (str_eqb s) l = true <-> In s l.
Proof.
  rewrite existsb_exists. split; [intros (x & Hx & E); apply str_eqb_eq in E; subst; exact Hx | intros H; exists s; split; [exact H | apply str_eqb_refl]].
Qed.
Lemma item_uses_In item qs s : In s (item_uses item qs) <->
  exists q g, In q qs /\ (g = [] \/ g = lit "::") /\ (s = g ++ q ++ lit "::" ++ item \/ s = g ++ q ++ lit "::*").
Proof.
  unfold item_uses, exhaustive_qualifiers. rewrite in_flat_map. setoid_rewrite in_flat_map. split.
  - intros (p & (q & Hq & [<-|[<-|[]]]) & [<-|[<-|[]]]);
      [exists q, (lit "::") | exists q, (lit "::") | exists q, [] | exists q, []]; (split; [exact Hq|]); (split; [auto|]); cbn [app]; rewrite <- ?app_assoc; auto.
  - intros (q & g & Hq & [-> | ->] & [-> | ->]).
    + exists q. split; [exists q; split; [exact Hq | right; left; reflexivity] | left; reflexivity].
    + exists q. split; [exists q; split; [exact Hq | right; left; reflexivity] | right; left; reflexivity].
    + exists (lit "::" ++ q). split; [exists q; split; [exact Hq | left; reflexivity] | left; rewrite <- app_assoc; reflexivity].
    + exists (lit "::" ++ q). split; [exists q; split; [exact Hq | left; reflexivity] | right; left; rewrite <- app_assoc; reflexivity].
Qed.
Lemma in_scope_spec u item qs : item_in_scope u item qs = true <->
  exists q, In q qs /\ (mem_text (fst u) (q ++ lit "::" ++ item) \/ mem_text (fst u) (q ++ lit "::*")).
Proof.
  unfold item_in_scope, mem_text. rewrite existsb_exists. setoid_rewrite existsb_str. setoid_rewrite item_uses_In. split.
  - intros (s & (q & g & Hq & [-> | ->] & [-> | ->]) & Hs); exists q; (split; [exact Hq|]); cbn [app] in *; auto.
  - intros (q & Hq & [[H|H]|[H|H]]); eexists; (split; [|exact H]);
      [exists q, [] | exists q, (lit "::") | exists q, [] | exists q, (lit "::")]; (split; [exact Hq|]); (split; [auto|]); cbn [app]; auto.
Qed.
Lemma aliases_of_In u s a : In a (aliases_of u s) <-> In (a, s) (snd u).
Proof.
  unfold aliases_of. rewrite in_map_iff. setoid_rewrite filter_In. split.
  - intros ((a' & s') & <- & H & E). cbn [snd] in E. apply str_eqb_eq in E. subst. exact H.
  - intros H. exists (a, s). split; [reflexivity|]. split; [exact H | apply str_eqb_refl].
Qed.
Definition alias_text (l : list (str * str)) (a s : str) : Prop := In (a, s) l \/ In (a, lit "::" ++ s) l.
Lemma item_aliases_In u item qs a : In a (item_aliases u item qs) <->
  exists q, In q qs /\ (alias_text (snd u) a (q ++ lit "::" ++ item) \/ alias_text (snd u) a (q ++ lit "::*")).
Proof.
  unfold item_aliases, alias_text. rewrite in_flat_map. setoid_rewrite aliases_of_In. setoid_rewrite item_uses_In. split.
  - intros (s & (q & g & Hq & [-> | ->] & [-> | ->]) & Hs); exists q; (split; [exact Hq|]); cbn [app] in *; auto.
  - intros (q & Hq & [[H|H]|[H|H]]); eexists; (split; [|exact H]);
      [exists q, [] | exists q, (lit "::") | exists q, [] | exists q, (lit "::")]; (split; [exact Hq|]); (split; [auto|]); cbn [app]; auto.
Qed.
Lemma exhaustive_In l s : In s (exhaustive_qualifiers l) <-> exists q, In q l /\ (s = lit "::" ++ q \/ s = q).
Proof.
  unfold exhaustive_qualifiers. rewrite in_flat_map. split.
  - intros (q & Hq & [<-|[<-|[]]]); exists q; auto.
  - intros (q & Hq & [-> | ->]); exists q; (split; [exact Hq|]); [left; reflexivity | right; left; reflexivity].
Qed.

(** What a written path stands for, given the paths and aliases in scope. *)
Definition stands_for (u : uses) (ws full : list str) : Prop :=
  ws = full
  \/ (exists pre x r, pre <> [] /\ ws = x :: r /\ full = pre ++ x :: r
        /\ (mem_text (fst u) (join_colons (pre ++ [x])) \/ mem_text (fst u) (join_colons (pre ++ [STAR]))))
  \/ (exists pre a r, pre <> [] /\ ws = a :: r /\ full = pre ++ r /\ alias_text (snd u) a (join_colons pre))
  \/ (exists pre a x r, pre <> [] /\ ws = a :: r /\ full = pre ++ x :: r /\ alias_text (snd u) a (join_colons (pre ++ [STAR]))).

Section Scope.
  Variables (u : uses) (name : str) (tail : str) (ws : list str).
  Hypothesis Hws : forall x, In x ws -> identifier x.
  Hypothesis Haliases : forall a s, In (a, s) (snd u) -> nocolon a.

  Lemma has_qualifier_spec init w qs strict : ws = init ++ [w] ->
    has_qualifier (written false ws tail) qs strict = true <-> init <> [] /\ In (join_colons init) qs.
  Proof.
    intros E. rewrite E. unfold has_qualifier. destruct init as [|x l].
    - cbn. split; [discriminate | intros [C _]; congruence].
    - destruct (written_snoc false (x :: l) w tail ltac:(discriminate)) as (q & -> & Eq). cbn [app] in Eq.
      rewrite existsb_str, Eq. assert (Hid : forall y, In y (x :: l) -> identifier y).
      { intros y Hy. apply Hws. rewrite E. apply in_app_iff. left. exact Hy. }
      destruct strict; [split; [intros H; split; [discriminate | exact H] | intros [_ H]; exact H]|].
      rewrite exhaustive_In. split.
      + intros (y & Hy & [Ey|Ey]).
        * exfalso. exact (join_not_global (x :: l) y ltac:(discriminate) Hid Ey).
        * split; [discriminate|]. rewrite Ey. exact Hy.
      + intros [_ H]. eexists. split; [exact H|]. right. reflexivity.
  Qed.

  Lemma anchor_spec init w pre x post : ws = init ++ [w] -> (forall y, In y (pre ++ x :: post) -> identifier y) ->
    anchor_in_scope u (written false ws tail) (pre ++ x :: post) (length pre) = true <->
    (init = x :: post /\ (pre = [] \/ mem_text (fst u) (join_colons (pre ++ [x])) \/ mem_text (fst u) (join_colons (pre ++ [STAR]))))
    \/ (exists a, init = a :: post /\ (alias_text (snd u) a (join_colons (pre ++ [x]))
                                      \/ (pre <> [] /\ alias_text (snd u) a (join_colons (pre ++ [STAR]))))).
  Proof.
    intros E Hq. unfold anchor_in_scope.
    assert (E1 : nth (length pre) (pre ++ x :: post) [] = x) by (rewrite app_nth2, Nat.sub_diag by lia; reflexivity).
    assert (E2 : firstn (length pre) (pre ++ x :: post) = pre) by (rewrite firstn_app, Nat.sub_diag, firstn_all; cbn; apply app_nil_r).
    assert (E3 : skipn (S (length pre)) (pre ++ x :: post) = post).
    { replace (S (length pre)) with (length (pre ++ [x])) by (rewrite app_length; cbn; lia).
      rewrite (app_assoc pre [x] post : pre ++ x :: post = (pre ++ [x]) ++ post), skipn_app, skipn_all, Nat.sub_diag. reflexivity. }
    rewrite E1, E2, E3. cbv zeta. clear E1 E2 E3.
    assert (Hpost : forall y, In y post -> identifier y) by (intros y Hy; apply Hq, in_app_iff; right; right; exact Hy).
    assert (Hinit : forall y, In y init -> nocolon y) by (intros y Hy; apply ident_nocolon, Hws; rewrite E; apply in_app_iff; left; exact Hy).
    assert (Hj : forall a, nocolon a -> init <> [] -> join_colons init = join_colons (a :: post) -> init = a :: post).
    { intros a Ha Hi Ej. apply join_inj; auto; [discriminate|]. intros y [<-|Hy]; [exact Ha | apply ident_nocolon, Hpost, Hy]. }
    assert (Hx : nocolon x) by (apply ident_nocolon, Hq, in_app_iff; right; left; reflexivity).
    rewrite orb_true_iff, andb_true_iff, !(has_qualifier_spec init w _ _ E), orb_true_iff.
    assert (Etop : Nat.eqb (length pre) 0 = true <-> pre = []) by (rewrite Nat.eqb_eq; destruct pre; cbn; intuition (discriminate || lia)).
    assert (Escope : pre <> [] -> (item_in_scope u x [join_colons pre] = true <->
       mem_text (fst u) (join_colons (pre ++ [x])) \/ mem_text (fst u) (join_colons (pre ++ [STAR])))).
    { intros Hp. rewrite in_scope_spec, !(join_snoc pre _ Hp). split; [intros (q & [<-|[]] & H); exact H | intros H; eexists; split; [left; reflexivity | exact H]]. }
    assert (Ealias : forall a, In a (if Nat.eqb (length pre) 0 then flat_map (aliases_of u) (exhaustive_qualifiers [x]) else item_aliases u x [join_colons pre])
       <-> alias_text (snd u) a (join_colons (pre ++ [x])) \/ (pre <> [] /\ alias_text (snd u) a (join_colons (pre ++ [STAR])))).
    { intros a. pose proof Etop as Etop'. revert Etop'. destruct (Nat.eqb (length pre) 0); intros Et.
      - pose proof (proj1 Et eq_refl) as Et'. subst pre. cbn [app]. rewrite in_flat_map. setoid_rewrite aliases_of_In. setoid_rewrite exhaustive_In. split.
        + intros (s & (q & [<-|[]] & [-> | ->]) & H); left; [right | left]; exact H.
        + intros [[H|H]|[C _]]; [exists x | exists (lit "::" ++ x) | congruence]; (split; [exists x; split; [left; reflexivity | auto] | exact H]).
      - assert (Hp : pre <> []) by (intros C; apply Et in C; discriminate). rewrite item_aliases_In, !(join_snoc pre _ Hp). split.
        + intros (q & [<-|[]] & [H|H]); auto.
        + intros [H|[_ H]]; exists (join_colons pre); (split; [left; reflexivity | auto]). }
    rewrite in_map_iff. setoid_rewrite Ealias. split.
    - intros [[[Hi [Hx'|[]]] Hs]|[Hi (a & Ea & Ha)]].
      + left. rewrite join_with_post in Hx' by exact Hpost. split; [apply Hj; auto|].
        destruct Hs as [Hs|Hs]; [left; apply Etop, Hs|]. destruct pre as [|z pre]; [left; reflexivity|]. right. apply Escope in Hs; [exact Hs | discriminate].
      + right. exists a. rewrite join_with_post in Ea by exact Hpost. split; [|exact Ha]. apply Hj; auto.
        destruct Ha as [[Ha|Ha]|[_ [Ha|Ha]]]; exact (Haliases _ _ Ha).
    - intros [[-> Hs]|(a & -> & Ha)].
      + left. split; [split; [discriminate|]; left; apply join_with_post, Hpost|].
        destruct Hs as [Hs|Hs]; [left; apply Etop, Hs|]. destruct pre as [|z pre]; [left; reflexivity|]. right. apply Escope; [discriminate | exact Hs].
      + right. split; [discriminate|]. exists a. split; [apply join_with_post, Hpost | exact Ha].
  Qed.

  Lemma qualifier_scope_spec init w (Q : list (list str)) : ws = init ++ [w] -> good_qualifiers Q ->
    qualifier_in_scope u (written false ws tail) (map join_colons Q) = true <->
    exists pre x post, In (pre ++ x :: post) Q /\
      ((init = x :: post /\ (pre = [] \/ mem_text (fst u) (join_colons (pre ++ [x])) \/ mem_text (fst u) (join_colons (pre ++ [STAR]))))
       \/ (exists a, init = a :: post /\ (alias_text (snd u) a (join_colons (pre ++ [x]))
                                         \/ (pre <> [] /\ alias_text (snd u) a (join_colons (pre ++ [STAR])))))).
  Proof.
    intros E HQ. unfold qualifier_in_scope. rewrite existsb_exists.
    assert (Hp : forall q, In q Q -> pieces (join_colons q) = q).
    { intros q Hq. destruct (HQ q Hq) as [Hn Hi]. rewrite Forall_forall in Hi. apply pieces_join; [exact Hn|]. intros y Hy. apply ident_nocolon, Hi, Hy. }
    assert (Hi : forall q, In q Q -> forall y, In y q -> identifier y).
    { intros q Hq. destruct (HQ q Hq) as [_ Hi]. rewrite Forall_forall in Hi. exact Hi. }
    split.
    - intros (s & Hs & H). apply in_map_iff in Hs. destruct Hs as (q & <- & Hq). rewrite (Hp q Hq) in H.
      apply existsb_exists in H. destruct H as (idx & Hidx & H). apply in_seq in Hidx.
      assert (Eq : exists pre x post, q = pre ++ x :: post /\ length pre = idx).
      { exists (firstn idx q). destruct (skipn idx q) as [|x post] eqn:Es.
        - apply (f_equal (@length _)) in Es. rewrite skipn_length in Es. cbn in Es. lia.
        - exists x, post. rewrite <- Es, firstn_skipn. split; [reflexivity|]. rewrite firstn_length. lia. }
      destruct Eq as (pre & x & post & -> & <-). exists pre, x, post. split; [exact Hq|].
      apply (anchor_spec init w pre x post E (Hi _ Hq)), H.
    - intros (pre & x & post & Hq & H). exists (join_colons (pre ++ x :: post)). split; [apply in_map, Hq|]. rewrite (Hp _ Hq).
      apply existsb_exists. exists (length pre). split; [apply in_seq; rewrite app_length; cbn; lia|].
      apply (anchor_spec init w pre x post E (Hi _ Hq)), H.
  Qed.

  Lemma scope_spec (Q : list (list str)) : ws <> [] -> good_qualifiers Q -> name <> [] ->
    (is_path_target name (written false ws tail) && has_qualifier (written false ws tail) (map join_colons Q) false
     || known_in_scope name (map join_colons Q) u (written false ws tail)) = true
    <-> exists q, In q Q /\ stands_for u ws (q ++ [name]).
  Proof.
    intros Hne HQ Hname. destruct (exists_last Hne) as (init & w & E). unfold known_in_scope.
    assert (Ht : forall a, is_path_target a (written false ws tail) = true <-> w = a) by (intros a; rewrite E; apply target_written).
    assert (Hun : negb (is_some (qualifier (written false ws tail))) = true <-> init = []).
    { rewrite E. destruct init as [|y l]; [split; reflexivity|]. destruct (written_snoc false (y :: l) w tail ltac:(discriminate)) as (q & -> & _). cbn. split; discriminate. }
    assert (HQi : forall q, In q Q -> q <> [] /\ forall y, In y q -> identifier y).
    { intros q Hq. destruct (HQ q Hq) as [H1 H2]. rewrite Forall_forall in H2. auto. }
    assert (Hinit : forall y, In y init -> identifier y) by (intros y Hy; apply Hws; rewrite E; apply in_app_iff; left; exact Hy).
    rewrite !orb_true_iff, !andb_true_iff, !orb_true_iff, !andb_true_iff, Hun, Ht, (has_qualifier_spec init w _ _ E), (qualifier_scope_spec init w Q E HQ), in_scope_spec.
    rewrite existsb_exists. setoid_rewrite Ht. setoid_rewrite item_aliases_In. split.
    - intros [[-> [Hi Hin]]|[[-> [[-> Hs]|Hs]]|[-> (a & (q & Hq & Ha) & ->)]]].
      + apply in_map_iff in Hin. destruct Hin as (q & Ej & Hq). exists q. split; [exact Hq|]. left. rewrite E. f_equal.
        destruct (HQi q Hq) as [Hqn Hqi]. symmetry. apply join_inj; auto; intros y Hy; apply ident_nocolon; auto.
      + destruct Hs as (s & Hs & Hm). apply in_map_iff in Hs. destruct Hs as (q & <- & Hq). exists q. split; [exact Hq|].
        destruct (HQi q Hq) as [Hqn _]. right. left. exists q, name, []. rewrite <- !(join_snoc q _ Hqn) in Hm. change (lit "::*") with (lit "::" ++ STAR) in Hm.
        rewrite <- (join_snoc q STAR Hqn) in Hm. split; [exact Hqn|]. split; [exact E|]. split; [reflexivity | exact Hm].
      + destruct Hs as (pre & x & post & Hq & H). exists (pre ++ x :: post). split; [exact Hq|].
        destruct H as [[-> H]|(a & -> & H)].
        * destruct pre as [|z pre]; [left; rewrite E; reflexivity|]. right. left. exists (z :: pre), x, (post ++ [name]).
          split; [discriminate|]. split; [rewrite E; reflexivity|]. split; [rewrite <- app_assoc; reflexivity|]. destruct H as [H|H]; [discriminate | exact H].
        * destruct H as [H|[Hp H]].
          -- right. right. left. exists (pre ++ [x]), a, (post ++ [name]). split; [destruct pre; discriminate|]. split; [rewrite E; reflexivity|].
             split; [rewrite <- !app_assoc; reflexivity | exact H].
          -- right. right. right. exists pre, a, x, (post ++ [name]). split; [exact Hp|]. split; [rewrite E; reflexivity|].
             split; [rewrite <- !app_assoc; reflexivity | exact H].
      + apply in_map_iff in Hq. destruct Hq as (q' & <- & Hq). destruct (HQi q' Hq) as [Hqn _]. exists q'. split; [exact Hq|].
        change (lit "::*") with (lit "::" ++ STAR) in Ha. rewrite <- !(join_snoc q' _ Hqn) in Ha. destruct Ha as [Ha|Ha].
        * right. right. left. exists (q' ++ [name]), a, []. split; [destruct q'; discriminate|]. split; [exact E|]. split; [rewrite app_nil_r; reflexivity | exact Ha].
        * right. right. right. exists q', a, name, []. split; [exact Hqn|]. split; [exact E|]. split; [reflexivity | exact Ha].
    - intros (q & Hq & H). destruct (HQi q Hq) as [Hqn Hqi]. 
      assert (Hsplit : forall pre r : list str, pre ++ r = q ++ [name] -> r <> [] -> exists post, r = post ++ [name] /\ pre ++ post = q).
      { intros pre r Er Hr. destruct (exists_last Hr) as (post & z & ->). rewrite app_assoc in Er. apply app_inj_tail in Er. destruct Er as [Er ->]. exists post. auto. }
      destruct H as [H|[(pre & x & r & Hp & Er & Ef & Hm)|[(pre & a & r & Hp & Er & Ef & Hm)|(pre & a & x & r & Hp & Er & Ef & Hm)]]].
      + left. rewrite E in H. apply app_inj_tail in H. destruct H as [-> ->]. split; [reflexivity|]. split; [exact Hqn | apply in_map, Hq].
      + right. left. destruct (Hsplit pre (x :: r) (eq_sym Ef) ltac:(discriminate)) as (post & Ep & Eq).
        rewrite Er, Ep in E. apply app_inj_tail in E. destruct E as [<- <-]. split; [reflexivity|]. destruct post as [|y post].
        * left. split; [reflexivity|]. rewrite app_nil_r in Eq. subst pre. injection Ep as -> _. exists (join_colons q). split; [apply in_map, Hq|].
          change (lit "::*") with (lit "::" ++ STAR). rewrite <- !(join_snoc q _ Hqn). exact Hm.
        * right. injection Ep as -> _. exists pre, y, post. split; [rewrite Eq; exact Hq|]. left. auto.
      + destruct r as [|y r].
        * right. right. rewrite app_nil_r in Ef. subst pre. rewrite Er in E. destruct init as [|z [|? ?]]; [|discriminate|discriminate].
          injection E as <-. split; [reflexivity|]. exists a. split; [|reflexivity]. exists (join_colons q). split; [apply in_map, Hq|]. left. rewrite <- (join_snoc q _ Hqn). exact Hm.
        * right. left. destruct (Hsplit pre (y :: r) (eq_sym Ef) ltac:(discriminate)) as (post & Ep & Eq). rewrite Er, Ep in E.
          change (a :: post ++ [name]) with ((a :: post) ++ [name]) in E. apply app_inj_tail in E. destruct E as [<- <-]. split; [reflexivity|]. right.
          destruct (exists_last Hp) as (pre' & x & ->). exists pre', x, post. split; [rewrite <- Eq, <- app_assoc in Hq; exact Hq|]. right. exists a. split; [reflexivity | left; exact Hm].
      + destruct (Hsplit pre (x :: r) (eq_sym Ef) ltac:(discriminate)) as (post & Ep & Eq). destruct post as [|y post].
        * right. right. injection Ep as -> ->. rewrite Er in E. destruct init as [|z [|? ?]]; [|discriminate|discriminate]. injection E as <-.
          split; [reflexivity|]. exists a. split; [|reflexivity]. rewrite app_nil_r in Eq. subst pre. exists (join_colons q). split; [apply in_map, Hq|]. right.
          change (lit "::*") with (lit "::" ++ STAR). rewrite <- (join_snoc q _ Hqn). exact Hm.
        * right. left. injection Ep as -> ->. rewrite Er in E. change (a :: post ++ [name]) with ((a :: post) ++ [name]) in E. apply app_inj_tail in E. destruct E as [<- <-].
          split; [reflexivity|]. right. exists pre, y, post. split; [rewrite Eq; exact Hq|]. right. exists a. split; [reflexivity|]. right. auto.
  Qed.
End Scope.

(** ** The imports of a module *)
Lemma crate_path_spec path crates : is_crate_item_path path crates = true <->
  exists c g, In c crates /\ (g = [] \/ g = lit "::") /\ (path = g ++ c \/ exists t, path = g ++ c ++ lit "::" ++ t).
Proof.
  unfold is_crate_item_path. rewrite existsb_exists. setoid_rewrite exhaustive_In. split.
  - intros (s & (c & Hc & Hs) & H). apply orb_true_iff in H.
    assert (Hg : exists g, (g = [] \/ g = lit "::") /\ s = g ++ c) by (destruct Hs as [-> | ->]; [exists (lit "::") | exists []]; auto).
    destruct Hg as (g & Hg & ->). exists c, g. split; [exact Hc|]. split; [exact Hg|]. destruct H as [H|H].
    + left. apply str_eqb_eq, H.
    + right. apply starts_with_app in H. destruct H as [t ->]. exists t. rewrite <- !app_assoc. reflexivity.
  - intros (c & g & Hc & Hg & H). exists (g ++ c). split; [exists c; split; [exact Hc|]; destruct Hg as [-> | ->]; auto|].
    apply orb_true_iff. destruct H as [->|(t & ->)]; [left; apply str_eqb_refl|]. right. apply starts_with_app. exists t. rewrite <- !app_assoc. reflexivity.
Qed.
Lemma fold_res_skip {A B} (f : B -> A -> res B) l b : (forall x, In x l -> f b x = Ret b) -> fold_res f l b = Ret b.
Proof. induction l as [|x l IH]; intros H; [reflexivity|]. cbn. rewrite (H x (or_introl eq_refl)). apply IH. intros y Hy. apply H. right; exact Hy. Qed.
Lemma filter_same {A} (f : A -> bool) l : (forall x, In x l -> f x = true) -> filter f l = l.
Proof. induction l as [|x l IH]; intros H; [reflexivity|]. cbn. rewrite (H x (or_introl eq_refl)). f_equal. apply IH. intros y Hy. apply H. right; exact Hy. Qed.
Lemma uses_direct parse crates m n :
  (forall s, In s (use_paths m) -> is_crate_item_path s crates = true) ->
  (forall a s, In (a, s) (use_aliases m) -> is_crate_item_path s crates = true) ->
  external_uses parse crates (S n) m = Ret (use_paths m, use_aliases m).
Proof.
  intros H1 H2. cbn [external_uses]. unfold external_uses_step. rewrite filter_same by exact H1.
  rewrite fold_res_skip; [|intros s Hs; rewrite (H1 s Hs); reflexivity].
  apply fold_res_skip. intros [a s] Hs. cbn [snd]. rewrite (H2 a s Hs). reflexivity.
Qed.
Lemma assoc_set_In {A} k (v : A) m x y : In (x, y) (assoc_set k v m) -> (x = k /\ y = v) \/ In (x, y) m.
Proof.
  induction m as [|[k' v'] m IH]; cbn.
  - intros [E|[]]. left. injection E as <- <-. auto.
  - destruct (str_eqb k k'); intros [E|H]; auto.
    + injection E as <- <-. auto.
    + destruct (IH H); auto.
Qed.
Lemma assoc_In {A} k (v : A) m : assoc k m = Some v -> In (k, v) m.
Proof.
  induction m as [|[k' v'] m IH]; cbn; [discriminate|]. destruct (str_eqb k k') eqn:E; intros H; [|right; exact (IH H)].
  apply str_eqb_eq in E. injection H as ->. subst k'. left; reflexivity.
Qed.
Lemma use_aliases_results l a s : In (a, s) (use_aliases l) -> In (s, Some a) (use_results l).
Proof.
  unfold use_aliases. assert (G : forall (R : list (str * option str)) acc,
    In (a, s) (fold_left (fun acc x => match snd x with None => acc | Some b => assoc_set b (fst x) acc end) R acc) -> In (a, s) acc \/ In (s, Some a) R).
  { induction R as [|[t o] R IH]; intros acc H; cbn [fold_left snd fst] in H; [left; exact H|]. apply IH in H. destruct H as [H|H]; [|right; right; exact H].
    destruct o as [b|]; [|left; exact H]. apply assoc_set_In in H. destruct H as [[-> ->]|H]; [right; left; reflexivity | left; exact H]. }
  intros H. apply G in H. destruct H as [[]|H]; exact H.
Qed.

Lemma star_not_ident : ~ identifier STAR.
Proof. intros (_ & H & _). vm_compute in H. discriminate. Qed.
Lemma star_nocolon : nocolon STAR.
Proof. intros C. vm_compute in C. destruct C as [C|[]]. discriminate C. Qed.
Lemma from_root_text q c r : from_root q = c :: r -> c <> [] ->
  exists g, (g = [] \/ g = lit "::") /\ join_colons q = g ++ join_colons (c :: r).
Proof.
  unfold from_root. destruct q as [|x q]; [discriminate|]. destruct x as [|d x].
  - intros -> _. exists (lit "::"). split; [right; reflexivity|]. reflexivity.
  - intros E _. exists []. split; [left; reflexivity|]. cbn [app]. rewrite <- E. reflexivity.
Qed.
Section Module.
  Variables (m : place) (crates : list str).
  Hypothesis Hm : imports_from m crates.
  Lemma introduced_shape q a : introduces m q a -> exists c r, from_root q = c :: r /\ In c crates
    /\ (forall x, In x (c :: r) -> identifier x \/ (a = None /\ x = STAR)) /\ identifier c
    /\ (forall x, In x (c :: r) -> x <> [] /\ nocolon x).
  Proof.
    intros Hi. destruct Hm as (_ & H & _). destruct (H q a Hi) as (c & r & E & Hc & Hf & Hl). exists c, r.
    assert (Hx : forall x, In x (c :: r) -> identifier x \/ (a = None /\ x = STAR)).
    { inversion Hf as [|c' r' Hcid Hrid]; subst. rewrite Forall_forall in Hrid. intros x [<-|Hin]; [left; exact Hcid|].
      destruct r as [|y r] using rev_ind; [destruct Hin|]. rewrite removelast_last in Hrid. apply in_app_iff in Hin.
      destruct Hin as [Hin|[<-|[]]]; [left; apply Hrid, Hin | apply Hl, last_opt_app]. }
    split; [exact E|]. split; [exact Hc|]. split; [exact Hx|]. split; [inversion Hf; assumption|].
    intros x Hin. destruct (Hx x Hin) as [Hid|[_ ->]]; [split; [apply Hid | apply ident_nocolon, Hid] | split; [discriminate | exact star_nocolon]].
  Qed.
  Lemma shape_no_spaces q a : introduces m q a -> no_spaces (join_colons q) = join_colons q.
  Proof.
    intros Hi. destruct (introduced_shape q a Hi) as (c & r & E & _ & Hx & Hc & Hn).
    destruct (from_root_text q c r E (proj1 Hc)) as (g & Hg & ->).
    rewrite no_spaces_app. f_equal; [destruct Hg as [-> | ->]; reflexivity|].
    assert (G : forall l, (forall x, In x l -> no_spaces x = x) -> no_spaces (join_colons l) = join_colons l).
    { clear. induction l as [|x l IH]; intros H; [reflexivity|]. destruct l as [|y l]; [apply H; left; reflexivity|].
      change (join_colons (x :: y :: l)) with (x ++ lit "::" ++ join_colons (y :: l)). rewrite !no_spaces_app, (H x (or_introl eq_refl)), IH; [reflexivity|].
      intros z Hz. apply H. right; exact Hz. }
    apply G. intros x Hin. destruct (Hx x Hin) as [(_ & Hid & _)|[_ ->]]; [apply ident_no_space, Hid | reflexivity].
  Qed.
  Lemma paths_In s : In s (use_paths m) <-> exists q, introduces m q None /\ s = join_colons q.
  Proof.
    destruct Hm as (Hg & _). rewrite use_paths_In. split.
    - intros H. apply (use_results_sound m Hg) in H. destruct H as (q & Hq & ->). exists q. split; [exact Hq|]. exact (shape_no_spaces q None Hq).
    - intros (q & Hq & ->). rewrite <- (shape_no_spaces q None Hq). apply (use_results_complete m Hg), Hq.
  Qed.
  Lemma aliases_In a s : In (a, s) (use_aliases m) <-> exists q, introduces m q (Some a) /\ s = join_colons q.
  Proof.
    destruct Hm as (Hg & _ & _ & Hu). split.
    - intros H. apply use_aliases_results in H. apply (use_results_sound m Hg) in H. destruct H as (q & Hq & ->). exists q. split; [exact Hq|]. exact (shape_no_spaces q _ Hq).
    - intros (q & Hq & ->). apply assoc_In. apply (use_results_complete m Hg) in Hq as Hin.
      destruct (last_alias a _ _ Hin) as (p0 & l1 & l2 & E & Hl).
      assert (E0 : assoc a (use_aliases m) = Some p0) by (apply use_aliases_get; exists l1, l2; auto).
      rewrite E0. f_equal. assert (H0 : In (p0, Some a) (use_results m)) by (rewrite E; apply in_app_iff; right; left; reflexivity).
      apply (use_results_sound m Hg) in H0. destruct H0 as (q' & Hq' & ->). rewrite (Hu q' q a Hq' Hq). exact (shape_no_spaces q _ Hq).
  Qed.
  Lemma introduced_crate q a : introduces m q a -> is_crate_item_path (join_colons q) crates = true.
  Proof.
    intros Hi. destruct (introduced_shape q a Hi) as (c & r & E & Hc & _ & Hid & _). destruct (from_root_text q c r E (proj1 Hid)) as (g & Hg & ->).
    apply crate_path_spec. exists c, g. split; [exact Hc|]. split; [exact Hg|]. destruct r as [|y r]; [left; reflexivity|].
    right. exists (join_colons (y :: r)). reflexivity.
  Qed.
  Lemma module_uses parse n : external_uses parse crates (S n) m = Ret (use_paths m, use_aliases m).
  Proof.
    apply uses_direct.
    - intros s Hs. apply paths_In in Hs. destruct Hs as (q & Hq & ->). exact (introduced_crate q _ Hq).
    - intros a s Hs. apply aliases_In in Hs. destruct Hs as (q & Hq & ->). exact (introduced_crate q _ Hq).
  Qed.
  Lemma same_text q a l : introduces m q a -> l <> [] -> (forall x, In x l -> x <> [] /\ nocolon x) ->
    (join_colons q = join_colons l \/ join_colons q = lit "::" ++ join_colons l) <-> from_root q = l.
  Proof.
    intros Hi Hl Hx. destruct (introduced_shape q a Hi) as (c & r & E & _ & _ & Hid & Hn). rewrite E.
    destruct (from_root_text q c r E (proj1 Hid)) as (g & Hg & ->). split.
    - intros H. apply join_inj; [discriminate | exact Hl | intros x Hin; apply (Hn x Hin) | intros x Hin; apply (Hx x Hin)|].
      destruct (join_head (c :: r) ltac:(discriminate) Hn) as (c1 & t1 & E1 & H1). destruct (join_head l Hl Hx) as (c2 & t2 & E2 & H2).
      rewrite E1, E2 in *. change (lit "::") with [58%N; 58%N] in *.
      destruct Hg as [-> | ->]; destruct H as [H|H]; cbn [app] in H; [exact H | | | injection H as H H'; rewrite H, H'; reflexivity];
        exfalso; injection H as H _; congruence.
    - intros <-. destruct Hg as [-> | ->]; [left | right]; reflexivity.
  Qed.
  Lemma mem_path l : l <> [] -> (forall x, In x l -> x <> [] /\ nocolon x) ->
    mem_text (use_paths m) (join_colons l) <-> exists q, introduces m q None /\ from_root q = l.
  Proof.
    intros Hl Hx. unfold mem_text. rewrite !paths_In. split.
    - intros [(q & Hq & E)|(q & Hq & E)]; exists q; (split; [exact Hq|]); apply (same_text q None l Hq Hl Hx); auto.
    - intros (q & Hq & E). apply (same_text q None l Hq Hl Hx) in E. destruct E as [E|E]; [left | right]; exists q; auto.
  Qed.
  Lemma mem_alias a l : l <> [] -> (forall x, In x l -> x <> [] /\ nocolon x) ->
    alias_text (use_aliases m) a (join_colons l) <-> exists q, introduces m q (Some a) /\ from_root q = l.
  Proof.
    intros Hl Hx. unfold alias_text. rewrite !aliases_In. split.
    - intros [(q & Hq & E)|(q & Hq & E)]; exists q; (split; [exact Hq|]); apply (same_text q _ l Hq Hl Hx); auto.
    - intros (q & Hq & E). apply (same_text q _ l Hq Hl Hx) in E. destruct E as [E|E]; [left | right]; exists q; auto.
  Qed.

  Lemma stands_denotes ws full c0 r0 : full = c0 :: r0 -> In c0 crates -> (forall x, In x full -> identifier x) ->
    stands_for (use_paths m, use_aliases m) ws full <-> denotes m crates ws full.
  Proof.
    intros Ef Hc0 Hid.
    assert (Hok : forall pre x post, full = pre ++ x :: post -> (forall y, In y (pre ++ [x]) -> y <> [] /\ nocolon y)).
    { intros pre x post E y Hy. assert (Hin : In y full) by (rewrite E; apply in_app_iff; apply in_app_iff in Hy; destruct Hy as [Hy|[<-|[]]]; [left; exact Hy | right; left; reflexivity]).
      split; [apply (Hid y Hin) | apply ident_nocolon, Hid, Hin]. }
    assert (Hpre : forall pre post, full = pre ++ post -> forall y, In y pre -> y <> [] /\ nocolon y).
    { intros pre post E y Hy. assert (Hin : In y full) by (rewrite E; apply in_app_iff; left; exact Hy). split; [apply (Hid y Hin) | apply ident_nocolon, Hid, Hin]. }
    assert (Hstar : forall pre post, full = pre ++ post -> forall y, In y (pre ++ [STAR]) -> y <> [] /\ nocolon y).
    { intros pre post E y Hy. apply in_app_iff in Hy. destruct Hy as [Hy|[<-|[]]]; [exact (Hpre pre post E y Hy) | split; [discriminate | exact star_nocolon]]. }
    assert (Hne : forall (l : list str) x, l ++ [x] <> []) by (intros [|? ?] ?; discriminate).
    split.
    - intros [->|[(pre & x & r & Hp & -> & E & H)|[(pre & a & r & Hp & -> & E & H)|(pre & a & x & r & Hp & -> & E & H)]]].
      + rewrite Ef. apply de_crate, Hc0.
      + rewrite E. cbn [fst] in H. destruct H as [H|H].
        * apply (mem_path _ (Hne _ _) (Hok pre x r E)) in H. destruct H as (q & Hq & Eq). apply (de_import m crates q pre x r Hq Eq).
          intros ->. apply star_not_ident, Hid. rewrite E. apply in_app_iff. right; left; reflexivity.
        * apply (mem_path _ (Hne _ _) (Hstar pre _ E)) in H. destruct H as (q & Hq & Eq). exact (de_glob m crates q pre x r Hq Eq).
      + rewrite E. cbn [snd] in H. apply (mem_alias a _ Hp (Hpre pre r E)) in H. destruct H as (q & Hq & <-). apply de_alias, Hq.
      + exfalso. cbn [snd] in H. apply (mem_alias a _ (Hne _ _) (Hstar pre _ E)) in H. destruct H as (q & Hq & Eq).
        destruct (introduced_shape q _ Hq) as (c & r' & Eq' & _ & Hx & _ & _). rewrite <- Eq', Eq in Hx.
        destruct (Hx STAR) as [C|[C _]]; [apply in_app_iff; right; left; reflexivity | exact (star_not_ident C) | discriminate].
    - intros H. revert Ef. inversion H as [c r Hc E1 E2|q pre x r Hq Eq Hx E1 E2|q pre x r Hq Eq E1 E2|q a r Hq E1 E2]; intros Ef; subst ws.
      + left. reflexivity.
      + destruct pre as [|y pre]; [left; symmetry; exact Ef || reflexivity|]. right. left. exists (y :: pre), x, r. split; [discriminate|]. split; [reflexivity|]. split; [reflexivity|].
        left. cbn [fst]. apply mem_path; [apply Hne | apply (Hok (y :: pre) x r); auto |]. exists q. auto.
      + destruct pre as [|y pre]; [left; reflexivity|]. right. left. exists (y :: pre), x, r. split; [discriminate|]. split; [reflexivity|]. split; [reflexivity|].
        right. cbn [fst]. apply mem_path; [apply Hne | apply (Hstar (y :: pre) (x :: r)); auto |]. exists q. auto.
      + destruct (introduced_shape q _ Hq) as (c & r' & Eq' & _ & _ & _ & Hn). right. right. left. exists (from_root q), a, r.
        split; [rewrite Eq'; discriminate|]. split; [reflexivity|]. split; [reflexivity|]. cbn [snd]. apply mem_alias; [rewrite Eq'; discriminate | rewrite Eq'; exact Hn|]. exists q. auto.
  Qed.
End Module.

Lemma crates_of_join Q : good_qualifiers Q -> crates_of (map join_colons Q) = crate_names Q.
Proof.
  unfold crates_of, crate_names. induction Q as [|q Q IH]; intros H; [reflexivity|]. cbn [map filter_map].
  destruct (H q (or_introl eq_refl)) as [Hn Hi]. rewrite Forall_forall in Hi. rewrite pieces_join; [|exact Hn|intros x Hx; apply ident_nocolon, Hi, Hx].
  destruct q as [|c r]; [congruence|]. cbn [hd hd_error]. f_equal. apply IH. intros q' Hq'. apply H. right; exact Hq'.
Qed.

(** ** All results are items of the crates *)
Definition only_crates (crates : list str) (u : uses) : Prop :=
  (forall s, In s (fst u) -> is_crate_item_path s crates = true) /\ (forall a s, In (a, s) (snd u) -> is_crate_item_path s crates = true).
Lemma extend_paths_In a b s : In s (fst (extend_uses a b)) <-> In s (fst a) \/ In s (fst b).
Proof.
  unfold extend_uses. cbn [fst]. generalize (fst a). induction (fst b) as [|x l IH]; intros acc; cbn [fold_left]; [cbn; tauto|].
  rewrite IH, set_add_In. cbn. intuition (subst; auto).
Qed.
Lemma extend_aliases_In a b x s : In (x, s) (snd (extend_uses a b)) -> In (x, s) (snd a) \/ In (x, s) (snd b).
Proof.
  unfold extend_uses. cbn [snd]. generalize (snd a). induction (snd b) as [|[k v] l IH]; intros acc H; cbn [fold_left] in H; [left; exact H|].
  apply IH in H. destruct H as [H|H]; [|right; right; exact H]. apply assoc_set_In in H. cbn [fst snd] in H. destruct H as [[-> ->]|H]; [right; left; reflexivity | left; exact H].
Qed.
Lemma only_extend crates a b : only_crates crates a -> only_crates crates b -> only_crates crates (extend_uses a b).
Proof.
  intros [H1 H2] [H3 H4]. split.
  - intros s Hs. apply extend_paths_In in Hs. destruct Hs; auto.
  - intros x s Hs. apply extend_aliases_In in Hs. destruct Hs; eauto.
Qed.
Lemma fold_res_inv {A B} (P : B -> Prop) (f : B -> A -> res B) l : forall b r, P b ->
  (forall b x b', P b -> In x l -> f b x = Ret b' -> P b') -> fold_res f l b = Ret r -> P r.
Proof.
  induction l as [|x l IH]; intros b r Hb Hf H; cbn in H; [injection H as <-; exact Hb|].
  destruct (f b x) as [|b'] eqn:E; [discriminate|]. apply (IH b' r); [|intros c y c' Hc Hy; apply Hf; [exact Hc | right; exact Hy] | exact H].
  apply (Hf b x b' Hb (or_introl eq_refl) E).
Qed.
Lemma match_only parse crates ext mat fuel path ref u :
  (forall n u, ext n = Ret u -> only_crates crates u) -> (forall s n u, mat s n = Ret u -> only_crates crates u) ->
  match_path_step parse ext mat fuel crates path ref = Ret u -> only_crates crates u.
Proof.
  assert (H0 : only_crates crates ([], [])) by (split; cbn; tauto).
  intros He Hm H. unfold match_path_step in H. destruct (parse path) as [p|]; [|injection H as <-; exact H0].
  destruct (qualifier p) as [q|]; [|injection H as <-; exact H0]. destruct (target_name p) as [name|]; [|injection H as <-; exact H0].
  destruct (resolve_qualifier parse fuel q ref) as [|[node|]]; [discriminate | | injection H as <-; exact H0].
  destruct (str_eqb name (lit "*")).
  - destruct (ext node) as [|u'] eqn:E; [discriminate|]. injection H as <-. apply only_extend; [exact H0 | exact (He _ _ E)].
  - revert H. apply fold_res_inv; [exact H0|]. intros b r b' Hb _ H. cbv zeta in H. destruct (is_crate_item_path (path_text r) crates) eqn:Ec.
    + injection H as <-. destruct Hb as [Hb1 Hb2]. destruct (ends_with _ _); split; cbn [fst snd].
      * intros s Hs. apply set_add_In in Hs. destruct Hs as [->|Hs]; auto.
      * exact Hb2.
      * exact Hb1.
      * intros a s Hs. apply assoc_set_In in Hs. destruct Hs as [[-> ->]|Hs]; eauto.
    + destruct (str_eqb (path_text r) path); [injection H as <-; exact Hb|]. destruct (mat (path_text r) node) as [|u'] eqn:E; [discriminate|].
      injection H as <-. apply only_extend; [exact Hb | exact (Hm _ _ _ E)].
Qed.
Lemma assoc_del_In {A} k (m : list (str * A)) x y : In (x, y) (assoc_del k m) -> In (x, y) m /\ x <> k.
Proof.
  unfold assoc_del. intros H. apply filter_In in H. cbn [fst] in H. destruct H as [H E]. split; [exact H|]. intros ->. rewrite str_eqb_refl in E. discriminate.
Qed.
Lemma uses_only parse crates mat ref u :
  (forall s n u, mat s n = Ret u -> only_crates crates u) ->
  external_uses_step parse mat crates ref = Ret u -> only_crates crates u.
Proof.
  intros Hm H. unfold external_uses_step in H.
  match type of H with match ?e with _ => _ end = _ => destruct e as [|[paths aliases]] eqn:E; [discriminate|] end.
  assert (Hp : forall s, In s paths -> is_crate_item_path s crates = true).
  { revert E. apply (fold_res_inv (fun acc : uses => forall s, In s (fst acc) -> is_crate_item_path s crates = true)).
    - cbn [fst]. intros s Hs. apply filter_In in Hs. apply Hs.
    - intros b s b' Hb _ Hf. destruct (is_crate_item_path s crates); [injection Hf as <-; exact Hb|]. destruct (mat s ref) as [|u'] eqn:Eu; [discriminate|].
      injection Hf as <-. intros t Ht. apply extend_paths_In in Ht. destruct Ht as [Ht|Ht]; [exact (Hb t Ht) | exact (proj1 (Hm _ _ _ Eu) t Ht)]. }
  clear E. assert (G : forall l acc r, only_crates crates (fst acc, []) -> (forall a s, In (a, s) (snd acc) -> is_crate_item_path s crates = true \/ In (a, s) l) ->
     fold_res (fun (acc : uses) x =>
        if is_crate_item_path (snd x) crates then Ret acc
        else
          let acc' := (fst acc, assoc_del (fst x) (snd acc)) in
          match obind (parse (snd x)) last_seg with
          | None => Ret acc'
          | Some target =>
              match mat (snd x) ref with
              | Spent => Spent
              | Ret u =>
                  match oor (hd_error (fst u)) (assoc (seg_text target) (snd u)) with
                  | Some t => Ret (fst acc', assoc_set (fst x) t (snd acc'))
                  | None => Ret acc'
                  end
              end
          end) l acc = Ret r -> only_crates crates r).
  { induction l as [|[a s] l IH]; intros acc r H1 H2 Hr; cbn [fold_res] in Hr.
    - injection Hr as <-. split; [apply H1|]. intros a s Hs. destruct (H2 a s Hs) as [Hc|[]]; exact Hc.
    - cbn [fst snd] in Hr. cbv zeta in Hr. destruct (is_crate_item_path s crates) eqn:Ec.
      + apply (IH acc r H1); [|exact Hr]. intros a' s' Hs. destruct (H2 a' s' Hs) as [Hc|[Hc|Hc]]; auto. injection Hc as <- <-. auto.
      + assert (Hdel : forall a' s', In (a', s') (assoc_del a (snd acc)) -> is_crate_item_path s' crates = true \/ In (a', s') l).
        { intros a' s' Hs. apply assoc_del_In in Hs. destruct Hs as [Hs Hn]. destruct (H2 a' s' Hs) as [Hc|[Hc|Hc]]; auto. injection Hc as -> ->. congruence. }
        destruct (obind (parse s) last_seg) as [target|]; [|exact (IH (fst acc, assoc_del a (snd acc)) r H1 Hdel Hr)].
        destruct (mat s ref) as [|u'] eqn:Eu; [discriminate|]. destruct (Hm _ _ _ Eu) as [Hu1 Hu2].
        destruct (oor _ _) as [t|] eqn:Eo.
        * apply (IH (fst acc, assoc_set a t (assoc_del a (snd acc))) r H1); [|exact Hr]. intros a' s' Hs. cbn [snd] in Hs.
          apply assoc_set_In in Hs. destruct Hs as [[-> ->]|Hs]; [|exact (Hdel _ _ Hs)]. left. unfold oor in Eo.
          destruct (fst u') as [|y l']; cbn [hd_error] in Eo; [apply assoc_In in Eo; exact (Hu2 _ _ Eo) | injection Eo as <-; apply Hu1; left; reflexivity].
        * exact (IH (fst acc, assoc_del a (snd acc)) r H1 Hdel Hr). }
  apply (G aliases (paths, aliases) u); [split; [exact Hp | cbn; tauto] | intros a s Hs; right; exact Hs | exact H].
Qed.
Lemma all_only parse crates n : (forall path ref u, match_path parse crates n path ref = Ret u -> only_crates crates u)
  /\ (forall ref u, external_uses parse crates n ref = Ret u -> only_crates crates u).
Proof.
  assert (Hmatch : forall n path ref u, match_path parse crates n path ref = Ret u -> only_crates crates u).
  { clear n. induction n as [n IH] using lt_wf_ind. intros path ref u H. destruct n as [|n]; [discriminate|]. cbn [match_path] in H.
    revert H. apply match_only.
    - intros node u' H. destruct n as [|n]; [discriminate|]. revert H. apply uses_only. intros s k u'' H. apply (IH n ltac:(lia) _ _ _ H).
    - intros s k u' H. apply (IH n ltac:(lia) _ _ _ H). }
  split; [apply Hmatch|]. intros ref u H. destruct n as [|n]; [discriminate|]. revert H. apply uses_only. intros s k u'. apply Hmatch.
Qed.

(** ** Names re-exported by another module *)
Lemma in_filter_map {A B} (f : A -> option B) l y : In y (filter_map f l) <-> exists x, In x l /\ f x = Some y.
Proof.
  induction l as [|a l IH]; cbn [filter_map]; [split; [intros [] | intros (x & [] & _)]|].
  destruct (f a) as [b|] eqn:E; cbn [In]; rewrite IH; split.
  - intros [<-|(x & Hx & Ex)]; [exists a; auto | exists x; auto].
  - intros (x & [<-|Hx] & Ex); [left; congruence | right; exists x; auto].
  - intros (x & Hx & Ex). exists x; auto.
  - intros (x & [<-|Hx] & Ex); [congruence | exists x; auto].
Qed.
Lemma candidate_direct parse x k qual : parser_ok parse -> qual <> [] -> Forall identifier qual -> identifier x ->
  In (join_colons (qual ++ [x])) (use_paths k) \/ In (join_colons (qual ++ [STAR])) (use_paths k) ->
  In (map name_seg (qual ++ [x])) (candidates parse x k).
Proof.
  intros Hp Hn Hq Hx Hin. unfold candidates. apply filter_In. split; [|rewrite qual_names by exact Hn; reflexivity].
  apply in_filter_map. exists (join_colons (qual ++ [x])). split.
  - unfold candidate_texts. apply in_app_iff. right. apply in_filter_map. destruct Hin as [Hin|Hin]; (eexists; split; [exact Hin|]); unfold use_candidate.
    + rewrite (join_snoc qual x Hn). replace (ends_with (lit "::" ++ x) (join_colons qual ++ lit "::" ++ x)) with true; [reflexivity|].
      symmetry. apply ends_with_app. eexists. reflexivity.
    + destruct (ends_with (lit "::" ++ x) (join_colons (qual ++ [STAR]))) eqn:E.
      * exfalso. apply ends_with_app in E. destruct E as [t E]. rewrite (join_last qual STAR Hn) in E.
        change (lit "::" ++ x) with ([58%N] ++ 58%N :: x) in E. rewrite app_assoc in E.
        apply last_piece in E; [|exact star_nocolon | exact (ident_nocolon x Hx)]. apply star_not_ident. rewrite E. exact Hx.
      * unfold strip_star. rewrite (join_snoc qual STAR Hn). change (lit "::" ++ STAR) with (lit "::*").
        replace (ends_with (lit "::*") (join_colons qual ++ lit "::*")) with true by (symmetry; apply ends_with_app; eexists; reflexivity).
        cbn [option_map]. f_equal. rewrite app_length. change (length (lit "::*")) with 3. rewrite Nat.add_sub, firstn_app, Nat.sub_diag, firstn_all, firstn_O, app_nil_r.
        symmetry. apply join_snoc, Hn.
  - rewrite <- names_text. destruct qual as [|c r]; [congruence|]. apply Hp. apply names_plain. inversion Hq; subst. constructor; [assumption|]. apply Forall_app. auto.
Qed.
Lemma fold_res_keeps {A} (f : uses -> A -> res uses) l t : 
  (forall b x b', f b x = Ret b' -> In t (fst b) -> In t (fst b')) ->
  forall b r, fold_res f l b = Ret r -> In t (fst b) \/ (exists x, In x l /\ forall b b', f b x = Ret b' -> In t (fst b')) -> In t (fst r).
Proof.
  intros Hf. induction l as [|y l IH]; intros b r H Ht; cbn in H.
  - injection H as <-. destruct Ht as [Ht|(x & [] & _)]; exact Ht.
  - destruct (f b y) as [|b'] eqn:E; [discriminate|]. apply (IH b' r H). destruct Ht as [Ht|(x & [<-|Hx] & Hfx)].
    + left. exact (Hf _ _ _ E Ht).
    + left. exact (Hfx _ _ E).
    + right. exists x. auto.
Qed.
Lemma Ret_inj {A} (a b : A) : Ret a = Ret b -> a = b.
Proof. congruence. Qed.
Lemma match_reexport parse crates n ref k pq x qual u : parser_ok parse -> plain_path pq -> identifier x ->
  (exists i, resolve_qualifier parse i pq ref = Ret (Some k)) ->
  qual <> [] -> Forall identifier qual -> In (join_colons (qual ++ [x])) (use_paths k) \/ In (join_colons (qual ++ [STAR])) (use_paths k) ->
  is_crate_item_path (join_colons (qual ++ [x])) crates = true ->
  match_path parse crates n (path_text (pq ++ [name_seg x])) ref = Ret u ->
  In (join_colons (qual ++ [x])) (fst u).
Proof.
  intros Hp Hpq Hx (i & Hi) Hn Hq Hin Hc H. destruct n as [|n]; [discriminate|]. cbn [match_path] in H. unfold match_path_step in H.
  assert (Hpl : plain_path (pq ++ [name_seg x])).
  { destruct Hpq as (h & l & -> & Hh & Hl). exists h, (l ++ [name_seg x]). split; [reflexivity|]. split; [exact Hh|]. apply Forall_app. split; [exact Hl|]. constructor; [exists x; auto | constructor]. }
  assert (Hne : pq <> []) by (destruct Hpq as (h & l & -> & _); discriminate).
  rewrite (proj1 (Hp _ Hpl)), (qualifier_app pq (name_seg x) Hne) in H.
  assert (Et : target_name (pq ++ [name_seg x]) = Some x) by (unfold target_name, last_seg; rewrite last_opt_app; reflexivity).
  rewrite Et in H. destruct (resolve_qualifier parse n pq ref) as [|o] eqn:Er; [discriminate|].
  assert (Eo : o = Some k).
  { destruct (Nat.le_ge_cases i n) as [Hle|Hle].
    - apply (qualifier_more parse i n pq ref Hle) in Hi. congruence.
    - apply (qualifier_more parse n i pq ref Hle) in Er. congruence. }
  subst o. destruct (str_eqb x (lit "*")) eqn:Es; [apply str_eqb_eq in Es; subst x; destruct (star_not_ident Hx)|].
  apply (fold_res_keeps _ _ (join_colons (qual ++ [x])) ) in H; [exact H| |].
  - intros b r b' Hb Ht. cbv zeta in Hb. destruct (is_crate_item_path (path_text r) crates).
    + apply Ret_inj in Hb; subst b'. destruct (ends_with _ _); cbn [fst]; [apply set_add_In; right|]; exact Ht.
    + destruct (str_eqb (path_text r) _); [assert (b = b') by congruence; subst b'; exact Ht|]. destruct (match_path _ _ _ _ _) as [|w]; [discriminate|]. assert (b' = extend_uses b w) by congruence. subst b'. apply extend_paths_In. left; exact Ht.
  - right. exists (map name_seg (qual ++ [x])). split; [apply candidate_direct; auto|]. intros b b' Hb. cbv zeta in Hb.
    rewrite names_text, Hc in Hb. apply Ret_inj in Hb; subst b'. replace (ends_with (lit "::" ++ x) (join_colons (qual ++ [x]))) with true; [cbn [fst]; apply set_add_In; left; reflexivity|].
    symmetry. rewrite (join_snoc qual x Hn). apply ends_with_app. eexists. reflexivity.
Qed.
Lemma uses_reexport parse crates n ref k pq x qual u : parser_ok parse -> plain_path pq -> identifier x ->
  (exists i, resolve_qualifier parse i pq ref = Ret (Some k)) ->
  qual <> [] -> Forall identifier qual -> In (join_colons (qual ++ [x])) (use_paths k) \/ In (join_colons (qual ++ [STAR])) (use_paths k) ->
  is_crate_item_path (join_colons (qual ++ [x])) crates = true ->
  is_crate_item_path (path_text (pq ++ [name_seg x])) crates = false ->
  In (path_text (pq ++ [name_seg x])) (use_paths ref) ->
  external_uses parse crates n ref = Ret u -> In (join_colons (qual ++ [x])) (fst u).
Proof.
  intros Hp Hpq Hx Hi Hn Hq Hin Hc Hnc Hu H. destruct n as [|n]; [discriminate|]. cbn [external_uses] in H. unfold external_uses_step in H.
  match type of H with match ?e with _ => _ end = _ => destruct e as [|[paths aliases]] eqn:E; [discriminate|] end.
  apply (fold_res_keeps _ _ (join_colons (qual ++ [x]))) in H; [exact H| |].
  - intros b y b' Hb Ht. cbv zeta in Hb. destruct (is_crate_item_path (snd y) crates); [apply Ret_inj in Hb; subst b'; exact Ht|].
    destruct (obind _ _); [|apply Ret_inj in Hb; subst b'; exact Ht]. destruct (match_path _ _ _ _ _); [discriminate|]. destruct (oor _ _); apply Ret_inj in Hb; subst b'; exact Ht.
  - left. cbn [fst]. apply (fold_res_keeps _ _ (join_colons (qual ++ [x]))) in E; [exact E| |].
    + intros b y b' Hb Ht. destruct (is_crate_item_path y crates); [apply Ret_inj in Hb; subst b'; exact Ht|]. destruct (match_path _ _ _ _ _); [discriminate|].
      apply Ret_inj in Hb; subst b'. apply extend_paths_In. left; exact Ht.
    + right. exists (path_text (pq ++ [name_seg x])). split; [exact Hu|]. intros b b' Hb. rewrite Hnc in Hb.
      destruct (match_path parse crates n (path_text (pq ++ [name_seg x])) ref) as [|u'] eqn:Em; [discriminate|]. apply Ret_inj in Hb; subst b'. apply extend_paths_In. right.
      apply (match_reexport parse crates n ref k pq x qual u'); auto.
Qed.

(** ** Names imported from the module itself *)
Lemma self_candidates parse xs m x : parser_ok parse -> (forall y, In y xs -> identifier y) -> NoDup xs -> In x xs ->
  use_aliases m = [] -> use_paths m = map (fun y => lit "self::" ++ y) xs ->
  candidates parse x m = [[self_seg; name_seg x]].
Proof.
  intros Hp Hxs Hnd Hx Ha Hu. unfold candidates, candidate_texts. rewrite Ha, Hu. cbn [assoc app].
  assert (E : filter_map (use_candidate x) (map (fun y => lit "self::" ++ y) xs) = [lit "self::" ++ x]).
  { assert (Hu0 : forall y, identifier y -> use_candidate x (lit "self::" ++ y) = if str_eqb y x then Some (lit "self::" ++ y) else None).
    { intros y Hy. unfold use_candidate, strip_star. change (lit "self::" ++ y) with ((lit "self" ++ [58%N]) ++ 58%N :: y).
      assert (E1 : forall z, identifier z \/ z = STAR -> ends_with (lit "::" ++ z) ((lit "self" ++ [58%N]) ++ 58%N :: y) = true <-> y = z).
      { intros z Hz. rewrite ends_with_app. split.
        - intros [t E]. change (lit "::" ++ z) with ([58%N] ++ 58%N :: z) in E. rewrite (app_assoc t) in E. apply last_piece in E; [exact E | exact (ident_nocolon y Hy)|].
          destruct Hz as [Hz| ->]; [exact (ident_nocolon z Hz) | exact star_nocolon].
        - intros <-. exists (lit "self"). rewrite <- app_assoc. reflexivity. }
      destruct (ends_with (lit "::" ++ x) ((lit "self" ++ [58%N]) ++ 58%N :: y)) eqn:Ex.
      - apply E1 in Ex; [|left; apply Hxs, Hx]. subst y. rewrite str_eqb_refl. reflexivity.
      - assert (Hyx : str_eqb y x = false) by (apply str_eqb_neq; intros ->; rewrite (proj2 (E1 x (or_introl (Hxs x Hx))) eq_refl) in Ex; discriminate). rewrite Hyx.
        change (lit "::*") with (lit "::" ++ STAR). destruct (ends_with (lit "::" ++ STAR) ((lit "self" ++ [58%N]) ++ 58%N :: y)) eqn:Es; [|reflexivity].
        apply E1 in Es; [|right; reflexivity]. subst y. destruct (star_not_ident Hy). }
    clear Ha Hu. revert Hxs Hnd Hx Hu0. induction xs as [|y xs IH]; intros Hxs Hnd Hx Hu0; [destruct Hx|]. cbn [map filter_map]. rewrite (Hu0 y (Hxs y (or_introl eq_refl))).
    inversion Hnd as [|y' xs' Hni Hnd']; subst. destruct (str_eqb y x) eqn:Ey.
    - apply str_eqb_eq in Ey. subst y. f_equal. assert (Hid : forall z, In z xs -> identifier z) by (intros z Hz; apply Hxs; right; exact Hz).
      clear IH Hx Hxs Hnd Hnd'. revert Hni Hid. induction xs as [|z xs IH']; intros Hni Hid; [reflexivity|]. cbn [map filter_map].
      rewrite (Hu0 z (Hid z (or_introl eq_refl))). rewrite (proj2 (str_eqb_neq z x)) by (intros ->; apply Hni; left; reflexivity).
      apply IH'; [intros C; apply Hni; right; exact C | intros w Hw; apply Hid; right; exact Hw].
    - destruct Hx as [->|Hx]; [rewrite str_eqb_refl in Ey; discriminate|]. apply IH; auto. intros w Hw. apply Hxs. right; exact Hw. }
  rewrite E. cbn [filter_map].
  assert (Ep : parse (lit "self::" ++ x) = Some [self_seg; name_seg x]).
  { change (lit "self::" ++ x) with (lit "self" ++ lit "::" ++ x). rewrite <- (app_nil_r x) at 1.
    refine (proj1 (Hp [self_seg; name_seg x] _)). exists self_seg, [name_seg x]. split; [reflexivity|]. split.
    - right. exists WSelf. split; [right; left; reflexivity | reflexivity].
    - constructor; [exists x; split; [reflexivity | apply Hxs, Hx] | constructor]. }
  rewrite Ep. reflexivity.
Qed.
Lemma self_imports parse crates xs m n : parser_ok parse -> (forall y, In y xs -> identifier y) -> NoDup xs ->
  use_aliases m = [] -> use_paths m = map (fun y => lit "self::" ++ y) xs -> current_module m = m ->
  ~ In (lit "self") crates -> (forall c, In c crates -> identifier c) ->
  external_uses parse crates (S (S (S n))) m = Ret ([], []).
Proof.
  intros Hp Hxs Hnd Ha Hu Hm Hs Hcr. cbn [external_uses]. unfold external_uses_step. rewrite Ha, Hu.
  assert (Hnc : forall x, is_crate_item_path (lit "self::" ++ x) crates = false).
  { intros x. destruct (is_crate_item_path (lit "self::" ++ x) crates) eqn:E; [|reflexivity]. exfalso. apply crate_path_spec in E.
    destruct E as (c & g & Hc & [-> | ->] & H).
    - cbn [app] in H. pose proof (ident_nocolon c (Hcr c Hc)) as Hcc.
      destruct H as [H|(t & H)].
      + apply Hcc. rewrite <- H. change (lit "self::" ++ x) with (lit "self" ++ 58%N :: 58%N :: x). apply in_app_iff. right. left. reflexivity.
      + apply Hs. assert (E : split_colons [] (lit "self" ++ lit "::" ++ x) = split_colons [] (c ++ lit "::" ++ t)) by (f_equal; exact H).
        rewrite split_first in E by (intros C; vm_compute in C; intuition discriminate). rewrite split_first in E by exact Hcc. cbn [rev app] in E.
        apply (f_equal (hd [])) in E. cbn [hd] in E. rewrite E. exact Hc.
    - destruct H as [H|(t & H)]; apply (f_equal (hd 0%N)) in H; vm_compute in H; discriminate. }
  assert (Ef : filter (fun s => is_crate_item_path s crates) (map (fun y => lit "self::" ++ y) xs) = []).
  { clear -Hnc. induction xs as [|y xs IH]; [reflexivity|]. cbn [map filter]. rewrite Hnc. exact IH. }
  rewrite Ef.
  assert (Hmat : forall x, In x xs -> match_path parse crates (S (S n)) (lit "self::" ++ x) m = Ret ([], [])).
  { intros x Hx. cbn [match_path]. unfold match_path_step.
    assert (Hpl : plain_path [self_seg; name_seg x]).
    { exists self_seg, [name_seg x]. split; [reflexivity|]. split; [right; exists WSelf; split; [right; left; reflexivity | reflexivity]|].
      constructor; [exists x; split; [reflexivity | apply Hxs, Hx] | constructor]. }
    assert (Et : path_text [self_seg; name_seg x] = lit "self::" ++ x) by (unfold path_text, seg_text; cbn [map join_colons sg_colons sg_word sg_tail word_text name_seg self_seg]; rewrite !app_nil_r; reflexivity).
    rewrite <- Et, (proj1 (Hp _ Hpl)). cbn [qualifier removelast]. change (target_name [self_seg; name_seg x]) with (Some x).
    change (resolve_qualifier parse (S n) [self_seg] m) with (@Ret (option place) (Some (current_module m))). rewrite Hm.
    destruct (str_eqb x (lit "*")) eqn:Es; [apply str_eqb_eq in Es; subst x; destruct (star_not_ident (Hxs _ Hx))|].
    rewrite (self_candidates parse xs m x Hp Hxs Hnd Hx Ha Hu). cbn [fold_res]. rewrite Et, Hnc, str_eqb_refl. reflexivity. }
  assert (G : forall l, (forall x, In x l -> In x xs) -> fold_res (fun (acc : uses) s => if is_crate_item_path s crates then Ret acc
        else match match_path parse crates (S (S n)) s m with Spent => Spent | Ret u => Ret (extend_uses acc u) end) (map (fun y => lit "self::" ++ y) l) ([], []) = Ret ([], [])).
  { induction l as [|x l IH]; intros Hl; [reflexivity|]. cbn [map fold_res]. rewrite Hnc, (Hmat x (Hl x (or_introl eq_refl))).
    change (extend_uses ([], []) ([], [])) with (([], []) : uses). apply IH. intros y Hy. apply Hl. right; exact Hy. }
  rewrite (G xs (fun x Hx => Hx)). reflexivity.
Qed.

(** ** More fuel does not change a result *)
Lemma fold_res_more {A B} (f g : B -> A -> res B) l : (forall b x r, f b x = Ret r -> g b x = Ret r) ->
  forall b r, fold_res f l b = Ret r -> fold_res g l b = Ret r.
Proof.
  intros H. induction l as [|x l IH]; intros b r E; cbn in *; [exact E|]. destruct (f b x) as [|b'] eqn:Ef; [discriminate|].
  rewrite (H _ _ _ Ef). apply IH, E.
Qed.
Lemma uses_step_more parse (f g : str -> place -> res uses) crates ref u : (forall s r v, f s r = Ret v -> g s r = Ret v) ->
  external_uses_step parse f crates ref = Ret u -> external_uses_step parse g crates ref = Ret u.
Proof.
  intros H E. unfold external_uses_step in *.
  match type of E with match ?e with _ => _ end = _ => destruct e as [|[paths aliases]] eqn:E1; [discriminate|] end.
  erewrite fold_res_more; [| |exact E1].
  - revert E. apply fold_res_more. intros b x r Hb. cbv zeta in *. destruct (is_crate_item_path (snd x) crates); [exact Hb|].
    destruct (obind _ _); [|exact Hb]. destruct (f (snd x) ref) as [|v] eqn:Ef; [discriminate|]. rewrite (H _ _ _ Ef). exact Hb.
  - intros b x r Hb. cbv beta in *. destruct (is_crate_item_path x crates); [exact Hb|].
    destruct (f x ref) as [|v] eqn:Ef; [discriminate|]. rewrite (H _ _ _ Ef). exact Hb.
Qed.
Lemma match_more parse crates n : forall n' path ref u, n <= n' -> match_path parse crates n path ref = Ret u -> match_path parse crates n' path ref = Ret u.
Proof.
  induction n as [n IH] using (well_founded_induction lt_wf). intros n' path ref u Hle H.
  destruct n as [|n]; [discriminate|]. destruct n' as [|n']; [lia|]. cbn [match_path] in *. unfold match_path_step in *.
  destruct (parse path) as [p|]; [|exact H]. destruct (qualifier p) as [q|]; [|exact H]. destruct (target_name p) as [name|]; [|exact H].
  destruct (resolve_qualifier parse n q ref) as [|o] eqn:Er; [discriminate|].
  rewrite (qualifier_more parse n n' q ref ltac:(lia) o Er) || rewrite (qualifier_more parse n n' q ref ltac:(lia) _ Er).
  destruct o as [node|]; [|exact H]. destruct (str_eqb name (lit "*")).
  - destruct n as [|n]; [discriminate|]. destruct n' as [|n']; [lia|].
    destruct (external_uses_step parse (match_path parse crates n) crates node) as [|v] eqn:Ev; [discriminate|].
    rewrite (uses_step_more parse (match_path parse crates n) (match_path parse crates n') crates node v); [exact H | | exact Ev].
    intros s r w. apply IH; lia.
  - revert H. apply fold_res_more. intros b r v Hb. cbv zeta in *. destruct (is_crate_item_path (path_text r) crates); [exact Hb|].
    destruct (str_eqb (path_text r) path); [exact Hb|]. destruct (match_path parse crates n (path_text r) node) as [|w] eqn:Ew; [discriminate|].
    rewrite (IH n ltac:(lia) n' _ _ w ltac:(lia) Ew). exact Hb.
Qed.
Lemma uses_more parse crates n n' ref u : n <= n' -> external_uses parse crates n ref = Ret u -> external_uses parse crates n' ref = Ret u.
Proof.
  intros Hle H. destruct n as [|n]; [discriminate|]. destruct n' as [|n']; [lia|]. cbn [external_uses] in *.
  revert H. apply uses_step_more. intros s r v. apply match_more. lia.
Qed.
Lemma external_more parse name qs n : forall n' p ref b, n <= n' -> is_external parse name qs n p ref = Ret b -> is_external parse name qs n' p ref = Ret b.
Proof.
  induction n as [|n IH]; intros n' p ref b Hle H; [discriminate|]. destruct n' as [|n']; [lia|]. cbn [is_external] in *.
  destruct (_ && _); [exact H|]. destruct (external_uses parse (crates_of qs) n (current_module ref)) as [|u] eqn:Eu; [discriminate|].
  rewrite (uses_more parse _ n n' _ u ltac:(lia) Eu). destruct (known_in_scope name qs u p); [exact H|].
  destruct (resolve_item parse is_type_alias n p (current_module ref)) as [|o] eqn:Er; [discriminate|].
  rewrite (item_more parse is_type_alias n n' p _ ltac:(lia) o Er) || rewrite (item_more parse is_type_alias n n' p _ ltac:(lia) _ Er).
  destruct o as [t|]; [|exact H]. destruct (n_data (fst t)) as [| | | | | | |? [ty|]| | |]; try exact H. apply IH; [lia | exact H].
Qed.
