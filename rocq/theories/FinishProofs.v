(** Proofs about the completions inside attributes. *)
From Coq Require Import List Lia Arith.
From Verif Require Import Base BaseFacts Unicode PositionModel PositionProofs VersionModel TranslateModel SyntaxModel AttrModel AttrProofs EditModel EditSpec SuggestModel SuggestSpec ArgEditModel ArgEditSpec ArgEditProofs
  RuleModel ArgCheckModel ArgCheckSpec ArgCheckProofs EntityModel EntitySpec HintModel HintSpec HintProofs ExtractModel ExtractSpec ExtractProofs FocusModel FocusSpec CompleteModel CompleteSpec CompleteProofs
  SuggestProps FinishModel FinishSpec.
Import ListNotations.

(** ** Tokens before and after a token *)
Lemma closest_solid_at o (A : list (skind * str)) t T : is_trivia (fst t) = false -> (forall y, In y T -> is_trivia (fst y) = true) ->
  closest_solid (rev (place_leaves o (A ++ t :: T))) = Some (o + bytes (text A), t).
Proof.
  intros Ht HT. unfold closest_solid. rewrite place_leaves_app, rev_app_distr. cbn [place_leaves]. cbn [rev]. rewrite <- app_assoc. rewrite closest_skip.
  - cbn [app closest_which]. change (lf_kind (o + bytes (text A), t)) with (fst t). rewrite Ht. reflexivity.
  - intros x Hx. apply in_rev in Hx. assert (In (snd x) T) as Hs by (revert Hx; generalize (o + bytes (text A) + bytes (snd t)); clear; induction T as [|y T IH]; intros n Hx; [destruct Hx|]; cbn [place_leaves] in Hx; destruct Hx as [<-|Hx]; [left; reflexivity | right; eapply IH, Hx]).
    specialize (HT _ Hs). change (lf_kind x) with (fst (snd x)). rewrite HT. split; reflexivity.
Qed.
Lemma closest_solid_none o (T : list (skind * str)) : (forall y, In y T -> is_trivia (fst y) = true) -> closest_solid (rev (place_leaves o T)) = None.
Proof.
  intros HT. unfold closest_solid. rewrite <- (app_nil_r (rev _)). rewrite closest_skip; [reflexivity|].
  intros x Hx. apply in_rev in Hx. assert (In (snd x) T) as Hs by (revert o Hx; clear; induction T as [|y T IH]; intros n Hx; [destruct Hx|]; cbn [place_leaves] in Hx; destruct Hx as [<-|Hx]; [left; reflexivity | right; eapply IH, Hx]).
  specialize (HT _ Hs). change (lf_kind x) with (fst (snd x)). rewrite HT. split; reflexivity.
Qed.
Lemma prev_at root A t B : leaves root = A ++ t :: B -> snd t <> [] -> prev_solid root (bytes (text A), t) = closest_solid (rev (place_leaves 0 A)).
Proof. intros E Ht. unfold prev_solid, file_toks. rewrite E. change (bytes (text A)) with (0 + bytes (text A)). rewrite ArgEditProofs.before_place by exact Ht. reflexivity. Qed.
Lemma prev_solid_at root A t T x B : leaves root = A ++ t :: T ++ x :: B -> snd x <> [] -> is_trivia (fst t) = false -> (forall y, In y T -> is_trivia (fst y) = true) ->
  prev_solid root (bytes (text (A ++ t :: T)), x) = Some (bytes (text A), t).
Proof.
  intros E Hx Ht HT. rewrite (prev_at root (A ++ t :: T) x B); [|rewrite E, <- app_assoc; reflexivity | exact Hx]. apply closest_solid_at; assumption.
Qed.
Lemma solid_app a b : solid (a ++ b) = solid a ++ solid b.
Proof. unfold solid. rewrite filter_app, map_app. reflexivity. Qed.
Lemma solid_nil l : solid l = [] -> forall y, In y l -> is_trivia (fst y) = true.
Proof.
  induction l as [|t l IH]; intros E y Hy; [destruct Hy|]. unfold solid in E. cbn [filter] in E. destruct (is_trivia (fst t)) eqn:Et; cbn [negb] in E; [|discriminate E].
  destruct Hy as [<-|Hy]; [exact Et | apply IH; assumption].
Qed.
Lemma solid_snoc l : forall ws w, solid l = ws ++ [w] -> exists l1 k T, l = l1 ++ (k, w) :: T /\ is_trivia k = false /\ solid l1 = ws /\ forall y, In y T -> is_trivia (fst y) = true.
Proof.
  induction l as [|[k s] l IH] using rev_ind; intros ws w E; [destruct ws; discriminate E|]. rewrite solid_app in E. unfold solid at 2 in E. cbn [filter fst] in E.
  destruct (is_trivia k) eqn:Ek; cbn [negb map snd] in E.
  - rewrite app_nil_r in E. destruct (IH _ _ E) as (l1 & k1 & T & -> & H1 & H2 & H3). exists l1, k1, (T ++ [(k, s)]). rewrite <- app_assoc. repeat split; auto.
    intros y Hy. apply in_app_iff in Hy. destruct Hy as [Hy|[<-|[]]]; [apply H3, Hy | exact Ek].
  - apply app_inj_tail in E. destruct E as [<- <-]. exists l, k, []. repeat split; auto; intros y [].
Qed.

(** ** The attribute at the cursor *)
Lemma closest_at p (inner : list lelem) a (upa : list lelem) : (forall y, In y inner -> p y = false) -> p a = true -> ExtractModel.closest p (inner ++ a :: upa) = Some (a, upa).
Proof.
  induction inner as [|y inner IH]; intros H Ha; cbn [app ExtractModel.closest]; [rewrite Ha; reflexivity|]. rewrite (H y (or_introl eq_refl)). apply IH; [|exact Ha]. intros z Hz. apply H. right. exact Hz.
Qed.
Lemma attr_around_at x up a upa : in_attribute up a upa -> attr_around (x, up) = Some (a, upa).
Proof.
  intros (inner & -> & Ha & Hi). unfold attr_around. cbn [snd]. apply closest_at.
  - intros y Hy. unfold is_attr. specialize (Hi y Hy). destruct (skind_eqb (lkind y) ATTR) eqn:E; [|reflexivity]. apply skind_eqb_eq in E. contradiction.
  - unfold is_attr. rewrite Ha. reflexivity.
Qed.
Lemma inside_up acc e x up : inside_of acc e x up -> forall inner a upa, up = inner ++ a :: upa -> (length acc <= length upa) -> element_of e a.
Proof.
  induction 1 as [acc e|acc o k cs c e up Hc Hi IH]; intros inner a upa E Hl.
  - exfalso. apply (f_equal (@length _)) in E. rewrite app_length in E. cbn [length] in E. lia.
  - destruct (Nat.le_gt_cases (S (length acc)) (length upa)) as [Hle|Hgt].
    + eapply eo_child; [exact Hc|]. apply (IH inner a upa E). cbn [length]. exact Hle.
    + assert (length upa = length acc) as El by (apply Nat.le_antisymm; [apply Nat.lt_succ_r, Hgt | exact Hl]).
      assert (Hs : exists pre, up = pre ++ (o, Node k cs) :: acc).
      { clear -Hi. remember ((o, Node k cs) :: acc) as A. revert HeqA. clear -Hi. intros _. induction Hi as [A e|A o' k' cs' c e up Hc Hi IH]; [exists []; reflexivity|].
        destruct IH as [pre ->]. exists (pre ++ [(o', Node k' cs')]). rewrite <- app_assoc. reflexivity. }
      destruct Hs as [pre ->]. assert (Hlen : length pre = length inner).
      { apply (f_equal (@length _)) in E. rewrite !app_length in E. cbn [length] in E. lia. }
      clear -E Hlen. revert inner Hlen E. induction pre as [|y pre IH]; intros [|z inner] Hlen E; cbn [length app] in *; try discriminate.
      * injection E as <- _. constructor.
      * injection E as _ E. apply (IH inner); [lia | exact E].
Qed.
Lemma attribute_element root x up a upa : around root x up -> in_attribute up a upa -> element_of (0, root) a.
Proof. intros H (inner & E & _). eapply inside_up; [exact H | exact E | cbn; lia]. Qed.
Lemma element_leaves e a : element_of e a -> exists A C, leaves (snd e) = A ++ leaves (snd a) ++ C /\ fst a = fst e + bytes (text A).
Proof.
  induction 1 as [e|o k cs c a Hc Ha IH].
  - exists [], []. rewrite app_nil_r. cbn. split; [reflexivity | lia].
  - destruct IH as (A & C & E & Ef). cbn [snd fst]. rewrite leaves_node. unfold leaves_of.
    assert (G : forall o cs, In c (place o cs) -> exists X Y, flat_map leaves cs = X ++ leaves (snd c) ++ Y /\ fst c = o + bytes (text X)).
    { clear. intros o cs. revert o. induction cs as [|y cs IH]; intros o Hc; [destruct Hc|]. cbn [place] in Hc. destruct Hc as [<-|Hc].
      - exists [], (flat_map leaves cs). cbn. split; [reflexivity | lia].
      - destruct (IH _ Hc) as (X & Y & E & Ef). exists (leaves y ++ X), Y. cbn [flat_map]. rewrite E, <- app_assoc. split; [reflexivity|].
        rewrite text_app, bytes_app, ArgEditProofs.text_leaves. unfold len_of in Ef. lia. }
    destruct (G _ _ Hc) as (X & Y & E' & Ef'). exists (X ++ A), (C ++ Y). rewrite E', E, <- !app_assoc. split; [reflexivity|]. rewrite text_app, bytes_app. lia.
Qed.

Lemma leaf_of_tok o k s : leaf_of (o, Tok k s) = (o, (k, s)).
Proof. reflexivity. Qed.
Lemma typed_at o k p q off : off = o + bytes p -> typed (o, (k, p ++ q)) off = Done (if is_nil p then None else Some p).
Proof.
  intros ->. unfold typed. change (lf_start (o, (k, p ++ q))) with o. change (lf_text (o, (k, p ++ q))) with (p ++ q).
  replace (o + bytes p - o) with (bytes p) by lia. unfold split_bytes. rewrite take_bytes_at. reflexivity.
Qed.
Lemma is_crate_iff s : is_crate s = true <-> crate_name s.
Proof. unfold is_crate, crate_name. rewrite Bool.orb_true_iff, !str_eqb_eq. reflexivity. Qed.
Lemma is_colons_iff s : is_colons s = true <-> colons s.
Proof. unfold is_colons, colons. rewrite Bool.orb_true_iff, !str_eqb_eq. reflexivity. Qed.
Lemma not_true b (P : Prop) : (b = true <-> P) -> ~ P -> b = false.
Proof. destruct b; [intros H N; exfalso; apply N, H; reflexivity | reflexivity]. Qed.
Lemma colons_no_crate s : colons s -> is_crate s = false.
Proof. intros [-> | ->]; reflexivity. Qed.
Lemma kind_neq k j : k <> j -> skind_eqb k j = false.
Proof. intros H. destruct (skind_eqb k j) eqn:E; [|reflexivity]. apply skind_eqb_eq in E. contradiction. Qed.

Section Macros.
  Context (U : unicode) (pr : path_reader) (punct : skind -> bool) (around : path -> around_attr) (root : elem) (Hlex : lexed U root).
  Context (off : nat) (v : version) (a b mid : list (skind * str)) (k : skind) (p q : str) (up : list lelem) (at_ : lelem) (upa : list lelem).
  Let s := p ++ q.
  Let o := bytes (text (a ++ (L_BRACK, lit "[") :: mid)).
  Let x : lelem := (o, Tok k s).
  Hypothesis (Hl : leaves root = a ++ (L_BRACK, lit "[") :: mid ++ (k, s) :: b).
  Hypothesis (Hmid : forall t, In t mid -> fst t <> L_BRACK).
  Hypothesis (Hk : is_trivia k = false) (Hkb : k <> L_BRACK).
  Hypothesis (Hc : cursor_on root off x up) (Ho : off = o + bytes p).
  Hypothesis (Hw : path_so_far (solid mid) s).
  Hypothesis (Ha : in_attribute up at_ upa).
  Hypothesis (Hpr : forall c rest, solid mid = c :: rest -> option_map fst (hd_error (pr at_)) = Some c).
  Let it := around (at_, upa).
  Let kw := keyword punct root (x, up).
  Let path := is_crate s || negb (is_nil (solid mid)).
  Let behind := is_nil (solid mid).

  Lemma s_nonempty : s <> [].
  Proof. apply (proj1 (Hlex k s ltac:(rewrite Hl; apply in_app_iff; right; right; apply in_app_iff; right; left; reflexivity))). Qed.

  Definition offered : list text_edit :=
    match completion_macros (aa_item it) (aa_others it) kw path (hd_error (solid mid))
            (match solid mid with [_; _] => if aa_others it then None else if is_nil p then None else Some p | _ => None end) v with
    | [] => if behind && negb (aa_other_macros it)
            then map (fun c => edit_replace_snippet (fst c) (o, o + bytes s) (snd c))
                   (filter (fun c => is_some_and (fun t => starts_with t (fst c)) (if is_nil p then None else Some p)) (crate_completions (aa_others it)))
            else []
    | ms => map (fun m => edit_replace_snippet (match solid mid with [] => macro_path m | [_] => lit "::" ++ macro_name m | _ => macro_name m end) (o, o + bytes s) None) ms
    end.
  Lemma macro_run : macro_completions pr punct around root off v = Done offered.
  Proof.
    unfold macro_completions. rewrite (cursor_focused U root Hlex _ _ _ Hc). cbn [obind_o]. unfold attr_at. rewrite (attr_around_at _ _ _ _ Ha).
    cbv zeta. change (leaf_of (fst (x, up))) with (o, (k, s)). change (fst (at_, upa)) with at_.
    pose proof s_nonempty as Hs.
    change (leaf_is L_BRACK (o, (k, s))) with (skind_eqb k L_BRACK). rewrite (kind_neq _ _ Hkb).
    change (lf_text (o, (k, s))) with s. unfold token_range. change (lf_start (o, (k, s))) with o. change (lf_end (o, (k, s))) with (o + bytes s).
    destruct Hw as [E|[(c & E & Hcn & Hcol)|(c & E & Hcn & Hncr & Hncol)]].
    - assert (Ep : prev_solid root (o, (k, s)) = Some (bytes (text a), (L_BRACK, lit "["))) by (apply (prev_solid_at root a (L_BRACK, lit "[") mid (k, s) b Hl Hs eq_refl), solid_nil, E).
      assert (Ei : in_ink_path root (o, (k, s)) = is_crate s).
      { unfold in_ink_path. rewrite Ep. cbn [is_some_and obind]. change (leaf_is L_BRACK (bytes (text a), (L_BRACK, lit "["))) with true.
        change (lf_text (bytes (text a), (L_BRACK, lit "["))) with (lit "["). change (lf_text (o, (k, s))) with s.
        change (is_crate (lit "[")) with false. change (str_eqb (lit "[") (lit "::")) with false. rewrite !Bool.andb_true_r, !Bool.andb_false_r, !Bool.orb_false_r. reflexivity. }
      rewrite Ei, Ep. cbn [is_some_and]. change (leaf_is L_BRACK (bytes (text a), (L_BRACK, lit "["))) with true. cbn [orb].
      replace (is_crate s && negb (is_crate s)) with false by (destruct (is_crate s); reflexivity). rewrite !Bool.andb_false_r. cbn [andb obind_o].
      unfold offered, path, behind. rewrite E. cbn [is_nil negb hd_error]. rewrite Bool.orb_false_r.
      fold it. fold kw. change (keyword punct root (o, Tok k s, up)) with kw.
      destruct (completion_macros (aa_item it) (aa_others it) kw (is_crate s) None None v) as [|m ms].
      + cbn [andb]. destruct (aa_other_macros it); cbn [negb]; [reflexivity|]. unfold s at 1. rewrite (typed_at o k p q off Ho). cbn [obind_o]. reflexivity.
      + reflexivity.
    - assert (E0 : solid mid = [] ++ [c]) by exact E. destruct (solid_snoc mid _ _ E0) as (l1 & kc & T & Em & Hkc & _ & HT).
      assert (Hkcb : kc <> L_BRACK) by (apply (Hmid (kc, c)); rewrite Em; apply in_app_iff; right; left; reflexivity).
      assert (Hl' : leaves root = (a ++ (L_BRACK, lit "[") :: l1) ++ (kc, c) :: T ++ (k, s) :: b) by (rewrite Hl, Em, <- !app_assoc; cbn [app]; rewrite <- ?app_assoc; reflexivity).
      assert (Eo : o = bytes (text ((a ++ (L_BRACK, lit "[") :: l1) ++ (kc, c) :: T))) by (unfold o; rewrite Em, <- !app_assoc; reflexivity).
      assert (Ep : exists n, prev_solid root (o, (k, s)) = Some (n, (kc, c))).
      { eexists. rewrite Eo. apply (prev_solid_at root _ (kc, c) T (k, s) b Hl' Hs Hkc HT). }
      destruct Ep as [n Ep].
      assert (Ei : in_ink_path root (o, (k, s)) = true).
      { unfold in_ink_path. rewrite Ep. cbn [is_some_and]. change (lf_text (n, (kc, c))) with c. change (lf_text (o, (k, s))) with s.
        rewrite (proj2 (is_colons_iff s) Hcol), (proj2 (is_crate_iff c) Hcn). rewrite Bool.orb_true_r. reflexivity. }
      rewrite Ei, Ep. cbn [is_some_and]. change (leaf_is L_BRACK (n, (kc, c))) with (skind_eqb kc L_BRACK). rewrite (kind_neq _ _ Hkcb). cbn [orb].
      rewrite (colons_no_crate s Hcol), (proj2 (is_colons_iff s) Hcol). cbn [negb andb orb]. rewrite Bool.andb_false_r. cbn [obind_o].
      unfold offered, path, behind. rewrite E. cbn [is_nil negb hd_error]. rewrite Bool.orb_true_r. rewrite (Hpr c [] E).
      fold it. fold kw. change (keyword punct root (o, Tok k s, up)) with kw.
      destruct (completion_macros (aa_item it) (aa_others it) kw true (Some c) None v) as [|m ms]; [reflexivity|].
      unfold macro_text. rewrite (colons_no_crate s Hcol), (proj2 (is_colons_iff s) Hcol). reflexivity.
    - assert (E0 : solid mid = [c] ++ [lit "::"]) by exact E. destruct (solid_snoc mid _ _ E0) as (l1 & k2 & T & Em & Hk2 & E1 & HT).
      destruct (solid_snoc l1 [] c E1) as (l2 & kc & T2 & Em2 & Hkc & _ & HT2).
      assert (Hk2b : k2 <> L_BRACK) by (apply (Hmid (k2, lit "::")); rewrite Em; apply in_app_iff; right; left; reflexivity).
      assert (Hl' : leaves root = (a ++ (L_BRACK, lit "[") :: l1) ++ (k2, lit "::") :: T ++ (k, s) :: b) by (rewrite Hl, Em, <- !app_assoc; cbn [app]; rewrite <- ?app_assoc; reflexivity).
      assert (Eo : o = bytes (text ((a ++ (L_BRACK, lit "[") :: l1) ++ (k2, lit "::") :: T))) by (unfold o; rewrite Em, <- !app_assoc; reflexivity).
      assert (Ep : prev_solid root (o, (k, s)) = Some (bytes (text (a ++ (L_BRACK, lit "[") :: l1)), (k2, lit "::"))).
      { rewrite Eo. apply (prev_solid_at root _ (k2, lit "::") T (k, s) b Hl' Hs Hk2 HT). }
      assert (Ep2 : exists n, prev_solid root (bytes (text (a ++ (L_BRACK, lit "[") :: l1)), (k2, lit "::")) = Some (n, (kc, c))).
      { eexists. replace (a ++ (L_BRACK, lit "[") :: l1) with ((a ++ (L_BRACK, lit "[") :: l2) ++ (kc, c) :: T2) by (rewrite Em2, <- !app_assoc; reflexivity).
        apply (prev_solid_at root _ (kc, c) T2 (k2, lit "::") (T ++ (k, s) :: b)); try assumption; [|discriminate].
        rewrite Hl', Em2, <- !app_assoc. cbn [app]. rewrite <- ?app_assoc. reflexivity. }
      destruct Ep2 as [n Ep2].
      assert (Ei : in_ink_path root (o, (k, s)) = true).
      { unfold in_ink_path. rewrite Ep. cbn [is_some_and obind]. rewrite Ep2. cbn [is_some_and]. change (lf_text (n, (kc, c))) with c.
        change (lf_text (bytes (text (a ++ (L_BRACK, lit "[") :: l1)), (k2, lit "::"))) with (lit "::"). rewrite str_eqb_refl, (proj2 (is_crate_iff c) Hcn). apply Bool.orb_true_r. }
      rewrite Ei, Ep. cbn [is_some_and]. change (leaf_is L_BRACK (bytes (text (a ++ (L_BRACK, lit "[") :: l1)), (k2, lit "::"))) with (skind_eqb k2 L_BRACK).
      rewrite (kind_neq _ _ Hk2b). cbn [orb].
      rewrite (not_true _ _ (is_crate_iff s) Hncr), (not_true _ _ (is_colons_iff s) Hncol). cbn [negb andb orb]. rewrite !Bool.andb_true_r.
      unfold offered, path, behind. rewrite E. cbn [is_nil negb hd_error]. rewrite Bool.orb_true_r. rewrite (Hpr c [lit "::"] E).
      fold it. fold kw. change (keyword punct root (o, Tok k s, up)) with kw.
      destruct (aa_others it) eqn:Eoth; cbn [negb].
      + reflexivity.
      + unfold s at 1. rewrite (typed_at o k p q off Ho). cbn [obind_o]. unfold macro_text. rewrite (not_true _ _ (is_crate_iff s) Hncr), (not_true _ _ (is_colons_iff s) Hncol).
        destruct (completion_macros _ _ _ _ _ _ _); reflexivity.
  Qed.

  Lemma text_split : text_of root = text (a ++ (L_BRACK, lit "[") :: mid) ++ s ++ text b.
  Proof. rewrite <- ArgEditProofs.text_leaves, Hl. change ((L_BRACK, lit "[") :: mid ++ (k, s) :: b) with (((L_BRACK, lit "[") :: mid) ++ (k, s) :: b). rewrite app_assoc, text_app. reflexivity. Qed.
  Lemma macro_applied e : te_range e = (o, o + bytes s) -> applied (text_of root) e (text (a ++ (L_BRACK, lit "[") :: mid) ++ te_text e ++ text b).
  Proof.
    intros E. unfold applied. rewrite E. exists (text (a ++ (L_BRACK, lit "[") :: mid)), s, (text b). rewrite text_split. cbn [fst snd]. rewrite bytes_app. auto.
  Qed.
  Let wanted m := for_item v kw (crate_name s \/ solid mid <> []) m /\ (forall c rest, solid mid = c :: rest -> macro_crate m = c) /\ begins_name (solid mid) p m.
  Let prefix := match solid mid with [_; _] => if aa_others it then None else if is_nil p then None else Some p | _ => None end.
  Lemma path_iff : path = true <-> crate_name s \/ solid mid <> [].
  Proof. unfold path. rewrite Bool.orb_true_iff, is_crate_iff, Bool.negb_true_iff. destruct (solid mid); cbn [is_nil]; intuition discriminate. Qed.
  Lemma prefix_iff m : aa_others it = false -> ((forall t, prefix = Some t -> exists rest, macro_name m = t ++ rest) <-> begins_name (solid mid) p m).
  Proof.
    intros Eo. unfold prefix, begins_name. rewrite Eo. destruct Hw as [E|[(c & E & _)|(c & E & _)]]; rewrite E.
    - split; intros; discriminate.
    - split; [intros _ c' E'; discriminate E' | intros; discriminate].
    - destruct p as [|ch p']; cbn [is_nil].
      + split; [intros _ c' _; exists (macro_name m); reflexivity | intros; discriminate].
      + split; [intros H c' _; apply H; reflexivity | intros H t Et; injection Et as <-; apply (H c), eq_refl].
  Qed.
  Lemma hd_iff m : (forall c, hd_error (solid mid) = Some c -> macro_crate m = c) <-> (forall c rest, solid mid = c :: rest -> macro_crate m = c).
  Proof. destruct (solid mid) as [|c l]; cbn [hd_error]; [split; intros; discriminate|]. split; [intros H c' r E; injection E as <- <-; apply H, eq_refl | intros H c' E; injection E as <-; apply (H c l), eq_refl]. Qed.
  Lemma macros_in m : In m (completion_macros (aa_item it) (aa_others it) kw path (hd_error (solid mid)) prefix v) -> aa_others it = false /\ wanted m /\ allowed_in v (aa_item it) m.
  Proof.
    intros H. apply C44_completion_macros in H. destruct H as (Eo & H2 & H3 & H4 & H5). split; [exact Eo|]. split; [|exact H5]. split; [|split; [apply hd_iff, H3 | apply prefix_iff; assumption]].
    unfold for_item. destruct kw; [exact H2|]. destruct H2 as [H2 H2']. split; [apply path_iff, H2 | exact H2'].
  Qed.
  Lemma macros_all m : aa_others it = false -> wanted m -> (it_scope (aa_item it) = [] \/ exists s, In s (it_scope (aa_item it)) /\ SuggestSpec.declares v (at_kind s) /\ macro_belongs v m (at_kind s)) ->
    In m (completion_macros (aa_item it) (aa_others it) kw path (hd_error (solid mid)) prefix v).
  Proof.
    intros Eo (H1 & H2 & H3) H4. apply C44_completion_macros; [exact Eo | | apply hd_iff, H2 | apply prefix_iff; assumption | exact H4].
    unfold for_item in H1. destruct kw; [exact H1|]. destruct H1 as [H1 H1']. split; [apply path_iff, H1 | exact H1'].
  Qed.
  Lemma macro_goal m : wanted m ->
    concat (solid mid) ++ (match solid mid with [] => macro_path m | [_] => lit "::" ++ macro_name m | _ => macro_name m end) = macro_path m.
  Proof.
    intros (_ & H & _). destruct Hw as [E|[(c & E & _)|(c & E & _)]]; rewrite E; cbn [concat app]; unfold macro_path.
    - reflexivity.
    - rewrite (H c [] E), app_nil_r. reflexivity.
    - rewrite (H c _ E), app_nil_r, <- !app_assoc. reflexivity.
  Qed.
  Lemma macro_claims :
    (forall e, In e offered -> te_range e = (o, o + bytes s) /\
       exists goal, concat (solid mid) ++ te_text e = goal
       /\ ((exists m, goal = macro_path m /\ aa_others it = false /\ wanted m /\ allowed_in v (aa_item it) m)
           \/ (solid mid = [] /\ aa_other_macros it = false /\ (if aa_others it then goal = lit "ink()" else crate_name goal)
               /\ p <> [] /\ exists rest, goal = p ++ rest)))
    /\ (forall m, aa_others it = false -> wanted m ->
         (it_scope (aa_item it) = [] \/ exists s, In s (it_scope (aa_item it)) /\ SuggestSpec.declares v (at_kind s) /\ macro_belongs v m (at_kind s)) ->
         exists e, In e offered /\ concat (solid mid) ++ te_text e = macro_path m).
  Proof.
    unfold offered. fold prefix. pose proof macros_in as Hin. pose proof macros_all as Hall.
    destruct (completion_macros (aa_item it) (aa_others it) kw path (hd_error (solid mid)) prefix v) as [|m0 ms] eqn:Ec.
    - split; [|intros m H1 H2 H3; destruct (Hall m H1 H2 H3)]. intros e He. destruct (behind && negb (aa_other_macros it)) eqn:Eb; [|destruct He].
      apply andb_prop in Eb. destruct Eb as [Eb Em]. assert (Es : solid mid = []) by (unfold behind in Eb; destruct (solid mid); [reflexivity|discriminate]).
      apply in_map_iff in He. destruct He as ([t sn] & <- & Hf). apply filter_In in Hf. destruct Hf as [Hf Hp]. cbn [fst snd] in *. split; [reflexivity|].
      exists t. rewrite Es. split; [reflexivity|]. right. split; [reflexivity|]. split; [apply Bool.negb_true_iff, Em|].
      destruct p as [|ch p'] eqn:Ep; cbn [is_nil is_some_and] in Hp; [discriminate|]. apply starts_with_app in Hp. split; [|split; [discriminate | exact Hp]].
      unfold crate_completions in Hf. destruct (aa_others it); [destruct Hf as [Hf|[]] | destruct Hf as [Hf|[Hf|[]]]]; injection Hf as <- <-; [reflexivity | left; reflexivity | right; reflexivity].
    - split.
      + intros e He. apply in_map_iff in He. destruct He as (m & <- & Hm). destruct (Hin m Hm) as (Eo & Hwm & Hal). split; [reflexivity|].
        exists (macro_path m). split; [apply macro_goal, Hwm|]. left. exists m. auto.
      + intros m H1 H2 H3. specialize (Hall m H1 H2 H3). eexists. split; [apply in_map, Hall|]. apply macro_goal, H2.
  Qed.
End Macros.

Section Bracket.
  Context (U : unicode) (pr : path_reader) (punct : skind -> bool) (around : path -> around_attr) (root : elem) (Hlex : lexed U root).
  Context (off : nat) (v : version) (a b T : list (skind * str)) (kp : skind) (w : str) (up : list lelem) (at_ : lelem) (upa : list lelem).
  Let L := (L_BRACK, lit "[").
  Let o := bytes (text (a ++ (kp, w) :: T)).
  Let x : lelem := (o, Tok L_BRACK (lit "[")).
  Hypothesis (Hl : leaves root = a ++ (kp, w) :: T ++ L :: b).
  Hypothesis (Hkp : is_trivia kp = false) (Hkb : kp <> L_BRACK) (Hww : w <> lit "::") (HT : forall y, In y T -> is_trivia (fst y) = true).
  Hypothesis (Hc : cursor_on root off x up) (Ha : in_attribute up at_ upa).
  Let it := around (at_, upa).
  Let kw := keyword punct root (x, up).

  Lemma bracket_run : macro_completions pr punct around root off v
    = Done (map (fun m => edit_replace_snippet (macro_path m) (o + 1, o + 1) None) (completion_macros (aa_item it) (aa_others it) kw false None None v)).
  Proof.
    unfold macro_completions. rewrite (cursor_focused U root Hlex _ _ _ Hc). cbn [obind_o]. unfold attr_at. rewrite (attr_around_at _ _ _ _ Ha).
    cbv zeta. change (leaf_of (fst (x, up))) with (o, L). change (fst (at_, upa)) with at_.
    assert (Ep : prev_solid root (o, L) = Some (bytes (text a), (kp, w))) by (apply (prev_solid_at root a (kp, w) T L b Hl); [discriminate | exact Hkp | exact HT]).
    assert (Ei : in_ink_path root (o, L) = false).
    { unfold in_ink_path. rewrite Ep. cbn [is_some_and]. change (lf_text (bytes (text a), (kp, w))) with w. change (is_crate (lf_text (o, L))) with false. change (is_colons (lf_text (o, L))) with false.
      cbn [andb orb]. replace (str_eqb w (lit "::")) with false; [reflexivity|]. symmetry. destruct (str_eqb w (lit "::")) eqn:E; [|reflexivity]. apply str_eqb_eq in E. contradiction. }
    rewrite Ei, Ep. change (leaf_is L_BRACK (o, L)) with true. cbn [is_some_and orb andb negb]. rewrite !Bool.andb_false_r. cbn [andb obind_o].
    change (leaf_is L_BRACK (bytes (text a), (kp, w))) with (skind_eqb kp L_BRACK). rewrite (kind_neq _ _ Hkb). cbn [andb].
    fold it. fold kw. unfold token_range. change (lf_end (o, L)) with (o + 1).
    destruct (completion_macros (aa_item it) (aa_others it) kw false None None v); reflexivity.
  Qed.
  Lemma bracket_applied e : te_range e = (o + 1, o + 1) -> applied (text_of root) e (text (a ++ (kp, w) :: T ++ [L]) ++ te_text e ++ text b).
  Proof.
    intros E. unfold applied. rewrite E. exists (text (a ++ (kp, w) :: T ++ [L])), [], (text b). cbn [fst snd]. rewrite app_nil_r.
    assert (Eb : bytes (text (a ++ (kp, w) :: T ++ [L])) = o + 1).
    { unfold o. change ((kp, w) :: T ++ [L]) with (((kp, w) :: T) ++ [L]). rewrite app_assoc, text_app, bytes_app. reflexivity. }
    repeat split; try exact Eb. rewrite <- ArgEditProofs.text_leaves, Hl. cbn [app]. rewrite <- text_app, <- app_assoc. cbn [app]. rewrite <- app_assoc. reflexivity.
  Qed.
  Lemma bracket_claims :
    exists l, macro_completions pr punct around root off v = Done l
    /\ (forall e, In e l -> te_range e = (o + 1, o + 1) /\ exists m, te_text e = macro_path m /\ aa_others it = false /\ for_item v kw False m /\ allowed_in v (aa_item it) m)
    /\ (forall m, aa_others it = false -> for_item v kw False m ->
         (it_scope (aa_item it) = [] \/ exists s, In s (it_scope (aa_item it)) /\ SuggestSpec.declares v (at_kind s) /\ macro_belongs v m (at_kind s)) ->
         exists e, In e l /\ te_text e = macro_path m).
  Proof.
    eexists. split; [apply bracket_run|]. split.
    - intros e He. apply in_map_iff in He. destruct He as (m & <- & Hm). split; [reflexivity|]. exists m. split; [reflexivity|]. apply C44_completion_macros in Hm.
      destruct Hm as (Eo & H2 & _ & _ & H5). split; [exact Eo|]. split; [|exact H5]. unfold for_item. destruct kw; [exact H2 | destruct H2; discriminate].
    - intros m H1 H2 H3. eexists. split; [apply (in_map (fun m => edit_replace_snippet (macro_path m) (o + 1, o + 1) None) _ m)|reflexivity].
      apply C44_completion_macros; try assumption; try (intros; discriminate). unfold for_item in H2. destruct kw; [exact H2 | destruct H2 as [[] _]].
  Qed.
End Bracket.

(** ** Arguments *)
Lemma listed_ends d cs b : listed (d :: cs) true b -> exists B t, b = B ++ comma :: t /\ blank t /\ forall t', blank t' -> listed (d :: cs) true (B ++ comma :: t').
Proof.
  remember (d :: cs) as l. remember true as tr. intros H. revert d cs Heql Heqtr. induction H as [t Ht|c t1 t2 Hc H1 H2|c t1 t2 t3 Hc H1 H2 H3|c t1 t2 d' cs' tr body Hc H1 H2 Hb IH]; intros d cs El Et; try discriminate.
  - exists (t1 ++ c ++ t2), t3. rewrite <- !app_assoc. repeat split; auto. intros t' Ht'. rewrite <- !app_assoc. constructor; assumption.
  - destruct (IH _ _ eq_refl Et) as (B & t & -> & Ht & Hall). exists (t1 ++ c ++ t2 ++ comma :: B), t. rewrite <- !app_assoc. cbn [app]. repeat split; auto.
    intros t' Ht'. rewrite <- !app_assoc. cbn [app]. constructor; auto.
Qed.
Lemma args_before_blank cs b t : args_before cs b -> blank t -> args_before cs (b ++ t).
Proof.
  intros [[-> H]|H] Ht; [left; split; [reflexivity | apply blank_app; auto]|]. right. destruct cs as [|d cs]; [inversion H|].
  destruct (listed_ends _ _ _ H) as (B & t0 & -> & Ht0 & Hall). rewrite <- app_assoc. cbn [app]. apply Hall, blank_app. auto.
Qed.
Lemma blank_split_listed new t bs trailing b : argument new -> blank t -> args_behind bs trailing b -> listed (new :: bs) trailing (t ++ new ++ b).
Proof.
  intros Hn Ht [(-> & -> & Hb)|[(t2 & t3 & -> & -> & -> & H2 & H3)|(t2 & rest & Hne & -> & H2 & Hr)]].
  - constructor; assumption.
  - constructor; assumption.
  - destruct bs as [|d bs]; [contradiction|]. constructor; assumption.
Qed.
Lemma listed_join cs b : listed cs true b -> forall new t bs trailing rest, argument new -> blank t -> args_behind bs trailing rest -> listed (cs ++ new :: bs) trailing (b ++ t ++ new ++ rest).
Proof.
  remember true as tr. intros H. induction H as [t Ht|c t1 t2 Hc H1 H2|c t1 t2 t3 Hc H1 H2 H3|c t1 t2 d' cs' tr body Hc H1 H2 Hb IH]; try discriminate; intros new t bs trailing rest Hn Ht Hr.
  - rewrite <- !app_assoc. cbn [app]. constructor; try assumption. rewrite app_assoc. apply blank_split_listed; try assumption. apply blank_app. auto.
  - rewrite <- !app_assoc. cbn [app]. constructor; try assumption. apply IH; auto.
Qed.
Lemma place_listed cs b new bs trailing rest : args_before cs b -> argument new -> args_behind bs trailing rest -> listed (cs ++ new :: bs) trailing (b ++ new ++ rest).
Proof.
  intros [[-> H]|H] Hn Hr; [apply blank_split_listed; assumption|]. apply (listed_join cs b H new [] bs trailing rest Hn blank_nil Hr).
Qed.

Lemma inside_above acc e x up : inside_of acc e x up -> forall inner a upa, up = inner ++ a :: upa -> length acc <= length upa -> element_of a x.
Proof.
  induction 1 as [acc e|acc o k cs c e up Hc Hi IH]; intros inner a upa E Hl.
  - exfalso. apply (f_equal (@length _)) in E. rewrite app_length in E. cbn [length] in E. lia.
  - destruct (Nat.le_gt_cases (S (length acc)) (length upa)) as [Hle|Hgt].
    + apply (IH inner a upa E). cbn [length]. exact Hle.
    + assert (length upa = length acc) as El by (apply Nat.le_antisymm; [apply Nat.lt_succ_r, Hgt | exact Hl]).
      assert (Hs : exists pre, up = pre ++ (o, Node k cs) :: acc).
      { clear -Hi. remember ((o, Node k cs) :: acc) as A. revert HeqA. clear -Hi. intros _. induction Hi as [A e|A o' k' cs' c e up Hc Hi IH]; [exists []; reflexivity|].
        destruct IH as [pre ->]. exists (pre ++ [(o', Node k' cs')]). rewrite <- app_assoc. reflexivity. }
      destruct Hs as [pre ->]. assert (Hlen : length pre = length inner).
      { apply (f_equal (@length _)) in E. rewrite !app_length in E. cbn [length] in E. lia. }
      assert (Ea : a = (o, Node k cs)).
      { clear -E Hlen. revert inner Hlen E. induction pre as [|y pre IH]; intros [|z inner] Hlen E; cbn [length app] in *; try discriminate.
        - injection E as <- _. reflexivity.
        - injection E as _ E. apply (IH inner); [lia | exact E]. }
      subst a. eapply eo_child; [exact Hc|]. apply (inside_element _ _ _ _ Hi).
Qed.
Lemma attribute_bounds root x up a upa : around root x up -> in_attribute up a upa -> lstart a <= lstart x /\ lend x <= lend a.
Proof. intros H (inner & E & _). apply element_bounds. eapply inside_above; [exact H | exact E | cbn; lia]. Qed.

Lemma options_iff k : takes_options k = [] -> nested_kinds k = [].
Proof. destruct k; cbn; discriminate || reflexivity. Qed.
Lemma contains_iff r off : contains_inclusive r off = true -> fst r <= off <= snd r.
Proof. unfold contains_inclusive. intros H. apply andb_prop in H. rewrite !Nat.leb_le in H. exact H. Qed.
Lemma innermost_in off : forall a, (forall m, In m (nested_chain a) -> exists r, meta_range m = Done r) -> (exists r, meta_range a = Done r /\ fst r <= off <= snd r) ->
  exists m r, innermost_arg off a = Done m /\ In m (nested_chain a) /\ meta_range m = Done r /\ fst r <= off <= snd r.
Proof.
  fix IH 1. intros [n e v [nested|] io me] Hall (r & Er & Hr).
  - cbn [innermost_arg m_nested]. destruct (Hall nested) as (rn & En); [right; destruct nested; left; reflexivity|].
    unfold at_cursor. rewrite En. cbn [obind_o]. match goal with |- context [if ?c then _ else _] => destruct c eqn:Ec end.
    + apply andb_prop in Ec. destruct Ec as [Ec _]. apply andb_prop in Ec. destruct Ec as [_ Ec]. apply contains_iff in Ec.
      destruct (IH nested) as (m & r' & Hm & Hi & Hr'); [intros m Hm; apply Hall; right; exact Hm | eauto|]. exists m, r'. split; [exact Hm|]. split; [right; exact Hi | exact Hr'].
    + exists (Meta n e v (Some nested) io me), r. split; [reflexivity|]. split; [left; reflexivity | auto].
  - cbn [innermost_arg m_nested]. eexists. exists r. split; [reflexivity|]. split; [left; reflexivity | auto].
Qed.
Lemma no_nested off args : free_of_options off args -> nested_suggestions off args = Done None.
Proof.
  intros H. unfold nested_suggestions.
  assert (G : first_at_cursor off args = Done None \/ exists m r, first_at_cursor off args = Done (Some m) /\ In m args /\ meta_range m = Done r /\ fst r <= off <= snd r).
  { assert (Hr : forall m, In m args -> exists r, meta_range m = Done r).
    { intros m Hm. destruct (H m) as (r & Er & _); [apply in_flat_map; exists m; split; [exact Hm | destruct m; left; reflexivity] | eauto]. }
    clear H. induction args as [|a l IH]; [left; reflexivity|]. cbn [first_at_cursor]. unfold at_cursor. destruct (Hr a (or_introl eq_refl)) as (r & Er). rewrite Er. cbn [obind_o].
    match goal with |- context [if ?c then _ else _] => destruct c eqn:Ec end.
    - right. exists a, r. apply andb_prop in Ec. destruct Ec as [Ec _]. apply andb_prop in Ec. destruct Ec as [_ Ec]. apply contains_iff in Ec. repeat split; auto; try (left; reflexivity); apply Ec.
    - destruct IH as [IH|(m & r' & E & Hi & Hm)]; [intros m Hm; apply Hr; right; exact Hm | left; exact IH |]. right. exists m, r'. split; [exact E|]. split; [right; exact Hi | exact Hm]. }
  destruct G as [->|(m & r & -> & Hi & Er & Hr)]; [reflexivity|]. cbn [obind_o].
  destruct (innermost_in off m) as (m' & r' & -> & Hi' & Er' & Hr').
  { intros y Hy. destruct (H y) as (ry & Ey & _); [apply in_flat_map; eauto | eauto]. }
  { eauto. }
  cbn [obind_o]. destruct (H m') as (ry & Ey & Hn); [apply in_flat_map; eauto|]. rewrite Ey in Er'. injection Er' as ->. rewrite (options_iff _ (Hn Hr')). reflexivity.
Qed.
Lemma collect_map {A B} (f : A -> outcome (option B)) g l : (forall x, In x l -> f x = Done (Some (g x))) -> collect f l = Done (map g l).
Proof. induction l as [|x l IH]; intros H; [reflexivity|]. cbn [collect]. rewrite (H x (or_introl eq_refl)). cbn [obind_o]. rewrite IH; [reflexivity|]. intros y Hy. apply H. right. exact Hy. Qed.
(** The next token behind a place *)
Lemma first_solid_kind (A T B : list (skind * str)) t y : (forall u, In u (A ++ T ++ t :: B) -> snd u <> []) -> (forall u, In u T -> is_trivia (fst u) = true) -> is_trivia (fst t) = false ->
  first_solid (place_leaves 0 (A ++ T ++ t :: B)) (bytes (text A)) y -> option_map lf_kind y = Some (fst t).
Proof.
  intros Hne HT Ht H. rewrite !place_leaves_app in H. cbn [place_leaves plus] in H.
  set (n := bytes (text A)) in *. set (m := n + bytes (text T)) in *.
  assert (HA : forall u, In u (place_leaves 0 A) -> lf_start u < n).
  { intros u Hu. pose proof (place_leaves_bounds _ _ _ Hu) as Hb. apply place_leaves_start in Hu; [unfold n; lia|]. intros z Hz. apply Hne, in_app_iff. left. exact Hz. }
  assert (HTt : forall u, In u (place_leaves n T) -> is_trivia (lf_kind u) = true).
  { intros u Hu. change (lf_kind u) with (fst (snd u)). apply HT. clear -Hu. revert Hu. generalize n. induction T as [|z T IH]; intros i Hu; [destruct Hu|]. cbn [place_leaves] in Hu. destruct Hu as [<-|Hu]; [left; reflexivity | right; eapply IH, Hu]. }
  assert (Hm : In (m, t) (place_leaves 0 A ++ place_leaves n T ++ (m, t) :: place_leaves (m + bytes (snd t)) B)) by (apply in_app_iff; right; apply in_app_iff; right; left; reflexivity).
  destruct y as [y|]; cbn [first_solid] in H.
  - destruct H as (l & r & E & Hs & Hy & Hl).
    assert (G : forall P Q : list leaf, P ++ (m, t) :: Q = l ++ y :: r -> (forall u, In u P -> u <> y) -> ~ In (m, t) l -> y = (m, t)).
    { clear. intros P Q. revert l. induction P as [|u P IH]; intros [|z l] E H1 H2; cbn [app] in E; injection E as E1 E2.
      - congruence.
      - exfalso. apply H2. left. congruence.
      - exfalso. apply (H1 u); [left; reflexivity | exact E1].
      - apply (IH l E2); [intros w Hw; apply H1; right; exact Hw | intros Hi; apply H2; right; exact Hi]. }
    rewrite app_assoc in E. rewrite (G _ _ E); [reflexivity | |].
    + intros u Hu ->. apply in_app_iff in Hu. destruct Hu as [Hu|Hu]; [apply HA in Hu; lia | rewrite (HTt _ Hu) in Hy; discriminate].
    + intros Hi. specialize (Hl _ Hi). change (lf_start (m, t)) with m in Hl. change (lf_kind (m, t)) with (fst t) in Hl. rewrite Ht in Hl. assert (n <= m) by (unfold m; lia). discriminate (Hl H).
  - specialize (H _ Hm). change (lf_start (m, t)) with m in H. change (lf_kind (m, t)) with (fst t) in H. rewrite Ht in H. assert (n <= m) as Hnm by (unfold m; lia). discriminate (H Hnm).
Qed.

Lemma blank_trivial bl : blank bl -> forall u, In u (leaves_of bl) -> is_trivia (fst u) = true.
Proof.
  intros H. induction H as [|e bl (k & t & -> & Hk & _) _ IH]; intros u Hu; [destruct Hu|]. unfold leaves_of in Hu. cbn [flat_map leaves app] in Hu. destruct Hu as [<-|Hu]; [exact Hk | apply IH, Hu].
Qed.
Lemma leaves_of_app a b : leaves_of (a ++ b) = leaves_of a ++ leaves_of b.
Proof. apply flat_map_app. Qed.
Lemma behind_next bs tr b post : args_behind bs tr b -> exists T n s rest, leaves_of b ++ (R_PAREN, lit ")") :: post = T ++ (n, s) :: rest /\ (forall u, In u T -> is_trivia (fst u) = true) /\ (n = COMMA \/ n = R_PAREN).
Proof.
  intros [(_ & _ & H)|[(t2 & t3 & _ & _ & -> & H & _)|(t2 & rest & _ & -> & H & _)]].
  - exists (leaves_of b), R_PAREN, (lit ")"), post. split; [reflexivity|]. split; [apply blank_trivial, H | auto].
  - exists (leaves_of t2), COMMA, (lit ","), (leaves_of t3 ++ (R_PAREN, lit ")") :: post). rewrite leaves_of_app, <- app_assoc. split; [reflexivity|]. split; [apply blank_trivial, H | auto].
  - exists (leaves_of t2), COMMA, (lit ","), (leaves_of rest ++ (R_PAREN, lit ")") :: post). rewrite leaves_of_app, <- app_assoc. split; [reflexivity|]. split; [apply blank_trivial, H | auto].
Qed.
Lemma comma_solid : is_trivia (fst (COMMA, lit ",")) = false. Proof. reflexivity. Qed.
(** What stands before a place for an argument *)
Lemma before_last cs b : args_before cs b -> (cs = [] /\ blank b) \/ exists B t, b = B ++ comma :: t /\ blank t.
Proof.
  intros [H|H]; [left; exact H|]. right. destruct cs as [|d cs]; [inversion H|]. destruct (listed_ends _ _ _ H) as (B & t & -> & Ht & _). eauto.
Qed.
Lemma bytes_leaves_of l : bytes (text (leaves_of l)) = lens l.
Proof. rewrite text_leaves_of. reflexivity. Qed.

Section Arguments.
  Context (U : unicode) (px : expr_parser) (pr : path_reader) (punct : skind -> bool) (around_ : path -> around_attr) (env : path -> option str) (ids : path -> arg_kind -> list N) (root : elem) (Hlex : lexed U root).
  Context (off : nat) (v : version) (pre post : list (skind * str)) (cs bs : list (list elem)) (tr : bool) (b1 b2 : list elem).
  Context (x : lelem) (up : list lelem) (at_ : lelem) (upa : list lelem) (ia : ink_attr).
  Hypothesis (Hc : cursor_on root off x up) (Ha : in_attribute up at_ upa).
  Hypothesis (Hcast : attr_cast px (read_attr pr at_) = Some ia).
  Hypothesis (Hfree : free_of_options off (at_args ia)).
  Hypothesis (H1 : args_before cs b1) (H2 : args_behind bs tr b2).
  Let P := pre ++ (L_PAREN, lit "(") :: leaves_of b1.
  Let ar := (at_, upa).

  Lemma attr_found : ink_attr_at px pr root (x, up) = Some (ar, ia).
  Proof. unfold ink_attr_at. rewrite (attr_around_at _ _ _ _ Ha). cbn [obind fst]. rewrite Hcast. reflexivity. Qed.
  Lemma insert_here (A B : list (skind * str)) : leaves root = A ++ B -> (exists T n s rest, B = T ++ (n, s) :: rest /\ (forall u, In u T -> is_trivia (fst u) = true) /\ (n = COMMA \/ n = R_PAREN)) ->
    lend x = bytes (text A) ->
    exists n, (n = COMMA \/ n = R_PAREN) /\ (forall k, arg_insert_text (file_toks root) (lrange_of at_) (bytes (text A)) (env ar) (ids ar) k = Done (insert_text (InsertContext (Some n) (env ar) (ids ar)) k)).
  Proof using Hlex Hc Ha.
    intros E (T & n & s & rest & EB & HT & Hn) Ex. exists n. split; [exact Hn|]. intros k0. destruct Hc as ((Har & Htok) & _).
    pose proof (attribute_bounds _ _ _ _ _ Har Ha) as [Hb1 Hb2]. pose proof (attribute_element _ _ _ _ _ Har Ha) as He.
    destruct (element_leaves _ _ He) as (X & Y & EL & Ef). cbn [fst snd] in EL, Ef. rewrite Nat.add_0_l in Ef.
    assert (Hne : forall t, In t (leaves root) -> snd t <> []) by (intros [kt st] Ht; apply (proj1 (Hlex _ _ Ht))).
    assert (Er : lrange_of at_ = (bytes (text X), bytes (text (X ++ leaves (snd at_))))).
    { unfold lrange_of, lstart, lend. rewrite Ef, text_app, bytes_app, ArgEditProofs.text_leaves. reflexivity. }
    assert (Hnn : leaves (snd at_) <> []).
    { intros E0. pose proof (token_nonempty U root Hlex x up (conj Har Htok)) as Hx. unfold lend at 2 in Hb2. unfold len_of in Hb2. rewrite <- (ArgEditProofs.text_leaves (snd at_)), E0 in Hb2. cbn in Hb2. unfold lstart in *. lia. }
    pose proof (token_nonempty U root Hlex x up (conj Har Htok)) as Hx.
    destruct (next_solid_first X (leaves (snd at_)) Y (bytes (text A))) as (t & En & Hf).
    - intros t Ht. apply Hne. rewrite EL. exact Ht.
    - exact Hnn.
    - rewrite <- Ex. rewrite <- Ef. unfold lrange_of in Er. injection Er as Er1 Er2. rewrite <- Er2. unfold lstart in *. lia.
    - unfold file_toks. rewrite Er, EL, (arg_insert_next _ _ _ _ _ _ _ En). rewrite <- EL, E, EB in Hf.
      rewrite (first_solid_kind A T rest (n, s) t); [reflexivity | | exact HT | destruct Hn as [-> | ->]; reflexivity | exact Hf].
      intros u Hu. apply Hne. rewrite E, EB. exact Hu.
  Qed.

  (** ** A word *)
  Section Word.
    Context (k : skind) (p q : str).
    Let w := p ++ q.
    Hypothesis (Hl : leaves root = file_tokens pre (b1 ++ [Tok k w] ++ b2) post).
    Hypothesis (Hk : is_trivia k = false /\ k <> L_PAREN /\ k <> COMMA).
    Hypothesis (Hx : x = (bytes (text pre) + 1 + lens b1, Tok k w)) (Ho : off = lstart x + bytes p).

    Lemma word_leaves : leaves root = P ++ (k, w) :: leaves_of b2 ++ (R_PAREN, lit ")") :: post.
    Proof. rewrite Hl. unfold file_tokens, P. rewrite leaves_paren, !leaves_of_app. unfold leaves_of at 2. cbn [flat_map leaves app]. rewrite <- ?app_assoc. cbn [app]. rewrite <- ?app_assoc. reflexivity. Qed.
    Lemma word_start : bytes (text P) = bytes (text pre) + 1 + lens b1.
    Proof. unfold P. rewrite text_app, bytes_app. change (text ((L_PAREN, lit "(") :: leaves_of b1)) with (lit "(" ++ text (leaves_of b1)). rewrite bytes_app, bytes_leaves_of. change (bytes (lit "(")) with 1. lia. Qed.
    Lemma word_nonempty : w <> [].
    Proof. apply (proj1 (Hlex k w ltac:(rewrite word_leaves; apply in_app_iff; right; left; reflexivity))). Qed.

    Lemma word_claims : exists l gap, argument_completions px pr punct around_ env ids root off v = Done l
      /\ blank gap
      /\ exists n, (n = COMMA \/ n = R_PAREN)
      /\ l = map (fun a => let t := insert_text (InsertContext (Some n) (env ar) (ids ar)) a in
                edit_replace_snippet (texts_of gap ++ fst t) (lstart x, lend x) (option_map (fun s => texts_of gap ++ s) (snd t)))
               (filter (fun a => starts_with p (arg_kind_str a)) (completion_args ia (aa_item (around_ ar)) (item_kind px pr punct root (x, up)) v)).
    Proof.
      destruct Hk as (Hk1 & Hk2 & Hk3). pose proof word_leaves as Ew. pose proof word_start as Es. pose proof word_nonempty as Hwn.
      destruct (insert_here (P ++ [(k, w)]) (leaves_of b2 ++ (R_PAREN, lit ")") :: post)) as (n & Hn & Hins); [rewrite Ew, <- app_assoc; reflexivity | apply (behind_next _ _ _ _ H2) | |].
      { rewrite Hx. unfold lend. cbn [fst snd]. rewrite text_app, bytes_app. rewrite <- Es. change (text [(k, w)]) with (w ++ []). rewrite app_nil_r. reflexivity. }
      assert (El : leaf_of x = (bytes (text P), (k, w))) by (rewrite Hx, Es; reflexivity).
      assert (Hprev : (prev_solid root (bytes (text P), (k, w)) = Some (bytes (text pre), (L_PAREN, lit "(")))
                      \/ exists m, prev_solid root (bytes (text P), (k, w)) = Some (m, (COMMA, lit ","))).
      { destruct (before_last _ _ H1) as [[_ Hb]|(B & t & -> & Hb)].
        - left. unfold P. apply (prev_solid_at root pre (L_PAREN, lit "(") (leaves_of b1) (k, w) (leaves_of b2 ++ (R_PAREN, lit ")") :: post)); [rewrite Ew; unfold P; rewrite <- app_assoc; reflexivity | exact Hwn | reflexivity | apply blank_trivial, Hb].
        - right. eexists. replace P with ((pre ++ (L_PAREN, lit "(") :: leaves_of B) ++ (COMMA, lit ",") :: leaves_of t) by (unfold P; rewrite leaves_of_app, <- app_assoc; reflexivity).
          apply (prev_solid_at root _ (COMMA, lit ",") (leaves_of t) (k, w) (leaves_of b2 ++ (R_PAREN, lit ")") :: post)); [|exact Hwn|reflexivity|apply blank_trivial, Hb].
          rewrite Ew. unfold P. rewrite leaves_of_app. rewrite <- ?app_assoc. cbn [app]. rewrite <- ?app_assoc. reflexivity. }
      unfold argument_completions. rewrite (cursor_focused U root Hlex _ _ _ Hc). cbn [obind_o]. rewrite attr_found. cbv zeta. change (fst (x, up)) with x. rewrite El.
      change (leaf_is L_PAREN (bytes (text P), (k, w))) with (skind_eqb k L_PAREN). change (leaf_is COMMA (bytes (text P), (k, w))) with (skind_eqb k COMMA).
      rewrite (kind_neq _ _ Hk2), (kind_neq _ _ Hk3). cbn [orb].
      set (spaced := match hd_error (leaves_before (file_toks root) (bytes (text P), (k, w))) with Some t => leaf_is WHITESPACE t | None => true end).
      rewrite (no_nested _ _ Hfree).
      assert (Hlast : off = bytes (text P) + bytes p) by (rewrite Ho, Hx, Es; reflexivity).
      assert (Hrange : token_range false (bytes (text P), (k, w)) = (lstart x, lend x)) by (rewrite Hx, Es; reflexivity).
      assert (Hend : lend x = bytes (text (P ++ [(k, w)]))).
      { rewrite Hx. unfold lend. cbn [fst snd]. rewrite text_app, bytes_app. rewrite <- Es. change (text [(k, w)]) with (w ++ []). rewrite app_nil_r. reflexivity. }
      assert (Hfilter : forall l, filter (keeps (if is_nil p then None else Some p) None) l = filter (fun a => starts_with p (arg_kind_str a)) l).
      { intros l. apply filter_ext. intros a. destruct p as [|ch p']; cbn [is_nil keeps]; [reflexivity|]. cbn [is_some_and]. apply Bool.orb_false_r. }
      assert (Hcomma : exists gap, blank gap /\ texts_of gap = (if (is_some_and (leaf_is COMMA) (prev_solid root (bytes (text P), (k, w))) && negb spaced)%bool then lit " " else [])
               /\ (is_some_and (leaf_is COMMA) (prev_solid root (bytes (text P), (k, w))) || is_some_and (leaf_is L_PAREN) (prev_solid root (bytes (text P), (k, w))) = true)).
      { destruct Hprev as [-> | [m ->]]; cbn [is_some_and].
        - exists []. split; [apply blank_nil|]. split; reflexivity.
        - change (leaf_is COMMA (m, (COMMA, lit ","))) with true. cbn [andb orb]. destruct spaced; cbn [negb]; [exists []; split; [apply blank_nil | split; reflexivity]|].
          exists [Tok WHITESPACE (lit " ")]. split; [|split; reflexivity]. constructor; [|constructor]. exists WHITESPACE, (lit " "). repeat split; discriminate. }
      destruct Hcomma as (gap & Hgap & Egap & ->). eexists. exists gap. split; [|split; [exact Hgap | exists n; split; [exact Hn | reflexivity]]].
      cbn [obind_o option_map is_some]. unfold w at 1. rewrite (typed_at _ _ _ _ _ Hlast). cbn [obind_o]. rewrite Hfilter, Hrange.
      set (kinds := filter _ _). change (fst (x, up)) with x. 
      rewrite (collect_map _ (fun a => let t := insert_text (InsertContext (Some n) (env ar) (ids ar)) a in
                edit_replace_snippet (texts_of gap ++ fst t) (lstart x, lend x) (option_map (fun s => texts_of gap ++ s) (snd t)))); [reflexivity|].
      intros a _. cbn [snd]. unfold ar at 1. cbn [fst]. rewrite Hend, Hins. cbn [obind_o]. do 2 f_equal. rewrite Egap.
      destruct (_ && negb spaced)%bool; cbn [fst snd]; unfold edit_replace_snippet; rewrite ?app_nil_r; cbn [app]; f_equal;
        destruct (snd (insert_text _ a)); cbn [option_map]; rewrite ?app_nil_r; reflexivity.
    Qed.
    Lemma word_writes e gap n a : blank gap -> (n = COMMA \/ n = R_PAREN) ->
      te_text e = texts_of gap ++ fst (insert_text (InsertContext (Some n) (env ar) (ids ar)) a) -> te_range e = (lstart x, lend x) ->
      writes pre post (text_of root) cs bs tr (env ar) (ids ar) e a.
    Proof.
      intros Hg Hn Et Er. eexists. split; [exists n; split; [exact Hn | reflexivity]|]. intros new Hnew Etx. exists ((b1 ++ gap) ++ new ++ b2).
      split; [apply place_listed; [apply args_before_blank; assumption | exact Hnew | exact H2]|].
      unfold applied. rewrite Er, Et, <- Etx, <- texts_of_app.
      replace (text_of root) with (file_text pre (b1 ++ [Tok k w] ++ b2) post) by (unfold file_text; rewrite <- Hl; apply ArgEditProofs.text_leaves).
      replace ((b1 ++ gap) ++ new ++ b2) with (b1 ++ (gap ++ new) ++ b2) by (rewrite <- !app_assoc; reflexivity).
      replace (lstart x, lend x) with (bytes (text pre) + 1 + lens b1, bytes (text pre) + 1 + lens (b1 ++ [Tok k w])); [apply splice_body; reflexivity|].
      rewrite Hx. unfold lstart, lend. cbn [fst snd]. rewrite lens_app, lens_cons, lens_nil. f_equal. lia.
    Qed.
  End Word.

  (** ** Behind the parenthesis or a comma *)
  Section Delimiter.
    Hypothesis (Hl : leaves root = file_tokens pre (b1 ++ b2) post).
    Hypothesis (Hx : (b1 = [] /\ x = (bytes (text pre), Tok L_PAREN (lit "("))) \/ exists B, b1 = B ++ [comma] /\ x = (bytes (text pre) + 1 + lens B, comma)).

    Lemma delimiter_end : lend x = bytes (text P).
    Proof.
      unfold P. rewrite text_app, bytes_app. change (text ((L_PAREN, lit "(") :: leaves_of b1)) with (lit "(" ++ text (leaves_of b1)). rewrite bytes_app, bytes_leaves_of. change (bytes (lit "(")) with 1.
      destruct Hx as [(-> & ->)|(B & -> & ->)]; unfold lend; cbn [fst snd].
      - rewrite lens_nil. change (len_of (Tok L_PAREN (lit "("))) with 1. lia.
      - rewrite lens_app, lens_cons, lens_nil. change (len_of comma) with 1. lia.
    Qed.
    Lemma delimiter_leaves : leaves root = P ++ leaves_of b2 ++ (R_PAREN, lit ")") :: post.
    Proof. rewrite Hl. unfold file_tokens, P. rewrite leaves_paren, leaves_of_app. rewrite <- ?app_assoc. cbn [app]. rewrite <- ?app_assoc. reflexivity. Qed.
    Lemma delimiter_claims : exists l gap, argument_completions px pr punct around_ env ids root off v = Done l
      /\ blank gap
      /\ exists n, (n = COMMA \/ n = R_PAREN)
      /\ l = map (fun a => let t := insert_text (InsertContext (Some n) (env ar) (ids ar)) a in
                edit_replace_snippet (texts_of gap ++ fst t) (lend x, lend x) (option_map (fun s => texts_of gap ++ s) (snd t)))
               (completion_args ia (aa_item (around_ ar)) (item_kind px pr punct root (x, up)) v).
    Proof.
      destruct (insert_here P (leaves_of b2 ++ (R_PAREN, lit ")") :: post) delimiter_leaves (behind_next _ _ _ _ H2) delimiter_end) as (n & Hn & Hins).
      unfold argument_completions. rewrite (cursor_focused U root Hlex _ _ _ Hc). cbn [obind_o]. rewrite attr_found. cbv zeta. change (fst (x, up)) with x.
      rewrite (no_nested _ _ Hfree).
      assert (Hd : leaf_is L_PAREN (leaf_of x) || leaf_is COMMA (leaf_of x) = true) by (destruct Hx as [(_ & ->)|(B & _ & ->)]; reflexivity).
      assert (Hr : token_range true (leaf_of x) = (lend x, lend x)).
      { unfold token_range. destruct Hx as [(_ & ->)|(B & _ & ->)]; reflexivity. }
      rewrite Hd. cbn [orb obind_o option_map is_some].
      set (c := negb match hd_error (leaves_before (file_toks root) (leaf_of x)) with Some t => leaf_is WHITESPACE t | None => true end).
      match goal with |- context [fst ?t ++ fst _ ++ snd ?t] => set (aff := t) end.
      assert (Hg' : exists gap', blank gap' /\ aff = (texts_of gap', [])).
      { clear Hd. unfold aff. match goal with |- exists _, _ /\ (if ?b then _ else _) = _ => destruct b end; [|exists []; split; [apply blank_nil | reflexivity]].
        exists [Tok WHITESPACE (lit " ")]. split; [constructor; [exists WHITESPACE, (lit " "); repeat split; discriminate | constructor] | reflexivity]. }
      destruct Hg' as (gap' & Hgap' & Haff). clearbody aff. subst aff. eexists. exists gap'. split; [|split; [exact Hgap' | exists n; split; [exact Hn | reflexivity]]].
      rewrite Hr. cbn [fst snd].
      assert (Hf : forall l : list arg_kind, filter (keeps None None) l = l) by (induction l as [|y l IH]; [reflexivity | cbn [filter keeps]; rewrite IH; reflexivity]).
      rewrite Hf.
      rewrite (collect_map _ (fun a => let t := insert_text (InsertContext (Some n) (env ar) (ids ar)) a in
                edit_replace_snippet (texts_of gap' ++ fst t) (lend x, lend x) (option_map (fun s => texts_of gap' ++ s) (snd t)))); [reflexivity|].
      intros a _. unfold ar at 1. cbn [fst]. rewrite delimiter_end, Hins. cbn [obind_o]. do 2 f_equal. unfold edit_replace_snippet. rewrite app_nil_r. f_equal.
      destruct (snd (insert_text _ a)); cbn [option_map]; rewrite ?app_nil_r; reflexivity.
    Qed.
    Lemma delimiter_writes e gap n a : blank gap -> (n = COMMA \/ n = R_PAREN) ->
      te_text e = texts_of gap ++ fst (insert_text (InsertContext (Some n) (env ar) (ids ar)) a) -> te_range e = (lend x, lend x) ->
      writes pre post (text_of root) cs bs tr (env ar) (ids ar) e a.
    Proof.
      intros Hg Hn Et Er. eexists. split; [exists n; split; [exact Hn | reflexivity]|]. intros new Hnew Etx. exists ((b1 ++ gap) ++ new ++ b2).
      split; [apply place_listed; [apply args_before_blank; assumption | exact Hnew | exact H2]|].
      unfold applied. rewrite Er, Et, <- Etx, <- texts_of_app.
      replace (text_of root) with (file_text pre (b1 ++ [] ++ b2) post) by (unfold file_text; cbn [app]; rewrite <- Hl; apply ArgEditProofs.text_leaves).
      replace ((b1 ++ gap) ++ new ++ b2) with (b1 ++ (gap ++ new) ++ b2) by (rewrite <- !app_assoc; reflexivity).
      replace (lend x, lend x) with (bytes (text pre) + 1 + lens b1, bytes (text pre) + 1 + lens (b1 ++ [])); [apply splice_body; reflexivity|].
      rewrite app_nil_r. rewrite delimiter_end. unfold P. rewrite text_app, bytes_app. change (text ((L_PAREN, lit "(") :: leaves_of b1)) with (lit "(" ++ text (leaves_of b1)). rewrite bytes_app, bytes_leaves_of. change (bytes (lit "(")) with 1.
      f_equal; lia.
    Qed.
  End Delimiter.
End Arguments.

(** ** Keywords *)
Lemma closest_which_split (goal halt : leaf -> bool) l y : closest_which goal halt l = Some y ->
  exists l1 l2, l = l1 ++ y :: l2 /\ goal y = true /\ forall z, In z l1 -> goal z = false /\ halt z = false.
Proof.
  induction l as [|z l IH]; intros H; [discriminate|]. cbn [closest_which] in H. destruct (goal z) eqn:Eg.
  - injection H as ->. exists [], l. split; [reflexivity|]. split; [exact Eg | intros u []].
  - destruct (halt z) eqn:Eh; [discriminate|]. destruct (IH H) as (l1 & l2 & -> & Hy & Hz). exists (z :: l1), l2. split; [reflexivity|]. split; [exact Hy|].
    intros u [<-|Hu]; [auto | apply Hz, Hu].
Qed.
Lemma closest_which_at (goal halt : leaf -> bool) l1 y l2 : goal y = true -> (forall z, In z l1 -> goal z = false /\ halt z = false) -> closest_which goal halt (l1 ++ y :: l2) = Some y.
Proof. intros Hy Hz. rewrite closest_skip by exact Hz. cbn [closest_which]. rewrite Hy. reflexivity. Qed.
Lemma is_kind_iff ks t : ArgEditModel.is_kind ks t = true <-> In (lf_kind t) ks.
Proof.
  unfold ArgEditModel.is_kind. rewrite existsb_exists. split; [intros (k & Hk & E); apply skind_eqb_eq in E; rewrite E; exact Hk | intros H; exists (lf_kind t); split; [exact H | apply skind_eqb_eq; reflexivity]].
Qed.
Lemma child_token_has k o K cs c : In c (place o cs) -> lkind c = k -> is_tok (snd c) = true -> is_some (child_token k (o, Node K cs)) = true.
Proof.
  intros Hc Hk Ht. unfold child_token. cbn [snd fst]. induction (place o cs) as [|d l IH]; [destruct Hc|]. cbn [find_map].
  destruct Hc as [->|Hc].
  - destruct c as [oc [kc sc|]]; [|discriminate]. cbn in Hk. subst kc. cbn [snd]. rewrite (proj2 (skind_eqb_eq k k) eq_refl). reflexivity.
  - match goal with |- is_some (match ?m with Some _ => _ | None => _ end) = true => destruct m; [reflexivity | apply IH, Hc] end.
Qed.
Lemma has_token_iff k e : has_token k e <-> is_some (child_token k e) = true.
Proof.
  split.
  - intros (c & (K & cs & E & Hc) & Ht & Hk). destruct e as [o [|K' cs']]; [discriminate E|]. cbn in E. injection E as -> ->. eapply child_token_has; eassumption.
  - intros H. unfold child_token in H. destruct (snd e) as [|K cs] eqn:E; [discriminate|].
    destruct (find_map _ _) as [y|] eqn:Ef; [|discriminate]. clear H. revert Ef.
    assert (G : forall l, (forall c, In c l -> In c (place (fst e) cs)) -> find_map (fun c : nat * elem => match snd c with Tok k' s => if skind_eqb k' k then Some (fst c, (k', s)) else None | Node _ _ => None end) l = Some y -> has_token k e).
    { induction l as [|c l IH]; intros Hi Ef; [discriminate|]. cbn [find_map] in Ef. destruct c as [oc [kc sc|]]; cbn [snd fst] in Ef.
      - destruct (skind_eqb kc k) eqn:Ek; [|apply IH; [intros d Hd; apply Hi; right; exact Hd | exact Ef]].
        apply skind_eqb_eq in Ek. exists (oc, Tok kc sc). split; [exists K, cs; split; [exact E | apply Hi; left; reflexivity] | split; [reflexivity | exact Ek]].
      - apply IH; [intros d Hd; apply Hi; right; exact Hd | exact Ef]. }
    apply G. auto.
Qed.
Lemma closed_iff a : closed_attr a = true <-> has_token R_BRACK a.
Proof. unfold closed_attr. symmetry. apply has_token_iff. Qed.
Lemma item_keyword_at it W : word_of (lkind it) = Some W -> item_keyword it = if is_some (child_token W it) then Some W else None.
Proof. unfold word_of, item_keyword. destruct (lkind it); intros E; try discriminate; injection E as <-; reflexivity. Qed.

Lemma keyword_closed punct root x up a it up2 W :
  in_attribute up a (it :: up2) -> has_token R_BRACK a -> item_node (snd it) = true -> part it a -> is_tok (snd a) = false ->
  word_of (lkind it) = Some W -> has_token W it -> keyword punct root (x, up) = Some W.
Proof.
  intros Ha Hb Hi (K & cs & E & Hp) Hn Hw Ht. unfold keyword, item_around. rewrite (attr_around_at _ _ _ _ Ha). cbn [fst]. rewrite (proj2 (closed_iff a) Hb).
  destruct Ha as (_ & _ & Hk & _). unfold parent_item. cbn [snd fst ExtractModel.closest]. unfold item_at. rewrite Hi, Hk. cbn [skind_eqb].
  assert (Ee : existsb (fun a0 => range_eqb (lrange_of a0) (lrange_of a)) (child_nodes ATTR it) = true).
  { apply existsb_exists. exists a. split.
    - unfold child_nodes. rewrite E. apply filter_In. split; [exact Hp|]. rewrite Hn, Hk. reflexivity.
    - unfold range_eqb. rewrite !Nat.eqb_refl. reflexivity. }
  replace (skind_eqb ATTR ATTR) with true by reflexivity. rewrite Ee. cbn [fst]. rewrite (item_keyword_at _ _ Hw), (proj1 (has_token_iff W it) Ht). reflexivity.
Qed.
Lemma closest_none' (upa : list lelem) : ExtractModel.closest item_at upa = None \/ exists inner it up2, upa = inner ++ it :: up2 /\ (forall y, In y inner -> item_node (snd y) = false) /\ item_node (snd it) = true /\ ExtractModel.closest item_at upa = Some (it, up2).
Proof.
  induction upa as [|y upa IH]; [left; reflexivity|]. cbn [ExtractModel.closest]. unfold item_at at 1 3. destruct (item_node (snd y)) eqn:E.
  - right. exists [], y, upa. repeat split; [intros z [] | exact E].
  - destruct IH as [IH|(inner & it & up2 & E1 & H1 & H2 & E2)]; [left; exact IH|]. right. exists (y :: inner), it, up2. split; [rewrite E1; reflexivity|]. split; [|split; [exact H2 | exact E2]].
    intros z [<-|Hz]; [exact E | apply H1, Hz].
Qed.
Lemma keyword_none punct root x up a upa :
  in_attribute up a upa -> has_token R_BRACK a ->
  (forall inner it up2, upa = inner ++ it :: up2 -> (forall y, In y inner -> item_node (snd y) = false) -> item_node (snd it) = true ->
     forall c, part it c -> lkind c = ATTR -> range_of c <> range_of a) ->
  keyword punct root (x, up) = None.
Proof.
  intros Ha Hb H. unfold keyword, item_around, next_keyword, unclosed_attr. rewrite (attr_around_at _ _ _ _ Ha). cbn [fst]. rewrite (proj2 (closed_iff a) Hb).
  destruct Ha as (_ & _ & Hk & _). unfold parent_item. cbn [snd fst].
  destruct (closest_none' upa) as [E|(inner & it & up2 & E1 & H1 & H2 & E2)]; [rewrite E; reflexivity|]. rewrite E2, Hk. replace (skind_eqb ATTR ATTR) with true by reflexivity.
  destruct (existsb (fun a0 => range_eqb (lrange_of a0) (lrange_of a)) (child_nodes ATTR it)) eqn:Ee; [|reflexivity]. exfalso.
  apply existsb_exists in Ee. destruct Ee as (c & Hc & Er). unfold child_nodes in Hc. destruct it as [o [k t|k cs]]; cbn [snd] in Hc; [destruct Hc|]. apply filter_In in Hc. destruct Hc as [Hc Hc'].
  apply andb_prop in Hc'. destruct Hc' as [_ Hc']. apply skind_eqb_eq in Hc'. unfold range_eqb in Er. apply andb_prop in Er. rewrite !Nat.eqb_eq in Er. destruct Er as [Er1 Er2].
  apply (H _ _ _ E1 H1 H2 c); [exists k, cs; split; [reflexivity | exact Hc] | exact Hc' |]. unfold lrange_of in *. cbn [fst snd] in *. unfold range_of. rewrite Er1, Er2. reflexivity.
Qed.
Lemma field_kind px pr punct root x up a f up2 inner it up3 ia :
  in_attribute up a (f :: up2) -> attr_cast px (read_attr pr a) = Some ia -> keyword punct root (x, up) = None ->
  up2 = inner ++ it :: up3 -> (forall y, In y inner -> item_node (snd y) = false) -> (exists cs, snd it = Node STRUCT cs) ->
  lkind f = RECORD_FIELD \/ (lkind f = RECORD_FIELD_LIST /\ ~ has_token R_BRACK a) ->
  item_kind px pr punct root (x, up) = Some RECORD_FIELD.
Proof.
  intros Ha Hc Hk -> Hi (cs & Es) Hf. unfold item_kind. rewrite Hk. unfold ink_attr_at. rewrite (attr_around_at _ _ _ _ Ha). cbn [obind fst]. rewrite Hc. cbn [option_map].
  assert (Ep : parent_item (f, inner ++ it :: up3) = Some (it, up3)).
  { unfold parent_item. cbn [snd fst]. rewrite closest_at; [|exact Hi | unfold item_at; rewrite Es; reflexivity]. destruct Hf as [Hf|[Hf _]]; rewrite Hf; reflexivity. }
  rewrite Ep. cbn [is_some_and fst]. unfold lkind at 3. rewrite Es. cbn [kind_of].
  destruct Hf as [Hf|[Hf Hb]]; rewrite Hf.
  - destruct (closed_attr a); reflexivity.
  - destruct (closed_attr a) eqn:Ec; [exfalso; apply Hb, closed_iff, Ec | reflexivity].
Qed.
Section Unclosed.
  Context (U : unicode) (punct : skind -> bool) (root : elem) (Hlex : lexed U root).
  Context (A B : list (skind * str)) (k : skind) (s : str) (up : list lelem) (a : lelem) (upa : list lelem).
  Hypothesis (Hl : leaves root = A ++ (k, s) :: B) (Ha : in_attribute up a upa) (Hb : ~ has_token R_BRACK a).
  Let x : lelem := (bytes (text A), Tok k s).
  Lemma keyword_unclosed W : keyword punct root (x, up) = Some W <-> exists skipped w rest, B = skipped ++ (W, w) :: rest /\ In W item_words /\ Forall (skippable punct) skipped.
  Proof.
    assert (Hs : s <> []) by (apply (proj1 (Hlex k s ltac:(rewrite Hl; apply in_app_iff; right; left; reflexivity)))).
    assert (Ec : closed_attr a = false) by (destruct (closed_attr a) eqn:E; [exfalso; apply Hb, closed_iff, E | reflexivity]).
    unfold keyword, item_around, next_keyword, unclosed_attr. rewrite (attr_around_at _ _ _ _ Ha). cbn [fst]. rewrite Ec.
    change (leaf_of x) with (bytes (text A), (k, s)). unfold file_toks. rewrite Hl. change (bytes (text A)) with (0 + bytes (text A)) at 1. rewrite (ArgEditProofs.after_place 0 A (k, s) B Hs).
    set (goal := ArgEditModel.is_kind KEYWORDS). set (halt := fun t : leaf => negb (is_trivia (lf_kind t)) && negb (punct (lf_kind t)) && negb (skind_eqb (lf_kind t) PUB_KW)).
    assert (G : forall t : leaf, (goal t = false /\ halt t = false) <-> skippable punct (snd t)).
    { intros t. unfold goal, halt, skippable. change (fst (snd t)) with (lf_kind t). pose proof (is_kind_iff KEYWORDS t) as Hi. change KEYWORDS with item_words in *.
      destruct (ArgEditModel.is_kind item_words t) eqn:Ek; [split; [intros [E _]; discriminate | intros [N _]; exfalso; apply N, Hi, eq_refl]|].
      assert (~ In (lf_kind t) item_words) by (intros Hin; apply Hi in Hin; discriminate).
      destruct (is_trivia (lf_kind t)), (punct (lf_kind t)); cbn [negb andb]; try (split; auto; fail).
      rewrite Bool.negb_false_iff, skind_eqb_eq. split; [intros [_ E]; auto | intros [_ [E|[E|E]]]; [discriminate | discriminate | auto]]. }
    remember (0 + bytes (text A) + bytes (snd (k, s))) as n. clear Heqn. split.
    - intros H. destruct (closest_which goal halt (place_leaves n B)) as [y|] eqn:Ey; [|discriminate]. cbn [option_map] in H. injection H as H.
      apply closest_which_split in Ey. destruct Ey as (l1 & l2 & E & Hy & Hz). apply place_leaves_split in E. destruct E as (a1 & b1 & EB & El1 & Eyy & _).
      destruct y as [oy [ky sy]]. cbn in H. subst ky. cbn [snd] in EB. exists a1, sy, b1. split; [exact EB|]. split; [apply (is_kind_iff KEYWORDS) in Hy; exact Hy|].
      apply Forall_forall. intros t Ht. assert (Hex : exists m, In (m, t) l1).
      { rewrite El1. clear -Ht. revert n. induction a1 as [|z a1 IH]; intros n; [destruct Ht|]. cbn [place_leaves]. destruct Ht as [->|Ht]; [exists n; left; reflexivity|]. destruct (IH Ht (n + bytes (snd z))) as [m Hm]. exists m. right. exact Hm. }
      destruct Hex as [m Hm]. specialize (Hz _ Hm). apply G in Hz. exact Hz.
    - intros (sk & w & rest & -> & HW & Hsk). rewrite place_leaves_app. cbn [place_leaves]. rewrite closest_which_at; [reflexivity | apply (is_kind_iff KEYWORDS), HW |].
      intros z Hz. apply G. rewrite Forall_forall in Hsk. apply Hsk. clear -Hz. revert n Hz. induction sk as [|y sk IH]; intros n Hz; [destruct Hz|]. cbn [place_leaves] in Hz. destruct Hz as [<-|Hz]; [left; reflexivity | right; eapply IH, Hz].
  Qed.
End Unclosed.

(** ** Options of an argument *)
Lemma options_eq k : takes_options k = nested_kinds k.
Proof. destruct k; reflexivity. Qed.
Lemma contains_true r off : fst r <= off <= snd r -> contains_inclusive r off = true.
Proof. intros [A B]. unfold contains_inclusive. rewrite (proj2 (Nat.leb_le _ _) A), (proj2 (Nat.leb_le _ _) B). reflexivity. Qed.
Lemma known_iff k : k <> AUnknown <-> arg_kind_eqb k AUnknown = false.
Proof. destruct k; split; intros H; try reflexivity; try discriminate; exfalso; apply H; reflexivity. Qed.
Lemma at_cursor_known off m : known_at off m -> at_cursor off m = Done true.
Proof.
  intros (Hk & (n & Hn) & r & Er & Hr). unfold at_cursor. rewrite Er. cbn [obind_o]. apply known_iff in Hk. rewrite Hk, (contains_true _ _ Hr). unfold meta_is_empty. rewrite Hn. reflexivity.
Qed.
Lemma at_cursor_not off m : not_at off m -> at_cursor off m = Done false.
Proof.
  intros (r & Er & H). unfold at_cursor. rewrite Er. cbn [obind_o]. destruct H as [-> | H]; [reflexivity|].
  destruct (contains_inclusive r off) eqn:Ec; [apply contains_iff in Ec; contradiction|]. rewrite Bool.andb_false_r. reflexivity.
Qed.
Lemma innermost_run off m a : innermost off m a -> innermost_arg off m = Done a.
Proof.
  induction 1 as [m H|m n a Hn Hk _ IH].
  - destruct m as [nm e v [n|] io me]; cbn [innermost_arg m_nested]; [|reflexivity]. rewrite (at_cursor_not _ _ (H n eq_refl)). reflexivity.
  - destruct m as [nm e v [n'|] io me]; cbn [m_nested] in Hn; [|discriminate]. injection Hn as ->. cbn [innermost_arg m_nested]. rewrite (at_cursor_known _ _ Hk). exact IH.
Qed.
Lemma first_run off l1 m l2 : Forall (not_at off) l1 -> known_at off m -> first_at_cursor off (l1 ++ m :: l2) = Done (Some m).
Proof.
  intros H Hm. induction H as [|y l1 Hy _ IH]; cbn [app first_at_cursor]; [rewrite (at_cursor_known _ _ Hm); reflexivity|]. rewrite (at_cursor_not _ _ Hy). exact IH.
Qed.
Section Options.
  Context (U : unicode) (px : expr_parser) (pr : path_reader) (punct : skind -> bool) (around_ : path -> around_attr) (env : path -> option str) (ids : path -> arg_kind -> list N) (root : elem) (Hlex : lexed U root).
  Context (off : nat) (v : version) (x : lelem) (up : list lelem) (at_ : lelem) (upa : list lelem) (ia : ink_attr) (p q : str).
  Context (l1 l2 : list ink_arg) (m a : ink_arg) (n : lelem) (r : nat * nat).
  Hypothesis (Hc : cursor_on root off x up) (Ha : in_attribute up at_ upa) (Hcast : attr_cast px (read_attr pr at_) = Some ia).
  Hypothesis (Hargs : at_args ia = l1 ++ m :: l2) (Hnot : Forall (not_at off) l1) (Hm : known_at off m) (Hin : innermost off m a).
  Hypothesis (Hopt : takes_options (ia_kind a) <> []) (Hn : m_name a = MOk n) (Hr : meta_range a = Done r) (Hnr : lend n <= snd r).
  Hypothesis (Hra : lstart at_ <= snd r <= lend at_).
  Hypothesis (Hbeg : begins_argument root x) (Hx : text_of (snd x) = p ++ q) (Ho : off = lstart x + bytes p).
  Let ar := (at_, upa).
  Let wanted k := (lkind x = L_PAREN \/ lkind x = COMMA \/ (exists rest, arg_kind_str k = p ++ rest) \/ p = text_of (snd n)).
  Lemma options_claims : exists l next, argument_completions px pr punct around_ env ids root off v = Done l
    /\ forall e, In e l <-> exists k, In k (takes_options (ia_kind a)) /\ wanted k
         /\ let t := insert_text (InsertContext next (env ar) (ids ar)) k in
            e = edit_replace_snippet (lit "(" ++ fst t ++ lit ")") (lend n, snd r) (option_map (fun s => lit "(" ++ s ++ lit ")") (snd t)).
  Proof.
    destruct Hc as ((Har & Htok) & _). pose proof (attribute_element _ _ _ _ _ Har Ha) as He. pose proof (attribute_bounds _ _ _ _ _ Har Ha) as [Hb1 Hb2].
    destruct (element_leaves _ _ He) as (X & Y & EL & Ef). cbn [fst snd] in EL, Ef. rewrite Nat.add_0_l in Ef.
    assert (Hne : forall t, In t (leaves root) -> snd t <> []) by (intros [kt st] Ht; apply (proj1 (Hlex _ _ Ht))).
    assert (Er : lrange_of at_ = (bytes (text X), bytes (text (X ++ leaves (snd at_))))).
    { unfold lrange_of, lstart, lend. rewrite Ef, text_app, bytes_app, ArgEditProofs.text_leaves. reflexivity. }
    pose proof (token_nonempty U root Hlex x up (conj Har Htok)) as Hxn.
    assert (Hnn : leaves (snd at_) <> []).
    { intros E0. unfold lend at 2 in Hb2. unfold len_of in Hb2. rewrite <- (ArgEditProofs.text_leaves (snd at_)), E0 in Hb2. cbn in Hb2. unfold lstart in *. lia. }
    destruct (next_solid_first X (leaves (snd at_)) Y (snd r)) as (t & En & _).
    { intros t Ht. apply Hne. rewrite EL. exact Ht. }
    { exact Hnn. }
    { unfold lrange_of in Er. injection Er as Er1 Er2. rewrite <- Er1, <- Er2. exact Hra. }
    assert (Hins : forall k, arg_insert_text (file_toks root) (lrange_of at_) (snd r) (env ar) (ids ar) k = Done (insert_text (InsertContext (option_map lf_kind t) (env ar) (ids ar)) k)).
    { intros k. unfold file_toks. rewrite Er, EL. apply arg_insert_next, En. }
    assert (Hplace : nested_suggestions off (at_args ia) = Done (Some (takes_options (ia_kind a), (text_of (snd n), (lend n, snd r))))).
    { unfold nested_suggestions. rewrite Hargs, (first_run _ _ _ _ Hnot Hm). cbn [obind_o]. rewrite (innermost_run _ _ _ Hin). cbn [obind_o]. rewrite options_eq in *.
      destruct (nested_kinds (ia_kind a)) as [|k ks]; [contradiction|]. unfold nested_place. rewrite Hn, Hr. cbn [obind_o]. unfold mk_range. rewrite (proj2 (Nat.leb_le _ _) Hnr). reflexivity. }
    unfold argument_completions. rewrite (cursor_focused U root Hlex _ _ _ Hc). cbn [obind_o].
    assert (Hfound : ink_attr_at px pr root (x, up) = Some (ar, ia)) by (unfold ink_attr_at; rewrite (attr_around_at _ _ _ _ Ha); cbn [obind fst]; rewrite Hcast; reflexivity).
    rewrite Hfound. cbv zeta. change (fst (x, up)) with x. rewrite Hplace.
    assert (El : leaf_of x = (lstart x, (lkind x, text_of (snd x)))) by (destruct x as [ox [kx sx|]]; [reflexivity | discriminate Htok]).
    rewrite El.
    change (leaf_is L_PAREN (lstart x, (lkind x, text_of (snd x)))) with (skind_eqb (lkind x) L_PAREN). change (leaf_is COMMA (lstart x, (lkind x, text_of (snd x)))) with (skind_eqb (lkind x) COMMA).
    assert (Hbegin : (skind_eqb (lkind x) L_PAREN || skind_eqb (lkind x) COMMA) || is_some_and (leaf_is COMMA) (prev_solid root (lstart x, (lkind x, text_of (snd x))))
              || is_some_and (leaf_is L_PAREN) (prev_solid root (lstart x, (lkind x, text_of (snd x)))) = true).
    { destruct Hbeg as [-> | [-> | (A & k & t0 & T & B & E & Es & Hk & HT)]]; [reflexivity | reflexivity|].
      rewrite Es, (prev_solid_at root A (k, t0) T _ B E); [|apply Hne; rewrite E; apply in_app_iff; right; right; apply in_app_iff; right; left; reflexivity | destruct Hk as [-> | ->]; reflexivity | exact HT].
      cbn [is_some_and]. destruct Hk as [-> | ->]; change (leaf_is L_PAREN (bytes (text A), (L_PAREN, t0))) with true || change (leaf_is COMMA (bytes (text A), (COMMA, t0))) with true; rewrite ?Bool.orb_true_r; reflexivity. }
    rewrite Hbegin. cbn [obind_o option_map is_some fst snd].
    assert (Htyped : typed (lstart x, (lkind x, text_of (snd x))) off = Done (if is_nil p then None else Some p)) by (rewrite Hx; apply typed_at, Ho).
    rewrite Htyped.
    assert (Hd : (if skind_eqb (lkind x) L_PAREN || skind_eqb (lkind x) COMMA then Done None else Done (if is_nil p then None else Some p))
              = Done (if skind_eqb (lkind x) L_PAREN || skind_eqb (lkind x) COMMA then None else if is_nil p then None else Some p)) by (destruct (skind_eqb (lkind x) L_PAREN || skind_eqb (lkind x) COMMA); reflexivity).
    rewrite Hd. cbn [obind_o]. clear Hd.
    set (pf := if skind_eqb (lkind x) L_PAREN || skind_eqb (lkind x) COMMA then None else if is_nil p then None else Some p).
    assert (Hkeeps : forall k, keeps pf (Some (text_of (snd n))) k = true <-> wanted k).
    { intros k. unfold pf, wanted. destruct (skind_eqb (lkind x) L_PAREN) eqn:E1; [apply skind_eqb_eq in E1; cbn [orb keeps]; tauto|].
      destruct (skind_eqb (lkind x) COMMA) eqn:E2; [apply skind_eqb_eq in E2; cbn [orb keeps]; tauto|]. cbn [orb].
      assert (N1 : lkind x <> L_PAREN) by (intros E; rewrite E in E1; discriminate). assert (N2 : lkind x <> COMMA) by (intros E; rewrite E in E2; discriminate).
      destruct p as [|ch p'] eqn:Ep; cbn [is_nil keeps].
      - split; [|reflexivity]. intros _. right. right. left. exists (arg_kind_str k). reflexivity.
      - rewrite Bool.orb_true_iff, starts_with_app. cbn [is_some_and]. rewrite str_eqb_eq. tauto. }
    eexists. exists (option_map lf_kind t). split.
    - apply (collect_map _ (fun k => let t' := insert_text (InsertContext (option_map lf_kind t) (env ar) (ids ar)) k in
               edit_replace_snippet (lit "(" ++ fst t' ++ lit ")") (lend n, snd r) (option_map (fun s => lit "(" ++ s ++ lit ")") (snd t')))).
      intros k _. unfold ar at 1. cbn [fst]. rewrite Hins. cbn [obind_o]. reflexivity.
    - intros e. rewrite in_map_iff. split.
      + intros (k & <- & Hk). apply filter_In in Hk. destruct Hk as [Hk1 Hk2]. exists k. split; [exact Hk1|]. split; [apply Hkeeps, Hk2 | reflexivity].
      + intros (k & Hk1 & Hk2 & ->). exists k. split; [reflexivity|]. apply filter_In. split; [exact Hk1 | apply Hkeeps, Hk2].
  Qed.
End Options.
