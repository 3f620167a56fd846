(** Proofs for C101. *)
From Coq Require Import List Lia Arith Permutation.
From Verif Require Import Base Unicode PositionModel PositionProofs TranslateModel SyntaxModel CommandModel AttrModel AttrProofs EditModel EditSpec EditProofs UtilModel UtilSpec UtilProofs ArgEditModel ArgEditSpec ArgEditProofs RuleModel RuleSpec RuleProofs EntityModel EntitySpec EntityProofs HintModel HintSpec HintProofs
  ExtractModel ExtractSpec ExtractProofs MoveModel MoveSpec.
Import ListNotations.

(** ** Taking out and putting in *)

Lemma in_place o l c : In c (place o l) -> exists l1 l2, l = l1 ++ snd c :: l2 /\ fst c = o + bytes (texts_of l1).
Proof.
  revert o. induction l as [|x l IH]; intros o; [intros []|]. cbn [place]. intros [<-|H].
  - exists [], l. split; [reflexivity | cbn; lia].
  - destruct (IH _ H) as (l1 & l2 & -> & E). exists (x :: l1), l2. split; [reflexivity|]. rewrite E. unfold texts_of, len_of. cbn [flat_map]. rewrite bytes_app. rewrite Nat.add_assoc. reflexivity.
Qed.
Lemma cut_child acc c x up : inside_of acc c x up -> forall o l, In c (place o l) -> exists l', cut o x l l'.
Proof.
  induction 1 as [acc e|acc o k cs c e up Hc Hi IH]; intros o' l Hl.
  - destruct (in_place _ _ _ Hl) as (l1 & l2 & -> & E). exists (l1 ++ l2). constructor. exact E.
  - destruct (in_place _ _ _ Hl) as (l1 & l2 & -> & E). cbn [fst snd] in *. subst o. destruct (IH _ _ Hc) as (cs' & Hcut). exists (l1 ++ Node k cs' :: l2). constructor. exact Hcut.
Qed.
Lemma cut_text o x l l' : cut o x l l' -> exists p q, texts_of l = p ++ text_of (snd x) ++ q /\ texts_of l' = p ++ q /\ o + bytes p = fst x.
Proof.
  induction 1 as [o x a b E|o x a k cs cs' b H IH].
  - exists (texts_of a), (texts_of b). rewrite !texts_of_app. split; [reflexivity|]. split; [reflexivity | lia].
  - destruct IH as (p & q & E1 & E2 & E3). exists (texts_of a ++ p), (q ++ texts_of b). rewrite !texts_of_app. change (texts_of (Node k cs :: b)) with (texts_of cs ++ texts_of b).
    change (texts_of (Node k cs' :: b)) with (texts_of cs' ++ texts_of b). rewrite E1, E2, bytes_app, <- !app_assoc. repeat split. lia.
Qed.

(** The two edits, when the item stands before or behind the place *)
Lemma perform_two o a b c d txt x (e1 e2 : text_edit) : te_text e1 = txt -> te_text e2 = [] ->
  ((te_range e1 = (o + bytes a, o + bytes a) /\ te_range e2 = (o + bytes (a ++ b), o + bytes (a ++ b ++ x)) -> performs o (a ++ b ++ x ++ c) [e1; e2] (a ++ txt ++ b ++ c))
   /\ (te_range e2 = (o + bytes a, o + bytes (a ++ x)) /\ te_range e1 = (o + bytes (a ++ x ++ c), o + bytes (a ++ x ++ c)) -> performs o (a ++ x ++ c ++ d) [e2; e1] (a ++ c ++ txt ++ d))).
Proof.
  intros T1 T2. split; intros [R1 R2].
  - change (a ++ b ++ x ++ c) with (a ++ [] ++ (b ++ x ++ c)). rewrite <- T1. apply pf_cons; rewrite R1; cbn [fst snd]; [reflexivity | rewrite app_nil_r; reflexivity|].
    replace (b ++ c) with (b ++ te_text e2 ++ c) by (rewrite T2; reflexivity). apply pf_cons; rewrite R2; cbn [fst snd]; [rewrite bytes_app; lia | rewrite !bytes_app; lia | constructor].
  - replace (a ++ c ++ txt ++ d) with (a ++ te_text e2 ++ (c ++ te_text e1 ++ d)) by (rewrite T1, T2; reflexivity). apply pf_cons; rewrite R1; cbn [fst snd]; [reflexivity | reflexivity|].
    change (c ++ d) with (c ++ [] ++ d). apply pf_cons; rewrite R2; cbn [fst snd]; [rewrite !bytes_app; lia | rewrite app_nil_r, !bytes_app; lia | constructor].
Qed.
Lemma swap2 {A} (a b : A) : Permutation [a; b] [b; a].
Proof. apply perm_swap. Qed.

Section Within.
  Variables (root : elem) (x : lelem) (up inner outer : list lelem) (K L : skind) (om : nat) (head l tail : list elem).
  Let il : lelem := (om + bytes (texts_of head), braced L l).
  Let m : lelem := (om, item_with K L head l tail).
  Hypothesis Ha : around root x up.
  Hypothesis Hu : up = inner ++ il :: m :: outer.
  Hypothesis Hn : is_tok (snd x) = false.

  Lemma module_text : exists pre post, text_of root = pre ++ text_of (snd m) ++ post /\ bytes pre = om.
  Proof.
    assert (Am : around root m outer) by (apply (around_up root x up Ha (inner ++ [il])); rewrite <- app_assoc; exact Hu).
    destruct (leaves_inside _ _ _ _ Am) as (pre & post & E & B). cbn [snd] in E. exists (text pre), (text post). split; [|exact B].
    rewrite <- text_leaves, E. unfold text. rewrite !flat_map_app. fold (text (leaves (snd m))). rewrite text_leaves. reflexivity.
  Qed.
  Lemma in_list : exists c, In c (place (om + bytes (texts_of head) + 1) l) /\ exists acc, inside_of acc c x up.
  Proof.
    destruct (inside_split _ _ _ _ Ha) as (l0 & E & H). rewrite app_nil_r in E. subst l0. destruct (H inner il (m :: outer) Hu) as (_ & k & cs & c & E & Hc & Hi).
    unfold il, braced in E. cbn [snd] in E. injection E as <- <-. unfold il in Hc. cbn [fst place] in Hc. change (len_of lbrace) with 1 in Hc. destruct Hc as [<-|Hc].
    - exfalso. remember (om + bytes (texts_of head), lbrace) as e eqn:Ee. destruct Hi; [rewrite Ee in Hn; discriminate Hn | discriminate Ee].
    - rewrite place_app in Hc. apply in_app_or in Hc as [Hc|Hc]; [exists c; eauto|]. destruct Hc as [<-|[]]. exfalso. match goal with |- _ => idtac end.
      remember (om + bytes (texts_of head) + 1 + bytes (texts_of l), rbrace) as e eqn:Ee. destruct Hi; [rewrite Ee in Hn; discriminate Hn | discriminate Ee].
  Qed.
  Lemma moved_in a b txt : l = a ++ b ->
    exists a' b', taken (om + bytes (texts_of head) + 1) x a b a' b'
      /\ forall new, text_of new = txt -> exists result,
           performed (text_of root) [edit_insert txt (om + bytes (texts_of head) + 1 + bytes (texts_of a)); edit_delete (lrange_of x)] result
           /\ becomes root m (item_with K L head (a' ++ new :: b') tail) result.
  Proof.
    intros El. destruct in_list as (c & Hc & acc & Hi). destruct module_text as (pre & post & Et & Bp).
    assert (Tm : forall l, text_of (item_with K L head l tail) = texts_of head ++ lit "{" ++ texts_of l ++ lit "}" ++ texts_of tail).
    { intros z. unfold item_with. change (text_of (Node K (head ++ braced L z :: tail))) with (texts_of (head ++ braced L z :: tail)). rewrite texts_of_app.
      change (texts_of (braced L z :: tail)) with ((lit "{" ++ texts_of (z ++ [rbrace])) ++ texts_of tail). rewrite texts_of_app, <- !app_assoc. reflexivity. }
    rewrite El, place_app in Hc. apply in_app_or in Hc as [Hc|Hc].
    - destruct (cut_child _ _ _ _ Hi _ _ Hc) as (a' & Hcut). exists a', b. split; [left; auto|]. intros new Hnew. destruct (cut_text _ _ _ _ Hcut) as (p & q & E1 & E2 & E3).
      exists ((pre ++ texts_of head ++ lit "{" ++ p) ++ q ++ txt ++ texts_of b ++ lit "}" ++ texts_of tail ++ post). split.
      + eexists. split; [apply swap2|]. rewrite Et. unfold m. cbn [snd]. rewrite Tm, El, texts_of_app, E1.
        replace (pre ++ (texts_of head ++ lit "{" ++ ((p ++ text_of (snd x) ++ q) ++ texts_of b) ++ lit "}" ++ texts_of tail) ++ post)
          with ((pre ++ texts_of head ++ lit "{" ++ p) ++ text_of (snd x) ++ q ++ texts_of b ++ lit "}" ++ texts_of tail ++ post) by (rewrite <- !app_assoc; reflexivity).
        apply (proj2 (perform_two 0 (pre ++ texts_of head ++ lit "{" ++ p) [] q (texts_of b ++ lit "}" ++ texts_of tail ++ post) txt (text_of (snd x)) (edit_insert txt _) (edit_delete (lrange_of x)) eq_refl eq_refl)).
        cbn [te_range edit_insert edit_insert_snippet edit_delete]. unfold lrange_of, lstart, lend, len_of, at_offset. change (bytes (lit "{")) with 1 in *.
        split; f_equal; rewrite !bytes_app; change (bytes (lit "{")) with 1; rewrite ?E1, ?bytes_app; lia.
      + exists pre, (text_of (snd m)), post. split; [exact Et|]. split; [exact Bp|]. split; [rewrite bytes_app; unfold len_of, m; cbn [fst snd]; lia|].
        rewrite Tm, texts_of_app. change (texts_of (new :: b)) with (text_of new ++ texts_of b). rewrite Hnew, E2, <- !app_assoc. reflexivity.
    - destruct (cut_child _ _ _ _ Hi _ _ Hc) as (b' & Hcut). exists a, b'. split; [right; auto|]. intros new Hnew. destruct (cut_text _ _ _ _ Hcut) as (p & q & E1 & E2 & E3).
      exists ((pre ++ texts_of head ++ lit "{" ++ texts_of a) ++ txt ++ p ++ q ++ lit "}" ++ texts_of tail ++ post). split.
      + eexists. split; [apply Permutation_refl|]. rewrite Et. unfold m. cbn [snd]. rewrite Tm, El, texts_of_app, E1.
        replace (pre ++ (texts_of head ++ lit "{" ++ (texts_of a ++ p ++ text_of (snd x) ++ q) ++ lit "}" ++ texts_of tail) ++ post)
          with ((pre ++ texts_of head ++ lit "{" ++ texts_of a) ++ p ++ text_of (snd x) ++ q ++ lit "}" ++ texts_of tail ++ post) by (rewrite <- !app_assoc; reflexivity).
        apply (proj1 (perform_two 0 (pre ++ texts_of head ++ lit "{" ++ texts_of a) p (q ++ lit "}" ++ texts_of tail ++ post) [] txt (text_of (snd x)) (edit_insert txt _) (edit_delete (lrange_of x)) eq_refl eq_refl)).
        cbn [te_range edit_insert edit_insert_snippet edit_delete]. unfold lrange_of, lstart, lend, len_of, at_offset. change (bytes (lit "{")) with 1 in *.
        split; f_equal; rewrite !bytes_app; change (bytes (lit "{")) with 1; lia.
      + exists pre, (text_of (snd m)), post. split; [exact Et|]. split; [exact Bp|]. split; [rewrite bytes_app; unfold len_of, m; cbn [fst snd]; lia|].
        rewrite Tm, texts_of_app. change (texts_of (new :: b')) with (text_of new ++ texts_of b'). rewrite Hnew, E2, <- !app_assoc. reflexivity.
  Qed.
End Within.

(** ** The text *)

Lemma Forall2_In_r {A B} (R : A -> B -> Prop) l l' y : Forall2 R l l' -> In y l' -> exists x, In x l /\ R x y.
Proof. induction 1 as [|x z l l' H _ IH]; [intros []|]. intros [<-|Hy]; [exists x; split; [left; reflexivity | exact H]|]. destruct (IH Hy) as (w & Hw & Hr). exists w. split; [right; exact Hw | exact Hr]. Qed.

Section Reindent.
  Variable U : unicode.
  Hypothesis HU : unicode_ok U.
  Lemma white_nl' : u_whitespace U c_nl = true.
  Proof. rewrite (uo_whitespace U HU) by reflexivity. reflexivity. Qed.
  Lemma white_cr' : u_whitespace U c_cr = true.
  Proof. rewrite (uo_whitespace U HU) by reflexivity. reflexivity. Qed.
  Lemma visible_strip_cr l : visible U (strip_cr l) = visible U l.
  Proof.
    unfold strip_cr. destruct (rev l) as [|c r] eqn:E; [reflexivity|]. destruct (N.eqb_spec c c_cr) as [->|]; [|reflexivity].
    rewrite <- (rev_involutive l), E. cbn [rev]. rewrite (EntityProofs.visible_app U (rev r) [c_cr]). unfold visible at 3. cbn [filter]. rewrite white_cr'. cbn [negb]. rewrite app_nil_r. reflexivity.
  Qed.
  Lemma visible_lines s : forall cur, visible U (concat (lines_aux cur s)) = visible U (rev cur ++ s).
  Proof.
    induction s as [|c s IH]; intros cur; cbn [lines_aux].
    - destruct cur; cbn [concat]; rewrite ?app_nil_r; reflexivity.
    - destruct (N.eqb_spec c c_nl) as [->|].
      + cbn [concat]. rewrite !EntityProofs.visible_app, IH, visible_strip_cr. cbn [rev app]. f_equal. change (c_nl :: s) with ([c_nl] ++ s). rewrite EntityProofs.visible_app. unfold visible at 2. cbn [filter]. rewrite white_nl'. reflexivity.
      + rewrite IH. cbn [rev]. rewrite <- app_assoc. reflexivity.
  Qed.
  Lemma visible_map_lines f s : (forall l, visible U (f l) = visible U l) -> visible U (map_lines f s) = visible U s.
  Proof.
    intros Hf. unfold map_lines. rewrite join_unlines, (visible_unlines U) by exact HU. transitivity (visible U (concat (lines s))); [|apply (visible_lines s [])].
    induction (lines s) as [|l ls IH]; [reflexivity|]. cbn [map concat]. rewrite !EntityProofs.visible_app, IH. f_equal. destruct l; [reflexivity | apply Hf].
  Qed.
  Lemma visible_apply s i : all_white U i -> visible U (apply_indenting s i) = visible U s.
  Proof.
    intros H. unfold apply_indenting. destruct i as [|c i]; [reflexivity|]. apply visible_map_lines. intros l. rewrite EntityProofs.visible_app, (visible_all_white U _ H). reflexivity.
  Qed.
  Lemma visible_reduce s i : all_white U i -> visible U (reduce_indenting s i) = visible U s.
  Proof.
    intros H. unfold reduce_indenting. destruct i as [|c i]; [reflexivity|]. apply visible_map_lines. intros l. destruct (strip_prefix (c :: i) l) as [r|] eqn:E; [|reflexivity].
    apply strip_prefix_some in E. subst l. rewrite EntityProofs.visible_app, (visible_all_white U _ H). reflexivity.
  Qed.
  Lemma reindented_spec s own target : all_white U own -> all_white U target -> ~ In c_nl target ->
    reindented U own target s (apply_indenting (reduce_indenting s own) target).
  Proof.
    intros Ho Ht Hn. split; [rewrite visible_apply, visible_reduce by assumption; reflexivity|]. intros ls Hs Hr (l & c & Hc & Hv & ls0 & ->).
    destruct (reduce_indenting_spec s _ own Hs) as (ls1 & E1 & N1 & F1).
    assert (T1 : tidy (unlines ls1) ls1).
    { destruct Hs as ((Es & Hne & Hnl) & Hcr & _). split; [|split].
      - split; [reflexivity|]. split; [intros ->; inversion F1 as [E|]; destruct ls0; discriminate | exact N1].
      - intros C. apply In_unlines in C as [C|(l1 & Hl1 & C)]; [discriminate C|]. apply Hcr. rewrite Es.
        destruct (Forall2_In_r _ _ _ _ F1 Hl1) as (l0 & Hl0 & [E|[E _]]); (apply unlines_In with l0; [exact Hl0|]); subst; [apply in_or_app; right; exact C | exact C].
      - apply Forall2_app_inv_l in F1 as (pre & suf & _ & F2 & ->). inversion F2 as [|? l' ? ? Hd Hnil]; subst. inversion Hnil; subst. exists pre, l'. split; [reflexivity|].
        intros ->. destruct Hd as [E|[E _]]; [rewrite app_nil_r in E; subst l; rewrite (Ho c Hc) in Hv; discriminate | subst l; destruct Hc]. }
    destruct (apply_indenting_spec _ ls1 target T1 Hn Hr) as (ls2 & T2 & F2). exists ls1, ls2. split; [exact F1|]. split; [exact F2|]. rewrite E1. destruct T2 as ((E & _) & _). exact E.
  Qed.
End Reindent.

Lemma indented_white U prev i : indented_by U prev i -> all_white U i /\ ~ In c_nl i.
Proof.
  intros [ws j c Hw (Hn & H) _|p _]; [|split; [intros c [] | intros []]]. split; [|exact Hn]. intros x Hx. apply Hw. destruct H as [->|(pre & ->)]; [exact Hx | apply in_or_app; right; right; exact Hx].
Qed.
Lemma member_white U prev j : unicode_ok U -> indented_by U prev j -> all_white U (member_indent j) /\ ~ In c_nl (member_indent j).
Proof.
  intros HU H. split; [rewrite <- (member_indent_spec U prev j H); apply (EditProofs.item_children_indenting_white U HU)|]. destruct (indented_white _ _ _ H) as [_ Hn].
  unfold member_indent. destruct j; [vm_compute; intuition discriminate|]. intros C. apply in_app_or in C as [C|C]; exact (Hn C).
Qed.
Lemma carried_spec U prev own target before after x : unicode_ok U -> indented_by U prev own -> all_white U target -> ~ In c_nl target ->
  carried U own target (match before with Some b => b | None => [] end) (match after with Some b => b | None => [] end) x
    (moved_text U prev (text_of (snd x)) (Some target) before after).
Proof.
  intros HU Hi Ht Hn. destruct (indented_white _ _ _ Hi) as [Ho _]. exists (apply_indenting (reduce_indenting (text_of (snd x)) own) target). split; [|apply reindented_spec; assumption].
  unfold moved_text. pose proof (indenting_spec _ _ _ Hi) as E.
  assert (Er : match item_indenting U prev with Some i => reduce_indenting (text_of (snd x)) i | None => text_of (snd x) end = reduce_indenting (text_of (snd x)) own)
    by (destruct (item_indenting U prev); subst; reflexivity).
  rewrite Er. destruct before, after; rewrite <- ?app_assoc, ?app_nil_r; reflexivity.
Qed.
Lemma closest_app p inner m outer : (forall e, In e inner -> p e = false) -> p m = true -> closest p (inner ++ m :: outer) = Some (m, outer).
Proof. intros H Hm. induction inner as [|e inner IH]; cbn [app closest]; [rewrite Hm; reflexivity|]. rewrite (H e (or_introl eq_refl)). apply IH. intros y Hy. apply H. right. exact Hy. Qed.
Lemma closest_first p l : (exists y, In y l /\ p y = true) -> forall l2, exists l1 y l3, l = l1 ++ y :: l3 /\ p y = true /\ closest p (l ++ l2) = Some (y, l3 ++ l2).
Proof.
  induction l as [|e l IH]; intros (y & Hy & Py) l2; [destruct Hy|]. cbn [app closest]. destruct (p e) eqn:E; [exists [], e, l; auto|]. destruct Hy as [->|Hy]; [congruence|].
  destruct (IH (ex_intro _ y (conj Hy Py)) l2) as (l1 & z & l3 & -> & Pz & Ec). exists (e :: l1), z, l3. auto.
Qed.
Lemma item_not_tok e : item_node e = true -> is_tok e = false.
Proof. destruct e; [discriminate | reflexivity]. Qed.
Lemma item_not_attr x : item_node (snd x) = true -> skind_eqb (lkind x) ATTR = false.
Proof. unfold lkind. destruct x as [o [k t|k cs]]; [discriminate|]. destruct k; intros H; try reflexivity; discriminate H. Qed.
Lemma node_at_with k o L head l tail : node_at k (o, item_with k L head l tail) = true.
Proof. unfold node_at, item_with, is_node, lkind. cbn [snd is_tok negb kind_of andb]. apply skind_eqb_eq. reflexivity. Qed.
Lemma list_child_at om K L head l tail : heads L head -> child_node L (om, item_with K L head l tail) = Some (om + bytes (texts_of head), braced L l).
Proof.
  intros H. unfold item_with. apply RuleProofs.child_node_at. apply forallb_forall. intros e He. destruct e as [k s|k cs]; [reflexivity|].
  unfold node_of. cbn [is_tok negb andb kind_of]. destruct (skind_eqb k L) eqn:E; [|reflexivity]. apply skind_eqb_eq in E. subst k. exfalso. exact (H cs He).
Qed.
Lemma scope_split o l scope : at_split o l (scope_place scope) (item_offset_by_scope (o, braced ITEM_LIST l) scope).
Proof.
  unfold item_offset_by_scope, scope_place.
  destruct (str_eqb scope (lit "storage")) eqn:E1; [apply str_eqb_eq in E1; destruct (start_split o ITEM_LIST l) as (a & b & ? & ? & ?); exists a, b; auto|]. apply str_eqb_neq in E1.
  destruct (str_eqb scope (lit "event")) eqn:E2; [apply str_eqb_eq in E2; destruct (struct_split o ITEM_LIST l) as (a & b & ? & ? & ?); exists a, b; auto 6|]. apply str_eqb_neq in E2.
  destruct (str_eqb scope (lit "impl")) eqn:E3; [apply str_eqb_eq in E3; destruct (impl_split o ITEM_LIST l) as (a & b & ? & ? & ?); exists a, b; auto 7|]. apply str_eqb_neq in E3.
  destruct (end_split' o ITEM_LIST l) as (a & b & ? & ? & ?). exists a, b. auto 9.
Qed.
(** Elements inside the braces begin behind the start of the item. *)
Lemma starts_later root y l3 om K L head l tail outer : around root y (l3 ++ (om + bytes (texts_of head), braced L l) :: (om, item_with K L head l tail) :: outer) -> is_tok (snd y) = false -> om < fst y.
Proof.
  intros Ha Hn. destruct (in_list root y _ l3 outer K L om head l tail Ha eq_refl Hn) as (c & Hc & acc & Hi). apply place_ge in Hc. apply inside_element, element_bounds in Hi. unfold lstart in *. lia.
Qed.

Section Moved.
  Context {U : unicode} {root : elem} {x : lelem} {up inner : list lelem} {K L : skind} {om : nat} {head l tail : list elem} {outer : list lelem} {own j : str}.
  Hypothesis HU : unicode_ok U.
  Hypothesis W : within U root x up inner K L om head l tail outer own j.
  Lemma within_item : item_node (snd x) = true.
  Proof. rewrite an_item_eq. exact (proj1 (wi_items _ _ _ _ _ _ _ _ _ _ _ _ _ _ W)). Qed.
  Lemma within_outer_item : item_node (item_with K L head l tail) = true.
  Proof. rewrite an_item_eq. exact (proj2 (wi_items _ _ _ _ _ _ _ _ _ _ _ _ _ _ W)). Qed.
  Lemma within_prev : exists prev, prev_element x up = prev /\ indented_by U prev own.
  Proof.
    destruct W as [[Hp Hf] Ha Hu Hh Hi (prev & Hb & Hin) _]. exists prev. split; [|exact Hin]. exact (prev_spec U root x up prev Hp Hf Ha within_item Hb).
  Qed.
  Lemma within_inner : inner_indent U ((om, item_with K L head l tail), outer) = member_indent j /\ all_white U (member_indent j) /\ ~ In c_nl (member_indent j).
  Proof.
    destruct W as [[Hp Hf] Ha Hu Hh Hi _ (prev & Hb & Hin)]. split; [|exact (member_white U prev j HU Hin)]. unfold inner_indent. cbn [fst snd].
    assert (Am : around root (om, item_with K L head l tail) outer) by (apply (around_up root x up Ha (inner ++ [(om + bytes (texts_of head), braced L l)])); rewrite <- app_assoc; exact Hu).
    rewrite (prev_spec U root _ outer prev Hp Hf Am within_outer_item Hb). exact (member_indent_spec U prev j Hin).
  Qed.
  Lemma moved_spec P n target before after : at_split (om + bytes (texts_of head)) l P n -> all_white U target -> ~ In c_nl target ->
    moved_to P U root x K L om head l tail own target (match before with Some b => b | None => [] end) (match after with Some b => b | None => [] end)
      (move_item U (x, up) n target (before, after)).
  Proof.
    intros (a & b & El & HP & En) Ht Hn. destruct within_prev as (prev & Ep & Hi).
    destruct (moved_in root x up inner outer K L om head l tail (wi_around _ _ _ _ _ _ _ _ _ _ _ _ _ _ W) (wi_up _ _ _ _ _ _ _ _ _ _ _ _ _ _ W) (item_not_tok _ within_item) a b
      (moved_text U prev (text_of (snd x)) (Some target) before after) El) as (a' & b' & Hc & Hm).
    exists a, b, a', b'. eexists. split; [exact El|]. split; [exact HP|]. split; [exact Hc|]. split; [apply (carried_spec U prev own target before after x HU Hi Ht Hn)|].
    intros new Hnew. destruct (Hm new Hnew) as (result & Hr & Hb). exists result. split; [|exact Hb]. unfold move_item. cbn [fst snd]. rewrite Ep, En. exact Hr.
  Qed.
  Lemma within_list : child_node L (om, item_with K L head l tail) = Some (om + bytes (texts_of head), braced L l).
  Proof. apply list_child_at. exact (wi_list _ _ _ _ _ _ _ _ _ _ _ _ _ _ W). Qed.
  (** The item around [x] is inside the braces, if there is one there. *)
  Lemma within_parent : (exists y, In y inner /\ an_item (snd y) = true) ->
    exists y l3, parent_item (x, up) = Some (y, l3 ++ (om + bytes (texts_of head), braced L l) :: (om, item_with K L head l tail) :: outer) /\ In y inner /\ om < fst y.
  Proof.
    intros (y0 & Hy0 & Iy0). destruct W as [_ Ha Hu Hh Hi _ _].
    destruct (closest_first item_at inner) with (l2 := (om + bytes (texts_of head), braced L l) :: (om, item_with K L head l tail) :: outer) as (l1 & y & l3 & E & Iy & Ec).
    { exists y0. split; [exact Hy0|]. unfold item_at. rewrite an_item_eq. exact Iy0. }
    exists y, l3. unfold parent_item. cbn [fst snd]. rewrite Hu, Ec. rewrite (item_not_attr x within_item). split; [reflexivity|]. split; [rewrite E; apply in_or_app; right; left; reflexivity|].
    refine (starts_later root y l3 om K L head l tail outer _ (item_not_tok _ Iy)).
    apply (around_up root x up Ha l1). rewrite Hu, E, <- app_assoc. reflexivity.
  Qed.
  Lemma within_root : (forall y, In y inner -> an_item (snd y) = false) -> an_item (braced L l) = false -> parent_item (x, up) = Some ((om, item_with K L head l tail), outer).
  Proof.
    intros Hn Hl. destruct W as [_ Ha Hu Hh Hi _ _]. unfold parent_item. cbn [fst snd].
    assert (Hm : item_at (om, item_with K L head l tail) = true) by (exact within_outer_item).
    change (inner ++ (om + bytes (texts_of head), braced L l) :: (om, item_with K L head l tail) :: outer) with (inner ++ [(om + bytes (texts_of head), braced L l)] ++ (om, item_with K L head l tail) :: outer) in Hu.
    rewrite app_assoc in Hu. rewrite Hu, closest_app; [rewrite (item_not_attr x within_item); reflexivity | | exact Hm].
    intros e He. unfold item_at. rewrite an_item_eq. apply in_app_or in He as [He|[<-|[]]]; [exact (Hn e He) | exact Hl].
  Qed.
End Moved.

(** ** Other places *)

Lemma move_back p q B txt x : fst x = bytes p ->
  performed ((p ++ text_of (snd x) ++ q) ++ B) [edit_insert txt (bytes (p ++ text_of (snd x) ++ q)); edit_delete (lrange_of x)] (p ++ q ++ txt ++ B).
Proof.
  intros E. eexists. split; [apply swap2|]. rewrite <- !app_assoc.
  apply (proj2 (perform_two 0 p [] q B txt (text_of (snd x)) (edit_insert txt _) (edit_delete (lrange_of x)) eq_refl eq_refl)).
  cbn [te_range edit_insert edit_insert_snippet edit_delete]. unfold lrange_of, lstart, lend, len_of, at_offset. rewrite E, !bytes_app. split; f_equal; lia.
Qed.
Lemma move_front A p q txt x : fst x = bytes (A ++ p) ->
  performed (A ++ p ++ text_of (snd x) ++ q) [edit_insert txt (bytes A); edit_delete (lrange_of x)] (A ++ txt ++ p ++ q).
Proof.
  intros E. eexists. split; [apply Permutation_refl|].
  apply (proj1 (perform_two 0 A p q [] txt (text_of (snd x)) (edit_insert txt _) (edit_delete (lrange_of x)) eq_refl eq_refl)).
  cbn [te_range edit_insert edit_insert_snippet edit_delete]. unfold lrange_of, lstart, lend, len_of, at_offset. rewrite E, !bytes_app. split; f_equal; lia.
Qed.
Lemma item_text K L head l tail : text_of (item_with K L head l tail) = texts_of head ++ lit "{" ++ texts_of l ++ lit "}" ++ texts_of tail.
Proof.
  unfold item_with. change (text_of (Node K (head ++ braced L l :: tail))) with (texts_of (head ++ braced L l :: tail)). rewrite texts_of_app.
  change (texts_of (braced L l :: tail)) with ((lit "{" ++ texts_of (l ++ [rbrace])) ++ texts_of tail). rewrite texts_of_app, <- !app_assoc. reflexivity.
Qed.
Lemma node_text k l : text_of (Node k l) = texts_of l.
Proof. reflexivity. Qed.
Lemma texts_cons e l : texts_of (e :: l) = text_of e ++ texts_of l.
Proof. reflexivity. Qed.
Lemma elem_text root e up : around root e up -> exists pre post, text_of root = pre ++ text_of (snd e) ++ post /\ bytes pre = fst e.
Proof.
  intros Ha. destruct (leaves_inside _ _ _ _ Ha) as (pre & post & E & B). cbn [snd] in E. exists (text pre), (text post). split; [|exact B].
  rewrite <- text_leaves, E. unfold text. rewrite !flat_map_app. fold (text (leaves (snd e))). rewrite text_leaves. reflexivity.
Qed.

(** Next to the item *)
Section Beside.
  Context {U : unicode} {root : elem} {x : lelem} {c : lelem} {rest : list lelem} {k : skind} {oc : nat} {l1 l2 l3 ih l it : list elem}.
  Hypothesis Ha : around root x (c :: rest).
  Let I l := item_with IMPL ASSOC_ITEM_LIST ih l it.
  Lemma beside_prev a b txt : c = (oc, Node k (l1 ++ I l :: l2 ++ snd x :: l3)) -> fst x = oc + bytes (texts_of (l1 ++ I l :: l2)) -> l = a ++ b ->
    forall new, text_of new = txt -> exists result,
      performed (text_of root) [edit_insert txt (oc + bytes (texts_of l1) + bytes (texts_of ih) + 1 + bytes (texts_of a)); edit_delete (lrange_of x)] result
      /\ becomes root c (Node k (l1 ++ I (a ++ new :: b) :: l2 ++ l3)) result.
  Proof.
    intros Ec Ex El new En. destruct (elem_text root c rest (around_up root x _ Ha [] c rest eq_refl)) as (pre & post & Et & Bp).
    exists ((pre ++ texts_of l1 ++ texts_of ih ++ lit "{" ++ texts_of a) ++ txt ++ (texts_of b ++ lit "}" ++ texts_of it ++ texts_of l2) ++ texts_of l3 ++ post). subst c. cbn [fst snd] in *. split.
    - replace (text_of root) with ((pre ++ texts_of l1 ++ texts_of ih ++ lit "{" ++ texts_of a) ++ (texts_of b ++ lit "}" ++ texts_of it ++ texts_of l2) ++ text_of (snd x) ++ texts_of l3 ++ post).
      + replace (oc + bytes (texts_of l1) + bytes (texts_of ih) + 1 + bytes (texts_of a)) with (bytes (pre ++ texts_of l1 ++ texts_of ih ++ lit "{" ++ texts_of a)).
        * apply move_front. rewrite Ex, texts_of_app, texts_cons, !bytes_app. unfold I. rewrite item_text, El, texts_of_app, !bytes_app, Bp. lia.
        * rewrite !bytes_app, Bp. change (bytes (lit "{")) with 1. lia.
      + rewrite Et, node_text, texts_of_app, texts_cons, texts_of_app, texts_cons. unfold I. rewrite item_text, El, texts_of_app, <- !app_assoc. reflexivity.
    - exists pre, (text_of (Node k (l1 ++ I l :: l2 ++ snd x :: l3))), post. cbn [fst snd]. split; [exact Et|]. split; [exact Bp|]. split; [rewrite bytes_app, Bp; reflexivity|].
      rewrite (node_text k (l1 ++ I (a ++ new :: b) :: l2 ++ l3)), texts_of_app, texts_cons, texts_of_app. unfold I. rewrite item_text, texts_of_app, texts_cons, En, <- !app_assoc. reflexivity.
  Qed.
  Lemma beside_next a b txt : c = (oc, Node k (l1 ++ snd x :: l2 ++ I l :: l3)) -> fst x = oc + bytes (texts_of l1) -> l = a ++ b ->
    forall new, text_of new = txt -> exists result,
      performed (text_of root) [edit_insert txt (oc + bytes (texts_of (l1 ++ snd x :: l2)) + bytes (texts_of ih) + 1 + bytes (texts_of a)); edit_delete (lrange_of x)] result
      /\ becomes root c (Node k (l1 ++ l2 ++ I (a ++ new :: b) :: l3)) result.
  Proof.
    intros Ec Ex El new En. destruct (elem_text root c rest (around_up root x _ Ha [] c rest eq_refl)) as (pre & post & Et & Bp).
    exists ((pre ++ texts_of l1) ++ (texts_of l2 ++ texts_of ih ++ lit "{" ++ texts_of a) ++ txt ++ texts_of b ++ lit "}" ++ texts_of it ++ texts_of l3 ++ post). subst c. cbn [fst snd] in *. split.
    - replace (text_of root) with (((pre ++ texts_of l1) ++ text_of (snd x) ++ texts_of l2 ++ texts_of ih ++ lit "{" ++ texts_of a) ++ texts_of b ++ lit "}" ++ texts_of it ++ texts_of l3 ++ post).
      + replace (oc + bytes (texts_of (l1 ++ snd x :: l2)) + bytes (texts_of ih) + 1 + bytes (texts_of a)) with (bytes ((pre ++ texts_of l1) ++ text_of (snd x) ++ texts_of l2 ++ texts_of ih ++ lit "{" ++ texts_of a)).
        * apply move_back. rewrite Ex, bytes_app, Bp. reflexivity.
        * rewrite texts_of_app, texts_cons, !bytes_app, Bp. change (bytes (lit "{")) with 1. lia.
      + rewrite Et, node_text, texts_of_app, texts_cons, texts_of_app, texts_cons. unfold I. rewrite item_text, El, texts_of_app, <- !app_assoc. reflexivity.
    - exists pre, (text_of (Node k (l1 ++ snd x :: l2 ++ I l :: l3))), post. cbn [fst snd]. split; [exact Et|]. split; [exact Bp|]. split; [rewrite bytes_app, Bp; reflexivity|].
      rewrite (node_text k (l1 ++ l2 ++ I (a ++ new :: b) :: l3)), texts_of_app, texts_of_app, texts_cons. unfold I. rewrite item_text, texts_of_app, texts_cons, En, <- !app_assoc. reflexivity.
  Qed.
End Beside.

(** Into an item of the same list *)
Lemma moved_into root x up inner K L om head y1 y2 tail outer ih a b it txt :
  let I l := item_with IMPL ASSOC_ITEM_LIST ih l it in
  let l := y1 ++ I (a ++ b) :: y2 in
  around root x up -> up = inner ++ (om + bytes (texts_of head), braced L l) :: (om, item_with K L head l tail) :: outer -> is_tok (snd x) = false ->
  snd x <> I (a ++ b) -> (forall y, In y up -> snd y <> I (a ++ b)) ->
  exists y1' y2', ((cut (om + bytes (texts_of head) + 1) x y1 y1' /\ y2' = y2) \/ (y1' = y1 /\ cut (om + bytes (texts_of head) + 1 + bytes (texts_of (y1 ++ [I (a ++ b)]))) x y2 y2'))
    /\ forall new, text_of new = txt -> exists result,
         performed (text_of root) [edit_insert txt (om + bytes (texts_of head) + 1 + bytes (texts_of y1) + bytes (texts_of ih) + 1 + bytes (texts_of a)); edit_delete (lrange_of x)] result
         /\ becomes root (om, item_with K L head l tail) (item_with K L head (y1' ++ I (a ++ new :: b) :: y2') tail) result.
Proof.
  intros I l Ha Hu Hn Hx Hup. destruct (module_text root x up inner outer K L om head l tail Ha Hu) as (pre & post & Et & Bp). cbn [snd] in Et.
  destruct (in_list root x up inner outer K L om head l tail Ha Hu Hn) as (c & Hc & acc & Hi). unfold l in Hc. rewrite place_app in Hc. apply in_app_or in Hc as [Hc|[Hc|Hc]].
  - destruct (cut_child _ _ _ _ Hi _ _ Hc) as (y1' & Hcut). exists y1', y2. split; [left; auto|]. intros new Hnew. destruct (cut_text _ _ _ _ Hcut) as (p & q & E1 & E2 & E3).
    exists ((pre ++ texts_of head ++ lit "{" ++ p) ++ (q ++ texts_of ih ++ lit "{" ++ texts_of a) ++ txt ++ texts_of b ++ lit "}" ++ texts_of it ++ texts_of y2 ++ lit "}" ++ texts_of tail ++ post). split.
    + replace (text_of root) with (((pre ++ texts_of head ++ lit "{" ++ p) ++ text_of (snd x) ++ q ++ texts_of ih ++ lit "{" ++ texts_of a) ++ texts_of b ++ lit "}" ++ texts_of it ++ texts_of y2 ++ lit "}" ++ texts_of tail ++ post).
      * replace (om + bytes (texts_of head) + 1 + bytes (texts_of y1) + bytes (texts_of ih) + 1 + bytes (texts_of a)) with (bytes ((pre ++ texts_of head ++ lit "{" ++ p) ++ text_of (snd x) ++ q ++ texts_of ih ++ lit "{" ++ texts_of a)).
        -- apply move_back. rewrite !bytes_app, Bp. change (bytes (lit "{")) with 1. lia.
        -- rewrite E1, !bytes_app, Bp. change (bytes (lit "{")) with 1. lia.
      * rewrite Et, item_text. unfold l. rewrite texts_of_app, texts_cons, E1. unfold I. rewrite item_text, texts_of_app, <- !app_assoc. reflexivity.
    + exists pre, (text_of (item_with K L head l tail)), post. cbn [fst snd]. split; [exact Et|]. split; [exact Bp|]. split; [rewrite bytes_app, Bp; reflexivity|].
      rewrite (item_text K L head (y1' ++ I (a ++ new :: b) :: y2) tail), texts_of_app, texts_cons, E2. unfold I. rewrite item_text, texts_of_app, texts_cons, Hnew, <- !app_assoc. reflexivity.
  - exfalso. subst c. remember (om + bytes (texts_of head) + 1 + bytes (texts_of y1), I (a ++ b)) as ci eqn:Ei.
    inversion Hi as [? ? E1 E2 E3 |? o k cs c e ? Hc' Hi' E1 E2 E3]; subst.
    + apply Hx. reflexivity.
    + destruct (inside_split _ _ _ _ Hi') as (l0 & E & _). apply (Hup (o, Node k cs)); [rewrite E; apply in_or_app; right; left; reflexivity|]. cbn [snd]. congruence.
  - replace (om + bytes (texts_of head) + 1 + bytes (texts_of y1) + len_of (I (a ++ b))) with (om + bytes (texts_of head) + 1 + bytes (texts_of (y1 ++ [I (a ++ b)]))) in Hc
      by (rewrite texts_of_app, bytes_app, texts_cons, app_nil_r; unfold len_of; lia). destruct (cut_child _ _ _ _ Hi _ _ Hc) as (y2' & Hcut). exists y1, y2'. split; [right; auto|]. intros new Hnew. destruct (cut_text _ _ _ _ Hcut) as (p & q & E1 & E2 & E3).
    exists ((pre ++ texts_of head ++ lit "{" ++ texts_of y1 ++ texts_of ih ++ lit "{" ++ texts_of a) ++ txt ++ (texts_of b ++ lit "}" ++ texts_of it ++ p) ++ q ++ lit "}" ++ texts_of tail ++ post). split.
    + replace (text_of root) with ((pre ++ texts_of head ++ lit "{" ++ texts_of y1 ++ texts_of ih ++ lit "{" ++ texts_of a) ++ (texts_of b ++ lit "}" ++ texts_of it ++ p) ++ text_of (snd x) ++ q ++ lit "}" ++ texts_of tail ++ post).
      * replace (om + bytes (texts_of head) + 1 + bytes (texts_of y1) + bytes (texts_of ih) + 1 + bytes (texts_of a)) with (bytes (pre ++ texts_of head ++ lit "{" ++ texts_of y1 ++ texts_of ih ++ lit "{" ++ texts_of a)).
        -- apply move_front. rewrite <- E3, texts_of_app, texts_cons. change (texts_of []) with (@nil N). unfold I. rewrite item_text, texts_of_app, !bytes_app, Bp. change (bytes (lit "{")) with 1. change (bytes []) with 0. lia.
        -- rewrite !bytes_app, Bp. change (bytes (lit "{")) with 1. lia.
      * rewrite Et, item_text. unfold l. rewrite texts_of_app, texts_cons, E1. unfold I. rewrite item_text, texts_of_app, <- !app_assoc. reflexivity.
    + exists pre, (text_of (item_with K L head l tail)), post. cbn [fst snd]. split; [exact Et|]. split; [exact Bp|]. split; [rewrite bytes_app, Bp; reflexivity|].
      rewrite (item_text K L head (y1 ++ I (a ++ new :: b) :: y2') tail), texts_of_app, texts_cons, E2. unfold I. rewrite item_text, texts_of_app, texts_cons, Hnew, <- !app_assoc. reflexivity.
Qed.
Lemma around_child root o k cs up c : around root (o, Node k cs) up -> In c (place o cs) -> around root c ((o, Node k cs) :: up).
Proof.
  unfold around. generalize (@nil lelem). intros acc H Hc. remember (o, Node k cs) as e eqn:E. induction H as [acc e|acc o' k' cs' d e up Hd Hi IH]; [subst e; exact (io_child _ _ _ _ _ _ _ Hc (io_here _ _))|].
  exact (io_child _ _ _ _ _ _ _ Hd (IH E)).
Qed.
