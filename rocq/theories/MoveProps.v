(** C101: the quick fix for a misplaced item moves it to its place. *)
From Verif Require ArgCheckModel ArgCheckProofs.
From Coq Require Import List Lia Arith Permutation.
From Verif Require Import Base Unicode PositionModel PositionProofs TranslateModel SyntaxModel CommandModel AttrModel AttrProofs EditModel EditSpec EditProofs UtilModel UtilSpec UtilProofs ArgEditModel ArgEditSpec ArgEditProofs RuleModel RuleSpec RuleProofs EntityModel EntitySpec EntityProofs EntityProps HintModel HintSpec HintProofs
  ExtractModel ExtractSpec ExtractProofs MoveModel MoveSpec MoveProofs.
From Verif Require ExtractProps.
Import ListNotations.

Lemma parent_contract_other U is_contract c p scope q : parent_item p = Some q -> same_node (fst q) (fst c) = false ->
  ensure_parent_contract U is_contract c p scope = Some (option_map (fun l => move_item U p (item_offset_by_scope l scope) (inner_indent U c) (None, None)) (root_list c)).
Proof. intros Ep E. unfold ensure_parent_contract, contract_parent. rewrite Ep. destruct (is_contract (fst q)); [rewrite E|]; reflexivity. Qed.

Section Root.
  Context {U : unicode} {is_contract : lelem -> bool} {root : elem} {x : lelem} {up inner : list lelem} {om : nat} {head l tail : list elem} {outer : list lelem} {own j : str}.
  Let il : lelem := (om + bytes (texts_of head), braced ITEM_LIST l).
  Let m : lelem := (om, item_with MODULE ITEM_LIST head l tail).
  (** An item that is inside another item of the contract is moved to its place in the contract's module. *)
  Theorem C101_contract_root scope : unicode_ok U -> within U root x up inner MODULE ITEM_LIST om head l tail outer own j ->
    is_contract m = true -> (forall y, In y (inner ++ [il]) -> is_contract y = false) -> (exists y, In y inner /\ an_item (snd y) = true) ->
    exists edits, ensure_contract_parent U is_contract (x, up) scope = Some (Some edits)
      /\ moved_to (scope_place scope) U root x MODULE ITEM_LIST om head l tail own (member_indent j) [] [] edits.
  Proof.
    intros HU W Hm Hn Hy. destruct (within_parent W Hy) as (y & l3 & Ep & Iy & _). destruct (within_inner HU W) as (Ei & Hw & Hnl).
    assert (R : root_list (m, outer) = Some il) by (unfold root_list; cbn [fst]; unfold m; rewrite node_at_with; exact (within_list W)).
    exists (move_item U (x, up) (item_offset_by_scope il scope) (member_indent j) (None, None)). split.
    - unfold ensure_contract_parent, contract_parent. rewrite Ep. cbn [fst]. rewrite (Hn y) by (apply in_or_app; left; exact Iy). cbn [is_some]. unfold contract_above. cbn [snd].
      rewrite (wi_up _ _ _ _ _ _ _ _ _ _ _ _ _ _ W). change (inner ++ (om + bytes (texts_of head), braced ITEM_LIST l) :: (om, item_with MODULE ITEM_LIST head l tail) :: outer) with (inner ++ [il] ++ m :: outer).
      rewrite app_assoc, closest_app by assumption. cbn [obind]. rewrite R. cbn [option_map]. match goal with |- context [inner_indent U ?q] => replace (inner_indent U q) with (member_indent j) by (symmetry; exact Ei) end. reflexivity.
    - exact (moved_spec HU W (scope_place scope) _ (member_indent j) None None (scope_split _ l scope) Hw Hnl).
  Qed.
  (** The same for an item that belongs to this contract *)
  Theorem C101_parent_contract scope : unicode_ok U -> within U root x up inner MODULE ITEM_LIST om head l tail outer own j -> (exists y, In y inner /\ an_item (snd y) = true) ->
    exists edits, ensure_parent_contract U is_contract (m, outer) (x, up) scope = Some (Some edits)
      /\ moved_to (scope_place scope) U root x MODULE ITEM_LIST om head l tail own (member_indent j) [] [] edits.
  Proof.
    intros HU W Hy. destruct (within_parent W Hy) as (y & l3 & Ep & Iy & Ly). destruct (within_inner HU W) as (Ei & Hw & Hnl).
    assert (R : root_list (m, outer) = Some il) by (unfold root_list; cbn [fst]; unfold m; rewrite node_at_with; exact (within_list W)).
    exists (move_item U (x, up) (item_offset_by_scope il scope) (member_indent j) (None, None)). split.
    - assert (E : same_node y m = false) by (unfold same_node, range_eqb, lrange_of, lstart, m; cbn [fst snd]; replace (fst y =? om) with false by (symmetry; apply Nat.eqb_neq; lia); reflexivity).
      rewrite (parent_contract_other U is_contract (m, outer) (x, up) scope _ Ep E). rewrite R. cbn [option_map]. match goal with |- context [inner_indent U ?q] => replace (inner_indent U q) with (member_indent j) by (symmetry; exact Ei) end. reflexivity.
    - exact (moved_spec HU W (scope_place scope) _ (member_indent j) None None (scope_split _ l scope) Hw Hnl).
  Qed.
  (** Items right in the contract's module are not reported. *)
  Theorem C101_at_root scope : within U root x up inner MODULE ITEM_LIST om head l tail outer own j -> is_contract m = true -> (forall y, In y inner -> an_item (snd y) = false) ->
    ensure_contract_parent U is_contract (x, up) scope = None /\ ensure_parent_contract U is_contract (m, outer) (x, up) scope = None.
  Proof.
    intros W Hm Hn. unfold ensure_contract_parent, ensure_parent_contract, contract_parent. rewrite (within_root W Hn eq_refl). cbn [fst]. fold m. rewrite Hm. cbn [is_some fst]. split; [reflexivity|].
    replace (same_node m m) with true; [reflexivity|]. unfold same_node, range_eqb. rewrite !Nat.eqb_refl, skind_eqb_refl. reflexivity.
  Qed.
End Root.
(** Outside contracts, there is a report, and nothing to do. *)
Theorem C101_no_contract U is_contract (x : lelem) (up : list lelem) scope : (forall y, In y up -> is_contract y = false) ->
  ensure_contract_parent U is_contract (x, up) scope = Some None.
Proof.
  intros H. unfold ensure_contract_parent, contract_parent, contract_above. cbn [snd].
  assert (E : closest is_contract up = None) by (induction up as [|y l IH]; [reflexivity|]; cbn [closest]; rewrite (H y (or_introl eq_refl)); apply IH; intros z Hz; apply H; right; exact Hz).
  rewrite E. replace (is_some _) with false; [reflexivity|]. unfold parent_item. cbn [fst snd].
  destruct (closest item_at up) as [(it, up')|] eqn:Ec; [|reflexivity].
  assert (Hi : In it up) by (clear -Ec; induction up as [|y l IH]; [discriminate|]; cbn [closest] in Ec; destruct (item_at y); [injection Ec as -> _; left; reflexivity | right; apply IH, Ec]).
  destruct (skind_eqb (lkind x) ATTR); [destruct (existsb _ _)|]; cbn [fst]; rewrite ?(H it Hi); reflexivity.
Qed.

Section Impl.
  Context {U : unicode} {is_contract : lelem -> bool} {read_contract : path -> contract} {root : elem} {x : lelem} {up inner : list lelem} {om : nat} {head l tail : list elem} {outer : list lelem} {own j : str}.
  Let il : lelem := (om + bytes (texts_of head), braced ASSOC_ITEM_LIST l).
  Let m : lelem := (om, item_with IMPL ASSOC_ITEM_LIST head l tail).
  (** A callable that is not right in the impl block around it goes behind the items of the closest one. *)
  Theorem C101_closest_impl : unicode_ok U -> within U root x up inner IMPL ASSOC_ITEM_LIST om head l tail outer own j ->
    lkind x <> FN \/ (exists y, In y inner /\ an_item (snd y) = true) -> (forall y, In y inner -> lkind y <> IMPL) ->
    exists edits, ensure_impl_parent U is_contract read_contract (x, up) = Some (Some edits) /\ ensure_parent_impl U (m, outer) (x, up) = Some (Some edits)
      /\ moved_to assoc_at_end U root x IMPL ASSOC_ITEM_LIST om head l tail own (member_indent j) [] [] edits.
  Proof.
    intros HU W Hy Hn. destruct (within_inner HU W) as (Ei & Hw & Hnl).
    assert (E : parent_impl (x, up) = None).
    { unfold parent_impl, node_at. cbn [fst snd]. destruct (is_node x && skind_eqb (lkind x) FN) eqn:Ef; [|reflexivity]. apply andb_prop in Ef as [_ Ef]. apply skind_eqb_eq in Ef. destruct Hy as [Hy|Hy]; [contradiction|].
      destruct (within_parent W Hy) as (y & l3 & Ep & Iy & _). rewrite Ep. cbn [fst]. destruct (is_node y && skind_eqb (lkind y) IMPL) eqn:Ey; [|reflexivity]. apply andb_prop in Ey as [_ Ey]. apply skind_eqb_eq in Ey. exfalso. exact (Hn y Iy Ey). }
    assert (T : to_impl U (m, outer) (x, up) = Some (move_item U (x, up) (assoc_offset_end il) (member_indent j) (None, None))).
    { unfold to_impl, assoc_list. cbn [fst]. unfold m. rewrite (within_list W). cbn [option_map]; match goal with |- context [inner_indent U ?q] => replace (inner_indent U q) with (member_indent j) by (symmetry; exact Ei) end; reflexivity. }
    exists (move_item U (x, up) (assoc_offset_end il) (member_indent j) (None, None)). split; [|split].
    - unfold ensure_impl_parent. rewrite E. cbn [is_some snd]. rewrite (wi_up _ _ _ _ _ _ _ _ _ _ _ _ _ _ W) at 1.
      change (inner ++ (om + bytes (texts_of head), braced ASSOC_ITEM_LIST l) :: (om, item_with IMPL ASSOC_ITEM_LIST head l tail) :: outer) with (inner ++ [il] ++ m :: outer).
      rewrite app_assoc, closest_app; [cbn [oor obind]; rewrite T; reflexivity| |apply node_at_with].
      intros e He. unfold node_at. apply in_app_or in He as [He|[<-|[]]]; [|reflexivity]. destruct (is_node e); [|reflexivity]. cbn [andb]. destruct (skind_eqb (lkind e) IMPL) eqn:Ek; [|reflexivity]. apply skind_eqb_eq in Ek. exfalso. exact (Hn e He Ek).
    - unfold ensure_parent_impl. rewrite E. cbn [fst]. unfold m at 1. rewrite node_at_with, T. reflexivity.
    - exact (moved_spec HU W assoc_at_end _ (member_indent j) None None (assoc_split _ ASSOC_ITEM_LIST l) Hw Hnl).
  Qed.
  (** What is below an impl block but not right in it, maybe in another one inside of it, is moved into it when it is taken for a part of it. *)
  Theorem C101_parent_impl : unicode_ok U -> within U root x up inner IMPL ASSOC_ITEM_LIST om head l tail outer own j ->
    lkind x <> FN \/ (exists y, In y inner /\ an_item (snd y) = true) ->
    exists edits, ensure_parent_impl U (m, outer) (x, up) = Some (Some edits)
      /\ moved_to assoc_at_end U root x IMPL ASSOC_ITEM_LIST om head l tail own (member_indent j) [] [] edits.
  Proof.
    intros HU W Hy. destruct (within_inner HU W) as (Ei & Hw & Hnl).
    assert (E : match parent_impl (x, up) with Some q => same_node (fst q) m | None => false end = false).
    { unfold parent_impl. cbn [fst snd]. unfold node_at at 1. destruct (is_node x && skind_eqb (lkind x) FN) eqn:Ef; [|reflexivity]. apply andb_prop in Ef as [_ Ef]. apply skind_eqb_eq in Ef. destruct Hy as [Hy|Hy]; [contradiction|].
      destruct (within_parent W Hy) as (y & l3 & Ep & Iy & Ly). rewrite Ep. cbn [fst]. destruct (node_at IMPL y); [|reflexivity]. cbn [fst].
      unfold same_node, range_eqb, lrange_of, lstart, m; cbn [fst snd]. replace (fst y =? om) with false by (symmetry; apply Nat.eqb_neq; lia). reflexivity. }
    assert (T : to_impl U (m, outer) (x, up) = Some (move_item U (x, up) (assoc_offset_end il) (member_indent j) (None, None))).
    { unfold to_impl, assoc_list. cbn [fst]. unfold m. rewrite (within_list W). cbn [option_map]; match goal with |- context [inner_indent U ?q] => replace (inner_indent U q) with (member_indent j) by (symmetry; exact Ei) end; reflexivity. }
    exists (move_item U (x, up) (assoc_offset_end il) (member_indent j) (None, None)). split.
    - unfold ensure_parent_impl. cbn [fst]. rewrite E. unfold m at 1. rewrite node_at_with, T. reflexivity.
    - exact (moved_spec HU W assoc_at_end _ (member_indent j) None None (assoc_split _ ASSOC_ITEM_LIST l) Hw Hnl).
  Qed.
  (** Functions right in an impl block are not reported. *)
  Theorem C101_in_impl : within U root x up inner IMPL ASSOC_ITEM_LIST om head l tail outer own j -> lkind x = FN -> (forall y, In y inner -> an_item (snd y) = false) ->
    ensure_impl_parent U is_contract read_contract (x, up) = None /\ ensure_parent_impl U (m, outer) (x, up) = None.
  Proof.
    intros W Hk Hn. assert (E : parent_impl (x, up) = Some (m, outer)).
    { unfold parent_impl. cbn [fst]. unfold node_at at 1. rewrite Hk. unfold is_node. rewrite (item_not_tok _ (within_item W)). cbn [negb andb skind_eqb].
      rewrite skind_eqb_refl, (within_root W Hn eq_refl). cbn [fst]. rewrite node_at_with. reflexivity. }
    unfold ensure_impl_parent, ensure_parent_impl. rewrite E. cbn [is_some fst]. split; [reflexivity|].
    replace (same_node m m) with true; [reflexivity|]. unfold same_node, range_eqb. rewrite !Nat.eqb_refl, skind_eqb_refl. reflexivity.
  Qed.
End Impl.
(** Of the constructors and messages below an impl block, exactly those are reported that are not functions right in it: constructors
    first, in the order of the file, each with a quick fix that moves it behind the items of the impl block. *)
Theorem C101_callables U root (constructors messages : list path) om head l tail outer j : unicode_ok U ->
  (forall c, In c (constructors ++ messages) -> exists inner own, within U root (fst c) (snd c) inner IMPL ASSOC_ITEM_LIST om head l tail outer own j) ->
  exists misplaced, sifted (fun c => ~ right_in om head l tail outer c) (constructors ++ messages) misplaced
    /\ Forall2 (fun c report => exists edits own, report = Some edits
         /\ moved_to assoc_at_end U root (fst c) IMPL ASSOC_ITEM_LIST om head l tail own (member_indent j) [] [] edits)
       misplaced (ensure_callables_in_root U ((om, item_with IMPL ASSOC_ITEM_LIST head l tail), outer) constructors messages).
Proof.
  intros HU H. unfold ensure_callables_in_root.
  assert (F : forall A B (f : A -> option B) a b, filter_map f a ++ filter_map f b = filter_map f (a ++ b)).
  { intros A B f a b. induction a as [|x a IH]; [reflexivity|]. cbn [filter_map app]. destruct (f x); cbn [app]; rewrite IH; reflexivity. }
  rewrite F. revert H. generalize (constructors ++ messages) as cs. induction cs as [|[x up] cs IH]; intros H.
  - exists []. split; [apply sifted_nil | apply Forall2_nil].
  - destruct (IH (fun c Hc => H c (or_intror Hc))) as (ms & S1 & S2). destruct (H (x, up) (or_introl eq_refl)) as (inner & own & W). cbn [fst snd] in W.
    pose proof (wi_up _ _ _ _ _ _ _ _ _ _ _ _ _ _ W) as Eu. cbn [filter_map].
    assert (D : (lkind x = FN /\ forall y, In y inner -> an_item (snd y) = false) \/ (lkind x <> FN \/ exists y, In y inner /\ an_item (snd y) = true)).
    { destruct (skind_eqb (lkind x) FN) eqn:Ek.
      - apply skind_eqb_eq in Ek. destruct (existsb (fun y => an_item (snd y)) inner) eqn:Ee.
        + right. right. apply existsb_exists in Ee. exact Ee.
        + left. split; [exact Ek|]. intros y Hy. destruct (an_item (snd y)) eqn:Ea; [|reflexivity]. exfalso.
          assert (Q : existsb (fun y => an_item (snd y)) inner = true) by (apply existsb_exists; exists y; auto). congruence.
      - right. left. intros C. rewrite C, skind_eqb_refl in Ek. discriminate. }
    destruct D as [[Hk Hn]|D].
    + destruct (C101_in_impl (is_contract := fun _ => false) (read_contract := fun _ => Contract None None [] []) W Hk Hn) as [_ E].
      match goal with |- context [ensure_parent_impl ?u ?a ?b] => replace (ensure_parent_impl u a b) with (@None (option (list text_edit))) by (symmetry; exact E) end.
      exists ms. split; [|exact S2]. apply sifted_drop; [|exact S1]. intros C. apply C. split; [exact Hk|]. exists inner. split; [exact Eu | exact Hn].
    + destruct (C101_parent_impl HU W D) as (edits & E & M).
      match goal with |- context [ensure_parent_impl ?u ?a ?b] => replace (ensure_parent_impl u a b) with (Some (Some edits)) by (symmetry; exact E) end.
      exists ((x, up) :: ms). split.
      * apply sifted_keep; [|exact S1]. intros (Hk & inner' & Eu' & Hn). cbn [fst snd] in *. destruct D as [D|(y & Hy & Ha)]; [contradiction|].
        rewrite Eu in Eu'. apply app_inv_tail in Eu'. subst inner'. rewrite (Hn y Hy) in Ha. discriminate.
      * constructor; [|exact S2]. exists edits, own. split; [reflexivity | exact M].
Qed.

(** ** Callables outside of impl blocks *)

Lemma impl_false o l : no_impl l -> forall y, In y (place o l) -> node_at IMPL y = false.
Proof.
  intros H y Hy. destruct (in_place _ _ _ Hy) as (l1 & l2 & -> & _). unfold node_at. destruct (is_node y); [|reflexivity]. cbn [andb]. destruct (skind_eqb (lkind y) IMPL) eqn:E; [|reflexivity].
  apply skind_eqb_eq in E. exfalso. apply (H (snd y)); [apply in_or_app; right; left; reflexivity | exact E].
Qed.
Lemma find_none {A} (p : A -> bool) l : (forall y, In y l -> p y = false) -> find p l = None.
Proof. induction l as [|y l IH]; intros H; [reflexivity|]. cbn [find]. rewrite (H y (or_introl eq_refl)). apply IH. intros z Hz. apply H. right. exact Hz. Qed.
Lemma find_skip {A} (p : A -> bool) l y l2 : (forall y, In y l -> p y = false) -> p y = true -> find p (l ++ y :: l2) = Some y.
Proof. intros H Hy. induction l as [|z l IH]; cbn [app find]; [rewrite Hy; reflexivity|]. rewrite (H z (or_introl eq_refl)). apply IH. intros w Hw. apply H. right. exact Hw. Qed.
Lemma from_skip x l l2 : (forall y, In y l -> same_node y x = false) -> from_node x (l ++ x :: l2) = x :: l2.
Proof.
  intros H. induction l as [|z l IH]; cbn [app from_node].
  - replace (same_node x x) with true; [reflexivity|]. unfold same_node, range_eqb. rewrite !Nat.eqb_refl, skind_eqb_refl. reflexivity.
  - rewrite (H z (or_introl eq_refl)). apply IH. intros w Hw. apply H. right. exact Hw.
Qed.
Lemma place_cons' o e l : place o (e :: l) = (o, e) :: place (o + len_of e) l.
Proof. reflexivity. Qed.
Lemma other_node x y : 0 < len_of (snd x) -> lend y <= lstart x \/ lend x <= lstart y -> same_node y x = false.
Proof.
  intros Hx H. unfold same_node, range_eqb, lrange_of. cbn [fst snd]. assert (E : lstart x < lend x) by (unfold lstart, lend; lia).
  destruct (Nat.eqb_spec (lstart y) (lstart x)) as [E1|]; [|reflexivity]. destruct (Nat.eqb_spec (lend y) (lend x)) as [E2|]; [|reflexivity]. lia.
Qed.
Lemma siblings_split (p : path) (c : lelem) (rest : list lelem) oc k l1 l3 : snd p = c :: rest -> c = (oc, Node k (l1 ++ snd (fst p) :: l3)) ->
  fst (fst p) = oc + bytes (texts_of l1) -> 0 < len_of (snd (fst p)) -> is_tok (snd (fst p)) = false ->
  siblings_prev p = fst p :: rev (filter is_node (place oc l1))
  /\ siblings_next p = fst p :: filter is_node (place (oc + bytes (texts_of l1) + len_of (snd (fst p))) l3).
Proof.
  destruct p as [x up]. cbn [fst snd]. intros -> -> Ex Hx Hn. unfold siblings_prev, siblings_next, children_of. cbn [fst snd]. rewrite place_app, place_cons', filter_app. cbn [filter].
  replace (oc + bytes (texts_of l1), snd x) with x by (destruct x; cbn [fst snd] in *; congruence). assert (Hi : is_node x = true) by (unfold is_node; rewrite Hn; reflexivity). rewrite Hi. split.
  - rewrite rev_app_distr. cbn [rev]. rewrite <- app_assoc. apply from_skip. intros y Hy. apply in_rev, filter_In in Hy as [Hy _]. apply other_node; [exact Hx|]. right. apply place_ge in Hy. unfold lend, lstart in *. lia.
  - apply from_skip. intros y Hy. apply filter_In in Hy as [Hy _]. apply other_node; [exact Hx|]. left. apply place_bounds in Hy. unfold lend, lstart in *. lia.
Qed.
Section Beside.
  Context {U : unicode} {is_contract : lelem -> bool} {read_contract : path -> contract} {root : elem} {x c : lelem} {rest : list lelem} {own : str}.
  Hypothesis HU : unicode_ok U.
  Hypothesis H : lies U root x c rest own.
  Hypothesis Ho : outside_impl (c :: rest).
  Lemma lies_item : item_node (snd x) = true.
  Proof. rewrite an_item_eq. exact (proj1 (li_item _ _ _ _ _ _ H)). Qed.
  Lemma lies_prev : exists prev, prev_element x (c :: rest) = prev /\ indented_by U prev own.
  Proof. destruct H as [[Hp Hf] Ha _ (prev & Hb & Hin)]. exists prev. split; [|exact Hin]. exact (prev_spec U root x _ prev Hp Hf Ha lies_item Hb). Qed.
  Lemma lies_len : 0 < len_of (snd x).
  Proof. destruct H as [[_ Hf] Ha _ _]. apply Hf; [exact (inside_element _ _ _ _ Ha) | exact lies_item]. Qed.
  Lemma no_impl_above : closest (node_at IMPL) (c :: rest) = None.
  Proof.
    revert Ho. generalize (c :: rest). intros up Hup. induction up as [|y l IH]; [reflexivity|]. cbn [closest]. replace (node_at IMPL y) with false; [apply IH; intros z Hz; apply Hup; right; exact Hz|].
    unfold node_at. symmetry. apply andb_false_intro2. destruct (skind_eqb (lkind y) IMPL) eqn:E; [|reflexivity]. apply skind_eqb_eq in E. exfalso. exact (Hup y (or_introl eq_refl) E).
  Qed.
  Lemma no_parent_impl : parent_impl (x, c :: rest) = None.
  Proof.
    unfold parent_impl. cbn [fst]. destruct (node_at FN x); [|reflexivity]. unfold parent_item. cbn [fst snd]. rewrite (item_not_attr x lies_item).
    destruct (closest item_at (c :: rest)) as [(it, up')|] eqn:Ec; [|reflexivity]. cbn [fst].
    assert (Hi : In it (c :: rest)) by (revert Ec; generalize (c :: rest); clear; intros up Ec; induction up as [|y l IH]; [discriminate|]; cbn [closest] in Ec; destruct (item_at y); [injection Ec as -> _; left; reflexivity | right; apply IH, Ec]).
    replace (node_at IMPL it) with false; [reflexivity|]. unfold node_at. symmetry. apply andb_false_intro2. destruct (skind_eqb (lkind it) IMPL) eqn:E; [|reflexivity]. apply skind_eqb_eq in E. exfalso. exact (Ho it Hi E).
  Qed.
  Lemma x_not_impl : node_at IMPL x = false.
  Proof. unfold node_at. apply andb_false_intro2. destruct (skind_eqb (lkind x) IMPL) eqn:E; [|reflexivity]. apply skind_eqb_eq in E. exfalso. exact (proj2 (li_item _ _ _ _ _ _ H) E). Qed.

  Context {k : skind} {oc : nat} {l1 l2 l3 ih l it : list elem} {j : str}.
  Let I l := item_with IMPL ASSOC_ITEM_LIST ih l it.
  Lemma to_sibling oI prev : around root (oI, I l) (c :: rest) -> heads ASSOC_ITEM_LIST ih -> right_before (oI, I l) (c :: rest) prev -> indented_by U prev j ->
    to_impl U ((oI, I l), c :: rest) (x, c :: rest) = Some (move_item U (x, c :: rest) (assoc_offset_end (oI + bytes (texts_of ih), braced ASSOC_ITEM_LIST l)) (member_indent j) (None, None)).
  Proof.
    intros Ha Hh Hb Hj. unfold to_impl, assoc_list. cbn [fst]. unfold I. rewrite list_child_at by exact Hh. cbn [option_map]. unfold inner_indent. cbn [fst snd].
    destruct (li_file _ _ _ _ _ _ H) as [Hp Hf]. fold (I l). rewrite (prev_spec U root (oI, I l) (c :: rest) prev Hp Hf Ha eq_refl Hb). rewrite (member_indent_spec U prev j Hj). reflexivity.
  Qed.
  (** A callable outside of impl blocks goes behind the items of the nearest impl block before it, ... *)
  Theorem C101_impl_before prev : c = (oc, Node k (l1 ++ I l :: l2 ++ snd x :: l3)) -> fst x = oc + bytes (texts_of (l1 ++ I l :: l2)) -> no_impl l2 -> heads ASSOC_ITEM_LIST ih ->
    right_before (oc + bytes (texts_of l1), I l) (c :: rest) prev -> indented_by U prev j ->
    exists edits, ensure_impl_parent U is_contract read_contract (x, c :: rest) = Some (Some edits)
      /\ exists a b t, l = a ++ b /\ assoc_at_end a b /\ carried U own (member_indent j) [] [] x t
         /\ forall new, text_of new = t -> exists result, performed (text_of root) edits result /\ becomes root c (Node k (l1 ++ I (a ++ new :: b) :: l2 ++ l3)) result.
  Proof.
    intros Ec Ex Hl2 Hh Hb Hj. destruct (member_white U prev j HU Hj) as (Hw & Hnl). destruct lies_prev as (xp & Ep & Hown). pose proof (li_around _ _ _ _ _ _ H) as Ha.
    assert (AI : around root (oc + bytes (texts_of l1), I l) (c :: rest)).
    { pose proof (around_up root x _ Ha [] c rest eq_refl) as Ac. rewrite Ec in Ac |- *. refine (around_child root _ _ _ _ _ Ac _). rewrite place_app, place_cons'. apply in_or_app. right. left. reflexivity. }
    exists (move_item U (x, c :: rest) (assoc_offset_end (oc + bytes (texts_of l1) + bytes (texts_of ih), braced ASSOC_ITEM_LIST l)) (member_indent j) (None, None)). split.
    - unfold ensure_impl_parent. rewrite no_parent_impl. cbn [is_some snd]. rewrite no_impl_above. cbn [oor].
      assert (Es : sibling_impl (x, c :: rest) = Some ((oc + bytes (texts_of l1), I l), c :: rest)).
      { assert (Ec' : c = (oc, Node k ((l1 ++ I l :: l2) ++ snd x :: l3))) by (rewrite <- app_assoc; exact Ec).
        destruct (siblings_split (x, c :: rest) c rest oc k (l1 ++ I l :: l2) l3 eq_refl Ec' Ex lies_len (item_not_tok _ lies_item)) as [S1 _].
        unfold sibling_impl. rewrite S1.
        cbn [find fst]. rewrite x_not_impl. rewrite place_app, filter_app, place_cons', rev_app_distr. cbn [filter]. unfold is_node at 1. cbn [snd is_tok negb I item_with]. cbn [rev]. rewrite <- app_assoc. cbn [app].
        rewrite find_skip; [reflexivity| |reflexivity]. intros y Hy. apply in_rev, filter_In in Hy as [Hy _]. exact (impl_false _ _ Hl2 y Hy). }
      rewrite Es. cbn [obind]. rewrite (to_sibling _ prev AI Hh Hb Hj). reflexivity.
    - destruct (assoc_split (oc + bytes (texts_of l1) + bytes (texts_of ih)) ASSOC_ITEM_LIST l) as (a & b & El & Hp & En). exists a, b. eexists. split; [exact El|]. split; [exact Hp|].
      split; [exact (carried_spec U xp own (member_indent j) None None x HU Hown Hw Hnl)|]. intros new Hnew. destruct (beside_prev Ha a b _ Ec Ex El new Hnew) as (result & Hr & Hbc). exists result. split; [|exact Hbc].
      unfold move_item. cbn [fst snd]. rewrite Ep, En. exact Hr.
  Qed.
  (** ... or else of the nearest one behind it. *)
  Theorem C101_impl_behind prev : c = (oc, Node k (l1 ++ snd x :: l2 ++ I l :: l3)) -> fst x = oc + bytes (texts_of l1) -> no_impl l1 -> no_impl l2 -> heads ASSOC_ITEM_LIST ih ->
    right_before (oc + bytes (texts_of (l1 ++ snd x :: l2)), I l) (c :: rest) prev -> indented_by U prev j ->
    exists edits, ensure_impl_parent U is_contract read_contract (x, c :: rest) = Some (Some edits)
      /\ exists a b t, l = a ++ b /\ assoc_at_end a b /\ carried U own (member_indent j) [] [] x t
         /\ forall new, text_of new = t -> exists result, performed (text_of root) edits result /\ becomes root c (Node k (l1 ++ l2 ++ I (a ++ new :: b) :: l3)) result.
  Proof.
    intros Ec Ex Hl1 Hl2 Hh Hb Hj. destruct (member_white U prev j HU Hj) as (Hw & Hnl). destruct lies_prev as (xp & Ep & Hown). pose proof (li_around _ _ _ _ _ _ H) as Ha.
    assert (AI : around root (oc + bytes (texts_of (l1 ++ snd x :: l2)), I l) (c :: rest)).
    { pose proof (around_up root x _ Ha [] c rest eq_refl) as Ac. rewrite Ec in Ac |- *. refine (around_child root _ _ _ _ _ Ac _).
      change (l1 ++ snd x :: l2 ++ I l :: l3) with (l1 ++ (snd x :: l2) ++ I l :: l3). rewrite app_assoc, place_app, place_cons'. apply in_or_app. right. left. reflexivity. }
    exists (move_item U (x, c :: rest) (assoc_offset_end (oc + bytes (texts_of (l1 ++ snd x :: l2)) + bytes (texts_of ih), braced ASSOC_ITEM_LIST l)) (member_indent j) (None, None)). split.
    - unfold ensure_impl_parent. rewrite no_parent_impl. cbn [is_some snd]. rewrite no_impl_above. cbn [oor].
      assert (Es : sibling_impl (x, c :: rest) = Some ((oc + bytes (texts_of (l1 ++ snd x :: l2)), I l), c :: rest)).
      { destruct (siblings_split (x, c :: rest) c rest oc k l1 (l2 ++ I l :: l3) eq_refl Ec Ex lies_len (item_not_tok _ lies_item)) as [S1 S2].
        unfold sibling_impl. rewrite S1, S2. cbn [find fst]. rewrite x_not_impl. rewrite find_none by (intros y Hy; apply in_rev, filter_In in Hy as [Hy _]; exact (impl_false _ _ Hl1 y Hy)). cbn [oor].
        rewrite place_app, filter_app, place_cons'. cbn [filter]. unfold is_node at 2. cbn [snd is_tok negb I item_with].
        rewrite find_skip; [|intros y Hy; apply filter_In in Hy as [Hy _]; exact (impl_false _ _ Hl2 y Hy)|reflexivity]. cbn [option_map snd]. do 3 f_equal. rewrite texts_of_app, texts_cons, !bytes_app. unfold len_of. lia. }
      rewrite Es. cbn [obind]. rewrite (to_sibling _ prev AI Hh Hb Hj). reflexivity.
    - destruct (assoc_split (oc + bytes (texts_of (l1 ++ snd x :: l2)) + bytes (texts_of ih)) ASSOC_ITEM_LIST l) as (a & b & El & Hp & En). exists a, b. eexists. split; [exact El|]. split; [exact Hp|].
      split; [exact (carried_spec U xp own (member_indent j) None None x HU Hown Hw Hnl)|]. intros new Hnew. destruct (beside_next Ha a b _ Ec Ex El new Hnew) as (result & Hr & Hbc). exists result. split; [|exact Hbc].
      unfold move_item. cbn [fst snd]. rewrite Ep, En. exact Hr.
  Qed.
End Beside.

Section NewImpl.
  Context {U : unicode} {is_contract : lelem -> bool} {read_contract : path -> contract} {root : elem} {x c : lelem} {rest inner : list lelem} {om : nat} {head l tail : list elem} {outer : list lelem} {own j : str}.
  Let il : lelem := (om + bytes (texts_of head), braced ITEM_LIST l).
  Let m : lelem := (om, item_with MODULE ITEM_LIST head l tail).
  Hypothesis HU : unicode_ok U.
  Hypothesis W : within U root x (c :: rest) inner MODULE ITEM_LIST om head l tail outer own j.
  (** It is outside of impl blocks, there are none next to it, and it is in a contract. *)
  Hypothesis Hx : lkind x <> IMPL.
  Hypothesis Ho : outside_impl (c :: rest).
  Context {k : skind} {oc : nat} {l1 l3 : list elem}.
  Hypothesis Hc : c = (oc, Node k (l1 ++ snd x :: l3)) /\ fst x = oc + bytes (texts_of l1) /\ no_impl l1 /\ no_impl l3.
  Hypothesis Hm : is_contract m = true.
  Hypothesis Hn : forall y, In y (inner ++ [il]) -> is_contract y = false.
  Lemma within_lies : lies U root x c rest own.
  Proof. destruct W as [Hf Ha Hu Hh [Hi _] Hown _]. split; [exact Hf | exact Ha | exact (conj Hi Hx) | exact Hown]. Qed.
  Lemma from_contract : ensure_impl_parent U is_contract read_contract (x, c :: rest)
    = Some (option_map (fun r => move_item U (x, c :: rest) (fst r) (fst (snd r)) (snd (snd r))) (callable_place U (read_contract (m, outer)))).
  Proof.
    pose proof within_lies as H. destruct Hc as (Ec & Ex & H1 & H3).
    assert (Es : sibling_impl (x, c :: rest) = None).
    { destruct (siblings_split (x, c :: rest) c rest oc k l1 l3 eq_refl Ec Ex (lies_len H) (item_not_tok _ (lies_item H))) as [S1 S2]. unfold sibling_impl. rewrite S1, S2. cbn [find fst]. rewrite (x_not_impl H).
      rewrite find_none by (intros y Hy; apply in_rev, filter_In in Hy as [Hy _]; exact (impl_false _ _ H1 y Hy)).
      rewrite find_none by (intros y Hy; apply filter_In in Hy as [Hy _]; exact (impl_false _ _ H3 y Hy)). reflexivity. }
    assert (Ea : contract_above is_contract (x, c :: rest) = Some (m, outer)).
    { unfold contract_above. cbn [snd]. rewrite (wi_up _ _ _ _ _ _ _ _ _ _ _ _ _ _ W). change (inner ++ (om + bytes (texts_of head), braced ITEM_LIST l) :: (om, item_with MODULE ITEM_LIST head l tail) :: outer) with (inner ++ [il] ++ m :: outer).
      rewrite app_assoc. apply closest_app; assumption. }
    unfold ensure_impl_parent. rewrite (no_parent_impl H Ho), Es. cbn [is_some snd]. rewrite (no_impl_above Ho). cbn [oor obind]. rewrite Ea. reflexivity.
  Qed.
  (** Without an impl block for it in the contract, a callable gets a new one. *)
  Theorem C101_new_impl prev : ct_module (read_contract (m, outer)) = Some (ItemAt prev m) -> indented_by U prev j -> has_name (read_contract (m, outer)) head ->
    (forall e, In e l -> ~ inherent e) -> (forall i, In i (ct_impls (read_contract (m, outer))) -> exists cs, snd (im_item i) = Node IMPL cs /\ 2 <= length (filter type_elem cs)) ->
    exists name edits, contract_named (read_contract (m, outer)) head name
      /\ ensure_impl_parent U is_contract read_contract (x, c :: rest) = Some (Some edits)
      /\ moved_to for_impl U root x MODULE ITEM_LIST om head l tail own (member_indent j ++ lit "    ") (impl_before (member_indent j) name) (impl_after (member_indent j)) edits.
  Proof.
    intros Ec Hj Hname Hl Himpls. destruct (member_white U prev j HU Hj) as (Hw & Hnl).
    assert (Am : around root m outer) by (apply (around_up root x _ (wi_around _ _ _ _ _ _ _ _ _ _ _ _ _ _ W) (inner ++ [il])); rewrite <- app_assoc; exact (wi_up _ _ _ _ _ _ _ _ _ _ _ _ _ _ W)).
    destruct (leaves_inside _ _ _ _ Am) as (pre & post & _ & Bp). cbn [fst] in Bp. change (bytes (text pre) = om) in Bp.
    assert (Ep : Some (ItemAt prev m) = Some (placed pre prev MODULE ITEM_LIST head l tail)) by (unfold placed, at_place, m; rewrite Bp; reflexivity).
    rewrite Ep in Ec. destruct (name_known _ _ _ _ _ _ Ec Hname) as (N & EN & HN & _).
    assert (En : new_impl U (read_contract (m, outer)) = Some (member_indent j ++ lit "    ", (impl_before (member_indent j) N, impl_after (member_indent j)))).
    { unfold new_impl. rewrite Ec, EN. unfold children_indent. cbn [placed im_prev]. rewrite (member_indent_spec U prev j Hj). reflexivity. }
    assert (Ei : callable_impl (read_contract (m, outer)) = None).
    { unfold callable_impl, module_list. rewrite Ec. cbn [obind placed im_item]. rewrite EntityProofs.list_child by exact (wi_list _ _ _ _ _ _ _ _ _ _ _ _ _ _ W). cbn [obind]. rewrite (impl_not_found _ ITEM_LIST l Hl). cbn [oor].
      revert Himpls. generalize (ct_impls (read_contract (m, outer))). clear. intros ps Hps. induction ps as [|i ps IH]; [reflexivity|]. cbn [find].
      rewrite of_trait_eq. destruct (Hps i (or_introl eq_refl)) as (cs & -> & Hn). replace (2 <=? length (filter type_elem cs)) with true by (symmetry; apply Nat.leb_le; exact Hn).
      cbn [negb]. apply IH. intros q Hq. apply Hps. right. exact Hq. }
    assert (Ecp : callable_place U (read_contract (m, outer)) = Some (item_offset_impl il, (member_indent j ++ lit "    ", (Some (impl_before (member_indent j) N), Some (impl_after (member_indent j)))))).
    { unfold callable_place. rewrite Ei. cbn [obind]. rewrite En. unfold module_list. rewrite Ec. cbn [obind placed im_item]. rewrite EntityProofs.list_child by exact (wi_list _ _ _ _ _ _ _ _ _ _ _ _ _ _ W). unfold il. rewrite Bp. reflexivity. }
    exists N. eexists. split; [exact HN|]. split; [rewrite from_contract, Ecp; reflexivity|].
    cbn [fst snd]. refine (moved_spec HU W for_impl _ (member_indent j ++ lit "    ") (Some _) (Some _) (impl_split _ ITEM_LIST l) _ _).
    - intros z Hz. apply in_app_or in Hz as [Hz|Hz]; [apply Hw, Hz|]. assert (Ez : z = 32%N) by (vm_compute in Hz; intuition congruence). subst z. rewrite (uo_whitespace U HU) by reflexivity. reflexivity.
    - intros C. apply in_app_or in C as [C|C]; [exact (Hnl C) | vm_compute in C; intuition discriminate].
  Qed.
End NewImpl.

(** In a contract with an impl block for it, a callable goes behind the items of the first one. *)
Section ContractImpl.
  Context {U : unicode} {is_contract : lelem -> bool} {read_contract : path -> contract} {root : elem} {x c : lelem} {rest inner : list lelem} {om : nat} {head y1 ih items it y2 tail : list elem} {outer : list lelem} {own j : str}.
  Let I l := item_with IMPL ASSOC_ITEM_LIST ih l it.
  Let l := y1 ++ I items :: y2.
  Let il : lelem := (om + bytes (texts_of head), braced ITEM_LIST l).
  Let m : lelem := (om, item_with MODULE ITEM_LIST head l tail).
  Theorem C101_contract_impl prev i k oc l1 l3 : unicode_ok U -> within U root x (c :: rest) inner MODULE ITEM_LIST om head l tail outer own j ->
    lkind x <> IMPL -> outside_impl (c :: rest) ->
    c = (oc, Node k (l1 ++ snd x :: l3)) /\ fst x = oc + bytes (texts_of l1) /\ no_impl l1 /\ no_impl l3 ->
    is_contract m = true -> (forall y, In y (inner ++ [il]) -> is_contract y = false) ->
    ct_module (read_contract (m, outer)) = Some (ItemAt prev m) ->
    inherent (I items) -> (forall e, In e y1 -> ~ inherent e) -> heads ASSOC_ITEM_LIST ih -> indented_by U (last_opt (lbrace :: y1)) i ->
    exists edits, ensure_impl_parent U is_contract read_contract (x, c :: rest) = Some (Some edits)
      /\ exists a b t y1' y2', items = a ++ b /\ assoc_at_end a b /\ carried U own (member_indent i) [] [] x t
         /\ ((cut (om + bytes (texts_of head) + 1) x y1 y1' /\ y2' = y2) \/ (y1' = y1 /\ cut (om + bytes (texts_of head) + 1 + bytes (texts_of (y1 ++ [I items]))) x y2 y2'))
         /\ forall new, text_of new = t -> exists result,
              performed (text_of root) edits result /\ becomes root m (item_with MODULE ITEM_LIST head (y1' ++ I (a ++ new :: b) :: y2') tail) result.
  Proof.
    intros HU W Hx Ho Hc Hm Hn Ec HI Hy1 Hh Hi. destruct (member_white U _ i HU Hi) as (Hw & Hnl).
    assert (Ei : callable_impl (read_contract (m, outer)) = Some (ItemAt (last_opt (lbrace :: y1)) (om + bytes (texts_of head) + 1 + lens y1, I items))).
    { unfold callable_impl, module_list. rewrite Ec. cbn [obind im_item]. unfold m. rewrite (within_list W). cbn [obind]. rewrite (impl_found _ ITEM_LIST y1 (I items) y2 Hy1 HI). reflexivity. }
    assert (Ecp : callable_place U (read_contract (m, outer)) = Some (assoc_offset_end (om + bytes (texts_of head) + 1 + lens y1 + bytes (texts_of ih), braced ASSOC_ITEM_LIST items), (member_indent i, (None, None)))).
    { unfold callable_place. rewrite Ei. cbn [obind im_item]. unfold assoc_list, I. rewrite list_child_at by exact Hh. cbn [option_map]. unfold children_indent. cbn [im_prev]. rewrite (member_indent_spec U _ i Hi). reflexivity. }
    exists (move_item U (x, c :: rest) (assoc_offset_end (om + bytes (texts_of head) + 1 + lens y1 + bytes (texts_of ih), braced ASSOC_ITEM_LIST items)) (member_indent i) (None, None)).
    split; [exact (eq_trans (from_contract W Hx Ho Hc Hm Hn) (f_equal (fun r => Some (option_map (fun r => move_item U (x, c :: rest) (fst r) (fst (snd r)) (snd (snd r))) r)) Ecp))|].
    destruct (assoc_split (om + bytes (texts_of head) + 1 + lens y1 + bytes (texts_of ih)) ASSOC_ITEM_LIST items) as (a & b & El & HP & En).
    destruct (within_prev W) as (prev' & Ep & Hown).
    assert (Nx : snd x <> item_with IMPL ASSOC_ITEM_LIST ih (a ++ b) it) by (intros E; apply Hx; unfold lkind; rewrite E; reflexivity).
    assert (Nup : forall y, In y (c :: rest) -> snd y <> item_with IMPL ASSOC_ITEM_LIST ih (a ++ b) it) by (intros y Hy E; apply (Ho y Hy); unfold lkind; rewrite E; reflexivity).
    pose proof (wi_up _ _ _ _ _ _ _ _ _ _ _ _ _ _ W) as Hu. unfold l, I in Hu. rewrite El in Hu.
    destruct (moved_into root x (c :: rest) inner MODULE ITEM_LIST om head y1 y2 tail outer ih a b it (moved_text U prev' (text_of (snd x)) (Some (member_indent i)) None None)
      (wi_around _ _ _ _ _ _ _ _ _ _ _ _ _ _ W) Hu (item_not_tok _ (within_item W)) Nx Nup) as (y1' & y2' & Hcut & Hmv).
    exists a, b. eexists. exists y1', y2'. split; [exact El|]. split; [exact HP|]. split; [exact (carried_spec U prev' own (member_indent i) None None x HU Hown Hw Hnl)|].
    split; [unfold I; rewrite El; exact Hcut|]. intros new Hnew. destruct (Hmv new Hnew) as (result & Hr & Hb). exists result. split; [|unfold m, l, I; rewrite El; exact Hb].
    unfold move_item. cbn [fst snd]. rewrite Ep, En. exact Hr.
  Qed.
End ContractImpl.

(** ** Examples *)

Definition fn_ (name : string) (body : list elem) : elem :=
  Node FN [Tok FN_KW (lit "fn"); ExtractProps.w_ " "; Node NAME [ExtractProps.id_ name]; Tok L_PAREN (lit "("); Tok R_PAREN (lit ")"); ExtractProps.w_ " ";
    Node (OTHER 1) (lbrace :: body ++ [rbrace])].
Definition struct_ (name : string) : elem := Node STRUCT [Tok STRUCT_KW (lit "struct"); ExtractProps.w_ " "; Node NAME [ExtractProps.id_ name]; Tok SEMICOLON (lit ";")].
Definition ihead_ : list elem := [Tok IMPL_KW (lit "impl"); ExtractProps.w_ " "; Node (OTHER 138) [ExtractProps.id_ "T"]; ExtractProps.w_ " "].
Definition impl_ (items : list elem) : elem := item_with IMPL ASSOC_ITEM_LIST ihead_ items [].
Definition mhead_ : list elem := [Tok MOD_KW (lit "mod"); ExtractProps.w_ " "; Node NAME [ExtractProps.id_ "m"]; ExtractProps.w_ " "].
Definition mod_ (items : list elem) : elem := item_with MODULE ITEM_LIST mhead_ items [].
Definition contract_ (e : lelem) : bool := skind_eqb (lkind e) MODULE.
Notation ws := ExtractProps.ws_.
Notation AU := ascii_unicode.
(** mod m {
        fn f() {
            struct S;
            fn a() {}
        }
        impl T {
            fn g() {
                fn h() {}
            }
        }
        fn k() {}
    } *)
Definition f_ := fn_ "f" [ws 8; struct_ "S"; ws 8; fn_ "a" []; ws 4].
Definition g_ := fn_ "g" [ws 12; fn_ "h" []; ws 8].
Definition items1_ := [ws 4; f_; ws 4; impl_ [ws 8; g_; ws 4]; ws 4; fn_ "k" []; ws 0].
Definition root1_ := Node SOURCE_FILE [mod_ items1_; ws 0].
Definition outer1_ : list lelem := [(0, root1_)].
Ltac memb := vm_compute; repeat (first [left; reflexivity | right]).
Ltac spaces := apply (ib_some _ _ _ 32%N); [intros ? [<-|Hc]; [reflexivity | apply repeat_spec in Hc; subst; reflexivity]| |intros ? Hx; apply repeat_spec in Hx; exact Hx];
  split; [intros Hc; apply repeat_spec in Hc; discriminate Hc | right; exists []; reflexivity].
Ltac none := apply ib_none; discriminate.
Ltac before n := cbn [app right_before outer1_]; match goal with |- exists k cs l1 l2, snd ?p = _ /\ _ =>
  exists (kind_of (snd p)), (match snd p with Node _ cs => cs | Tok _ _ => [] end), (firstn n (place (fst p) (match snd p with Node _ cs => cs | Tok _ _ => [] end))), (skipn (S n) (place (fst p) (match snd p with Node _ cs => cs | Tok _ _ => [] end)));
  split; [reflexivity|]; split; [vm_compute; reflexivity|] end.
Ltac before_ws n o := before (S n); cbv beta iota; match goal with |- exists l o, firstn _ ?L = _ => exists (firstn n L), o; vm_compute; reflexivity end.
Ltac file := split; [apply ExtractProps.root_parsed; vm_compute; reflexivity | apply ExtractProps.root_full; vm_compute; reflexivity].

Definition m1_ : lelem := (0, mod_ items1_).
Definition il1_ : lelem := (6, braced ITEM_LIST items1_).
Definition body1_ : lelem := (19, Node (OTHER 1) (lbrace :: [ws 8; struct_ "S"; ws 8; fn_ "a" []; ws 4] ++ [rbrace])).
Example example_struct : within AU root1_ (29, struct_ "S") ([body1_; (12, f_)] ++ il1_ :: m1_ :: outer1_) [body1_; (12, f_)] MODULE ITEM_LIST 0 mhead_ items1_ [] outer1_ (repeat 32%N 8) []
  /\ contract_ m1_ = true /\ (forall y, In y ([body1_; (12, f_)] ++ [il1_]) -> contract_ y = false) /\ (exists y, In y [body1_; (12, f_)] /\ an_item (snd y) = true).
Proof.
  split; [constructor|].
  - file.
  - apply (io_child _ _ _ _ m1_); [memb|]. apply (io_child _ _ _ _ il1_); [memb|]. apply (io_child _ _ _ _ (12, f_)); [memb|]. apply (io_child _ _ _ _ body1_); [memb|]. apply (io_child _ _ _ _ (29, struct_ "S")); [memb|]. constructor.
  - reflexivity.
  - intros cs Hc. repeat destruct Hc as [Hc|Hc]; try discriminate. destruct Hc.
  - split; reflexivity.
  - exists (Some (ws 8)). split; [before_ws 1 20 | spaces].
  - exists None. split; [before 0; reflexivity | none].
  - split; [reflexivity|]. split; [intros y Hy; repeat destruct Hy as [<-|Hy]; try reflexivity; destruct Hy|]. exists (12, f_). split; [right; left; reflexivity | reflexivity].
Qed.
(** It goes right behind the brace of the module. *)
Definition moves (r : report) : list (trange * str) := match r with Some (Some es) => map (fun e => (te_range e, te_text e)) es | _ => [] end.
Example example_struct_moved :
  moves (ensure_contract_parent AU contract_ ((29, struct_ "S"), [body1_; (12, f_)] ++ il1_ :: m1_ :: outer1_) (lit "event")) = [((7, 7), lit "    struct S;"); ((29, 38), [])].
Proof. vm_compute. reflexivity. Qed.

Definition assoc1_ : lelem := (74, braced ASSOC_ITEM_LIST [ws 8; g_; ws 4]).
Definition impl1_ : lelem := (67, impl_ [ws 8; g_; ws 4]).
Definition gbody_ : lelem := (91, Node (OTHER 1) (lbrace :: [ws 12; fn_ "h" []; ws 8] ++ [rbrace])).
Example example_nested : within AU root1_ (105, fn_ "h" []) ([gbody_; (84, g_)] ++ assoc1_ :: impl1_ :: il1_ :: m1_ :: outer1_) [gbody_; (84, g_)] IMPL ASSOC_ITEM_LIST 67 ihead_ [ws 8; g_; ws 4] []
    (il1_ :: m1_ :: outer1_) (repeat 32%N 12) (repeat 32%N 4)
  /\ (exists y, In y [gbody_; (84, g_)] /\ an_item (snd y) = true) /\ (forall y, In y [gbody_; (84, g_)] -> lkind y <> IMPL).
Proof.
  split; [constructor|].
  - file.
  - apply (io_child _ _ _ _ m1_); [memb|]. apply (io_child _ _ _ _ il1_); [memb|]. apply (io_child _ _ _ _ impl1_); [memb|]. apply (io_child _ _ _ _ assoc1_); [memb|].
    apply (io_child _ _ _ _ (84, g_)); [memb|]. apply (io_child _ _ _ _ gbody_); [memb|]. apply (io_child _ _ _ _ (105, fn_ "h" [])); [memb|]. constructor.
  - reflexivity.
  - intros cs Hc. repeat destruct Hc as [Hc|Hc]; try discriminate. destruct Hc.
  - split; reflexivity.
  - exists (Some (ws 12)). split; [before_ws 1 92 | spaces].
  - exists (Some (ws 4)). split; [before_ws 3 62 | spaces].
  - split; [exists (84, g_); split; [right; left; reflexivity | reflexivity]|]. intros y Hy. repeat destruct Hy as [<-|Hy]; try discriminate. destruct Hy.
Qed.
Definition no_contract : path -> contract := fun _ => Contract None None [] [].
Example example_nested_moved :
  moves (ensure_impl_parent AU contract_ no_contract ((105, fn_ "h" []), [gbody_; (84, g_)] ++ assoc1_ :: impl1_ :: il1_ :: m1_ :: outer1_)) = [((124, 124), lit "        fn h() {}"); ((105, 114), [])].
Proof. vm_compute. reflexivity. Qed.
(** [fn g] as a constructor and [fn h] within it as a message: only [fn h] is reported. *)
Example example_callables : within AU root1_ (84, g_) ([] ++ assoc1_ :: impl1_ :: il1_ :: m1_ :: outer1_) [] IMPL ASSOC_ITEM_LIST 67 ihead_ [ws 8; g_; ws 4] []
    (il1_ :: m1_ :: outer1_) (repeat 32%N 8) (repeat 32%N 4)
  /\ map (fun r => moves (Some r)) (ensure_callables_in_root AU (impl1_, il1_ :: m1_ :: outer1_) [((84, g_), assoc1_ :: impl1_ :: il1_ :: m1_ :: outer1_)]
       [((105, fn_ "h" []), [gbody_; (84, g_)] ++ assoc1_ :: impl1_ :: il1_ :: m1_ :: outer1_)]) = [[((124, 124), lit "        fn h() {}"); ((105, 114), [])]].
Proof.
  split; [constructor|].
  - file.
  - apply (io_child _ _ _ _ m1_); [memb|]. apply (io_child _ _ _ _ il1_); [memb|]. apply (io_child _ _ _ _ impl1_); [memb|]. apply (io_child _ _ _ _ assoc1_); [memb|].
    apply (io_child _ _ _ _ (84, g_)); [memb|]. constructor.
  - reflexivity.
  - intros cs Hc. repeat destruct Hc as [Hc|Hc]; try discriminate. destruct Hc.
  - split; reflexivity.
  - exists (Some (ws 8)). split; [before_ws 1 75 | spaces].
  - exists (Some (ws 4)). split; [before_ws 3 62 | spaces].
  - vm_compute. reflexivity.
Qed.
(** [fn k] is next to the impl block. *)
Example example_beside : lies AU root1_ (135, fn_ "k" []) il1_ (m1_ :: outer1_) (repeat 32%N 4) /\ outside_impl (il1_ :: m1_ :: outer1_)
  /\ il1_ = (6, Node ITEM_LIST ([lbrace; ws 4; f_; ws 4] ++ impl_ [ws 8; g_; ws 4] :: [ws 4] ++ fn_ "k" [] :: [ws 0; rbrace]))
  /\ 135 = 6 + bytes (texts_of ([lbrace; ws 4; f_; ws 4] ++ impl_ [ws 8; g_; ws 4] :: [ws 4])) /\ no_impl [ws 4] /\ heads ASSOC_ITEM_LIST ihead_
  /\ right_before (6 + bytes (texts_of [lbrace; ws 4; f_; ws 4]), impl_ [ws 8; g_; ws 4]) (il1_ :: m1_ :: outer1_) (Some (ws 4)) /\ indented_by AU (Some (ws 4)) (repeat 32%N 4).
Proof.
  split; [constructor|].
  - file.
  - apply (io_child _ _ _ _ m1_); [memb|]. apply (io_child _ _ _ _ il1_); [memb|]. apply (io_child _ _ _ _ (135, fn_ "k" [])); [memb|]. constructor.
  - split; [reflexivity | discriminate].
  - exists (Some (ws 4)). split; [before_ws 5 130 | spaces].
  - split; [intros y Hy; repeat destruct Hy as [<-|Hy]; try discriminate; destruct Hy|]. split; [reflexivity|]. split; [vm_compute; reflexivity|].
    split; [intros e [<-|[]]; discriminate|]. split; [intros cs Hc; repeat destruct Hc as [Hc|Hc]; try discriminate; destruct Hc|].
    split; [before_ws 3 62 | spaces].
Qed.
(** [fn a] is in another function; the contract has an impl block. *)
Definition known1_ : path -> contract := fun _ => Contract (Some (ItemAt None m1_)) (Some (lit "T")) [] [].
Example example_contract_impl : within AU root1_ (47, fn_ "a" []) (body1_ :: (12, f_) :: il1_ :: m1_ :: outer1_) [body1_; (12, f_)] MODULE ITEM_LIST 0 mhead_ ([ws 4; f_; ws 4] ++ impl_ [ws 8; g_; ws 4] :: [ws 4; fn_ "k" []; ws 0]) [] outer1_ (repeat 32%N 8) []
  /\ outside_impl (body1_ :: (12, f_) :: il1_ :: m1_ :: outer1_)
  /\ body1_ = (19, Node (OTHER 1) ([lbrace; ws 8; struct_ "S"; ws 8] ++ fn_ "a" [] :: [ws 4; rbrace])) /\ 47 = 19 + bytes (texts_of [lbrace; ws 8; struct_ "S"; ws 8])
  /\ no_impl [lbrace; ws 8; struct_ "S"; ws 8] /\ no_impl [ws 4; rbrace]
  /\ inherent (impl_ [ws 8; g_; ws 4]) /\ (forall e, In e [ws 4; f_; ws 4] -> ~ inherent e) /\ indented_by AU (last_opt (lbrace :: [ws 4; f_; ws 4])) (repeat 32%N 4).
Proof.
  split; [constructor|].
  - file.
  - apply (io_child _ _ _ _ m1_); [memb|]. apply (io_child _ _ _ _ il1_); [memb|]. apply (io_child _ _ _ _ (12, f_)); [memb|]. apply (io_child _ _ _ _ body1_); [memb|]. apply (io_child _ _ _ _ (47, fn_ "a" [])); [memb|]. constructor.
  - reflexivity.
  - intros cs Hc. repeat destruct Hc as [Hc|Hc]; try discriminate. destruct Hc.
  - split; reflexivity.
  - exists (Some (ws 8)). split; [before_ws 3 38 | spaces].
  - exists None. split; [before 0; reflexivity | none].
  - split; [intros y Hy; repeat destruct Hy as [<-|Hy]; try discriminate; destruct Hy|]. split; [reflexivity|]. split; [vm_compute; reflexivity|].
    split; [intros e He; repeat destruct He as [<-|He]; try discriminate; destruct He|]. split; [intros e He; repeat destruct He as [<-|He]; try discriminate; destruct He|].
    split; [eexists; split; [reflexivity | vm_compute; lia]|]. split; [intros e He (cs & E & _); repeat destruct He as [<-|He]; try discriminate; destruct He|]. spaces.
Qed.
Example example_contract_impl_moved :
  moves (ensure_impl_parent AU contract_ known1_ ((47, fn_ "a" []), body1_ :: (12, f_) :: il1_ :: m1_ :: outer1_)) = [((124, 124), lit "        fn a() {}"); ((47, 56), [])].
Proof. vm_compute. reflexivity. Qed.

(** mod m {
        fn a() {}
    } *)
Definition items2_ := [ws 4; fn_ "a" []; ws 0].
Definition root2_ := Node SOURCE_FILE [mod_ items2_; ws 0].
Definition m2_ : lelem := (0, mod_ items2_).
Definition il2_ : lelem := (6, braced ITEM_LIST items2_).
Definition known2_ : path -> contract := fun _ => Contract (Some (ItemAt None m2_)) (Some (lit "T")) [] [].
Example example_new_impl : within AU root2_ (12, fn_ "a" []) (il2_ :: [m2_; (0, root2_)]) [] MODULE ITEM_LIST 0 mhead_ items2_ [] [(0, root2_)] (repeat 32%N 4) []
  /\ outside_impl (il2_ :: [m2_; (0, root2_)]) /\ (forall y, In y ([] ++ [il2_]) -> contract_ y = false)
  /\ il2_ = (6, Node ITEM_LIST ([lbrace; ws 4] ++ fn_ "a" [] :: [ws 0; rbrace])) /\ 12 = 6 + bytes (texts_of [lbrace; ws 4]) /\ no_impl [lbrace; ws 4] /\ no_impl [ws 0; rbrace]
  /\ has_name (known2_ (m2_, [(0, root2_)])) mhead_ /\ (forall e, In e items2_ -> ~ inherent e).
Proof.
  split; [constructor|].
  - file.
  - apply (io_child _ _ _ _ m2_); [memb|]. apply (io_child _ _ _ _ il2_); [memb|]. apply (io_child _ _ _ _ (12, fn_ "a" [])); [memb|]. constructor.
  - reflexivity.
  - intros cs Hc. repeat destruct Hc as [Hc|Hc]; try discriminate. destruct Hc.
  - split; reflexivity.
  - exists (Some (ws 4)). split; [before_ws 1 7 | spaces].
  - exists None. split; [before 0; reflexivity | none].
  - split; [intros y Hy; repeat destruct Hy as [<-|Hy]; try discriminate; destruct Hy|]. split; [intros y [<-|[]]; reflexivity|]. split; [reflexivity|]. split; [vm_compute; reflexivity|].
    split; [intros e He; repeat destruct He as [<-|He]; try discriminate; destruct He|]. split; [intros e He; repeat destruct He as [<-|He]; try discriminate; destruct He|].
    split; [left; exists (lit "T"); split; [reflexivity|]; intros ch [<-|[]]; repeat split; discriminate|].
    intros e He (cs & E & _). repeat destruct He as [<-|He]; try discriminate. destruct He.
Qed.
Example example_new_impl_moved :
  moves (ensure_impl_parent AU contract_ known2_ ((12, fn_ "a" []), il2_ :: [m2_; (0, root2_)])) = [((21, 21), unlines [lit "    impl T {"; lit "        fn a() {}"; lit "    }"]); ((12, 21), [])].
Proof. vm_compute. reflexivity. Qed.
(** mod m {
        fn k() {}
        impl T {}
    } *)
Definition items3_ := [ws 4; fn_ "k" []; ws 4; impl_ []; ws 0].
Definition root3_ := Node SOURCE_FILE [mod_ items3_; ws 0].
Definition m3_ : lelem := (0, mod_ items3_).
Definition il3_ : lelem := (6, braced ITEM_LIST items3_).
Example example_behind : lies AU root3_ (12, fn_ "k" []) il3_ [m3_; (0, root3_)] (repeat 32%N 4) /\ outside_impl (il3_ :: [m3_; (0, root3_)])
  /\ il3_ = (6, Node ITEM_LIST ([lbrace; ws 4] ++ fn_ "k" [] :: [ws 4] ++ impl_ [] :: [ws 0; rbrace])) /\ 12 = 6 + bytes (texts_of [lbrace; ws 4])
  /\ no_impl [lbrace; ws 4] /\ no_impl [ws 4]
  /\ right_before (6 + bytes (texts_of ([lbrace; ws 4] ++ fn_ "k" [] :: [ws 4])), impl_ []) (il3_ :: [m3_; (0, root3_)]) (Some (ws 4)) /\ indented_by AU (Some (ws 4)) (repeat 32%N 4).
Proof.
  split; [constructor|].
  - file.
  - apply (io_child _ _ _ _ m3_); [memb|]. apply (io_child _ _ _ _ il3_); [memb|]. apply (io_child _ _ _ _ (12, fn_ "k" [])); [memb|]. constructor.
  - split; [reflexivity | discriminate].
  - exists (Some (ws 4)). split; [before_ws 1 7 | spaces].
  - split; [intros y Hy; repeat destruct Hy as [<-|Hy]; try discriminate; destruct Hy|]. split; [reflexivity|]. split; [vm_compute; reflexivity|].
    split; [intros e He; repeat destruct He as [<-|He]; try discriminate; destruct He|]. split; [intros e [<-|[]]; discriminate|]. split; [before_ws 3 21 | spaces].
Qed.

(** ** What goes wrong *)

Lemma performs_order o s e1 e2 r : performs o s [e1; e2] r -> snd (te_range e1) <= fst (te_range e2).
Proof.
  intros H. inversion H as [|? a b c ? ? c' H1 H2 H3]; subst. inversion H3 as [|? a2 b2 c2 ? ? c2' H4 H5 H6]; subst. lia.
Qed.
Lemma inside_deleted file o txt r result : fst r < o < snd r -> ~ performed file [edit_insert txt o; edit_delete r] result.
Proof.
  intros Ho (sorted & Hp & H). apply Permutation_length_2_inv in Hp as [-> | ->]; apply performs_order in H; cbn [te_range edit_insert edit_insert_snippet edit_delete at_offset fst snd] in H; lia.
Qed.
(** An impl block is one of its own siblings: if it is marked as a callable, it is moved into itself, by edits that overlap. *)
Theorem C101_self_refuted : exists U is_contract read_contract root x c rest edits,
  unicode_ok U /\ parsed U root /\ full root /\ around root x (c :: rest) /\ an_item (snd x) = true /\ outside_impl (c :: rest)
  /\ ensure_impl_parent U is_contract read_contract (x, c :: rest) = Some (Some edits) /\ forall result, ~ performed (text_of root) edits result.
Proof.
  pose (r := Node SOURCE_FILE [impl_ [ws 4; fn_ "k" []; ws 0]; ws 0]).
  exists AU, contract_, no_contract, r, (0, impl_ [ws 4; fn_ "k" []; ws 0]), (0, r), []. eexists.
  split; [apply ascii_unicode_ok|]. split; [apply ExtractProps.root_parsed; vm_compute; reflexivity|]. split; [apply ExtractProps.root_full; vm_compute; reflexivity|].
  split; [eapply io_child; [left; reflexivity | constructor]|]. split; [reflexivity|]. split; [intros y [<-|[]]; discriminate|].
  split; [vm_compute; reflexivity|]. intros result. apply (inside_deleted _ 22 (lit "    impl T {" ++ [c_nl] ++ lit "        fn k() {}" ++ [c_nl] ++ lit "    }") (0, 24)). cbn. lia.
Qed.
(** The nearest impl block may be for a trait, although there is one for the callable:
    impl T {}
    impl Tr for T {}
    fn k() {} *)
Definition trait_impl_ : elem := item_with IMPL ASSOC_ITEM_LIST [Tok IMPL_KW (lit "impl"); ExtractProps.w_ " "; Node (OTHER 138) [ExtractProps.id_ "Tr"]; ExtractProps.w_ " "; Tok IDENT (lit "for"); ExtractProps.w_ " ";
  Node (OTHER 138) [ExtractProps.id_ "T"]; ExtractProps.w_ " "] [] [].
Theorem C101_trait_impl_refuted : exists U is_contract read_contract root x c rest l1 l2 i edits e1 e2,
  unicode_ok U /\ parsed U root /\ full root /\ around root x (c :: rest) /\ lkind x = FN
  /\ snd c = Node SOURCE_FILE (l1 ++ i :: l2) /\ inherent i /\ ensure_impl_parent U is_contract read_contract (x, c :: rest) = Some (Some edits)
  /\ edits = [e1; e2] /\ exists t, In t (place (fst c) (l1 ++ i :: l2)) /\ lkind t = IMPL /\ ~ inherent (snd t) /\ lstart t < fst (te_range e1) < lend t.
Proof.
  pose (r := Node SOURCE_FILE ([] ++ impl_ [] :: [ws 0; trait_impl_; ws 0; fn_ "k" []; ws 0])).
  exists AU, contract_, no_contract, r, (27, fn_ "k" []), (0, r), [], [], [ws 0; trait_impl_; ws 0; fn_ "k" []; ws 0], (impl_ []). do 3 eexists.
  split; [apply ascii_unicode_ok|]. split; [apply ExtractProps.root_parsed; vm_compute; reflexivity|]. split; [apply ExtractProps.root_full; vm_compute; reflexivity|].
  split; [apply (io_child _ _ _ _ (27, fn_ "k" [])); [memb | constructor]|]. split; [reflexivity|]. split; [reflexivity|]. split; [eexists; split; [reflexivity | vm_compute; lia]|].
  split; [vm_compute; reflexivity|]. split; [reflexivity|]. exists (10, trait_impl_). split; [memb|]. split; [reflexivity|].
  split; [intros (cs & E & Hl); injection E as <-; vm_compute in Hl; lia|]. vm_compute. lia.
Qed.

(** Finding: the text of a moved item is indented anew line by line, also within literals, so that a string of several lines is another string afterwards:
    mod m {
        fn a() {"x
            y"}
    } *)
Definition string_ : str := lit """x" ++ [c_nl] ++ repeat 32%N 8 ++ lit "y""".
Theorem C101_string_refuted : exists U is_contract read_contract root x c rest e1 e2,
  unicode_ok U /\ parsed U root /\ full root /\ around root x (c :: rest) /\ lkind x = FN
  /\ ensure_impl_parent U is_contract read_contract (x, c :: rest) = Some (Some [e1; e2])
  /\ In (STRING, string_) (leaves (snd x)) /\ te_range e2 = (lstart x, lend x) /\ te_text e2 = []
  /\ forall a b, te_text e1 <> a ++ string_ ++ b.
Proof.
  pose (x := fn_ "a" [Tok STRING string_]). pose (items := [ws 4; x; ws 0]). pose (r := Node SOURCE_FILE [mod_ items; ws 0]).
  exists AU, contract_, (fun _ => Contract (Some (ItemAt None (0, mod_ items))) (Some (lit "T")) [] []), r, (12, x), (6, braced ITEM_LIST items), [(0, mod_ items); (0, r)]. do 2 eexists.
  split; [apply ascii_unicode_ok|]. split; [apply ExtractProps.root_parsed; vm_compute; reflexivity|]. split; [apply ExtractProps.root_full; vm_compute; reflexivity|].
  split; [apply (io_child _ _ _ _ (0, mod_ items)); [memb|]; apply (io_child _ _ _ _ (6, braced ITEM_LIST items)); [memb|]; apply (io_child _ _ _ _ (12, x)); [memb | constructor]|].
  split; [reflexivity|]. split; [vm_compute; reflexivity|]. split; [vm_compute; tauto|]. split; [vm_compute; reflexivity|]. split; [reflexivity|].
  intros a b E. assert (H : ArgCheckModel.occurs string_ (a ++ string_ ++ b) = true) by (apply ArgCheckProofs.occurs_iff; exists a, b; reflexivity).
  rewrite <- E in H. vm_compute in H. discriminate H.
Qed.

Print Assumptions C101_contract_root.
Print Assumptions C101_parent_contract.
Print Assumptions C101_at_root.
Print Assumptions C101_no_contract.
Print Assumptions C101_closest_impl.
Print Assumptions C101_parent_impl.
Print Assumptions C101_in_impl.
Print Assumptions C101_impl_before.
Print Assumptions C101_impl_behind.
Print Assumptions C101_contract_impl.
Print Assumptions C101_new_impl.
Print Assumptions C101_self_refuted.
Print Assumptions C101_trait_impl_refuted.
Print Assumptions C101_string_refuted.
Print Assumptions C101_callables.
