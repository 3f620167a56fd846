(** Facts about trees with accessors and about the traversal. *)
From Coq Require Import Permutation.
From Verif Require Import Base BaseFacts Unicode PositionModel PositionProofs TranslateModel CommandModel TravModel.

Section Ind.
  Variable P : tree -> Prop.
  Hypothesis Hleaf : forall s, P (Leaf s).
  Hypothesis Hnode : forall k cs, (forall r c, In (r, c) cs -> P c) -> P (Node k cs).
  Fixpoint tree_deep (t : tree) : P t :=
    match t with
    | Leaf s => Hleaf s
    | Node k cs =>
        Hnode k cs
          ((fix all (cs : list (role * tree)) : forall r c, In (r, c) cs -> P c :=
              match cs with
              | [] => fun r c H => match H with end
              | (r0, c0) :: cs' => fun r c H =>
                  match H with
                  | or_introl E => eq_ind c0 P (tree_deep c0) c (f_equal snd E)
                  | or_intror H' => all cs' r c H'
                  end
              end) cs)
    end.
End Ind.

Lemma role_eqb_eq a b : role_eqb a b = true <-> a = b.
Proof. unfold role_eqb. destruct (role_eq_dec a b); split; intros; subst; try reflexivity; try discriminate; try contradiction. Qed.
Lemma role_eqb_refl a : role_eqb a a = true.
Proof. apply role_eqb_eq; reflexivity. Qed.
Lemma role_eqb_neq a b : a <> b -> role_eqb a b = false.
Proof. intros H. destruct (role_eqb a b) eqn:E; [apply role_eqb_eq in E; contradiction | reflexivity]. Qed.

(** ** Children with their places *)
Lemma spread_out_in o cs r oc c : In (r, (oc, c)) (spread_out o cs) -> In (r, c) cs.
Proof.
  revert o; induction cs as [|[r0 c0] cs IH]; intros o H; [destruct H|]. cbn in H. destruct H as [E|H].
  - inversion E; subst. left; reflexivity.
  - right. exact (IH _ H).
Qed.
Lemma spread_out_filter o cs r :
  map (fun x => (fst x, snd (snd x))) (filter (fun x => role_eqb (fst x) r) (spread_out o cs)) = filter (fun x => role_eqb (fst x) r) cs.
Proof.
  revert o; induction cs as [|[r0 c0] cs IH]; intros o; [reflexivity|]. cbn. destruct (role_eqb r0 r); cbn; rewrite IH; reflexivity.
Qed.
Lemma spread_out_count o cs r :
  length (filter (fun x => role_eqb (fst x) r) (spread_out o cs)) = length (filter (fun x => role_eqb (fst x) r) cs).
Proof. rewrite <- (spread_out_filter o cs r), map_length. reflexivity. Qed.
Lemma child_role r t c : child r t = Some c -> exists k cs, snd t = Node k cs /\ In (r, c) (spread_out (fst t) cs).
Proof.
  unfold child. destruct (snd t) as [s|k cs]; [discriminate|]. intros H. exists k, cs. split; [reflexivity|].
  destruct (filter _ (spread_out (fst t) cs)) as [|x l] eqn:E; [discriminate|]. injection H as <-.
  assert (Hx : In x (filter (fun x => role_eqb (fst x) r) (spread_out (fst t) cs))) by (rewrite E; left; reflexivity).
  apply filter_In in Hx. destruct Hx as [Hx Hr]. apply role_eqb_eq in Hr. destruct x as [r' c']; cbn in *. subst. exact Hx.
Qed.

(** ** Sums over children *)
Lemma flat_map_plus {A B} (f h g : A -> list B) l :
  (forall x, In x l -> Permutation (f x) (h x ++ g x)) -> Permutation (flat_map f l) (flat_map h l ++ flat_map g l).
Proof.
  induction l as [|x l IH]; intros H; [constructor|]. cbn.
  eapply Permutation_trans; [apply Permutation_app; [apply H; left; reflexivity | apply IH; intros y Hy; apply H; right; exact Hy]|].
  rewrite <- !app_assoc. apply Permutation_app_head. rewrite !app_assoc. apply Permutation_app_tail. apply Permutation_app_comm.
Qed.
Lemma flat_map_same {A B} (f g : A -> list B) l : (forall x, In x l -> f x = g x) -> flat_map f l = flat_map g l.
Proof.
  induction l as [|x l IH]; intros H; [reflexivity|]. cbn. rewrite (H x (or_introl eq_refl)), IH; [reflexivity|].
  intros y Hy; apply H; right; exact Hy.
Qed.
Lemma flat_map_perm {A B} (f g : A -> list B) l : (forall x, In x l -> Permutation (f x) (g x)) -> Permutation (flat_map f l) (flat_map g l).
Proof.
  induction l as [|x l IH]; intros H; [constructor|]. cbn. apply Permutation_app; [apply H; left; reflexivity|].
  apply IH; intros y Hy; apply H; right; exact Hy.
Qed.
Lemma flat_map_none {A B} (f : A -> list B) l : (forall x, In x l -> f x = []) -> flat_map f l = [].
Proof. induction l as [|x l IH]; intros H; [reflexivity|]. cbn. rewrite (H x (or_introl eq_refl)). apply IH; intros y Hy; apply H; right; exact Hy. Qed.
Lemma flat_map_role {X B} (r : role) (h : role * X -> list B) l :
  flat_map (fun x => if role_eqb (fst x) r then h x else []) l = flat_map h (filter (fun x => role_eqb (fst x) r) l).
Proof. induction l as [|x l IH]; [reflexivity|]. cbn. rewrite IH. destruct (role_eqb (fst x) r); reflexivity. Qed.
(** The only child of a role *)
Lemma flat_map_child {B} (r : role) (h : role * ltree -> list B) (o : nat) k cs :
  length (filter (fun x => role_eqb (fst x) r) cs) <= 1 ->
  flat_map (fun x => if role_eqb (fst x) r then h x else []) (spread_out o cs)
  = match child r (o, Node k cs) with Some c => h (r, c) | None => [] end.
Proof.
  intros H. rewrite flat_map_role. unfold child. cbn [fst snd]. rewrite <- (spread_out_count o) in H.
  assert (Hr : Forall (fun x => fst x = r) (filter (fun x => role_eqb (fst x) r) (spread_out o cs))).
  { apply Forall_forall. intros x Hx. apply filter_In in Hx. apply role_eqb_eq. exact (proj2 Hx). }
  destruct (filter _ (spread_out o cs)) as [|[r' c] [|y l]]; cbn in H; [reflexivity| |lia].
  cbn. rewrite app_nil_r. apply Forall_inv in Hr. cbn in Hr. rewrite Hr. reflexivity.
Qed.

(** ** The visitor *)
Section Visitor.
  Context {A : Type} (on_call on_method : list ltree -> ltree -> list A -> list A).
  Notation V := (visit on_call on_method).
  Definition kids_of (up : list ltree) (l : list (role * ltree)) : list (role * list A) :=
    map (fun x => (fst x, V (snd (snd x)) (fst (snd x)) up)) l.
  Definition walk_of (k : kind) (cs : list (role * tree)) (o : nat) (up : list ltree) : list A :=
    flat_map (picked (kids_of ((o, Node k cs) :: up) (spread_out o cs))) (walked k).
  Lemma visit_node k cs o up :
    V (Node k cs) o up = match k with
                         | KCall _ => on_call up (o, Node k cs) (walk_of k cs o up)
                         | KMethod => on_method up (o, Node k cs) (walk_of k cs o up)
                         | _ => walk_of k cs o up
                         end.
  Proof.
    cbn [visit]. unfold walk_of, kids_of.
    set (up' := (o, Node k cs) :: up).
    match goal with |- context [flat_map (picked (?F0 o cs)) _] => set (F := F0) end.
    assert (E : forall cs0 o0, F o0 cs0 = map (fun x => (fst x, V (snd (snd x)) (fst (snd x)) up')) (spread_out o0 cs0)).
    { induction cs0 as [|[r c] cs0 IH]; intros o0; [reflexivity|]. cbn. rewrite IH. reflexivity. }
    rewrite (E cs o). reflexivity.
  Qed.

  Lemma picked_one kids r : length (filter (fun x => role_eqb (fst x) r) kids) <= 1 ->
    picked (A := A) kids (One r) = flat_map (fun x => if role_eqb (fst x) r then snd x else []) kids.
  Proof.
    intros H. rewrite flat_map_role. cbn. destruct (filter _ kids) as [|x [|y l]]; cbn in *; [reflexivity|rewrite app_nil_r; reflexivity|lia].
  Qed.
  Lemma picked_all kids r : picked (A := A) kids (All r) = flat_map (fun x => if role_eqb (fst x) r then snd x else []) kids.
  Proof. rewrite flat_map_role. reflexivity. Qed.
  Lemma two_roles {X} r1 r2 (h : role * X -> list A) l : r1 <> r2 ->
    Permutation (flat_map (fun x => if role_eqb (fst x) r1 then h x else []) l ++ flat_map (fun x => if role_eqb (fst x) r2 then h x else []) l)
                (flat_map (fun x => if role_eqb (fst x) r1 || role_eqb (fst x) r2 then h x else []) l).
  Proof.
    intros Hne. apply Permutation_sym. apply flat_map_plus. intros x _.
    destruct (role_eqb (fst x) r1) eqn:E1, (role_eqb (fst x) r2) eqn:E2; cbn; rewrite ?app_nil_r; try apply Permutation_refl.
    apply role_eqb_eq in E1, E2. congruence.
  Qed.
  Definition walks (k : kind) (r : role) : bool := existsb (fun p => match p with One r' | All r' => role_eqb r r' end) (walked k).
  Lemma walk_perm k kids :
    (forall r, walks k r = true -> existsb (fun p => match p with One r' => role_eqb r r' | All _ => false end) (walked k) = true ->
       length (filter (fun x => role_eqb (fst x) r) kids) <= 1) ->
    Permutation (flat_map (picked (A := A) kids) (walked k)) (flat_map (fun x => if walks k (fst x) then snd x else []) kids).
  Proof.
    intros H.
    assert (H1 : forall r, In (One r) (walked k) -> length (filter (fun x => role_eqb (fst x) r) kids) <= 1).
    { intros r Hr. apply H; apply existsb_exists; exists (One r); (split; [exact Hr | apply role_eqb_refl]). }
    clear H.
    assert (Hk : forall p, In p (walked k) -> picked kids p =
      flat_map (fun x => if role_eqb (fst x) (match p with One r | All r => r end) then snd x else []) kids).
    { intros [r|r] Hp; [apply picked_one, H1, Hp | apply picked_all]. }
    destruct (walked k) as [|p1 [|p2 [|]]] eqn:E; unfold walks; rewrite E.
    - rewrite (flat_map_none (fun x => if existsb _ _ then snd x else [])); [apply Permutation_refl | reflexivity].
    - cbn. rewrite app_nil_r, (Hk p1 (or_introl eq_refl)). apply flat_map_perm. intros x _. rewrite orb_false_r.
      destruct p1; apply Permutation_refl.
    - cbn. rewrite app_nil_r, (Hk p1 (or_introl eq_refl)), (Hk p2 (or_intror (or_introl eq_refl))).
      eapply Permutation_trans; [apply two_roles|].
      + destruct k; cbn in E; try discriminate E; injection E as <- <-; discriminate.
      + apply flat_map_perm. intros x _. rewrite orb_false_r. destruct p1, p2; apply Permutation_refl.
    - destruct k; discriminate E.
  Qed.
End Visitor.
