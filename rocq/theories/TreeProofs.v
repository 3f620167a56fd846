(** Lemmas about ink! traversal and scopes. *)
From Verif Require Import Base BaseFacts PositionModel VersionModel SyntaxModel AttrModel AttrSpec AttrProofs
  SuggestModel SuggestSpec SuggestProofs TreeModel TreeSpec.
From Coq Require Import Lia Sorted.

Section TreeInd.
  Variable P : tree -> Prop.
  Hypothesis H : forall i k r a cs, Forall P cs -> P (Nd i k r a cs).
  Fixpoint tree_ind' (t : tree) : P t :=
    match t with
    | Nd i k r a cs =>
        H i k r a cs ((fix go (l : list tree) : Forall P l :=
                         match l with
                         | [] => Forall_nil P
                         | c :: l' => Forall_cons c (tree_ind' c) (go l')
                         end) cs)
    end.
End TreeInd.

(** ** Attributes of a node *)
Lemma attrs_of_ink t : ink_attrs t = attrs_of t.
Proof.
  unfold ink_attrs, attrs_of. induction (n_children t) as [|c cs IH]; [reflexivity|].
  simpl. rewrite IH. destruct (n_attr c); reflexivity.
Qed.
Lemma attrs_of_In t a : In a (attrs_of t) <-> exists c, In c (n_children t) /\ n_attr c = Some a.
Proof.
  unfold attrs_of. rewrite in_flat_map. split; intros (c & Hc & H); exists c; split; try exact Hc.
  - destruct (n_attr c) as [x|]; [|destruct H]. destruct H as [->|[]]. reflexivity.
  - rewrite H. left; reflexivity.
Qed.
Lemma annotated_spec t : annotated t = true <-> exists a, In a (attrs_of t).
Proof.
  unfold annotated. destruct (attrs_of t) as [|a l]; split.
  - discriminate.
  - intros (a & []).
  - intros _. exists a; left; reflexivity.
  - reflexivity.
Qed.
Lemma annotated_false t : annotated t = false <-> attrs_of t = [].
Proof. unfold annotated. destruct (attrs_of t); split; intros H; try reflexivity; discriminate. Qed.

(** ** Paths *)
Lemma path_down t c b n : In c (n_children t) -> path c b n -> path t (b ++ [c]) n.
Proof.
  intros Hc H. induction H as [d Hd | b m d _ IH Hd]; simpl.
  - eapply path_step; [apply path_child; exact Hc | exact Hd].
  - eapply path_step; [exact IH | exact Hd].
Qed.
Lemma path_top t b n :
  path t b n ->
  (b = [] /\ In n (n_children t)) \/ exists c b', b = b' ++ [c] /\ In c (n_children t) /\ path c b' n.
Proof.
  intros H. induction H as [c Hc | b m c _ IH Hc]; [left; split; [reflexivity | exact Hc]|]. right.
  destruct IH as [[-> Hm]|(d & b' & -> & Hd & Hp)].
  - exists m, []. split; [reflexivity|]. split; [exact Hm|]. apply path_child; exact Hc.
  - exists d, (m :: b'). split; [reflexivity|]. split; [exact Hd|]. eapply path_step; eassumption.
Qed.
Lemma path_trans t b2 o b1 n : path t b2 o -> path o b1 n -> path t (b1 ++ o :: b2) n.
Proof.
  intros H1 H2. induction H2 as [c Hc | b m c _ IH Hc]; simpl.
  - eapply path_step; eassumption.
  - eapply path_step; eassumption.
Qed.
Lemma path_split t b1 o b2 n : path t (b1 ++ o :: b2) n -> path t b2 o /\ path o b1 n.
Proof.
  revert n; induction b1 as [|m b1 IH]; intros n H; simpl in H.
  - inversion H; subst. split; [assumption|]. apply path_child; assumption.
  - inversion H; subst. destruct (IH m) as [Hp1 Hp2]; [assumption|]. split; [exact Hp1|]. eapply path_step; eassumption.
Qed.

Lemma nodes_below_up t : forall up, nodes_below up t = map (fun x => (fst x ++ up, snd x)) (nodes_below [] t).
Proof.
  induction t as [i k r a cs IH] using tree_ind'. intros up. cbn [nodes_below].
  induction IH as [|c cs Hc _ IHcs]; [reflexivity|]. cbn [flat_map]. rewrite IHcs, map_app. f_equal.
  cbn [map fst snd app]. f_equal. rewrite (Hc (c :: up)), (Hc [c]), map_map. apply map_ext. intros [b n]. cbn [fst snd].
  rewrite <- app_assoc. reflexivity.
Qed.
Lemma below_children t :
  below t = flat_map (fun c => ([], c) :: map (fun x => (fst x ++ [c], snd x)) (below c)) (n_children t).
Proof.
  destruct t as [i k r a cs]. unfold below. cbn [nodes_below n_children]. apply flat_map_ext. intros c.
  rewrite (nodes_below_up c [c]). reflexivity.
Qed.
Lemma below_path t : forall b n, In (b, n) (below t) <-> path t b n.
Proof.
  induction t as [i k r a cs IH] using tree_ind'. intros b n. rewrite below_children. cbn [n_children].
  rewrite in_flat_map. rewrite Forall_forall in IH. split.
  - intros (c & Hc & [H|H]).
    + injection H as <- <-. apply path_child; exact Hc.
    + apply in_map_iff in H. destruct H as ([b' n'] & E & H). cbn [fst snd] in E. injection E as <- <-.
      apply path_down; [exact Hc|]. apply (IH c Hc). exact H.
  - intros H. apply path_top in H. destruct H as [[-> H]|(c & b' & -> & Hc & H)].
    + exists n. split; [exact H|]. left; reflexivity.
    + exists c. split; [exact Hc|]. right. apply in_map_iff. exists (b', n). split; [reflexivity|].
      apply (IH c Hc). exact H.
Qed.
Lemma below_In t n : In n (map snd (below t)) <-> exists b, path t b n.
Proof.
  rewrite in_map_iff. split.
  - intros ([b m] & <- & H). exists b. apply below_path; exact H.
  - intros (b & H). exists (b, n). split; [reflexivity|]. apply below_path; exact H.
Qed.

Lemma filter_map_flat {A B} (f : A -> option B) l :
  filter_map f l = flat_map (fun x => match f x with Some y => [y] | None => [] end) l.
Proof. induction l as [|x l IH]; [reflexivity|]. simpl. rewrite IH. destruct (f x); reflexivity. Qed.
Lemma flat_map_nil {A B} (f : A -> list B) l : (forall x, In x l -> f x = []) -> flat_map f l = [].
Proof.
  intros H. induction l as [|x l IH]; [reflexivity|]. simpl. rewrite (H x (or_introl eq_refl)). apply IH.
  intros y Hy. apply H. right; exact Hy.
Qed.
Lemma flat_map_map {A B C} (g : A -> B) (f : B -> list C) l : flat_map f (map g l) = flat_map (fun x => f (g x)) l.
Proof. induction l as [|x l IH]; [reflexivity|]. simpl. rewrite IH. reflexivity. Qed.
Lemma flat_map_flat_map {A B C} (f : A -> list B) (g : B -> list C) l :
  flat_map g (flat_map f l) = flat_map (fun x => flat_map g (f x)) l.
Proof. induction l as [|x l IH]; [reflexivity|]. simpl. rewrite flat_map_app, IH. reflexivity. Qed.
Lemma flat_map_ext_in {A B} (f g : A -> list B) l : (forall x, In x l -> f x = g x) -> flat_map f l = flat_map g l.
Proof.
  intros H. induction l as [|x l IH]; [reflexivity|]. simpl. rewrite (H x (or_introl eq_refl)), IH; [reflexivity|].
  intros y Hy. apply H. right; exact Hy.
Qed.
Lemma filter_flat_map {A B} (f : B -> bool) (g : A -> list B) l :
  filter f (flat_map g l) = flat_map (fun x => filter f (g x)) l.
Proof. induction l as [|x l IH]; [reflexivity|]. simpl. rewrite filter_app, IH. reflexivity. Qed.
Lemma flat_map_filter {A B} (f : A -> bool) (g : A -> list B) l :
  flat_map g (filter f l) = flat_map (fun x => if f x then g x else []) l.
Proof. induction l as [|x l IH]; [reflexivity|]. simpl. destruct (f x); simpl; rewrite IH; reflexivity. Qed.

(** ** Descendants *)
Lemma map_flat_map {A B C} (g : B -> C) (f : A -> list B) l : map g (flat_map f l) = flat_map (fun x => map g (f x)) l.
Proof. induction l as [|x l IH]; [reflexivity|]. simpl. rewrite map_app, IH. reflexivity. Qed.
Lemma descendants_below t : forall up,
  descendants up t = (t, up) :: map (fun x => (snd x, fst x ++ t :: up)) (below t).
Proof.
  induction t as [i k r a cs IH] using tree_ind'. intros up. rewrite Forall_forall in IH.
  set (t := Nd i k r a cs). change (descendants up t) with ((t, up) :: flat_map (descendants (t :: up)) cs).
  f_equal. rewrite below_children, map_flat_map.
  change (n_children t) with cs. apply flat_map_ext_in. intros c Hc. rewrite (IH c Hc). cbn [map fst snd app].
  f_equal. rewrite map_map. apply map_ext. intros [b n]. cbn [fst snd]. rewrite <- app_assoc. reflexivity.
Qed.

(** The attribute nodes that are not direct children, with the node they are children of. *)
Definition attr_nodes (up : list tree) (t : tree) : list found :=
  flat_map (fun x => match n_attr (snd x), fst x with
                     | Some a, p :: b => [((p, b ++ t :: up), a)]
                     | _, _ => []
                     end) (below t).
Lemma ink_attrs_descendants_nodes t up :
  (forall n, In n (self_and_below t) -> node_ok n) ->
  ink_attrs_descendants (t, up) = attr_nodes up t.
Proof.
  intros Hok. unfold ink_attrs_descendants, attr_nodes. rewrite below_children, flat_map_flat_map.
  unfold loc_children. cbn [fst snd]. rewrite flat_map_filter, flat_map_map. apply flat_map_ext_in. intros c Hc.
  unfold loc_kind. cbn [fst snd]. rewrite filter_map_flat, descendants_below. cbn [flat_map fst snd].
  rewrite flat_map_map.
  assert (E : (match n_attr c, loc_parent (c, t :: up) with Some a, Some p => [(p, a)] | _, _ => [] end)
              = match n_attr c with Some a => [((t, up), a)] | None => [] end) by (destruct (n_attr c); reflexivity).
  assert (Hcok : node_ok c).
  { apply Hok. right. apply below_In. exists []. apply path_child; exact Hc. }
  destruct (skind_eqb (n_kind c) ATTR) eqn:Ek; simpl negb; cbv iota.
  - apply skind_eqb_eq in Ek. destruct (n_attr c) as [a|] eqn:Ea; cbn [app].
    + symmetry. rewrite flat_map_map. apply flat_map_nil. intros [b n] Hx. cbn [fst snd].
      rewrite (ok_inside _ Hcok Ek n); [reflexivity|]. apply in_map_iff. exists (b, n). split; [reflexivity | exact Hx].
    + symmetry. rewrite flat_map_map. apply flat_map_nil. intros [b n] Hx. cbn [fst snd].
      rewrite (ok_inside _ Hcok Ek n); [reflexivity|]. apply in_map_iff. exists (b, n). split; [reflexivity | exact Hx].
  - assert (Ea : n_attr c = None).
    { destruct (n_attr c) as [a|] eqn:Ea; [|reflexivity]. destruct (ok_attr _ Hcok a Ea) as (Hk & _).
      rewrite Hk in Ek. discriminate Ek. }
    rewrite Ea. cbn [app]. rewrite flat_map_map. apply flat_map_ext. intros [b n]. cbn [fst snd].
    destruct (n_attr n) as [x|]; [|reflexivity]. destruct b as [|p b].
    + cbn [loc_parent snd app]. reflexivity.
    + cbn [loc_parent snd app]. rewrite <- app_assoc. reflexivity.
Qed.

(** ** Closest descendants *)
Definition nearest_filter (x : list tree * tree) : bool := forallb (fun m => negb (annotated m)) (fst x).
Definition closest_nodes (t : tree) : list (list tree * tree) := filter nearest_filter (below t).
Definition attrs_at (t : tree) (up : list tree) (x : list tree * tree) : list found :=
  map (fun a => ((snd x, fst x ++ t :: up), a)) (attrs_of (snd x)).

Lemma closest_spec t : forall up, closest up t = flat_map (attrs_at t up) (closest_nodes t).
Proof.
  induction t as [i k r a cs IH] using tree_ind'. intros up.
  set (t := Nd i k r a cs). unfold closest_nodes. rewrite below_children. cbn [n_children].
  change (n_children t) with cs.
  change (closest up t) with (flat_map (fun c => match ink_attrs c with
    [] => closest (t :: up) c | _ => ink_attrs_at (c, t :: up) end) cs).
  rewrite filter_flat_map, flat_map_flat_map. apply flat_map_ext_in. intros c Hc.
  rewrite Forall_forall in IH. specialize (IH c Hc).
  cbn [filter nearest_filter forallb fst]. cbn [flat_map]. unfold attrs_at at 1. cbn [fst snd app].
  rewrite attrs_of_ink. destruct (attrs_of c) as [|x l] eqn:E.
  - cbn [map app]. rewrite IH. unfold closest_nodes.
    assert (En : annotated c = false) by (apply annotated_false; exact E).
    rewrite !flat_map_filter, flat_map_map. apply flat_map_ext. intros [b n]. unfold nearest_filter. cbn [fst snd].
    rewrite forallb_app. cbn [forallb]. rewrite En. cbn [negb andb]. rewrite andb_true_r.
    destruct (forallb _ b); [|reflexivity]. unfold attrs_at. cbn [fst snd]. rewrite <- app_assoc. reflexivity.
  - unfold ink_attrs_at. cbn [fst]. rewrite attrs_of_ink, E.
    rewrite flat_map_filter, flat_map_map, flat_map_nil; [rewrite app_nil_r; reflexivity|].
    intros [b n] _. unfold nearest_filter. cbn [fst snd]. rewrite forallb_app. cbn [forallb].
    assert (En : annotated c = true) by (apply annotated_spec; exists x; rewrite E; left; reflexivity).
    rewrite En. cbn [negb andb]. rewrite andb_false_r. reflexivity.
Qed.
Lemma nearest_filter_spec b n : nearest_filter (b, n) = true <-> unannotated b.
Proof.
  unfold nearest_filter, unannotated. cbn [fst]. rewrite forallb_forall. split; intros H m Hm; specialize (H m Hm).
  - destruct (annotated m); [discriminate H | reflexivity].
  - rewrite H. reflexivity.
Qed.
Lemma closest_In t up l a :
  In (l, a) (ink_attrs_closest_descendants (t, up)) <->
  exists b n, l = (n, b ++ t :: up) /\ path t b n /\ unannotated b /\ In a (attrs_of n).
Proof.
  unfold ink_attrs_closest_descendants. cbn [fst snd]. rewrite closest_spec, in_flat_map. split.
  - intros ([b n] & Hx & H). unfold closest_nodes in Hx. apply filter_In in Hx. destruct Hx as [Hp Hf].
    unfold attrs_at in H. cbn [fst snd] in H. apply in_map_iff in H. destruct H as (a' & E & Ha).
    injection E as <- <-. exists b, n. split; [reflexivity|]. split; [apply below_path; exact Hp|].
    split; [apply (nearest_filter_spec b n); exact Hf | exact Ha].
  - intros (b & n & -> & Hp & Hu & Ha). exists (b, n). split.
    + apply filter_In. split; [apply below_path; exact Hp | apply nearest_filter_spec; exact Hu].
    + unfold attrs_at. cbn [fst snd]. apply in_map_iff. exists a. split; [reflexivity | exact Ha].
Qed.

(** ** Layout *)
Lemma laid_out_le s l e : laid_out s l e -> s <= e.
Proof. revert s; induction l as [|r l IH]; intros s H; simpl in H; [exact H|]. destruct H as (H1 & H2 & H3). apply IH in H3. lia. Qed.
Lemma laid_out_In s l e r : laid_out s l e -> In r l -> s <= fst r /\ fst r <= snd r /\ snd r <= e.
Proof.
  revert s; induction l as [|q l IH]; intros s H Hin; [destruct Hin|]. simpl in H. destruct H as (H1 & H2 & H3).
  destruct Hin as [->|Hin].
  - apply laid_out_le in H3. lia.
  - destruct (IH _ H3 Hin) as (H4 & H5 & H6). lia.
Qed.
Lemma laid_out_app s l1 l2 e : laid_out s (l1 ++ l2) e -> exists m, laid_out s l1 m /\ laid_out m l2 e.
Proof.
  revert s; induction l1 as [|r l1 IH]; intros s H; simpl in H.
  - exists s. split; [simpl; lia | exact H].
  - destruct H as (H1 & H2 & H3). destruct (IH _ H3) as (m & H4 & H5). exists m. split; [|exact H5]. simpl. auto.
Qed.
(** A child that takes all the room leaves none to the others. *)
Lemma laid_out_full s l1 r l2 e q :
  laid_out s (l1 ++ r :: l2) e -> r = (s, e) -> In q (l1 ++ l2) -> fst q = snd q.
Proof.
  intros H -> Hin. apply laid_out_app in H. destruct H as (m & H1 & H2). simpl in H2. destruct H2 as (H3 & H4 & H5).
  apply in_app_iff in Hin. destruct Hin as [Hin|Hin].
  - destruct (laid_out_In _ _ _ _ H1 Hin) as (A & B & C). lia.
  - destruct (laid_out_In _ _ _ _ H5 Hin) as (A & B & C). lia.
Qed.

Definition all_ok (t : tree) : Prop := forall n, In n (self_and_below t) -> node_ok n.
Lemma all_ok_child t c : all_ok t -> In c (n_children t) -> all_ok c.
Proof.
  intros H Hc n Hn. apply H. right. apply below_In. destruct Hn as [<-|Hn].
  - exists []. apply path_child; exact Hc.
  - apply below_In in Hn. destruct Hn as (b & Hn). exists (b ++ [c]). apply path_down; assumption.
Qed.
Lemma all_ok_self t : all_ok t -> node_ok t.
Proof. intros H. apply H. left; reflexivity. Qed.
Lemma all_ok_path t b n : all_ok t -> path t b n -> all_ok n.
Proof.
  intros H Hp. induction Hp as [c Hc | b m c _ IH Hc].
  - eapply all_ok_child; eassumption.
  - eapply all_ok_child; eassumption.
Qed.
Lemma range_within t b n :
  all_ok t -> path t b n -> fst (n_range t) <= fst (n_range n) /\ fst (n_range n) <= snd (n_range n)
                           /\ snd (n_range n) <= snd (n_range t).
Proof.
  intros H Hp. induction Hp as [c Hc | b m c Hp IH Hc].
  - pose proof (ok_layout _ (all_ok_self _ H)) as L.
    apply (laid_out_In _ _ _ (n_range c)) in L; [lia|]. apply in_map; exact Hc.
  - pose proof (ok_layout _ (all_ok_self _ (all_ok_path _ _ _ H Hp))) as L.
    apply (laid_out_In _ _ _ (n_range c)) in L; [lia|]. apply in_map; exact Hc.
Qed.
Lemma attr_range t b n a :
  all_ok t -> path t b n -> n_attr n = Some a ->
  at_range a = n_range n /\ fst (n_range n) < snd (n_range n).
Proof.
  intros H Hp Ha. pose proof (all_ok_self _ (all_ok_path _ _ _ H Hp)) as Hok.
  destruct (ok_attr _ Hok a Ha) as (_ & H1 & H2). split; assumption.
Qed.

(** Blocks of attributes, each inside its child's range, are in order when the children are. *)
Definition inside_range (s e : nat) (l : list ink_attr) : Prop :=
  Forall (fun a => s <= fst (at_range a) /\ fst (at_range a) < snd (at_range a) /\ snd (at_range a) <= e) l.
Lemma inside_wider s s' e e' l : inside_range s e l -> s' <= s -> e <= e' -> inside_range s' e' l.
Proof. intros H H1 H2. eapply Forall_impl; [|exact H]. simpl. intros a Ha. lia. Qed.
Lemma ordered_app l1 l2 m s e :
  in_source_order l1 -> in_source_order l2 -> inside_range s m l1 -> inside_range m e l2 -> in_source_order (l1 ++ l2).
Proof.
  intros H1 H2 I1 I2. induction H1 as [|a l1 H1 IH Hf]; [exact H2|]. simpl. inversion I1; subst.
  constructor; [apply IH; assumption|]. apply Forall_app. split; [exact Hf|].
  apply Forall_forall. intros b Hb. unfold inside_range in I2. rewrite Forall_forall in I2. specialize (I2 b Hb).
  unfold written_before. simpl in *. lia.
Qed.
Lemma blocks_ordered (f : tree -> list ink_attr) cs : forall s e,
  laid_out s (map n_range cs) e ->
  (forall c, In c cs -> in_source_order (f c) /\ inside_range (fst (n_range c)) (snd (n_range c)) (f c)) ->
  in_source_order (flat_map f cs) /\ inside_range s e (flat_map f cs).
Proof.
  induction cs as [|c cs IH]; intros s e H Hf; simpl.
  - split; constructor.
  - simpl in H. destruct H as (H1 & H2 & H3).
    destruct (Hf c (or_introl eq_refl)) as [Ho Hi].
    destruct (IH _ _ H3) as [Ho' Hi']; [intros d Hd; apply Hf; right; exact Hd|].
    pose proof (laid_out_le _ _ _ H3) as Hle.
    split.
    + eapply ordered_app; eassumption.
    + apply Forall_app. split; [eapply inside_wider; [exact Hi|lia|lia] | eapply inside_wider; [exact Hi'|lia|lia]].
Qed.
Lemma own_attrs_ordered t :
  all_ok t -> in_source_order (attrs_of t) /\ inside_range (fst (n_range t)) (snd (n_range t)) (attrs_of t).
Proof.
  intros H. unfold attrs_of. apply blocks_ordered; [apply ok_layout, all_ok_self; exact H|].
  intros c Hc. destruct (n_attr c) as [a|] eqn:Ea; [|split; constructor].
  destruct (attr_range t [] c a H (path_child _ _ Hc) Ea) as [E Hlt].
  pose proof (range_within t [] c H (path_child _ _ Hc)) as Hr.
  split; [constructor; constructor|]. constructor; [rewrite E; lia | constructor].
Qed.
Lemma attrs_at_snd t up x : map snd (attrs_at t up x) = attrs_of (snd x).
Proof. unfold attrs_at. rewrite map_map. cbn [snd]. apply map_id. Qed.
Lemma closest_ordered t : forall up, all_ok t ->
  in_source_order (map snd (closest up t))
  /\ inside_range (fst (n_range t)) (snd (n_range t)) (map snd (closest up t)).
Proof.
  induction t as [i k r a cs IH] using tree_ind'. intros up H. rewrite Forall_forall in IH.
  cbn [closest]. rewrite map_flat_map. apply blocks_ordered; [exact (ok_layout _ (all_ok_self _ H))|].
  intros c Hc. pose proof (all_ok_child _ _ H Hc) as Hok.
  destruct (ink_attrs c) eqn:E.
  - apply IH; assumption.
  - unfold ink_attrs_at. cbn [fst]. rewrite map_map. cbn [snd]. rewrite map_id, attrs_of_ink.
    apply own_attrs_ordered; exact Hok.
Qed.

(** All attributes below a node. *)
Definition attrs_below (t : tree) : list ink_attr :=
  flat_map (fun x => match n_attr (snd x) with Some a => [a] | None => [] end) (below t).
Definition attrs_from (t : tree) : list ink_attr :=
  (match n_attr t with Some a => [a] | None => [] end) ++ attrs_below t.
Lemma attrs_below_children t : attrs_below t = flat_map attrs_from (n_children t).
Proof.
  unfold attrs_below. rewrite below_children, flat_map_flat_map. apply flat_map_ext. intros c.
  cbn [flat_map snd]. unfold attrs_from. f_equal. rewrite flat_map_map. reflexivity.
Qed.
Lemma attrs_from_ordered t : all_ok t ->
  in_source_order (attrs_from t) /\ inside_range (fst (n_range t)) (snd (n_range t)) (attrs_from t).
Proof.
  induction t as [i k r a cs IH] using tree_ind'. intros H. rewrite Forall_forall in IH.
  set (t := Nd i k r a cs) in *. unfold attrs_from. pose proof (all_ok_self _ H) as Hok.
  destruct (n_attr t) as [x|] eqn:Ea.
  - destruct (ok_attr _ Hok x Ea) as (Hk & E & Hlt).
    assert (attrs_below t = []) as ->.
    { apply flat_map_nil. intros [b n] Hx. cbn [snd]. rewrite (ok_inside _ Hok Hk n); [reflexivity|].
      apply in_map_iff. exists (b, n). split; [reflexivity | exact Hx]. }
    cbn [app]. split; [constructor; constructor|]. constructor; [rewrite E; lia | constructor].
  - cbn [app]. rewrite attrs_below_children. apply blocks_ordered; [exact (ok_layout _ Hok)|].
    intros c Hc. apply IH; [exact Hc|]. eapply all_ok_child; eassumption.
Qed.
Lemma descendants_ordered t up : all_ok t ->
  in_source_order (map snd (ink_attrs_descendants (t, up)))
  /\ inside_range (fst (n_range t)) (snd (n_range t)) (map snd (ink_attrs_descendants (t, up))).
Proof.
  intros H. rewrite ink_attrs_descendants_nodes by exact H. unfold attr_nodes. rewrite map_flat_map.
  rewrite below_children, flat_map_flat_map.
  apply (blocks_ordered
    (fun c => flat_map (fun x => map snd match n_attr (snd x), fst x with
                                         | Some a, p :: b => [((p, b ++ t :: up), a)]
                                         | _, _ => []
                                         end) (([], c) :: map (fun x => (fst x ++ [c], snd x)) (below c)))
    (n_children t) (fst (n_range t)) (snd (n_range t))); [exact (ok_layout _ (all_ok_self _ H))|].
  intros c Hc. pose proof (all_ok_child _ _ H Hc) as Hok. cbn [flat_map fst snd].
  assert (map snd (match n_attr c with Some _ => [] | None => [] end : list found) = []) as E by (destruct (n_attr c); reflexivity).
  replace (map snd match n_attr c with Some _ => [] | None => [] end) with (@nil ink_attr) by (destruct (n_attr c); reflexivity).
  cbn [app]. rewrite flat_map_map.
  replace (flat_map _ (below c)) with (attrs_below c).
  2:{ unfold attrs_below. apply flat_map_ext. intros [b n]. cbn [fst snd]. destruct (n_attr n); [|reflexivity].
      destruct (b ++ [c]) eqn:Eb; [destruct b; discriminate|]. reflexivity. }
  destruct (attrs_from_ordered c Hok) as [Ho Hi]. unfold attrs_from in Ho, Hi.
  destruct (n_attr c) as [x|] eqn:Ea; [|split; assumption].
  cbn [app] in Ho, Hi. inversion Ho; subst. inversion Hi; subst. split; assumption.
Qed.
Lemma ordered_nodup l s e : in_source_order l -> inside_range s e l -> NoDup (map at_range l).
Proof.
  intros H Hi. induction H as [|a l H IH Hf]; [constructor|]. inversion Hi; subst. simpl. constructor; [|auto].
  intros Hin. apply in_map_iff in Hin. destruct Hin as (b & E & Hb). rewrite Forall_forall in Hf. specialize (Hf b Hb).
  unfold written_before in Hf. rewrite <- E in Hf. rewrite E in Hf. lia.
Qed.

(** ** Existence *)
Lemma path_elements t b n m : path t b n -> In m b -> exists b1 b2, b = b1 ++ m :: b2 /\ path t b2 m.
Proof.
  intros Hp Hm. apply in_split in Hm. destruct Hm as (b1 & b2 & ->). exists b1, b2. split; [reflexivity|].
  apply path_split in Hp. apply Hp.
Qed.
Lemma unannotated_dec b : unannotated b \/ exists m, In m b /\ annotated m = true.
Proof.
  induction b as [|m b IH].
  - left. intros m [].
  - destruct (annotated m) eqn:E.
    + right. exists m. split; [left; reflexivity | exact E].
    + destruct IH as [H|(x & Hx & Hx')].
      * left. intros x [<-|Hx]; [exact E | apply H; exact Hx].
      * right. exists x. split; [right; exact Hx | exact Hx'].
Qed.
(** The outermost annotated node on the way to an annotated node. *)
Lemma outermost t : forall k b n, length b <= k -> path t b n -> annotated n = true ->
  exists b' n', path t b' n' /\ unannotated b' /\ annotated n' = true.
Proof.
  induction k as [|k IH]; intros b n Hk Hp Hn.
  - exists b, n. destruct b; [|simpl in Hk; lia]. split; [exact Hp|]. split; [intros m []| exact Hn].
  - destruct (unannotated_dec b) as [Hu|(m & Hm & Hm')]; [exists b, n; auto|].
    destruct (path_elements _ _ _ _ Hp Hm) as (b1 & b2 & -> & Hp2).
    apply (IH b2 m); [|exact Hp2|exact Hm']. rewrite app_length in Hk. simpl in Hk. lia.
Qed.
Lemma closest_exists t up :
  all_ok t ->
  (ink_attrs_closest_descendants (t, up) <> [] <-> exists b n, path t b n /\ annotated n = true).
Proof.
  intros H. split.
  - intros Hne. destruct (ink_attrs_closest_descendants (t, up)) as [|[l a] rest] eqn:E; [congruence|].
    assert (Hin : In (l, a) (ink_attrs_closest_descendants (t, up))) by (rewrite E; left; reflexivity).
    apply closest_In in Hin. destruct Hin as (b & n & _ & Hp & _ & Ha). exists b, n. split; [exact Hp|].
    apply annotated_spec. exists a; exact Ha.
  - intros (b & n & Hp & Hn). destruct (outermost t (length b) b n (le_n _) Hp Hn) as (b' & n' & Hp' & Hu & Hn').
    apply annotated_spec in Hn'. destruct Hn' as (a & Ha). intros E.
    assert (Hin : In ((n', b' ++ t :: up), a) (ink_attrs_closest_descendants (t, up)))
      by (apply closest_In; exists b', n'; auto).
    rewrite E in Hin. destruct Hin.
Qed.
Lemma attr_nodes_In t up l a :
  In (l, a) (attr_nodes up t) <->
  exists b n, l = (n, b ++ t :: up) /\ path t b n /\ In a (attrs_of n).
Proof.
  unfold attr_nodes. rewrite in_flat_map. split.
  - intros ([b n] & Hx & H). cbn [fst snd] in H. destruct (n_attr n) as [x|] eqn:Ea; [|destruct H].
    destruct b as [|p b]; [destruct H|]. destruct H as [E|[]]. injection E as <- <-.
    apply below_path in Hx. apply (path_split t [] p b n) in Hx. destruct Hx as [H1 H2].
    exists b, p. split; [reflexivity|]. split; [exact H1|]. apply attrs_of_In. exists n. split; [|exact Ea].
    inversion H2; subst; assumption.
  - intros (b & p & -> & Hp & Ha). apply attrs_of_In in Ha. destruct Ha as (n & Hn & Ea).
    exists (p :: b, n). split; [apply below_path; eapply path_step; eassumption|].
    cbn [fst snd]. rewrite Ea. left; reflexivity.
Qed.

(** ** Closest ancestors *)
Lemma collect_list {A S} (step : S -> option (option (list A) * S)) l s :
  step s = None -> forall fuel, length l < fuel -> iter_collect step fuel (Some l) s = Some l.
Proof.
  intros Hs. induction l as [|x l IH]; intros fuel Hf; destruct fuel as [|fuel]; simpl in Hf; try lia.
  - simpl. rewrite Hs. reflexivity.
  - simpl. rewrite IH by lia. reflexivity.
Qed.
Definition up_loc (up : list tree) : option loc := match up with [] => None | p :: up' => Some (p, up') end.
Lemma closest_up up : exists l fuel0, nearest_attrs up l
  /\ forall fuel, fuel0 <= fuel -> iter_collect closest_step fuel None (up_loc up) = Some l.
Proof.
  induction up as [|p up IH].
  - exists [], 1. split; [left; split; [intros m [] | reflexivity]|]. intros [|fuel] Hf; [lia|]. reflexivity.
  - destruct (attrs_of p) as [|a l] eqn:E.
    + destruct IH as (l & fuel0 & Hn & Hf). exists l, (S fuel0). split.
      * assert (Ep : annotated p = false) by (apply annotated_false; exact E).
        destruct Hn as [[Hu ->]|(near & x & far & -> & Hu & Hx & ->)].
        -- left. split; [|reflexivity]. intros m [<-|Hm]; [exact Ep | apply Hu; exact Hm].
        -- right. exists (p :: near), x, far. split; [reflexivity|]. split; [|split; [exact Hx | reflexivity]].
           intros m [<-|Hm]; [exact Ep | apply Hu; exact Hm].
      * intros [|fuel] Hle; [lia|]. cbn [iter_collect up_loc closest_step fst].
        rewrite attrs_of_ink, E. unfold loc_parent. cbn [snd]. apply Hf. lia.
    + exists (a :: l), (S (S (length (a :: l)))). split.
      * right. exists [], p, up. split; [reflexivity|]. split; [intros m []|]. split; [|symmetry; exact E].
        apply annotated_spec. exists a. rewrite E. left; reflexivity.
      * intros [|fuel] Hle; [lia|]. cbn [iter_collect up_loc closest_step fst].
        rewrite attrs_of_ink, E. apply collect_list; [reflexivity|]. simpl in *. lia.
Qed.
Lemma nearest_attrs_unique up l l' : nearest_attrs up l -> nearest_attrs up l' -> l = l'.
Proof.
  revert l l'. induction up as [|p up IH]; intros l l' H H'.
  - destruct H as [[_ ->]|(near & a & far & E & _)]; [|destruct near; discriminate].
    destruct H' as [[_ ->]|(near & a & far & E & _)]; [reflexivity | destruct near; discriminate].
  - destruct (annotated p) eqn:Ep.
    + assert (G : forall l, nearest_attrs (p :: up) l -> l = attrs_of p).
      { intros k [[Hu _]|(near & a & far & E & Hu & Ha & ->)].
        - rewrite (Hu p (or_introl eq_refl)) in Ep. discriminate.
        - destruct near as [|q near]; injection E as <- E.
          + reflexivity.
          + rewrite (Hu p (or_introl eq_refl)) in Ep. discriminate. }
      rewrite (G _ H), (G _ H'). reflexivity.
    + assert (G : forall l, nearest_attrs (p :: up) l -> nearest_attrs up l).
      { intros k [[Hu ->]|(near & a & far & E & Hu & Ha & ->)].
        - left. split; [|reflexivity]. intros m Hm. apply Hu. right; exact Hm.
        - destruct near as [|q near]; injection E as <- E.
          + congruence.
          + right. exists near, a, far. split; [exact E|]. split; [|split; [exact Ha | reflexivity]].
            intros m Hm. apply Hu. right; exact Hm. }
      apply IH; apply G; assumption.
Qed.
Lemma closest_source_up l :
  closest_source l = up_loc (if skind_eqb (loc_kind l) ATTR then tl (snd l) else snd l).
Proof.
  unfold closest_source, loc_parent, obind. destruct (skind_eqb (loc_kind l) ATTR).
  - destruct (snd l) as [|p [|q up]]; reflexivity.
  - destruct (snd l); reflexivity.
Qed.
Lemma closest_ancestors_spec l :
  exists r fuel0, nearest_attrs (if skind_eqb (loc_kind l) ATTR then tl (snd l) else snd l) r
    /\ forall fuel, fuel0 <= fuel -> ink_attrs_closest_ancestors fuel l = Some r.
Proof.
  unfold ink_attrs_closest_ancestors. rewrite closest_source_up. apply closest_up.
Qed.

(** Attributes of different nodes differ. *)
Lemma same_id t b n b' n' :
  NoDup (map n_id (self_and_below t)) -> path t b n -> path t b' n' -> n_id n = n_id n' -> b = b' /\ n = n'.
Proof.
  intros Hnd Hp Hp' E. unfold self_and_below in Hnd. simpl in Hnd. inversion Hnd as [|x l Hx Hnd']; subst. clear Hnd Hx.
  apply below_path in Hp, Hp'. rewrite map_map in Hnd'.
  assert (G : forall L : list (list tree * tree), NoDup (map (fun x => n_id (snd x)) L) ->
              forall x y, In x L -> In y L -> n_id (snd x) = n_id (snd y) -> x = y).
  { induction L as [|z L IH]; intros HL x y Hx Hy Exy; [destruct Hx|]. simpl in HL. inversion HL; subst.
    destruct Hx as [<-|Hx], Hy as [<-|Hy]; try reflexivity.
    - exfalso. apply H1. rewrite Exy. apply in_map_iff. exists y. split; [reflexivity | exact Hy].
    - exfalso. apply H1. rewrite <- Exy. apply in_map_iff. exists x. split; [reflexivity | exact Hx].
    - apply IH; assumption. }
  specialize (G _ Hnd' (b, n) (b', n') Hp Hp' E). injection G as -> ->. split; reflexivity.
Qed.
Lemma attrs_of_range t x y a :
  all_ok t -> In x (attrs_of t) -> path t y a -> In x (attrs_of a) -> False.
Proof.
  intros H Hx Hp Hx'. apply attrs_of_In in Hx, Hx'. destruct Hx as (c & Hc & Ec), Hx' as (d & Hd & Ed).
  pose proof (attr_range t [] c x H (path_child _ _ Hc) Ec) as [E1 L1].
  pose proof (all_ok_path _ _ _ H Hp) as Ha.
  pose proof (attr_range a [] d x Ha (path_child _ _ Hd) Ed) as [E2 L2].
  pose proof (path_top _ _ _ Hp) as [[-> Hin]|(e & y' & -> & He & Hp')].
  - (* a is a child of t *)
    destruct (attr_range t [] c x H (path_child _ _ Hc) Ec) as [_ _].
    assert (Hda : path t [a] d) by (eapply path_step; [apply path_child; exact Hin | exact Hd]).
    pose proof (range_within a [] d Ha (path_child _ _ Hd)) as R.
    pose proof (ok_layout _ (all_ok_self _ H)) as L.
    destruct (in_split _ _ Hin) as (l1 & l2 & El). rewrite El in L, Hc. rewrite map_app in L. simpl in L.
    apply laid_out_app in L. destruct L as (m & L3 & L4). simpl in L4. destruct L4 as (L5 & L6 & L7).
    apply in_app_iff in Hc. destruct Hc as [Hc|[Hc|Hc]].
    + destruct (laid_out_In _ _ _ (n_range c) L3 (in_map _ _ _ Hc)) as (A & B & C). rewrite E1 in E2. rewrite <- E2 in R. lia.
    + subst c. destruct (ok_attr _ (all_ok_self _ Ha) x Ec) as (Hk & _ & _).
      rewrite (ok_inside _ (all_ok_self _ Ha) Hk d) in Ed; [discriminate|]. apply below_In. exists []. apply path_child; exact Hd.
    + destruct (laid_out_In _ _ _ (n_range c) L7 (in_map _ _ _ Hc)) as (A & B & C). rewrite E1 in E2. rewrite <- E2 in R. lia.
  - pose proof (all_ok_child _ _ H He) as Hoke.
    assert (Hde : path e (a :: y') d) by (eapply path_step; eassumption).
    pose proof (range_within e _ d Hoke Hde) as R.
    pose proof (ok_layout _ (all_ok_self _ H)) as L.
    destruct (in_split _ _ He) as (l1 & l2 & El). rewrite El in L, Hc. rewrite map_app in L. simpl in L.
    apply laid_out_app in L. destruct L as (m & L3 & L4). simpl in L4. destruct L4 as (L5 & L6 & L7).
    apply in_app_iff in Hc. destruct Hc as [Hc|[Hc|Hc]].
    + destruct (laid_out_In _ _ _ (n_range c) L3 (in_map _ _ _ Hc)) as (A & B & C). rewrite E1 in E2. rewrite <- E2 in R. lia.
    + subst c. destruct (ok_attr _ (all_ok_self _ Hoke) x Ec) as (Hk & _ & _).
      rewrite (ok_inside _ (all_ok_self _ Hoke) Hk d) in Ed; [discriminate|]. apply below_In. exists (a :: y'). exact Hde.
    + destruct (laid_out_In _ _ _ (n_range c) L7 (in_map _ _ _ Hc)) as (A & B & C). rewrite E1 in E2. rewrite <- E2 in R. lia.
Qed.

(** Duality *)
Lemma nearest_dual t up b n :
  all_ok t -> annotated t = true -> path t b n ->
  (unannotated b <-> nearest_attrs (b ++ t :: up) (attrs_of t)).
Proof.
  intros H Ht Hp. split.
  - intros Hu. right. exists b, t, up. auto.
  - intros [[Hu E]|(near & a & far & E & Hu & Ha & Eq)].
    + apply annotated_spec in Ht. destruct Ht as (x & Hx). rewrite E in Hx. destruct Hx.
    + (* the nearest annotated node has the attributes of t, so it is not strictly below t *)
      assert (G : forall near b, b ++ t :: up = near ++ a :: far ->
                  (exists c, b = near ++ a :: c) \/ (exists c, near = b ++ c)).
      { clear. induction near as [|x near IH]; intros [|y b] E; simpl in *.
        - right. exists []. reflexivity.
        - injection E as -> E. left. exists b. reflexivity.
        - right. eexists. reflexivity.
        - injection E as -> E. destruct (IH b E) as [(c & ->)|(c & ->)]; [left | right]; exists c; reflexivity. }
      destruct (G near b E) as [(c & ->)|(c & ->)].
      * apply path_split in Hp. destruct Hp as [Hp _]. apply annotated_spec in Ht. destruct Ht as (x & Hx).
        exfalso. apply (attrs_of_range t x c a H Hx Hp). rewrite <- Eq. exact Hx.
      * intros m Hm. apply Hu. apply in_app_iff. left; exact Hm.
Qed.

(** Ancestors of an attribute *)
Lemma ancestor_attrs_attr root b d a :
  all_ok root -> path root b d -> n_attr d = Some a ->
  ink_attrs_ancestors (d, b ++ [root]) = flat_map attrs_of (tl (b ++ [root])).
Proof.
  intros H Hp Ha. pose proof (ok_attr _ (all_ok_self _ (all_ok_path _ _ _ H Hp)) a Ha) as (Hk & _).
  unfold ink_attrs_ancestors, loc_kind. cbn [fst snd]. rewrite Hk. rewrite skind_eqb_refl.
  destruct (b ++ [root]) as [|p up] eqn:E; [destruct b; discriminate|].
  unfold loc_parent. cbn [snd]. unfold loc_range. cbn [fst].
  rewrite flat_map_filter. cbn [flat_map tl].
  assert (Erefl : range_eqb (n_range p) (n_range p) = true) by (apply range_eqb_eq; reflexivity).
  rewrite Erefl. cbn [negb orb app]. apply flat_map_ext_in. intros x Hx. rewrite attrs_of_ink.
  destruct (range_eqb (n_range p) (n_range x)) eqn:Er; cbn [negb]; [|reflexivity].
  apply range_eqb_eq in Er. symmetry.
  (* x is strictly above p *)
  assert (Hxp : exists y, path x y p /\ all_ok x /\ In d (n_children p)).
  { destruct b as [|q b]; [injection E as <- <-; destruct Hx|]. injection E as <- E. subst up.
    apply (path_split root [] q b d) in Hp. destruct Hp as [Hq Hd].
    assert (Hdc : In d (n_children q)) by (inversion Hd; subst; assumption).
    apply in_app_iff in Hx. destruct Hx as [Hx|[<-|[]]].
    - apply in_split in Hx. destruct Hx as (b1 & b2 & ->). apply path_split in Hq. destruct Hq as [Hq1 Hq2].
      exists b1. split; [exact Hq2|]. split; [eapply all_ok_path; eassumption | exact Hdc].
    - exists b. auto. }
  destruct Hxp as (y & Hy & Hokx & Hdc).
  destruct (attrs_of x) as [|z l] eqn:Ex; [reflexivity|]. exfalso.
  assert (Hz : In z (attrs_of x)) by (rewrite Ex; left; reflexivity).
  apply attrs_of_In in Hz. destruct Hz as (e & He & Eze).
  destruct (attr_range x [] e z Hokx (path_child _ _ He) Eze) as [_ Hlt].
  pose proof (ok_layout _ (all_ok_self _ Hokx)) as L.
  (* the child of x above or equal to p *)
  assert (Hc : exists c, In c (n_children x) /\ (c = p \/ exists y', path c y' p)).
  { apply path_top in Hy. destruct Hy as [[_ Hc]|(c & y' & _ & Hc & Hy')].
    - exists p. split; [exact Hc | left; reflexivity].
    - exists c. split; [exact Hc | right; exists y'; exact Hy']. }
  destruct Hc as (c & Hc & Hcp).
  assert (Hrc : n_range c = (fst (n_range x), snd (n_range x))).
  { pose proof (range_within x [] c Hokx (path_child _ _ Hc)) as R1.
    assert (R2 : fst (n_range c) <= fst (n_range p) /\ snd (n_range p) <= snd (n_range c)).
    { destruct Hcp as [->|(y' & Hy')]; [lia|].
      pose proof (range_within c y' p (all_ok_child _ _ Hokx Hc) Hy'). lia. }
    rewrite (surjective_pairing (n_range c)). rewrite Er in R2. f_equal; lia. }
  destruct (in_split _ _ Hc) as (l1 & l2 & El). rewrite El in L. rewrite map_app in L. simpl in L.
  rewrite El in He. apply in_app_iff in He.
  assert (He' : e = c \/ In e (l1 ++ l2)).
  { destruct He as [He|[He|He]]; [right; apply in_app_iff; left; exact He | left; symmetry; exact He |
      right; apply in_app_iff; right; exact He]. }
  destruct He' as [->|He'].
  - destruct (ok_attr _ (all_ok_self _ (all_ok_child _ _ Hokx Hc)) z Eze) as (Hkc & _).
    rewrite (ok_inside _ (all_ok_self _ (all_ok_child _ _ Hokx Hc)) Hkc d) in Ha; [discriminate|].
    apply below_In. destruct Hcp as [->|(y' & Hy')].
    + exists []. apply path_child; exact Hdc.
    + exists (p :: y'). eapply path_step; eassumption.
  - assert (fst (n_range e) = snd (n_range e)); [|lia].
    apply (laid_out_full _ _ _ _ _ (n_range e) L Hrc). rewrite <- map_app. apply in_map; exact He'.
Qed.

(** ** Entities *)
Lemma has_kind_declared k t : has_kind k t = true <-> declared k t.
Proof.
  unfold has_kind, declared. rewrite attrs_of_ink, existsb_exists.
  split; intros (a & Ha & E); exists a; (split; [exact Ha | apply attr_kind_eqb_eq; exact E]).
Qed.
Lemma casts_eq k f : casts k f = true <-> at_kind (snd f) = k.
Proof. apply attr_kind_eqb_eq. Qed.
Lemma closest_entities_In k t up l :
  In l (ink_closest_descendants k (t, up)) <->
  exists b n, l = (n, b ++ t :: up) /\ path t b n /\ unannotated b /\ declared k n.
Proof.
  unfold ink_closest_descendants. rewrite in_map_iff. split.
  - intros ([l' a] & <- & H). apply filter_In in H. destruct H as [H Hk]. apply casts_eq in Hk.
    apply closest_In in H. destruct H as (b & n & -> & Hp & Hu & Ha). exists b, n. cbn [fst].
    split; [reflexivity|]. split; [exact Hp|]. split; [exact Hu|]. exists a. split; [exact Ha | exact Hk].
  - intros (b & n & -> & Hp & Hu & a & Ha & Hk). exists ((n, b ++ t :: up), a). split; [reflexivity|].
    apply filter_In. split; [apply closest_In; exists b, n; auto | apply casts_eq; exact Hk].
Qed.
Lemma closest_entities_list k t up :
  ink_closest_descendants k (t, up)
  = flat_map (fun x => map (fun _ => (snd x, fst x ++ t :: up))
                         (filter (fun a => attr_kind_eqb (at_kind a) k) (attrs_of (snd x))))
      (closest_nodes t).
Proof.
  unfold ink_closest_descendants, ink_attrs_closest_descendants. cbn [fst snd].
  rewrite closest_spec, filter_flat_map, map_flat_map. apply flat_map_ext. intros [b n]. unfold attrs_at. cbn [fst snd].
  induction (attrs_of n) as [|a l IH]; [reflexivity|]. cbn [map filter]. unfold casts at 1. cbn [snd].
  destruct (attr_kind_eqb (at_kind a) k); cbn [map]; [f_equal|]; exact IH.
Qed.

Lemma unique_loc_In t up (L : list loc) l :
  NoDup (map n_id (self_and_below t)) ->
  (forall x, In x L -> exists b n, x = (n, b ++ t :: up) /\ path t b n) ->
  In l (unique_by Nat.eqb loc_id L) <-> In l L.
Proof.
  intros Hnd HL. split.
  - apply unique_by_aux_incl.
  - intros Hl. destruct (unique_by_aux_complete Nat.eqb loc_id Nat.eqb_eq [] L l Hl) as (y & Hy & E); [intros []|].
    assert (y = l); [|subst; exact Hy].
    pose proof (unique_by_aux_incl Nat.eqb loc_id [] L y Hy) as HyL.
    destruct (HL l Hl) as (b & n & -> & Hp), (HL y HyL) as (b' & n' & -> & Hp').
    unfold loc_id in E. cbn [fst] in E. destruct (same_id t b' n' b n Hnd Hp' Hp E) as [-> ->]. reflexivity.
Qed.

(** At most one annotated node between, and it lets through. *)
Definition seen_through (k : attr_kind) (peek : found -> bool) (t : tree) (up : list tree) (b : list tree) : Prop :=
  unannotated b
  \/ exists b1 o b2 a, b = b1 ++ o :: b2 /\ unannotated b1 /\ unannotated b2
       /\ In a (attrs_of o) /\ at_kind a <> k /\ peek ((o, b2 ++ t :: up), a) = true.
Lemma peek_In k peek t up l :
  NoDup (map n_id (self_and_below t)) ->
  In l (peek_descendants k peek (t, up)) <->
  exists b n, l = (n, b ++ t :: up) /\ path t b n /\ declared k n /\ seen_through k peek t up b.
Proof.
  intros Hnd. unfold peek_descendants.
  set (L := flat_map _ _).
  assert (HL : forall l, In l L <-> exists b n, l = (n, b ++ t :: up) /\ path t b n /\ declared k n /\ seen_through k peek t up b).
  { clear l. intros l. unfold L. rewrite in_flat_map. split.
    - intros ([o a] & Ho & H). apply closest_In in Ho. destruct Ho as (b2 & m & -> & Hp & Hu & Ha).
      match type of H with In _ (if ?c then _ else _) => destruct c eqn:Ec end.
      + apply casts_eq in Ec. cbn [snd] in Ec. destruct H as [<-|[]]. exists b2, m. cbn [fst]. split; [reflexivity|].
        split; [exact Hp|]. split; [exists a; auto | left; exact Hu].
      + match type of H with In _ (if ?c then _ else _) => destruct c eqn:Epk end; [|destruct H].
        cbn [fst] in H. apply closest_entities_In in H.
        destruct H as (b1 & n & -> & Hp1 & Hu1 & Hd). exists (b1 ++ m :: b2), n.
        split; [rewrite <- app_assoc; reflexivity|]. split; [apply path_trans; assumption|]. split; [exact Hd|].
        right. exists b1, m, b2, a. split; [reflexivity|]. repeat (split; [assumption|]).
        split; [|exact Epk]. intros E. apply (casts_eq k ((m, b2 ++ t :: up), a)) in E.
        exact (diff_true_false (eq_trans (eq_sym E) Ec)).
    - intros (b & n & -> & Hp & Hd & [Hu|(b1 & o & b2 & a & -> & Hu1 & Hu2 & Ha & Hk & Hpk)]).
      + destruct Hd as (a & Ha & Hk). exists ((n, b ++ t :: up), a). split; [apply closest_In; exists b, n; auto|].
        assert (Ec : casts k ((n, b ++ t :: up), a) = true) by (apply casts_eq; exact Hk). match goal with |- In _ (if ?c then _ else _) => replace c with true by (symmetry; exact Ec) end. left; reflexivity.
      + apply path_split in Hp. destruct Hp as [Hp2 Hp1].
        exists ((o, b2 ++ t :: up), a). split; [apply closest_In; exists b2, o; auto|].
        match goal with |- In _ (if ?c then _ else _) => destruct c eqn:Ec end; [apply casts_eq in Ec; cbn [snd] in Ec; congruence|].
        match goal with |- In _ (if ?c then _ else _) => replace c with true by (symmetry; exact Hpk) end. cbn [fst]. apply closest_entities_In. exists b1, n.
        split; [rewrite <- app_assoc; reflexivity|]. auto. }
  rewrite <- HL. apply (unique_loc_In t up); [exact Hnd|].
  intros x Hx. apply HL in Hx. destruct Hx as (b & n & -> & Hp & _). exists b, n. auto.
Qed.
Lemma peek_nodup k peek l : NoDup (map loc_id (peek_descendants k peek l)).
Proof. apply unique_by_nodup. exact Nat.eqb_eq. Qed.

(** The nearest item around a node. *)
Lemma nearest_item_spec up :
  match nearest_item up with
  | Some (p, far) => exists near, up = near ++ p :: far /\ no_item near /\ is_item (n_kind p) = true
  | None => no_item up
  end.
Proof.
  induction up as [|m up IH]; simpl; [intros x []|]. destruct (is_item (n_kind m)) eqn:E.
  - exists []. split; [reflexivity|]. split; [intros x [] | exact E].
  - destruct (nearest_item up) as [[p far]|].
    + destruct IH as (near & -> & Hn & Hp). exists (m :: near). split; [reflexivity|]. split; [|exact Hp].
      intros x [<-|Hx]; [exact E | apply Hn; exact Hx].
    + intros x [<-|Hx]; [exact E | apply IH; exact Hx].
Qed.
Lemma nearest_item_split near p far :
  no_item near -> is_item (n_kind p) = true -> nearest_item (near ++ p :: far) = Some (p, far).
Proof.
  intros Hn Hp. induction near as [|m near IH]; simpl.
  - rewrite Hp. reflexivity.
  - rewrite (Hn m (or_introl eq_refl)). apply IH. intros x Hx. apply Hn. right; exact Hx.
Qed.
Lemma split_tail {A} (near far b up : list A) p t :
  b ++ t :: up = near ++ p :: far ->
  (exists c, b = near ++ p :: c /\ far = c ++ t :: up) \/ (exists c, near = b ++ c).
Proof.
  revert near; induction b as [|y b IH]; intros [|x near] E; simpl in *.
  - right. exists []. reflexivity.
  - right. eexists. reflexivity.
  - injection E as -> E. left. exists b. split; [reflexivity | symmetry; exact E].
  - injection E as -> E. destruct (IH near E) as [(c & -> & ->)|(c & ->)].
    + left. exists c. split; reflexivity.
    + right. exists c. reflexivity.
Qed.
Lemma in_root_spec t up b n :
  NoDup (map n_id (self_and_below t)) -> is_item (n_kind t) = true -> declared (AkMacro MContract) t -> path t b n ->
  (in_contract_root (t, up) (n, b ++ t :: up) = true <-> no_item b).
Proof.
  intros Hnd Hi Hd Hp. unfold in_contract_root, ink_parent, parent_ast_item. cbn [snd]. split.
  - intros H. pose proof (nearest_item_spec (b ++ t :: up)) as Hs.
    destruct (nearest_item (b ++ t :: up)) as [[p far]|] eqn:E; cbn [obind] in H.
    + destruct Hs as (near & Es & Hn & Hpi). destruct (split_tail _ _ _ _ _ _ Es) as [(c & -> & ->)|(c & ->)].
      * cbn [fst] in H. destruct (has_kind (AkMacro MContract) p); [|discriminate].
        apply Nat.eqb_eq in H. unfold loc_id in H. cbn [fst] in H.
        apply path_split in Hp. destruct Hp as [Hp _]. exfalso.
        unfold self_and_below in Hnd. simpl in Hnd. inversion Hnd as [|x l Hx _]; subst. apply Hx.
        rewrite <- H. apply in_map. apply below_In. exists c; exact Hp.
      * intros m Hm. apply Hn. apply in_app_iff. left; exact Hm.
    + discriminate.
  - intros Hn. rewrite nearest_item_split by assumption. cbn [obind fst].
    apply has_kind_declared in Hd. rewrite Hd. apply Nat.eqb_refl.
Qed.

(** ** Scope diagnostics *)
Lemma sorted_perm_eq {A} (R : A -> A -> Prop) l1 : forall l2,
  Permutation.Permutation l1 l2 -> StronglySorted R l1 -> StronglySorted R l2 ->
  (forall a b, In a l1 -> In b l1 -> R a b -> R b a -> a = b) -> l1 = l2.
Proof.
  induction l1 as [|a l1 IH]; intros l2 Hp H1 H2 Hanti.
  - apply Permutation.Permutation_nil in Hp. subst. reflexivity.
  - destruct l2 as [|b l2]; [apply Permutation.Permutation_sym, Permutation.Permutation_nil in Hp; discriminate|].
    inversion H1; subst. inversion H2; subst. rewrite Forall_forall in *.
    assert (E : a = b).
    { assert (Hb : In b (a :: l1)) by (eapply Permutation.Permutation_in; [apply Permutation.Permutation_sym; exact Hp | left; reflexivity]).
      assert (Ha : In a (b :: l2)) by (eapply Permutation.Permutation_in; [exact Hp | left; reflexivity]).
      destruct Hb as [Hb|Hb]; [exact Hb|]. destruct Ha as [Ha|Ha]; [symmetry; exact Ha|].
      apply Hanti; [left; reflexivity | right; exact Hb | auto | auto]. }
    subst b. f_equal. apply IH; try assumption.
    + eapply Permutation.Permutation_cons_inv; exact Hp.
    + intros x y Hx Hy. apply Hanti; right; assumption.
Qed.
Lemma filter_all {A} (f : A -> bool) l : (forall x, In x l -> f x = true) -> filter f l = l.
Proof.
  intros H. induction l as [|x l IH]; [reflexivity|]. simpl. rewrite (H x (or_introl eq_refl)), IH; [reflexivity|].
  intros y Hy. apply H. right; exact Hy.
Qed.
Lemma remove_perm (L : list ink_attr) a :
  NoDup (map at_range L) -> In a L ->
  Permutation.Permutation L (a :: filter (fun b => negb (range_eqb (at_range b) (at_range a))) L).
Proof.
  induction L as [|x L IH]; intros Hnd Hin; [destruct Hin|]. simpl in Hnd. inversion Hnd as [|y l Hx Hnd']; subst. simpl.
  destruct Hin as [<-|Hin].
  - replace (range_eqb (at_range x) (at_range x)) with true by (symmetry; apply range_eqb_eq; reflexivity). simpl.
    apply Permutation.perm_skip.
    replace (filter _ L) with L; [apply Permutation.Permutation_refl|].
    symmetry. apply filter_all. intros b Hb. apply negb_true_iff. destruct (range_eqb _ _) eqn:E; [|reflexivity].
    apply range_eqb_eq in E. exfalso. apply Hx. rewrite <- E. apply in_map; exact Hb.
  - destruct (range_eqb (at_range x) (at_range a)) eqn:E.
    + apply range_eqb_eq in E. exfalso. apply Hx. rewrite E. apply in_map; exact Hin.
    + simpl. eapply Permutation.perm_trans; [apply Permutation.perm_skip, IH; assumption|]. apply Permutation.perm_swap.
Qed.
Lemma ordered_starts l : in_source_order l -> (exists s e, inside_range s e l) ->
  StronglySorted (fun a b => fst (at_range a) <= fst (at_range b)) l.
Proof.
  intros H (s & e & Hi). induction H as [|a l H IH Hf]; [constructor|]. inversion Hi; subst.
  constructor; [apply IH; assumption|]. eapply Forall_impl; [|exact Hf]. intros b. unfold written_before. lia.
Qed.
Lemma ordered_start_inj l a b : in_source_order l -> (exists s e, inside_range s e l) ->
  In a l -> In b l -> fst (at_range a) = fst (at_range b) -> a = b.
Proof.
  intros H (s & e & Hi). induction H as [|x l H IH Hf]; intros Ha Hb E; [destruct Ha|]. inversion Hi as [|x' l' Hx Hl]; subst.
  rewrite Forall_forall in Hf, Hl.
  destruct Ha as [<-|Ha], Hb as [<-|Hb].
  - reflexivity.
  - specialize (Hf b Hb). specialize (Hl b Hb). unfold written_before in Hf. lia.
  - specialize (Hf a Ha). specialize (Hl a Ha). unfold written_before in Hf. lia.
  - apply IH; try assumption. rewrite <- Forall_forall in Hl. exact Hl.
Qed.
Lemma is_primary_spec n up a :
  all_ok n -> In a (attrs_of n) ->
  (is_primary ((n, up), a) = true
   <-> primary_of (fun x y => kind_precedes (at_kind x) (at_kind y)) (attrs_of n) a).
Proof.
  intros Hok Ha. destruct (own_attrs_ordered n Hok) as [Ho Hi].
  assert (Hi' : exists s e, inside_range s e (attrs_of n)) by (eexists; eexists; exact Hi).
  pose proof (ordered_nodup _ _ _ Ho Hi) as Hnd.
  unfold is_primary, attr_siblings. cbn [fst snd]. rewrite attrs_of_ink.
  assert (Es : stable_sort (fun a => fst (at_range a))
                 (a :: filter (fun b => negb (range_eqb (at_range b) (at_range a))) (attrs_of n)) = attrs_of n).
  { symmetry. apply (sorted_perm_eq (fun a b => fst (at_range a) <= fst (at_range b))).
    - eapply Permutation.perm_trans; [apply (remove_perm _ a Hnd Ha)|]. apply stable_sort_perm.
    - apply ordered_starts; assumption.
    - apply stable_sort_sorted.
    - intros x y Hx Hy H1 H2. apply (ordered_start_inj (attrs_of n)); try assumption. lia. }
  rewrite Es.
  assert (Hr : forall x y : ink_attr, kind_precedes (at_kind x) (at_kind y) <-> attr_rank (at_kind x) < attr_rank (at_kind y))
    by (intros; apply kind_precedes_rank).
  split.
  - destruct (hd_error _) as [p|] eqn:E; [|discriminate]. intros Er. apply range_eqb_eq in Er.
    apply (stable_sort_primary _ _ _ _ Hr) in E.
    assert (Hp : In p (attrs_of n)) by (destruct E as (l1 & l2 & -> & _); apply in_app_iff; right; left; reflexivity).
    assert (p = a); [|subst; exact E].
    apply (ordered_start_inj (attrs_of n)); try assumption. rewrite Er. reflexivity.
  - intros H. apply (stable_sort_primary _ _ _ _ Hr) in H. rewrite H. apply range_eqb_eq. reflexivity.
Qed.

Lemma primary_known_main attrs a :
  is_known a = true -> primary_of (fun x y => kind_precedes (at_kind x) (at_kind y)) attrs a -> main_attr attrs a.
Proof.
  intros Hk (l1 & l2 & -> & H1 & H2). unfold main_attr. rewrite filter_app. simpl. rewrite Hk.
  exists (filter is_known l1), (filter is_known l2). split; [reflexivity|].
  split; intros y Hy; apply filter_In in Hy; [apply H1 | apply H2]; apply Hy.
Qed.
Lemma main_primary attrs a :
  (forall x, In x attrs -> at_kind x <> AkMacro MUnknown) ->
  main_attr attrs a -> primary_of (fun x y => kind_precedes (at_kind x) (at_kind y)) attrs a.
Proof.
  intros Hu (l1 & l2 & E & H1 & H2).
  destruct (filter_split is_known attrs l1 a l2 E) as (L & R & -> & E1 & E2).
  assert (Hk : is_known a = true).
  { assert (In a (filter is_known (L ++ a :: R))) by (rewrite E; apply in_app_iff; right; left; reflexivity).
    apply filter_In in H. apply H. }
  assert (Hunk : forall y, In y (L ++ a :: R) -> is_known y = false -> at_kind y = AkArg AUnknown).
  { intros y Hy E'. specialize (Hu y Hy). unfold is_known in E'. apply negb_false_iff in E'.
    destruct (at_kind y) as [[]|[]]; try discriminate E'; try congruence. }
  exists L, R. split; [reflexivity|]. split.
  - intros y Hy. destruct (is_known y) eqn:Ek.
    + apply H1. rewrite <- E1. apply filter_In. split; assumption.
    + rewrite (Hunk y); [|apply in_app_iff; left; exact Hy|exact Ek]. apply kind_precedes_rank.
      unfold is_known in Hk. apply negb_true_iff in Hk. destruct (at_kind a) as [m|k]; simpl; [lia|].
      apply (known_rank_arg k) in Hk. lia.
  - intros y Hy. destruct (is_known y) eqn:Ek.
    + apply H2. rewrite <- E2. apply filter_In. split; assumption.
    + rewrite (Hunk y); [|apply in_app_iff; right; right; exact Hy|exact Ek]. rewrite kind_precedes_rank.
      unfold is_known in Hk. apply negb_true_iff in Hk. destruct (at_kind a) as [m|k]; simpl; [lia|].
      apply (known_rank_arg k) in Hk. lia.
Qed.


Lemma valid_descendants_In valid t up r :
  all_ok t ->
  In r (ensure_valid_descendants valid (t, up)) <->
  exists b n a, r = RInvalidScope a (removable_item n (b ++ t :: up)) /\ path t b n /\ unannotated b
    /\ is_known a = true /\ primary_of (fun x y => kind_precedes (at_kind x) (at_kind y)) (attrs_of n) a
    /\ valid (at_kind a) = false.
Proof.
  intros Hok. unfold ensure_valid_descendants. rewrite filter_map_In. split.
  - intros ([l a] & Hx & H). apply filter_In in Hx. destruct Hx as [Hx Hk]. apply closest_In in Hx.
    destruct Hx as (b & n & -> & Hp & Hu & Ha). cbn [snd] in *.
    match type of H with (if ?c then _ else _) = _ => destruct c eqn:E end; [|discriminate]. injection H as <-.
    apply andb_true_iff in E. destruct E as [E1 E2]. exists b, n, a. split; [reflexivity|].
    split; [exact Hp|]. split; [exact Hu|]. split; [exact Hk|].
    split; [apply (is_primary_spec n (b ++ t :: up) a); [eapply all_ok_path; eassumption | exact Ha | exact E1]|].
    apply negb_true_iff in E2. exact E2.
  - intros (b & n & a & -> & Hp & Hu & Hk & Hpr & Hv).
    assert (Ha : In a (attrs_of n)) by (destruct Hpr as (l1 & l2 & -> & _); apply in_app_iff; right; left; reflexivity).
    exists ((n, b ++ t :: up), a). split.
    + apply filter_In. split; [apply closest_In; exists b, n; auto | exact Hk].
    + apply (is_primary_spec n (b ++ t :: up) a) in Hpr; [|eapply all_ok_path; eassumption|exact Ha].
      cbn [snd]. rewrite Hv. unfold loc in *. rewrite Hpr. reflexivity.
Qed.
Lemma no_descendants_In allow t up r :
  all_ok t ->
  In r (ensure_no_descendants allow (t, up)) <->
  exists b n a, r = RNotAllowed a (removable_item n (b ++ t :: up)) /\ path t b n
    /\ In a (attrs_of n) /\ is_known a = true /\ (allow = true -> at_kind a <> AkMacro MScaleDerive).
Proof.
  intros Hok. unfold ensure_no_descendants. rewrite in_map_iff. rewrite ink_attrs_descendants_nodes by exact Hok. split.
  - intros ([l a] & <- & H). apply filter_In in H. destruct H as [H Hc]. apply attr_nodes_In in H.
    destruct H as (b & n & -> & Hp & Ha). cbn [snd] in *. apply andb_true_iff in Hc. destruct Hc as [Hk Hs].
    exists b, n, a. split; [reflexivity|]. split; [exact Hp|]. split; [exact Ha|]. split; [exact Hk|].
    intros -> E. cbn [negb orb] in Hs. apply negb_true_iff in Hs.
    apply (casts_eq _ ((n, b ++ t :: up), a)) in E. exact (diff_true_false (eq_trans (eq_sym E) Hs)).
  - intros (b & n & a & -> & Hp & Ha & Hk & Hs). exists ((n, b ++ t :: up), a). split; [reflexivity|].
    apply filter_In. split; [apply attr_nodes_In; exists b, n; auto|]. cbn [snd]. apply andb_true_iff.
    split; [exact Hk|]. destruct allow; [|reflexivity]. cbn [negb orb]. apply negb_true_iff.
    match goal with |- ?c = false => destruct c eqn:E end; [|reflexivity].
    apply casts_eq in E. cbn [snd] in E. exfalso. apply (Hs eq_refl). exact E.
Qed.
Lemma sub_nodup {A B} (f : A -> B) (l' l : list A) :
  (exists p, l' = filter p l) -> NoDup (map f l) -> NoDup (map f l').
Proof.
  intros (p & ->) H. induction l as [|x l IH]; [exact H|]. simpl in *. inversion H; subst. destruct (p x); [|auto].
  simpl. constructor; [|auto]. intros Hin. apply in_map_iff in Hin. destruct Hin as (y & E & Hy). apply filter_In in Hy.
  apply H2. rewrite <- E. apply in_map. apply Hy.
Qed.
Lemma filter_map_as_filter {A B} (p : A -> bool) (g : A -> B) l :
  filter_map (fun x => if p x then Some (g x) else None) l = map g (filter p l).
Proof. induction l as [|x l IH]; [reflexivity|]. simpl. rewrite IH. destruct (p x); reflexivity. Qed.
Lemma filter_filter' {A} (f g : A -> bool) l : filter f (filter g l) = filter (fun x => g x && f x) l.
Proof. induction l as [|x l IH]; [reflexivity|]. simpl. destruct (g x); simpl; rewrite IH; reflexivity. Qed.
Lemma valid_descendants_nodup valid t up :
  all_ok t -> NoDup (map (fun r => at_range (reported_attr r)) (ensure_valid_descendants valid (t, up))).
Proof.
  intros Hok. unfold ensure_valid_descendants. rewrite filter_map_as_filter, map_map. cbn [reported_attr].
  rewrite filter_filter'. eapply sub_nodup; [eexists; reflexivity|].
  destruct (closest_ordered t up Hok) as [Ho Hi]. pose proof (ordered_nodup _ _ _ Ho Hi) as H.
  rewrite map_map in H. exact H.
Qed.
Lemma no_descendants_nodup allow t up :
  all_ok t -> NoDup (map (fun r => at_range (reported_attr r)) (ensure_no_descendants allow (t, up))).
Proof.
  intros Hok. unfold ensure_no_descendants. rewrite map_map. cbn [reported_attr].
  eapply sub_nodup; [eexists; reflexivity|].
  destruct (descendants_ordered t up Hok) as [Ho Hi]. pose proof (ordered_nodup _ _ _ Ho Hi) as H.
  rewrite map_map in H. exact H.
Qed.

(** ** Tables *)
Lemma contains_kind_In l k : contains_kind l k = true <-> In k l.
Proof.
  unfold contains_kind. rewrite existsb_exists. split.
  - intros (x & Hx & E). apply attr_kind_eqb_eq in E. subst. exact Hx.
  - intros H. exists k. split; [exact H | apply attr_kind_eqb_eq; reflexivity].
Qed.
Definition kind_eq_dec (a b : attr_kind) : {a = b} + {a <> b}.
Proof. decide equality; decide equality. Defined.
Definition all_macros := [MChainExtension; MContract; MEvent; MScaleDerive; MStorageItem; MTest; MTraitDefinition; ME2ETest; MUnknown].
Definition all_args_kinds := [AAdditionalContracts; AAnonymous; ABackend; AConstructor; ADecode; ADefault; ADerive; AEncode; AEnv; AEnvironment; AEvent; AExtension; AFunction; AHandleStatus; AImpl; AKeepAttr; AMessage; ANamespace; ANode; APayable; ARuntimeOnly; ASandbox; ASelector; ASignatureTopic; AStorage; ATopic; ATypeInfo; AUrl; AUnknown].
Definition all_kinds := map AkMacro all_macros ++ map AkArg all_args_kinds.
Lemma all_kinds_In k : In k all_kinds.
Proof. destruct k as [[]|[]]; vm_compute; tauto. Qed.
Definition declares_b v k := match options v k with Some _ => true | None => false end.
Lemma declares_b_spec v k : declares_b v k = true <-> declares v k.
Proof. unfold declares_b, declares. destruct (options v k); split; intros H; try discriminate; eauto. destruct H; discriminate. Qed.
Lemma scope_table v s k :
  In s (checked_scopes v) -> declares v k ->
  (In k (valid_descendants s v) <-> In k (inside v s)).
Proof.
  intros Hs Hk. apply declares_b_spec in Hk. rewrite <- !contains_kind_In.
  assert (G : forallb (fun s => forallb (fun k => negb (declares_b v k)
                || Bool.eqb (contains_kind (valid_descendants s v) k) (contains_kind (inside v s) k)) all_kinds)
              (checked_scopes v) = true) by (destruct v; vm_compute; reflexivity).
  rewrite forallb_forall in G. specialize (G s Hs). rewrite forallb_forall in G. specialize (G k (all_kinds_In k)).
  rewrite Hk in G. cbn [negb orb] in G. apply Bool.eqb_prop in G. rewrite G. tauto.
Qed.

Lemma container_cases v s :
  In s (checked_scopes v) ->
  (container v s /\ forall l, ensure_scope s v l = ensure_valid_descendants
      (fun x => contains_kind (valid_descendants s v) x
                || match v with
                   | V5 => attr_kind_eqb s (AkMacro MChainExtension) && attr_kind_eqb x (AkArg AExtension)
                   | V4 => false
                   end) l)
  \/ (~ container v s /\ forall l, ensure_scope s v l = ensure_no_descendants (match v with V5 => true | V4 => false end) l).
Proof.
  intros Hs. unfold checked_scopes in Hs.
  destruct v; vm_compute in Hs; repeat (destruct Hs as [<-|Hs]; [| ]); try destruct Hs;
    match goal with
    | |- (container ?v ?s /\ _) \/ _ =>
        first
          [ left; split; [ first [ exists (AkArg AMessage); split; [vm_compute; tauto | discriminate]
                                 | exists (AkArg AExtension); split; [vm_compute; tauto | discriminate]
                                 | exists (AkArg AFunction); split; [vm_compute; tauto | discriminate] ]
                         | intros l; reflexivity ]
          | right; split; [ intros (k & Hk & Hne); vm_compute in Hk; intuition congruence | intros l; reflexivity ] ]
    end.
Qed.

(** ** impl blocks *)
Lemma impl_candidate_below td t up l :
  n_kind t = MODULE ->
  In l (filter (impl_can_cast td)
         (filter (fun c => skind_eqb (loc_kind c) IMPL) (loc_children (t, up))
          ++ filter_map (fun f => if possible_callable_ancestor f then attr_item f
                                  else if is_callable f then parent_impl_item (fst f)
                                  else None)
               (ink_attrs_closest_descendants (t, up)))) ->
  impl_can_cast td l = true /\ exists b n, l = (n, b ++ t :: up) /\ path t b n.
Proof.
  intros Ht H. apply filter_In in H. destruct H as [H Hc]. split; [exact Hc|]. apply in_app_iff in H. destruct H as [H|H].
  - apply filter_In in H. destruct H as [H _]. unfold loc_children in H. apply in_map_iff in H.
    destruct H as (c & <- & Hin). exists [], c. split; [reflexivity | apply path_child; exact Hin].
  - apply filter_map_In in H. destruct H as ([l' a] & Hx & H). apply closest_In in Hx.
    destruct Hx as (b & n & -> & Hp & Hu & Ha).
    match type of H with (if ?c then _ else _) = _ => destruct c end.
    + unfold attr_item in H. cbn [fst] in H. destruct (is_item _); [|discriminate]. injection H as <-.
      exists b, n. auto.
    + match type of H with (if ?c then _ else _) = _ => destruct c end; [|discriminate].
      unfold parent_impl_item, parent_ast_item in H. cbn [fst snd] in H.
      destruct (loc_kind (n, b ++ t :: up)); try discriminate.
      pose proof (nearest_item_spec (b ++ t :: up)) as Hs.
      destruct (nearest_item (b ++ t :: up)) as [[p far]|]; [|discriminate].
      destruct Hs as (near & E & Hn & Hpi). destruct (loc_kind (p, far)) eqn:Ek; try discriminate. injection H as <-.
      unfold loc_kind in Ek. cbn [fst] in Ek.
      destruct (split_tail _ _ _ _ _ _ E) as [(c & -> & ->)|(c & ->)].
      * apply path_split in Hp. exists c, p. split; [reflexivity | apply Hp].
      * exfalso. rewrite <- app_assoc in E. apply app_inv_head in E. destruct c as [|x c].
        -- injection E as <- _. congruence.
        -- injection E as <- _. assert (Hin : In t (b ++ t :: c)) by (apply in_app_iff; right; left; reflexivity).
           specialize (Hn t Hin). rewrite Ht in Hn. discriminate.
Qed.
Lemma callable_impl td t up near p far n k :
  NoDup (map n_id (self_and_below t)) -> n_kind t = MODULE ->
  path t (near ++ p :: far) n -> n_kind n = FN -> declared k n -> (k = AkArg AConstructor \/ k = AkArg AMessage) ->
  no_item near -> n_kind p = IMPL -> unannotated near -> unannotated far ->
  (annotated p = false \/ exists a, In a (attrs_of p)
     /\ (at_kind a = AkArg AImpl \/ at_kind a = AkArg ANamespace \/ attr_kind_unknown (at_kind a) = true)) ->
  In (p, far ++ t :: up) (ink_impls td (t, up)).
Proof.
  intros Hnd Ht Hp Hn (a & Ha & Hk) Hkind Hni Hpk Hun Huf Hcase. pose proof (path_split _ _ _ _ _ Hp) as [Hp2 Hp1].
  unfold ink_impls. apply (unique_loc_In t up); [exact Hnd | intros x Hx; apply (impl_candidate_below td t up x Ht Hx) |].
  apply filter_In. split.
  - apply in_app_iff. right. apply filter_map_In.
    destruct Hcase as [Hpa|(x & Hx & Hxk)].
    + exists ((n, (near ++ p :: far) ++ t :: up), a). split.
      * apply closest_In. exists (near ++ p :: far), n. split; [reflexivity|]. split; [exact Hp|]. split; [|exact Ha].
        intros m Hm. apply in_app_iff in Hm. destruct Hm as [Hm|[<-|Hm]]; [apply Hun | exact Hpa | apply Huf]; assumption.
      * assert (E1 : possible_callable_ancestor (n, (near ++ p :: far) ++ t :: up, a) = false).
        { unfold possible_callable_ancestor. cbn [snd]. destruct Hkind as [-> | ->]; rewrite Hk; reflexivity. }
        rewrite E1.
        assert (E2 : is_callable (n, (near ++ p :: far) ++ t :: up, a) = true).
        { unfold is_callable, casts. cbn [snd]. destruct Hkind as [-> | ->]; rewrite Hk; reflexivity. }
        rewrite E2. unfold parent_impl_item, parent_ast_item, loc_kind. cbn [fst snd]. rewrite Hn.
        rewrite <- app_assoc. cbn [app]. rewrite nearest_item_split; [|exact Hni|rewrite Hpk; reflexivity].
        cbn [fst]. rewrite Hpk. reflexivity.
    + exists ((p, far ++ t :: up), x). split; [apply closest_In; exists far, p; auto|].
      assert (Ei : attr_item (p, far ++ t :: up, x) = Some (p, far ++ t :: up)).
      { unfold attr_item, loc_kind. cbn [fst]. rewrite Hpk. reflexivity. }
      assert (E : possible_callable_ancestor (p, far ++ t :: up, x) = true).
      { unfold possible_callable_ancestor. rewrite Ei. unfold loc_kind. cbn [fst snd]. rewrite Hpk.
        destruct Hxk as [-> | [-> | ->]]; try reflexivity. rewrite orb_true_r. cbn [andb]. rewrite orb_true_r. reflexivity. }
      rewrite E. exact Ei.
  - unfold impl_can_cast, loc_kind. cbn [fst]. rewrite Hpk. apply orb_true_iff. right. cbn [andb].
    apply orb_true_iff. left. apply existsb_exists. exists ((n, near ++ p :: far ++ t :: up), a). split.
    + apply closest_In. exists near, n. auto.
    + unfold is_callable, casts. cbn [snd]. destruct Hkind as [-> | ->]; rewrite Hk; reflexivity.
Qed.
