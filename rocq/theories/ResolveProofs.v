(** Proofs about use trees and path resolution. *)
From Verif Require Import Base BaseFacts PositionModel TranslateModel CommandModel CallableModel ResolveModel ResolveSpec.
From Coq Require Import Lia.

(** ** Use trees *)
Lemma no_spaces_app a b : no_spaces (a ++ b) = no_spaces a ++ no_spaces b.
Proof. apply filter_app. Qed.
Lemma no_spaces_idem a : no_spaces (no_spaces a) = no_spaces a.
Proof.
  unfold no_spaces. induction a as [|c a IH]; [reflexivity|]. cbn [filter].
  destruct (negb (N.eqb c 32)) eqn:E; cbn [filter]; [rewrite E|]; rewrite IH; reflexivity.
Qed.
Lemma join_app a b : a <> [] -> b <> [] -> join_colons (a ++ b) = join_colons a ++ lit "::" ++ join_colons b.
Proof.
  induction a as [|x a IH]; intros Ha Hb; [congruence|]. destruct a as [|y a].
  - simpl. destruct b; [congruence | reflexivity].
  - change (join_colons ((x :: y :: a) ++ b)) with (x ++ lit "::" ++ join_colons ((y :: a) ++ b)).
    rewrite IH by (try discriminate; exact Hb).
    change (join_colons (x :: y :: a)) with (x ++ lit "::" ++ join_colons (y :: a)). rewrite <- !app_assoc. reflexivity.
Qed.
Lemma join_self q : join_colons q = SELF -> q = [SELF].
Proof.
  destruct q as [|x [|y q]]; intros H; [discriminate | simpl in H; subst; reflexivity|].
  exfalso. assert (Hin : In 58%N (join_colons (x :: y :: q))).
  { change (In 58%N (x ++ lit "::" ++ join_colons (y :: q))). apply in_app_iff. right. left. reflexivity. }
  rewrite H in Hin. vm_compute in Hin. intuition discriminate.
Qed.
Lemma text_self p : no_spaces (ps_text p) = join_colons (ps_segments p) -> ps_segments p <> [SELF] -> ps_text p <> SELF.
Proof. intros H Hs E. apply Hs. apply join_self. rewrite <- H, E. reflexivity. Qed.
Lemma colons_not_self a b : a ++ lit "::" ++ b <> SELF.
Proof.
  intros E. assert (In 58%N (a ++ lit "::" ++ b)) as H by (apply in_app_iff; right; left; reflexivity).
  rewrite E in H. vm_compute in H. intuition discriminate.
Qed.

Definition flat_list (l : list use_tree) : list (str * option str) := flat_map flatten_use_tree l.
Lemma flatten_list o l a : flatten_use_tree (UseTree o (UList l) a) = add_prefix o (flat_list l).
Proof.
  unfold flat_list.
  destruct o; cbn [flatten_use_tree]; f_equal; (induction l as [|x l IH]; [reflexivity|]; cbn [flat_map]; rewrite <- IH; reflexivity).
Qed.
Section UseTreeInd.
  Variable P : use_tree -> Prop.
  Hypothesis Hnone : forall o a, P (UseTree o UNone a).
  Hypothesis Hstar : forall o a, P (UseTree o UStar a).
  Hypothesis Hlist : forall o l a, (forall t, In t l -> P t) -> P (UseTree o (UList l) a).
  Fixpoint use_tree_ind' (t : use_tree) : P t :=
    match t with
    | UseTree o UNone a => Hnone o a
    | UseTree o UStar a => Hstar o a
    | UseTree o (UList l) a =>
        Hlist o l a
          ((fix go (l : list use_tree) : forall t, In t l -> P t :=
              match l with
              | [] => fun t H => match H with end
              | x :: l' => fun t H => match H with
                                      | or_introl E => eq_ind x P (use_tree_ind' x) t E
                                      | or_intror H' => go l' t H'
                                      end
              end) l)
    end.
End UseTreeInd.

(** Every flattened path of a nested tree is one of its imports, or the tree is [self]. *)
Definition sound_at (t : use_tree) (s : str) (a : option str) : Prop :=
  exists q, q <> [] /\ no_spaces s = join_colons q /\ forall pre, imports pre t (pre ++ q) a.
Lemma flatten_sound t : forall nested, plain_tree t -> self_ok nested t ->
  forall s a, In (s, a) (flatten_use_tree t) ->
    (self_leaf t /\ s = SELF) \/ ((nested = true -> s <> SELF) /\ sound_at t s a).
Proof.
  induction t as [o al | o al | o l al IH] using use_tree_ind'; intros nested Hp Hs s a Hin.
  - inversion Hp as [o' tl a' Hpath _]; subst. destruct o as [p|]; [|destruct Hin]. destruct Hin as [E|[]]. injection E as <- <-.
    destruct (Hpath p eq_refl) as [Hne Ht]. destruct (list_eq_dec str_eq_dec (ps_segments p) [SELF]) as [E|E].
    + left. split; [exists p, al; auto|]. rewrite Ht, E. reflexivity.
    + right. rewrite Ht. split; [intros _ C; apply E, join_self; exact C|]. exists (ps_segments p). split; [exact Hne|].
      split; [rewrite <- Ht; apply no_spaces_idem|]. intros pre. apply im_path. exact E.
  - inversion Hp as [o' tl a' Hpath _]; subst. right. destruct o as [p|]; cbn in Hin.
    + destruct Hin as [E|[]]. injection E as <- <-. destruct (Hpath p eq_refl) as [Hne Ht].
      split; [intros _; apply colons_not_self|]. exists (ps_segments p ++ [lit "*"]).
      split; [destruct (ps_segments p); discriminate|]. split.
      * rewrite no_spaces_app, Ht, join_app by (exact Hne || discriminate). reflexivity.
      * intros pre. apply im_star.
    + destruct Hin as [E|[]]. injection E as <- <-. split; [intros _; discriminate|]. exists [lit "*"].
      split; [discriminate|]. split; [reflexivity|]. intros pre. apply (im_star pre None).
  - inversion Hp as [o' tl a' Hpath Hsub]; subst. inversion Hs as [| |n' o' l' a' Hs1 Hs2 Hs3]; subst.
    rewrite flatten_list in Hin. right.
    destruct o as [p|]; cbn [add_prefix] in Hin.
    + apply in_map_iff in Hin. destruct Hin as ([s' a'] & E & Hin). cbn [fst snd] in E.
      pose proof (f_equal fst E) as E1. pose proof (f_equal snd E) as E2. cbn [fst snd] in E1, E2. clear E. subst s a'.
      apply in_flat_map in Hin. destruct Hin as (t & Ht & Hin). destruct (Hpath p eq_refl) as [Hne Htx].
      destruct (IH t Ht true (Hsub l t eq_refl Ht) (Hs3 t Ht) s' a Hin) as [[Hleaf ->]|[Hn (q & Hq & Hj & Himp)]].
      * rewrite str_eqb_refl. split; [intros Hnst; apply text_self; [exact Htx | exact (Hs1 Hnst)]|].
        exists (ps_segments p). split; [exact Hne|]. split; [exact Htx|]. intros pre.
        apply (im_list pre (Some p) l al t); [exact Ht|]. destruct Hleaf as (p' & a'' & -> & Hp').
        cbn in Hin. destruct Hin as [E|[]]. injection E as _ ->. apply im_self; [exact Hp'|].
        cbn. intros C. apply app_eq_nil in C. destruct C as [_ C]. exact (Hne C).
      * specialize (Hn eq_refl). rewrite (proj2 (str_eqb_neq s' (lit "self")) Hn). split; [intros _; apply colons_not_self|].
        exists (ps_segments p ++ q). split; [intros C; apply app_eq_nil in C; destruct C as [C _]; exact (Hne C)|]. split.
        -- rewrite no_spaces_app, (no_spaces_app (lit "::")), Htx, Hj. rewrite join_app by assumption. reflexivity.
        -- intros pre. apply (im_list pre (Some p) l al t); [exact Ht|]. cbn [segments_of]. rewrite app_assoc. apply Himp.
    + apply filter_In in Hin. destruct Hin as [Hin Hf]. apply in_flat_map in Hin. destruct Hin as (t & Ht & Hin).
      cbn [fst] in Hf. apply negb_true_iff in Hf.
      destruct (IH t Ht true (Hsub l t eq_refl Ht) (Hs3 t Ht) s a Hin) as [[Hleaf ->]|[Hn (q & Hq & Hj & Himp)]].
      * rewrite str_eqb_refl in Hf. discriminate.
      * split; [intros _; exact (Hn eq_refl)|]. exists q. split; [exact Hq|]. split; [exact Hj|]. intros pre.
        apply (im_list pre None l al t); [exact Ht|]. cbn [segments_of]. rewrite app_nil_r. apply Himp.
Qed.

Lemma flatten_complete t : forall nested, plain_tree t -> self_ok nested t ->
  forall pre q a, imports pre t q a ->
    (self_leaf t /\ q = pre /\ In (SELF, a) (flatten_use_tree t))
    \/ exists q' s, q' <> [] /\ q = pre ++ q' /\ In (s, a) (flatten_use_tree t) /\ no_spaces s = join_colons q'
         /\ (nested = true -> s <> SELF).
Proof.
  induction t as [o al | o al | o l al IH] using use_tree_ind'; intros nested Hp Hs pre q a Him.
  - inversion Hp as [o' tl a' Hpath _]; subst. inversion Him as [pre' p a' Hns | pre' p a' Hself Hpre | |]; subst.
    + right. destruct (Hpath p eq_refl) as [Hne Ht]. exists (ps_segments p), (no_spaces (ps_text p)).
      split; [exact Hne|]. split; [reflexivity|]. split; [left; reflexivity|]. split; [rewrite no_spaces_idem; exact Ht|].
      intros _ C. rewrite Ht in C. exact (Hns (join_self _ C)).
    + left. split; [exists p, a; auto|]. split; [reflexivity|]. destruct (Hpath p eq_refl) as [_ Ht]. cbn.
      rewrite Ht, Hself. left. reflexivity.
  - inversion Hp as [o' tl a' Hpath _]; subst. inversion Him; subst. right. exists (segments_of o ++ [lit "*"]).
    destruct o as [p|]; cbn [segments_of flatten_use_tree add_prefix map filter fst snd].
    + destruct (Hpath p eq_refl) as [Hne Ht]. exists (ps_text p ++ lit "::" ++ lit "*").
      split; [destruct (ps_segments p); discriminate|]. split; [reflexivity|]. split; [left; reflexivity|]. split.
      * rewrite no_spaces_app, Ht, join_app by (exact Hne || discriminate). reflexivity.
      * intros _. apply colons_not_self.
    + exists (lit "*"). split; [discriminate|]. split; [reflexivity|]. split; [left; reflexivity|].
      split; [reflexivity | intros _; discriminate].
  - inversion Hp as [o' tl a' Hpath Hsub]; subst. inversion Hs as [| |n' o' l' a' Hs1 Hs2 Hs3]; subst.
    inversion Him as [| | |pre' o' l' a' t q' b Ht Him']; subst. right. rewrite flatten_list.
    destruct (IH t Ht true (Hsub l t eq_refl Ht) (Hs3 t Ht) _ _ _ Him')
      as [(Hleaf & -> & Hin) | (q' & s & Hq & -> & Hin & Hj & Hn)].
    + destruct o as [p|]; [|exfalso; exact (Hs2 eq_refl t Ht Hleaf)].
      destruct (Hpath p eq_refl) as [Hne Htx]. exists (ps_segments p), (ps_text p). split; [exact Hne|].
      split; [reflexivity|]. split; [|split; [exact Htx | intros Hnst; apply text_self; [exact Htx | exact (Hs1 Hnst)]]].
      cbn [add_prefix]. apply in_map_iff. exists (SELF, a). split; [cbn [fst snd]; rewrite str_eqb_refl; reflexivity|].
      apply in_flat_map. exists t. auto.
    + specialize (Hn eq_refl). destruct o as [p|]; cbn [segments_of add_prefix].
      * destruct (Hpath p eq_refl) as [Hne Htx]. exists (ps_segments p ++ q'), (ps_text p ++ lit "::" ++ s).
        split; [intros C; apply app_eq_nil in C; destruct C as [C _]; exact (Hne C)|].
        split; [rewrite app_assoc; reflexivity|]. split.
        -- apply in_map_iff. exists (s, a). cbn [fst snd]. rewrite (proj2 (str_eqb_neq s (lit "self")) Hn).
           split; [reflexivity|]. apply in_flat_map. exists t. auto.
        -- split; [|intros _; apply colons_not_self]. rewrite no_spaces_app, (no_spaces_app (lit "::")), Htx, Hj. rewrite join_app by assumption. reflexivity.
      * exists q', s. split; [exact Hq|]. split; [rewrite app_nil_r; reflexivity|]. split; [|split; [exact Hj | intros _; exact Hn]].
        apply filter_In. cbn [fst]. rewrite (proj2 (str_eqb_neq s (lit "self")) Hn). split; [|reflexivity].
        apply in_flat_map. exists t. auto.
Qed.

(** ** Scopes *)
Lemma set_add_In s t l : In t (set_add s l) <-> t = s \/ In t l.
Proof.
  unfold set_add. destruct (existsb (str_eqb s) l) eqn:E.
  - apply existsb_exists in E. destruct E as (x & Hx & E). apply str_eqb_eq in E. subst x. intuition (subst; auto).
  - rewrite in_app_iff. simpl. intuition (subst; auto).
Qed.
Lemma use_paths_In l s : In s (use_paths l) <-> In (s, None) (use_results l).
Proof.
  unfold use_paths.
  assert (G : forall (R : list (str * option str)) acc, In s (fold_left (fun acc x => match snd x with None => set_add (fst x) acc | Some _ => acc end) R acc)
                            <-> In s acc \/ In (s, None) R).
  { induction R as [|[t [a|]] R IH]; intros acc; cbn [fold_left snd fst].
    - simpl. tauto.
    - rewrite IH. simpl. intuition discriminate.
    - rewrite IH, set_add_In. simpl. intuition (try (subst; auto); try congruence). }
  rewrite G. simpl. tauto.
Qed.
Lemma assoc_set_get {A} k (v : A) m : assoc k (assoc_set k v m) = Some v.
Proof.
  induction m as [|[k' v'] m IH]; simpl; [rewrite str_eqb_refl; reflexivity|].
  destruct (str_eqb k k') eqn:E; simpl; [rewrite str_eqb_refl; reflexivity | rewrite E; exact IH].
Qed.
Lemma assoc_set_other {A} k k' (v : A) m : k <> k' -> assoc k (assoc_set k' v m) = assoc k m.
Proof.
  intros H. induction m as [|[k2 v2] m IH]; simpl; [rewrite (proj2 (str_eqb_neq k k') H); reflexivity|].
  destruct (str_eqb k' k2) eqn:E; simpl.
  - apply str_eqb_eq in E. subst k2. rewrite (proj2 (str_eqb_neq k k') H). reflexivity.
  - destruct (str_eqb k k2); [reflexivity | exact IH].
Qed.
(** The alias map maps each alias to the path of its last declaration. *)
Lemma use_aliases_get l a p : assoc a (use_aliases l) = Some p <->
  exists l1 l2, use_results l = l1 ++ (p, Some a) :: l2 /\ forall x, In x l2 -> snd x <> Some a.
Proof.
  unfold use_aliases.
  assert (G : forall (R : list (str * option str)) acc,
    assoc a (fold_left (fun acc x => match snd x with None => acc | Some b => assoc_set b (fst x) acc end) R acc) = Some p
    <-> (exists l1 l2, R = l1 ++ (p, Some a) :: l2 /\ forall x, In x l2 -> snd x <> Some a)
        \/ ((forall x, In x R -> snd x <> Some a) /\ assoc a acc = Some p)).
  { induction R as [|[t o] R IH]; intros acc; cbn [fold_left snd fst].
    - split; [intros H; right; split; [intros x []|exact H] |].
      intros [(l1 & l2 & E & _)|[_ H]]; [destruct l1; discriminate | exact H].
    - destruct o as [b|]; rewrite IH; clear IH.
      + destruct (str_eq_dec b a) as [->|Hne].
        * rewrite assoc_set_get. split.
          -- intros [(l1 & l2 & -> & H)|[H E]].
             ++ left. exists ((t, Some a) :: l1), l2. auto.
             ++ injection E as ->. left. exists [], R. auto.
          -- intros [(l1 & l2 & E & H)|[H _]]; [|exfalso; apply (H (t, Some a)); [left; reflexivity | reflexivity]].
             destruct l1 as [|x l1].
             ++ injection E as -> ->. right. auto.
             ++ injection E as _ ->. left. exists l1, l2. auto.
        * rewrite assoc_set_other by congruence. split.
          -- intros [(l1 & l2 & -> & H)|[H E]].
             ++ left. exists ((t, Some b) :: l1), l2. auto.
             ++ right. split; [|exact E]. intros x [<-|Hx]; [intros C; injection C; exact Hne | exact (H x Hx)].
          -- intros [(l1 & l2 & E & H)|[H E]].
             ++ destruct l1 as [|x l1]; [injection E as _ C _; congruence|]. injection E as _ ->. left. exists l1, l2. auto.
             ++ right. split; [|exact E]. intros x Hx. apply H. right. exact Hx.
      + split.
        * intros [(l1 & l2 & -> & H)|[H E]].
          -- left. exists ((t, None) :: l1), l2. auto.
          -- right. split; [|exact E]. intros x [<-|Hx]; [discriminate | exact (H x Hx)].
        * intros [(l1 & l2 & E & H)|[H E]].
          -- destruct l1 as [|x l1]; [discriminate|]. injection E as _ ->. left. exists l1, l2. auto.
          -- right. split; [|exact E]. intros x Hx. apply H. right. exact Hx. }
  rewrite G. simpl. intuition discriminate.
Qed.

(** The declarations of a scope, when its use trees are good. *)
Lemma use_results_sound l :
  (forall c t, In c (n_children (fst (item_list_root l))) -> n_data c = DUse (Some t) -> good_tree t) ->
  forall s a, In (s, a) (use_results l) -> exists q, introduces l q a /\ s = no_spaces (join_colons q).
Proof.
  intros Hg s a Hin. unfold use_results in Hin. apply in_map_iff in Hin. destruct Hin as ([s' a'] & E & Hin).
  injection E as <- <-. cbn [fst snd]. apply in_flat_map in Hin. destruct Hin as (c & Hc & Hin).
  unfold children_at in Hc. apply in_map_iff in Hc. destruct Hc as (n & <- & Hn). cbn [fst] in Hin.
  unfold use_results_of in Hin. destruct (n_data n) as [|m| |f| | |u|nm ty|k nm|tr sl|] eqn:Ed; try destruct Hin.
  - destruct u as [t|]; [|destruct Hin]. destruct (Hg n t Hn Ed) as (H1 & H2 & H3).
    destruct (flatten_sound t false H1 H2 s' a' Hin) as [[Hl _]|[_ (q & Hq & Hj & Him)]]; [contradiction|].
    exists q. split; [exact (in_use l n t q a' Hn Ed (Him []))|]. rewrite <- Hj, no_spaces_idem. reflexivity.
  - destruct nm as [name|]; [|destruct Hin]. destruct ty as [ty|]; [|destruct Hin]. destruct Hin as [E|[]].
    injection E as <- <-. exists (map seg_text ty). split; [exact (in_type l n name ty Hn Ed) | reflexivity].
Qed.
Lemma use_results_complete l :
  (forall c t, In c (n_children (fst (item_list_root l))) -> n_data c = DUse (Some t) -> good_tree t) ->
  forall q a, introduces l q a -> In (no_spaces (join_colons q), a) (use_results l).
Proof.
  intros Hg q a Hi. unfold use_results. destruct Hi as [c t q a Hc Hd Him | c name ty Hc Hd].
  - destruct (Hg c t Hc Hd) as (H1 & H2 & H3).
    destruct (flatten_complete t false H1 H2 [] q a Him) as [[Hl _]|(q' & s & Hq & -> & Hin & Hj & _)]; [contradiction|].
    apply in_map_iff. exists (s, a). cbn [fst snd app]. split; [rewrite <- Hj, no_spaces_idem; reflexivity|].
    apply in_flat_map. exists (c, fst (item_list_root l) :: snd (item_list_root l)).
    split; [unfold children_at; apply in_map_iff; exists c; auto|]. cbn [fst]. unfold use_results_of. rewrite Hd. exact Hin.
  - apply in_map_iff. exists (path_text ty, Some name). split; [reflexivity|].
    apply in_flat_map. exists (c, fst (item_list_root l) :: snd (item_list_root l)).
    split; [unfold children_at; apply in_map_iff; exists c; auto|]. cbn [fst]. unfold use_results_of. rewrite Hd. left. reflexivity.
Qed.

Lemma last_alias (a p2 : str) R : In (p2, Some a) R ->
  exists p0 l1 l2, R = l1 ++ (p0, Some a) :: l2 /\ forall x : str * option str, In x l2 -> snd x <> Some a.
Proof.
  induction R as [|y R IH] using rev_ind; intros Hr; [destruct Hr|].
  destruct y as [p3 o3]. destruct (option_map (str_eqb a) o3) as [[|]|] eqn:Eo.
  - destruct o3 as [b|]; [|discriminate]. cbn in Eo. injection Eo as Eo. apply str_eqb_eq in Eo. subst b.
    exists p3, R, []. split; [reflexivity | intros x []].
  - apply in_app_iff in Hr. destruct Hr as [Hr|[Hr|[]]].
    + destruct (IH Hr) as (p0 & l1 & l2 & -> & Hl). exists p0, l1, (l2 ++ [(p3, o3)]).
      split; [rewrite <- app_assoc; reflexivity|]. intros x Hx. apply in_app_iff in Hx.
      destruct Hx as [Hx|[<-|[]]]; [exact (Hl x Hx)|]. cbn. intros ->. cbn in Eo. rewrite str_eqb_refl in Eo. discriminate.
    + injection Hr as <- ->. cbn in Eo. rewrite str_eqb_refl in Eo. discriminate.
  - destruct o3; [discriminate|]. apply in_app_iff in Hr. destruct Hr as [Hr|[Hr|[]]]; [|discriminate].
    destruct (IH Hr) as (p0 & l1 & l2 & -> & Hl). exists p0, l1, (l2 ++ [(p3, None)]).
    split; [rewrite <- app_assoc; reflexivity|]. intros x Hx. apply in_app_iff in Hx.
    destruct Hx as [Hx|[<-|[]]]; [exact (Hl x Hx) | discriminate].
Qed.

(** ** Places *)
Lemma in_file_up root n p up : in_file root (n, p :: up) -> in_file root (p, up).
Proof. intros H. inversion H as [|[ln lup] c Hl Hc E]; subst. exact Hl. Qed.
Lemma ancestors_in_file root l : in_file root l -> forall a, In a (ancestors_at l) -> in_file root a.
Proof.
  destruct l as [n up]. unfold ancestors_at. cbn [fst snd]. revert n. induction up as [|p up IH]; intros n H a Ha.
  - destruct Ha as [<-|[]]. exact H.
  - destruct Ha as [<-|Ha]; [exact H|]. apply (IH p); [exact (in_file_up _ _ _ _ H) | exact Ha].
Qed.
Lemma ancestors_self l : In l (ancestors_at l).
Proof. destruct l as [n [|p up]]; left; reflexivity. Qed.
Lemma last_opt_In {A} (l : list A) x : last_opt l = Some x -> In x l.
Proof.
  induction l as [|y l IH]; [discriminate|]. destruct l as [|z l]; [intros E; injection E as <-; left; reflexivity|].
  intros E. right. apply IH. exact E.
Qed.
Lemma crate_root_in root l : in_file root l -> in_file root (crate_root l).
Proof.
  intros H. unfold crate_root. destruct (last_opt (ancestors_at l)) as [r|] eqn:E; [|exact H].
  apply (ancestors_in_file root l H). apply last_opt_In. exact E.
Qed.
Lemma crate_root_is root l : in_file root l -> crate_root l = (root, []).
Proof.
  unfold crate_root, ancestors_at. destruct l as [n up]. cbn [fst snd]. revert n. induction up as [|p up IH]; intros n H.
  - inversion H; subst. reflexivity.
  - specialize (IH p (in_file_up _ _ _ _ H)). cbn [ancestors_from].
    destruct (ancestors_from p up) as [|a l] eqn:E; [destruct up; discriminate|].
    change (last_opt ((n, p :: up) :: a :: l)) with (last_opt (a :: l)).
    destruct (last_opt (a :: l)) as [r|] eqn:El; [exact IH|].
    exfalso. clear -El. revert a El. induction l as [|b l IHl]; intros a El; [discriminate | exact (IHl b El)].
Qed.
Lemma current_module_in root l : in_file root l -> in_file root (current_module l).
Proof.
  intros H. unfold current_module. destruct (is_module (fst l)); [exact H|].
  match goal with |- context [find ?f (ancestors_at l)] => destruct (find f (ancestors_at l)) as [m|] eqn:E end; [|exact (crate_root_in root l H)].
  apply find_some in E. apply (ancestors_in_file root l H). apply E.
Qed.
Lemma child_in root l c : in_file root l -> In c (children_at l) -> in_file root c.
Proof.
  intros H Hc. unfold children_at in Hc. apply in_map_iff in Hc. destruct Hc as (n & <- & Hn). apply if_child; assumption.
Qed.
Lemma item_list_root_in root l : in_file root l -> in_file root (item_list_root l).
Proof.
  intros H. unfold item_list_root. destruct (n_data (fst l)); try exact H.
  - match goal with |- context [find ?f (children_at l)] => destruct (find f (children_at l)) as [c|] eqn:E end; [|exact H]. apply find_some in E. exact (child_in root l c H (proj1 E)).
  - match goal with |- context [find ?f (children_at l)] => destruct (find f (children_at l)) as [c|] eqn:E end; [|exact H]. cbn [obind]. apply find_some in E.
    pose proof (child_in root l c H (proj1 E)) as Hc.
    match goal with |- context [find ?f (children_at c)] => destruct (find f (children_at c)) as [d|] eqn:E2 end; [|exact H]. apply find_some in E2. exact (child_in root c d Hc (proj1 E2)).
Qed.
Lemma parent_in root l p : in_file root l -> parent_at l = Some p -> in_file root p.
Proof.
  destruct l as [n [|q up]]; [discriminate|]. intros H E. injection E as <-. exact (in_file_up _ _ _ _ H).
Qed.
Lemma scope_of_current l0 m : scope_of l0 m <-> current_module l0 = m.
Proof.
  assert (G : forall n up, scope_of (n, up) (current_module (n, up))).
  { intros n up. revert n. induction up as [|p up IH]; intros n.
    - unfold current_module, crate_root, ancestors_at. cbn. destruct (is_module n) eqn:E; [apply sc_module; exact E|].
      apply sc_root. exact E.
    - destruct (is_module n) eqn:E.
      + unfold current_module. cbn [fst]. rewrite E. apply sc_module. exact E.
      + assert (Ec : current_module (n, p :: up) = current_module (p, up)).
        { unfold current_module, crate_root, ancestors_at. cbn [fst snd]. rewrite E. cbn [ancestors_from find].
          cbn [fst]. rewrite E.
          destruct (ancestors_from p up) as [|a l] eqn:Ea; [destruct up; discriminate|].
          destruct (is_module p) eqn:Ep.
          - destruct up; cbn [ancestors_from] in Ea; injection Ea as <- <-; cbn [find fst]; rewrite Ep; reflexivity.
          - change (last_opt ((n, p :: up) :: a :: l)) with (last_opt (a :: l)).
            match goal with |- context [find ?f (a :: l)] => destruct (find f (a :: l)) end; [reflexivity|].
            destruct (last_opt (a :: l)) eqn:El; [reflexivity|].
            exfalso. clear -El. revert a El. induction l as [|b l IHl]; intros a El; [discriminate | exact (IHl b El)]. }
        rewrite Ec. apply sc_up; [exact E | apply IH]. }
  split; [|intros <-; destruct l0; apply G].
  intros H. specialize (G (fst l0) (snd l0)). destruct l0 as [n up]. cbn [fst snd] in G.
  assert (Hf : forall l m, scope_of l m -> forall m', scope_of l m' -> m = m').
  { clear. induction 1 as [l E | r E | n p up m E H IH]; intros m' H'; inversion H'; subst; cbn [fst] in *; try congruence.
    apply IH. assumption. }
  exact (Hf _ _ G _ H).
Qed.

(** ** Strings of identifiers *)
Lemma ident_no_colon s : forallb ident_char s = true -> ~ In 58%N s.
Proof. intros H C. rewrite forallb_forall in H. specialize (H _ C). discriminate. Qed.
Lemma ident_no_space s : forallb ident_char s = true -> no_spaces s = s.
Proof.
  intros H. unfold no_spaces. induction s as [|c s IH]; [reflexivity|]. cbn [forallb] in H. apply andb_true_iff in H.
  destruct H as [H1 H2]. cbn [filter]. rewrite (IH H2). destruct (N.eqb c 32) eqn:E; [|reflexivity].
  apply N.eqb_eq in E. subst c. discriminate.
Qed.
Lemma join_no_space l : (forall s, In s l -> forallb ident_char s = true) -> no_spaces (join_colons l) = join_colons l.
Proof.
  induction l as [|x l IH]; intros H; [reflexivity|]. destruct l as [|y l].
  - apply ident_no_space. apply H. left. reflexivity.
  - change (join_colons (x :: y :: l)) with (x ++ lit "::" ++ join_colons (y :: l)).
    rewrite no_spaces_app, (no_spaces_app (lit "::")), ident_no_space by (apply H; left; reflexivity).
    rewrite IH by (intros s Hs; apply H; right; exact Hs). reflexivity.
Qed.
Lemma last_piece (c : N) a z b n : ~ In c z -> ~ In c n -> a ++ c :: z = b ++ c :: n -> z = n.
Proof.
  intros Hz Hn. revert b. induction a as [|x a IH]; intros [|y b] E; cbn in E.
  - injection E. auto.
  - injection E as <- ->. exfalso. apply Hz. apply in_app_iff. right. left. reflexivity.
  - injection E as -> <-. exfalso. apply Hn. apply in_app_iff. right. left. reflexivity.
  - injection E as -> E. exact (IH b E).
Qed.
Lemma ends_with_app p s : ends_with p s = true <-> exists t, s = t ++ p.
Proof.
  unfold ends_with. split.
  - intros H. apply starts_with_app in H. destruct H as [t H]. exists (rev t).
    rewrite <- (rev_involutive s), H, rev_app_distr, rev_involutive. reflexivity.
  - intros [t ->]. apply starts_with_app. exists (rev t). apply rev_app_distr.
Qed.
Lemma join_last l z : l <> [] -> join_colons (l ++ [z]) = (join_colons l ++ [58%N]) ++ 58%N :: z.
Proof. intros H. rewrite join_app by (exact H || discriminate). rewrite <- app_assoc. reflexivity. Qed.
Lemma ends_in_join q n : (forall s, In s q -> forallb ident_char s = true) -> forallb ident_char n = true ->
  ends_with (lit "::" ++ n) (join_colons q) = true -> ends_in q n.
Proof.
  intros Hq Hn H. apply ends_with_app in H. destruct H as [t H].
  destruct (exists_last (l := q)) as (l & z & ->); [intros ->; destruct t; discriminate|].
  assert (Hz : ~ In 58%N z) by (apply ident_no_colon, Hq, in_app_iff; right; left; reflexivity).
  destruct l as [|x l].
  - exfalso. cbn in H. apply Hz. rewrite H. apply in_app_iff. right. left. reflexivity.
  - rewrite join_last in H by discriminate.
    assert (Ez : z = n).
    { apply (last_piece 58%N (join_colons (x :: l) ++ [58%N]) z (t ++ [58%N]) n Hz (ident_no_colon n Hn)).
      etransitivity; [exact H|]. rewrite <- app_assoc. reflexivity. }
    subst z. exists (x :: l). split; [discriminate | reflexivity].
Qed.
Lemma no_star q : (forall s, In s q -> forallb ident_char s = true) -> strip_star (join_colons q) = None.
Proof.
  intros Hq. unfold strip_star. destruct (ends_with (lit "::*") (join_colons q)) eqn:E; [|reflexivity]. exfalso.
  apply ends_with_app in E. destruct E as [t E].
  assert (Hin : forall c, In c (join_colons q) -> ident_char c = true \/ c = 58%N).
  { clear E. induction q as [|x q IH]; intros c Hc; [destruct Hc|]. destruct q as [|y q].
    - left. specialize (Hq x (or_introl eq_refl)). rewrite forallb_forall in Hq. exact (Hq c Hc).
    - change (In c (x ++ lit "::" ++ join_colons (y :: q))) in Hc. apply in_app_iff in Hc. destruct Hc as [Hc|Hc].
      + left. specialize (Hq x (or_introl eq_refl)). rewrite forallb_forall in Hq. exact (Hq c Hc).
      + apply in_app_iff in Hc. destruct Hc as [Hc|Hc];
          [right; destruct Hc as [<-|[<-|[]]]; reflexivity|].
        apply IH; [intros s Hs; apply Hq; right; exact Hs | exact Hc]. }
  assert (H42 : In 42%N (join_colons q)) by (rewrite E; apply in_app_iff; right; right; right; left; reflexivity).
  destruct (Hin 42%N H42) as [C|C]; discriminate C.
Qed.
Lemma names_text l : path_text (map name_seg l) = join_colons l.
Proof.
  unfold path_text. rewrite map_map. f_equal. induction l as [|x l IH]; [reflexivity|]. cbn [map]. rewrite IH.
  unfold seg_text, name_seg. cbn. rewrite app_nil_r. reflexivity.
Qed.
Lemma names_plain n r : Forall identifier (n :: r) -> plain_path (map name_seg (n :: r)).
Proof.
  intros H. inversion H as [|x l H1 H2]; subst. exists (name_seg n), (map name_seg r). split; [reflexivity|].
  split; [left; exists n; auto|]. apply Forall_forall. intros s Hs. apply in_map_iff in Hs. destruct Hs as (m & <- & Hm).
  exists m. split; [reflexivity|]. rewrite Forall_forall in H2. exact (H2 m Hm).
Qed.

(** The parts of [resolve_qualifier]. *)
Definition qnext parse (fuel : nat) (p : rpath) (name : str) (root : place) : res (option place) :=
  match child_module name root with
  | Some m => Ret (Some m)
  | None =>
      find_map_res (fun q => if str_eqb (path_text q) (path_text p) then Ret None
                             else resolve_qualifier parse fuel q root) (candidates parse name root)
  end.
Definition qrest (next : str -> place -> res (option place)) :=
  fix rest (o : option place) (segs : list seg) : res (option place) :=
    match o, segs with
    | None, _ => Ret None
    | Some node, [] => Ret (Some node)
    | Some node, s :: segs' =>
        match seg_name s with
        | None => Ret None
        | Some name => match next name node with Spent => Spent | Ret o' => rest o' segs' end
        end
    end.
Definition qbody (next : str -> place -> res (option place)) (p : rpath) (ref : place) : res (option place) :=
  match p with
  | [] => Ret None
  | s :: segs =>
      let first :=
        if sg_colons s then
          match seg_name s with Some name => next name (crate_root ref) | None => Ret None end
        else match sg_word s with
             | WCrate => Ret (Some (crate_root ref))
             | WSelf => Ret (Some (current_module ref))
             | WSuper => Ret (option_map current_module (parent_at (current_module ref)))
             | _ => match seg_name s with Some name => next name (current_module ref) | None => Ret None end
             end in
      match first with Spent => Spent | Ret o => qrest next o segs end
  end.
Lemma rq_S parse fuel p ref : resolve_qualifier parse (S fuel) p ref = qbody (qnext parse fuel p) p ref.
Proof. reflexivity. Qed.
Definition thru parse want fuel (p : rpath) (name : str) (l : place) : res (option place) :=
  find_map_res (fun q => if str_eqb (path_text q) (path_text p) then Ret None
                         else resolve_item parse want fuel q l) (candidates parse name l).
Lemma ri_S parse want fuel p ref : resolve_item parse want (S fuel) p ref =
  match obind (last_seg p) seg_name with
  | None => Ret None
  | Some name =>
      match
        match qualifier p with
        | Some q => resolve_qualifier parse fuel q ref
        | None => Ret (Some (current_module ref))
        end
      with
      | Spent => Spent
      | Ret None => Ret None
      | Ret (Some m) =>
          match find (fun c => want (fst c) && named name (fst c)) (children_at (item_list_root m)) with
          | Some c => Ret (Some c)
          | None =>
              match thru parse want fuel p name (item_list_root m) with
              | Spent => Spent
              | Ret (Some c) => Ret (Some c)
              | Ret None =>
                  if match parent_at ref with Some q => same_node q (item_list_root m) | None => false end
                  then thru parse want fuel p name ref
                  else Ret None
              end
          end
      end
  end.
Proof. reflexivity. Qed.

(** ** Termination for files that use other crates only *)
Section Terminates.
  Variable parse : str -> option rpath.
  Hypothesis Hparse : parser_ok parse.
  Variable root : snode.
  Hypothesis Hroot : uses_crates_only root.

  Lemma scope_trees l : in_file root l ->
    forall c t, In c (n_children (fst (item_list_root l))) -> n_data c = DUse (Some t) -> good_tree t.
  Proof.
    intros H c t Hc Hd. apply (proj1 (proj2 Hroot) (item_list_root l) c t); [exact (item_list_root_in root l H) | exact Hc | exact Hd].
  Qed.
  Lemma ident_chars s : identifier s -> forallb ident_char s = true.
  Proof. intros (_ & H & _). exact H. Qed.
  (** Everything a scope declares. *)
  Lemma declared_paths l s a : in_file root l -> In (s, a) (use_results l) ->
    exists n r, s = join_colons (n :: r) /\ Forall identifier (n :: r) /\ foreign root n /\ introduces l (n :: r) a.
  Proof.
    intros H Hin. destruct (use_results_sound l (scope_trees l H) s a Hin) as (q & Hi & ->).
    destruct (proj1 Hroot l q a H Hi) as (n & r & -> & Hid & Hf). exists n, r.
    split; [|auto]. apply join_no_space. intros s Hs. apply ident_chars. rewrite Forall_forall in Hid. exact (Hid s Hs).
  Qed.
  Lemma candidate_text_declared l name s : in_file root l -> In s (candidate_texts name l) ->
    exists a, In (s, a) (use_results l) /\ (a = Some name \/ (a = None /\ ends_with (lit "::" ++ name) s = true)).
  Proof.
    intros H Hin. unfold candidate_texts in Hin. apply in_app_iff in Hin. destruct Hin as [Hin|Hin].
    - destruct (assoc name (use_aliases l)) as [p|] eqn:E; [|destruct Hin]. destruct Hin as [<-|[]].
      apply use_aliases_get in E. destruct E as (l1 & l2 & E & _). exists (Some name).
      rewrite E. split; [apply in_app_iff; right; left; reflexivity | left; reflexivity].
    - apply filter_map_In in Hin. destruct Hin as (p & Hp & E). apply use_paths_In in Hp.
      unfold use_candidate in E. destruct (ends_with (lit "::" ++ name) p) eqn:Ee.
      + injection E as <-. exists None. auto.
      + exfalso. destruct (declared_paths l p None H Hp) as (n & r & -> & Hid & _).
        rewrite no_star in E; [discriminate|]. intros s' Hs. apply ident_chars. rewrite Forall_forall in Hid. exact (Hid s' Hs).
  Qed.
  Lemma parse_declared n r : Forall identifier (n :: r) -> parse (join_colons (n :: r)) = Some (map name_seg (n :: r)).
  Proof. intros H. rewrite <- names_text. apply (Hparse _ (names_plain n r H)). Qed.
  Lemma candidates_foreign l name q : in_file root l -> In q (candidates parse name l) ->
    exists n m r, q = name_seg n :: m :: r /\ identifier n /\ foreign root n.
  Proof.
    intros H Hin. unfold candidates in Hin. apply filter_In in Hin. destruct Hin as [Hin Hq].
    apply filter_map_In in Hin. destruct Hin as (s & Hs & Ep).
    destruct (candidate_text_declared l name s H Hs) as (a & Ha & _).
    destruct (declared_paths l s a H Ha) as (n & r & -> & Hid & Hf & _). rewrite (parse_declared n r Hid) in Ep.
    injection Ep as <-. destruct r as [|m r]; [discriminate Hq|]. exists n, (name_seg m), (map name_seg r).
    split; [reflexivity|]. split; [inversion Hid; assumption | exact Hf].
  Qed.
  Lemma foreign_ident_candidates l n : identifier n -> in_file root l -> foreign root n -> candidates parse n l = [].
  Proof.
    intros Hn H [_ Hf]. unfold candidates. assert (E : candidate_texts n l = []); [|rewrite E; reflexivity].
    destruct (candidate_texts n l) as [|s t] eqn:E; [reflexivity|]. exfalso.
    assert (Hs : In s (candidate_texts n l)) by (rewrite E; left; reflexivity).
    destruct (candidate_text_declared l n s H Hs) as (a & Ha & Hc).
    destruct (declared_paths l s a H Ha) as (m & r & -> & Hid & _ & Hi). destruct (Hf l (m :: r) a H Hi) as [H1 H2].
    destruct Hc as [->|[-> Hc]]; [exact (H1 eq_refl)|]. apply H2. apply ends_in_join; [|exact (ident_chars n Hn)|exact Hc].
    intros s' Hs'. apply ident_chars. rewrite Forall_forall in Hid. exact (Hid s' Hs').
  Qed.

  Lemma foreign_no_module l n : in_file root l -> foreign root n -> child_module n l = None.
  Proof.
    intros H [Hf _]. unfold child_module. destruct (find _ _) as [c|] eqn:E; [|reflexivity]. exfalso.
    apply find_some in E. destruct E as [Hc E]. apply andb_true_iff in E. destruct E as [Em En].
    apply (Hf c (child_in root l c H Hc) Em). unfold named in En. destruct (n_name (fst c)) as [s|]; [|discriminate].
    f_equal. apply str_eqb_eq. exact En.
  Qed.
  Lemma foreign_qualifier f n r ref : identifier n -> foreign root n -> in_file root ref ->
    resolve_qualifier parse (S f) (name_seg n :: r) ref = Ret None.
  Proof.
    intros Hn Hf H. cbn [resolve_qualifier name_seg sg_colons sg_word seg_name word_text].
    rewrite (foreign_no_module _ n (current_module_in root ref H) Hf).
    rewrite (foreign_ident_candidates _ n Hn (current_module_in root ref H) Hf). destruct r; reflexivity.
  Qed.
  Lemma next_step f p name l : in_file root l ->
    exists o, match child_module name l with
              | Some m => Ret (Some m)
              | None => find_map_res (fun q => if str_eqb (path_text q) (path_text p) then Ret None
                                               else resolve_qualifier parse (S f) q l) (candidates parse name l)
              end = Ret o /\ forall m, o = Some m -> in_file root m.
  Proof.
    intros H. destruct (child_module name l) as [m|] eqn:E.
    - exists (Some m). split; [reflexivity|]. intros m' Em. injection Em as <-. unfold child_module in E.
      apply find_some in E. exact (child_in root l m H (proj1 E)).
    - exists None. split; [|discriminate].
      assert (G : forall l', (forall q, In q l' -> In q (candidates parse name l)) ->
        find_map_res (fun q => if str_eqb (path_text q) (path_text p) then Ret None
                               else resolve_qualifier parse (S f) q l) l' = Ret None).
      { induction l' as [|q l' IH]; intros Hl; [reflexivity|]. cbn [find_map_res].
        destruct (candidates_foreign l name q H (Hl q (or_introl eq_refl))) as (n & m & r & -> & Hn & Hf).
        rewrite (foreign_qualifier f n (m :: r) l Hn Hf H).
        rewrite IH by (intros q Hq; apply Hl; right; exact Hq). destruct (str_eqb _ _); reflexivity. }
      apply G. auto.
  Qed.
  Lemma qualifier_terminates f p ref : in_file root ref ->
    exists o, resolve_qualifier parse (S (S f)) p ref = Ret o /\ forall m, o = Some m -> in_file root m.
  Proof.
    intros H. rewrite rq_S. set (next := qnext parse (S f) p).
    assert (Hn : forall name l, in_file root l -> exists o, next name l = Ret o /\ forall m, o = Some m -> in_file root m).
    { intros name l Hl. exact (next_step f p name l Hl). }
    clearbody next.
    assert (Hr : forall segs o, (forall m, o = Some m -> in_file root m) ->
      exists o', qrest next o segs = Ret o' /\ forall m, o' = Some m -> in_file root m).
    { induction segs as [|s segs IH]; intros [node|] Ho; cbn.
      - exists (Some node). auto.
      - exists None. split; [reflexivity | discriminate].
      - destruct (seg_name s) as [name|]; [|exists None; split; [reflexivity | discriminate]].
        destruct (Hn name node (Ho node eq_refl)) as (o & -> & Ho'). exact (IH o Ho').
      - exists None. split; [reflexivity | discriminate]. }
    unfold qbody. destruct p as [|s segs]; [exists None; split; [reflexivity | discriminate]|]. cbv zeta.
    assert (Hc := current_module_in root ref H). assert (Hcr := crate_root_in root ref H).
    assert (Hname : forall l, in_file root l -> exists o,
      match seg_name s with Some name => next name l | None => Ret None end = Ret o /\ forall m, o = Some m -> in_file root m).
    { intros l Hl. destruct (seg_name s) as [name|]; [exact (Hn name l Hl) | exists None; split; [reflexivity | discriminate]]. }
    assert (HF : exists o, (if sg_colons s then
              match seg_name s with Some name => next name (crate_root ref) | None => Ret None end
            else match sg_word s with
                 | WCrate => Ret (Some (crate_root ref))
                 | WSelf => Ret (Some (current_module ref))
                 | WSuper => Ret (option_map current_module (parent_at (current_module ref)))
                 | _ => match seg_name s with Some name => next name (current_module ref) | None => Ret None end
                 end) = Ret o /\ forall m, o = Some m -> in_file root m).
    { destruct (sg_colons s); [exact (Hname _ Hcr)|]. destruct (sg_word s); try exact (Hname _ Hc).
      - eexists. split; [reflexivity|]. intros m Em. injection Em as <-. exact Hcr.
      - eexists. split; [reflexivity|]. intros m Em. injection Em as <-. exact Hc.
      - eexists. split; [reflexivity|]. intros m Em. destruct (parent_at (current_module ref)) as [q|] eqn:Eq; [|discriminate].
        cbn in Em. injection Em as <-. apply current_module_in. exact (parent_in root _ q Hc Eq). }
    destruct HF as (o & -> & Ho). exact (Hr segs o Ho).
  Qed.
  Lemma foreign_item want f n m r ref : identifier n -> foreign root n -> in_file root ref ->
    resolve_item parse want (S (S f)) (name_seg n :: m :: r) ref = Ret None.
  Proof.
    intros Hn Hf H. rewrite ri_S.
    destruct (obind _ _) as [name|]; [|reflexivity].
    change (qualifier (name_seg n :: m :: r)) with (Some (name_seg n :: removelast (m :: r))). cbv iota beta.
    rewrite (foreign_qualifier f n _ ref Hn Hf H). reflexivity.
  Qed.
  Lemma through_step want f p name l : in_file root l ->
    find_map_res (fun q => if str_eqb (path_text q) (path_text p) then Ret None
                           else resolve_item parse want (S (S f)) q l) (candidates parse name l) = Ret None.
  Proof.
    intros H.
    assert (G : forall l', (forall q, In q l' -> In q (candidates parse name l)) ->
      find_map_res (fun q => if str_eqb (path_text q) (path_text p) then Ret None
                             else resolve_item parse want (S (S f)) q l) l' = Ret None).
    { induction l' as [|q l' IH]; intros Hl; [reflexivity|]. cbn [find_map_res].
      destruct (candidates_foreign l name q H (Hl q (or_introl eq_refl))) as (n & m & r & -> & Hn & Hf).
      rewrite (foreign_item want f n m r l Hn Hf H).
      rewrite IH by (intros q Hq; apply Hl; right; exact Hq). destruct (str_eqb _ _); reflexivity. }
    apply G. auto.
  Qed.
  Lemma item_terminates want f p ref : in_file root ref -> resolve_item parse want (S (S (S f))) p ref <> Spent.
  Proof.
    intros H. rewrite ri_S. unfold thru.
    destruct (obind _ _) as [name|]; [|discriminate].
    assert (HQ : exists o, match qualifier p with
                           | Some q => resolve_qualifier parse (S (S f)) q ref
                           | None => Ret (Some (current_module ref))
                           end = Ret o /\ forall m, o = Some m -> in_file root m).
    { destruct (qualifier p) as [q|]; [exact (qualifier_terminates f q ref H)|].
      eexists. split; [reflexivity|]. intros m Em. injection Em as <-. exact (current_module_in root ref H). }
    destruct HQ as ([m|] & -> & Ho); [|discriminate]. cbv zeta.
    destruct (find _ _); [discriminate|].
    rewrite (through_step want f p name _ (item_list_root_in root m (Ho m eq_refl))).
    destruct (match parent_at ref with Some q => _ | None => false end); [|discriminate].
    rewrite (through_step want f p name ref H). discriminate.
  Qed.
  Lemma match_terminates crates f s a ref : in_file root ref -> In (s, a) (use_results ref) ->
    match_path parse crates (S (S f)) s ref = Ret ([], []).
  Proof.
    intros H Hs. destruct (declared_paths ref s a H Hs) as (n & r & -> & Hid & Hf & _).
    cbn [match_path]. unfold match_path_step at 1. rewrite (parse_declared n r Hid).
    destruct r as [|m r]; [reflexivity|].
    change (qualifier (map name_seg (n :: m :: r))) with (Some (name_seg n :: removelast (map name_seg (m :: r)))).
    destruct (target_name _); [|reflexivity].
    rewrite (foreign_qualifier f n _ ref); [reflexivity | inversion Hid; assumption | exact Hf | exact H].
  Qed.
  Lemma external_terminates crates f ref : in_file root ref -> external_uses parse crates (S (S (S f))) ref <> Spent.
  Proof.
    intros H. cbn [external_uses]. unfold external_uses_step.
    assert (HP : forall l acc, (forall s, In s l -> In (s, None) (use_results ref)) ->
      exists u, fold_res (fun acc s => if is_crate_item_path s crates then Ret acc
                           else match match_path parse crates (S (S f)) s ref with Spent => Spent
                                | Ret u => Ret (extend_uses acc u) end) l acc = Ret u /\ snd u = snd acc).
    { induction l as [|s l IH]; intros acc Hl; [exists acc; split; reflexivity|]. cbn [fold_res].
      destruct (is_crate_item_path s crates).
      - apply IH. intros t Ht. apply Hl. right. exact Ht.
      - rewrite (match_terminates crates f s None ref H (Hl s (or_introl eq_refl))).
        destruct (IH (extend_uses acc ([], []))) as (u & E1 & E2); [intros t Ht; apply Hl; right; exact Ht|].
        exists u. split; [exact E1|]. rewrite E2. reflexivity. }
    destruct (HP (use_paths ref) (filter (fun s => is_crate_item_path s crates) (use_paths ref), use_aliases ref))
      as (u & -> & Eu); [intros s Hs; apply use_paths_In; exact Hs|].
    destruct u as [paths aliases]. cbn [snd] in Eu. subst aliases.
    assert (HA : forall x, In x (use_aliases ref) -> In (snd x, Some (fst x)) (use_results ref)).
    { intros x. unfold use_aliases.
      assert (G : forall R acc, In x (fold_left (fun acc (y : str * option str) => match snd y with None => acc
          | Some a => assoc_set a (fst y) acc end) R acc) -> In x acc \/ In (snd x, Some (fst x)) R).
      { induction R as [|y R IH]; intros acc Hx; [left; exact Hx|]. cbn [fold_left] in Hx.
        apply IH in Hx. destruct Hx as [Hx|Hx]; [|right; right; exact Hx].
        destruct y as [t [a|]]; cbn [fst snd] in Hx; [|left; exact Hx].
        assert (Hset : In x (assoc_set a t acc) -> In x acc \/ x = (a, t)).
        { clear. induction acc as [|[k v] acc IH]; cbn [assoc_set]; intros Hx.
          - destruct Hx as [<-|[]]. right. reflexivity.
          - destruct (str_eqb a k) eqn:E.
            + apply str_eqb_eq in E. subst k. destruct Hx as [<-|Hx]; [right; reflexivity | left; right; exact Hx].
            + destruct Hx as [<-|Hx]; [left; left; reflexivity|]. destruct (IH Hx) as [G|G]; [left; right; exact G | right; exact G]. }
        destruct (Hset Hx) as [G| ->]; [left; exact G | right; left; reflexivity]. }
      intros Hx. destruct (G _ _ Hx) as [[]|E]. exact E. }
    generalize (paths, use_aliases ref) as acc. revert HA. generalize (use_aliases ref) as l.
    induction l as [|x l IH]; intros Hl acc; [discriminate|]. cbn [fold_res].
    assert (Hl' : forall x, In x l -> In (snd x, Some (fst x)) (use_results ref)) by (intros y Hy; apply Hl; right; exact Hy).
    destruct (is_crate_item_path (snd x) crates); [apply IH; exact Hl'|].
    destruct (obind _ _) as [target|]; [|apply IH; exact Hl'].
    rewrite (match_terminates crates f (snd x) (Some (fst x)) ref H (Hl x (or_introl eq_refl))).
    apply IH. exact Hl'.
  Qed.
End Terminates.

(** ** More depth does not change a result *)
Definition le_res {A} (a b : res A) : Prop := forall r, a = Ret r -> b = Ret r.
Lemma find_map_res_mono {A B} (f g : A -> res (option B)) l :
  (forall x, le_res (f x) (g x)) -> le_res (find_map_res f l) (find_map_res g l).
Proof.
  intros H. induction l as [|x l IH]; intros r; cbn [find_map_res]; [auto|]. specialize (H x).
  destruct (f x) as [|[y|]] eqn:E; [discriminate| |]; rewrite (H _ eq_refl); [auto | apply IH].
Qed.
Lemma qbody_mono next next' p ref : (forall name l, le_res (next name l) (next' name l)) ->
  le_res (qbody next p ref) (qbody next' p ref).
Proof.
  intros H. assert (HR : forall segs o, le_res (qrest next o segs) (qrest next' o segs)).
  { induction segs as [|s segs IH]; intros [node|] r; cbn; auto. destruct (seg_name s) as [name|]; [|auto].
    specialize (H name node). destruct (next name node) as [|o']; [discriminate|]. rewrite (H _ eq_refl). apply IH. }
  destruct p as [|s segs]; intros r; unfold qbody; [auto|]. cbv zeta.
  assert (HN : forall l, le_res match seg_name s with Some name => next name l | None => Ret None end
                                match seg_name s with Some name => next' name l | None => Ret None end).
  { intros l. destruct (seg_name s) as [name|]; [apply H | intros r'; auto]. }
  assert (HF : forall l1 l2 : place, le_res
    (if sg_colons s then match seg_name s with Some name => next name l1 | None => Ret None end
     else match sg_word s with
          | WCrate => Ret (Some (crate_root ref))
          | WSelf => Ret (Some (current_module ref))
          | WSuper => Ret (option_map current_module (parent_at (current_module ref)))
          | _ => match seg_name s with Some name => next name l2 | None => Ret None end
          end)
    (if sg_colons s then match seg_name s with Some name => next' name l1 | None => Ret None end
     else match sg_word s with
          | WCrate => Ret (Some (crate_root ref))
          | WSelf => Ret (Some (current_module ref))
          | WSuper => Ret (option_map current_module (parent_at (current_module ref)))
          | _ => match seg_name s with Some name => next' name l2 | None => Ret None end
          end)).
  { intros l1 l2. destruct (sg_colons s); [apply HN|]. destruct (sg_word s); try apply HN; intros r'; auto. }
  specialize (HF (crate_root ref) (current_module ref)).
  destruct (if sg_colons s then _ else _) as [|o]; [discriminate|]. rewrite (HF _ eq_refl). apply HR.
Qed.
Lemma qualifier_more parse n : forall m p ref, n <= m ->
  le_res (resolve_qualifier parse n p ref) (resolve_qualifier parse m p ref).
Proof.
  induction n as [|n IH]; intros m p ref Hm r; [discriminate|]. destruct m as [|m]; [lia|]. rewrite !rq_S.
  apply qbody_mono. intros name l. unfold qnext. destruct (child_module name l); [intros r'; auto|].
  apply find_map_res_mono. intros q. destruct (str_eqb _ _); [intros r'; auto|]. apply IH. lia.
Qed.
Lemma item_more parse want n : forall m p ref, n <= m ->
  le_res (resolve_item parse want n p ref) (resolve_item parse want m p ref).
Proof.
  induction n as [|n IH]; intros m p ref Hm r; [discriminate|]. destruct m as [|m]; [lia|]. rewrite !ri_S.
  destruct (obind _ _) as [name|]; [|auto].
  assert (HT : forall l, le_res (thru parse want n p name l) (thru parse want m p name l)).
  { intros l. apply find_map_res_mono. intros q. destruct (str_eqb _ _); [intros r'; auto|]. apply IH. lia. }
  assert (HQ : le_res match qualifier p with Some q => resolve_qualifier parse n q ref | None => Ret (Some (current_module ref)) end
                      match qualifier p with Some q => resolve_qualifier parse m q ref | None => Ret (Some (current_module ref)) end).
  { destruct (qualifier p); [apply qualifier_more; lia | intros r'; auto]. }
  destruct (match qualifier p with Some q => _ | None => _ end) as [|[k|]]; [discriminate| |]; rewrite (HQ _ eq_refl); [|auto].
  destruct (find _ _); [auto|]. pose proof (HT (item_list_root k)) as H1.
  destruct (thru parse want n p name (item_list_root k)) as [|[c|]]; [discriminate| |]; rewrite (H1 _ eq_refl); [auto|].
  destruct (match parent_at ref with Some q => _ | None => false end); [apply HT | auto].
Qed.

(** ** Two glob imports in one scope *)
Definition glob_text (g : list str) : str := join_colons g ++ lit "::*".
Lemma last_opt_app {A} (k : list A) z : last_opt (k ++ [z]) = Some z.
Proof.
  induction k as [|y k IH]; [reflexivity|]. cbn [app]. destruct (k ++ [z]) eqn:E; [destruct k; discriminate | exact IH].
Qed.
Lemma last_names g x : last_seg (map name_seg (g ++ [x])) = Some (name_seg x).
Proof. rewrite map_app. exact (last_opt_app (map name_seg g) (name_seg x)). Qed.
Lemma qualifier_app p s : p <> [] -> qualifier (p ++ [s]) = Some p.
Proof.
  intros Hp. destruct p as [|a l]; [congruence|]. unfold qualifier. cbn [app].
  destruct (l ++ [s]) eqn:E; [destruct l; discriminate|]. rewrite <- E.
  change (a :: l ++ [s]) with ((a :: l) ++ [s]). rewrite removelast_last. reflexivity.
Qed.
Lemma qual_names g x : g <> [] -> qualifier (map name_seg (g ++ [x])) = Some (map name_seg g).
Proof.
  intros Hg. rewrite map_app. apply qualifier_app. intros E. apply map_eq_nil in E. exact (Hg E).
Qed.
Section Globs.
  Variable parse : str -> option rpath.
  Hypothesis Hparse : parser_ok parse.
  Variables g1 g2 : list str.
  Hypothesis Hg1 : g1 <> [] /\ Forall identifier g1.
  Hypothesis Hg2 : g2 <> [] /\ Forall identifier g2.
  Hypothesis Hdiff : g1 <> g2.
  Variable m : place.
  Hypothesis Hcm : current_module m = m.
  Hypothesis Hcil : current_module (item_list_root m) = m.
  Hypothesis Hil : item_list_root (item_list_root m) = item_list_root m.
  Hypothesis Huse : use_results m = [(glob_text g1, None); (glob_text g2, None)].
  Hypothesis Hmod : forall x, child_module x m = None.

  Lemma glob_candidate g x : g <> [] -> Forall identifier g -> identifier x ->
    use_candidate x (glob_text g) = Some (path_text (map name_seg (g ++ [x]))).
  Proof.
    intros Hg Hid Hx. unfold use_candidate.
    destruct (ends_with (lit "::" ++ x) (glob_text g)) eqn:E.
    - exfalso. apply ends_with_app in E. destruct E as [t E].
      assert (Ex : [42%N] = x).
      { apply (last_piece 58%N (join_colons g ++ [58%N]) [42%N] (t ++ [58%N]) x).
        - intros [C|[]]. discriminate.
        - apply ident_no_colon. exact (ident_chars x Hx).
        - rewrite <- !app_assoc. exact E. }
      subst x. destruct Hx as (_ & C & _). discriminate.
    - unfold strip_star. assert (Es : ends_with (lit "::*") (glob_text g) = true).
      { apply ends_with_app. exists (join_colons g). reflexivity. }
      rewrite Es. cbn [option_map]. f_equal. unfold glob_text. rewrite app_length.
      replace (length (join_colons g) + length (lit "::*") - 3) with (length (join_colons g)) by (cbn [lit length]; change (length (lit "::*")) with 3; lia).
      rewrite firstn_app, firstn_all, Nat.sub_diag. cbn [firstn]. rewrite app_nil_r, names_text, join_app by (exact Hg || discriminate).
      reflexivity.
  Qed.
  Lemma glob_aliases : use_aliases m = [].
  Proof. unfold use_aliases. rewrite Huse. reflexivity. Qed.
  Lemma glob_text_inj : glob_text g1 <> glob_text g2.
  Proof.
    intros E. unfold glob_text in E. apply app_inv_tail in E. apply Hdiff.
    assert (H1 : parse (join_colons g1) = Some (map name_seg g1)).
    { destruct g1 as [|a l]; [destruct Hg1; congruence|]. rewrite <- names_text. apply Hparse. apply names_plain. apply Hg1. }
    assert (H2 : parse (join_colons g2) = Some (map name_seg g2)).
    { destruct g2 as [|a l]; [destruct Hg2; congruence|]. rewrite <- names_text. apply Hparse. apply names_plain. apply Hg2. }
    rewrite E, H2 in H1. injection H1 as H1. symmetry. revert H1. clear. revert g1. induction g2 as [|a l IH]; intros [|b k] E; try discriminate.
    - reflexivity.
    - cbn in E. injection E as -> E. f_equal. apply IH. exact E.
  Qed.
  Lemma glob_paths : use_paths m = [glob_text g1; glob_text g2].
  Proof.
    unfold use_paths. rewrite Huse. cbn [fold_left snd fst]. unfold set_add. cbn [existsb app].
    assert (E : str_eqb (glob_text g2) (glob_text g1) = false) by (apply str_eqb_neq; intros C; exact (glob_text_inj (eq_sym C))).
    rewrite E. reflexivity.
  Qed.
  Lemma glob_parse g x : Forall identifier g -> identifier x ->
    parse (path_text (map name_seg (g ++ [x]))) = Some (map name_seg (g ++ [x])).
  Proof.
    intros Hg Hx. assert (Ha : Forall identifier (g ++ [x])) by (apply Forall_app; split; [exact Hg | constructor; auto]).
    destruct (g ++ [x]) as [|a l] eqn:E; [destruct g; discriminate|]. apply Hparse. apply names_plain. exact Ha.
  Qed.
  Lemma glob_candidates x : identifier x -> candidates parse x m = [map name_seg (g1 ++ [x]); map name_seg (g2 ++ [x])].
  Proof.
    intros Hx. unfold candidates, candidate_texts. rewrite glob_aliases, glob_paths. cbn [assoc app filter_map].
    rewrite (glob_candidate g1 x (proj1 Hg1) (proj2 Hg1) Hx), (glob_candidate g2 x (proj1 Hg2) (proj2 Hg2) Hx).
    cbn [filter_map]. rewrite (glob_parse g1 x (proj2 Hg1) Hx), (glob_parse g2 x (proj2 Hg2) Hx).
    assert (Hq : forall g, g <> [] -> is_some (qualifier (map name_seg (g ++ [x]))) = true).
    { intros [|a [|b l]] Hn; [congruence | reflexivity | reflexivity]. }
    cbn [filter]. rewrite (Hq g1 (proj1 Hg1)), (Hq g2 (proj1 Hg2)). reflexivity.
  Qed.
  Lemma glob_texts_differ x : identifier x -> path_text (map name_seg (g1 ++ [x])) <> path_text (map name_seg (g2 ++ [x])).
  Proof.
    intros Hx E. assert (H1 := glob_parse g1 x (proj2 Hg1) Hx). rewrite E, (glob_parse g2 x (proj2 Hg2) Hx) in H1.
    injection H1 as H1. apply Hdiff.
    assert (Hi : forall a b : list str, map name_seg a = map name_seg b -> a = b).
    { clear. induction a as [|a l IH]; intros [|b k] E; try discriminate; [reflexivity|]. cbn in E. injection E as -> E.
      f_equal. apply IH. exact E. }
    apply Hi in H1. apply app_inj_tail in H1. symmetry. apply H1.
  Qed.
  Lemma glob_next n p x : identifier x ->
    (forall g, g = g1 \/ g = g2 -> resolve_qualifier parse n (map name_seg (g ++ [x])) m = Spent) ->
    qnext parse n p x m = Spent.
  Proof.
    intros Hx IH. unfold qnext. rewrite Hmod, glob_candidates by exact Hx. cbn [find_map_res].
    rewrite (IH g1 (or_introl eq_refl)), (IH g2 (or_intror eq_refl)).
    destruct (str_eqb (path_text (map name_seg (g1 ++ [x]))) (path_text p)) eqn:E1; [|reflexivity].
    destruct (str_eqb (path_text (map name_seg (g2 ++ [x]))) (path_text p)) eqn:E2; [|reflexivity].
    exfalso. apply str_eqb_eq in E1, E2. apply (glob_texts_differ x Hx). congruence.
  Qed.
  Lemma glob_qualifier n : forall x r l, identifier x -> current_module l = m ->
    resolve_qualifier parse n (name_seg x :: r) l = Spent.
  Proof.
    induction n as [|n IH]; intros x r l Hx Hl; [reflexivity|]. rewrite rq_S. unfold qbody.
    cbn [name_seg sg_colons sg_word seg_name word_text]. rewrite Hl.
    rewrite glob_next; [reflexivity | exact Hx|].
    intros g Hg. assert (Hn : g <> [] /\ Forall identifier g) by (destruct Hg; subst g; assumption).
    destruct g as [|a k]; [destruct Hn; congruence|]. cbn [app map]. apply IH; [|exact Hcm].
    destruct Hn as [_ Hn]. inversion Hn; assumption.
  Qed.
  Lemma glob_il_candidates x : candidates parse x (item_list_root m) = candidates parse x m.
  Proof.
    unfold candidates, candidate_texts, use_aliases, use_paths, use_results. rewrite Hil. reflexivity.
  Qed.
  Lemma glob_item want n x ref : identifier x -> current_module ref = m ->
    find (fun c => want (fst c) && named x (fst c)) (children_at (item_list_root m)) = None ->
    resolve_item parse want n [name_seg x] ref = Spent.
  Proof.
    intros Hx Hr Hf. destruct n as [|n]; [reflexivity|]. rewrite ri_S.
    cbn [last_seg last_opt obind seg_name name_seg sg_word word_text qualifier]. rewrite Hr, Hf.
    unfold thru. rewrite glob_il_candidates, glob_candidates by exact Hx. cbn [find_map_res].
    destruct (str_eqb _ _) eqn:E.
    - exfalso. apply str_eqb_eq in E.
      assert (H1 := glob_parse g1 x (proj2 Hg1) Hx). rewrite E in H1.
      assert (H2 : parse (path_text [name_seg x]) = Some [name_seg x]).
      { apply Hparse. apply (names_plain x []). constructor; auto. }
      rewrite H2 in H1. destruct Hg1 as [Hn _]. clear -H1 Hn. destruct g1 as [|a [|b l]]; [congruence | discriminate | discriminate].
    - destruct n as [|n]; [reflexivity|]. rewrite ri_S, last_names, (qual_names g1 x (proj1 Hg1)).
      cbn [obind name_seg seg_name sg_word word_text].
      assert (Hh : exists a l, map name_seg g1 = name_seg a :: l /\ identifier a).
      { destruct Hg1 as [Hn Hi]. clear -Hn Hi. destruct g1 as [|a l]; [congruence|]. exists a, (map name_seg l).
        split; [reflexivity | inversion Hi; assumption]. }
      destruct Hh as (a & l & -> & Ha). rewrite (glob_qualifier n a l _ Ha Hcil). reflexivity.
  Qed.
End Globs.

(** ** Aliases that name each other *)
Section AliasCycle.
  Variable parse : str -> option rpath.
  Hypothesis Hparse : parser_ok parse.
  Variables a b : str.
  Hypothesis Ha : identifier a.
  Hypothesis Hb : identifier b.
  Hypothesis Hab : a <> b.
  Variable l : place.
  Hypothesis Hcm : current_module l = l.
  Hypothesis Hil : item_list_root l = l.
  Hypothesis Huse : use_results l = [(lit "self::" ++ b, Some a); (lit "self::" ++ a, Some b)].

  Lemma self_plain x : identifier x -> plain_path [self_seg; name_seg x].
  Proof.
    intros Hx. exists self_seg, [name_seg x]. split; [reflexivity|]. split.
    - right. exists WSelf. split; [right; left; reflexivity | reflexivity].
    - constructor; [exists x; auto | constructor].
  Qed.
  Lemma self_text x : path_text [self_seg; name_seg x] = lit "self::" ++ x.
  Proof. unfold path_text, seg_text. cbn. rewrite !app_nil_r. reflexivity. Qed.
  Lemma cycle_candidates x y : (x = a /\ y = b) \/ (x = b /\ y = a) -> candidates parse x l = [[self_seg; name_seg y]].
  Proof.
    intros Hxy. unfold candidates, candidate_texts.
    assert (Hp : use_paths l = []) by (unfold use_paths; rewrite Huse; reflexivity).
    rewrite Hp. cbn [filter_map]. rewrite app_nil_r.
    assert (Hal : assoc x (use_aliases l) = Some (lit "self::" ++ y)).
    { apply use_aliases_get. destruct Hxy as [[-> ->]|[-> ->]].
      - exists [], [(lit "self::" ++ a, Some b)]. split; [exact Huse|]. intros z [<-|[]] C. apply Hab. injection C as C. auto.
      - exists [(lit "self::" ++ b, Some a)], []. split; [exact Huse|]. intros z []. }
    rewrite Hal. cbn [filter_map].
    assert (Hy : identifier y) by (destruct Hxy as [[-> ->]|[-> ->]]; assumption).
    pose proof (proj1 (Hparse _ (self_plain y Hy))) as E. rewrite self_text in E. rewrite E. reflexivity.
  Qed.
  Lemma cycle_item want : (forall c, In c (n_children (fst l)) -> n_name c = None) ->
    forall n x y ref, (x = a /\ y = b) \/ (x = b /\ y = a) -> ref = l ->
    resolve_item parse want n [self_seg; name_seg x] ref = Spent.
  Proof.
    intros Hw. induction n as [|n IH]; intros x y ref Hxy ->; [reflexivity|]. rewrite ri_S.
    cbn [last_seg last_opt obind name_seg seg_name sg_word word_text qualifier removelast].
    destruct n as [|n]; [reflexivity|].
    change (resolve_qualifier parse (S n) [self_seg] l) with (@Ret (option place) (Some (current_module l))).
    cbv iota beta. rewrite Hcm, Hil.
    match goal with |- context [find ?f ?k] => destruct (find f k) as [c|] eqn:E end.
    { exfalso. apply find_some in E. destruct E as [Hc E]. unfold children_at in Hc. apply in_map_iff in Hc.
      destruct Hc as (c' & <- & Hc). cbn [fst] in E. unfold named in E. rewrite (Hw c' Hc), andb_false_r in E. discriminate. }
    unfold thru. rewrite (cycle_candidates x y Hxy). cbn [find_map_res].
    rewrite !self_text. destruct (str_eqb (lit "self::" ++ y) (lit "self::" ++ x)) eqn:Ex.
    - exfalso. apply str_eqb_eq, app_inv_head in Ex. destruct Hxy as [[-> ->]|[-> ->]]; apply Hab; auto.
    - rewrite (IH y x l); [reflexivity | tauto | reflexivity].
  Qed.
End AliasCycle.

(** ** A parser for the examples *)
Fixpoint split_colons (cur s : str) : list str :=
  match s with
  | [] => [rev cur]
  | c :: s' =>
      match N.eqb c 58, s' with
      | true, d :: s'' => if N.eqb d 58 then rev cur :: split_colons [] s'' else split_colons (c :: cur) s'
      | _, _ => split_colons (c :: cur) s'
      end
  end.
Definition simple_word (s : str) : word :=
  if str_eqb s (lit "crate") then WCrate else if str_eqb s (lit "self") then WSelf
  else if str_eqb s (lit "super") then WSuper else if str_eqb s (lit "*") then WBad s else WName s.
Definition simple_parse (s : str) : option rpath :=
  Some (map (fun x => Seg false (simple_word x) []) (split_colons [] s)).
Lemma split_piece x : ~ In 58%N x -> forall cur, split_colons cur x = [rev cur ++ x].
Proof.
  induction x as [|c x IH]; intros Hx cur; cbn [split_colons]; [rewrite app_nil_r; reflexivity|].
  destruct (N.eqb c 58) eqn:E; [apply N.eqb_eq in E; subst c; destruct Hx; left; reflexivity|].
  rewrite IH by (intros C; apply Hx; right; exact C). cbn [rev]. rewrite <- app_assoc. reflexivity.
Qed.
Lemma split_first x s : ~ In 58%N x -> forall cur, split_colons cur (x ++ lit "::" ++ s) = (rev cur ++ x) :: split_colons [] s.
Proof.
  induction x as [|c x IH]; intros Hx cur.
  - cbn. rewrite app_nil_r. reflexivity.
  - cbn [app split_colons]. destruct (N.eqb c 58) eqn:E; [apply N.eqb_eq in E; subst c; destruct Hx; left; reflexivity|].
    rewrite IH by (intros C; apply Hx; right; exact C). cbn [rev]. rewrite <- app_assoc. reflexivity.
Qed.
Lemma split_join l : l <> [] -> (forall x, In x l -> ~ In 58%N x) -> split_colons [] (join_colons l) = l.
Proof.
  induction l as [|x l IH]; intros Hn Hl; [congruence|]. destruct l as [|y l].
  - exact (split_piece x (Hl x (or_introl eq_refl)) []).
  - change (join_colons (x :: y :: l)) with (x ++ lit "::" ++ join_colons (y :: l)).
    rewrite (split_first x _ (Hl x (or_introl eq_refl))). cbn [rev app]. f_equal.
    apply IH; [discriminate | intros z Hz; apply Hl; right; exact Hz].
Qed.
Lemma simple_name n : identifier n -> simple_word n = WName n /\ ~ In 58%N n.
Proof.
  intros (Hn & Hc & Hk). split; [|exact (ident_no_colon n Hc)]. unfold simple_word.
  assert (H1 : forall k, In k [lit "crate"; lit "self"; lit "super"] -> str_eqb n k = false).
  { intros k Hin. apply str_eqb_neq. intros ->. exact (Hk Hin). }
  rewrite (H1 (lit "crate")), (H1 (lit "self")), (H1 (lit "super")) by (cbn; auto).
  destruct (str_eqb n (lit "*")) eqn:E; [|reflexivity]. apply str_eqb_eq in E. subst n. discriminate.
Qed.
Lemma simple_parse_ok : parser_ok simple_parse.
Proof.
  intros p (h & l & -> & Hh & Hl).
  assert (Hs : forall s, In s (h :: l) \/ s = star_seg -> ~ In 58%N (seg_text s) /\ Seg false (simple_word (seg_text s)) [] = s).
  { assert (HN : forall s, plain_name s -> ~ In 58%N (seg_text s) /\ Seg false (simple_word (seg_text s)) [] = s).
    { intros s (n & -> & Hn). destruct (simple_name n Hn) as [E1 E2]. unfold seg_text. cbn [name_seg sg_colons sg_word sg_tail word_text app].
      rewrite app_nil_r, E1. auto. }
    intros s [[<-|Hs]|E].
    - destruct Hh as [Hh|(w & Hw & ->)]; [exact (HN h Hh)|].
      destruct Hw as [<-|[<-|[<-|[]]]]; (split; [intros C; vm_compute in C; intuition discriminate | reflexivity]).
    - rewrite Forall_forall in Hl. exact (HN s (Hl s Hs)).
    - subst s. split; [intros C; vm_compute in C; intuition discriminate | reflexivity]. }
  assert (G : forall q, q <> [] -> (forall s, In s q -> In s (h :: l) \/ s = star_seg) -> simple_parse (path_text q) = Some q).
  { intros q Hq Hin. unfold simple_parse, path_text. f_equal. rewrite split_join.
    - rewrite map_map. transitivity (map (fun s : seg => s) q); [|apply map_id]. apply map_ext_in. intros s Hs'. apply Hs, Hin, Hs'.
    - intros E. apply map_eq_nil in E. exact (Hq E).
    - intros x Hx. apply in_map_iff in Hx. destruct Hx as (s & <- & Hx). apply Hs, Hin, Hx. }
  split; apply G; try discriminate; [auto|].
  intros s Hin. apply in_app_iff in Hin. destruct Hin as [Hin|[<-|[]]]; auto.
Qed.

(** ** Finding items *)
Lemma only_find {A} (P : A -> Prop) (f : A -> bool) l x : (forall y, f y = true <-> P y) -> only P l x -> find f l = Some x.
Proof.
  intros Hf (l1 & l2 & -> & Hx & Ho). induction l1 as [|y l1 IH]; cbn [app find].
  - rewrite (proj2 (Hf x) Hx). reflexivity.
  - destruct (f y) eqn:E; [exfalso; apply (Ho y); [left; reflexivity | apply Hf; exact E]|].
    apply IH. intros z Hz. apply Ho. right. exact Hz.
Qed.
Lemma find_children (f : snode -> bool) l x : find f (n_children (fst l)) = Some x ->
  find (fun c => f (fst c)) (children_at l) = Some (x, fst l :: snd l).
Proof.
  unfold children_at. generalize (n_children (fst l)) as k. induction k as [|y k IH]; [discriminate|]. cbn [map find fst].
  destruct (f y); [intros E; injection E as ->; reflexivity | exact IH].
Qed.
Lemma declares_find want name m x : declares_item want name m x ->
  find (fun c => want (fst c) && named name (fst c)) (children_at (item_list_root m)) = Some x.
Proof.
  intros (l & n & -> & Hn & Hl).
  assert (El : item_list_root m = l).
  { destruct Hl as [(_ & Hd & ->)|(Hm & il & Hi & ->)]; unfold item_list_root.
    - rewrite Hd. reflexivity.
    - unfold is_module in Hm. destruct (n_data (fst m)); try discriminate.
      rewrite (find_children (fun c => match n_data c with DItemList => true | _ => false end) m il); [reflexivity|].
      apply (only_find (fun c => n_data c = DItemList)); [|exact Hi].
      intros y. destruct (n_data y); split; congruence. }
  rewrite El. apply (find_children (fun c => want c && named name c) l n).
  apply (only_find (fun c => want c = true /\ n_name c = Some name)); [|exact Hn].
  intros y. rewrite andb_true_iff. unfold named. destruct (n_name y) as [s|]; [|split; [intros [_ C]; discriminate | intros [_ C]; discriminate]].
  rewrite str_eqb_eq. split; intros [E1 E2]; (split; [exact E1 | congruence]).
Qed.
Lemma find_item parse want f p name ref m x :
  obind (last_seg p) seg_name = Some name ->
  match qualifier p with Some q => resolve_qualifier parse f q ref | None => Ret (Some (current_module ref)) end = Ret (Some m) ->
  declares_item want name m x -> resolve_item parse want (S f) p ref = Ret (Some x).
Proof. intros E1 E2 H. rewrite ri_S, E1, E2, (declares_find want name m x H). reflexivity. Qed.
Lemma find_module name l x : only (module_named name) (n_children (fst l)) x -> child_module name l = Some (x, fst l :: snd l).
Proof.
  intros H. unfold child_module. apply (find_children (fun c => is_module c && named name c) l x).
  apply (only_find (module_named name)); [|exact H].
  intros y. unfold module_named, is_module, named, n_name. destruct (n_data y) as [|[s|]| | | | | | | | |]; cbn;
    try (split; [discriminate | intros (s' & C & _); discriminate]).
  - rewrite str_eqb_eq. split; [intros ->; exists name; auto | intros (s' & C & ->); injection C; auto].
Qed.
