(** Lemmas about the definitions of [Base]. *)
From Verif Require Import Base.

Section UniqueFacts.
  Context {A K : Type} (keqb : K -> K -> bool) (key : A -> K).
  Hypothesis keqb_eq : forall a b, keqb a b = true <-> a = b.

  Lemma existsb_keqb k l : existsb (keqb k) l = true <-> In k l.
  Proof.
    rewrite existsb_exists. split.
    - intros [x [Hx E]]; apply keqb_eq in E; subst; exact Hx.
    - intros H; exists k; split; [exact H | apply keqb_eq; reflexivity].
  Qed.

  Lemma unique_by_aux_incl seen l x : In x (unique_by_aux keqb key seen l) -> In x l.
  Proof.
    revert seen; induction l as [|y l IH]; intros seen H; simpl in *; [exact H|].
    destruct (existsb (keqb (key y)) seen).
    - right; eapply IH; exact H.
    - destruct H as [H|H]; [left; exact H | right; eapply IH; exact H].
  Qed.

  Lemma unique_by_aux_notseen seen l x :
    In x (unique_by_aux keqb key seen l) -> ~ In (key x) seen.
  Proof.
    revert seen; induction l as [|y l IH]; intros seen H; simpl in *; [contradiction|].
    destruct (existsb (keqb (key y)) seen) eqn:E.
    - apply IH; exact H.
    - destruct H as [<-|H].
      + intros Hin; apply existsb_keqb in Hin; congruence.
      + intros Hin; apply (IH _ H); right; exact Hin.
  Qed.

  Lemma unique_by_aux_nodup seen l : NoDup (map key (unique_by_aux keqb key seen l)).
  Proof.
    revert seen; induction l as [|y l IH]; intros seen; simpl; [constructor|].
    destruct (existsb (keqb (key y)) seen) eqn:E; [apply IH|].
    simpl; constructor; [|apply IH].
    intros Hin; apply in_map_iff in Hin; destruct Hin as [z [Hz1 Hz2]].
    apply unique_by_aux_notseen in Hz2; apply Hz2; left; symmetry; exact Hz1.
  Qed.

  Lemma unique_by_nodup l : NoDup (map key (unique_by keqb key l)).
  Proof. apply unique_by_aux_nodup. Qed.

  (** Every element is represented by an element with the same key. *)
  Lemma unique_by_aux_complete seen l x :
    In x l -> ~ In (key x) seen -> exists y, In y (unique_by_aux keqb key seen l) /\ key y = key x.
  Proof.
    revert seen; induction l as [|z l IH]; intros seen H Hn; simpl in *; [contradiction|].
    destruct (existsb (keqb (key z)) seen) eqn:E.
    - destruct H as [->|H].
      + apply existsb_keqb in E; contradiction.
      + apply IH; assumption.
    - destruct H as [->|H].
      + exists x; split; [left; reflexivity | reflexivity].
      + destruct (keqb (key x) (key z)) eqn:Ek.
        * apply keqb_eq in Ek. exists z; split; [left; reflexivity | symmetry; exact Ek].
        * destruct (IH (key z :: seen) H) as [y [Hy1 Hy2]].
          { intros [Hk|Hk]; [|contradiction].
            assert (keqb (key x) (key z) = true) by (apply keqb_eq; symmetry; exact Hk). congruence. }
          exists y; split; [right; exact Hy1 | exact Hy2].
  Qed.

  (** Exact characterisation: an element at some position is kept iff its key did not occur before. *)
  Fixpoint firsts (before : list K) (l : list A) : list A :=
    match l with
    | [] => []
    | x :: l' =>
        if existsb (keqb (key x)) before then firsts (before ++ [key x]) l'
        else x :: firsts (before ++ [key x]) l'
    end.

  Lemma unique_by_aux_firsts seen before l :
    (forall k, In k seen <-> In k before) ->
    unique_by_aux keqb key seen l = firsts before l.
  Proof.
    revert seen before; induction l as [|x l IH]; intros seen before Hs; simpl; [reflexivity|].
    assert (E : existsb (keqb (key x)) seen = existsb (keqb (key x)) before).
    { apply eq_true_iff_eq. rewrite !existsb_keqb. apply Hs. }
    rewrite E. destruct (existsb (keqb (key x)) before) eqn:Eb.
    - apply IH. intros k; rewrite in_app_iff, Hs; simpl.
      apply existsb_keqb in Eb. split; [tauto|].
      intros [H|[H|[]]]; [exact H | subst; exact Eb].
    - f_equal. apply IH. intros k; rewrite in_app_iff; simpl. rewrite Hs. tauto.
  Qed.

  Lemma unique_by_app_last l x :
    unique_by keqb key (l ++ [x]) =
    unique_by keqb key l ++ (if existsb (keqb (key x)) (map key l) then [] else [x]).
  Proof.
    unfold unique_by.
    assert (G : forall seen,
      unique_by_aux keqb key seen (l ++ [x]) =
      unique_by_aux keqb key seen l ++
      (if existsb (keqb (key x)) (seen ++ map key l) then [] else [x])).
    { induction l as [|y l IH]; intros seen; simpl.
      - rewrite app_nil_r. destruct (existsb (keqb (key x)) seen); reflexivity.
      - assert (Eapp : existsb (keqb (key x)) (seen ++ key y :: map key l)
                = existsb (keqb (key x)) ((key y :: seen) ++ map key l)).
        { apply eq_true_iff_eq. rewrite !existsb_keqb, !in_app_iff; simpl. tauto. }
        destruct (existsb (keqb (key y)) seen) eqn:E.
        + rewrite IH. f_equal.
          replace (existsb (keqb (key x)) (seen ++ key y :: map key l))
             with (existsb (keqb (key x)) (seen ++ map key l)); [reflexivity|].
          apply eq_true_iff_eq. rewrite !existsb_keqb, !in_app_iff; simpl.
          apply existsb_keqb in E. split; [tauto|].
          intros [H|[H|H]]; [tauto | rewrite <- H; tauto | tauto].
        + rewrite Eapp. simpl. f_equal. apply IH. }
    apply (G []).
  Qed.
End UniqueFacts.

Section SortFacts.
  Context {A : Type} (key : A -> nat).

  Lemma insert_sorted_perm x l : Permutation (x :: l) (insert_sorted key x l).
  Proof.
    induction l as [|y l IH]; simpl; [apply Permutation_refl|].
    destruct (key x <=? key y); [apply Permutation_refl|].
    eapply perm_trans; [apply perm_swap | apply perm_skip; exact IH].
  Qed.

  Lemma stable_sort_perm l : Permutation l (stable_sort key l).
  Proof.
    induction l as [|x l IH]; simpl; [constructor|].
    eapply perm_trans; [apply perm_skip; exact IH | apply insert_sorted_perm].
  Qed.

  Lemma stable_sort_In l x : In x (stable_sort key l) <-> In x l.
  Proof.
    split; apply Permutation_in; [apply Permutation_sym|]; apply stable_sort_perm.
  Qed.

  Lemma insert_sorted_sorted x l :
    StronglySorted (fun a b => key a <= key b) l ->
    StronglySorted (fun a b => key a <= key b) (insert_sorted key x l).
  Proof.
    induction l as [|y l IH]; simpl; intros H.
    - constructor; constructor.
    - inversion H as [|? ? Hs Hf]; subst.
      destruct (key x <=? key y) eqn:E.
      + apply Nat.leb_le in E. constructor; [exact H|].
        constructor; [exact E|]. eapply Forall_impl; [|exact Hf]. simpl; intros; lia.
      + apply Nat.leb_gt in E. constructor; [apply IH; exact Hs|].
        apply (Permutation_Forall (insert_sorted_perm x l)).
        constructor; [lia | exact Hf].
  Qed.

  Lemma stable_sort_sorted l : StronglySorted (fun a b => key a <= key b) (stable_sort key l).
  Proof. induction l as [|x l IH]; simpl; [constructor | apply insert_sorted_sorted; exact IH]. Qed.

  Lemma filter_nil_ge k l :
    Forall (fun a => k < key a) l -> filter (fun a => key a =? k) l = [].
  Proof.
    induction l as [|x l IH]; simpl; intros H; [reflexivity|].
    inversion H; subst. destruct (Nat.eqb_spec (key x) k); [lia | apply IH; assumption].
  Qed.

  Lemma insert_sorted_filter k x l :
    filter (fun a => key a =? k) (insert_sorted key x l) = filter (fun a => key a =? k) (x :: l)
    \/ key x <> k /\ filter (fun a => key a =? k) (insert_sorted key x l) = filter (fun a => key a =? k) l.
  Proof.
    destruct (Nat.eq_dec (key x) k) as [E|E].
    - left. induction l as [|y l IH]; simpl; [reflexivity|].
      destruct (key x <=? key y) eqn:El; [reflexivity|].
      apply Nat.leb_gt in El. simpl.
      destruct (Nat.eqb_spec (key y) k); [lia|].
      destruct (Nat.eqb_spec (key x) k); [|contradiction].
      simpl in IH. rewrite (proj2 (Nat.eqb_eq _ _) E) in IH. exact IH.
    - right; split; [exact E|].
      induction l as [|y l IH]; simpl.
      + destruct (Nat.eqb_spec (key x) k); [contradiction|reflexivity].
      + destruct (key x <=? key y); simpl.
        * destruct (Nat.eqb_spec (key x) k); [contradiction|reflexivity].
        * rewrite IH. reflexivity.
  Qed.

  (** Stability: elements of equal key keep their relative order. *)
  Lemma stable_sort_stable k l :
    filter (fun a => key a =? k) (stable_sort key l) = filter (fun a => key a =? k) l.
  Proof.
    induction l as [|x l IH]; simpl; [reflexivity|].
    destruct (insert_sorted_filter k x (stable_sort key l)) as [H|[Hne H]].
    - rewrite H; simpl. rewrite IH. reflexivity.
    - rewrite H, IH. destruct (Nat.eqb_spec (key x) k); [contradiction|reflexivity].
  Qed.

  (** The head of a stable sort is the first element of minimal key. *)
  Lemma stable_sort_hd l x :
    hd_error (stable_sort key l) = Some x <->
    exists l1 l2, l = l1 ++ x :: l2 /\ Forall (fun a => key x < key a) l1
                  /\ Forall (fun a => key x <= key a) l2.
  Proof.
    revert x; induction l as [|y l IH]; intros x; simpl.
    - split; [discriminate|]. intros [l1 [l2 [H _]]]. destruct l1; discriminate.
    - split.
      + intros H. destruct (stable_sort key l) as [|z zs] eqn:Es; simpl in H.
        * inversion H; subst. exists [], l. split; [reflexivity|]. split; [constructor|].
          assert (l = []) as ->.
          { apply Permutation_nil. rewrite <- Es. apply Permutation_sym, stable_sort_perm. }
          constructor.
        * assert (Hz : exists l1 l2, l = l1 ++ z :: l2 /\ Forall (fun a => key z < key a) l1
                  /\ Forall (fun a => key z <= key a) l2) by (apply IH; reflexivity).
          destruct (key y <=? key z) eqn:El; simpl in H; inversion H; subst.
          -- exists [], l. split; [reflexivity|]. split; [constructor|].
             apply Nat.leb_le in El. destruct Hz as [l1 [l2 [-> [H1 H2]]]].
             apply Forall_app; split.
             ++ eapply Forall_impl; [|exact H1]; simpl; intros; lia.
             ++ constructor; [exact El|]. eapply Forall_impl; [|exact H2]; simpl; intros; lia.
          -- apply Nat.leb_gt in El. destruct Hz as [l1 [l2 [-> [H1 H2]]]].
             exists (y :: l1), l2. split; [reflexivity|]. split; [constructor; assumption|exact H2].
      + intros [l1 [l2 [He [H1 H2]]]]. destruct l1 as [|y' l1]; simpl in He; inversion He; subst.
        * destruct (stable_sort key l2) as [|z zs] eqn:Es; simpl; [reflexivity|].
          assert (In z l2) by (apply stable_sort_In; rewrite Es; left; reflexivity).
          rewrite Forall_forall in H2. specialize (H2 z H).
          apply Nat.leb_le in H2. rewrite H2. reflexivity.
        * inversion H1; subst.
          assert (Hh : hd_error (stable_sort key (l1 ++ x :: l2)) = Some x).
          { apply IH. exists l1, l2. repeat split; assumption. }
          destruct (stable_sort key (l1 ++ x :: l2)) as [|z zs]; simpl in Hh; [discriminate|].
          inversion Hh; subst. simpl. destruct (key y' <=? key x) eqn:El.
          -- apply Nat.leb_le in El; lia.
          -- reflexivity.
  Qed.
End SortFacts.

Lemma filter_map_In {A B} (f : A -> option B) l y :
  In y (filter_map f l) <-> exists x, In x l /\ f x = Some y.
Proof.
  induction l as [|a l IH]; simpl.
  - split; [contradiction | intros [x [[] _]]].
  - destruct (f a) eqn:E; simpl; rewrite IH.
    + split.
      * intros [<-|[x [H1 H2]]]; [exists a; auto | exists x; auto].
      * intros [x [[->|H1] H2]]; [left; congruence | right; exists x; auto].
    + split.
      * intros [x [H1 H2]]; exists x; auto.
      * intros [x [[->|H1] H2]]; [congruence | exists x; auto].
Qed.

Lemma last_opt_app {A} (l : list A) x : last_opt (l ++ [x]) = Some x.
Proof.
  induction l as [|a l IH]; [reflexivity|].
  simpl. destruct (l ++ [x]) eqn:E; [destruct l; discriminate | exact IH].
Qed.

Lemma last_opt_some {A} (l : list A) x : last_opt l = Some x <-> exists l', l = l' ++ [x].
Proof.
  split.
  - induction l as [|a l IH]; [discriminate|]. intros H. destruct l as [|b l].
    + inversion H; subst. exists []; reflexivity.
    + destruct (IH H) as [l' E]. exists (a :: l'). rewrite E; reflexivity.
  - intros [l' ->]. apply last_opt_app.
Qed.

Lemma last_opt_none {A} (l : list A) : last_opt l = None <-> l = [].
Proof.
  split; [|intros ->; reflexivity].
  induction l as [|a l IH]; [reflexivity|]. destruct l as [|b l]; [discriminate|].
  intros H. apply IH in H. discriminate.
Qed.

Lemma Forall2_len : forall A B (R : A -> B -> Prop) l1 l2, Forall2 R l1 l2 -> length l1 = length l2.
Proof. induction 1; simpl; congruence. Qed.
