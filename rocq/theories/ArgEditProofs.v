(** Proofs about removing and inserting arguments. *)
From Coq Require Import Lia Sorting.Sorted.
From Verif Require Import Base BaseFacts PositionModel PositionProofs TranslateModel SyntaxModel AttrModel AttrSpec AttrProofs EditSpec
  ArgEditModel ArgEditSpec.

Definition lens (l : list elem) : nat := bytes (texts_of l).
Lemma texts_of_app a b : texts_of (a ++ b) = texts_of a ++ texts_of b.
Proof. apply flat_map_app. Qed.
Lemma leaves_of_app a b : leaves_of (a ++ b) = leaves_of a ++ leaves_of b.
Proof. apply flat_map_app. Qed.
Lemma lens_app a b : lens (a ++ b) = lens a + lens b.
Proof. unfold lens. rewrite texts_of_app. apply bytes_app. Qed.
Lemma lens_cons e l : lens (e :: l) = len_of e + lens l.
Proof. unfold lens, texts_of. cbn [flat_map]. apply bytes_app. Qed.
Lemma lens_nil : lens [] = 0.
Proof. reflexivity. Qed.
Lemma text_app a b : text (a ++ b) = text a ++ text b.
Proof. apply flat_map_app. Qed.
Lemma text_leaves e : text (leaves e) = text_of e.
Proof.
  induction e as [k t|k cs IH] using elem_ind'; [apply app_nil_r|].
  rewrite leaves_node, text_of_node. induction IH as [|c cs Hc _ IHcs]; [reflexivity|].
  unfold leaves_of, texts_of in *. cbn [flat_map]. rewrite text_app, Hc. f_equal. exact IHcs.
Qed.
Lemma text_leaves_of l : text (leaves_of l) = texts_of l.
Proof.
  induction l as [|c l IH]; [reflexivity|]. unfold leaves_of, texts_of in *. cbn [flat_map].
  rewrite text_app, text_leaves, IH. reflexivity.
Qed.

(** ** Neighbouring tokens *)
Lemma place_leaves_app a : forall o b, place_leaves o (a ++ b) = place_leaves o a ++ place_leaves (o + bytes (text a)) b.
Proof.
  induction a as [|t a IH]; intros o b; [cbn; rewrite Nat.add_0_r; reflexivity|].
  cbn [app place_leaves]. rewrite IH. f_equal. f_equal. unfold text. cbn [flat_map]. rewrite bytes_app, Nat.add_assoc. reflexivity.
Qed.
Lemma place_leaves_bounds l : forall o x, In x (place_leaves o l) -> o <= lf_start x /\ lf_end x <= o + bytes (text l).
Proof.
  induction l as [|t l IH]; intros o x; [contradiction|]. cbn [place_leaves]. change (text (t :: l)) with (snd t ++ text l). rewrite bytes_app.
  intros [<-|H]; [unfold lf_start, lf_end; cbn [fst snd]; lia|]. apply IH in H. lia.
Qed.
Lemma lf_le x : lf_start x <= lf_end x.
Proof. unfold lf_start, lf_end. lia. Qed.
Lemma bytes_pos s : s <> [] -> 0 < bytes s.
Proof. intros H. destruct (bytes s) eqn:E; [apply bytes_zero in E; contradiction | lia]. Qed.
Lemma filter_none {A} (f : A -> bool) l : (forall x, In x l -> f x = false) -> filter f l = [].
Proof.
  induction l as [|x l IH]; intros H; [reflexivity|]. cbn [filter]. rewrite (H x (or_introl eq_refl)).
  apply IH. intros y Hy. apply H. right. exact Hy.
Qed.
Lemma filter_every {A} (f : A -> bool) l : (forall x, In x l -> f x = true) -> filter f l = l.
Proof.
  induction l as [|x l IH]; intros H; [reflexivity|]. cbn [filter]. rewrite (H x (or_introl eq_refl)).
  f_equal. apply IH. intros y Hy. apply H. right. exact Hy.
Qed.
Lemma after_place o (A : list (skind * str)) (t : skind * str) (B : list (skind * str)) : snd t <> [] ->
  leaves_after (place_leaves o (A ++ t :: B)) (o + bytes (text A), t) = place_leaves (o + bytes (text A) + bytes (snd t)) B.
Proof.
  intros Ht. apply bytes_pos in Ht. unfold leaves_after. rewrite place_leaves_app, filter_app. cbn [place_leaves filter].
  rewrite (filter_none _ (place_leaves o A)).
  - change (lf_end (o + bytes (text A), t)) with (o + bytes (text A) + bytes (snd t)).
    change (lf_start (o + bytes (text A), t)) with (o + bytes (text A)).
    destruct (Nat.leb_spec (o + bytes (text A) + bytes (snd t)) (o + bytes (text A))); [lia|].
    cbn [app]. apply filter_every. intros x Hx. apply Nat.leb_le. apply place_leaves_bounds in Hx. lia.
  - intros x Hx. apply Nat.leb_gt. apply place_leaves_bounds in Hx. pose proof (lf_le x).
    change (lf_start x < o + bytes (text A) + bytes (snd t)). lia.
Qed.
Lemma before_place o (A : list (skind * str)) (t : skind * str) (B : list (skind * str)) : snd t <> [] ->
  leaves_before (place_leaves o (A ++ t :: B)) (o + bytes (text A), t) = rev (place_leaves o A).
Proof.
  intros Ht. apply bytes_pos in Ht. unfold leaves_before. f_equal. rewrite place_leaves_app, filter_app. cbn [place_leaves filter].
  change (lf_end (o + bytes (text A), t)) with (o + bytes (text A) + bytes (snd t)).
  change (lf_start (o + bytes (text A), t)) with (o + bytes (text A)).
  destruct (Nat.leb_spec (o + bytes (text A) + bytes (snd t)) (o + bytes (text A))); [lia|].
  rewrite (filter_none _ (place_leaves _ B)).
  - rewrite app_nil_r. apply filter_every. intros x Hx. apply Nat.leb_le. apply place_leaves_bounds in Hx.
    change (lf_end x <= o + bytes (text A)). lia.
  - intros x Hx. apply Nat.leb_gt. apply place_leaves_bounds in Hx. pose proof (lf_le x). change (o + bytes (text A) < lf_end x). lia.
Qed.

Lemma blank_nil : blank [].
Proof. constructor. Qed.
Lemma blank_app a b : blank (a ++ b) <-> blank a /\ blank b.
Proof. apply Forall_app. Qed.
Lemma blank_trivia l : blank l -> trivia l.
Proof. intros H e He. unfold blank in H. rewrite Forall_forall in H. destruct (H e He) as (k & t & -> & Hk & _). eauto. Qed.
Lemma skip_blank bl : blank bl -> forall o rest,
  closest_delimiter COMMA (place_leaves o (leaves_of bl ++ rest)) = closest_delimiter COMMA (place_leaves (o + lens bl) rest).
Proof.
  intros H. induction H as [|e bl (k & t & -> & Hk & _) _ IH]; intros o rest; [cbn; rewrite Nat.add_0_r; reflexivity|].
  unfold leaves_of. cbn [flat_map leaves app place_leaves]. fold (leaves_of bl). unfold closest_delimiter at 1. cbn [closest_which].
  change (lf_kind (o, (k, t))) with k. rewrite Hk. destruct (skind_eqb k COMMA) eqn:E.
  { apply skind_eqb_eq in E. subst k. discriminate. }
  cbn [negb]. fold (closest_delimiter COMMA (place_leaves (o + bytes (snd (k, t))) (leaves_of bl ++ rest))).
  rewrite IH. rewrite lens_cons. unfold len_of. cbn [text_of snd]. rewrite Nat.add_assoc. reflexivity.
Qed.
Lemma rev_blank {A} (P : A -> Prop) l : Forall P l -> Forall P (rev l).
Proof. intros H. apply Forall_forall. intros x Hx. rewrite Forall_forall in H. apply H. apply in_rev in Hx. exact Hx. Qed.
Lemma closest_skip goal halt a : (forall x, In x a -> goal x = false /\ halt x = false) -> forall b,
  closest_which goal halt (a ++ b) = closest_which goal halt b.
Proof.
  induction a as [|x a IH]; intros H b; [reflexivity|]. cbn [app closest_which]. destruct (H x (or_introl eq_refl)) as [-> ->].
  apply IH. intros y Hy. apply H. right. exact Hy.
Qed.
Lemma blank_leaves bl : blank bl -> forall o x, In x (place_leaves o (leaves_of bl)) -> is_trivia (lf_kind x) = true.
Proof.
  intros H. induction H as [|e bl (k & t & -> & Hk & _) _ IH]; intros o x; [contradiction|].
  unfold leaves_of. cbn [flat_map leaves app place_leaves]. fold (leaves_of bl). intros [<-|Hx]; [exact Hk | eapply IH, Hx].
Qed.
Lemma skip_blank_back bl A o : blank bl ->
  closest_delimiter COMMA (rev (place_leaves o (A ++ leaves_of bl))) = closest_delimiter COMMA (rev (place_leaves o A)).
Proof.
  intros H. rewrite place_leaves_app, rev_app_distr. apply closest_skip. intros x Hx. apply in_rev in Hx.
  pose proof (blank_leaves bl H _ _ Hx) as E. rewrite E. split; [|reflexivity].
  destruct (skind_eqb (lf_kind x) COMMA) eqn:E'; [|reflexivity]. apply skind_eqb_eq in E'. rewrite E' in E. discriminate.
Qed.

(** ** The structure of a written list *)
Lemma listed_pre d cs b body x : listed (d :: cs) b body -> blank x -> listed (d :: cs) b (x ++ body).
Proof.
  intros H Hx. inversion H as [|c t1 t2 Hc H1 H2|c t1 t2 t3 Hc H1 H2 H3|c t1 t2 d' cs' b' body' Hc H1 H2 Hb]; subst;
    rewrite app_assoc; constructor; try assumption; apply blank_app; auto.
Qed.
Lemma argument_nonempty c : argument c -> c <> [].
Proof. intros (_ & (f & r & -> & _) & _). discriminate. Qed.
Lemma argument_no_comma c : argument c -> forall e, In e c -> kind_of e <> COMMA.
Proof. intros (H & _) e He. rewrite Forall_forall in H. apply H, He. Qed.
Lemma blank_no_comma t : blank t -> forall e, In e t -> kind_of e <> COMMA.
Proof. intros H e He. unfold blank in H. rewrite Forall_forall in H. destruct (H e He) as (k & s & -> & Hk & _). intros E. cbn in E. subst k. discriminate. Qed.
Lemma seg_no_comma c t1 t2 o : argument c -> blank t1 -> blank t2 ->
  forall e, In e (place o (t1 ++ c ++ t2)) -> lkind e <> COMMA.
Proof.
  intros Hc H1 H2 e He. apply place_In in He. unfold lkind. rewrite !in_app_iff in He. destruct He as [He|[He|He]].
  - apply (blank_no_comma t1 H1 _ He).
  - apply (argument_no_comma c Hc _ He).
  - apply (blank_no_comma t2 H2 _ He).
Qed.

(** The number of commas; what stands in front of the [i]th argument has [i] of them. *)
Definition commas (l : list elem) : nat := length (filter (fun e => skind_eqb (kind_of e) COMMA) l).
Lemma commas_app l l' : commas (l ++ l') = commas l + commas l'.
Proof. unfold commas. rewrite filter_app, app_length. reflexivity. Qed.
Lemma commas_none l : (forall e, In e l -> kind_of e <> COMMA) -> commas l = 0.
Proof.
  induction l as [|e l IH]; intros H; [reflexivity|]. unfold commas. cbn [filter].
  destruct (skind_eqb (kind_of e) COMMA) eqn:E; [apply skind_eqb_eq in E; destruct (H e (or_introl eq_refl) E)|].
  apply IH. intros x Hx. apply H. right. exact Hx.
Qed.
Definition in_front (i : nat) (l : list elem) : Prop := (l = [] \/ exists l0, l = l0 ++ [comma]) /\ commas l = i.
Lemma in_front_nil : in_front 0 [].
Proof. split; [left|]; reflexivity. Qed.
Lemma in_front_0 l : in_front 0 l -> l = [].
Proof. intros [[->|(l0 & ->)] E]; [reflexivity|]. rewrite commas_app in E. change (commas [comma]) with 1 in E. lia. Qed.
Lemma in_front_more i t1 c t2 l : argument c -> blank t1 -> blank t2 -> in_front i l -> in_front (S i) ((t1 ++ c ++ t2) ++ comma :: l).
Proof.
  intros Hc H1 H2 (Hl & E). split.
  { right. destruct Hl as [->|(l0 & ->)]; [eexists; reflexivity|]. exists ((t1 ++ c ++ t2) ++ comma :: l0). rewrite <- (app_assoc (t1 ++ c ++ t2)). reflexivity. }
  rewrite !commas_app, (commas_none t1 (blank_no_comma t1 H1)), (commas_none t2 (blank_no_comma t2 H2)),
    (commas_none c (argument_no_comma c Hc)). unfold commas at 1. cbn. fold (commas l). rewrite E. reflexivity.
Qed.

Definition placed (p : nat * list elem) : list lelem := place (fst p) (snd p).
Lemma listed_structure cores b body : listed cores b body -> forall o,
  exists ps extra,
    comma_separated (place o body) (map placed ps ++ extra)
    /\ length ps = length cores /\ Forall (fun p => snd p <> []) ps
    /\ (cores <> [] -> b = false -> extra = []) /\ (b = true -> exists q t3 B, blank t3 /\ extra = [place q t3] /\ body = B ++ comma :: t3)
    /\ (cores = [] -> ps = [] /\ extra = [place o body])
    /\ (forall p, In p ps -> o <= fst p)
    /\ (forall i j p q, i < j -> nth_error ps i = Some p -> nth_error ps j = Some q -> fst p + lens (snd p) + 1 <= fst q)
    /\ forall i c, nth_error cores i = Some c -> exists B1 t1 t2 B2,
        body = B1 ++ t1 ++ c ++ t2 ++ B2 /\ argument c /\ blank t1 /\ blank t2 /\ in_front i B1
        /\ nth_error ps i = Some (o + lens B1, t1 ++ c ++ t2)
        /\ ((exists B3, B2 = comma :: B3
               /\ (length cores = 1 -> B1 = [] /\ blank B3 /\ b = true)
               /\ (2 <= length cores -> forall x, blank x -> listed (without i cores) b (B1 ++ x ++ B3)))
            \/ (B2 = [] /\ S i = length cores /\ b = false
                /\ ((i = 0 /\ B1 = []) \/ (1 <= i /\ exists B0, B1 = B0 ++ [comma]
                      /\ (forall x, blank x -> listed (without i cores) false (B0 ++ x))
                      /\ (forall x, blank x -> listed (without i cores) true (B0 ++ comma :: x)))))).
Proof.
  intros H. induction H as [t Ht|c t1 t2 Hc H1 H2|c t1 t2 t3 Hc H1 H2 H3|c t1 t2 d cs b body Hc H1 H2 Hb IH]; intros o.
  - exists [], [place o t]. repeat split; try (intros; discriminate); try (intros; contradiction); try constructor.
    + intros e He. apply place_In in He. apply (blank_no_comma t Ht _ He).
    + intros i j p q _ E. destruct i; discriminate.
    + intros i c E. destruct i; discriminate.
  - exists [(o, t1 ++ c ++ t2)], []. cbn [map app placed fst snd]. repeat split; try (intros; discriminate); auto.
    + constructor. apply seg_no_comma; assumption.
    + constructor; [|constructor]. cbn [snd]. intros E. apply (argument_nonempty c Hc). apply app_eq_nil in E as [_ E]. apply app_eq_nil in E as [E _]. exact E.
    + intros p [<-|[]]. cbn. lia.
    + intros i j p q Hij E1 E2. destruct j as [|[|j]]; [lia|discriminate|discriminate].
    + intros i c' E. destruct i as [|[|i]]; [|discriminate|discriminate]. injection E as <-.
      exists [], t1, t2, []. rewrite !app_nil_r. cbn [app lens texts_of flat_map bytes]. rewrite Nat.add_0_r.
      repeat (split; [assumption || exact in_front_nil || reflexivity || (intros _; reflexivity)|]). right. auto 10.
  - exists [(o, t1 ++ c ++ t2)], [place (o + lens (t1 ++ c ++ t2) + 1) t3]. cbn [map app]. repeat split; try (intros; discriminate); auto.
    + unfold placed. cbn [fst snd]. replace (t1 ++ c ++ t2 ++ comma :: t3) with ((t1 ++ c ++ t2) ++ comma :: t3) by (rewrite !app_assoc_reverse; reflexivity).
      rewrite place_app. cbn [place]. apply cs_more; [apply seg_no_comma; assumption | reflexivity|].
      change (len_of comma) with 1. fold (lens (t1 ++ c ++ t2)). constructor.
      intros e He. apply place_In in He. apply (blank_no_comma t3 H3 _ He).
    + constructor; [|constructor]. cbn [snd]. intros E. apply (argument_nonempty c Hc). apply app_eq_nil in E as [_ E]. apply app_eq_nil in E as [E _]. exact E.
    + intros _. exists (o + lens (t1 ++ c ++ t2) + 1), t3, (t1 ++ c ++ t2). repeat split; [assumption|]. rewrite !app_assoc_reverse. reflexivity.
    + intros p [<-|[]]. cbn. lia.
    + intros i j p q Hij E1 E2. destruct j as [|[|j]]; [lia|discriminate|discriminate].
    + intros i c' E. destruct i as [|[|i]]; [|discriminate|discriminate]. injection E as <-.
      exists [], t1, t2, (comma :: t3). cbn [app lens texts_of flat_map bytes]. rewrite Nat.add_0_r.
      repeat (split; [assumption || exact in_front_nil || reflexivity || (intros _; reflexivity)|]). left. exists t3. split; [reflexivity|]. split; [auto|]. cbn [length]. lia.
  - destruct (IH (o + lens (t1 ++ c ++ t2) + 1)) as (ps & extra & Hcs & Hlen & Hne & Hx1 & Hx2 & _ & Hge & Hmono & Hnth). clear IH.
    set (o' := o + lens (t1 ++ c ++ t2) + 1) in *.
    exists ((o, t1 ++ c ++ t2) :: ps), extra.
    replace (t1 ++ c ++ t2 ++ comma :: body) with ((t1 ++ c ++ t2) ++ comma :: body) by (rewrite !app_assoc_reverse; reflexivity).
    split; [|split; [|split; [|split; [|split; [|split; [|split; [|split]]]]]]].
    + rewrite place_app. cbn [map app place]. unfold placed at 1. cbn [fst snd]. apply cs_more; [apply seg_no_comma; assumption | reflexivity|].
      change (len_of comma) with 1. fold (lens (t1 ++ c ++ t2)). fold o'. exact Hcs.
    + cbn [length] in *. lia.
    + constructor; [|exact Hne]. cbn [snd]. intros E. apply (argument_nonempty c Hc). apply app_eq_nil in E as [_ E]. apply app_eq_nil in E as [E _]. exact E.
    + intros _ E. apply Hx1; [discriminate | exact E].
    + intros E. destruct (Hx2 E) as (q & t3 & B & Ht & Ex & Eb). exists q, t3, ((t1 ++ c ++ t2) ++ comma :: B).
      rewrite Eb, !app_assoc_reverse. auto.
    + discriminate.
    + intros p [<-|Hp]; [cbn; lia|]. apply Hge in Hp. unfold o' in Hp. lia.
    + intros i j p q Hij E1 E2. destruct j as [|j]; [lia|]. cbn [nth_error] in E2. destruct i as [|i].
      * injection E1 as <-. cbn [fst snd]. apply nth_error_In in E2. apply Hge in E2. exact E2.
      * cbn [nth_error] in E1. apply (Hmono i j); [lia | exact E1 | exact E2].
    + intros i c' E. destruct i as [|i].
      * injection E as <-. exists [], t1, t2, (comma :: body). cbn [app lens texts_of flat_map bytes]. rewrite Nat.add_0_r.
        split; [rewrite !app_assoc_reverse; reflexivity|]. repeat (split; [assumption || exact in_front_nil || reflexivity || (intros _; reflexivity)|]).
        left. exists body. split; [reflexivity|]. split; [cbn [length]; discriminate|]. intros _ x Hx. apply listed_pre; assumption.
      * cbn [nth_error] in E. destruct (Hnth i c' E) as (B1 & u1 & u2 & B2 & Eb & Hc' & Hu1 & Hu2 & Hfr & Ep & Hcase).
        exists ((t1 ++ c ++ t2) ++ comma :: B1), u1, u2, B2.
        split; [rewrite Eb, !app_assoc_reverse; reflexivity|]. repeat (split; [assumption|]). split; [apply in_front_more; assumption|].
        split; [cbn [nth_error]; rewrite Ep; do 2 f_equal; rewrite lens_app, lens_cons; change (len_of comma) with 1; unfold o'; lia|].
        change (without (S i) (c :: d :: cs)) with (c :: without i (d :: cs)).
        assert (Hmore : forall b' l y, without i (d :: cs) <> [] -> listed (without i (d :: cs)) b' (l ++ y) ->
                          listed (c :: without i (d :: cs)) b' (((t1 ++ c ++ t2) ++ comma :: l) ++ y)).
        { intros b' l y Hw Hl. destruct (without i (d :: cs)) as [|z zs]; [contradiction|].
          rewrite !app_assoc_reverse. cbn [app]. constructor; assumption. }
        assert (Hwl : 2 <= length (d :: cs) -> without i (d :: cs) <> []).
        { intros Hl E0. assert (Hi : i < length (d :: cs)) by (apply nth_error_Some; congruence).
          apply (f_equal (@length _)) in E0. unfold without in E0. rewrite app_length, firstn_length, skipn_length in E0. cbn [length] in *. lia. }
        destruct Hcase as [(B3 & -> & Hone & Htwo)|(-> & HSi & -> & Hcase)].
        -- left. exists B3. split; [reflexivity|]. split; [cbn [length]; discriminate|]. intros _ x Hx.
           destruct (Nat.eq_dec (length (d :: cs)) 1) as [E1|E1].
           ++ destruct (Hone E1) as (-> & HB3 & ->). assert (i = 0) as ->.
              { assert (i < length (d :: cs)) by (apply nth_error_Some; congruence). lia. }
              destruct cs as [|? ?]; [|discriminate]. cbn [without firstn skipn app].
              change (@without (list elem) 0 [d]) with (@nil (list elem)). rewrite !app_assoc_reverse. cbn [app].
              constructor; try assumption. apply blank_app; auto.
           ++ apply Hmore; [apply Hwl; cbn [length] in *; lia|]. apply Htwo; [cbn [length] in *; lia | exact Hx].
        -- right. split; [reflexivity|]. split; [cbn [length] in *; lia|]. split; [reflexivity|]. right. split; [lia|].
           destruct Hcase as [(-> & ->)|(Hi & B0 & -> & Hf & Htr)].
           ++ cbn [length] in HSi. destruct cs as [|? ?]; [|discriminate].
              change (@without (list elem) 0 [d]) with (@nil (list elem)).
              exists (t1 ++ c ++ t2). split; [reflexivity|]. split; intros x Hx.
              ** rewrite !app_assoc_reverse. constructor; try assumption. apply blank_app; auto.
              ** rewrite !app_assoc_reverse. constructor; assumption.
           ++ exists ((t1 ++ c ++ t2) ++ comma :: B0). split; [rewrite !app_assoc_reverse; reflexivity|].
              assert (Hw : without i (d :: cs) <> []) by (apply Hwl; cbn [length] in *; lia).
              split; intros x Hx; apply Hmore; auto.
Qed.

(** ** What is read from a plain argument *)
Lemma insert_sorted_first {A} (key : A -> nat) x l : (forall y, In y l -> key x <= key y) -> insert_sorted key x l = x :: l.
Proof.
  destruct l as [|y l]; intros H; [reflexivity|]. cbn [insert_sorted].
  rewrite (proj2 (Nat.leb_le _ _) (H y (or_introl eq_refl))). reflexivity.
Qed.
Lemma sort_sorted {A} (key : A -> nat) l : StronglySorted (fun a b => key a <= key b) l -> stable_sort key l = l.
Proof.
  induction 1 as [|x l _ IH Hx]; [reflexivity|]. cbn [stable_sort]. rewrite IH. apply insert_sorted_first.
  rewrite Forall_forall in Hx. exact Hx.
Qed.
Lemma place_sorted l : forall o, StronglySorted (fun a b => lstart a <= lstart b) (place o l).
Proof.
  induction l as [|e l IH]; intros o; cbn [place]; constructor; [apply IH|].
  apply Forall_forall. intros y Hy. apply place_ge in Hy. unfold lstart in *. cbn [fst]. lia.
Qed.
Lemma place_end l : forall o e, In e (place o l) -> lend e <= o + lens l.
Proof.
  induction l as [|x l IH]; intros o e; [contradiction|]. cbn [place]. rewrite lens_cons. intros [<-|H]; [unfold lend; cbn [fst snd]; lia|].
  apply IH in H. lia.
Qed.
Lemma last_snoc {A} (l : list A) x : last_opt (l ++ [x]) = Some x.
Proof. apply last_opt_app. Qed.

Definition has_last_leaf (e : elem) : Prop := exists pre kt, leaves e = pre ++ [kt] /\ snd kt <> [].
Lemma balanced_last e : balanced e -> has_last_leaf e.
Proof.
  intros [k t _ _ _ Ht|o cs c _ Hin].
  - exists [], (k, t). split; [reflexivity | exact Ht].
  - destruct Hin as [E|[E|[E|[]]]]; injection E as <- <-; unfold has_last_leaf; rewrite leaves_node; unfold leaves_of; cbn [flat_map]; rewrite flat_map_app;
      eexists; eexists; (split; [rewrite app_assoc; reflexivity|discriminate]).
Qed.
Lemma blank_last l e : blank l -> In e l -> has_last_leaf e.
Proof. intros H He. unfold blank in H. rewrite Forall_forall in H. destruct (H e He) as (k & t & -> & _ & Ht). exists [], (k, t). auto. Qed.
Lemma has_last_pos e : has_last_leaf e -> 0 < len_of e.
Proof.
  intros (pre & kt & E & H). unfold len_of. rewrite <- text_leaves, E, text_app, bytes_app. change (text [kt]) with (snd kt ++ []).
  rewrite app_nil_r. apply bytes_pos in H. lia.
Qed.

Lemma value_end px o V l x : has_last_leaf l ->
  value_reads px (place o (V ++ [l])) (MOk x) ->
  exists r, value_range x = Done r /\ o <= fst r /\ fst r <= snd r
    /\ (snd r = o + lens (V ++ [l]) \/ (snd r < o + lens (V ++ [l]) /\ is_trivia (kind_of l) = true)).
Proof.
  intros Hl Hr. destruct (value_range_place _ _ _ _ Hr) as (r & Er & H1 & H2). exists r. repeat (split; [assumption|]).
  destruct Hr as (He & _ & _). unfold value_range in Er. rewrite He in Er.
  destruct (place o (V ++ [l])) as [|f rest] eqn:Ef; [discriminate|]. rewrite <- Ef in Er.
  unfold non_trivia in Er. rewrite place_app in Er. cbn [place] in Er. fold (lens V) in Er.
  assert (El : lens (V ++ [l]) = lens V + len_of l) by (rewrite lens_app, lens_cons, lens_nil; lia).
  unfold mk_range in Er. rewrite filter_app in Er. cbn [filter] in Er. change (lkind (o + lens V, l)) with (kind_of l) in Er.
  pose proof (has_last_pos l Hl) as Hp.
  destruct (is_trivia (kind_of l)) eqn:Et; cbn [negb] in Er; cbv iota in Er.
  - right. split; [|reflexivity]. rewrite app_nil_r in Er.
    destruct (last_opt (filter (fun e => negb (is_trivia (lkind e))) (place o V))) as [b|] eqn:Eb.
    + assert (Hb : In b (place o V)).
      { apply last_opt_some in Eb. destruct Eb as [l' Eb]. eapply proj1. apply filter_In with (f := fun e => negb (is_trivia (lkind e))).
        rewrite Eb. apply in_app_iff. right. left. reflexivity. }
      apply place_end in Hb. destruct (_ <=? _) in Er; [|discriminate]. injection Er as <-. cbn [snd]. lia.
    + rewrite last_snoc in Er. destruct (_ <=? _) in Er; [|discriminate]. injection Er as <-. unfold lstart. cbn [fst snd]. lia.
  - left. rewrite last_snoc in Er. destruct (_ <=? _) in Er; [|discriminate]. injection Er as <-. unfold lend. cbn [fst snd]. lia.
Qed.
Lemma items_end o V l : exists r, items_range (place o (V ++ [l])) = Done (Some r) /\ o <= fst r /\ fst r <= snd r /\ snd r = o + lens (V ++ [l]).
Proof.
  destruct (items_range_place o (V ++ [l])) as (r & E & H1 & H2); [destruct V; discriminate|]. exists r. repeat (split; [assumption|]).
  rewrite place_app in E. cbn [place] in E. fold (lens V) in E.
  assert (G : forall (a : list lelem) y q, items_range (a ++ [y]) = Done (Some q) -> snd q = lend y).
  { intros a y q. unfold items_range. pose proof (last_opt_app a y) as El.
    destruct (a ++ [y]) as [|f l']; [discriminate|]. rewrite El. unfold mk_range.
    destruct (_ <=? _); [|discriminate]. intros Eq; injection Eq as <-; reflexivity. }
  apply G in E. rewrite E. unfold lend. cbn [fst snd]. rewrite lens_app, lens_cons, lens_nil. lia.
Qed.

Lemma reads_fields px io seg m name eq value :
  reads px io seg m -> split_at_eq seg name eq value -> trees name = [] ->
  m_eq m = match eq with Some q => if is_tok (snd q) then Some q else None | None => None end
  /\ value_reads px value (m_value m) /\ m_nested m = None /\ name_reads name (m_name m).
Proof.
  intros (n' & e' & v' & Hs & He & Hv & Hn) Hs' Ht. destruct (split_at_eq_unique _ _ _ _ _ _ _ Hs Hs') as (-> & -> & ->).
  repeat (split; [assumption|]). destruct Hn as [(t & n & E & _)|[(t & n & E & _)|(E1 & E2 & _)]]; [congruence|congruence|auto].
Qed.
Lemma tok_neq_eq k : (k = IDENT \/ k = IMPL_KW) -> k <> EQ /\ is_trivia k = false.
Proof. intros [->| ->]; split; discriminate || reflexivity. Qed.

Lemma plain_read px io o t1 c t2 m :
  argument c -> plain_argument c -> blank t1 -> blank t2 -> reads px io (place o (t1 ++ c ++ t2)) m ->
  exists k n rest X last Y E,
    c = Tok k n :: rest /\ n <> []
    /\ (rest = [] \/ exists t e v, rest = t ++ Tok EQ e :: v /\ blank t)
    /\ m_name m = MOk (o + lens t1, Tok k n)
    /\ last_opt (meta_elements m) = Some (o + lens X, last)
    /\ t1 ++ c ++ t2 = X ++ last :: Y /\ blank Y /\ has_last_leaf last
    /\ meta_range m = Done (o + lens t1, E) /\ lens t1 <= lens X /\ o + lens t1 <= E
    /\ (E = o + lens (X ++ [last])
        \/ (E < o + lens (X ++ [last]) /\ Y = [] /\ is_trivia (kind_of last) = true /\ exists e, In (Tok EQ e) c)).
Proof.
  intros Hc (k & n & rest & -> & Hk & Hrest) H1 H2 Hr.
  destruct (trivia_place_sig o t1 (blank_trivia _ H1)) as (S1 & T1 & _ & N1).
  assert (Hn : n <> []).
  { destruct Hc as (Hb & _). inversion Hb as [|x l [Hx _] _]; subst. inversion Hx; subst; assumption. }
  destruct (tok_neq_eq k Hk) as [HkE HkT].
  assert (Hnt : forall p, name_token (p, Tok k n)) by (intros p; exists n; cbn [snd]; destruct Hk as [->| ->]; auto).
  assert (Hpl : 0 < bytes n) by (apply bytes_pos, Hn).
  destruct Hrest as [->|(t & e & v & -> & Ht)].
  - (* name *)
    destruct (trivia_place_sig (o + lens t1 + len_of (Tok k n)) t2 (blank_trivia _ H2)) as (S2 & T2 & _ & N2).
    assert (Ep : place o (t1 ++ [Tok k n] ++ t2) = place o t1 ++ (o + lens t1, Tok k n) :: place (o + lens t1 + len_of (Tok k n)) t2).
    { rewrite place_app. reflexivity. }
    rewrite Ep in Hr.
    destruct (reads_fields _ _ _ _ (place o t1 ++ (o + lens t1, Tok k n) :: place (o + lens t1 + len_of (Tok k n)) t2) None [] Hr) as (Fe & Fv & Fn & Fm).
    { split; [auto|]. intros x Hx. apply in_app_iff in Hx. destruct Hx as [Hx|[<-|Hx]]; [apply N1, Hx | exact HkE | apply N2, Hx]. }
    { change (?a ++ ?x :: ?b) with (a ++ [x] ++ b). rewrite !trees_app, T1, T2. reflexivity. }
    apply name_reads_ok with (n := (o + lens t1, Tok k n)) in Fm; [| |apply Hnt].
    2:{ change (place o t1 ++ ?x :: ?b) with (place o t1 ++ [x] ++ b). rewrite !significant_app, S1, S2.
        unfold significant. cbn [filter app]. change (lkind (o + lens t1, Tok k n)) with k. rewrite HkT. reflexivity. }
    destruct m as [nm eq vl nested st en]. cbn [m_name m_eq m_value m_nested] in *. subst nm eq nested.
    assert (vl = MNone) as -> by (destruct vl as [x|es|]; [destruct Fv as (_ & Hx & _); contradiction | destruct Fv as (_ & Hx & _); contradiction | reflexivity]).
    exists k, n, [], t1, (Tok k n), t2, (o + lens t1 + bytes n).
    split; [reflexivity|]. split; [exact Hn|]. split; [left; reflexivity|]. split; [reflexivity|]. split; [reflexivity|].
    split; [reflexivity|]. split; [exact H2|]. split; [exists [], (k, n); auto|].
    split.
    { cbn [meta_range m_name m_eq m_value m_nested m_start m_end obind_o upd fst snd oor]. unfold lstart, lend, len_of, mk_range. cbn [fst snd text_of].
      destruct (Nat.leb_spec (o + lens t1) (o + lens t1 + bytes n)); [reflexivity|lia]. }
    split; [lia|]. split; [lia|]. left. rewrite lens_app, lens_cons, lens_nil. unfold len_of. cbn [text_of]. lia.
  - (* name = value *)
    set (nk := Tok k n) in *. set (q := Tok EQ e) in *.
    set (o2 := o + lens t1 + len_of nk). set (o3 := o2 + lens t). set (o4 := o3 + len_of q).
    destruct (trivia_place_sig o2 t (blank_trivia _ Ht)) as (S2 & T2 & _ & N2).
    assert (Ep : place o (t1 ++ (nk :: t ++ q :: v) ++ t2) = (place o t1 ++ (o + lens t1, nk) :: place o2 t) ++ (o3, q) :: place o4 (v ++ t2)).
    { cbn [app]. rewrite <- !app_assoc. cbn [app]. rewrite place_app. cbn [place]. rewrite place_app. cbn [place].
      fold (lens t1) (lens t). fold o2. fold o3. fold o4. reflexivity. }
    rewrite Ep in Hr.
    destruct (reads_fields _ _ _ _ (place o t1 ++ (o + lens t1, nk) :: place o2 t) (Some (o3, q)) (place o4 (v ++ t2)) Hr) as (Fe & Fv & Fn & Fm).
    { split; [auto|]. intros x Hx. apply in_app_iff in Hx. destruct Hx as [Hx|[<-|Hx]]; [apply N1, Hx | exact HkE | apply N2, Hx]. }
    { change (?a ++ ?x :: ?b) with (a ++ [x] ++ b). rewrite !trees_app, T1, T2. reflexivity. }
    apply name_reads_ok with (n := (o + lens t1, nk)) in Fm; [| |apply Hnt].
    2:{ change (place o t1 ++ ?x :: ?b) with (place o t1 ++ [x] ++ b). rewrite !significant_app, S1, S2.
        unfold significant. cbn [filter app]. change (lkind (o + lens t1, nk)) with k. rewrite HkT. reflexivity. }
    cbn [snd is_tok q] in Fe. unfold q in Fe at 1. cbn [is_tok] in Fe. fold q in Fe.
    destruct m as [nm eq vl nested st en]. cbn [m_name m_eq m_value m_nested] in *. subst nm eq nested.
    assert (Hqp : 0 <= len_of q) by lia.
    assert (Eel : meta_elements (Meta (MOk (o + lens t1, nk)) (Some (o3, q)) vl None st en)
                  = (o + lens t1, nk) :: (o3, q) :: place o4 (v ++ t2)).
    { unfold meta_elements. cbn [meta_elements_raw m_name m_eq m_value m_nested app].
      replace (match vl with MOk v0 => mv_elements v0 | MErr l => l | MNone => [] end) with (place o4 (v ++ t2)).
      2:{ destruct vl as [x|es|]; cbn [value_reads] in Fv; [destruct Fv as (E & _); congruence | destruct Fv as (E & _); congruence | congruence]. }
      rewrite app_nil_r. apply sort_sorted. constructor; [constructor; [apply place_sorted|]|].
      - apply Forall_forall. intros y Hy. apply place_ge in Hy. unfold lstart in *. cbn [fst]. unfold o4 in Hy. lia.
      - constructor; [unfold lstart; cbn [fst]; unfold o3, o2; lia|]. apply Forall_forall. intros y Hy. apply place_ge in Hy.
        unfold lstart in *. cbn [fst]. unfold o4, o3, o2 in Hy. lia. }
    assert (HqIn : exists e', In (Tok EQ e') (nk :: t ++ q :: v)) by (exists e; right; apply in_app_iff; right; left; reflexivity).
    assert (Hq : has_last_leaf q).
    { apply balanced_last. destruct Hc as (Hb & _). rewrite Forall_forall in Hb. apply Hb. right. apply in_app_iff. right. left. reflexivity. }
    destruct (v ++ t2) as [|w0 ws0] eqn:EV.
    + (* no value *)
      apply app_eq_nil in EV as [-> ->].
      assert (vl = MNone) as -> by (destruct vl as [x|es|]; [destruct Fv as (_ & Hx & _); contradiction | destruct Fv as (_ & Hx & _); contradiction | reflexivity]).
      exists k, n, (t ++ [q]), (t1 ++ nk :: t), q, [], o4.
      split; [reflexivity|]. split; [exact Hn|]. split; [right; exists t, e, []; auto|]. split; [reflexivity|].
      split; [refine (eq_trans (f_equal _ Eel) _); cbn [place last_opt]; do 2 f_equal; unfold o3, o2; rewrite lens_app, lens_cons; lia|].
      split; [cbn [app]; rewrite <- !app_assoc; reflexivity|]. split; [constructor|]. split; [exact Hq|].
      split.
      { cbn [meta_range m_name m_eq m_value m_nested m_start m_end obind_o upd fst snd oor]. unfold lstart, lend, mk_range. cbn [fst snd].
        fold o4. destruct (Nat.leb_spec (o + lens t1) o4) as [Hle|Hle]; [reflexivity|unfold o4, o3, o2 in Hle; lia]. }
      split; [rewrite lens_app; lia|]. split; [unfold o4, o3, o2; lia|]. left. rewrite !lens_app, !lens_cons, lens_nil. unfold o4, o3, o2. lia.
    + (* a value *)
      assert (HV : exists V l, v ++ t2 = V ++ [l]).
      { destruct (@exists_last _ (v ++ t2)) as (V & l & E); [rewrite EV; discriminate|]. eauto. }
      destruct HV as (V & l & EVl). rewrite <- EV, EVl in *. clear EV w0 ws0.
      assert (Hl : has_last_leaf l).
      { assert (Hin : In l (v ++ t2)) by (rewrite EVl; apply in_app_iff; right; left; reflexivity).
        apply in_app_iff in Hin as [Hin|Hin]; [|apply (blank_last t2 l H2 Hin)]. apply balanced_last.
        destruct Hc as (Hb & _). rewrite Forall_forall in Hb. apply Hb. right. apply in_app_iff. right. right. exact Hin. }
      assert (Hend : lens (t1 ++ nk :: t ++ q :: V) = lens t1 + len_of nk + lens t + len_of q + lens V).
      { rewrite lens_app, lens_cons, lens_app, lens_cons. lia. }
      assert (Hval : exists r, match vl with MOk v => match value_range v with Done r => Done (Some r) | Panic => Panic end
                        | MErr items => items_range items | MNone => Done None end = Done (Some r)
                 /\ o4 <= fst r /\ fst r <= snd r
                 /\ (snd r = o4 + lens (V ++ [l]) \/ (snd r < o4 + lens (V ++ [l]) /\ is_trivia (kind_of l) = true))).
      { destruct vl as [x|es|].
        - destruct (value_end _ _ _ _ _ Hl Fv) as (r & -> & A & B & C). exists r. auto.
        - destruct Fv as (-> & _ & _). destruct (items_end o4 V l) as (r & -> & A & B & C). exists r. auto.
        - cbn in Fv. exfalso. apply (f_equal (@length _)) in Fv. rewrite place_app, app_length in Fv. cbn in Fv. lia. }
      destruct Hval as (r & Er & R1 & R2 & R3). destruct r as [r1 r2]. cbn [fst snd] in *.
      exists k, n, (t ++ q :: v), (t1 ++ nk :: t ++ q :: V), l, [], r2.
      split; [reflexivity|]. split; [exact Hn|]. split; [right; exists t, e, v; auto|]. split; [reflexivity|].
      split.
      { refine (eq_trans (f_equal _ Eel) _). rewrite place_app. cbn [place]. change (?a :: ?b :: ?c ++ [?d]) with ((a :: b :: c) ++ [d]). rewrite last_snoc.
        do 2 f_equal. rewrite Hend. fold (lens V). unfold o4, o3, o2. lia. }
      split; [cbn [app]; rewrite <- ?app_assoc; cbn [app]; rewrite <- ?app_assoc; cbn [app]; rewrite EVl; reflexivity|].
      split; [constructor|]. split; [exact Hl|].
      split.
      { cbn [meta_range m_name m_eq m_value m_nested m_start m_end obind_o]. rewrite Er. cbn [obind_o upd fst snd oor]. unfold lstart, lend, mk_range. cbn [fst snd].
        destruct (Nat.leb_spec (o + lens t1) r2) as [Hle|Hle]; [reflexivity|unfold o4, o3, o2 in *; lia]. }
      split; [rewrite lens_app; lia|]. split; [unfold o4, o3, o2 in *; lia|].
      assert (Hfin : o + lens ((t1 ++ nk :: t ++ q :: V) ++ [l]) = o4 + lens (V ++ [l])).
      { rewrite lens_app, Hend, lens_app. unfold o4, o3, o2. lia. }
      rewrite Hfin. destruct R3 as [R3|[R3 R4]]; [left; exact R3 | right; auto].
Qed.

(** ** Removal *)
Lemma blank_balanced_plain e : (exists k t, e = Tok k t /\ is_trivia k = true) -> plain_element e.
Proof.
  intros (k & t & -> & Hk). split; [intros t' E; injection E as -> _; discriminate | intros (cs & l0 & t' & E & _); discriminate].
Qed.
Lemma listed_plain cores b body : listed cores b body -> Forall plain_element body.
Proof.
  assert (Hb : forall t, blank t -> Forall plain_element t).
  { intros t H. eapply Forall_impl; [|exact H]. intros e (k & s & -> & Hk & _). apply blank_balanced_plain. eauto. }
  assert (Ha : forall c, argument c -> Forall plain_element c).
  { intros c (H & _). eapply Forall_impl; [|exact H]. intros e [He _]. apply balanced_plain, He. }
  assert (Hcm : plain_element comma) by (split; [discriminate | intros (cs & l0 & t' & E & _); discriminate]).
  induction 1; rewrite ?Forall_app; repeat split; auto.
Qed.
Lemma filter_nonempty_ps ps : Forall (fun p : nat * list elem => snd p <> []) ps ->
  filter nonempty (map placed ps) = map placed ps.
Proof.
  induction 1 as [|[p s] ps Hp _ IH]; [reflexivity|]. cbn [map filter]. unfold placed at 1 3. cbn [fst snd].
  destruct s as [|e s]; [contradiction|]. cbn [place nonempty]. f_equal. exact IH.
Qed.
Lemma Forall2_nth {A B} (R : A -> B -> Prop) l l' : Forall2 R l l' -> forall i x, nth_error l i = Some x ->
  exists y, nth_error l' i = Some y /\ R x y.
Proof.
  induction 1 as [|a b l l' Hab _ IH]; intros i x E; [destruct i; discriminate|].
  destruct i as [|i]; [injection E as <-; exists b; auto | apply IH, E].
Qed.
Lemma paren_args px cores b body o : listed cores b body -> forall ps extra,
  comma_separated (place (o + 1) body) (map placed ps ++ extra) -> Forall (fun p => snd p <> []) ps ->
  Forall2 (reads px (fun t => parse_meta_items px (snd t) (fst t))) (map placed ps ++ filter nonempty extra)
          (parse_meta_items px (paren_tree body) o).
Proof.
  intros H ps extra Hcs Hne. rewrite <- (filter_nonempty_ps ps Hne), <- filter_app.
  apply (parse_arguments px TOKEN_TREE _ body o).
  - constructor. constructor. eapply listed_plain, H.
  - exact Hcs.
Qed.
Lemma closest_In goal halt l x : closest_which goal halt l = Some x -> In x l.
Proof.
  induction l as [|y l IH]; [discriminate|]. cbn [closest_which]. destruct (goal y); [intros E; injection E as ->; left; reflexivity|].
  destruct (halt y); [discriminate|]. intros E. right. apply IH, E.
Qed.
Lemma delim_range_end toks t : exists s,
  token_and_delimiter_range toks t COMMA
  = Done (s, lf_end (match closest_delimiter COMMA (leaves_after toks t) with Some n => n | None => t end))
  /\ (closest_delimiter COMMA (leaves_after toks t) = None ->
      s = lf_start (match closest_delimiter COMMA (leaves_before toks t) with Some p => p | None => t end)).
Proof.
  unfold token_and_delimiter_range. destruct (closest_delimiter COMMA (leaves_after toks t)) as [nx|] eqn:E.
  - exists (lf_start t). split; [|discriminate]. apply closest_In in E. unfold leaves_after in E. apply filter_In in E as [_ E]. apply Nat.leb_le in E.
    unfold mk_range. pose proof (lf_le t). pose proof (lf_le nx).
    rewrite (proj2 (Nat.leb_le (lf_start t) (lf_end nx))); [reflexivity|lia].
  - destruct (closest_delimiter COMMA (leaves_before toks t)) as [p|] eqn:Ep.
    + exists (lf_start p). split; [|reflexivity]. apply closest_In in Ep. unfold leaves_before in Ep. apply in_rev in Ep. apply filter_In in Ep as [_ Ep].
      apply Nat.leb_le in Ep. unfold mk_range. pose proof (lf_le t). pose proof (lf_le p).
      rewrite (proj2 (Nat.leb_le (lf_start p) (lf_end t))); [reflexivity|lia].
    + exists (lf_start t). split; [|reflexivity]. unfold mk_range. rewrite (proj2 (Nat.leb_le _ _) (lf_le t)). reflexivity.
Qed.

Definition toks_of pre body post : list leaf := place_leaves 0 (file_tokens pre body post).
Lemma leaves_paren body : leaves (paren_tree body) = (L_PAREN, lit "(") :: leaves_of body ++ [(R_PAREN, lit ")")].
Proof. unfold paren_tree. rewrite leaves_node. unfold leaves_of. cbn [flat_map leaves app]. rewrite flat_map_app. reflexivity. Qed.
(** The tokens around a token of the body. *)
Lemma around pre post body P pl kt sl S : snd kt <> [] ->
  leaves_of body = leaves_of P ++ pl ++ kt :: sl ++ leaves_of S ->
  let at_ := (bytes (text pre) + 1 + lens P + bytes (text pl), kt) in
  leaves_after (toks_of pre body post) at_
    = place_leaves (bytes (text pre) + 1 + lens P + bytes (text pl) + bytes (snd kt)) (sl ++ leaves_of S ++ (R_PAREN, lit ")") :: post)
  /\ leaves_before (toks_of pre body post) at_ = rev (place_leaves 0 (pre ++ (L_PAREN, lit "(") :: leaves_of P ++ pl)).
Proof.
  intros Hk E at_. unfold toks_of, file_tokens. rewrite leaves_paren, E.
  assert (Et : pre ++ ((L_PAREN, lit "(") :: (leaves_of P ++ pl ++ kt :: sl ++ leaves_of S) ++ [(R_PAREN, lit ")")]) ++ post
               = (pre ++ (L_PAREN, lit "(") :: leaves_of P ++ pl) ++ kt :: (sl ++ leaves_of S ++ (R_PAREN, lit ")") :: post)).
  { cbn [app]. do 4 (rewrite <- ?app_assoc; cbn [app]). reflexivity. }
  rewrite Et.
  assert (Eo : at_ = (0 + bytes (text (pre ++ (L_PAREN, lit "(") :: leaves_of P ++ pl)), kt)).
  { unfold at_. f_equal. rewrite text_app. change (text ((L_PAREN, lit "(") :: leaves_of P ++ pl)) with (lit "(" ++ text (leaves_of P ++ pl)).
    rewrite text_app, !bytes_app, text_leaves_of. change (bytes (lit "(")) with 1. fold (lens P). lia. }
  rewrite Eo. split.
  - rewrite after_place by exact Hk. f_equal. apply (f_equal fst) in Eo. cbn [fst] in Eo. unfold at_ in Eo. cbn [fst] in Eo. rewrite <- Eo. reflexivity.
  - apply before_place, Hk.
Qed.

(** What is deleted, and what stays. *)
Definition removal_shape (cores : list (list elem)) (b : bool) (body : list elem) (o i : nat) (c B1 t1 t2 B2 : list elem) (r : trange) : Prop :=
  (exists B3, B2 = comma :: B3
     /\ (forall x, blank x -> listed (without i cores) b (B1 ++ x ++ B3))
     /\ r = (o + lens (B1 ++ t1), o + lens (B1 ++ t1 ++ c ++ t2) + 1))
  \/ (B2 = [] /\ S i = length cores /\ b = false /\ exists B0, B1 = B0 ++ [comma]
        /\ (forall x, blank x -> listed (without i cores) false (B0 ++ x))
        /\ (forall x, blank x -> listed (without i cores) true (B0 ++ comma :: x))
        /\ ((exists Y1 Y2, c ++ t2 = Y1 ++ Y2 /\ blank Y2 /\ r = (o + lens B0, o + lens (B1 ++ t1 ++ Y1)))
            \/ (r = (o + lens (B1 ++ t1), o + lens body)
                /\ (exists e, In (Tok EQ e) c) /\ (exists b0 l, body = b0 ++ [l] /\ is_trivia (kind_of l) = true)))).
Lemma removal_exact px pre body post cores b attr :
  listed cores b body -> 2 <= length cores ->
  at_args attr = parse_ink_args px (Some (tree_at pre body)) ->
  let o := bytes (text pre) + 1 in
  exists ps : list (nat * list elem), length ps = length cores /\ Forall (fun p => snd p <> []) ps
  /\ (forall i j p q, i < j -> nth_error ps i = Some p -> nth_error ps j = Some q -> fst p + lens (snd p) + 1 <= fst q)
  /\ forall i c, nth_error cores i = Some c -> plain_argument c ->
  exists a B1 t1 t2 B2 r,
    nth_error (at_args attr) i = Some a /\ body = B1 ++ t1 ++ c ++ t2 ++ B2 /\ blank t1 /\ blank t2
    /\ arg_removal_range (toks_of pre body post) a (Some attr) = Done r
    /\ nth_error ps i = Some (o + lens B1, t1 ++ c ++ t2)
    /\ in_front i B1 /\ (exists E, meta_range a = Done (o + lens (B1 ++ t1), E))
    /\ removal_shape cores b body o i c B1 t1 t2 B2 r.
Proof.
  intros H Hlen Hargs o.
  destruct (listed_structure cores b body H o) as (ps & extra & Hcs & Hps & Hne & _ & _ & _ & _ & Hmono & Hnth).
  exists ps. split; [exact Hps|]. split; [exact Hne|]. split; [exact Hmono|]. intros i c Hi Hp.
  pose proof (paren_args px cores b body (bytes (text pre)) H ps extra Hcs Hne) as HF.
  destruct (Hnth i c Hi) as (B1 & t1 & t2 & B2 & Eb & Hc & Ht1 & Ht2 & HB1 & Ep & Hcase).
  assert (Ei : nth_error (map placed ps ++ filter nonempty extra) i = Some (placed (o + lens B1, t1 ++ c ++ t2))).
  { rewrite nth_error_app1; [apply map_nth_error, Ep|]. rewrite map_length. apply nth_error_Some. congruence. }
  destruct (Forall2_nth _ _ _ HF i _ Ei) as (a & Ea & Hr). unfold placed in Hr. cbn [fst snd] in Hr.
  assert (HlF := Forall2_len _ _ _ _ _ HF). rewrite app_length, map_length in HlF.
  unfold parse_ink_args, tree_at in Hargs. cbn [fst snd] in Hargs. rewrite <- Hargs in Ea, HlF.
  destruct (plain_read px _ _ _ _ _ _ Hc Hp Ht1 Ht2 Hr) as (k & n & rest & X & last & Y & E & Ec & Hn & Hrest & Hname & Hlast & Eseg & HY & (pl & kt & Elv & Hkt) & Hrange & HX & HE & Hend).
  exists a, B1, t1, t2, B2.
  (* the last token *)
  set (lf := (o + lens (B1 ++ X) + bytes (text pl), kt) : leaf).
  assert (Elf : meta_last_leaf a = Some lf).
  { unfold meta_last_leaf. rewrite Hlast. cbn [obind]. unfold elem_last_leaf. cbn [fst snd]. rewrite Elv, place_leaves_app. cbn [place_leaves].
    rewrite last_snoc. unfold lf. do 2 f_equal. rewrite lens_app. lia. }
  assert (Eend : lf_end lf = o + lens (B1 ++ X ++ [last])).
  { unfold lf, lf_end. cbn [fst snd]. rewrite !lens_app, lens_cons, lens_nil. unfold len_of. rewrite <- text_leaves, Elv, text_app, bytes_app.
    change (text [kt]) with (snd kt ++ []). rewrite app_nil_r. lia. }
  assert (Ebody : leaves_of body = leaves_of (B1 ++ X) ++ pl ++ kt :: leaves_of Y ++ leaves_of B2).
  { rewrite Eb. replace (B1 ++ t1 ++ c ++ t2 ++ B2) with ((B1 ++ X) ++ last :: Y ++ B2).
    - rewrite leaves_of_app. change (leaves_of (last :: Y ++ B2)) with (leaves last ++ leaves_of (Y ++ B2)). rewrite Elv, (leaves_of_app Y B2), <- !app_assoc. reflexivity.
    - transitivity (B1 ++ (t1 ++ c ++ t2) ++ B2); [rewrite Eseg; do 2 (rewrite <- ?app_assoc; cbn [app]); reflexivity | do 2 (rewrite <- ?app_assoc); reflexivity]. }
  assert (Haft : leaves_after (toks_of pre body post) lf
                 = place_leaves (bytes (text pre) + 1 + lens (B1 ++ X) + bytes (text pl) + bytes (snd kt)) (leaves_of Y ++ leaves_of B2 ++ (R_PAREN, lit ")") :: post))
    by exact (proj1 (around pre post body (B1 ++ X) pl kt (leaves_of Y) B2 Hkt Ebody)).
  destruct (delim_range_end (toks_of pre body post) lf) as (s & Ed & _). rewrite Haft, skip_blank in Ed by exact HY.
  assert (Hlf : bytes (text pre) + 1 + lens (B1 ++ X) + bytes (text pl) + bytes (snd kt) = lf_end lf) by reflexivity.
  rewrite Hlf in Ed.
  assert (Elens : lens (B1 ++ t1 ++ c ++ t2) = lens (B1 ++ X ++ [last]) + lens Y).
  { rewrite Eseg, !lens_app, !lens_cons, lens_nil. lia. }
  assert (Hle : E <= lf_end lf).
  { rewrite Eend, (lens_app B1 (X ++ [last])). destruct Hend as [Hd|[Hd _]]; lia. }
  assert (Hwhole : (length (at_args attr) =? 1) = false) by (apply Nat.eqb_neq; assert (Hl1 : length (at_args attr) = length ps + length (filter nonempty extra)) by (symmetry; exact HlF); rewrite Hl1; lia).
  assert (Ename : o + lens B1 + lens t1 = o + lens (B1 ++ t1)) by (rewrite lens_app; lia).
  destruct Hcase as [(B3 & -> & _ & Hl)|(-> & HSi & -> & Hcase)].
  - (* a comma follows *)
    exists (o + lens (B1 ++ t1), o + lens (B1 ++ t1 ++ c ++ t2) + 1).
    split; [exact Ea|]. split; [exact Eb|]. split; [exact Ht1|]. split; [exact Ht2|]. split; [|split; [exact Ep|split; [exact HB1|split; [exists E; rewrite <- Ename; exact Hrange|]]]].
    + assert (Ed1 : token_and_delimiter_range (toks_of pre body post) lf COMMA = Done (s, lf_end lf + lens Y + 1)) by (rewrite Ed; reflexivity).
      unfold arg_removal_range. rewrite Hwhole, Hrange. cbn [obind_o]. rewrite Elf, Ed1. cbn [obind_o snd].
      destruct (Nat.eqb_spec (lf_end lf + lens Y + 1) E) as [C|C]; [lia|]. cbn [obind_o fst]. unfold mk_range. rewrite Ename.
      rewrite (proj2 (Nat.leb_le (o + lens (B1 ++ t1)) (lf_end lf + lens Y + 1))); [|lia]. rewrite Elens, Eend. do 2 f_equal. lia.
    + left. exists B3. split; [reflexivity|]. split; [apply Hl, Hlen | reflexivity].
  - destruct Hcase as [(-> & _)|(Hi1 & B0 & -> & Hf & Htr)]; [lia|].
    unfold leaves_of, closest_delimiter in Ed. cbn [flat_map app place_leaves closest_which lf_kind fst snd skind_eqb skind_beq is_trivia negb] in Ed.
    destruct (Nat.eq_dec E (lf_end lf)) as [HEe|HEe].
    + (* back to the previous comma *)
      set (nm := (o + lens ((B0 ++ [comma]) ++ t1), (k, n)) : leaf).
      assert (Enm : meta_first_leaf a = Some nm).
      { unfold meta_first_leaf. rewrite Hname. unfold elem_first_leaf. cbn [fst snd leaves place_leaves hd_error oor]. unfold nm. do 2 f_equal. exact Ename. }
      assert (Eb2 : leaves_of body = leaves_of ((B0 ++ [comma]) ++ t1) ++ [] ++ (k, n) :: [] ++ leaves_of (rest ++ t2)).
      { rewrite Eb, Ec, app_nil_r. replace ((B0 ++ [comma]) ++ t1 ++ (Tok k n :: rest) ++ t2) with (((B0 ++ [comma]) ++ t1) ++ Tok k n :: rest ++ t2).
        - rewrite leaves_of_app. unfold leaves_of at 2. cbn [flat_map leaves app]. reflexivity.
        - rewrite <- !app_assoc. reflexivity. }
      destruct (around pre post body ((B0 ++ [comma]) ++ t1) [] (k, n) [] (rest ++ t2) Hn Eb2) as [Hafn Hbfn].
      change (bytes (text [])) with 0 in Hafn, Hbfn. cbv zeta in Hafn, Hbfn. rewrite Nat.add_0_r in Hafn, Hbfn.
      change (bytes (text pre) + 1 + lens ((B0 ++ [comma]) ++ t1), (k, n)) with nm in Hafn, Hbfn.
      destruct (delim_range_end (toks_of pre body post) nm) as (s' & Ed' & Es').
      assert (Hnone : closest_delimiter COMMA (leaves_after (toks_of pre body post) nm) = None).
      { rewrite Hafn. cbn [app]. destruct Hrest as [->|(t & e & v & -> & Ht)].
        - cbn [app]. rewrite skip_blank by exact Ht2. reflexivity.
        - replace ((t ++ Tok EQ e :: v) ++ t2) with (t ++ Tok EQ e :: v ++ t2) by (rewrite <- app_assoc; reflexivity).
          rewrite (leaves_of_app t), <- (app_assoc (leaves_of t)). rewrite (skip_blank t) by exact Ht. reflexivity. }
      assert (Hprev : closest_delimiter COMMA (leaves_before (toks_of pre body post) nm)
                      = Some (0 + bytes (text (pre ++ (L_PAREN, lit "(") :: leaves_of B0)), (COMMA, lit ","))).
      { assert (El : pre ++ (L_PAREN, lit "(") :: leaves_of ((B0 ++ [comma]) ++ t1) ++ []
                     = ((pre ++ (L_PAREN, lit "(") :: leaves_of B0) ++ [(COMMA, lit ",")]) ++ leaves_of t1).
        { rewrite app_nil_r, !leaves_of_app. cbn [leaves_of flat_map leaves comma app]. do 3 (rewrite <- ?app_assoc; cbn [app]). reflexivity. }
        refine (eq_trans (f_equal _ Hbfn) _).
        refine (eq_trans (f_equal (fun x => closest_delimiter COMMA (rev (place_leaves 0 x))) El) _).
        rewrite skip_blank_back by exact Ht1. rewrite place_leaves_app, rev_app_distr. reflexivity. }
      rewrite Hnone in Ed'. specialize (Es' Hnone). rewrite Hprev in Es'. unfold lf_start in Es'. cbn [fst] in Es'.
      assert (Es'' : s' = o + lens B0).
      { rewrite Es', text_app. change (text ((L_PAREN, lit "(") :: leaves_of B0)) with (lit "(" ++ text (leaves_of B0)).
        rewrite !bytes_app, text_leaves_of. change (bytes (lit "(")) with 1. fold (lens B0). unfold o. lia. }
      assert (HY1 : exists Y1, c ++ t2 = Y1 ++ Y /\ lens (t1 ++ Y1) = lens (X ++ [last])).
      { assert (Hx : exists Z, X ++ [last] = t1 ++ Z /\ c ++ t2 = Z ++ Y).
        { clear - Eseg HX Hc Ht1 Elv Hkt. assert (Hpos : 0 < len_of last) by (apply has_last_pos; exists pl, kt; auto).
          assert (G : forall (t Xs W : list elem), t ++ W = Xs ++ last :: Y -> blank t -> lens t <= lens Xs -> exists Z, Xs ++ [last] = t ++ Z /\ W = Z ++ Y).
          { induction t as [|e t IH]; intros Xs W E Ht HX0.
            - cbn [app] in E. exists (Xs ++ [last]). split; [reflexivity|]. rewrite E, <- app_assoc. reflexivity.
            - destruct Xs as [|x Xs].
              + cbn [app] in E. injection E as -> E. rewrite lens_cons, lens_nil in HX0. lia.
              + cbn [app] in E. injection E as -> E. rewrite !lens_cons in HX0. inversion Ht; subst. destruct (IH Xs W E) as (Z & E1 & E2); [assumption|lia|].
                exists Z. cbn [app]. rewrite E1. auto. }
          apply (G t1 X (c ++ t2)); assumption. }
        destruct Hx as (Z & E1 & E2). exists Z. rewrite <- E1. auto. }
      destruct HY1 as (Y1 & EY & ElY).
      exists (o + lens B0, o + lens ((B0 ++ [comma]) ++ t1 ++ Y1)).
      split; [exact Ea|]. split; [exact Eb|]. split; [exact Ht1|]. split; [exact Ht2|]. split; [|split; [exact Ep|split; [exact HB1|split; [exists E; rewrite <- Ename; exact Hrange|]]]].
      * unfold arg_removal_range. rewrite Hwhole, Hrange. cbn [obind_o]. rewrite Elf, Ed. cbn [obind_o snd].
        rewrite HEe, Nat.eqb_refl. rewrite Enm, Ed'. cbn [obind_o fst]. rewrite Es''. unfold mk_range.
        assert (Efin : lf_end lf = o + lens ((B0 ++ [comma]) ++ t1 ++ Y1)).
        { rewrite Eend. rewrite (lens_app (B0 ++ [comma])), (lens_app (B0 ++ [comma])), ElY. reflexivity. }
        rewrite Efin. rewrite (proj2 (Nat.leb_le (o + lens B0) (o + lens ((B0 ++ [comma]) ++ t1 ++ Y1)))); [reflexivity|].
        rewrite !lens_app. lia.
      * right. split; [reflexivity|]. split; [exact HSi|]. split; [reflexivity|]. exists B0. split; [reflexivity|]. split; [exact Hf|]. split; [exact Htr|].
        left. exists Y1, Y. auto.
    + (* the value ends in white space *)
      destruct Hend as [HEnd|(HEnd & -> & Htv & He)].
      { exfalso. apply HEe. rewrite HEnd, Eend, !lens_app. lia. }
      assert (Efin : lf_end lf = o + lens body).
      { rewrite Eend, Eb, app_nil_r, Eseg. reflexivity. }
      exists (o + lens ((B0 ++ [comma]) ++ t1), o + lens body).
      split; [exact Ea|]. split; [exact Eb|]. split; [exact Ht1|]. split; [exact Ht2|]. split; [|split; [exact Ep|split; [exact HB1|split; [exists E; rewrite <- Ename; exact Hrange|]]]].
      * unfold arg_removal_range. rewrite Hwhole, Hrange. cbn [obind_o]. rewrite Elf, Ed. cbn [obind_o snd].
        destruct (Nat.eqb_spec (lf_end lf) E) as [C|C]; [congruence|]. cbn [obind_o fst]. rewrite Ename, Efin. unfold mk_range.
        rewrite (proj2 (Nat.leb_le (o + lens ((B0 ++ [comma]) ++ t1)) (o + lens body))); [reflexivity|lia].
      * right. split; [reflexivity|]. split; [exact HSi|]. split; [reflexivity|]. exists B0. split; [reflexivity|]. split; [exact Hf|]. split; [exact Htr|].
        right. split; [reflexivity|]. split; [exact He|]. exists ((B0 ++ [comma]) ++ X), last. split; [|exact Htv].
        rewrite Eb, app_nil_r, Eseg, <- !app_assoc. reflexivity.
Qed.

(** ** The text after a removal *)
Lemma file_text_eq pre body post : file_text pre body post = text pre ++ lit "(" ++ texts_of body ++ lit ")" ++ text post.
Proof.
  unfold file_text, file_tokens. rewrite leaves_paren, !text_app.
  change (text ((L_PAREN, lit "(") :: leaves_of body ++ [(R_PAREN, lit ")")])) with (lit "(" ++ text (leaves_of body ++ [(R_PAREN, lit ")")])).
  rewrite text_app, text_leaves_of. change (text [(R_PAREN, lit ")")]) with (lit ")" ++ []). rewrite app_nil_r, <- !app_assoc. reflexivity.
Qed.
Lemma splice_body pre post P M N Q (new : str) : new = texts_of N ->
  spliced (file_text pre (P ++ M ++ Q) post) (bytes (text pre) + 1 + lens P, bytes (text pre) + 1 + lens (P ++ M)) new (file_text pre (P ++ N ++ Q) post).
Proof.
  intros ->. exists (text pre ++ lit "(" ++ texts_of P), (texts_of M), (texts_of Q ++ lit ")" ++ text post).
  rewrite !file_text_eq, !texts_of_app. split; [rewrite <- !app_assoc; reflexivity|].
  cbn [fst snd]. rewrite !bytes_app, lens_app. change (bytes (lit "(")) with 1. fold (lens P) (lens M).
  split; [lia|]. split; [lia|]. rewrite <- !app_assoc. reflexivity.
Qed.

Lemma cast_args px syn attr t : attr_cast px syn = Some attr -> as_token_tree syn = Some t ->
  at_args attr = parse_ink_args px (Some t) /\ at_syntax attr = syn.
Proof.
  intros H Ht. unfold attr_cast in H. destruct (attr_can_cast syn); [|discriminate]. destruct (as_segments syn) as [|cr rest]; [discriminate|].
  rewrite Ht in H. destruct rest as [|m [|m' rest]].
  - destruct (hd_error _); injection H as <-; split; reflexivity.
  - injection H as <-; split; reflexivity.
  - injection H as <-; split; reflexivity.
Qed.

Lemma removal_shape_listed pre body post cores b i c B1 t1 t2 B2 r :
  body = B1 ++ t1 ++ c ++ t2 ++ B2 -> blank t1 ->
  removal_shape cores b body (bytes (text pre) + 1) i c B1 t1 t2 B2 r ->
  exists body' b' Bx W V,
    spliced (file_text pre body post) r [] (file_text pre body' post)
    /\ listed (without i cores) b' body'
    /\ (b' = b \/ (b' = true /\ S i = length cores /\ (exists e, In (Tok EQ e) c) /\ exists b0 l, body = b0 ++ [l] /\ is_trivia (kind_of l) = true))
    /\ body' = Bx ++ W /\ body = Bx ++ V /\ lens B1 <= lens Bx + 1 /\ bytes (text pre) + 1 + lens Bx <= fst r.
Proof.
  intros Eb Ht1 Hcase.
  destruct Hcase as [(B3 & -> & Hl & ->)|(-> & HS & -> & B0 & -> & Hf & Ht & Hcase)].
  - exists (B1 ++ t1 ++ B3), b, B1, (t1 ++ B3), (t1 ++ c ++ t2 ++ comma :: B3). split; [|split; [apply Hl, Ht1 | split; [left; reflexivity|]]].
    + rewrite Eb. replace (B1 ++ t1 ++ c ++ t2 ++ comma :: B3) with ((B1 ++ t1) ++ (c ++ t2 ++ [comma]) ++ B3) by (rewrite <- !app_assoc; reflexivity).
      replace (B1 ++ t1 ++ B3) with ((B1 ++ t1) ++ [] ++ B3) by (rewrite <- !app_assoc; reflexivity).
      replace (bytes (text pre) + 1 + lens (B1 ++ t1 ++ c ++ t2) + 1) with (bytes (text pre) + 1 + lens ((B1 ++ t1) ++ (c ++ t2 ++ [comma]))).
      * apply splice_body. reflexivity.
      * rewrite !lens_app, lens_cons, lens_nil. change (len_of comma) with 1. lia.
    + split; [reflexivity|]. split; [exact Eb|]. cbn [fst]. rewrite lens_app. lia.
  - destruct Hcase as [(Y1 & Y2 & EY & HY & ->)|(-> & He & Htr)].
    + exists (B0 ++ Y2), false, B0, Y2, ([comma] ++ t1 ++ c ++ t2 ++ []). split; [|split; [apply Hf, HY | split; [left; reflexivity|]]].
      * rewrite Eb, app_nil_r, EY.
        replace ((B0 ++ [comma]) ++ t1 ++ Y1 ++ Y2) with (B0 ++ ([comma] ++ t1 ++ Y1) ++ Y2) by (rewrite <- !app_assoc; reflexivity).
        replace (B0 ++ Y2) with (B0 ++ [] ++ Y2) by reflexivity.
        replace ((B0 ++ [comma]) ++ t1 ++ Y1) with (B0 ++ ([comma] ++ t1 ++ Y1)) by (rewrite <- !app_assoc; reflexivity).
        apply splice_body. reflexivity.
      * split; [reflexivity|]. split; [rewrite Eb, <- app_assoc; reflexivity|]. cbn [fst]. rewrite lens_app. change (lens [comma]) with 1. lia.
    + exists (B0 ++ comma :: t1), true, B0, (comma :: t1), ([comma] ++ t1 ++ c ++ t2 ++ []). split; [|split; [apply Ht, Ht1 | split; [right; auto|]]].
      * rewrite Eb. replace ((B0 ++ [comma]) ++ t1 ++ c ++ t2 ++ []) with (((B0 ++ [comma]) ++ t1) ++ (c ++ t2) ++ []) by (rewrite <- !app_assoc; reflexivity).
        replace (B0 ++ comma :: t1) with (((B0 ++ [comma]) ++ t1) ++ [] ++ []) by (rewrite !app_nil_r, <- app_assoc; reflexivity).
        rewrite (app_nil_r (c ++ t2)) at 2. apply splice_body. reflexivity.
      * split; [reflexivity|]. split; [rewrite Eb, <- app_assoc; reflexivity|]. cbn [fst]. rewrite !lens_app. change (lens [comma]) with 1. lia.
Qed.
Lemma removal_listed px pre body post cores b attr i c :
  listed cores b body -> 2 <= length cores -> nth_error cores i = Some c -> plain_argument c ->
  at_args attr = parse_ink_args px (Some (tree_at pre body)) ->
  exists a r body' b',
    nth_error (at_args attr) i = Some a /\ arg_removal_range (toks_of pre body post) a (Some attr) = Done r
    /\ spliced (file_text pre body post) r [] (file_text pre body' post)
    /\ listed (without i cores) b' body'
    /\ (b' = b \/ (b' = true /\ S i = length cores /\ (exists e, In (Tok EQ e) c) /\ exists b0 l, body = b0 ++ [l] /\ is_trivia (kind_of l) = true)).
Proof.
  intros H Hlen Hi Hp Hargs. destruct (removal_exact px pre body post cores b attr H Hlen Hargs) as (ps & _ & _ & _ & Hx).
  destruct (Hx i c Hi Hp) as (a & B1 & t1 & t2 & B2 & r & Ea & Eb & Ht1 & Ht2 & Er & _ & _ & _ & Hcase).
  destruct (removal_shape_listed pre body post _ _ _ _ _ _ _ _ _ Eb Ht1 Hcase) as (body' & b' & _ & _ & _ & H1 & H2 & H3 & _).
  exists a, r, body', b'. auto.
Qed.

(** The arguments of a list without trailing comma, one by one. *)
Lemma listed_args_length px cores body o :
  listed cores false body -> cores <> [] -> length (parse_meta_items px (paren_tree body) o) = length cores.
Proof.
  intros H Hne. destruct (listed_structure cores false body H (o + 1)) as (ps & extra & Hcs & Hps & Hn & He & _).
  assert (HF := Forall2_len _ _ _ _ _ (paren_args px cores false body o H ps extra Hcs Hn)).
  rewrite (He Hne eq_refl) in HF. rewrite app_nil_r, map_length in HF. congruence.
Qed.
Lemma listed_args_trailing px cores body o :
  listed cores true (body ++ [comma]) -> length (parse_meta_items px (paren_tree (body ++ [comma])) o) = length cores.
Proof.
  intros H. destruct (listed_structure cores true _ H (o + 1)) as (ps & extra & Hcs & Hps & Hn & _ & He & _).
  assert (HF := Forall2_len _ _ _ _ _ (paren_args px cores true _ o H ps extra Hcs Hn)).
  destruct (He eq_refl) as (q & t3 & B & Hb & -> & E).
  assert (t3 = []) as ->.
  { destruct t3 as [|x t3 _] using rev_ind; [reflexivity|]. exfalso.
    replace (B ++ comma :: t3 ++ [x]) with ((B ++ comma :: t3) ++ [x]) in E by (rewrite <- app_assoc; reflexivity).
    apply app_inj_tail in E as [_ <-]. apply blank_app in Hb as [_ Hb]. inversion Hb as [|? ? (k & t & E' & Hk & _) _]; subst. injection E' as <- <-. discriminate. }
  cbn [place filter nonempty] in HF. rewrite app_nil_r, map_length in HF. congruence.
Qed.

(** Two removals. *)
Lemma removals_apart px pre body post cores b attr i j ci cj :
  listed cores b body -> 2 <= length cores -> i < j ->
  nth_error cores i = Some ci -> plain_argument ci -> nth_error cores j = Some cj -> plain_argument cj ->
  ~ (b = false /\ j = S i /\ S j = length cores) ->
  at_args attr = parse_ink_args px (Some (tree_at pre body)) ->
  exists ai aj ri rj,
    nth_error (at_args attr) i = Some ai /\ nth_error (at_args attr) j = Some aj
    /\ arg_removal_range (toks_of pre body post) ai (Some attr) = Done ri
    /\ arg_removal_range (toks_of pre body post) aj (Some attr) = Done rj
    /\ snd ri <= fst rj.
Proof.
  intros H Hlen Hij Ei Hpi Ej Hpj Hne Hargs. destruct (removal_exact px pre body post cores b attr H Hlen Hargs) as (ps & Hl & Hnn & Hmono & Hx).
  destruct (Hx i ci Ei Hpi) as (ai & Bi & t1i & t2i & B2i & ri & Eai & _ & _ & _ & Eri & Epi & _ & _ & Hci).
  destruct (Hx j cj Ej Hpj) as (aj & Bj & t1j & t2j & B2j & rj & Eaj & _ & _ & _ & Erj & Epj & _ & _ & Hcj).
  exists ai, aj, ri, rj. repeat (split; [assumption|]).
  assert (Hjl : j < length cores) by (apply nth_error_Some; congruence).
  destruct Hci as [(B3 & -> & _ & ->)|(_ & HS & _)]; [|lia]. cbn [snd].
  pose proof (Hmono i j _ _ Hij Epi Epj) as Hm. cbn [fst snd] in Hm.
  assert (Hend : bytes (text pre) + 1 + lens (Bi ++ t1i ++ ci ++ t2i) + 1 = bytes (text pre) + 1 + lens Bi + lens (t1i ++ ci ++ t2i) + 1) by (rewrite (lens_app Bi); lia).
  destruct Hcj as [(B3' & -> & _ & ->)|(-> & HS & Hb & B0 & -> & _ & _ & [(Y1 & Y2 & _ & _ & ->)|(-> & _)])]; cbn [fst].
  - rewrite (lens_app Bj). lia.
  - destruct (nth_error ps (S i)) as [p|] eqn:Ep.
    2:{ apply nth_error_None in Ep. lia. }
    assert (Hj2 : S i < j) by (destruct (Nat.eq_dec j (S i)); [exfalso; apply Hne; auto | lia]).
    pose proof (Hmono i (S i) _ _ (Nat.lt_succ_diag_r i) Epi Ep) as M1. pose proof (Hmono (S i) j _ _ Hj2 Ep Epj) as M2. cbn [fst snd] in M1, M2.
    rewrite (lens_app B0 [comma]) in M2. change (lens [comma]) with 1 in M2. lia.
  - rewrite (lens_app (B0 ++ [comma])). lia.
Qed.

(** ** Insertion *)
Lemma listed_elems cores b body : listed cores b body -> forall e, In e body ->
  balanced e \/ e = comma \/ exists k t, e = Tok k t /\ is_trivia k = true /\ t <> [].
Proof.
  assert (Hb : forall t, blank t -> forall e, In e t -> balanced e \/ e = comma \/ exists k t, e = Tok k t /\ is_trivia k = true /\ t <> []).
  { intros t H e He. right; right. unfold blank in H. rewrite Forall_forall in H. apply H, He. }
  assert (Ha : forall c, argument c -> forall e, In e c -> balanced e \/ e = comma \/ exists k t, e = Tok k t /\ is_trivia k = true /\ t <> []).
  { intros c (H & _) e He. rewrite Forall_forall in H. left. apply H, He. }
  induction 1; intros e He; repeat (rewrite in_app_iff in He || cbn [In] in He);
    repeat match goal with H : _ \/ _ |- _ => destruct H as [H|H] end; eauto.
  all: try (right; left; symmetry; exact He). all: try (right; left; symmetry; assumption).
Qed.
Lemma find_map_none {A B} (f : A -> option B) l : (forall x, In x l -> f x = None) -> find_map f l = None.
Proof.
  induction l as [|x l IH]; intros H; [reflexivity|]. cbn [find_map]. rewrite (H x (or_introl eq_refl)). apply IH. intros y Hy. apply H. right. exact Hy.
Qed.
Lemma find_map_app {A B} (f : A -> option B) l l' : find_map f l = None -> find_map f (l ++ l') = find_map f l'.
Proof. induction l as [|x l IH]; [reflexivity|]. cbn [find_map app]. destruct (f x); [discriminate|exact IH]. Qed.

Definition lparen pre : leaf := (bytes (text pre), (L_PAREN, lit "(")).
Definition rparen pre body : leaf := (bytes (text pre) + 1 + lens body, (R_PAREN, lit ")")).
Lemma child_lparen pre body : child_token L_PAREN (tree_at pre body) = Some (lparen pre).
Proof. reflexivity. Qed.
Lemma child_rparen pre cores b body : listed cores b body -> child_token R_PAREN (tree_at pre body) = Some (rparen pre body).
Proof.
  intros H. unfold child_token, tree_at, paren_tree. cbn [snd fst place]. cbn [find_map snd skind_eqb skind_beq].
  change (len_of (Tok L_PAREN (lit "("))) with 1. rewrite place_app. rewrite find_map_app; [reflexivity|].
  apply find_map_none. intros [p e] He. apply place_In in He. cbn [snd] in He |- *.
  destruct (listed_elems _ _ _ H e He) as [Hb|[->|(k & t & -> & Hk & _)]].
  - inversion Hb as [k t H1 H2 H3 H4|]; subst; [|reflexivity]. destruct (skind_eqb k R_PAREN) eqn:E; [|reflexivity]. apply skind_eqb_eq in E. contradiction.
  - reflexivity.
  - destruct (skind_eqb k R_PAREN) eqn:E; [|reflexivity]. apply skind_eqb_eq in E. subst k. discriminate.
Qed.
Lemma after_lparen pre body post : leaves_after (toks_of pre body post) (lparen pre)
  = place_leaves (bytes (text pre) + 1) (leaves_of body ++ (R_PAREN, lit ")") :: post).
Proof.
  unfold toks_of, file_tokens. rewrite leaves_paren.
  replace (pre ++ ((L_PAREN, lit "(") :: leaves_of body ++ [(R_PAREN, lit ")")]) ++ post)
    with (pre ++ (L_PAREN, lit "(") :: (leaves_of body ++ (R_PAREN, lit ")") :: post)).
  2:{ f_equal. cbn [app]. f_equal. rewrite <- app_assoc. reflexivity. }
  refine (after_place 0 pre (L_PAREN, lit "(") _ _). discriminate.
Qed.
Lemma before_rparen pre body post : leaves_before (toks_of pre body post) (rparen pre body)
  = rev (place_leaves 0 (pre ++ (L_PAREN, lit "(") :: leaves_of body)).
Proof.
  unfold toks_of, file_tokens. rewrite leaves_paren.
  replace (pre ++ ((L_PAREN, lit "(") :: leaves_of body ++ [(R_PAREN, lit ")")]) ++ post)
    with ((pre ++ (L_PAREN, lit "(") :: leaves_of body) ++ (R_PAREN, lit ")") :: post).
  2:{ rewrite <- app_assoc. f_equal. cbn [app]. f_equal. rewrite <- app_assoc. reflexivity. }
  replace (rparen pre body) with (0 + bytes (text (pre ++ (L_PAREN, lit "(") :: leaves_of body)), (R_PAREN, lit ")")).
  - apply (before_place 0 (pre ++ (L_PAREN, lit "(") :: leaves_of body) (R_PAREN, lit ")") post). discriminate.
  - unfold rparen. f_equal. rewrite text_app. change (text ((L_PAREN, lit "(") :: leaves_of body)) with (lit "(" ++ text (leaves_of body)).
    rewrite !bytes_app, text_leaves_of. change (bytes (lit "(")) with 1. fold (lens body). lia.
Qed.
Lemma balanced_ends e : balanced e -> kind_of e <> COMMA ->
  (exists k t l, leaves e = (k, t) :: l /\ k <> COMMA /\ k <> R_PAREN)
  /\ exists l k t, leaves e = l ++ [(k, t)] /\ k <> COMMA /\ k <> L_PAREN.
Proof.
  intros H Hc. destruct H as [k t H1 H2 H3 H4|o cs c Hcs Hd].
  - cbn [leaves kind_of] in *. split; [exists k, t, [] | exists [], k, t]; auto.
  - rewrite leaves_node. change (leaves_of (o :: cs ++ [c])) with (leaves o ++ leaves_of (cs ++ [c])). rewrite leaves_of_app.
    unfold delimiters in Hd. cbn [In] in Hd.
    assert (Hoc : exists ko to kc tc, o = Tok ko to /\ c = Tok kc tc /\ (ko <> COMMA /\ ko <> R_PAREN) /\ (kc <> COMMA /\ kc <> L_PAREN)).
    { destruct Hd as [E|[E|[E|[]]]]; injection E as <- <-; do 4 eexists; (split; [reflexivity|]; split; [reflexivity|]); repeat split; discriminate. }
    destruct Hoc as (ko & to & kc & tc & -> & -> & Ho & Hkc). cbn [leaves leaves_of flat_map app]. split.
    + eexists ko, to, _. split; [reflexivity|exact Ho].
    + eexists (_ :: _), kc, tc. split; [reflexivity|exact Hkc].
Qed.
Lemma listed_single new : argument new -> listed [new] false new.
Proof.
  intros H. pose proof (listed_last new [] [] H blank_nil blank_nil) as L. cbn [app] in L. rewrite app_nil_r in L. exact L.
Qed.
Lemma listed_nil_body cores b : listed cores b [] -> cores = [] /\ b = false.
Proof.
  remember [] as body eqn:E. intros H. destruct H as [t Ht|c t1 t2 Hc H1 H2|c t1 t2 t3 Hc H1 H2 H3|c t1 t2 d cs b body Hc H1 H2 Hd]; [auto|..];
  exfalso; apply (argument_nonempty _ Hc); apply app_eq_nil in E as [_ E]; apply app_eq_nil in E as [E _]; exact E.
Qed.
Lemma listed_first cores b body : listed cores b body -> body <> [] -> exists k t l, leaves_of body = (k, t) :: l /\ k <> COMMA /\ k <> R_PAREN.
Proof.
  assert (Hb : forall e t (l : list elem), blank (e :: t) -> exists k s l', leaves_of ((e :: t) ++ l) = (k, s) :: l' /\ k <> COMMA /\ k <> R_PAREN).
  { intros e t l H. inversion H as [|? ? (k & s & -> & Hk & _) _]; subst. eexists k, s, _. split; [reflexivity|]. split; intros ->; discriminate. }
  assert (Ha : forall c (l : list elem), argument c -> exists k s l', leaves_of (c ++ l) = (k, s) :: l' /\ k <> COMMA /\ k <> R_PAREN).
  { intros c l (Hf & (f & r & -> & _) & _). inversion Hf as [|? ? [Hbal Hk] _]; subst. destruct (balanced_ends f Hbal Hk) as [(k & t & l' & E & Hn) _].
    unfold leaves_of. cbn [flat_map app]. rewrite E. eexists k, t, _. split; [reflexivity|exact Hn]. }
  assert (Hs : forall t c (l : list elem), blank t -> argument c -> exists k s l', leaves_of (t ++ c ++ l) = (k, s) :: l' /\ k <> COMMA /\ k <> R_PAREN).
  { intros [|e t] c l Ht Hc; [exact (Ha c l Hc) | exact (Hb e t (c ++ l) Ht)]. }
  intros H Hne. destruct H; [|apply Hs; assumption..].
  destruct t as [|e t]; [contradiction|]. rewrite <- (app_nil_r (e :: t)). apply Hb. assumption.
Qed.
Lemma listed_last_leaf cores body : listed cores false body -> body <> [] ->
  exists l k t, leaves_of body = l ++ [(k, t)] /\ k <> COMMA /\ k <> L_PAREN.
Proof.
  assert (Hb : forall t (l : list elem), blank t -> t <> [] -> exists l' k s, leaves_of (l ++ t) = l' ++ [(k, s)] /\ k <> COMMA /\ k <> L_PAREN).
  { intros t l H Hn. destruct t as [|e t _] using rev_ind; [contradiction|]. apply blank_app in H as [_ H].
    inversion H as [|? ? (k & s & -> & Hk & _) _]; subst. rewrite app_assoc, leaves_of_app. exists (leaves_of (l ++ t)), k, s.
    split; [reflexivity|]. split; intros ->; discriminate. }
  assert (Hs : forall c t (l : list elem), argument c -> blank t -> exists l' k s, leaves_of (l ++ c ++ t) = l' ++ [(k, s)] /\ k <> COMMA /\ k <> L_PAREN).
  { intros c t l (Hf & _ & (r & e & -> & _)) Ht. destruct t as [|x t].
    - rewrite app_nil_r. rewrite app_assoc, leaves_of_app. apply Forall_app in Hf as [_ Hf]. inversion Hf as [|? ? [Hbal Hk] _]; subst.
      destruct (balanced_ends e Hbal Hk) as [_ (l' & k & s & E & Hn)]. unfold leaves_of at 2. cbn [flat_map]. rewrite app_nil_r, E, app_assoc.
      eexists _, k, s. split; [reflexivity|exact Hn].
    - rewrite app_assoc. apply Hb; [exact Ht|discriminate]. }
  remember false as b eqn:Eb. intros H. induction H as [t Ht|c t1 t2 Hc H1 H2|c t1 t2 t3 Hc H1 H2 H3|c t1 t2 d cs b body Hc H1 H2 Hd IH]; intros Hne.
  - apply (Hb t [] Ht Hne).
  - apply Hs; assumption.
  - discriminate.
  - assert (Hbody : body <> []) by (intros ->; apply listed_nil_body in Hd as [E _]; discriminate).
    destruct (IH Eb Hbody) as (l & k & t & E & Hn). eexists (leaves_of (t1 ++ c ++ t2 ++ [comma]) ++ l), k, t. split; [|exact Hn].
    rewrite <- app_assoc, <- E, <- leaves_of_app, <- !app_assoc. reflexivity.
Qed.

Definition space : elem := Tok WHITESPACE (lit " ").
Lemma blank_space : blank [space].
Proof. constructor; [|constructor]. exists WHITESPACE, (lit " "). repeat split. discriminate. Qed.
Lemma hd_place o l : hd_error (place_leaves o l) = match l with [] => None | t :: _ => Some (o, t) end.
Proof. destruct l; reflexivity. Qed.

Lemma insert_first pre body post rb cores b new :
  listed cores b body -> argument new ->
  exists p body' b', arg_insert_place (toks_of pre body post) (Some rb) (Some (tree_at pre body)) true = Some p
    /\ applied (file_text pre body post) (insert_edit p (texts_of new)) (file_text pre body' post)
    /\ listed (new :: cores) b' body' /\ (b' = b \/ cores = []).
Proof.
  intros H Hnew. unfold arg_insert_place. rewrite child_lparen, (child_rparen pre _ _ _ H). cbn [obind]. rewrite after_lparen, hd_place.
  assert (El : lf_end (lparen pre) = bytes (text pre) + 1 + lens []) by (rewrite lens_nil, Nat.add_0_r; reflexivity).
  assert (G : forall (N : list elem) new', new' = texts_of N ->
    applied (file_text pre body post) (TextEdit new' (lf_end (lparen pre), lf_end (lparen pre)) None) (file_text pre (N ++ body) post)).
  { intros N new' E. unfold applied. cbn [te_range te_text]. rewrite El. exact (splice_body pre post [] [] N body new' E). }
  destruct body as [|e body].
  - exists (lf_end (lparen pre), (None, None)), new, false. split; [reflexivity|]. split.
    + rewrite <- (app_nil_r new) at 2. apply G. cbn [insert_edit app]. rewrite app_nil_r. reflexivity.
    + apply listed_nil_body in H as [-> ->].
      split; [|auto]. apply listed_single, Hnew.
  - destruct (listed_first _ _ _ H) as (k & t & l & E & Hk1 & Hk2); [discriminate|]. rewrite E. cbn [app]. unfold sep_unless at 1, is_kind. cbn [existsb].
    unfold lf_kind. cbn [fst snd].
    assert (Hk : skind_eqb k COMMA || (skind_eqb k R_PAREN || false) = false).
    { apply orb_false_iff. split; [|apply orb_false_iff; split; [|reflexivity]]; apply not_true_iff_false; intros C; apply skind_eqb_eq in C; contradiction. }
    rewrite Hk. cbn [oor]. eexists _, (new ++ [comma; space] ++ e :: body), (match cores with [] => true | _ => b end). split; [reflexivity|]. split.
    + rewrite app_assoc. apply G. rewrite texts_of_app. reflexivity.
    + destruct cores as [|d cores].
      * assert (Hbl : blank (e :: body)) by (inversion H; assumption). split; [|right; reflexivity].
        apply (listed_trailing new [] [] (space :: e :: body)); [exact Hnew|apply blank_nil|apply blank_nil|]. apply (blank_app [space]). split; [apply blank_space|exact Hbl].
      * split; [|left; reflexivity]. apply (listed_more new [] [] d cores b (space :: e :: body)); [exact Hnew|apply blank_nil|apply blank_nil|].
        apply (listed_pre d cores b (e :: body) [space] H blank_space).
Qed.

Lemma listed_snoc cores body new : listed cores false body -> cores <> [] -> argument new ->
  listed (cores ++ [new]) false (body ++ [comma; space] ++ new).
Proof.
  remember false as b eqn:Eb. intros H Hne Hnew.
  assert (Hl : listed [new] b (space :: new)).
  { subst b. apply (listed_pre new [] false new [space]); [apply listed_single, Hnew|apply blank_space]. }
  revert Hne. induction H as [t Ht|c t1 t2 Hc H1 H2|c t1 t2 t3 Hc H1 H2 H3|c t1 t2 d cs b body Hc H1 H2 Hd IH]; intros Hne.
  - contradiction.
  - replace ((t1 ++ c ++ t2) ++ [comma; space] ++ new) with (t1 ++ c ++ t2 ++ comma :: space :: new) by (rewrite <- !app_assoc; reflexivity).
    apply listed_more; assumption.
  - discriminate.
  - replace ((t1 ++ c ++ t2 ++ comma :: body) ++ [comma; space] ++ new) with (t1 ++ c ++ t2 ++ comma :: (body ++ [comma; space] ++ new)).
    + cbn [app]. apply listed_more; try assumption. apply IH; auto; discriminate.
    + do 3 (rewrite <- ?app_assoc; cbn [app]). reflexivity.
Qed.
Lemma listed_snoc_trailing cores body new : listed cores true (body ++ [comma]) -> argument new ->
  listed (cores ++ [new]) false (body ++ [comma] ++ new).
Proof.
  remember true as b eqn:Eb. remember (body ++ [comma]) as B eqn:EB. intros H Hnew. revert body EB.
  assert (Hl : listed [new] false new).
  { apply listed_single, Hnew. }
  induction H as [t Ht|c t1 t2 Hc H1 H2|c t1 t2 t3 Hc H1 H2 H3|c t1 t2 d cs b body' Hc H1 H2 Hd IH]; intros body EB; try discriminate.
  - assert (t3 = []) as ->.
    { destruct t3 as [|x t3 _] using rev_ind; [reflexivity|]. exfalso.
      replace (t1 ++ c ++ t2 ++ comma :: t3 ++ [x]) with ((t1 ++ c ++ t2 ++ comma :: t3) ++ [x]) in EB by (do 3 (rewrite <- ?app_assoc; cbn [app]); reflexivity).
      apply app_inj_tail in EB as [_ ->]. apply blank_app in H3 as [_ Hb]. inversion Hb as [|? ? (k & t & E' & Hk & _) _]; subst. injection E' as <- <-. discriminate. }
    replace (t1 ++ c ++ t2 ++ [comma]) with ((t1 ++ c ++ t2) ++ [comma]) in EB by (rewrite <- !app_assoc; reflexivity).
    apply app_inj_tail in EB as [<- _]. replace ((t1 ++ c ++ t2) ++ [comma] ++ new) with (t1 ++ c ++ t2 ++ comma :: new) by (rewrite <- !app_assoc; reflexivity).
    apply listed_more; assumption.
  - subst b. assert (Hx : exists B', body' = B' ++ [comma]).
    { destruct body' as [|x B' _] using rev_ind.
      - exfalso. apply listed_nil_body in Hd as [E _]; discriminate.
      - replace (t1 ++ c ++ t2 ++ comma :: B' ++ [x]) with ((t1 ++ c ++ t2 ++ comma :: B') ++ [x]) in EB by (do 3 (rewrite <- ?app_assoc; cbn [app]); reflexivity).
        apply app_inj_tail in EB as [_ ->]. eauto. }
    destruct Hx as (B' & ->).
    replace (t1 ++ c ++ t2 ++ comma :: B' ++ [comma]) with ((t1 ++ c ++ t2 ++ comma :: B') ++ [comma]) in EB by (do 3 (rewrite <- ?app_assoc; cbn [app]); reflexivity).
    apply app_inj_tail in EB as [<- _].
    replace ((t1 ++ c ++ t2 ++ comma :: B') ++ [comma] ++ new) with (t1 ++ c ++ t2 ++ comma :: (B' ++ [comma] ++ new)) by (do 3 (rewrite <- ?app_assoc; cbn [app]); reflexivity).
    apply listed_more; auto.
Qed.

Lemma insert_last pre body post rb cores b new :
  listed cores b body -> argument new ->
  (b = true -> exists B, body = B ++ [comma]) -> (cores = [] -> body = []) ->
  exists p body', arg_insert_place (toks_of pre body post) (Some rb) (Some (tree_at pre body)) false = Some p
    /\ applied (file_text pre body post) (insert_edit p (texts_of new)) (file_text pre body' post)
    /\ listed (cores ++ [new]) false body'.
Proof.
  intros H Hnew Hb Hc. unfold arg_insert_place. rewrite child_lparen, (child_rparen pre _ _ _ H). cbn [obind]. rewrite before_rparen.
  assert (El : lf_start (rparen pre body) = bytes (text pre) + 1 + lens body) by reflexivity.
  assert (G : forall (N : list elem) new', new' = texts_of N ->
    applied (file_text pre body post) (TextEdit new' (lf_start (rparen pre body), lf_start (rparen pre body)) None) (file_text pre (body ++ N) post)).
  { intros N new' E. unfold applied. cbn [te_range te_text]. rewrite El. pose proof (splice_body pre post body [] N [] new' E) as S. cbn [app] in S. rewrite !app_nil_r in S. exact S. }
  assert (Elast : elem_last_leaf (tree_at pre body) = Some (bytes (text pre) + bytes (text ((L_PAREN, lit "(") :: leaves_of body)), (R_PAREN, lit ")"))).
  { unfold elem_last_leaf, tree_at. cbn [fst snd]. rewrite leaves_paren.
    change ((L_PAREN, lit "(") :: leaves_of body ++ [(R_PAREN, lit ")")]) with (((L_PAREN, lit "(") :: leaves_of body) ++ [(R_PAREN, lit ")")]).
    rewrite place_leaves_app. apply last_snoc. }
  destruct body as [|x B _] using rev_ind.
  - eexists _, ([] ++ new). split.
    + change (rev (place_leaves 0 (pre ++ (L_PAREN, lit "(") :: leaves_of []))) with (rev (place_leaves 0 (pre ++ [(L_PAREN, lit "(")]))).
      rewrite place_leaves_app, rev_app_distr, Elast. reflexivity.
    + split; [apply G; cbn [insert_edit app]; rewrite app_nil_r; reflexivity|].
      apply listed_nil_body in H as [-> ->].
      apply listed_single, Hnew.
  - destruct b.
    + destruct (Hb eq_refl) as (B' & E). apply app_inj_tail in E as [<- ->].
      eexists _, ((B ++ [comma]) ++ new). split.
      * rewrite leaves_of_app. change (leaves_of [comma]) with [(COMMA, lit ",")].
        replace (pre ++ (L_PAREN, lit "(") :: leaves_of B ++ [(COMMA, lit ",")]) with ((pre ++ (L_PAREN, lit "(") :: leaves_of B) ++ [(COMMA, lit ",")]) by (rewrite <- app_assoc; reflexivity).
        rewrite place_leaves_app, rev_app_distr, Elast. reflexivity.
      * split; [apply G; cbn [insert_edit app]; rewrite app_nil_r; reflexivity|].
        rewrite <- app_assoc. apply listed_snoc_trailing; assumption.
    + destruct (listed_last_leaf cores (B ++ [x]) H) as (l & k & t & E & Hk1 & Hk2); [destruct B; discriminate|].
      assert (Hk : skind_eqb k COMMA || (skind_eqb k L_PAREN || false) = false).
      { apply orb_false_iff. split; [|apply orb_false_iff; split; [|reflexivity]]; apply not_true_iff_false; intros C; apply skind_eqb_eq in C; contradiction. }
      eexists _, ((B ++ [x]) ++ [comma; space] ++ new). split.
      * rewrite E. replace (pre ++ (L_PAREN, lit "(") :: l ++ [(k, t)]) with ((pre ++ (L_PAREN, lit "(") :: l) ++ [(k, t)]) by (rewrite <- app_assoc; reflexivity).
        rewrite place_leaves_app, rev_app_distr. cbn [place_leaves rev app hd_error]. unfold sep_unless at 1, is_kind, lf_kind. cbn [existsb fst snd].
        rewrite Hk. cbn [oor]. reflexivity.
      * split; [apply G; cbn [insert_edit app]; rewrite app_nil_r; reflexivity|].
        apply listed_snoc; [exact H| |exact Hnew]. intros C. specialize (Hc C). destruct B; discriminate.
Qed.

(** ** Several edits *)
Lemma all_done_ordered {A} (f : A -> outcome text_edit) (bad : A -> bool) (R : text_edit -> text_edit -> Prop) l :
  (forall i a, nth_error l i = Some a -> bad a = true -> exists r, f a = Done r) ->
  (forall i j a b ra rb, i < j -> nth_error l i = Some a -> nth_error l j = Some b -> bad a = true -> bad b = true ->
     f a = Done ra -> f b = Done rb -> R ra rb) ->
  exists rs, all_done (map f (filter bad l)) = Done rs /\ ForallOrdPairs R rs
    /\ Forall2 (fun a r => f a = Done r) (filter bad l) rs.
Proof.
  induction l as [|a l IH]; intros H1 H2.
  - exists []. split; [reflexivity|]. split; constructor.
  - destruct IH as (rs & E & HR & HF).
    { intros i x Hx. apply (H1 (S i) x Hx). }
    { intros i j x y rx ry Hij Hx Hy. apply (H2 (S i) (S j)); [lia|exact Hx|exact Hy]. }
    cbn [filter]. destruct (bad a) eqn:Ea; [|exists rs; auto].
    destruct (H1 0 a eq_refl Ea) as (r & Er). exists (r :: rs). cbn [map all_done]. rewrite Er. cbn [obind_o]. rewrite E. cbn [obind_o].
    split; [reflexivity|]. split; [|constructor; assumption]. constructor; [|exact HR].
    rewrite Forall_forall. intros r' Hr'. apply (In_nth_error rs) in Hr' as (n & Hn).
    assert (Hb : exists b j, nth_error l j = Some b /\ bad b = true /\ f b = Done r').
    { assert (G : forall (xs : list A) (ys : list text_edit), Forall2 (fun a r => f a = Done r) xs ys -> forall n y, nth_error ys n = Some y -> exists x, In x xs /\ f x = Done y).
      { induction 1 as [|x y xs ys Hxy _ IHF]; intros m z Hz; [destruct m; discriminate|]. destruct m as [|m].
        - injection Hz as <-. exists x. split; [left; reflexivity|exact Hxy].
        - destruct (IHF m z Hz) as (w & Hw & Hf). exists w. split; [right; exact Hw|exact Hf]. }
      destruct (G _ _ HF n r' Hn) as (b & Hb & Hf). apply filter_In in Hb as [Hb Hbb]. apply (In_nth_error l) in Hb as (j & Hj). eauto. }
    destruct Hb as (b & j & Hj & Hbb & Hfb). apply (H2 0 (S j) a b r r'); auto. lia.
Qed.

Lemma removal_done px pre body post cores attr :
  listed cores false body -> 2 <= length cores -> Forall plain_argument cores ->
  at_args attr = parse_ink_args px (Some (tree_at pre body)) ->
  length (at_args attr) = length cores
  /\ (forall i a, nth_error (at_args attr) i = Some a -> exists r, arg_removal_range (toks_of pre body post) a (Some attr) = Done r)
  /\ (forall i j a b ra rb, i < j -> ~ (j = S i /\ S j = length (at_args attr)) ->
        nth_error (at_args attr) i = Some a -> nth_error (at_args attr) j = Some b ->
        arg_removal_range (toks_of pre body post) a (Some attr) = Done ra ->
        arg_removal_range (toks_of pre body post) b (Some attr) = Done rb -> snd ra <= fst rb).
Proof.
  intros H Hlen Hp Hargs.
  assert (El : length (at_args attr) = length cores).
  { rewrite Hargs. unfold parse_ink_args, tree_at. cbn [fst snd]. apply listed_args_length; [exact H|]. intros ->. cbn in Hlen. lia. }
  assert (Hnth : forall i a, nth_error (at_args attr) i = Some a -> exists c, nth_error cores i = Some c /\ plain_argument c).
  { intros i a E. assert (Hi : i < length cores) by (rewrite <- El; apply nth_error_Some; congruence).
    destruct (nth_error cores i) as [c|] eqn:Ec; [|apply nth_error_None in Ec; lia]. exists c. split; [reflexivity|].
    rewrite Forall_forall in Hp. apply Hp, (nth_error_In cores i Ec). }
  split; [exact El|]. split.
  - intros i a E. destruct (Hnth i a E) as (c & Ec & Hc).
    destruct (removal_listed px pre body post cores false attr i c H Hlen Ec Hc Hargs) as (a' & r & _ & _ & Ea & Er & _).
    exists r. congruence.
  - intros i j a b ra rb Hij Hne Ea Eb Hra Hrb. destruct (Hnth i a Ea) as (ci & Eci & Hci). destruct (Hnth j b Eb) as (cj & Ecj & Hcj).
    destruct (removals_apart px pre body post cores false attr i j ci cj H Hlen Hij Eci Hci Ecj Hcj) as (ai & aj & ri & rj & E1 & E2 & E3 & E4 & Hd).
    + rewrite El in Hne. intros (_ & C). apply Hne, C.
    + exact Hargs.
    + congruence.
Qed.

Lemma conflicting_apart px pre body post cores attr bad :
  listed cores false body -> 2 <= length cores -> Forall plain_argument cores ->
  at_args attr = parse_ink_args px (Some (tree_at pre body)) ->
  (forall rest x y, at_args attr = rest ++ [x; y] -> bad x = true -> bad y = true -> Forall (fun a => bad a = true) rest) ->
  exists edits, remove_conflicting (toks_of pre body post) attr bad = Done edits /\ ForallOrdPairs apart edits.
Proof.
  intros H Hlen Hp Hargs Hbad. destruct (removal_done px pre body post cores attr H Hlen Hp Hargs) as (El & Hdone & Hord).
  unfold remove_conflicting. destruct (length (filter bad (at_args attr)) =? length (at_args attr)) eqn:En.
  { eexists. split; [reflexivity|]. constructor; constructor. }
  apply Nat.eqb_neq in En.
  destruct (all_done_ordered (fun x => obind_o (arg_removal_range (toks_of pre body post) x (Some attr)) (fun r => Done (delete_edit r))) bad apart (at_args attr)) as (rs & E & HR & _).
  - intros i a Ea _. destruct (Hdone i a Ea) as (r & Er). exists (delete_edit r). rewrite Er. reflexivity.
  - intros i j a b ra rb Hij Ea Eb Ba Bb Hra Hrb.
    destruct (Hdone i a Ea) as (ri & Eri). destruct (Hdone j b Eb) as (rj & Erj). rewrite Eri in Hra. rewrite Erj in Hrb. cbn [obind_o] in Hra, Hrb.
    injection Hra as <-. injection Hrb as <-. left. cbn [delete_edit te_range].
    refine (Hord i j a b ri rj Hij _ Ea Eb Eri Erj). intros [-> HS].
    assert (Hl : at_args attr = firstn i (at_args attr) ++ [a; b]).
    { assert (Hs1 : forall n (l : list ink_arg) x, nth_error l n = Some x -> skipn n l = x :: skipn (S n) l).
      { induction n as [|n IH]; intros [|y l] x Ex; try discriminate; [injection Ex as ->; reflexivity|]. cbn [skipn]. apply IH, Ex. }
      rewrite <- (firstn_skipn i (at_args attr)) at 1. f_equal. rewrite (Hs1 i _ a Ea), (Hs1 (S i) _ b Eb).
      rewrite skipn_all2; [reflexivity|]. lia. }
    pose proof (Hbad _ _ _ Hl Ba Bb) as Hall. apply En. rewrite Hl. rewrite filter_app, !app_length. cbn [filter]. rewrite Ba, Bb. cbn [length].
    f_equal. f_equal. apply filter_every. rewrite Forall_forall in Hall. exact Hall.
  - exists rs. auto.
Qed.

Lemma migrate_apart px pre body post cores attr :
  listed cores false body -> 2 <= length cores -> Forall plain_argument cores ->
  at_args attr = parse_ink_args px (Some (tree_at pre body)) ->
  (forall rest x y, at_args attr = rest ++ [x; y] ->
     ~ (In (ia_kind x) [AAdditionalContracts; AKeepAttr] /\ In (ia_kind y) [AAdditionalContracts; AKeepAttr] /\ ia_kind x <> ia_kind y)) ->
  exists edits, migrate_e2e_attribute (toks_of pre body post) attr = Done edits /\ ForallOrdPairs apart edits.
Proof.
  intros H Hlen Hp Hargs Hk. destruct (removal_done px pre body post cores attr H Hlen Hp Hargs) as (El & Hdone & Hord).
  unfold migrate_e2e_attribute. destruct (negb (is_some (arg_of_kind AEnvironment attr)) && _).
  { destruct (as_token_tree (at_syntax attr)); eexists; (split; [reflexivity|]); repeat constructor. }
  assert (Hfind : forall k x, arg_of_kind k attr = Some x -> ia_kind x = k /\ exists i r, nth_error (at_args attr) i = Some x /\ arg_removal_range (toks_of pre body post) x (Some attr) = Done r).
  { intros k x E. unfold arg_of_kind in E. apply find_some in E as [Hin E]. split.
    - clear - E. unfold arg_kind_eqb in E. destruct (ia_kind x), k; try discriminate; reflexivity.
    - apply (In_nth_error (at_args attr)) in Hin as (i & Hi). destruct (Hdone i x Hi) as (r & Hr). eauto. }
  assert (Hl2 : forall i (a b : ink_arg), nth_error (at_args attr) i = Some a -> nth_error (at_args attr) (S i) = Some b -> S (S i) = length (at_args attr) ->
            at_args attr = firstn i (at_args attr) ++ [a; b]).
  { intros i a b Ea Eb HS. assert (Hs1 : forall n (l : list ink_arg) x, nth_error l n = Some x -> skipn n l = x :: skipn (S n) l).
    { induction n as [|n IH]; intros [|y l] x Ex; try discriminate; [injection Ex as ->; reflexivity|]. cbn [skipn]. apply IH, Ex. }
    rewrite <- (firstn_skipn i (at_args attr)) at 1. f_equal. rewrite (Hs1 i _ a Ea), (Hs1 (S i) _ b Eb). rewrite skipn_all2; [reflexivity|]. lia. }
  destruct (arg_of_kind AAdditionalContracts attr) as [x|] eqn:Ex.
  - destruct (Hfind _ _ Ex) as (Kx & i & rx & Ei & Erx). rewrite Erx. cbn [obind_o].
    destruct (arg_of_kind AKeepAttr attr) as [y|] eqn:Ey.
    + destruct (Hfind _ _ Ey) as (Ky & j & ry & Ej & Ery). rewrite Ery. cbn [obind_o app]. eexists. split; [reflexivity|].
      constructor; [|repeat constructor]. constructor; [|constructor]. unfold apart. cbn [delete_edit te_range].
      destruct (lt_eq_lt_dec i j) as [[Hij| ->]|Hij].
      * left. apply (Hord i j x y); auto. intros [-> HS]. apply (Hk _ x y (Hl2 i x y Ei Ej HS)). rewrite Kx, Ky. cbn. repeat split; auto; discriminate.
      * exfalso. rewrite Ei in Ej. injection Ej as ->. rewrite Kx in Ky. discriminate.
      * right. apply (Hord j i y x); auto. intros [-> HS]. apply (Hk _ y x (Hl2 j y x Ej Ei HS)). rewrite Kx, Ky. cbn. repeat split; auto; discriminate.
    + cbn [obind_o app]. eexists. split; [reflexivity|]. repeat constructor.
  - cbn [obind_o]. destruct (arg_of_kind AKeepAttr attr) as [y|] eqn:Ey.
    + destruct (Hfind _ _ Ey) as (Ky & j & ry & Ej & Ery). rewrite Ery. cbn [obind_o app]. eexists. split; [reflexivity|]. repeat constructor.
    + eexists. split; [reflexivity|]. constructor.
Qed.

(** ** Moving an argument to the front *)
Lemma listed_strip d cs b t body : listed (d :: cs) b (t ++ body) -> blank t -> listed (d :: cs) b body.
Proof.
  assert (G : forall c (t1 t rest body : list elem), argument c -> blank t -> t1 ++ c ++ rest = t ++ body -> exists t1', t1 = t ++ t1' /\ body = t1' ++ c ++ rest).
  { intros c t1. induction t1 as [|x t1 IH]; intros t' rest body' Hc Ht E.
    - destruct t' as [|y t']; [exists []; split; [reflexivity|symmetry; exact E]|]. exfalso. destruct Hc as (_ & (f & r & -> & Hf) & _).
      cbn [app] in E. injection E as -> _. inversion Ht as [|? ? (k & s & -> & Hk & _) _]; subst. cbn in Hf. congruence.
    - destruct t' as [|y t'].
      + exists (x :: t1). split; [reflexivity|symmetry; exact E].
      + cbn [app] in E. injection E as -> E. inversion Ht; subst. destruct (IH t' rest body' Hc) as (t1' & -> & E'); [assumption|exact E|].
        exists t1'. split; [reflexivity|exact E']. }
  intros H Ht. remember (d :: cs) as l eqn:El. remember (t ++ body) as B eqn:EB.
  destruct H as [t0 Ht0|c t1 t2 Hc H1 H2|c t1 t2 t3 Hc H1 H2 H3|c t1 t2 d' cs' b body' Hc H1 H2 Hd]; [discriminate|..].
  - destruct (G c t1 t t2 body Hc Ht EB) as (t1' & -> & ->). apply blank_app in H1 as [_ H1]. constructor; assumption.
  - destruct (G c t1 t _ body Hc Ht EB) as (t1' & -> & ->). apply blank_app in H1 as [_ H1]. constructor; assumption.
  - destruct (G c t1 t _ body Hc Ht EB) as (t1' & -> & ->). apply blank_app in H1 as [_ H1]. constructor; assumption.
Qed.
Lemma listed_insert d cs b t body new : listed (d :: cs) b (t ++ body) -> blank t -> argument new ->
  listed (new :: d :: cs) b (t ++ (new ++ [comma; space]) ++ body).
Proof.
  intros H Ht Hn. apply listed_strip in H; [|exact Ht].
  replace (t ++ (new ++ [comma; space]) ++ body) with (t ++ new ++ [] ++ comma :: ([space] ++ body)) by (rewrite <- app_assoc; reflexivity).
  apply listed_more; [exact Hn|exact Ht|apply blank_nil|]. apply listed_pre; [exact H|apply blank_space].
Qed.
Lemma listed_pos cores b body : listed cores b body -> forall e, In e body -> 0 < len_of e.
Proof.
  intros H e He. destruct (listed_elems _ _ _ H e He) as [Hb|[->|(k & t & -> & _ & Ht)]].
  - apply has_last_pos, balanced_last, Hb.
  - change (len_of comma) with 1. lia.
  - apply bytes_pos, Ht.
Qed.
Lemma prefix_of (P X Q Y : list elem) : (forall e, In e (P ++ X) -> 0 < len_of e) -> P ++ X = Q ++ Y -> lens P <= lens Q -> exists Z, Q = P ++ Z.
Proof.
  revert Q. induction P as [|p P IH]; intros Q Hpos E Hl; [exists Q; reflexivity|].
  destruct Q as [|q Q].
  - rewrite lens_cons, lens_nil in Hl. specialize (Hpos p (or_introl eq_refl)). lia.
  - cbn [app] in E. injection E as <- E. rewrite !lens_cons in Hl. destruct (IH Q) as (Z & ->); [intros e He; apply Hpos; right; exact He|exact E|lia|].
    exists Z. reflexivity.
Qed.


Lemma make_first_listed px pre body post cores b attr rb i c0 cs ci new x :
  listed cores b body -> cores = c0 :: cs -> 1 <= i -> nth_error cores i = Some ci -> plain_argument c0 -> plain_argument ci ->
  at_args attr = parse_ink_args px (Some (tree_at pre body)) -> as_token_tree (at_syntax attr) = Some (tree_at pre body) ->
  nth_error (at_args attr) i = Some x -> argument new -> texts_of new = meta_str x ->
  exists ins del mid body' b',
    make_first (toks_of pre body post) attr rb x = Done [ins; del] /\ apart ins del
    /\ applied (file_text pre body post) del mid /\ applied mid ins (file_text pre body' post)
    /\ listed (new :: without i cores) b' body'.
Proof.
  intros H Hcs Hi1 Hi Hp0 Hpi Hargs Htt Hx Hnew Htext.
  assert (Hlen : 2 <= length cores) by (assert (i < length cores) by (apply nth_error_Some; congruence); lia).
  destruct (removal_exact px pre body post cores b attr H Hlen Hargs) as (ps & _ & _ & Hmono & Hex).
  assert (H0 : nth_error cores 0 = Some c0) by (subst; reflexivity).
  destruct (Hex 0 c0 H0 Hp0) as (a0 & B & t1 & t2 & B2 & r0 & Ea0 & Eb0 & Ht1 & Ht2 & _ & Ep0 & HB & (E0 & Hr0) & Hsh0).
  apply in_front_0 in HB. subst B. cbn [app] in *.
  destruct (Hex i ci Hi Hpi) as (a & B1 & t1i & t2i & B2i & r & Ea & Eb & Ht1i & Ht2i & Er & Epi & _ & _ & Hsh).
  assert (a = x) as -> by congruence.
  destruct (removal_shape_listed pre body post _ _ _ _ _ _ _ _ _ Eb Ht1i Hsh) as (body' & b' & Bx & W & V & Hspl & Hl & _ & Eb' & EbV & HlB & Hfst).
  assert (Hlt : 0 < i) by lia. pose proof (Hmono 0 i _ _ Hlt Ep0 Epi) as Hm. cbn [fst snd] in Hm. rewrite lens_nil in Hm.
  destruct (prefix_of (t1 ++ c0 ++ t2) B2 Bx V) as (Z & EZ).
  { intros e He. apply (listed_pos _ _ _ H). rewrite Eb0. rewrite <- !app_assoc in He. exact He. }
  { rewrite <- EbV, Eb0, <- !app_assoc. reflexivity. }
  { lia. }
  assert (Eb'' : body' = t1 ++ (c0 ++ t2 ++ Z ++ W)) by (rewrite Eb', EZ, <- !app_assoc; reflexivity).
  eexists _, _, _, (t1 ++ (new ++ [comma; space]) ++ (c0 ++ t2 ++ Z ++ W)), b'. split; [|split; [|split; [|split]]].
  - unfold make_first. rewrite Htt. unfold first_arg_insert_place. destruct (at_args attr) as [|y ys] eqn:Eargs; [discriminate|]. injection Ea0 as ->.
    rewrite Hr0. cbn [obind_o fst]. rewrite Er. cbn [obind_o]. reflexivity.
  - unfold apart. left. cbn [insert_edit te_range delete_edit snd]. rewrite EZ in Hfst. rewrite !lens_app in Hfst. lia.
  - exact Hspl.
  - unfold applied. cbn [insert_edit te_range te_text app]. rewrite Eb''.
    replace (bytes (text pre) + 1 + lens t1, bytes (text pre) + 1 + lens t1) with (bytes (text pre) + 1 + lens t1, bytes (text pre) + 1 + lens (t1 ++ [])) by (rewrite app_nil_r; reflexivity).
    apply (splice_body pre post t1 [] (new ++ [comma; space])). rewrite texts_of_app, Htext. reflexivity.
  - subst cores. destruct i as [|i]; [lia|]. change (without (S i) (c0 :: cs)) with (c0 :: without i cs) in Hl |- *. apply listed_insert; [|exact Ht1|exact Hnew].
    rewrite <- Eb''. exact Hl.
Qed.

Lemma insert_before_first px pre body post cores b attr rb c0 cs new :
  listed cores b body -> cores = c0 :: cs -> plain_argument c0 ->
  at_args attr = parse_ink_args px (Some (tree_at pre body)) -> argument new ->
  exists p body',
    first_arg_insert_place (at_args attr) rb (Some (tree_at pre body)) = Done (Some p)
    /\ applied (file_text pre body post) (insert_edit p (texts_of new)) (file_text pre body' post)
    /\ listed (new :: cores) b body'.
Proof.
  intros H Hcs Hp0 Hargs Hnew. set (o := bytes (text pre) + 1).
  destruct (listed_structure cores b body H o) as (ps & extra & Hsep & Hps & Hne & _ & _ & _ & _ & _ & Hnth).
  pose proof (paren_args px cores b body (bytes (text pre)) H ps extra Hsep Hne) as HF.
  assert (H0 : nth_error cores 0 = Some c0) by (subst; reflexivity).
  destruct (Hnth 0 c0 H0) as (B1 & t1 & t2 & B2 & Eb & Hc & Ht1 & Ht2 & HB & Ep & _). apply in_front_0 in HB. subst B1. cbn [app] in Eb.
  assert (Ei : nth_error (map placed ps ++ filter nonempty extra) 0 = Some (placed (o + lens [], t1 ++ c0 ++ t2))).
  { rewrite nth_error_app1; [apply map_nth_error, Ep|]. rewrite map_length. apply nth_error_Some. congruence. }
  destruct (Forall2_nth _ _ _ HF 0 _ Ei) as (a & Ea & Hr). unfold placed in Hr. cbn [fst snd] in Hr.
  unfold parse_ink_args, tree_at in Hargs. cbn [fst snd] in Hargs. rewrite <- Hargs in Ea.
  destruct (plain_read px _ _ _ _ _ _ Hc Hp0 Ht1 Ht2 Hr) as (k & n & rest & X & last & Y & E & _ & _ & _ & _ & _ & _ & _ & _ & Hrange & _).
  rewrite lens_nil, Nat.add_0_r in Hrange.
  exists (o + lens t1, (None, Some comma_sp)), (t1 ++ (new ++ [comma; space]) ++ (c0 ++ t2 ++ B2)). split; [|split].
  - unfold first_arg_insert_place. destruct (at_args attr) as [|y ys]; [discriminate|]. injection Ea as ->. rewrite Hrange. reflexivity.
  - unfold applied. cbn [insert_edit te_range te_text app]. rewrite Eb.
    replace (o + lens t1, o + lens t1) with (bytes (text pre) + 1 + lens t1, bytes (text pre) + 1 + lens (t1 ++ [])) by (rewrite app_nil_r; reflexivity).
    apply (splice_body pre post t1 [] (new ++ [comma; space])). rewrite texts_of_app. reflexivity.
  - subst cores. apply listed_insert; [rewrite <- Eb; exact H|exact Ht1|exact Hnew].
Qed.
