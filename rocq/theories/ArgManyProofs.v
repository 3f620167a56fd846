(** Proofs for the removal of several arguments (C40, C107). *)
From Coq Require Import Lia Permutation.
From Verif Require Import Base PositionModel TranslateModel SyntaxModel AttrModel AttrSpec AttrProofs PositionProofs EditSpec ArgEditModel ArgEditSpec ArgEditProofs
  ChainSpec ArgManySpec.

(** What is removed for the [i]th argument: with the comma behind it, or, for the last one, with the one in front of
    it (or none, if its value is followed by white space) *)
Definition cut (n : nat) (b : bool) (body : list elem) (o i : nat) (c : list elem) (r : trange) : Prop :=
  exists B1 t1 t2 B2, body = B1 ++ t1 ++ c ++ t2 ++ B2 /\ blank t1 /\ blank t2 /\ in_front i B1
    /\ ((exists B3, B2 = comma :: B3 /\ r = (o + lens (B1 ++ t1), o + lens (B1 ++ t1 ++ c ++ t2) + 1))
        \/ (B2 = [] /\ S i = n /\ b = false /\ exists B0, B1 = B0 ++ [comma]
            /\ ((exists Y1 Y2, c ++ t2 = Y1 ++ Y2 /\ blank Y2 /\ r = (o + lens B0, o + lens (B1 ++ t1 ++ Y1)))
                \/ (r = (o + lens (B1 ++ t1), o + lens body) /\ padded body)))).

Lemma comma_split S body (B R : list elem) : (forall e, In e S -> kind_of e <> COMMA) -> commas B <> 0 ->
  S ++ comma :: body = B ++ R -> exists Z, B = S ++ comma :: Z /\ body = Z ++ R /\ commas B = Datatypes.S (commas Z).
Proof.
  revert B. induction S as [|e S IH]; intros B HS HB E.
  - destruct B as [|x B]; [destruct HB; reflexivity|]. cbn [app] in E. injection E as <- E. exists B. auto.
  - destruct B as [|x B]; [destruct HB; reflexivity|]. cbn [app] in E. injection E as <- E.
    assert (Ex : commas (e :: B) = commas B).
    { unfold commas. cbn [filter]. destruct (skind_eqb (kind_of e) COMMA) eqn:Ee; [|reflexivity]. apply skind_eqb_eq in Ee. destruct (HS e (or_introl eq_refl) Ee). }
    rewrite Ex in HB |- *. destruct (IH B) as (Z & -> & -> & Ez); auto.
    { intros y Hy. apply HS. right. exact Hy. }
    exists Z. auto.
Qed.
Lemma blank_split t1 t1' (c R R' : list elem) : blank t1 -> blank t1' -> argument c -> t1 ++ c ++ R = t1' ++ c ++ R' -> t1 = t1' /\ R = R'.
Proof.
  intros H H' (_ & (f & r & -> & Hf) & _). revert t1' H'. induction t1 as [|x t1 IH]; intros t1' H' E.
  - destruct t1' as [|y t1']; [split; [reflexivity|]; cbn [app] in E; injection E as E; exact (app_inv_head _ _ _ E)|].
    cbn [app] in E. injection E as <- E. inversion H' as [|? ? (k & s & -> & Hk & _) _]; subst. cbn in Hf. congruence.
  - destruct t1' as [|y t1']; [cbn [app] in E; injection E as -> E; inversion H as [|? ? (k & s & -> & Hk & _) _]; subst; cbn in Hf; congruence|].
    cbn [app] in E. injection E as <- E. inversion H; inversion H'; subst. destruct (IH ltac:(assumption) t1' ltac:(assumption) E) as [-> ->]. auto.
Qed.
Lemma blank_comma t t' (R B : list elem) : blank t -> blank t' -> t ++ comma :: R = t' ++ B -> (B = [] \/ exists B3, B = comma :: B3) -> t = t' /\ B = comma :: R.
Proof.
  intros H. revert t'. induction t as [|x t IH]; intros t' H' E HB.
  - destruct t' as [|y t']; [cbn [app] in E; auto|]. cbn [app] in E. injection E as <- E. inversion H' as [|? ? (k & s & Ec & Hk & _) _]; subst.
    injection Ec as <- <-. discriminate.
  - inversion H as [|? ? (k & s & -> & Hk & _) Ht]; subst. destruct t' as [|y t'].
    + cbn [app] in E. destruct HB as [-> |(B3 & ->)]; [discriminate|]. injection E as -> _ _. discriminate.
    + cbn [app] in E. injection E as <- E. inversion H'; subst. destruct (IH Ht t' ltac:(assumption) E HB) as [-> ->]. auto.
Qed.

(** The first argument of a longer list *)
Lemma cut_first n b t1 c t2 body o r : argument c -> blank t1 -> blank t2 ->
  cut n b (t1 ++ c ++ t2 ++ comma :: body) o 0 c r -> r = (o + lens t1, o + lens (t1 ++ c ++ t2) + 1).
Proof.
  intros Hc H1 H2 (B1 & u1 & u2 & B2 & E & Hu1 & Hu2 & HB & Hcase). apply in_front_0 in HB as ->. cbn [app] in *.
  apply blank_split in E as [<- E]; [|assumption..].
  destruct Hcase as [(B3 & -> & ->)|(-> & _ & _ & B0 & EB & _)]; [|destruct B0; discriminate].
  apply blank_comma in E as [<- _]; [reflexivity|assumption..|right; eauto].
Qed.
(** The others *)
Lemma cut_later n b t1 c t2 body o i d r : argument c -> d <> [] -> blank t1 -> blank t2 ->
  cut (S n) b (t1 ++ c ++ t2 ++ comma :: body) o (S i) d r ->
  cut n b body (o + lens (t1 ++ c ++ t2) + 1) i d r
  \/ (i = 0 /\ n = 1 /\ b = false /\ exists u1 u2, body = u1 ++ d ++ u2 /\ blank u1 /\ blank u2
      /\ ((exists Y1 Y2, d ++ u2 = Y1 ++ Y2 /\ blank Y2 /\ r = (o + lens (t1 ++ c ++ t2), o + lens (t1 ++ c ++ t2) + 1 + lens (u1 ++ Y1)))
          \/ (r = (o + lens (t1 ++ c ++ t2) + 1 + lens u1, o + lens (t1 ++ c ++ t2) + 1 + lens body) /\ padded body))).
Proof.
  intros Hc Hd H1 H2 (B1 & u1 & u2 & B2 & E & Hu1 & Hu2 & (Hf & Hn) & Hcase).
  assert (E' : (t1 ++ c ++ t2) ++ comma :: body = B1 ++ u1 ++ d ++ u2 ++ B2) by (rewrite <- E, <- !app_assoc; reflexivity).
  destruct (comma_split (t1 ++ c ++ t2) body B1 (u1 ++ d ++ u2 ++ B2)) as (Z & EB & Eb & Ez); [|congruence|exact E'|].
  { intros e He. rewrite !in_app_iff in He. destruct He as [He|[He|He]]; [apply (blank_no_comma t1 H1 _ He)|apply (argument_no_comma c Hc _ He)|apply (blank_no_comma t2 H2 _ He)]. }
  set (S1 := t1 ++ c ++ t2) in *. assert (HZ : commas Z = i) by congruence.
  assert (EL : forall l, lens (B1 ++ l) = lens S1 + 1 + lens (Z ++ l)).
  { intros l. rewrite EB, !lens_app, lens_cons. change (len_of comma) with 1. lia. }
  assert (Ebody : lens (t1 ++ c ++ t2 ++ comma :: body) = lens S1 + 1 + lens body).
  { replace (t1 ++ c ++ t2 ++ comma :: body) with (S1 ++ comma :: body) by (unfold S1; rewrite <- !app_assoc; reflexivity). rewrite lens_app, lens_cons. change (len_of comma) with 1. lia. }
  assert (Hpad : padded (t1 ++ c ++ t2 ++ comma :: body) -> padded body).
  { intros (x & l & Ep & Hl). destruct body as [|e body _] using rev_ind.
    - exfalso. symmetry in Eb. apply app_eq_nil in Eb as [_ Eb]. apply app_eq_nil in Eb as [_ Eb]. apply app_eq_nil in Eb as [Eb _]. contradiction.
    - exists body, e. split; [reflexivity|]. replace (t1 ++ c ++ t2 ++ comma :: body ++ [e]) with ((t1 ++ c ++ t2 ++ comma :: body) ++ [e]) in Ep by (rewrite <- !app_assoc; reflexivity).
      apply app_inj_tail in Ep as [_ ->]. exact Hl. }
  assert (HfZ : Z = [] \/ exists Z0, Z = Z0 ++ [comma]).
  { destruct Hf as [->|(l0 & ->)]; [destruct S1; discriminate|]. destruct Z as [|z Z _] using rev_ind; [left; reflexivity|]. right. exists Z.
    replace (S1 ++ comma :: Z ++ [z]) with ((S1 ++ comma :: Z) ++ [z]) in EB by (rewrite <- app_assoc; reflexivity). apply app_inj_tail in EB as [_ <-]. reflexivity. }
  assert (HfZ' : in_front i Z) by (split; assumption).
  destruct Hcase as [(B3 & -> & ->)|(-> & HS & -> & B0 & E0 & Hcase)].
  - left. exists Z, u1, u2, (comma :: B3). split; [exact Eb|]. split; [exact Hu1|]. split; [exact Hu2|]. split; [exact HfZ'|].
    left. exists B3. split; [reflexivity|]. rewrite !EL. f_equal; lia.
  - destruct HfZ as [->|(Z0 & ->)].
    + right. cbn in HZ. split; [auto|]. split; [lia|]. split; [reflexivity|]. exists u1, u2. rewrite app_nil_r in Eb. cbn [app] in Eb.
      split; [exact Eb|]. split; [exact Hu1|]. split; [exact Hu2|]. destruct Hcase as [(Y1 & Y2 & EY & HY & ->)|(-> & Hp)].
      * left. exists Y1, Y2. split; [exact EY|]. split; [exact HY|]. rewrite EB in E0. apply app_inj_tail in E0 as [<- _]. rewrite EL. cbn [app]. f_equal; lia.
      * right. split; [|apply Hpad, Hp]. rewrite EL, Ebody. cbn [app]. f_equal; lia.
    + left. exists (Z0 ++ [comma]), u1, u2, []. split; [exact Eb|]. split; [exact Hu1|]. split; [exact Hu2|]. split; [exact HfZ'|].
      right. split; [reflexivity|]. split; [lia|]. split; [reflexivity|]. exists Z0. split; [reflexivity|].
      destruct Hcase as [(Y1 & Y2 & EY & HY & ->)|(-> & Hp)].
      * left. exists Y1, Y2. split; [exact EY|]. split; [exact HY|].
        assert (EB0 : B0 = S1 ++ comma :: Z0).
        { rewrite EB in E0. replace (S1 ++ comma :: Z0 ++ [comma]) with ((S1 ++ comma :: Z0) ++ [comma]) in E0 by (rewrite <- app_assoc; reflexivity). apply app_inj_tail in E0 as [<- _]. reflexivity. }
        rewrite EL, EB0, (lens_app S1), lens_cons. change (len_of comma) with 1. f_equal; lia.
      * right. split; [|apply Hpad, Hp]. rewrite EL, Ebody. f_equal; lia.
Qed.

(** The chosen arguments are cut out. *)
Definition is_cut {A} (x : option A) : bool := match x with Some _ => true | None => false end.
Lemma old_app a b : old_text (a ++ b) = old_text a ++ old_text b.
Proof. apply flat_map_app. Qed.
Lemma new_app a b : new_text (a ++ b) = new_text a ++ new_text b.
Proof. apply flat_map_app. Qed.
Lemma listed_blank cs b t body : listed cs b body -> blank t -> listed cs b (t ++ body).
Proof.
  destruct cs as [|d cs]; [|intros; apply listed_pre; assumption]. intros H Ht. inversion H; subst. constructor. apply blank_app. auto.
Qed.
Lemma bytes_texts l : bytes (texts_of l) = lens l.
Proof. reflexivity. Qed.
Definition deletions (rs : list (option trange)) : list (trange * str) := map (fun r => (r, [])) (filter_map (fun r => r) rs).

Lemma cut_pieces cores b body : listed cores b body -> forall o rs,
  length rs = length cores ->
  (forall i c r, nth_error cores i = Some c -> nth_error rs i = Some (Some r) -> cut (length cores) b body o i c r) ->
  (b = false -> forall r, rs <> [Some r]) -> (b = false -> forall rest x y, rs <> rest ++ [Some x; Some y]) ->
  exists ps body' b', old_text ps = texts_of body /\ new_text ps = texts_of body' /\ changes o ps = deletions rs
    /\ listed (unchosen cores (map is_cut rs)) b' body' /\ (b' = true -> b = true \/ padded body)
    /\ (unchosen cores (map is_cut rs) = [] -> b = true \/ cores = []).
Proof.
  intros H. induction H as [t Ht|c t1 t2 Hc H1 H2|c t1 t2 t3 Hc H1 H2 H3|c t1 t2 d cs b body Hc H1 H2 Hb IH]; intros o rs El Hcut Hone Htwo.
  - destruct rs; [|discriminate]. exists [Same (texts_of t)], t, false. cbn. rewrite !app_nil_r. repeat split; auto; try discriminate. constructor. exact Ht.
  - destruct rs as [|[r|] [|]]; try discriminate; [destruct (Hone eq_refl r eq_refl)|].
    exists [Same (texts_of (t1 ++ c ++ t2))], (t1 ++ c ++ t2), false. cbn [old_text new_text flat_map changes]. rewrite !app_nil_r.
    repeat split; auto; try discriminate. cbn. constructor; assumption.
  - destruct rs as [|[r|] [|]]; try discriminate.
    + pose proof (Hcut 0 c r eq_refl eq_refl) as Hr. apply cut_first in Hr; [|assumption..]. subst r.
      exists [Same (texts_of t1); Other (texts_of (c ++ t2 ++ [comma])) []; Same (texts_of t3)], (t1 ++ t3), false.
      cbn [old_text new_text flat_map changes]. rewrite !app_nil_r, !bytes_texts. split; [|split; [|split; [|split; [|split]]]]; auto.
      * rewrite <- !texts_of_app, <- !app_assoc. reflexivity.
      * rewrite texts_of_app. reflexivity.
      * cbn. do 3 f_equal. rewrite !lens_app, lens_cons, lens_nil. change (len_of comma) with 1. lia.
      * cbn. constructor. apply blank_app. auto.
    + exists [Same (texts_of (t1 ++ c ++ t2 ++ comma :: t3))], (t1 ++ c ++ t2 ++ comma :: t3), true.
      cbn [old_text new_text flat_map changes]. rewrite !app_nil_r. repeat split; auto. cbn. constructor; assumption.
  - destruct rs as [|r0 rs]; [discriminate|]. cbn [length] in El. injection El as El.
    set (S1 := t1 ++ c ++ t2).
    assert (Eb0 : t1 ++ c ++ t2 ++ comma :: body = S1 ++ comma :: body) by (unfold S1; rewrite <- !app_assoc; reflexivity).
    assert (Hdn : forall i x, nth_error (d :: cs) i = Some x -> x <> []).
    { intros i x E. destruct (listed_structure _ _ _ Hb 0) as (ps & ex & _ & _ & _ & _ & _ & _ & _ & _ & Hn). destruct (Hn i x E) as (X1 & X2 & X3 & X4 & _ & Hx & _). apply argument_nonempty, Hx. }
    assert (Hlater := fun i x r (Ex : nth_error (d :: cs) i = Some x) (Er : nth_error rs i = Some (Some r)) =>
      cut_later _ _ _ _ _ _ _ _ _ _ Hc (Hdn i x Ex) H1 H2 (Hcut (S i) x r Ex Er)).
    fold S1 in Hlater. change (length (d :: cs)) with (S (length cs)) in Hlater, El.
    assert (Hspecial : (b = false /\ exists r, rs = [Some r]) \/ (b = false -> forall r, rs <> [Some r])).
    { destruct b; [right; discriminate|]. destruct rs as [|[r|] [|]]; try (right; discriminate). left. eauto. }
    destruct Hspecial as [(-> & r & ->)|Hsp].
    + (* the last one, and the one before it stays *)
      destruct cs; [|discriminate]. destruct r0 as [r0|]; [destruct (Htwo eq_refl [] r0 r eq_refl)|].
      destruct (Hlater 0 d r eq_refl eq_refl) as [(B1 & u1 & u2 & B2 & Eb & Hu1 & Hu2 & Hf & Hcase)|(_ & _ & _ & u1 & u2 & Eb & Hu1 & Hu2 & Hcase)].
      { exfalso. apply in_front_0 in Hf. subst B1. cbn [app] in Eb.
        destruct Hcase as [(B3 & -> & _)|(_ & _ & _ & B0 & E0 & _)]; [|destruct B0; discriminate].
        inversion Hb as [|? v1 v2 Hd Hv1 Hv2| |]; subst.
        assert (Hin : In comma (v1 ++ d ++ v2)) by (match goal with E : _ = _ |- _ => rewrite E end; rewrite !in_app_iff; cbn; auto).
        rewrite !in_app_iff in Hin. destruct Hin as [Hin|[Hin|Hin]]; [apply (blank_no_comma _ Hv1 _ Hin)|apply (argument_no_comma _ Hd _ Hin)|apply (blank_no_comma _ Hv2 _ Hin)]; reflexivity. }
      destruct Hcase as [(Y1 & Y2 & EY & HY & ->)|(-> & Hp)].
      * exists [Same (texts_of S1); Other (texts_of (comma :: u1 ++ Y1)) []; Same (texts_of Y2)], (S1 ++ Y2), false.
        cbn [old_text new_text flat_map changes]. rewrite !app_nil_r, !bytes_texts. split; [|split; [|split; [|split; [|split]]]].
        -- rewrite Eb0, Eb, EY, <- !texts_of_app. cbn [app]. rewrite <- ?app_assoc. reflexivity.
        -- rewrite texts_of_app. reflexivity.
        -- unfold deletions. cbn [filter_map map]. do 3 f_equal. rewrite lens_cons. change (len_of comma) with 1. lia.
        -- cbn. unfold S1. rewrite <- !app_assoc. apply listed_last; [exact Hc|exact H1|apply blank_app; auto].
        -- discriminate.
        -- discriminate.
      * exists [Same (texts_of (S1 ++ comma :: u1)); Other (texts_of (d ++ u2)) []], (S1 ++ comma :: u1), true.
        cbn [old_text new_text flat_map changes]. rewrite !app_nil_r, !bytes_texts. split; [|split; [|split; [|split; [|split]]]].
        -- rewrite Eb0, Eb, <- !texts_of_app, <- !app_assoc. reflexivity.
        -- reflexivity.
        -- assert (El1 : lens (S1 ++ comma :: u1) = lens S1 + 1 + lens u1) by (rewrite lens_app, lens_cons; change (len_of comma) with 1; lia).
           assert (El2 : lens body = lens u1 + lens (d ++ u2)) by (rewrite Eb, (lens_app u1); reflexivity).
           rewrite El1. unfold deletions. cbn [filter_map map]. do 3 f_equal; lia.
        -- cbn. unfold S1. rewrite <- !app_assoc. apply listed_trailing; assumption.
        -- intros _. right. destruct Hp as (x & l & -> & Hl). exists (S1 ++ comma :: x), l. split; [|exact Hl]. rewrite Eb0, <- app_assoc. reflexivity.
        -- discriminate.
    + assert (Htwo' : b = false -> forall rest x y, rs <> rest ++ [Some x; Some y]).
      { intros Ebf rest x y ->. apply (Htwo Ebf (r0 :: rest) x y). reflexivity. }
      destruct (IH (o + lens S1 + 1) rs El) as (ps & body' & b' & Eo & En & Ech & Hl & Hb' & Hnil); [|exact Hsp|exact Htwo'|].
      { intros i x r Ex Er. destruct (Hlater i x r Ex Er) as [G|(-> & Hn1 & -> & _)]; [exact G|exfalso].
        assert (Hn2 : S (length cs) = 1) by exact Hn1. cbn [length] in El. destruct rs as [|r1 [|]]; try discriminate; [injection Er as ->; destruct (Hsp eq_refl r eq_refl)|]. cbn [length] in El. lia. }
      assert (Hb2 : b' = true -> b = true \/ padded (t1 ++ c ++ t2 ++ comma :: body)).
      { intros E. destruct (Hb' E) as [G|(x & l & -> & G)]; [left; exact G|right]. exists (S1 ++ comma :: x), l. split; [|exact G]. rewrite Eb0, <- app_assoc. reflexivity. }
      destruct r0 as [r0|].
      * pose proof (Hcut 0 c r0 eq_refl eq_refl) as Hr. apply cut_first in Hr; [|assumption..]. subst r0. fold S1.
        exists (Same (texts_of t1) :: Other (texts_of (c ++ t2 ++ [comma])) [] :: ps), (t1 ++ body'), b'.
        change (old_text (Same (texts_of t1) :: Other (texts_of (c ++ t2 ++ [comma])) [] :: ps)) with (texts_of t1 ++ texts_of (c ++ t2 ++ [comma]) ++ old_text ps).
        change (new_text (Same (texts_of t1) :: Other (texts_of (c ++ t2 ++ [comma])) [] :: ps)) with (texts_of t1 ++ new_text ps).
        assert (ElS : lens t1 + lens (c ++ t2 ++ [comma]) = lens S1 + 1) by (unfold S1; rewrite !lens_app, lens_cons, lens_nil; change (len_of comma) with 1; lia).
        split; [|split; [|split; [|split; [|split]]]].
        -- rewrite Eo, <- !texts_of_app, <- !app_assoc. reflexivity.
        -- rewrite En, texts_of_app. reflexivity.
        -- cbn [changes]. rewrite !bytes_texts. unfold deletions. cbn [filter_map map]. fold (deletions rs). rewrite <- Ech.
           replace (o + lens t1 + lens (c ++ t2 ++ [comma])) with (o + lens S1 + 1) by lia. reflexivity.
        -- cbn [map is_cut unchosen]. apply listed_blank; assumption.
        -- exact Hb2.
        -- cbn [map is_cut unchosen]. intros E. destruct (Hnil E) as [G|G]; [left; exact G|discriminate].
      * assert (Hlst : exists b2, listed (c :: unchosen (d :: cs) (map is_cut rs)) b2 (S1 ++ comma :: body') /\ (b2 = true -> b = true \/ padded (t1 ++ c ++ t2 ++ comma :: body))).
        { unfold S1. rewrite <- !app_assoc. cbn [app]. destruct (unchosen (d :: cs) (map is_cut rs)) as [|z zs] eqn:Eu.
          - inversion Hl; subst. exists true. split; [apply listed_trailing; assumption|]. intros _. destruct (Hnil eq_refl) as [G|G]; [left; exact G|discriminate].
          - exists b'. split; [|exact Hb2]. apply listed_more; assumption. }
        destruct Hlst as (b2 & Hl2 & Hb3).
        exists (Same (texts_of (S1 ++ [comma])) :: ps), (S1 ++ comma :: body'), b2.
        change (old_text (Same (texts_of (S1 ++ [comma])) :: ps)) with (texts_of (S1 ++ [comma]) ++ old_text ps).
        change (new_text (Same (texts_of (S1 ++ [comma])) :: ps)) with (texts_of (S1 ++ [comma]) ++ new_text ps).
        split; [|split; [|split; [|split; [|split]]]].
        -- rewrite Eo, Eb0, <- texts_of_app, <- app_assoc. reflexivity.
        -- rewrite En, <- texts_of_app, <- app_assoc. reflexivity.
        -- cbn [changes]. rewrite bytes_texts, lens_app. change (lens [comma]) with 1. unfold deletions. cbn [filter_map]. fold (deletions rs). rewrite <- Ech. f_equal. lia.
        -- cbn [map is_cut unchosen]. exact Hl2.
        -- exact Hb3.
        -- cbn [map is_cut unchosen]. discriminate.
Qed.

(** ** In a file *)
Lemma file_rewritten pre post body body' ps edits : old_text ps = texts_of body -> new_text ps = texts_of body' ->
  Permutation (map (fun e => (te_range e, te_text e)) edits) (changes (bytes (text pre) + 1) ps) ->
  rewritten (file_text pre body post) edits (file_text pre body' post).
Proof.
  intros Eo En Hp. exists (Same (text pre ++ lit "(") :: ps ++ [Same (lit ")" ++ text post)]).
  rewrite !file_text_eq. split; [|split].
  - change (old_text (Same (text pre ++ lit "(") :: ps ++ [Same (lit ")" ++ text post)])) with ((text pre ++ lit "(") ++ old_text (ps ++ [Same (lit ")" ++ text post)])).
    rewrite old_app, Eo. change (old_text [Same (lit ")" ++ text post)]) with ((lit ")" ++ text post) ++ []). rewrite app_nil_r, <- !app_assoc. reflexivity.
  - change (new_text (Same (text pre ++ lit "(") :: ps ++ [Same (lit ")" ++ text post)])) with ((text pre ++ lit "(") ++ new_text (ps ++ [Same (lit ")" ++ text post)])).
    rewrite new_app, En. change (new_text [Same (lit ")" ++ text post)]) with ((lit ")" ++ text post) ++ []). rewrite app_nil_r, <- !app_assoc. reflexivity.
  - cbn [changes]. rewrite bytes_app. change (bytes (lit "(")) with 1. cbn [Nat.add].
    assert (Happ : forall ps o s, changes o (ps ++ [Same s]) = changes o ps).
    { clear. induction ps as [|[x|x y] ps IH]; intros o s; cbn [app changes]; [reflexivity|apply IH|rewrite IH; reflexivity]. }
    rewrite Happ. exact Hp.
Qed.

Definition range_of (toks : list leaf) (attr : ink_attr) (bad : ink_arg -> bool) (a : ink_arg) : option trange :=
  if bad a then match arg_removal_range toks a (Some attr) with Done r => Some r | Panic => None end else None.
Lemma remove_many px pre body post cores attr (bad : ink_arg -> bool) edits :
  listed cores false body -> 2 <= length cores -> Forall plain_argument cores ->
  at_args attr = parse_ink_args px (Some (tree_at pre body)) ->
  (forall rest x y, at_args attr = rest ++ [x; y] -> ~ (bad x = true /\ bad y = true)) ->
  Permutation (map (fun e => (te_range e, te_text e)) edits)
    (map (fun r => (r, [])) (filter_map (range_of (toks_of pre body post) attr bad) (at_args attr))) ->
  exists body' b', rewritten (file_text pre body post) edits (file_text pre body' post)
    /\ listed (unchosen cores (map bad (at_args attr))) b' body' /\ (b' = true -> padded body).
Proof.
  intros H Hlen Hpl Hargs Hbad Hed. destruct (removal_done px pre body post cores attr H Hlen Hpl Hargs) as (El & Hdone & _).
  destruct (removal_exact px pre body post cores false attr H Hlen Hargs) as (ps0 & _ & _ & _ & Hx).
  set (rg := range_of (toks_of pre body post) attr bad) in *.
  assert (Hcutb : forall a, In a (at_args attr) -> is_cut (rg a) = bad a).
  { intros a Ha. unfold rg, range_of. destruct (bad a); [|reflexivity]. apply (In_nth_error (at_args attr)) in Ha as (i & Hi). destruct (Hdone i a Hi) as (r & ->). reflexivity. }
  assert (Emap : map is_cut (map rg (at_args attr)) = map bad (at_args attr)).
  { rewrite map_map. apply map_ext_in. exact Hcutb. }
  destruct (cut_pieces cores false body H (bytes (text pre) + 1) (map rg (at_args attr))) as (ps & body' & b' & Eo & En & Ech & Hl & Hb & _).
  - rewrite map_length. exact El.
  - intros i c r Ec Er. rewrite nth_error_map in Er. destruct (nth_error (at_args attr) i) as [a|] eqn:Ea; [|discriminate]. injection Er as Er. rewrite Forall_forall in Hpl.
    destruct (Hx i c Ec (Hpl c (nth_error_In cores i Ec))) as (a' & B1 & t1 & t2 & B2 & r' & Ea' & Eb & Ht1 & Ht2 & Er' & _ & Hf & _ & Hsh).
    assert (a' = a) as -> by congruence. unfold rg, range_of in Er. rewrite Er' in Er. destruct (bad a); [|discriminate]. injection Er as ->.
    exists B1, t1, t2, B2. split; [exact Eb|]. split; [exact Ht1|]. split; [exact Ht2|]. split; [exact Hf|].
    destruct Hsh as [(B3 & -> & _ & ->)|(-> & HS & _ & B0 & -> & _ & _ & Hsh)].
    + left. eauto.
    + right. split; [reflexivity|]. split; [exact HS|]. split; [reflexivity|]. exists B0. split; [reflexivity|].
      destruct Hsh as [G|(G & _ & b0 & l & Hp)]; [left; exact G|right; split; [exact G|exists b0, l; exact Hp]].
  - intros _ r E. apply (f_equal (@length _)) in E. rewrite map_length, El in E. cbn in E. lia.
  - intros _ rest x y E.
    assert (G : exists l a b, at_args attr = l ++ [a; b] /\ rg a = Some x /\ rg b = Some y).
    { clear - E. revert rest E. induction (at_args attr) as [|a l IH]; intros rest E; [destruct rest; discriminate|]. destruct rest as [|z rest].
      - cbn [map app] in E. injection E as Ea E. destruct l as [|b [|]]; try discriminate. injection E as Eb. exists [], a, b. auto.
      - cbn [map app] in E. injection E as _ E. destruct (IH rest E) as (l' & a' & b' & -> & Ha & Hb). exists (a :: l'), a', b'. auto. }
    destruct G as (l & a & b & Ea & Hra & Hrb). apply (Hbad l a b Ea).
    assert (Hc1 := Hcutb a). assert (Hc2 := Hcutb b). rewrite Hra in Hc1. rewrite Hrb in Hc2. cbn [is_cut] in Hc1, Hc2. rewrite Ea in Hc1, Hc2.
    split; symmetry; [apply Hc1|apply Hc2]; apply in_or_app; right; cbn; auto.
  - exists body', b'. rewrite Emap in Hl. split; [|split; [exact Hl|intros E; destruct (Hb E) as [G|G]; [discriminate|exact G]]].
    apply (file_rewritten pre post body body' ps edits Eo En). rewrite Ech. unfold deletions.
    assert (Efm : filter_map (fun r : option trange => r) (map rg (at_args attr)) = filter_map rg (at_args attr)).
    { clear. induction (at_args attr) as [|a l IH]; [reflexivity|]. cbn [map filter_map]. rewrite IH. reflexivity. }
    rewrite Efm. exact Hed.
Qed.

Lemma done_ranges toks attr (bad : ink_arg -> bool) l : (forall a, In a l -> exists r, arg_removal_range toks a (Some attr) = Done r) ->
  exists edits, all_done (map (fun x => obind_o (arg_removal_range toks x (Some attr)) (fun r => Done (delete_edit r))) (filter bad l)) = Done edits
    /\ map (fun e => (te_range e, te_text e)) edits = map (fun r => (r, [])) (filter_map (range_of toks attr bad) l).
Proof.
  induction l as [|a l IH]; intros H; [exists []; split; reflexivity|].
  destruct IH as (es & E & Em). { intros x Hx. apply H. right. exact Hx. }
  destruct (H a (or_introl eq_refl)) as (r & Er). cbn [filter]. unfold range_of at 1. cbn [filter_map]. rewrite Er. destruct (bad a).
  - exists (delete_edit r :: es). cbn [map all_done]. rewrite Er. cbn [obind_o]. rewrite E. cbn [obind_o]. split; [reflexivity|]. cbn [map]. rewrite Em. reflexivity.
  - exists es. split; [exact E|exact Em].
Qed.
Lemma filter_perm {A B} (f : A -> bool) (g : A -> option B) l : (forall a, In a l -> g a <> None -> f a = true) ->
  filter_map g l = filter_map g (filter f l).
Proof.
  induction l as [|a l IH]; intros H; [reflexivity|]. cbn [filter filter_map]. rewrite IH by (intros x Hx; apply H; right; exact Hx).
  destruct (f a) eqn:E; [reflexivity|]. destruct (g a) eqn:Eg; [|reflexivity]. rewrite (H a (or_introl eq_refl)) in E; congruence.
Qed.
Lemma filter_map_perm {A B} (g : A -> option B) l l' : Permutation l l' -> Permutation (filter_map g l) (filter_map g l').
Proof.
  induction 1; cbn [filter_map].
  - constructor.
  - destruct (g x); [constructor|]; assumption.
  - destruct (g x), (g y); try apply Permutation_refl. apply perm_swap.
  - eapply Permutation_trans; eassumption.
Qed.
Lemma filter_map_app {A B} (f : A -> option B) l1 l2 : filter_map f (l1 ++ l2) = filter_map f l1 ++ filter_map f l2.
Proof. induction l1 as [|x l1 IH]; [reflexivity|]. cbn [app filter_map]. rewrite IH. destruct (f x); reflexivity. Qed.
