(** Proofs for C104. *)
From Coq Require Import Permutation.
From Verif Require Import Base BaseFacts Unicode PositionModel PositionSpec PositionProofs TranslateModel SyntaxModel
  UtilModel UtilSpec UtilProofs EditModel EditSpec EditProofs ChainSpec MoveSpec TogetherModel TogetherSpec.

Lemma old_same s ps : old_text (Same s :: ps) = s ++ old_text ps. Proof. reflexivity. Qed.
Lemma old_other o n ps : old_text (Other o n :: ps) = o ++ old_text ps. Proof. reflexivity. Qed.
Lemma new_same s ps : new_text (Same s :: ps) = s ++ new_text ps. Proof. reflexivity. Qed.
Lemma new_other o n ps : new_text (Other o n :: ps) = n ++ new_text ps. Proof. reflexivity. Qed.
(** White space taken from the front of unchanged text *)
Inductive eat : str -> list piece -> list piece -> Prop :=
  | eat_none ps : eat [] ps ps
  | eat_all s w ps qs : eat w ps qs -> eat (s ++ w) (Same s :: ps) qs
  | eat_part w s ps : eat w (Same (w ++ s) :: ps) (Same s :: ps).
Lemma eat_spec w ps qs : eat w ps qs ->
  old_text ps = w ++ old_text qs /\ new_text ps = w ++ new_text qs /\ (forall o, changes o ps = changes (o + bytes w) qs) /\ length qs <= length ps.
Proof.
  induction 1 as [ps|s w ps qs H (I1 & I2 & I3 & I4)|w s ps].
  - cbn. repeat split; [intros o; rewrite Nat.add_0_r; reflexivity | lia].
  - rewrite old_same, new_same, I1, I2. cbn [changes length]. repeat split; [apply app_assoc | apply app_assoc | | lia].
    intros o. rewrite I3, bytes_app, Nat.add_assoc. reflexivity.
  - rewrite !old_same, !new_same. cbn [changes length]. repeat split; [symmetry; apply app_assoc | symmetry; apply app_assoc | | lia].
    intros o. rewrite bytes_app, Nat.add_assoc. reflexivity.
Qed.
Lemma bytes_pos w : w <> [] -> 0 < bytes w.
Proof. destruct w as [|c w]; [contradiction|]. intros _. cbn. pose proof (utf8_len_pos c). lia. Qed.
Lemma eat_exists ps : forall w rest o, old_text ps = w ++ rest -> (forall r t, In (r, t) (changes o ps) -> o + bytes w <= fst r) ->
  exists qs, eat w ps qs.
Proof.
  induction ps as [|[s|old new] ps IH]; intros w rest o E H.
  - cbn in E. symmetry in E. apply app_eq_nil in E as [-> _]. exists []. constructor.
  - rewrite old_same in E. destruct (Nat.le_gt_cases (bytes w) (bytes s)) as [L|L].
    + symmetry in E. destruct (prefix_le w rest s (old_text ps) E L) as (x & -> & _). exists (Same x :: ps). constructor.
    + destruct (prefix_le s (old_text ps) w rest E ltac:(lia)) as (x & -> & Ex).
      destruct (IH x rest (o + bytes s) Ex) as (qs & Hq).
      { intros r t Hr. rewrite bytes_app in H. specialize (H r t Hr). lia. }
      exists qs. constructor. exact Hq.
  - destruct w as [|c w]; [exists (Other old new :: ps); constructor|]. exfalso.
    specialize (H (o, o + bytes old) new (or_introl eq_refl)). cbn [fst] in H.
    pose proof (bytes_pos (c :: w) ltac:(discriminate)). lia.
Qed.
Lemma changes_ge ps : forall o r t, In (r, t) (changes o ps) -> o <= fst r /\ fst r <= snd r.
Proof.
  induction ps as [|[s|old new] ps IH]; intros o r t H; cbn in H; [destruct H| |].
  - apply IH in H. lia.
  - destruct H as [H|H]; [injection H as <- <-; cbn; lia|]. apply IH in H. lia.
Qed.

Section File.
  Context (U : unicode) (HU : unicode_ok U) (more : nat -> bool) (e : elem) (He : lexed U e).
  Let toks := tokens_of more 0 None None e.
  Let data (ed : text_edit) : trange * str := (te_range ed, te_text ed).
  Let raw (x : trange * str) : text_edit := TextEdit (snd x) (fst x) None.

  (** What formatting does to range and text does not depend on the snippet. *)
  Lemma format_data ed ed' : format_in U more e ed = Done ed' -> exists x, format_in U more e (raw (data ed)) = Done x /\ data x = data ed'.
  Proof.
    unfold format_in, format_edit, raw, data. cbn [te_range te_text fst snd]. destruct (_ <? _); [discriminate|].
    destruct (covering_ws _ _) as [t|].
    - unfold inside_ws. cbn [te_text te_range]. destruct (te_text ed) as [|c s] eqn:Et.
      + intros H. apply Done_inj in H. subst ed'. eexists. split; [reflexivity|]. cbn [te_text te_range]. rewrite Et. reflexivity.
      + destruct (te_range ed) as [a b] eqn:Er. destruct (split_bytes _ _) as [[x y]|]; [|discriminate].
        destruct (a =? b).
        * intros H. apply Done_inj in H. subst ed'. eexists. split; [reflexivity|]. unfold add_affixes. destruct (affix_between _ _ _).
          cbn [te_text te_range]. rewrite Et, Er. reflexivity.
        * destruct (split_bytes _ (tk_text t)) as [[x' y']|]; [|discriminate].
          intros H. apply Done_inj in H. subst ed'. eexists. split; [reflexivity|]. unfold add_affixes. destruct (affix_between _ _ _).
          cbn [te_text te_range]. rewrite Et, Er. reflexivity.
    - intros H. apply Done_inj in H. subst ed'. eexists. split; [reflexivity|].
      destruct (te_text ed) as [|c s] eqn:Et.
      + unfold format_delete. destruct (hd_error _); [|cbn [te_text te_range]; rewrite Et; reflexivity].
        cbn [te_text te_range]. destruct (_ && _ && _); cbn [te_text te_range]; rewrite Et; reflexivity.
      + unfold add_affixes. cbn [te_text te_range]. destruct (affixes_for _ _ _ _). cbn [te_text te_range]. rewrite Et. reflexivity.
  Qed.

  Definition fmt_data (x : trange * str) : trange * str := match format_in U more e (raw x) with Done y => data y | Panic => x end.

  Lemma pieces n : forall ps a, length ps <= n -> text_of e = a ++ old_text ps ->
    (forall x, In x (changes (bytes a) ps) -> exists y, format_in U more e (raw x) = Done y) ->
    (forall x, In x (changes (bytes a) ps) -> snd x = [] -> fst (fst x) < snd (fst x) /\ ends_on_token e (fst x)) ->
    (forall d x pre ws post, In d (changes (bytes a) ps) -> In x (changes (bytes a) ps) -> snd d = [] ->
       leaves e = pre ++ (WHITESPACE, ws) :: post -> bytes (flat_map snd pre) = snd (fst d) ->
       snd (fst d) <= fst (fst x) -> snd (fst d) + bytes ws <= fst (fst x)) ->
    exists qs, old_text qs = old_text ps /\ visible U (new_text qs) = visible U (new_text ps)
      /\ changes (bytes a) qs = map fmt_data (changes (bytes a) ps).
  Proof.
    induction n as [|n IH]; intros ps a Hn Ht Hf Hd Hc.
    { destruct ps; [|cbn in Hn; lia]. exists []. repeat split. }
    destruct ps as [|[s|old new] ps]; [exists []; repeat split| |].
    - cbn [changes] in Hf, Hd, Hc. rewrite <- bytes_app in Hf, Hd, Hc. cbn in Hn.
      destruct (IH ps (a ++ s)) as (qs & Q1 & Q2 & Q3); [lia | rewrite ?old_same, ?old_other in Ht; rewrite Ht; apply app_assoc | exact Hf | exact Hd | exact Hc |].
      exists (Same s :: qs). rewrite !old_same, !new_same. cbn [changes]. rewrite <- bytes_app, Q1, Q3. repeat split. rewrite !visible_app, Q2. reflexivity.
    - cbn [changes] in Hf, Hd, Hc. rewrite <- bytes_app in Hf, Hd, Hc. cbn in Hn.
      set (x := ((bytes a, bytes (a ++ old)), new)) in *.
      destruct (Hf x (or_introl eq_refl)) as (y & Hy).
      assert (Fx : fmt_data x = data y) by (unfold fmt_data; rewrite Hy; reflexivity).
      cbn [changes]. rewrite <- bytes_app. fold x. cbn [map]. rewrite Fx.
      destruct (str_eq_dec new []) as [En|En].
      + assert (Hr : te_text (raw x) = []) by exact En.
        destruct (Hd x (or_introl eq_refl) En) as [Hlt Htok]. cbn [x fst snd] in Hlt, Htok.
        destruct (format_delete_spec _ _ _ _ _ Hr Hy) as (T1 & _ & [T2|(t & rest & T3 & T4 & T5)]).
        * destruct (IH ps (a ++ old)) as (qs & Q1 & Q2 & Q3);
            [lia | rewrite ?old_same, ?old_other in Ht; rewrite Ht; apply app_assoc | intros z Hz; apply Hf; right; exact Hz | intros z Hz; apply Hd; right; exact Hz
             | intros d z pre ws post Hd' Hz; apply Hc; right; assumption |].
          exists (Other old new :: qs). rewrite !old_other, !new_other. cbn [changes]. rewrite <- bytes_app.
          rewrite Q1, Q3. repeat split; [rewrite !visible_app, Q2; reflexivity|].
          f_equal. unfold data. rewrite T1, T2. unfold x. rewrite En. reflexivity.
        * destruct Htok as (lp & lq & El & Eb). cbn [snd] in Eb. pose proof El as El'. rewrite <- (file_kt more e) in El'.
          apply map_app_inv in El' as (tp & tq & Et & Ep & Eq).
          assert (Hx : tokens_after toks (te_range (raw x)) = tq).
          { unfold toks. rewrite Et. apply (tokens_after_at _ _ _ 0).
            - rewrite <- Et. apply file_laid_out.
            - intros z Hz. apply (file_lexed U more e He). rewrite Et. exact Hz.
            - rewrite text_toks_kt, Ep. exact Eb. }
          unfold toks in Hx. rewrite T3 in Hx. subst tq. cbn [map kt] in Eq. unfold kt at 1 in Eq. rewrite T4 in Eq.
          set (ws := tk_text t) in *.
          assert (Ews : tk_end t = bytes (a ++ old) + bytes ws).
          { pose proof (file_laid_out more e) as L. rewrite Et in L. apply laid_out_app in L as [_ L]. apply laid_out_cons in L as [L _].
            unfold tk_end. fold ws. rewrite L. cbn [plus]. rewrite <- Eb. f_equal. change (bytes (text_toks tp) = bytes (flat_map snd lp)).
            rewrite text_toks_kt, Ep. reflexivity. }
          assert (Ho : old_text ps = ws ++ flat_map snd (map kt rest)).
          { rewrite old_other in Ht. rewrite text_leaves, El, <- Eq, flat_map_app in Ht. cbn [flat_map snd] in Ht. rewrite (app_assoc a) in Ht.
            destruct (prefix_eq _ _ _ _ Ht Eb) as [_ E2]. symmetry. exact E2. }
          destruct (eat_exists ps ws _ (bytes (a ++ old)) Ho) as (ps' & Hps).
          { intros r z Hz. change (fst r) with (fst (fst (r, z))).
            apply (Hc x (r, z) lp ws (map kt rest)); [left; reflexivity | right; exact Hz | exact En | rewrite El, Eq; reflexivity | exact Eb |].
            apply changes_ge in Hz. cbn [x fst snd]. lia. }
          destruct (eat_spec _ _ _ Hps) as (P1 & P2 & P3 & P4). specialize (P3 (bytes (a ++ old))).
          assert (Ea : bytes (a ++ old) + bytes ws = bytes ((a ++ old) ++ ws)) by (symmetry; apply bytes_app).
          rewrite Ea in P3.
          destruct (IH ps' ((a ++ old) ++ ws)) as (qs & Q1 & Q2 & Q3).
          { lia. }
          { rewrite old_other in Ht. rewrite Ht, P1, <- !app_assoc. reflexivity. }
          { rewrite <- P3. intros z Hz; apply Hf; right; exact Hz. }
          { rewrite <- P3. intros z Hz; apply Hd; right; exact Hz. }
          { rewrite <- P3. intros d z pre w post Hd' Hz. apply Hc; right; assumption. }
          exists (Other (old ++ ws) new :: qs). rewrite !old_other, !new_other. cbn [changes].
          split; [rewrite Q1, P1, <- app_assoc; reflexivity|]. split.
          -- rewrite P2, !visible_app, Q2. rewrite (visible_white U ws); [reflexivity|].
             apply (file_lexed U more e He); [|exact T4]. rewrite Et. apply in_or_app; right; left; reflexivity.
          -- rewrite <- bytes_app, app_assoc, Q3, P3. f_equal. unfold data. rewrite T1, T5, Ews, Ea, En. reflexivity.
      + assert (Hr : te_text (raw x) <> []) by exact En.
        destruct (format_nonempty U HU _ _ _ _ Hr Hy) as (R & p & s & Wp & Ws & R2 & _).
        destruct (IH ps (a ++ old)) as (qs & Q1 & Q2 & Q3);
          [lia | rewrite ?old_same, ?old_other in Ht; rewrite Ht; apply app_assoc | intros z Hz; apply Hf; right; exact Hz | intros z Hz; apply Hd; right; exact Hz
           | intros d z pre ws post Hd' Hz; apply Hc; right; assumption |].
        exists (Other old (p ++ new ++ s) :: qs). rewrite !old_other, !new_other. cbn [changes]. rewrite <- bytes_app.
        rewrite Q1, Q3. repeat split.
        * rewrite !visible_app, Q2, (visible_white U p Wp), (visible_white U s Ws), app_nil_r. reflexivity.
        * f_equal. unfold data. rewrite R, R2. reflexivity.
  Qed.

  Lemma format_edits_data es : forall es', format_edits U toks (len_of e) es = Done es' ->
    map data es' = map fmt_data (map data es) /\ (forall x, In x (map data es) -> exists y, format_in U more e (raw x) = Done y).
  Proof.
    unfold format_edits. induction es as [|ed es IH]; intros es' H.
    - cbn in H. apply Done_inj in H. subst. split; [reflexivity | intros x []].
    - cbn in H. destruct (format_edit U toks (len_of e) ed) as [ed'|] eqn:E1; [|discriminate].
      destruct (outcome_map _ es) as [r|] eqn:E2; [|discriminate]. apply Done_inj in H. subst es'.
      destruct (IH r eq_refl) as [I1 I2]. destruct (format_data ed ed' E1) as (x & X1 & X2).
      split.
      + cbn [map]. rewrite I1. f_equal. unfold fmt_data. rewrite X1. symmetry. exact X2.
      + intros z [<-|Hz]; [exists x; exact X1 | apply I2; exact Hz].
  Qed.

  Lemma together es es' result : rewritten (text_of e) es result -> deletions_end_on_tokens e es -> clear_behind_deletions e es ->
    format_edits U toks (len_of e) es = Done es' ->
    exists result', rewritten (text_of e) es' result' /\ visible U result' = visible U result.
  Proof.
    intros (ps & E1 & E2 & P) Hd Hc Hf. destruct (format_edits_data es es' Hf) as [D1 D2]. fold data in P.
    assert (Inv : forall x, In x (changes 0 ps) -> exists ed, In ed es /\ data ed = x).
    { intros x Hx. apply (Permutation_in _ (Permutation_sym P)) in Hx. apply in_map_iff in Hx as (ed & <- & Hi). exists ed. auto. }
    destruct (pieces (length ps) ps [] (le_n _) E1) as (qs & Q1 & Q2 & Q3).
    - intros x Hx. apply D2. apply (Permutation_in _ (Permutation_sym P)). exact Hx.
    - intros x Hx En. destruct (Inv x Hx) as (ed & Hi & <-). apply (Hd ed Hi En).
    - intros d x pre ws post Hdi Hxi En El Eb Hle. destruct (Inv d Hdi) as (ed & Hi & <-). destruct (Inv x Hxi) as (ex & Hj & <-).
      exact (Hc ed ex pre ws post Hi Hj En El Eb Hle).
    - exists (new_text qs). split; [|rewrite E2; exact Q2]. exists qs. split; [rewrite Q1; exact E1|]. split; [reflexivity|].
      change (Permutation (map data es') (changes 0 qs)). change (changes 0 qs) with (changes (bytes []) qs). rewrite Q3, D1.
      apply Permutation_map. exact P.
  Qed.
End File.

Lemma unique_edits_spec es : keeps_firsts (fun e => e) es (unique_edits es) /\ NoDup (unique_edits es) /\ forall x, In x (unique_edits es) <-> In x es.
Proof.
  assert (K : keeps_firsts (fun e => e) es (unique_edits es)).
  { unfold unique_edits. apply (unique_keeps_firsts edit_eqb (fun e => e) edit_eqb_eq). }
  split; [exact K|]. assert (X : forall l l', keeps_firsts (fun e : text_edit => e) l l' -> NoDup l' /\ forall x, In x l' <-> In x l).
  { clear. induction 1 as [|l l' x Hk [I1 I2] Hx|l l' x Hk [I1 I2] (y & Hy & E)].
    - split; [constructor | tauto].
    - split.
      + apply (Permutation_NoDup (Permutation_cons_append l' x)). constructor; [|exact I1]. rewrite I2. intros Hi. exact (Hx x Hi eq_refl).
      + intros z. rewrite !in_app_iff, I2. tauto.
    - split; [exact I1|]. intros z. rewrite in_app_iff, I2. split; [tauto|]. intros [Hz|[<-|[]]]; [exact Hz|]. rewrite <- E. exact Hy. }
  exact (X _ _ K).
Qed.

(** ** Edits that can be applied together are apart. *)
Lemma changes_sorted ps : forall o, ForallOrdPairs (fun x y => snd (fst x) <= fst (fst y)) (changes o ps).
Proof.
  induction ps as [|[s|old new] ps IH]; intros o; cbn [changes]; [constructor | apply IH|]. constructor; [|apply IH].
  apply Forall_forall. intros [r t] H. apply changes_ge in H. cbn [fst snd]. lia.
Qed.
Lemma ordered_apart {A} (R : A -> A -> Prop) l a b : ForallOrdPairs R l -> In a l -> In b l -> a = b \/ R a b \/ R b a.
Proof.
  induction 1 as [|x l Hx H IH]; intros Ha Hb; [destruct Ha|]. rewrite Forall_forall in Hx.
  destruct Ha as [<-|Ha], Hb as [<-|Hb]; auto.
Qed.
Lemma rewritten_apart file es result a b : rewritten file es result -> In a es -> In b es ->
  (te_range a, te_text a) = (te_range b, te_text b) \/ snd (te_range a) <= fst (te_range b) \/ snd (te_range b) <= fst (te_range a).
Proof.
  intros (ps & _ & _ & P) Ha Hb.
  assert (I : forall x, In x es -> In (te_range x, te_text x) (changes 0 ps)).
  { intros x Hx. apply (Permutation_in _ P). apply in_map_iff. exists x. auto. }
  exact (ordered_apart _ _ _ _ (changes_sorted ps 0) (I a Ha) (I b Hb)).
Qed.
Lemma changes_on_chars ps : forall a r t, In (r, t) (changes (bytes a) ps) -> on_chars (a ++ old_text ps) r.
Proof.
  induction ps as [|[s|old new] ps IH]; intros a r t H; cbn [changes] in H; [destruct H| |]; rewrite <- bytes_app in H.
  - rewrite old_same, app_assoc. exact (IH _ _ _ H).
  - rewrite old_other. destruct H as [H|H].
    + injection H as <- _. exists a, old, (old_text ps). auto.
    + rewrite app_assoc. exact (IH _ _ _ H).
Qed.
Lemma rewritten_on_chars file es result a : rewritten file es result -> In a es -> on_chars file (te_range a).
Proof.
  intros (ps & -> & _ & P) Ha. apply (changes_on_chars ps [] (te_range a) (te_text a)).
  apply (Permutation_in _ P). apply in_map_iff. exists a. auto.
Qed.
Lemma format_edits_done U more e es : (forall ed, In ed es -> exists ed', format_in U more e ed = Done ed') ->
  exists es', format_edits U (tokens_of more 0 None None e) (len_of e) es = Done es'.
Proof.
  intros H. unfold format_edits. induction es as [|ed es IH]; [exists []; reflexivity|].
  destruct (H ed (or_introl eq_refl)) as (ed' & E). destruct IH as (es' & E2); [intros x Hx; apply H; right; exact Hx|].
  exists (ed' :: es'). cbn. unfold format_in in E. rewrite E, E2. reflexivity.
Qed.

(** ** Both ways to say that edits are applied together *)
Lemma performs_behind a : forall o s es r, performs (o + bytes a) s es r -> performs o (a ++ s) es (a ++ r).
Proof.
  intros o s es r H. remember (o + bytes a) as o' eqn:Eo. destruct H as [o' s|o' a1 b c e es c' H1 H2 H3]; [constructor|]. subst o'.
  rewrite !(app_assoc a a1). constructor; [rewrite bytes_app; lia | rewrite !bytes_app in *; lia | exact H3].
Qed.
Lemma performs_pieces o s es r : performs o s es r -> exists ps, s = old_text ps /\ r = new_text ps /\ map (fun e => (te_range e, te_text e)) es = changes o ps.
Proof.
  induction 1 as [o s|o a b c e es c' H1 H2 H3 (ps & -> & -> & E)].
  - exists [Same s]. repeat split; cbn; rewrite app_nil_r; reflexivity.
  - exists (Same a :: Other b (te_text e) :: ps). repeat split. cbn [map changes]. rewrite E. rewrite bytes_app in H2.
    assert (X : te_range e = (o + bytes a, o + bytes a + bytes b)) by (destruct (te_range e); cbn [fst snd] in *; f_equal; lia).
    rewrite X. cbn [snd]. reflexivity.
Qed.
Lemma pieces_performs ps : forall o es, map (fun e => (te_range e, te_text e)) es = changes o ps -> performs o (old_text ps) es (new_text ps).
Proof.
  induction ps as [|[s|old new] ps IH]; intros o es E; cbn [changes] in E.
  - destruct es; [|discriminate]. constructor.
  - rewrite old_same, new_same. apply performs_behind. apply IH. exact E.
  - destruct es as [|e es]; [discriminate|]. cbn [map] in E. injection E as E1 E2 E3. rewrite old_other, new_other.
    change (old ++ old_text ps) with ([] ++ old ++ old_text ps). rewrite <- E2. change (te_text e ++ new_text ps) with ([] ++ te_text e ++ new_text ps).
    constructor; rewrite E1; cbn [fst snd app bytes]; [lia | reflexivity | apply IH; exact E3].
Qed.
Lemma performed_iff file es result : rewritten file es result <-> performed file es result.
Proof.
  split.
  - intros (ps & -> & -> & P). apply Permutation_sym, Permutation_map_inv in P as (sorted & E & P). exists sorted. split; [exact P|].
    apply pieces_performs. symmetry. exact E.
  - intros (sorted & P & H). destruct (performs_pieces _ _ _ _ H) as (ps & -> & -> & E). exists ps. split; [reflexivity|]. split; [reflexivity|].
    rewrite <- E. apply Permutation_map. exact P.
Qed.
