From Verif Require Import Base BaseFacts PositionModel PositionSpec PositionProofs TranslateModel TranslateSpec.

Lemma assoc_set_same {A} k (v : A) m : assoc k (assoc_set k v m) = Some v.
Proof.
  induction m as [|[k' v'] m IH]; simpl.
  - rewrite str_eqb_refl; reflexivity.
  - destruct (str_eqb k k') eqn:E; simpl; [rewrite str_eqb_refl | rewrite E]; auto.
Qed.
Lemma assoc_set_other {A} k k' (v : A) m : k <> k' -> assoc k' (assoc_set k v m) = assoc k' m.
Proof.
  intros H. induction m as [|[k0 v0] m IH]; simpl.
  - apply not_eq_sym, str_eqb_neq in H. rewrite H; reflexivity.
  - destruct (str_eqb k k0) eqn:E; simpl.
    + apply str_eqb_eq in E; subst. apply not_eq_sym, str_eqb_neq in H. rewrite H; reflexivity.
    + destruct (str_eqb k' k0); auto.
Qed.

(** Last binding wins in [snippets_map]. *)
Lemma snippets_map_aux l : forall m k,
  assoc k (fold_left (fun m p => assoc_set (fst p) (JStr (snd p)) m) l m) =
  match last_opt (filter (fun p => str_eqb k (fst p)) l) with
  | Some p => Some (JStr (snd p))
  | None => assoc k m
  end.
Proof.
  induction l as [|[k' v] l IH]; intros m k; [reflexivity|].
  cbn [fold_left fst snd]. rewrite IH. cbn [filter fst].
  destruct (str_eqb k k') eqn:E.
  - apply str_eqb_eq in E; subst. cbn [last_opt].
    destruct (filter (fun p => str_eqb k' (fst p)) l) as [|q qs] eqn:Ef.
    + simpl. apply assoc_set_same.
    + destruct (last_opt (q :: qs)) eqn:El; [reflexivity|].
      apply last_opt_none in El; discriminate.
  - destruct (last_opt _); [reflexivity|]. apply assoc_set_other.
    apply str_eqb_neq in E. congruence.
Qed.
Lemma snippets_map_spec l k :
  assoc k (snippets_map l) =
  match last_opt (filter (fun p => str_eqb k (fst p)) l) with
  | Some p => Some (JStr (snd p))
  | None => None
  end.
Proof. apply (snippets_map_aux l [] k). Qed.

Lemma filter_map_map {A B C} (f : A -> option B) (g : B -> C) l :
  map g (filter_map f l) = filter_map (fun x => option_map g (f x)) l.
Proof. induction l as [|x l IH]; simpl; [reflexivity|]. destruct (f x); simpl; congruence. Qed.

Lemma filter_map_nil {A B} (f : A -> option B) l :
  filter_map f l = [] <-> forall x, In x l -> f x = None.
Proof.
  induction l as [|x l IH]; simpl.
  - split; [intros _ y [] | reflexivity].
  - destruct (f x) eqn:E.
    + split; [discriminate|]. intros H. specialize (H x (or_introl eq_refl)); congruence.
    + rewrite IH. split; intros H.
      * intros y [->|Hy]; auto.
      * intros y Hy; apply H; auto.
Qed.

Lemma filter_map_ext {A B} (f g : A -> option B) l :
  (forall x, In x l -> f x = g x) -> filter_map f l = filter_map g l.
Proof.
  induction l as [|x l IH]; simpl; intros H; [reflexivity|].
  rewrite (H x) by auto. destruct (g x); [f_equal|]; apply IH; auto.
Qed.

Lemma code_action_edits_eq ctx es :
  map (fun e : str * lrange * option str => LspTextEdit (snd (fst e)) (fst (fst e)))
    (translated_edits ctx es)
  = lsp_edits ctx es.
Proof.
  unfold translated_edits. rewrite filter_map_map. unfold lsp_edits. apply filter_map_ext. intros e _.
  destruct (to_lsp_range ctx (te_range e)); reflexivity.
Qed.

Lemma code_action_edits_nil ctx es :
  translated_edits ctx es = []
  <-> lsp_edits ctx es = [].
Proof.
  unfold translated_edits, lsp_edits. rewrite !filter_map_nil. split; intros H e He; specialize (H e He);
    cbv beta in *; destruct (to_lsp_range ctx (te_range e)); [discriminate | reflexivity | discriminate | reflexivity].
Qed.

Lemma to_lsp_code_action_none ctx u res a :
  to_lsp_code_action ctx u res a = None <->
  is_trigger (ac_kind a) = false /\ lsp_edits ctx (ac_edits a) = [].
Proof.
  unfold to_lsp_code_action. rewrite <- code_action_edits_nil.
  destruct (is_trigger (ac_kind a)); cbn [orb negb andb].
  - split; [discriminate | intros [H _]; discriminate].
  - destruct (translated_edits ctx (ac_edits a)) eqn:E; cbn [orb negb andb].
    + split; auto.
    + split; [discriminate | intros [_ H]; discriminate].
Qed.

Lemma to_lsp_code_action_trigger ctx u res a x :
  is_trigger (ac_kind a) = true ->
  to_lsp_code_action ctx u res a = Some x ->
  la_title x = ac_label a /\ la_edit x = None
  /\ (res = true -> la_command x = None /\ exists d, la_data x = Some d
        /\ jget (lit "command") d = Some (JStr (trigger_command (ac_kind a)))
        /\ jget (lit "uri") d = Some (JStr u)
        /\ jget (lit "range") d = Some (range_json (ac_range a)))
  /\ (res = false -> la_data x = None /\ exists d, la_command x
        = Some (LspCommand (ac_label a) (trigger_command (ac_kind a)) [d])
        /\ jget (lit "uri") d = Some (JStr u)
        /\ jget (lit "range") d = Some (range_json (ac_range a))).
Proof.
  intros Ht. unfold to_lsp_code_action. rewrite Ht. cbn [orb negb andb].
  intros H; inversion H; subst; clear H; cbn [la_title la_edit la_command la_data].
  split; [reflexivity|]. split; [reflexivity|]. split; intros ->; (split; [reflexivity|]).
  - eexists; split; [reflexivity|]. repeat split.
  - eexists; split; [reflexivity|]. repeat split.
Qed.

Lemma filter_map_compose {A B C} (f : A -> option B) (g : B -> option C) l :
  filter_map g (filter_map f l) = filter_map (fun x => obind (f x) g) l.
Proof.
  induction l as [|x l IH]; simpl; [reflexivity|].
  destruct (f x) as [y|]; simpl; [|exact IH]. destruct (g y); congruence.
Qed.

Lemma edit_snippets_eq ctx es :
  snippet_pairs (translated_edits ctx es) = edit_snippets ctx es.
Proof.
  unfold snippet_pairs, translated_edits. rewrite filter_map_compose. unfold edit_snippets. apply filter_map_ext. intros e _.
  destruct (to_lsp_range ctx (te_range e)); simpl; destruct (te_snippet e); reflexivity.
Qed.

Lemma to_lsp_code_action_edit ctx u res a x :
  is_trigger (ac_kind a) = false ->
  to_lsp_code_action ctx u res a = Some x ->
  la_title x = ac_label a /\ la_command x = None
  /\ la_edit x = Some (u, lsp_edits ctx (ac_edits a)) /\ lsp_edits ctx (ac_edits a) <> []
  /\ (edit_snippets ctx (ac_edits a) = [] -> la_data x = None)
  /\ (edit_snippets ctx (ac_edits a) <> [] ->
        exists m, la_data x = Some (JObj [(lit "snippets", JObj m)])
        /\ forall t, assoc t m =
             match last_opt (filter (fun p => str_eqb t (fst p)) (edit_snippets ctx (ac_edits a))) with
             | Some p => Some (JStr (snd p)) | None => None end).
Proof.
  intros Ht. unfold to_lsp_code_action. rewrite Ht. cbn [orb negb andb].
  pose proof (code_action_edits_nil ctx (ac_edits a)) as Hn.
  pose proof (code_action_edits_eq ctx (ac_edits a)) as He.
  pose proof (edit_snippets_eq ctx (ac_edits a)) as Hs.
  destruct (translated_edits ctx (ac_edits a)) as [|e es] eqn:E; cbn [negb]; [discriminate|].
  intros H; inversion H; subst; clear H; cbn [la_title la_edit la_command la_data].
  split; [reflexivity|]. split; [reflexivity|]. split; [rewrite <- He; reflexivity|].
  split; [intros Hx; apply Hn in Hx; discriminate|].
  rewrite Hs. split.
  - intros ->; reflexivity.
  - intros Hne. destruct (edit_snippets ctx (ac_edits a)) as [|p ps] eqn:Es; [contradiction|].
    eexists; split; [reflexivity|]. intros t. apply snippets_map_spec.
Qed.

(** All edits on character boundaries are translated. *)
Lemma lsp_edits_all k t es :
  (forall e, In e es -> (exists p, at_offset t p (fst (te_range e))) /\ (exists p, at_offset t p (snd (te_range e)))) ->
  Forall2 (fun e le => le_new_text le = te_text e
       /\ to_lsp_range (new_context t k) (te_range e) = Some (le_range le)) es (lsp_edits (new_context t k) es).
Proof.
  intros H. induction es as [|e es IH]; [constructor|].
  unfold lsp_edits in *. cbn [filter_map].
  assert (Hr : exists r, to_lsp_range (new_context t k) (te_range e) = Some r).
  { destruct (H e (or_introl eq_refl)) as [[p Hp] [q Hq]].
    unfold to_lsp_range.
    destruct Hp as [[pp Ep] Hp]. destruct Hq as [[pq Eq] Hq].
    assert (H1 : to_lsp_position (new_context t k) (bytes p) = Some (spec_position k p))
      by (rewrite Ep; apply to_lsp_position_at).
    assert (H2 : to_lsp_position (new_context t k) (bytes q) = Some (spec_position k q))
      by (rewrite Eq; apply to_lsp_position_at).
    rewrite Hp, Hq, H1, H2. eexists; reflexivity. }
  destruct Hr as [r Hr]. rewrite Hr. constructor; [split; [reflexivity | exact Hr]|].
  apply IH. intros e' He'. apply H. right; exact He'.
Qed.

(** Signature help. *)
Lemma find_index_spec {A} (p : A -> bool) l :
  match find_index p l with
  | Some (i, x) => nth_error l i = Some x /\ p x = true /\ forall j y, j < i -> nth_error l j = Some y -> p y = false
  | None => forall x, In x l -> p x = false
  end.
Proof.
  induction l as [|x l IH]; cbn [find_index]; [intros y []|].
  destruct (p x) eqn:E.
  - split; [reflexivity|]. split; [exact E|]. intros j y Hj; lia.
  - destruct (find_index p l) as [[i y]|].
    + destruct IH as [H1 [H2 H3]]. split; [exact H1|]. split; [exact H2|].
      intros [|j] z Hj Hz; [simpl in Hz; congruence | apply (H3 j); [lia | exact Hz]].
    + intros y [<-|Hy]; auto.
Qed.

Lemma select_active_in sigs prev i s :
  select_active sigs prev = Some (i, s) -> nth_error sigs i = Some s.
Proof.
  unfold select_active, oor.
  set (pl := match prev with Some (Some i0, labels) => if 0 <? i0 then nth_error labels i0 else None | _ => None end).
  destruct pl as [l|].
  - pose proof (find_index_spec (fun s0 => str_eqb (sg_label s0) l) sigs) as Hf.
    destruct (find_index (fun s0 => str_eqb (sg_label s0) l) sigs) as [[j y]|].
    + intros H; inversion H; subst. apply Hf.
    + destruct sigs; intros H; inversion H; subst; reflexivity.
  - destruct sigs; intros H; inversion H; subst; reflexivity.
Qed.

Lemma select_active_some sigs prev : sigs <> [] -> exists i s, select_active sigs prev = Some (i, s).
Proof.
  intros H. unfold select_active, oor.
  destruct (match match prev with Some (Some i0, labels) => if 0 <? i0 then nth_error labels i0 else None | _ => None end with
     | Some l => find_index (fun s => str_eqb (sg_label s) l) sigs | None => None end) as [[i s]|].
  - exists i, s; reflexivity.
  - destruct sigs as [|s sigs]; [contradiction|]. exists 0, s; reflexivity.
Qed.

Lemma select_active_retained sigs prev l :
  user_selected prev l -> (exists s, In s sigs /\ sg_label s = l) ->
  exists i s, select_active sigs prev = Some (i, s) /\ sg_label s = l
    /\ forall j s', j < i -> nth_error sigs j = Some s' -> sg_label s' <> l.
Proof.
  intros [i [labels [-> [Hi Hl]]]] [s [Hs Hsl]]. unfold select_active.
  assert ((0 <? i) = true) as -> by (apply Nat.ltb_lt; exact Hi). rewrite Hl.
  pose proof (find_index_spec (fun s0 => str_eqb (sg_label s0) l) sigs) as Hf.
  destruct (find_index (fun s0 => str_eqb (sg_label s0) l) sigs) as [[j y]|].
  - exists j, y. cbn [oor]. destruct Hf as [H1 [H2 H3]].
    split; [reflexivity|]. split; [apply str_eqb_eq; exact H2|].
    intros k s' Hk Hn E. apply str_eqb_eq in E. specialize (H3 k s' Hk Hn). simpl in H3. congruence.
  - specialize (Hf s Hs). apply str_eqb_neq in Hf. contradiction.
Qed.

Lemma select_active_default sigs prev s :
  hd_error sigs = Some s ->
  (forall l, user_selected prev l -> forall s', In s' sigs -> sg_label s' <> l) ->
  select_active sigs prev = Some (0, s).
Proof.
  intros Hh H. unfold select_active.
  destruct sigs as [|s0 sigs]; [discriminate|]. simpl in Hh; inversion Hh; subst s0.
  destruct prev as [[[i|] labels]|]; try reflexivity.
  destruct (0 <? i) eqn:Ei; [|reflexivity]. destruct (nth_error labels i) as [l|] eqn:El; [|reflexivity].
  pose proof (find_index_spec (fun s1 => str_eqb (sg_label s1) l) (s :: sigs)) as Hf.
  destruct (find_index (fun s1 => str_eqb (sg_label s1) l) (s :: sigs)) as [[j y]|]; [|reflexivity].
  exfalso. destruct Hf as [H1 [H2 _]]. apply str_eqb_eq in H2. apply nth_error_In in H1.
  revert H2. apply H; [|exact H1]. exists i, labels. repeat split; [apply Nat.ltb_lt; exact Ei | exact El].
Qed.

Lemma outcome_map_spec {A B} (f : A -> outcome B) l :
  match outcome_map f l with
  | Done ys => Forall2 (fun x y => f x = Done y) l ys
  | Panic => exists x, In x l /\ f x = Panic
  end.
Proof.
  induction l as [|x l IH]; cbn [outcome_map]; [constructor|].
  destruct (f x) as [y|] eqn:E.
  - destruct (outcome_map f l) as [ys|].
    + constructor; assumption.
    + destruct IH as [z [Hz Hp]]. exists z; split; [right; exact Hz | exact Hp].
  - exists x; split; [left; reflexivity | exact E].
Qed.

Lemma slice_at pre text post :
  slice (pre ++ text ++ post) (bytes pre) (bytes pre + bytes text) = Done text.
Proof.
  unfold slice. rewrite take_bytes_at. rewrite app_assoc, <- bytes_app, take_bytes_at.
  assert ((bytes pre <=? bytes (pre ++ text)) = true) as ->.
  { apply Nat.leb_le. rewrite bytes_app; lia. }
  rewrite skipn_app, skipn_all, Nat.sub_diag. reflexivity.
Qed.

Lemma to_lsp_param_spec sup enc label p text :
  well_placed label (pa_range p) text ->
  exists pre post, label = pre ++ text ++ post /\
  to_lsp_param sup enc label p =
    Done (LspParam (if ss_offsets sup then LabelOffsets (units enc pre) (units enc pre + units enc text)
                    else LabelSimple text) (pa_detail p)).
Proof.
  intros [pre [post [-> Hr]]]. exists pre, post. split; [reflexivity|].
  unfold to_lsp_param. rewrite Hr; cbn [fst snd]. destruct (ss_offsets sup).
  - rewrite to_lsp_offset_at. rewrite app_assoc, <- bytes_app, to_lsp_offset_at, units_app. reflexivity.
  - rewrite slice_at. reflexivity.
Qed.
