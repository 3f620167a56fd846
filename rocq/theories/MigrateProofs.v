From Coq Require Import Lia Permutation.
From Verif Require Import Base BaseFacts PositionModel PositionProofs TranslateModel SyntaxModel AttrModel AttrSpec AttrProofs EditModel EditSpec CommandModel UtilModel UtilSpec UtilProofs
  ArgEditModel ArgEditSpec ArgEditProofs FlattenModel ImplProofs MigrateModel MigrateSpec.

(** ** C49 *)
Fixpoint ids_given (max : N) (toks : list leaf) (used : list N) (l : list chain_ext) : list (option N) :=
  match l with
  | [] => []
  | c :: l' =>
      match (if ce_arg c then None else
             match ce_attr c with Some (rb, tree) => arg_insert_place toks rb tree true | None => None end) with
      | Some _ => Some (next_id max used) :: ids_given max toks (next_id max used :: used) l'
      | None => None :: ids_given max toks used l'
      end
  end.
Lemma loop_migrated max toks l : forall used, exists es,
  extension_loop max toks used l = concat es /\ length es = length l /\ length (ids_given max toks used l) = length l
  /\ forall i c id e, nth_error l i = Some c -> nth_error (ids_given max toks used l) i = Some id -> nth_error es i = Some e ->
     migrated toks c id e.
Proof.
  induction l as [|c l IH]; intros used.
  - exists []. repeat split. intros i c id e H. destruct i; discriminate.
  - assert (Hr : Forall2 (fun r e => te_range e = r /\ te_text e = lit "function" /\ te_snippet e = None)
              (filter_map (fun r => r) (ce_functions c)) (rename_edits c)).
    { unfold rename_edits. induction (filter_map (fun r => r) (ce_functions c)) as [|r rs IHr]; cbn [map]; constructor; [|exact IHr].
      repeat split. }
    cbn [extension_loop ids_given]. unfold id_edits. change (is_entity_type AExtension) with true.
    assert (Hgen : forall e0 used' id, migrated toks c id (e0 ++ rename_edits c) ->
      exists es, (e0 ++ rename_edits c ++ extension_loop max toks used' l) = concat es /\ length es = length (c :: l)
        /\ length (id :: ids_given max toks used' l) = length (c :: l)
        /\ forall i c' id' e, nth_error (c :: l) i = Some c' -> nth_error (id :: ids_given max toks used' l) i = Some id' -> nth_error es i = Some e ->
           migrated toks c' id' e).
    { intros e0 used' id Hm. destruct (IH used') as (es & E & H1 & H2 & H3). exists ((e0 ++ rename_edits c) :: es).
      cbn [concat length]. rewrite E, <- app_assoc. repeat split; try lia.
      intros i c' id' e Hc Hi He. destruct i as [|i]; cbn in *; [injection Hc as <-; injection Hi as <-; injection He as <-; exact Hm|].
      eapply H3; eassumption. }
    destruct (ce_arg c) eqn:Ea.
    + apply Hgen. exists (rename_edits c). split; [reflexivity|]. split; [|exact Hr]. split; [discriminate|].
      intros (p & Hp & _). congruence.
    + destruct (ce_attr c) as [[rb tree]|] eqn:Et.
      * destruct (arg_insert_place toks rb tree true) as [p|] eqn:Ep.
        -- apply Hgen. exists (rename_edits c). rewrite Et, Ep. split; [reflexivity|]. split; [|exact Hr]. split; [|reflexivity].
           intros _. exists p. split; [exact Ea|]. eauto.
        -- apply Hgen. exists (rename_edits c). split; [reflexivity|]. split; [|exact Hr]. split; [discriminate|].
           intros (p & _ & rb' & tree' & E1 & E2). rewrite Et in E1. injection E1 as <- <-. congruence.
      * apply Hgen. exists (rename_edits c). split; [reflexivity|]. split; [|exact Hr]. split; [discriminate|].
        intros (p & _ & rb' & tree' & E1 & E2). congruence.
Qed.

(** Fewer than [max] used ids leave a free one. *)
Lemma next_id_free max used : (1 <= max)%N -> length used < N.to_nat max -> (1 <= next_id max used <= max)%N /\ ~ In (next_id max used) used.
Proof.
  intros Hm Hl. unfold next_id. pose proof (suggest_unique_id_spec max None used Hm) as H. cbv zeta in H.
  destruct (suggest_unique_id max None used) as [n| |].
  - destruct H as (H1 & H2 & _). split; [exact H1|exact H2].
  - exfalso. assert (Hnd : NoDup (map N.of_nat (seq 1 (N.to_nat max)))).
    { apply FinFun.Injective_map_NoDup; [intros a b E; lia | apply seq_NoDup]. }
    assert (Hin : incl (map N.of_nat (seq 1 (N.to_nat max))) used).
    { intros x Hx. apply in_map_iff in Hx. destruct Hx as (y & <- & Hy). apply in_seq in Hy. apply H. lia. }
    pose proof (NoDup_incl_length Hnd Hin) as Hlen. rewrite map_length, seq_length in Hlen. lia.
  - destruct H.
Qed.
Lemma ids_given_fresh max toks l : (1 <= max)%N -> forall used, length used + length (filter (fun c => negb (ce_arg c)) l) <= N.to_nat max ->
  NoDup (filter_map (fun x => x) (ids_given max toks used l))
  /\ forall n, In (Some n) (ids_given max toks used l) -> (1 <= n <= max)%N /\ ~ In n used.
Proof.
  intros Hm. induction l as [|c l IH]; intros used Hl; cbn [ids_given].
  - split; [constructor | intros n []].
  - cbn [filter] in Hl. destruct (ce_arg c) eqn:Ea; cbn [negb length] in Hl;
    [|destruct (match ce_attr c with Some (rb, tree) => arg_insert_place toks rb tree true | None => None end)].
    + destruct (IH used) as [I1 I2]; [lia|]. cbn [filter_map]. split; [exact I1|]. intros n [H|H]; [discriminate|]. apply I2, H.
    + destruct (next_id_free max used Hm) as [H1 H2]; [lia|].
      destruct (IH (next_id max used :: used)) as [I1 I2]; [cbn [length]; lia|]. cbn [filter_map]. split.
      * constructor; [|exact I1]. intros Hin. apply filter_map_In in Hin. destruct Hin as (x & Hx & ->).
        apply I2 in Hx. destruct Hx as [_ Hx]. apply Hx. left; reflexivity.
      * intros n [[= <-]|Hin]; [auto|]. destruct (I2 n Hin) as [I3 I4]. split; [exact I3|]. intros H. apply I4. right; exact H.
    + destruct (IH used) as [I1 I2]; [lia|]. cbn [filter_map]. split; [exact I1|]. intros n [H|H]; [discriminate|]. apply I2, H.
Qed.

Lemma ids_and_missing l : (forall c, In c l -> ce_arg c = false -> ce_id c = None) ->
  length (filter_map ce_id l) + length (filter (fun c => negb (ce_arg c)) l) <= length l.
Proof.
  induction l as [|c l IH]; intros H; [cbn; lia|]. specialize (IH (fun x Hx => H x (or_intror Hx))). pose proof (H c (or_introl eq_refl)) as Hc.
  cbn [filter_map filter]. destruct (ce_arg c); cbn [negb length].
  - destruct (ce_id c); cbn [length]; lia.
  - rewrite Hc by reflexivity. lia.
Qed.

(** ** C50: splitting *)
Lemma split_char_nonempty c s : split_char c s <> [].
Proof. destruct s as [|x s]; cbn; [discriminate|]. destruct (N.eqb x c); [discriminate|]. destruct (split_char c s); discriminate. Qed.
Lemma split_char_free c s p : In p (split_char c s) -> ~ In c p.
Proof.
  revert p. induction s as [|x s IH]; intros p; cbn.
  - intros [<-|[]] [].
  - destruct (N.eqb_spec x c) as [->|Hx].
    + intros [<-|H]; [intros []|apply IH, H].
    + destruct (split_char c s) as [|q qs]; [intros [<-|[]] [H|[]]; contradiction|].
      intros [<-|H]; [|apply IH; right; exact H]. intros [H|H]; [contradiction|]. apply (IH q); [left; reflexivity|exact H].
Qed.
Lemma split_char_app c a b : ~ In c a -> split_char c (a ++ b) = match split_char c b with p :: ps => (a ++ p) :: ps | [] => [] end.
Proof.
  induction a as [|x a IH]; intros H; cbn [app].
  - destruct (split_char c b); reflexivity.
  - cbn [split_char]. destruct (N.eqb_spec x c) as [->|Hx]; [exfalso; apply H; left; reflexivity|].
    rewrite IH by (intros H'; apply H; right; exact H'). destruct (split_char c b) as [|p ps] eqn:E; [|reflexivity].
    exfalso. apply (split_char_nonempty c b E).
Qed.
Lemma split_comma_list ps : ps <> [] -> (forall p, In p ps -> ~ In 44%N p) -> split_char c_comma (comma_list ps) = ps.
Proof.
  induction ps as [|p ps IH]; intros Hne H; [contradiction|]. destruct ps as [|q ps].
  - cbn [comma_list]. rewrite <- (app_nil_r p) at 1. rewrite split_char_app by (apply H; left; reflexivity). cbn. rewrite app_nil_r. reflexivity.
  - change (comma_list (p :: q :: ps)) with (p ++ lit "," ++ comma_list (q :: ps)). rewrite split_char_app by (apply H; left; reflexivity).
    change (split_char c_comma (lit "," ++ comma_list (q :: ps))) with ([] :: split_char c_comma (comma_list (q :: ps))).
    rewrite IH; [rewrite app_nil_r; reflexivity | discriminate | intros x Hx; apply H; right; exact Hx].
Qed.
Lemma split_char_filter c f s : f c = true -> split_char c (filter f s) = map (filter f) (split_char c s).
Proof.
  intros Hc. induction s as [|x s IH]; [reflexivity|]. cbn [filter split_char]. destruct (N.eqb_spec x c) as [->|Hx].
  - rewrite Hc. cbn [split_char]. rewrite N.eqb_refl. cbn [map filter]. rewrite IH. reflexivity.
  - destruct (f x) eqn:E; cbn [split_char].
    + destruct (N.eqb_spec x c); [contradiction|]. rewrite IH. destruct (split_char c s) as [|p ps] eqn:Es; cbn [map filter]; [exfalso; apply (split_char_nonempty c s Es)|].
      rewrite E. reflexivity.
    + rewrite IH. destruct (split_char c s) as [|p ps] eqn:Es; cbn [map filter]; [exfalso; apply (split_char_nonempty c s Es)|].
      rewrite E. reflexivity.
Qed.
Lemma squeeze_unspaced p : squeeze (filter (fun c => negb (N.eqb c c_space)) p) = squeeze p.
Proof.
  unfold squeeze. induction p as [|x p IH]; [reflexivity|]. cbn [filter]. unfold c_space at 1. destruct (N.eqb x 32) eqn:E; cbn [negb filter].
  - rewrite IH. unfold white at 2. rewrite E. reflexivity.
  - rewrite IH. reflexivity.
Qed.
Lemma squeeze_idem p : squeeze (squeeze p) = squeeze p.
Proof. unfold squeeze. induction p as [|x p IH]; [reflexivity|]. cbn [filter]. destruct (white x) eqn:E; cbn [negb filter]; [exact IH|]. rewrite E. cbn [negb]. f_equal. exact IH. Qed.
Lemma squeeze_no_comma p : ~ In 44%N p -> ~ In 44%N (squeeze p).
Proof. intros H Hin. apply H. unfold squeeze in Hin. apply filter_In in Hin. apply Hin. Qed.

(** What the list between the parentheses becomes. *)
Definition unspaced (p : str) : str := filter (fun c => negb (N.eqb c c_space)) p.
Lemma names_pieces scale s ns : by_name scale -> lists_names s ns ->
  let ds := split_char c_comma (unspaced s) in
  filter_map scale ds = filter_map scale ns
  /\ (filter (fun n => negb (is_some (scale n))) ds = [] -> forall n, In n ns -> scale n <> None)
  /\ (filter (fun n => negb (is_some (scale n))) ds <> [] ->
      lists_names (join (lit ", ") (filter (fun n => negb (is_some (scale n))) ds)) (filter (not_scale scale) ns)).
Proof.
  intros [Hs H0] (ps & Hne & -> & Hc & ->) ds.
  assert (Hds : ds = map unspaced ps).
  { unfold ds, unspaced. rewrite split_char_filter by reflexivity. rewrite split_comma_list by assumption. reflexivity. }
  clearbody ds. subst ds.
  assert (Hsq : forall p, squeeze (unspaced p) = squeeze p) by apply squeeze_unspaced.
  assert (Hsc : forall p, scale (unspaced p) = scale (squeeze p)) by (intros p; rewrite (Hs (unspaced p)), Hsq; reflexivity).
  split; [|split].
  - clear Hne Hc. induction ps as [|p ps IH]; [reflexivity|]. cbn [map filter filter_map]. rewrite Hsc, IH.
    destruct (squeeze p) as [|x q] eqn:E; cbn [nonempty_str filter_map]; [rewrite H0; reflexivity | reflexivity].
  - intros Hf n Hn. apply filter_In in Hn. destruct Hn as [Hn _]. apply in_map_iff in Hn. destruct Hn as (p & <- & Hp).
    intros E. assert (Hin : In (unspaced p) (filter (fun n => negb (is_some (scale n))) (map unspaced ps))).
    { apply filter_In. split; [apply in_map, Hp|]. rewrite Hsc, E. reflexivity. }
    rewrite Hf in Hin. contradiction.
  - intros Hf. set (os := filter (fun n => negb (is_some (scale n))) (map unspaced ps)) in *.
    assert (Hos : forall o, In o os -> ~ In 44%N o).
    { intros o Ho. apply filter_In in Ho. destruct Ho as [Ho _]. apply in_map_iff in Ho. destruct Ho as (p & <- & Hp).
      intros Hin. unfold unspaced in Hin. apply filter_In in Hin. apply (Hc p Hp), Hin. }
    exists (match os with [] => [] | o :: os' => o :: map (fun x => 32%N :: x) os' end).
    destruct os as [|o os'] eqn:Eo; [contradiction|]. split; [discriminate|]. split; [|split].
    + clear. revert o. induction os' as [|q os' IH]; intros o; [reflexivity|].
      change (join (lit ", ") (o :: q :: os')) with (o ++ lit ", " ++ join (lit ", ") (q :: os')). rewrite IH.
      cbn [map comma_list]. change (lit ", ") with (lit "," ++ [32%N]). rewrite <- app_assoc. f_equal. f_equal.
      destruct os'; reflexivity.
    + intros p [<-|Hp]; [apply Hos; left; reflexivity|]. apply in_map_iff in Hp. destruct Hp as (q & <- & Hq).
      intros [H|H]; [discriminate|]. apply (Hos q); [right; exact Hq | exact H].
    + assert (E1 : map squeeze (o :: map (fun x => 32%N :: x) os') = map squeeze (o :: os')).
      { cbn [map]. f_equal. rewrite map_map. apply map_ext. intros x. reflexivity. }
      rewrite E1, <- Eo. clear - Hsq Hsc. subst os. induction ps as [|p ps IH]; [reflexivity|].
      cbn [map filter]. rewrite Hsc.
      destruct (scale (squeeze p)) eqn:E; cbn [is_some negb].
      * rewrite <- IH. destruct (nonempty_str (squeeze p)); [|reflexivity]. cbn [filter]. replace (not_scale scale (squeeze p)) with false by (unfold not_scale; rewrite E; reflexivity). reflexivity.
      * cbn [map filter]. rewrite Hsq, <- IH. destruct (nonempty_str (squeeze p)); [|reflexivity]. cbn [filter]. replace (not_scale scale (squeeze p)) with true by (unfold not_scale; rewrite E; reflexivity). reflexivity.
Qed.

(** ** C50: the list between the parentheses *)
(** No parenthesis at the top. *)
Definition no_parens (body : list elem) : Prop := forall e, In e body -> kind_of e <> L_PAREN /\ kind_of e <> R_PAREN.
Lemma balanced_no_parens body : Forall balanced body -> no_parens body.
Proof.
  intros H e He. rewrite Forall_forall in H. destruct (H e He) as [k t H1 H2 _ _|]; [split; assumption|split; discriminate].
Qed.
Lemma balanced_pos body : Forall balanced body -> forall e, In e body -> 0 < len_of e.
Proof. intros H e He. rewrite Forall_forall in H. apply has_last_pos, balanced_last, H, He. Qed.

Lemma until_none stop l : (forall e, In e l -> lstart e <> stop) -> until_token (Some stop) l = l.
Proof.
  induction l as [|e l IH]; intros H; [reflexivity|]. cbn [until_token].
  destruct (Nat.eqb_spec (lstart e) stop) as [E|E]; [exfalso; apply (H e); [left; reflexivity|exact E]|].
  f_equal. apply IH. intros x Hx. apply H. right; exact Hx.
Qed.
Lemma until_app stop l e l' : (forall x, In x l -> lstart x <> stop) -> lstart e = stop -> until_token (Some stop) (l ++ e :: l') = l.
Proof.
  induction l as [|x l IH]; intros H E; cbn [app until_token].
  - rewrite E, Nat.eqb_refl. reflexivity.
  - destruct (Nat.eqb_spec (lstart x) stop) as [C|C]; [exfalso; apply (H x); [left; reflexivity|exact C]|].
    f_equal. apply IH; [|exact E]. intros y Hy. apply H. right; exact Hy.
Qed.
Lemma place_starts l : (forall e, In e l -> 0 < len_of e) -> forall o x, In x (place o l) -> o <= lstart x /\ lstart x < o + lens l.
Proof.
  intros H. induction l as [|e l IH]; intros o x; [contradiction|]. cbn [place]. rewrite lens_cons.
  pose proof (H e (or_introl eq_refl)) as He. intros [<-|Hx]; [unfold lstart; cbn; lia|].
  apply IH in Hx; [lia|]. intros y Hy. apply H. right; exact Hy.
Qed.
Lemma snd_place o l : map snd (place o l) = l.
Proof. revert o. induction l as [|e l IH]; intros o; [reflexivity|]. cbn. f_equal. apply IH. Qed.
Lemma paren_child o body : no_parens body ->
  child_token L_PAREN (o, paren_tree body) = Some (o, (L_PAREN, lit "("))
  /\ child_token R_PAREN (o, paren_tree body) = Some (o + 1 + lens body, (R_PAREN, lit ")")).
Proof.
  intros H. split; [reflexivity|]. unfold child_token, paren_tree. cbn [snd fst place find_map skind_eqb].
  change (skind_eqb L_PAREN R_PAREN) with false. cbn iota. rewrite place_app.
  change (bytes (text_of (Tok L_PAREN (lit "(")))) with 1.
  rewrite find_map_app; [cbn [place find_map snd fst]; change (skind_eqb R_PAREN R_PAREN) with true; reflexivity|].
  apply find_map_none. intros x Hx. destruct (snd x) as [k t|k cs] eqn:E; [|reflexivity]. destruct (skind_eqb k R_PAREN) eqn:Ek; [|reflexivity].
  apply skind_eqb_eq in Ek. subst k. apply place_In in Hx. rewrite E in Hx. destruct (H _ Hx) as [_ Hr]. exfalso; apply Hr. reflexivity.
Qed.
Lemma children_paren o body : children_at (o, paren_tree body)
  = (o, Tok L_PAREN (lit "(")) :: place (o + 1) body ++ [(o + 1 + lens body, Tok R_PAREN (lit ")"))].
Proof.
  unfold children_at, paren_tree. cbn [fst snd place]. rewrite place_app. change (len_of (Tok L_PAREN (lit "("))) with 1. reflexivity.
Qed.
Lemma meta_paren o body : no_parens body -> (forall e, In e body -> 0 < len_of e) -> meta_string (o, paren_tree body) = texts_of body.
Proof.
  intros H Hp. unfold meta_string. destruct (paren_child o body H) as [-> ->]. rewrite children_paren. cbn [tl option_map lf_start fst].
  rewrite until_app; [|intros x Hx; apply (place_starts body Hp) in Hx; lia | reflexivity]. rewrite snd_place. reflexivity.
Qed.

(** ** C50: one [derive] *)
Lemma derive_outcome a o body ns :
  Forall balanced body -> by_name (ma_scale a) -> lists_names (texts_of body) ns ->
  let t := (o, paren_tree body) in
  scale_items a t = filter_map (ma_scale a) ns
  /\ (other_items a t = [] -> forall n, In n ns -> ma_scale a n <> None)
  /\ (other_items a t <> [] -> lists_names (join (lit ", ") (other_items a t)) (filter (not_scale (ma_scale a)) ns)).
Proof.
  intros Hn Hb Hl t. unfold scale_items, other_items, derive_names, t. rewrite (meta_paren o body (balanced_no_parens _ Hn) (balanced_pos _ Hn)).
  exact (names_pieces (ma_scale a) (texts_of body) ns Hb Hl).
Qed.

(** ** C50: [cfg_attr] *)
Lemma solid_tok o k t : is_trivia k = false -> last_solid (o, Tok k t) = Some (o, (k, t)).
Proof. intros H. unfold last_solid. cbn [fst snd leaves place_leaves filter]. unfold lf_kind. cbn [fst snd]. rewrite H. reflexivity. Qed.
Lemma solid_blank o k t : is_trivia k = true -> last_solid (o, Tok k t) = None.
Proof. intros H. unfold last_solid. cbn [fst snd leaves place_leaves filter]. unfold lf_kind. cbn [fst snd]. rewrite H. reflexivity. Qed.
Lemma solid_tree o op cs cl : In (op, cl) delimiters -> exists q k t, last_solid (o, Node TOKEN_TREE (op :: cs ++ [cl])) = Some (q, (k, t)) /\ t <> lit "derive".
Proof.
  intros H. assert (Hc : exists k t, cl = Tok k t /\ is_trivia k = false /\ t <> lit "derive").
  { unfold delimiters in H. repeat (destruct H as [H|H]; [injection H as <- <-; eexists _, _; repeat split; discriminate|]). destruct H. }
  destruct Hc as (k & t & -> & Hk & Ht). unfold last_solid. cbn [fst snd].
  assert (El : leaves (Node TOKEN_TREE (op :: cs ++ [Tok k t])) = leaves_of (op :: cs) ++ [(k, t)]).
  { change (leaves (Node TOKEN_TREE (op :: cs ++ [Tok k t]))) with (leaves_of ((op :: cs) ++ [Tok k t])). rewrite leaves_of_app. reflexivity. }
  rewrite El, place_leaves_app, filter_app. cbn [place_leaves filter]. unfold lf_kind at 2. cbn [fst snd]. rewrite Hk. cbn [negb].
  rewrite last_snoc. eexists _, _, _. split; [reflexivity|exact Ht].
Qed.
(** The closest token before the rest. *)
Definition prev_after (prev : option leaf) (l : list lelem) : option leaf := fold_left (fun p e => oor (last_solid e) p) l prev.
Lemma derive_child_app prev l1 l2 :
  derive_child prev l1 = None -> derive_child prev (l1 ++ l2) = derive_child (prev_after prev l1) l2.
Proof.
  revert prev. induction l1 as [|e l1 IH]; intros prev H; [reflexivity|]. cbn [app derive_child] in *. unfold prev_after. cbn [fold_left].
  change (fold_left (fun p e => oor (last_solid e) p) l1 (oor (last_solid e) prev)) with (prev_after (oor (last_solid e) prev) l1).
  destruct (snd e) as [k t|k cs]; [apply IH, H|]. destruct k; try (apply IH, H). destruct prev as [t|]; [|apply IH, H].
  destruct (str_eqb (snd (snd t)) (lit "derive")); [discriminate|]. apply IH, H.
Qed.
Lemma prev_blank l : blank l -> forall o prev, prev_after prev (place o l) = prev.
Proof.
  intros H. induction H as [|e l (k & t & -> & Hk & _) _ IH]; intros o prev; [reflexivity|]. cbn [place]. unfold prev_after. cbn [fold_left].
  rewrite solid_blank by exact Hk. cbn [oor]. apply IH.
Qed.
(** Elements without [derive(..)] have none. *)
Definition derive_tok (t : leaf) : Prop := snd (snd t) = lit "derive".
Lemma no_derive_none l : Forall balanced l -> no_derive l -> forall o prev,
  (forall t, prev = Some t -> derive_tok t -> forall bl cs b, blank bl -> l <> bl ++ Node TOKEN_TREE cs :: b) ->
  derive_child prev (place o l) = None.
Proof.
  intros Hb. induction Hb as [|e l He Hb IH]; intros Hn o prev Hp; [reflexivity|]. cbn [place derive_child].
  assert (Hn' : no_derive l) by (intros a k bl cs b Hbl ->; apply (Hn (e :: a) k bl cs b Hbl); reflexivity).
  assert (Hgo : derive_child (oor (last_solid (o, e)) prev) (place (o + len_of e) l) = None).
  { apply IH; [exact Hn'|]. intros t Ht Hd bl cs b Hbl ->. destruct He as [k x H1 H2 H3 H4|op cs' cl Hf Hdl].
    - destruct (is_trivia k) eqn:Ek.
      + rewrite solid_blank in Ht by exact Ek. cbn [oor] in Ht. apply (Hp t Ht Hd (Tok k x :: bl) cs b); [|reflexivity].
        apply Forall_cons; [|exact Hbl]. eexists _, _. repeat split; assumption.
      + rewrite solid_tok in Ht by exact Ek. injection Ht as <-. unfold derive_tok in Hd. cbn in Hd. subst x.
        apply (Hn [] k bl cs b Hbl). reflexivity.
    - destruct (solid_tree o op cs' cl Hdl) as (q & k & x & E & Hx). rewrite E in Ht. injection Ht as <-. contradiction. }
  cbn [snd]. destruct e as [k t|k cs]; [exact Hgo|]. destruct k; try exact Hgo. destruct prev as [t|]; [|exact Hgo].
  destruct (str_eqb (snd (snd t)) (lit "derive")) eqn:E; [|exact Hgo]. apply str_eqb_eq in E. exfalso.
  apply (Hp t eq_refl E [] cs l); [constructor|reflexivity].
Qed.
Lemma blank_balanced l : blank l -> Forall balanced l.
Proof.
  intros H. apply Forall_forall. intros e He. unfold blank in H. rewrite Forall_forall in H. destruct (H e He) as (k & t & -> & Hk & Ht).
  constructor; try exact Ht; intros ->; discriminate.
Qed.
Lemma argument_balanced c : argument c -> Forall balanced c.
Proof. intros (H & _). eapply Forall_impl; [|exact H]. intros e [He _]. exact He. Qed.

(** The list up to one of its arguments. *)
Inductive pieces : list (list elem) -> list elem -> Prop :=
  | pieces_nil : pieces [] []
  | pieces_cons c t1 t2 cs P : argument c -> blank t1 -> blank t2 -> pieces cs P ->
      pieces (c :: cs) ((t1 ++ c ++ t2) ++ comma :: P).
Lemma listed_at cores b body : listed cores b body -> forall i c, nth_error cores i = Some c -> exists B1 t1 t2 B2,
  body = B1 ++ t1 ++ c ++ t2 ++ B2 /\ argument c /\ blank t1 /\ blank t2 /\ pieces (firstn i cores) B1
  /\ ((exists B3, B2 = comma :: B3 /\ (S i < length cores \/ b = true)
         /\ (length cores = 1 -> B1 = [] /\ blank B3 /\ b = true)
         /\ (2 <= length cores -> forall x, blank x -> listed (without i cores) b (B1 ++ x ++ B3)))
      \/ (B2 = [] /\ S i = length cores /\ b = false
          /\ (1 <= i -> exists B0, B1 = B0 ++ [comma] /\ (forall x, blank x -> listed (without i cores) false (B0 ++ x))))).
Proof.
  induction 1 as [t Ht|c t1 t2 Hc H1 H2|c t1 t2 t3 Hc H1 H2 H3|c t1 t2 d cs b body Hc H1 H2 Hb IH]; intros i c' E.
  - destruct i; discriminate.
  - destruct i as [|[|i]]; [|discriminate|discriminate]. injection E as <-. exists [], t1, t2, []. rewrite !app_nil_r.
    repeat (split; [assumption || reflexivity || constructor|]). right. split; [reflexivity|]. split; [reflexivity|]. split; [reflexivity|]. lia.
  - destruct i as [|[|i]]; [|discriminate|discriminate]. injection E as <-. exists [], t1, t2, (comma :: t3).
    repeat (split; [assumption || reflexivity || constructor|]). left. exists t3. split; [reflexivity|]. split; [right; reflexivity|]. split; [auto|]. cbn [length]. lia.
  - destruct i as [|i].
    + injection E as <-. exists [], t1, t2, (comma :: body).
      repeat (split; [assumption || reflexivity || constructor|]). left. exists body. split; [reflexivity|]. split; [left; cbn [length]; lia|].
      split; [cbn [length]; discriminate|]. intros _ x Hx. change (listed (d :: cs) b (x ++ body)). apply listed_pre; assumption.
    + cbn [nth_error] in E. destruct (IH i c' E) as (B1 & u1 & u2 & B2 & Eb & Hc' & Hu1 & Hu2 & Hp & Hcase).
      exists ((t1 ++ c ++ t2) ++ comma :: B1), u1, u2, B2. split; [rewrite Eb; do 3 (rewrite <- ?app_assoc; cbn [app]); reflexivity|].
      split; [assumption|]. split; [assumption|]. split; [assumption|]. split; [apply (pieces_cons c t1 t2 (firstn i (d :: cs)) B1); assumption|].
      assert (Hmore : forall b' l y, without i (d :: cs) <> [] -> listed (without i (d :: cs)) b' (l ++ y) ->
                          listed (c :: without i (d :: cs)) b' (((t1 ++ c ++ t2) ++ comma :: l) ++ y)).
      { intros b' l y Hw Hl. destruct (without i (d :: cs)) as [|z zs]; [contradiction|].
        do 3 (rewrite <- ?app_assoc; cbn [app]). constructor; assumption. }
      assert (Hwl : 2 <= length (d :: cs) -> without i (d :: cs) <> []).
      { intros Hl E0. assert (Hi : i < length (d :: cs)) by (apply nth_error_Some; congruence).
        apply (f_equal (@length _)) in E0. unfold without in E0. rewrite app_length, firstn_length, skipn_length in E0. cbn [length] in *. lia. }
      change (without (S i) (c :: d :: cs)) with (c :: without i (d :: cs)).
      destruct Hcase as [(B3 & -> & HS & Hone & Htwo)|(-> & HSi & -> & Hcase)].
      * left. exists B3. split; [reflexivity|]. split; [destruct HS; [left; cbn [length] in *; lia|right; assumption]|].
        split; [cbn [length]; discriminate|]. intros _ x Hx. destruct (Nat.eq_dec (length (d :: cs)) 1) as [E1|E1].
        -- destruct (Hone E1) as (-> & HB3 & ->). assert (i = 0) as ->.
           { assert (i < length (d :: cs)) by (apply nth_error_Some; congruence). lia. }
           destruct cs as [|? ?]; [|discriminate]. change (@without (list elem) 0 [d]) with (@nil (list elem)).
           do 3 (rewrite <- ?app_assoc; cbn [app]). constructor; try assumption. apply blank_app; auto.
        -- apply Hmore; [apply Hwl; cbn [length] in *; lia|]. apply Htwo; [cbn [length] in *; lia | exact Hx].
      * right. split; [reflexivity|]. split; [cbn [length] in *; lia|]. split; [reflexivity|]. intros _.
        destruct i as [|i].
        -- cbn [length] in HSi. destruct cs as [|? ?]; [|discriminate]. change (@without (list elem) 0 [d]) with (@nil (list elem)).
           inversion Hp; subst. exists (t1 ++ c ++ t2). split; [reflexivity|]. intros x Hx.
           do 3 (rewrite <- ?app_assoc; cbn [app]). constructor; try assumption. apply blank_app; auto.
        -- destruct Hcase as (B0 & -> & Hf); [lia|]. exists ((t1 ++ c ++ t2) ++ comma :: B0). split; [do 3 (rewrite <- ?app_assoc; cbn [app]); reflexivity|].
           intros x Hx. apply Hmore; [apply Hwl; cbn [length] in *; lia|]. apply Hf, Hx.
Qed.
Definition comma_leaf (p : option leaf) : Prop := match p with Some t => snd t = (COMMA, lit ",") \/ snd t = (L_PAREN, lit "(") | None => False end.
Lemma prev_app p a b : prev_after p (a ++ b) = prev_after (prev_after p a) b.
Proof. apply fold_left_app. Qed.
Lemma not_derive_prev p : comma_leaf p -> forall t, p = Some t -> ~ derive_tok t.
Proof. intros H t ->. cbn in H. unfold derive_tok. destruct H as [->| ->]; discriminate. Qed.
Lemma blank_none l : blank l -> forall o prev, derive_child prev (place o l) = None.
Proof.
  intros H. induction H as [|e l (k & t & -> & Hk & _) _ IH]; intros o prev; [reflexivity|]. cbn [place derive_child snd]. apply IH.
Qed.
Lemma pieces_none cs P : pieces cs P -> Forall no_derive cs -> forall o prev, comma_leaf prev ->
  derive_child prev (place o P) = None /\ comma_leaf (prev_after prev (place o P)).
Proof.
  induction 1 as [|c t1 t2 cs P Hc H1 H2 _ IH]; intros Hn o prev Hp; [split; [reflexivity|exact Hp]|].
  inversion Hn as [|? ? Hnc Hncs]; subst.
  assert (Hseg : derive_child prev (place o (t1 ++ c ++ t2)) = None).
  { rewrite place_app. rewrite derive_child_app by (apply blank_none, H1). rewrite prev_blank by exact H1. rewrite place_app.
    rewrite derive_child_app; [apply blank_none, H2|]. apply no_derive_none; [apply argument_balanced, Hc|exact Hnc|].
    intros t Ht Hd. exfalso. exact (not_derive_prev prev Hp t Ht Hd). }
  rewrite place_app. cbn [place]. set (q := o + bytes (texts_of (t1 ++ c ++ t2))). split.
  - rewrite derive_child_app by exact Hseg. cbn [derive_child snd comma]. change (last_solid (q, comma)) with (Some (q, (COMMA, lit ","))). cbn [oor].
    apply IH; [exact Hncs|]. left; reflexivity.
  - rewrite prev_app. unfold prev_after at 1. cbn [fold_left]. change (last_solid (q, comma)) with (Some (q, (COMMA, lit ","))). cbn [oor].
    apply IH; [exact Hncs|]. left; reflexivity.
Qed.
Lemma derive_found o cs P t1 bl d Q : pieces cs P -> Forall no_derive cs -> blank t1 -> blank bl ->
  derive_child None (children_at (o, paren_tree (P ++ t1 ++ derive_core bl d ++ Q)))
  = Some ((o + 1 + lens (P ++ t1), (IDENT, lit "derive")), (o + 1 + lens (P ++ t1 ++ Tok IDENT (lit "derive") :: bl), paren_tree d)).
Proof.
  intros HP Hn H1 Hbl. rewrite children_paren. cbn [derive_child snd]. rewrite solid_tok by reflexivity. cbn [oor].
  assert (Hp : comma_leaf (Some (o, (L_PAREN, lit "(")))) by (right; reflexivity).
  destruct (pieces_none cs P HP Hn (o + 1) _ Hp) as [E1 _].
  rewrite place_app, <- app_assoc, derive_child_app by exact E1. rewrite place_app, <- app_assoc, derive_child_app by (apply blank_none, H1).
  rewrite place_app. unfold derive_core. cbn [place app derive_child snd]. rewrite solid_tok by reflexivity. cbn [oor].
  rewrite place_app, <- !app_assoc, derive_child_app by (apply blank_none, Hbl). rewrite prev_blank by exact Hbl.
  cbn [place app derive_child snd paren_tree]. change (str_eqb (lit "derive") (lit "derive")) with true. cbn iota.
  assert (Eo : o + 1 + bytes (texts_of P) + bytes (texts_of t1) = o + 1 + lens (P ++ t1)) by (rewrite lens_app; unfold lens; lia).
  rewrite Eo. do 3 f_equal. rewrite (app_assoc P), (lens_app (P ++ t1)), lens_cons. unfold lens at 3. unfold len_of. cbn [text_of]. lia.
Qed.
(** Other attributes than the [derive]. *)
Lemma after_comma_skip l e l' : (forall x, In x l -> lkind x <> COMMA) -> lkind e = COMMA -> after_comma (l ++ e :: l') = l'.
Proof.
  induction l as [|x l IH]; intros H He; cbn [app after_comma].
  - rewrite He. reflexivity.
  - destruct (skind_eqb (lkind x) COMMA) eqn:E; [apply skind_eqb_eq in E; exfalso; apply (H x); [left; reflexivity|exact E]|].
    apply IH; [|exact He]. intros y Hy. apply H. right; exact Hy.
Qed.
Lemma blank_solid bl : blank bl -> forall o f, existsb (fun x => negb (is_trivia (lkind x)) && f x) (place o bl) = false.
Proof.
  intros H. induction H as [|e l (k & t & -> & Hk & _) _ IH]; intros o f; [reflexivity|]. cbn [place existsb]. unfold lkind at 1. cbn [snd kind_of].
  rewrite Hk. cbn [negb andb orb]. apply IH.
Qed.
Lemma existsb_out {A} (f : A -> bool) l : existsb f l = false -> forall x, In x l -> f x = false.
Proof.
  intros H x Hx. destruct (f x) eqn:E; [|reflexivity]. assert (C : existsb f l = true) by (apply existsb_exists; exists x; auto). congruence.
Qed.
Lemma others_iff pre cores b body c cs P t1 bl d t2 B2 : listed cores b body -> pieces (c :: cs) P -> blank t1 -> blank bl -> blank t2 ->
  body = P ++ t1 ++ derive_core bl d ++ t2 ++ B2 -> B2 = [] \/ (exists B3, B2 = comma :: B3) ->
  let o := bytes (text pre) + 1 in
  has_other_attrs (tree_at pre body) (o + lens (P ++ t1)) (o + lens (P ++ t1 ++ derive_core bl d)) = false <-> cs = [] /\ B2 = [].
Proof.
  intros Hl HP H1 Hbl H2 Eb HB o. unfold has_other_attrs. rewrite (child_rparen pre cores b body Hl). unfold rparen. cbn [option_map lf_start fst].
  unfold tree_at. rewrite children_paren. inversion HP as [|c0 u1 u2 cs0 P' Hc Hu1 Hu2 HP' E1 E2]; subst c0 cs0.
  set (S := u1 ++ c ++ u2) in *. set (R := t1 ++ derive_core bl d ++ t2 ++ B2) in *.
  assert (Eb' : body = S ++ comma :: (P' ++ R)) by (rewrite Eb, <- E2, <- app_assoc; reflexivity).
  assert (Eac : after_comma ((bytes (text pre), Tok L_PAREN (lit "(")) :: place (bytes (text pre) + 1) body ++ [(bytes (text pre) + 1 + lens body, Tok R_PAREN (lit ")"))])
                = place (o + lens S + 1) (P' ++ R) ++ [(o + lens body, Tok R_PAREN (lit ")"))]).
  { rewrite Eb' at 1. rewrite place_app. cbn [place]. rewrite <- app_assoc.
    change ((bytes (text pre), Tok L_PAREN (lit "(")) :: place (bytes (text pre) + 1) S ++ ?x) with (((bytes (text pre), Tok L_PAREN (lit "(")) :: place (bytes (text pre) + 1) S) ++ x).
    cbn [app]. rewrite app_comm_cons. rewrite after_comma_skip.
    - reflexivity.
    - intros x [<-|Hx]; [discriminate|]. apply (seg_no_comma c u1 u2 (bytes (text pre) + 1) Hc Hu1 Hu2 x Hx).
    - reflexivity. }
  rewrite Eac. rewrite until_app; [| |reflexivity].
  2:{ intros x Hx. apply place_starts in Hx; [|intros e He; apply (listed_pos cores b body Hl); rewrite Eb'; apply in_or_app; right; right; exact He].
      assert (El : lens body = lens S + 1 + lens (P' ++ R)) by (rewrite Eb', lens_app, lens_cons; change (len_of comma) with 1; lia).
      fold o. lia. }
  assert (ElP : lens P = lens S + 1 + lens P') by (rewrite <- E2, lens_app, lens_cons; change (len_of comma) with 1; lia).
  rewrite E2. split.
  - intros H. assert (Hx : forall x, In x (place (o + lens S + 1) (P' ++ R)) -> negb (is_trivia (lkind x)) && ((lstart x <? o + lens (P ++ t1)) || (o + lens (P ++ t1 ++ derive_core bl d) <? lend x)) = false).
    { exact (existsb_out _ _ H). }
    clear H. split.
    + inversion HP' as [|c1 v1 v2 cs1 P'' Hc1 Hv1 Hv2 HP'' E3 E4]; subst; [reflexivity|]. exfalso.
      specialize (Hx (o + lens S + 1 + lens (v1 ++ c1 ++ v2), comma)). 
      assert (Hin : In (o + lens S + 1 + lens (v1 ++ c1 ++ v2), comma) (place (o + lens S + 1) (((v1 ++ c1 ++ v2) ++ comma :: P'') ++ R))).
      { rewrite place_app, place_app. cbn [place]. apply in_or_app; left. apply in_or_app; right. left. reflexivity. }
      apply Hx in Hin. unfold lstart in Hin. cbn [fst lkind snd kind_of comma is_trivia negb andb] in Hin.
      apply orb_false_iff in Hin as [Hin _]. apply Nat.ltb_ge in Hin. rewrite lens_app, ElP, lens_app, lens_cons in Hin. change (len_of comma) with 1 in Hin. lia.
    + destruct HB as [->|(B3 & ->)]; [reflexivity|]. exfalso.
      specialize (Hx (o + lens S + 1 + lens (P' ++ t1 ++ derive_core bl d ++ t2), comma)).
      assert (Hin : In (o + lens S + 1 + lens (P' ++ t1 ++ derive_core bl d ++ t2), comma) (place (o + lens S + 1) (P' ++ R))).
      { unfold R. replace (P' ++ t1 ++ derive_core bl d ++ t2 ++ comma :: B3) with ((P' ++ t1 ++ derive_core bl d ++ t2) ++ comma :: B3) by (rewrite <- !app_assoc; reflexivity).
        rewrite place_app. cbn [place]. apply in_or_app; right. left. reflexivity. }
      apply Hx in Hin. unfold lend, lstart in Hin. cbn [fst lkind snd kind_of comma is_trivia negb andb] in Hin.
      apply orb_false_iff in Hin as [_ Hin]. apply Nat.ltb_ge in Hin. rewrite !lens_app, ElP in Hin. change (bytes (text_of comma)) with 1 in Hin. fold comma in Hin.
      change (len_of comma) with 1 in Hin. lia.
  - intros [-> ->]. inversion HP'; subst P'. cbn [app] in *. unfold R. rewrite app_nil_r. unfold derive_core.
    rewrite place_app, existsb_app, blank_solid by exact H1. cbn [orb app place existsb].
    rewrite <- app_assoc, place_app, existsb_app, blank_solid by exact Hbl. cbn [app place existsb]. rewrite blank_solid by exact H2.
    rewrite !orb_false_r. cbn [orb]. apply orb_false_iff. split.
    + unfold lend, lstart. cbn [fst snd lkind kind_of is_trivia negb andb]. apply orb_false_iff. split; [apply Nat.ltb_ge|apply Nat.ltb_ge].
      * rewrite lens_app, ElP, lens_nil. unfold lens. lia.
      * rewrite !lens_app, ElP, lens_nil, lens_cons. unfold lens, len_of. lia.
    + unfold lend, lstart. cbn [fst snd lkind kind_of is_trivia negb andb paren_tree]. apply orb_false_iff. split; [apply Nat.ltb_ge|apply Nat.ltb_ge].
      * rewrite lens_app, ElP, lens_nil. unfold lens. lia.
      * rewrite !lens_app, ElP, lens_nil, lens_cons, lens_app, lens_cons, lens_nil. unfold lens, len_of, paren_tree. lia.
Qed.
(** Removal of the [derive] with a comma. *)
Lemma core_leaves bl d : leaves_of (derive_core bl d) = (IDENT, lit "derive") :: leaves_of bl ++ ((L_PAREN, lit "(") :: leaves_of d) ++ [(R_PAREN, lit ")")].
Proof.
  unfold derive_core. change (leaves_of (Tok IDENT (lit "derive") :: bl ++ [paren_tree d])) with ((IDENT, lit "derive") :: leaves_of (bl ++ [paren_tree d])).
  rewrite leaves_of_app. change (leaves_of [paren_tree d]) with (leaves (paren_tree d) ++ []). rewrite app_nil_r, leaves_paren. reflexivity.
Qed.
Lemma removal_of_derive pre post P t1 bl d t2 B2 : blank t1 -> blank bl -> blank t2 ->
  let body := P ++ t1 ++ derive_core bl d ++ t2 ++ B2 in
  let o := bytes (text pre) + 1 in
  let dt := (o + lens (P ++ t1), (IDENT, lit "derive")) : leaf in
  let t := (o + lens (P ++ t1 ++ Tok IDENT (lit "derive") :: bl), paren_tree d) : lelem in
  (forall B3, B2 = comma :: B3 ->
     derive_removal (toks_of pre body post) dt t = Done (o + lens (P ++ t1), o + lens (P ++ t1 ++ derive_core bl d ++ t2) + 1))
  /\ (forall B0, B2 = [] -> P = B0 ++ [comma] ->
     derive_removal (toks_of pre body post) dt t = Done (o + lens B0, o + lens (P ++ t1 ++ derive_core bl d))).
Proof.
  intros H1 Hbl H2 body o dt t.
  assert (Elast : elem_last_leaf t = Some (o + lens (P ++ t1 ++ Tok IDENT (lit "derive") :: bl) + bytes (text ((L_PAREN, lit "(") :: leaves_of d)), (R_PAREN, lit ")"))).
  { unfold elem_last_leaf, t. cbn [fst snd]. rewrite leaves_paren, app_comm_cons, place_leaves_app. cbn [place_leaves]. rewrite last_snoc. reflexivity. }
  assert (Elv : leaves_of body = leaves_of (P ++ t1 ++ Tok IDENT (lit "derive") :: bl) ++ ((L_PAREN, lit "(") :: leaves_of d) ++ (R_PAREN, lit ")") :: leaves_of t2 ++ leaves_of B2).
  { unfold body. rewrite !leaves_of_app, core_leaves. change (leaves_of (Tok IDENT (lit "derive") :: bl)) with ((IDENT, lit "derive") :: leaves_of bl).
    do 4 (rewrite <- ?app_assoc; cbn [app]). reflexivity. }
  assert (Hne : snd (R_PAREN, lit ")") <> []) by discriminate.
  destruct (around pre post body _ _ _ (leaves_of t2) B2 Hne Elv) as [Haft _].
  set (last := (o + lens (P ++ t1 ++ Tok IDENT (lit "derive") :: bl) + bytes (text ((L_PAREN, lit "(") :: leaves_of d)), (R_PAREN, lit ")")) : leaf) in *.
  assert (Elt : lend t = o + lens (P ++ t1 ++ derive_core bl d)).
  { unfold lend, t. cbn [fst snd]. unfold derive_core. rewrite !lens_app, !lens_cons, lens_app, lens_cons, lens_nil. unfold lstart, len_of. cbn [fst]. lia. }
  assert (Eend : lf_end last = lend t).
  { unfold last, lf_end, lend, lstart, len_of, t. cbn [fst snd]. rewrite <- text_leaves, leaves_paren, app_comm_cons, text_app, bytes_app.
    change (text [(R_PAREN, lit ")")]) with (lit ")"). lia. }
  destruct (delim_range_end (toks_of pre body post) last) as (s & Ed & _).
  assert (Haft' : leaves_after (toks_of pre body post) last = place_leaves (lf_end last) (leaves_of t2 ++ leaves_of B2 ++ (R_PAREN, lit ")") :: post)) by exact Haft.
  rewrite Haft', skip_blank in Ed by exact H2.
  rewrite Eend in Ed. unfold derive_removal, node_delimiter_end. rewrite Elast. split.
  - intros B3 ->. cbn [leaves_of flat_map leaves comma app place_leaves] in Ed. unfold closest_delimiter in Ed. cbn [closest_which] in Ed.
    change (skind_eqb (lf_kind (lend t + lens t2, (COMMA, lit ","))) COMMA) with true in Ed. cbn iota in Ed.
    rewrite Ed. cbn [obind_o snd]. unfold lf_end. cbn [fst snd]. change (bytes (lit ",")) with 1.
    destruct (Nat.eqb_spec (lend t + lens t2 + 1) (lend t)) as [C|C]; [lia|]. unfold mk_range, dt, lf_start. cbn [fst].
    rewrite (proj2 (Nat.leb_le _ _)); [|rewrite Elt, !lens_app; lia]. rewrite Elt. do 2 f_equal. rewrite !lens_app. lia.
  - intros B0 -> ->. cbn [leaves_of flat_map app place_leaves] in Ed. unfold closest_delimiter in Ed. cbn [closest_which] in Ed.
    change (skind_eqb (lf_kind (lend t + lens t2, (R_PAREN, lit ")"))) COMMA) with false in Ed.
    change (negb (is_trivia (lf_kind (lend t + lens t2, (R_PAREN, lit ")"))))) with true in Ed. cbn iota in Ed.
    rewrite Ed. cbn [obind_o snd]. rewrite Eend, Nat.eqb_refl.
    assert (Hnd : snd (IDENT, lit "derive") <> []) by discriminate.
    assert (Elv2 : leaves_of body = leaves_of ((B0 ++ [comma]) ++ t1) ++ [] ++ (IDENT, lit "derive") :: leaves_of bl ++ leaves_of (paren_tree d :: t2)).
    { unfold body. rewrite app_nil_r. change (leaves_of (paren_tree d :: t2)) with (leaves (paren_tree d) ++ leaves_of t2). rewrite leaves_paren, !leaves_of_app, core_leaves.
      do 4 (rewrite <- ?app_assoc; cbn [app]). reflexivity. }
    destruct (around pre post body _ [] _ (leaves_of bl) (paren_tree d :: t2) Hnd Elv2) as [Ha2 Hb2].
    change (bytes (text [])) with 0 in Ha2, Hb2. rewrite Nat.add_0_r in Ha2, Hb2.
    change (bytes (text pre) + 1 + lens ((B0 ++ [comma]) ++ t1), (IDENT, lit "derive")) with dt in Ha2, Hb2.
    assert (Hnone : closest_delimiter COMMA (leaves_after (toks_of pre body post) dt) = None).
    { rewrite Ha2. rewrite skip_blank by exact Hbl. change (leaves_of (paren_tree d :: t2)) with (leaves (paren_tree d) ++ leaves_of t2). rewrite leaves_paren. reflexivity. }
    destruct (delim_range_end (toks_of pre body post) dt) as (s' & Ed' & Es'). rewrite Hnone in Ed'. specialize (Es' Hnone).
    assert (Hprev : closest_delimiter COMMA (leaves_before (toks_of pre body post) dt)
                    = Some (0 + bytes (text (pre ++ (L_PAREN, lit "(") :: leaves_of B0)), (COMMA, lit ","))).
    { assert (El : pre ++ (L_PAREN, lit "(") :: leaves_of ((B0 ++ [comma]) ++ t1) ++ []
                   = ((pre ++ (L_PAREN, lit "(") :: leaves_of B0) ++ [(COMMA, lit ",")]) ++ leaves_of t1).
      { rewrite app_nil_r, !leaves_of_app. cbn [leaves_of flat_map leaves comma app]. do 3 (rewrite <- ?app_assoc; cbn [app]). reflexivity. }
      refine (eq_trans (f_equal _ Hb2) _).
      refine (eq_trans (f_equal (fun x => closest_delimiter COMMA (rev (place_leaves 0 x))) El) _).
      rewrite skip_blank_back by exact H1. rewrite place_leaves_app, rev_app_distr. reflexivity. }
    rewrite Hprev in Es'. unfold lf_start in Es'. cbn [fst] in Es'.
    assert (Es'' : s' = o + lens B0).
    { rewrite Es', text_app. change (text ((L_PAREN, lit "(") :: leaves_of B0)) with (lit "(" ++ text (leaves_of B0)).
      rewrite !bytes_app, text_leaves_of. change (bytes (lit "(")) with 1. fold (lens B0). unfold o. lia. }
    rewrite Ed'. cbn [obind_o fst]. rewrite Es'', Elt. unfold mk_range. rewrite (proj2 (Nat.leb_le _ _)); [reflexivity|]. rewrite !lens_app. lia.
Qed.

Lemma text_paren body : text_of (paren_tree body) = lit "(" ++ texts_of body ++ lit ")".
Proof.
  rewrite <- text_leaves, leaves_paren. change (text ((L_PAREN, lit "(") :: leaves_of body ++ [(R_PAREN, lit ")")])) with (lit "(" ++ text (leaves_of body ++ [(R_PAREN, lit ")")])).
  rewrite text_app, text_leaves_of. reflexivity.
Qed.
Lemma derive_standalone pre body post a ns :
  ma_path a = Some (lit "derive") -> ma_tree a = Some (tree_at pre body) ->
  Forall balanced body -> by_name (ma_scale a) -> lists_names (texts_of body) ns ->
  attr_scale a = filter_map (ma_scale a) ns
  /\ ((filter_map (ma_scale a) ns = [] /\ forall toks, attr_edits toks a = Done [])
      \/ ((forall n, In n ns -> ma_scale a n <> None) /\ forall toks, attr_edits toks a = Done [edit_delete (ma_range a)])
      \/ (filter_map (ma_scale a) ns <> [] /\ exists e new, lists_names new (filter (not_scale (ma_scale a)) ns)
            /\ (forall toks, attr_edits toks a = Done [e])
            /\ applied (file_text pre body post) e (text pre ++ lit "(" ++ new ++ lit ")" ++ text post))).
Proof.
  intros Hp Ht Hb Hn Hl. destruct (derive_outcome a (bytes (text pre)) body ns Hb Hn Hl) as (Es & Ho1 & Ho2).
  assert (Ed : derive_tree a = Some (None, tree_at pre body)) by (unfold derive_tree, path_is; rewrite Hp, Ht; reflexivity).
  fold (tree_at pre body) in Es, Ho1, Ho2.
  split; [unfold attr_scale; rewrite Ed; exact Es|]. unfold attr_edits. rewrite Ed, Es.
  destruct (filter_map (ma_scale a) ns) as [|k ks] eqn:Ek; [left; auto|]. right.
  destruct (other_items a (tree_at pre body)) as [|x xs] eqn:Eo; [left|right].
  - split; [apply Ho1; reflexivity|]. intros toks. reflexivity.
  - split; [discriminate|]. eexists _, (join (lit ", ") (x :: xs)). split; [apply Ho2; discriminate|]. split; [intros toks; reflexivity|].
    unfold applied, edit_replace, edit_replace_snippet. cbn [te_range te_text]. exists (text pre), (text_of (paren_tree body)), (text post). rewrite file_text_eq.
    unfold lend, lstart, tree_at. cbn [fst snd]. rewrite bytes_app, text_paren. split; [rewrite <- ?app_assoc; reflexivity|].
    split; [reflexivity|]. split; [unfold len_of; rewrite text_paren; reflexivity|]. rewrite <- ?app_assoc. reflexivity.
Qed.

Lemma core_balanced bl d : argument (derive_core bl d) -> Forall balanced d.
Proof.
  intros (H & _). rewrite Forall_forall in H. destruct (H (paren_tree d)) as [Hb _]; [right; apply in_or_app; right; left; reflexivity|].
  unfold paren_tree in Hb. inversion Hb as [|o cs c Hcs Hd [Eo Ec]]. apply app_inj_tail in Ec as [<- _]. exact Hcs.
Qed.
Lemma derive_conditional pre body post cores b i bl d a ns :
  ma_path a = Some (lit "cfg_attr") -> ma_tree a = Some (tree_at pre body) ->
  listed cores b body -> 1 <= i -> nth_error cores i = Some (derive_core bl d) -> blank bl -> Forall no_derive (firstn i cores) ->
  by_name (ma_scale a) -> lists_names (texts_of d) ns ->
  let toks := toks_of pre body post in
  attr_scale a = filter_map (ma_scale a) ns
  /\ ((filter_map (ma_scale a) ns = [] /\ attr_edits toks a = Done [])
      \/ ((forall n, In n ns -> ma_scale a n <> None)
          /\ ((length cores = 2 /\ b = false /\ attr_edits toks a = Done [edit_delete (ma_range a)])
              \/ ((2 < length cores \/ b = true) /\ exists e body', attr_edits toks a = Done [e]
                    /\ listed (without i cores) b body' /\ applied (file_text pre body post) e (file_text pre body' post))))
      \/ (filter_map (ma_scale a) ns <> [] /\ exists e new P Q, body = P ++ derive_core bl d ++ Q
            /\ lists_names new (filter (not_scale (ma_scale a)) ns) /\ attr_edits toks a = Done [e]
            /\ applied (file_text pre body post) e
                 (text pre ++ lit "(" ++ texts_of P ++ lit "derive" ++ texts_of bl ++ lit "(" ++ new ++ lit ")" ++ texts_of Q ++ lit ")" ++ text post))).
Proof.
  intros Hp Ht Hl Hi Hnth Hbl Hnd Hn Hns toks.
  destruct (listed_at cores b body Hl i _ Hnth) as (P & t1 & t2 & B2 & Eb & Hc & Ht1 & Ht2 & HP & Hcase).
  pose proof (core_balanced bl d Hc) as Hbd.
  set (o := bytes (text pre) + 1).
  set (dt := (o + lens (P ++ t1), (IDENT, lit "derive")) : leaf).
  set (t := (o + lens (P ++ t1 ++ Tok IDENT (lit "derive") :: bl), paren_tree d) : lelem).
  assert (Ed : derive_tree a = Some (Some dt, t)).
  { unfold derive_tree, path_is. rewrite Hp, Ht. cbn [str_eqb]. change (str_eqb (lit "cfg_attr") (lit "derive")) with false.
    change (str_eqb (lit "cfg_attr") (lit "cfg_attr")) with true. cbn iota. cbn [obind]. unfold tree_at. rewrite Eb.
    replace (P ++ t1 ++ derive_core bl d ++ t2 ++ B2) with (P ++ t1 ++ derive_core bl d ++ (t2 ++ B2)) by reflexivity.
    rewrite (derive_found _ _ _ _ _ _ _ HP Hnd Ht1 Hbl). reflexivity. }
  destruct (derive_outcome a (fst t) d ns Hbd Hn Hns) as (Es & Ho1 & Ho2). change (fst t, paren_tree d) with t in Es, Ho1, Ho2.
  split; [unfold attr_scale; rewrite Ed; exact Es|]. unfold attr_edits. rewrite Ed, Es, Ht.
  destruct (filter_map (ma_scale a) ns) as [|k ks] eqn:Ek; [left; auto|]. right.
  assert (Elt : lend t = o + lens (P ++ t1 ++ derive_core bl d)).
  { unfold lend, t. cbn [fst snd]. unfold derive_core. rewrite !lens_app, !lens_cons, lens_app, lens_cons, lens_nil. unfold len_of. lia. }
  assert (Hlen : i < length cores) by (apply nth_error_Some; congruence).
  destruct (other_items a t) as [|x xs] eqn:Eo; [left|right].
  - split; [apply Ho1; reflexivity|].
    assert (Hcs : exists c0 cs, firstn i cores = c0 :: cs /\ length cs = i - 1).
    { destruct (firstn i cores) as [|c0 cs] eqn:Ef; [apply (f_equal (@length _)) in Ef; rewrite firstn_length in Ef; cbn [length] in Ef; lia|].
      exists c0, cs. split; [reflexivity|]. apply (f_equal (@length _)) in Ef. rewrite firstn_length in Ef. cbn [length] in Ef. lia. }
    destruct Hcs as (c0 & cs & Ef & Hcs). rewrite Ef in HP.
    assert (HB : B2 = [] \/ exists B3, B2 = comma :: B3) by (destruct Hcase as [(B3 & E & _)|(E & _)]; [right; exists B3; exact E|left; exact E]).
    pose proof (others_iff pre cores b body c0 cs P t1 bl d t2 B2 Hl HP Ht1 Hbl Ht2 Eb HB) as Hoi. cbv zeta in Hoi. fold o in Hoi.
    change (lf_start dt) with (o + lens (P ++ t1)). rewrite Elt.
    destruct (removal_of_derive pre post P t1 bl d t2 B2 Ht1 Hbl Ht2) as [Hr1 Hr2]. cbv zeta in Hr1, Hr2. rewrite <- Eb in Hr1, Hr2. fold toks o dt t in Hr1, Hr2.
    destruct (has_other_attrs (tree_at pre body) (o + lens (P ++ t1)) (o + lens (P ++ t1 ++ derive_core bl d))) eqn:Eh.
    + right. destruct Hcase as [(B3 & EB & HS & _ & Htwo)|(EB & HSi & -> & Hlast)].
      * split; [destruct HS as [HS| ->]; [left; lia|right; reflexivity]|]. rewrite (Hr1 B3 EB). cbn [obind_o].
        eexists _, (P ++ t1 ++ B3). split; [reflexivity|]. split; [apply Htwo; [lia|exact Ht1]|].
        unfold applied, edit_delete, edit_replace_snippet. cbn [te_range te_text]. rewrite Eb, EB.
        replace (P ++ t1 ++ derive_core bl d ++ t2 ++ comma :: B3) with ((P ++ t1) ++ (derive_core bl d ++ t2 ++ [comma]) ++ B3) by (rewrite <- !app_assoc; reflexivity).
        replace (P ++ t1 ++ B3) with ((P ++ t1) ++ [] ++ B3) by (rewrite <- !app_assoc; reflexivity).
        replace (o + lens (P ++ t1 ++ derive_core bl d ++ t2) + 1) with (o + lens ((P ++ t1) ++ (derive_core bl d ++ t2 ++ [comma]))).
        -- apply splice_body. reflexivity.
        -- rewrite !lens_app, lens_cons, lens_nil. change (len_of comma) with 1. lia.
      * assert (H2 : 2 <= i).
        { destruct (Nat.eq_dec i 1) as [E1|E1]; [|lia]. exfalso. assert (C : true = false); [|discriminate C]. apply Hoi. split; [|exact EB].
          destruct cs; [reflexivity|]. cbn [length] in Hcs. lia. }
        split; [left; lia|]. destruct (Hlast Hi) as (B0 & EP & Hf). rewrite (Hr2 B0 EB EP). cbn [obind_o].
        eexists _, (B0 ++ t2). split; [reflexivity|]. split; [apply Hf, Ht2|].
        unfold applied, edit_delete, edit_replace_snippet. cbn [te_range te_text]. rewrite Eb, EB, EP, app_nil_r.
        replace ((B0 ++ [comma]) ++ t1 ++ derive_core bl d ++ t2) with (B0 ++ ([comma] ++ t1 ++ derive_core bl d) ++ t2) by (rewrite <- !app_assoc; reflexivity).
        replace (B0 ++ t2) with (B0 ++ [] ++ t2) by reflexivity.
        replace ((B0 ++ [comma]) ++ t1 ++ derive_core bl d) with (B0 ++ ([comma] ++ t1 ++ derive_core bl d)) by (rewrite <- !app_assoc; reflexivity).
        apply splice_body. reflexivity.
    + left. destruct (proj1 Hoi eq_refl) as [-> EB]. cbn [length] in Hcs. destruct Hcase as [(B3 & E & _)|(_ & HSi & -> & _)]; [congruence|].
      split; [lia|]. split; reflexivity.
  - split; [discriminate|]. eexists _, (join (lit ", ") (x :: xs)), (P ++ t1), (t2 ++ B2).
    split; [rewrite Eb, <- !app_assoc; reflexivity|]. split; [apply Ho2; discriminate|]. split; [reflexivity|].
    unfold applied, edit_replace, edit_replace_snippet. cbn [te_range te_text]. rewrite Elt. change (lstart t) with (o + lens (P ++ t1 ++ Tok IDENT (lit "derive") :: bl)).
    exists (text pre ++ lit "(" ++ texts_of (P ++ t1 ++ Tok IDENT (lit "derive") :: bl)), (text_of (paren_tree d)), (texts_of (t2 ++ B2) ++ lit ")" ++ text post).
    cbn [fst snd]. split; [|split; [|split]].
    + rewrite file_text_eq, Eb. unfold derive_core. rewrite !texts_of_app. change (texts_of (Tok IDENT (lit "derive") :: ?l)) with (lit "derive" ++ texts_of l).
      rewrite !texts_of_app. change (texts_of [paren_tree d]) with (text_of (paren_tree d) ++ []). rewrite app_nil_r, <- !app_assoc. reflexivity.
    + rewrite !bytes_app. change (bytes (lit "(")) with 1. unfold o, lens. lia.
    + rewrite !bytes_app. change (bytes (lit "(")) with 1. unfold o. fold (lens (P ++ t1 ++ Tok IDENT (lit "derive") :: bl)). fold (len_of (paren_tree d)).
      unfold derive_core. rewrite !lens_app, !lens_cons, lens_app, lens_cons, lens_nil. lia.
    + rewrite !texts_of_app. change (texts_of (Tok IDENT (lit "derive") :: bl)) with (lit "derive" ++ texts_of bl). rewrite <- !app_assoc. reflexivity.
Qed.

(** ** C50: the new attributes *)
Definition derives_scale (a : mig_attr) : bool := match attr_scale a with [] => false | _ => true end.
Definition on_item (i : nat) (a : mig_attr) : bool := (item_start a =? i) && derives_scale a.
Lemma add_scale_keys m i o ks : forall x, In x (map fst (add_scale m i o ks)) <-> In x (map fst m) \/ x = i.
Proof.
  induction m as [|[j [q k]] m IH]; intros x; cbn [add_scale map fst In]; [intuition|].
  destruct (Nat.eqb_spec j i) as [->|E]; cbn [map fst In]; [intuition|]. rewrite IH. tauto.
Qed.
Lemma add_scale_nodup m i o ks : NoDup (map fst m) -> NoDup (map fst (add_scale m i o ks)).
Proof.
  induction m as [|[j [q k]] m IH]; intros H; cbn [add_scale map fst]; [constructor; [intros []|constructor]|].
  inversion H as [|? ? Hj Hm]; subst. destruct (Nat.eqb_spec j i) as [->|E]; cbn [map fst]; [constructor; assumption|].
  constructor; [|apply IH, Hm]. intros Hx. apply add_scale_keys in Hx as [Hx|Hx]; [contradiction|]. congruence.
Qed.
Lemma add_scale_In m i o ks : NoDup (map fst m) -> forall j q k, In (j, (q, k)) (add_scale m i o ks) ->
  (j <> i /\ In (j, (q, k)) m) \/ (j = i /\ ((exists k0, In (i, (q, k0)) m /\ k = k0 ++ ks) \/ (~ In i (map fst m) /\ q = o /\ k = ks))).
Proof.
  induction m as [|[j' [q' k']] m IH]; intros H j q k; cbn [add_scale].
  - intros [E|[]]. injection E as <- <- <-. right. split; [reflexivity|]. right. auto.
  - inversion H as [|? ? Hj Hm]; subst. destruct (Nat.eqb_spec j' i) as [->|E]; cbn [In map fst].
    + intros [E|Hin]; [injection E as <- <- <-; right; split; [reflexivity|]; left; exists k'; auto|].
      left. split; [|right; exact Hin]. intros ->. apply Hj. apply in_map_iff. exists (i, (q, k)). auto.
    + intros [E'|Hin]; [injection E' as <- <- <-; left; split; [exact E|left; reflexivity]|].
      destruct (IH Hm j q k Hin) as [[Hn Hi]|[-> [(k0 & Hi & ->)|(Hn & -> & ->)]]]; [left; auto| |].
      * right. split; [reflexivity|]. left. exists k0. auto.
      * right. split; [reflexivity|]. right. split; [|auto]. intros [C|C]; [congruence|contradiction].
Qed.
Lemma collect_spec attrs : NoDup (map fst (collect_scale attrs))
  /\ (forall i, In i (map fst (collect_scale attrs)) <-> exists a, In a attrs /\ on_item i a = true)
  /\ forall i q k, In (i, (q, k)) (collect_scale attrs) ->
       exists a rest, filter (on_item i) attrs = a :: rest /\ q = fst (ma_range a) /\ k = flat_map attr_scale (a :: rest).
Proof.
  unfold collect_scale. induction attrs as [|a attrs IH] using rev_ind.
  - cbn. split; [constructor|]. split; [|intros ? ? ? []]. intros i. split; [intros []|intros (a & [] & _)].
  - rewrite fold_left_app. cbn [fold_left].
    set (m := fold_left (fun m a => match attr_scale a with [] => m | ks => add_scale m (item_start a) (fst (ma_range a)) ks end) attrs []) in *.
    destruct IH as (Hd & Hk & Hi).
    assert (Hx : forall i, (exists x, In x (attrs ++ [a]) /\ on_item i x = true) <-> (exists x, In x attrs /\ on_item i x = true) \/ on_item i a = true).
    { intros i. split.
      - intros (x & Hx & E). apply in_app_or in Hx as [Hx|[<-|[]]]; [left; exists x; auto|right; exact E].
      - intros [(x & Hx & E)|E]; [exists x; split; [apply in_or_app; left; exact Hx|exact E]|exists a; split; [apply in_or_app; right; left; reflexivity|exact E]]. }
    assert (Hf : forall i, filter (on_item i) (attrs ++ [a]) = filter (on_item i) attrs ++ if on_item i a then [a] else []).
    { intros i. rewrite filter_app. reflexivity. }
    destruct (attr_scale a) as [|k0 ks0] eqn:Ea.
    + assert (Hno : forall i, on_item i a = false) by (intros i; unfold on_item, derives_scale; rewrite Ea; apply andb_false_r).
      split; [exact Hd|]. split.
      * intros i. rewrite Hx, Hk, Hno. intuition discriminate.
      * intros i q k Hin. rewrite Hf, Hno, app_nil_r. apply Hi, Hin.
    + assert (Hyes : forall i, on_item i a = (item_start a =? i)) by (intros i; unfold on_item, derives_scale; rewrite Ea; apply andb_true_r).
      split; [apply add_scale_nodup, Hd|]. split.
      * intros i. rewrite add_scale_keys, Hx, Hk, Hyes, Nat.eqb_eq. intuition.
      * intros i q k Hin. rewrite Hf, Hyes. apply add_scale_In in Hin as [[Hn Hin]|[-> [(k1 & Hin & ->)|(Hn & -> & ->)]]]; [| | |exact Hd].
        -- destruct (Nat.eqb_spec (item_start a) i) as [C|_]; [congruence|]. rewrite app_nil_r. apply Hi, Hin.
        -- rewrite Nat.eqb_refl. destruct (Hi _ _ _ Hin) as (a1 & rest & -> & -> & ->). exists a1, (rest ++ [a]). split; [reflexivity|]. split; [reflexivity|].
           rewrite app_comm_cons, flat_map_app. cbn [flat_map]. rewrite Ea, app_nil_r. reflexivity.
        -- rewrite Nat.eqb_refl. assert (En : filter (on_item (item_start a)) attrs = []).
           { apply filter_none. intros x Hin. destruct (on_item (item_start a) x) eqn:E; [|reflexivity]. exfalso. apply Hn, Hk. exists x. auto. }
           rewrite En. exists a, []. cbn [app flat_map]. rewrite Ea, app_nil_r. auto.
Qed.
Lemma inserts_spec ord attrs : (forall m, Permutation (ord m) m) ->
  exists items, NoDup items /\ (forall i, In i items <-> exists a, In a attrs /\ on_item i a = true)
  /\ Forall2 (fun i e => exists a rest, filter (on_item i) attrs = a :: rest
                /\ e = edit_insert (scale_derive_attr (flat_map attr_scale (a :: rest))) (fst (ma_range a))) items (scale_inserts ord attrs).
Proof.
  intros Hp. destruct (collect_spec attrs) as (Hd & Hk & Hi). exists (map fst (ord (collect_scale attrs))).
  pose proof (Permutation_map fst (Hp (collect_scale attrs))) as Hpm.
  split; [apply (Permutation_NoDup (Permutation_sym Hpm)), Hd|]. split.
  - intros i. rewrite <- Hk. split; [apply Permutation_in, Hpm|apply Permutation_in, Permutation_sym, Hpm].
  - unfold scale_inserts. assert (H : forall x, In x (ord (collect_scale attrs)) -> In x (collect_scale attrs)) by (intros x; apply Permutation_in, Hp).
    revert H. generalize (ord (collect_scale attrs)) as l. induction l as [|[i [q k]] l IH]; intros H; cbn [map]; constructor.
    + destruct (Hi i q k (H _ (or_introl eq_refl))) as (a & rest & E & -> & ->). exists a, rest. auto.
    + apply IH. intros x Hx. apply H. right; exact Hx.
Qed.
Lemma all_done_list {A} (l : list (outcome A)) r : all_done l = Done r -> Forall2 (fun x y => x = Done y) l r.
Proof.
  revert r. induction l as [|x l IH]; intros r H; cbn [all_done] in H; [injection H as <-; constructor|].
  destruct x as [x|]; [|discriminate]. cbn [obind_o] in H. destruct (all_done l) as [r'|]; [|discriminate]. cbn [obind_o] in H. injection H as <-.
  constructor; [reflexivity|]. apply IH. reflexivity.
Qed.

(** ** C74 *)
Lemma replace_only pat by_ a b : pat <> [] -> only_occurrence pat a b -> str_replace pat by_ (a ++ pat ++ b) = a ++ by_ ++ b.
Proof.
  intros Hp. induction a as [|c a IH]; intros H.
  - cbn [app]. rewrite str_replace_hit by exact Hp. f_equal. apply str_replace_id; [exact Hp|]. intros (x & y & ->).
    specialize (H (pat ++ x) y). cbn [app] in H. rewrite <- app_assoc in H. specialize (H eq_refl). apply app_eq_nil in H as [H _]. contradiction.
  - cbn [app]. rewrite str_replace_miss; [|exact Hp|].
    + f_equal. apply IH. intros x y E. specialize (H (c :: x) y). cbn [app] in H. rewrite E in H. specialize (H eq_refl). injection H as H. exact H.
    + destruct (strip_prefix pat (c :: a ++ pat ++ b)) as [r|] eqn:E; [|reflexivity]. exfalso. apply strip_prefix_some in E.
      specialize (H [] r). cbn [app] in H. specialize (H E). discriminate.
Qed.
Lemma relocated_spec own target s ls pre l : tidy s ls -> ls = pre ++ [l] -> l <> own ->
  ~ In c_nl target -> ~ In c_cr target ->
  exists ls', is_lines (apply_indenting (reduce_indenting s own) target) ls' /\ relocated own target ls ls'.
Proof.
  intros H El Hl Hn Hr. destruct (reduce_indenting_spec s ls own H) as (ms & E & Hnl & Hd).
  assert (Ht : tidy (reduce_indenting s own) ms).
  { destruct H as ((Es & Hne & Hnl') & Hcr & (pre' & l' & El' & Hl')). split; [|split].
    - split; [exact E|]. split; [|exact Hnl]. intros ->. inversion Hd; subst. apply Hne. symmetry. assumption.
    - rewrite E. intros Hin. apply In_unlines in Hin as [Hin|(m & Hm & Hin)]; [discriminate|]. apply Hcr. rewrite Es.
      destruct (In_nth_error _ _ Hm) as (n & Enm).
      assert (Hx : exists x, nth_error ls n = Some x /\ dedented own x m).
      { clear - Hd Enm. revert n Enm. induction Hd as [|x y xs ys Hxy Hd IH]; intros n E; [destruct n; discriminate|].
        destruct n as [|n]; [injection E as <-; exists x; auto|]. apply IH, E. }
      destruct Hx as (x & Ex & Hx). apply nth_error_In in Ex. apply (unlines_In _ x); [exact Ex|].
      destruct Hx as [->|[-> _]]; [apply in_or_app; right; exact Hin|exact Hin].
    - rewrite El in El', Hd. apply app_inj_tail in El' as [_ El']. subst l'. apply Forall2_app_inv_l in Hd as (ms1 & ms2 & H1 & H2 & Em).
      destruct ms2 as [|m ms2]; [inversion H2|]. assert (Hm : dedented own l m /\ ms2 = []) by (inversion H2 as [|? ? ? ? Hm H3]; inversion H3; auto).
      destruct Hm as [Hm E2]. exists ms1, m. split; [rewrite Em, E2; reflexivity|]. destruct Hm as [Hm|[-> _]]; [|exact Hl'].
      intros ->. apply Hl. rewrite Hm. apply app_nil_r. }
  destruct (apply_indenting_spec _ ms target Ht Hn Hr) as (ls' & (Hls & _) & Hi). exists ls'. split; [exact Hls|].
  unfold relocated. clear - Hd Hi. revert ls' Hi. induction Hd as [|x m xs ms Hx Hd IH]; intros ls' Hi; inversion Hi; subst; constructor; [exists m; auto|].
  apply IH. assumption.
Qed.
Lemma reduce_none s i : match i with Some i => reduce_indenting s i | None => s end = reduce_indenting s (or_empty i).
Proof. destruct i; reflexivity. Qed.
Lemma apply_none s i : match i with Some i => apply_indenting s i | None => s end = apply_indenting s (or_empty i).
Proof. destruct i; reflexivity. Qed.
