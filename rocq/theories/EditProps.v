(** Properties C33, C34, C35. *)
From Verif Require Import Base BaseFacts Unicode PositionModel PositionSpec PositionProofs TranslateModel SyntaxModel
  UtilModel UtilSpec UtilProofs EditModel EditSpec EditProofs.

(** * C33: formatting of edits *)

(** Inserts and replacements keep their range; whitespace is added around the text and, the same, around the snippet. *)
Theorem C33_only_whitespace_added : forall U more e ed ed',
  unicode_ok U -> te_text ed <> [] -> format_in U more e ed = Done ed' ->
  te_range ed' = te_range ed
  /\ exists p s, all_white U p /\ all_white U s /\ te_text ed' = p ++ te_text ed ++ s
       /\ te_snippet ed' = option_map (fun sn => p ++ sn ++ s) (te_snippet ed).
Proof. intros U more e ed ed' HU Hn Hf. exact (format_nonempty U HU _ _ _ _ Hn Hf). Qed.

(** A deletion up to the end of a token stays a deletion and is at most extended over the whitespace that follows. *)
Theorem C33_deletion_partial : forall U more e ed ed' pre post,
  lexed U e -> te_text ed = [] -> format_in U more e ed = Done ed' ->
  leaves e = pre ++ post -> bytes (flat_map snd pre) = snd (te_range ed) ->
  te_text ed' = [] /\ te_snippet ed' = te_snippet ed /\
  (te_range ed' = te_range ed
   \/ exists ws rest, post = (WHITESPACE, ws) :: rest /\ te_range ed' = (fst (te_range ed), snd (te_range ed) + bytes ws)).
Proof.
  intros U more e ed ed' pre post He Hn Hf El Eb.
  destruct (format_delete_spec _ _ _ _ _ Hn Hf) as (H1 & H2 & [H3|(t & rest & H3 & H4 & H5)]).
  - auto.
  - split; [exact H1|]. split; [exact H2|]. right. rewrite <- (file_kt more e) in El.
    apply map_app_inv in El as (tp & tq & Et & Ep & Eq).
    assert (L : laid_out 0 (tp ++ tq)) by (rewrite <- Et; apply file_laid_out).
    assert (Hx : tokens_after (tp ++ tq) (te_range ed) = tq).
    { apply (tokens_after_at _ _ _ 0 L).
      - intros x Hx. apply (file_lexed U more e He). rewrite Et. exact Hx.
      - rewrite text_toks_kt, Ep. exact Eb. }
    rewrite Et in H3. rewrite H3 in Hx. subst tq. cbn [map kt] in Eq. unfold kt at 1 in Eq. rewrite H4 in Eq.
    exists (tk_text t), (map kt rest). split; [symmetry; exact Eq|]. rewrite H5. f_equal.
    apply laid_out_app in L as [_ L]. apply laid_out_cons in L as [L _]. unfold tk_end. rewrite L. f_equal. cbn [plus].
    change (bytes (text_toks tp) = snd (te_range ed)). rewrite text_toks_kt, Ep. exact Eb.
Qed.

(** So applying the formatted edit differs from applying the edit in whitespace only. *)
Theorem C33_visible_text_kept_partial : forall U more e ed ed' result,
  unicode_ok U -> lexed U e ->
  (te_text ed = [] -> ends_on_token e (te_range ed)) ->
  format_in U more e ed = Done ed' -> applied (text_of e) ed result ->
  exists result', applied (text_of e) ed' result' /\ visible U result' = visible U result.
Proof. intros U more e ed ed' r HU He Hd Hf Ha. exact (visible_kept U HU more e He ed ed' r Hf Hd Ha). Qed.
(** The result of applying an edit is unique. *)
Theorem C33_applied_unique : forall text ed r r', applied text ed r -> applied text ed r' -> r = r'.
Proof. intros text ed r r'. apply spliced_fun. Qed.

(** Finding: a deletion that ends inside of a token removes the rest of that token. *)
Definition ex_file : elem :=
  Node SOURCE_FILE [Tok IDENT (lit "ab"); Tok WHITESPACE (lit " "); Tok IDENT (lit "cd")].
Theorem C33_visible_text_kept_refuted : exists U more e ed ed' result result',
  unicode_ok U /\ lexed U e /\ format_in U more e ed = Done ed'
  /\ applied (text_of e) ed result /\ applied (text_of e) ed' result' /\ visible U result' <> visible U result.
Proof.
  exists ascii_unicode, (fun _ => false), ex_file, (edit_delete (0, 1)), (edit_delete (0, 3)), (lit "b cd"), (lit "cd").
  split; [apply ascii_unicode_ok|]. split; [|split; [reflexivity|split; [|split]]].
  - intros k t H. cbn in H. destruct H as [H|[H|[H|[]]]]; inversion H; subst; (split; [discriminate|]); try discriminate.
    intros _ c [<-|[]]. reflexivity.
  - exists [], (lit "a"), (lit "b cd"). repeat split.
  - exists [], (lit "ab "), (lit "cd"). repeat split.
  - discriminate.
Qed.

(** Formatting does not panic for edits on character boundaries of the file, except possibly replacements of
    a part of a whitespace token. *)
Theorem C33_total_partial : forall U more e ed,
  on_chars (text_of e) (te_range ed) ->
  (te_text ed = [] \/ fst (te_range ed) = snd (te_range ed)
   \/ ~ exists pre ws post, leaves e = pre ++ (WHITESPACE, ws) :: post
        /\ bytes (flat_map snd pre) < fst (te_range ed) /\ snd (te_range ed) < bytes (flat_map snd pre) + bytes ws) ->
  exists ed', format_in U more e ed = Done ed'.
Proof.
  intros U more e ed (a & b & c & Et & Ha & Hb) Hc. unfold format_in, format_edit.
  set (toks := tokens_of more 0 None None e).
  replace (len_of e <? snd (te_range ed)) with false.
  2:{ symmetry. apply Nat.ltb_ge. unfold len_of. rewrite Et, app_assoc, bytes_app. lia. }
  destruct (covering_ws toks (te_range ed)) as [t|] eqn:Ec; [|eexists; reflexivity].
  unfold inside_ws. destruct (te_text ed) as [|x text] eqn:Ex; [eexists; reflexivity|].
  unfold covering_ws in Ec. apply find_some in Ec as [Hin Ec].
  apply andb_true_iff in Ec as [Ec Ec2]. apply andb_true_iff in Ec as [Ec0 Ec1].
  apply skind_eqb_eq in Ec0. apply Nat.ltb_lt in Ec1, Ec2.
  apply in_split in Hin as (tp & tq & Es).
  assert (L : laid_out 0 (tp ++ t :: tq)) by (rewrite <- Es; apply file_laid_out).
  apply laid_out_app in L as [_ L]. apply laid_out_cons in L as [L _]. cbn [plus] in L.
  assert (Hstart : tk_start t = bytes (flat_map snd (map kt tp))) by (rewrite <- text_toks_kt; exact L).
  destruct Hc as [Hc|[Hc|Hc]]; [discriminate Hc| |].
  - assert (Htext : text_of e = text_toks tp ++ tk_text t ++ text_toks tq).
    { rewrite (file_text more e). fold toks. rewrite Es. unfold text_toks. rewrite flat_map_app. reflexivity. }
    rewrite Et in Htext. symmetry in Htext.
    destruct (prefix_le (text_toks tp) (tk_text t ++ text_toks tq) a (b ++ c) Htext) as (y & E1 & E2).
    { unfold text_toks. rewrite <- L. lia. }
    destruct (prefix_le y (b ++ c) (tk_text t) (text_toks tq) (eq_sym E2)) as (z & E3 & _).
    { rewrite E1, bytes_app in Ha. unfold tk_end in Ec2. unfold text_toks in Ha. rewrite <- L in Ha. lia. }
    assert (Hy : bytes y = fst (te_range ed) - tk_start t).
    { rewrite E1, bytes_app in Ha. unfold text_toks in Ha. rewrite <- L in Ha. lia. }
    destruct (te_range ed) as [s0 e0]. cbn [fst snd] in *.
    unfold split_bytes. rewrite <- Hy, E3, take_bytes_at. cbv iota beta.
    replace (s0 =? e0) with true by (symmetry; apply Nat.eqb_eq; exact Hc). eexists; reflexivity.
  - exfalso. apply Hc. exists (map kt tp), (tk_text t), (map kt tq). split; [|split].
    + rewrite <- (file_kt more e). fold toks. rewrite Es, map_app. cbn [map]. unfold kt at 2. rewrite Ec0. reflexivity.
    + rewrite <- Hstart. exact Ec1.
    + rewrite <- Hstart. exact Ec2.
Qed.

(** Code put between two whitespace tokens with line breaks is separated from its neighbours by an empty line. *)
Theorem C33_empty_lines_around : forall U more e ed pre before mid after post,
  unicode_ok U -> lexed U e -> te_text ed <> [] ->
  leaves e = pre ++ (WHITESPACE, before) :: mid ++ (WHITESPACE, after) :: post ->
  te_range ed = (bytes (flat_map snd (pre ++ [(WHITESPACE, before)])),
                 bytes (flat_map snd (pre ++ (WHITESPACE, before) :: mid))) ->
  0 < line_feeds before -> 0 < line_feeds after ->
  exists p s, format_in U more e ed = Done (TextEdit (p ++ te_text ed ++ s) (te_range ed)
                                              (option_map (fun sn => p ++ sn ++ s) (te_snippet ed)))
    /\ (p = [] \/ p = [c_nl]) /\ (s = [] \/ s = [c_nl])
    /\ 2 <= line_feeds (before ++ p) /\ 2 <= line_feeds (s ++ after)
    /\ (2 <= line_feeds before -> p = []) /\ (2 <= line_feeds after -> s = []).
Proof.
  intros U more e ed pre before mid after post HU He Hne El Er Hb Ha.
  set (toks := tokens_of more 0 None None e).
  pose proof El as El'. rewrite <- (file_kt more e) in El'. fold toks in El'.
  apply map_app_inv in El' as (tp & tq & Es & Ep & Eq).
  destruct tq as [|tb tq]; [discriminate Eq|]. cbn [map] in Eq. injection Eq as Eb1 Eb2 Eq.
  apply map_app_inv in Eq as (tm & tr & -> & Em & Eq).
  destruct tr as [|ta tr]; [discriminate Eq|]. cbn [map] in Eq. injection Eq as Ea1 Ea2 Eq.
  assert (L : laid_out 0 (tp ++ tb :: tm ++ ta :: tr)) by (rewrite <- Es; apply file_laid_out).
  assert (Hfst : tk_end tb = fst (te_range ed)).
  { rewrite Er. cbn [fst]. apply laid_out_app in L as [_ L]. apply laid_out_cons in L as [L _]. cbn [plus] in L.
    unfold tk_end. rewrite L, flat_map_app, bytes_app. cbn [flat_map snd]. rewrite app_nil_r, <- Ep, Eb2.
    change (flat_map tk_text tp) with (text_toks tp). rewrite text_toks_kt. reflexivity. }
  assert (Hle : fst (te_range ed) <= snd (te_range ed)).
  { rewrite Er. cbn [fst snd]. rewrite !flat_map_app, !bytes_app. cbn [flat_map snd]. rewrite !bytes_app. cbn [bytes]. lia. }
  assert (Hbefore : token_before toks (te_range ed) = Some tb)
    by exact (token_before_at U more e He tp tb _ _ Es Hfst).
  assert (Hcov : covering_ws toks (te_range ed) = None)
    by exact (no_covering more e tp tb _ _ Es Hfst Hle (fun _ => I)).
  assert (Hafter : tokens_after toks (te_range ed) = ta :: tr).
  { rewrite Es. change (tp ++ tb :: tm ++ ta :: tr) with (tp ++ (tb :: tm) ++ ta :: tr). rewrite app_assoc.
    apply (tokens_after_at _ _ _ 0).
    - rewrite <- app_assoc. exact L.
    - intros x Hx. apply (file_lexed U more e He). fold toks. rewrite Es. rewrite <- app_assoc in Hx. exact Hx.
    - rewrite text_toks_kt, map_app, Ep. cbn [map]. unfold kt at 1. rewrite Eb1, Eb2, Em, Er. reflexivity. }
  assert (Wb : all_white U before).
  { apply (He WHITESPACE before); [|reflexivity]. rewrite El. apply in_or_app; right; left; reflexivity. }
  assert (Wa : all_white U after).
  { apply (He WHITESPACE after); [|reflexivity]. rewrite El. apply in_or_app; right; right. apply in_or_app; right; left; reflexivity. }
  destruct (build_affix_feeds U before Wb Hb) as (P1 & P2 & P3).
  destruct (build_affix_feeds U after Wa Ha) as (S1 & S2 & S3).
  exists (opt_str (build_affix U before)), (opt_str (build_affix U after)).
  split; [|rewrite !line_feeds_app; split; [exact P1|split; [exact S1|split; [exact P2|split; [lia|split; assumption]]]]].
  unfold format_in, format_edit. fold toks.
  replace (len_of e <? snd (te_range ed)) with false.
  2:{ symmetry. apply Nat.ltb_ge. rewrite Er. cbn [snd]. unfold len_of. rewrite text_leaves, El, !flat_map_app, !bytes_app.
      cbn [flat_map snd]. rewrite !flat_map_app, !bytes_app. lia. }
  rewrite Hcov, Hbefore, Hafter. cbn [hd_error tl]. destruct (te_text ed) as [|x text] eqn:Et; [contradiction|].
  f_equal. unfold affixes_for. rewrite Eb1. unfold affix_after_ws, ws_or_none. rewrite Eb1, Ea1. cbn [skind_eqb skind_beq andb option_map].
  rewrite Eb2, Ea2. unfold affix_between. rewrite !has_newline_feeds.
  replace (0 <? line_feeds before) with true by (symmetry; apply Nat.ltb_lt; exact Hb).
  replace (0 <? line_feeds after) with true by (symmetry; apply Nat.ltb_lt; exact Ha).
  cbn [andb]. unfold add_affixes. rewrite Et. reflexivity.
Qed.
(** The same for code inserted inside of a whitespace token. *)
Theorem C33_empty_lines_inside : forall U more e ed pre before after post,
  unicode_ok U -> lexed U e -> te_text ed <> [] ->
  leaves e = pre ++ (WHITESPACE, before ++ after) :: post -> before <> [] -> after <> [] ->
  te_range ed = (bytes (flat_map snd pre ++ before), bytes (flat_map snd pre ++ before)) ->
  0 < line_feeds before -> 0 < line_feeds after ->
  exists p s, format_in U more e ed = Done (TextEdit (p ++ te_text ed ++ s) (te_range ed)
                                              (option_map (fun sn => p ++ sn ++ s) (te_snippet ed)))
    /\ (p = [] \/ p = [c_nl]) /\ (s = [] \/ s = [c_nl])
    /\ 2 <= line_feeds (before ++ p) /\ 2 <= line_feeds (s ++ after)
    /\ (2 <= line_feeds before -> p = []) /\ (2 <= line_feeds after -> s = []).
Proof.
  intros U more e ed pre before after post HU He Hne El Hbn Han Er Hb Ha.
  set (toks := tokens_of more 0 None None e).
  pose proof El as El'. rewrite <- (file_kt more e) in El'. fold toks in El'.
  apply map_app_inv in El' as (tp & tq & Es & Ep & Eq).
  destruct tq as [|tb tq]; [discriminate Eq|]. cbn [map] in Eq. injection Eq as Eb1 Eb2 Eq.
  assert (L : laid_out 0 (tp ++ tb :: tq)) by (rewrite <- Es; apply file_laid_out).
  assert (Wab : all_white U (before ++ after)).
  { apply (He WHITESPACE (before ++ after)); [|reflexivity]. rewrite El. apply in_or_app; right; left; reflexivity. }
  assert (Wb : all_white U before) by (intros c Hc; apply Wab, in_or_app; left; exact Hc).
  assert (Wa : all_white U after) by (intros c Hc; apply Wab, in_or_app; right; exact Hc).
  assert (Lb : 0 < bytes before) by (destruct before as [|c s]; [contradiction|]; cbn [bytes]; pose proof (utf8_len_pos c); lia).
  assert (La : 0 < bytes after) by (destruct after as [|c s]; [contradiction|]; cbn [bytes]; pose proof (utf8_len_pos c); lia).
  assert (Hs : tk_start tb = bytes (flat_map snd pre)).
  { apply laid_out_app in L as [_ L]. apply laid_out_cons in L as [L _]. cbn [plus] in L. rewrite L, <- Ep, <- text_toks_kt. reflexivity. }
  assert (He' : tk_end tb = bytes (flat_map snd pre) + bytes before + bytes after).
  { unfold tk_end. rewrite Hs, Eb2, bytes_app. lia. }
  assert (Hcov : covering_ws toks (te_range ed) = Some tb).
  { unfold covering_ws. rewrite Es. rewrite Er. cbn [fst snd]. rewrite bytes_app.
    assert (Hpre : forall x, In x tp -> tk_end x <= tk_start tb).
    { intros x Hx. apply in_split in Hx as (l1 & l2 & ->). rewrite <- app_assoc in L. apply laid_out_app in L as [_ L].
      cbn [app] in L. apply laid_out_cons in L as [_ L]. apply (laid_out_ge _ _ _ L). apply in_or_app; right; left; reflexivity. }
    clear - Hpre Eb1 Hs He' Lb La. induction tp as [|x tp IH].
    - cbn [app find]. rewrite Eb1. cbn [skind_eqb skind_beq andb].
      replace (tk_start tb <? _) with true by (symmetry; apply Nat.ltb_lt; lia).
      replace (_ <? tk_end tb) with true by (symmetry; apply Nat.ltb_lt; lia). reflexivity.
    - cbn [app find]. specialize (Hpre x (or_introl eq_refl)) as Hx.
      replace (_ <? tk_end x) with false by (symmetry; apply Nat.ltb_ge; lia). rewrite andb_false_r.
      apply IH. intros y Hy; apply Hpre; right; exact Hy. }
  destruct (build_affix_feeds U before Wb Hb) as (P1 & P2 & P3).
  destruct (build_affix_feeds U after Wa Ha) as (S1 & S2 & S3).
  exists (opt_str (build_affix U before)), (opt_str (build_affix U after)).
  split; [|rewrite !line_feeds_app; split; [exact P1|split; [exact S1|split; [exact P2|split; [lia|split; assumption]]]]].
  unfold format_in, format_edit. fold toks.
  replace (len_of e <? snd (te_range ed)) with false.
  2:{ symmetry. apply Nat.ltb_ge. rewrite Er. cbn [snd]. unfold len_of. rewrite text_leaves, El, !flat_map_app, !bytes_app.
      cbn [flat_map snd]. rewrite !bytes_app. lia. }
  rewrite Hcov. unfold inside_ws. destruct (te_text ed) as [|x text] eqn:Et; [contradiction|].
  rewrite Er. unfold split_bytes. rewrite Hs, Eb2, bytes_app.
  replace (bytes (flat_map snd pre) + bytes before - bytes (flat_map snd pre)) with (bytes before) by lia.
  rewrite take_bytes_at. cbv iota beta. rewrite Nat.eqb_refl. rewrite skipn_app, skipn_all, Nat.sub_diag. cbn [skipn app].
  unfold affix_between. rewrite !has_newline_feeds.
  replace (0 <? line_feeds before) with true by (symmetry; apply Nat.ltb_lt; exact Hb).
  replace (0 <? line_feeds after) with true by (symmetry; apply Nat.ltb_lt; exact Ha).
  cbn [andb]. unfold add_affixes. rewrite Et, Er, bytes_app. reflexivity.
Qed.
(** Where one of the two has no line break the edit stays as it is. *)
Theorem C33_same_line_around : forall U more e ed pre before mid after post,
  unicode_ok U -> lexed U e -> te_text ed <> [] ->
  leaves e = pre ++ (WHITESPACE, before) :: mid ++ (WHITESPACE, after) :: post ->
  te_range ed = (bytes (flat_map snd (pre ++ [(WHITESPACE, before)])),
                 bytes (flat_map snd (pre ++ (WHITESPACE, before) :: mid))) ->
  line_feeds before = 0 \/ line_feeds after = 0 ->
  format_in U more e ed = Done ed.
Proof.
  intros U more e ed pre before mid after post HU He Hne El Er Hz.
  set (toks := tokens_of more 0 None None e).
  pose proof El as El'. rewrite <- (file_kt more e) in El'. fold toks in El'.
  apply map_app_inv in El' as (tp & tq & Es & Ep & Eq).
  destruct tq as [|tb tq]; [discriminate Eq|]. cbn [map] in Eq. injection Eq as Eb1 Eb2 Eq.
  apply map_app_inv in Eq as (tm & tr & -> & Em & Eq).
  destruct tr as [|ta tr]; [discriminate Eq|]. cbn [map] in Eq. injection Eq as Ea1 Ea2 Eq.
  assert (L : laid_out 0 (tp ++ tb :: tm ++ ta :: tr)) by (rewrite <- Es; apply file_laid_out).
  assert (Hfst : tk_end tb = fst (te_range ed)).
  { rewrite Er. cbn [fst]. apply laid_out_app in L as [_ L]. apply laid_out_cons in L as [L _]. cbn [plus] in L.
    unfold tk_end. rewrite L, flat_map_app, bytes_app. cbn [flat_map snd]. rewrite app_nil_r, <- Ep, Eb2.
    change (flat_map tk_text tp) with (text_toks tp). rewrite text_toks_kt. reflexivity. }
  assert (Hle : fst (te_range ed) <= snd (te_range ed)).
  { rewrite Er. cbn [fst snd]. rewrite !flat_map_app, !bytes_app. cbn [flat_map snd]. rewrite !bytes_app. cbn [bytes]. lia. }
  assert (Hbefore : token_before toks (te_range ed) = Some tb)
    by exact (token_before_at U more e He tp tb _ _ Es Hfst).
  assert (Hcov : covering_ws toks (te_range ed) = None)
    by exact (no_covering more e tp tb _ _ Es Hfst Hle (fun _ => I)).
  assert (Hafter : tokens_after toks (te_range ed) = ta :: tr).
  { rewrite Es. change (tp ++ tb :: tm ++ ta :: tr) with (tp ++ (tb :: tm) ++ ta :: tr). rewrite app_assoc.
    apply (tokens_after_at _ _ _ 0).
    - rewrite <- app_assoc. exact L.
    - intros x Hx. apply (file_lexed U more e He). fold toks. rewrite Es. rewrite <- app_assoc in Hx. exact Hx.
    - rewrite text_toks_kt, map_app, Ep. cbn [map]. unfold kt at 1. rewrite Eb1, Eb2, Em, Er. reflexivity. }
  assert (Wb : all_white U before).
  { apply (He WHITESPACE before); [|reflexivity]. rewrite El. apply in_or_app; right; left; reflexivity. }
  assert (Wa : all_white U after).
  { apply (He WHITESPACE after); [|reflexivity]. rewrite El. apply in_or_app; right; right. apply in_or_app; right; left; reflexivity. }
  unfold format_in, format_edit. fold toks.
  replace (len_of e <? snd (te_range ed)) with false.
  2:{ symmetry. apply Nat.ltb_ge. rewrite Er. cbn [snd]. unfold len_of. rewrite text_leaves, El, !flat_map_app, !bytes_app.
      cbn [flat_map snd]. rewrite !flat_map_app, !bytes_app. lia. }
  rewrite Hcov, Hbefore, Hafter. cbn [hd_error tl]. destruct (te_text ed) as [|x text] eqn:Et; [contradiction|].
  f_equal. unfold affixes_for. rewrite Eb1. unfold affix_after_ws, ws_or_none. rewrite Eb1, Ea1. cbn [skind_eqb skind_beq andb option_map].
  rewrite Eb2, Ea2. unfold affix_between. rewrite !has_newline_feeds.
  replace ((0 <? line_feeds before) && (0 <? line_feeds after)) with false
    by (symmetry; apply andb_false_iff; destruct Hz as [-> | ->]; [left | right]; reflexivity).
  unfold add_affixes. cbn [opt_str app]. rewrite !app_nil_r. destruct ed as [tx rg [sn|]]; cbn [te_text te_range te_snippet option_map]; rewrite ?app_nil_r; reflexivity.
Qed.
Theorem C33_same_line_inside : forall U more e ed pre before after post,
  unicode_ok U -> lexed U e -> te_text ed <> [] ->
  leaves e = pre ++ (WHITESPACE, before ++ after) :: post -> before <> [] -> after <> [] ->
  te_range ed = (bytes (flat_map snd pre ++ before), bytes (flat_map snd pre ++ before)) ->
  line_feeds before = 0 \/ line_feeds after = 0 ->
  format_in U more e ed = Done ed.
Proof.
  intros U more e ed pre before after post HU He Hne El Hbn Han Er Hz.
  set (toks := tokens_of more 0 None None e).
  pose proof El as El'. rewrite <- (file_kt more e) in El'. fold toks in El'.
  apply map_app_inv in El' as (tp & tq & Es & Ep & Eq).
  destruct tq as [|tb tq]; [discriminate Eq|]. cbn [map] in Eq. injection Eq as Eb1 Eb2 Eq.
  assert (L : laid_out 0 (tp ++ tb :: tq)) by (rewrite <- Es; apply file_laid_out).
  assert (Wab : all_white U (before ++ after)).
  { apply (He WHITESPACE (before ++ after)); [|reflexivity]. rewrite El. apply in_or_app; right; left; reflexivity. }
  assert (Wb : all_white U before) by (intros c Hc; apply Wab, in_or_app; left; exact Hc).
  assert (Wa : all_white U after) by (intros c Hc; apply Wab, in_or_app; right; exact Hc).
  assert (Lb : 0 < bytes before) by (destruct before as [|c s]; [contradiction|]; cbn [bytes]; pose proof (utf8_len_pos c); lia).
  assert (La : 0 < bytes after) by (destruct after as [|c s]; [contradiction|]; cbn [bytes]; pose proof (utf8_len_pos c); lia).
  assert (Hs : tk_start tb = bytes (flat_map snd pre)).
  { apply laid_out_app in L as [_ L]. apply laid_out_cons in L as [L _]. cbn [plus] in L. rewrite L, <- Ep, <- text_toks_kt. reflexivity. }
  assert (He' : tk_end tb = bytes (flat_map snd pre) + bytes before + bytes after).
  { unfold tk_end. rewrite Hs, Eb2, bytes_app. lia. }
  assert (Hcov : covering_ws toks (te_range ed) = Some tb).
  { unfold covering_ws. rewrite Es. rewrite Er. cbn [fst snd]. rewrite bytes_app.
    assert (Hpre : forall x, In x tp -> tk_end x <= tk_start tb).
    { intros x Hx. apply in_split in Hx as (l1 & l2 & ->). rewrite <- app_assoc in L. apply laid_out_app in L as [_ L].
      cbn [app] in L. apply laid_out_cons in L as [_ L]. apply (laid_out_ge _ _ _ L). apply in_or_app; right; left; reflexivity. }
    clear - Hpre Eb1 Hs He' Lb La. induction tp as [|x tp IH].
    - cbn [app find]. rewrite Eb1. cbn [skind_eqb skind_beq andb].
      replace (tk_start tb <? _) with true by (symmetry; apply Nat.ltb_lt; lia).
      replace (_ <? tk_end tb) with true by (symmetry; apply Nat.ltb_lt; lia). reflexivity.
    - cbn [app find]. specialize (Hpre x (or_introl eq_refl)) as Hx.
      replace (_ <? tk_end x) with false by (symmetry; apply Nat.ltb_ge; lia). rewrite andb_false_r.
      apply IH. intros y Hy; apply Hpre; right; exact Hy. }
  unfold format_in, format_edit. fold toks.
  replace (len_of e <? snd (te_range ed)) with false.
  2:{ symmetry. apply Nat.ltb_ge. rewrite Er. cbn [snd]. unfold len_of. rewrite text_leaves, El, !flat_map_app, !bytes_app.
      cbn [flat_map snd]. rewrite !bytes_app. lia. }
  rewrite Hcov. unfold inside_ws. destruct (te_text ed) as [|x text] eqn:Et; [contradiction|].
  rewrite Er. unfold split_bytes. rewrite Hs, Eb2, bytes_app.
  replace (bytes (flat_map snd pre) + bytes before - bytes (flat_map snd pre)) with (bytes before) by lia.
  rewrite take_bytes_at. cbv iota beta. rewrite Nat.eqb_refl. rewrite skipn_app, skipn_all, Nat.sub_diag. cbn [skipn app].
  unfold affix_between. rewrite !has_newline_feeds.
  replace ((0 <? line_feeds before) && (0 <? line_feeds after)) with false
    by (symmetry; apply andb_false_iff; destruct Hz as [-> | ->]; [left | right]; reflexivity).
  unfold add_affixes. cbn [opt_str app]. rewrite !app_nil_r. destruct ed as [tx rg [sn|]]; cbn [te_text te_range te_snippet option_map]; rewrite ?app_nil_r; reflexivity.
Qed.
Print Assumptions C33_same_line_around.
Print Assumptions C33_same_line_inside.
(** Finding: for a replacement inside of a whitespace token the wrong part of the whitespace is inspected; it can even
    panic when the whitespace is not ASCII. No edit the analyzer builds replaces whitespace only. *)
Definition ws_unicode : unicode :=
  Unicode ascii_alpha ascii_alnum ascii_upper (fun c => ascii_white c || N.eqb c 8232) ascii_word (fun c => [to_ascii_lower c]).
Theorem C33_empty_lines_inside_refuted :
  (exists U more e ed ed' pre before mid after post,
     unicode_ok U /\ lexed U e /\ te_text ed <> []
     /\ leaves e = pre ++ (WHITESPACE, before ++ mid ++ after) :: post
     /\ te_range ed = (bytes (flat_map snd pre ++ before), bytes (flat_map snd pre ++ before ++ mid))
     /\ 0 < line_feeds before /\ 0 < line_feeds after /\ before <> [] /\ after <> []
     /\ format_in U more e ed = Done ed' /\ te_text ed' = te_text ed /\ line_feeds after = 1)
  /\ (exists U more e ed, unicode_ok U /\ lexed U e /\ on_chars (text_of e) (te_range ed)
        /\ format_in U more e ed = Panic).
Proof.
  split.
  - exists ascii_unicode, (fun _ => false),
      (Node SOURCE_FILE [Tok IDENT (lit "a"); Tok WHITESPACE ([c_nl; c_nl] ++ [c_nl; c_nl] ++ [c_nl]); Tok IDENT (lit "b")]),
      (edit_replace (lit "x") (3, 5)).
    eexists. exists [(IDENT, lit "a")], [c_nl; c_nl], [c_nl; c_nl], [c_nl], [(IDENT, lit "b")].
    split; [apply ascii_unicode_ok|]. split.
    + intros k t H. cbn in H. destruct H as [H|[H|[H|[]]]]; inversion H; subst; (split; [discriminate|]); try discriminate.
      intros _ c Hc. cbn in Hc. repeat destruct Hc as [<-|Hc]; try reflexivity. destruct Hc.
    + split; [discriminate|]. split; [reflexivity|]. split; [reflexivity|]. split; [vm_compute; lia|]. split; [vm_compute; lia|].
      split; [discriminate|]. split; [discriminate|]. split; [vm_compute; reflexivity|]. split; reflexivity.
  - exists ws_unicode, (fun _ => false),
      (Node SOURCE_FILE [Tok WHITESPACE [c_space; 8232%N; c_nl; c_nl]]), (edit_replace (lit "x") (1, 4)).
    split; [|split; [|split]].
    + destruct ascii_unicode_ok. constructor; try assumption. intros c Hc. cbn.
      replace (N.eqb c 8232) with false by (symmetry; apply N.eqb_neq; lia). apply orb_false_r.
    + intros k t [H|[]]. inversion H; subst. split; [discriminate|]. intros _ c Hc.
      cbn in Hc. repeat destruct Hc as [<-|Hc]; try reflexivity. destruct Hc.
    + exists [c_space], [8232%N], [c_nl; c_nl]. repeat split.
    + vm_compute. reflexivity.
Qed.
Example C33_example :
  exists ed', format_in ascii_unicode (fun _ => false)
    (Node SOURCE_FILE [Tok R_CURLY (lit "}"); Tok WHITESPACE [c_nl]; Tok COMMENT (lit "//"); Tok WHITESPACE [c_nl]])
    (edit_insert (lit "fn f() {}") 1) = Done ed'
  /\ te_text ed' = [c_nl; c_nl] ++ lit "fn f() {}".
Proof. eexists. split; vm_compute; reflexivity. Qed.

(** * C34: code actions *)

(** The candidates, in order of discovery: quick fixes of the reported diagnostics that contain the range or lie in it,
    then generic actions. *)
Definition is_candidate_list (fmt : text_edit -> text_edit) (diags : list adiag) (generic : list action) (range : trange)
    (l : list action) : Prop :=
  exists fixes, l = fixes ++ generic_actions fmt generic
    /\ (forall a, In a fixes <-> (exists d fs, In d (diagnostics_of fmt diags) /\ ad_fixes d = Some fs /\ In a fs)
                                 /\ (contains range (ac_range a) \/ contains (ac_range a) range)).

Theorem C34_actions : forall fmt diags generic range,
  exists candidates kept,
    is_candidate_list fmt diags generic range candidates
    /\ keeps_firsts ac_edits candidates kept
    /\ NoDup (map ac_edits (analysis_actions fmt diags generic range))
    /\ (forall a, In a (analysis_actions fmt diags generic range) <-> In a kept)
    /\ (forall i j a b, i < j -> nth_error (analysis_actions fmt diags generic range) i = Some a ->
          nth_error (analysis_actions fmt diags generic range) j = Some b -> kind_before (ac_kind a) (ac_kind b))
    /\ (forall k, of_kind k (analysis_actions fmt diags generic range) = of_kind k kept).
Proof.
  intros fmt diags generic range. unfold analysis_actions.
  set (fixes := filter (fun a => contains_range range (ac_range a) || contains_range (ac_range a) range)
    (flat_map (fun d => match ad_fixes d with Some l => l | None => [] end) (diagnostics_of fmt diags))).
  exists (fixes ++ generic_actions fmt generic), (unique_by edits_eqb ac_edits (fixes ++ generic_actions fmt generic)).
  set (kept := unique_by edits_eqb ac_edits (fixes ++ generic_actions fmt generic)).
  split; [|split; [|split; [|split; [|split]]]].
  - exists fixes. split; [reflexivity|]. intros a. unfold fixes. rewrite filter_In, in_flat_map, orb_true_iff.
    unfold contains_range, contains. rewrite !andb_true_iff, !Nat.leb_le.
    split; intros [(d & Hd) H]; (split; [|exact H]).
    + destruct Hd as [Hd Ha]. destruct (ad_fixes d) as [fs|] eqn:Ef; [|destruct Ha]. exists d, fs; auto.
    + destruct Hd as (fs & Hd & Ef & Ha). exists d. rewrite Ef. auto.
  - apply unique_keeps_firsts, edits_eqb_eq.
  - assert (P : Permutation kept (stable_sort action_order kept)) by apply stable_sort_perm.
    apply (Permutation_NoDup (Permutation_map ac_edits P)). apply unique_by_nodup, edits_eqb_eq.
  - intros a. apply stable_sort_In.
  - pose proof (stable_sort_sorted action_order kept) as S. intros i j a b Hij Hi Hj.
    assert (Hle : action_order a <= action_order b).
    { revert i j Hij Hi Hj. induction S as [|x l S IH F]; intros i j Hij Hi Hj; [destruct i; discriminate Hi|].
      destruct j as [|j]; [lia|]. cbn in Hj. destruct i as [|i].
      - cbn in Hi. inversion Hi; subst. rewrite Forall_forall in F. apply F. apply nth_error_In with j. exact Hj.
      - apply (IH i j); [lia|exact Hi|exact Hj]. }
    unfold action_order in Hle. destruct (ac_kind a), (ac_kind b); cbn; try exact I; lia.
  - intros k. unfold of_kind.
    pose (n := match k with AkMigrate => 0 | AkQuickFix => 1 | AkRefactor => 2 | AkExtract => 3 end).
    assert (X : forall l, filter (fun a => kind_eqb (ac_kind a) k) l = filter (fun a => action_order a =? n) l).
    { intros l. apply filter_ext. intros a. unfold action_order, n. destruct (ac_kind a), k; reflexivity. }
    rewrite !X. apply stable_sort_stable.
Qed.
(** Generic actions: the first discoverer of every list of edits, formatted. *)
Theorem C34_generic_actions : forall fmt raw,
  exists kept, keeps_firsts ac_edits raw kept /\ Forall2 (action_with fmt) kept (generic_actions fmt raw).
Proof.
  intros fmt raw. exists (unique_by edits_eqb ac_edits raw). split; [apply unique_keeps_firsts, edits_eqb_eq|].
  unfold generic_actions. induction (unique_by edits_eqb ac_edits raw) as [|a l IH]; constructor; [|exact IH].
  split; [reflexivity|]. split; [reflexivity|]. split; [reflexivity|]. cbn.
  induction (ac_edits a); constructor; [reflexivity | assumption].
Qed.
(** Every applicable fix and generic action is offered, at least with the same edits. *)
Theorem C34_nothing_lost : forall fmt diags generic range a,
  (In a (generic_actions fmt generic)
   \/ (exists d fs, In d (diagnostics_of fmt diags) /\ ad_fixes d = Some fs /\ In a fs)
      /\ (contains range (ac_range a) \/ contains (ac_range a) range)) ->
  exists b, In b (analysis_actions fmt diags generic range) /\ ac_edits b = ac_edits a.
Proof.
  intros fmt diags generic range a H.
  destruct (C34_actions fmt diags generic range) as (cand & kept & (fixes & -> & Hf) & Hk & _ & Hi & _).
  assert (Ha : In a (fixes ++ generic_actions fmt generic)).
  { apply in_or_app. destruct H as [H|H]; [right; exact H | left; apply Hf; exact H]. }
  assert (X : forall l l', keeps_firsts ac_edits l l' -> forall x, In x l -> exists y, In y l' /\ ac_edits y = ac_edits x).
  { clear. induction 1 as [|l l' x Hk IH Hx|l l' x Hk IH (y & Hy & E)]; intros z Hz; [destruct Hz| |].
    - apply in_app_or in Hz as [Hz|[<-|[]]].
      + destruct (IH z Hz) as (y & Hy & E). exists y. split; [apply in_or_app; left; exact Hy | exact E].
      + exists x. split; [apply in_or_app; right; left; reflexivity | reflexivity].
    - apply in_app_or in Hz as [Hz|[<-|[]]]; [apply IH; exact Hz|].
      destruct (IH y Hy) as (w & Hw & Ew). exists w. split; [exact Hw | congruence]. }
  destruct (X _ _ Hk a Ha) as (b & Hb & E). exists b. split; [apply Hi; exact Hb | exact E].
Qed.
Definition ex_act (l : str) (k : action_kind) (r : trange) (t : str) : action := Action l k r [edit_insert t 3].
Example C34_example :
  map ac_label (analysis_actions (fun e => e)
    [ADiag (lit "m") (0, 9) SevError (Some [ex_act (lit "fix") AkQuickFix (2, 4) (lit "x"); ex_act (lit "far") AkQuickFix (7, 9) (lit "z")])]
    [ex_act (lit "dup") AkRefactor (3, 3) (lit "x"); ex_act (lit "ref") AkRefactor (3, 3) (lit "y"); ex_act (lit "mig") AkMigrate (3, 3) (lit "w")]
    (3, 3)) = [lit "mig"; lit "fix"; lit "ref"].
Proof. vm_compute. reflexivity. Qed.

(** * C35: diagnostics *)

(** The reported diagnostics are, in order of discovery, the first ones with their range, severity and edits, with
    formatted edits and otherwise unchanged. *)
Theorem C35_diagnostics : forall fmt raw,
  exists kept, keeps_firsts report_key raw kept
    /\ NoDup (map report_key kept)
    /\ (forall d, In d raw -> exists d', In d' kept /\ report_key d' = report_key d)
    /\ Forall2 (report_with fmt) kept (diagnostics_of fmt raw).
Proof.
  intros fmt raw.
  assert (K : forall d, diag_key d = report_key d).
  { intros d. unfold diag_key, report_key. destruct (ad_fixes d); [|reflexivity]. cbn. rewrite flat_map_concat_map. reflexivity. }
  exists (unique_by diag_key_eqb diag_key raw).
  assert (E : forall l seen, unique_by_aux diag_key_eqb diag_key seen l = unique_by_aux diag_key_eqb report_key seen l).
  { induction l as [|x l IH]; intros seen; [reflexivity|]. cbn. rewrite K, !IH. reflexivity. }
  split; [|split; [|split]].
  - unfold unique_by. rewrite E. apply unique_keeps_firsts, diag_key_eqb_eq.
  - unfold unique_by. rewrite E. apply (unique_by_nodup diag_key_eqb report_key diag_key_eqb_eq).
  - intros d Hd. unfold unique_by. rewrite E.
    destruct (unique_by_aux_complete diag_key_eqb report_key diag_key_eqb_eq [] raw d Hd) as (y & Hy & Ey); [intros []|].
    exists y; auto.
  - unfold diagnostics_of. induction (unique_by diag_key_eqb diag_key raw) as [|d l IH]; constructor; [|exact IH].
    split; [reflexivity|]. split; [reflexivity|]. split; [reflexivity|]. cbn. destruct (ad_fixes d) as [fs|]; [|exact I]. cbn.
    induction fs as [|a fs IHf]; constructor; [|exact IHf].
    split; [reflexivity|]. split; [reflexivity|]. split; [reflexivity|]. cbn.
    induction (ac_edits a); constructor; [reflexivity | assumption].
Qed.
Example C35_example :
  map ad_message (diagnostics_of (fun e => e)
    [ADiag (lit "a") (0, 1) SevError None; ADiag (lit "b") (0, 1) SevWarning None; ADiag (lit "c") (0, 1) SevError None;
     ADiag (lit "d") (0, 1) SevError (Some [])]) = [lit "a"; lit "b"; lit "d"].
Proof. vm_compute. reflexivity. Qed.

Print Assumptions C33_only_whitespace_added.
Print Assumptions C33_deletion_partial.
Print Assumptions C33_visible_text_kept_partial.
Print Assumptions C33_applied_unique.
Print Assumptions C33_visible_text_kept_refuted.
Print Assumptions C33_total_partial.
Print Assumptions C33_empty_lines_around.
Print Assumptions C33_empty_lines_inside.
Print Assumptions C33_empty_lines_inside_refuted.
Print Assumptions C34_actions.
Print Assumptions C34_generic_actions.
Print Assumptions C34_nothing_lost.
Print Assumptions C35_diagnostics.
