(** Proofs about EditModel. *)
From Verif Require Import Base BaseFacts Unicode PositionModel PositionProofs TranslateModel SyntaxModel UtilModel UtilSpec
  UtilProofs EditModel EditSpec.

Lemma Done_inj {A} (a b : A) : Done a = Done b -> a = b.
Proof. congruence. Qed.

(** ** Tokens *)

Definition plain (t : token) : nat * skind * str := (tk_start t, tk_kind t, tk_text t).

Lemma tokens_at_app a : forall o b, tokens_at o (a ++ b) = tokens_at o a ++ tokens_at (o + bytes (flat_map snd a)) b.
Proof.
  induction a as [|[k t] a IH]; intros o b; cbn [app tokens_at flat_map].
  - cbn [bytes]. rewrite Nat.add_0_r. reflexivity.
  - cbn [snd]. rewrite bytes_app, Nat.add_assoc, IH. reflexivity.
Qed.
Lemma text_leaves e : text_of e = flat_map snd (leaves e).
Proof.
  induction e as [k t|k cs IH] using elem_ind'; [cbn; rewrite app_nil_r; reflexivity|].
  rewrite text_of_node, leaves_node. unfold texts_of, leaves_of.
  induction IH as [|c cs Hc _ IHcs]; [reflexivity|]. cbn [flat_map]. rewrite flat_map_app, Hc, IHcs. reflexivity.
Qed.
Section Tokens.
  Context (more : nat -> bool).
  Lemma tokens_of_node o prev inner k cs :
    tokens_of more o prev inner (Node k cs)
    = tokens_of_list more o None (if is_item_kind more k then Some prev else inner) cs.
  Proof.
    cbn [tokens_of]. generalize (if is_item_kind more k then Some prev else inner) as inner'. intros inner'.
    generalize (@None elem) as pv. revert o. induction cs as [|c cs IH]; intros o pv; [reflexivity|].
    cbn [tokens_of_list]. rewrite IH. reflexivity.
  Qed.
  Lemma tokens_of_plain e : forall o prev inner, map plain (tokens_of more o prev inner e) = tokens_at o (leaves e).
  Proof.
    induction e as [k t|k cs IH] using elem_ind'; intros o prev inner; [reflexivity|].
    rewrite tokens_of_node, leaves_node. generalize (if is_item_kind more k then Some prev else inner) as inner'.
    intros inner'. generalize (@None elem) as pv. revert o. unfold leaves_of.
    induction IH as [|c cs Hc _ IHcs]; intros o pv; [reflexivity|]. cbn [tokens_of_list flat_map].
    rewrite map_app, Hc, IHcs, tokens_at_app. f_equal. unfold len_of. rewrite text_leaves. reflexivity.
  Qed.
End Tokens.

(** The tokens of a file, as a list with its positions. *)
Definition laid_out (o : nat) (toks : list token) : Prop := map plain toks = tokens_at o (map (fun t => (tk_kind t, tk_text t)) toks).
Lemma tokens_of_laid_out more e o prev inner : laid_out o (tokens_of more o prev inner e)
  /\ map (fun t => (tk_kind t, tk_text t)) (tokens_of more o prev inner e) = leaves e.
Proof.
  assert (H : map (fun t => (tk_kind t, tk_text t)) (tokens_of more o prev inner e) = leaves e).
  { pose proof (f_equal (map (fun x : nat * skind * str => (snd (fst x), snd x))) (tokens_of_plain more e o prev inner)) as H.
    rewrite map_map in H. cbn in H. rewrite H. clear H. generalize (leaves e) as l. clear.
    intros l; revert o; induction l as [|[k t] l IH]; intros o; [reflexivity|]. cbn. rewrite IH. reflexivity. }
  split; [|exact H]. unfold laid_out. rewrite H. apply tokens_of_plain.
Qed.
Lemma laid_out_cons o t toks : laid_out o (t :: toks) <-> tk_start t = o /\ laid_out (tk_end t) toks.
Proof.
  unfold laid_out, tk_end, plain. cbn [map tokens_at]. split.
  - intros H. injection H as E1 E2. split; [exact E1|]. subst o. exact E2.
  - intros [E H]. subst o. f_equal. exact H.
Qed.
Lemma laid_out_app o a b : laid_out o (a ++ b) <-> laid_out o a /\ laid_out (o + bytes (flat_map tk_text a)) b.
Proof.
  revert o; induction a as [|t a IH]; intros o; cbn [app flat_map].
  - cbn [bytes]. rewrite Nat.add_0_r. split; [intros H; split; [reflexivity|exact H] | intros [_ H]; exact H].
  - rewrite !laid_out_cons, IH, bytes_app. unfold tk_end. split.
    + intros (E & H1 & H2). subst o. rewrite Nat.add_assoc. auto.
    + intros ((E & H1) & H2). subst o. rewrite Nat.add_assoc in H2. auto.
Qed.
Definition text_toks (toks : list token) : str := flat_map tk_text toks.

(** ** Prefixes of equal length in bytes are equal *)
Lemma prefix_eq (a b c d : str) : a ++ b = c ++ d -> bytes a = bytes c -> a = c /\ b = d.
Proof.
  intros H E. destruct (app_eq_split a b c d H) as [(x & -> & ->)|(x & -> & ->)];
    rewrite bytes_app in E; assert (Hx : bytes x = 0) by lia; apply bytes_zero in Hx; subst x;
    rewrite ?app_nil_r; split; reflexivity.
Qed.
Lemma prefix_le (a b c d : str) : a ++ b = c ++ d -> bytes a <= bytes c -> exists x, c = a ++ x /\ b = x ++ d.
Proof.
  intros H E. destruct (app_eq_split a b c d H) as [(x & -> & ->)|(x & -> & ->)].
  - rewrite bytes_app in E. assert (Hx : bytes x = 0) by lia. apply bytes_zero in Hx. subst x.
    exists []. rewrite !app_nil_r. split; reflexivity.
  - exists x. split; reflexivity.
Qed.

(** ** Affixes are whitespace *)
Lemma white_app U a b : all_white U a -> all_white U b -> all_white U (a ++ b).
Proof. intros Ha Hb c H. apply in_app_or in H as [H|H]; auto. Qed.
Lemma white_nil U : all_white U [].
Proof. intros c []. Qed.
Section White.
  Context (U : unicode) (HU : unicode_ok U).
  Lemma white_nl : all_white U nl.
  Proof. intros c [<-|[]]. rewrite (uo_whitespace U HU) by reflexivity. reflexivity. Qed.
  Lemma take_while_white p s : (forall c, p c = true -> u_whitespace U c = true) -> all_white U (take_while_ch p s).
  Proof.
    intros Hp. induction s as [|c s IH]; cbn [take_while_ch]; [apply white_nil|]. destruct (p c) eqn:E; [|apply white_nil].
    intros x [<-|H]; [apply Hp; exact E | apply IH; exact H].
  Qed.
  Lemma end_indenting_white s : all_white U (end_indenting U s).
  Proof. apply take_while_white. intros c H. apply andb_true_iff in H. apply H. Qed.
  Lemma item_indenting_white prev : all_white U (opt_str (item_indenting U prev)).
  Proof.
    unfold item_indenting. destruct prev as [e|]; [|apply white_nil]. destruct (kind_of e); try apply white_nil.
    apply end_indenting_white.
  Qed.
  Lemma item_children_indenting_white prev : all_white U (item_children_indenting U prev).
  Proof.
    unfold item_children_indenting. pose proof (item_indenting_white prev) as H.
    assert (W : all_white U (lit "    ")).
    { intros c Hc. replace c with c_space by (simpl in Hc; repeat destruct Hc as [<-|Hc]; try reflexivity; destruct Hc).
      rewrite (uo_whitespace U HU) by reflexivity. reflexivity. }
    destruct (item_indenting U prev) as [[|c i]|]; [exact W| |exact W]. apply white_app; exact H.
  Qed.
  Definition white_pair (p : option str * option str) : Prop := all_white U (opt_str (fst p)) /\ all_white U (opt_str (snd p)).
  Lemma build_affix_white s : all_white U (opt_str (build_affix U s)).
  Proof. unfold build_affix. destruct (two_newlines U s); [apply white_nil | apply white_nl]. Qed.
  Lemma affix_between_white b a : white_pair (affix_between U b a).
  Proof.
    unfold affix_between. destruct b as [b|], a as [a|];
      repeat match goal with |- context [if ?x then _ else _] => destruct x end;
      split; cbn [fst snd]; try apply white_nil; apply build_affix_white.
  Qed.
  Lemma affix_after_ws_white b a : white_pair (affix_after_ws U b a).
  Proof.
    unfold affix_after_ws. destruct (ws_or_none b && ws_or_none a); [apply affix_between_white|].
    destruct (ws_or_none b); [|split; apply white_nil]. split; [apply white_nil|]. cbn [snd].
    destruct b as [t|]; [|apply white_nl]. destruct (has_newline (tk_text t)); [|apply white_nil].
    cbn [opt_str]. apply white_app; [apply white_nl|]. apply white_app; [|apply end_indenting_white].
    destruct (two_newlines U (tk_text t)); [apply white_nl | apply white_nil].
  Qed.
  Lemma affixes_for_white b a text : white_pair (affixes_for U b a text).
  Proof.
    assert (Hx : forall (b : bool) x, white_pair
      (if starts_char c_nl text then None
       else Some (nl ++ (if b then [] else nl)
                     ++ (if starts_blank text then []
                         else match x with Some prev => opt_str (item_indenting U prev) | None => [] end)), None)).
    { intros b0 x. split; [|apply white_nil]. cbn [fst]. destruct (starts_char c_nl text); [apply white_nil|]. cbn [opt_str].
      apply white_app; [apply white_nl|]. apply white_app; [destruct b0; [apply white_nil | apply white_nl]|].
      destruct (starts_blank text); [apply white_nil|]. destruct x; [apply item_indenting_white | apply white_nil]. }
    unfold affixes_for. destruct b as [t|]; [|apply affix_after_ws_white].
    destruct (tk_kind t) eqn:Ek; try (split; apply white_nil); try apply Hx; [apply affix_after_ws_white|].
    split; cbn [fst snd].
    - destruct (starts_char c_nl text); [apply white_nil|]. cbn [opt_str]. apply white_app; [apply white_nl|].
      destruct (starts_blank text); [apply white_nil|]. destruct (tk_item t); [apply item_children_indenting_white | apply white_nil].
    - destruct a as [a|]; [|apply white_nil]. destruct (_ && _); [|apply white_nil]. cbn [opt_str].
      apply white_app; [apply white_nl|]. destruct (starts_char c_nl (tk_text a)); [apply white_nil | apply white_nl].
  Qed.

  (** ** Formatting *)
  Definition decorated (e e' : text_edit) : Prop :=
    te_range e' = te_range e
    /\ exists p s, all_white U p /\ all_white U s /\ te_text e' = p ++ te_text e ++ s
         /\ te_snippet e' = option_map (fun sn => p ++ sn ++ s) (te_snippet e).
  Lemma add_affixes_decorated e ps : white_pair ps -> decorated e (add_affixes e ps).
  Proof.
    destruct ps as [p s]. intros [Hp Hs]. split; [reflexivity|]. exists (opt_str p), (opt_str s).
    split; [exact Hp|]. split; [exact Hs|]. split; reflexivity.
  Qed.
  Lemma format_nonempty toks len e e' : te_text e <> [] -> format_edit U toks len e = Done e' -> decorated e e'.
  Proof.
    intros Hne. unfold format_edit. destruct (len <? snd (te_range e)); [discriminate|].
    destruct (covering_ws toks (te_range e)) as [t|].
    - unfold inside_ws. destruct (te_text e) eqn:Et; [contradiction|]. destruct (te_range e) as [s0 e0].
      destruct (split_bytes (s0 - tk_start t) (tk_text t)) as [[before rest]|]; [|discriminate].
      destruct (s0 =? e0).
      + intros H; apply Done_inj in H; subst e'. apply add_affixes_decorated, affix_between_white.
      + destruct (split_bytes (tk_end t - e0) (tk_text t)) as [[x after]|]; [|discriminate].
        intros H; apply Done_inj in H; subst e'. apply add_affixes_decorated, affix_between_white.
    - destruct (te_text e) eqn:Et; [contradiction|]. intros H; apply Done_inj in H; subst e'. apply add_affixes_decorated, affixes_for_white.
  Qed.
End White.

Lemma tokens_after_split toks : forall o r, laid_out o toks ->
  exists pre, toks = pre ++ tokens_after toks r
    /\ (forall t, In t pre -> tk_start t < snd r).
Proof.
  induction toks as [|t toks IH]; intros o r H; [exists []; split; [reflexivity|intros x []]|].
  cbn [tokens_after]. destruct (Nat.leb_spec (snd r) (tk_start t)).
  - exists []. split; [reflexivity | intros x []].
  - apply laid_out_cons in H as [_ H]. destruct (IH _ r H) as (pre & E & Hp). exists (t :: pre).
    split; [rewrite E at 1; reflexivity|]. intros x [<-|Hx]; [assumption | apply Hp; exact Hx].
Qed.
Lemma laid_out_ge o toks t : laid_out o toks -> In t toks -> o <= tk_start t.
Proof.
  revert o; induction toks as [|x toks IH]; intros o H Ht; [destruct Ht|]. apply laid_out_cons in H as [E H].
  destruct Ht as [<-|Ht]; [lia|]. specialize (IH _ H Ht). unfold tk_end in IH. lia.
Qed.
(** The tokens after a range that ends at a token end start right at the end of the range. *)
Lemma tokens_after_at pre post r o : laid_out o (pre ++ post) -> (forall t, In t (pre ++ post) -> tk_text t <> []) ->
  o + bytes (text_toks pre) = snd r -> tokens_after (pre ++ post) r = post.
Proof.
  revert o; induction pre as [|t pre IH]; intros o H Hne E; cbn [app].
  - cbn in E. rewrite Nat.add_0_r in E. destruct post as [|x post]; [reflexivity|]. cbn [tokens_after].
    cbn [app] in H. apply laid_out_cons in H as [Hs _]. rewrite Hs, E, Nat.leb_refl. reflexivity.
  - cbn [app] in H. apply laid_out_cons in H as [Hs H]. cbn [tokens_after].
    assert (Ht : 0 < bytes (tk_text t)).
    { specialize (Hne t (or_introl eq_refl)). destruct (tk_text t) as [|c s] eqn:Et; [contradiction|].
      cbn [bytes]. pose proof (utf8_len_pos c). lia. }
    unfold text_toks in E. cbn [flat_map] in E. rewrite bytes_app in E.
    destruct (Nat.leb_spec (snd r) (tk_start t)); [lia|].
    apply (IH (tk_end t)); [exact H | intros x Hx; apply Hne; right; exact Hx |]. unfold tk_end, text_toks. lia.
Qed.

Lemma format_delete_spec U toks len e e' : te_text e = [] -> format_edit U toks len e = Done e' ->
  te_text e' = [] /\ te_snippet e' = te_snippet e /\
  (te_range e' = te_range e
   \/ exists t rest, tokens_after toks (te_range e) = t :: rest /\ tk_kind t = WHITESPACE
        /\ te_range e' = (fst (te_range e), tk_end t)).
Proof.
  intros He. unfold format_edit. destruct (len <? _); [discriminate|].
  destruct (covering_ws toks (te_range e)) as [t|].
  - unfold inside_ws. rewrite He. intros H; inversion H; subst. auto.
  - rewrite He. intros H; apply Done_inj in H; subst e'. unfold format_delete.
    destruct (tokens_after toks (te_range e)) as [|t rest] eqn:E; cbn [hd_error tl].
    + auto.
    + destruct (_ && _ && _) eqn:B; [|auto]. cbn [te_text te_snippet te_range]. split; [exact He|]. split; [reflexivity|].
      right. exists t, rest. split; [reflexivity|]. split; [|reflexivity].
      apply andb_true_iff in B as [B _]. apply andb_true_iff in B as [_ B]. apply skind_eqb_eq in B. exact B.
Qed.

Lemma visible_app U a b : visible U (a ++ b) = visible U a ++ visible U b.
Proof. apply filter_app. Qed.
Lemma visible_white U s : all_white U s -> visible U s = [].
Proof.
  induction s as [|c s IH]; intros H; [reflexivity|]. cbn. rewrite (H c (or_introl eq_refl)). cbn.
  apply IH. intros x Hx; apply H; right; exact Hx.
Qed.
Lemma spliced_fun text r new x y : spliced text r new x -> spliced text r new y -> x = y.
Proof.
  intros (a & b & c & E & Ha & Hb & ->) (a' & b' & c' & E' & Ha' & Hb' & ->). rewrite E in E'.
  destruct (prefix_eq a (b ++ c) a' (b' ++ c') E' ltac:(congruence)) as [-> E2].
  rewrite bytes_app in Hb, Hb'. destruct (prefix_eq b c b' c' E2 ltac:(lia)) as [_ ->]. reflexivity.
Qed.

(** ** Files *)
Definition kt (t : token) : skind * str := (tk_kind t, tk_text t).
Lemma text_toks_kt toks : text_toks toks = flat_map snd (map kt toks).
Proof. unfold text_toks. induction toks as [|t toks IH]; [reflexivity|]. cbn. rewrite IH. reflexivity. Qed.
Lemma map_app_inv {A B} (f : A -> B) l a b : map f l = a ++ b -> exists x y, l = x ++ y /\ map f x = a /\ map f y = b.
Proof.
  revert l; induction a as [|z a IH]; intros l H; [exists [], l; auto|]. destruct l as [|x l]; [discriminate H|].
  cbn in H. injection H as H1 H2. destruct (IH l H2) as (u & v & -> & Hu & Hv). exists (x :: u), v.
  split; [reflexivity|]. split; [cbn; rewrite H1, Hu; reflexivity | exact Hv].
Qed.

Section File.
  Context (U : unicode) (HU : unicode_ok U) (more : nat -> bool) (e : elem) (He : lexed U e).
  Let toks := tokens_of more 0 None None e.
  Lemma file_laid_out : laid_out 0 toks.
  Proof. apply tokens_of_laid_out. Qed.
  Lemma file_kt : map kt toks = leaves e.
  Proof. apply tokens_of_laid_out. Qed.
  Lemma file_text : text_of e = text_toks toks.
  Proof. rewrite text_leaves, <- file_kt. symmetry. apply text_toks_kt. Qed.
  Lemma file_lexed t : In t toks -> tk_text t <> [] /\ (tk_kind t = WHITESPACE -> all_white U (tk_text t)).
  Proof. intros H. apply He. rewrite <- file_kt. change (In (kt t) (map kt toks)). apply in_map; exact H. Qed.

  Lemma visible_kept ed ed' r :
    format_in U more e ed = Done ed' ->
    (te_text ed = [] -> ends_on_token e (te_range ed)) ->
    applied (text_of e) ed r ->
    exists r', applied (text_of e) ed' r' /\ visible U r' = visible U r.
  Proof.
    intros Hf Hd Ha. destruct (str_eq_dec (te_text ed) []) as [Hn|Hn].
    - specialize (Hd Hn). unfold format_in in Hf. fold toks in Hf.
      destruct (format_delete_spec _ _ _ _ _ Hn Hf) as (H1 & H2 & [H3|(t & rest & H3 & H4 & H5)]).
      + exists r. unfold applied in *. rewrite H1, H3. rewrite Hn in Ha. auto.
      + destruct Hd as (pre & post & El & Eb). rewrite <- file_kt in El.
        apply map_app_inv in El as (tp & tq & Et & Ep & Eq).
        assert (Hx : tokens_after toks (te_range ed) = tq).
        { rewrite Et. apply (tokens_after_at _ _ _ 0).
          - rewrite <- Et. apply file_laid_out.
          - intros x Hx. apply file_lexed. rewrite Et. exact Hx.
          - rewrite text_toks_kt, Ep. exact Eb. }
        rewrite H3 in Hx. subst tq.
        destruct Ha as (a & b & c & Etext & Ha & Hb & ->). rewrite Hn. cbn [app].
        rewrite file_text, Et in Etext. unfold text_toks in Etext. rewrite flat_map_app in Etext. cbn [flat_map] in Etext.
        rewrite (app_assoc a b c) in Etext.
        destruct (prefix_eq (flat_map tk_text tp) (tk_text t ++ flat_map tk_text rest) (a ++ b) c Etext) as [E1 E2].
        { change (bytes (text_toks tp) = bytes (a ++ b)). rewrite Hb, text_toks_kt, Ep. exact Eb. }
        exists (a ++ flat_map tk_text rest). split.
        * unfold applied. rewrite H1, H5. exists a, (b ++ tk_text t), (flat_map tk_text rest). cbn [fst snd].
          split; [|split; [exact Ha|split; [|reflexivity]]].
          -- rewrite file_text, Et. unfold text_toks. rewrite flat_map_app. cbn [flat_map].
             transitivity ((a ++ b) ++ tk_text t ++ flat_map tk_text rest).
             { rewrite <- E1. reflexivity. } rewrite <- !app_assoc. reflexivity.
          -- rewrite app_assoc, bytes_app, Hb. unfold tk_end. f_equal.
             pose proof file_laid_out as L. rewrite Et in L. apply laid_out_app in L as [_ L].
             apply laid_out_cons in L as [L _]. rewrite L. cbn. rewrite <- Eb.
             change (bytes (flat_map snd pre) = bytes (text_toks tp)). rewrite text_toks_kt, Ep. reflexivity.
        * rewrite <- E2, !visible_app. rewrite (visible_white U (tk_text t)); [reflexivity|].
          apply file_lexed; [|exact H4]. rewrite Et. apply in_or_app; right; left; reflexivity.
    - destruct (format_nonempty U HU _ _ _ _ Hn Hf) as (Hr & p & s & Hp & Hs & Ht & _).
      destruct Ha as (a & b & c & Etext & Ha & Hb & ->).
      exists (a ++ (p ++ te_text ed ++ s) ++ c). split.
      + exists a, b, c. rewrite Hr, Ht. auto.
      + rewrite !visible_app, (visible_white U p Hp), (visible_white U s Hs), app_nil_r. reflexivity.
  Qed.

  (** The token before a range. *)
  Lemma token_before_at pre t post r : toks = pre ++ t :: post -> tk_end t = fst r -> token_before toks r = Some t.
  Proof.
    intros E Er. unfold token_before. rewrite E, filter_app. cbn [filter]. rewrite Er, Nat.leb_refl.
    pose proof file_laid_out as L. rewrite E in L. apply laid_out_app in L as [_ L]. apply laid_out_cons in L as [_ L].
    assert (Hp : filter (fun t => tk_end t <=? fst r) post = []).
    { assert (Hx : forall x, In x post -> (tk_end x <=? fst r) = false).
      { intros x Hx. apply Nat.leb_gt. pose proof (laid_out_ge _ _ x L Hx).
        assert (In x toks) by (rewrite E; apply in_or_app; right; right; exact Hx).
        destruct (file_lexed x H0) as [Hne _]. unfold tk_end at 1.
        destruct (tk_text x) as [|c s]; [contradiction|]. cbn [bytes]. pose proof (utf8_len_pos c). lia. }
      clear -Hx. induction post as [|x post IH]; [reflexivity|]. cbn. rewrite (Hx x (or_introl eq_refl)).
      apply IH. intros y Hy; apply Hx; right; exact Hy. }
    rewrite Hp. apply last_opt_app.
  Qed.
  Lemma no_covering pre t post r : toks = pre ++ t :: post -> tk_end t = fst r -> fst r <= snd r ->
    (tk_kind t = WHITESPACE -> True) -> covering_ws toks r = None.
  Proof.
    intros E Er Hr _. unfold covering_ws. destruct (find _ toks) as [x|] eqn:F; [|reflexivity]. exfalso.
    apply find_some in F as [Hx F]. apply andb_true_iff in F as [F F2]. apply andb_true_iff in F as [_ F1].
    apply Nat.ltb_lt in F1, F2. pose proof file_laid_out as L. rewrite E in L, Hx.
    change (pre ++ t :: post) with (pre ++ [t] ++ post) in L. rewrite app_assoc in L.
    apply laid_out_app in L as [L1 L2]. apply in_app_or in Hx as [Hx|[<-|Hx]].
    - apply in_split in Hx as (l1 & l2 & ->). rewrite <- app_assoc in L1. apply laid_out_app in L1 as [_ L1].
      cbn [app] in L1. apply laid_out_cons in L1 as [_ L1].
      assert (tk_end x <= tk_start t). { apply (laid_out_ge _ _ _ L1). apply in_or_app; right; left; reflexivity. }
      unfold tk_end in Er. lia.
    - lia.
    - apply laid_out_app in L1 as [L0 L1]. apply laid_out_cons in L1 as [L1 _].
      pose proof (laid_out_ge _ _ _ L2 Hx) as G. rewrite flat_map_app, bytes_app in G. cbn [flat_map] in G.
      rewrite app_nil_r in G. unfold tk_end in *. lia.
  Qed.
End File.

(** Counting line feeds of whitespace. *)
From Verif Require Import PositionSpec.
Lemma take_while_all_id p s : (forall c, In c s -> p c = true) -> take_while_ch p s = s.
Proof.
  induction s as [|c s IH]; intros H; [reflexivity|]. cbn. rewrite (H c (or_introl eq_refl)), IH; [reflexivity|].
  intros x Hx; apply H; right; exact Hx.
Qed.
Lemma line_feeds_filter s : length (filter (N.eqb c_nl) s) = line_feeds s.
Proof.
  unfold line_feeds. induction s as [|c s IH]; [reflexivity|]. cbn [filter count_occ].
  destruct (N.eqb_spec c_nl c) as [<-|Hn]; destruct (N.eq_dec _ _); cbn; try congruence; rewrite IH; reflexivity.
Qed.
Lemma two_newlines_white U s : all_white U s -> two_newlines U s = (1 <? line_feeds s).
Proof. intros H. unfold two_newlines. rewrite (take_while_all_id _ _ H), line_feeds_filter. reflexivity. Qed.
Lemma has_newline_feeds s : has_newline s = (0 <? line_feeds s).
Proof.
  unfold has_newline. destruct (mem_char c_nl s) eqn:E; symmetry.
  - apply mem_char_In in E. apply Nat.ltb_lt. unfold line_feeds. apply count_occ_In. exact E.
  - apply Nat.ltb_ge. unfold line_feeds. destruct (count_occ N.eq_dec s c_nl) eqn:C; [lia|].
    assert (X : In c_nl s) by (apply (count_occ_In N.eq_dec); lia). apply mem_char_In in X. congruence.
Qed.
Lemma build_affix_feeds U s : all_white U s -> 0 < line_feeds s ->
  let p := opt_str (build_affix U s) in (p = [] \/ p = [c_nl]) /\ 2 <= line_feeds s + line_feeds p
    /\ (2 <= line_feeds s -> p = []).
Proof.
  intros Hw H0. unfold build_affix. rewrite (two_newlines_white U s Hw). destruct (Nat.ltb_spec 1 (line_feeds s)); cbn.
  - split; [left; reflexivity|]. split; [lia|reflexivity].
  - split; [right; reflexivity|]. split; [|lia]. change (line_feeds nl) with 1. lia.
Qed.

(** ** Deduplication *)
Lemma range_eqb_eq a b : range_eqb a b = true <-> a = b.
Proof.
  unfold range_eqb. rewrite andb_true_iff, !Nat.eqb_eq. destruct a, b; cbn. split; [intros [-> ->]; reflexivity|].
  intros H; inversion H; auto.
Qed.
Lemma opt_str_eqb_eq a b : opt_str_eqb a b = true <-> a = b.
Proof.
  destruct a as [a|], b as [b|]; cbn; rewrite ?str_eqb_eq; split; intros H; try congruence; try discriminate; reflexivity.
Qed.
Lemma edit_eqb_eq a b : edit_eqb a b = true <-> a = b.
Proof.
  unfold edit_eqb. rewrite !andb_true_iff, str_eqb_eq, range_eqb_eq, opt_str_eqb_eq. destruct a, b; cbn.
  split; [intros [[-> ->] ->]; reflexivity|]. intros H; inversion H; auto.
Qed.
Lemma edits_eqb_eq a b : edits_eqb a b = true <-> a = b.
Proof.
  revert b; induction a as [|x a IH]; intros [|y b]; cbn; try (split; [discriminate|discriminate]); [tauto|].
  rewrite andb_true_iff, edit_eqb_eq, IH. split; [intros [-> ->]; reflexivity|]. intros H; inversion H; auto.
Qed.
Lemma severity_eqb_eq a b : severity_eqb a b = true <-> a = b.
Proof. destruct a, b; cbn; split; congruence. Qed.
Lemma diag_key_eqb_eq a b : diag_key_eqb a b = true <-> a = b.
Proof.
  destruct a as [[ra sa] ea], b as [[rb sb] eb]. cbn. rewrite !andb_true_iff, range_eqb_eq, severity_eqb_eq.
  assert (X : match ea, eb with Some x, Some y => edits_eqb x y | None, None => true | _, _ => false end = true <-> ea = eb).
  { destruct ea as [x|], eb as [y|]; rewrite ?edits_eqb_eq; split; intros H; try congruence; try discriminate; reflexivity. }
  rewrite X. split; [intros [[-> ->] ->]; reflexivity|]. intros H; inversion H; auto.
Qed.
Lemma unique_keeps_firsts {A K} (keqb : K -> K -> bool) (key : A -> K) (Heq : forall a b, keqb a b = true <-> a = b) l :
  keeps_firsts key l (unique_by keqb key l).
Proof.
  induction l as [|x l IH] using rev_ind; [constructor|].
  rewrite (unique_by_app_last keqb key Heq). destruct (existsb _ _) eqn:E.
  - rewrite app_nil_r. apply kf_old; [exact IH|]. apply (existsb_keqb keqb Heq) in E.
    apply in_map_iff in E as (y & E & Hy). exists y; auto.
  - apply kf_new; [exact IH|]. intros y Hy C. assert (X : existsb (keqb (key x)) (map key l) = true); [|congruence].
    apply (existsb_keqb keqb Heq). rewrite <- C. apply in_map; exact Hy.
Qed.
