From Verif Require Import Base BaseFacts PositionModel PositionSpec.

Lemma utf8_len_pos c : 1 <= utf8_len c.
Proof. unfold utf8_len. destruct (c <? 128)%N, (c <? 2048)%N, (c <? 65536)%N; lia. Qed.

Lemma utf8_len_nl : utf8_len c_nl = 1.
Proof. reflexivity. Qed.

Lemma bytes_app a b : bytes (a ++ b) = bytes a + bytes b.
Proof. induction a as [|c a IH]; simpl; [reflexivity | rewrite IH; lia]. Qed.

(** The wide characters of a piece of line starting at byte column [col]. *)
Fixpoint wides (col : nat) (l : str) : list wide_char :=
  match l with
  | [] => []
  | c :: l' =>
      let n := utf8_len c in
      if 1 <? n then WideChar col (col + n) :: wides (col + n) l' else wides (col + n) l'
  end.

Fixpoint first_line (t : str) : str :=
  match t with
  | [] => []
  | c :: t' => if N.eqb c c_nl then [] else c :: first_line t'
  end.

Lemma wides_app col a b : wides col (a ++ b) = wides col a ++ wides (col + bytes a) b.
Proof.
  revert col; induction a as [|c a IH]; intros col; simpl.
  - rewrite Nat.add_0_r; reflexivity.
  - destruct (1 <? utf8_len c); simpl; rewrite IH, Nat.add_assoc; reflexivity.
Qed.

(** Newline offsets are above the current position. *)
Lemma analyze_bound t : forall pos col cur n,
  In n (fst (analyze t pos col cur)) -> pos < n.
Proof.
  induction t as [|c t IH]; intros pos col cur n; simpl; [contradiction|].
  destruct (N.eqb c c_nl); simpl.
  - intros [<-|H]; [lia | apply IH in H; lia].
  - intros H; apply IH in H; lia.
Qed.

Lemma analyze_increasing t : forall pos col cur,
  StronglySorted lt (fst (analyze t pos col cur)).
Proof.
  induction t as [|c t IH]; intros pos col cur; simpl; [constructor|].
  destruct (N.eqb c c_nl); simpl; [|apply IH].
  constructor; [apply IH|]. apply Forall_forall. intros n Hn.
  eapply analyze_bound; exact Hn.
Qed.

Lemma analyze_wide_hd t : forall pos col cur,
  nth_error (snd (analyze t pos col cur)) 0 = Some (rev cur ++ wides col (first_line t)).
Proof.
  induction t as [|c t IH]; intros pos col cur; cbn [analyze first_line].
  - simpl. rewrite app_nil_r; reflexivity.
  - destruct (N.eqb c c_nl) eqn:E.
    + simpl. rewrite app_nil_r; reflexivity.
    + cbn zeta. rewrite IH. cbn [wides]. destruct (1 <? utf8_len c) eqn:E1; simpl; [rewrite <- app_assoc|]; reflexivity.
Qed.

Lemma nl_existsb s : existsb (N.eqb c_nl) s = true <-> In c_nl s.
Proof. apply (mem_char_In c_nl s). Qed.

Lemma line_feeds_0 s : line_feeds s = 0 <-> existsb (N.eqb c_nl) s = false.
Proof.
  unfold line_feeds. rewrite <- count_occ_not_In. split.
  - intros H. apply not_true_is_false. rewrite nl_existsb. exact H.
  - intros H Hin. apply nl_existsb in Hin. congruence.
Qed.

Lemma after_last_nl_none s : line_feeds s = 0 -> after_last_nl s = s.
Proof.
  intros H. destruct s as [|c s]; [reflexivity|]. apply line_feeds_0 in H. simpl in H.
  apply orb_false_iff in H. destruct H as [H1 H2]. cbn [after_last_nl].
  rewrite H2. rewrite N.eqb_sym, H1. reflexivity.
Qed.

Lemma line_feeds_cons c s : line_feeds (c :: s) = (if N.eqb c c_nl then 1 else 0) + line_feeds s.
Proof.
  unfold line_feeds; simpl. destruct (N.eq_dec c c_nl) as [E|E].
  - apply N.eqb_eq in E; rewrite E; reflexivity.
  - apply N.eqb_neq in E; rewrite E; reflexivity.
Qed.

Lemma line_feeds_app a b : line_feeds (a ++ b) = line_feeds a + line_feeds b.
Proof. unfold line_feeds. apply count_occ_app. Qed.

Lemma after_last_nl_cons_nl c s :
  N.eqb c c_nl = true -> after_last_nl (c :: s) = after_last_nl s.
Proof.
  intros E. cbn [after_last_nl]. destruct (existsb (N.eqb c_nl) s) eqn:Es; [reflexivity|].
  rewrite E. symmetry. apply after_last_nl_none. apply line_feeds_0; exact Es.
Qed.

Lemma after_last_nl_cons_pos c s :
  0 < line_feeds s -> after_last_nl (c :: s) = after_last_nl s.
Proof.
  intros H. cbn [after_last_nl]. destruct (existsb (N.eqb c_nl) s) eqn:Es; [reflexivity|].
  apply line_feeds_0 in Es. lia.
Qed.

Lemma after_last_nl_bytes s : bytes (after_last_nl s) <= bytes s.
Proof.
  induction s as [|c s IH]; [simpl; lia|]. cbn [after_last_nl].
  destruct (existsb (N.eqb c_nl) s); [simpl; lia|]. destruct (N.eqb c c_nl); simpl; lia.
Qed.

Lemma partition_point_0 p (l : list nat) : (forall n, In n l -> p n = false) -> partition_point p l = 0.
Proof. destruct l as [|x l]; simpl; intros H; [reflexivity|]. rewrite (H x); auto. Qed.

(** The structure of the index around a point of the text. *)
Lemma analyze_at pre : forall post pos col cur,
  let r := analyze (pre ++ post) pos col cur in
  partition_point (fun n => n <=? pos + bytes pre) (fst r) = line_feeds pre
  /\ match line_feeds pre with
     | 0 => nth_error (snd r) 0 = Some (rev cur ++ wides col (pre ++ first_line post))
     | S i => nth_error (fst r) i = Some (pos + (bytes pre - bytes (after_last_nl pre)))
              /\ nth_error (snd r) (S i) = Some (wides 0 (after_last_nl pre ++ first_line post))
     end.
Proof.
  induction pre as [|c pre IH]; intros post pos col cur.
  - change ([] ++ post) with post. change ([] ++ first_line post) with (first_line post).
    cbn [bytes line_feeds count_occ]. rewrite Nat.add_0_r. split.
    + apply partition_point_0. intros n Hn. apply analyze_bound in Hn.
      apply Nat.leb_gt. exact Hn.
    + unfold line_feeds; simpl. apply analyze_wide_hd.
  - cbn zeta. rewrite line_feeds_cons.
    change ((c :: pre) ++ post) with (c :: (pre ++ post)).
    change ((c :: pre) ++ first_line post) with (c :: (pre ++ first_line post)).
    cbn [analyze bytes].
    destruct (N.eqb c c_nl) eqn:E.
    + cbn [fst snd]. specialize (IH post (pos + 1) 0 []). cbn zeta in IH.
      destruct IH as [IH1 IH2].
      assert (Hn : utf8_len c = 1) by (apply N.eqb_eq in E; subst; reflexivity).
      rewrite Hn. cbn [partition_point].
      assert (Hle : (pos + 1 <=? pos + (1 + bytes pre)) = true) by (apply Nat.leb_le; lia).
      rewrite Hle. cbn [Nat.add].
      replace (pos + S (bytes pre)) with (pos + 1 + bytes pre) by lia.
      rewrite IH1. split; [reflexivity|].
      rewrite after_last_nl_cons_nl by exact E.
      destruct (line_feeds pre) as [|i] eqn:El.
      * cbn [nth_error]. rewrite after_last_nl_none by exact El.
        split; [f_equal; lia | exact IH2].
      * cbn [nth_error]. destruct IH2 as [IH2 IH3]. rewrite IH2. split.
        -- f_equal. pose proof (after_last_nl_bytes pre). lia.
        -- exact IH3.
    + specialize (IH post (pos + utf8_len c) (col + utf8_len c)
        (if 1 <? utf8_len c then WideChar col (col + utf8_len c) :: cur else cur)).
      cbn zeta in IH. destruct IH as [IH1 IH2].
      replace (pos + (utf8_len c + bytes pre)) with (pos + utf8_len c + bytes pre) by lia.
      rewrite IH1, Nat.add_0_l. split; [reflexivity|].
      destruct (line_feeds pre) as [|i] eqn:El.
      * rewrite IH2. cbn [wides]. simpl.
        destruct (1 <? utf8_len c); simpl; [rewrite <- app_assoc|]; reflexivity.
      * destruct IH2 as [IH2 IH3]. rewrite after_last_nl_cons_pos by lia. rewrite IH2. split.
        -- f_equal. pose proof (after_last_nl_bytes pre). lia.
        -- exact IH3.
Qed.

(** Columns. *)
Definition wunits (e : wide_enc) (s : str) : nat := measure e s.

Lemma wide_len_units e c col :
  1 < utf8_len c -> wide_len e (WideChar col (col + utf8_len c)) = char_units e c.
Proof.
  unfold wide_len, wc_len, char_units, utf8_len; simpl. intros H.
  destruct e; [|reflexivity].
  destruct (c <? 128)%N; [lia|]. destruct (c <? 2048)%N eqn:E2.
  - assert ((c <? 65536)%N = true) as -> by (apply N.ltb_lt in E2; apply N.ltb_lt; lia).
    destruct (Nat.eqb_spec (col + 2 - col) 4); [lia|reflexivity].
  - destruct (c <? 65536)%N.
    + destruct (Nat.eqb_spec (col + 3 - col) 4); [lia|reflexivity].
    + destruct (Nat.eqb_spec (col + 4 - col) 4); [reflexivity|lia].
Qed.

Lemma char_units_le e c : 1 <= char_units e c <= utf8_len c.
Proof.
  unfold char_units, utf8_len. destruct e.
  - destruct (c <? 128)%N eqn:E1, (c <? 2048)%N eqn:E2, (c <? 65536)%N eqn:E3;
      rewrite ?N.ltb_lt, ?N.ltb_ge in *; lia.
  - destruct (c <? 128)%N, (c <? 2048)%N, (c <? 65536)%N; lia.
Qed.

Lemma char_units_ascii e c : (1 <? utf8_len c) = false -> char_units e c = 1 /\ utf8_len c = 1.
Proof.
  intros H. apply Nat.ltb_ge in H. pose proof (utf8_len_pos c). pose proof (char_units_le e c). lia.
Qed.

Lemma measure_le_bytes e s : measure e s <= bytes s.
Proof. induction s as [|c s IH]; simpl; [lia|]. pose proof (char_units_le e c). lia. Qed.

Lemma to_wide_loop_spec e a b : forall c0 x,
  bytes a <= x ->
  to_wide_loop e (c0 + bytes a) x (wides c0 (a ++ b)) = Some (x - (bytes a - measure e a)).
Proof.
  induction a as [|c a IH]; intros c0 x Hx; cbn [app wides bytes measure].
  - rewrite !Nat.add_0_r, Nat.sub_0_r.
    assert (G : forall c1, c0 <= c1 -> to_wide_loop e c0 x (wides c1 b) = Some x).
    { clear. induction b as [|c b IH]; intros c1 H1; simpl; [reflexivity|].
      pose proof (utf8_len_pos c). destruct (1 <? utf8_len c); simpl.
      - destruct (Nat.leb_spec (c1 + utf8_len c) c0); [lia|reflexivity].
      - apply IH; lia. }
    apply G; lia.
  - cbn [bytes] in Hx. pose proof (char_units_le e c) as Hu. pose proof (measure_le_bytes e a) as Hm.
    destruct (1 <? utf8_len c) eqn:E.
    + cbn [to_wide_loop wc_end].
      assert ((c0 + utf8_len c <=? c0 + (utf8_len c + bytes a)) = true) as -> by (apply Nat.leb_le; lia).
      rewrite wide_len_units by (apply Nat.ltb_lt; exact E).
      unfold wc_len; cbn [wc_end wc_start]. unfold checked_sub.
      assert ((c0 + utf8_len c - c0 - char_units e c <=? x) = true) as -> by (apply Nat.leb_le; lia).
      rewrite Nat.add_assoc, IH by lia. f_equal. lia.
    + destruct (char_units_ascii e c E) as [E1 E2].
      rewrite Nat.add_assoc, IH by lia. f_equal. lia.
Qed.

Lemma to_utf8_loop_spec e a b : forall c0,
  to_utf8_loop e (c0 + measure e a) (wides c0 (a ++ b)) = c0 + bytes a.
Proof.
  induction a as [|c a IH]; intros c0; cbn [app wides bytes measure].
  - rewrite !Nat.add_0_r.
    assert (G : forall c1, c0 <= c1 -> to_utf8_loop e c0 (wides c1 b) = c0).
    { clear. induction b as [|c b IH]; intros c1 H1; simpl; [reflexivity|].
      pose proof (utf8_len_pos c). destruct (1 <? utf8_len c); simpl.
      - destruct (Nat.ltb_spec c1 c0); [lia|reflexivity].
      - apply IH; lia. }
    apply G; lia.
  - pose proof (char_units_le e c) as Hu.
    destruct (1 <? utf8_len c) eqn:E.
    + cbn [to_utf8_loop wc_start].
      assert ((c0 <? c0 + (char_units e c + measure e a)) = true) as -> by (apply Nat.ltb_lt; lia).
      rewrite wide_len_units by (apply Nat.ltb_lt; exact E).
      unfold wc_len; cbn [wc_end wc_start].
      replace (c0 + (char_units e c + measure e a) + (c0 + utf8_len c - c0 - char_units e c))
         with (c0 + utf8_len c + measure e a) by lia.
      rewrite IH; lia.
    + destruct (char_units_ascii e c E) as [E1 E2].
      replace (c0 + (char_units e c + measure e a)) with (c0 + utf8_len c + measure e a) by lia.
      rewrite IH; lia.
Qed.

(** The boundary check of [try_line_col]. *)
Lemma boundary_check a b :
  forallb (fun w => (bytes a <=? wc_start w) || (wc_end w <=? bytes a)) (wides 0 (a ++ b)) = true.
Proof.
  rewrite wides_app, forallb_app, andb_true_iff; simpl. split.
  - assert (G : forall c0 x, c0 + bytes a <= x ->
      forallb (fun w => (x <=? wc_start w) || (wc_end w <=? x)) (wides c0 a) = true).
    { induction a as [|c a IH]; intros c0 x H; simpl in *; [reflexivity|].
      destruct (1 <? utf8_len c); simpl; [|apply IH; lia].
      rewrite andb_true_iff, orb_true_iff. split; [right; apply Nat.leb_le; lia | apply IH; lia]. }
    apply (G 0); lia.
  - assert (G : forall c0 x, x <= c0 ->
      forallb (fun w => (x <=? wc_start w) || (wc_end w <=? x)) (wides c0 b) = true).
    { induction b as [|c b IH]; intros c0 x H; simpl in *; [reflexivity|].
      destruct (1 <? utf8_len c); simpl; [|apply IH; lia].
      rewrite andb_true_iff, orb_true_iff. split; [left; apply Nat.leb_le; lia | apply IH; lia]. }
    apply G; lia.
Qed.

Lemma bytes_zero s : bytes s = 0 -> s = [].
Proof. destruct s as [|c s]; [reflexivity|]. simpl. pose proof (utf8_len_pos c). lia. Qed.

Lemma line_col_at (pre post : str) :
  let li := new_line_index (pre ++ post) in
  try_line_col li (bytes pre) = Some (line_feeds pre, bytes (after_last_nl pre))
  /\ wide_of_line li (line_feeds pre) = wides 0 (after_last_nl pre ++ first_line post)
  /\ start_offset li (line_feeds pre) = Some (bytes pre - bytes (after_last_nl pre)).
Proof.
  cbn zeta. unfold try_line_col, new_line_index, wide_of_line, start_offset. cbn [li_len li_newlines li_wide].
  pose proof (analyze_at pre post 0 0 []) as H. cbn zeta in H. rewrite Nat.add_0_l in H.
  destruct H as [H1 H2]. rewrite H1.
  assert ((bytes (pre ++ post) <? bytes pre) = false) as ->.
  { apply Nat.ltb_ge. rewrite bytes_app. lia. }
  pose proof (after_last_nl_bytes pre) as Hb.
  destruct (line_feeds pre) as [|i] eqn:El.
  - rewrite H2. simpl rev. cbn [app]. rewrite after_last_nl_none by exact El.
    rewrite Nat.sub_0_r, Nat.sub_diag, boundary_check. auto.
  - destruct H2 as [H2 H3]. rewrite H2, H3. cbn [Nat.add].
    replace (bytes pre - (bytes pre - bytes (after_last_nl pre))) with (bytes (after_last_nl pre)) by lia.
    rewrite boundary_check. auto.
Qed.

Lemma units_utf16 s : forall k, str_eqb k UTF16 = true -> units k s = measure Wide16 s.
Proof.
  intros k Hk. unfold units. induction s as [|c s IH]; simpl; [reflexivity|].
  rewrite IH. f_equal. unfold units1, char_units. rewrite Hk.
  destruct (N.leb_spec 65536 c), (N.ltb_spec c 65536); lia.
Qed.
Lemma units_utf32 s : forall k, str_eqb k UTF16 = false -> str_eqb k UTF32 = true -> units k s = measure Wide32 s.
Proof.
  intros k Hk Hk'. unfold units. induction s as [|c s IH]; simpl; [reflexivity|].
  rewrite IH. f_equal. unfold units1, char_units. rewrite Hk, Hk'. reflexivity.
Qed.
Lemma units_utf8 s : forall k, str_eqb k UTF16 = false -> str_eqb k UTF32 = false -> units k s = bytes s.
Proof.
  intros k Hk Hk'. unfold units. induction s as [|c s IH]; simpl; [reflexivity|].
  rewrite IH. f_equal. unfold units1. rewrite Hk, Hk'. reflexivity.
Qed.

Lemma utf16_not_32 k : str_eqb k UTF16 = true -> str_eqb k UTF32 = false.
Proof.
  intros H. apply str_eqb_eq in H. subst. reflexivity.
Qed.

Lemma to_lsp_position_at k pre post :
  to_lsp_position (new_context (pre ++ post) k) (bytes pre) = Some (spec_position k pre).
Proof.
  unfold to_lsp_position, new_context, spec_position; cbn [pc_index pc_encoding].
  destruct (line_col_at pre post) as [H1 [H2 H3]]. rewrite H1.
  destruct (str_eqb k UTF16) eqn:E16.
  - simpl orb. rewrite (utf16_not_32 _ E16). unfold to_wide; cbn [fst snd]. rewrite H2.
    pose proof (to_wide_loop_spec Wide16 (after_last_nl pre) (first_line post) 0 (bytes (after_last_nl pre))) as Hw.
    simpl in Hw. rewrite Hw by lia. rewrite units_utf16 by exact E16. f_equal. f_equal.
    pose proof (measure_le_bytes Wide16 (after_last_nl pre)). lia.
  - destruct (str_eqb k UTF32) eqn:E32.
    + simpl orb. unfold to_wide; cbn [fst snd]. rewrite H2.
      pose proof (to_wide_loop_spec Wide32 (after_last_nl pre) (first_line post) 0 (bytes (after_last_nl pre))) as Hw.
      simpl in Hw. rewrite Hw by lia. rewrite units_utf32 by assumption. f_equal. f_equal.
      pose proof (measure_le_bytes Wide32 (after_last_nl pre)). lia.
    + simpl orb. rewrite units_utf8 by assumption. reflexivity.
Qed.

Lemma from_lsp_offset_at k pre post :
  from_lsp_offset (new_context (pre ++ post) k) (spec_position k pre) = Some (bytes pre).
Proof.
  unfold from_lsp_offset, new_context, spec_position; cbn [pc_index pc_encoding].
  destruct (line_col_at pre post) as [H1 [H2 H3]]. pose proof (after_last_nl_bytes pre) as Hb.
  assert (G : forall e, li_offset (new_line_index (pre ++ post))
     (line_feeds pre, to_utf8_loop e (measure e (after_last_nl pre))
                        (wide_of_line (new_line_index (pre ++ post)) (line_feeds pre))) = Some (bytes pre)).
  { intros e. rewrite H2. pose proof (to_utf8_loop_spec e (after_last_nl pre) (first_line post) 0) as Hu.
    simpl in Hu. rewrite Hu. unfold li_offset; cbn [fst snd]. rewrite H3. f_equal. lia. }
  destruct (str_eqb k UTF16) eqn:E16.
  - simpl orb. rewrite (utf16_not_32 _ E16). unfold to_utf8; cbn [fst snd].
    rewrite units_utf16 by exact E16. apply G.
  - destruct (str_eqb k UTF32) eqn:E32.
    + simpl orb. unfold to_utf8; cbn [fst snd]. rewrite units_utf32 by assumption. apply G.
    + simpl orb. rewrite units_utf8 by assumption. unfold li_offset; cbn [fst snd]. rewrite H3. f_equal. lia.
Qed.

(** An offset that is not a boundary splits a character. *)
Lemma offset_cases t off :
  bytes t < off
  \/ (exists pre, at_offset t pre off)
  \/ (exists pre c post, t = pre ++ c :: post /\ bytes pre < off < bytes pre + utf8_len c).
Proof.
  revert off; induction t as [|c t IH]; intros off.
  - destruct off; [right; left; exists []; split; [exists []; reflexivity | reflexivity] | left; simpl; lia].
  - destruct off as [|off']; [right; left; exists []; split; [exists (c :: t); reflexivity | reflexivity]|].
    destruct (le_lt_dec (utf8_len c) (S off')) as [H|H].
    + destruct (IH (S off' - utf8_len c)) as [H1|[[pre [[post ->] H1]]|[pre [d [post [-> H1]]]]]].
      * left; simpl; lia.
      * right; left. exists (c :: pre). split; [exists post; reflexivity | simpl; lia].
      * right; right. exists (c :: pre), d, post. split; [reflexivity | simpl; lia].
    + right; right. exists [], c, t. split; [reflexivity | simpl; lia].
Qed.

Lemma to_lsp_position_inside k pre c post off :
  bytes pre < off < bytes pre + utf8_len c ->
  to_lsp_position (new_context (pre ++ c :: post) k) off = None.
Proof.
  intros H. unfold to_lsp_position, new_context; cbn [pc_index pc_encoding].
  assert (Hl : 1 < utf8_len c) by lia.
  assert (Hnl : N.eqb c c_nl = false).
  { destruct (N.eqb c c_nl) eqn:E; [|reflexivity]. apply N.eqb_eq in E; subst.
    rewrite utf8_len_nl in Hl; lia. }
  destruct (line_col_at pre (c :: post)) as [H1 [H2 H3]].
  unfold try_line_col in *. unfold new_line_index in *. cbn [li_len li_newlines li_wide] in *.
  destruct (bytes (pre ++ c :: post) <? off) eqn:Eb; [reflexivity|].
  assert (Hpp : partition_point (fun n => n <=? off) (fst (analyze (pre ++ c :: post) 0 0 []))
              = line_feeds pre).
  { pose proof (analyze_at (pre ++ [c]) post 0 0 []) as Ha. pose proof (analyze_at pre (c :: post) 0 0 []) as Hp.
    cbn zeta in Ha, Hp. rewrite <- app_assoc in Ha. cbn [app] in Ha. rewrite Nat.add_0_l in Ha, Hp.
    destruct Ha as [Ha _]. destruct Hp as [Hp _].
    assert (Hlf : line_feeds (pre ++ [c]) = line_feeds pre).
    { rewrite line_feeds_app, line_feeds_cons, Hnl. apply Nat.add_0_r. }
    rewrite Hlf in Ha. rewrite bytes_app in Ha. simpl in Ha. rewrite Nat.add_0_r in Ha.
    revert Ha Hp. generalize (fst (analyze (pre ++ c :: post) 0 0 [])) as l.
    generalize (line_feeds pre) as k0. clear - H.
    intros k0 l; revert k0; induction l as [|x l IH]; intros k0; simpl; [auto|].
    intros Ha Hp.
    destruct (Nat.leb_spec x off); destruct (Nat.leb_spec x (bytes pre + utf8_len c)); try lia;
      destruct (Nat.leb_spec x (bytes pre)); try lia; destruct k0; try lia.
    f_equal. apply IH; lia. }
  rewrite Hpp.
  rewrite H3.
  assert (Hw : forallb (fun w => (off - (bytes pre - bytes (after_last_nl pre)) <=? wc_start w)
                       || (wc_end w <=? off - (bytes pre - bytes (after_last_nl pre))))
      (wide_of_line (LineIndex (fst (analyze (pre ++ c :: post) 0 0 []))
                       (snd (analyze (pre ++ c :: post) 0 0 [])) (bytes (pre ++ c :: post))) (line_feeds pre)) = false).
  { rewrite H2. cbn [first_line]. rewrite Hnl, wides_app, forallb_app.
    apply andb_false_iff. right. cbn [wides].
    assert ((1 <? utf8_len c) = true) as -> by (apply Nat.ltb_lt; exact Hl).
    cbn [forallb wc_start wc_end]. apply andb_false_iff. left.
    pose proof (after_last_nl_bytes pre).
    apply orb_false_iff; split; apply Nat.leb_gt; lia. }
  rewrite Hw. reflexivity.
Qed.

Lemma to_lsp_position_none k t off :
  (forall pre, ~ at_offset t pre off) -> to_lsp_position (new_context t k) off = None.
Proof.
  intros H. destruct (offset_cases t off) as [H1|[[pre H1]|[pre [c [post [-> H1]]]]]].
  - unfold to_lsp_position, new_context, try_line_col, new_line_index; cbn [pc_index li_len].
    assert ((bytes t <? off) = true) as -> by (apply Nat.ltb_lt; exact H1). reflexivity.
  - exfalso; eapply H; exact H1.
  - apply to_lsp_position_inside; exact H1.
Qed.

(** Monotonicity. *)
Lemma units_app k a b : units k (a ++ b) = units k a + units k b.
Proof. unfold units. rewrite map_app, list_sum_app. reflexivity. Qed.

Lemma after_last_nl_app a b : line_feeds b = 0 -> after_last_nl (a ++ b) = after_last_nl a ++ b.
Proof.
  intros H. induction a as [|c a IH]; [simpl; apply after_last_nl_none; exact H|].
  change ((c :: a) ++ b) with (c :: (a ++ b)). destruct (Nat.eq_dec (line_feeds a) 0) as [E|E].
  - assert (E2 : existsb (N.eqb c_nl) a = false) by (apply line_feeds_0; exact E).
    assert (E1 : existsb (N.eqb c_nl) (a ++ b) = false).
    { apply line_feeds_0. rewrite line_feeds_app; lia. }
    cbn [after_last_nl]. rewrite E1, E2. destruct (N.eqb c c_nl); reflexivity.
  - rewrite (after_last_nl_cons_pos c a) by lia.
    rewrite (after_last_nl_cons_pos c (a ++ b)) by (rewrite line_feeds_app; lia). exact IH.
Qed.

Lemma spec_position_mono k a b : pos_le (spec_position k a) (spec_position k (a ++ b)).
Proof.
  unfold pos_le, spec_position; simpl. rewrite line_feeds_app.
  destruct (Nat.eq_dec (line_feeds b) 0) as [E|E]; [right | left; lia].
  split; [lia|]. rewrite after_last_nl_app by exact E. rewrite units_app. lia.
Qed.

Lemma to_lsp_position_iff k t off p :
  to_lsp_position (new_context t k) off = Some p <->
  exists pre, at_offset t pre off /\ p = spec_position k pre.
Proof.
  split.
  - intros H. destruct (offset_cases t off) as [H1|[[pre H1]|[pre [c [post [E H1]]]]]].
    + exfalso. rewrite to_lsp_position_none in H; [discriminate|].
      intros pre [[post ->] ->]. rewrite bytes_app in H1. lia.
    + exists pre. split; [exact H1|]. destruct H1 as [[post ->] ->].
      rewrite to_lsp_position_at in H. congruence.
    + subst t. rewrite to_lsp_position_inside in H by exact H1. discriminate.
  - intros [pre [[[post ->] ->] ->]]. apply to_lsp_position_at.
Qed.

Lemma prefix_compare (t pre1 post1 pre2 post2 : str) :
  t = pre1 ++ post1 -> t = pre2 ++ post2 -> bytes pre1 <= bytes pre2 -> exists m, pre2 = pre1 ++ m.
Proof.
  intros E1 E2. revert t pre2 E1 E2. induction pre1 as [|c pre1 IH]; intros t pre2 E1 E2 H.
  - exists pre2; reflexivity.
  - destruct pre2 as [|d pre2].
    + simpl in H. pose proof (utf8_len_pos c). lia.
    + rewrite E1 in E2. simpl in E2. inversion E2; subst.
      destruct (IH (pre1 ++ post1) pre2) as [m ->]; auto.
      * simpl in H; lia.
      * exists m; reflexivity.
Qed.

Lemma to_lsp_range_ordered k t s e ps pe :
  s <= e -> to_lsp_range (new_context t k) (s, e) = Some (ps, pe) -> pos_le ps pe.
Proof.
  intros Hle. unfold to_lsp_range; cbn [fst snd].
  destruct (to_lsp_position (new_context t k) s) as [p|] eqn:Es; [|discriminate].
  destruct (to_lsp_position (new_context t k) e) as [q|] eqn:Ee; [|discriminate].
  intros H; inversion H; subst.
  apply to_lsp_position_iff in Es. apply to_lsp_position_iff in Ee.
  destruct Es as [pre1 [[[post1 E1] ->] ->]]. destruct Ee as [pre2 [[[post2 E2] ->] ->]].
  destruct (prefix_compare _ _ _ _ _ E1 E2 Hle) as [m ->]. apply spec_position_mono.
Qed.

Lemma from_lsp_text_range_spec ctx r s e :
  from_lsp_text_range ctx r = Some (s, e) <->
  from_lsp_offset ctx (fst r) = Some s /\ from_lsp_offset ctx (snd r) = Some e /\ s <= e.
Proof.
  unfold from_lsp_text_range.
  destruct (from_lsp_offset ctx (fst r)) as [s'|]; [|split; [discriminate | intros [H _]; discriminate]].
  destruct (from_lsp_offset ctx (snd r)) as [e'|]; [|split; [discriminate | intros [_ [H _]]; discriminate]].
  destruct (Nat.leb_spec s' e'); split; intros H0.
  - inversion H0; subst; auto.
  - destruct H0 as [H1 [H2 _]]; congruence.
  - discriminate.
  - destruct H0 as [H1 [H2 H3]]; inversion H1; inversion H2; subst; lia.
Qed.

Lemma position_encoding_spec client :
  (exists l1 e l2, client = Some (l1 ++ e :: l2) /\ (e = UTF8 \/ e = UTF32)
      /\ Forall (fun x => x <> UTF8 /\ x <> UTF32) l1 /\ position_encoding client = e)
  \/ ((forall l, client = Some l -> ~ In UTF8 l /\ ~ In UTF32 l) /\ position_encoding client = UTF16).
Proof.
  unfold position_encoding. destruct client as [l|].
  - induction l as [|x l IH].
    + right. split; [|reflexivity]. intros l H; inversion H; subst; simpl; auto.
    + cbn [find_map]. destruct (str_eqb x UTF8 || str_eqb x UTF32) eqn:E.
      * left. exists [], x, l. split; [reflexivity|]. apply orb_true_iff in E.
        rewrite !str_eqb_eq in E. auto.
      * apply orb_false_iff in E. rewrite !str_eqb_neq in E.
        destruct IH as [[l1 [e [l2 [H1 [H2 [H3 H4]]]]]]|[H1 H2]].
        -- left. exists (x :: l1), e, l2. injection H1 as ->. split; [reflexivity|].
           split; [exact H2|]. split; [constructor; assumption | exact H4].
        -- right. split; [|exact H2]. intros l0 H0; inversion H0; subst.
           destruct (H1 l eq_refl) as [H3 H4]. simpl. intuition congruence.
  - right. split; [intros l H; discriminate | reflexivity].
Qed.

(** Label offsets. *)
Lemma take_bytes_at pre post : take_bytes (bytes pre) (pre ++ post) = Some pre.
Proof.
  induction pre as [|c pre IH]; [destruct post; reflexivity|].
  cbn [bytes app take_bytes]. pose proof (utf8_len_pos c).
  destruct (utf8_len c + bytes pre) eqn:E; [lia|]. rewrite <- E.
  assert ((utf8_len c <=? utf8_len c + bytes pre) = true) as -> by (apply Nat.leb_le; lia).
  replace (utf8_len c + bytes pre - utf8_len c) with (bytes pre) by lia. rewrite IH. reflexivity.
Qed.

Lemma to_lsp_offset_at k pre post : to_lsp_offset k (pre ++ post) (bytes pre) = Done (units k pre).
Proof.
  unfold to_lsp_offset. destruct (Nat.ltb_spec 0 (bytes pre)) as [H|H].
  - destruct (str_eqb k UTF16) eqn:E16.
    + simpl. rewrite (utf16_not_32 _ E16), take_bytes_at, units_utf16 by exact E16. reflexivity.
    + destruct (str_eqb k UTF32) eqn:E32.
      * simpl. rewrite take_bytes_at, units_utf32 by assumption. reflexivity.
      * simpl. rewrite units_utf8 by assumption. reflexivity.
  - assert (pre = []) as -> by (apply bytes_zero; lia). reflexivity.
Qed.

Lemma line_feeds_newlines t : forall pos col cur, length (fst (analyze t pos col cur)) = line_feeds t.
Proof.
  induction t as [|c t IH]; intros pos col cur; [reflexivity|].
  rewrite line_feeds_cons. cbn [analyze]. destruct (N.eqb c c_nl); cbn [fst length].
  - rewrite IH. reflexivity.
  - apply IH.
Qed.

Lemma from_lsp_offset_none k t p :
  from_lsp_offset (new_context t k) p = None <-> line_feeds t < fst p.
Proof.
  assert (G : forall col, li_offset (new_line_index t) (fst p, col) = None <-> line_feeds t < fst p).
  { intros col. unfold li_offset, start_offset, new_line_index; cbn [fst snd li_newlines].
    rewrite <- (line_feeds_newlines t 0 0 []).
    destruct (fst p) as [|i].
    - split; [discriminate | lia].
    - destruct (nth_error (fst (analyze t 0 0 [])) i) eqn:E.
      + split; [discriminate|]. intros H. assert (nth_error (fst (analyze t 0 0 [])) i <> None) as Hn by congruence.
        apply nth_error_Some in Hn. lia.
      + split; [intros _|reflexivity]. apply nth_error_None in E. lia. }
  unfold from_lsp_offset, new_context; cbn [pc_encoding pc_index].
  destruct (str_eqb k UTF16 || str_eqb k UTF32).
  - unfold to_utf8; cbn [fst snd]. apply G.
  - destruct p as [l c]; apply G.
Qed.

Lemma valid_position_offset k t pre p :
  (exists post, t = pre ++ post) -> p = spec_position k pre ->
  from_lsp_offset (new_context t k) p = Some (bytes pre).
Proof. intros [post ->] ->. apply from_lsp_offset_at. Qed.

(** Two different boundaries never have the same position. *)
Lemma spec_position_inj k t pre1 pre2 :
  (exists post, t = pre1 ++ post) -> (exists post, t = pre2 ++ post) ->
  spec_position k pre1 = spec_position k pre2 -> pre1 = pre2.
Proof.
  intros [post1 E1] [post2 E2] H.
  assert (Hb : bytes pre1 = bytes pre2).
  { pose proof (from_lsp_offset_at k pre1 post1) as A. pose proof (from_lsp_offset_at k pre2 post2) as B.
    rewrite <- E1 in A. rewrite <- E2 in B. rewrite H in A. congruence. }
  destruct (prefix_compare t pre1 post1 pre2 post2 E1 E2) as [m Hm]; [lia|].
  subst pre2. rewrite bytes_app in Hb. assert (m = []) as -> by (apply bytes_zero; lia).
  rewrite app_nil_r; reflexivity.
Qed.
