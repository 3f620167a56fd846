(** Proofs about UtilModel. *)
From Verif Require Import Base BaseFacts Unicode PositionModel PositionProofs VersionModel TranslateModel CommandModel
  SyntaxModel TemplateModel UtilModel UtilSpec.

(** ** Ids *)

Lemma existsb_N n l : existsb (N.eqb n) l = true <-> In n l.
Proof. apply mem_char_In. Qed.
Lemma existsb_N_false n l : existsb (N.eqb n) l = false <-> ~ In n l.
Proof. rewrite <- existsb_N. destruct (existsb _ _); intuition congruence. Qed.

(** Ids of [used] from [id] on; the loop makes progress on this measure. *)
Definition ge_ids (id : N) (used : list N) : list N := filter (fun x => (id <=? x)%N) used.
Lemma ge_ids_step id used : In id used -> length (ge_ids (id + 1)%N used) < length (ge_ids id used).
Proof.
  unfold ge_ids. induction used as [|x used IH]; intros H; [destruct H|]. cbn [filter].
  assert (Hle : length (filter (fun x => (id + 1 <=? x)%N) used) <= length (filter (fun x => (id <=? x)%N) used)).
  { clear. induction used as [|y u IH]; [simpl; lia|]. cbn [filter].
    destruct (id + 1 <=? y)%N eqn:A, (id <=? y)%N eqn:B; simpl; try lia.
    apply N.leb_le in A; apply N.leb_gt in B; lia. }
  destruct (N.eq_dec x id) as [->|Hne].
  - replace (id + 1 <=? id)%N with false by (symmetry; apply N.leb_gt; lia).
    replace (id <=? id)%N with true by (symmetry; apply N.leb_le; lia). simpl; lia.
  - destruct H as [H|H]; [congruence|]. specialize (IH H).
    destruct (id + 1 <=? x)%N eqn:A, (id <=? x)%N eqn:B; simpl; try lia.
    apply N.leb_le in A; apply N.leb_gt in B; lia.
Qed.

Lemma id_loop_spec fuel max used : forall id, length (ge_ids id used) < fuel -> (id <= max)%N ->
  match id_loop fuel max used id with
  | Found n => least_free id max used n
  | NotFound => forall m, (id <= m <= max)%N -> In m used
  | Diverges => False
  end.
Proof.
  induction fuel as [|fuel IH]; intros id Hf Hm; [lia|]. simpl.
  destruct (existsb (N.eqb id) used) eqn:E.
  - apply existsb_N in E. destruct (N.eqb_spec id max) as [->|Hne].
    + intros m Hb. replace m with max by lia. exact E.
    + pose proof (ge_ids_step id used E) as Hs.
      specialize (IH (id + 1)%N ltac:(lia) ltac:(lia)).
      destruct (id_loop fuel max used (id + 1)%N) as [n| |].
      * destruct IH as (H1 & H2 & H3). split; [lia|]. split; [exact H2|]. intros m Hb.
        destruct (N.eq_dec m id) as [->|]; [exact E|]. apply H3; lia.
      * intros m Hb. destruct (N.eq_dec m id) as [->|]; [exact E|]. apply IH; lia.
      * exact IH.
  - apply existsb_N_false in E. split; [lia|]. split; [exact E|]. intros m Hb; lia.
Qed.

Lemma suggest_unique_id_spec max p used :
  let lo := match p with Some p => p | None => 1%N end in
  (lo <= max)%N ->
  match suggest_unique_id max p used with
  | Found n => least_free lo max used n
  | NotFound => forall m, (lo <= m <= max)%N -> In m used
  | Diverges => False
  end.
Proof.
  intros lo Hm. apply id_loop_spec; [|exact Hm]. unfold ge_ids.
  apply Nat.lt_succ_r. clear. induction used as [|x u IH]; simpl; [lia|]. destruct (_ <=? _)%N; simpl; lia.
Qed.

(** Successive calls with the set updated by each. *)
Fixpoint ids_seq (max : N) (prefs : list (option N)) (used : list N) : list N :=
  match prefs with
  | [] => []
  | p :: prefs' =>
      match suggest_unique_id_mut max p used with
      | (Found n, used') => n :: ids_seq max prefs' used'
      | (_, used') => ids_seq max prefs' used'
      end
  end.
Lemma ids_seq_fresh max prefs : forall used,
  (forall p, In p prefs -> match p with Some p => (p <= max)%N | None => (1 <= max)%N end) ->
  NoDup (ids_seq max prefs used) /\ (forall n, In n (ids_seq max prefs used) -> ~ In n used).
Proof.
  induction prefs as [|p prefs IH]; intros used Hp; simpl; [split; [constructor | intros n []]|].
  assert (Hp' : forall q, In q prefs -> match q with Some p => (p <= max)%N | None => (1 <= max)%N end)
    by (intros q Hq; apply Hp; right; exact Hq).
  specialize (Hp p (or_introl eq_refl)).
  pose proof (suggest_unique_id_spec max p used) as Hs. cbv zeta in Hs.
  unfold suggest_unique_id_mut. destruct (suggest_unique_id max p used) as [n| |] eqn:E.
  - destruct (IH (n :: used) Hp') as [H1 H2]. split.
    + constructor; [|exact H1]. intros H. apply (H2 n H). left; reflexivity.
    + intros m [<-|H]; [apply Hs; destruct p; exact Hp|]. intros C. apply (H2 m H). right; exact C.
  - apply IH; exact Hp'.
  - apply IH; exact Hp'.
Qed.

(** ** Names *)

Lemma existsb_str n l : existsb (str_eqb n) l = true <-> In n l.
Proof.
  rewrite existsb_exists. split.
  - intros (x & H & E). apply str_eqb_eq in E; subst; exact H.
  - intros H; exists n; split; [exact H | apply str_eqb_refl].
Qed.
Lemma existsb_str_false n l : existsb (str_eqb n) l = false <-> ~ In n l.
Proof. rewrite <- existsb_str. destruct (existsb _ _); intuition congruence. Qed.

Lemma name_loop_spec tries p used : tries <= 253 ->
  (forall j, j < 253 - tries -> In (candidate p j) used) ->
  let r := name_loop tries p used (candidate p (253 - tries)) in
  (exists i, i <= 253 /\ r = candidate p i /\ ~ In r used /\ forall j, j < i -> In (candidate p j) used)
  \/ (r = p /\ forall j, j <= 253 -> In (candidate p j) used).
Proof.
  induction tries as [|tries IH]; intros Ht Hb; cbv zeta; cbn [name_loop].
  - destruct (existsb _ used) eqn:E.
    + right. split; [reflexivity|]. intros j Hj. destruct (Nat.eq_dec j 253) as [->|]; [|apply Hb; lia].
      apply existsb_str in E. exact E.
    + left. exists 253. split; [lia|]. split; [reflexivity|]. split; [apply existsb_str_false; exact E|].
      intros j Hj; apply Hb; lia.
  - destruct (existsb _ used) eqn:E.
    + replace (p ++ dec (N.of_nat (255 - S tries))) with (candidate p (253 - tries)).
      * apply IH; [lia|]. intros j Hj. destruct (Nat.eq_dec j (253 - S tries)) as [->|]; [|apply Hb; lia].
        apply existsb_str in E. exact E.
      * unfold candidate. destruct (253 - tries) as [|k] eqn:Ek; [lia|].
        replace (255 - S tries) with (S (S k)) by lia. reflexivity.
    + left. exists (253 - S tries). split; [lia|]. split; [reflexivity|].
      split; [apply existsb_str_false; exact E|]. intros j Hj; apply Hb; lia.
Qed.
Lemma suggest_unique_name_spec p used :
  let r := suggest_unique_name p used in
  (exists i, i <= 253 /\ r = candidate p i /\ ~ In r used /\ forall j, j < i -> In (candidate p j) used)
  \/ (r = p /\ forall j, j <= 253 -> In (candidate p j) used).
Proof. apply (name_loop_spec 253 p used (le_n _)). intros j Hj; lia. Qed.

(** ** Lines *)

Lemma join_unlines l : join_lines l = unlines l.
Proof. reflexivity. Qed.

Lemma strip_cr_id l : ~ In c_cr l -> strip_cr l = l.
Proof.
  intros H. unfold strip_cr. destruct (rev l) as [|c r] eqn:E; [reflexivity|].
  destruct (N.eqb_spec c c_cr) as [->|]; [|reflexivity]. exfalso; apply H.
  apply in_rev. rewrite E. left; reflexivity.
Qed.

Lemma lines_aux_run l : forall cur s, ~ In c_nl l -> lines_aux cur (l ++ s) = lines_aux (rev l ++ cur) s.
Proof.
  induction l as [|c l IH]; intros cur s H; [reflexivity|]. cbn [app lines_aux rev].
  replace (N.eqb c c_nl) with false.
  - rewrite IH; [|intros C; apply H; right; exact C]. rewrite <- app_assoc. reflexivity.
  - symmetry; apply N.eqb_neq. intros ->; apply H; left; reflexivity.
Qed.

Definition clean (l : str) : Prop := ~ In c_nl l /\ ~ In c_cr l.
Lemma lines_unlines ls : (forall l, In l ls -> clean l) -> (exists pre l, ls = pre ++ [l] /\ l <> []) ->
  lines (unlines ls) = ls.
Proof.
  intros Hc (pre & l & -> & Hne). unfold lines. induction pre as [|x pre IH].
  - cbn [app unlines]. rewrite <- (app_nil_r l) at 1.
    rewrite lines_aux_run by (apply Hc; left; reflexivity). cbn [lines_aux]. rewrite app_nil_r.
    destruct (rev l) eqn:E; [|rewrite <- E, rev_involutive; reflexivity].
    exfalso; apply Hne. rewrite <- (rev_involutive l), E. reflexivity.
  - assert (Hx : clean x) by (apply Hc; left; reflexivity).
    cbn [app]. assert (E : unlines (x :: pre ++ [l]) = x ++ c_nl :: unlines (pre ++ [l])).
    { destruct pre; reflexivity. }
    rewrite E, lines_aux_run by apply Hx. cbn [lines_aux]. rewrite N.eqb_refl, app_nil_r, rev_involutive.
    rewrite strip_cr_id by apply Hx. f_equal. apply IH. intros y Hy; apply Hc; right; exact Hy.
Qed.

Lemma unlines_In c l ls : In l ls -> In c l -> In c (unlines ls).
Proof.
  induction ls as [|x ls IH]; intros H Hc; [destruct H|]. cbn [unlines]. destruct ls as [|y ls].
  - destruct H as [->|[]]; exact Hc.
  - apply in_or_app. destruct H as [->|H]; [left; exact Hc|]. right. right. apply IH; assumption.
Qed.
Lemma In_unlines c ls : In c (unlines ls) -> c = c_nl \/ exists l, In l ls /\ In c l.
Proof.
  induction ls as [|x ls IH]; intros H; [destruct H|]. cbn [unlines] in H. destruct ls as [|y ls].
  - right; exists x; split; [left; reflexivity | exact H].
  - apply in_app_or in H as [H|[H|H]].
    + right; exists x; split; [left; reflexivity | exact H].
    + left; symmetry; exact H.
    + destruct (IH H) as [->|(l & Hl & Hc)]; [left; reflexivity|]. right; exists l; split; [right|]; assumption.
Qed.

Lemma tidy_clean s ls : tidy s ls -> forall l, In l ls -> clean l.
Proof.
  intros ((-> & _ & Hnl) & Hcr & _) l H. split; [apply Hnl; exact H|]. intros C. apply Hcr.
  apply unlines_In with l; assumption.
Qed.
Lemma tidy_lines s ls : tidy s ls -> lines s = ls.
Proof.
  intros H. pose proof (tidy_clean _ _ H) as Hc. destruct H as ((-> & _ & _) & _ & H).
  apply lines_unlines; assumption.
Qed.

Definition on_line (f : str -> str) (l : str) : str := match l with [] => [] | _ => f l end.
Lemma map_lines_tidy f s ls : tidy s ls -> map_lines f s = unlines (map (on_line f) ls).
Proof. intros H. unfold map_lines. rewrite (tidy_lines _ _ H), join_unlines. reflexivity. Qed.

Lemma apply_indenting_spec s ls i : tidy s ls -> ~ In c_nl i -> ~ In c_cr i ->
  exists ls', tidy (apply_indenting s i) ls' /\ Forall2 (indented i) ls ls'.
Proof.
  intros H Hn Hr. pose proof (tidy_clean _ _ H) as Hc. destruct i as [|c i].
  - exists ls. split; [exact H|]. clear. induction ls as [|l ls IH]; constructor; [|exact IH].
    destruct l; [left; split; reflexivity | right; split; [discriminate | reflexivity]].
  - exists (map (on_line (fun l => (c :: i) ++ l)) ls). split.
    + cbn [apply_indenting]. unfold apply_indenting. rewrite (map_lines_tidy _ _ _ H).
      destruct H as ((-> & Hne & Hnl) & Hcr & (pre & l & -> & Hl)).
      assert (Hc' : forall x, In x (map (on_line (fun l => (c :: i) ++ l)) (pre ++ [l])) -> clean x).
      { intros x Hx. apply in_map_iff in Hx as (y & <- & Hy). specialize (Hc y Hy).
        destruct y as [|d y]; [exact Hc|]. destruct Hc as [Ha Hb]. cbn [on_line].
        split; intros C; apply in_app_or in C as [C|C]; auto. }
      repeat split.
      * rewrite map_app. destruct (map _ pre); discriminate.
      * intros x Hx. apply Hc'; exact Hx.
      * intros C. apply In_unlines in C as [C|(x & Hx & C)]; [discriminate C|]. apply (Hc' x Hx). exact C.
      * rewrite map_app. exists (map (on_line (fun l => (c :: i) ++ l)) pre), ((c :: i) ++ l). split.
        -- cbn [map]. destruct l; [contradiction|reflexivity].
        -- discriminate.
    + clear. induction ls as [|l ls IH]; constructor; [|exact IH].
      destruct l; [left; split; reflexivity | right; split; [discriminate | reflexivity]].
Qed.

Lemma reduce_indenting_spec s ls i : tidy s ls ->
  exists ls', reduce_indenting s i = unlines ls' /\ (forall l, In l ls' -> ~ In c_nl l) /\ Forall2 (dedented i) ls ls'.
Proof.
  intros H. pose proof (tidy_clean _ _ H) as Hc. destruct i as [|c i].
  - exists ls. destruct H as ((-> & _ & Hnl) & _). split; [reflexivity|]. split; [exact Hnl|].
    clear. induction ls; constructor; [left; reflexivity | exact IHls].
  - set (f := fun l => match strip_prefix (c :: i) l with Some r => r | None => l end).
    exists (map (on_line f) ls). split; [|split].
    + apply (map_lines_tidy f _ _ H).
    + intros x Hx. apply in_map_iff in Hx as (y & <- & Hy). destruct (Hc y Hy) as [Hn _]. intros C. apply Hn.
      destruct y as [|d y]; [destruct C|]. cbn [on_line] in C. unfold f in C.
      destruct (strip_prefix (c :: i) (d :: y)) as [r|] eqn:E; [|exact C].
      apply strip_prefix_some in E. rewrite E. apply in_or_app; right; exact C.
    + clear. induction ls as [|l ls IH]; constructor; [|exact IH]. destruct l as [|d y].
      * right. split; [reflexivity|]. intros (r & E). discriminate E.
      * cbn [on_line]. unfold f. destruct (strip_prefix (c :: i) (d :: y)) as [r|] eqn:E.
        -- left. apply strip_prefix_some in E. exact E.
        -- right. split; [reflexivity|]. intros (r & C). apply strip_prefix_some in C. congruence.
Qed.

Lemma indent_roundtrip s ls i : tidy s ls -> ~ In c_nl i -> ~ In c_cr i ->
  reduce_indenting (apply_indenting s i) i = s.
Proof.
  intros H Hn Hr. destruct i as [|c i]; [reflexivity|].
  destruct (apply_indenting_spec s ls (c :: i) H Hn Hr) as (ls' & Ht & Hf).
  unfold reduce_indenting. rewrite (map_lines_tidy _ _ _ Ht). destruct H as ((-> & _) & _). f_equal.
  clear Ht. induction Hf as [|l l' ls ls' Hl Hf IH]; [reflexivity|]. cbn [map]. f_equal; [|exact IH].
  destruct Hl as [[-> ->]|[Hne ->]]; [reflexivity|]. cbn [app on_line].
  change (c :: i ++ l) with ((c :: i) ++ l).
  replace (strip_prefix (c :: i) ((c :: i) ++ l)) with (Some l); [reflexivity|].
  symmetry; apply strip_prefix_some; reflexivity.
Qed.

(** ** Indentation of an item *)

Lemma take_while_all p l : forallb p l = true -> forall s, take_while_ch p (l ++ s) = l ++ take_while_ch p s.
Proof.
  induction l as [|c l IH]; intros H s; [reflexivity|]. simpl in H. apply andb_true_iff in H as [H1 H2].
  cbn [app take_while_ch]. rewrite H1, IH by exact H2. reflexivity.
Qed.
Lemma end_indenting_rev U ws i : (forall c, In c ws -> u_whitespace U c = true) -> ends_with_indent ws i ->
  end_indenting U ws = rev i.
Proof.
  intros Hw (Hn & H). unfold end_indenting.
  assert (Hi : forall c, In c i -> u_whitespace U c = true).
  { intros c Hc. apply Hw. destruct H as [->|(pre & ->)]; [exact Hc|]. apply in_or_app; right; right; exact Hc. }
  set (p := fun c => negb (N.eqb c c_nl) && u_whitespace U c).
  assert (Hp : forallb p (rev i) = true).
  { apply forallb_forall. intros c Hc. apply in_rev in Hc. unfold p. rewrite (Hi c Hc).
    replace (N.eqb c c_nl) with false; [reflexivity|]. symmetry; apply N.eqb_neq. intros ->; contradiction. }
  destruct H as [->|(pre & ->)].
  - pose proof (take_while_all p (rev i) Hp []) as X. cbn [take_while_ch] in X. rewrite !app_nil_r in X. exact X.
  - rewrite rev_app_distr. cbn [rev]. rewrite <- app_assoc, take_while_all by exact Hp.
    cbn [app take_while_ch]. replace (p c_nl) with false by reflexivity. apply app_nil_r.
Qed.
Lemma rev_repeat_eq (c : char) l : (forall x, In x l -> x = c) -> rev l = l.
Proof.
  intros H. assert (E : l = repeat c (length l)).
  { clear -H. induction l as [|x l IH]; [reflexivity|]. simpl. f_equal; [apply H; left; reflexivity|].
    apply IH. intros y Hy; apply H; right; exact Hy. }
  rewrite E. clear. induction (length l) as [|n IH]; [reflexivity|]. cbn [repeat rev]. rewrite IH.
  clear. induction n as [|n IH]; [reflexivity|]. cbn [repeat app]. rewrite IH. reflexivity.
Qed.

(** ** Replacing *)

Lemma replace_fuel_ext pat by_ : pat <> [] -> forall n m s, length s <= n -> length s <= m ->
  replace_fuel n pat by_ s = replace_fuel m pat by_ s.
Proof.
  intros Hp. induction n as [|n IH]; intros m s Hn Hm.
  - destruct s; [|simpl in Hn; lia]. destruct m; reflexivity.
  - destruct s as [|c s]; [destruct m; reflexivity|]. destruct m as [|m]; [simpl in Hm; lia|].
    cbn [replace_fuel]. simpl in Hn, Hm. destruct (strip_prefix pat (c :: s)) as [rest|] eqn:E.
    + apply strip_prefix_some in E. assert (length (c :: s) = length pat + length rest) by (rewrite E; apply app_length).
      destruct pat; [contradiction|]. simpl in H. f_equal. apply IH; lia.
    + f_equal. apply IH; lia.
Qed.
Lemma str_replace_nil pat by_ : str_replace pat by_ [] = [].
Proof. reflexivity. Qed.
Lemma str_replace_hit pat by_ s : pat <> [] -> str_replace pat by_ (pat ++ s) = by_ ++ str_replace pat by_ s.
Proof.
  intros Hp. unfold str_replace. destruct pat as [|p pat]; [contradiction|].
  cbn [app length replace_fuel].
  change (p :: pat ++ s) with ((p :: pat) ++ s).
  replace (strip_prefix (p :: pat) ((p :: pat) ++ s)) with (Some s) by (symmetry; apply strip_prefix_some; reflexivity).
  f_equal. apply replace_fuel_ext; [discriminate| |lia]. rewrite app_length; lia.
Qed.
Lemma str_replace_miss pat by_ c s : pat <> [] -> strip_prefix pat (c :: s) = None ->
  str_replace pat by_ (c :: s) = c :: str_replace pat by_ s.
Proof. intros Hp E. unfold str_replace. cbn [length replace_fuel]. rewrite E. reflexivity. Qed.

(** A text without the pattern is unchanged. *)
Lemma str_replace_id pat by_ s : pat <> [] -> ~ occurs pat s -> str_replace pat by_ s = s.
Proof.
  intros Hp. induction s as [|c s IH]; intros Ho; [reflexivity|].
  rewrite str_replace_miss; [| exact Hp |].
  - f_equal. apply IH. intros (a & b & E). apply Ho. exists (c :: a), b. rewrite E. reflexivity.
  - destruct (strip_prefix pat (c :: s)) as [r|] eqn:E; [|reflexivity]. exfalso; apply Ho.
    apply strip_prefix_some in E. exists [], r. exact E.
Qed.

(** A character outside of the pattern separates the text. *)
Lemma app_eq_split {A} (a b c d : list A) : a ++ b = c ++ d ->
  (exists e, a = c ++ e /\ d = e ++ b) \/ (exists e, c = a ++ e /\ b = e ++ d).
Proof.
  revert c; induction a as [|x a IH]; intros c H.
  - right. exists c. split; [reflexivity|exact H].
  - destruct c as [|y c].
    + left. exists (x :: a). split; [reflexivity|]. symmetry; exact H.
    + inversion H; subst. destruct (IH c H2) as [(e & -> & ->)|(e & -> & ->)].
      * left; exists e; split; reflexivity.
      * right; exists e; split; reflexivity.
Qed.
Lemma str_replace_sep pat by_ c b : pat <> [] -> ~ In c pat -> forall a,
  str_replace pat by_ (a ++ c :: b) = str_replace pat by_ a ++ c :: str_replace pat by_ b.
Proof.
  intros Hp Hc. assert (Hlen : forall n a, length a <= n ->
    str_replace pat by_ (a ++ c :: b) = str_replace pat by_ a ++ c :: str_replace pat by_ b).
  { induction n as [|n IH]; intros a Hn.
    - destruct a; [|simpl in Hn; lia]. cbn [app]. rewrite str_replace_miss; [reflexivity|exact Hp|].
      destruct (strip_prefix pat (c :: b)) as [r|] eqn:E; [|reflexivity]. exfalso.
      apply strip_prefix_some in E. destruct pat as [|p pat]; [contradiction|]. inversion E; subst.
      apply Hc; left; reflexivity.
    - destruct (strip_prefix pat a) as [r|] eqn:E.
      + apply strip_prefix_some in E. subst a. rewrite <- app_assoc, !str_replace_hit by exact Hp.
        rewrite IH, app_assoc; [reflexivity|]. rewrite app_length in Hn. destruct pat; [contradiction|]. simpl in Hn. lia.
      + destruct a as [|x a]; [apply IH; simpl; lia|]. cbn [app].
        rewrite str_replace_miss; [| exact Hp |].
        * rewrite (str_replace_miss _ _ x a Hp E). cbn [app]. f_equal. apply IH. simpl in Hn; lia.
        * destruct (strip_prefix pat (x :: a ++ c :: b)) as [r|] eqn:E'; [|reflexivity]. exfalso.
          apply strip_prefix_some in E'. change (x :: a ++ c :: b) with ((x :: a) ++ c :: b) in E'.
          destruct (app_eq_split _ _ _ _ E') as [(e & Ha & _)|(e & Ha & Hb)].
          -- apply strip_prefix_some in Ha. congruence.
          -- destruct e as [|y e].
             ++ rewrite app_nil_r in Ha. assert (X : x :: a = pat ++ []) by (rewrite app_nil_r; symmetry; exact Ha).
                apply strip_prefix_some in X. congruence.
             ++ inversion Hb; subst y. apply Hc. rewrite Ha. apply in_or_app; right; left; reflexivity. }
  intros a. apply (Hlen (length a)). lia.
Qed.

(** Computing the pieces of a fixed text. *)
Fixpoint split_at (fuel : nat) (pat cur s : str) : list str :=
  match fuel with
  | 0 => [rev cur]
  | S fuel' =>
      match s with
      | [] => [rev cur]
      | c :: s' =>
          match strip_prefix pat s with
          | Some rest => rev cur :: split_at fuel' pat [] rest
          | None => split_at fuel' pat (c :: cur) s'
          end
      end
  end.
Fixpoint join_by (by_ : str) (l : list str) : str :=
  match l with [] => [] | [x] => x | x :: l' => x ++ by_ ++ join_by by_ l' end.
Lemma split_at_join pat by_ : pat <> [] -> forall n s cur, length s <= n ->
  join_by by_ (split_at n pat cur s) = rev cur ++ str_replace pat by_ s.
Proof.
  intros Hp. induction n as [|n IH]; intros s cur Hn.
  - destruct s; [|simpl in Hn; lia]. simpl. rewrite app_nil_r. reflexivity.
  - destruct s as [|c s]; [simpl; rewrite app_nil_r; reflexivity|]. cbn [split_at].
    destruct (strip_prefix pat (c :: s)) as [rest|] eqn:E.
    + pose proof E as E'. apply strip_prefix_some in E'. rewrite E'.
      rewrite str_replace_hit by exact Hp.
      assert (Hl : length rest <= n).
      { apply (f_equal (@length _)) in E'. rewrite app_length in E'. destruct pat; [contradiction|]. simpl in *. lia. }
      specialize (IH rest [] Hl). cbn [rev app] in IH. rewrite <- IH.
      assert (Hne : split_at n pat [] rest <> []).
      { destruct n; [discriminate|]. generalize (@nil char) as cur'. clear. revert rest.
        induction n as [|n IH]; intros rest cur'; destruct rest as [|c rest]; cbn [split_at]; try discriminate.
        - destruct (strip_prefix _ _); [discriminate | discriminate].
        - destruct (strip_prefix pat (c :: rest)); [discriminate|]. exact (IH rest (c :: cur')). }
      cbn [join_by]. destruct (split_at n pat [] rest); [contradiction|reflexivity].
    + rewrite IH by (simpl in Hn; lia). cbn [rev].
      rewrite (str_replace_miss _ _ _ _ Hp E), <- app_assoc. reflexivity.
Qed.
Lemma str_replace_pieces pat by_ s l : pat <> [] -> split_at (length s) pat [] s = l ->
  str_replace pat by_ s = join_by by_ l.
Proof. intros Hp <-. rewrite split_at_join by (auto; lia). reflexivity. Qed.

(** Deciding occurrence. *)
Fixpoint occursb (pat s : str) : bool :=
  starts_with pat s || match s with [] => false | _ :: s' => occursb pat s' end.
Lemma occursb_spec pat s : occursb pat s = true <-> occurs pat s.
Proof.
  induction s as [|c s IH]; cbn [occursb]; rewrite orb_true_iff, starts_with_app.
  - split.
    + intros [(t & E)|C]; [|discriminate C]. exists [], t. exact E.
    + intros (a & b & E). left. destruct a; [|discriminate E]. exists b. exact E.
  - rewrite IH. split.
    + intros [(t & E)|(a & b & ->)]; [exists [], t; exact E | exists (c :: a), b; reflexivity].
    + intros ([|x a] & b & E); [left; exists b; exact E|]. right. inversion E; subst. exists a, b. reflexivity.
Qed.
Lemma occursb_no pat s : occursb pat s = false -> ~ occurs pat s.
Proof. intros H C. apply occursb_spec in C. congruence. Qed.

(** ** Pascal case *)

Lemma pascal_loop_word w : forall b rest, ~ In c_underscore w ->
  (rest = [] \/ exists r, rest = c_underscore :: r) ->
  pascal_loop b (w ++ rest) =
    (match w with [] => [] | c :: r => (if b then to_ascii_upper c else c) :: r end) ++
    pascal_loop (match w with [] => b | _ => false end) rest.
Proof.
  induction w as [|c w IH]; intros b rest Hn Hr; [reflexivity|].
  cbn [app pascal_loop].
  replace (N.eqb c c_underscore) with false
    by (symmetry; apply N.eqb_neq; intros ->; apply Hn; left; reflexivity).
  assert (Hw : ~ In c_underscore w) by (intros C; apply Hn; right; exact C).
  assert (E : pascal_loop false (w ++ rest) = w ++ pascal_loop false rest).
  { rewrite (IH false rest Hw Hr). destruct w; reflexivity. }
  destruct b; rewrite E; reflexivity.
Qed.

Lemma pascal_case_spec s : pascal_of s (pascal_case s).
Proof.
  unfold pascal_case.
  assert (X : exists ws, s = join_underscore ws /\ ws <> [] /\ forall w, In w ws -> ~ In c_underscore w).
  { induction s as [|c s (ws & E & Hne & H)].
    - exists [[]]. split; [reflexivity|]. split; [discriminate|]. intros w [<-|[]] [].
    - destruct (N.eqb_spec c c_underscore) as [->|Hc].
      + exists ([] :: ws). split; [destruct ws; [contradiction|]; cbn; rewrite E; reflexivity|].
        split; [discriminate|]. intros w [<-|Hw]; [intros [] | apply H; exact Hw].
      + destruct ws as [|w ws]; [contradiction|]. exists ((c :: w) :: ws). split.
        * rewrite E. destruct ws; reflexivity.
        * split; [discriminate|]. intros w' [<-|Hw]; [|apply H; right; exact Hw].
          intros [C|C]; [congruence|]. apply (H w (or_introl eq_refl)). exact C. }
  destruct X as (ws & E & Hne & H). exists ws.
  set (cap := fun w : str => match w with [] => [] | c :: r => to_ascii_upper c :: r end).
  exists (map cap ws). split; [exact E|]. split; [exact H|]. split.
  - clear. induction ws as [|w ws IH]; constructor; [|exact IH].
    destruct w as [|c r]; [left; split; reflexivity|]. right. exists c, (to_ascii_upper c), r.
    split; [reflexivity|]. split; [reflexivity|]. unfold to_ascii_upper, ascii_lower.
    destruct ((97 <=? c)%N && (c <=? 122)%N) eqn:B.
    + left. apply andb_true_iff in B as [B1 B2]. apply N.leb_le in B1, B2. split; [lia|reflexivity].
    + right. split; [|reflexivity]. intros [B1 B2]. apply N.leb_le in B1, B2. rewrite B1, B2 in B. discriminate.
  - rewrite E. clear E Hne. induction ws as [|w ws IH]; [reflexivity|].
    assert (Hw : ~ In c_underscore w) by (apply H; left; reflexivity).
    cbn [map concat]. destruct ws as [|w2 ws].
    + cbn [join_underscore map concat]. rewrite <- (app_nil_r w) at 1.
      rewrite (pascal_loop_word w true [] Hw (or_introl eq_refl)). reflexivity.
    + change (join_underscore (w :: w2 :: ws)) with (w ++ c_underscore :: join_underscore (w2 :: ws)).
      rewrite pascal_loop_word; [|exact Hw | right; eexists; reflexivity].
      cbn [pascal_loop]. rewrite N.eqb_refl. rewrite IH by (intros x Hx; apply H; right; exact Hx). reflexivity.
Qed.

(** ** Project *)

Definition MY_MOD : str := lit "my_contract".
Definition MY_TYPE : str := lit "MyContract".

Lemma lib_file_shape a b1 b2 b3 m t :
  forall T, T = a ++ MY_MOD ++ b1 ++ MY_TYPE ++ b2 ++ MY_TYPE ++ b3 ->
  split_at (length T) MY_MOD [] T = [a; b1 ++ MY_TYPE ++ b2 ++ MY_TYPE ++ b3] ->
  (exists a' c, a = a' ++ [c] /\ ~ In c MY_TYPE /\ ~ occurs MY_TYPE a') ->
  (exists c b', b1 = c :: b' /\ ~ In c MY_TYPE) ->
  split_at (length (tl b1 ++ MY_TYPE ++ b2 ++ MY_TYPE ++ b3)) MY_TYPE [] (tl b1 ++ MY_TYPE ++ b2 ++ MY_TYPE ++ b3)
    = [tl b1; b2; b3] ->
  ~ occurs MY_TYPE m ->
  lib_file T m t = a ++ m ++ b1 ++ t ++ b2 ++ t ++ b3.
Proof.
  intros T _ H1 (a' & c & -> & Hc & Ho) (d & b' & -> & Hd) H2 Hm. cbn [tl] in H2.
  unfold lib_file. change (lit "MyContract") with MY_TYPE. change (lit "my_contract") with MY_MOD.
  rewrite (str_replace_pieces MY_MOD m T _ ltac:(discriminate) H1). cbn [join_by].
  set (B := b' ++ MY_TYPE ++ b2 ++ MY_TYPE ++ b3) in *.
  replace ((a' ++ [c]) ++ m ++ (d :: b') ++ MY_TYPE ++ b2 ++ MY_TYPE ++ b3)
    with (a' ++ c :: (m ++ d :: B)) by (unfold B; rewrite <- !app_assoc; reflexivity).
  assert (Hn : MY_TYPE <> []) by discriminate.
  rewrite (str_replace_sep _ _ _ _ Hn Hc), (str_replace_sep _ _ _ _ Hn Hd).
  rewrite (str_replace_id _ _ _ Hn Ho), (str_replace_id _ _ _ Hn Hm).
  rewrite (str_replace_pieces MY_TYPE t B _ Hn H2). cbn [join_by].
  rewrite <- !app_assoc. reflexivity.
Qed.

(** The pieces of a template, computed. *)
Definition lib_pieces (T : str) : list piece :=
  match split_at (length T) MY_MOD [] T with
  | [a; b] =>
      match split_at (length b) MY_TYPE [] b with
      | [b1; b2; b3] => [Text a; ModuleName; Text b1; TypeName; Text b2; TypeName; Text b3]
      | _ => []
      end
  | _ => []
  end.
Definition cargo_pieces (T : str) : list piece :=
  match split_at (length T) MY_MOD [] T with [a; b] => [Text a; ModuleName; Text b] | _ => [] end.

Definition snoc_ok (a : str) : bool :=
  match rev a with c :: r => negb (mem_char c MY_TYPE) && negb (occursb MY_TYPE (rev r)) | [] => false end.
Definition cons_ok (b : str) : bool := match b with c :: _ => negb (mem_char c MY_TYPE) | [] => false end.
Definition list_str_eqb := fix go (a b : list str) : bool :=
  match a, b with [], [] => true | x :: a', y :: b' => str_eqb x y && go a' b' | _, _ => false end.
Lemma list_str_eqb_eq a b : list_str_eqb a b = true -> a = b.
Proof.
  revert b; induction a as [|x a IH]; intros [|y b] H; try discriminate; [reflexivity|].
  simpl in H. apply andb_true_iff in H as [H1 H2]. apply str_eqb_eq in H1. f_equal; auto.
Qed.
Definition lib_ok (T : str) : bool :=
  match lib_pieces T with
  | [Text a; ModuleName; Text b1; TypeName; Text b2; TypeName; Text b3] =>
      str_eqb T (a ++ MY_MOD ++ b1 ++ MY_TYPE ++ b2 ++ MY_TYPE ++ b3)
      && list_str_eqb (split_at (length T) MY_MOD [] T) [a; b1 ++ MY_TYPE ++ b2 ++ MY_TYPE ++ b3]
      && snoc_ok a && cons_ok b1
      && (let B := tl b1 ++ MY_TYPE ++ b2 ++ MY_TYPE ++ b3 in list_str_eqb (split_at (length B) MY_TYPE [] B) [tl b1; b2; b3])
      && forallb (fun s => negb (occursb MY_MOD s) && negb (occursb MY_TYPE s)) [a; b1; b2; b3]
  | _ => false
  end.
Definition cargo_ok (T : str) : bool :=
  match cargo_pieces T with
  | [Text a; ModuleName; Text b] =>
      str_eqb T (a ++ MY_MOD ++ b)
      && list_str_eqb (split_at (length T) MY_MOD [] T) [a; b]
      && forallb (fun s => negb (occursb MY_MOD s) && negb (occursb MY_TYPE s)) [a; b]
  | _ => false
  end.

Lemma texts_ok l : forallb (fun s => negb (occursb MY_MOD s) && negb (occursb MY_TYPE s)) l = true ->
  forall s, In s l -> ~ occurs MY_MOD s /\ ~ occurs MY_TYPE s.
Proof.
  intros H s Hs. rewrite forallb_forall in H. specialize (H s Hs). apply andb_true_iff in H as [H1 H2].
  apply negb_true_iff in H1, H2. split; apply occursb_no; assumption.
Qed.
Lemma lib_ok_spec T : lib_ok T = true ->
  template_of T (lib_pieces T)
  /\ (forall m t, ~ occurs MY_TYPE m -> lib_file T m t = expand m t (lib_pieces T)).
Proof.
  unfold lib_ok. destruct (lib_pieces T) as [|[a| |] [|[| |] [|[b1| |] [|[| |] [|[b2| |] [|[| |] [|[b3| |] [|]]]]]]]] eqn:El;
    try discriminate. rewrite !andb_true_iff. intros (((((H1 & H2) & H3) & H4) & H5) & H6).
  apply str_eqb_eq in H1. apply list_str_eqb_eq in H2, H5. split.
  - split.
    + rewrite H1. cbn [expand flat_map]. rewrite app_nil_r. reflexivity.
    + pose proof (texts_ok _ H6) as Ht. intros s Hs. apply Ht. simpl in Hs.
      repeat destruct Hs as [Hs|Hs]; try discriminate Hs; try (inversion Hs; subst; simpl; tauto).
  - intros m t Hm. rewrite (lib_file_shape a b1 b2 b3 m t T H1 H2); [| | | exact H5 | exact Hm].
    + cbn [expand flat_map]. rewrite app_nil_r. reflexivity.
    + unfold snoc_ok in H3. destruct (rev a) as [|c r] eqn:E; [discriminate|].
      apply andb_true_iff in H3 as [A B]. apply negb_true_iff in A, B. exists (rev r), c. split.
      * rewrite <- (rev_involutive a), E. reflexivity.
      * split; [intros C; apply mem_char_In in C; congruence | apply occursb_no; exact B].
    + unfold cons_ok in H4. destruct b1 as [|c r]; [discriminate|]. apply negb_true_iff in H4.
      exists c, r. split; [reflexivity|]. intros C; apply mem_char_In in C; congruence.
Qed.
Lemma cargo_ok_spec T : cargo_ok T = true ->
  template_of T (cargo_pieces T)
  /\ (forall m t, str_replace (lit "my_contract") m T = expand m t (cargo_pieces T)).
Proof.
  unfold cargo_ok. destruct (cargo_pieces T) as [|[a| |] [|[| |] [|[b1| |] [|]]]] eqn:El; try discriminate.
  rewrite !andb_true_iff. intros ((H1 & H2) & H6). apply str_eqb_eq in H1. apply list_str_eqb_eq in H2. split.
  - split.
    + rewrite H1. cbn [expand flat_map]. rewrite app_nil_r. reflexivity.
    + pose proof (texts_ok _ H6) as Ht. intros s Hs. apply Ht. simpl in Hs.
      repeat destruct Hs as [Hs|Hs]; try discriminate Hs; try (inversion Hs; subst; simpl; tauto).
  - intros m t. change (lit "my_contract") with MY_MOD.
    rewrite (str_replace_pieces MY_MOD m T _ ltac:(discriminate) H2). cbn [join_by expand flat_map].
    rewrite app_nil_r. reflexivity.
Qed.

Lemma new_project_valid U name v :
  (exists p, new_project U name v = Ok p) <-> valid_name U name.
Proof.
  unfold new_project, valid_name. destruct name as [|c name].
  - cbn. split; [intros (p & H); discriminate H | intros ((c & r & H & _) & _); discriminate H].
  - cbn [orb negb]. destruct (forallb (name_char U) (c :: name)) eqn:F; cbn [negb].
    + assert (HF : forall x, In x (c :: name) -> u_alphanumeric U x = true \/ x = c_underscore \/ x = c_hyphen).
      { intros x Hx. rewrite forallb_forall in F. specialize (F x Hx). unfold name_char in F.
        rewrite !orb_true_iff, !N.eqb_eq in F. tauto. }
      destruct (u_alphabetic U c) eqn:A; cbn [negb].
      * split; [intros _|intros _; eexists; reflexivity]. split; [exists c, name; split; [reflexivity|exact A] | exact HF].
      * split; [intros (p & H); discriminate H|]. intros ((c' & r & H & A') & _). inversion H; subst. congruence.
    + split; [intros (p & H); discriminate H|]. intros (_ & H). exfalso.
      assert (forallb (name_char U) (c :: name) = true); [|congruence].
      apply forallb_forall. intros x Hx. unfold name_char. rewrite !orb_true_iff, !N.eqb_eq.
      destruct (H x Hx) as [?|[?|?]]; tauto.
Qed.

(** ** Identifiers *)

Lemma tokens_at_In l : forall o t, In t (tokens_at o l) <->
  exists pre k s post, l = pre ++ (k, s) :: post /\ t = (o + bytes (flat_map snd pre), k, s).
Proof.
  induction l as [|[k s] l IH]; intros o t; cbn [tokens_at].
  - split; [intros [] | intros (pre & k & s & post & E & _)]. destruct pre; discriminate E.
  - split.
    + intros [<-|H].
      * exists [], k, s, l. split; [reflexivity|]. cbn. rewrite Nat.add_0_r. reflexivity.
      * apply IH in H as (pre & k' & s' & post & -> & ->). exists ((k, s) :: pre), k', s', post.
        split; [reflexivity|]. cbn [flat_map snd]. rewrite bytes_app, Nat.add_assoc. reflexivity.
    + intros (pre & k' & s' & post & E & ->). destruct pre as [|[k0 s0] pre].
      * inversion E; subst. left. cbn. rewrite Nat.add_0_r. reflexivity.
      * inversion E; subst. right. apply IH. exists pre, k', s', post. split; [reflexivity|].
        cbn [flat_map snd]. rewrite bytes_app, Nat.add_assoc. reflexivity.
Qed.
