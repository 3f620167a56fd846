From Verif Require Import Base BaseFacts Unicode TranslateModel VersionModel VersionSpec.

Lemma match_ws5_spec U s :
  match_ws5 U s = true <->
  exists ws post, s = ws ++ lit "5." ++ post /\ Forall (fun c => u_whitespace U c = true) ws.
Proof.
  induction s as [|c s IH]; cbn [match_ws5].
  - split; [discriminate|]. intros [ws [post [H _]]]. destruct ws; discriminate.
  - rewrite orb_true_iff, andb_true_iff, IH, starts_with_app. split.
    + intros [[t Ht] | [Hc [ws [post [H1 H2]]]]].
      * exists [], t. split; [exact Ht | constructor].
      * exists (c :: ws), post. split; [rewrite H1; reflexivity | constructor; assumption].
    + intros [ws [post [H1 H2]]]. destruct ws as [|a ws].
      * left. exists post. exact H1.
      * right. injection H1 as -> H1. inversion H2; subst. split; [assumption|].
        exists ws, post. split; [reflexivity | assumption].
Qed.

Definition ops : list str := [[]; lit "^"; lit "~"; lit ">"; lit "="; lit ">="].

Lemma is_op_spec c : is_op c = true <-> In [c] [lit "^"; lit "~"; lit ">"; lit "="].
Proof.
  unfold is_op. rewrite mem_char_In. unfold lit; simpl. split.
  - intros [H|[H|[H|[H|[]]]]]; rewrite <- H; auto.
  - intros [H|[H|[H|[H|[]]]]]; inversion H; subst; auto.
Qed.

Lemma match_here_spec U s :
  match_here U s = true <->
  exists op ws post, s = op ++ ws ++ lit "5." ++ post /\ In op ops /\ Forall (fun c => u_whitespace U c = true) ws.
Proof.
  unfold match_here. rewrite !orb_true_iff. split.
  - intros [[H|H]|H].
    + apply match_ws5_spec in H as [ws [post [H1 H2]]]. exists [], ws, post.
      split; [exact H1|]. split; [left; reflexivity | exact H2].
    + destruct s as [|c s]; [discriminate|]. apply andb_true_iff in H as [Hc H].
      apply match_ws5_spec in H as [ws [post [H1 H2]]]. exists [c], ws, post.
      split; [rewrite H1; reflexivity|]. split; [|exact H2].
      apply is_op_spec in Hc. right. destruct Hc as [E|[E|[E|[E|[]]]]]; rewrite <- E; simpl; auto 6.
    + destruct (strip_prefix (lit ">=") s) as [s'|] eqn:E; [|discriminate].
      apply strip_prefix_some in E. apply match_ws5_spec in H as [ws [post [H1 H2]]].
      exists (lit ">="), ws, post. split; [rewrite E, H1; reflexivity|]. split; [simpl; auto 8 | exact H2].
  - intros [op [ws [post [-> [Hop Hws]]]]].
    assert (Hm : match_ws5 U (ws ++ lit "5." ++ post) = true)
      by (apply match_ws5_spec; exists ws, post; split; [reflexivity | exact Hws]).
    destruct Hop as [<-|[<-|[<-|[<-|[<-|[<-|[]]]]]]].
    + left; left. exact Hm.
    + left; right. cbn [app]. change (is_op 94%N && match_ws5 U (ws ++ lit "5." ++ post) = true). rewrite Hm. reflexivity.
    + left; right. change (is_op 126%N && match_ws5 U (ws ++ lit "5." ++ post) = true). rewrite Hm. reflexivity.
    + left; right. change (is_op 62%N && match_ws5 U (ws ++ lit "5." ++ post) = true). rewrite Hm. reflexivity.
    + left; right. change (is_op 61%N && match_ws5 U (ws ++ lit "5." ++ post) = true). rewrite Hm. reflexivity.
    + right. rewrite (proj2 (strip_prefix_some (lit ">=") (lit ">=" ++ ws ++ lit "5." ++ post) (ws ++ lit "5." ++ post)) eq_refl).
      exact Hm.
Qed.

Definition boundary_at (U : unicode) (prev : option char) (pre post : str) : Prop :=
  (pre = [] /\ at_boundary U prev post = true) \/
  exists pre' a, pre = pre' ++ [a] /\ at_boundary U (Some a) post = true.

Lemma v5_scan_spec U s : forall prev,
  v5_scan U prev s = true <->
  exists pre post, s = pre ++ post /\ boundary_at U prev pre post /\ match_here U post = true.
Proof.
  induction s as [|c s IH]; intros prev; cbn [v5_scan].
  - rewrite orb_true_iff, andb_true_iff. split.
    + intros [[H1 H2]|H]; [|discriminate]. exists [], []. split; [reflexivity|]. split; [left; auto | exact H2].
    + intros [pre [post [H1 [H2 H3]]]]. destruct pre; [|discriminate]. destruct post; [|discriminate]. left.
      split; [|exact H3]. destruct H2 as [[_ H2]|[pre' [a [H2 _]]]]; [exact H2 | destruct pre'; discriminate].
  - rewrite orb_true_iff, andb_true_iff, IH. split.
    + intros [[H1 H2]|[pre [post [H1 [H2 H3]]]]].
      * exists [], (c :: s). split; [reflexivity|]. split; [left; auto | exact H2].
      * exists (c :: pre), post. split; [rewrite H1; reflexivity|]. split; [|exact H3]. right.
        destruct H2 as [[-> H2]|[pre' [a [-> H2]]]]; [exists [], c; auto | exists (c :: pre'), a; auto].
    + intros [pre [post [H1 [H2 H3]]]]. destruct pre as [|d pre].
      * left. cbn [app] in H1. rewrite H1. split; [|exact H3].
        destruct H2 as [[_ H2]|[pre' [a [H2 _]]]]; [exact H2 | destruct pre'; discriminate].
      * right. injection H1 as <- H1. exists pre, post. split; [exact H1|]. split; [|exact H3].
        destruct H2 as [[H2 _]|[pre' [a [H2 H4]]]]; [discriminate|].
        destruct pre' as [|e pre'].
        -- injection H2 as <- H2. left. split; [exact H2 | exact H4].
        -- injection H2 as <- H2. right. exists pre', a. auto.
Qed.

Lemma is_v5_spec U s : is_v5_version_string U s = true <-> mentions_v5 U s.
Proof.
  unfold is_v5_version_string. rewrite v5_scan_spec. unfold mentions_v5. split.
  - intros [pre [post [-> [Hb Hm]]]]. apply match_here_spec in Hm as [op [ws [rest [-> [Hop Hws]]]]].
    exists pre, op, ws, rest. split; [reflexivity|]. split; [|auto].
    destruct Hb as [[-> _]|[pre' [a [-> Hb]]]]; [left; reflexivity|]. right. exists pre', a. split; [reflexivity|].
    unfold at_boundary, at_word in Hb.
    destruct (op ++ ws ++ lit "5." ++ rest) as [|b l]; destruct (u_word U a); simpl in *; try congruence;
      destruct (u_word U b); simpl in *; congruence.
  - intros [pre [op [ws [rest [-> [Hb [Hop Hws]]]]]]].
    exists pre, (op ++ ws ++ lit "5." ++ rest). split; [reflexivity|]. split.
    + destruct Hb as [->|[pre' [a [-> Hb]]]]; [left; split; reflexivity|]. right. exists pre', a. split; [reflexivity|].
      unfold at_boundary, at_word. rewrite Hb.
      destruct (op ++ ws ++ lit "5." ++ rest) as [|b l]; [reflexivity|]. destruct (u_word U b); reflexivity.
    + apply match_here_spec. exists op, ws, rest. auto.
Qed.

(** [trim] keeps the first non-white character. *)
Lemma trim_start_split U s : exists ws, s = ws ++ trim_start U s /\ Forall (fun c => u_whitespace U c = true) ws.
Proof.
  induction s as [|c s [ws [H1 H2]]]; simpl; [exists []; split; [reflexivity | constructor]|].
  destruct (u_whitespace U c) eqn:E.
  - exists (c :: ws). split; [simpl; congruence | constructor; assumption].
  - exists []. split; [reflexivity | constructor].
Qed.
Lemma trim_start_hd U s c r : trim_start U s = c :: r -> u_whitespace U c = false.
Proof.
  induction s as [|d s IH]; simpl; [discriminate|].
  destruct (u_whitespace U d) eqn:E; [exact IH|]. intros H; inversion H; subst. exact E.
Qed.
Lemma trim_hd U s c : starts_with [c] (trim U s) = true <-> exists r, trim_start U s = c :: r.
Proof.
  unfold trim. destruct (trim_start U s) as [|d r] eqn:E.
  - simpl. split; [discriminate | intros [r H]; discriminate].
  - pose proof (trim_start_hd U s d r E) as Hd. clear E.
    assert (H : exists r', rev (trim_start U (rev (d :: r))) = d :: r').
    { destruct (trim_start_split U (rev (d :: r))) as [ws [H1 H2]].
      assert (H3 : d :: r = rev (trim_start U (rev (d :: r))) ++ rev ws)
        by (rewrite <- rev_app_distr, <- H1, rev_involutive; reflexivity).
      destruct (rev (trim_start U (rev (d :: r)))) as [|x l] eqn:El.
      - simpl in H3. assert (Hin : In d ws) by (rewrite in_rev, <- H3; left; reflexivity).
        rewrite Forall_forall in H2. specialize (H2 d Hin). congruence.
      - injection H3 as -> _. exists l. reflexivity. }
    destruct H as [r' ->]. cbn [starts_with]. rewrite andb_true_r. split.
    + intros H. apply N.eqb_eq in H. subst. exists r. reflexivity.
    + intros [r'' H]. injection H as -> _. apply N.eqb_refl.
Qed.

Lemma guess_version_spec U v :
  guess_version U v = V5 <->
  (exists s, iv_version v = Some s /\
     (mentions_v5 U s \/ exists ws r, s = ws ++ lit "*" ++ r /\ Forall (fun c => u_whitespace U c = true) ws
        /\ u_whitespace U 42%N = false))
  \/ (iv_version v = None /\ (iv_path v <> None \/ iv_git v <> None)).
Proof.
  unfold guess_version. destruct (iv_version v) as [s|].
  - assert (Hb : is_v5_version_string U s || starts_with (lit "*") (trim U s) = true <->
       (mentions_v5 U s \/ exists ws r, s = ws ++ lit "*" ++ r /\ Forall (fun c => u_whitespace U c = true) ws
        /\ u_whitespace U 42%N = false)).
    { rewrite orb_true_iff, is_v5_spec. change (lit "*") with [42%N]. rewrite trim_hd.
      split; intros [H|H]; auto; right.
      - destruct H as [r H]. destruct (trim_start_split U s) as [ws [H1 H2]]. exists ws, r. rewrite H in H1.
        split; [exact H1|]. split; [exact H2|]. eapply trim_start_hd; exact H.
      - destruct H as [ws [r [-> [H1 H2]]]]. exists r. induction ws as [|a ws IH]; simpl.
        + rewrite H2. reflexivity.
        + inversion H1; subst. rewrite H3. apply IH. assumption. }
    destruct (is_v5_version_string U s || starts_with (lit "*") (trim U s)).
    + split; [|reflexivity]. intros _. left. exists s. split; [reflexivity | apply Hb; reflexivity].
    + split; [discriminate|]. intros [[s' [H1 H2]]|[H1 _]]; [|discriminate].
      injection H1 as <-. apply Hb in H2. discriminate.
  - destruct (iv_path v), (iv_git v); simpl; split; try reflexivity; try discriminate;
      try (intros _; right; split; [reflexivity|]; first [left; discriminate | right; discriminate]).
    intros [[s' [H1 _]]|[_ [H|H]]]; [discriminate | congruence | congruence].
Qed.

(** Simple requirements. *)
Lemma last_app_inv {A} (a b : list A) (x y : A) : a ++ [x] = b ++ [y] -> a = b /\ x = y.
Proof. apply app_inj_tail. Qed.

Lemma split_at_char {A} (d : A) (x y p q : list A) :
  x ++ d :: y = p ++ d :: q -> ~ In d p -> x = p \/ exists x', x = p ++ d :: x' /\ q = x' ++ d :: y.
Proof.
  revert p; induction x as [|a x IH]; intros p H Hn.
  - destruct p as [|b p]; [left; reflexivity|]. simpl in H. injection H as H _. subst. exfalso. apply Hn. left. reflexivity.
  - destruct p as [|b p]; simpl in H; injection H as -> H.
    + right. exists x. split; [reflexivity | symmetry; exact H].
    + destruct (IH p H) as [->|[x' [-> ->]]]; [intros Hi; apply Hn; right; exact Hi | left; reflexivity|].
      right. exists x'. split; reflexivity.
Qed.

Lemma digit_lt128 c : ascii_digit c = true -> (c < 128)%N.
Proof. unfold ascii_digit. rewrite andb_true_iff, N.leb_le, N.leb_le. lia. Qed.
Lemma digit_word U c : unicode_ok U -> ascii_digit c = true -> u_word U c = true.
Proof.
  intros HU H. rewrite (uo_word U HU) by (apply digit_lt128; exact H).
  unfold ascii_word, ascii_alnum. rewrite H, orb_true_r. reflexivity.
Qed.
Lemma digit_not_white U c : unicode_ok U -> ascii_digit c = true -> u_whitespace U c = false.
Proof.
  intros HU H. rewrite (uo_whitespace U HU) by (apply digit_lt128; exact H).
  unfold ascii_digit, ascii_white in *. rewrite andb_true_iff, N.leb_le, N.leb_le in H.
  apply orb_false_iff. split; [apply andb_false_iff; right; apply N.leb_gt; lia | apply N.eqb_neq; lia].
Qed.

(** In front of "5.", a preceding digit blocks the pattern. *)
Lemma digit_blocks U pre op ws X d post :
  unicode_ok U -> ascii_digit d = true ->
  pre ++ op ++ ws = X ++ [d] -> In op ops -> Forall (fun c => u_whitespace U c = true) ws ->
  boundary U pre (op ++ ws ++ lit "5." ++ post) -> False.
Proof.
  intros HU Hd HX Hop Hws Hb.
  destruct ws as [|w ws _] using rev_ind.
  - rewrite app_nil_r in HX.
    assert (Hop0 : op = []).
    { destruct Hop as [<-|[<-|[<-|[<-|[<-|[<-|[]]]]]]]; [reflexivity|..]; exfalso.
      - change (lit "^") with [94%N] in HX. apply app_inj_tail in HX as [_ <-]. vm_compute in Hd. discriminate.
      - change (lit "~") with [126%N] in HX. apply app_inj_tail in HX as [_ <-]. vm_compute in Hd. discriminate.
      - change (lit ">") with [62%N] in HX. apply app_inj_tail in HX as [_ <-]. vm_compute in Hd. discriminate.
      - change (lit "=") with [61%N] in HX. apply app_inj_tail in HX as [_ <-]. vm_compute in Hd. discriminate.
      - change (lit ">=") with ([62%N] ++ [61%N]) in HX. rewrite app_assoc in HX.
        apply app_inj_tail in HX as [_ <-]. vm_compute in Hd. discriminate. }
    subst op. rewrite app_nil_r in HX. subst pre.
    destruct Hb as [Hb|[pre' [a [Hp Ha]]]]; [destruct X; discriminate|].
    apply app_inj_tail in Hp as [_ <-]. rewrite (digit_word U d HU Hd) in Ha.
    change (true = negb (u_word U 53%N)) in Ha. rewrite (digit_word U 53%N HU) in Ha by reflexivity. discriminate.
  - rewrite !app_assoc in HX. apply app_inj_tail in HX as [_ <-].
    apply Forall_app in Hws as [_ Hw]. apply Forall_inv in Hw.
    rewrite (digit_not_white U w HU Hd) in Hw. discriminate.
Qed.

Lemma num_no_dot s : is_num s -> ~ In 46%N s.
Proof. intros [_ H] Hi. rewrite Forall_forall in H. specialize (H _ Hi). vm_compute in H. discriminate. Qed.

Lemma requirement_mentions U op M m p :
  unicode_ok U -> simple_op op -> is_num M -> is_num m -> is_num p ->
  (mentions_v5 U (requirement op M m p) <-> M = lit "5" \/ m = lit "5").
Proof.
  intros HU Hop HM Hm Hp. split.
  - intros [pre [op' [ws [post [E [Hb [Hop' Hws]]]]]]].
    assert (E' : (pre ++ op' ++ ws ++ [53%N]) ++ 46%N :: post = (op ++ M) ++ 46%N :: m ++ 46%N :: p).
    { transitivity (requirement op M m p).
      - rewrite E. rewrite <- !app_assoc. reflexivity.
      - unfold requirement. rewrite <- !app_assoc. reflexivity. }
    assert (HopM : ~ In 46%N (op ++ M)).
    { rewrite in_app_iff. intros [H|H]; [|eapply num_no_dot; [exact HM | exact H]].
      destruct Hop as [<-|[<-|[<-|[<-|[]]]]]; vm_compute in H; repeat (destruct H as [H|H]; try discriminate); contradiction. }
    assert (Hnum : forall X n Y, is_num n -> pre ++ op' ++ ws ++ [53%N] = X ++ n -> Y = n -> n = lit "5").
    { intros X n _ [Hn0 Hn] H _. destruct n as [|d n _] using rev_ind; [congruence|].
      rewrite !app_assoc in H. apply app_inj_tail in H as [H <-].
      destruct n as [|d n _] using rev_ind; [reflexivity|]. exfalso.
      apply Forall_app in Hn as [Hn _]. apply Forall_app in Hn as [_ Hn]. apply Forall_inv in Hn.
      rewrite app_assoc, <- (app_assoc pre) in H.
      eapply digit_blocks; [exact HU | exact Hn | exact H | exact Hop' | exact Hws | exact Hb]. }
    destruct (split_at_char _ _ _ _ _ E' HopM) as [H|[x' [H1 H2]]].
    + left. eapply Hnum; [exact HM | exact H | reflexivity].
    + right. symmetry in H2. destruct (split_at_char _ _ _ _ _ H2 (num_no_dot _ Hm)) as [H|[x'' [H3 H4]]].
      * subst x'. eapply (Hnum (op ++ M ++ [46%N]) m m Hm); [|reflexivity]. rewrite H1, <- !app_assoc. reflexivity.
      * exfalso. apply (num_no_dot _ Hp). rewrite H4. apply in_app_iff. right. left. reflexivity.
  - intros [->| ->].
    + exists [], op, [], (m ++ lit "." ++ p). split; [unfold requirement; rewrite <- ?app_assoc; reflexivity|].
      split; [left; reflexivity|]. split; [|constructor].
      destruct Hop as [<-|[<-|[<-|[<-|[]]]]]; simpl; auto 8.
    + exists (op ++ M ++ lit "."), [], [], p. split; [unfold requirement; rewrite <- !app_assoc; reflexivity|].
      split; [|split; [left; reflexivity | constructor]]. right. exists (op ++ M), 46%N.
      split; [rewrite <- app_assoc; reflexivity|]. cbn [app]. change (u_word U 46%N = negb (u_word U 53%N)).
      rewrite (digit_word U 53%N HU eq_refl), (uo_word U HU) by reflexivity. reflexivity.
Qed.

Lemma requirement_no_star U op M m p :
  unicode_ok U -> simple_op op -> is_num M ->
  starts_with (lit "*") (trim U (requirement op M m p)) = false.
Proof.
  intros HU Hop [HM0 HM]. destruct (starts_with (lit "*") (trim U (requirement op M m p))) eqn:E; [|reflexivity].
  exfalso. change (lit "*") with [42%N] in E. apply trim_hd in E as [r Hr].
  destruct (trim_start_split U (requirement op M m p)) as [ws [H1 H2]]. rewrite Hr in H1.
  destruct ws as [|w ws].
  - unfold requirement in H1. destruct M as [|d M]; [congruence|]. apply Forall_inv in HM.
    destruct Hop as [<-|[<-|[<-|[<-|[]]]]]; try discriminate. cbn [app] in H1. injection H1 as -> _.
    vm_compute in HM. discriminate.
  - apply Forall_inv in H2. unfold requirement in H1. destruct M as [|d M]; [congruence|]. apply Forall_inv in HM.
    destruct Hop as [<-|[<-|[<-|[<-|[]]]]]; cbn [app] in H1.
    + injection H1 as <- _. rewrite (digit_not_white U d HU HM) in H2. discriminate.
    + change (lit "^") with [94%N] in H1. injection H1 as <- _. rewrite (uo_whitespace U HU) in H2 by reflexivity. discriminate.
    + change (lit "~") with [126%N] in H1. injection H1 as <- _. rewrite (uo_whitespace U HU) in H2 by reflexivity. discriminate.
    + change (lit "=") with [61%N] in H1. injection H1 as <- _. rewrite (uo_whitespace U HU) in H2 by reflexivity. discriminate.
Qed.

Lemma guess_simple U op M m p path git w :
  unicode_ok U -> simple_op op -> is_num M -> is_num m -> is_num p ->
  (guess_version U (InkVersion (Some (requirement op M m p)) path git w) = V5 <-> M = lit "5" \/ m = lit "5").
Proof.
  intros HU Hop HM Hm Hp. rewrite <- (requirement_mentions U op M m p HU Hop HM Hm Hp), <- is_v5_spec.
  unfold guess_version; cbn [iv_version]. rewrite (requirement_no_star U op M m p HU Hop HM), orb_false_r.
  destruct (is_v5_version_string U (requirement op M m p)); split; congruence.
Qed.

(** Manifest search. *)
Lemma find_up_spec f n : forall p d, p = CARGO_TOML :: d \/ (exists x, p = x :: d) ->
  match find_up f n p with
  | c => fs_is_file f c = true -> fs_is_file f p = false ->
      exists k, k < n /\ c = CARGO_TOML :: skipn (S k) d
        /\ forall j, j < k -> fs_is_file f (CARGO_TOML :: skipn (S j) d) = false
  end.
Proof.
  induction n as [|n IH]; intros p d Hp; cbn [find_up].
  - intros H1 H2. congruence.
  - assert (Hpop : path_pop p = Some d) by (destruct Hp as [->|[x ->]]; reflexivity).
    rewrite Hpop.
    assert (Hset : set_file_name d CARGO_TOML = CARGO_TOML :: skipn 1 d) by (destruct d; reflexivity).
    rewrite Hset. destruct (fs_is_file f (CARGO_TOML :: skipn 1 d)) eqn:E.
    + intros _ _. exists 0. split; [lia|]. split; [reflexivity|]. intros j Hj; lia.
    + intros H1 _. destruct (IH (CARGO_TOML :: skipn 1 d) (skipn 1 d) (or_introl eq_refl) H1 E) as [k [Hk [Hc Hj]]].
      exists (S k). split; [lia|]. split; [rewrite Hc; destruct d; [rewrite !skipn_nil|]; reflexivity|].
      intros j Hlt. destruct j as [|j]; [exact E|]. specialize (Hj j ltac:(lia)).
      destruct d; [rewrite !skipn_nil in *; exact Hj | exact Hj].
Qed.
Lemma find_up_complete f n : forall p d k, p = CARGO_TOML :: d \/ (exists x, p = x :: d) ->
  k < n -> fs_is_file f (CARGO_TOML :: skipn (S k) d) = true -> fs_is_file f (find_up f n p) = true.
Proof.
  induction n as [|n IH]; intros p d k Hp Hk H; cbn [find_up]; [lia|].
  assert (Hpop : path_pop p = Some d) by (destruct Hp as [->|[x ->]]; reflexivity).
  rewrite Hpop.
  assert (Hset : set_file_name d CARGO_TOML = CARGO_TOML :: skipn 1 d) by (destruct d; reflexivity).
  rewrite Hset. destruct (fs_is_file f (CARGO_TOML :: skipn 1 d)) eqn:E; [exact E|].
  destruct k as [|k]; [congruence|].
  apply (IH (CARGO_TOML :: skipn 1 d) (skipn 1 d) k (or_introl eq_refl)); [lia|].
  destruct d; [rewrite !skipn_nil in *; exact H | exact H].
Qed.

Lemma find_cargo_toml_spec f x d c :
  find_cargo_toml f (x :: d) = Some c <->
  exists k, k <= 10 /\ c = CARGO_TOML :: skipn k d /\ fs_is_file f c = true
    /\ forall j, j < k -> fs_is_file f (CARGO_TOML :: skipn j d) = false.
Proof.
  unfold find_cargo_toml. cbn [set_file_name].
  destruct (fs_is_file f (CARGO_TOML :: d)) eqn:E0.
  - rewrite E0. split.
    + intros H. injection H as <-. exists 0. split; [lia|]. split; [reflexivity|]. split; [exact E0|]. intros j Hj; lia.
    + intros [k [Hk [Hc [Hf Hj]]]]. destruct k as [|k]; [rewrite Hc; reflexivity|].
      specialize (Hj 0 ltac:(lia)). cbn [skipn] in Hj. congruence.
  - change (find_up f 10 (x :: d)) with (find_up f 10 (CARGO_TOML :: d)).
    pose proof (find_up_spec f 10 (CARGO_TOML :: d) d (or_introl eq_refl)) as Hs. cbv zeta in Hs.
    pose proof (fun k => find_up_complete f 10 (CARGO_TOML :: d) d k (or_introl eq_refl)) as Hc.
    destruct (fs_is_file f (find_up f 10 (CARGO_TOML :: d))) eqn:E.
    + destruct (Hs eq_refl E0) as [k [Hk [Ek Hj]]].
      assert (Hj' : forall j, j < S k -> fs_is_file f (CARGO_TOML :: skipn j d) = false)
        by (intros [|j] Hlt; [exact E0 | apply Hj; lia]).
      split.
      * intros H. injection H as <-. exists (S k). split; [lia|]. split; [exact Ek|]. split; [exact E | exact Hj'].
      * intros [k' [Hk' [-> [Hf Hm]]]]. f_equal. rewrite Ek in *.
        destruct (Nat.lt_trichotomy k' (S k)) as [Hlt|[->|Hlt]]; [|reflexivity|].
        -- rewrite (Hj' k' Hlt) in Hf. discriminate.
        -- rewrite (Hm (S k) Hlt) in E. discriminate.
    + split; [discriminate|]. intros [k [Hk [-> [Hf Hm]]]]. destruct k as [|k]; [cbn [skipn] in Hf; congruence|].
      specialize (Hc k ltac:(lia) Hf). congruence.
Qed.

Lemma find_cargo_toml_nearest f p c : find_cargo_toml f p = Some c <-> p <> [] /\ nearest_manifest f p c
  \/ p = [] /\ c = [CARGO_TOML] /\ fs_is_file f c = true \/ p = [] /\ c = [] /\ fs_is_file f [CARGO_TOML] = false /\ fs_is_file f [] = true.
Proof.
  destruct p as [|x d].
  - unfold find_cargo_toml. cbn [set_file_name find_up path_pop]. split.
    + intros H. right. destruct (fs_is_file f [CARGO_TOML]) eqn:E.
      * rewrite E in H. injection H as <-. left. auto.
      * destruct (fs_is_file f []) eqn:E0; [|discriminate]. injection H as <-. right. auto.
    + intros [[H _]|[[_ [-> H]]|[_ [-> [H1 H2]]]]]; [congruence | rewrite H, H; reflexivity|].
      rewrite H1, H2. reflexivity.
  - rewrite find_cargo_toml_spec. split.
    + intros [k H]. left. split; [discriminate|]. exists x, d, k. split; [reflexivity | exact H].
    + intros [[_ [x' [d' [k [E H]]]]]|[[H _]|[H _]]]; try discriminate. injection E as <- <-. exists k. exact H.
Qed.

Lemma parse_inner_declares parse f c ws dep :
  declares_ink parse f c ws dep -> parse_inner parse f c ws = ink_dependency dep.
Proof.
  intros [text [package [deps [H1 [H2 [H3 [H4 H5]]]]]]].
  unfold parse_inner, manifest_dependencies. rewrite H1, H2, H3.
  destruct ws; rewrite H4, H5; reflexivity.
Qed.

Lemma ink_dep_requires dep s : requires dep s ->
  exists v, ink_dependency dep = Some v /\ iv_version v = Some s.
Proof.
  unfold ink_dependency, dep_value. intros [->|[m [[->| ->] H]]].
  - eexists. split; [reflexivity | reflexivity].
  - rewrite H. eexists. split; reflexivity.
  - rewrite H. eexists. split; reflexivity.
Qed.

Lemma ink_dep_workspace dep v : ink_dependency dep = Some v -> (iv_workspace v = true <-> inherits dep).
Proof.
  unfold ink_dependency, inherits. intros H.
  set (w := match dep with
            | TTable m | TInline m => match assoc (lit "workspace") m with Some (TBool true) => true | _ => false end
            | _ => false end).
  assert (Hv : iv_workspace v = w).
  { destruct dep; cbv zeta in H; match type of H with (if ?b then _ else _) = _ => destruct b; [|discriminate] end;
      injection H as <-; reflexivity. }
  rewrite Hv. subst w. split.
  - destruct dep as [ | | | |m|m|]; try discriminate; destruct (assoc (lit "workspace") m) as [[ |[]| | | | | ]|] eqn:E; try discriminate;
      intros _; exists m; auto.
  - intros [m [[->| ->] E]]; rewrite E; reflexivity.
Qed.

Lemma inherits_some dep : inherits dep -> exists v, ink_dependency dep = Some v /\ iv_workspace v = true.
Proof.
  unfold ink_dependency. intros [m [[->| ->] E]]; rewrite E; rewrite !orb_true_r; eexists; split; reflexivity.
Qed.

Lemma detect_own parse f p c dep s :
  path_extension p = Some (lit "rs") -> nearest_manifest f p c ->
  declares_ink parse f c false dep -> requires dep s -> ~ inherits dep ->
  exists v, parse_ink_project_version parse f (Some p) = Some v /\ iv_version v = Some s.
Proof.
  intros Hext Hn Hd Hr Hi. unfold parse_ink_project_version. rewrite Hext, str_eqb_refl.
  assert (Hf : find_cargo_toml f p = Some c).
  { apply find_cargo_toml_nearest. left. split; [|exact Hn]. destruct Hn as [x [d [k [-> _]]]]. discriminate. }
  rewrite Hf, (parse_inner_declares _ _ _ _ _ Hd).
  destruct (ink_dep_requires dep s Hr) as [v [Hv Hs]]. rewrite Hv.
  destruct (iv_workspace v) eqn:Ew; [exfalso; apply Hi; apply (ink_dep_workspace dep v Hv); exact Ew|].
  exists v. auto.
Qed.

Lemma detect_inherited parse f p x dir wc dep dep' s :
  path_extension p = Some (lit "rs") -> nearest_manifest f p (CARGO_TOML :: x :: dir) ->
  declares_ink parse f (CARGO_TOML :: x :: dir) false dep -> inherits dep ->
  nearest_manifest f (x :: dir) wc -> declares_ink parse f wc true dep' -> requires dep' s ->
  exists v, parse_ink_project_version parse f (Some p) = Some v /\ iv_version v = Some s.
Proof.
  intros Hext Hn Hd Hi Hw Hd' Hr. unfold parse_ink_project_version. rewrite Hext, str_eqb_refl.
  assert (Hf : find_cargo_toml f p = Some (CARGO_TOML :: x :: dir)).
  { apply find_cargo_toml_nearest. left. split; [|exact Hn]. destruct Hn as [y [d [k [-> _]]]]. discriminate. }
  rewrite Hf, (parse_inner_declares _ _ _ _ _ Hd).
  destruct (inherits_some dep Hi) as [v [Hv Hs]]. rewrite Hv, Hs. cbn [path_pop].
  assert (Hf' : find_cargo_toml f (x :: dir) = Some wc)
    by (apply find_cargo_toml_nearest; left; split; [discriminate | exact Hw]).
  rewrite Hf', (parse_inner_declares _ _ _ _ _ Hd').
  destruct (ink_dep_requires dep' s Hr) as [v' [Hv' Hs']]. rewrite Hv'. exists v'. auto.
Qed.

Lemma detect_none parse f p :
  (path_extension p <> Some (lit "rs") \/ (forall c, ~ nearest_manifest f p c) /\ p <> []) ->
  parse_ink_project_version parse f (Some p) = None.
Proof.
  intros H. unfold parse_ink_project_version. destruct (path_extension p) as [e|] eqn:E; [|reflexivity].
  destruct (str_eqb e (lit "rs")) eqn:Ee; [|reflexivity]. apply str_eqb_eq in Ee. subst e.
  destruct H as [H|[H Hp]]; [congruence|].
  destruct (find_cargo_toml f p) as [c|] eqn:Ef; [|reflexivity].
  apply find_cargo_toml_nearest in Ef. destruct Ef as [[_ Ef]|[[Ef _]|[Ef _]]]; [|congruence|congruence].
  exfalso. eapply H. exact Ef.
Qed.

(** Without a dot, only a star means ink! 5. *)
Lemma guess_no_dot U s pth git w :
  ~ In 46%N s -> ~ In 42%N s -> guess_version U (InkVersion (Some s) pth git w) = V4.
Proof.
  intros Hd Hs. destruct (guess_version U (InkVersion (Some s) pth git w)) eqn:E; [reflexivity|]. exfalso.
  apply guess_version_spec in E. cbn [iv_version] in E. destruct E as [[s' [E H]]|[E _]]; [|discriminate].
  injection E as <-. destruct H as [[pre [op [ws [post [-> _]]]]]|[ws [r [-> _]]]].
  - apply Hd. rewrite !in_app_iff. right; right; right; left. right; left; reflexivity.
  - apply Hs. rewrite !in_app_iff. right; left. left; reflexivity.
Qed.

Lemma detect_fallback parse f p x dir dep s :
  path_extension p = Some (lit "rs") -> nearest_manifest f p (CARGO_TOML :: x :: dir) ->
  declares_ink parse f (CARGO_TOML :: x :: dir) false dep -> inherits dep -> requires dep s ->
  (forall wc dep', nearest_manifest f (x :: dir) wc -> ~ declares_ink parse f wc true dep') ->
  exists v, parse_ink_project_version parse f (Some p) = Some v /\ iv_version v = Some s.
Proof.
  intros Hext Hn Hd Hi Hr Hw. unfold parse_ink_project_version. rewrite Hext, str_eqb_refl.
  assert (Hf : find_cargo_toml f p = Some (CARGO_TOML :: x :: dir)).
  { apply find_cargo_toml_nearest. left. split; [|exact Hn]. destruct Hn as [y [d [k [-> _]]]]. discriminate. }
  rewrite Hf, (parse_inner_declares _ _ _ _ _ Hd).
  destruct (ink_dep_requires dep s Hr) as [v [Hv Hs]]. rewrite Hv. cbn [path_pop].
  exists v. split; [|exact Hs]. destruct (iv_workspace v); [|reflexivity].
  destruct (find_cargo_toml f (x :: dir)) as [wc|] eqn:Ef; [|reflexivity].
  destruct (parse_inner parse f wc true) as [v'|] eqn:Ep; [|reflexivity]. exfalso.
  assert (Hm : nearest_manifest f (x :: dir) wc).
  { apply (proj1 (find_cargo_toml_nearest _ _ _)) in Ef. destruct Ef as [[_ H]|[[C _]|[C _]]]; [exact H | discriminate | discriminate]. }
  unfold parse_inner in Ep. destruct (fs_is_file f wc) eqn:E1; [|discriminate]. destruct (fs_read f wc) as [text|] eqn:E2; [|discriminate].
  destruct (parse text) as [package|] eqn:E3; [|discriminate].
  destruct (any_table (manifest_dependencies package true)) as [deps|] eqn:E4; [|discriminate].
  destruct (assoc (lit "ink") deps) as [d|] eqn:E5; [|discriminate].
  apply (Hw wc d Hm). exists text, package, deps. auto.
Qed.
