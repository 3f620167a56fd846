(** Proofs about selectors and ids. *)
From Verif Require Import Base BaseFacts Unicode PositionModel VersionModel TranslateModel SyntaxModel AttrModel AttrSpec AttrProofs
  UtilModel UtilSpec UtilProofs EditModel TreeModel CallableModel CallableSpec.
From Coq Require Import Sorted Lia.

(** ** Bytes *)
Lemma be_round_trip n : (n <= U32_MAX)%N -> be_u32 (be_bytes n) = n.
Proof.
  intros H. unfold be_u32, be_bytes. unfold U32_MAX in H.
  assert (E1 : (n / 16777216 = n / 65536 / 256)%N) by (rewrite N.div_div by discriminate; reflexivity).
  assert (E2 : (n / 65536 = n / 256 / 256)%N) by (rewrite N.div_div by discriminate; reflexivity).
  assert (Hs : (n / 16777216 < 256)%N) by (apply N.div_lt_upper_bound; [discriminate | lia]).
  rewrite (N.mod_small (n / 16777216)) by exact Hs.
  rewrite E1. pose proof (N.div_mod' (n / 65536) 256). pose proof (N.div_mod' (n / 256) 256). pose proof (N.div_mod' n 256).
  rewrite <- E2 in *. lia.
Qed.
Lemma be_round_trip' s : is_bytes s -> be_bytes (be_u32 s) = s.
Proof.
  destruct s as [[[a b] c] d]. unfold is_bytes, is_byte, be_u32, be_bytes. intros (Ha & Hb & Hc & Hd).
  set (n := (a * 16777216 + b * 65536 + c * 256 + d)%N).
  assert (E3 : (n mod 256 = d)%N).
  { symmetry. apply (N.mod_unique _ _ (a * 65536 + b * 256 + c)%N); [exact Hd | unfold n; lia]. }
  assert (Q1 : (n / 256 = a * 65536 + b * 256 + c)%N).
  { symmetry. apply (N.div_unique _ _ _ d); [exact Hd | unfold n; lia]. }
  assert (Q2 : (n / 65536 = a * 256 + b)%N).
  { symmetry. apply (N.div_unique _ _ _ (c * 256 + d)%N); [lia | unfold n; lia]. }
  assert (Q3 : (n / 16777216 = a)%N).
  { symmetry. apply (N.div_unique _ _ _ (b * 65536 + c * 256 + d)%N); [lia | unfold n; lia]. }
  rewrite E3, Q1, Q2, Q3.
  assert (F1 : ((a * 65536 + b * 256 + c) mod 256 = c)%N).
  { symmetry. apply (N.mod_unique _ _ (a * 256 + b)%N); [exact Hc | lia]. }
  assert (F2 : ((a * 256 + b) mod 256 = b)%N).
  { symmetry. apply (N.mod_unique _ _ a); [exact Hb | lia]. }
  rewrite F1, F2, N.mod_small by exact Ha. reflexivity.
Qed.
Lemma be_bytes_ok n : is_bytes (be_bytes n).
Proof. unfold is_bytes, be_bytes, is_byte. repeat split; apply N.mod_lt; discriminate. Qed.
Lemma be_inj s t : is_bytes s -> is_bytes t -> be_u32 s = be_u32 t -> s = t.
Proof. intros Hs Ht E. rewrite <- (be_round_trip' s Hs), <- (be_round_trip' t Ht), E. reflexivity. Qed.
Lemma selector_eqb_eq s t : selector_eqb s t = true <-> s = t.
Proof.
  destruct s as [[[a b] c] d], t as [[[a' b'] c'] d']. unfold selector_eqb.
  rewrite !andb_true_iff, !N.eqb_eq. split; [intros (((-> & ->) & ->) & ->); reflexivity | intros E; inversion E; auto].
Qed.
Lemma value_int_bound max v n : value_int max v = Some n -> (n <= max)%N.
Proof.
  unfold value_int. destruct (value_skind v) as [k|]; [|discriminate]. destruct k; try discriminate.
  intros H. apply int_of_text_sound in H. apply H.
Qed.
Lemma provided_bound c n : provided c = Some n -> (n <= U32_MAX)%N.
Proof.
  unfold provided, selector_u32. destruct (selector_arg c) as [a|]; [|discriminate]. simpl.
  destruct (arg_value a) as [v|]; [|discriminate]. simpl. apply value_int_bound.
Qed.
Lemma compose_bytes U hash c s : (forall x, is_bytes (hash x)) -> compose U hash c = Some s -> is_bytes s.
Proof.
  intros Hh. unfold compose. destruct (provided c) as [n|]; [intros E; injection E as <-; apply be_bytes_ok|].
  destruct (obind (selector_arg c) _) as [x|] eqn:E; simpl.
  - intros Ex. injection Ex as <-. destruct (selector_arg c) as [a|]; [|discriminate]. simpl in E.
    destruct (is_complement a); [|discriminate]. injection E as <-. vm_compute. auto.
  - destruct (ca_name c) as [[nm r]|]; [|discriminate]. simpl. intros Ex. injection Ex as <-. apply Hh.
Qed.
Lemma pre_hash_path U c name : pre_hash U c name = callable_path (namespace c) (trait_ident U c) name.
Proof. unfold pre_hash, callable_path. destruct (namespace c), (trait_ident U c); reflexivity. Qed.

(** ** Positions *)
Lemma picks_nil {A} (P : nat -> Prop) : @picks A P [] [].
Proof.
  exists []. split; [constructor|]. split; [|reflexivity]. intros i. simpl. split; [tauto | intros [H _]; lia].
Qed.
Lemma picks_cons {A} (P : nat -> Prop) (x : A) l out b :
  (P 0 <-> b = true) -> picks (fun i => P (S i)) l out -> picks P (x :: l) ((if b then [x] else []) ++ out).
Proof.
  intros Hb (ps & Hs & Hi & Hm).
  assert (Hs' : StronglySorted lt (map S ps)).
  { clear -Hs. induction Hs as [|p ps Hs IH Hf]; simpl; constructor; [exact IH|].
    rewrite Forall_forall in *. intros y Hy. apply in_map_iff in Hy. destruct Hy as (z & <- & Hz). apply Hf in Hz. lia. }
  assert (Hm' : map (nth_error (x :: l)) (map S ps) = map Some out).
  { rewrite map_map. simpl. exact Hm. }
  assert (Hi' : forall i, In i (map S ps) <-> exists j, i = S j /\ j < length l /\ P (S j)).
  { intros i. rewrite in_map_iff. split; intros (j & E & H); exists j; [split; [auto | apply Hi; exact H]|].
    subst i. split; [reflexivity | apply Hi; exact H]. }
  destruct b.
  - exists (0 :: map S ps). split.
    + constructor; [exact Hs'|]. apply Forall_forall. intros y Hy. apply Hi' in Hy. destruct Hy as (j & -> & _). lia.
    + split; [|simpl; f_equal; exact Hm'].
      intros i. simpl. rewrite Hi'. split.
      * intros [<-|(j & -> & H1 & H2)]; [split; [lia | apply Hb; reflexivity] | split; [lia | exact H2]].
      * intros [H1 H2]. destruct i as [|i]; [left; reflexivity | right; exists i; split; [reflexivity | split; [lia | exact H2]]].
  - exists (map S ps). split; [exact Hs'|]. split; [|exact Hm'].
    intros i. rewrite Hi'. simpl. split.
    + intros (j & -> & H1 & H2). split; [lia | exact H2].
    + intros [H1 H2]. destruct i as [|i]; [apply Hb in H2; discriminate | exists i; split; [reflexivity | split; [lia | exact H2]]].
Qed.
Lemma picks_ext {A} (P Q : nat -> Prop) (l out : list A) :
  (forall i, i < length l -> (P i <-> Q i)) -> picks P l out -> picks Q l out.
Proof.
  intros H (ps & Hs & Hi & Hm). exists ps. split; [exact Hs|]. split; [|exact Hm].
  intros i. rewrite Hi. split; intros [H1 H2]; (split; [exact H1 | apply H; assumption]).
Qed.

(** ** Overlaps: the loop over all callables, those without an id being skipped. *)
Section Overlap.
  Context {A : Type} (id : A -> option N) (max : N).
  Definition ided (l : list A) : list (N * A) := filter_map (fun c => option_map (fun n => (n, c)) (id c)) l.

  Lemma overlap_picks l : forall seen used,
    picks (fun i => exists c n, nth_error l i = Some c /\ id c = Some n
             /\ (In n seen \/ exists j c', j < i /\ nth_error l j = Some c' /\ id c' = Some n))
          l (map fst (overlap_loop max seen used (ided l))).
  Proof.
    induction l as [|x l IH]; intros seen used; [apply picks_nil|].
    change (ided (x :: l)) with (match option_map (fun n => (n, x)) (id x) with Some p => p :: ided l | None => ided l end).
    destruct (id x) as [n|] eqn:Ex; simpl option_map; cbv iota.
    - simpl overlap_loop.
      assert (Hshift : forall i, i < length l ->
          ((exists c m, nth_error l i = Some c /\ id c = Some m
              /\ (In m (n :: seen) \/ exists j c', j < i /\ nth_error l j = Some c' /\ id c' = Some m))
           <-> (exists c m, nth_error (x :: l) (S i) = Some c /\ id c = Some m
              /\ (In m seen \/ exists j c', j < S i /\ nth_error (x :: l) j = Some c' /\ id c' = Some m)))).
      { intros i Hi. split; intros (c & m & Hc & Hm & H); exists c, m; (split; [exact Hc|]); (split; [exact Hm|]).
        - destruct H as [[<-|H]|(j & c' & Hj & Hc' & Hm')].
          + right. exists 0, x. split; [lia|]. split; [reflexivity | exact Ex].
          + left. exact H.
          + right. exists (S j), c'. split; [lia|]. split; [exact Hc' | exact Hm'].
        - destruct H as [H|(j & c' & Hj & Hc' & Hm')]; [left; right; exact H|].
          destruct j as [|j].
          + injection Hc' as <-. left. left. congruence.
          + right. exists j, c'. split; [lia|]. split; [exact Hc' | exact Hm']. }
      destruct (existsb (N.eqb n) seen) eqn:En.
      + destruct (suggest_unique_id_mut max None used) as [s used'] eqn:Es. simpl map.
        apply (picks_cons _ x l _ true).
        * split; [reflexivity|]. intros _. exists x, n. split; [reflexivity|]. split; [exact Ex|]. left.
          apply existsb_exists in En. destruct En as (m & Hm & E). apply N.eqb_eq in E. subst. exact Hm.
        * exact (picks_ext _ _ _ _ Hshift (IH (n :: seen) used')).
      + apply (picks_cons _ x l _ false).
        * split; [|discriminate]. intros (c & m & Hc & Hm & H). simpl in Hc. injection Hc as <-.
          assert (m = n) by congruence. subst m. destruct H as [H|(j & _ & Hj & _)]; [|lia].
          assert (existsb (N.eqb n) seen = true) by (apply existsb_exists; exists n; split; [exact H | apply N.eqb_refl]).
          congruence.
        * exact (picks_ext _ _ _ _ Hshift (IH (n :: seen) used)).
    - apply (picks_cons _ x l _ false).
      + split; [|discriminate]. intros (c & m & Hc & Hm & _). simpl in Hc. injection Hc as <-. congruence.
      + apply (picks_ext (fun i => exists c n, nth_error l i = Some c /\ id c = Some n
             /\ (In n seen \/ exists j c', j < i /\ nth_error l j = Some c' /\ id c' = Some n))); [|apply IH].
        intros i Hi. split; intros (c & m & Hc & Hm & H); exists c, m; (split; [exact Hc|]); (split; [exact Hm|]).
        * destruct H as [H|(j & c' & Hj & Hc' & Hm')]; [left; exact H|]. right. exists (S j), c'.
          split; [lia|]. split; [exact Hc' | exact Hm'].
        * destruct H as [H|(j & c' & Hj & Hc' & Hm')]; [left; exact H|]. right. destruct j as [|j].
          -- injection Hc' as <-. congruence.
          -- exists j, c'. split; [lia|]. split; [exact Hc' | exact Hm'].
  Qed.
  Lemma overlap_exact l used : picks (repeats id l) l (map fst (overlap_loop max [] used (ided l))).
  Proof.
    apply (picks_ext _ _ _ _) with (2 := overlap_picks l [] used). intros i _. unfold repeats.
    split; intros (c & n & H1 & H2 & H3); exists c, n; (split; [exact H1|]); (split; [exact H2|]).
    - destruct H3 as [[]|H3]. exact H3.
    - right. exact H3.
  Qed.

  (** The ids taken are new and pairwise different. *)
  Lemma overlap_ids (items : list (N * A)) : forall seen used,
    (1 <= max)%N ->
    let ids := filter_map snd (overlap_loop max seen used items) in
    NoDup ids /\ forall n, In n ids -> ~ In n used /\ (1 <= n <= max)%N.
  Proof.
    induction items as [|[n x] items IH]; intros seen used Hm; [split; [constructor | intros n []]|].
    cbn [overlap_loop]. destruct (existsb (N.eqb n) seen); [|apply IH; exact Hm].
    pose proof (suggest_unique_id_spec max None used Hm) as Hs. unfold suggest_unique_id_mut.
    destruct (suggest_unique_id max None used) as [m| |] eqn:E.
    - destruct (IH (n :: seen) (m :: used) Hm) as [H1 H2].
      change (filter_map snd ((x, Some m) :: overlap_loop max (n :: seen) (m :: used) items))
        with (m :: filter_map snd (overlap_loop max (n :: seen) (m :: used) items)).
      destruct Hs as (Hb & Hn & _). split.
      + constructor; [|exact H1]. intros Hin. apply (proj1 (H2 m Hin)). left. reflexivity.
      + intros k [<-|Hin]; [split; assumption|]. destruct (H2 k Hin) as [Hk Hkb]. split; [|exact Hkb].
        intros C. apply Hk. right. exact C.
    - exact (IH (n :: seen) used Hm).
    - destruct Hs.
  Qed.
  (** An id is always found while ids are left. *)
  Lemma overlap_found (items : list (N * A)) : forall seen used,
    (1 <= max)%N -> (N.of_nat (length used + length items) < max)%N ->
    forall c o, In (c, o) (overlap_loop max seen used items) -> o <> None.
  Proof.
    induction items as [|[n x] items IH]; intros seen used Hm Hlen c o Hin; [destruct Hin|].
    cbn [overlap_loop] in Hin. cbn [length] in Hlen. destruct (existsb (N.eqb n) seen).
    - pose proof (suggest_unique_id_spec max None used Hm) as Hs. unfold suggest_unique_id_mut in Hin.
      destruct (suggest_unique_id max None used) as [m| |] eqn:E.
      + destruct Hin as [Heq|Hin]; [injection Heq as <- <-; discriminate|].
        apply (IH (n :: seen) (m :: used) Hm) with (c := c); [simpl length; lia | exact Hin].
      + exfalso. (* all of 1..max are in used: too many *)
        assert (Hall : incl (map N.of_nat (seq 1 (N.to_nat max))) used).
        { intros k Hk. apply in_map_iff in Hk. destruct Hk as (i & <- & Hi). apply in_seq in Hi. apply Hs. lia. }
        assert (Hnd : NoDup (map N.of_nat (seq 1 (N.to_nat max)))).
        { apply FinFun.Injective_map_NoDup; [intros a b Eab; lia | apply seq_NoDup]. }
        pose proof (NoDup_incl_length Hnd Hall) as Hl. rewrite map_length, seq_length in Hl. lia.
      + destruct Hs.
    - apply (IH (n :: seen) used Hm) with (c := c); [lia | exact Hin].
  Qed.

  Lemma ided_In l n c : In (n, c) (ided l) <-> In c l /\ id c = Some n.
  Proof.
    unfold ided. rewrite filter_map_In. split.
    - intros (x & Hx & E). destruct (id x) eqn:Ex; [|discriminate]. injection E as <- <-. auto.
    - intros [H E]. exists c. rewrite E. auto.
  Qed.

  Lemma lookup_Some i l n : lookup i l = Some n -> In (i, n) l.
  Proof.
    induction l as [|[j m] l IH]; [discriminate|]. cbn [lookup]. destruct (i =? j) eqn:E.
    - intros H. injection H as ->. apply Nat.eqb_eq in E. subst. left. reflexivity.
    - intros H. right. apply IH. exact H.
  Qed.
  Lemma lookup_None i l : lookup i l = None -> ~ In i (map fst l).
  Proof.
    induction l as [|[j m] l IH]; [intros _ []|]. cbn [lookup]. destruct (i =? j) eqn:E; [discriminate|].
    intros H [Hj|Hin]; [simpl in Hj; apply Nat.eqb_neq in E; congruence | exact (IH H Hin)].
  Qed.
  Lemma combine_fst_snd (X Y : Type) (a : list X) (b : list Y) :
    length a = length b -> map fst (combine a b) = a /\ map snd (combine a b) = b.
  Proof.
    revert b. induction a as [|x a IH]; intros [|y b] H; try discriminate; [auto|].
    simpl in *. destruct (IH b) as [E1 E2]; [lia|]. rewrite E1, E2. auto.
  Qed.

  (** Replacing every reported id by the one suggested for it leaves no overlap. *)
  Lemma overlap_fixed l positions ids :
    (1 <= max)%N ->
    let reports := overlap_loop max [] (map fst (ided l)) (ided l) in
    (forall i, In i positions <-> i < length l /\ repeats id l i) ->
    NoDup positions ->
    map (@snd A (option N)) reports = map Some ids -> length positions = length ids ->
    all_different (new_id id l (combine positions ids)).
  Proof.
    intros Hm reports Hpos Hnd Hids Hlen.
    destruct (overlap_ids (ided l) [] (map fst (ided l)) Hm) as [Hn1 Hn2]. fold reports in Hn1, Hn2.
    assert (Eids : filter_map snd reports = ids).
    { clear -Hids. revert ids Hids. induction reports as [|[c o] r IH]; intros [|n ids] E; try discriminate; [reflexivity|].
      cbn [map snd] in E. injection E as -> E. cbn [filter_map snd]. f_equal. apply IH. exact E. }
    rewrite Eids in Hn1, Hn2.
    destruct (combine_fst_snd _ _ positions ids Hlen) as [Ef Es].
    (* an old id that stays is the id of some callable, and not a new one *)
    assert (Hold : forall i n, lookup i (combine positions ids) = None -> obind (nth_error l i) id = Some n -> ~ In n ids).
    { intros i n _ H Hin. apply (proj1 (Hn2 n Hin)). destruct (nth_error l i) as [c|] eqn:Ec; [|discriminate]. simpl in H.
      apply in_map_iff. exists (n, c). split; [reflexivity|]. apply ided_In. split; [|exact H].
      apply nth_error_In in Ec. exact Ec. }
    assert (Hnew : forall i n, lookup i (combine positions ids) = Some n -> In n ids).
    { intros i n H. apply lookup_Some in H. apply (in_map snd) in H. rewrite Es in H. exact H. }
    intros i j n Hi Hj. unfold new_id in Hi, Hj.
    destruct (lookup i (combine positions ids)) as [a|] eqn:Ei; destruct (lookup j (combine positions ids)) as [b|] eqn:Ej.
    - injection Hi as ->. injection Hj as ->. apply lookup_Some in Ei, Ej.
      (* ids are different, so the positions are the same *)
      clear -Ei Ej Hn1 Es. revert Ei Ej. rewrite <- Es in Hn1. clear Es. generalize dependent (combine positions ids).
      intros L Hnd. induction L as [|[p q] L IH]; [intros []|]. cbn [map snd] in Hnd. inversion Hnd as [|x y Hx Hnd']. subst.
      intros [E1|H1] [E2|H2]; try congruence.
      + injection E1 as -> ->. exfalso. apply Hx. apply in_map_iff. exists (j, n). auto.
      + injection E2 as -> ->. exfalso. apply Hx. apply in_map_iff. exists (i, n). auto.
      + exact (IH Hnd' H1 H2).
    - injection Hi as ->. exfalso. apply (Hold j n Ej Hj). exact (Hnew i n Ei).
    - injection Hj as ->. exfalso. apply (Hold i n Ei Hi). exact (Hnew j n Ej).
    - (* two old ids: neither repeats an earlier one *)
      apply lookup_None in Ei, Ej. rewrite Ef in Ei, Ej.
      destruct (nth_error l i) as [ci|] eqn:Eci; [|discriminate]. destruct (nth_error l j) as [cj|] eqn:Ecj; [|discriminate].
      simpl in Hi, Hj.
      assert (Hli : i < length l) by (apply nth_error_Some; congruence).
      assert (Hlj : j < length l) by (apply nth_error_Some; congruence).
      destruct (Nat.lt_trichotomy i j) as [H|[H|H]]; [|exact H|].
      + exfalso. apply Ej. apply Hpos. split; [exact Hlj|]. exists cj, n. split; [exact Ecj|]. split; [exact Hj|].
        exists i, ci. auto.
      + exfalso. apply Ei. apply Hpos. split; [exact Hli|]. exists ci, n. split; [exact Eci|]. split; [exact Hi|].
        exists j, cj. auto.
  Qed.
End Overlap.

(** ** Decimal numbers read back *)
Lemma uint_str_chars u c : In c (uint_str u) -> (48 <= c <= 57)%N.
Proof. induction u; simpl; intros H; try destruct H as [<-|H]; try (apply IHu; exact H); try lia. Qed.
Lemma digits_cons acc c d s : digit 10 c = Some d -> digits_value 10 acc (c :: s) = digits_value 10 (acc * 10 + d) s.
Proof. intros E. cbn [digits_value]. rewrite E. reflexivity. Qed.
Lemma digits_acc u : forall p, digits_value 10 (Npos p) (uint_str u) = Some (Npos (Pos.of_uint_acc u p)).
Proof.
  induction u; intros p; [reflexivity|..]; cbn [uint_str]; erewrite digits_cons by reflexivity; cbn [Pos.of_uint_acc];
    rewrite <- IHu; f_equal; lia.
Qed.
Lemma digits_of u : digits_value 10 0 (uint_str u) = Some (Pos.of_uint u).
Proof.
  induction u; [reflexivity|..]; cbn [uint_str]; erewrite digits_cons by reflexivity; cbn [Pos.of_uint].
  - exact IHu.
  - apply (digits_acc u 1).
  - apply (digits_acc u 2).
  - apply (digits_acc u 3).
  - apply (digits_acc u 4).
  - apply (digits_acc u 5).
  - apply (digits_acc u 6).
  - apply (digits_acc u 7).
  - apply (digits_acc u 8).
  - apply (digits_acc u 9).
Qed.
Lemma dec_reads max n : (n <= max)%N -> int_of_text max (dec n) = Some n.
Proof.
  intros H. unfold int_of_text.
  assert (E : strip_prefix (lit "0x") (dec n) = None).
  { destruct (strip_prefix (lit "0x") (dec n)) as [h|] eqn:E; [|reflexivity]. exfalso.
    assert (Hin : In 120%N (dec n)).
    { apply strip_prefix_some in E. rewrite E. right. left. reflexivity. }
    apply uint_str_chars in Hin. lia. }
  rewrite E. unfold parse_int. destruct (dec n) as [|c s] eqn:Ed; [destruct (dec_nonempty n Ed)|]. rewrite <- Ed.
  unfold dec. rewrite digits_of. change (Pos.of_uint (N.to_uint n)) with (N.of_uint (N.to_uint n)).
  rewrite DecimalN.Unsigned.of_to. destruct (n <=? max)%N eqn:El; [reflexivity|]. apply N.leb_gt in El. lia.
Qed.

(** ** Wildcards *)
Lemma find_first {A} (f : A -> bool) l x :
  find f l = Some x <-> exists l1 l2, l = l1 ++ x :: l2 /\ f x = true /\ forall y, In y l1 -> f y = false.
Proof.
  split.
  - revert x. induction l as [|a l IH]; intros x H; [discriminate|]. simpl in H. destruct (f a) eqn:E.
    + injection H as <-. exists [], l. split; [reflexivity|]. split; [exact E | intros y []].
    + destruct (IH x H) as (l1 & l2 & -> & Hx & Hl). exists (a :: l1), l2. split; [reflexivity|]. split; [exact Hx|].
      intros y [<-|Hy]; [exact E | apply Hl; exact Hy].
  - intros (l1 & l2 & -> & Hx & Hl). induction l1 as [|a l1 IH]; simpl; [rewrite Hx; reflexivity|].
    rewrite (Hl a (or_introl eq_refl)). apply IH. intros y Hy. apply Hl. right. exact Hy.
Qed.
Lemma args_by_kind_writes c a : In a (args_by_kind (ca_attrs c) ASelector) <-> writes c a.
Proof.
  unfold args_by_kind, writes, find_kind. rewrite filter_map_In. split.
  - intros (x & Hx & E). apply find_first in E. destruct E as (l1 & l2 & E & Hk & Hl). exists x, l1, l2.
    split; [exact Hx|]. split; [exact E|]. split; [apply arg_kind_eqb_eq; exact Hk|].
    intros b Hb Hbk. apply Hl in Hb. rewrite Hbk in Hb. discriminate.
  - intros (x & l1 & l2 & Hx & E & Hk & Hl). exists x. split; [exact Hx|]. apply find_first. exists l1, l2.
    split; [exact E|]. split; [apply arg_kind_eqb_eq; exact Hk|].
    intros y Hy. apply Hl in Hy. destruct (arg_kind_eqb (ia_kind y) ASelector) eqn:Ey; [|reflexivity].
    apply arg_kind_eqb_eq in Ey. contradiction.
Qed.
Lemma selector_args_eq c : selector_args c = args_by_kind (ca_attrs c) ASelector.
Proof.
  unfold selector_args.
  assert (G : forall l : list ink_arg, (forall a, In a l -> ia_kind a = ASelector) -> filter_map selector_cast l = l).
  { induction l as [|a l IH]; intros H; [reflexivity|]. cbn [filter_map]. unfold selector_cast, is_selector_arg.
    rewrite (H a (or_introl eq_refl)). cbn. f_equal. apply IH. intros b Hb. apply H. right. exact Hb. }
  apply G. intros a Ha. apply args_by_kind_writes in Ha. destruct Ha as (x & l1 & l2 & _ & _ & Hk & _). exact Hk.
Qed.
Lemma selector_args_writes c a : In a (selector_args c) <-> writes c a.
Proof. rewrite selector_args_eq. apply args_by_kind_writes. Qed.
Lemma is_wildcard_spec a : is_wildcard a = true <-> wildcard_arg a.
Proof.
  unfold is_wildcard, selector_kind_of, wildcard_arg, arg_value. destruct (m_value a) as [v|l|] eqn:E.
  - split.
    + intros H. exists v. split; [reflexivity|]. destruct (value_skind v) as [k|]; [|discriminate]. destruct k; congruence.
    + intros (w & Ew & Hw). injection Ew as <-. rewrite Hw. reflexivity.
  - split; [discriminate | intros (v & H & _); discriminate].
  - split; [discriminate | intros (v & H & _); discriminate].
Qed.
Lemma complement_u32 n : (n <= U32_MAX)%N -> (selector_eqb (be_bytes n) complement_selector = true <-> n = 0x9BAE9D5E%N).
Proof.
  intros Hn. rewrite selector_eqb_eq. split.
  - intros E. rewrite <- (be_round_trip n Hn), E. reflexivity.
  - intros ->. vm_compute. reflexivity.
Qed.
Lemma is_complement_spec a : is_complement a = true <-> complement_value a.
Proof.
  unfold is_complement, selector_u32, complement_value, selector_kind_of, arg_value. destruct (m_value a) as [v|l|] eqn:E; simpl.
  - assert (Hint : (match value_int U32_MAX v with Some n => selector_eqb (be_bytes n) complement_selector | None => false end) = true
                   <-> value_int U32_MAX v = Some 0x9BAE9D5E%N).
    { destruct (value_int U32_MAX v) as [n|] eqn:Ev; [|split; discriminate].
      rewrite (complement_u32 n (value_int_bound _ _ _ Ev)). split; [intros ->; reflexivity | intros H; injection H as ->; reflexivity]. }
    split.
    + intros H. exists v. split; [reflexivity|]. destruct (value_skind v) as [k|] eqn:Ek.
      * destruct k; try (right; apply Hint; exact H). left. reflexivity.
      * right. apply Hint. exact H.
    + intros (w & Ew & Hw). injection Ew as <-. destruct Hw as [Hw|Hw]; [rewrite Hw; reflexivity|].
      apply Hint in Hw. destruct (value_skind v) as [k|]; [destruct k; try exact Hw; reflexivity | exact Hw].
  - split; [discriminate | intros (v & H & _); discriminate].
  - split; [discriminate | intros (v & H & _); discriminate].
Qed.
Lemma has_wildcard_spec c : has_wildcard c = true <-> wildcard_callable c.
Proof.
  unfold has_wildcard, wildcard_callable. rewrite existsb_exists. split.
  - intros (a & Ha & H). exists a. split; [apply args_by_kind_writes; exact Ha|]. unfold arg_value in H.
    destruct (m_value a) as [v|l|] eqn:E; try discriminate. exists v. split; [exact E|]. unfold value_is_wildcard in H.
    destruct (value_skind v) as [k|]; [|discriminate]. destruct k; congruence.
  - intros (a & Ha & v & E & Hv). exists a. split; [apply args_by_kind_writes; exact Ha|]. unfold arg_value. rewrite E.
    unfold value_is_wildcard. rewrite Hv. reflexivity.
Qed.
Lemma complement_arg_spec c : (is_some (complement_arg c) = true <-> complement_callable c)
  /\ (forall a, complement_arg c = Some a -> writes c a /\ complement_value a).
Proof.
  unfold complement_arg. split.
  - unfold complement_callable. split.
    + destruct (find is_complement (selector_args c)) as [a|] eqn:E; [|discriminate]. intros _. apply find_some in E.
      exists a. split; [apply selector_args_writes; apply E | apply is_complement_spec; apply E].
    + intros (a & Ha & Hc). destruct (find is_complement (selector_args c)) as [b|] eqn:E; [reflexivity|].
      apply selector_args_writes in Ha. apply is_complement_spec in Hc.
      pose proof (find_none _ _ E a Ha). congruence.
  - intros a E. apply find_some in E. split; [apply selector_args_writes; apply E | apply is_complement_spec; apply E].
Qed.
Lemma has_complement_spec c : has_complement c = true <-> complement_callable c.
Proof.
  unfold has_complement, complement_callable. rewrite existsb_exists. split.
  - intros (a & Ha & H). exists a. pose proof (proj1 (args_by_kind_writes c a) Ha) as Hw. split; [exact Hw|].
    apply is_complement_spec. unfold selector_cast in H. destruct (is_selector_arg a); [exact H | discriminate].
  - intros (a & Ha & H). exists a. split; [apply args_by_kind_writes; exact Ha|]. unfold selector_cast, is_selector_arg.
    destruct Ha as (x & l1 & l2 & _ & _ & Hk & _). rewrite Hk. cbn. apply is_complement_spec. exact H.
Qed.

Lemma wildcard_loop_eq l : forall seen,
  wildcard_loop seen l = if seen then filter is_wildcard l else tl (filter is_wildcard l).
Proof.
  induction l as [|a l IH]; intros seen; simpl; [destruct seen; reflexivity|].
  destruct (is_wildcard a); rewrite IH; [|reflexivity]. destruct seen; reflexivity.
Qed.
Lemma extra_wildcards_eq cs : extra_wildcards cs = tl (filter is_wildcard (flat_map selector_args cs)).
Proof. apply wildcard_loop_eq. Qed.

Lemma complement_loop_wild l complement : forall seen,
  complement_loop true complement seen l = [] <->
  (seen = true -> l = []) /\ length l <= 1 /\ (forall c, In c l -> complement_callable c).
Proof.
  induction l as [|c l IH]; intros seen; simpl.
  - split; [intros _; split; [reflexivity | split; [lia | intros c []]] | reflexivity].
  - destruct (complement_arg c) as [a|] eqn:E.
    + assert (Hc : complement_callable c) by (apply complement_arg_spec; rewrite E; reflexivity).
      destruct seen; simpl.
      * split; [discriminate | intros [H _]; specialize (H eq_refl); discriminate].
      * rewrite IH. split.
        -- intros (H1 & _ & _). rewrite (H1 eq_refl). simpl. split; [discriminate|]. split; [lia|]. intros x [<-|[]]. exact Hc.
        -- intros (_ & H & _). destruct l; [|simpl in H; lia]. split; [reflexivity|]. split; [simpl; lia | intros x []].
    + simpl. split; [discriminate|]. intros (_ & _ & H). specialize (H c (or_introl eq_refl)).
      apply complement_arg_spec in H. rewrite E in H. discriminate.
Qed.
Lemma complement_loop_none l complement : forall seen,
  complement_loop false complement seen l = [] <-> (forall c, In c l -> ~ complement_callable c).
Proof.
  induction l as [|c l IH]; intros seen; simpl.
  - split; [intros _ c [] | reflexivity].
  - destruct (complement_arg c) as [a|] eqn:E; simpl.
    + split; [discriminate|]. intros H. exfalso. apply (H c (or_introl eq_refl)). apply complement_arg_spec. rewrite E. reflexivity.
    + rewrite orb_false_r, IH. split.
      * intros H x [<-|Hx]; [|apply H; exact Hx]. intros C. apply complement_arg_spec in C. rewrite E in C. discriminate.
      * intros H x Hx. apply H. right. exact Hx.
Qed.
Lemma exists_wildcard ms : existsb has_wildcard ms = true <-> exists c, In c ms /\ wildcard_callable c.
Proof. rewrite existsb_exists. split; intros (c & H1 & H2); exists c; (split; [exact H1 | apply has_wildcard_spec; exact H2]). Qed.
Lemma exists_complement ms : existsb has_complement ms = true <-> exists c, In c ms /\ complement_callable c.
Proof. rewrite existsb_exists. split; intros (c & H1 & H2); exists c; (split; [exact H1 | apply has_complement_spec; exact H2]). Qed.

Lemma not_wildcard_filter ms c : In c (filter (fun c => negb (has_wildcard c)) ms) <-> In c ms /\ ~ wildcard_callable c.
Proof.
  rewrite filter_In, negb_true_iff. split; intros [H1 H2]; (split; [exact H1|]).
  - intros C. apply has_wildcard_spec in C. congruence.
  - destruct (has_wildcard c) eqn:E; [|reflexivity]. apply has_wildcard_spec in E. contradiction.
Qed.
Lemma complement_reports_none ms :
  complement_reports ms = [] <->
  (forall c, In c ms -> ~ wildcard_callable c /\ ~ complement_callable c)
  \/ ((exists w, In w ms /\ wildcard_callable w)
      /\ exists c, filter (fun c => negb (has_wildcard c)) ms = [c] /\ complement_callable c).
Proof.
  unfold complement_reports. destruct (existsb has_wildcard ms) eqn:Ew; simpl.
  - pose proof (proj1 (exists_wildcard ms) Ew) as Hw.
    assert (G : forall R, R <-> (exists w, In w ms /\ wildcard_callable w)
        /\ (exists c, filter (fun c => negb (has_wildcard c)) ms = [c] /\ complement_callable c) ->
        (R <-> (forall c, In c ms -> ~ wildcard_callable c /\ ~ complement_callable c)
          \/ (exists w, In w ms /\ wildcard_callable w)
             /\ (exists c, filter (fun c => negb (has_wildcard c)) ms = [c] /\ complement_callable c))).
    { intros R HR. rewrite HR. split; [auto|]. intros [H|H]; [|exact H]. exfalso. destruct Hw as (w & Hin & Hww).
      destruct (H w Hin) as [C _]. contradiction. }
    apply G. clear G. destruct (filter _ ms) as [|c l] eqn:Ef.
    + split; [discriminate | intros [_ (c & E & _)]; discriminate].
    + rewrite complement_loop_wild. split.
      * intros (_ & Hl & Hc). split; [exact Hw|]. destruct l; [|simpl in Hl; lia]. exists c. split; [reflexivity|].
        apply Hc. left. reflexivity.
      * intros [_ (c' & E & Hc)]. injection E as -> ->. split; [discriminate|]. split; [simpl; lia|]. intros x [<-|[]]. exact Hc.
  - assert (Hnw : forall c, In c ms -> ~ wildcard_callable c).
    { intros c Hc Hwc. assert (existsb has_wildcard ms = true) by (apply exists_wildcard; exists c; auto). congruence. }
    assert (Hf : filter (fun c => negb (has_wildcard c)) ms = ms).
    { clear Ew. induction ms as [|c ms IH]; [reflexivity|]. simpl. destruct (has_wildcard c) eqn:E.
      - apply has_wildcard_spec in E. destruct (Hnw c (or_introl eq_refl) E).
      - simpl. f_equal. apply IH. intros x Hx. apply Hnw. right. exact Hx. }
    rewrite Hf. destruct (existsb has_complement ms) eqn:Ec; simpl.
    + destruct (proj1 (exists_complement ms) Ec) as (c & Hc & Hcc).
      assert (Hne : ~ (forall c, In c ms -> ~ wildcard_callable c /\ ~ complement_callable c)).
      { intros H. destruct (H c Hc). contradiction. }
      destruct ms as [|m ms]; [destruct Hc|]. split.
      * intros H. apply (proj1 (complement_loop_none (m :: ms) true false)) with (c := c) in H; [contradiction | exact Hc].
      * intros [H|[(w & Hw & Hww) _]]; [contradiction | destruct (Hnw w Hw Hww)].
    + split; [|reflexivity]. intros _. left. intros c Hc. split; [apply Hnw; exact Hc|]. intros Hcc.
      assert (existsb has_complement ms = true) by (apply exists_complement; exists c; auto). congruence.
Qed.

(** Messages with a wildcard argument each add an argument. *)
Lemma count_wild ms : length (filter has_wildcard ms) <= length (filter is_wildcard (flat_map selector_args ms)).
Proof.
  induction ms as [|c ms IH]; simpl; [lia|]. rewrite filter_app, app_length.
  destruct (has_wildcard c) eqn:E; simpl; [|lia].
  apply has_wildcard_spec in E. destruct E as (a & Ha & Hw). apply selector_args_writes in Ha. apply is_wildcard_spec in Hw.
  assert (In a (filter is_wildcard (selector_args c))) as Hin by (apply filter_In; auto).
  destruct (filter is_wildcard (selector_args c)); [destruct Hin | simpl; lia].
Qed.

Lemma filter_nil_of {A} (f : A -> bool) l : (forall x, In x l -> f x = false) -> filter f l = [].
Proof.
  induction l as [|x l IH]; intros H; [reflexivity|]. cbn [filter]. rewrite (H x (or_introl eq_refl)).
  apply IH. intros y Hy. apply H. right. exact Hy.
Qed.
Lemma filter_all {A} (f : A -> bool) l : (forall x, In x l -> f x = true) -> filter f l = l.
Proof.
  induction l as [|x l IH]; intros H; [reflexivity|]. cbn [filter]. rewrite (H x (or_introl eq_refl)).
  f_equal. apply IH. intros y Hy. apply H. right. exact Hy.
Qed.

(** Which messages are reported, by report. *)
Definition second_of (r : wildcard_report) := match r with WSecondComplement c _ => Some c | _ => None end.
Definition beside_of (r : wildcard_report) := match r with WNotComplement c _ => Some c | _ => None end.
Definition alone_of (r : wildcard_report) := match r with WNoWildcard c _ => Some c | _ => None end.
Definition is_comp (c : callable) : bool := is_some (complement_arg c).
Lemma filter_map_app {A B} (f : A -> option B) l1 l2 : filter_map f (l1 ++ l2) = filter_map f l1 ++ filter_map f l2.
Proof. induction l1 as [|x l1 IH]; simpl; [reflexivity|]. destruct (f x); simpl; rewrite IH; reflexivity. Qed.
Lemma loop_wild_reports cp l : forall seen,
  filter_map second_of (complement_loop true cp seen l) = (if seen then filter is_comp l else tl (filter is_comp l))
  /\ filter_map beside_of (complement_loop true cp seen l) = filter (fun c => negb (is_comp c)) l
  /\ filter_map alone_of (complement_loop true cp seen l) = [].
Proof.
  induction l as [|c l IH]; intros seen; [destruct seen; auto|]. cbn [complement_loop]. rewrite !filter_map_app.
  destruct (IH (seen || is_some (complement_arg c))) as (H1 & H2 & H3). rewrite H1, H2, H3.
  cbn [filter]. rewrite (eq_refl : is_comp c = is_some (complement_arg c)).
  destruct (complement_arg c) as [a|]; cbn [is_some negb].
  - rewrite orb_true_r. destruct seen; cbn; auto.
  - rewrite orb_false_r. destruct seen; cbn; auto.
Qed.
Lemma loop_alone_reports cp l : forall seen,
  filter_map alone_of (complement_loop false cp seen l) = filter is_comp l
  /\ filter_map beside_of (complement_loop false cp seen l) = []
  /\ filter_map second_of (complement_loop false cp seen l) = [].
Proof.
  induction l as [|c l IH]; intros seen; [auto|]. cbn [complement_loop]. rewrite !filter_map_app.
  destruct (IH (seen || is_some (complement_arg c))) as (H1 & H2 & H3). rewrite H1, H2, H3.
  cbn [filter]. rewrite (eq_refl : is_comp c = is_some (complement_arg c)).
  destruct (complement_arg c) as [a|]; cbn; auto.
Qed.
Lemma is_comp_spec c : is_comp c = true <-> complement_callable c.
Proof. apply complement_arg_spec. Qed.
Lemma complement_loop_no_other w cp l : forall seen, ~ In WNoOther (complement_loop w cp seen l).
Proof.
  induction l as [|c l IH]; intros seen; [intros []|]. cbn [complement_loop]. intros H. apply in_app_iff in H.
  destruct H as [H|H]; [|exact (IH _ H)].
  destruct w, (complement_arg c), seen; cbn in H; intuition discriminate.
Qed.

(** The first argument of a kind *)
Lemma arg_by_kind_first l k a : arg_by_kind l k = Some a <-> first_argument k l a.
Proof.
  assert (Hf : forall m (x : ink_arg), find (fun x => arg_kind_eqb (ia_kind x) k) m = Some x <-> exists m1 m2, m = m1 ++ x :: m2 /\ ia_kind x = k /\ forall b, In b m1 -> ia_kind b <> k).
  { induction m as [|y m IH]; intros x; cbn [find].
    - split; [discriminate|]. intros ([|z m1] & m2 & E & _); discriminate.
    - destruct (arg_kind_eqb (ia_kind y) k) eqn:Ey.
      + apply arg_kind_eqb_eq in Ey. split.
        * intros E. injection E as ->. exists [], m. split; [reflexivity|]. split; [exact Ey|]. intros b [].
        * intros ([|z m1] & m2 & E & Hk & Hn); cbn [app] in E; injection E as -> E; [reflexivity|]. exfalso. apply (Hn z (or_introl eq_refl)). exact Ey.
      + assert (Ny : ia_kind y <> k) by (intros C; apply arg_kind_eqb_eq in C; congruence). rewrite IH. split.
        * intros (m1 & m2 & -> & Hk & Hn). exists (y :: m1), m2. split; [reflexivity|]. split; [exact Hk|]. intros b [<-|Hb]; [exact Ny | exact (Hn b Hb)].
        * intros ([|z m1] & m2 & E & Hk & Hn); cbn [app] in E; injection E as -> E; [contradiction|]. exists m1, m2. split; [exact E|]. split; [exact Hk|]. intros b Hb. apply Hn. right. exact Hb. }
  assert (Hz : forall m, find (fun x => arg_kind_eqb (ia_kind x) k) m = None -> forall b, In b m -> ia_kind b <> k).
  { intros m H b Hb C. pose proof (find_none _ _ H b Hb) as E. cbn beta in E. apply arg_kind_eqb_eq in C. congruence. }
  unfold arg_by_kind, find_kind, first_argument. induction l as [|x l IH]; cbn [find_map].
  - split; [discriminate|]. intros ([|z l1] & y & l2 & m1 & m2 & E & _); discriminate.
  - destruct (find (fun x => arg_kind_eqb (ia_kind x) k) (at_args x)) as [b|] eqn:Ex.
    + split.
      * intros E. injection E as ->. apply Hf in Ex as (m1 & m2 & E1 & E2 & E3). exists [], x, l, m1, m2. split; [reflexivity|]. split; [exact E1|]. split; [exact E2|]. split; [intros y c []|exact E3].
      * intros ([|z l1] & y & l2 & m1 & m2 & E & E1 & E2 & E3 & E4); cbn [app] in E; injection E as -> E.
        -- assert (Q : find (fun x => arg_kind_eqb (ia_kind x) k) (at_args y) = Some a) by (apply Hf; exists m1, m2; auto). congruence.
        -- exfalso. apply Hf in Ex as (n1 & n2 & En & Ek & _). apply (E3 z b (or_introl eq_refl)); [|exact Ek]. rewrite En. apply in_or_app. right. left. reflexivity.
    + rewrite IH. split.
      * intros (l1 & y & l2 & m1 & m2 & -> & E1 & E2 & E3 & E4). exists (x :: l1), y, l2, m1, m2. split; [reflexivity|]. split; [exact E1|]. split; [exact E2|]. split; [|exact E4].
        intros z c [<-|Hin] Hc; [exact (Hz _ Ex c Hc) | exact (E3 z c Hin Hc)].
      * intros ([|z l1] & y & l2 & m1 & m2 & E & E1 & E2 & E3 & E4); cbn [app] in E; injection E as -> E.
        -- exfalso. apply (Hz _ Ex a); [|exact E2]. rewrite E1. apply in_or_app. right. left. reflexivity.
        -- exists l1, y, l2, m1, m2. split; [exact E|]. split; [exact E1|]. split; [exact E2|]. split; [|exact E4]. intros w c Hw. apply E3. right. exact Hw.
Qed.
Lemma first_kind k l a : first_argument k l a -> ia_kind a = k.
Proof. intros (l1 & x & l2 & m1 & m2 & _ & _ & H & _). exact H. Qed.
Lemma selector_arg_first c a : selector_arg c = Some a <-> first_argument ASelector (ca_attrs c) a.
Proof.
  unfold selector_arg, selector_cast, is_selector_arg. rewrite <- arg_by_kind_first. destruct (arg_by_kind (ca_attrs c) ASelector) as [b|] eqn:E; cbn [obind]; [|split; discriminate].
  apply arg_by_kind_first, first_kind in E. apply arg_kind_eqb_eq in E. rewrite E. reflexivity.
Qed.
Lemma namespace_spec c ns : namespace c = Some ns <-> namespace_written c ns.
Proof.
  unfold namespace, namespace_written, arg_value. destruct (ca_impl c) as [i|]; cbn [obind].
  - split.
    + destruct (arg_by_kind (ib_attrs i) ANamespace) as [a|] eqn:E; cbn [obind]; [|discriminate]. destruct (m_value a) as [v|l|] eqn:Ev; cbn [obind]; try discriminate.
      intros H. exists i, a, v. apply arg_by_kind_first in E. auto.
    + intros (i' & a & v & Ei & Ea & Ev & H). injection Ei as <-. apply arg_by_kind_first in Ea. rewrite Ea. cbn [obind]. rewrite Ev. exact H.
  - split; [discriminate|]. intros (i' & a & v & Ei & _). discriminate.
Qed.
