(** Proofs about ArgCheckModel. *)
From Verif Require Import Base BaseFacts PositionModel PositionProofs TranslateModel SyntaxModel VersionModel AttrModel
  AttrSpec AttrProofs UtilModel UtilSpec UtilProofs EditModel ArgEditModel ArgEditSpec ArgEditProofs HintModel CallableProofs ArgCheckModel ArgCheckSpec.

(** ** Values *)

Lemma shows_kind v k t : shows v k t -> value_skind v = Some k /\ value_text v = t.
Proof.
  intros [e E|k' t' E1 E2]; unfold value_skind, value_text.
  - rewrite E. split; reflexivity.
  - rewrite E1, E2. split; reflexivity.
Qed.
Lemma kind_shows v k : value_skind v = Some k -> k <> PATH -> shows v k (value_text v).
Proof.
  unfold value_skind, value_text. intros H Hk. destruct (mv_token v) as [e|] eqn:E1.
  - injection H as <-. apply shows_token, E1.
  - destruct (mv_expr v) as [[k' t|t]|] eqn:E2; try discriminate; injection H as <-; [|contradiction].
    apply shows_literal; assumption.
Qed.

Lemma simple_number_reads max t n : simple_number t n -> int_of_text max t = if (n <=? max)%N then Some n else None.
Proof.
  intros [Hu [H|(h & -> & H)]].
  - apply int_of_text_dec; assumption.
  - apply int_of_text_hex; [exact H|]. intros Hin. apply Hu. apply in_or_app. right. exact Hin.
Qed.
Lemma parse_int_simple max radix s n : (radix <= 16)%N -> parse_int max radix s = Some n ->
  radix_digits radix s n /\ ~ In c_underscore s /\ (n <= max)%N.
Proof.
  intros Hr H. destruct (parse_int_sound _ _ _ _ Hr H) as [H1 H2]. split; [exact H1|]. split; [|exact H2].
  unfold parse_int in H. destruct s as [|c s]; [discriminate|].
  destruct (digits_value radix 0 (c :: s)) eqn:E; [|discriminate]. clear -E Hr.
  revert E. generalize (c :: s) as l, 0%N as a. induction l as [|x l IH]; intros a E; [intros []|].
  simpl in E. destruct (digit radix x) as [d|] eqn:Ed; [|discriminate]. intros [Hx|Hx]; [|exact (IH _ E Hx)].
  subst x. rewrite digit_underscore in Ed. discriminate.
Qed.
Lemma int_reads_simple max t n : int_of_text max t = Some n -> simple_number t n /\ (n <= max)%N.
Proof.
  unfold int_of_text. destruct (strip_prefix (lit "0x") t) as [h|] eqn:E; intros H;
    apply parse_int_simple in H; try lia; destruct H as (H1 & H2 & H3); (split; [|exact H3]).
  - apply strip_prefix_some in E. rewrite E. split.
    + intros Hin. apply in_app_or in Hin. destruct Hin as [Hin|Hin]; [|exact (H2 Hin)].
      destruct Hin as [Hin|[Hin|[]]]; discriminate.
    + right. exists h. split; [reflexivity|exact H1].
  - split; [exact H2|left; exact H1].
Qed.

Lemma value_int_iff max v :
  is_some (value_int max v) = true <-> exists t n, shows v INT_NUMBER t /\ simple_number t n /\ (n <= max)%N.
Proof.
  unfold value_int. split.
  - destruct (value_skind v) as [k|] eqn:E; [|discriminate]. destruct k; try discriminate.
    destruct (int_of_text max (value_text v)) as [n|] eqn:En; [|discriminate]. intros _.
    destruct (int_reads_simple _ _ _ En) as [H1 H2]. exists (value_text v), n.
    split; [apply kind_shows; [exact E|discriminate]|]. split; assumption.
  - intros (t & n & Hs & Hn & Hl). apply shows_kind in Hs. destruct Hs as [-> ->].
    rewrite (simple_number_reads _ _ _ Hn). apply N.leb_le in Hl. rewrite Hl. reflexivity.
Qed.

Lemma value_string_shows v s : shows_string v s -> value_string v = Some s.
Proof.
  intros [Hp Hs]. apply shows_kind in Hs. destruct Hs as [H1 H2]. unfold value_string. rewrite H1, H2.
  rewrite (string_of_plain _ Hp). reflexivity.
Qed.
Lemma value_string_kind v s : value_string v = Some s -> exists t, shows v STRING t.
Proof.
  unfold value_string. destruct (value_skind v) as [k|] eqn:E; [|discriminate].
  destruct k; try discriminate. intros _. exists (value_text v). apply kind_shows; [exact E|discriminate].
Qed.

Lemma occurs_iff p s : occurs p s = true <-> exists a b, s = a ++ p ++ b.
Proof.
  split.
  - induction s as [|c s IH]; simpl; intros H.
    + rewrite orb_false_r in H. exists [], []. destruct p; [reflexivity|discriminate].
    + apply orb_true_iff in H. destruct H as [H|H].
      * destruct (strip_prefix p (c :: s)) as [r|] eqn:E.
        -- apply strip_prefix_some in E. exists [], r. exact E.
        -- unfold strip_prefix in E. rewrite H in E. discriminate.
      * destruct (IH H) as (a & b & ->). exists (c :: a), b. reflexivity.
  - intros (a & b & ->). induction a as [|c a IH]; cbn [app].
    + assert (H : starts_with p (p ++ b) = true).
      { clear. induction p as [|c p IH]; [reflexivity|]. simpl. rewrite N.eqb_refl. exact IH. }
      destruct (p ++ b); simpl in *; rewrite H; reflexivity.
    + simpl. rewrite IH. apply orb_true_r.
Qed.

(** ** Forms *)

Definition form_of (k : arg_value_kind) : form :=
  match k with
  | VNone => FBare
  | VU16 => FNumber U16_MAX []
  | VU32 => FNumber U32_MAX []
  | VU32OrWildcard => FNumber U32_MAX [UNDERSCORE]
  | VU32OrWildcardOrComplement => FNumber U32_MAX [UNDERSCORE; AT]
  | VString VSHex => FHexText
  | VString VSIdentifier => FIdentifierText
  | VString VSUrl => FUrlText
  | VString _ => FText
  | VBool => FBoolean
  | VPath _ => FPath
  | VArg a r => FGroup [arg_kind_str a] r
  | VChoice a b r => FGroup [arg_kind_str a; arg_kind_str b] r
  end.

(** The attribute is that of a constructor. *)
Definition on_constructor (attr : option ink_attr) : bool :=
  match attr with Some a => attr_kind_eqb (at_kind a) (AkArg AConstructor) | None => false end.

Lemma expected_documented ver attr k : k <> AUnknown ->
  In (arg_kind_str k, form_of (expected ver attr k)) (documented ver (on_constructor attr)).
Proof.
  intros Hk. unfold expected, on_constructor.
  assert (G : forall c d, (ver = V5 -> d = None -> c = false) -> (ver = V5 -> forall b, d = Some b -> c = b) ->
     find (fun p => str_eqb (fst p) (arg_kind_str k)) (documented ver c)
     = Some (arg_kind_str k, form_of (match ver with V5 => value_kind_v5 k d | V4 => value_kind k end))).
  { intros c d H1 H2. destruct k; try (exfalso; apply Hk; reflexivity); destruct ver.
    all: try (vm_compute; reflexivity).
    destruct d as [b|]; [rewrite (H2 eq_refl b eq_refl); destruct b|rewrite (H1 eq_refl eq_refl)]; vm_compute; reflexivity. }
  eapply (find_some (fun p : str * form => str_eqb (fst p) (arg_kind_str k))).
  apply (G _ (option_map (fun a => attr_kind_eqb (at_kind a) (AkArg AConstructor)) attr));
    destruct attr as [a|]; cbn [option_map]; congruence.
Qed.
Lemma documented_expected ver attr name f : In (name, f) (documented ver (on_constructor attr)) ->
  exists k, k <> AUnknown /\ name = arg_kind_str k /\ f = form_of (expected ver attr k).
Proof.
  intros H.
  assert (Hn : exists k, k <> AUnknown /\ name = arg_kind_str k).
  { assert (Hin : In name (map fst (documented ver (on_constructor attr)))) by (apply in_map_iff; exists (name, f); auto).
    assert (Hmap : forall v c, map fst (documented v c) = map fst arg_names) by (intros [|] [|]; reflexivity).
    rewrite Hmap in Hin. apply in_map_iff in Hin. destruct Hin as ((s & k) & Hs & Hin). simpl in Hs. subst s.
    exists k. unfold arg_names in Hin. simpl in Hin.
    repeat (destruct Hin as [Hin|Hin]; [injection Hin as <- <-; split; [discriminate|reflexivity]|]). destruct Hin. }
  destruct Hn as (k & Hk & ->). exists k. split; [exact Hk|]. split; [reflexivity|].
  pose proof (expected_documented ver attr k Hk) as H'.
  assert (Hu : forall v c x g1 g2, In (x, g1) (documented v c) -> In (x, g2) (documented v c) -> g1 = g2).
  { intros v c x g1 g2. assert (Hnd : NoDup (map fst (documented v c))).
    { assert (Hmap : map fst (documented v c) = map fst arg_names) by (destruct v, c; reflexivity).
      rewrite Hmap. clear.
      assert (B : forall l : list str, (fix nd l := match l with [] => true | x :: r => negb (existsb (str_eqb x) r) && nd r end) l = true -> NoDup l).
      { induction l as [|x r IH]; intros H; [constructor|]. apply andb_true_iff in H. destruct H as [H1 H2].
        constructor; [|apply IH, H2]. intros Hin. apply negb_true_iff in H1.
        assert (E : existsb (str_eqb x) r = true) by (apply existsb_exists; exists x; split; [exact Hin|apply str_eqb_refl]).
        congruence. }
      apply B. vm_compute. reflexivity. }
    revert Hnd. generalize (documented v c). induction l as [|(a & b) l IH]; [intros _ []|].
    cbn [map fst]. intros Hnd H1 H2. apply NoDup_cons_iff in Hnd. destruct Hnd as [Hx Hnd].
    assert (K : forall g, In (x, g) l -> In x (map fst l)) by (intros g Hg; apply in_map_iff; exists (x, g); auto).
    destruct H1 as [H1|H1], H2 as [H2|H2].
    - congruence.
    - injection H1 as -> ->. exfalso. apply Hx. apply (K _ H2).
    - injection H2 as -> ->. exfalso. apply Hx. apply (K _ H1).
    - apply IH; assumption. }
  apply (Hu _ _ _ _ _ H H').
Qed.

Lemma kind_named m k : k <> AUnknown -> (arg_kind_of_meta m = k <-> named m (arg_kind_str k)).
Proof.
  intros Hk. unfold arg_kind_of_meta, named. split.
  - destruct (m_name m) as [n|l|] eqn:E; intros H; try (exfalso; apply Hk; symmetry; exact H).
    exists n. split; [reflexivity|]. apply arg_kind_of_known; assumption.
  - intros (n & -> & ->). apply arg_kind_of_str, Hk.
Qed.
Lemma has_form_kind ver attr m f : has_form ver (on_constructor attr) m f <->
  arg_kind_of_meta m <> AUnknown /\ f = form_of (expected ver attr (arg_kind_of_meta m)).
Proof.
  split.
  - intros (name & Hn & Hin). apply documented_expected in Hin. destruct Hin as (k & Hk & -> & ->).
    apply (kind_named m k Hk) in Hn. rewrite Hn. split; [exact Hk|reflexivity].
  - intros [Hk ->]. exists (arg_kind_str (arg_kind_of_meta m)). split; [apply kind_named; [exact Hk|reflexivity]|].
    apply expected_documented, Hk.
Qed.

(** ** Checks of one argument *)

Lemma fits_value X v k :
  ((mv_token v = None \/ mv_expr v = None) /\ forall t, shows v STRING t -> exists s, shows_string v s) ->
  match k with
  | VNone | VArg _ _ | VChoice _ _ _ => True
  | VU16 => is_some (value_int U16_MAX v) = true <-> fits X v (form_of k)
  | VU32 | VU32OrWildcard | VU32OrWildcardOrComplement => u32_or_wildcard k v = true <-> fits X v (form_of k)
  | VString s => string_fits X s v = true <-> fits X v (form_of k)
  | VBool => is_some (value_bool v) = true <-> fits X v (form_of k)
  | VPath _ => value_is_path v = true <-> fits X v (form_of k)
  end.
Proof.
  intros [Htok Hstr].
  assert (HN : forall limit symbols,
    fits X v (FNumber limit symbols) <->
    is_some (value_int limit v) = true \/ exists k t, In k symbols /\ shows v k t).
  { intros limit symbols. rewrite value_int_iff. split.
    - intros H. inversion H; subst; [left; exists t, n; auto | right; exists k0, t; auto].
    - intros [(t & n & A & B & C)|(k' & t & A & B)]; [eapply fits_number; eassumption | eapply fits_symbol; eassumption]. }
  assert (HW : value_is_wildcard v = true <-> exists t, shows v UNDERSCORE t).
  { unfold value_is_wildcard. split.
    - destruct (value_skind v) as [x|] eqn:E; [|discriminate]. destruct x; try discriminate. intros _.
      eexists. apply kind_shows; [exact E|discriminate].
    - intros (t & H). apply shows_kind in H. destruct H as [-> _]. reflexivity. }
  assert (HA : value_is_at v = true <-> exists t, shows v AT t).
  { unfold value_is_at. split.
    - destruct (value_skind v) as [x|] eqn:E; [|discriminate]. destruct x; try discriminate. intros _.
      eexists. apply kind_shows; [exact E|discriminate].
    - intros (t & H). apply shows_kind in H. destruct H as [-> _]. reflexivity. }
  destruct k; cbn [form_of]; try exact I.
  - rewrite HN. split; [auto|]. intros [H|(k' & t & [] & _)]. exact H.
  - rewrite HN. unfold u32_or_wildcard. cbn [can_be_wildcard can_be_complement andb]. rewrite !orb_false_r.
    split; [auto|]. intros [H|(k' & t & [] & _)]. exact H.
  - rewrite HN. unfold u32_or_wildcard. cbn [can_be_wildcard can_be_complement andb].
    rewrite orb_false_r, orb_true_iff, HW. split.
    + intros [H|(t & H)]; [auto|]. right. exists UNDERSCORE, t. split; [left; reflexivity|exact H].
    + intros [H|(k' & t & [<-|[]] & H)]; [auto|]. right. exists t. exact H.
  - rewrite HN. unfold u32_or_wildcard. cbn [can_be_wildcard can_be_complement andb].
    rewrite !orb_true_iff, HW, HA. split.
    + intros [[H|(t & H)]|(t & H)]; [auto| |]; right.
      * exists UNDERSCORE, t. split; [left; reflexivity|exact H].
      * exists AT, t. split; [right; left; reflexivity|exact H].
    + intros [H|(k' & t & [<-|[<-|[]]] & H)]; [auto| |]; [left; right|right]; exists t; exact H.
  - assert (HS : forall s, value_string v = Some s -> shows_string v s).
    { intros s Hs. destruct (value_string_kind _ _ Hs) as [t Ht]. destruct (Hstr t Ht) as [s' Hs'].
      rewrite (value_string_shows _ _ Hs') in Hs. injection Hs as <-. exact Hs'. }
    assert (HT : forall k', form_of (VString k') = FText -> string_fits X k' v = is_some (value_string v)).
    { intros [| | | | |]; cbn [form_of]; try discriminate; intros _; unfold string_fits; destruct (value_string v); reflexivity. }
    assert (HF : is_some (value_string v) = true <-> fits X v FText).
    { split.
      - destruct (value_string v) as [s|] eqn:E; [|discriminate]. intros _.
        destruct (value_string_kind _ _ E) as [t Ht]. apply fits_text with t, Ht.
      - intros H. inversion H; subst. destruct (Hstr t H0) as [s Hs]. rewrite (value_string_shows _ _ Hs). reflexivity. }
    destruct k; try (rewrite HT by reflexivity; exact HF); cbn [form_of]; unfold string_fits.
    + split.
      * destruct (value_string v) as [s|] eqn:E; [|discriminate]. unfold value_hex_32, value_hex_vec.
        rewrite E. cbn [obind]. destruct (x_hex X s) as [b|] eqn:Eb; [|discriminate]. cbn [obind].
        destruct (length b =? 32) eqn:El; [|discriminate]. apply Nat.eqb_eq in El. intros _.
        apply fits_hex with s b; auto.
      * intros H. inversion H; subst. pose proof (value_string_shows _ _ H0) as E. unfold value_hex_32, value_hex_vec.
        rewrite E. cbn [obind]. rewrite H1. cbn [obind]. apply Nat.eqb_eq in H2. rewrite H2. reflexivity.
    + split.
      * destruct (value_string v) as [s|] eqn:E; [|discriminate]. unfold value_ident.
        rewrite E. cbn [obind]. destruct (x_ident X s) as [b|] eqn:Eb; [|discriminate]. cbn [obind].
        destruct (str_eqb b s) eqn:El; [|discriminate]. apply str_eqb_eq in El. subst b. intros _.
        apply fits_identifier with s; auto.
      * intros H. inversion H; subst. pose proof (value_string_shows _ _ H0) as E. unfold value_ident.
        rewrite E. cbn [obind]. rewrite H1. cbn [obind]. rewrite str_eqb_refl. reflexivity.
    + split.
      * destruct (value_string v) as [s|] eqn:E; [|discriminate]. unfold is_url_like. intros H. apply occurs_iff in H.
        destruct H as (a & b & ->). apply fits_url with a b. apply HS. reflexivity.
      * intros H. inversion H; subst. rewrite (value_string_shows _ _ H0). apply occurs_iff. exists a, b. reflexivity.
  - unfold value_bool. split.
    + destruct (value_skind v) as [x|] eqn:E; [|discriminate]. destruct x; try discriminate; intros _.
      * eapply fits_true, kind_shows; [exact E|discriminate].
      * eapply fits_false, kind_shows; [exact E|discriminate].
    + intros H. inversion H; subst; apply shows_kind in H0; destruct H0 as [-> _]; reflexivity.
  - unfold value_is_path. split.
    + destruct (mv_expr v) as [[|t]|] eqn:E; try discriminate. intros _. apply fits_path. exists t. exact E.
    + intros H. inversion H; subst. destruct H0 as [t ->]. reflexivity.
Qed.

(** Without the condition on strings, a value that fits is accepted. *)
Lemma fits_accepted X v k : fits X v (form_of k) ->
  match k with
  | VNone | VArg _ _ | VChoice _ _ _ => False
  | VU16 => is_some (value_int U16_MAX v) = true
  | VU32 | VU32OrWildcard | VU32OrWildcardOrComplement => u32_or_wildcard k v = true
  | VString s => string_fits X s v = true
  | VBool => is_some (value_bool v) = true
  | VPath _ => value_is_path v = true
  end.
Proof.
  intros H.
  assert (HI : forall lim syms, form_of k = FNumber lim syms ->
             is_some (value_int lim v) = true \/ exists k' t, In k' syms /\ shows v k' t).
  { intros lim syms E. rewrite E in H. inversion H; subst; [left|right].
    - apply value_int_iff. exists t, n. auto.
    - exists k0, t. auto. }
  destruct k; cbn [form_of] in H; try (inversion H; fail).
  - destruct (HI _ _ eq_refl) as [A|(k' & t & [] & _)]. exact A.
  - unfold u32_or_wildcard. destruct (HI _ _ eq_refl) as [A|(k' & t & [] & _)]. rewrite A. reflexivity.
  - unfold u32_or_wildcard. destruct (HI _ _ eq_refl) as [A|(k' & t & [<-|[]] & Hs)]; [rewrite A; reflexivity|].
    unfold value_is_wildcard. apply shows_kind in Hs. destruct Hs as [-> _].
    cbn [can_be_wildcard can_be_complement andb]. destruct (is_some _); reflexivity.
  - unfold u32_or_wildcard. destruct (HI _ _ eq_refl) as [A|(k' & t & [<-|[<-|[]]] & Hs)]; [rewrite A; reflexivity| |];
      unfold value_is_wildcard, value_is_at; apply shows_kind in Hs; destruct Hs as [-> _];
      cbn [can_be_wildcard can_be_complement andb]; destruct (is_some _); reflexivity.
  - unfold string_fits. destruct k; cbn [form_of] in H; inversion H; subst.
    all: try (apply shows_kind in H0; destruct H0 as [E1 E2]; unfold value_string; rewrite E1; reflexivity).
    + unfold value_hex_32, value_hex_vec. rewrite (value_string_shows _ _ H0). cbn [obind]. rewrite H1. cbn [obind].
      apply Nat.eqb_eq in H2. rewrite H2. reflexivity.
    + unfold value_ident. rewrite (value_string_shows _ _ H0). cbn [obind]. rewrite H1. cbn [obind].
      rewrite str_eqb_refl. reflexivity.
    + rewrite (value_string_shows _ _ H0). apply occurs_iff. exists a, b. reflexivity.
  - unfold value_bool. inversion H; subst; apply shows_kind in H0; destruct H0 as [-> _]; reflexivity.
  - unfold value_is_path. inversion H; subst. destruct H0 as [t ->]. reflexivity.
Qed.

Lemma existsb_kind n options : ia_kind n <> AUnknown ->
  (existsb (arg_kind_eqb (ia_kind n)) options = true <-> In (ia_kind n) options).
Proof.
  intros _. rewrite existsb_exists. split.
  - intros (x & Hx & E). apply arg_kind_eqb_eq in E. rewrite E. exact Hx.
  - intros H. exists (ia_kind n). split; [exact H|]. apply arg_kind_eqb_eq. reflexivity.
Qed.

Section Checks.
  Context (X : externals) (ver : version) (toks : list leaf) (attr : option ink_attr) (env : option str)
    (ids : arg_kind -> list N).
  Notation validate := (validate_arg X ver toks attr env ids).
  Notation exp := (expected ver attr).
  Notation wf := (well_formed X ver (on_constructor attr)).
  Notation strays := (stray ver (on_constructor attr)).

  Lemma options_known k default options required : nested_options (exp k) = Some (default, options, required) ->
    ~ In AUnknown options /\ form_of (exp k) = FGroup (map arg_kind_str options) required.
  Proof.
    unfold expected. destruct k, ver; cbn [value_kind value_kind_v5 nested_options form_of]; try discriminate;
      try (destruct (option_map _ attr) as [[|]|]; discriminate);
      intros H; injection H as <- <- <-; (split; [|reflexivity]); intros Hin; simpl in Hin; intuition discriminate.
  Qed.
  Lemma options_none k : nested_options (exp k) = None -> forall options required,
    form_of (exp k) <> FGroup options required.
  Proof.
    destruct (exp k) as [| | | | |[| | | | |]| |[| |]| |]; cbn [nested_options form_of]; intros H o r; discriminate.
  Qed.

  (** One step of the check *)
  Lemma validate_step m : validate m =
    match arg_kind_of_meta m with
    | AUnknown => unknown_arg toks attr m
    | k =>
        match nested_options (exp k) with
        | None => validate_value X env ids (exp k) m
        | Some (default, options, required) =>
            match m_value m with
            | MOk v => nested_value m default v
            | _ =>
                match m_nested m with
                | None => if required then nested_missing m options else Done []
                | Some n =>
                    if existsb (arg_kind_eqb (ia_kind n)) options then validate n
                    else nested_other m n default options
                end
            end
        end
    end.
  Proof. destruct m. reflexivity. Qed.
  Lemma validate_known m : arg_kind_of_meta m <> AUnknown -> validate m =
    let k := arg_kind_of_meta m in
        match nested_options (exp k) with
        | None => validate_value X env ids (exp k) m
        | Some (default, options, required) =>
            match m_value m with
            | MOk v => nested_value m default v
            | _ =>
                match m_nested m with
                | None => if required then nested_missing m options else Done []
                | Some n =>
                    if existsb (arg_kind_eqb (ia_kind n)) options then validate n
                    else nested_other m n default options
                end
            end
        end.
  Proof. intros H. rewrite validate_step. cbv zeta. destruct (arg_kind_of_meta m); try reflexivity. exfalso; apply H; reflexivity. Qed.

  Lemma meta_nested_ind (P : meta -> Prop) :
    (forall m, (forall n, m_nested m = Some n -> P n) -> P m) -> forall m, P m.
  Proof.
    intros H. fix IH 1. intros [nm eq vl [n|] st en]; apply H; cbn [m_nested]; intros x E; [injection E as <-; apply IH|discriminate].
  Qed.

  (** The results that report something *)
  Definition reports (o : outcome (list adiag)) : Prop := o <> Done [].
  Lemma value_diag_reports m s : value_diag env ids m s <> Done [].
  Proof. unfold value_diag. destruct (meta_range m); cbn [obind_o]; [|discriminate]. destruct (insert_text _ _). discriminate. Qed.
  Lemma unless_done b m s : unless b (value_diag env ids m s) = Done [] <-> b = true.
  Proof.
    unfold unless. destruct b; [tauto|]. split; [|discriminate]. intros H. exfalso. exact (value_diag_reports _ _ H).
  Qed.

  Lemma validate_value_done k m : nested_options k = None ->
    (forall v, m_value m = MOk v ->
       (mv_token v = None \/ mv_expr v = None) /\ forall t, shows v STRING t -> exists s, shows_string v s) ->
    (validate_value X env ids k m = Done [] <->
     (k = VNone /\ m_eq m = None /\ m_value m = MNone) \/ (exists v, m_value m = MOk v /\ fits X v (form_of k))).
  Proof.
    intros Hn Hs.
    assert (HV : forall p s, (forall v, m_value m = MOk v -> (p v = true <-> fits X v (form_of k))) -> k <> VNone ->
      (unless (value_ok (m_value m) p) (value_diag env ids m s) = Done [] <->
       (k = VNone /\ m_eq m = None /\ m_value m = MNone) \/ (exists v, m_value m = MOk v /\ fits X v (form_of k)))).
    { intros p s Hp Hk. rewrite unless_done. unfold value_ok. destruct (m_value m) as [v|l|].
      - rewrite (Hp v eq_refl). split; [intros H; right; exists v; auto|].
        intros [[E _]|(v' & E & H)]; [congruence|]. injection E as <-. exact H.
      - split; [discriminate|]. intros [[E _]|(v' & E & H)]; [congruence|discriminate].
      - split; [discriminate|]. intros [[E _]|(v' & E & H)]; [congruence|discriminate]. }
    destruct k; try discriminate Hn; cbn [validate_value];
      try (apply HV; [|discriminate]; intros v Ev; pose proof (Hs v Ev) as Hv;
           match goal with |- _ <-> fits _ _ (form_of ?kk) => exact (fits_value X v kk Hv) end).
    split.
    - destruct (m_eq m) as [q|]; cbn [is_some orb].
      + destruct (meta_range m); discriminate.
      + destruct (m_value m) as [v|l|]; cbn [mo_some]; try (destruct (meta_range m); discriminate). auto.
    - intros [(_ & -> & ->)|(v & _ & H)]; [reflexivity|]. inversion H.
  Qed.

  Lemma named_kind m name : named m name -> arg_kind_of_meta m = arg_kind_of name.
  Proof. intros (n & E & <-). unfold arg_kind_of_meta. rewrite E. reflexivity. Qed.

  Lemma wf_clean m : wf m -> validate m = Done [].
  Proof.
    induction 1 as [m Hf He Hv Hn|m f v Hf Hv Hfit Hn|m options Hf He Hv Hn|m options required n name Hf He Hv Hn Hname Hin Hwf IH].
    - apply has_form_kind in Hf. destruct Hf as [Hk Ef]. rewrite (validate_known _ Hk). cbv zeta.
      destruct (nested_options _) as [[[d os] r]|] eqn:E.
      + apply options_known in E. destruct E as [_ E]. rewrite E in Ef. discriminate.
      + destruct (exp (arg_kind_of_meta m)) as [| | | | |[| | | | |]| |[| |]| |]; try discriminate Ef. cbn [validate_value]. rewrite He, Hv. reflexivity.
    - apply has_form_kind in Hf. destruct Hf as [Hk Ef]. rewrite (validate_known _ Hk). cbv zeta. rewrite Ef in Hfit.
      destruct (nested_options _) as [[[d os] r]|] eqn:E.
      + apply options_known in E. destruct E as [_ E]. rewrite E in Hfit. inversion Hfit.
      + pose proof (fits_accepted _ _ _ Hfit) as HA. unfold validate_value. rewrite Hv.
        destruct (exp (arg_kind_of_meta m)); try (destruct HA; fail); try discriminate E; cbn [value_ok]; rewrite HA; reflexivity.
    - apply has_form_kind in Hf. destruct Hf as [Hk Ef]. rewrite (validate_known _ Hk). cbv zeta.
      destruct (nested_options _) as [[[d os] r]|] eqn:E.
      + apply options_known in E. destruct E as [_ E]. rewrite E in Ef. injection Ef as _ <-. rewrite Hv, Hn. reflexivity.
      + exfalso. apply (options_none _ E _ _ (eq_sym Ef)).
    - apply has_form_kind in Hf. destruct Hf as [Hk Ef]. rewrite (validate_known _ Hk). cbv zeta.
      destruct (nested_options _) as [[[d os] r]|] eqn:E.
      + apply options_known in E. destruct E as [Hu E]. rewrite E in Ef. injection Ef as -> <-. rewrite Hv, Hn.
        apply in_map_iff in Hin. destruct Hin as (k & Ek & Hk').
        assert (Hkk : ia_kind n = k).
        { unfold ia_kind. rewrite (named_kind _ _ Hname), <- Ek. apply arg_kind_of_str. intros ->. exact (Hu Hk'). }
        assert (Hex : existsb (arg_kind_eqb (ia_kind n)) os = true).
        { apply existsb_exists. exists k. split; [exact Hk'|]. apply arg_kind_eqb_eq. exact Hkk. }
        rewrite Hex. exact IH.
      + exfalso. apply (options_none _ E _ _ (eq_sym Ef)).
  Qed.

  Lemma clean_wf m : simple_values m -> validate m = Done [] -> wf m \/ strays m.
  Proof.
    induction m as [m IH] using meta_nested_ind. intros Hs H.
    destruct (arg_kind_beq (arg_kind_of_meta m) AUnknown) eqn:Ek.
    { apply arg_kind_eqb_eq in Ek. rewrite validate_step, Ek in H. exfalso. revert H. unfold unknown_arg.
      destruct (arg_removal_range _ _ _); cbn [obind_o]; [|discriminate]. destruct (meta_range m); discriminate. }
    assert (Hk : arg_kind_of_meta m <> AUnknown).
    { intros E. apply arg_kind_eqb_eq in E. unfold arg_kind_eqb in E. congruence. }
    clear Ek. rewrite (validate_known _ Hk) in H. cbv zeta in H.
    assert (Hform : has_form ver (on_constructor attr) m (form_of (exp (arg_kind_of_meta m)))).
    { apply has_form_kind. split; [exact Hk|reflexivity]. }
    assert (HG : forall options required, has_form ver (on_constructor attr) m (FGroup options required) ->
                 form_of (exp (arg_kind_of_meta m)) = FGroup options required).
    { intros o r Hf. apply has_form_kind in Hf. symmetry. apply Hf. }
    destruct (nested_options _) as [[[d os] r]|] eqn:E.
    - destruct (options_known _ _ _ _ E) as [Hu Ef]. rewrite Ef in Hform.
      assert (Ht : takes_group ver (on_constructor attr) m) by (exists (map arg_kind_str os), r; exact Hform).
      destruct (m_value m) as [v|l|] eqn:Ev.
      + exfalso. revert H. unfold nested_value. destruct (meta_range m); discriminate.
      + right. apply stray_value; [exact Ht| |]; rewrite Ev; [right|intros v]; discriminate.
      + destruct (m_eq m) as [q|] eqn:Eq.
        { right. apply stray_value; [exact Ht| |]; [left; congruence|rewrite Ev; discriminate]. }
        destruct (m_nested m) as [n|] eqn:En.
        * destruct (existsb (arg_kind_eqb (ia_kind n)) os) eqn:Ex.
          -- destruct (IH n eq_refl) as [Hw|Hw].
             ++ intros x v Hx. apply Hs. apply within_nested with n; assumption.
             ++ exact H.
             ++ left. apply existsb_exists in Ex. destruct Ex as (k & Hk' & Ex). apply arg_kind_eqb_eq in Ex.
                apply wf_group with (map arg_kind_str os) r n (arg_kind_str k); auto.
                ** apply kind_named; [intros ->; exact (Hu Hk')|exact Ex].
                ** apply in_map, Hk'.
             ++ right. apply stray_inside with n; assumption.
          -- exfalso. revert H. unfold nested_other. destruct (meta_range n); discriminate.
        * destruct r.
          -- exfalso. revert H. unfold nested_missing. destruct (meta_range m); discriminate.
          -- left. apply wf_alone with (map arg_kind_str os); auto.
    - destruct (m_nested m) as [n|] eqn:En.
      { right. apply stray_group with n; [exact En|]. intros (o & r & Hf). exact (options_none _ E _ _ (HG _ _ Hf)). }
      left. apply (validate_value_done _ _ E) in H.
      + destruct H as [(Ev & Eq & Em)|(v & Ev & Hfit)].
        * apply wf_bare; auto. rewrite Ev in Hform. exact Hform.
        * apply wf_value with (form_of (exp (arg_kind_of_meta m))) v; auto.
      + intros v Ev. apply (Hs m v); [constructor|exact Ev].
  Qed.

  (** A report is about the argument or one nested in it. *)
  Lemma validate_value_one k m l : validate_value X env ids k m = Done l ->
    l = [] \/ exists d, l = [d] /\ ad_severity d = SevError /\ meta_range m = Done (ad_range d).
  Proof.
    assert (HV : forall b s, unless b (value_diag env ids m s) = Done l ->
      l = [] \/ exists d, l = [d] /\ ad_severity d = SevError /\ meta_range m = Done (ad_range d)).
    { intros [|] s; unfold unless; [intros H; injection H as <-; auto|]. unfold value_diag.
      destruct (meta_range m) as [r|]; cbn [obind_o]; [|discriminate]. destruct (insert_text _ _) as [t sn].
      intros H. injection H as <-. right. eexists. split; [reflexivity|]. split; reflexivity. }
    destruct k; cbn [validate_value]; try apply HV; try (intros H; injection H as <-; auto; fail).
    destruct (is_some (m_eq m) || mo_some (m_value m)); [|intros H; injection H as <-; auto].
    destruct (meta_range m) as [r|]; cbn [obind_o]; [|discriminate].
    intros H. injection H as <-. right. eexists. split; [reflexivity|]. split; reflexivity.
  Qed.
  Definition one_report (m : meta) (l : list adiag) : Prop :=
    l = [] \/ exists d x, l = [d] /\ within m x /\ meta_range x = Done (ad_range d)
               /\ (ad_severity d = SevWarning <-> arg_kind_of_meta m = AUnknown /\ mo_text (m_name m) <> []).
  Lemma validate_one m l : validate m = Done l -> one_report m l.
  Proof.
    unfold one_report. revert l. induction m as [m IH] using meta_nested_ind. intros l H.
    destruct (arg_kind_beq (arg_kind_of_meta m) AUnknown) eqn:Ek.
    { apply arg_kind_eqb_eq in Ek. rewrite validate_step, Ek in H. revert H. unfold unknown_arg.
      destruct (arg_removal_range _ _ _); cbn [obind_o]; [|discriminate].
      destruct (meta_range m) as [r|] eqn:Er; cbn [obind_o]; [|discriminate]. intros H. injection H as <-.
      right. eexists. exists m. split; [reflexivity|]. split; [constructor|]. split; [exact Er|]. cbn [ad_severity].
      rewrite Ek. destruct (mo_text (m_name m)); split; intuition congruence. }
    assert (Hk : arg_kind_of_meta m <> AUnknown).
    { intros E. apply arg_kind_eqb_eq in E. unfold arg_kind_eqb in E. congruence. }
    clear Ek. rewrite (validate_known _ Hk) in H. cbv zeta in H.
    assert (HM : forall d' x, Done [d'] = Done l -> ad_severity d' = SevError -> within m x -> meta_range x = Done (ad_range d') ->
        l = [] \/ exists d x, l = [d] /\ within m x /\ meta_range x = Done (ad_range d)
               /\ (ad_severity d = SevWarning <-> arg_kind_of_meta m = AUnknown /\ mo_text (m_name m) <> [])).
    { intros d' x El Hd Hw Hr. injection El as <-. right. exists d', x. split; [reflexivity|]. split; [exact Hw|].
      split; [exact Hr|]. rewrite Hd. split; [discriminate|tauto]. }
    destruct (nested_options _) as [[[d os] r]|] eqn:E.
    - assert (HN : match m_nested m with
                | None => if r then nested_missing m os else Done []
                | Some n =>
                    if existsb (arg_kind_eqb (ia_kind n)) os then validate n
                    else nested_other m n d os
                end = Done l ->
        l = [] \/ exists d x, l = [d] /\ within m x /\ meta_range x = Done (ad_range d)
               /\ (ad_severity d = SevWarning <-> arg_kind_of_meta m = AUnknown /\ mo_text (m_name m) <> [])).
      { clear H. intros H. destruct (m_nested m) as [n|] eqn:En.
        - destruct (existsb _ os) eqn:Ex.
          + apply existsb_exists in Ex. destruct Ex as (k & Hin & Ex). apply arg_kind_eqb_eq in Ex.
            destruct (options_known _ _ _ _ E) as [Hu _].
            destruct (IH n eq_refl _ H) as [->|(d' & x & -> & Hw & Hr & Hsev)]; [auto|]. right. exists d', x.
            split; [reflexivity|]. split; [apply within_nested with n; assumption|]. split; [exact Hr|].
            rewrite Hsev. change (arg_kind_of_meta n) with (ia_kind n). rewrite Ex.
            split; intros [A _]; [exfalso; apply Hu; rewrite <- A; exact Hin|congruence].
          + unfold nested_other in H. destruct (meta_range n) as [rn|] eqn:Er; cbn [obind_o] in H; [|discriminate].
            eapply (HM _ n); [exact H|reflexivity|apply within_nested with n; [exact En|constructor]|exact Er].
        - destruct r; [|injection H as <-; auto]. unfold nested_missing in H.
          destruct (meta_range m) as [rm|] eqn:Er; cbn [obind_o] in H; [|discriminate].
          eapply (HM _ m); [exact H|reflexivity|constructor|exact Er]. }
      destruct (m_value m) as [v| |]; [|exact (HN H)|exact (HN H)].
      unfold nested_value in H. destruct (meta_range m) as [rm|] eqn:Er; cbn [obind_o] in H; [|discriminate].
      eapply (HM _ m); [exact H|reflexivity|constructor|exact Er].
    - destruct (validate_value_one _ _ _ H) as [->|(d & -> & Hd & Hr)]; [auto|].
      apply (HM d m); auto. constructor.
  Qed.

  (** With ranges there is a result. *)
  Lemma validate_done m : all_ranged m ->
    (arg_kind_of_meta m = AUnknown -> exists r, arg_removal_range toks m attr = Done r) ->
    exists l, validate m = Done l.
  Proof.
    induction m as [m IH] using meta_nested_ind. intros Hr Hu.
    destruct (Hr m (within_self m)) as [rm Hm].
    destruct (arg_kind_beq (arg_kind_of_meta m) AUnknown) eqn:Ek.
    { apply arg_kind_eqb_eq in Ek. rewrite validate_step, Ek. unfold unknown_arg. destruct (Hu Ek) as [r ->].
      cbn [obind_o]. rewrite Hm. eexists. reflexivity. }
    assert (Hk : arg_kind_of_meta m <> AUnknown).
    { intros E. apply arg_kind_eqb_eq in E. unfold arg_kind_eqb in E. congruence. }
    rewrite (validate_known _ Hk). cbv zeta. destruct (nested_options _) as [[[d os] r]|] eqn:E.
    - unfold nested_value, nested_missing, nested_other. rewrite Hm.
      destruct (m_value m) as [v| |]; [eexists; reflexivity| |];
        (destruct (m_nested m) as [n|] eqn:En; [|destruct r; eexists; reflexivity];
         assert (Hw : within m n) by (apply within_nested with n; [exact En|constructor]);
         destruct (existsb _ os) eqn:Ex;
         [apply (IH n eq_refl);
           [intros x Hx; apply Hr; apply within_nested with n; assumption|
            intros Eu; exfalso; apply existsb_exists in Ex; destruct Ex as (k & Hin & Ex); apply arg_kind_eqb_eq in Ex;
            destruct (options_known _ _ _ _ E) as [HU _]; apply HU; unfold ia_kind in Ex; rewrite <- Eu, Ex; exact Hin]
         |destruct (Hr n Hw) as [rn ->]; eexists; reflexivity]).
    - assert (HV : forall b s, exists l, unless b (value_diag env ids m s) = Done l).
      { intros [|] s; unfold unless; [eexists; reflexivity|]. unfold value_diag. rewrite Hm. cbn [obind_o].
        destruct (insert_text _ _). eexists; reflexivity. }
      unfold validate_value. destruct (exp (arg_kind_of_meta m)); try apply HV; try (eexists; reflexivity).
      rewrite Hm. destruct (_ || _); eexists; reflexivity.
  Qed.
End Checks.

(** ** Reading fixes back *)
Lemma assignment_reads px o name value e : value_tokens value -> px (c_space :: texts_of value) = Some e ->
  exists m v, parse_meta_items px (in_parens (assignment name value)) o = [m]
    /\ named m name /\ m_nested m = None /\ m_value m = MOk v /\ mv_token v = None /\ mv_expr v = Some e.
Proof.
  intros (Hne & Hvt) He.
  assert (Hv : forall e, In e value -> kind_of e <> COMMA /\ plain_element e) by (intros x Hx; destruct (Hvt x Hx) as (A & B & _); auto).
  assert (Hcomma : forall x, In x (assignment name value) -> kind_of x <> COMMA /\ plain_element x).
  { assert (P : forall k t, k <> COMMA -> k <> R_PAREN -> kind_of (Tok k t) <> COMMA /\ plain_element (Tok k t)).
    { intros k t H1 H2. split; [exact H1|]. split; [intros t' E; congruence|]. intros (cs & l & t' & E & _). discriminate. }
    intros x [<-|[<-|[<-|[<-|Hx]]]]; try (apply P; discriminate). apply Hv, Hx. }
  assert (Hreg : region (Tok L_PAREN (lit "(") :: assignment name value ++ [Tok R_PAREN (lit ")")]) (assignment name value)).
  { apply region_open. apply re_close. apply Forall_forall. intros x Hx. apply Hcomma, Hx. }
  assert (Hcs : comma_separated (place (region_start o (Tok L_PAREN (lit "(") :: assignment name value ++ [Tok R_PAREN (lit ")")])) (assignment name value))
            [place (region_start o (Tok L_PAREN (lit "(") :: assignment name value ++ [Tok R_PAREN (lit ")")])) (assignment name value)]).
  { apply cs_last. intros x Hx. apply place_In in Hx. apply Hcomma, Hx. }
  pose proof (parse_arguments px TOKEN_TREE _ _ o _ Hreg Hcs) as HF.
  cbn [filter nonempty] in HF.
  set (o1 := region_start o _) in *.
  assert (Hnn : nonempty (place o1 (assignment name value)) = true) by reflexivity.
  rewrite Hnn in HF. inversion HF as [|s m ss ms Hr HF' E1 E2]; subst. inversion HF'; subst.
  fold (in_parens (assignment name value)) in E2. symmetry in E2.
  exists m. destruct Hr as (nm & eq & vl & Hsplit & Heq & Hval & Hnest).
  set (n0 := (o1, Tok IDENT name) : lelem).
  set (w0 := (o1 + len_of (Tok IDENT name), Tok WHITESPACE (lit " ")) : lelem).
  set (q0 := (o1 + len_of (Tok IDENT name) + 1, Tok EQ (lit "=")) : lelem).
  assert (Hpl : place o1 (assignment name value) =
    [n0; w0] ++ q0 :: place (o1 + len_of (Tok IDENT name) + 1 + 1) (Tok WHITESPACE (lit " ") :: value)).
  { reflexivity. }
  assert (Hsp2 : split_at_eq (place o1 (assignment name value)) [n0; w0] (Some q0)
            (place (o1 + len_of (Tok IDENT name) + 1 + 1) (Tok WHITESPACE (lit " ") :: value))).
  { split; [split; [exact Hpl|reflexivity]|]. intros x [<-|[<-|[]]]; discriminate. }
  destruct (split_at_eq_unique _ _ _ _ _ _ _ Hsplit Hsp2) as (-> & -> & ->).
  assert (Htx : texts_of (map snd (place (o1 + len_of (Tok IDENT name) + 1 + 1) (Tok WHITESPACE (lit " ") :: value))) = c_space :: texts_of value).
  { rewrite map_snd_place. reflexivity. }
  unfold value_reads in Hval. rewrite Htx in Hval.
  destruct (m_value m) as [v|l|] eqn:Ev.
  - exists v. split; [exact E2|]. destruct Hval as (_ & _ & Hval).
    assert (Hn : m_nested m = None /\ name_reads [n0; w0] (m_name m)).
    { destruct Hnest as [(t & n & Ht & _)|[(t & n & Ht & _)|(Hn & Hr & _)]]; [discriminate Ht|discriminate Ht|auto]. }
    destruct Hn as [Hn Hr]. split.
    + exists n0. split; [|reflexivity]. apply (name_reads_ok _ _ n0 Hr); [reflexivity|]. exists name. left. reflexivity.
    + split; [exact Hn|]. split; [reflexivity|]. destruct Hval as [(k & t & x & Hs & Hx & Hk & _)|(Ht & Hx & _)].
      * exfalso. (* a single token [_] or [@] *)
        assert (Hs' : significant (place (o1 + len_of (Tok IDENT name) + 1 + 1) (Tok WHITESPACE (lit " ") :: value))
                 = significant (place (o1 + len_of (Tok IDENT name) + 1 + 1 + 1) value)) by reflexivity.
        rewrite Hs' in Hs. assert (Hin : In x (significant (place (o1 + len_of (Tok IDENT name) + 1 + 1 + 1) value))) by (rewrite Hs; left; reflexivity).
        apply filter_In in Hin. destruct Hin as [Hin _]. apply place_In in Hin. destruct (Hvt _ Hin) as (_ & _ & A & B).
        rewrite Hx in A, B. destruct Hk as [-> | ->]; [apply A|apply B]; reflexivity.
      * split; [exact Ht|]. rewrite Hx. exact He.
  - destruct Hval as (_ & _ & Hval). congruence.
  - discriminate Hval.
Qed.


Lemma dec_simple n : simple_number (dec n) n.
Proof. apply (int_reads_simple n). apply dec_reads. lia. Qed.
Lemma id_or_one_range max used : (1 <= max)%N -> (1 <= id_or_one max used <= max)%N.
Proof.
  intros H. unfold id_or_one. pose proof (suggest_unique_id_spec max None used) as S. cbv zeta iota in S. specialize (S H).
  destruct (suggest_unique_id max None used) as [n| |]; [|lia|lia]. destruct S as (A & _). lia.
Qed.
Lemma id_or_one_least max used m : (1 <= m <= max)%N -> ~ In m used -> (id_or_one max used <= m)%N /\ ~ In (id_or_one max used) used.
Proof.
  intros Hm Hu. unfold id_or_one. pose proof (suggest_unique_id_spec max None used) as S. cbv zeta iota in S. specialize (S ltac:(lia)).
  destruct (suggest_unique_id max None used) as [n| |].
  - destruct S as (A & B & C). split; [|exact B]. destruct (N.le_gt_cases n m) as [L|L]; [exact L|]. exfalso. apply Hu, C. lia.
  - exfalso. apply Hu, S. exact Hm.
  - destruct S.
Qed.

Ltac plain_tac := let H := fresh in split; intros H; vm_compute in H; intuition discriminate.

(** What a fix offers for a value. *)
Definition offered_paths (env : option str) : list str :=
  [match env with Some p => p | None => lit "ink::env::DefaultEnvironment" end; lit "ink_e2e::MinimalSandbox"].

Lemma default_fits X ver attr px env ids c k :
  ic_env c = env -> ic_ids c = ids ->
  reads_values px (offered_paths env) -> x_ident X (lit "my_namespace") = Some (lit "my_namespace") ->
  k <> AUnknown -> k <> ASignatureTopic -> nested_options (expected ver attr k) = None -> expected ver attr k <> VNone ->
  (ver = V5 -> k = AExtension -> exists n, (1 <= n <= U16_MAX)%N /\ ~ In n (ids AExtension)) ->
  exists e, px (c_space :: fst (default_value c k)) = Some e
    /\ forall v, mv_token v = None -> mv_expr v = Some e -> fits X v (form_of (expected ver attr k)).
Proof.
  intros Henv Hids Hpx Hns Hk Hst Hno Hnn Hid.
  assert (NUM : forall n lim syms, (n <= lim)%N -> exists e, px (c_space :: dec n) = Some e
             /\ forall v, mv_token v = None -> mv_expr v = Some e -> fits X v (FNumber lim syms)).
  { intros n lim syms Hn. exists (VELiteral INT_NUMBER (dec n)). split; [apply (rv_number _ _ Hpx)|].
    intros v H1 H2. apply fits_number with (dec n) n; [apply shows_literal; assumption|apply dec_simple|exact Hn]. }
  assert (STR : forall s, plain_string s -> px (c_space :: quoted s) = Some (VELiteral STRING (quoted s))
             /\ forall v, mv_token v = None -> mv_expr v = Some (VELiteral STRING (quoted s)) -> shows_string v s).
  { intros s Hs. split; [apply (rv_string _ _ Hpx), Hs|]. intros v H1 H2. split; [exact Hs|]. apply shows_literal; assumption. }
  assert (PATHS : forall p, In p (offered_paths env) -> exists e, px (c_space :: p) = Some e
             /\ forall v, mv_token v = None -> mv_expr v = Some e -> fits X v FPath).
  { intros p Hp. exists (VEPath p). split; [apply (rv_path _ _ Hpx), Hp|]. intros v _ H2. apply fits_path. exists p. exact H2. }
  assert (U32 : forall used, (id_or_one U32_MAX used <= U32_MAX)%N).
  { intros used. apply id_or_one_range. unfold U32_MAX. lia. }
  assert (U16 : forall used, (id_or_one U16_MAX used <= U16_MAX)%N).
  { intros used. apply id_or_one_range. unfold U16_MAX. lia. }
  assert (EXT : (exists n, (1 <= n <= U16_MAX)%N /\ ~ In n (ids AExtension)) -> (id_or_one U32_MAX (ids AExtension) <= U16_MAX)%N).
  { intros (n & Hn & Hu). destruct (id_or_one_least U32_MAX (ids AExtension) n) as [L _]; [unfold U16_MAX, U32_MAX in *; lia|exact Hu|]. lia. }
  assert (TXT : plain_string [] -> exists e, px (c_space :: quoted []) = Some e
             /\ forall v, mv_token v = None -> mv_expr v = Some e -> fits X v FText).
  { intros Hs. destruct (STR [] Hs) as [A B]. eexists. split; [exact A|]. intros v H1 H2.
    apply fits_text with (quoted []). apply shows_literal; assumption. }
  assert (BOOL : exists e, px (c_space :: lit "true") = Some e
             /\ forall v, mv_token v = None -> mv_expr v = Some e -> fits X v FBoolean).
  { exists (VELiteral TRUE_KW (lit "true")). split; [apply (rv_true _ _ Hpx)|]. intros v H1 H2.
    apply fits_true with (lit "true"). apply shows_literal; assumption. }
  revert Hno Hnn Hid. unfold expected, default_value. rewrite Henv, Hids.
  destruct k; try (exfalso; apply Hk; reflexivity); try (exfalso; apply Hst; reflexivity);
    destruct ver; cbn [value_kind value_kind_v5 nested_options form_of fst]; try discriminate; intros _ Hnn Hid;
    try (exfalso; apply Hnn; reflexivity).
  all: try (apply TXT; plain_tac).
  all: try exact BOOL.
  all: try (apply PATHS; simpl; auto).
  all: try (apply NUM; first [apply U32|apply U16]).
  - apply NUM, EXT, Hid; reflexivity.
  - destruct (STR (lit "my_namespace") ltac:(plain_tac)) as [A B]. eexists. split; [exact A|]. intros v H1 H2.
    apply fits_identifier with (lit "my_namespace"); auto.
  - destruct (STR (lit "my_namespace") ltac:(plain_tac)) as [A B]. eexists. split; [exact A|]. intros v H1 H2.
    apply fits_identifier with (lit "my_namespace"); auto.
  - destruct (option_map _ attr) as [[|]|]; apply NUM, U32.
  - destruct (STR (lit "ws://127.0.0.1:9000") ltac:(plain_tac)) as [A B]. eexists. split; [exact A|]. intros v H1 H2.
    apply fits_url with (lit "ws") (lit "127.0.0.1:9000"); auto.
  - destruct (STR (lit "ws://127.0.0.1:9000") ltac:(plain_tac)) as [A B]. eexists. split; [exact A|]. intros v H1 H2.
    apply fits_url with (lit "ws") (lit "127.0.0.1:9000"); auto.
Qed.

(** ** The next token *)
Lemma closest_find ok l : closest_which ok ok l = find ok l.
Proof. induction l as [|x l IH]; [reflexivity|]. simpl. destruct (ok x); [reflexivity|exact IH]. Qed.

Lemma place_leaves_start (l : list (skind * str)) : forall o x, (forall t : skind * str, In t l -> snd t <> []) -> In x (place_leaves o l) -> lf_start x < lf_end x.
Proof.
  induction l as [|t l IH]; intros o x Hne [].
  - subst x. unfold lf_start, lf_end. cbn [fst snd]. pose proof (bytes_pos _ (Hne t (or_introl eq_refl))) as P. lia.
  - eapply IH; [|eassumption]. intros t' Ht. apply Hne. right. exact Ht.
Qed.

(** The last token of a run that touches an offset in it. *)
Lemma last_touching (b : list (skind * str)) : forall s o, (forall t : skind * str, In t b -> snd t <> []) -> b <> [] ->
  s <= o <= s + bytes (text b) ->
  exists b1 t b2, b = b1 ++ t :: b2
    /\ last_opt (filter (fun t => (lf_start t <=? o) && (o <=? lf_end t)) (place_leaves s b)) = Some (s + bytes (text b1), t)
    /\ s + bytes (text b1) <= o <= s + bytes (text b1) + bytes (snd t)
    /\ (b2 <> [] -> o < s + bytes (text b1) + bytes (snd t)).
Proof.
  induction b as [|t b IH]; intros s o Hne Hb Ho; [contradiction|].
  assert (Hc : bytes (text (t :: b)) = bytes (snd t) + bytes (text b)).
  { change (t :: b) with ([t] ++ b). rewrite text_app, bytes_app. unfold text at 1. simpl. rewrite app_nil_r. reflexivity. }
  assert (Hne' : forall t', In t' b -> snd t' <> []) by (intros t' Ht; apply Hne; right; exact Ht).
  assert (Ht0 : 0 < bytes (snd t)) by (apply bytes_pos, Hne; left; reflexivity).
  destruct (Nat.lt_ge_cases o (s + bytes (snd t))) as [L|L].
  - exists [], t, b. split; [reflexivity|]. cbn [place_leaves filter].
    assert (E : (lf_start (s, t) <=? o) && (o <=? lf_end (s, t)) = true).
    { apply andb_true_iff. rewrite !Nat.leb_le. unfold lf_start, lf_end. cbn [fst snd]. lia. }
    rewrite E. rewrite (filter_none _ (place_leaves (s + bytes (snd t)) b)).
    + cbn [last_opt text flat_map bytes]. rewrite Nat.add_0_r. split; [reflexivity|]. split; [lia|]. intros _. lia.
    + intros x Hx. apply place_leaves_bounds in Hx. apply andb_false_iff. left. apply Nat.leb_gt. lia.
  - destruct b as [|t2 b].
    + exists [], t, []. split; [reflexivity|]. cbn [place_leaves filter].
      assert (E : (lf_start (s, t) <=? o) && (o <=? lf_end (s, t)) = true).
      { apply andb_true_iff. rewrite !Nat.leb_le. unfold lf_start, lf_end. cbn [fst snd]. change (bytes (text (@nil (skind * str)))) with 0 in Hc. lia. }
      rewrite E. cbn [last_opt text flat_map bytes]. rewrite Nat.add_0_r. split; [reflexivity|]. change (bytes (text (@nil (skind * str)))) with 0 in Hc. split; [lia|].
      intros H; contradiction.
    + destruct (IH (s + bytes (snd t)) o Hne' ltac:(discriminate) ltac:(lia)) as (b1 & x & b2 & Eb & Hl & Hx & Hx2).
      exists (t :: b1), x, b2. split; [rewrite Eb; reflexivity|].
      assert (Hc1 : bytes (text (t :: b1)) = bytes (snd t) + bytes (text b1)).
      { change (t :: b1) with ([t] ++ b1). rewrite text_app, bytes_app. unfold text at 1. simpl. rewrite app_nil_r. reflexivity. }
      rewrite Hc1. split.
      * replace (s + (bytes (snd t) + bytes (text b1))) with (s + bytes (snd t) + bytes (text b1)) by lia.
        change (place_leaves s (t :: t2 :: b)) with ((s, t) :: place_leaves (s + bytes (snd t)) (t2 :: b)).
        set (P := fun t : leaf => (lf_start t <=? o) && (o <=? lf_end t)) in *.
        assert (HP : forall y r, filter P (y :: r) = if P y then y :: filter P r else filter P r) by reflexivity.
        rewrite HP. destruct (P (s, t)); [|exact Hl].
        destruct (filter P (place_leaves (s + bytes (snd t)) (t2 :: b))); [discriminate Hl|exact Hl].
      * split; [lia|]. intros H. specialize (Hx2 H). lia.
Qed.

Lemma next_solid_first (a b c : list (skind * str)) o :
  (forall t : skind * str, In t (a ++ b ++ c) -> snd t <> []) -> b <> [] ->
  bytes (text a) <= o <= bytes (text (a ++ b)) ->
  exists t, next_solid (place_leaves 0 (a ++ b ++ c)) (bytes (text a), bytes (text (a ++ b))) o = Done t
    /\ first_solid (place_leaves 0 (a ++ b ++ c)) o t.
Proof.
  intros Hne Hb Ho. unfold next_solid. cbn [fst snd].
  rewrite (proj2 (Nat.leb_le _ _) (proj1 Ho)), (proj2 (Nat.leb_le _ _) (proj2 Ho)). cbn [andb].
  rewrite text_app, bytes_app in *.
  assert (Hin : filter (fun t : leaf => (bytes (text a) <=? lf_start t) && (lf_end t <=? bytes (text a) + bytes (text b)))
                  (place_leaves 0 (a ++ b ++ c)) = place_leaves (bytes (text a)) b).
  { rewrite !place_leaves_app, !filter_app. cbn [plus].
    rewrite (filter_none _ (place_leaves 0 a)), (filter_every _ (place_leaves (bytes (text a)) b)),
      (filter_none _ (place_leaves (bytes (text a) + bytes (text b)) c)); [rewrite app_nil_r; reflexivity| | |].
    - intros x Hx. pose proof (place_leaves_bounds _ _ _ Hx) as B.
      apply place_leaves_start in Hx; [|intros t Ht; apply Hne; rewrite !in_app_iff; auto].
      apply andb_false_iff. right. apply Nat.leb_gt. lia.
    - intros x Hx. apply place_leaves_bounds in Hx. apply andb_true_iff. rewrite !Nat.leb_le. lia.
    - intros x Hx. pose proof (place_leaves_bounds _ _ _ Hx) as B.
      apply place_leaves_start in Hx; [|intros t Ht; apply Hne; rewrite !in_app_iff; auto].
      apply andb_false_iff. left. apply Nat.leb_gt. lia. }
  rewrite Hin.
  destruct (last_touching b (bytes (text a)) o) as (b1 & t & b2 & Eb & Hl & Ht & Ht2); [|exact Hb|exact Ho|].
  { intros t Ht. apply Hne. rewrite !in_app_iff. auto. }
  rewrite Hl.
  set (x := (bytes (text a) + bytes (text b1), t) : leaf) in *.
  set (ok := fun y : leaf => (o <=? lf_start y) && negb (is_trivia (lf_kind y))).
  assert (Htok : a ++ b ++ c = (a ++ b1) ++ t :: (b2 ++ c)) by (rewrite Eb, <- !app_assoc; reflexivity).
  assert (Htn : snd t <> []) by (apply Hne; rewrite Htok, in_app_iff; right; left; reflexivity).
  assert (Hx : x = (0 + bytes (text (a ++ b1)), t)) by (unfold x; rewrite text_app, bytes_app; reflexivity).
  assert (Hpl : place_leaves 0 (a ++ b ++ c) = place_leaves 0 (a ++ b1) ++ x :: place_leaves (lf_end x) (b2 ++ c)).
  { rewrite Htok, place_leaves_app. cbn [place_leaves]. rewrite Hx. reflexivity. }
  assert (Hbefore : forall y, In y (place_leaves 0 (a ++ b1)) -> lf_start y < o).
  { intros y Hy. pose proof (place_leaves_bounds _ _ _ Hy) as B.
    apply place_leaves_start in Hy; [|intros u Hu; apply Hne; rewrite Htok, in_app_iff; auto].
    rewrite text_app, bytes_app in B. lia. }
  assert (Hafter : leaves_after (place_leaves 0 (a ++ b ++ c)) x = place_leaves (lf_end x) (b2 ++ c)).
  { rewrite Htok, Hx. rewrite (after_place 0 (a ++ b1) t (b2 ++ c) Htn). reflexivity. }
  match goal with |- exists t, Done ?e = _ /\ _ =>
    change e with (if ok x then Some x else closest_which ok ok (leaves_after (place_leaves 0 (a ++ b ++ c)) x)) end.
  destruct (ok x) eqn:Ek.
  - exists (Some x). split; [reflexivity|]. unfold ok in Ek. apply andb_true_iff in Ek. destruct Ek as [E1 E2].
    apply Nat.leb_le in E1. apply negb_true_iff in E2.
    exists (place_leaves 0 (a ++ b1)), (place_leaves (lf_end x) (b2 ++ c)). split; [exact Hpl|]. split; [exact E1|]. split; [exact E2|].
    intros y Hy Hs. specialize (Hbefore y Hy). lia.
  - rewrite Hafter, closest_find.
    eexists. split; [reflexivity|].
    assert (Hx' : o <= lf_start x -> is_trivia (lf_kind x) = true).
    { intros L. unfold ok in Ek. apply Nat.leb_le in L. rewrite L in Ek. apply negb_false_iff in Ek. exact Ek. }
    assert (Hs : forall y, In y (place_leaves (lf_end x) (b2 ++ c)) -> o <= lf_start y).
    { intros y Hy. apply place_leaves_bounds in Hy. unfold x, lf_end in Hy. cbn [fst snd] in Hy. unfold lf_start in *. lia. }
    assert (HF : forall l, (forall y, In y l -> o <= lf_start y) ->
      match find ok l with
      | Some y => exists l1 l2, l = l1 ++ y :: l2 /\ is_trivia (lf_kind y) = false /\ forall z, In z l1 -> is_trivia (lf_kind z) = true
      | None => forall z, In z l -> is_trivia (lf_kind z) = true
      end).
    { induction l as [|y l IH]; intros Hl'; [intros z []|]. simpl. unfold ok at 1.
      rewrite (proj2 (Nat.leb_le _ _) (Hl' y (or_introl eq_refl))). cbn [andb].
      destruct (is_trivia (lf_kind y)) eqn:Ey; cbn [negb].
      - specialize (IH (fun z Hz => Hl' z (or_intror Hz))). destruct (find ok l) as [z|].
        + destruct IH as (l1 & l2 & -> & A & B). exists (y :: l1), l2. split; [reflexivity|]. split; [exact A|].
          intros z' [<-|Hz]; [exact Ey|apply B, Hz].
        + intros z [<-|Hz]; [exact Ey|apply IH, Hz].
      - exists [], l. split; [reflexivity|]. split; [exact Ey|]. intros z []. }
    specialize (HF _ Hs). destruct (find ok _) as [y|] eqn:Ef.
    + destruct HF as (l1 & l2 & El & A & B). exists (place_leaves 0 (a ++ b1) ++ x :: l1), l2. split.
      * rewrite Hpl, El, <- app_assoc. reflexivity.
      * split; [apply Hs; rewrite El, in_app_iff; right; left; reflexivity|]. split; [exact A|].
        intros z Hz Hz2. apply in_app_iff in Hz. destruct Hz as [Hz|[<-|Hz]].
        -- specialize (Hbefore z Hz). lia.
        -- apply Hx', Hz2.
        -- apply B, Hz.
    + intros z Hz Hz2. rewrite Hpl in Hz. apply in_app_iff in Hz. destruct Hz as [Hz|[<-|Hz]].
      * specialize (Hbefore z Hz). lia.
      * apply Hx', Hz2.
      * apply HF, Hz.
Qed.

Lemma is_constructor_eq attr c : is_constructor attr c -> c = on_constructor attr.
Proof.
  intros H. unfold on_constructor.
  assert (G : match attr with Some a => attr_kind_eqb (at_kind a) (AkArg AConstructor) | None => false end = true
              <-> exists a, attr = Some a /\ at_kind a = AkArg AConstructor).
  { destruct attr as [a|].
    - split.
      + intros E. exists a. split; [reflexivity|]. unfold attr_kind_eqb in E. destruct (at_kind a); [discriminate|].
        apply arg_kind_eqb_eq in E. rewrite E. reflexivity.
      + intros (a' & E & Ha). injection E as <-. rewrite Ha. reflexivity.
    - split; [discriminate|]. intros (a & E & _). discriminate. }
  unfold is_constructor in H. destruct c, (match attr with Some a => _ | None => false end); try reflexivity; exfalso.
  - destruct G as [_ G]. discriminate (G (proj1 H eq_refl)).
  - destruct H as [_ H]. discriminate (H (proj1 G eq_refl)).
Qed.

Lemma alone_reads px o name : exists m, parse_meta_items px (in_parens (alone name)) o = [m]
  /\ named m name /\ m_eq m = None /\ m_value m = MNone /\ m_nested m = None.
Proof.
  assert (T0 : trivia []) by (intros e []).
  assert (W : writes_args [WArg name None None] (alone name)).
  { apply (wa_last _ (alone name) []); [|left; reflexivity]. apply (writes_arg _ _ _ [] IDENT [] [] [] []); auto; constructor. }
  pose proof (parse_written px _ _ o TOKEN_TREE W) as F. fold (in_parens (alone name)) in F.
  revert F. generalize (parse_meta_items px (in_parens (alone name)) o). intros l F.
  inversion F as [|w m ws ms [Hw _] F' E1 E2]. inversion F'. exists m. split; [congruence|]. clear - Hw.
  inversion Hw as [nm nest val m' n Hn Ht Hne Hv _ [E3 E4 E5] E6]. destruct (Hv eq_refl) as [A B].
  split; [exists n; auto|]. split; [exact A|]. split; [exact B|]. inversion Hne. reflexivity.
Qed.
Lemma grouped_reads px o name opt : exists m n, parse_meta_items px (in_parens (grouped name opt)) o = [m]
  /\ named m name /\ m_eq m = None /\ m_value m = MNone /\ m_nested m = Some n
  /\ named n opt /\ m_eq n = None /\ m_value n = MNone /\ m_nested n = None.
Proof.
  assert (T0 : trivia []) by (intros e []).
  assert (W : writes_args [WArg name (Some (WArg opt None None)) None] (grouped name opt)).
  { apply (wa_last _ (grouped name opt) []); [|left; reflexivity].
    apply (writes_arg _ _ _ [] IDENT [] [Node TOKEN_TREE [Tok L_PAREN (lit "("); Tok IDENT opt; Tok R_PAREN (lit ")")]] [] []); auto; [|constructor].
    apply (wn_some _ [Tok IDENT opt] []); [|left; reflexivity].
    apply (writes_arg _ _ _ [] IDENT [] [] [] []); auto; constructor. }
  pose proof (parse_written px _ _ o TOKEN_TREE W) as F. fold (in_parens (grouped name opt)) in F.
  revert F. generalize (parse_meta_items px (in_parens (grouped name opt)) o). intros l F.
  inversion F as [|w m ws ms [Hw _] F' E1 E2]. inversion F'.
  assert (G : named m name /\ m_eq m = None /\ m_value m = MNone /\ exists n, m_nested m = Some n /\ is_arg (WArg opt None None) n).
  { clear - Hw. inversion Hw as [nm nest val m' n Hn Ht Hne Hv _ [E3 E4 E5] E6]. destruct (Hv eq_refl) as [A B].
    split; [exists n; auto|]. split; [exact A|]. split; [exact B|]. inversion Hne as [|w n' Hw' E7 E8]. exists n'. auto. }
  destruct G as (G1 & G2 & G3 & n & G4 & Hw'). exists m, n. split; [congruence|]. split; [exact G1|]. split; [exact G2|]. split; [exact G3|].
  split; [exact G4|]. clear - Hw'.
  inversion Hw' as [nm nest val m' n' Hn Ht Hne Hv _ [E3 E4 E5] E6]. destruct (Hv eq_refl) as [A B].
  split; [exists n'; auto|]. split; [exact A|]. split; [exact B|]. inversion Hne. reflexivity.
Qed.

Section Fixes.
  Context (X : externals) (ver : version) (toks : list leaf) (attr : option ink_attr) (env : option str)
    (ids : arg_kind -> list N).
  Notation validate := (validate_arg X ver toks attr env ids).
  Notation exp := (expected ver attr).
  Notation wf := (well_formed X ver (on_constructor attr)).
  Notation form_at := (has_form ver (on_constructor attr)).

  Lemma named_same m m' name f : named m name -> named m' name -> form_at m f -> form_at m' f.
  Proof.
    intros Hm Hm' Hf. apply has_form_kind in Hf. apply has_form_kind.
    rewrite (named_kind _ _ Hm) in Hf. rewrite (named_kind _ _ Hm'). exact Hf.
  Qed.
  Lemma kind_text m : arg_kind_of_meta m <> AUnknown -> named m (arg_kind_str (arg_kind_of_meta m)).
  Proof. intros H. apply (kind_named m _ H). reflexivity. Qed.
  Lemma named_unique m a b : named m a -> named m b -> a = b.
  Proof. intros (n & E & <-) (n' & E' & <-). congruence. Qed.

  Lemma options_value k : (forall options required, form_of (exp k) <> FGroup options required) -> nested_options (exp k) = None.
  Proof.
    intros H. destruct (nested_options (exp k)) as [[[d o] r]|] eqn:E; [|reflexivity]. exfalso.
    apply options_known in E. destruct E as [_ E]. exact (H _ _ E).
  Qed.
  Lemma form_bare k : form_of (exp k) = FBare <-> exp k = VNone.
  Proof.
    split; [|intros ->; reflexivity]. unfold expected.
    destruct ver, k; cbn [value_kind value_kind_v5 form_of]; try discriminate; try reflexivity;
      destruct (option_map _ attr) as [[|]|]; discriminate.
  Qed.

  Lemma value_fix px m f d : reads_values px (offered_paths env) -> x_ident X (lit "my_namespace") = Some (lit "my_namespace") ->
    form_at m f -> takes_value f -> f <> FHexText ->
    (ver = V5 -> named m (lit "extension") -> exists n, (1 <= n <= U16_MAX)%N /\ ~ In n (ids AExtension)) ->
    validate m = Done [d] ->
    exists name v r snippet, named m name /\ meta_range m = Done r /\ one_fix d (name ++ lit " = " ++ v) r (Some snippet)
      /\ forall value o, value_tokens value -> texts_of value = v ->
         exists m', parse_meta_items px (in_parens (assignment name value)) o = [m'] /\ wf m'.
  Proof.
    intros Hpx Hid Hf [Hnb Hng] Hhex Hext H.
    pose proof Hf as Hf0. apply has_form_kind in Hf. destruct Hf as [Hk Ef]. set (k := arg_kind_of_meta m) in *.
    assert (Hno : nested_options (exp k) = None) by (apply options_value; intros o r; rewrite <- Ef; apply Hng).
    assert (Hnn : exp k <> VNone) by (intros E; apply Hnb; rewrite Ef; apply form_bare, E).
    rewrite (validate_known _ _ _ _ _ _ m Hk) in H. cbv zeta in H. fold k in H. rewrite Hno in H.
    assert (Hv : exists s, value_diag env ids m s = Done [d]).
    { revert H. unfold validate_value, unless. destruct (exp k); try contradiction; try discriminate;
        match goal with |- (if ?b then _ else _) = _ -> _ => destruct b; [discriminate|] end; intros H; eexists; exact H. }
    destruct Hv as [s Hv]. unfold value_diag in Hv. destruct (meta_range m) as [r|] eqn:Er; [|discriminate]. cbn [obind_o] in Hv.
    set (c := InsertContext None env ids) in *.
    assert (Hins : insert_text c k = (arg_kind_str k ++ lit " = " ++ fst (default_value c k),
                     Some (arg_kind_str k ++ lit " = " ++ snd (default_value c k)))).
    { assert (He : inserts_eq c k = true).
      { unfold inserts_eq. cbn [ic_next c].
        assert (Hn2 : forall a r, exp k <> VArg a r) by (intros a q E; rewrite E in Hno; discriminate).
        assert (Hn3 : forall a b r, exp k <> VChoice a b r) by (intros a b q E; rewrite E in Hno; discriminate).
        clear -Hnn Hn2 Hn3. unfold expected in *. destruct k; cbn [value_kind value_kind_v5] in *; try reflexivity;
          exfalso; destruct ver; cbn [value_kind value_kind_v5] in *; try (apply Hnn; reflexivity); try (eapply Hn2; reflexivity); try (eapply Hn3; reflexivity). }
      unfold insert_text, inserts_nested. rewrite He. cbn [negb andb orb]. destruct (default_value c k) as [tv sv]. cbn [fst snd app].
      rewrite !app_nil_r. reflexivity. }
    unfold ia_kind in Hv. fold k in Hv. rewrite Hins in Hv. injection Hv as <-.
    exists (arg_kind_str k), (fst (default_value c k)), r, (arg_kind_str k ++ lit " = " ++ snd (default_value c k)).
    split; [apply kind_text, Hk|]. split; [reflexivity|]. split; [eexists; reflexivity|].
    intros value o Hvt Htx.
    destruct (default_fits X ver attr px env ids c k eq_refl eq_refl Hpx Hid Hk) as (e & He & Hfit); auto.
    { intros E. apply Hhex. rewrite Ef, E. unfold expected. destruct ver; reflexivity. }
    { intros Hv5 E. apply Hext; [exact Hv5|]. pose proof (kind_text m Hk) as Hkt. fold k in Hkt. rewrite E in Hkt. exact Hkt. }
    rewrite <- Htx in He.
    destruct (assignment_reads px o (arg_kind_str k) value e Hvt He) as (m' & v & E & Hnm & Hnest & Hval & Hv1 & Hv2).
    exists m'. split; [exact E|].
    apply wf_value with f v; [eapply named_same; [apply kind_text, Hk|exact Hnm|exact Hf0]|exact Hval| |exact Hnest].
    rewrite Ef. apply Hfit; assumption.
  Qed.

  Lemma bare_fix px m d : form_at m FBare -> validate m = Done [d] ->
    exists name r, named m name /\ meta_range m = Done r /\ one_fix d name r None
      /\ forall o, exists m', parse_meta_items px (in_parens (alone name)) o = [m'] /\ wf m'.
  Proof.
    intros Hf H. pose proof Hf as Hf0. apply has_form_kind in Hf. destruct Hf as [Hk Ef].
    symmetry in Ef. apply form_bare in Ef. rewrite (validate_known _ _ _ _ _ _ m Hk) in H. cbv zeta in H. rewrite Ef in H.
    cbn [nested_options validate_value] in H. destruct (_ || _); [|discriminate].
    destruct (meta_range m) as [r|] eqn:Er; [|discriminate]. cbn [obind_o] in H. injection H as <-.
    pose proof (kind_text m Hk) as Hn.
    exists (arg_kind_str (arg_kind_of_meta m)), r. split; [exact Hn|]. split; [reflexivity|].
    destruct Hn as (n & En & Et). split.
    - eexists. unfold edit_replace, edit_replace_snippet. rewrite En. cbn [mo_text ad_fixes]. rewrite Et. reflexivity.
    - intros o. destruct (alone_reads px o (arg_kind_str (arg_kind_of_meta m))) as (m' & E & Hm & A & B & C).
      exists m'. split; [exact E|]. apply wf_bare; auto. eapply named_same; [|exact Hm|exact Hf0]. exists n. auto.
  Qed.

  (** [name(option)] *)
  Lemma grouped_wf px o m name options required opt f :
    named m name -> form_at m (FGroup options required) -> In opt options ->
    In (opt, f) (documented ver (on_constructor attr)) -> stands_alone f ->
    exists m', parse_meta_items px (in_parens (grouped name opt)) o = [m'] /\ wf m'.
  Proof.
    intros Hn Hf Hin Hd Ha. destruct (grouped_reads px o name opt) as (m' & n & E & Hm & A & B & C & Hnn & A2 & B2 & C2).
    exists m'. split; [exact E|]. apply wf_group with options required n opt; auto; [exact (named_same m m' name _ Hn Hm Hf)|].
    destruct Ha as [->|[opts ->]]; [apply wf_bare|apply wf_alone with opts]; auto; exists opt; auto.
  Qed.

  Lemma fgroup k default options required : nested_options (exp k) = Some (default, options, required) ->
    form_of (exp k) = FGroup (map arg_kind_str options) required.
  Proof. intros H. apply options_known in H. apply H. Qed.
  Lemma group_options m options required : form_at m (FGroup options required) ->
    exists default os, nested_options (exp (arg_kind_of_meta m)) = Some (default, os, required) /\ options = map arg_kind_str os
      /\ os <> [].
  Proof.
    intros Hf. apply has_form_kind in Hf. destruct Hf as [Hk Ef].
    destruct (nested_options (exp (arg_kind_of_meta m))) as [[[default os] r]|] eqn:E.
    - pose proof (fgroup _ _ _ _ E) as Eg. rewrite Eg in Ef. injection Ef as -> ->. exists default, os. split; [reflexivity|].
      split; [reflexivity|]. intros ->. revert E. clear. generalize (exp (arg_kind_of_meta m)). intros [| | | | | | | | |]; cbn [nested_options]; intros E; inversion E.
    - exfalso. exact (options_none _ _ _ E _ _ (eq_sym Ef)).
  Qed.

  (** A required option is missing: one fix per option. *)
  Lemma missing_fix m name options : form_at m (FGroup options true) -> named m name ->
    (forall v, m_value m <> MOk v) -> m_nested m = None ->
    forall r, meta_range m = Done r ->
    exists d, validate m = Done [d] /\ ad_severity d = SevError /\ ad_range d = r
      /\ exists fixes, ad_fixes d = Some fixes
      /\ Forall2 (fun opt a => exists label snippet, a = Action label AkQuickFix r [TextEdit (name ++ lit "(" ++ opt ++ lit ")") r (Some snippet)]) options fixes.
  Proof.
    intros Hf Hn Hv Hnn r Hr. destruct (group_options _ _ _ Hf) as (default & os & E & -> & Hos).
    apply has_form_kind in Hf. destruct Hf as [Hk _].
    rewrite (validate_known _ _ _ _ _ _ m Hk). cbv zeta. rewrite E, Hnn. unfold nested_missing. rewrite Hr. cbn [obind_o].
    destruct Hn as (n & En & Et).
    exists (ADiag (tick (mo_text (m_name m)) ++ lit " argument should have a nested meta-item"
                 ++ match os with
                    | o :: _ => lit " (e.g. `" ++ mo_text (m_name m) ++ lit "(" ++ arg_kind_str o ++ lit ")`)"
                    | [] => []
                    end ++ lit ".") r SevError (Some (map (fun o => quickfix (lit "Add `(" ++ arg_kind_str o ++ lit ")`") r
                               (edit_replace_snippet (mo_text (m_name m) ++ lit "(" ++ arg_kind_str o ++ lit ")") r
                                  (Some (mo_text (m_name m) ++ lit "(" ++ snippet_of (arg_kind_str o) ++ lit ")")))) os))).
    split.
    - destruct (m_value m) eqn:Ev; [exfalso; eapply Hv; reflexivity| |]; destruct os; try contradiction; reflexivity.
    - split; [reflexivity|]. split; [reflexivity|]. eexists. split; [reflexivity|]. rewrite En. cbn [mo_text]. rewrite Et.
      clear. induction os as [|o os IH]; constructor; [|exact IH]. eexists _, _. reflexivity.
  Qed.

  (** Another option than the documented ones: one fix per option, written over the nested argument. *)
  Lemma other_fix m name options required n : form_at m (FGroup options required) -> named m name ->
    (forall v, m_value m <> MOk v) -> m_nested m = Some n -> (forall o, In o options -> ~ named n o) ->
    forall r, meta_range n = Done r ->
    exists d, validate m = Done [d] /\ ad_severity d = SevError /\ ad_range d = r
      /\ exists fixes, ad_fixes d = Some fixes
      /\ Forall2 (fun opt a => exists label snippet, a = Action label AkQuickFix r [TextEdit opt r (Some snippet)]) options fixes.
  Proof.
    intros Hf Hn Hv Hnn Hno r Hr. destruct (group_options _ _ _ Hf) as (default & os & E & -> & Hos).
    apply has_form_kind in Hf. destruct Hf as [Hk _].
    pose proof (options_known _ _ _ _ _ _ E) as [Hu _].
    rewrite (validate_known _ _ _ _ _ _ m Hk). cbv zeta. rewrite E, Hnn.
    assert (Ex : existsb (arg_kind_eqb (ia_kind n)) os = false).
    { destruct (existsb _ os) eqn:Ee; [|reflexivity]. exfalso. apply existsb_exists in Ee. destruct Ee as (o & Ho & Eo).
      apply arg_kind_eqb_eq in Eo. apply (Hno (arg_kind_str o)); [apply in_map, Ho|]. rewrite <- Eo. apply kind_text.
      unfold ia_kind in Eo. rewrite Eo. intros ->. exact (Hu Ho). }
    rewrite Ex. unfold nested_other. rewrite Hr. cbn [obind_o].
    eexists. split; [destruct (m_value m) eqn:Ev; [exfalso; eapply Hv; reflexivity| |]; reflexivity|].
    split; [reflexivity|]. split; [reflexivity|]. cbn [ad_fixes]. destruct os as [|o0 os]; [contradiction|].
    eexists. split; [reflexivity|]. clear. generalize (o0 :: os). intros l. induction l as [|o l IH]; constructor; [|exact IH].
    eexists _, _. reflexivity.
  Qed.

  (** A value instead of an option: the fix puts it in parentheses. *)
  Lemma value_to_group m name options required v : form_at m (FGroup options required) -> named m name -> m_value m = MOk v ->
    forall r, meta_range m = Done r ->
    exists d snippet, validate m = Done [d] /\ ad_severity d = SevError /\ ad_range d = r
      /\ one_fix d (name ++ lit "(" ++ value_text v ++ lit ")") r (Some snippet).
  Proof.
    intros Hf Hn Hv r Hr. destruct (group_options _ _ _ Hf) as (default & os & E & -> & Hos).
    apply has_form_kind in Hf. destruct Hf as [Hk _].
    rewrite (validate_known _ _ _ _ _ _ m Hk). cbv zeta. rewrite E, Hv. unfold nested_value. rewrite Hr. cbn [obind_o].
    destruct Hn as (n & En & Et). rewrite En. cbn [mo_text]. rewrite Et.
    eexists _, _. split; [reflexivity|]. split; [reflexivity|]. split; [reflexivity|]. eexists. reflexivity.
  Qed.
End Fixes.

(** ** Inserted text *)
Lemma accepted_plain s : ~ In 36%N s -> accepted s s.
Proof.
  induction s as [|c s IH]; intros H; [apply acc_nil|]. apply acc_char; [intros ->; apply H; left; reflexivity|].
  apply IH. intros Hin. apply H. right. exact Hin.
Qed.
Lemma accepted_app a a' b b' : accepted a a' -> accepted b b' -> accepted (a ++ b) (a' ++ b').
Proof.
  intros H Hb. induction H as [|c s t Hc _ IH|x s t Hx _ IH|s t _ IH]; [exact Hb| | |].
  - cbn [app]. apply acc_char; assumption.
  - rewrite <- !app_assoc. apply acc_hole; assumption.
  - rewrite <- !app_assoc. apply acc_stop; assumption.
Qed.
Lemma accepted_hole x : ~ In 125%N x -> accepted (snippet_of x) x.
Proof.
  intros H. unfold snippet_of. rewrite <- (app_nil_r x) at 2. change (lit "}") with (lit "}" ++ []). apply acc_hole; [exact H|apply acc_nil].
Qed.
Lemma dec_chars n c : In c (dec n) -> (48 <= c <= 57)%N.
Proof. unfold dec. induction (N.to_uint n); cbn [uint_str]; intros H; [contradiction|..]; destruct H as [<-|H]; auto; lia. Qed.

Definition some_attr (constructor : bool) : option ink_attr :=
  if constructor then Some (InkAttr (AkArg AConstructor) [] (AttrSyntax [] None (0, 0)) None) else None.
Lemma documented_form ver con k f : k <> AUnknown -> In (arg_kind_str k, f) (documented ver con) ->
  f = form_of (expected ver (some_attr con) k).
Proof.
  intros Hk H. replace con with (on_constructor (some_attr con)) in H at 1 by (destruct con; reflexivity).
  apply documented_expected in H. destruct H as (k' & Hk' & E & ->). apply (f_equal arg_kind_of) in E.
  rewrite !arg_kind_of_str in E by assumption. rewrite E. reflexivity.
Qed.

Lemma insert_alone c k : (inserts_eq c k || inserts_nested c k = false) -> insert_text c k = (arg_kind_str k, None).
Proof.
  intros H. unfold insert_text. apply orb_false_iff in H. destruct H as [-> ->]. cbn [orb app]. rewrite !app_nil_r. reflexivity.
Qed.
Lemma insert_value c k : inserts_eq c k = true ->
  insert_text c k = (arg_kind_str k ++ lit " = " ++ fst (default_value c k), Some (arg_kind_str k ++ lit " = " ++ snd (default_value c k))).
Proof.
  intros H. unfold insert_text, inserts_nested. rewrite H. cbn [negb andb orb]. destruct (default_value c k) as [tv sv].
  cbn [fst snd app]. rewrite !app_nil_r. reflexivity.
Qed.
Lemma plain_lit_quoted s : ~ In 36%N s -> ~ In 125%N s -> accepted (quoted (snippet_of s)) (quoted s).
Proof.
  intros H1 H2. unfold quoted. apply accepted_app; [apply accepted_plain; vm_compute; intuition discriminate|].
  apply accepted_app; [apply accepted_hole, H2|apply accepted_plain; vm_compute; intuition discriminate].
Qed.
Lemma default_accepted c k : (forall p, ic_env c = Some p -> ~ In 125%N p) -> accepted (snd (default_value c k)) (fst (default_value c k)).
Proof.
  intros He.
  assert (HD : forall n, accepted (snippet_of (dec n)) (dec n)).
  { intros n. apply accepted_hole. intros H. apply dec_chars in H. lia. }
  assert (HQ : accepted (quoted (lit "$1")) (quoted [])).
  { unfold quoted. cbn [app]. apply accepted_app; [apply accepted_plain; vm_compute; intuition discriminate|].
    apply acc_stop. apply accepted_plain; vm_compute; intuition discriminate. }
  assert (HP : accepted (snippet_of (match ic_env c with Some p => p | None => lit "ink::env::DefaultEnvironment" end))
                 (match ic_env c with Some p => p | None => lit "ink::env::DefaultEnvironment" end)).
  { apply accepted_hole. destruct (ic_env c) as [p|]; [apply He; reflexivity|vm_compute; intuition discriminate]. }
  destruct k; cbn [default_value fst snd]; try apply acc_nil; try apply HD; try exact HQ; try exact HP;
    try (apply plain_lit_quoted; vm_compute; intuition discriminate);
    apply accepted_hole; vm_compute; intuition discriminate.
Qed.
Lemma name_no_dollar k : ~ In 36%N (arg_kind_str k).
Proof. destruct k; vm_compute; intuition discriminate. Qed.

Lemma insert_shape ver con c k f : k <> AUnknown -> In (arg_kind_str k, f) (documented ver con) ->
  (forall p, ic_env c = Some p -> ~ In 125%N p) ->
  let '(text, snippet) := insert_text c k in
  (stands_alone f -> text = arg_kind_str k /\ snippet = None)
  /\ (takes_value f -> ic_next c = Some EQ -> text = arg_kind_str k /\ snippet = None)
  /\ (takes_value f -> ic_next c <> Some EQ ->
        text = arg_kind_str k ++ lit " = " ++ fst (default_value c k)
        /\ exists s, snippet = Some s /\ accepted s text)
  /\ (forall options, f = FGroup options true -> ic_next c = Some L_PAREN -> text = arg_kind_str k /\ snippet = None)
  /\ (forall options, f = FGroup options true -> ic_next c <> Some L_PAREN ->
        exists o s, In o options /\ text = arg_kind_str k ++ lit "(" ++ o ++ lit ")" /\ snippet = Some s /\ accepted s text).
Proof.
  intros Hk Hin He. apply (documented_form _ _ _ _ Hk) in Hin.
  assert (Hv : forall P : Prop, takes_value f ->
     (inserts_eq c k = (match ic_next c with Some EQ => false | _ => true end) -> inserts_nested c k = false \/ inserts_eq c k = true -> P) -> P).
  { intros P [H1 H2] HP. apply HP.
    - clear -H1 H2 Hin Hk. unfold inserts_eq. destruct k; cbn [value_kind]; try reflexivity; exfalso;
        revert Hin; unfold expected; destruct ver; cbn [value_kind value_kind_v5 form_of]; intros ->;
        try (apply H1; reflexivity); try (eapply H2; reflexivity); apply Hk; reflexivity.
    - destruct (inserts_eq c k) eqn:E; [right; reflexivity|left]. clear -H1 H2 Hin Hk E. unfold inserts_nested. rewrite E. cbn [negb andb].
      destruct k; cbn [value_kind]; try reflexivity; exfalso;
        revert Hin; unfold expected; destruct ver; cbn [value_kind value_kind_v5 form_of]; intros ->; eapply H2; reflexivity. }
  destruct (insert_text c k) as [text snippet] eqn:Ei. split; [|split; [|split; [|split]]].
  - intros Hs.
    assert (Hb : inserts_eq c k || inserts_nested c k = false).
    { clear -Hs Hin Hk. unfold inserts_nested. assert (E : inserts_eq c k = false).
      { unfold inserts_eq. destruct k; cbn [value_kind]; try reflexivity; exfalso; revert Hin; unfold expected, some_attr;
          destruct ver, con; cbn [value_kind value_kind_v5 form_of option_map]; intros ->; destruct Hs as [Hs|[o Hs]]; discriminate. }
      rewrite E. cbn [orb negb andb]. destruct k; cbn [value_kind]; try reflexivity; exfalso; revert Hin; unfold expected, some_attr;
        destruct ver, con; cbn [value_kind value_kind_v5 form_of option_map]; intros ->; destruct Hs as [Hs|[o Hs]]; discriminate. }
    rewrite (insert_alone _ _ Hb) in Ei. injection Ei as <- <-. auto.
  - intros Ht Hn. apply (Hv _ Ht). rewrite Hn. intros E [E2|E2]; [|congruence].
    rewrite (insert_alone c k) in Ei by (rewrite E, E2; reflexivity). injection Ei as <- <-. auto.
  - intros Ht Hn. apply (Hv _ Ht). intros E _.
    assert (E1 : inserts_eq c k = true) by (rewrite E; destruct (ic_next c) as [q|]; [destruct q; try reflexivity; exfalso; apply Hn; reflexivity|reflexivity]).
    rewrite (insert_value _ _ E1) in Ei. injection Ei as <- <-. split; [reflexivity|]. eexists. split; [reflexivity|].
    apply accepted_app; [apply accepted_plain, name_no_dollar|].
    refine (accepted_app (lit " = ") (lit " = ") _ _ _ _); [apply accepted_plain; vm_compute; intuition discriminate|].
    apply default_accepted, He.
  - intros options -> Hn. assert (Ek : k = ABackend).
    { clear -Hin Hk. destruct k; try reflexivity; exfalso; revert Hin; unfold expected, some_attr; destruct ver, con; cbn [value_kind value_kind_v5 form_of option_map]; discriminate. }
    subst k. rewrite (insert_alone c ABackend) in Ei by (unfold inserts_nested, inserts_eq; cbn [value_kind]; rewrite Hn; reflexivity).
    injection Ei as <- <-. auto.
  - intros options -> Hn. assert (Ek : k = ABackend).
    { clear -Hin Hk. destruct k; try reflexivity; exfalso; revert Hin; unfold expected, some_attr; destruct ver, con; cbn [value_kind value_kind_v5 form_of option_map]; discriminate. }
    subst k. assert (Ho : options = [lit "node"; lit "runtime_only"]).
    { revert Hin. unfold expected. destruct ver; cbn [value_kind value_kind_v5 form_of]; intros H; injection H as ->; reflexivity. }
    assert (E1 : inserts_eq c ABackend = false) by reflexivity.
    assert (E2 : inserts_nested c ABackend = true).
    { unfold inserts_nested. rewrite E1. cbn [value_kind negb andb].
      destruct (ic_next c) as [q|]; [destruct q; try reflexivity; exfalso; apply Hn; reflexivity|reflexivity]. }
    unfold insert_text in Ei. rewrite E1, E2 in Ei. cbn [orb default_value] in Ei. apply pair_equal_spec in Ei. destruct Ei as [<- <-].
    exists (lit "node"). eexists. split; [rewrite Ho; left; reflexivity|]. split; [reflexivity|]. split; [reflexivity|].
    refine (accepted_app (arg_kind_str ABackend) (arg_kind_str ABackend) _ _ _ _); [apply accepted_plain, name_no_dollar|].
    refine (accepted_app (lit "(") (lit "(") _ _ _ _); [apply accepted_plain; vm_compute; intuition discriminate|].
    refine (accepted_app (snippet_of (lit "node")) (lit "node") _ _ _ _); [apply accepted_hole; vm_compute; intuition discriminate|apply accepted_plain; vm_compute; intuition discriminate].
Qed.

(** ** The text inserted for an argument *)
Lemma arg_insert_next toks attr o env ids k t : next_solid toks attr o = Done t ->
  arg_insert_text toks attr o env ids k = Done (insert_text (InsertContext (option_map lf_kind t) env ids) k).
Proof.
  intros E. unfold arg_insert_text. rewrite E. cbn [obind_o]. destruct (looks_ahead k) eqn:L; [reflexivity|]. destruct k; try discriminate L; reflexivity.
Qed.
