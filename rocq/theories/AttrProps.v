(** Properties C20, C21, C22, C23, C56, C61, C62, C63: names, kinds and arguments of ink! attributes. *)
From Verif Require Import Base BaseFacts PositionModel PositionProofs SyntaxModel AttrModel AttrSpec AttrProofs.

(** C20. A name is recognised as a kind iff the table of the language says so; every other string is unknown. *)
Theorem C20_argument_names : forall s k,
  k <> AUnknown -> (arg_kind_of s = k <-> In (s, k) arg_names).
Proof.
  intros s k Hk. split.
  - intros H. rewrite (arg_kind_of_known _ _ H Hk). clear H s.
    destruct k; try (unfold arg_names; simpl; tauto).
  - unfold arg_names. intros H. simpl in H.
    repeat (destruct H as [H|H]; [injection H as <- <-; reflexivity|]). destruct H.
Qed.
Print Assumptions C20_argument_names.

Theorem C20_other_argument_names : forall s,
  arg_kind_of s = AUnknown <-> (forall k, ~ In (s, k) arg_names).
Proof.
  intros s. split.
  - intros H k Hin. assert (Hk : k <> AUnknown).
    { intros ->. unfold arg_names in Hin. simpl in Hin.
      repeat (destruct Hin as [Hin|Hin]; [discriminate|]). destruct Hin. }
    apply C20_argument_names in Hin; [|exact Hk]. congruence.
  - intros H. destruct (arg_kind_of s) eqn:E; try reflexivity; exfalso;
      refine (H _ (proj1 (C20_argument_names _ _ _) E)); discriminate.
Qed.
Print Assumptions C20_other_argument_names.

(** C20. Names and kinds determine each other, and kinds print as their name. *)
Theorem C20_argument_names_bijective : forall s s' k k',
  In (s, k) arg_names -> In (s', k') arg_names -> (s = s' <-> k = k') /\ arg_kind_str k = s.
Proof.
  intros s s' k k' H H'.
  assert (Hne : forall s k, In (s, k) arg_names -> k <> AUnknown).
  { intros t x Hin ->. unfold arg_names in Hin. simpl in Hin.
    repeat (destruct Hin as [Hin|Hin]; [discriminate|]). destruct Hin. }
  pose proof (Hne _ _ H) as N1. pose proof (Hne _ _ H') as N2.
  apply C20_argument_names in H; [|exact N1]. apply C20_argument_names in H'; [|exact N2].
  split; [|symmetry; apply (arg_kind_of_known _ _ H N1)].
  split; [congruence|]. intros <-.
  rewrite (arg_kind_of_known _ _ H N1), (arg_kind_of_known _ _ H' N1). reflexivity.
Qed.
Print Assumptions C20_argument_names_bijective.

Theorem C20_macro_names : forall crate name k,
  k <> MUnknown -> (macro_kind_of crate name = k <-> In (crate, name, k) macro_names).
Proof.
  intros c n k Hk. split.
  - intros H. destruct (macro_kind_of_known _ _ _ H Hk) as [-> ->]. clear H.
    destruct k; try (unfold macro_names; simpl; tauto).
  - unfold macro_names. intros H. simpl in H.
    repeat (destruct H as [H|H]; [injection H as <- <- <-; reflexivity|]). destruct H.
Qed.
Print Assumptions C20_macro_names.
Theorem C20_other_macro_names : forall crate name,
  macro_kind_of crate name = MUnknown <-> (forall k, ~ In (crate, name, k) macro_names).
Proof.
  intros c n. split.
  - intros H k Hin. assert (Hk : k <> MUnknown).
    { intros ->. unfold macro_names in Hin. simpl in Hin.
      repeat (destruct Hin as [Hin|Hin]; [discriminate|]). destruct Hin. }
    apply C20_macro_names in Hin; [|exact Hk]. congruence.
  - intros H. destruct (macro_kind_of c n) eqn:E; try reflexivity; exfalso;
      refine (H _ (proj1 (C20_macro_names _ _ _ _) E)); discriminate.
Qed.
Print Assumptions C20_other_macro_names.
Theorem C20_macro_names_printed : forall crate name k,
  In (crate, name, k) macro_names ->
  macro_crate k = crate /\ macro_name k = name /\ macro_path_str k = crate ++ lit "::" ++ name.
Proof.
  unfold macro_names. intros c n k H. simpl in H.
  repeat (destruct H as [H|H]; [injection H as <- <- <-; repeat split|]). destruct H.
Qed.
Print Assumptions C20_macro_names_printed.
Example C20_case_sensitive : arg_kind_of (lit "Storage") = AUnknown /\ arg_kind_of (lit "storage") = AStorage.
Proof. split; reflexivity. Qed.

(** C21. What a path names: only paths whose first segment is [ink] or [ink_e2e] are ink! attributes. *)
Theorem C21_is_ink_attribute : forall px a,
  attr_cast px a <> None <->
  exists s rest, as_segments a = s :: rest /\ (s = lit "ink" \/ s = lit "ink_e2e").
Proof.
  intros px a. unfold attr_cast, attr_can_cast. destruct (as_segments a) as [|s rest].
  - split; [congruence|]. intros (s & r & H & _). discriminate.
  - split.
    + intros H. exists s, rest. split; [reflexivity|].
      destruct (str_eqb s (lit "ink")) eqn:E1; [left; apply str_eqb_eq, E1|].
      destruct (str_eqb s (lit "ink_e2e")) eqn:E2; [right; apply str_eqb_eq, E2|]. simpl in H. congruence.
    + intros (s' & r & H & Hs). injection H as <- <-.
      assert (E : str_eqb s (lit "ink") || str_eqb s (lit "ink_e2e") = true).
      { apply orb_true_iff. rewrite !str_eqb_eq. exact Hs. }
      rewrite E. destruct rest as [|m [|? ?]]; try discriminate.
      destruct (hd_error _); [discriminate|]. destruct (as_token_tree a); discriminate.
Qed.
Print Assumptions C21_is_ink_attribute.

(** C21. The arguments of an attribute are those of its token tree, whatever its kind. *)
Theorem C21_arguments : forall px a x,
  attr_cast px a = Some x ->
  at_syntax x = a /\
  at_args x = match as_token_tree a with Some t => parse_meta_items px (snd t) (fst t) | None => [] end.
Proof.
  intros px a x. unfold attr_cast. destruct (attr_can_cast a); [|discriminate].
  destruct (as_segments a) as [|s [|m [|? ?]]]; [discriminate| |intros H; injection H as <-; split; reflexivity
    |intros H; injection H as <-; split; reflexivity].
  unfold parse_ink_args. destruct (hd_error _).
  - intros H; injection H as <-; split; reflexivity.
  - destruct (as_token_tree a) eqn:E; intros H; injection H as <-; (split; [reflexivity|]); cbn [at_args]; rewrite ?E; reflexivity.
Qed.
Print Assumptions C21_arguments.

(** C21. Two-segment paths: the named macro; longer paths: unknown. *)
Theorem C21_macro_kind : forall px a x crate name rest,
  attr_cast px a = Some x -> as_segments a = crate :: name :: rest ->
  at_kind x = AkMacro (match rest with [] => macro_kind_of crate name | _ => MUnknown end).
Proof.
  intros px a x c n rest H Hs. unfold attr_cast in H. rewrite Hs in H.
  destruct (attr_can_cast a); [|discriminate].
  destruct rest; injection H as <-; reflexivity.
Qed.
Print Assumptions C21_macro_kind.

(** C21. One-segment paths: the kind is that of the primary argument (entity before other known before unknown,
    first written first); without arguments an unknown kind. *)
Theorem C21_argument_kind : forall px a x crate p,
  attr_cast px a = Some x -> as_segments a = [crate] ->
  primary_of (fun u v => precedes (ia_kind u) (ia_kind v)) (at_args x) p ->
  at_kind x = AkArg (ia_kind p).
Proof.
  intros px a x c p H Hs Hp. unfold attr_cast in H. rewrite Hs in H.
  destruct (attr_can_cast a); [|discriminate].
  assert (Hh : forall args, primary_of (fun u v => precedes (ia_kind u) (ia_kind v)) args p ->
            hd_error (stable_sort (fun x => arg_rank (ia_kind x)) args) = Some p).
  { intros args Hpa. apply (stable_sort_primary (fun x => arg_rank (ia_kind x)) _ _ _ (fun u v => precedes_rank (ia_kind u) (ia_kind v))), Hpa. }
  destruct (hd_error (stable_sort (fun x => arg_rank (ia_kind x)) (parse_ink_args px (as_token_tree a)))) as [q|] eqn:E.
  - injection H as <-. cbn [at_kind at_args] in *. rewrite (Hh _ Hp) in E. injection E as ->. reflexivity.
  - destruct (as_token_tree a) as [t|]; injection H as <-; cbn [at_args] in Hp; apply Hh in Hp; pose proof (eq_trans (eq_sym Hp) E) as X; discriminate X.
Qed.
Print Assumptions C21_argument_kind.

(** C21. Attributes with arguments always have a primary argument, and only one. *)
Theorem C21_primary_exists_unique : forall (args : list ink_arg), args <> [] ->
  exists p, primary_of (fun u v => precedes (ia_kind u) (ia_kind v)) args p
    /\ In p args
    /\ forall q, primary_of (fun u v => precedes (ia_kind u) (ia_kind v)) args q -> q = p.
Proof.
  intros args Hne.
  set (R := fun u v => precedes (ia_kind u) (ia_kind v)).
  pose proof (fun x => stable_sort_primary (fun x => arg_rank (ia_kind x)) R args x (fun u v => precedes_rank (ia_kind u) (ia_kind v))) as HS.
  destruct (hd_error (stable_sort (fun x => arg_rank (ia_kind x)) args)) as [p|] eqn:E.
  - exists p. pose proof (proj1 (HS p) eq_refl) as Hp. split; [exact Hp|]. split.
    + destruct Hp as (b & a & -> & _). apply in_app_iff; right; left; reflexivity.
    + intros q Hq. apply HS in Hq. congruence.
  - exfalso. destruct args as [|a args]; [contradiction|].
    assert (Hin : In a (stable_sort (fun x => arg_rank (ia_kind x)) (a :: args))).
    { apply stable_sort_In. left; reflexivity. }
    destruct (stable_sort (fun x => arg_rank (ia_kind x)) (a :: args)); [destruct Hin | discriminate].
Qed.
Print Assumptions C21_primary_exists_unique.

Theorem C21_no_arguments : forall px a x crate,
  attr_cast px a = Some x -> as_segments a = [crate] -> at_args x = [] ->
  at_kind x = match as_token_tree a with Some _ => AkArg AUnknown | None => AkMacro MUnknown end.
Proof.
  intros px a x c H Hs Ha. pose proof (C21_arguments _ _ _ H) as [_ Hargs]. rewrite Ha in Hargs.
  unfold attr_cast in H. rewrite Hs in H. destruct (attr_can_cast a); [|discriminate].
  unfold parse_ink_args in H. rewrite <- Hargs in H. simpl in H.
  destruct (as_token_tree a); injection H as <-; reflexivity.
Qed.
Print Assumptions C21_no_arguments.

(** C21. Writing one more argument that the primary one precedes, anywhere, does not change the primary. *)
Theorem C21_primary_stable : forall (l1 l2 : list ink_arg) p y,
  primary_of (fun u v => precedes (ia_kind u) (ia_kind v)) (l1 ++ l2) p ->
  precedes (ia_kind p) (ia_kind y) ->
  primary_of (fun u v => precedes (ia_kind u) (ia_kind v)) (l1 ++ y :: l2) p.
Proof.
  intros l1 l2 p y Hp Hy. apply (primary_insert _ l1 l2 p y Hp); [|exact Hy].
  intros a b Hab Hba. apply precedes_rank in Hab, Hba. lia.
Qed.
Print Assumptions C21_primary_stable.

(** C21. Also, writing one more argument of at most equal precedence after the primary one changes nothing. *)
Theorem C21_primary_first : forall (l1 l2 : list ink_arg) p y,
  primary_of (fun u v => precedes (ia_kind u) (ia_kind v)) l1 p ->
  ~ precedes (ia_kind y) (ia_kind p) ->
  (forall z, In z l2 -> ~ precedes (ia_kind z) (ia_kind p)) ->
  primary_of (fun u v => precedes (ia_kind u) (ia_kind v)) (l1 ++ y :: l2) p.
Proof.
  intros l1 l2 p y (b & a & -> & Hb & Ha) Hy Hl. exists b, (a ++ y :: l2).
  rewrite <- app_assoc. split; [reflexivity|]. split; [exact Hb|].
  intros z Hz. apply in_app_iff in Hz. destruct Hz as [Hz|[<-|Hz]]; [apply Ha, Hz | exact Hy | apply Hl, Hz].
Qed.
Print Assumptions C21_primary_first.

Definition no_expr : expr_parser := fun _ => None.
Definition paren (l : list elem) : elem := Node TOKEN_TREE (Tok L_PAREN (lit "(") :: l ++ [Tok R_PAREN (lit ")")]).
Definition id_tok (s : str) : elem := Tok IDENT s.
Definition comma_tok : elem := Tok COMMA (lit ",").
Definition sp : elem := Tok WHITESPACE (lit " ").
Definition eq_tok : elem := Tok EQ (lit "=").

(** [#[ink(payable, message)]] is a message attribute. *)
Example C21_example :
  option_map at_kind (attr_cast no_expr
    (AttrSyntax [lit "ink"] (Some (5, paren [id_tok (lit "payable"); comma_tok; sp; id_tok (lit "message")])) (0, 23)))
  = Some (AkArg AMessage).
Proof. reflexivity. Qed.

(** C22. The arguments are, in order, the non-empty comma separated segments of what is between the parentheses,
    and each argument is what its segment says ([reads]). *)
Theorem C22_arguments_are_segments : forall px k cs body o segs,
  region cs body ->
  comma_separated (place (region_start o cs) body) segs ->
  Forall2 (reads px (fun t => parse_meta_items px (snd t) (fst t))) (filter nonempty segs)
          (parse_meta_items px (Node k cs) o).
Proof. exact parse_arguments. Qed.
Print Assumptions C22_arguments_are_segments.

(** C22. That covers every token tree with an opening parenthesis, malformed ones included, and every list has
    exactly one separation into segments. *)
Theorem C22_every_list_is_covered : forall o rest, exists body, region (Tok L_PAREN o :: rest) body.
Proof.
  intros o rest.
  assert (H : exists body, region_end rest body).
  { assert (D : forall e, {plain_element e} + {(exists t, e = Tok R_PAREN t) \/ closing_error e}).
    { intros e. destruct (keep ((0, e), items_at no_expr (0, e))) eqn:E.
      - left. apply (keep_plain no_expr 0), E.
      - right. unfold keep in E; simpl in E. apply andb_false_iff in E. rewrite !negb_false_iff in E.
        destruct E as [E|E].
        + left. apply andb_true_iff in E. destruct E as [E1 E2]. destruct e as [k t|]; [|discriminate].
          unfold lkind in E2; simpl in E2. apply skind_eqb_eq in E2. subst. exists t; reflexivity.
        + right. apply closing_error_iff, E. }
    assert (K : forall pre, Forall plain_element pre -> exists body, region_end (pre ++ rest) body);
      [|apply (K []); constructor].
    induction rest as [|e rest IH]; intros pre Hpre.
    - exists pre. rewrite app_nil_r. apply re_all, Hpre.
    - destruct (D e) as [De|[(t & ->)|De]].
      + replace (pre ++ e :: rest) with ((pre ++ [e]) ++ rest) by (rewrite <- app_assoc; reflexivity).
        apply IH. apply Forall_app; split; [exact Hpre|]. constructor; [exact De|constructor].
      + exists pre. apply re_close, Hpre.
      + exists pre. apply re_error; assumption. }
  destruct H as [body H]. exists body. apply region_open, H.
Qed.
Print Assumptions C22_every_list_is_covered.
Theorem C22_every_list_is_separated : forall l, exists segs, comma_separated l segs.
Proof. exact comma_separated_exists. Qed.
Print Assumptions C22_every_list_is_separated.

(** C22. No token that carries content is lost or used twice: the elements of the arguments hold exactly the
    tokens of the list. *)
Theorem C22_tokens_preserved : forall px e o,
  balanced e -> kind_of e = TOKEN_TREE ->
  Permutation (content (leaves_of (map snd (flat_map meta_elements (parse_meta_items px e o)))))
              (content (leaves e)).
Proof.
  intros px e o Hb Hk.
  replace (leaves_of (map snd (flat_map meta_elements (parse_meta_items px e o))))
    with (lleaves (flat_map meta_elements (parse_meta_items px e o))); [apply parse_content; assumption|].
  generalize (flat_map meta_elements (parse_meta_items px e o)). induction l as [|x l IH]; [reflexivity|].
  unfold lleaves, leaves_of in *. simpl. rewrite IH. reflexivity.
Qed.
Print Assumptions C22_tokens_preserved.

(** C22. Arguments written in any layout (white space and comments anywhere, nested arguments, values) are read
    back as written, in order. *)
Theorem C22_written_arguments_are_read : forall px ws body o k,
  writes_args ws body ->
  Forall2 is_arg ws
    (parse_meta_items px (Node k (Tok L_PAREN (lit "(") :: body ++ [Tok R_PAREN (lit ")")])) o).
Proof.
  intros px ws body o k H. pose proof (parse_written px ws body o k H) as F.
  clear H. induction F as [|w m ws' ms [Hw _] F IH]; [constructor | constructor; [exact Hw | exact IH]].
Qed.
Print Assumptions C22_written_arguments_are_read.

(** [backend(node(url = "x")), payable]. *)
Definition ex_value : list elem := [sp; Tok STRING (lit """x""")].
Definition ex_ws : list warg :=
  [ WArg (lit "backend") (Some (WArg (lit "node") (Some (WArg (lit "url") None (Some ex_value))) None)) None;
    WArg (lit "payable") None None ].
Definition ex_body : list elem :=
  [ id_tok (lit "backend");
    paren [id_tok (lit "node"); paren [id_tok (lit "url"); sp; eq_tok; sp; Tok STRING (lit """x""")]];
    comma_tok; sp; id_tok (lit "payable") ].
Example C22_example_written : writes_args ex_ws ex_body.
Proof.
  assert (T0 : trivia []) by (intros e []).
  assert (T1 : trivia [sp]) by (intros e [<-|[]]; exists WHITESPACE, (lit " "); split; reflexivity).
  unfold ex_ws, ex_body.
  apply (wa_more _ [id_tok (lit "backend");
    paren [id_tok (lit "node"); paren [id_tok (lit "url"); sp; eq_tok; sp; Tok STRING (lit """x""")]]] (lit ",")).
  - apply (writes_arg _ _ _ [] IDENT []
      [paren [id_tok (lit "node"); paren [id_tok (lit "url"); sp; eq_tok; sp; Tok STRING (lit """x""")]]] [] []); auto; [|constructor].
    apply (wn_some _ [id_tok (lit "node"); paren [id_tok (lit "url"); sp; eq_tok; sp; Tok STRING (lit """x""")]] []);
      [|left; reflexivity].
    apply (writes_arg _ _ _ [] IDENT [] [paren [id_tok (lit "url"); sp; eq_tok; sp; Tok STRING (lit """x""")]] [] []); auto; [|constructor].
    apply (wn_some _ [id_tok (lit "url"); sp; eq_tok; sp; Tok STRING (lit """x""")] []); [|left; reflexivity].
    apply (writes_arg _ _ _ [] IDENT [sp] [] [] (eq_tok :: ex_value)); auto; constructor; [discriminate|].
    intros e [<-|[<-|[]]]; (split; [discriminate|]); (split; [discriminate | intros (cs & l & t & E & _); discriminate]).
  - apply (wa_last _ [sp; id_tok (lit "payable")] []); [|left; reflexivity].
    apply (writes_arg _ _ _ [sp] IDENT [] [] [] []); auto; constructor.
Qed.
Example C22_example_balanced : balanced (paren ex_body).
Proof.
  assert (P : forall l, Forall balanced l -> balanced (paren l)).
  { intros l H. apply bal_tree; [exact H | left; reflexivity]. }
  apply P. unfold ex_body.
  repeat (constructor; [first [apply P; repeat (constructor; [first [apply P | apply bal_tok; discriminate]|]) | apply bal_tok; discriminate]|]); try constructor.
Qed.

(** C23. An integer read from a literal is the number the literal denotes, and fits. *)
Theorem C23_integer_sound : forall max s n,
  int_of_text max s = Some n -> denotes s n /\ (n <= max)%N.
Proof. exact int_of_text_sound. Qed.
Print Assumptions C23_integer_sound.
(** [denotes] is a function: a literal denotes at most one number. *)
Theorem C23_denotation_unique : forall s n m, denotes s n -> denotes s m -> n = m.
Proof. intros s n m H1 H2. rewrite <- (denotes_read _ _ H1). apply denotes_read, H2. Qed.
Print Assumptions C23_denotation_unique.

(** C23 (partial: literals with underscores, suffixes, octal and binary ones are missing, see below). Decimal and
    hexadecimal literals of digits only are read exactly when they fit. *)
Theorem C23_integer_complete_partial : forall max s n,
  ~ In c_underscore s ->
  (radix_digits 10 s n -> int_of_text max s = if (n <=? max)%N then Some n else None)
  /\ (radix_digits 16 s n -> int_of_text max (lit "0x" ++ s) = if (n <=? max)%N then Some n else None).
Proof.
  intros max s n Hu. split; intros H; [apply int_of_text_dec | apply int_of_text_hex]; assumption.
Qed.
Print Assumptions C23_integer_complete_partial.
Example C23_example : int_of_text U32_MAX (lit "0xCAFEBABE") = Some 3405691582%N /\ int_of_text U16_MAX (lit "65536") = None.
Proof. split; reflexivity. Qed.

(** C23 is false in general: literals that denote a number in range are not read as integers. *)
Theorem C23_integer_complete_refuted :
  exists s1 s2 s3 s4 n, Forall (fun s => denotes s n /\ (n <= U16_MAX)%N /\ int_of_text U16_MAX s = None) [s1; s2; s3; s4]
    /\ NoDup [s1; s2; s3; s4].
Proof.
  exists (lit "1_0"), (lit "10u32"), (lit "0b1010"), (lit "0o12"), 10%N.
  assert (D : forall r c d, (d <? r)%N && (c =? 48 + d)%N && (d <=? 9)%N = true -> digit_char r c d).
  { intros r c d H. apply andb_true_iff in H. destruct H as [H H3]. apply andb_true_iff in H. destruct H as [H1 H2].
    rewrite N.ltb_lt in H1. apply N.eqb_eq in H2. apply N.leb_le in H3. split; [exact H1|]. left. lia. }
  assert (D1 : forall r, (1 < r)%N -> radix_digits r (lit "1") 1%N).
  { intros r Hr. apply (rd_first r 49%N 1%N). split; [exact Hr|]. left. lia. }
  split.
  - repeat constructor; try discriminate; try reflexivity.
    + change (lit "1_0") with (((lit "1" ++ lit "_") ++ lit "0") ++ lit ""). change 10%N with (1 * 10 + 0)%N.
      apply den_dec; [|left; reflexivity]. apply (rd_digit 10 (lit "1" ++ lit "_") 1%N 48%N 0%N); [|apply D; reflexivity].
      apply (rd_under 10 (lit "1")). apply D1. reflexivity.
    + change (lit "10u32") with ((lit "1" ++ lit "0") ++ lit "u32"). change 10%N with (1 * 10 + 0)%N.
      apply den_dec; [|unfold int_suffixes; simpl; tauto].
      apply (rd_digit 10 (lit "1") 1%N 48%N 0%N); [apply D1; reflexivity | apply D; reflexivity].
    + change (lit "0b1010") with (lit "0b" ++ (((lit "1" ++ lit "0") ++ lit "1") ++ lit "0") ++ lit "").
      change 10%N with (((1 * 2 + 0) * 2 + 1) * 2 + 0)%N.
      apply den_bin; [|left; reflexivity].
      apply (rd_digit 2 ((lit "1" ++ lit "0") ++ lit "1") _ 48%N 0%N); [|apply D; reflexivity].
      apply (rd_digit 2 (lit "1" ++ lit "0") _ 49%N 1%N); [|apply D; reflexivity].
      apply (rd_digit 2 (lit "1") _ 48%N 0%N); [apply D1; reflexivity | apply D; reflexivity].
    + change (lit "0o12") with (lit "0o" ++ (lit "1" ++ lit "2") ++ lit ""). change 10%N with (1 * 8 + 2)%N.
      apply den_oct; [|left; reflexivity].
      apply (rd_digit 8 (lit "1") 1%N 50%N 2%N); [apply D1; reflexivity | apply D; reflexivity].
  - repeat constructor; simpl; intuition discriminate.
Qed.
Print Assumptions C23_integer_complete_refuted.

(** C23. Only integer literals are read as integers, and booleans are exactly the two keywords. *)
Theorem C23_only_integer_literals : forall max v n,
  value_int max v = Some n ->
  exists t, mv_expr v = Some (VELiteral INT_NUMBER t) /\ denotes t n \/ 
            exists e, mv_token v = Some e /\ lkind e = INT_NUMBER.
Proof.
  intros max v n. unfold value_int, value_skind, value_text.
  destruct (mv_token v) as [e|] eqn:Et.
  - intros H. exists []. right. exists e. split; [reflexivity|]. destruct (lkind e); try discriminate. reflexivity.
  - destruct (mv_expr v) as [[k t|t]|]; [|discriminate|discriminate].
    destruct k; try discriminate. intros H. apply int_of_text_sound in H. exists t. left. split; [reflexivity|apply H].
Qed.
Print Assumptions C23_only_integer_literals.
Theorem C23_booleans : forall v b,
  mv_token v = None ->
  (value_bool v = Some b <->
   exists t, mv_expr v = Some (VELiteral (if b then TRUE_KW else FALSE_KW) t)).
Proof.
  intros v b Ht. unfold value_bool, value_skind. rewrite Ht. split.
  - destruct (mv_expr v) as [[k t|t]|]; try discriminate. destruct k; try discriminate;
      intros H; injection H as <-; exists t; reflexivity.
  - intros (t & ->). destruct b; reflexivity.
Qed.
Print Assumptions C23_booleans.

(** C63 (partial: raw strings and escapes are missing, see below). *)
Theorem C63_string_value_partial : forall s, plain_string s ->
  string_of_text (lit """" ++ s ++ lit """") = s.
Proof. exact string_of_plain. Qed.
Print Assumptions C63_string_value_partial.
(** C63 is false for raw strings and for strings with escaped quotes: [r"my_trait"] is read as [r]. *)
Theorem C63_string_value_refuted :
  exists t1 s1 t2 s2, string_denotes t1 s1 /\ string_of_text t1 <> s1
    /\ string_denotes t2 s2 /\ string_of_text t2 <> s2 /\ (exists q, s1 = q /\ ~ In c_quote q).
Proof.
  exists (lit "r""my_trait"""), (lit "my_trait"), (lit """a\""b"""), (lit "a""b").
  split; [|split; [|split; [|split]]].
  - apply (sd_raw (lit "my_trait")). intros H; simpl in H; repeat (destruct H as [H|H]; [discriminate|]); exact H.
  - discriminate.
  - apply (sd_escaped_quote (lit "a") (lit "b") (lit "b")).
    + split; intros H; simpl in H; repeat (destruct H as [H|H]; [discriminate|]); exact H.
    + apply sd_plain. split; intros H; simpl in H; repeat (destruct H as [H|H]; [discriminate|]); exact H.
  - discriminate.
  - eexists. split; [reflexivity|]. intros H; simpl in H; repeat (destruct H as [H|H]; [discriminate|]); exact H.
Qed.
Print Assumptions C63_string_value_refuted.

(** C56. The primary attribute is the first known one of least kind, and exists iff there is a known one. *)
Theorem C56_primary_attribute : forall attrs p b,
  primary_candidate attrs = Some (p, b) ->
  In p attrs /\ known_kind (at_kind p)
  /\ primary_of (fun x y => kind_precedes (at_kind x) (at_kind y))
       (filter (fun a => negb (attr_kind_unknown (at_kind a))) attrs) p
  /\ (forall first rest, attrs = first :: rest -> (b = true <-> at_range first = at_range p)).
Proof.
  intros attrs p b. unfold primary_candidate. destruct attrs as [|f attrs]; [discriminate|].
  set (l := filter (fun a => negb (attr_kind_unknown (at_kind a))) (f :: attrs)).
  destruct (hd_error (stable_sort (fun a => attr_rank (at_kind a)) l)) as [q|] eqn:E; [|discriminate].
  intros H. injection H as -> <-.
  apply (stable_sort_primary (fun a => attr_rank (at_kind a)) _ l p (fun u v => kind_precedes_rank (at_kind u) (at_kind v))) in E.
  assert (Hin : In p l) by (destruct E as (u & v & -> & _); apply in_app_iff; right; left; reflexivity).
  apply filter_In in Hin. destruct Hin as [Hin Hk]. split; [exact Hin|]. split.
  - rewrite negb_true_iff in Hk. unfold attr_kind_unknown in Hk. split; intros Hc; rewrite Hc in Hk; discriminate.
  - split; [exact E|]. intros first rest Hf. injection Hf as <- <-.
    unfold range_eqb. rewrite andb_true_iff, !Nat.eqb_eq. destruct (at_range f), (at_range p); simpl.
    split; [intros [-> ->]; reflexivity | intros Heq; injection Heq as -> ->; split; reflexivity].
Qed.
Print Assumptions C56_primary_attribute.
Theorem C56_primary_attribute_exists : forall attrs,
  primary_candidate attrs = None <-> (forall a, In a attrs -> ~ known_kind (at_kind a)).
Proof.
  intros attrs. unfold primary_candidate.
  assert (K : forall a, negb (attr_kind_unknown (at_kind a)) = true <-> known_kind (at_kind a)).
  { intros a. rewrite negb_true_iff. unfold known_kind, attr_kind_unknown.
    destruct (at_kind a) as [k|k]; destruct k; split; intros H; try discriminate; try (split; discriminate); try reflexivity;
      destruct H as [H1 H2]; try (contradiction H1; reflexivity); contradiction H2; reflexivity. }
  destruct attrs as [|f attrs]; [split; [intros _ a [] | reflexivity]|].
  set (l := filter (fun a => negb (attr_kind_unknown (at_kind a))) (f :: attrs)).
  destruct (hd_error (stable_sort (fun a => attr_rank (at_kind a)) l)) as [q|] eqn:E.
  - split; [discriminate|]. intros H. exfalso.
    apply (stable_sort_primary (fun a => attr_rank (at_kind a)) _ l q (fun u v => kind_precedes_rank (at_kind u) (at_kind v))) in E.
    assert (Hin : In q l) by (destruct E as (u & v & -> & _); apply in_app_iff; right; left; reflexivity).
    apply filter_In in Hin. destruct Hin as [Hin Hk]. apply (H q Hin), K, Hk.
  - split; [|reflexivity]. intros _ a Ha Hk.
    assert (Hin : In a (stable_sort (fun a => attr_rank (at_kind a)) l)).
    { apply stable_sort_In. apply filter_In. split; [exact Ha | apply K, Hk]. }
    destruct (stable_sort (fun a => attr_rank (at_kind a)) l); [destruct Hin | discriminate].
Qed.
Print Assumptions C56_primary_attribute_exists.
Example C56_example :
  let attr k r := InkAttr k [] (AttrSyntax [] None r) None in
  primary_candidate [attr (AkArg APayable) (0, 1); attr (AkMacro MUnknown) (2, 3); attr (AkArg AMessage) (4, 5)]
  = Some (attr (AkArg AMessage) (4, 5), false).
Proof. reflexivity. Qed.

(** C61 (partial: for arguments written name first). The range of an argument exists, starts at its name and
    contains the name. *)
Theorem C61_argument_range_partial : forall px ws body o k,
  writes_args ws body ->
  Forall covers_name
    (parse_meta_items px (Node k (Tok L_PAREN (lit "(") :: body ++ [Tok R_PAREN (lit ")")])) o).
Proof.
  intros px ws body o k H. pose proof (parse_written px ws body o k H) as F.
  clear H. induction F as [|w m ws' ms [_ Hm] F IH]; [constructor | constructor; [exact Hm | exact IH]].
Qed.
Print Assumptions C61_argument_range_partial.
(** C61. Whenever the range exists, it ends with the last part that is written: the value, or else the nested argument,
    the equal sign, the name. *)
Theorem C61_range_end : forall m r, meta_range m = Done r ->
  (forall n, m_name m = MOk n -> fst r = lstart n)
  /\ match m_value m with
     | MOk v => forall vr, value_range v = Done vr -> snd r = snd vr
     | MErr es => forall e, last_opt es = Some e -> snd r = lend e
     | MNone =>
         match m_nested m, m_eq m, m_name m with
         | Some n, _, _ => forall nr, meta_range n = Done nr -> snd r = snd nr
         | None, Some q, _ => snd r = lend q
         | None, None, MOk n => snd r = lend n
         | None, None, _ => True
         end
     end.
Proof.
  intros [nm eq vl nested st en] r. cbn [meta_range m_name m_eq m_value m_nested m_start m_end].
  assert (R : forall a b x, mk_range a b = Done x -> x = (a, b)) by (intros a b x; unfold mk_range; destruct (a <=? b); congruence).
  assert (I : forall es x, items_range es = Done x -> forall e, last_opt es = Some e -> exists s, x = Some (s, lend e)).
  { intros es x H e He. unfold items_range in H. destruct es as [|f l]; [discriminate He|]. rewrite He in H.
    destruct (mk_range (lstart f) (lend e)) eqn:E; [|discriminate]. apply R in E. subst. injection H as <-. eexists. reflexivity. }
  intros H.
  destruct (match nm with MOk n => Done (Some (lstart n, lend n)) | MErr items => items_range items | MNone => Done None end) as [nr|] eqn:En; [|discriminate H].
  cbn [obind_o] in H.
  destruct (match nested with Some n => match meta_range n with Done r => Done (Some r) | Panic => Panic end | None => Done None end) as [sr|] eqn:Es; [|discriminate H].
  cbn [obind_o] in H.
  destruct (match vl with MOk v => match value_range v with Done r => Done (Some r) | Panic => Panic end | MErr items => items_range items | MNone => Done None end) as [vr|] eqn:Ev; [|discriminate H].
  cbn [obind_o] in H. apply R in H. subst r. cbn [fst snd]. split.
  - intros n ->. injection En as <-. destruct eq as [q|], sr as [[s1 e1]|], vr as [[s2 e2]|]; reflexivity.
  - destruct vl as [v|es|].
    + intros r Hr. rewrite Hr in Ev. injection Ev as <-. destruct r as [s e]. destruct nr as [[? ?]|], eq as [q|], sr as [[? ?]|]; reflexivity.
    + intros e He. destruct (I _ _ Ev e He) as (s & ->). destruct nr as [[? ?]|], eq as [q|], sr as [[? ?]|]; reflexivity.
    + injection Ev as <-. destruct nested as [n|].
      * intros r Hr. rewrite Hr in Es. injection Es as <-. destruct r as [s e]. destruct nr as [[? ?]|], eq as [q|]; reflexivity.
      * injection Es as <-. destruct eq as [q|]; [destruct nr as [[? ?]|]; reflexivity|]. destruct nm as [n|es|]; try exact Logic.I. injection En as <-. reflexivity.
Qed.
Print Assumptions C61_range_end.
(** C61 is false in general: for [#[ink((a) b)]] computing the range of the argument panics. *)
Theorem C61_argument_range_refuted :
  exists tree m, balanced tree /\ parse_meta_items no_expr tree 5 = [m] /\ meta_range m = Panic.
Proof.
  exists (paren [paren [id_tok (lit "a")]; sp; id_tok (lit "b")]). eexists.
  split; [|split; [reflexivity|vm_compute; reflexivity]].
  apply (bal_tree (Tok L_PAREN (lit "(")) _ (Tok R_PAREN (lit ")"))); [|left; reflexivity].
  constructor; [|repeat (constructor; [apply bal_tok; discriminate|]); constructor].
  apply (bal_tree (Tok L_PAREN (lit "(")) _ (Tok R_PAREN (lit ")"))); [|left; reflexivity].
  repeat (constructor; [apply bal_tok; discriminate|]); constructor.
Qed.
Print Assumptions C61_argument_range_refuted.

(** C62 (partial: only a comma directly before the closing parenthesis). *)
Theorem C62_trailing_comma_partial : forall px ws body t o k,
  writes_args ws body -> ws <> [] -> (forall b t', body <> b ++ [Tok COMMA t']) ->
  Forall2 is_arg ws
     (parse_meta_items px (Node k (Tok L_PAREN (lit "(") :: body ++ [Tok R_PAREN (lit ")")])) o)
  /\ Forall2 is_arg ws
     (parse_meta_items px (Node k (Tok L_PAREN (lit "(") :: (body ++ [Tok COMMA t]) ++ [Tok R_PAREN (lit ")")])) o).
Proof.
  intros px ws body t o k H Hne Hc. split; apply C22_written_arguments_are_read; [exact H|].
  revert Hne Hc. induction H as [|w seg c Hw Hcomma|w seg t0 w' ws rest Hw Hr IH]; intros Hne Hc.
  - contradiction.
  - destruct Hcomma as [->|(t' & ->)].
    + rewrite app_nil_r. apply wa_last; [exact Hw|]. right. exists t. reflexivity.
    + exfalso. apply (Hc seg t'). reflexivity.
  - rewrite <- app_assoc. simpl. apply wa_more; [exact Hw|]. apply IH; [discriminate|].
    intros b t' ->. apply (Hc (seg ++ Tok COMMA t0 :: b) t'). rewrite <- app_assoc. reflexivity.
Qed.
Print Assumptions C62_trailing_comma_partial.
(** C62 is false with white space after the comma (as in a list broken over lines): there is one more argument,
    without a name. *)
Theorem C62_trailing_comma_refuted :
  exists body a b, writes_args [WArg (lit "message") None None] body
    /\ parse_meta_items no_expr (paren (body ++ [comma_tok; Tok WHITESPACE [10%N]])) 5 = [a; b]
    /\ ia_kind a = AMessage /\ ia_kind b = AUnknown /\ m_name b = MNone.
Proof.
  exists [id_tok (lit "message")]. do 2 eexists. split; [|split; [reflexivity|repeat split]].
  apply (wa_last _ [id_tok (lit "message")] []); [|left; reflexivity].
  apply (writes_arg _ _ _ [] IDENT [] [] [] []); try (intros e []); auto; constructor.
Qed.
Print Assumptions C62_trailing_comma_refuted.
