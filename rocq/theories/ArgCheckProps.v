(** Properties C81-C84. *)
From Verif Require Import Base BaseFacts PositionModel PositionProofs TranslateModel SyntaxModel VersionModel AttrModel
  AttrSpec AttrProofs UtilModel UtilSpec UtilProofs EditModel ArgEditModel ArgEditSpec ArgEditProofs HintModel
  ArgCheckModel ArgCheckSpec ArgCheckProofs.

(** * C81: arguments are reported exactly when they are not written as documented *)

(** An argument written as documented is never reported. *)
Theorem C81_accepts : forall X ver toks attr env ids c m,
  is_constructor attr c -> well_formed X ver c m -> validate_arg X ver toks attr env ids m = Done [].
Proof. intros X ver toks attr env ids c m Hc H. apply is_constructor_eq in Hc. subst c. apply wf_clean, H. Qed.
Print Assumptions C81_accepts.

(** An argument that is not reported is written as documented, or has a part that the checks overlook. *)
Theorem C81_reports_partial : forall X ver toks attr env ids c m,
  is_constructor attr c -> simple_values m -> validate_arg X ver toks attr env ids m = Done [] ->
  well_formed X ver c m \/ stray ver c m.
Proof. intros X ver toks attr env ids c m Hc Hs H. apply is_constructor_eq in Hc. subst c. exact (clean_wf _ _ _ _ _ _ _ Hs H). Qed.
Print Assumptions C81_reports_partial.

(** At most one report per argument, at the argument or one nested in it; a warning only for unknown arguments. *)
Theorem C81_one_report : forall X ver toks attr env ids m l,
  validate_arg X ver toks attr env ids m = Done l ->
  l = []
  \/ exists d x, l = [d] /\ within m x /\ meta_range x = Done (ad_range d)
       /\ (ad_severity d = SevWarning <-> arg_kind_of_meta m = AUnknown /\ mo_text (m_name m) <> []).
Proof. intros X ver toks attr env ids m l H. exact (validate_one _ _ _ _ _ _ _ _ H). Qed.
Print Assumptions C81_one_report.

(** The checks do not panic when the arguments have ranges (C61), and unknown arguments can be removed (C35). *)
Theorem C81_no_panic : forall X ver toks attr env ids m,
  all_ranged m -> (arg_kind_of_meta m = AUnknown -> exists r, arg_removal_range toks m attr = Done r) ->
  exists l, validate_arg X ver toks attr env ids m = Done l.
Proof. intros. apply validate_done; assumption. Qed.
Print Assumptions C81_no_panic.

(** ** Cases *)

(** Numbers, strings, [true] and names only. *)
Definition ex_expr : expr_parser := fun s =>
  match strip_prefix [c_space] s with
  | Some t =>
      if str_eqb t (lit "true") then Some (VELiteral TRUE_KW t)
      else match t with
           | c :: _ => if N.eqb c c_quote || N.eqb c 114%N then Some (VELiteral STRING t)
                       else if (48 <=? c)%N && (c <=? 57)%N then Some (VELiteral INT_NUMBER t)
                       else Some (VEPath t)
           | [] => None
           end
  | None => None
  end.
Definition ex_ext : externals :=
  Externals (fun s => if str_eqb s (lit "hex") then Some (repeat 1%N 32) else None) (fun s => Some s).
Definition group (l : list elem) : elem := Node TOKEN_TREE (Tok L_PAREN (lit "(") :: l ++ [Tok R_PAREN (lit ")")]).
Definition word (s : str) : elem := Tok IDENT s.
Definition value (name : str) (v : elem) : list elem := assignment name [v].
Definition ex_check (ver : version) (l : list elem) : list (outcome (list adiag)) :=
  map (validate_arg ex_ext ver [] None None (fun _ => [])) (parse_meta_items ex_expr (group l) 5).

(** [selector = 0x10], [backend(node(url = "ws://x"))] and [signature_topic = "hex"] are written as documented. *)
Example C81_example_accepted :
  Forall (fun l => forall m, parse_meta_items ex_expr (group l) 5 = [m] -> well_formed ex_ext V5 false m)
    [ value (lit "selector") (Tok INT_NUMBER (lit "0x10"));
      [word (lit "backend"); group [word (lit "node"); group (value (lit "url") (Tok STRING (lit """ws://x""")))]];
      value (lit "signature_topic") (Tok STRING (lit """hex""")) ].
Proof.
  assert (P : forall s, ~ In c_quote s -> ~ In 92%N s -> plain_string s) by (intros s H1 H2; split; assumption).
  repeat (apply Forall_cons; [intros m E; injection E as <-|]); [| | |apply Forall_nil].
  - eapply wf_value; [eexists; split; [eexists; split; reflexivity|]| reflexivity| |reflexivity].
    + unfold documented. do 22 right. left. reflexivity.
    + apply fits_number with (lit "0x10") 16%N; [apply shows_literal; reflexivity| |vm_compute; discriminate].
      split; [vm_compute; intuition discriminate|]. right. exists (lit "10"). split; [reflexivity|].
      apply (rd_digit 16 [49%N] 1%N 48%N 0%N); [apply rd_first|]; unfold digit_char; lia.
  - eapply (wf_group _ _ _ _ [lit "node"; lit "runtime_only"] true _ (lit "node")); [eexists; split; [eexists; split; reflexivity|]|reflexivity|reflexivity|reflexivity|
      eexists; split; [reflexivity|]; reflexivity|left; reflexivity|].
    { unfold documented. do 2 right. left. reflexivity. }
    eapply (wf_group _ _ _ _ [lit "url"] false _ (lit "url")); [eexists; split; [eexists; split; reflexivity|]|reflexivity|reflexivity|reflexivity|
      eexists; split; [reflexivity|]; reflexivity|left; reflexivity|].
    { unfold documented. do 18 right. left. reflexivity. }
    eapply wf_value; [eexists; split; [eexists; split; reflexivity|]| reflexivity| |reflexivity].
    { unfold documented. do 27 right. left. reflexivity. }
    apply (fits_url _ _ (lit "ws") (lit "x")). split; [apply P; vm_compute; intuition discriminate|apply shows_literal; reflexivity].
  - eapply wf_value; [eexists; split; [eexists; split; reflexivity|]| reflexivity| |reflexivity].
    + unfold documented. do 23 right. left. reflexivity.
    + apply (fits_hex _ _ (lit "hex") (repeat 1%N 32)); [|reflexivity|reflexivity].
      split; [apply P; vm_compute; intuition discriminate|apply shows_literal; reflexivity].
Qed.
(** [node(url = "ws://x")] has simple values and ranges. *)
Example C81_example_simple : exists m,
  parse_meta_items ex_expr (group [word (lit "node"); group (value (lit "url") (Tok STRING (lit """ws://x""")))]) 5 = [m]
  /\ simple_values m /\ all_ranged m /\ is_constructor None false.
Proof.
  eexists. split; [reflexivity|].
  split; [|split; [|split; [discriminate|intros (a & E & _); discriminate]]].
  - intros x v H Hv. inversion H as [|? n ? Hn Hw]; subst; [discriminate|]. injection Hn as <-.
    inversion Hw as [|? n ? Hn' Hw']; subst; [|discriminate]. injection Hv as <-. split; [left; reflexivity|].
    intros t Ht. exists (lit "ws://x"). split; [split; vm_compute; intuition discriminate|apply shows_literal; reflexivity].
  - intros x H. inversion H as [|? n ? Hn Hw]; subst; [eexists; vm_compute; reflexivity|]. injection Hn as <-.
    inversion Hw as [|? n ? Hn' Hw']; subst; [eexists; vm_compute; reflexivity|discriminate].
Qed.
(** [selector = "x"], [payable = 1], [backend], [backend(foo)] and [url = "x"] are reported once each. *)
Example C81_example_reported :
  Forall (fun l => exists d, ex_check V5 l = [Done [d]] /\ ad_severity d = SevError)
    [ value (lit "selector") (Tok STRING (lit """x""")); value (lit "payable") (Tok INT_NUMBER (lit "1"));
      [word (lit "backend")]; [word (lit "backend"); group [word (lit "foo")]];
      value (lit "url") (Tok STRING (lit """x""")) ].
Proof. repeat (apply Forall_cons; [eexists; split; [vm_compute; reflexivity|reflexivity]|]). apply Forall_nil. Qed.

Ltac not_wf :=
  let H := fresh in intros H; inversion H as [m Hf He Hv Hn|m f v Hf Hv Hfit Hn|m options Hf He Hv Hn|m options required n name Hf He Hv Hn Hname Hin Hwf]; subst.

(** The checks overlook some arguments that are not written as documented: [payable(foo)] and [backend(node =)]. *)
Theorem C81_overlooked_refuted :
  exists m1 m2,
    parse_meta_items ex_expr (group [word (lit "payable"); group [word (lit "foo")]]) 5 = [m1]
    /\ parse_meta_items ex_expr (group [word (lit "backend"); group [word (lit "node"); Tok EQ (lit "=")]]) 5 = [m2]
    /\ forall m, m = m1 \/ m = m2 ->
         ~ well_formed ex_ext V5 false m /\ validate_arg ex_ext V5 [] None None (fun _ => []) m = Done [].
Proof.
  eexists _, _. split; [reflexivity|]. split; [reflexivity|]. intros m [->| ->]; (split; [|vm_compute; reflexivity]).
  - not_wf; try discriminate. change false with (on_constructor None) in Hf. apply has_form_kind in Hf. destruct Hf as [_ Hf]. discriminate Hf.
  - not_wf; try discriminate. injection Hn as <-. clear - Hwf. revert Hwf. not_wf; discriminate.
Qed.
Print Assumptions C81_overlooked_refuted.

(** Raw strings are not read: [url = r"ws://x"] is reported. *)
Theorem C81_raw_string_refuted :
  exists m v, parse_meta_items ex_expr (group (value (lit "url") (Tok STRING (lit "r""ws://x""")))) 5 = [m]
    /\ m_value m = MOk v /\ shows v STRING (lit "r""ws://x""") /\ string_denotes (lit "r""ws://x""") (lit "ws://x")
    /\ exists d, validate_arg ex_ext V5 [] None None (fun _ => []) m = Done [d].
Proof.
  eexists _, _. split; [reflexivity|]. split; [reflexivity|]. split; [apply shows_literal; reflexivity|].
  split; [apply (sd_raw (lit "ws://x")); vm_compute; intuition discriminate|]. eexists. vm_compute. reflexivity.
Qed.
Print Assumptions C81_raw_string_refuted.

(** In ink! 5, [@] is no selector of constructors. It is reported in [#[ink(constructor, selector = @)]], but not in
    [#[ink(constructor)] #[ink(selector = @)]], whose second attribute is not a constructor's. *)
Theorem C81_split_attribute_refuted :
  exists m, parse_meta_items ex_expr (group (value (lit "selector") (Tok AT (lit "@")))) 5 = [m]
    /\ (forall a, at_kind a = AkArg AConstructor ->
          exists d, validate_arg ex_ext V5 [] (Some a) None (fun _ => []) m = Done [d])
    /\ (forall a, at_kind a = AkArg ASelector -> validate_arg ex_ext V5 [] (Some a) None (fun _ => []) m = Done []).
Proof.
  eexists. split; [reflexivity|]. split; intros [k args syn nm] E; cbn [at_kind] in E; subst k; [eexists|]; vm_compute; reflexivity.
Qed.
Print Assumptions C81_split_attribute_refuted.

(** [#[ink((a) selector)]]: the argument has no range (C61), so that checking it ends the analyzer, and with it the check of every
    entity with such an attribute. *)
Lemma all_done_panic {A} (l : list (outcome A)) : In Panic l -> all_done l = Panic.
Proof.
  induction l as [|x l IH]; [intros []|]. intros [->|H]; cbn [all_done]; [reflexivity|]. destruct x; [|reflexivity]. cbn [obind_o]. rewrite (IH H). reflexivity.
Qed.
Theorem C81_malformed_refuted :
  exists m, parse_meta_items ex_expr (group [group [word (lit "a")]; Tok WHITESPACE (lit " "); word (lit "selector")]) 5 = [m]
    /\ forall X ver toks around e o l a, In a l -> In m (at_args (la_attr a)) -> generic_checks X ver toks around e o l = Panic.
Proof.
  eexists. split; [reflexivity|]. intros X ver toks around e o l a Ha Hm. unfold generic_checks.
  rewrite all_done_panic; [reflexivity|]. apply in_map_iff. exists a. split; [|exact Ha]. unfold validate_args.
  rewrite all_done_panic; [reflexivity|]. apply in_map_iff. eexists. split; [|exact Hm].
  destruct (la_attr a) as [k args syn nm]. destruct ver; destruct k as [k|k]; try destruct k; vm_compute; reflexivity.
Qed.
Print Assumptions C81_malformed_refuted.

(** * C82: the fixes of arguments *)

(** A bad value: the only fix writes [name = v] over the argument; read back, this is written as documented
    (so it is not reported, C81). *)
Theorem C82_value_fix_partial : forall X ver toks attr env ids c px m f d,
  is_constructor attr c ->
  reads_values px (offered_paths env) -> x_ident X (lit "my_namespace") = Some (lit "my_namespace") ->
  has_form ver c m f -> takes_value f -> f <> FHexText ->
  (ver = V5 -> named m (lit "extension") -> exists n, (1 <= n <= largest 16)%N /\ ~ In n (ids AExtension)) ->
  validate_arg X ver toks attr env ids m = Done [d] ->
  exists name v r snippet, named m name /\ meta_range m = Done r /\ one_fix d (name ++ lit " = " ++ v) r (Some snippet)
    /\ forall value o, value_tokens value -> texts_of value = v ->
       exists m', parse_meta_items px (in_parens (assignment name value)) o = [m'] /\ well_formed X ver c m'.
Proof.
  intros X ver toks attr env ids c px m f d Hc Hpx Hid Hf Ht Hh He H. apply is_constructor_eq in Hc. subst c.
  exact (value_fix _ _ _ _ _ _ _ _ _ _ Hpx Hid Hf Ht Hh He H).
Qed.
Print Assumptions C82_value_fix_partial.

(** A value that must not be there: the only fix writes the name over the argument. *)
Theorem C82_bare_fix : forall X ver toks attr env ids c px m d,
  is_constructor attr c -> has_form ver c m FBare -> validate_arg X ver toks attr env ids m = Done [d] ->
  exists name r, named m name /\ meta_range m = Done r /\ one_fix d name r None
    /\ forall o, exists m', parse_meta_items px (in_parens (alone name)) o = [m'] /\ well_formed X ver c m'.
Proof.
  intros X ver toks attr env ids c px m d Hc Hf H. apply is_constructor_eq in Hc. subst c. exact (bare_fix _ _ _ _ _ _ px _ _ Hf H).
Qed.
Print Assumptions C82_bare_fix.

(** A missing option: reported once, with one fix per option that writes [name(option)] over the argument. *)
Theorem C82_missing_option_fixes : forall X ver toks attr env ids c m name options r,
  is_constructor attr c -> has_form ver c m (FGroup options true) -> named m name ->
  (forall v, m_value m <> MOk v) -> m_nested m = None -> meta_range m = Done r ->
  exists d, validate_arg X ver toks attr env ids m = Done [d] /\ ad_severity d = SevError /\ ad_range d = r
    /\ exists fixes, ad_fixes d = Some fixes
    /\ Forall2 (fun opt a => exists label snippet,
                  a = Action label AkQuickFix r [TextEdit (name ++ lit "(" ++ opt ++ lit ")") r (Some snippet)])
         options fixes.
Proof.
  intros X ver toks attr env ids c m name options r Hc Hf Hn Hv Hnn Hr. apply is_constructor_eq in Hc. subst c.
  exact (missing_fix _ _ _ _ _ _ _ _ _ Hf Hn Hv Hnn _ Hr).
Qed.
Print Assumptions C82_missing_option_fixes.

(** Another option than the documented ones: one fix per option, which writes the option over the other one. *)
Theorem C82_other_option_fixes : forall X ver toks attr env ids c m name options required n r,
  is_constructor attr c -> has_form ver c m (FGroup options required) -> named m name ->
  (forall v, m_value m <> MOk v) -> m_nested m = Some n -> (forall o, In o options -> ~ named n o) ->
  meta_range n = Done r ->
  exists d, validate_arg X ver toks attr env ids m = Done [d] /\ ad_severity d = SevError /\ ad_range d = r
    /\ exists fixes, ad_fixes d = Some fixes
    /\ Forall2 (fun opt a => exists label snippet, a = Action label AkQuickFix r [TextEdit opt r (Some snippet)])
         options fixes.
Proof.
  intros X ver toks attr env ids c m name options required n r Hc Hf Hn Hv Hnn Hno Hr. apply is_constructor_eq in Hc. subst c.
  exact (other_fix _ _ _ _ _ _ _ _ _ _ _ Hf Hn Hv Hnn Hno _ Hr).
Qed.
Print Assumptions C82_other_option_fixes.

(** A value instead of an option: the only fix puts the text of the value in parentheses. *)
Theorem C82_value_to_option_fix : forall X ver toks attr env ids c m name options required v r,
  is_constructor attr c -> has_form ver c m (FGroup options required) -> named m name -> m_value m = MOk v ->
  meta_range m = Done r ->
  exists d snippet, validate_arg X ver toks attr env ids m = Done [d] /\ ad_severity d = SevError /\ ad_range d = r
    /\ one_fix d (name ++ lit "(" ++ value_text v ++ lit ")") r (Some snippet).
Proof.
  intros X ver toks attr env ids c m name options required v r Hc Hf Hn Hv Hr. apply is_constructor_eq in Hc. subst c.
  exact (value_to_group _ _ _ _ _ _ _ _ _ _ _ Hf Hn Hv _ Hr).
Qed.
Print Assumptions C82_value_to_option_fix.

(** The text [name(option)] those fixes leave is written as documented if the option may stand alone. *)
Theorem C82_option_accepted : forall X ver c px o m name options required opt f,
  named m name -> has_form ver c m (FGroup options required) ->
  In opt options -> In (opt, f) (documented ver c) -> stands_alone f ->
  texts_of (grouped name opt) = name ++ lit "(" ++ opt ++ lit ")"
  /\ exists m', parse_meta_items px (in_parens (grouped name opt)) o = [m'] /\ well_formed X ver c m'.
Proof.
  intros X ver c px o m name options required opt f Hn Hf Hin Hd Ha.
  split; [unfold grouped, texts_of; cbn; rewrite !app_nil_r; reflexivity|].
  assert (Hc : c = on_constructor (some_attr c)) by (destruct c; reflexivity). rewrite Hc in *.
  exact (grouped_wf _ _ _ px o m name options required opt f Hn Hf Hin Hd Ha).
Qed.
Print Assumptions C82_option_accepted.

(** All options of [backend] may stand alone. *)
Example C82_example_options : forall opt, In opt [lit "node"; lit "runtime_only"] ->
  exists f, In (opt, f) (documented V5 false) /\ stands_alone f.
Proof.
  intros opt [<-|[<-|[]]].
  - exists (FGroup [lit "url"] false). split; [do 18 right; left; reflexivity|right; eexists; reflexivity].
  - exists (FGroup [lit "sandbox"] false). split; [do 20 right; left; reflexivity|right; eexists; reflexivity].
Qed.
(** [namespace = 5] is reported; the fix [namespace = "my_namespace"] meets the theorem's hypotheses. *)
Example C82_example_value : exists m d r s,
  parse_meta_items ex_expr (group (value (lit "namespace") (Tok INT_NUMBER (lit "5")))) 5 = [m]
  /\ has_form V4 false m FIdentifierText /\ takes_value FIdentifierText
  /\ validate_arg ex_ext V4 [] None None (fun _ => []) m = Done [d]
  /\ one_fix d (lit "namespace = ""my_namespace""") r (Some s)
  /\ value_tokens [Tok STRING (lit """my_namespace""")].
Proof.
  eexists _, _, _, _. split; [reflexivity|]. split.
  { eexists. split; [eexists; split; reflexivity|]. unfold documented. do 17 right. left. reflexivity. }
  split; [split; discriminate|]. split; [vm_compute; reflexivity|]. split; [eexists; reflexivity|].
  split; [discriminate|]. intros e [<-|[]]. split; [split; [intros t E; discriminate|intros (cs & l & t & E & _); discriminate]|].
  repeat split; discriminate.
Qed.

(** Fixes that leave a reported argument: [signature_topic = ""], [node(url)] and [backend(5)]. *)
Definition ex_fixed (ver : version) (before after : list elem) : Prop :=
  exists m m' d d' label r s,
    parse_meta_items ex_expr (group before) 5 = [m] /\ parse_meta_items ex_expr (group after) 5 = [m']
    /\ validate_arg ex_ext ver [] None None (fun _ => []) m = Done [d]
    /\ (exists x, ad_fixes d = Some (Action label AkQuickFix r [TextEdit x r s] :: [])
          /\ (meta_range m = Done r /\ texts_of after = x
              \/ exists n name, m_nested m = Some n /\ named m name /\ meta_range n = Done r
                   /\ texts_of after = name ++ lit "(" ++ x ++ lit ")"))
    /\ validate_arg ex_ext ver [] None None (fun _ => []) m' = Done [d'].
Theorem C82_fixes_refuted :
  ex_fixed V5 (value (lit "signature_topic") (Tok INT_NUMBER (lit "5"))) (value (lit "signature_topic") (Tok STRING (lit """""")))
  /\ ex_fixed V5 [word (lit "node"); group [word (lit "foo")]] [word (lit "node"); group [word (lit "url")]]
  /\ ex_fixed V5 (value (lit "backend") (Tok INT_NUMBER (lit "5"))) [word (lit "backend"); group [Tok INT_NUMBER (lit "5")]].
Proof.
  split; [|split].
  - do 7 eexists. split; [reflexivity|]. split; [reflexivity|]. split; [vm_compute; reflexivity|]. split; [|vm_compute; reflexivity].
    eexists. split; [reflexivity|]. left. split; vm_compute; reflexivity.
  - do 7 eexists. split; [reflexivity|]. split; [reflexivity|]. split; [vm_compute; reflexivity|]. split; [|vm_compute; reflexivity].
    eexists. split; [reflexivity|]. right. eexists _, (lit "node"). split; [reflexivity|]. split; [eexists; split; reflexivity|].
    split; vm_compute; reflexivity.
  - do 7 eexists. split; [reflexivity|]. split; [reflexivity|]. split; [vm_compute; reflexivity|]. split; [|vm_compute; reflexivity].
    eexists. split; [reflexivity|]. left. split; vm_compute; reflexivity.
Qed.
Print Assumptions C82_fixes_refuted.

(** The range of an argument with parentheses ends before the closing one, so the fix of [selector(foo)], which
    writes [selector = 1] over it, leaves a closing parenthesis too many. *)
Theorem C82_parenthesis_refuted : exists m d r s,
  let arg := [word (lit "selector"); group [word (lit "foo")]] in
  parse_meta_items ex_expr (group arg) 0 = [m]
  /\ validate_arg ex_ext V5 [] None None (fun _ => []) m = Done [d]
  /\ one_fix d (lit "selector = 1") r (Some s)
  /\ texts_of [group arg] = lit "(selector(foo))"
  /\ r = (1, 1 + length (lit "selector(foo")).
Proof.
  eexists _, _, _, _. cbv zeta. split; [reflexivity|]. split; [vm_compute; reflexivity|]. split; [eexists; reflexivity|].
  split; vm_compute; reflexivity.
Qed.
Print Assumptions C82_parenthesis_refuted.

(** * C83: the text inserted for an argument *)

(** In a file [a ++ b ++ c] with an attribute [b], and an offset in the attribute: the inserted text depends on the
    first token at or after the offset that is neither white space nor a comment. *)
Theorem C83_next_token : forall (a b c : list (skind * str)) o env ids k,
  (forall t : skind * str, In t (a ++ b ++ c) -> snd t <> []) -> b <> [] ->
  bytes (text a) <= o <= bytes (text (a ++ b)) ->
  exists t, first_solid (place_leaves 0 (a ++ b ++ c)) o t
    /\ arg_insert_text (place_leaves 0 (a ++ b ++ c)) (bytes (text a), bytes (text (a ++ b))) o env ids k
       = Done (insert_text (InsertContext (option_map lf_kind t) env ids) k).
Proof.
  intros a b c o env ids k Hne Hb Ho. destruct (next_solid_first a b c o Hne Hb Ho) as (t & E & Hf).
  exists t. split; [exact Hf|]. apply arg_insert_next, E.
Qed.
Print Assumptions C83_next_token.

(** What stands there does not matter for arguments that need no value: their name is inserted, also where there is no attribute. *)
Theorem C83_names : forall toks attr o env ids k,
  In k [AAnonymous; AConstructor; ADefault; AEvent; AImpl; AMessage; ANode; APayable; ARuntimeOnly; AStorage; ATopic] ->
  arg_insert_text toks attr o env ids k = Done (arg_kind_str k, None).
Proof. intros toks attr o env ids k H. repeat (destruct H as [<-|H]; [vm_compute; reflexivity|]). destruct H. Qed.
Print Assumptions C83_names.
(** For the others, a place outside the attribute ends the analyzer. *)
Theorem C83_outside : forall toks attr o env ids k,
  In k [AAdditionalContracts; ABackend; ADerive; AEnv; AEnvironment; AExtension; AFunction; AHandleStatus; AKeepAttr; ANamespace; ASandbox; ASelector;
        ASignatureTopic; AUrl] ->
  (arg_insert_text toks attr o env ids k = Panic <-> ~ fst attr <= o <= snd attr).
Proof.
  intros toks attr o env ids k H. assert (L : looks_ahead k = true) by (repeat (destruct H as [<-|H]; [reflexivity|]); destruct H).
  unfold arg_insert_text. rewrite L. unfold next_solid. destruct (Nat.leb_spec (fst attr) o); cbn [andb]; [destruct (Nat.leb_spec o (snd attr))|]; cbn [obind_o]; (split; [try discriminate; intros _; lia | intros N; try reflexivity; exfalso; lia]).
Qed.
Print Assumptions C83_outside.

(** The text is the name; with [= v] if the argument takes a value, unless an equal sign follows; with [(option)] if
    it needs an option, unless a parenthesis follows. Accepting the snippet as it is gives the same text. *)
Theorem C83_text : forall ver con c k f text snippet,
  In (arg_kind_str k, f) (documented ver con) ->
  (forall p, ic_env c = Some p -> ~ In 125%N p) ->
  insert_text c k = (text, snippet) ->
  (stands_alone f -> text = arg_kind_str k /\ snippet = None)
  /\ (takes_value f -> ic_next c = Some EQ -> text = arg_kind_str k /\ snippet = None)
  /\ (takes_value f -> ic_next c <> Some EQ ->
        (exists v, text = arg_kind_str k ++ lit " = " ++ v) /\ exists s, snippet = Some s /\ accepted s text)
  /\ (forall options, f = FGroup options true -> ic_next c = Some L_PAREN -> text = arg_kind_str k /\ snippet = None)
  /\ (forall options, f = FGroup options true -> ic_next c <> Some L_PAREN ->
        exists o s, In o options /\ text = arg_kind_str k ++ lit "(" ++ o ++ lit ")" /\ snippet = Some s /\ accepted s text).
Proof.
  intros ver con c k f text snippet Hin He Ei.
  assert (Hk : k <> AUnknown).
  { intros ->. revert Hin. destruct ver, con; vm_compute; intuition discriminate. }
  pose proof (insert_shape ver con c k f Hk Hin He) as H. rewrite Ei in H. destruct H as (A & B & C & D & E).
  split; [exact A|]. split; [exact B|]. split; [|split; [exact D|exact E]].
  intros H1 H2. destruct (C H1 H2) as [C1 C2]. split; [eexists; exact C1|exact C2].
Qed.
Print Assumptions C83_text.

(** An inserted value is a documented one: [name = v] reads back as documented (except for signature topics, and
    ids of chain extensions of ink! 5 when all 16 bit ids are used). *)
Theorem C83_value_partial : forall X ver con c k f px snippet text,
  In (arg_kind_str k, f) (documented ver con) -> takes_value f -> f <> FHexText ->
  reads_values px (offered_paths (ic_env c)) -> x_ident X (lit "my_namespace") = Some (lit "my_namespace") ->
  (ver = V5 -> k = AExtension -> exists n, (1 <= n <= largest 16)%N /\ ~ In n (ic_ids c AExtension)) ->
  ic_next c <> Some EQ -> (forall p, ic_env c = Some p -> ~ In 125%N p) -> insert_text c k = (text, snippet) ->
  exists v, text = arg_kind_str k ++ lit " = " ++ v
    /\ forall value o, value_tokens value -> texts_of value = v ->
       exists m', parse_meta_items px (in_parens (assignment (arg_kind_str k) value)) o = [m'] /\ well_formed X ver con m'.
Proof.
  intros X ver con c k f px snippet text Hin Ht Hh Hpx Hid Hext Hnext He Ei.
  assert (Hk : k <> AUnknown).
  { intros ->. revert Hin. destruct ver, con; vm_compute; intuition discriminate. }
  pose proof (insert_shape ver con c k f Hk Hin He) as H. rewrite Ei in H. destruct H as (_ & _ & C & _).
  destruct (C Ht Hnext) as [E _]. exists (fst (default_value c k)). split; [exact E|]. intros value o Hvt Htx.
  pose proof (documented_form _ _ _ _ Hk Hin) as Ef.
  destruct (default_fits X ver (some_attr con) px (ic_env c) (ic_ids c) c k eq_refl eq_refl Hpx Hid Hk) as (e & Hx & Hfit).
  { intros ->. apply Hh. rewrite Ef. unfold expected. destruct ver; reflexivity. }
  { apply options_value. intros os r. rewrite <- Ef. apply Ht. }
  { intros E'. apply Ht. rewrite Ef, E'. reflexivity. }
  { exact Hext. }
  rewrite <- Htx in Hx. destruct (assignment_reads px o (arg_kind_str k) value e Hvt Hx) as (m' & v & E' & Hnm & Hnest & Hval & Hv1 & Hv2).
  exists m'. split; [exact E'|]. apply wf_value with f v; [exists (arg_kind_str k); auto|exact Hval| |exact Hnest].
  rewrite Ef. apply Hfit; assumption.
Qed.
Print Assumptions C83_value_partial.

(** An inserted id is the least unused one. *)
Theorem C83_ids : forall c k bits text snippet,
  In (k, bits) [(AFunction, 16%N); (ASelector, 32%N); (AExtension, 32%N)] -> ic_next c <> Some EQ ->
  (exists m, (1 <= m <= largest bits)%N /\ ~ In m (ic_ids c k)) ->
  insert_text c k = (text, snippet) ->
  exists n, text = arg_kind_str k ++ lit " = " ++ dec n /\ (1 <= n <= largest bits)%N /\ ~ In n (ic_ids c k)
    /\ forall m, (1 <= m < n)%N -> In m (ic_ids c k).
Proof.
  intros c k bits txt snippet Hin Hn (m & Hm & Hu) Ei.
  assert (E1 : inserts_eq c k = true).
  { unfold inserts_eq. destruct Hin as [H|[H|[H|[]]]]; injection H as <- <-; cbn [value_kind];
      (destruct (ic_next c) as [q|]; [destruct q; try reflexivity; exfalso; apply Hn; reflexivity|reflexivity]). }
  rewrite (insert_value _ _ E1) in Ei. apply pair_equal_spec in Ei. destruct Ei as [<- _].
  exists (id_or_one (largest bits) (ic_ids c k)).
  assert (Hl : (id_or_one (largest bits) (ic_ids c k) <= m)%N /\ ~ In (id_or_one (largest bits) (ic_ids c k)) (ic_ids c k)) by (apply id_or_one_least; assumption).
  assert (Hb : (1 <= id_or_one (largest bits) (ic_ids c k) <= largest bits)%N) by (apply id_or_one_range; lia).
  split.
  { destruct Hin as [H|[H|[H|[]]]]; injection H as <- <-; reflexivity. }
  split; [exact Hb|]. split; [apply Hl|].
  intros q Hq. destruct (in_dec N.eq_dec q (ic_ids c k)) as [Hi|Hi]; [exact Hi|]. exfalso.
  destruct (id_or_one_least (largest bits) (ic_ids c k) q ltac:(lia) Hi) as [L _]. lia.
Qed.
Print Assumptions C83_ids.

(** [#[ink(selector )]] with the cursor after the name, and [#[ink(selector = 1)]] likewise. *)
Example C83_example :
  let b := [(POUND, lit "#"); (L_BRACK, lit "["); (IDENT, lit "ink"); (L_PAREN, lit "("); (IDENT, lit "sel"); (WHITESPACE, lit " ")] in
  let ctx := fun l => arg_insert_text (place_leaves 0 (b ++ l)) (0, bytes (text (b ++ l))) 9 None (fun _ => [1%N; 3%N]) ASelector in
  ctx [(R_PAREN, lit ")"); (R_BRACK, lit "]")] = Done (lit "selector = 2", Some (lit "selector = ${1:2}"))
  /\ ctx [(EQ, lit "="); (INT_NUMBER, lit "1"); (R_PAREN, lit ")"); (R_BRACK, lit "]")] = Done (lit "selector", None).
Proof. split; vm_compute; reflexivity. Qed.

(** * C84: unknown attributes and the generic checks *)

(** Each unknown attribute is reported once, in order, as a warning on the name after [ink::], or else on its first
    argument, or else on all of it, with one fix that deletes the attribute. *)
Theorem C84_unknown_attributes : forall l, exists bad,
  (forall a, In a bad <-> In a l /\ unknown_attribute (la_attr a))
  /\ (exists mask, bad = map fst (filter snd (combine l mask)) /\ length mask = length l)
  /\ Forall2 (fun a d => ad_severity d = SevWarning /\ one_fix d [] (at_range (la_attr a)) None
       /\ (forall r, la_macro a = Some r -> ad_range d = r)
       /\ (forall n, la_macro a = None -> at_arg_name (la_attr a) = Some n -> ad_range d = (lstart n, lend n))
       /\ (la_macro a = None -> at_arg_name (la_attr a) = None -> ad_range d = at_range (la_attr a))) bad (unknown_attrs l).
Proof.
  intros l. exists (filter (fun a => attr_kind_unknown (at_kind (la_attr a))) l).
  assert (U : forall a, attr_kind_unknown (at_kind (la_attr a)) = true <-> unknown_attribute (la_attr a)).
  { intros a. unfold attr_kind_unknown, unknown_attribute. destruct (at_kind (la_attr a)) as [k|k]; destruct k; split;
      try discriminate; try (intros [H|H]; discriminate); auto. }
  split; [|split].
  - intros a. rewrite filter_In, U. reflexivity.
  - exists (map (fun a => attr_kind_unknown (at_kind (la_attr a))) l). split; [|apply map_length].
    induction l as [|a l IH]; [reflexivity|]. cbn [filter map combine snd]. destruct (attr_kind_unknown _); cbn [map fst]; rewrite IH; reflexivity.
  - unfold unknown_attrs. induction l as [|a l IH]; [constructor|]. cbn [filter filter_map]. unfold unknown_attr at 1.
    destruct (attr_kind_unknown (at_kind (la_attr a))); [|exact IH]. constructor; [|exact IH]. split; [reflexivity|]. split; [eexists; reflexivity|]. cbn [ad_range].
    split; [intros r ->; reflexivity|]. split; [intros n -> ->; reflexivity | intros -> ->; reflexivity].
Qed.
Print Assumptions C84_unknown_attributes.

Lemma all_done_nil {A} (l : list (outcome (list A))) r : all_done l = Done r -> (concat r = [] <-> forall x, In x l -> x = Done []).
Proof.
  revert r. induction l as [|x l IH]; intros r H.
  - injection H as <-. split; [intros _ x []|reflexivity].
  - cbn [all_done] in H. destruct x as [x|]; [|discriminate]. cbn [obind_o] in H. destruct (all_done l) as [r'|] eqn:E; [|discriminate].
    injection H as <-. specialize (IH r' eq_refl). cbn [concat]. split.
    + intros H. apply app_eq_nil in H. destruct H as [-> H]. intros y [<-|Hy]; [reflexivity|]. apply IH; assumption.
    + intros H. assert (Hx : Done x = Done []) by (apply H; left; reflexivity). injection Hx as ->. cbn [app]. apply IH.
      intros y Hy. apply H. right. exact Hy.
Qed.
Lemma all_done_clean {A} (l : list (outcome (list A))) : (forall x, In x l -> x = Done []) -> exists r, all_done l = Done r /\ concat r = [].
Proof.
  induction l as [|x l IH]; intros H; [exists []; split; reflexivity|].
  destruct (IH (fun y Hy => H y (or_intror Hy))) as (r & E & Hr). rewrite (H x (or_introl eq_refl)).
  cbn [all_done obind_o]. rewrite E. exists ([] :: r). split; [reflexivity|exact Hr].
Qed.

(** The generic checks of an item report nothing iff it has no reserved identifier (C53), no unknown attribute, and
    no argument that is reported (C81). *)
Theorem C84_clean : forall X ver toks around e o l,
  generic_checks X ver toks around e o l = Done [] <->
  ensure_no_ink_identifiers e o = []
  /\ (forall a, In a l -> ~ unknown_attribute (la_attr a))
  /\ (forall a m, In a l -> In m (at_args (la_attr a)) ->
        validate_arg X ver toks (Some (la_attr a)) (fst (around (la_attr a))) (snd (around (la_attr a))) m = Done []).
Proof.
  intros X ver toks around e o l. unfold generic_checks.
  assert (HU : unknown_attrs l = [] <-> forall a, In a l -> ~ unknown_attribute (la_attr a)).
  { destruct (C84_unknown_attributes l) as (bad & Hb & _ & F). split.
    - intros E a Ha Hu. assert (Hin : In a bad) by (apply Hb; auto). rewrite E in F. inversion F; subst. destruct Hin.
    - intros H. destruct bad as [|a bad]; [inversion F; reflexivity|]. exfalso. destruct (proj1 (Hb a) (or_introl eq_refl)) as [H1 H2].
      exact (H a H1 H2). }
  assert (HA : forall a, validate_args X ver toks around a = Done [] <->
     forall m, In m (at_args a) -> validate_arg X ver toks (Some a) (fst (around a)) (snd (around a)) m = Done []).
  { intros a. unfold validate_args. split.
    - intros H m Hm. destruct (all_done _) as [r|] eqn:E; [|discriminate]. cbn [obind_o] in H. injection H as H.
      apply (proj1 (all_done_nil _ _ E) H). apply in_map_iff. exists m. auto.
    - intros H. destruct (all_done_clean (map (validate_arg X ver toks (Some a) (fst (around a)) (snd (around a))) (at_args a))) as (r & -> & Hr).
      + intros x Hx. apply in_map_iff in Hx. destruct Hx as (m & <- & Hm). apply H, Hm.
      + cbn [obind_o]. rewrite Hr. reflexivity. }
  split.
  - intros H. destruct (all_done _) as [r|] eqn:E; [|discriminate]. cbn [obind_o] in H. injection H as H.
    apply app_eq_nil in H. destruct H as [H1 H]. apply app_eq_nil in H. destruct H as [H2 H3].
    split; [exact H1|]. split; [apply HU, H2|]. intros a m Ha Hm. apply HA; [|exact Hm].
    apply (proj1 (all_done_nil _ _ E) H3). apply in_map_iff. exists a. auto.
  - intros (H1 & H2 & H3). destruct (all_done_clean (map (fun a => validate_args X ver toks around (la_attr a)) l)) as (r & -> & Hr).
    + intros x Hx. apply in_map_iff in Hx. destruct Hx as (a & <- & Ha). apply HA. intros m Hm. apply H3; assumption.
    + cbn [obind_o]. apply HU in H2. rewrite H1, H2, Hr. reflexivity.
Qed.
Print Assumptions C84_clean.

(** An attribute whose only argument is unknown is reported twice: [#[ink(xyz)]]. *)
Theorem C84_once_refuted : exists a m d1 d2,
  parse_meta_items ex_expr (group [word (lit "xyz")]) 5 = [m]
  /\ at_args (la_attr a) = [m] /\ unknown_attribute (la_attr a)
  /\ generic_checks ex_ext V5 [] (fun _ => (None, fun _ => [])) (word (lit "x")) 0 [a] = Done [d1; d2]
  /\ ad_fixes d1 <> None /\ ad_fixes d2 <> None.
Proof.
  eexists (ListedAttr (InkAttr (AkArg AUnknown) _ (AttrSyntax [lit "ink"] None (0, 12)) None) (lit "#[ink(xyz)]") None), _, _, _.
  split; [reflexivity|]. split; [reflexivity|]. split; [right; reflexivity|]. split; [vm_compute; reflexivity|]. split; discriminate.
Qed.
Print Assumptions C84_once_refuted.
