(** Property C46: flattening ink! attributes preserves their arguments. *)
From Coq Require Import Lia Permutation.
From Verif Require Import Base BaseFacts PositionModel TranslateModel SyntaxModel AttrModel AttrSpec AttrProofs AttrProps EditModel
  ArgEditSpec FlattenModel FlattenSpec FlattenProofs.

(** C46. The action replaces the primary attribute by one attribute of the same kind that carries the arguments
    of the primary attribute and of all other argument attributes, and deletes exactly those others. *)
Theorem C46_same_arguments : forall px attrs edits,
  prints_back px -> Forall (written px) attrs ->
  (forall a, In a attrs -> at_kind a <> AkMacro MUnknown) ->
  flatten_attrs attrs = Some edits ->
  exists before p after new,
    attrs = before ++ p :: after
    /\ (forall y, In y before -> kind_precedes (at_kind p) (at_kind y))
    /\ (forall y, In y after -> ~ kind_precedes (at_kind y) (at_kind p))
    /\ let others := by_precedence arg_or_unknown (arg_attrs (before ++ after)) in
       edits = edit_replace new (at_range p) :: map (fun a => edit_delete (at_range a)) others
       /\ says px new (at_kind p) (by_precedence ia_kind (at_args p ++ flat_map at_args others)).
Proof.
  intros px attrs edits Hpb Hw Hk H.
  destruct (flatten_cases attrs) as [[_ E]|(before & p & after & Ea & Hb & Hc & E)]; [congruence|].
  cbv zeta in E. exists before, p, after.
  set (others := by_precedence arg_or_unknown (arg_attrs (before ++ after))) in *.
  assert (Ho : forall a, In a others -> In a (before ++ after) /\ exists k, at_kind a = AkArg k).
  { intros a Ha. unfold others in Ha. apply by_precedence_In in Ha. apply filter_In in Ha. destruct Ha as [Ha1 Ha2].
    split; [exact Ha1|]. unfold arg_of in Ha2. destruct (at_kind a); [discriminate | eauto]. }
  exists (flat_text p others). split; [exact Ea|]. split; [exact Hb|]. split; [exact Hc|]. cbv zeta. split.
  - rewrite H in E. destruct others; [discriminate | injection E as ->; reflexivity].
  - apply flat_says.
    + exact Hpb.
    + rewrite Forall_forall in Hw. apply Forall_forall. intros a [<-|Ha]; apply Hw; rewrite Ea; apply in_app_iff; [right; left; reflexivity|].
      destruct (Ho a Ha) as [Hin _]. apply in_app_iff in Hin. destruct Hin; [left | right; right]; assumption.
    + apply Hk. rewrite Ea. apply in_app_iff. right; left; reflexivity.
    + intros a Ha. apply Ho, Ha.
    + intros a Ha. destruct (Ho a Ha) as [Hin _]. apply in_app_iff in Hin. destruct Hin as [Hin|Hin]; [|apply Hc, Hin].
      specialize (Hb a Hin). rewrite kind_precedes_rank in *. lia.
Qed.
Print Assumptions C46_same_arguments.

(** C46. Ordering by precedence loses and repeats nothing. *)
Theorem C46_each_once : forall A (kind : A -> arg_kind) l, Permutation l (by_precedence kind l).
Proof. intros. rewrite <- stable_sort_by_precedence. apply stable_sort_perm. Qed.
Print Assumptions C46_each_once.

(** C46. The action is offered exactly when the item has an argument attribute and a further ink! attribute. *)
Theorem C46_offered : forall attrs,
  (exists edits, flatten_attrs attrs = Some edits) <-> (2 <= length attrs /\ exists a k, In a attrs /\ at_kind a = AkArg k).
Proof.
  intros attrs. destruct (flatten_cases attrs) as [[-> E]|(before & p & after & Ea & Hb & Hc & E)].
  - split; [intros [e He]; congruence | simpl; lia].
  - cbv zeta in E. rewrite E. split.
    + intros [e He]. destruct (by_precedence arg_or_unknown (arg_attrs (before ++ after))) as [|a l] eqn:Eo; [discriminate|].
      assert (Ha : In a (arg_attrs (before ++ after))) by (apply (by_precedence_In arg_or_unknown); rewrite Eo; left; reflexivity).
      apply filter_In in Ha. destruct Ha as [Ha1 Ha2]. split.
      * rewrite Ea, app_length. simpl. apply in_app_iff in Ha1. destruct before, after; simpl in *; destruct Ha1; try contradiction; lia.
      * unfold arg_of in Ha2. destruct (at_kind a) as [|k] eqn:Ek; [discriminate|]. exists a, k. split; [|exact Ek].
        rewrite Ea. apply in_app_iff in Ha1. apply in_app_iff. destruct Ha1; [left | right; right]; assumption.
    + intros [Hl (a & k & Ha & Hk)].
      assert (Hx : exists b, In b (arg_attrs (before ++ after))).
      { rewrite Ea in Ha, Hl. apply in_app_iff in Ha. destruct Ha as [Ha|[Ha|Ha]].
        - exists a. apply filter_In. split; [apply in_app_iff; auto | unfold arg_of; rewrite Hk; reflexivity].
        - subst a. assert (Hb2 : exists b, In b (before ++ after)).
          { rewrite app_length in Hl. simpl in Hl. destruct before as [|b ?]; [destruct after as [|b ?]; [simpl in Hl; lia|]|]; exists b; simpl; auto. }
          destruct Hb2 as [b Hb2]. exists b. apply filter_In. split; [exact Hb2|].
          unfold arg_of. destruct (at_kind b) as [mk|kb] eqn:Ekb; [exfalso|reflexivity].
          apply in_app_iff in Hb2. destruct Hb2 as [Hb2|Hb2].
          + specialize (Hb b Hb2). rewrite Hk, Ekb in Hb. exact Hb.
          + apply (Hc b Hb2). rewrite Hk, Ekb. exact I.
        - exists a. apply filter_In. split; [apply in_app_iff; auto | unfold arg_of; rewrite Hk; reflexivity]. }
      destruct Hx as [b Hx]. apply (by_precedence_In arg_or_unknown) in Hx.
      destruct (by_precedence arg_or_unknown (arg_attrs (before ++ after))); [contradiction | eexists; reflexivity].
Qed.
Print Assumptions C46_offered.

(** An expression parser that knows the literal [1]. *)
Fixpoint skip_blanks (s : str) : str :=
  match s with c :: s' => if N.eqb c 32 then skip_blanks s' else s | [] => [] end.
Definition one_expr : expr_parser := fun s => if str_eqb (skip_blanks s) (lit "1") then Some (VELiteral INT_NUMBER (lit "1")) else None.
Lemma one_expr_prints : prints_back one_expr.
Proof.
  split; [reflexivity|]. intros s e H. unfold one_expr in H. destruct (str_eqb _ _); [|discriminate]. injection H as <-.
  split; [reflexivity|]. exists [Tok INT_NUMBER (lit "1")]. split; [|reflexivity]. split; [discriminate|]. split.
  - intros x [<-|[]]. split; [discriminate|]. split; [discriminate|]. intros (? & ? & ? & ? & _); discriminate.
  - intros k t [= <- <-]. split; discriminate.
Qed.
Definition payable_body := [id_tok (lit "payable")].
Definition message_body := [id_tok (lit "message"); comma_tok; sp; id_tok (lit "selector"); sp; eq_tok; sp; Tok INT_NUMBER (lit "1")].
Definition two_attrs : list ink_attr :=
  filter_map (fun x => x)
    [ attr_cast one_expr (AttrSyntax [lit "ink"] (Some (5, paren_tree payable_body)) (0, 15));
      attr_cast one_expr (AttrSyntax [lit "ink"] (Some (21, paren_tree message_body)) (16, 45)) ].
Lemma two_attrs_written : Forall (written one_expr) two_attrs /\ forall a, In a two_attrs -> at_kind a <> AkMacro MUnknown.
Proof.
  assert (Hnil : trivia []) by (intros ? []).
  assert (Hsp : trivia [sp]) by (intros ? [<-|[]]; eexists _, _; split; reflexivity).
  assert (Hw1 : writes_args [WArg (lit "payable") None None] payable_body).
  { apply (wa_last _ payable_body []); [|left; reflexivity].
    apply (writes_arg (lit "payable") None None [] IDENT [] [] [] []); auto; constructor. }
  assert (Hw2 : writes_args [WArg (lit "message") None None; WArg (lit "selector") None (Some [sp; Tok INT_NUMBER (lit "1")])] message_body).
  { apply (wa_more _ [id_tok (lit "message")] (lit ",")).
    - apply (writes_arg (lit "message") None None [] IDENT [] [] [] []); auto; constructor.
    - apply (wa_last _ [sp; id_tok (lit "selector"); sp; eq_tok; sp; Tok INT_NUMBER (lit "1")] []); [|left; reflexivity].
      apply (writes_arg (lit "selector") None (Some [sp; Tok INT_NUMBER (lit "1")]) [sp] IDENT [sp] [] [] [eq_tok; sp; Tok INT_NUMBER (lit "1")]); auto; try constructor; try discriminate.
      intros e [<-|[<-|[]]]; (split; [discriminate|]; split; [discriminate|]; intros (? & ? & ? & ? & _); discriminate). }
  split.
  - constructor; [|constructor; [|constructor]]; (split; [reflexivity|]; right; eexists _, _, _; split; [reflexivity|]); eassumption.
  - intros a [<-|[<-|[]]]; discriminate.
Qed.
(** [#[ink(payable)]] and [#[ink(message, selector = 1)]]: the second one becomes
    [#[ink(message, selector = 1, payable)]] and the first one is deleted. *)
Example C46_same_arguments_nonvacuous :
  prints_back one_expr /\ Forall (written one_expr) two_attrs
  /\ flatten_attrs two_attrs
     = Some [edit_replace (lit "#[ink(message, selector = 1, payable)]") (16, 45); edit_delete (0, 15)].
Proof. split; [exact one_expr_prints|]. split; [apply two_attrs_written | reflexivity]. Qed.

(** C46 finding. When the primary attribute is an unknown macro ([#[ink::foo]] next to [#[ink(message)]]), its
    path is lost: the replacement [#[(message)]] is no ink! attribute at all. *)
Definition unknown_attrs : list ink_attr :=
  filter_map (fun x => x)
    [ attr_cast one_expr (AttrSyntax [lit "ink"; lit "foo"] None (0, 11));
      attr_cast one_expr (AttrSyntax [lit "ink"] (Some (17, paren_tree [id_tok (lit "message")])) (12, 27)) ].
Theorem C46_unknown_macro_refuted : exists attrs new,
  Forall (written one_expr) attrs
  /\ flatten_attrs attrs = Some [edit_replace new (0, 11); edit_delete (12, 27)]
  /\ new = lit "#[(message)]" /\ forall px k args, ~ says px new k args.
Proof.
  exists unknown_attrs, (lit "#[(message)]"). split; [|split; [reflexivity|split; [reflexivity|]]].
  - assert (Hw1 : writes_args [WArg (lit "message") None None] [id_tok (lit "message")]).
    { apply (wa_last _ [id_tok (lit "message")] []); [|left; reflexivity].
      apply (writes_arg (lit "message") None None [] IDENT [] [] [] []); auto; try (intros ? []); constructor. }
    constructor; [|constructor; [|constructor]]; (split; [reflexivity|]).
    + left; reflexivity.
    + right. eexists _, _, _. split; [reflexivity | exact Hw1].
  - intros px k args (segs & tt & E & H). destruct (H 0 (0, 0)) as (a & Ha & _).
    unfold attr_cast, attr_can_cast in Ha. cbn [as_segments as_token_tree] in Ha.
    destruct segs as [|c r]; [discriminate|].
    destruct (str_eqb c (lit "ink") || str_eqb c (lit "ink_e2e")) eqn:Ec; [|discriminate].
    apply orb_true_iff in Ec. rewrite !str_eqb_eq in Ec.
    destruct Ec as [-> | ->]; destruct r; discriminate.
Qed.
Print Assumptions C46_unknown_macro_refuted.
