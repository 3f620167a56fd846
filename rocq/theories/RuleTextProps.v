(** C76, C77, C104: what counts as documentation and as a type, the snippets of quick fixes, the edits for all tests. *)
From Coq Require Import List Lia.
From Verif Require Import Base BaseFacts Unicode PositionModel TranslateModel SyntaxModel AttrModel EditModel ArgEditModel RuleModel ScaleFixSpec ScaleFixProofs TravModel E2EModel ImportModel TogetherModel.
Import ListNotations.

(** ** Documentation *)
(** The Rust reference: documentation is written as a line comment with exactly three slashes or with [//!], or as a block comment
    that starts with exactly two asterisks (and is not [/**/]) or with [/*!]. *)
Definition begins (c : N) (s : str) : Prop := exists r, s = c :: r.
Inductive documentation : str -> Prop :=
  | outer_line r : ~ begins 47%N r -> documentation (lit "///" ++ r)
  | inner_line r : documentation (lit "//!" ++ r)
  | outer_block r : ~ begins 42%N r -> ~ begins 47%N r -> documentation (lit "/**" ++ r)
  | inner_block r : documentation (lit "/*!" ++ r).
Local Arguments N.eqb !n !m : simpl nomatch.
Theorem C76_documentation : forall t, is_doc t = true <-> documentation t.
Proof.
  intros t. unfold is_doc.
  repeat match goal with |- context [lit ?s] => let x := eval vm_compute in (lit s) in change (lit s) with x end. split.
  - intros H. destruct t as [|a [|b [|c r]]].
    + vm_compute in H. discriminate H.
    + exfalso. revert H. cbn. destruct (N.eqb 47 a); cbn; discriminate.
    + exfalso. revert H. cbn. destruct (N.eqb 47 a), (N.eqb 47 b), (N.eqb 42 b); cbn; discriminate.
    + revert H. cbn. destruct (N.eqb_spec 47 a) as [<-|Ha]; [|cbn; discriminate].
      destruct (N.eqb_spec 42 b) as [<-|Hb].
      * cbn. destruct (N.eqb_spec 42 c) as [<-|Hc].
        -- destruct r as [|d r]; cbn.
           ++ intros _. apply (outer_block []); intros (? & E); discriminate E.
           ++ destruct (N.eqb_spec 47 d) as [<-|H1]; [cbn; discriminate|]. destruct (N.eqb_spec 42 d) as [<-|H2]; [cbn; discriminate|]. intros _. apply (outer_block (d :: r)); intros (r' & E); injection E as E _; congruence.
        -- destruct (N.eqb_spec 33 c) as [<-|Hd]; cbn; [|discriminate]. intros _. apply (inner_block r).
      * destruct (N.eqb_spec 47 b) as [<-|Hd]; cbn; [|discriminate]. destruct (N.eqb_spec 47 c) as [<-|Hc].
        -- destruct r as [|d r]; cbn.
           ++ intros _. apply (outer_line []); intros (? & E); discriminate E.
           ++ destruct (N.eqb_spec 47 d) as [<-|H1]; [cbn; discriminate|]. intros _. apply (outer_line (d :: r)); intros (r' & E); injection E as E _; congruence.
        -- destruct (N.eqb_spec 33 c) as [<-|He]; cbn; [|discriminate]. intros _. apply (inner_line r).
  - intros [r H|r|r H1 H2|r]; try reflexivity; repeat match goal with |- context [lit ?s] => let x := eval vm_compute in (lit s) in change (lit s) with x end.
    + destruct r as [|d r]; [reflexivity|]. cbn. destruct (N.eqb_spec 47 d) as [<-|_]; [destruct H; exists r; reflexivity | reflexivity].
    + destruct r as [|d r]; [reflexivity|]. cbn. destruct (N.eqb_spec 47 d) as [<-|_]; [destruct H2; exists r; reflexivity|]. destruct (N.eqb_spec 42 d) as [<-|_]; [destruct H1; exists r; reflexivity | reflexivity].
Qed.
Example documentation_examples : documentation (lit "/// d") /\ documentation (lit "/** d */") /\ ~ documentation (lit "/**/") /\ ~ documentation (lit "/*** d */") /\ ~ documentation (lit "//// d").
Proof. repeat split; rewrite <- C76_documentation; vm_compute; [reflexivity | reflexivity | discriminate | discriminate | discriminate]. Qed.

(** ** Types *)
(** rust-analyzer's [ast::Type], in the order of its variants: array, dyn, fn pointer, for, impl, infer, macro, never, paren, path,
    pointer, reference, slice, tuple *)
Definition type_kinds : list skind := map OTHER [130; 131; 132; 133; 134; 135; 136; 137; 138; 139; 140; 141; 142; 143].
Theorem C76_types : forall k, is_type k = true <-> In k type_kinds.
Proof.
  intros k. unfold type_kinds. rewrite in_map_iff. split.
  - intros H. assert (E : exists n, k = OTHER n) by (destruct k; try discriminate H; eexists; reflexivity). destruct E as (n & ->). unfold is_type in H. apply Bool.andb_true_iff in H. destruct H as (H1 & H2). apply PeanoNat.Nat.leb_le in H1. apply PeanoNat.Nat.ltb_lt in H2.
    exists n. split; [reflexivity|]. cbn [In]. lia.
  - intros (n & <- & H). repeat (destruct H as [<-|H]; [reflexivity|]). destruct H.
Qed.

(** ** Snippets *)
Definition snippet_agrees (ed : text_edit) : Prop := forall s, te_snippet ed = Some s -> expands s (te_text ed).
(** In every fix for a function the snippet, if there is one, is the text with placeholders. *)
Definition agreeing (c : check) : Prop := forall ds, c = Done ds -> forall d fx ed, In d ds -> In fx (rd_fixes d) -> In ed fx -> snippet_agrees ed.
Lemma agree_both a b : agreeing a -> agreeing b -> agreeing (both a b).
Proof.
  intros Ha Hb ds E d fx ed Hd. unfold both in E. destruct a as [x|]; [|discriminate E]. destruct b as [y|]; [|discriminate E]. cbn in E. injection E as <-.
  apply in_app_or in Hd. destruct Hd as [Hd|Hd]; [exact (Ha x eq_refl d fx ed Hd) | exact (Hb y eq_refl d fx ed Hd)].
Qed.
Lemma agree_none : agreeing none.
Proof. intros ds E. injection E as <-. intros d fx ed []. Qed.
Lemma agree_checks l : (forall c, In c l -> agreeing c) -> agreeing (checks l).
Proof. induction l as [|c l IH]; intros H; [apply agree_none|]. apply agree_both; [apply H; left; reflexivity | apply IH; intros x Hx; apply H; right; exact Hx]. Qed.
Lemma agree_one d : (forall fx ed, In fx (rd_fixes d) -> In ed fx -> snippet_agrees ed) -> agreeing (Done [d]).
Proof. intros H ds E. injection E as <-. intros d' fx ed [<-|[]]. apply H. Qed.
Lemma agree_bind {A} (o : outcome A) f : (forall x, agreeing (f x)) -> agreeing (obind_o o f).
Proof. intros H. destruct o as [x|]; [exact (H x) | intros ds E; discriminate E]. Qed.
Lemma agree_delete r a b : agreeing (Done [one_fix r a b]).
Proof. apply agree_one. intros fx ed [<-|[]] [<-|[]] s E. discriminate E. Qed.
Theorem C77_snippets : forall e toks item ds d fx ed, fn_diags e toks item = Done ds -> In d ds -> In fx (rd_fixes d) -> In ed fx -> snippet_agrees ed.
Proof.
  intros e toks item. enough (A : agreeing (fn_diags e toks item)) by (intros ds d fx ed E; exact (A ds E d fx ed)).
  assert (K : forall r k, agreeing (no_keyword r k toks item)).
  { intros r k. unfold no_keyword. destruct (child_token k item); [|apply agree_none]. apply agree_bind. intros x. apply agree_delete. }
  assert (F : agreeing (fn_invariants toks item)).
  { apply agree_checks. intros c [<-|[<-|[<-|[<-|[<-|[<-|[]]]]]]]; try apply K.
    - unfold no_generics. destruct (child_node GENERIC_PARAM_LIST item); [apply agree_delete | apply agree_none].
    - unfold no_abi. destruct (child_node ABI item); [|apply agree_none]. apply agree_bind. intros x. apply agree_delete.
    - unfold no_variadic. destruct (child_node PARAM_LIST item) as [pl|]; [|apply agree_none]. apply agree_checks. intros c Hc. apply in_map_iff in Hc. destruct Hc as (p & <- & _).
      destruct (child_token DOT3 p); [|apply agree_none]. apply agree_bind. intros x. apply agree_delete. }
  assert (C : agreeing (callable_invariants toks item)).
  { apply agree_both; [|exact F]. unfold pub_or_inherited. destruct (child_node VISIBILITY item) as [v|]; [|apply agree_none]. destruct (str_eqb _ _); [apply agree_none|]. apply agree_bind. intros x. apply agree_one.
    intros fx ed [<-|[<-|[]]] [<-|[]] s E; discriminate E. }
  assert (R : agreeing (no_self_receiver toks item)).
  { unfold no_self_receiver. destruct (obind _ _); [|apply agree_none]. apply agree_bind. intros x. apply agree_delete. }
  destruct e; apply agree_checks; (intros c [<-|H]; [assumption|]); repeat (destruct H as [<-|H]; [try assumption|]); try destruct H.
  - unfold return_type. apply agree_bind. intros rg. destruct (obind (child_node RET_TYPE item) child_type); [apply agree_none|]. apply agree_one. cbn [rd_fixes].
    destruct (child_node PARAM_LIST item); [|intros fx ed []]. intros fx ed [<-|[]] [<-|[]] s E. injection E as <-. cbn [te_text edit_insert_snippet].
    eexists. apply (expands_app (lit " -> ") (lit " -> ") (lit "${1:Self}") (lit "Self") 1 1); [apply expands_plain; vm_compute; intuition discriminate|].
    apply (expands_one 1 (lit "Self")). vm_compute. intuition discriminate.
  - unfold self_ref_receiver. apply agree_bind. intros rg. destruct (is_some _); [apply agree_none|]. apply agree_one. cbn [rd_fixes].
    destruct (obind _ (child_token L_PAREN)); [|intros fx ed []]. intros fx ed [<-|[<-|[]]] [<-|[]] s E; discriminate E.
  - unfold not_return_self. destruct (child_node RET_TYPE item) as [rt|]; [|apply agree_none]. destruct (child_type rt); [|apply agree_none]. apply agree_bind. intros x. destruct (str_eqb _ _); [apply agree_delete | apply agree_none].
Qed.

(** ** The tests of a file *)
(** The edits for the tests of a file are those for each of its tests. *)
Theorem C104_tests : forall zero rs toks root ts es, e2e_edits zero rs toks root ts = Done es ->
  forall ed, In ed es <-> exists t es', In t ts /\ e2e_test_edits zero rs toks root t = Done es' /\ In ed es'.
Proof.
  intros zero rs toks root ts es H ed. unfold e2e_edits in H. destruct (all_done (map (e2e_test_edits zero rs toks root) ts)) as [l|] eqn:E; [|discriminate H]. injection H as <-.
  revert l E. induction ts as [|t ts IH]; intros l E; cbn [map all_done] in E.
  - injection E as <-. split; [intros [] | intros (t & es' & [] & _)].
  - destruct (e2e_test_edits zero rs toks root t) as [a|] eqn:Ea; [|discriminate E]. cbn [obind_o] in E. destruct (all_done _) as [r|] eqn:Er; [|discriminate E]. cbn [obind_o] in E. injection E as <-.
    cbn [concat]. rewrite in_app_iff, (IH r eq_refl). split.
    + intros [H|(t' & es' & H1 & H2)]; [exists t, a; split; [left; reflexivity | auto] | exists t', es'; split; [right; exact H1 | exact H2]].
    + intros (t' & es' & [<-|H1] & H2 & H3); [left; congruence | right; exists t', es'; auto].
Qed.
(** The edits for a test are those for its attribute, its signature, its body and its imports. *)
Theorem C104_test : forall zero rs toks root t es, e2e_test_edits zero rs toks root t = Done es ->
  exists attr imports, match et_attr t with Some a => migrate_e2e_attribute toks a = Done attr | None => attr = [] end
    /\ deprecated_imports toks (et_parent t) root = Done imports
    /\ forall ed, In ed es <-> In ed attr \/ In ed (fn_sig (et_params t) (et_name t))
                   \/ (exists b, et_body t = Some b /\ In ed (e2e_body zero rs b (et_around t) (et_inside t))) \/ In ed imports.
Proof.
  intros zero rs toks root t es H. unfold e2e_test_edits in H.
  destruct (match et_attr t with Some a => migrate_e2e_attribute toks a | None => Done [] end) as [attr|] eqn:Ea; [|discriminate H]. cbn [obind_o] in H.
  destruct (deprecated_imports toks (et_parent t) root) as [imports|]; [|discriminate H]. cbn [obind_o] in H. injection H as <-.
  exists attr, imports. split; [destruct (et_attr t); [exact Ea | injection Ea as <-; reflexivity]|]. split; [reflexivity|]. intros ed. rewrite !in_app_iff.
  destruct (et_body t) as [b|].
  - split; [intros [H|[H|[H|H]]]; eauto 7 | intros [H|[H|[(b' & E & H)|H]]]; [tauto | tauto | injection E as <-; tauto | tauto]].
  - cbn. split; [tauto|]. intros [H|[H|[(b' & E & _)|H]]]; [tauto | tauto | discriminate E | tauto].
Qed.
Print Assumptions C76_documentation. Print Assumptions C76_types. Print Assumptions C77_snippets. Print Assumptions C104_tests. Print Assumptions C104_test.
