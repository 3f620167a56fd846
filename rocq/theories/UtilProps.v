(** Properties C30, C31, C32, C47, C53, C64. *)
From Verif Require Import Base BaseFacts Unicode PositionModel VersionModel TranslateModel CommandModel
  SyntaxModel TemplateModel UtilModel UtilSpec UtilProofs.

(** * C30: suggested ids are unused *)

(** The suggestion is the least unused id from the preferred one (or 1) on; there is none iff all of them are used;
    the search always ends. *)
Theorem C30_least_unused_id : forall max preferred used lo,
  lo = match preferred with Some p => p | None => 1%N end -> (lo <= max)%N ->
  (exists n, suggest_unique_id max preferred used = Found n /\ least_free lo max used n)
  \/ (suggest_unique_id max preferred used = NotFound /\ forall m, (lo <= m <= max)%N -> In m used).
Proof.
  intros max p used lo -> Hm. pose proof (suggest_unique_id_spec max p used Hm) as H.
  destruct (suggest_unique_id max p used) as [n| |]; [left; exists n; auto | right; auto | destruct H].
Qed.
Theorem C30_none_iff_exhausted : forall max preferred used lo,
  lo = match preferred with Some p => p | None => 1%N end -> (lo <= max)%N ->
  (suggest_unique_id max preferred used = NotFound <-> forall m, (lo <= m <= max)%N -> In m used).
Proof.
  intros max p used lo E Hm. split.
  - intros H. destruct (C30_least_unused_id max p used lo E Hm) as [(n & H' & _)|[_ H']]; [congruence|exact H'].
  - intros H. destruct (C30_least_unused_id max p used lo E Hm) as [(n & _ & Hb & Hn & _)|[H' _]]; [|exact H'].
    exfalso; apply Hn, H, Hb.
Qed.
(** Successive suggestions, each recorded as used, never repeat. *)
Theorem C30_repeated_suggestions_distinct : forall max preferences used,
  (forall p, In p preferences -> match p with Some p => (p <= max)%N | None => (1 <= max)%N end) ->
  NoDup (ids_seq max preferences used)
  /\ forall n, In n (ids_seq max preferences used) -> ~ In n used.
Proof. intros max prefs used H. apply ids_seq_fresh; exact H. Qed.
(** A suggestion is recorded, and nothing else is. *)
Theorem C30_suggestion_is_recorded : forall max preferred used n used',
  suggest_unique_id_mut max preferred used = (Found n, used') -> forall m, In m used' <-> m = n \/ In m used.
Proof.
  intros max p used n used' H m. unfold suggest_unique_id_mut in H.
  destruct (suggest_unique_id max p used); inversion H; subst; simpl; intuition.
Qed.
Example C30_example :
  suggest_unique_id 65535 (Some 2%N) [3; 2; 7; 4]%N = Found 5%N
  /\ suggest_unique_id 65535 (Some 65534%N) [65535; 65534]%N = NotFound
  /\ ids_seq 65535 [None; Some 1%N; None] [2%N] = [1; 3; 4]%N.
Proof. vm_compute. repeat split. Qed.

(** * C31: suggested names are unused *)

(** If one of the preferred name and its 253 suffixed variants is free, the first free one is suggested. *)
Theorem C31_first_free_name_partial : forall preferred used,
  (exists i, i <= 253 /\ ~ In (candidate preferred i) used) ->
  exists i, suggest_unique_name preferred used = candidate preferred i
    /\ ~ In (suggest_unique_name preferred used) used
    /\ forall j, j < i -> In (candidate preferred j) used.
Proof.
  intros p used (k & Hk & Hf). destruct (suggest_unique_name_spec p used) as [(i & _ & E & H1 & H2)|[_ H]].
  - exists i. split; [exact E|]. split; [exact H1|exact H2].
  - exfalso. apply Hf, H, Hk.
Qed.
(** In particular the preferred name itself when it is free. *)
Theorem C31_preferred_if_free : forall preferred used, ~ In preferred used -> suggest_unique_name preferred used = preferred.
Proof.
  intros p used H. destruct (suggest_unique_name_spec p used) as [(i & _ & E & _ & Hj)|[E _]]; [|exact E].
  destruct i as [|i]; [exact E|]. exfalso. apply H. apply (Hj 0). lia.
Qed.
(** Finding: after 253 suffixes the preferred name is suggested although it is used. *)
Definition all_candidates (p : str) : list str := map (candidate p) (seq 0 254).
Theorem C31_names_refuted : exists preferred used, In (suggest_unique_name preferred used) used.
Proof.
  exists (lit "my_event"), (all_candidates (lit "my_event")).
  replace (suggest_unique_name (lit "my_event") (all_candidates (lit "my_event"))) with (lit "my_event") by (vm_compute; reflexivity).
  left. reflexivity.
Qed.
Example C31_example :
  suggest_unique_name (lit "my_event") [lit "my_event"; lit "my_event2"; lit "other"] = lit "my_event3".
Proof. vm_compute. reflexivity. Qed.

(** * C32: re-indenting preserves the code *)

(** Indenting a text that does not end in a blank line: line by line, blank lines stay blank. *)
Theorem C32_indenting_partial : forall s ls indent, tidy s ls -> ~ In c_nl indent -> ~ In c_cr indent ->
  exists ls', is_lines (apply_indenting s indent) ls' /\ Forall2 (indented indent) ls ls'.
Proof.
  intros s ls i H Hn Hr. destruct (apply_indenting_spec s ls i H Hn Hr) as (ls' & (Hl & _) & Hf). exists ls'; auto.
Qed.
Theorem C32_dedenting_partial : forall s ls indent, tidy s ls ->
  exists ls', is_lines (reduce_indenting s indent) ls' /\ Forall2 (dedented indent) ls ls'.
Proof.
  intros s ls i H. destruct (reduce_indenting_spec s ls i H) as (ls' & E & Hn & Hf). exists ls'. split; [|exact Hf].
  split; [exact E|]. split; [|exact Hn]. intros ->. inversion Hf; subst. destruct H as ((_ & Hne & _) & _). apply Hne. reflexivity.
Qed.
Theorem C32_round_trip_partial : forall s ls indent, tidy s ls -> ~ In c_nl indent -> ~ In c_cr indent ->
  reduce_indenting (apply_indenting s indent) indent = s.
Proof. exact indent_roundtrip. Qed.
(** Moving an item: dedenting by its own indentation, then indenting; here for an item whose lines all start with
    that indentation, except the first one (the indentation before the item is not part of it). *)
Theorem C32_moved_item_partial : forall U ws own s first rest target,
  (forall c, In c ws -> u_whitespace U c = true) -> ends_with_indent ws own -> own <> [] ->
  (exists c, forall x, In x own -> x = c) ->
  (~ exists r, first = own ++ r) ->
  tidy s (first :: map (app own) rest) ->
  reduce_indenting s (end_indenting U ws) = unlines (first :: rest)
  /\ forall prefix suffix, (tidy (unlines (first :: rest)) (first :: rest) -> ~ In c_nl target -> ~ In c_cr target ->
       exists ls', is_lines (moved_text U (Some (Tok WHITESPACE ws)) s (Some target) None None) ls'
         /\ Forall2 (indented target) (first :: rest) ls')
     /\ moved_text U (Some (Tok WHITESPACE ws)) s (Some target) (Some prefix) (Some suffix)
        = prefix ++ moved_text U (Some (Tok WHITESPACE ws)) s (Some target) None None ++ suffix.
Proof.
  intros U ws own s first rest target Hw He Hne (c & Hc) Hf Ht.
  assert (Hi : end_indenting U ws = own).
  { rewrite (end_indenting_rev U ws own Hw He). apply (rev_repeat_eq c own Hc). }
  assert (Hr : reduce_indenting s own = unlines (first :: rest)).
  { destruct own as [|d own]; [contradiction|]. unfold reduce_indenting.
    rewrite (map_lines_tidy _ _ _ Ht). f_equal. cbn [map]. f_equal.
    - destruct first as [|x first]; [reflexivity|]. cbn [on_line].
      destruct (strip_prefix (d :: own) (x :: first)) as [r|] eqn:E; [|reflexivity].
      exfalso; apply Hf. exists r. apply strip_prefix_some in E. exact E.
    - rewrite map_map. clear. induction rest as [|l rest IH]; [reflexivity|]. cbn [map]. rewrite IH. f_equal.
      cbn [on_line app]. change (d :: own ++ l) with ((d :: own) ++ l).
      replace (strip_prefix (d :: own) ((d :: own) ++ l)) with (Some l); [reflexivity|].
      symmetry; apply strip_prefix_some; reflexivity. }
  rewrite Hi. split; [exact Hr|]. intros prefix suffix. split.
  - intros Ht' Hn Hcr. unfold moved_text, item_indenting. cbn [kind_of text_of]. rewrite Hi, Hr.
    destruct (apply_indenting_spec _ _ target Ht' Hn Hcr) as (ls' & (Hl & _) & H). exists ls'. auto.
  - unfold moved_text. rewrite <- app_assoc. reflexivity.
Qed.
(** Finding: trailing line breaks and blank lines are lost, and Windows line ends are changed. *)
Theorem C32_round_trip_refuted :
  (exists s indent, ~ In c_nl indent /\ ~ In c_cr indent /\ ~ In c_cr s
     /\ reduce_indenting (apply_indenting s indent) indent <> s)
  /\ (exists s indent, ~ In c_nl indent /\ ~ In c_cr indent /\ last s 0%N <> c_nl
     /\ reduce_indenting (apply_indenting s indent) indent <> s).
Proof.
  split.
  - exists (lit "a" ++ [c_nl]), (lit "  "). cbn. repeat split; try (intros [H|[H|H]]; [discriminate H|discriminate H|exact H]).
    discriminate.
  - exists (lit "a" ++ [c_cr; c_nl] ++ lit "b"), (lit "  "). vm_compute.
    repeat split; try (intros [H|[H|H]]; [discriminate H|discriminate H|exact H]); discriminate.
Qed.
Definition ex_lines : list str := [lit "fn f() {"; []; lit "    x"; lit "}"].
Example C32_example :
  tidy (unlines ex_lines) ex_lines
  /\ apply_indenting (unlines ex_lines) (lit "  ") = unlines [lit "  fn f() {"; []; lit "      x"; lit "  }"].
Proof.
  split; [|vm_compute; reflexivity]. split; [|split].
  - split; [reflexivity|]. split; [discriminate|].
    intros l Hl. simpl in Hl.
    repeat (destruct Hl as [<-|Hl]; [intros C; apply mem_char_In in C; vm_compute in C; discriminate C|]). destruct Hl.
  - intros C; apply mem_char_In in C; vm_compute in C; discriminate C.
  - exists [lit "fn f() {"; []; lit "    x"], (lit "}"). split; [reflexivity|discriminate].
Qed.

(** * C64: the indentation of an item *)

(** The indentation found for an item is the text between the start of its line and the item, if that
    is a repetition of one character. *)
Theorem C64_indentation_partial : forall U ws indent c,
  (forall c, In c ws -> u_whitespace U c = true) -> ends_with_indent ws indent ->
  (forall x, In x indent -> x = c) ->
  item_indenting U (Some (Tok WHITESPACE ws)) = Some indent.
Proof.
  intros U ws i c Hw He Hc. unfold item_indenting. cbn [kind_of text_of].
  rewrite (end_indenting_rev U ws i Hw He), (rev_repeat_eq c i Hc). reflexivity.
Qed.
(** In general its characters come in reverse order. *)
Theorem C64_indentation_reversed : forall U ws indent,
  (forall c, In c ws -> u_whitespace U c = true) -> ends_with_indent ws indent ->
  item_indenting U (Some (Tok WHITESPACE ws)) = Some (rev indent).
Proof.
  intros U ws i Hw He. unfold item_indenting. cbn [kind_of text_of]. rewrite (end_indenting_rev U ws i Hw He). reflexivity.
Qed.
(** Finding: an item indented by a tab and then spaces gets spaces and then a tab. *)
Theorem C64_indentation_refuted : exists U ws indent,
  unicode_ok U /\ (forall c, In c ws -> u_whitespace U c = true) /\ ends_with_indent ws indent
  /\ item_indenting U (Some (Tok WHITESPACE ws)) <> Some indent.
Proof.
  exists ascii_unicode, [c_nl; c_tab; c_space], [c_tab; c_space].
  split; [apply ascii_unicode_ok|]. split; [|split].
  - intros c [<-|[<-|[<-|[]]]]; reflexivity.
  - split; [|right; exists []; reflexivity]. intros [H|[H|[]]]; discriminate H.
  - discriminate.
Qed.
Example C64_example : item_indenting ascii_unicode (Some (Tok WHITESPACE (c_nl :: lit "    "))) = Some (lit "    ").
Proof. reflexivity. Qed.

(** * C47: new projects *)

(** A project is generated iff the name is valid. *)
Theorem C47_valid_names : forall U name v, (exists p, new_project U name v = Ok p) <-> valid_name U name.
Proof. exact new_project_valid. Qed.

(** The module name is the name with underscores for hyphens, the type name is its Pascal case. *)
Definition lib_templates (v : version) : str * str :=
  match v with V5 => (CONTRACT_PLAIN_V5, CONTRACT_SNIPPET_V5) | V4 => (CONTRACT_PLAIN, CONTRACT_SNIPPET) end.
Definition cargo_templates (v : version) : str * str :=
  match v with V5 => (CARGO_TOML_PLAIN_V5, CARGO_TOML_SNIPPET_V5) | V4 => (CARGO_TOML_PLAIN, CARGO_TOML_SNIPPET) end.

Lemma templates_ok v :
  lib_ok (fst (lib_templates v)) = true /\ lib_ok (snd (lib_templates v)) = true
  /\ cargo_ok (fst (cargo_templates v)) = true /\ cargo_ok (snd (cargo_templates v)) = true.
Proof. destruct v; vm_compute; repeat split. Qed.

(** Every file is its template with the names in place of the placeholders, if the module name does not
    contain the placeholder of the type name. *)
Theorem C47_substitution_partial : forall v,
  exists lp ls cp cs,
    template_of (fst (lib_templates v)) lp /\ template_of (snd (lib_templates v)) ls
    /\ template_of (fst (cargo_templates v)) cp /\ template_of (snd (cargo_templates v)) cs
    /\ (In ModuleName lp /\ In TypeName lp /\ In ModuleName ls /\ In TypeName ls /\ In ModuleName cp /\ In ModuleName cs
        /\ ~ In TypeName cp /\ ~ In TypeName cs)
    /\ forall U name p module,
         new_project U name v = Ok p ->
         Forall2 (fun a b => b = if N.eqb a c_hyphen then c_underscore else a) name module ->
         ~ occurs (lit "MyContract") module ->
         exists type, pascal_of module type
         /\ pf_plain (pj_lib p) = expand module type lp /\ pf_snippet (pj_lib p) = expand module type ls
         /\ pf_plain (pj_cargo p) = expand name type cp /\ pf_snippet (pj_cargo p) = expand name type cs.
Proof.
  intros v. destruct (templates_ok v) as (H1 & H2 & H3 & H4).
  exists (lib_pieces (fst (lib_templates v))), (lib_pieces (snd (lib_templates v))),
    (cargo_pieces (fst (cargo_templates v))), (cargo_pieces (snd (cargo_templates v))).
  destruct (lib_ok_spec _ H1) as [A1 B1]. destruct (lib_ok_spec _ H2) as [A2 B2].
  destruct (cargo_ok_spec _ H3) as [A3 B3]. destruct (cargo_ok_spec _ H4) as [A4 B4].
  split; [exact A1|]. split; [exact A2|]. split; [exact A3|]. split; [exact A4|]. split.
  { clear. destruct v; vm_compute; repeat split; try tauto; intros H; repeat destruct H as [H|H]; discriminate H || destruct H. }
  intros U name p module Hp Hm Ho.
  assert (Em : replace_char c_hyphen c_underscore name = module).
  { clear -Hm. induction Hm as [|a b name module E Hm IH]; [reflexivity|]. cbn [replace_char map]. subst b.
    f_equal. exact IH. }
  exists (pascal_case module). split; [apply pascal_case_spec|].
  unfold new_project in Hp. destruct (_ || _); [discriminate Hp|]. destruct (negb _); [discriminate Hp|].
  inversion Hp; subst p; clear Hp. cbn [pj_lib pj_cargo pf_plain pf_snippet]. rewrite Em.
  destruct v; cbn [is_v5 lib_templates cargo_templates fst snd] in *; (split; [apply B1; exact Ho|]); (split; [apply B2; exact Ho|]);
    (split; [apply B3 | apply B4]).
Qed.
(** Finding: for a name that contains the type placeholder the module name is garbled. *)
Theorem C47_substitution_refuted : exists U name v p,
  unicode_ok U /\ valid_name U name /\ ~ In c_hyphen name /\ new_project U name v = Ok p
  /\ ~ occurs (lit "mod " ++ name) (pf_plain (pj_lib p)).
Proof.
  exists ascii_unicode, (lit "aMyContract"), V5.
  destruct (new_project ascii_unicode (lit "aMyContract") V5) as [p|e] eqn:E; [|vm_compute in E; discriminate E].
  exists p. split; [apply ascii_unicode_ok|]. split; [|split; [|split; [reflexivity|]]].
  - apply (new_project_valid _ _ V5). exists p; exact E.
  - intros C; apply mem_char_In in C; vm_compute in C; discriminate C.
  - apply occursb_no. inversion E as [E']. vm_compute. reflexivity.
Qed.
Example C47_example : exists p, new_project ascii_unicode (lit "flip-per_2") V4 = Ok p
  /\ occurs (lit "pub mod flip_per_2 {") (pf_plain (pj_lib p)) /\ occurs (lit "impl FlipPer2 {") (pf_plain (pj_lib p))
  /\ occurs (lit "name = ""flip-per_2""") (pf_plain (pj_cargo p)).
Proof.
  destruct (new_project ascii_unicode (lit "flip-per_2") V4) as [p|e] eqn:E; [|vm_compute in E; discriminate E].
  exists p. split; [reflexivity|]. inversion E as [E']. repeat split; apply occursb_spec; vm_compute; reflexivity.
Qed.

(** * C53: reserved identifiers *)

(** An identifier token is reported iff it starts with [__ink_], at its own range, as an error. *)
Theorem C53_reported_exactly : forall e o lo hi,
  (exists d, In d (ensure_no_ink_identifiers e o) /\ ad_range d = (lo, hi) /\ ad_severity d = SevError)
  <-> exists pre rest post, leaves e = pre ++ (IDENT, lit "__ink_" ++ rest) :: post
        /\ lo = o + bytes (flat_map snd pre) /\ hi = lo + bytes (lit "__ink_" ++ rest).
Proof.
  intros e o lo hi. unfold ensure_no_ink_identifiers. split.
  - intros (d & Hd & Hr & Hs). apply filter_map_In in Hd as ([[q k] s] & Ht & Hd).
    apply tokens_at_In in Ht as (pre & k' & s' & post & El & E). inversion E; subst q k' s'; clear E.
    unfold ident_diag in Hd. destruct k; try discriminate Hd.
    destruct (starts_with (lit "__ink_") s) eqn:Es; [|discriminate Hd].
    apply starts_with_app in Es as (rest & ->). inversion Hd; subst d; clear Hd. cbn [ad_range] in Hr.
    inversion Hr; subst lo hi. exists pre, rest, post. split; [exact El|]. split; reflexivity.
  - intros (pre & rest & post & El & -> & ->).
    set (t := (o + bytes (flat_map snd pre), IDENT, lit "__ink_" ++ rest)).
    assert (Ht : In t (tokens_at o (leaves e))) by (apply tokens_at_In; exists pre, IDENT, (lit "__ink_" ++ rest), post; auto).
    assert (Es : starts_with (lit "__ink_") (lit "__ink_" ++ rest) = true) by (apply starts_with_app; exists rest; reflexivity).
    destruct (ident_diag t) as [d|] eqn:Ed.
    + exists d. split; [apply filter_map_In; exists t; auto|]. unfold t, ident_diag in Ed. rewrite Es in Ed.
      inversion Ed; subst d. split; reflexivity.
    + exfalso. unfold t, ident_diag in Ed. rewrite Es in Ed. discriminate Ed.
Qed.
(** The replacement is the identifier without its prefix, if the rest does not contain it again; it replaces
    exactly the identifier. *)
Theorem C53_suggestion_partial : forall o rest, ~ occurs (lit "__ink_") rest ->
  exists d, ident_diag (o, IDENT, lit "__ink_" ++ rest) = Some d
    /\ (rest = [] -> ad_fixes d = None)
    /\ (rest <> [] -> exists a, ad_fixes d = Some [a] /\ ac_kind a = AkQuickFix
          /\ ac_edits a = [TextEdit rest (o, o + bytes (lit "__ink_" ++ rest)) (Some (lit "${1:" ++ rest ++ lit "}"))]
          /\ starts_with (lit "__ink_") rest = false).
Proof.
  intros o rest Ho. unfold ident_diag.
  replace (starts_with (lit "__ink_") (lit "__ink_" ++ rest)) with true
    by (symmetry; apply starts_with_app; exists rest; reflexivity).
  rewrite str_replace_hit by discriminate. rewrite (str_replace_id (lit "__ink_") [] rest ltac:(discriminate) Ho). change ([] ++ rest) with rest.
  eexists; split; [reflexivity|]. cbn [ad_fixes]. split; [intros ->; reflexivity|]. intros Hne.
  destruct rest as [|c rest]; [contradiction|]. eexists. split; [reflexivity|]. split; [reflexivity|]. split; [reflexivity|].
  destruct (starts_with (lit "__ink_") (c :: rest)) eqn:E; [|reflexivity]. exfalso; apply Ho.
  apply starts_with_app in E as (t & ->). exists [], t. reflexivity.
Qed.
(** Finding: removing all occurrences can produce the prefix again; so can the result not be an identifier. *)
Theorem C53_suggestion_refuted :
  (exists o rest d a, ident_diag (o, IDENT, lit "__ink_" ++ rest) = Some d /\ ad_fixes d = Some [a]
     /\ exists e, ac_edits a = [e] /\ starts_with (lit "__ink_") (te_text e) = true)
  /\ (exists o rest d a, ident_diag (o, IDENT, lit "__ink_" ++ rest) = Some d /\ ad_fixes d = Some [a]
     /\ exists e, ac_edits a = [e] /\ te_text e = lit "1").
Proof.
  split.
  - exists 0, (lit "__in__ink_k_x"). eexists _, _. split; [vm_compute; reflexivity|]. split; [reflexivity|].
    eexists; split; [reflexivity|]. vm_compute. reflexivity.
  - exists 0, (lit "1"). eexists _, _. split; [vm_compute; reflexivity|]. split; [reflexivity|].
    eexists; split; reflexivity.
Qed.
Example C53_example :
  map ad_range (ensure_no_ink_identifiers (Node FN [Tok (OTHER 0) (lit "fn"); Tok WHITESPACE (lit " "); Tok IDENT (lit "__ink_go")]) 10)
  = [(13, 21)].
Proof. vm_compute. reflexivity. Qed.

Print Assumptions C30_least_unused_id.
Print Assumptions C30_none_iff_exhausted.
Print Assumptions C30_repeated_suggestions_distinct.
Print Assumptions C30_suggestion_is_recorded.
Print Assumptions C31_first_free_name_partial.
Print Assumptions C31_preferred_if_free.
Print Assumptions C31_names_refuted.
Print Assumptions C32_indenting_partial.
Print Assumptions C32_dedenting_partial.
Print Assumptions C32_round_trip_partial.
Print Assumptions C32_moved_item_partial.
Print Assumptions C32_round_trip_refuted.
Print Assumptions C64_indentation_partial.
Print Assumptions C64_indentation_reversed.
Print Assumptions C64_indentation_refuted.
Print Assumptions C47_valid_names.
Print Assumptions C47_substitution_partial.
Print Assumptions C47_substitution_refuted.
Print Assumptions C53_reported_exactly.
Print Assumptions C53_suggestion_partial.
Print Assumptions C53_suggestion_refuted.
