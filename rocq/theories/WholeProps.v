(** C108: adding a whole contract, trait definition, chain extension, storage item or environment. *)
From Coq Require Import Lia.
From Verif Require Import Base Unicode VersionModel PositionModel TranslateModel SyntaxModel CommandModel EditModel EditSpec UtilModel UtilSpec UtilProofs ArgEditSpec RuleSpec EntityModel
  TemplateModel EntitySpec EntityProofs WholeModel WholeSpec WholeProofs.

(** The action for each of them *)
Definition whole_added (w : whole) (r : trange) (indent : option str) : whole_action :=
  match w with
  | WContract v => add_contract r indent v
  | WTrait => add_trait_definition r indent
  | WChain v => add_chain_extension r indent v
  | WItem => add_storage_item r indent
  | WEnv v => add_environment r indent v
  end.
Lemma whole_edit w r indent : whole_added w r indent = WholeAction (whole_label w) r [edit_with_indent (whole_texts w) r indent].
Proof. destruct w as [[]| |[]| |[]]; reflexivity. Qed.

(** The action has the range it is asked for and one edit for it, with the lines of the entity, each one indented. Whatever is
    typed into the snippet, the result is the code of the entity with what is typed at all the places it stands for, up to
    white space, and the snippet can be filled in no other way. *)
Theorem C108_added U w r indent : unicode_ok U -> all_white U (opt_str indent) ->
  wa_label (whole_added w r indent) = whole_label w /\ wa_range (whole_added w r indent) = r
  /\ exists e s, wa_edits (whole_added w r indent) = [e] /\ te_range e = r
     /\ te_text e = code (opt_str indent) (whole_lines untouched w) /\ te_snippet e = Some s
     /\ forall f, exists t, typed f s t /\ (forall t', typed f s t' -> t' = t)
        /\ visible U t = visible U (concat (whole_lines (given f) w)).
Proof.
  intros HU Hi. rewrite whole_edit. split; [reflexivity|]. split; [reflexivity|].
  destruct (edit_text U w r indent HU Hi) as (E1 & E2 & s & E3 & E4). exists (edit_with_indent (whole_texts w) r indent), s.
  split; [reflexivity|]. split; [exact E1|]. split; [exact E2|]. split; [exact E3|]. intros f. destruct (E4 f) as (t & Ht & Ev).
  exists t. split; [exact Ht|]. split; [|exact Ev]. intros t' H'. exact (typed_once f s t' t H' Ht).
Qed.
(** If nothing is typed, the snippet is the text, up to white space. *)
Theorem C108_untouched U w r indent : unicode_ok U -> all_white U (opt_str indent) ->
  exists e s t, wa_edits (whole_added w r indent) = [e] /\ te_snippet e = Some s /\ typed (fun _ => None) s t /\ visible U t = visible U (te_text e).
Proof.
  intros HU Hi. destruct (C108_added U w r indent HU Hi) as (_ & _ & e & s & E1 & _ & E2 & E3 & E4). destruct (E4 (fun _ => None)) as (t & Ht & _ & Ev).
  exists e, s, t. split; [exact E1|]. split; [exact E3|]. split; [exact Ht|]. rewrite Ev, E2, (visible_code U _ _ HU Hi). reflexivity.
Qed.
(** Typing one name *)
Lemma name_typed U w r indent i x : unicode_ok U -> all_white U (opt_str indent) ->
  exists e s t, wa_edits (whole_added w r indent) = [e] /\ te_snippet e = Some s /\ typed (only i x) s t
  /\ visible U t = visible U (concat (whole_lines (given (only i x)) w)).
Proof.
  intros HU Hi. destruct (C108_added U w r indent HU Hi) as (_ & _ & e & s & E1 & _ & _ & E3 & E4). destruct (E4 (only i x)) as (t & Ht & _ & Ev).
  exists e, s, t. auto.
Qed.
Lemma not_occurs p l : forallb (fun s => negb (occursb p s)) l = true -> forall s, In s l -> ~ UtilSpec.occurs p s.
Proof. intros H s Hs C. rewrite forallb_forall in H. specialize (H s Hs). apply occursb_spec in C. rewrite C in H. discriminate. Qed.
(** A name that is typed for the error code of a chain extension is used wherever the code refers to it: nothing is left of
    the name that was proposed. *)
Theorem C108_error_code U v x r indent : unicode_ok U -> all_white U (opt_str indent) ->
  exists e s t a b c d, wa_edits (add_chain_extension r indent v) = [e] /\ te_snippet e = Some s
  /\ typed (only (match v with V4 => 2%N | V5 => 3%N end) x) s t
  /\ visible U t = visible U (a ++ lit "type ErrorCode = " ++ x ++ lit ";" ++ b ++ lit "pub enum " ++ x ++ lit " {" ++ c
       ++ lit "impl ink::env::chain_extension::FromStatusCode for " ++ x ++ lit " {" ++ d)
  /\ forall p, In p [a; b; c; d] -> ~ UtilSpec.occurs (lit "CustomErrorCode") p.
Proof.
  intros HU Hi. destruct (name_typed U (WChain v) r indent (match v with V4 => 2%N | V5 => 3%N end) x HU Hi) as (e & s & t & E1 & E2 & Ht & Ev).
  pose (L := whole_lines untouched (WChain v)).
  exists e, s, t, (concat (firstn 2 L) ++ lit "    "), (concat (firstn 6 (skipn 3 L))), (concat (firstn 3 (skipn 10 L))), (concat (skipn 14 L)).
  split; [exact E1|]. split; [exact E2|]. split; [exact Ht|]. split.
  - rewrite Ev. f_equal. subst L. destruct v; cbn [whole_lines concat firstn skipn]; unfold given, only; cbn [N.eqb Pos.eqb]; rewrite <- !app_assoc; vm_compute; reflexivity.
  - apply not_occurs. subst L. destruct v; vm_compute; reflexivity.
Qed.
(** The same for the storage of a contract. *)
Theorem C108_storage U v x r indent : unicode_ok U -> all_white U (opt_str indent) ->
  exists e s t a b c, wa_edits (add_contract r indent v) = [e] /\ te_snippet e = Some s /\ typed (only 2%N x) s t
  /\ visible U t = visible U (a ++ lit "pub struct " ++ x ++ lit " {}" ++ b ++ lit "impl " ++ x ++ lit " {" ++ c)
  /\ forall p, In p [a; b; c] -> ~ UtilSpec.occurs (lit "MyContract") p.
Proof.
  intros HU Hi. destruct (name_typed U (WContract v) r indent 2%N x HU Hi) as (e & s & t & E1 & E2 & Ht & Ev).
  pose (L := whole_lines untouched (WContract v)).
  exists e, s, t, (concat (firstn 5 L) ++ lit "    "), (lit "    "), (concat (skipn 8 L)).
  split; [exact E1|]. split; [exact E2|]. split; [exact Ht|]. split.
  - rewrite Ev. f_equal. subst L. destruct v; cbn [whole_lines concat firstn skipn]; unfold given, only; cbn [N.eqb Pos.eqb]; rewrite <- !app_assoc; vm_compute; reflexivity.
  - apply not_occurs. subst L. destruct v; vm_compute; reflexivity.
Qed.
(** A name that is typed for an environment is not: the implementation is still for the name that was proposed. *)
Theorem C108_environment_refuted U v x r indent : unicode_ok U -> all_white U (opt_str indent) ->
  exists e s t a b, wa_edits (add_environment r indent v) = [e] /\ te_snippet e = Some s /\ typed (only 2%N x) s t
  /\ visible U t = visible U (a ++ lit "pub enum " ++ x ++ lit " {}" ++ lit "impl ink::env::Environment for MyEnvironment {" ++ b).
Proof.
  intros HU Hi. destruct (name_typed U (WEnv v) r indent 2%N x HU Hi) as (e & s & t & E1 & E2 & Ht & Ev).
  pose (L := whole_lines untouched (WEnv v)).
  exists e, s, t, (concat (firstn 2 L)), (concat (skipn 5 L)).
  split; [exact E1|]. split; [exact E2|]. split; [exact Ht|].
  rewrite Ev. f_equal. subst L. destruct v; cbn [whole_lines concat firstn skipn]; unfold given, only; cbn [N.eqb Pos.eqb]; rewrite <- !app_assoc; vm_compute; reflexivity.
Qed.
(** The names do not depend on the file: added twice, an entity is declared twice with the same name. *)
Theorem C108_same_names_refuted w r r' indent : map te_text (wa_edits (whole_added w r indent)) = map te_text (wa_edits (whole_added w r' indent)).
Proof. rewrite !whole_edit. destruct indent; reflexivity. Qed.
(** Wherever a contract is added, it begins with an inner attribute, which Rust only allows at the beginning of a file. *)
Theorem C108_inner_refuted U r indent v : unicode_ok U -> all_white U (opt_str indent) ->
  exists e rest, wa_edits (add_contract r indent v) = [e] /\ te_range e = r
  /\ te_text e = opt_str indent ++ lit "#![cfg_attr(not(feature = ""std""), no_std)]" ++ rest.
Proof.
  intros HU Hi. destruct (C108_added U (WContract v) r indent HU Hi) as (_ & _ & e & s & E1 & Er & E2 & _).
  destruct v; exists e; eexists; (split; [exact E1|]); (split; [exact Er|]); rewrite E2; unfold code; cbn [whole_lines map unlines];
    change (indent_line (opt_str indent) (lit "#![cfg_attr(not(feature = ""std""), no_std)]")) with (opt_str indent ++ lit "#![cfg_attr(not(feature = ""std""), no_std)]");
    rewrite <- app_assoc; reflexivity.
Qed.

(** A storage item that is indented by a tab, with the name [Balances] and a field *)
Example C108_example : all_white ascii_unicode [9%N] /\ unicode_ok ascii_unicode
  /\ map te_text (wa_edits (add_storage_item (3, 7) (Some [9%N]))) = [9%N :: lit "#[ink::storage_item]" ++ c_nl :: 9%N :: lit "pub struct StorageItem {}"]
  /\ concat (whole_lines (given (fun i => if (i =? 2)%N then Some (lit "Balances") else if (i =? 3)%N then Some (lit "total: u128") else None)) WItem)
     = lit "#[ink::storage_item]pub struct Balances {total: u128}".
Proof.
  split; [intros c [<-|[]]; reflexivity|]. split; [exact ascii_unicode_ok|]. split; vm_compute; reflexivity.
Qed.

Print Assumptions C108_added.
Print Assumptions C108_untouched.
Print Assumptions C108_error_code.
Print Assumptions C108_storage.
Print Assumptions C108_environment_refuted.
Print Assumptions C108_same_names_refuted.
Print Assumptions C108_inner_refuted.
