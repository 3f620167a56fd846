(** C93: the removal of imports that ink! 5 deprecates. *)
From Coq Require Import Permutation.
From Verif Require Import Base BaseFacts Unicode PositionModel TranslateModel SyntaxModel AttrModel EditSpec ArgEditSpec ArgEditModel RuleModel RuleSpec EntityModel EntitySpec
  ChainSpec ImportModel ImportSpec ImportProofs.

(** The test stands right in a module: in every use declaration of that module, however deep, the imports of
    [ink_e2e::build_message] and [ink_e2e::MessageBuilder] are removed, all others stay, and declarations with nothing
    else go. The rest of the file is as before, and the edits do not overlap. *)
Theorem C93_module_partial : forall pre post cs c root, reads cs c -> imports_okay pre post c ->
  exists edits new, deprecated_imports (place_leaves 0 (pre ++ leaves_of cs ++ post)) (Some (bytes (text pre), Node MODULE cs)) root = Done edits
    /\ Forall2 becomes c new /\ rewritten (text pre ++ texts_of cs ++ text post) edits (text pre ++ concat new ++ text post).
Proof. intros pre post cs c root Hr Hok. apply (removed pre post MODULE cs c); try assumption; [discriminate | reflexivity]. Qed.

(** Else, the same happens in the whole file. *)
Theorem C93_file_partial : forall cs c parent, reads cs c -> imports_okay [] [] c -> (forall m, parent = Some m -> kind_of (snd m) <> MODULE) ->
  exists edits new, deprecated_imports (place_leaves 0 (leaves_of cs)) parent (0, Node SOURCE_FILE cs) = Done edits
    /\ Forall2 becomes c new /\ rewritten (texts_of cs) edits (concat new).
Proof.
  intros cs c parent Hr Hok Hp. destruct (removed [] [] SOURCE_FILE cs c parent (0, Node SOURCE_FILE cs) Hr) as (edits & new & D & B & W); [discriminate | exact Hok | |].
  - unfold import_scope. destruct parent as [m|]; [|reflexivity]. unfold lkind. destruct (skind_eqb (kind_of (snd m)) MODULE) eqn:E; [|reflexivity].
    apply skind_eqb_eq in E. contradiction (Hp m eq_refl E).
  - exists edits, new. change (text []) with (@nil N) in W. cbn [app] in D, W. rewrite app_nil_r in D. rewrite !app_nil_r in W. rewrite ?app_nil_r in W. split; [exact D|]. split; [exact B | exact W].
Qed.

(** Both forms of the two deprecated paths agree. *)
Theorem C93_deprecated : forall w, deprecatedb w = true <-> deprecated w.
Proof. exact deprecated_iff. Qed.

(** Nothing is done in a scope without a deprecated import. *)
Theorem C93_untouched : forall toks k cs c o parent root, reads cs c -> k = MODULE /\ parent = Some (o, Node k cs) \/ k = SOURCE_FILE /\ parent = None /\ root = (o, Node k cs) ->
  (forall f t g, In (Import f t g) c -> use_front f /\ tree_ok t /\ blank g /\ Forall useless (f ++ [tree_node t]) /\ usual t
    /\ forall w, In w (imports t) -> ~ from_inside w /\ ~ deprecated w) ->
  deprecated_imports toks parent root = Done [].
Proof.
  intros toks k cs c o parent root Hr Hs Hok. destruct Hs as [(-> & ->)|(-> & -> & ->)]; [apply (quiet toks MODULE cs c o) | apply (quiet toks SOURCE_FILE cs c o)]; try assumption; try discriminate; reflexivity.
Qed.

(** ** Examples *)
Definition w_ (s : string) : list elem := [Tok IDENT (lit s)].
Definition sp_ : elem := Tok WHITESPACE (lit " ").
Definition colons_ : list elem := [Tok COLON2 (lit "::")].
Definition use_ : list elem := [Tok (OTHER 151) (lit "use"); sp_].
Definition one_ (s : string) : utree := One (Seg (w_ s)) Nothing.
Definition e2e_ (l : list entry) (trail : option (list elem)) : utree := Many (Some (Seg (w_ "ink_e2e"), colons_)) l trail.
Definition path_ (s : string) : utree := One (Qual (Seg (w_ "ink_e2e")) colons_ (w_ s)) Nothing.

Lemma one_ok s : lit s <> [] -> tree_ok (one_ s).
Proof.
  intros H. constructor; [|exact I]. split; [|constructor; [discriminate | constructor]]. split; [constructor; [exact H | constructor]|].
  split; [exists (IDENT, lit s), []; auto | exists [], (IDENT, lit s); auto].
Qed.
Lemma sp_blank : blank [sp_].
Proof. constructor; [|constructor]. exists WHITESPACE, (lit " "). split; [reflexivity|]. split; [reflexivity | discriminate]. Qed.
Lemma use_ok : use_front use_.
Proof.
  split; [repeat constructor; discriminate|]. split; [|intros cs [H|[H|[]]]; discriminate].
  exists (OTHER 151, lit "use"), [(WHITESPACE, lit " ")]. split; [reflexivity|]. split; [reflexivity|]. split; [discriminate|]. left. exists [sp_]. split; [exact sp_blank | reflexivity].
Qed.

(** [mod tests { use ink_e2e::build_message; use ink_e2e::{Client, build_message, }; #[ink_e2e::test] fn f() {} }] *)
Definition mixed : utree := e2e_ [([], one_ "Client", []); ([sp_], one_ "build_message", [])] (Some [sp_]).
Definition cs_ : list elem :=
  [Tok (OTHER 152) (lit "mod tests {"); sp_; use_node use_ (path_ "build_message") []; sp_; use_node use_ mixed []; sp_;
   Node FN [Tok (OTHER 153) (lit "#[ink_e2e::test] fn f() {}")]; sp_; Tok R_CURLY (lit "}")].
Definition chunks_ : list chunk :=
  [Plain (OTHER 152, lit "mod tests {"); Plain (WHITESPACE, lit " "); Import use_ (path_ "build_message") []; Plain (WHITESPACE, lit " "); Import use_ mixed [];
   Plain (WHITESPACE, lit " "); Plain (OTHER 153, lit "#[ink_e2e::test] fn f() {}"); Plain (WHITESPACE, lit " "); Plain (R_CURLY, lit "}")].
Example reads_example : reads cs_ chunks_ /\ texts_of cs_ = lit "mod tests { use ink_e2e::build_message; use ink_e2e::{Client, build_message, }; #[ink_e2e::test] fn f() {} }".
Proof.
  split; [|reflexivity]. unfold cs_, chunks_. do 2 constructor. apply reads_use. constructor. apply reads_use. constructor.
  apply (reads_node FN [Tok (OTHER 153) _] _ [Plain (OTHER 153, _)]); [discriminate | | ]; repeat constructor.
Qed.
Lemma inside_not w : length w <= 2 -> ~ from_inside w.
Proof. intros H (d & x & r & -> & [-> | ->]); cbn in H; lia. Qed.
Example okay_example : imports_okay [] [] chunks_.
Proof.
  assert (P1 : import_ok use_ (path_ "build_message") []).
  { split; [exact use_ok|]. split; [|split; [constructor|]].
    - constructor; [|exact I]. pose proof (one_ok "ink_e2e" ltac:(discriminate)) as O1. pose proof (one_ok "build_message" ltac:(discriminate)) as O2.
      inversion O1; subst. inversion O2; subst. split; [assumption|]. split; [exists [], []; repeat constructor | assumption].
    - split; [repeat constructor; discriminate|]. split; [do 2 constructor|]. split; [intros w [<-|[]]; apply inside_not; cbn; lia | intros H; inversion H]. }
  assert (P2 : import_ok use_ mixed []).
  { split; [exact use_ok|]. split; [|split; [constructor|]].
    - constructor; [| apply sp_blank | discriminate|].
      + pose proof (one_ok "ink_e2e" ltac:(discriminate)) as O1. inversion O1; subst. split; [assumption | exists [], []; repeat constructor].
      + intros a t b [E|[E|[]]]; injection E as <- <- <-; (split; [apply sp_blank || constructor|]); (split; [apply one_ok; discriminate | constructor]).
    - split; [repeat constructor; discriminate|]. split.
      { do 2 constructor. intros a t b [E|[E|[]]]; injection E as <- <- <-; constructor. }
      split; [intros w [<-|[<-|[]]]; apply inside_not; cbn; lia|]. intros H. inversion H as [|? ? ? a t b Hi Hb]; subst.
      destruct Hi as [E|[E|[]]]; injection E as <- <- <-; inversion Hb. }
  assert (B : blank [sp_]) by exact sp_blank.
  intros c1 f t g c2 E. unfold chunks_ in E.
  repeat match goal with E : _ = ?c ++ Import _ _ _ :: _ |- _ =>
    destruct c as [|? c]; cbn [app] in E; [try discriminate E; injection E as <- <- <- <- | first [discriminate E | injection E as <- E]] end.
  - split; [exact P1|]. split.
    + right. exists [sp_], (OTHER 152, lit "mod tests {"), []. split; [exact B|]. repeat split; discriminate.
    + right. exists [sp_], (OTHER 151, lit "use"). eexists. split; [exact B|]. split; [reflexivity|]. split; [reflexivity | discriminate].
  - split; [exact P2|]. split.
    + right. exists [sp_], (SEMICOLON, lit ";"), (removelast (removelast (flat_map chunk_leaves (firstn 4 chunks_)))). split; [exact B|].
      split; [vm_compute; reflexivity | split; [reflexivity | discriminate]].
    + right. exists [sp_], (OTHER 153, lit "#[ink_e2e::test] fn f() {}"). eexists. split; [exact B|]. split; [reflexivity|]. split; [reflexivity | discriminate].
Qed.
Example edits_example : exists edits, deprecated_imports (place_leaves 0 (leaves_of cs_)) (Some (0, Node MODULE cs_)) (0, Node MODULE cs_) = Done edits
  /\ rewritten (texts_of cs_) edits (lit "mod tests {  use ink_e2e::{Client,  }; #[ink_e2e::test] fn f() {} }").
Proof.
  eexists. split; [vm_compute; reflexivity|]. exists [Same (lit "mod tests { "); Other (lit "use ink_e2e::build_message;") []; Same (lit " use ink_e2e::{Client, "); Other (lit "build_message,") [];
    Same (lit " }; #[ink_e2e::test] fn f() {} }")].
  split; [vm_compute; reflexivity|]. split; [vm_compute; reflexivity|]. vm_compute. apply Permutation_refl.
Qed.
Example untouched_example : exists c, reads [Tok (OTHER 152) (lit "mod tests {"); use_node use_ (one_ "ink_e2e") []; Tok R_CURLY (lit "}")] c
  /\ (forall f t g, In (Import f t g) c -> use_front f /\ tree_ok t /\ blank g /\ Forall useless (f ++ [tree_node t]) /\ usual t
       /\ forall w, In w (imports t) -> ~ from_inside w /\ ~ deprecated w).
Proof.
  exists [Plain (OTHER 152, lit "mod tests {"); Import use_ (one_ "ink_e2e") []; Plain (R_CURLY, lit "}")]. split; [constructor; apply reads_use; repeat constructor|].
  intros f t g [E|[E|[E|[]]]]; try discriminate. injection E as <- <- <-. split; [exact use_ok|]. split; [apply one_ok; discriminate|]. split; [constructor|].
  split; [repeat constructor; discriminate|]. split; [repeat constructor|]. intros w [<-|[]]. split; [apply inside_not; cbn; lia | intros [H|H]; discriminate].
Qed.

(** ** What goes wrong *)

(** Two deprecated items at the end of a list: the edits overlap. *)
Definition meet (a b : text_edit) : Prop := Nat.max (fst (te_range a)) (fst (te_range b)) < Nat.min (snd (te_range a)) (snd (te_range b)).
Theorem C93_overlap_refuted : exists cs a b, reads cs [Import use_ (e2e_ [([], one_ "Client", []); ([sp_], one_ "build_message", []); ([sp_], one_ "MessageBuilder", [])] None) []]
  /\ texts_of cs = lit "use ink_e2e::{Client, build_message, MessageBuilder};"
  /\ deprecated_imports (place_leaves 0 (leaves_of cs)) None (0, Node SOURCE_FILE cs) = Done [a; b] /\ meet a b.
Proof.
  eexists [use_node use_ _ []]. do 2 eexists. split; [apply reads_use, reads_nil|]. split; [vm_compute; reflexivity|]. split; [vm_compute; reflexivity|].
  unfold meet. vm_compute. lia.
Qed.
(** Deprecated imports stay: in braces in other braces, behind a path of their own, or with a leading [::]. *)
Theorem C93_nested_refuted : exists cs t, reads cs [Import use_ t []] /\ tree_ok t /\ Forall deprecated (imports t)
  /\ texts_of cs = lit "use ink_e2e::{{build_message}};"
  /\ deprecated_imports (place_leaves 0 (leaves_of cs)) None (0, Node SOURCE_FILE cs) = Done [].
Proof.
  exists [use_node use_ (e2e_ [([], Many None [([], one_ "build_message", [])] None, [])] None) []], (e2e_ [([], Many None [([], one_ "build_message", [])] None, [])] None).
  split; [apply reads_use, reads_nil|]. split.
  - constructor; [|exact I | discriminate|].
    + pose proof (one_ok "ink_e2e" ltac:(discriminate)) as O1. inversion O1; subst. split; [assumption | exists [], []; repeat constructor].
    + intros a t b [E|[]]. injection E as <- <- <-. split; [constructor|]. split; [|constructor]. constructor; [exact I | exact I | discriminate|].
      intros a t b [E|[]]. injection E as <- <- <-. split; [constructor|]. split; [apply one_ok; discriminate | constructor].
  - split; [constructor; [left; reflexivity | constructor]|]. split; vm_compute; reflexivity.
Qed.
Theorem C93_leading_refuted : exists cs, texts_of cs = lit "use ::ink_e2e::build_message;"
  /\ reads cs [Import use_ (One (Qual (Seg (Tok COLON2 (lit "::") :: w_ "ink_e2e")) colons_ (w_ "build_message")) Nothing) []]
  /\ deprecated_imports (place_leaves 0 (leaves_of cs)) None (0, Node SOURCE_FILE cs) = Done [].
Proof. eexists [_]. split; [|split; [apply reads_use, reads_nil|]]; vm_compute; reflexivity. Qed.
(** The import of the file that holds the module of the test stays. *)
Theorem C93_outer_refuted : exists cs o m, texts_of cs = lit "use ink_e2e::build_message; mod t {use super::*;}"
  /\ reads cs [Import use_ (path_ "build_message") []; Plain (WHITESPACE, lit " "); Plain (OTHER 152, lit "mod t {");
       Import use_ (One (Seg (w_ "super")) (Star [Tok COLON2 (lit "::"); Tok (OTHER 154) (lit "*")])) []; Plain (R_CURLY, lit "}")]
  /\ In (o, m) (place 0 cs) /\ kind_of m = MODULE
  /\ deprecated_imports (place_leaves 0 (leaves_of cs)) (Some (o, m)) (0, Node SOURCE_FILE cs) = Done [].
Proof.
  set (m := Node MODULE [Tok (OTHER 152) (lit "mod t {"); use_node use_ (One (Seg (w_ "super")) (Star [Tok COLON2 (lit "::"); Tok (OTHER 154) (lit "*")])) []; Tok R_CURLY (lit "}")]).
  exists [use_node use_ (path_ "build_message") []; sp_; m], 28, m. split; [vm_compute; reflexivity|]. split.
  - apply reads_use. constructor. match goal with |- reads [m] ?l => rewrite <- (app_nil_r l) end. apply reads_node; [discriminate | | constructor].
    constructor. apply reads_use. repeat constructor.
  - split; [right; right; left; reflexivity|]. split; [reflexivity | vm_compute; reflexivity].
Qed.

Print Assumptions C93_module_partial.
Print Assumptions C93_file_partial.
Print Assumptions C93_deprecated.
Print Assumptions C93_untouched.
Print Assumptions C93_overlap_refuted.
Print Assumptions C93_nested_refuted.
Print Assumptions C93_leading_refuted.
Print Assumptions C93_outer_refuted.
