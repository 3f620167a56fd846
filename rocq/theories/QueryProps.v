(** C106: a question about a position of a file is answered; it does not end the analyzer. *)
From Coq Require Import List Lia.
From Verif Require Import Base Unicode PositionModel VersionModel TranslateModel SyntaxModel AttrModel AttrSpec EditModel EditSpec SuggestModel ArgEditModel ArgCheckModel ArgCheckSpec RuleModel RuleSpec RuleProofs EntityModel EntitySpec HintModel HintSpec HintProofs ExtractModel FocusModel CompleteModel FinishModel AnnotateModel QuerySpec QueryProofs.
Import ListNotations.

(** A position behind the end of the file ends it, whatever is asked. *)
Theorem C106_past_end : forall root off, len_of root < off ->
  (forall px pr v, hover_at px pr root (off, off) v = Panic)
  /\ (forall U read, extract U read root (off, off) = Panic)
  /\ (forall U facts contracts v, entity_completions U facts contracts root off v = Panic)
  /\ (forall pr punct around v, macro_completions pr punct around root off v = Panic)
  /\ (forall px pr punct around env ids v, argument_completions px pr punct around env ids root off v = Panic)
  /\ (forall px words ctx env ids v, item_actions px words ctx env ids root (off, off) v = Panic)
  /\ (forall px words ctx env ids v, attr_focus px words ctx env ids root (off, off) v = Panic).
Proof.
  intros root off H. pose proof (past_token root off H) as E. repeat split; intros.
  - unfold hover_at, covering_attribute. cbn [fst snd]. rewrite PeanoNat.Nat.eqb_refl, E. reflexivity.
  - unfold extract, struct_at, focused_element. cbn [fst snd]. rewrite PeanoNat.Nat.eqb_refl, E. reflexivity.
  - unfold entity_completions. rewrite E. reflexivity.
  - unfold macro_completions. rewrite E. reflexivity.
  - unfold argument_completions. rewrite E. reflexivity.
  - unfold item_actions, focus, focused_element. cbn [fst snd]. rewrite PeanoNat.Nat.eqb_refl, E. reflexivity.
  - unfold attr_focus, covering_path. cbn [fst snd]. rewrite PeanoNat.Nat.eqb_refl, E. reflexivity.
Qed.

(** Between two characters (so at every position of an editor), completions of entities and macros are computed in every file. *)
Theorem C106_entities : forall U facts contracts root off v, between_characters root off ->
  exists l, entity_completions U facts contracts root off v = Done l.
Proof. intros U facts contracts root off v H. pose proof (entity_done U facts contracts root off v H) as D. destruct (entity_completions _ _ _ _ _ _); [eauto | contradiction]. Qed.
Theorem C106_macros : forall pr punct around root off v, between_characters root off ->
  exists l, macro_completions pr punct around root off v = Done l.
Proof. intros pr punct around root off v H. pose proof (macro_done pr punct around root off v H) as D. destruct (macro_completions _ _ _ _ _ _); [eauto | contradiction]. Qed.

(** So are the actions for attributes, and for the item at a selection if documentation and attributes stand in front of items. *)
Theorem C106_attributes : forall U px words ctx env ids root r v, lexed U root -> range_in root r ->
  exists l, attr_focus px words ctx env ids root r v = Done l.
Proof. intros U px words ctx env ids root r v H1 H2. pose proof (attr_focus_done U px words ctx env ids root r v H1 H2) as D. destruct (attr_focus _ _ _ _ _ _ _ _); [eauto | contradiction]. Qed.
Theorem C106_items_partial : forall U px words ctx env ids root r v, lexed U root -> range_in root r -> notes_in_front root ->
  (exists l, focus root r = Done l) /\ exists l, item_actions px words ctx env ids root r v = Done l.
Proof.
  intros U px words ctx env ids root r v H1 H2 H3. split.
  - destruct (focus_done root r H2 H3) as (l & E & _). eauto.
  - pose proof (item_actions_done U px words ctx env ids root r v H1 H3 H2) as D. destruct (item_actions _ _ _ _ _ _ _ _); [eauto | contradiction].
Qed.

(** So are extractions of events, in every file. *)
Theorem C106_extractions : forall U read root r, range_in root r -> exists x, extract U read root r = Done x.
Proof. intros U read root r H. pose proof (extract_done U read root r H) as D. destruct (extract _ _ _ _); [eauto | contradiction]. Qed.

(** So is what is shown at a selection, if the arguments of the file's attributes have ranges. *)
Theorem C106_hover_partial : forall px pr root r v, range_in root r -> arguments_ranged px pr root ->
  exists h, hover_at px pr root r v = Done h.
Proof. intros px pr root r v H1 H2. pose proof (hover_done px pr root r v H1 H2) as D. destruct (hover_at _ _ _ _ _); [eauto | contradiction]. Qed.

Theorem C106_hover_written : forall px pr root r v, range_in root r -> arguments_written px pr root ->
  exists h, hover_at px pr root r v = Done h.
Proof. intros px pr root r v H1 H2. apply C106_hover_partial; [exact H1 | apply written_ranged, H2]. Qed.

(** So are completions of arguments, if attributes are closed and arguments stand in them. *)
Theorem C106_arguments_partial : forall px pr punct around env ids root off v,
  between_characters root off -> attributes_closed root -> arguments_placed px pr root ->
  exists l, argument_completions px pr punct around env ids root off v = Done l.
Proof. intros px pr punct around env ids root off v H1 H2 H3. pose proof (arguments_done px pr punct around env ids root off v H1 H2 H3) as D. destruct (argument_completions _ _ _ _ _ _ _ _ _); [eauto | contradiction]. Qed.

(** ** Inside attributes and outside of them *)
(** If attributes are closed, macros and arguments are completed only in an attribute or at its ends, *)
Theorem C100_in_attribute : forall px pr punct around env ids root off v, attributes_closed root ->
  (exists x l, macro_completions pr punct around root off v = Done (x :: l))
  \/ (exists x l, argument_completions px pr punct around env ids root off v = Done (x :: l)) ->
  exists a, HintSpec.in_file root a /\ lkind a = ATTR /\ lstart a <= off <= lend a.
Proof.
  intros px pr punct around env ids root off v H [(x & l & E)|(x & l & E)]; apply focus_place; [eapply macros_in_attr | eapply arguments_in_attr]; eassumption.
Qed.
(** and never where entities are. *)
Theorem C98_apart : forall U facts contracts px pr punct around env ids root off v x l, attributes_closed root ->
  entity_completions U facts contracts root off v = Done (x :: l) ->
  (forall y l', macro_completions pr punct around root off v <> Done (y :: l'))
  /\ (forall y l', argument_completions px pr punct around env ids root off v <> Done (y :: l')).
Proof.
  intros U facts contracts px pr punct around env ids root off v x l H E. apply entities_outside in E. split; intros y l' E'; apply E; [eapply macros_in_attr | eapply arguments_in_attr]; eassumption.
Qed.

(** ** Examples *)
Definition sp : elem := Tok WHITESPACE (lit " ").
Definition named (s : str) : elem := Node NAME [Tok IDENT s].
(** /// d
    mod m { pub struct S(u8); } *)
Definition inner_struct : elem :=
  Node STRUCT [Tok STRUCT_KW (lit "struct"); sp; named (lit "S");
    Node TUPLE_FIELD_LIST [Tok L_PAREN (lit "("); Tok IDENT (lit "u8"); Tok R_PAREN (lit ")")]; Tok SEMICOLON (lit ";")].
Definition good_file : elem :=
  Node SOURCE_FILE [Node MODULE [Tok COMMENT (lit "/// d"); Tok WHITESPACE nl; Tok MOD_KW (lit "mod"); sp; named (lit "m"); sp;
    Node ITEM_LIST [Tok L_CURLY (lit "{"); sp; inner_struct; sp; Tok R_CURLY (lit "}")]]].
(** The items of a file *)
Lemma in_paths root e : HintSpec.in_file root e -> In e (map fst (paths [] 0 root)).
Proof. intros H. exact (paths_all (0, root) e H). Qed.
Example good_items : notes_in_front good_file.
Proof.
  intros o K cs H Hk. apply in_paths in H. vm_compute in H.
  repeat (destruct H as [H|H]; [try discriminate H; injection H as <- <- <-; try (exfalso; vm_compute in Hk; intuition discriminate)|]); try (destruct H).
  - exists [Tok COMMENT (lit "/// d"); Tok WHITESPACE nl], [Tok MOD_KW (lit "mod"); sp; named (lit "m"); sp; Node ITEM_LIST [Tok L_CURLY (lit "{"); sp; inner_struct; sp; Tok R_CURLY (lit "}")]].
    split; [reflexivity|]. split; [constructor; [|constructor; [|constructor]]; right; eexists; eexists; (split; [reflexivity|]); (split; [reflexivity | discriminate])|].
    split; [eexists; eexists; split; reflexivity|]. split; [repeat constructor; intros c E; discriminate E|]. intros x Hx. repeat (destruct Hx as [Hx|Hx]; [discriminate Hx|]). destruct Hx.
  - exists [], (match inner_struct with Node _ l => l | _ => [] end). split; [reflexivity|]. split; [constructor|].
    split; [eexists; eexists; split; reflexivity|]. split; [repeat constructor; intros c E; discriminate E|]. intros x Hx. repeat (destruct Hx as [Hx|Hx]; [discriminate Hx|]). destruct Hx.
Qed.
Example good_range : range_in good_file (20, 26) /\ between_characters good_file 20.
Proof.
  split; [vm_compute; lia|]. exists (firstn 20 (text_of good_file)), (skipn 20 (text_of good_file)). split; [symmetry; apply firstn_skipn | vm_compute; reflexivity].
Qed.
Example good_answers : exists x y, focus good_file (10, 10) = Done (x :: y).
Proof. eexists. eexists. vm_compute. reflexivity. Qed.

(** #[ink(message, selector = 1)] fn: the arguments have ranges, and there is something to show. *)
Definition attribute (args : list elem) : elem :=
  Node ATTR [Tok POUND (lit "#"); Tok L_BRACK (lit "["); Node META [Node PATH [Tok IDENT (lit "ink")];
    Node TOKEN_TREE (Tok L_PAREN (lit "(") :: args ++ [Tok R_PAREN (lit ")")])]; Tok R_BRACK (lit "]")].
Definition annotated (args : list elem) : elem := Node SOURCE_FILE [Node FN [attribute args; sp; Tok FN_KW (lit "fn")]].
Definition ink_segments : path_reader := fun _ => [(lit "ink", (2, 5))].
Definition two_args : list elem :=
  [Tok IDENT (lit "message"); Tok COMMA (lit ","); sp; Tok IDENT (lit "selector"); sp; Tok EQ (lit "="); sp; Tok INT_NUMBER (lit "1")].
Example ranged_args : arguments_ranged (fun _ => None) ink_segments (annotated two_args)
  /\ exists h, hover_at (fun _ => None) ink_segments (annotated two_args) (17, 18) V5 = Done (Some h).
Proof.
  split; [|eexists; vm_compute; reflexivity]. intros a ia x H Hk Hc Hx. apply in_paths in H. vm_compute in H.
  repeat (destruct H as [<-|H]; [try discriminate Hk|]); [|destruct H]. vm_compute in Hc. injection Hc as <-. cbn [at_args In] in Hx.
  repeat (destruct Hx as [<-|Hx]; [eexists; vm_compute; reflexivity|]). destruct Hx.
Qed.

Example written_args : arguments_written (fun _ => None) ink_segments (annotated two_args).
Proof.
  intros a ia o mcs cs H Hk _ Hm Ht. apply in_paths in H. vm_compute in H. repeat (destruct H as [<-|H]; [try discriminate Hk|]); [|destruct H].
  assert (E : In (o, Node META mcs) (map fst (paths [] 0 (attribute two_args)))) by exact (paths_all (0, attribute two_args) _ Hm).
  vm_compute in E. repeat (destruct E as [E|E]; [try discriminate E|]); [|destruct E]. injection E as <- <-.
  repeat (destruct Ht as [Ht|Ht]; [try discriminate Ht|]); [|destruct Ht]. injection Ht as <-.
  exists [WArg (lit "message") None None; WArg (lit "selector") None (Some [sp; Tok INT_NUMBER (lit "1")])], two_args. split; [|reflexivity].
  apply (wa_more _ [Tok IDENT (lit "message")] (lit ",") _ [] [sp; Tok IDENT (lit "selector"); sp; Tok EQ (lit "="); sp; Tok INT_NUMBER (lit "1")]).
  - apply (writes_arg _ None None [] IDENT [] [] [] []); [intros x [] | intros x [] | intros x [] | left; reflexivity | constructor | constructor].
  - rewrite <- (app_nil_r [sp; Tok IDENT (lit "selector"); sp; Tok EQ (lit "="); sp; Tok INT_NUMBER (lit "1")]). apply wa_last; [|left; reflexivity].
    apply (writes_arg _ None (Some [sp; Tok INT_NUMBER (lit "1")]) [sp] IDENT [] [] [sp] [Tok EQ (lit "="); sp; Tok INT_NUMBER (lit "1")]);
      [intros x [<-|[]]; eexists; eexists; split; reflexivity | intros x [] | intros x [<-|[]]; eexists; eexists; split; reflexivity | left; reflexivity | constructor|].
    constructor; [discriminate|]. intros e [<-|[<-|[]]]; (split; [discriminate|]); (split; [intros t; discriminate | intros (cs & l & t & E & _); discriminate E]).
Qed.
Example placed_args : attributes_closed (annotated two_args) /\ arguments_placed (fun _ => None) ink_segments (annotated two_args).
Proof.
  split.
  - intros a H Hk. apply in_paths in H. vm_compute in H. repeat (destruct H as [<-|H]; [try discriminate Hk; try (eexists; vm_compute; reflexivity)|]). destruct H.
  - intros a ia top x H Hk Hc Ht Hx. apply in_paths in H. vm_compute in H.
    repeat (destruct H as [<-|H]; [try discriminate Hk|]); [|destruct H]. vm_compute in Hc. injection Hc as <-. cbn [at_args In] in Ht.
    repeat (destruct Ht as [<-|Ht]; [inversion Hx as [|? n ? E]; [subst x | discriminate E]; eexists; split; [vm_compute; reflexivity|];
      split; [vm_compute; lia|]; intros n0 E; vm_compute in E; injection E as <-; vm_compute; lia|]). destruct Ht.
Qed.

(** Behind the comma of #[ink(message,)] fn there is something to complete. *)
Example completed_args : exists x l, argument_completions (fun _ => None) ink_segments (fun _ => false)
  (fun _ => AroundAttr (Item FN [] [] false false false false) false false) (fun _ => None) (fun _ _ => []) (annotated [Tok IDENT (lit "message"); Tok COMMA (lit ",")]) 14 V5 = Done (x :: l).
Proof. eexists. eexists. vm_compute. reflexivity. Qed.

(** ** Findings *)
(** In impl S { #[ink( } the attribute is not closed; asking for completions in front of the last brace (to which the attribute is
    taken to extend) ends the analyzer. Directly behind the parenthesis they are computed. *)
Definition not_closed : elem :=
  Node SOURCE_FILE [Node IMPL [Tok IMPL_KW (lit "impl"); sp; Node (OTHER 77) [Tok IDENT (lit "S")]; sp;
    Node ASSOC_ITEM_LIST [Tok L_CURLY (lit "{"); sp;
      Node ATTR [Tok POUND (lit "#"); Tok L_BRACK (lit "["); Node META [Node PATH [Tok IDENT (lit "ink")]; Node TOKEN_TREE [Tok L_PAREN (lit "(")]]];
      sp; Tok R_CURLY (lit "}")]]].
Theorem C106_arguments_refuted : exists root, text_of root = lit "impl S { #[ink( }" /\ between_characters root 16
  /\ forall others env ids v, let ask off := argument_completions (fun _ => None) ink_segments (fun _ => false)
         (fun _ => AroundAttr (Item ASSOC_ITEM_LIST [] [] false false false false) false others) env ids root off v in
       ask 16 = Panic /\ exists x l, ask 15 = Done (x :: l).
Proof.
  exists not_closed. split; [reflexivity|]. split; [exists (firstn 16 (text_of not_closed)), (skipn 16 (text_of not_closed)); split; vm_compute; reflexivity|].
  intros others env ids v ask. split; [destruct v; vm_compute; reflexivity|]. subst ask. destruct v; eexists; eexists; cbv - [id_or_one]; reflexivity.
Qed.
(** In #[ink((a) selector)] fn, whatever stands there is asked for ends it: pointing at [selector], and completing behind the
    parenthesis. *)
Theorem C106_hover_refuted : exists root, text_of root = lit "#[ink((a) selector)] fn" /\ range_in root (11, 12)
  /\ (forall v, hover_at (fun _ => None) ink_segments root (11, 12) v = Panic)
  /\ forall punct i others env ids v,
       argument_completions (fun _ => None) ink_segments punct (fun _ => AroundAttr i false others) env ids root 6 v = Panic.
Proof.
  exists (annotated [Node TOKEN_TREE [Tok L_PAREN (lit "("); Tok IDENT (lit "a"); Tok R_PAREN (lit ")")]; sp; Tok IDENT (lit "selector")]).
  split; [reflexivity|]. split; [vm_compute; lia|]. split; [intros [|]; vm_compute; reflexivity | intros; vm_compute; reflexivity].
Qed.
(** struct S(u8) /** d */ where *)
Definition unfinished : elem :=
  Node SOURCE_FILE [Node STRUCT [Tok STRUCT_KW (lit "struct"); sp; named (lit "S");
    Node TUPLE_FIELD_LIST [Tok L_PAREN (lit "("); Tok IDENT (lit "u8"); Tok R_PAREN (lit ")")]; sp; Tok COMMENT (lit "/** d */"); sp;
    Node (OTHER 191) [Tok (OTHER 192) (lit "where")]]].
(** With a documentation comment inside a tuple struct that is not finished, asking for the actions at a position of the file (at
    its first character, for example) ends the analyzer. *)
Theorem C106_items_refuted : exists root, text_of root = lit "struct S(u8) /** d */ where"
  /\ between_characters root 2 /\ focus root (2, 2) = Panic
  /\ forall px words ctx env ids v, item_actions px words ctx env ids root (2, 2) v = Panic.
Proof.
  exists unfinished. split; [reflexivity|]. split; [exists (lit "st"), (skipn 2 (text_of unfinished)); split; vm_compute; reflexivity|].
  assert (E : focus unfinished (2, 2) = Panic) by (vm_compute; reflexivity). split; [exact E|]. intros. unfold item_actions. rewrite E. reflexivity.
Qed.
(** Inside a character (a position no editor sends) the completion of a macro ends it. *)
Definition umlaut : elem :=
  Node SOURCE_FILE [Node FN [Node ATTR [Tok POUND (lit "#"); Tok L_BRACK (lit "["); Node META [Node PATH [Tok IDENT (lit "ink"); Tok COLON2 (lit "::"); Tok IDENT [252%N]]]; Tok R_BRACK (lit "]")]; Tok WHITESPACE nl; Tok FN_KW (lit "fn")]].
Theorem C106_inside_character_refuted : exists root off, off < len_of root /\ forall i others v,
  macro_completions (fun _ => []) (fun _ => false) (fun _ => AroundAttr i false others) root off v = Panic.
Proof. exists umlaut, 8. split; [vm_compute; lia | intros; vm_compute; reflexivity]. Qed.
Print Assumptions C106_past_end. Print Assumptions C106_entities. Print Assumptions C106_macros. Print Assumptions C106_attributes.
Print Assumptions C106_hover_written. Print Assumptions C100_in_attribute. Print Assumptions C98_apart. Print Assumptions C106_extractions. Print Assumptions C106_arguments_partial. Print Assumptions C106_arguments_refuted. Print Assumptions C106_hover_partial. Print Assumptions C106_hover_refuted. Print Assumptions C106_items_partial. Print Assumptions C106_items_refuted. Print Assumptions C106_inside_character_refuted.
