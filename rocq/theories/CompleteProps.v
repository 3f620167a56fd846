(** C98: completing an ink! entity replaces the line of the cursor, and what is offered fits the line and the place. *)
From Coq Require Import List Lia.
From Verif Require Import Base Unicode PositionModel VersionModel TranslateModel SyntaxModel AttrModel EditSpec UtilModel UtilSpec RuleModel EntityModel EntitySpec HintModel HintSpec ExtractModel ExtractSpec FocusModel FocusSpec
  CompleteModel CompleteSpec CompleteProofs.
Import ListNotations.

(** If only white space goes over the end of a line, every completion replaces the line of the cursor from its beginning to its
    end (or to white space at its end), and an entity is offered exactly if it belongs into the item around and the line is blank or
    has a word that is part of one of the entity's keywords. The whole property has no condition on the tokens, see
    [C98_string_refuted] and [C98_comment_refuted]. *)
Theorem C98_completions_partial : forall U facts contracts root v off x up,
  parsed U root -> one_line_tokens root -> cursor_on root off x up -> (exists a b, text_of root = a ++ b /\ bytes a = off) ->
  lkind x <> COMMENT -> (forall a, In a up -> lkind a <> ATTR) ->
  exists r l, entity_completions U facts contracts root off v = Done l /\ line_range U (text_of root) off r
    /\ forall e r', In (e, r') l <-> r' = r /\ is_offered facts contracts v root r x up e.
Proof. intros. apply completions_spec; assumption. Qed.

(** In comments and attributes nothing is offered. *)
Theorem C98_quiet : forall U facts contracts root v off x up,
  parsed U root -> cursor_on root off x up -> lkind x = COMMENT \/ (exists a, In a up /\ lkind a = ATTR) ->
  entity_completions U facts contracts root off v = Done [].
Proof. intros. eapply completions_off; eassumption. Qed.

(** No entity is offered twice. *)
Theorem C98_once : forall U facts contracts root v off l,
  entity_completions U facts contracts root off v = Done l -> NoDup (map fst l).
Proof. exact completions_once. Qed.

(** ** A file *)
Definition ws (s : str) : elem := Tok WHITESPACE s.
Definition word (s : str) : elem := Tok IDENT s.
(** [mod m { st }], on three lines; a word alone is parsed as a call of a macro. *)
Definition st_ : elem := Node MACRO_CALL [Node PATH [word (lit "st")]].
Definition items_ : elem := Node ITEM_LIST [Tok L_CURLY (lit "{"); ws (c_nl :: lit "    "); st_; ws (lit " " ++ [c_nl]); Tok R_CURLY (lit "}")].
Definition mod_ : elem := Node MODULE [Tok MOD_KW (lit "mod"); ws (lit " "); Node NAME [word (lit "m")]; ws (lit " "); items_].
Definition file_ : elem := Node SOURCE_FILE [mod_; ws [c_nl]].
Definition facts_ : path -> around_item := fun _ => IsContract false.
Definition x_ : lelem := (12, Tok IDENT (lit "st")).
Definition up_ : list lelem := [(12, Node PATH [word (lit "st")]); (12, st_); (6, items_); (0, mod_); (0, file_)].

Lemma tokens_of root x up : token root x up -> In (x, up) (tok_paths root).
Proof. apply in_tok_paths. Qed.
Ltac each_token H := apply in_tok_paths in H; vm_compute in H; repeat match type of H with _ \/ _ => destruct H as [H|H] end; [.. | destruct H]; injection H as <- <-.
Ltac all_tokens := let H := fresh in intros ? ? H; vm_compute in H; repeat match type of H with _ \/ _ => destruct H as [H|H] end; [.. | destruct H]; injection H as <- <-.

Example file_ok : parsed ascii_unicode file_ /\ one_line_tokens file_ /\ cursor_on file_ 14 x_ up_ /\ lkind x_ <> COMMENT /\ (forall a, In a up_ -> lkind a <> ATTR)
  /\ (exists a b, text_of file_ = a ++ b /\ bytes a = 14).
Proof.
  split; [split|split; [|split; [|split; [|split]]]].
  - all_tokens; (split; [discriminate | intros E; try discriminate E; intros c Hc; repeat destruct Hc as [<-|Hc]; try reflexivity; destruct Hc]).
  - intros t H. vm_compute in H. repeat match type of H with _ \/ _ => destruct H as [H|H] end; try discriminate H. destruct H.
  - all_tokens; intros C; try (destruct C; reflexivity); intros H; vm_compute in H; repeat match type of H with _ \/ _ => destruct H as [H|H] end; try discriminate H; destruct H.
  - split; [apply in_tok_paths; vm_compute; tauto|]. split; [vm_compute; lia|]. intros y upy Hy Ht N. each_token Hy; unfold touching in Ht; vm_compute in Ht; try (exfalso; lia).
    + exfalso. apply N. reflexivity.
    + left. split; [left; reflexivity | intros [C|C]; discriminate C].
  - discriminate.
  - intros a Ha. repeat destruct Ha as [<-|Ha]; try discriminate. destruct Ha.
  - exists (firstn 14 (text_of file_)), (skipn 14 (text_of file_)). split; vm_compute; reflexivity.
Qed.
(** The line [    st ] becomes a storage or an event. *)
Example file_completions : entity_completions ascii_unicode facts_ true file_ 14 V5 = Done [(EStorage, (8, 14)); (EEventV2, (8, 14)); (EEvent, (8, 14))].
Proof. vm_compute. reflexivity. Qed.
Example file_offered : is_offered facts_ true V5 file_ (8, 14) x_ up_ EStorage.
Proof.
  destruct file_ok as (H1 & H2 & H3 & H4 & H5 & H6). destruct (C98_completions_partial ascii_unicode facts_ true file_ V5 14 x_ up_ H1 H2 H3 H6 H4 H5) as (r & l & El & _ & H).
  rewrite file_completions in El. injection El as <-. destruct (proj1 (H EStorage (8, 14)) (or_introl eq_refl)) as [<- Ho]. exact Ho.
Qed.
Example attr_quiet : let a := Node ATTR [Tok POUND (lit "#"); word (lit "ink")] in let f := Node SOURCE_FILE [Node FN [a; word (lit "f")]] in
  entity_completions ascii_unicode facts_ true f 2 V5 = Done [] /\ cursor_on f 2 (1, word (lit "ink")) [(0, a); (0, Node FN [a; word (lit "f")]); (0, f)].
Proof.
  split; [vm_compute; reflexivity|]. split; [apply in_tok_paths; vm_compute; tauto|]. split; [vm_compute; lia|]. intros y upy Hy Ht N. each_token Hy; unfold touching in Ht; vm_compute in Ht; try (exfalso; lia).
  exfalso. apply N. reflexivity.
Qed.

(** ** What goes wrong *)

(** Behind a string of several lines, a completion replaces all of these lines. *)
Theorem C98_string_refuted : exists root off v l e r before line rest,
  text_of root = unlines [lit "const A: &str = ""x"; lit " y""; "; []]
  /\ entity_completions ascii_unicode facts_ true root off v = Done l /\ In (e, r) l
  /\ text_of root = before ++ line ++ rest /\ bytes before = fst r /\ bytes (before ++ line) = snd r /\ In c_nl line.
Proof.
  exists (Node SOURCE_FILE [Node CONST [word (lit "const"); ws (lit " "); word (lit "A"); word (lit ":"); ws (lit " "); word (lit "&"); word (lit "str"); ws (lit " "); Tok EQ (lit "=");
            ws (lit " "); Tok STRING (lit """x" ++ c_nl :: lit " y"""); Tok SEMICOLON (lit ";")]; ws (lit " " ++ [c_nl])]), 24, V5.
  eexists _, EEventV2, (0, 24). exists [], (lit "const A: &str = ""x" ++ c_nl :: lit " y""; "), [c_nl].
  split; [vm_compute; reflexivity|]. split; [vm_compute; reflexivity|]. split; [left; reflexivity|]. do 3 (split; [vm_compute; reflexivity|]). vm_compute. tauto.
Qed.

(** Behind a comment of several lines, a completion replaces the whole comment. *)
Theorem C98_comment_refuted : exists root off v l e r before line rest,
  text_of root = unlines [lit "mod m {"; lit "    /* a"; lit "       b */ s"; lit "}"; []]
  /\ entity_completions ascii_unicode facts_ true root off v = Done l /\ In (e, r) l
  /\ text_of root = before ++ line ++ rest /\ bytes before = fst r /\ bytes (before ++ line) = snd r /\ In c_nl line.
Proof.
  exists (Node SOURCE_FILE [Node MODULE [Tok MOD_KW (lit "mod"); ws (lit " "); Node NAME [word (lit "m")]; ws (lit " ");
            Node ITEM_LIST [Tok L_CURLY (lit "{"); ws (c_nl :: lit "    "); Tok COMMENT (lit "/* a" ++ c_nl :: lit "       b */"); ws (lit " ");
              Node MACRO_CALL [Node PATH [word (lit "s")]]; ws [c_nl]; Tok R_CURLY (lit "}")]]; ws [c_nl]]), 30, V5.
  eexists _, EStorage, (8, 30). exists (lit "mod m {" ++ [c_nl]), (lit "    /* a" ++ c_nl :: lit "       b */ s"), (c_nl :: lit "}" ++ [c_nl]).
  split; [vm_compute; reflexivity|]. split; [vm_compute; reflexivity|]. split; [left; reflexivity|]. do 3 (split; [vm_compute; reflexivity|]). vm_compute. tauto.
Qed.

(** A completion is offered on a line with a finished item if some word of it is part of a keyword, and replaces the item. *)
Theorem C98_finished_refuted : exists root off v l e r item,
  text_of root = unlines [lit "use a::t; "; []]
  /\ entity_completions ascii_unicode facts_ true root off v = Done l /\ In (e, r) l
  /\ in_file root item /\ item_node (snd item) = true /\ fst r <= lstart item /\ lend item <= snd r /\ lend item < off.
Proof.
  set (use_ := Node USE [word (lit "use"); ws (lit " "); Node (OTHER 151) [word (lit "a"); Tok COLON2 (lit "::"); word (lit "t")]; Tok SEMICOLON (lit ";")]).
  exists (Node SOURCE_FILE [use_; ws (lit " " ++ [c_nl])]), 10, V5. eexists _, EEventV2, (0, 10), (0, use_).
  split; [vm_compute; reflexivity|]. split; [vm_compute; reflexivity|]. split; [left; reflexivity|]. split; [apply (eo_child 0 SOURCE_FILE _ (0, use_)); [left; reflexivity | constructor]|].
  split; [reflexivity|]. vm_compute. repeat constructor.
Qed.

Print Assumptions C98_completions_partial.
Print Assumptions C98_quiet.
Print Assumptions C98_once.
Print Assumptions C98_string_refuted.
Print Assumptions C98_comment_refuted.
Print Assumptions C98_finished_refuted.
