(** C100: completing an attribute finishes what has been typed of it and leaves everything else as it is. *)
From Coq Require Import List Lia Arith.
From Verif Require Import Base Unicode PositionModel VersionModel TranslateModel SyntaxModel AttrModel AttrSpec EditModel EditSpec SuggestModel SuggestSpec ArgEditModel ArgEditSpec RuleModel ArgCheckModel EntityModel EntitySpec HintModel HintSpec
  ExtractModel ExtractSpec FocusModel FocusSpec CompleteModel CompleteSpec CompleteProofs ArgEditProofs FinishModel FinishSpec FinishProofs.
Import ListNotations.

(** ** Macros *)

(** In the path of an attribute (behind the bracket, behind the name of the crate, or behind its colons), every completion replaces
    just the word at the cursor. What has been written of the path and the new text together are the path of a macro that
    rust items with that keyword can have, that the enclosing ink! item allows, and whose name begins with the text before the
    cursor; or, if no macro fits, the name of a crate. Every macro that fits is offered.
    The whole property has no condition on the word at the cursor, see [C100_bracket_refuted]. *)
Theorem C100_macro_partial : forall U pr punct around root off v a b mid k p q up at_ upa,
  let o := bytes (text (a ++ (L_BRACK, lit "[") :: mid)) in
  let x := (o, Tok k (p ++ q)) in
  let it := around (at_, upa) in
  let fits m := for_item v (keyword punct root (x, up)) (crate_name (p ++ q) \/ solid mid <> []) m
                /\ (forall c rest, solid mid = c :: rest -> macro_crate m = c) /\ begins_name (solid mid) p m in
  lexed U root ->
  leaves root = a ++ (L_BRACK, lit "[") :: mid ++ (k, p ++ q) :: b -> (forall t, In t mid -> fst t <> L_BRACK) ->
  k = IDENT \/ colons (p ++ q) -> is_trivia k = false -> k <> L_BRACK ->
  cursor_on root off x up -> off = o + bytes p -> path_so_far (solid mid) (p ++ q) ->
  in_attribute up at_ upa -> (forall c rest, solid mid = c :: rest -> option_map fst (hd_error (pr at_)) = Some c) ->
  exists l, macro_completions pr punct around root off v = Done l
  /\ (forall e, In e l ->
        applied (text_of root) e (text (a ++ (L_BRACK, lit "[") :: mid) ++ te_text e ++ text b)
        /\ exists goal, concat (solid mid) ++ te_text e = goal
           /\ ((exists m, goal = macro_path m /\ aa_others it = false /\ fits m /\ allowed_in v (aa_item it) m)
               \/ (solid mid = [] /\ aa_other_macros it = false /\ (if aa_others it then goal = lit "ink()" else crate_name goal)
                   /\ p <> [] /\ exists rest, goal = p ++ rest)))
  /\ (forall m, aa_others it = false -> fits m ->
        (it_scope (aa_item it) = [] \/ exists s, In s (it_scope (aa_item it)) /\ SuggestSpec.declares v (at_kind s) /\ macro_belongs v m (at_kind s)) ->
        exists e, In e l /\ concat (solid mid) ++ te_text e = macro_path m).
Proof.
  intros U pr punct around root off v a b mid k p q up at_ upa o x it fits Hlex Hl Hmid _ Hk Hkb Hc Ho Hw Ha Hpr.
  eexists. split; [apply (macro_run U pr punct around root Hlex off v a b mid k p q up at_ upa Hl Hmid Hkb Hc Ho Hw Ha Hpr)|].
  destruct (macro_claims pr punct around root off v a b mid k p q up at_ upa Hl Hc Ho Hw Hpr) as [H1 H2]. split; [|exact H2].
  intros e He. destruct (H1 e He) as [Er H]. split; [|exact H]. apply (macro_applied root a b mid k p q Hl e Er).
Qed.

(** With the cursor behind the bracket, the path of every macro that fits is inserted there. *)
Theorem C100_opened_partial : forall U pr punct around root off v a b T kp w up at_ upa,
  let o := bytes (text (a ++ (kp, w) :: T)) in
  let x := (o, Tok L_BRACK (lit "[")) in
  let it := around (at_, upa) in
  let fits := for_item v (keyword punct root (x, up)) False in
  lexed U root ->
  leaves root = a ++ (kp, w) :: T ++ (L_BRACK, lit "[") :: b -> is_trivia kp = false -> kp <> L_BRACK -> w <> lit "::" ->
  (forall y, In y T -> is_trivia (fst y) = true) -> cursor_on root off x up -> in_attribute up at_ upa ->
  exists l, macro_completions pr punct around root off v = Done l
  /\ (forall e, In e l ->
        applied (text_of root) e (text (a ++ (kp, w) :: T ++ [(L_BRACK, lit "[")]) ++ te_text e ++ text b)
        /\ exists m, te_text e = macro_path m /\ aa_others it = false /\ fits m /\ allowed_in v (aa_item it) m)
  /\ (forall m, aa_others it = false -> fits m ->
        (it_scope (aa_item it) = [] \/ exists s, In s (it_scope (aa_item it)) /\ SuggestSpec.declares v (at_kind s) /\ macro_belongs v m (at_kind s)) ->
        exists e, In e l /\ te_text e = macro_path m).
Proof.
  intros U pr punct around root off v a b T kp w up at_ upa o x it fits Hlex Hl Hkp Hkb Hw HT Hc Ha.
  destruct (bracket_claims U pr punct around root Hlex off v a b T kp w up at_ upa Hl Hkp Hkb Hw HT Hc Ha) as (l & El & H1 & H2).
  exists l. split; [exact El|]. split; [|exact H2]. intros e He. destruct (H1 e He) as [Er H]. split; [apply (bracket_applied root a b T kp w Hl e Er) | exact H].
Qed.

(** The keyword: of the item the attribute belongs to. *)
Theorem C100_keyword : forall punct root x up a it up2 W,
  in_attribute up a (it :: up2) -> has_token R_BRACK a -> item_node (snd it) = true -> part it a -> is_tok (snd a) = false ->
  word_of (lkind it) = Some W -> has_token W it -> keyword punct root (x, up) = Some W.
Proof. intros. eapply keyword_closed; eassumption. Qed.
(** If the attribute has no closing bracket: the first keyword behind the cursor, where only white space, comments, punctuation and
    [pub] come before it. *)
Theorem C100_keyword_unclosed : forall U punct root A B k s up a upa W,
  lexed U root -> leaves root = A ++ (k, s) :: B -> in_attribute up a upa -> ~ has_token R_BRACK a ->
  (keyword punct root ((bytes (text A), Tok k s), up) = Some W <->
   exists skipped w rest, B = skipped ++ (W, w) :: rest /\ In W item_words /\ Forall (skippable punct) skipped).
Proof. intros. eapply keyword_unclosed; eassumption. Qed.

(** There is none for a closed attribute of something that is not an item (a field, say): the closest item has no such attribute. *)
Theorem C100_keyword_none : forall punct root x up a upa,
  in_attribute up a upa -> has_token R_BRACK a ->
  (forall inner it up2, upa = inner ++ it :: up2 -> (forall y, In y inner -> item_node (snd y) = false) -> item_node (snd it) = true ->
     forall c, part it c -> lkind c = ATTR -> range_of c <> range_of a) ->
  keyword punct root (x, up) = None.
Proof. intros. eapply keyword_none; eassumption. Qed.

(** ** Arguments *)

(** In an attribute of a field of a struct, or one without its closing bracket among the fields, the arguments are those of fields. *)
Theorem C100_field : forall px pr punct root x up a f up2 inner it up3 ia,
  in_attribute up a (f :: up2) -> attr_cast px (read_attr pr a) = Some ia -> keyword punct root (x, up) = None ->
  up2 = inner ++ it :: up3 -> (forall y, In y inner -> item_node (snd y) = false) -> (exists cs, snd it = Node STRUCT cs) ->
  lkind f = RECORD_FIELD \/ (lkind f = RECORD_FIELD_LIST /\ ~ has_token R_BRACK a) ->
  item_kind px pr punct root (x, up) = Some RECORD_FIELD.
Proof. intros. eapply field_kind; eassumption. Qed.

(** On a word in the list of arguments (none with options being at the cursor), exactly those arguments are offered that C44 suggests
    and whose name begins with the text before the cursor. Each completion writes the argument in the place of the word, so that
    the list is as before with that argument; a blank may be put before it. *)
Theorem C100_word : forall U px pr punct around env ids root off v pre post cs bs tr b1 b2 k p q up at_ upa ia,
  let x := (bytes (text pre) + 1 + bytes (texts_of b1), Tok k (p ++ q)) in
  let ar := (at_, upa) in
  let suggested := completion_args ia (aa_item (around ar)) (item_kind px pr punct root (x, up)) v in
  lexed U root -> leaves root = file_tokens pre (b1 ++ [Tok k (p ++ q)] ++ b2) post ->
  args_before cs b1 -> args_behind bs tr b2 ->
  is_trivia k = false /\ k <> L_PAREN /\ k <> COMMA ->
  cursor_on root off x up -> off = lstart x + bytes p ->
  in_attribute up at_ upa -> attr_cast px (read_attr pr at_) = Some ia -> free_of_options off (at_args ia) ->
  exists l, argument_completions px pr punct around env ids root off v = Done l
    /\ (forall e, In e l -> exists a, In a suggested /\ (exists rest, arg_kind_str a = p ++ rest)
          /\ writes pre post (text_of root) cs bs tr (env ar) (ids ar) e a)
    /\ (forall a, In a suggested -> (exists rest, arg_kind_str a = p ++ rest) ->
          exists e, In e l /\ writes pre post (text_of root) cs bs tr (env ar) (ids ar) e a).
Proof.
  intros U px pr punct around env ids root off v pre post cs bs tr b1 b2 k p q up at_ upa ia x ar suggested Hlex Hl H1 H2 Hk Hc Ho Ha Hcast Hfree.
  destruct (word_claims U px pr punct around env ids root Hlex off v pre post cs bs tr b1 b2 x up at_ upa ia Hc Ha Hcast Hfree H1 H2 k p q Hl Hk eq_refl Ho) as (l & gap & El & Hg & n & Hn & ->).
  eexists. split; [exact El|]. split.
  - intros e He. apply in_map_iff in He. destruct He as (a & <- & Hf). apply filter_In in Hf. destruct Hf as [Hf Hp]. exists a. split; [exact Hf|]. split; [apply starts_with_app, Hp|].
    eapply (word_writes env ids root off pre post cs bs tr b1 b2 x at_ upa H1 H2 k p q Hl eq_refl Ho); [exact Hg | exact Hn | reflexivity | reflexivity].
  - intros a Ha1 Hp. eexists. split; [apply (in_map _ _ a), filter_In; split; [exact Ha1 | apply starts_with_app, Hp]|].
    eapply (word_writes env ids root off pre post cs bs tr b1 b2 x at_ upa H1 H2 k p q Hl eq_refl Ho); [exact Hg | exact Hn | reflexivity | reflexivity].
Qed.

(** Behind the opening parenthesis or a comma, every suggested argument is offered, and written there. *)
Theorem C100_delimiter_partial : forall U px pr punct around env ids root off v pre post cs bs tr b1 b2 x up at_ upa ia,
  let ar := (at_, upa) in
  let suggested := completion_args ia (aa_item (around ar)) (item_kind px pr punct root (x, up)) v in
  lexed U root -> leaves root = file_tokens pre (b1 ++ b2) post ->
  args_before cs b1 -> args_behind bs tr b2 ->
  (b1 = [] /\ x = (bytes (text pre), Tok L_PAREN (lit "("))) \/ (exists B, b1 = B ++ [comma] /\ x = (bytes (text pre) + 1 + bytes (texts_of B), comma)) ->
  cursor_on root off x up ->
  in_attribute up at_ upa -> attr_cast px (read_attr pr at_) = Some ia -> free_of_options off (at_args ia) ->
  exists l, argument_completions px pr punct around env ids root off v = Done l
    /\ (forall e, In e l -> exists a, In a suggested /\ writes pre post (text_of root) cs bs tr (env ar) (ids ar) e a)
    /\ (forall a, In a suggested -> exists e, In e l /\ writes pre post (text_of root) cs bs tr (env ar) (ids ar) e a).
Proof.
  intros U px pr punct around env ids root off v pre post cs bs tr b1 b2 x up at_ upa ia ar suggested Hlex Hl H1 H2 Hx Hc Ha Hcast Hfree.
  destruct (delimiter_claims U px pr punct around env ids root Hlex off v pre post cs bs tr b1 b2 x up at_ upa ia Hc Ha Hcast Hfree H1 H2 Hl Hx) as (l & gap & El & Hg & n & Hn & ->).
  eexists. split; [exact El|]. split.
  - intros e He. apply in_map_iff in He. destruct He as (a & <- & Hf). exists a. split; [exact Hf|].
    eapply (delimiter_writes env ids root off pre post cs bs tr b1 b2 x up at_ upa Hc H1 H2 Hl Hx); [exact Hg | exact Hn | reflexivity | reflexivity].
  - intros a Ha1. eexists. split; [apply (in_map _ _ a), Ha1|].
    eapply (delimiter_writes env ids root off pre post cs bs tr b1 b2 x up at_ upa Hc H1 H2 Hl Hx); [exact Hg | exact Hn | reflexivity | reflexivity].
Qed.

(** If the argument at the cursor takes options, these are offered (those beginning with the text before the cursor; all if that is the
    name of the argument): what stands behind the name, up to where the argument is read to end, becomes the option in parentheses.
    The whole property has the end of the argument there: with an option in parentheses, it is read to end before the closing one,
    see [C100_option_refuted]. *)
Theorem C100_options_partial : forall U px pr punct around env ids root off v x up at_ upa ia p q l1 l2 m a n r A B C,
  let ar := (at_, upa) in
  lexed U root -> cursor_on root off x up -> in_attribute up at_ upa -> attr_cast px (read_attr pr at_) = Some ia ->
  at_args ia = l1 ++ m :: l2 -> Forall (not_at off) l1 -> known_at off m -> innermost off m a ->
  takes_options (ia_kind a) <> [] -> m_name a = MOk n -> meta_range a = Done r -> lstart at_ <= snd r <= lend at_ ->
  begins_argument root x -> text_of (snd x) = p ++ q -> off = lstart x + bytes p ->
  text_of root = A ++ text_of (snd n) ++ B ++ C -> bytes (A ++ text_of (snd n)) = lend n -> bytes (A ++ text_of (snd n) ++ B) = snd r ->
  exists l next, argument_completions px pr punct around env ids root off v = Done l
    /\ (forall e, In e l -> exists k, In k (takes_options (ia_kind a))
          /\ (lkind x = L_PAREN \/ lkind x = COMMA \/ (exists rest, arg_kind_str k = p ++ rest) \/ p = text_of (snd n))
          /\ applied (text_of root) e (A ++ text_of (snd n) ++ lit "(" ++ fst (insert_text (InsertContext next (env ar) (ids ar)) k) ++ lit ")" ++ C))
    /\ (forall k, In k (takes_options (ia_kind a)) ->
          (lkind x = L_PAREN \/ lkind x = COMMA \/ (exists rest, arg_kind_str k = p ++ rest) \/ p = text_of (snd n)) ->
          exists e, In e l /\ applied (text_of root) e (A ++ text_of (snd n) ++ lit "(" ++ fst (insert_text (InsertContext next (env ar) (ids ar)) k) ++ lit ")" ++ C)).
Proof.
  intros U px pr punct around env ids root off v x up at_ upa ia p q l1 l2 m a n r A B C ar Hlex Hc Ha Hcast Hargs Hnot Hm Hin Hopt Hn Hr Hra Hbeg Hx Ho Ht Hb1 Hb2.
  assert (Hnr : lend n <= snd r) by (rewrite <- Hb1, <- Hb2, app_assoc, (PositionProofs.bytes_app (A ++ text_of (snd n)) B); apply Nat.le_add_r).
  destruct (options_claims U px pr punct around env ids root Hlex off v x up at_ upa ia p q l1 l2 m a n r Hc Ha Hcast Hargs Hnot Hm Hin Hopt Hn Hr Hnr Hra Hbeg Hx Ho) as (l & next & El & H).
  assert (Happ : forall t s, applied (text_of root) (edit_replace_snippet (lit "(" ++ t ++ lit ")") (lend n, snd r) s) (A ++ text_of (snd n) ++ lit "(" ++ t ++ lit ")" ++ C)).
  { intros t s. exists (A ++ text_of (snd n)), B, C. cbn [te_range te_text edit_replace_snippet fst snd]. split; [rewrite <- app_assoc; exact Ht|]. split; [exact Hb1|]. split; [rewrite <- app_assoc; exact Hb2|].
    rewrite <- !app_assoc. reflexivity. }
  exists l, next. split; [exact El|]. split.
  - intros e He. apply H in He. destruct He as (k & Hk & Hwk & ->). exists k. split; [exact Hk|]. split; [exact Hwk | apply Happ].
  - intros k Hk Hwk. eexists. split; [apply H; exists k; split; [exact Hk | split; [exact Hwk | reflexivity]] | apply Happ].
Qed.

(** ** Examples *)

Definition ws_ : elem := Tok WHITESPACE (lit " ").
Definition id_ (s : str) : elem := Tok IDENT s.
Definition sep_ : elem := Tok COLON2 (lit "::").
Definition attr_ (inner : list elem) : elem := Node ATTR ([Tok POUND (lit "#"); Tok L_BRACK (lit "[")] ++ inner ++ [Tok R_BRACK (lit "]")]).
Definition tree_ (inner : list elem) : elem := Node TOKEN_TREE ([Tok L_PAREN (lit "(")] ++ inner ++ [Tok R_PAREN (lit ")")]).
Definition struct_ (a : elem) : elem := Node STRUCT [a; ws_; Tok STRUCT_KW (lit "struct"); ws_; Node NAME [id_ (lit "S")]; Tok SEMICOLON (lit ";")].
Definition file_ (a : elem) : elem := Node SOURCE_FILE [struct_ a].
(** The path of an attribute: its identifiers before the arguments *)
Definition pr_ : path_reader := fun a =>
  flat_map (fun m => map (fun c => (text_of (snd c), lrange_of c)) (filter (fun c => skind_eqb (lkind c) IDENT) (children_of m)))
    (flat_map (fun m => filter (fun c => is_node c && skind_eqb (lkind c) PATH) (children_of m)) (filter (fun c => is_node c && skind_eqb (lkind c) META) (children_of a))).
Definition px_ : expr_parser := fun _ => None.
Definition punct_ (k : skind) : bool := skind_eqb k COMMA.
Definition around_ : path -> around_attr := fun _ => AroundAttr (Item STRUCT [] [] false false false false) false false.
Definition env_ : path -> option str := fun _ => None.
Definition ids_ : path -> arg_kind -> list N := fun _ _ => [].
Ltac each_token H := apply in_tok_paths in H; vm_compute in H; repeat match type of H with _ \/ _ => destruct H as [H|H] end; [.. | destruct H]; injection H as <- <-.
Ltac lexed_ := let H := fresh in intros ? ? H; vm_compute in H; repeat match type of H with _ \/ _ => destruct H as [H|H] end; [.. | destruct H]; injection H as <- <-;
  (split; [discriminate | let E := fresh in let c := fresh in let Hc := fresh in intros E; try discriminate E; intros c Hc; repeat destruct Hc as [<-|Hc]; try reflexivity; destruct Hc]).
Ltac cursor_ := split; [apply in_tok_paths; vm_compute; tauto|]; split; [vm_compute; lia|];
  let y := fresh in let u := fresh in let Hy := fresh in let Ht := fresh in let N := fresh in intros y u Hy Ht N; each_token Hy; unfold touching in Ht; vm_compute in Ht; try (exfalso; lia);
  try (exfalso; apply N; reflexivity).

(** [#[ink::ev] struct S;] with the cursor behind [ev]: [event] is offered. *)
Definition f1 := file_ (attr_ [Node META [Node PATH [id_ (lit "ink"); sep_; id_ (lit "ev")]]]).
Definition up_ (root : elem) (i : nat) : list lelem := snd (nth i (tok_paths root) ((0, root), [])).
Ltac in_attr_ n := match goal with |- in_attribute ?u _ _ => exists (firstn n u) end; split; [vm_compute; reflexivity|]; split; [reflexivity|];
  let y := fresh in let H := fresh in intros y H; vm_compute in H; repeat destruct H as [<-|H]; try discriminate; destruct H.

Example f1_text : text_of f1 = lit "#[ink::ev] struct S;".
Proof. reflexivity. Qed.
Example f1_completed : exists e l, macro_completions pr_ punct_ around_ f1 9 V5 = Done l /\ In e l /\ applied (text_of f1) e (lit "#[ink::event] struct S;").
Proof.
  destruct (C100_macro_partial ascii_unicode pr_ punct_ around_ f1 9 V5 [(POUND, lit "#")] [(R_BRACK, lit "]"); (WHITESPACE, lit " "); (STRUCT_KW, lit "struct"); (WHITESPACE, lit " "); (IDENT, lit "S"); (SEMICOLON, lit ";")]
    [(IDENT, lit "ink"); (COLON2, lit "::")] IDENT (lit "ev") [] (up_ f1 4) (0, attr_ [Node META [Node PATH [id_ (lit "ink"); sep_; id_ (lit "ev")]]]) (skipn 3 (up_ f1 4))) as (l & El & H1 & H2).
  - lexed_.
  - reflexivity.
  - intros t Ht. repeat destruct Ht as [<-|Ht]; try discriminate. destruct Ht.
  - left. reflexivity.
  - reflexivity.
  - discriminate.
  - cursor_. right. split; [vm_compute; lia|]. intros [[C|C] _]; discriminate C.
  - reflexivity.
  - right. right. exists (lit "ink"). repeat split; [left; reflexivity | intros [C|C]; discriminate C | intros [C|C]; discriminate C].
  - in_attr_ 2.
  - intros c rest E. injection E as <- <-. vm_compute. reflexivity.
  - destruct (H2 MEvent) as (e & He & Ee).
    + reflexivity.
    + split; [vm_compute; tauto|]. split; [intros c rest E; injection E as <- <-; reflexivity|]. intros c _. exists (lit "ent"). reflexivity.
    + left. reflexivity.
    + exists e, l. split; [exact El|]. split; [exact He|]. destruct (H1 e He) as [Ha _]. change (lit "#[ink::event] struct S;") with ((lit "#[" ++ lit "ink" ++ lit "::") ++ lit "event" ++ lit "] struct S;").
      destruct e as [t r sn]. cbn [te_text] in *. assert (t = lit "event") as ->; [|exact Ha]. vm_compute in Ee. injection Ee as Ee. exact Ee.
Qed.

(** [#[ink(event, an)] struct S;] with the cursor behind [a]: [anonymous] takes the place of [an]. *)
Definition a2 := attr_ [Node META [Node PATH [id_ (lit "ink")]; tree_ [id_ (lit "event"); comma; ws_; id_ (lit "an")]]].
Definition f2 := file_ a2.
Example f2_text : text_of f2 = lit "#[ink(event, an)] struct S;".
Proof. reflexivity. Qed.
Lemma solo_argument k t : balanced (Tok k t) -> k <> COMMA -> is_trivia k = false -> argument [Tok k t].
Proof. intros H1 H2 H3. split; [constructor; [split; assumption | constructor]|]. split; [exists (Tok k t), []; auto | exists [], (Tok k t); auto]. Qed.
Example f2_completed : exists e l, argument_completions px_ pr_ punct_ around_ env_ ids_ f2 14 V5 = Done l /\ In e l /\ applied (text_of f2) e (lit "#[ink(event, anonymous)] struct S;").
Proof.
  assert (Hia : exists ia, attr_cast px_ (read_attr pr_ (0, a2)) = Some ia) by (eexists; vm_compute; reflexivity). destruct Hia as [ia Hia].
  destruct (C100_word ascii_unicode px_ pr_ punct_ around_ env_ ids_ f2 14 V5 [(POUND, lit "#"); (L_BRACK, lit "["); (IDENT, lit "ink")]
    [(R_BRACK, lit "]"); (WHITESPACE, lit " "); (STRUCT_KW, lit "struct"); (WHITESPACE, lit " "); (IDENT, lit "S"); (SEMICOLON, lit ";")]
    [[id_ (lit "event")]] [] false [id_ (lit "event"); comma; ws_] [] IDENT (lit "a") (lit "n") (up_ f2 7) (0, a2) (skipn 3 (up_ f2 7)) ia) as (l & El & _ & H).
  - lexed_.
  - reflexivity.
  - right. apply (listed_trailing [id_ (lit "event")] [] [] [ws_]); [apply solo_argument; [constructor; try discriminate; reflexivity | discriminate | reflexivity] | constructor | constructor |].
    constructor; [exists WHITESPACE, (lit " "); repeat split; discriminate | constructor].
  - left. repeat split. constructor.
  - repeat split; discriminate.
  - cursor_.
  - reflexivity.
  - in_attr_ 2.
  - exact Hia.
  - vm_compute in Hia. injection Hia as <-. intros m Hm. vm_compute in Hm. repeat destruct Hm as [<-|Hm]; try destruct Hm; eexists; split; vm_compute; reflexivity.
  - destruct (H AAnonymous) as (e & He & t & Ht & Hw).
    + vm_compute in Hia. injection Hia as <-. vm_compute. tauto.
    + exists (lit "nonymous"). reflexivity.
    + exists e, l. split; [exact El|]. split; [exact He|]. destruct (Hw [id_ (lit "anonymous")]) as (body & Hb & Happ).
      * apply solo_argument; [constructor; try discriminate; reflexivity | discriminate | reflexivity].
      * destruct Ht as (next & [-> | ->] & ->); reflexivity.
      * vm_compute in Hia. injection Hia as <-. clear -El He. vm_compute in El. injection El as <-. vm_compute in He. repeat destruct He as [<-|He]; try destruct He.
        exists (lit "#[ink(event, "), (lit "an"), (lit ")] struct S;"). vm_compute. repeat split.
Qed.

(** [#[] struct S;] with the cursor behind the bracket: [ink::event] is put there. *)
Definition f3 := file_ (attr_ []).
Example f3_completed : exists e l, macro_completions pr_ punct_ around_ f3 2 V5 = Done l /\ In e l /\ applied (text_of f3) e (lit "#[ink::event] struct S;").
Proof.
  destruct (C100_opened_partial ascii_unicode pr_ punct_ around_ f3 2 V5 [] [(R_BRACK, lit "]"); (WHITESPACE, lit " "); (STRUCT_KW, lit "struct"); (WHITESPACE, lit " "); (IDENT, lit "S"); (SEMICOLON, lit ";")]
    [] POUND (lit "#") (up_ f3 1) (0, attr_ []) (skipn 1 (up_ f3 1))) as (l & El & H1 & H2).
  - lexed_.
  - reflexivity.
  - reflexivity.
  - discriminate.
  - discriminate.
  - intros y [].
  - cursor_. right. split; [vm_compute; lia|]. intros [[C|C] _]; discriminate C.
  - in_attr_ 0.
  - destruct (H2 MEvent) as (e & He & Ee).
    + reflexivity.
    + vm_compute. tauto.
    + left. reflexivity.
    + exists e, l. split; [exact El|]. split; [exact He|]. destruct (H1 e He) as [Ha _]. rewrite Ee in Ha. exact Ha.
Qed.

(** The keyword is that of the item; in [#[ink( ,pub struct S;] it is the next one. *)
Example f3_keyword : keyword punct_ f3 ((1, Tok L_BRACK (lit "[")), up_ f3 1) = Some STRUCT_KW.
Proof.
  apply (C100_keyword punct_ f3 _ _ (0, attr_ []) (0, struct_ (attr_ [])) [(0, f3)]).
  - in_attr_ 0.
  - exists (2, Tok R_BRACK (lit "]")). split; [exists ATTR, [Tok POUND (lit "#"); Tok L_BRACK (lit "["); Tok R_BRACK (lit "]")]; vm_compute; auto | auto].
  - reflexivity.
  - eexists _, _. split; [reflexivity|]. vm_compute. auto.
  - reflexivity.
  - reflexivity.
  - exists (4, Tok STRUCT_KW (lit "struct")). split; [eexists _, _; split; [reflexivity|]; vm_compute; auto | auto].
Qed.
Definition open_attr : elem := Node ATTR [Tok POUND (lit "#"); Tok L_BRACK (lit "["); id_ (lit "ink")].
Definition f_open : elem := Node SOURCE_FILE [open_attr; ws_; comma; Tok PUB_KW (lit "pub"); ws_; Tok STRUCT_KW (lit "struct")].
Example f_open_keyword : keyword punct_ f_open ((2, id_ (lit "ink")), up_ f_open 2) = Some STRUCT_KW.
Proof.
  apply (C100_keyword_unclosed ascii_unicode punct_ f_open [(POUND, lit "#"); (L_BRACK, lit "[")] [(WHITESPACE, lit " "); (COMMA, lit ","); (PUB_KW, lit "pub"); (WHITESPACE, lit " "); (STRUCT_KW, lit "struct")]
    IDENT (lit "ink") (up_ f_open 2) (0, open_attr) (skipn 1 (up_ f_open 2)) STRUCT_KW).
  - lexed_.
  - reflexivity.
  - in_attr_ 0.
  - intros (c & (k & cs & E & Hc) & _ & Hk). injection E as <- <-. vm_compute in Hc. repeat destruct Hc as [<-|Hc]; try discriminate Hk. destruct Hc.
  - exists [(WHITESPACE, lit " "); (COMMA, lit ","); (PUB_KW, lit "pub"); (WHITESPACE, lit " ")], (lit "struct"), []. split; [reflexivity|]. split; [vm_compute; auto|].
    repeat apply Forall_cons; try apply Forall_nil; (split; [intros C; vm_compute in C; repeat destruct C as [C|C]; try discriminate; destruct C | vm_compute; auto]).
Qed.

(** [#[ink(event,)] struct S;] with the cursor behind the comma *)
Definition a5 := attr_ [Node META [Node PATH [id_ (lit "ink")]; tree_ [id_ (lit "event"); comma]]].
Definition f5 := file_ a5.
Example f5_completed : exists e l, argument_completions px_ pr_ punct_ around_ env_ ids_ f5 12 V5 = Done l /\ In e l /\ applied (text_of f5) e (lit "#[ink(event, anonymous)] struct S;").
Proof.
  assert (Hia : exists ia, attr_cast px_ (read_attr pr_ (0, a5)) = Some ia) by (eexists; vm_compute; reflexivity). destruct Hia as [ia Hia].
  destruct (C100_delimiter_partial ascii_unicode px_ pr_ punct_ around_ env_ ids_ f5 12 V5 [(POUND, lit "#"); (L_BRACK, lit "["); (IDENT, lit "ink")]
    [(R_BRACK, lit "]"); (WHITESPACE, lit " "); (STRUCT_KW, lit "struct"); (WHITESPACE, lit " "); (IDENT, lit "S"); (SEMICOLON, lit ";")]
    [[id_ (lit "event")]] [] false [id_ (lit "event"); comma] [] (11, comma) (up_ f5 5) (0, a5) (skipn 3 (up_ f5 5)) ia) as (l & El & _ & H).
  - lexed_.
  - reflexivity.
  - right. apply (listed_trailing [id_ (lit "event")] [] [] []); [apply solo_argument; [constructor; try discriminate; reflexivity | discriminate | reflexivity] | constructor | constructor | constructor].
  - left. repeat split. constructor.
  - right. exists [id_ (lit "event")]. split; reflexivity.
  - cursor_. right. split; [vm_compute; lia|]. intros [[C|C] _]; discriminate C.
  - in_attr_ 2.
  - exact Hia.
  - vm_compute in Hia. injection Hia as <-. intros m Hm. vm_compute in Hm. repeat destruct Hm as [<-|Hm]; try destruct Hm; eexists; split; vm_compute; reflexivity.
  - destruct (H AAnonymous) as (e & He & t & Ht & Hw); [vm_compute in Hia; injection Hia as <-; vm_compute; tauto|].
    exists (edit_replace_snippet (lit " anonymous") (12, 12) None), l. split; [exact El|]. split; [vm_compute in El; injection El as <-; vm_compute; auto|].
    exists (lit "#[ink(event,"), [], (lit ")] struct S;"). vm_compute. repeat split.
Qed.

(** [#[ink_e2e::test(backend)] fn f] with the cursor behind [backend] *)
Definition e2e_ (inner : list elem) := attr_ [Node META [Node PATH [id_ (lit "ink_e2e"); sep_; id_ (lit "test")]; tree_ inner]].
Definition fn_ (a : elem) : elem := Node SOURCE_FILE [Node FN [a; ws_; Tok FN_KW (lit "fn"); ws_; id_ (lit "f")]].
Definition a6 := e2e_ [id_ (lit "backend")].
Definition f6 := fn_ a6.
Example f6_completed : exists e l, argument_completions px_ pr_ punct_ around_ env_ ids_ f6 23 V5 = Done l /\ In e l /\ applied (text_of f6) e (lit "#[ink_e2e::test(backend(node))] fn f").
Proof.
  assert (Hia : exists ia m, attr_cast px_ (read_attr pr_ (0, a6)) = Some ia /\ at_args ia = [] ++ m :: [] /\ m_name m = MOk (16, id_ (lit "backend")) /\ m_nested m = None /\ meta_range m = Done (16, 23) /\ ia_kind m = ABackend).
  { destruct (attr_cast px_ (read_attr pr_ (0, a6))) as [ia|] eqn:E; [|vm_compute in E; discriminate E]. vm_compute in E. injection E as <-.
    eexists _, _. split; [reflexivity|]. split; [reflexivity|]. vm_compute. repeat split. }
  destruct Hia as (ia & m & Hia & Hargs & Hn & Hns & Hr & Hk).
  destruct (C100_options_partial ascii_unicode px_ pr_ punct_ around_ env_ ids_ f6 23 V5 (16, id_ (lit "backend")) (up_ f6 6) (0, a6) (skipn 3 (up_ f6 6)) ia (lit "backend") [] [] [] m m (16, id_ (lit "backend")) (16, 23)
    (lit "#[ink_e2e::test(") [] (lit ")] fn f")) as (l & next & El & _ & H).
  - lexed_.
  - cursor_. right. split; [vm_compute; lia|]. intros [[C|C] _]; discriminate C.
  - in_attr_ 2.
  - exact Hia.
  - exact Hargs.
  - constructor.
  - split; [rewrite Hk; discriminate|]. split; [eauto|]. exists (16, 23). split; [exact Hr | cbn [fst snd]; lia].
  - constructor. rewrite Hns. discriminate.
  - rewrite Hk. discriminate.
  - exact Hn.
  - exact Hr.
  - vm_compute. lia.
  - right. right. exists [(POUND, lit "#"); (L_BRACK, lit "["); (IDENT, lit "ink_e2e"); (COLON2, lit "::"); (IDENT, lit "test")], L_PAREN, (lit "("), [], [(R_PAREN, lit ")"); (R_BRACK, lit "]"); (WHITESPACE, lit " "); (FN_KW, lit "fn"); (WHITESPACE, lit " "); (IDENT, lit "f")].
    split; [reflexivity|]. split; [reflexivity|]. split; [left; reflexivity|]. intros y [].
  - reflexivity.
  - reflexivity.
  - reflexivity.
  - reflexivity.
  - reflexivity.
  - rewrite Hk in H. destruct (H ANode) as (e & He & Ha); [left; reflexivity | right; right; right; reflexivity|].
    exists e, l. split; [exact El|]. split; [exact He|]. exact Ha.
Qed.

(** ** What is lost *)

(** [#[ ] struct S;] with the cursor before the closing bracket: the bracket is replaced, as if it were a word. *)
Theorem C100_bracket_refuted : exists root off v e l,
  text_of root = lit "#[ ] struct S;" /\ off = 3 /\ macro_completions pr_ punct_ around_ root off v = Done l /\ In e l
  /\ applied (text_of root) e (lit "#[ ink::event struct S;").
Proof.
  exists (file_ (attr_ [ws_])), 3, V5. eexists _, _. split; [reflexivity|]. split; [reflexivity|]. split; [vm_compute; reflexivity|]. split; [left; reflexivity|].
  exists (lit "#[ "), (lit "]"), (lit " struct S;"). vm_compute. repeat split.
Qed.
(** [#[event] struct S;] with the cursor behind the bracket: the path is put before the name, without anything between them. *)
Theorem C100_joined_refuted : exists root off v e l,
  text_of root = lit "#[event] struct S;" /\ off = 2 /\ macro_completions pr_ punct_ around_ root off v = Done l /\ In e l
  /\ applied (text_of root) e (lit "#[ink::eventevent] struct S;").
Proof.
  exists (file_ (attr_ [Node META [Node PATH [id_ (lit "event")]]])), 2, V5. eexists _, _. split; [reflexivity|]. split; [reflexivity|]. split; [vm_compute; reflexivity|]. split; [left; reflexivity|].
  exists (lit "#["), [], (lit "event] struct S;"). vm_compute. repeat split.
Qed.
(** [#[ink(event, )] struct S;] with the cursor before the closing parenthesis: the parenthesis is replaced. *)
Theorem C100_parenthesis_refuted : exists root off v e l,
  text_of root = lit "#[ink(event, )] struct S;" /\ off = 13 /\ argument_completions px_ pr_ punct_ around_ env_ ids_ root off v = Done l /\ In e l
  /\ applied (text_of root) e (lit "#[ink(event, anonymous] struct S;").
Proof.
  exists (file_ (attr_ [Node META [Node PATH [id_ (lit "ink")]; tree_ [id_ (lit "event"); comma; ws_]]])), 13, V5. eexists _, _. split; [reflexivity|]. split; [reflexivity|]. split; [vm_compute; reflexivity|].
  split; [left; reflexivity|]. exists (lit "#[ink(event, "), (lit ")"), (lit "] struct S;"). vm_compute. repeat split.
Qed.
(** [struct S { #[ink( }] with the cursor before the closing brace, in ink! 4: the brace of the structure is replaced. (In ink! 5 the
    request ends the analyzer, as in C106.) *)
Definition unclosed_in_struct : elem :=
  Node SOURCE_FILE [Node STRUCT [Tok STRUCT_KW (lit "struct"); ws_; Node NAME [id_ (lit "S")]; ws_;
    Node RECORD_FIELD_LIST [Tok L_CURLY (lit "{"); ws_;
      Node ATTR [Tok POUND (lit "#"); Tok L_BRACK (lit "["); Node META [Node PATH [id_ (lit "ink")]; Node TOKEN_TREE [Tok L_PAREN (lit "(")]]];
      ws_; Tok R_CURLY (lit "}")]]].
Theorem C100_brace_refuted : exists root off e l,
  text_of root = lit "struct S { #[ink( }" /\ off = 18
  /\ argument_completions px_ (fun _ => [(lit "ink", (13, 16))]) punct_ around_ env_ ids_ root off V4 = Done l /\ In e l
  /\ applied (text_of root) e (lit "struct S { #[ink( anonymous")
  /\ argument_completions px_ (fun _ => [(lit "ink", (13, 16))]) punct_ around_ env_ ids_ root off V5 = Panic.
Proof.
  exists unclosed_in_struct, 18. eexists _, _. split; [reflexivity|]. split; [reflexivity|]. split; [vm_compute; reflexivity|]. split; [left; reflexivity|].
  split; [exists (lit "struct S { #[ink( "), (lit "}"), []; vm_compute; repeat split | vm_compute; reflexivity].
Qed.
(** [#[ink_e2e::test(backend(no))] fn f] with the cursor behind [no]: the argument is read to end before its closing parenthesis, so that
    a second one is written. *)
Theorem C100_option_refuted : exists root off v e l,
  text_of root = lit "#[ink_e2e::test(backend(no))] fn f" /\ off = 26 /\ argument_completions px_ pr_ punct_ around_ env_ ids_ root off v = Done l /\ In e l
  /\ applied (text_of root) e (lit "#[ink_e2e::test(backend(node)))] fn f").
Proof.
  exists (fn_ (e2e_ [id_ (lit "backend"); tree_ [id_ (lit "no")]])), 26, V5. eexists _, _. split; [reflexivity|]. split; [reflexivity|]. split; [vm_compute; reflexivity|].
  split; [left; reflexivity|]. exists (lit "#[ink_e2e::test(backend"), (lit "(no"), (lit "))] fn f"). vm_compute. repeat split.
Qed.
(** [#[ink::contract(env = ink::c)] struct S;] with the cursor behind [ink::c]: a macro is offered in the value of an argument. *)
Theorem C100_value_refuted : exists root off v e l,
  text_of root = lit "#[ink::contract(env = ink::c)] mod" /\ off = 28 /\ macro_completions pr_ punct_ around_ root off v = Done l /\ In e l
  /\ applied (text_of root) e (lit "#[ink::contract(env = ink::contract)] mod").
Proof.
  exists (Node SOURCE_FILE [Node MODULE [attr_ [Node META [Node PATH [id_ (lit "ink"); sep_; id_ (lit "contract")];
    tree_ [id_ (lit "env"); ws_; Tok EQ (lit "="); ws_; id_ (lit "ink"); sep_; id_ (lit "c")]]]; ws_; Tok MOD_KW (lit "mod")]]), 28, V5. eexists _, _.
  split; [reflexivity|]. split; [reflexivity|]. split; [vm_compute; reflexivity|].
  split; [left; reflexivity|]. exists (lit "#[ink::contract(env = ink::"), (lit "c"), (lit ")] mod"). vm_compute. repeat split.
Qed.
(** [#[ink::ink] struct S;] with the cursor behind the second [ink]: the crate is written a second time. *)
Theorem C100_crate_refuted : exists root off v e l,
  text_of root = lit "#[ink::ink] struct S;" /\ off = 10 /\ macro_completions pr_ punct_ around_ root off v = Done l /\ In e l
  /\ applied (text_of root) e (lit "#[ink::ink::event] struct S;").
Proof.
  exists (file_ (attr_ [Node META [Node PATH [id_ (lit "ink"); sep_; id_ (lit "ink")]]])), 10, V5. eexists _, _. split; [reflexivity|]. split; [reflexivity|]. split; [vm_compute; reflexivity|].
  split; [left; reflexivity|]. exists (lit "#[ink::"), (lit "ink"), (lit "] struct S;"). vm_compute. repeat split.
Qed.

(** [struct S { #[ink(t)] f }]: the attribute of a field *)
Definition field_attr_ : elem := attr_ [Node META [Node PATH [id_ (lit "ink")]; tree_ [id_ (lit "t")]]].
Definition fields_ : elem := Node SOURCE_FILE [Node STRUCT [Tok STRUCT_KW (lit "struct"); ws_; Node NAME [id_ (lit "S")]; ws_;
  Node RECORD_FIELD_LIST [Tok L_CURLY (lit "{"); ws_; Node RECORD_FIELD [field_attr_; ws_; Node NAME [id_ (lit "f")]]; ws_; Tok R_CURLY (lit "}")]]].
Example fields_kind : text_of fields_ = lit "struct S { #[ink(t)] f }" /\ item_kind px_ pr_ punct_ fields_ ((17, id_ (lit "t")), up_ fields_ 10) = Some RECORD_FIELD.
Proof.
  split; [reflexivity|].
  assert (Ha : in_attribute (up_ fields_ 10) (11, field_attr_) (skipn 3 (up_ fields_ 10))) by in_attr_ 2.
  destruct (attr_cast px_ (read_attr pr_ (11, field_attr_))) as [ia|] eqn:Ec; [|vm_compute in Ec; discriminate Ec].
  eapply (C100_field px_ pr_ punct_ fields_ (17, id_ (lit "t")) _ _ _ _ [nth 4 (up_ fields_ 10) (0, ws_)] _ _ ia Ha Ec).
  - apply (C100_keyword_none punct_ fields_ _ _ _ _ Ha).
    + exists (19, Tok R_BRACK (lit "]")). split; [eexists _, _; split; [reflexivity|]; vm_compute; tauto | split; reflexivity].
    + intros inner it up2 E Hin Hit c (k & cs & Es & Hp) Hk Hr. vm_compute in E. destruct inner as [|i1 [|i2 [|i3 [|i4 inner]]]]; cbn [app] in E; try discriminate E; injection E; clear E; intros; subst; try (destruct inner; discriminate);
        try (vm_compute in Hit; discriminate Hit); cbn [snd] in Es; try discriminate Es; try (injection Es as <- <-); vm_compute in Hp; repeat destruct Hp as [<-|Hp]; try discriminate Hk; destruct Hp.
  - reflexivity.
  - intros y [<-|[]]. reflexivity.
  - eexists. reflexivity.
  - left. reflexivity.
Qed.

Print Assumptions C100_macro_partial.
Print Assumptions C100_opened_partial.
Print Assumptions C100_keyword.
Print Assumptions C100_brace_refuted. Print Assumptions C100_keyword_unclosed.
Print Assumptions C100_keyword_none.
Print Assumptions C100_field.
Print Assumptions C100_word.
Print Assumptions C100_delimiter_partial.
Print Assumptions C100_options_partial.
Print Assumptions C100_bracket_refuted.
Print Assumptions C100_joined_refuted.
Print Assumptions C100_parenthesis_refuted.
Print Assumptions C100_option_refuted.
Print Assumptions C100_value_refuted.
Print Assumptions C100_crate_refuted.
