(** C96: for what the user points at actions are offered, and where new code goes. *)
From Coq Require Import List Lia.
From Verif Require Import Base BaseFacts Unicode PositionModel TranslateModel SyntaxModel AttrModel EditModel EditSpec ArgEditModel RuleModel RuleSpec ChainSpec EntityModel EntitySpec HintModel HintSpec
  UtilModel UtilSpec ExtractModel ExtractSpec ExtractProofs ExtractProps FocusModel FocusSpec FocusProofs.
Import ListNotations.

(** With the cursor inside of the body of an item (in none of its items, fields and attributes), new entities are offered for
    this item. They go to the cursor if it is in white space, otherwise behind the token at the cursor; in any case they go into the body. *)
Theorem C96_body : forall root K front decl lk inner o up off,
  braced_ok K front decl lk inner -> around root (o, braced K front decl lk inner) up -> outside up ->
  direct off (o + bytes (texts_of (front ++ decl)), brace_list lk inner) -> body_start o front decl < off < body_end o front decl inner ->
  exists p, focus root (off, off) = Done [Entities (o, braced K front decl lk inner) (Some p)]
    /\ new_code_at root off p /\ body_start o front decl <= fst p /\ fst p <= snd p /\ snd p <= body_end o front decl inner.
Proof.
  intros root K front decl lk inner o up off Hok Ha Ho Hd Hb.
  destruct (body_cursor root K front decl lk inner o up Hok Ha off Ho Hd ltac:(lia) ltac:(lia)) as (p & Hf & Hn & Hp). exists p.
  rewrite Hf, (proj2 (Nat.eqb_neq _ _)), (proj2 (Nat.eqb_neq _ _)) by lia. split; [reflexivity|]. split; [exact Hn|]. apply Hp, Hb.
Qed.

(** With the cursor right behind the opening brace, or right before the closing brace, attributes for the item are offered as well. *)
Theorem C96_brace_partial : forall root K front decl lk inner o up off,
  braced_ok K front decl lk inner -> around root (o, braced K front decl lk inner) up -> outside up ->
  direct off (o + bytes (texts_of (front ++ decl)), brace_list lk inner) -> inner <> [] -> (forall e, In e inner -> 0 < len_of e) ->
  off = body_start o front decl \/ off = body_end o front decl inner ->
  exists p, focus root (off, off) = Done [Attributes (o, braced K front decl lk inner) (decl_start o front, body_start o front decl); Entities (o, braced K front decl lk inner) (Some p)]
    /\ new_code_at root off p.
Proof.
  intros root K front decl lk inner o up off Hok Ha Ho Hd Hne Hl Hb.
  assert (Hlt : body_start o front decl < body_end o front decl inner).
  { unfold body_end. destruct inner as [|e l]; [contradiction|]. specialize (Hl e (or_introl eq_refl)). unfold len_of in Hl. unfold texts_of. cbn [flat_map]. rewrite PositionProofs.bytes_app. lia. }
  destruct (body_cursor root K front decl lk inner o up Hok Ha off Ho Hd ltac:(lia) Hlt) as (p & Hf & Hn & _). exists p. rewrite Hf.
  split; [|exact Hn]. destruct Hb as [-> | ->]; rewrite Nat.eqb_refl; [|rewrite orb_true_r]; reflexivity.
Qed.

(** With the cursor in the declaration of an item, attributes for it are offered (its declaration is marked), and entities
    at the place that is usual for them. With the cursor before the declaration, but in no attribute, nothing is offered. *)
Theorem C96_declaration : forall root K front decl lk inner o up off,
  braced_ok K front decl lk inner -> around root (o, braced K front decl lk inner) up -> outside up ->
  direct off (o, braced K front decl lk inner) -> o < off < body_start o front decl ->
  (decl_start o front <= off ->
    focus root (off, off) = Done [Attributes (o, braced K front decl lk inner) (decl_start o front, body_start o front decl); Entities (o, braced K front decl lk inner) None])
  /\ (off < decl_start o front -> focus root (off, off) = Done []).
Proof.
  intros root K front decl lk inner o up off Hok Ha Ho Hd Hb. rewrite (head_cursor root K front decl lk inner o up Hok Ha off Ho Hd Hb). split; intros H.
  - rewrite (proj2 (Nat.leb_le _ _) H). reflexivity.
  - rewrite (proj2 (Nat.leb_gt _ _) H). reflexivity.
Qed.

(** Functions, with or without a body: attributes are offered with the cursor in the declaration (which is marked), none with the
    cursor in the body. *)
Theorem C96_function : forall root front decl last inner o up off,
  function_ok front decl last inner -> around root (o, function front decl last) up -> outside up ->
  (direct off (o, function front decl last) -> o < off < body_start o front decl ->
     (decl_start o front <= off ->
       focus root (off, off) = Done [Attributes (o, function front decl last) (decl_start o front, body_start o front decl); Entities (o, function front decl last) None])
     /\ (off < decl_start o front -> focus root (off, off) = Done []))
  /\ (last = block inner -> direct off (o + bytes (texts_of (front ++ decl)), brace_list STMT_LIST inner) ->
      body_start o front decl < off < body_end o front decl inner ->
      exists p, focus root (off, off) = Done [Entities (o, function front decl last) (Some p)]).
Proof.
  intros root front decl last inner o up off Hok Ha Ho. split.
  - intros Hd Hb. rewrite (f_head root front decl last inner o up Hok Ha off Ho Hd Hb). split; intros H.
    + rewrite (proj2 (Nat.leb_le _ _) H). reflexivity.
    + rewrite (proj2 (Nat.leb_gt _ _) H). reflexivity.
  - intros El Hd Hb. exact (f_body root front decl last inner o up Hok Ha off El Ho Hd Hb).
Qed.

(** Items that end in a semicolon instead (modules of other files, unit and tuple structs, type aliases): attributes are offered
    with the cursor in the declaration, up to the semicolon; no place for new code is. *)
Theorem C96_semicolon : forall root K front decl o up off,
  short_ok K front decl -> around root (o, short K front decl) up -> outside up -> direct off (o, short K front decl) -> o < off < lend (o, short K front decl) ->
  (decl_start o front <= off ->
    focus root (off, off) = Done [Attributes (o, short K front decl) (decl_start o front, lend (o, short K front decl)); Entities (o, short K front decl) None])
  /\ (off < decl_start o front -> focus root (off, off) = Done []).
Proof.
  intros root K front decl o up off Hok Ha Ho Hd Hb. rewrite (s_end K front decl o) in *. rewrite (s_cursor root K front decl o up Hok Ha off Ho Hd Hb). split; intros H.
  - rewrite (proj2 (Nat.leb_le _ _) H). reflexivity.
  - rewrite (proj2 (Nat.leb_gt _ _) H). reflexivity.
Qed.

(** With the cursor in a field of a struct, attributes for this field are offered, and nothing else. *)
Theorem C96_field : forall root front decl inner o up off q fcs,
  braced_ok STRUCT front decl RECORD_FIELD_LIST inner -> around root (o, braced STRUCT front decl RECORD_FIELD_LIST inner) up -> outside up ->
  In (q, Node RECORD_FIELD fcs) (place (body_start o front decl) inner) -> direct off (q, Node RECORD_FIELD fcs) -> q < off < lend (q, Node RECORD_FIELD fcs) ->
  focus root (off, off) = Done [Attributes (q, Node RECORD_FIELD fcs) (range_of (q, Node RECORD_FIELD fcs))].
Proof.
  intros root front decl inner o up off q fcs Hok Ha Ho Hq Hd Hb. exact (field_cursor root STRUCT front decl RECORD_FIELD_LIST inner o up Hok Ha off q fcs eq_refl Ho Hq Hd Hb).
Qed.

(** In an attribute nothing is offered (here: there are other actions for attributes). *)
Theorem C96_attribute : forall root a r, in_file root a -> plain_attr a -> points_into r a -> focus root r = Done [].
Proof. exact in_attribute. Qed.

(** In a file, outside of its items, new entities for the file are offered; also in an empty file. *)
Theorem C96_root : forall cs off,
  (0 < off < len_of (Node SOURCE_FILE cs) -> (forall c, In c (place 0 cs) -> touching off c -> is_tok (snd c) = true) ->
    exists p, focus (Node SOURCE_FILE cs) (off, off) = Done [RootEntities p] /\ new_code_at (Node SOURCE_FILE cs) off p)
  /\ focus (Node SOURCE_FILE []) (0, 0) = Done [RootEntities (0, 0)].
Proof. intros cs off. split; [apply root_cursor | reflexivity]. Qed.

(** Whatever the user selects: only for an item, or a field, that contains the selection something is offered. *)
Theorem C96_only : forall root r os, focus root r = Done os -> fst r <= snd r -> Forall (offer_sound root r) os.
Proof. exact focus_sound. Qed.

(** ** Examples *)
Lemma root_direct off e : forallb (fun c => forallb (fun p : path => negb ((lstart (fst p) <=? off) && (off <=? lend (fst p)))
    || (negb (item_node (snd (fst p))) && negb (skind_eqb (lkind (fst p)) ATTR) && negb (skind_eqb (lkind (fst p)) RECORD_FIELD))) (paths [] (fst c) (snd c))) (children_of e) = true -> direct off e.
Proof.
  intros H k cs c x Es Hc Hx Ht. unfold children_of in H. rewrite Es in H. rewrite forallb_forall in H. specialize (H c Hc).
  pose proof (elements_all (fun x => negb ((lstart x <=? off) && (off <=? lend x)) || (negb (item_node (snd x)) && negb (skind_eqb (lkind x) ATTR) && negb (skind_eqb (lkind x) RECORD_FIELD))) c H x Hx) as G.
  cbv beta in G. unfold touching in Ht. rewrite (proj2 (Nat.leb_le (lstart x) off)), (proj2 (Nat.leb_le off (lend x))) in G by lia. cbn [andb negb orb] in G.
  rewrite !andb_true_iff, !negb_true_iff in G. destruct G as ((G1 & G2) & G3). split; [exact G1|]. split; intros E; rewrite E in *; discriminate.
Qed.

(** [#[ink::contract]\nmod m {\n    fn f();\n}\n] and a struct *)
Definition front_ := [attr_ "#[ink::contract]"; ws_ 0].
Definition mdecl_ := [Tok MOD_KW (lit "mod"); w_ " "; Node NAME [id_ "m"]; w_ " "].
Definition inner_ := [ws_ 4; Node FN [Tok FN_KW (lit "fn f();")]; ws_ 0].
Definition contract_ := braced MODULE front_ mdecl_ ITEM_LIST inner_.
Definition sdecl_ := [Tok STRUCT_KW (lit "struct"); w_ " "; Node NAME [id_ "S"]; w_ " "].
Definition fields_ := [ws_ 4; Node RECORD_FIELD [Node NAME [id_ "a"]; Tok COLON (lit ":"); w_ " "; id_ "u32"]; Tok WHITESPACE (c_nl :: repeat 32%N 4 ++ [c_nl])].
Definition event_ := braced STRUCT [attr_ "#[ink::event]"; ws_ 0] sdecl_ RECORD_FIELD_LIST fields_.
Definition file_ := Node SOURCE_FILE [contract_; ws_ 0; event_; Tok WHITESPACE [c_nl; c_nl]].
Example file_text : text_of file_ = unlines [lit "#[ink::contract]"; lit "mod m {"; lit "    fn f();"; lit "}"; lit "#[ink::event]"; lit "struct S {"; lit "    a: u32"; lit "    "; lit "}"; []; []].
Proof. vm_compute. reflexivity. Qed.
Example file_around : around file_ (0, contract_) [(0, file_)] /\ around file_ (39, event_) [(0, file_)] /\ outside [(0, file_)].
Proof.
  split; [apply (io_child _ _ _ _ (0, contract_)); [left; reflexivity | constructor]|]. split; [apply (io_child _ _ _ _ (39, event_)); [right; right; left; reflexivity | constructor]|].
  intros x [<-|[]]. split; discriminate.
Qed.
Lemma front_example a : lit a <> [] -> front_only [attr_ a; ws_ 0].
Proof.
  intros Ha. apply Forall_cons; [left; eexists; split; [reflexivity|]|].
  - split; [apply Forall_cons; [exact Ha | constructor]|]. split; [exists (POUND, lit a), [] | exists [], (POUND, lit a)]; split; reflexivity.
  - apply Forall_cons; [right; do 2 eexists; split; [reflexivity|]; split; [reflexivity | discriminate] | constructor].
Qed.
Ltac no_kinds := intros e He; cbn in He; repeat destruct He as [<-|He]; try (cbn; intuition discriminate); destruct He.
Example braced_example : braced_ok MODULE front_ mdecl_ ITEM_LIST inner_ /\ braced_ok STRUCT [attr_ "#[ink::event]"; ws_ 0] sdecl_ RECORD_FIELD_LIST fields_.
Proof.
  split; (split; [unfold has_list; cbn; tauto|]; split; [apply front_example; discriminate|]; split; [do 2 eexists; split; reflexivity|];
    split; [unfold no_docs; repeat (apply Forall_cons; [intros c E; discriminate E|]); constructor|]; split; no_kinds).
Qed.
(** [#[ink(event)]\nstruct S(u8);] with the cursor in [struct] *)
Definition tuple_decl := [Tok STRUCT_KW (lit "struct"); w_ " "; Node NAME [Tok IDENT (lit "S")]; Node TUPLE_FIELD_LIST [Tok L_PAREN (lit "("); Node (OTHER 130) [Tok IDENT (lit "u8")]; Tok R_PAREN (lit ")")]].
Example semicolon_example :
  let item := short STRUCT [attr_ "#[ink::event]"; ws_ 0] tuple_decl in
  let root := Node SOURCE_FILE [item] in
  short_ok STRUCT [attr_ "#[ink::event]"; ws_ 0] tuple_decl /\ around root (0, item) [(0, root)] /\ outside [(0, root)] /\ direct 15 (0, item)
  /\ focus root (15, 15) = Done [Attributes (0, item) (14, 27); Entities (0, item) None].
Proof.
  cbv zeta. split; [|split; [|split; [|split; [apply root_direct; vm_compute; reflexivity | vm_compute; reflexivity]]]].
  - split; [cbn; tauto|]. split; [apply front_example; discriminate|]. split; [do 2 eexists; split; reflexivity|].
    split; [unfold no_docs; repeat (apply Forall_cons; [intros c E; discriminate E|]); constructor|]. no_kinds.
  - apply (io_child _ _ _ _ (0, short STRUCT [attr_ "#[ink::event]"; ws_ 0] tuple_decl)); [left; reflexivity | constructor].
  - intros x [<-|[]]. split; discriminate.
Qed.
(** In the module, in white space and behind it; in its name; before it; in a field; in the attribute; in the file *)
Example body_example : direct 27 (23, brace_list ITEM_LIST inner_) /\ focus file_ (27, 27) = Done [Entities (0, contract_) (Some (27, 27))].
Proof. split; [apply root_direct; vm_compute; reflexivity | vm_compute; reflexivity]. Qed.
Example decl_example : direct 18 (0, contract_) /\ focus file_ (18, 18) = Done [Attributes (0, contract_) (17, 24); Entities (0, contract_) None].
Proof. split; [apply root_direct; vm_compute; reflexivity | vm_compute; reflexivity]. Qed.
Example front_cursor : focus file_ (5, 5) = Done [] /\ exists a, in_file file_ (0, a) /\ plain_attr (0, a) /\ points_into (5, 5) (0, a) /\ a = attr_ "#[ink::contract]".
Proof.
  split; [vm_compute; reflexivity|]. exists (attr_ "#[ink::contract]"). split; [|split; [|split; [|reflexivity]]].
  - apply (eo_child _ _ _ (0, contract_)); [left; reflexivity|]. apply (eo_child _ _ _ (0, attr_ "#[ink::contract]")); [left; reflexivity | constructor].
  - split; [reflexivity|]. split; [reflexivity|]. intros e He Hk. inversion He; subst; [reflexivity|]. destruct H3 as [<-|[]]. inversion H4; subst. discriminate Hk.
  - split; [split; vm_compute; repeat constructor|]. split; [apply le_n|]. intros _. split; vm_compute; repeat constructor.
Qed.
Definition fdecl_ := [Tok FN_KW (lit "fn"); w_ " "; Node NAME [id_ "f"]; Node PARAM_LIST [Tok L_PAREN (lit "("); Tok R_PAREN (lit ")")]; w_ " "].
Definition ffile_ (last : elem) := Node SOURCE_FILE [function [attr_ "#[ink(message)]"; ws_ 0] fdecl_ last].
Example function_example : forall last inner, In (last, inner) [(block [w_ " "; id_ "g"; w_ " "], [w_ " "; id_ "g"; w_ " "]); (Tok SEMICOLON (lit ";"), [])] ->
  function_ok [attr_ "#[ink(message)]"; ws_ 0] fdecl_ last inner
  /\ around (ffile_ last) (0, function [attr_ "#[ink(message)]"; ws_ 0] fdecl_ last) [(0, ffile_ last)] /\ outside [(0, ffile_ last)]
  /\ direct 20 (0, function [attr_ "#[ink(message)]"; ws_ 0] fdecl_ last) /\ body_start 0 [attr_ "#[ink(message)]"; ws_ 0] fdecl_ = 24
  /\ (inner <> [] -> direct 26 (23, brace_list STMT_LIST inner) /\ body_end 0 [attr_ "#[ink(message)]"; ws_ 0] fdecl_ inner = 27).
Proof.
  intros last inner [H|[H|[]]]; injection H as <- <-; (split; [|split; [eapply io_child; [left; reflexivity | constructor]|]]).
  1,3: split; [first [left; reflexivity | right; split; reflexivity]|]; split; [apply front_example; discriminate|]; split; [do 2 eexists; split; reflexivity|];
    split; [unfold no_docs; repeat (apply Forall_cons; [intros c E; discriminate E|]); constructor|]; split; no_kinds.
  1,2: split; [intros x [<-|[]]; split; discriminate|]; split; [apply root_direct; vm_compute; reflexivity|]; split; [vm_compute; reflexivity|].
  - intros _. split; [apply root_direct; vm_compute; reflexivity | vm_compute; reflexivity].
  - intros C. contradiction.
Qed.
Example field_example : focus file_ (70, 70) = Done [Attributes (68, nth 1 fields_ file_) (68, 74)]
  /\ direct 70 (68, nth 1 fields_ file_) /\ In (68, nth 1 fields_ file_) (place 63 fields_).
Proof. split; [vm_compute; reflexivity|]. split; [apply root_direct; vm_compute; reflexivity | right; left; reflexivity]. Qed.
Example root_example : exists cs, file_ = Node SOURCE_FILE cs /\ focus file_ (82, 82) = Done [RootEntities (82, 82)] /\ (forall c, In c (place 0 cs) -> touching 82 c -> is_tok (snd c) = true).
Proof.
  eexists. split; [reflexivity|]. split; [vm_compute; reflexivity|]. intros c Hc Ht. unfold touching, lstart, lend in Ht.
  repeat destruct Hc as [<-|Hc]; try reflexivity; try destruct Hc; vm_compute in Ht; exfalso; lia.
Qed.

(** ** What goes wrong *)

(** Right before the closing brace of the body, with white space before it, new code goes behind the item. *)
Theorem C96_brace_refuted : exists root K front decl lk inner o up off p,
  braced_ok K front decl lk inner /\ around root (o, braced K front decl lk inner) up /\ outside up /\ direct off (o + bytes (texts_of (front ++ decl)), brace_list lk inner)
  /\ off = body_end o front decl inner /\ body_start o front decl < off
  /\ In (Entities (o, braced K front decl lk inner) (Some p)) (match focus root (off, off) with Done l => l | Panic => [] end)
  /\ fst p = lend (o, braced K front decl lk inner).
Proof.
  exists file_, MODULE, front_, mdecl_, ITEM_LIST, inner_, 0, [(0, file_)], 37, (38, 38). split; [apply braced_example|]. split; [apply file_around|]. split; [apply file_around|].
  split; [apply root_direct; vm_compute; reflexivity|]. split; [reflexivity|]. split; [vm_compute; repeat constructor|]. split; [vm_compute; right; left; reflexivity | reflexivity].
Qed.

(** With several lines of the body selected, new code goes behind the item as well. *)
Theorem C96_selection_refuted : exists root K front decl lk inner o up r p,
  braced_ok K front decl lk inner /\ around root (o, braced K front decl lk inner) up /\ outside up
  /\ body_start o front decl < fst r /\ fst r < snd r /\ snd r < body_end o front decl inner
  /\ focus root r = Done [Entities (o, braced K front decl lk inner) (Some p)]
  /\ fst p = lend (o, braced K front decl lk inner).
Proof.
  exists file_, MODULE, front_, mdecl_, ITEM_LIST, inner_, 0, [(0, file_)], (26, 36), (38, 38). split; [apply braced_example|]. split; [apply file_around|]. split; [apply file_around|].
  do 3 (split; [vm_compute; repeat constructor|]). split; [vm_compute; reflexivity | reflexivity].
Qed.

(** A topic that is added behind a field without a comma is not separated from this field. *)
Theorem C96_topic_refuted : exists root r s p edit,
  focus root r = Done [Entities s (Some p)] /\ add_topic ascii_unicode (file_toks root) (ItemAt None s) (Some p) = Done (Some edit)
  /\ text_of root = unlines [lit "#[ink::contract]"; lit "mod m {"; lit "    fn f();"; lit "}"; lit "#[ink::event]"; lit "struct S {"; lit "    a: u32"; lit "    "; lit "}"; []; []]
  /\ applied (text_of root) edit (unlines [lit "#[ink::contract]"; lit "mod m {"; lit "    fn f();"; lit "}"; lit "#[ink::event]"; lit "struct S {"; lit "    a: u32"; lit "        #[ink(topic)]";
       lit "    my_topic: bool,"; lit "}"; []; []]).
Proof.
  exists file_, (79, 79), (39, event_), (79, 79). eexists. split; [vm_compute; reflexivity|]. split; [vm_compute; reflexivity|]. split; [vm_compute; reflexivity|].
  exists (firstn 79 (text_of file_)), [], (skipn 79 (text_of file_)). repeat split; vm_compute; reflexivity.
Qed.

Print Assumptions C96_body.
Print Assumptions C96_brace_partial.
Print Assumptions C96_declaration.
Print Assumptions C96_function.
Print Assumptions C96_semicolon.
Print Assumptions C96_field.
Print Assumptions C96_attribute.
Print Assumptions C96_root.
Print Assumptions C96_only.
Print Assumptions C96_brace_refuted.
Print Assumptions C96_selection_refuted.
Print Assumptions C96_topic_refuted.
