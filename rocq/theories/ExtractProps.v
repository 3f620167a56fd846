(** C95: extraction of an event into a package of its own. *)
From Coq Require Import List.
From Verif Require Import Base BaseFacts Unicode PositionModel TranslateModel SyntaxModel CommandModel AttrModel EditModel EditSpec UtilModel UtilSpec ChainSpec RuleModel
  EntityModel HintModel HintSpec HintProofs ExtractModel ExtractSpec ExtractProofs.
Import ListNotations.

(** When the user points at an event in a module, the extraction has the name of the event. The new file has the comments, the
    other attributes and the declaration of the event, with its indentation taken off, and one [ink::event] attribute. In the
    contract's file the event is taken out and the import is put behind the last [use] of the module, or its brace. *)
Theorem C95_extracts : forall U read root r s heads decl name up m il outer prev i mprev j ls,
  unicode_ok U -> extractable U read root r s heads decl name up m il outer ->
  right_before s up prev -> indented_by U prev i -> tidy (texts_of decl) ls -> right_before m outer mprev -> indented_by U mprev j ->
  exists content body ed o,
    extract U read root r = Done (Some (Extraction name content [ed] o ([c_nl] ++ member_indent j)))
    /\ new_file read s heads body content /\ unindented i (texts_of decl) body /\ import_place il o
    /\ forall import, exists result, rewritten (text_of root) ([ed] ++ [edit_insert import o]) result /\ taken_out U (text_of root) s import o result.
Proof. exact extract_full. Qed.

(** Nothing but an event that the user points at is extracted, and what is deleted is this event. *)
Theorem C95_only_events : forall U read root r x,
  extract U read root r = Done (Some x) -> fst r <= snd r ->
  exists s n e, in_file root s /\ (exists cs, snd s = Node STRUCT cs) /\ inside r (range_of s) /\ event_struct read s
    /\ child_node NAME s = Some n /\ ex_name x = text_of (snd n)
    /\ ex_edits x = [e] /\ format_in U more_items root (edit_delete (lrange_of s)) = Done e.
Proof.
  intros U read root r x H Hr. destruct (extract_sound U read root r x H Hr) as (s & n & H1 & H2 & H3 & H4 & H5 & H6 & e & H7 & H8). exists s, n, e.
  repeat (split; [assumption|]). assumption.
Qed.

(** ** Example *)
Lemma elements_paths e x : element_of e x -> forall anc, In x (map fst (paths anc (fst e) (snd e))).
Proof.
  induction 1 as [e|o k cs c e Hc _ IH]; intros anc.
  - destruct e as [o [k t|k cs]]; left; reflexivity.
  - cbn [fst snd]. rewrite paths_node. cbn [map]. right. specialize (IH ((o, Node k cs) :: anc)). apply in_map_iff in IH. destruct IH as (p & <- & Hp).
    apply in_map_iff. exists p. split; [reflexivity|]. apply in_flat_map. exists c. auto.
Qed.
Lemma elements_all (P : lelem -> bool) e : forallb (fun p => P (fst p)) (paths [] (fst e) (snd e)) = true -> forall x, element_of e x -> P x = true.
Proof.
  intros H x Hx. apply (elements_paths _ _) with (anc := []) in Hx. apply in_map_iff in Hx. destruct Hx as (p & <- & Hp). rewrite forallb_forall in H. exact (H p Hp).
Qed.

Definition w_ (s : string) : elem := Tok WHITESPACE (lit s).
Definition ws_ (n : nat) : elem := Tok WHITESPACE (c_nl :: repeat 32%N n).
Definition id_ (s : string) : elem := Tok IDENT (lit s).
Definition attr_ (s : string) : elem := Node ATTR [Tok POUND (lit s)].
Definition arg_ (k : arg_kind) (i : list ink_arg) : ink_attr := InkAttr (AkArg k) i (AttrSyntax [lit "ink"] None (0, 0)) None.
(** The attributes as read: [ink(event)], [ink::event], [ink::scale_derive(..)]; others are not ink! attributes. *)
Definition read_ (a : lelem) : option ink_attr :=
  let t := text_of (snd a) in
  if str_eqb t (lit "#[ink(event)]") then Some (arg_ AEvent [])
  else if str_eqb t (lit "#[ink::event]") then Some (InkAttr (AkMacro MEvent) [] (AttrSyntax [lit "ink"; lit "event"] None (0, 0)) None)
  else if str_eqb t (lit "#[ink::scale_derive(Decode)]") then Some (InkAttr (AkMacro MScaleDerive) [] (AttrSyntax [lit "ink"; lit "scale_derive"] None (0, 0)) None)
  else None.

Definition heads_ := [Head (Tok COMMENT (lit "/// A move.")) (Some (c_nl :: repeat 32%N 4)); Head (attr_ "#[ink(event)]") (Some (c_nl :: repeat 32%N 4));
  Head (attr_ "#[derive(Clone)]") (Some (c_nl :: repeat 32%N 4))].
Definition decl_ := [id_ "pub"; w_ " "; Tok STRUCT_KW (lit "struct"); w_ " "; Node NAME [id_ "Moved"]; w_ " ";
  Node RECORD_FIELD_LIST [Tok L_CURLY (lit "{"); ws_ 8; Node RECORD_FIELD [attr_ "#[ink(topic)]"; w_ " "; Node NAME [id_ "to"]; Tok COMMA (lit ": u32")];
    Tok COMMA (lit ","); ws_ 4; Tok R_CURLY (lit "}")]].
Definition use_ := Node USE [id_ "use x;"].
Definition list_ (items : list elem) := Node ITEM_LIST ([Tok L_CURLY (lit "{")] ++ items ++ [Tok R_CURLY (lit "}")]).
Definition mod_ (items : list elem) := Node MODULE [Tok MOD_KW (lit "mod"); w_ " "; Node NAME [id_ "m"]; w_ " "; list_ items].
Definition items_ := [ws_ 4; use_; ws_ 4; struct_of heads_ decl_; ws_ 0].
Definition root_ := Node SOURCE_FILE [mod_ items_; ws_ 0].
Definition s_ : lelem := (23, struct_of heads_ decl_).
Definition il_ : lelem := (6, list_ items_).
Definition m_ : lelem := (0, mod_ items_).

Example text_example : text_of root_ = unlines [lit "mod m {"; lit "    use x;"; lit "    /// A move."; lit "    #[ink(event)]"; lit "    #[derive(Clone)]";
  lit "    pub struct Moved {"; lit "        #[ink(topic)] to: u32,"; lit "    }"; lit "}"; []].
Proof. vm_compute. reflexivity. Qed.
Example extract_example : exists ed, extract ascii_unicode read_ root_ (90, 90) = Done (Some (Extraction (lit "Moved")
    (unlines [lit "/// A move."; lit "#[derive(Clone)]"; lit "#[ink::event]"; lit "pub struct Moved {"; lit "    #[ink(topic)] to: u32,"; lit "}"])
    [ed] 18 (c_nl :: repeat 32%N 4))) /\ te_text ed = [] /\ te_range ed = (23, 133).
Proof. eexists. split; [vm_compute; reflexivity|]. split; reflexivity. Qed.

Lemma root_parsed root : forallb (fun l => negb (is_empty (snd l)) && negb (skind_eqb (fst l) ATTR)
    && (negb (skind_eqb (fst l) WHITESPACE) || forallb ascii_white (snd l))) (leaves root) = true -> parsed ascii_unicode root.
Proof.
  intros H. rewrite forallb_forall in H. split.
  - intros k t Hl. specialize (H _ Hl). cbn [fst snd] in H. rewrite !andb_true_iff in H. destruct H as ((H1 & _) & H2). split.
    + intros ->. discriminate H1.
    + intros ->. cbn in H2. intros c Hc. rewrite forallb_forall in H2. exact (H2 c Hc).
  - intros t Hl. specialize (H _ Hl). cbn [fst snd] in H. rewrite !andb_true_iff in H. destruct H as ((_ & H1) & _). discriminate H1.
Qed.
Lemma root_full root : forallb (fun p : path => negb (item_node (snd (fst p))) || (0 <? len_of (snd (fst p)))) (paths [] 0 root) = true -> full root.
Proof.
  intros H e He Hi. pose proof (elements_all (fun x => negb (item_node (snd x)) || (0 <? len_of (snd x))) (0, root) H e He) as G. cbv beta in G. rewrite Hi in G.
  apply Nat.ltb_lt, G.
Qed.
Lemma struct_no_items s : forallb (fun c => forallb (fun p : path => negb (item_node (snd (fst p)))) (paths [] (fst c) (snd c))) (children_of s) = true -> no_items s.
Proof.
  intros H k cs c e Es Hc He. unfold children_of in H. rewrite Es in H. rewrite forallb_forall in H. specialize (H c Hc).
  apply negb_true_iff. exact (elements_all (fun x => negb (item_node (snd x))) c H e He).
Qed.

Example extractable_example : extractable ascii_unicode read_ root_ (90, 90) s_ heads_ decl_ (lit "Moved") [il_; m_; (0, root_)] m_ il_ [(0, root_)]
  /\ right_before s_ [il_; m_; (0, root_)] (Some (ws_ 4)) /\ indented_by ascii_unicode (Some (ws_ 4)) (repeat 32%N 4)
  /\ (exists ls, tidy (texts_of decl_) ls) /\ right_before m_ [(0, root_)] None /\ indented_by ascii_unicode None [].
Proof.
  split; [constructor|].
  - split; [apply root_parsed; vm_compute; reflexivity | apply root_full; vm_compute; reflexivity].
  - split; [reflexivity|]. split.
    { apply Forall_cons; [left; eexists; split; [reflexivity | discriminate]|]. do 2 (apply Forall_cons; [right; eexists; split; [reflexivity | discriminate]|]). constructor. }
    split.
    { split; [|split].
      - intros e He. repeat destruct He as [<-|He]; try (split; discriminate). destruct He.
      - intros e l E. injection E as <- _. discriminate.
      - do 2 eexists. split; [vm_compute; reflexivity | reflexivity]. }
    split; [apply struct_no_items; vm_compute; reflexivity|].
    exists STRUCT, (flat_map head_elems heads_ ++ firstn 4 decl_), (Node NAME [id_ "Moved"]), (skipn 5 decl_). split; [reflexivity|]. split; [eexists; reflexivity|]. split; [reflexivity|].
    intros x Hx. repeat destruct Hx as [<-|Hx]; try discriminate. destruct Hx.
  - exists (39, attr_ "#[ink(event)]"), (arg_ AEvent []). split; [vm_compute; left; reflexivity|]. split; [reflexivity | left; reflexivity].
  - split; [|split].
    + apply (io_child _ _ _ _ m_); [left; reflexivity|]. apply (io_child _ _ _ _ il_); [vm_compute; do 4 right; left; reflexivity|].
      apply (io_child _ _ _ _ s_); [vm_compute; do 4 right; left; reflexivity|]. constructor.
    + exists []. split; [reflexivity|]. split; [intros e [<-|[]]; split; discriminate|]. split; eexists; [reflexivity|]. eexists. reflexivity.
    + do 3 eexists. split; [reflexivity|]. split; [exact (eq_refl (firstn 4 (place 0 (children (mod_ items_))) ++ il_ :: []))|].
      intros x Hx. vm_compute in Hx. repeat destruct Hx as [<-|Hx]; try discriminate. destruct Hx.
  - split.
    + split; [split; vm_compute; repeat constructor|]. split; [apply le_n|]. intros _. vm_compute. repeat constructor.
    + intros H. apply Nat.lt_irrefl in H. destruct H.
  - split; [|split; [|split; [|split]]].
    + do 4 eexists. split; [reflexivity|]. split; [exact (eq_refl (firstn 4 (place 6 (children (list_ items_))) ++ s_ :: skipn 5 (place 6 (children (list_ items_)))))|].
      exists (firstn 3 (place 6 (children (list_ items_)))), 18. reflexivity.
    + apply (ib_some _ _ _ 32%N); [intros c [<-|Hc]; [reflexivity | apply repeat_spec in Hc; subst c; reflexivity]| |intros x Hx; apply repeat_spec in Hx; exact Hx].
      split; [intros H; apply repeat_spec in H; discriminate H|]. right. exists []. reflexivity.
    + exists [lit "pub struct Moved {"; lit "        #[ink(topic)] to: u32,"; lit "    }"]. split; [|split].
      * split; [vm_compute; reflexivity|]. split; [discriminate|]. intros l Hl. repeat destruct Hl as [<-|Hl]; try (vm_compute; intuition discriminate). 
      * vm_compute. intuition discriminate.
      * exists [lit "pub struct Moved {"; lit "        #[ink(topic)] to: u32,"], (lit "    }"). split; [reflexivity | discriminate].
    + do 4 eexists. split; [reflexivity|]. split; [exact (eq_refl ([] ++ m_ :: skipn 1 (place 0 (children root_)))) | reflexivity].
    + constructor. discriminate.
Qed.

(** ** What goes wrong *)

(** An event may stand outside any module. Then nothing is extracted (although the action is offered). *)
Definition root2_ := Node SOURCE_FILE [Node STRUCT [attr_ "#[ink::event]"; ws_ 0; id_ "pub"; w_ " "; Tok STRUCT_KW (lit "struct"); w_ " "; Node NAME [id_ "E"]; Tok SEMICOLON (lit ";")]; ws_ 0].
Theorem C95_standalone_refuted : exists U read root r s name,
  unicode_ok U /\ parsed U root /\ full root /\ around root s [(0, root)] /\ (exists cs, snd s = Node STRUCT cs) /\ event_struct read s /\ no_items s /\ named (snd s) name
  /\ points_at r s /\ extract U read root r = Done None.
Proof.
  exists ascii_unicode, read_, root2_, (20, 20), (0, Node STRUCT [attr_ "#[ink::event]"; ws_ 0; id_ "pub"; w_ " "; Tok STRUCT_KW (lit "struct"); w_ " "; Node NAME [id_ "E"]; Tok SEMICOLON (lit ";")]), (lit "E").
  split; [apply ascii_unicode_ok|]. split; [apply root_parsed; vm_compute; reflexivity|]. split; [apply root_full; vm_compute; reflexivity|].
  split; [eapply io_child; [left; reflexivity | constructor]|]. split; [eexists; reflexivity|].
  split; [do 2 eexists; split; [left; reflexivity|]; split; [vm_compute; reflexivity | right; reflexivity]|].
  split; [apply struct_no_items; vm_compute; reflexivity|].
  split; [exists STRUCT, [attr_ "#[ink::event]"; ws_ 0; id_ "pub"; w_ " "; Tok STRUCT_KW (lit "struct"); w_ " "], (Node NAME [id_ "E"]), [Tok SEMICOLON (lit ";")]; split; [reflexivity|];
    split; [eexists; reflexivity|]; split; [reflexivity|]; intros x Hx; repeat destruct Hx as [<-|Hx]; try discriminate; destruct Hx|].
  split; [|vm_compute; reflexivity]. split.
  - split; [split; vm_compute; repeat constructor|]. split; [apply le_n|]. intros _. vm_compute. repeat constructor.
  - intros H. apply Nat.lt_irrefl in H. destruct H.
Qed.

(** Every ink! attribute of the struct is dropped, not only the one that makes it an event: here the struct can be decoded in the
    contract, and cannot be in the new package. *)
Definition part_of (a s : str) : Prop := exists x y, s = x ++ a ++ y.
Definition heads3_ := [Head (attr_ "#[ink(event)]") (Some (c_nl :: repeat 32%N 4)); Head (attr_ "#[ink::scale_derive(Decode)]") (Some (c_nl :: repeat 32%N 4))].
Definition root3_ := Node SOURCE_FILE [mod_ [ws_ 4; struct_of heads3_ decl_; ws_ 0]; ws_ 0].
Theorem C95_derive_refuted : exists U read root r x,
  unicode_ok U /\ part_of (lit "#[ink::scale_derive(Decode)]") (text_of root) /\ extract U read root r = Done (Some x)
  /\ ex_content x = unlines [lit "#[ink::event]"; lit "pub struct Moved {"; lit "    #[ink(topic)] to: u32,"; lit "}"].
Proof.
  exists ascii_unicode, read_, root3_, (80, 80). eexists. split; [apply ascii_unicode_ok|]. split.
  - exists (firstn 30 (text_of root3_)), (skipn 58 (text_of root3_)). vm_compute. reflexivity.
  - split; [vm_compute; reflexivity|]. vm_compute. reflexivity.
Qed.

(** Fields stay private (in the two examples above [to] has no [pub]): the contract cannot name them any more. Stated for any struct: the
    declaration is copied, without any change but its indentation; this is part of [C95_extracts]. *)

Print Assumptions C95_extracts.
Print Assumptions C95_only_events.
Print Assumptions C95_standalone_refuted.
Print Assumptions C95_derive_refuted.
