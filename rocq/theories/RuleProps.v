(** C76-C80: the rules for the functions, traits, structs and impl blocks of a contract, and their quick fixes. *)
From Coq Require Import Lia.
From Verif Require Import Base BaseFacts PositionModel TranslateModel SyntaxModel AttrModel AttrSpec EditModel EditSpec ArgEditModel ArgEditSpec RuleModel RuleSpec RuleProofs.

(** ** C76: the rules reported for functions *)
(** For a constructor, a message or a function of a chain extension, wherever it stands in a file: the check finishes,
    reports exactly the broken rules in a fixed order, each report marks the offending part and offers a fix. *)
Theorem C76_exact : forall e pre post s items, fn_ok s items ->
  exists ds, fn_diags e (file_leaves pre (fn_tree s) post) (at_place pre (fn_tree s)) = Done ds
    /\ map rd_rule ds = broken e s items
    /\ Forall (fun d => (exists part, marked s items (rd_rule d) part /\ marks pre (fn_tree s) part (rd_range d)) /\ rd_fixes d <> []) ds.
Proof.
  intros e pre post s items Hok. destruct (good_all pre post s items Hok e) as (ds & E & R & F). exists ds. split; [exact E|]. split; [exact R|].
  revert F. apply Forall_impl. intros d (M & N & _). split; assumption.
Qed.
Print Assumptions C76_exact.
(** In particular nothing is reported for a function that keeps the rules, and something is for every other one. *)
Theorem C76_clean : forall e pre post s items, fn_ok s items ->
  (fn_diags e (file_leaves pre (fn_tree s) post) (at_place pre (fn_tree s)) = Done [] <-> broken e s items = []).
Proof.
  intros e pre post s items Hok. destruct (C76_exact e pre post s items Hok) as (ds & -> & R & _). split.
  - intros H. injection H as ->. rewrite <- R. reflexivity.
  - intros H. rewrite H in R. apply map_eq_nil in R. subst ds. reflexivity.
Qed.
Print Assumptions C76_clean.

(** ** C77: the quick fixes of these rules *)
(** Applying a fix gives a function without the offence, with nothing else changed, and with one report less. Missing
    for the full property: messages with a receiver by value and named variadic parameters, for which it fails. *)
Theorem C77_fixes_partial : forall e pre post s items ds d fx, fn_ok s items ->
  fn_diags e (file_leaves pre (fn_tree s) post) (at_place pre (fn_tree s)) = Done ds -> In d ds -> In fx (rd_fixes d) ->
  simple items (rd_rule d) ->
  exists s' items' ds', fn_ok s' items' /\ repaired (rd_rule d) s items s' items'
    /\ effect (in_file pre (fn_tree s) post) fx (in_file pre (fn_tree s') post)
    /\ fn_diags e (file_leaves pre (fn_tree s') post) (at_place pre (fn_tree s')) = Done ds'
    /\ drops (rd_rule d) (map rd_rule ds) (map rd_rule ds').
Proof.
  intros e pre post s items ds d fx Hok E Hd Hfx Hs. destruct (good_all pre post s items Hok e) as (ds0 & E0 & R & F).
  rewrite E in E0. injection E0 as <-. rewrite Forall_forall in F. destruct (F d Hd) as (_ & _ & Hfix).
  destruct (Hfix Hs fx Hfx) as (s' & items' & Hok' & Hrep & Heff). destruct (good_all pre post s' items' Hok' e) as (ds' & E' & R' & _).
  exists s', items', ds'. split; [exact Hok'|]. split; [exact Hrep|]. split; [exact Heff|]. split; [exact E'|]. rewrite R, R'.
  apply repaired_drops; [exact Hok | rewrite <- R; apply in_map, Hd | exact Hrep].
Qed.
Print Assumptions C77_fixes_partial.
(** Whichever fixes are chosen, in whichever order: after as many as there were reports nothing is reported. *)
Theorem C77_terminates_partial : forall e pre post s items, fn_ok s items -> plain e items ->
  ends_clean e pre post (length (broken e s items)) s items.
Proof. intros e pre post s items Hok Hp. apply fixes_end; [reflexivity | exact Hok | exact Hp]. Qed.
Print Assumptions C77_terminates_partial.

(** *** Examples *)
Definition T (n : nat) (s : String.string) : elem := Tok (OTHER n) (lit s).
Definition ex_front : list elem := [Node ATTR [T 90 "#[ink(message)]"]; blank_one].
Definition ex_name (s : String.string) : list elem := [blank_one; Node NAME [Tok IDENT (lit s)]].
Definition ty (s : String.string) : elem := Node (OTHER 135) [Tok IDENT (lit s)].
Definition param (n t : String.string) : elem := Node PARAM [Tok IDENT (lit n); Tok COLON (lit ":"); blank_one; ty t].
Definition dots : elem := Node PARAM [Tok DOT3 (lit "...")].
Definition ex_fn (params : list elem) : fn_src :=
  FnSrc ex_front (Some ([T 108 "pub"; T 90 "(crate)"], [blank_one])) None None (Some [blank_one]) (Some [blank_one]) None (ex_name "m")
    (Some [T 91 "<"; Tok IDENT (lit "T"); T 92 ">"]) [] params [blank_one] (Some ([T 109 "->"; blank_one; ty "Self"], [blank_one])) None (WithBody [Tok R_CURLY (lit "}")]).
Ltac nonblank := intros; discriminate.
Lemma solid_list l : Forall (fun t => snd t <> []) (leaves_of l) ->
  match leaves_of l with t :: _ => is_trivia (fst t) = false | [] => False end ->
  match last_opt (leaves_of l) with Some t => is_trivia (fst t) = false | None => False end -> solid l.
Proof.
  intros H1 H2 H3. split; [exact H1|]. split.
  - destruct (leaves_of l) as [|t r] eqn:E; [destruct H2|]. exists t, r. split; assumption.
  - destruct (last_opt (leaves_of l)) as [t|] eqn:E; [|destruct H3]. apply last_opt_some in E. destruct E as (r & E). exists r, t. split; assumption.
Qed.
Ltac solid_tac := apply solid_list; [repeat constructor; discriminate | reflexivity | reflexivity].
Ltac blank_tac := repeat (apply Forall_cons; [eexists _, _; split; [reflexivity|]; split; [reflexivity | discriminate]|]); apply Forall_nil.
Lemma param_fine k cs : k = SELF_PARAM \/ k = PARAM -> solid cs -> forallb (fun t => negb (skind_eqb (fst t) COMMA)) (leaves_of cs) = true -> param_ok (Node k cs).
Proof.
  intros Hk Hs Hc. exists k, cs. split; [reflexivity|]. split; [exact Hk|]. split; [exact Hs|]. rewrite forallb_forall in Hc. split; intros s r E.
  - specialize (Hc (COMMA, s)). rewrite E in Hc. discriminate (Hc (or_introl eq_refl)).
  - specialize (Hc (COMMA, s)). rewrite E in Hc. assert (X : In (COMMA, s) (r ++ [(COMMA, s)])) by (apply in_or_app; right; left; reflexivity). discriminate (Hc X).
Qed.
Ltac param_tac := apply param_fine; [first [left; reflexivity | right; reflexivity] | solid_tac | reflexivity].
Lemma ex_fn_ok items body : params items body -> receiver_first items -> fn_ok (ex_fn body) items.
Proof.
  intros Hp Hr. unfold fn_ok, ex_fn. cbn [f_front f_vis f_default f_const f_async f_unsafe f_abi f_name f_generics f_gap f_params f_params_gap f_ret f_where f_end noded_ok keyword_ok generics_ok end_ok].
  repeat match goal with |- _ /\ _ => split end; try exact I; try assumption; try solid_tac; try blank_tac.
  - split; [|eexists; left; reflexivity]. unfold ex_front. apply Forall_cons; [left; eexists; split; [reflexivity | solid_tac]|]. apply Forall_cons; [right; eexists _, _; split; [reflexivity|]; split; [reflexivity | discriminate] | constructor].
  - exists [blank_one], (lit "m"), []. split; [reflexivity|]. split; [blank_tac|]. split; [constructor | discriminate].
  - exists [T 109 "->"; blank_one], (ty "Self"), []. split; [reflexivity|]. split; [reflexivity|]. split; [reflexivity|]. split; [repeat constructor|]. repeat constructor; discriminate.
  - unfold tokens_ok. repeat constructor; discriminate.
Qed.
Definition ex_items : list elem := [param "a" "u8"; dots].
Definition ex_body : list elem := [param "a" "u8"; comma; blank_one; dots].
Lemma ex_params : params ex_items ex_body.
Proof.
  apply (params_more (param "a" "u8") [] [] dots [] [blank_one; dots]); [param_tac | constructor | constructor|].
  apply (params_last dots [blank_one] []); [param_tac | blank_tac | constructor].
Qed.
(** A message with seven offences; its fixes all work. *)
Example C76_example : fn_ok (ex_fn ex_body) ex_items
  /\ in_file [] (fn_tree (ex_fn ex_body)) [] = lit "#[ink(message)] pub(crate) async unsafe fn m<T>(a: u8, ...) -> Self {}"
  /\ broken EMessage (ex_fn ex_body) ex_items = [RVisibility; RGenerics; RAsync; RUnsafe; RVariadic; RReceiver; RReturnSelf]
  /\ plain EMessage ex_items.
Proof.
  split; [apply ex_fn_ok; [apply ex_params | repeat constructor]|]. split; [vm_compute; reflexivity|]. split; [vm_compute; reflexivity|]. split.
  - intros x [<-|[<-|[]]] Hv; [discriminate Hv | exists (lit "..."); reflexivity].
  - intros _. right. reflexivity.
Qed.
(** What remains after its fixes, the first of each report: *)
Example C77_example : exists ds, fn_diags EMessage (file_leaves [] (fn_tree (ex_fn ex_body)) []) (at_place [] (fn_tree (ex_fn ex_body))) = Done ds
  /\ length ds = 7 /\ Forall (fun d => simple ex_items (rd_rule d)) ds.
Proof.
  destruct (C76_exact EMessage [] [] (ex_fn ex_body) ex_items (proj1 C76_example)) as (ds & E & R & _). exists ds. split; [exact E|].
  split; [rewrite <- (map_length rd_rule), R; reflexivity|]. apply Forall_forall. intros d Hd. apply (in_map rd_rule) in Hd. rewrite R in Hd.
  repeat (destruct Hd as [<-|Hd]; [first [exact I | reflexivity | idtac]|]); [|destruct Hd].
  intros x [<-|[<-|[]]] Hv; [discriminate Hv | exists (lit "..."); reflexivity].
Qed.

(** *** Fixes that do not work *)
Definition by_value : elem := Node SELF_PARAM [Node NAME [Tok IDENT (lit "self")]].
Definition named_dots : elem := Node PARAM [Tok IDENT (lit "args"); Tok COLON (lit ":"); blank_one; Tok DOT3 (lit "...")].
Ltac simple_params := apply (params_last _ [] []); [param_tac | constructor | constructor].
(** The fix that adds [&self] keeps a receiver by value: [self] becomes [&selfself], or a second parameter. *)
Theorem C77_receiver_refuted : exists e pre post s items ds d fx, fn_ok s items
  /\ fn_diags e (file_leaves pre (fn_tree s) post) (at_place pre (fn_tree s)) = Done ds /\ In d ds /\ In fx (rd_fixes d)
  /\ in_file pre (fn_tree s) post = lit "#[ink(message)] pub(crate) async unsafe fn m<T>(self) -> Self {}"
  /\ effect (in_file pre (fn_tree s) post) fx (lit "#[ink(message)] pub(crate) async unsafe fn m<T>(&selfself) -> Self {}").
Proof.
  exists EMessage, [], [], (ex_fn [by_value]), [by_value].
  assert (Hok : fn_ok (ex_fn [by_value]) [by_value]) by (apply ex_fn_ok; [simple_params | constructor]).
  eexists. exists (RDiag RReceiver (16, 63) [[edit_insert (lit "&self") 48]; [edit_insert (lit "&mut self") 48]]), [edit_insert (lit "&self") 48].
  split; [exact Hok|]. split; [vm_compute; reflexivity|]. split; [do 4 right; left; vm_compute; reflexivity|].
  split; [left; reflexivity|]. split; [vm_compute; reflexivity|]. eexists. split; [reflexivity|].
  exists (lit "#[ink(message)] pub(crate) async unsafe fn m<T>("), [], (lit "self) -> Self {}"). vm_compute. repeat split.
Qed.
Print Assumptions C77_receiver_refuted.
(** The fix that removes [...] keeps the name and the colon of a named parameter. *)
Theorem C77_variadic_refuted : exists e pre post s items ds d fx, fn_ok s items
  /\ fn_diags e (file_leaves pre (fn_tree s) post) (at_place pre (fn_tree s)) = Done ds /\ In d ds /\ In fx (rd_fixes d) /\ rd_rule d = RVariadic
  /\ in_file pre (fn_tree s) post = lit "#[ink(message)] pub(crate) async unsafe fn m<T>(args: ...) -> Self {}"
  /\ effect (in_file pre (fn_tree s) post) fx (lit "#[ink(message)] pub(crate) async unsafe fn m<T>(args: ) -> Self {}").
Proof.
  exists EMessage, [], [], (ex_fn [named_dots]), [named_dots].
  assert (Hok : fn_ok (ex_fn [named_dots]) [named_dots]) by (apply ex_fn_ok; [simple_params | constructor]).
  eexists. exists (RDiag RVariadic (54, 57) [[edit_delete (54, 57)]]), [edit_delete (54, 57)].
  split; [exact Hok|]. split; [vm_compute; reflexivity|]. split; [do 4 right; left; vm_compute; reflexivity|].
  split; [left; reflexivity|]. split; [reflexivity|]. split; [vm_compute; reflexivity|]. eexists. split; [reflexivity|].
  exists (lit "#[ink(message)] pub(crate) async unsafe fn m<T>(args: "), (lit "..."), (lit ") -> Self {}"). vm_compute. repeat split.
Qed.
Print Assumptions C77_variadic_refuted.

(** ** C78: traits, structs and impl blocks *)
(** The check finishes and reports exactly the broken rules; each report marks the offending part and has one fix, whose
    application is the item without that offence and with nothing else changed. *)
Theorem C78_exact : forall e pre post s, item_ok e s ->
  exists ds, item_diags e (file_leaves pre (item_tree e s) post) (at_place pre (item_tree e s)) = Done ds
    /\ map rd_rule ds = item_broken e s
    /\ Forall (fun d => (exists part, item_marked e s (rd_rule d) part /\ marks pre (item_tree e s) part (rd_range d))
         /\ exists fx, rd_fixes d = [fx]
            /\ effect (in_file pre (item_tree e s) post) fx (in_file pre (item_tree e (item_fixed (rd_rule d) s)) post)) ds.
Proof. intros e pre post s. exact (igood_all pre post e s). Qed.
Print Assumptions C78_exact.
(** The fixed item is an item again, and has one report less. *)
Theorem C78_fixes_end : forall e s r, item_ok e s -> In r (item_broken e s) ->
  item_ok e (item_fixed r s) /\ drops r (item_broken e s) (item_broken e (item_fixed r s)).
Proof. intros e s r Hok Hr. split; [apply item_fixed_ok | apply item_fixed_drops]; assumption. Qed.
Print Assumptions C78_fixes_end.
Definition ex_trait : item_src :=
  ItemSrc [Node ATTR [T 90 "#[ink::trait_definition]"]; blank_one] None None (Some [blank_one]) None (ex_name "Tr") (Some [T 91 "<"; Tok IDENT (lit "T"); T 92 ">"]) []
    (Some ([blank_one], [ty "Send"], [blank_one])) [Node ASSOC_ITEM_LIST [Tok L_CURLY (lit "{"); Tok R_CURLY (lit "}")]].
Example C78_example : item_ok ITrait ex_trait
  /\ in_file [] (item_tree ITrait ex_trait) [] = lit "#[ink::trait_definition] unsafe trait Tr<T>: Send {}"
  /\ item_broken ITrait ex_trait = [RUnsafe; RGenerics; RPub; RSupertraits]
  /\ in_file [] (item_tree ITrait (item_fixed RPub (item_fixed RUnsafe (item_fixed RGenerics (item_fixed RSupertraits ex_trait))))) []
     = lit "#[ink::trait_definition] pub trait Tr {}".
Proof.
  split; [|split; [vm_compute; reflexivity|split; vm_compute; reflexivity]].
  unfold item_ok, ex_trait. cbn [i_front i_vis i_default i_unsafe i_auto i_name i_generics i_gap i_bounds i_rest noded_ok keyword_ok generics_ok bounds_ok].
  repeat match goal with |- _ /\ _ => split end; try exact I; try solid_tac; try blank_tac.
  - constructor; [left; eexists; reflexivity|]. constructor; [right; eexists _, _; split; reflexivity | constructor].
  - right. exists [blank_one], (lit "Tr"), []. split; [reflexivity|]. split; [blank_tac|]. split; [constructor | discriminate].
  - intros x [<-|[]] H. repeat (destruct H as [H|H]; [discriminate H|]). destruct H.
  - reflexivity.
Qed.

(** ** C79: the visibility of the functions of an impl block *)
(** A function of an impl block of a trait must have no visibility, one of an inherent impl block must be [pub]: the
    report marks the visibility, or else the declaration, and its one fix makes it so. *)
Theorem C79_exact : forall pre post s items of_trait, fn_ok s items ->
  exists ds, fn_visibility of_trait (file_leaves pre (fn_tree s) post) (at_place pre (fn_tree s)) = Done ds
    /\ map rd_rule ds = vis_broken of_trait s
    /\ Forall (fun d => marks pre (fn_tree s) (vis_marked s) (rd_range d)
         /\ exists fx, rd_fixes d = [fx] /\ effect (in_file pre (fn_tree s) post) fx (in_file pre (fn_tree (vis_fixed of_trait s)) post)) ds.
Proof. exact visibility_checked. Qed.
Print Assumptions C79_exact.
Theorem C79_fixed : forall pre post s items of_trait, fn_ok s items ->
  fn_ok (vis_fixed of_trait s) items
  /\ fn_visibility of_trait (file_leaves pre (fn_tree (vis_fixed of_trait s)) post) (at_place pre (fn_tree (vis_fixed of_trait s))) = Done [].
Proof.
  intros pre post s items of_trait Hok. destruct (vis_fixed_ok of_trait s items Hok) as [Hok' Hb]. split; [exact Hok'|].
  destruct (visibility_checked pre post _ _ of_trait Hok') as (ds & -> & R & _). rewrite Hb in R. apply map_eq_nil in R. subst ds. reflexivity.
Qed.
Print Assumptions C79_fixed.
Example C79_example : fn_ok (ex_fn ex_body) ex_items /\ vis_broken true (ex_fn ex_body) = [RInherited] /\ vis_broken false (ex_fn ex_body) = [RPub]
  /\ in_file [] (fn_tree (vis_fixed true (ex_fn ex_body))) [] = lit "#[ink(message)] async unsafe fn m<T>(a: u8, ...) -> Self {}"
  /\ in_file [] (fn_tree (vis_fixed false (ex_fn ex_body))) [] = lit "#[ink(message)] pub async unsafe fn m<T>(a: u8, ...) -> Self {}".
Proof. split; [apply C76_example|]. repeat split. Qed.

(** ** C80: the items of a trait definition *)
(** The check finishes; one report for each associated constant, macro call, associated type and function body, in the
    order of the items, about that very item, with a fix that removes it and nothing else. *)
Theorem C80_exact : forall pre post a cs b, forallb (fun e => negb (node_of ASSOC_ITEM_LIST e)) a = true ->
  exists ds, trait_item_diags (at_place pre (trait_with a cs b)) = Done ds
    /\ map rd_rule ds = filter_map assoc_broken cs /\ Forall2 (assoc_report pre post a cs b) (reported_at cs) ds.
Proof. exact trait_items. Qed.
Print Assumptions C80_exact.
(** The fixed trait has one report less, if no function has two bodies. *)
Theorem C80_fixed : forall x c y part c' r, assoc_fix c part c' -> assoc_broken c = Some r ->
  (forall u v w, c = Node FN (u ++ Node BLOCK_EXPR v :: w) -> forallb (fun e => negb (is_block e)) u = true -> existsb is_block w = false) ->
  drops r (filter_map assoc_broken (x ++ c :: y)) (filter_map assoc_broken (x ++ c' ++ y)).
Proof. exact assoc_fixed_drops. Qed.
Print Assumptions C80_fixed.
Definition ex_list : list elem :=
  [Tok L_CURLY (lit "{"); Node TYPE_ALIAS [T 93 "type A;"]; blank_one;
   Node FN [Node ATTR [T 90 "#[ink(message)]"]; blank_one; Tok FN_KW (lit "fn"); blank_one; Node NAME [Tok IDENT (lit "f")]; Node PARAM_LIST [T 94 "(&self)"]; blank_one;
            Node BLOCK_EXPR [T 95 "{}"]]; blank_one; Node CONST [T 96 "const N: u8;"]; Tok R_CURLY (lit "}")].
Definition ex_before : list elem := [Node ATTR [T 90 "#[ink::trait_definition]"]; blank_one; Tok TRAIT_KW (lit "trait"); blank_one; Node NAME [Tok IDENT (lit "T")]; blank_one].
Example C80_example : forallb (fun e => negb (node_of ASSOC_ITEM_LIST e)) ex_before = true
  /\ filter_map assoc_broken ex_list = [RAssocType; RBody; RAssocConst] /\ reported_at ex_list = [1; 3; 5]
  /\ in_file [] (trait_with ex_before ex_list []) [] = lit "#[ink::trait_definition] trait T {type A; #[ink(message)] fn f(&self) {} const N: u8;}".
Proof. vm_compute. repeat split. Qed.
(** The fix that removes the body of a function leaves the function without its semicolon. *)
Theorem C80_body_refuted : exists pre post a cs b ds d fx, forallb (fun e => negb (node_of ASSOC_ITEM_LIST e)) a = true
  /\ trait_item_diags (at_place pre (trait_with a cs b)) = Done ds /\ In d ds /\ In fx (rd_fixes d)
  /\ in_file pre (trait_with a cs b) post = lit "#[ink::trait_definition] trait T {type A; #[ink(message)] fn f(&self) {} const N: u8;}"
  /\ effect (in_file pre (trait_with a cs b) post) fx (lit "#[ink::trait_definition] trait T {type A; #[ink(message)] fn f(&self)  const N: u8;}").
Proof.
  exists [], [], ex_before, ex_list, []. eexists. exists (RDiag RBody (70, 72) [[edit_delete (70, 72)]]), [edit_delete (70, 72)].
  split; [reflexivity|]. split; [vm_compute; reflexivity|]. split; [right; left; vm_compute; reflexivity|]. split; [left; reflexivity|].
  split; [vm_compute; reflexivity|]. eexists. split; [reflexivity|].
  exists (lit "#[ink::trait_definition] trait T {type A; #[ink(message)] fn f(&self) "), (lit "{}"), (lit " const N: u8;}"). vm_compute. repeat split.
Qed.
Print Assumptions C80_body_refuted.
