(** Property C102: the actions that add an ink! attribute to an item, or an argument to one of its attributes. *)
From Coq Require Import List Lia.
From Verif Require Import Base Unicode UtilSpec PositionModel VersionModel TranslateModel SyntaxModel AttrModel AttrSpec EditModel EditSpec EditProofs EditProps ArgEditModel ArgEditSpec ArgEditProofs ArgEditProps
  SuggestModel SuggestSpec SuggestProps ArgCheckModel ArgCheckSpec RuleModel RuleSpec EntityModel EntitySpec EntityProps HintModel HintSpec FlattenModel ExtractModel ExtractSpec CompleteSpec CompleteProofs FocusModel FocusSpec FocusProps FinishSpec FinishProofs
  AnnotateModel AnnotateSpec AnnotateProofs.
Import ListNotations.

Section C102.
Context (px : expr_parser) (words : elem -> list str) (ctx : lelem -> item) (env : lelem -> option str) (ids : lelem -> arg_kind -> list N).
Local Notation ink := (is_ink (ink_node words)).
(** An ink! attribute is one whose path starts with [ink] or [ink_e2e]. *)
Lemma ink_attribute e : ink e = true <-> exists cs s l, e = Node ATTR cs /\ words e = s :: l /\ (s = lit "ink" \/ s = lit "ink_e2e").
Proof.
  unfold is_ink, ink_node, attr_can_cast. cbn [as_segments]. split.
  - intros H. rewrite !andb_true_iff in H. destruct H as ((H1 & H2) & H3). destruct e as [k t|k cs]; [discriminate H1|]. cbn [kind_of] in H2. apply skind_eqb_eq in H2. subst k.
    destruct (words (Node ATTR cs)) as [|s l] eqn:E; [discriminate H3|]. exists cs, s, l. split; [reflexivity|]. split; [reflexivity|]. apply orb_true_iff in H3. rewrite !str_eqb_eq in H3. exact H3.
  - intros (cs & s & l & -> & E & H). rewrite E. cbn [is_tok negb kind_of skind_eqb skind_beq andb]. apply orb_true_iff. rewrite !str_eqb_eq. exact H.
Qed.

(** The setting: a file in which an item, with attributes, comments and white space [front] in front of it, stands between [pre] and
    [post]. *)
Definition item_in (root : elem) (pre : list (skind * str)) (K : skind) (front core : list elem) (post : list (skind * str)) : Prop :=
  leaves root = pre ++ leaves (Node K (front ++ core)) ++ post /\ front_only front /\ begins_solid core /\ forall cs, ~ In (Node ATTR cs) core.
Definition item_place (pre : list (skind * str)) (K : skind) (front core : list elem) : lelem := (bytes (text pre), Node K (front ++ core)).
(** What an item may be annotated with: it has no ink! attribute, it is a Rust item for the macro, ... *)
Definition macro_fits (v : version) (t : lelem) (front : list elem) (m : macro_kind) : Prop :=
  nothing ink front /\ In (lkind t) (macro_carriers v m)
  /\ (it_scope (ctx t) = [] \/ exists s, In s (it_scope (ctx t)) /\ SuggestSpec.declares v (at_kind s) /\ macro_belongs v m (at_kind s))
  /\ (m = MTest -> it_cfg_test (ctx t) = true) /\ (m = ME2ETest -> it_cfg_test (ctx t) = true /\ it_cfg_e2e (ctx t) = true).
Definition macro_may_fit (v : version) (t : lelem) (front : list elem) (m : macro_kind) : Prop :=
  nothing ink front /\ In (lkind t) (macro_carriers v m)
  /\ (it_scope (ctx t) = [] \/ exists s, In s (it_scope (ctx t)) /\ macro_belongs v m (at_kind s))
  /\ (m = MTest -> it_cfg_test (ctx t) = true) /\ (m = ME2ETest -> it_cfg_test (ctx t) = true /\ it_cfg_e2e (ctx t) = true).
Definition annotates (root : elem) (pre : list (skind * str)) (front core : list elem) (post : list (skind * str)) (attr : str) (e : text_edit) : Prop :=
  exists a b, front = a ++ b /\ attr_place (ink_node words) a b
    /\ applied (text_of root) e (text pre ++ texts_of a ++ attr ++ texts_of b ++ texts_of core ++ text post).

Lemma attrs_front root pre K front core post : item_in root pre K front core post -> it_attrs (item_of px words ctx (item_place pre K front core)) = [] <-> nothing ink front.
Proof.
  intros (_ & _ & _ & Hn). unfold item_place. rewrite attrs_none. unfold nothing. split; intros H x Hx; [apply H, in_or_app; left; exact Hx|].
  apply in_app_or in Hx. destruct Hx as [Hx|Hx]; [apply H, Hx|]. destruct x as [k t|k cs]; [reflexivity|]. unfold is_ink. cbn [is_tok negb andb kind_of]. destruct (skind_eqb k ATTR) eqn:E; [|reflexivity]. apply skind_eqb_eq in E. subst k. destruct (Hn _ Hx).
Qed.
Lemma annotated root pre K front core post e : item_in root pre K front core post -> te_range e = at_offset (attr_offset (ink_node words) (file_toks root) (item_place pre K front core)) -> annotates root pre front core post (te_text e) e.
Proof.
  intros (E & Hf & Hc & Hn) Er. destruct (proj1 (C88_attribute pre post K front core (ink_node words) e Hf Hc Hn)) as (a & b & E1 & Hp & Ha).
  - rewrite Er. unfold file_toks, file_leaves. rewrite E. reflexivity.
  - exists a, b. split; [exact E1|]. split; [exact Hp|]. rewrite <- ArgEditProofs.text_leaves, E. exact Ha.
Qed.

(** Attribute macros: each action writes [#[path]] right before the item proper, behind all that stands in front of it. What is offered
    fits the item, and all that fits is offered. *)
Theorem C102_macro : forall root pre K front core post v, item_in root pre K front core post ->
  let t := item_place pre K front core in
  (forall e, In e (macro_actions px words ctx (file_toks root) t v) -> exists m, macro_may_fit v t front m /\ te_snippet e = None
     /\ applied (text_of root) e (text pre ++ texts_of front ++ lit "#[" ++ macro_path m ++ lit "]" ++ texts_of core ++ text post))
  /\ (forall m, macro_fits v t front m -> exists e, In e (macro_actions px words ctx (file_toks root) t v)
     /\ applied (text_of root) e (text pre ++ texts_of front ++ lit "#[" ++ macro_path m ++ lit "]" ++ texts_of core ++ text post)).
Proof.
  intros root pre K front core post v Hin t.
  assert (W : forall m, In m (item_action_macros (item_of px words ctx t) v) ->
    applied (text_of root) (edit_insert (lit "#[" ++ macro_path_str m ++ lit "]") (attr_offset (ink_node words) (file_toks root) t)) (text pre ++ texts_of front ++ lit "#[" ++ macro_path m ++ lit "]" ++ texts_of core ++ text post)).
  { intros m Hm. apply (proj1 (C44_item_action_macros _ _ _)) in Hm. destruct Hm as (Hn & Hk & _). apply (attrs_front _ _ _ _ _ _ Hin) in Hn.
    destruct (annotated root pre K front core post (edit_insert (lit "#[" ++ macro_path_str m ++ lit "]") (attr_offset (ink_node words) (file_toks root) t)) Hin eq_refl) as (a & b & E & Hp & Ha).
    destruct Hp as [(a' & x & w & -> & Hx & _)|(_ & ->)].
    - exfalso. specialize (Hn x). rewrite E in Hn. rewrite Hn in Hx; [discriminate|]. apply in_or_app. left. apply in_elt.
    - rewrite app_nil_r in E. subst a. cbn [edit_insert edit_insert_snippet te_text] in Ha. change (texts_of []) with (@nil N) in Ha. cbn [app] in Ha.
      assert (Em : macro_path_str m = macro_path m) by (destruct m; try reflexivity; destruct v; cbn in Hk; intuition discriminate). rewrite Em in *. rewrite <- !app_assoc in Ha. exact Ha. }
  unfold macro_actions. split.
  - intros e He. apply in_map_iff in He. destruct He as (m & <- & Hm). exists m. pose proof (W m Hm) as Ha. apply (proj1 (C44_item_action_macros _ _ _)) in Hm. destruct Hm as (Hn & Hm). apply (attrs_front _ _ _ _ _ _ Hin) in Hn.
    split; [split; [exact Hn | exact Hm]|]. split; [reflexivity | exact Ha].
  - intros m (Hn & H1 & H2 & H3 & H4). apply (attrs_front _ _ _ _ _ _ Hin) in Hn.
    assert (Hm : In m (item_action_macros (item_of px words ctx t) v)) by (apply (proj2 (C44_item_action_macros _ _ _)); assumption).
    eexists. split; [apply in_map_iff; exists m; split; [reflexivity | exact Hm] | apply W, Hm].
Qed.

(** Arguments of an item without a known ink! attribute: each action writes a new attribute [#[ink(argument)]] behind the (unknown) ink!
    attributes, or else right before the item proper. There is one action for each argument that C44 allows, in that order. *)
Theorem C102_new_argument : forall root pre K front core post v, item_in root pre K front core post ->
  let t := item_place pre K front core in
  (forall a ia, In a (child_nodes ATTR t) -> cast_at px words a = Some ia -> ~ known_kind (at_kind ia)) ->
  exists l, arg_actions px words ctx env ids (file_toks root) t v = Done l
    /\ Forall2 (fun k e => snippet_ok None e /\ exists txt, default_text None (fun _ => []) k txt /\ annotates root pre front core post (lit "#[ink(" ++ txt ++ lit ")]") e)
         (item_action_args (item_of px words ctx t) v) l.
Proof.
  intros root pre K front core post v Hin t Hu. apply collect_forall2. intros k _. rewrite no_primary.
  2:{ intros ia Hi. apply in_map_iff in Hi. destruct Hi as ((a & ia') & <- & Hi). apply attrs_at_In in Hi. exact (Hu _ _ (proj1 Hi) (proj2 Hi)). }
  cbn [obind]. eexists. split; [reflexivity|]. split.
  - exact (snippet_around (InsertContext None None no_ids) k (Some (lit "#[ink(")) (Some (lit ")]")) _ ltac:(vm_compute; intuition discriminate) ltac:(vm_compute; intuition discriminate)).
  - exists (fst (insert_text (InsertContext None None no_ids) k)). split; [apply (insert_default None None no_ids); discriminate|].
    exact (annotated root pre K front core post (new_attribute words (file_toks root) t k) Hin eq_refl).
Qed.

(** The primary attribute of an item: the first one among the known ones that no other one precedes (C56) *)
Definition is_primary (t a : lelem) (ia : ink_attr) : Prop :=
  In a (child_nodes ATTR t) /\ cast_at px words a = Some ia
  /\ primary_of (fun x y => kind_precedes (at_kind x) (at_kind y)) (filter (fun x => negb (attr_kind_unknown (at_kind x))) (map snd (attrs_at px words t))) ia.

(** Arguments of an item with a primary attribute: they are added to the list of this attribute, entities first. *)
Theorem C102_extended_partial : forall U root X w1 w2 path body w3 Y cores b t ia v, lexed U root -> written w1 w2 path w3 ->
  let a := (bytes (text X), attribute w1 w2 path [paren_tree body] w3) in
  stands root X a Y -> listed cores b body -> (forall c cs, cores = c :: cs -> plain_argument c) -> is_primary t a ia ->
  exists l, arg_actions px words ctx env ids (file_toks root) t v = Done l
    /\ Forall2 (adds root (before_args X w1 w2 path) body (behind_args w3 Y) cores b (env a) (ids a)) (item_action_args (item_of px words ctx t) v) l.
Proof.
  intros U root X w1 w2 path body w3 Y cores b t ia v Hlex Hw a Hst Hl Hf (H1 & H2 & H3). apply collect_forall2. intros k _.
  rewrite (primary_found px words ctx t a ia H1 H2); [|apply attr_nonempty | exact H3].
  destruct (extended U env ids root Hlex w1 w2 path w3 Hw X Y body cores b Hst Hl Hf k) as (p & e & E1 & E2 & E3). fold a in E1, E2, E3. cbn [obind fst]. rewrite E1. cbn [option_map]. rewrite E2. exists e. split; [reflexivity | exact E3].
Qed.
(** If the primary attribute has no list, it gets one. *)
Theorem C102_list_added : forall U root X w1 w2 path w3 Y t ia v, lexed U root -> written w1 w2 path w3 ->
  let a := (bytes (text X), attribute w1 w2 path [] w3) in
  stands root X a Y -> is_primary t a ia ->
  exists l, arg_actions px words ctx env ids (file_toks root) t v = Done l
    /\ Forall2 (adds_list root (before_args X w1 w2 path ++ leaves_of w3) ((R_BRACK, lit "]") :: Y) (env a) (ids a)) (item_action_args (item_of px words ctx t) v) l.
Proof.
  intros U root X w1 w2 path w3 Y t ia v Hlex Hw a Hst (H1 & H2 & H3). apply collect_forall2. intros k _.
  rewrite (primary_found px words ctx t a ia H1 H2); [|apply attr_nonempty | exact H3].
  destruct (extended_list U env ids root Hlex w1 w2 path w3 Hw X Y Hst k) as (p & e & E1 & E2 & E3). fold a in E1, E2, E3. cbn [obind fst]. rewrite E1. cbn [option_map]. rewrite E2. exists e. split; [reflexivity | exact E3].
Qed.
(** If the primary attribute is not closed, a new attribute is written. *)
Theorem C102_unclosed : forall root pre K front core post v a ia, item_in root pre K front core post ->
  let t := item_place pre K front core in
  is_primary t a ia -> lstart a < lend a -> (forall cs s, snd a = Node ATTR cs -> ~ In (Tok R_BRACK s) cs) ->
  exists l, arg_actions px words ctx env ids (file_toks root) t v = Done l
    /\ Forall2 (fun k e => snippet_ok None e /\ exists txt, default_text None (fun _ => []) k txt /\ annotates root pre front core post (lit "#[ink(" ++ txt ++ lit ")]") e)
         (item_action_args (item_of px words ctx t) v) l.
Proof.
  intros root pre K front core post v a ia Hin t (H1 & H2 & H3) Hl Hc. apply collect_forall2. intros k _. rewrite (primary_found px words ctx t a ia H1 H2 Hl H3). cbn [obind fst].
  assert (E : place_in (file_toks root) a k = None).
  { unfold place_in. destruct (child_token R_BRACK a) as [x|] eqn:E; [|reflexivity]. exfalso. unfold child_token in E. destruct a as [o [|k0 cs]]; [discriminate E|]. cbn [fst snd] in E. apply find_map_found in E. destruct E as ([q [k' s|]] & Hq & E); [|discriminate E].
    cbn [fst snd] in E. destruct (skind_eqb k' R_BRACK) eqn:Ek; [|discriminate E]. apply skind_eqb_eq in Ek. subst k'. apply AttrProofs.place_In in Hq.
    unfold child_nodes in H1. destruct (snd t); [destruct H1|]. apply filter_In in H1. destruct H1 as (_ & H1). unfold lkind in H1. cbn [snd is_tok negb andb kind_of] in H1. apply skind_eqb_eq in H1. subst k0. exact (Hc cs s eq_refl Hq). }
  rewrite E. cbn [option_map]. eexists. split; [reflexivity|]. split.
  - exact (snippet_around (InsertContext None None no_ids) k (Some (lit "#[ink(")) (Some (lit ")]")) _ ltac:(vm_compute; intuition discriminate) ltac:(vm_compute; intuition discriminate)).
  - exists (fst (insert_text (InsertContext None None no_ids) k)). split; [apply (insert_default None None no_ids); discriminate|].
    exact (annotated root pre K front core post (new_attribute words (file_toks root) t k) Hin eq_refl).
Qed.

(** Actions on an attribute: they add to the list of this attribute. *)
Theorem C102_attribute_partial : forall U root X w1 w2 path body w3 Y cores b t ia v, lexed U root -> written w1 w2 path w3 ->
  let a := (bytes (text X), attribute w1 w2 path [paren_tree body] w3) in
  stands root X a Y -> listed cores b body -> (forall c cs, cores = c :: cs -> plain_argument c) -> cast_at px words a = Some ia ->
  exists l, attr_actions px words ctx env ids (file_toks root) a (Some t) v = Done l
    /\ Forall2 (adds root (before_args X w1 w2 path) body (behind_args w3 Y) cores b (env a) (ids a)) (attr_action_args ia true (item_of px words ctx t) v) l.
Proof.
  intros U root X w1 w2 path body w3 Y cores b t ia v Hlex Hw a Hst Hl Hf Hc. unfold attr_actions. rewrite Hc.
  assert (Ec : closed_attr a = true) by (unfold closed_attr, a; rewrite (bracket_found _ _ _ _ Hw); reflexivity). rewrite Ec. apply collect_forall2. intros k _.
  destruct (extended U env ids root Hlex w1 w2 path w3 Hw X Y body cores b Hst Hl Hf k) as (p & e & E1 & E2 & E3). fold a in E1, E2, E3. rewrite E1, E2. exists e. split; [reflexivity | exact E3].
Qed.
Theorem C102_attribute_list_added : forall U root X w1 w2 path w3 Y t ia v, lexed U root -> written w1 w2 path w3 ->
  let a := (bytes (text X), attribute w1 w2 path [] w3) in
  stands root X a Y -> cast_at px words a = Some ia ->
  exists l, attr_actions px words ctx env ids (file_toks root) a (Some t) v = Done l
    /\ Forall2 (adds_list root (before_args X w1 w2 path ++ leaves_of w3) ((R_BRACK, lit "]") :: Y) (env a) (ids a)) (attr_action_args ia true (item_of px words ctx t) v) l.
Proof.
  intros U root X w1 w2 path w3 Y t ia v Hlex Hw a Hst Hc. unfold attr_actions. rewrite Hc.
  assert (Ec : closed_attr a = true) by (unfold closed_attr, a; rewrite (bracket_found _ _ _ _ Hw); reflexivity). rewrite Ec. apply collect_forall2. intros k _.
  destruct (extended_list U env ids root Hlex w1 w2 path w3 Hw X Y Hst k) as (p & e & E1 & E2 & E3). fold a in E1, E2, E3. rewrite E1, E2. exists e. split; [reflexivity | exact E3].
Qed.

(** Where the cursor must be: on the declaration of an item, or in an attribute. *)
Theorem C102_declaration : forall root K front decl lk inner o up off v,
  braced_ok K front decl lk inner -> ExtractSpec.around root (o, braced K front decl lk inner) up -> outside up ->
  direct off (o, braced K front decl lk inner) -> o < off < body_start o front decl ->
  (decl_start o front <= off -> item_actions px words ctx env ids root (off, off) v = target_actions px words ctx env ids (file_toks root) (o, braced K front decl lk inner) v)
  /\ (off < decl_start o front -> item_actions px words ctx env ids root (off, off) v = Done []).
Proof.
  intros root K front decl lk inner o up off v H1 H2 H3 H4 H5. destruct (C96_declaration root K front decl lk inner o up off H1 H2 H3 H4 H5) as (A & B). unfold item_actions. split; intros H.
  - rewrite (A H). cbn [obind_o fold_right]. destruct (target_actions _ _ _ _ _ _ _ _) as [l|]; [|reflexivity]. cbn [obind_o app]. rewrite app_nil_r. reflexivity.
  - rewrite (B H). reflexivity.
Qed.
Theorem C102_cursor : forall U root off x up a t upa v, lexed U root -> cursor_on root off x up -> FinishSpec.in_attribute up a (t :: upa) ->
  attr_focus px words ctx env ids root (off, off) v = obind_o (attr_actions px words ctx env ids (file_toks root) a (Some t) v) (fun l => Done (map (fun e => [e]) l)).
Proof.
  intros U root off x up a t upa v Hlex Hc (inner & -> & Hk & Hi). unfold attr_focus, covering_path. cbn [fst snd]. rewrite Nat.eqb_refl, (cursor_focused U root Hlex off x _ Hc). cbn [obind_o snd].
  replace (closest is_attr (inner ++ a :: t :: upa)) with (Some (a, t :: upa)); [reflexivity|]. symmetry. clear Hc. induction inner as [|y inner IH]; cbn [app closest].
  - unfold is_attr. rewrite Hk. reflexivity.
  - replace (is_attr y) with false; [apply IH; intros z Hz; apply Hi; right; exact Hz|]. symmetry. unfold is_attr. destruct (skind_eqb (lkind y) ATTR) eqn:E; [|reflexivity]. apply skind_eqb_eq in E. destruct (Hi y (or_introl eq_refl) E).
Qed.

(** A selection in an attribute, or of a whole one, is for this attribute. *)
Theorem C102_selection : forall root r a t upa v, ExtractSpec.around root a (t :: upa) -> lkind a = ATTR ->
  (forall c y, part a c -> element_of c y -> lkind y <> ATTR) -> fst r < snd r -> HintSpec.inside r (range_of a) ->
  attr_focus px words ctx env ids root r v = obind_o (attr_actions px words ctx env ids (file_toks root) a (Some t) v) (fun l => Done (map (fun e => [e]) l)).
Proof.
  intros root r a t upa v Ha Hk Hn Hr Hi. unfold attr_focus. rewrite (selected_attr root r a (t :: upa) Ha Hk); [reflexivity | | exact Hr | exact Hi].
  intros k cs c y E Hc Hy. apply (Hn c y); [exists k, cs; auto | exact Hy].
Qed.

(** For any item and any attribute, nothing panics. *)
Theorem C102_total : forall U root t v, lexed U root -> HintSpec.in_file root t ->
  (exists l, target_actions px words ctx env ids (file_toks root) t v = Done l)
  /\ forall parent, exists l, attr_actions px words ctx env ids (file_toks root) t parent v = Done l.
Proof.
  intros U root t v Hlex Ht. split.
  - destruct (arg_actions_ok U px words ctx env ids root Hlex t v Ht) as (l & E & _). unfold target_actions. rewrite E. eexists. reflexivity.
  - intros parent. destruct (attr_actions_ok U px words ctx env ids root Hlex t parent v Ht) as (l & E & _). eauto.
Qed.
(** The actions for an item or field: each of these, and combining its attributes (C46). *)
Theorem C102_target : forall toks t v l, target_actions px words ctx env ids toks t v = Done l ->
  exists args, arg_actions px words ctx env ids toks t v = Done args
    /\ forall act, In act l <-> (exists e, act = [e] /\ In e (macro_actions px words ctx toks t v ++ args)) \/ flatten_attrs (map snd (attrs_at px words t)) = Some act.
Proof.
  intros toks t v l H. unfold target_actions in H. destruct (arg_actions px words ctx env ids toks t v) as [args|]; [|discriminate H]. cbn [obind_o] in H. injection H as <-. exists args. split; [reflexivity|].
  intros act. rewrite in_app_iff, in_map_iff. split.
  - intros [(e & <- & He)|H]; [left; exists e; auto|]. right. destruct (flatten_attrs _) as [es|]; [|destruct H]. destruct H as [<-|[]]. reflexivity.
  - intros [(e & -> & He)|H]; [left; exists e; auto|]. right. rewrite H. left. reflexivity.
Qed.
(** What the user gets are these actions, each once, formatted; formatting never fails for an added attribute or argument and only adds
    white space around it. *)
Theorem C102_formatted : forall U root r v l, attribute_actions px words ctx env ids U root r v = Done l ->
  exists l1 l2 acts, item_actions px words ctx env ids root r v = Done l1 /\ attr_focus px words ctx env ids root r v = Done l2
    /\ keeps_firsts (fun act => act) (l1 ++ l2) acts /\ Forall2 (Forall2 (fun e e' => format_in U more_items root e = Done e')) acts l.
Proof. exact (formatted px words ctx env ids). Qed.
Theorem C102_insertion_formatted : forall U root t v args e, lexed U root -> unicode_ok U -> HintSpec.in_file root t -> arg_actions px words ctx env ids (file_toks root) t v = Done args ->
  In e (macro_actions px words ctx (file_toks root) t v ++ args) ->
  exists e' p s, format_in U more_items root e = Done e' /\ te_range e' = te_range e /\ all_white U p /\ all_white U s /\ te_text e' = p ++ te_text e ++ s.
Proof.
  intros U root t v args e Hlex HU Ht E He.
  assert (Hi : insertion_at root e).
  { apply in_app_or in He. destruct He as [He|He].
    - pose proof (macro_actions_ok px words ctx root t v Ht) as F. rewrite Forall_forall in F. exact (F _ He).
    - destruct (arg_actions_ok U px words ctx env ids root Hlex t v Ht) as (l & E' & F). rewrite E in E'. injection E' as <-. destruct (Forall2_right _ _ _ _ F He) as (k & _ & H). exact H. }
  destruct (insertion_formatted U more_items root e Hi) as (e' & Ef). destruct (C33_only_whitespace_added U more_items root e e' HU (proj1 Hi) Ef) as (R & p & s & A & B & C & _). exists e', p, s. auto.
Qed.
End C102.

(** ** Examples and a finding *)
Definition nl_ (s : string) : elem := Tok WHITESPACE (c_nl :: lit s).
Definition tk (k : skind) (s : string) : elem := Tok k (lit s).
Definition sp_ : elem := tk WHITESPACE " ".
Definition ex_body : list elem := [tk IDENT "extension"; sp_; tk EQ "="; sp_; tk INT_NUMBER "1"].
Definition ext_attr : elem := attribute [] [] [tk IDENT "ink"] [paren_tree ex_body] [].
Definition fn_core (n : string) : list elem :=
  [tk FN_KW "fn"; sp_; Node NAME [tk IDENT n]; Node PARAM_LIST [tk L_PAREN "("; tk R_PAREN ")"]; tk SEMICOLON ";"].
Definition fn_a : elem := Node FN ([ext_attr; nl_ "    "] ++ fn_core "a").
Definition fn_b : elem := Node FN ([] ++ fn_core "b").
Definition trait_ : elem := Node TRAIT [attribute [] [] [tk IDENT "ink"; tk (OTHER 9) "::"; tk IDENT "chain_extension"] [] []; nl_ "";
  tk TRAIT_KW "trait"; sp_; Node NAME [tk IDENT "T"]; sp_; Node ASSOC_ITEM_LIST [tk L_CURLY "{"; nl_ "    "; fn_a; nl_ "    "; fn_b; nl_ ""; tk R_CURLY "}"]].
Definition ext_file : elem := Node SOURCE_FILE [trait_; nl_ ""].
Definition ext_lines : list str := [lit "#[ink::chain_extension]"; lit "trait T {"; lit "    #[ink(extension = 1)]"; lit "    fn a();"; lit "    fn b();"; lit "}"; []].
Fixpoint until_paren (l : list (skind * str)) : list str :=
  match l with (L_PAREN, _) :: _ => [] | (IDENT, s) :: l' => s :: until_paren l' | _ :: l' => until_paren l' | [] => [] end.
Definition ex_words (e : elem) : list str := until_paren (leaves e).
Definition ext_scope : ink_attr := InkAttr (AkMacro MChainExtension) [] (AttrSyntax [lit "ink"; lit "chain_extension"] None (0, 23)) None.
Definition ex_ctx (t : lelem) : item := Item (lkind t) [] [ext_scope] false false false false.
Definition used_one (_ : lelem) (_ : arg_kind) : list N := [1%N].
Definition place_of (K : skind) (n : nat) (root : elem) : lelem := nth n (filter (fun e => skind_eqb (lkind e) K) (map fst (paths [] 0 root))) (0, root).
Definition t_a := place_of FN 0 ext_file.
Definition t_b := place_of FN 1 ext_file.
Definition at_a := place_of ATTR 1 ext_file.
Definition in_lines (ls : list str) (e : text_edit) : Prop := applied (text_of ext_file) e (unlines ls).

Definition A_pre : list (skind * str) := firstn 13 (leaves ext_file).
Definition A_post : list (skind * str) := skipn 24 (leaves ext_file).
Lemma body_plain : plain_argument ex_body.
Proof. eexists IDENT, _, _. split; [reflexivity|]. split; [left; reflexivity|]. right. exists [sp_], (lit "="), [sp_; tk INT_NUMBER "1"]. split; [reflexivity|]. apply ArgEditProofs.blank_space. Qed.
Lemma body_listed : listed [ex_body] false ex_body.
Proof.
  apply ArgEditProofs.listed_single. split; [|split].
  - unfold ex_body. repeat (constructor; [split; [constructor; discriminate | discriminate]|]). constructor.
  - eexists _, _. split; reflexivity.
  - exists [tk IDENT "extension"; sp_; tk EQ "="; sp_], (tk INT_NUMBER "1"). split; reflexivity.
Qed.
Lemma ext_lexed : lexed ascii_unicode ext_file.
Proof.
  assert (G : forallb (fun t : skind * str => negb (match snd t with [] => true | _ => false end) && (negb (skind_eqb (fst t) WHITESPACE) || forallb (u_whitespace ascii_unicode) (snd t))) (leaves ext_file) = true) by (vm_compute; reflexivity).
  rewrite forallb_forall in G. intros k t H. specialize (G _ H). cbn [fst snd] in G. apply andb_true_iff in G. destruct G as (G1 & G2). split; [intros ->; discriminate G1|].
  intros ->. cbn in G2. intros c Hc. rewrite forallb_forall in G2. apply G2, Hc.
Qed.
Definition B_pre : list (skind * str) := firstn 32 (leaves ext_file).
Definition B_post : list (skind * str) := skipn 38 (leaves ext_file).
Definition ia_a : ink_attr := match cast_at literal_parser ex_words at_a with Some ia => ia | None => ext_scope end.

Example example_text : text_of ext_file = unlines ext_lines. Proof. vm_compute. reflexivity. Qed.
Lemma place_in_file K n root : n < length (filter (fun e => skind_eqb (lkind e) K) (map fst (paths [] 0 root))) -> HintSpec.in_file root (place_of K n root).
Proof.
  intros H. assert (G : In (place_of K n root) (map fst (paths [] 0 root))) by (eapply proj1, filter_In, nth_In, H).
  apply in_map_iff in G. destruct G as (p & <- & Hp). exact (proj1 (HintProofs.paths_anc [] 0 root p Hp)).
Qed.
(** [fn b] is an item without attributes. *)
Example example_b : item_in ext_file B_pre FN [] (fn_core "b") B_post /\ item_place B_pre FN [] (fn_core "b") = t_b /\ HintSpec.in_file ext_file t_b
  /\ (forall a ia, In a (child_nodes ATTR t_b) -> cast_at literal_parser ex_words a = Some ia -> ~ known_kind (at_kind ia)).
Proof.
  split; [|split; [|split]].
  - split; [vm_compute; reflexivity|]. split; [constructor|]. split; [eexists _, _; split; reflexivity|]. intros cs H. cbn in H. intuition discriminate.
  - vm_compute. reflexivity.
  - apply place_in_file. vm_compute. repeat constructor.
  - intros a ia H. vm_compute in H. destruct H.
Qed.
(** [fn a] has a primary attribute, with one argument. *)
Example example_a : written [] [] [tk IDENT "ink"] [] /\ at_a = (bytes (text A_pre), attribute [] [] [tk IDENT "ink"] [paren_tree ex_body] [])
  /\ stands ext_file A_pre at_a A_post /\ is_primary literal_parser ex_words t_a at_a ia_a /\ HintSpec.in_file ext_file t_a.
Proof.
  split; [|split; [|split; [|split]]].
  - split; [constructor|]. split; [constructor|]. split; [constructor|]. intros cs [H|[]]. discriminate H.
  - vm_compute. reflexivity.
  - split; vm_compute; reflexivity.
  - split; [vm_compute; auto|]. split; [vm_compute; reflexivity|]. exists [], []. split; [vm_compute; reflexivity|]. split; intros y [].
  - apply place_in_file. vm_compute. repeat constructor.
Qed.
Definition no_env (_ : lelem) : option str := None.
Definition acts (t : lelem) : list text_edit := match arg_actions literal_parser ex_words ex_ctx no_env used_one (file_toks ext_file) t V4 with Done l => l | Panic => [] end.
Definition the_edit (l : list text_edit) : text_edit := hd (edit_insert [] 0) l.
Local Ltac at_ascii n := exists (firstn n (text_of ext_file)), [], (skipn n (text_of ext_file)); repeat split; vm_compute; reflexivity.

Example example_status_added : exists e, arg_actions literal_parser ex_words ex_ctx no_env used_one (file_toks ext_file) t_a V4 = Done [e]
  /\ in_lines [lit "#[ink::chain_extension]"; lit "trait T {"; lit "    #[ink(extension = 1, handle_status = true)]"; lit "    fn a();"; lit "    fn b();"; lit "}"; []] e.
Proof. exists (the_edit (acts t_a)). split; [vm_compute; reflexivity|]. at_ascii 57. Qed.
Example example_from_attribute : exists e, attr_focus literal_parser ex_words ex_ctx no_env used_one ext_file (50, 50) V4 = Done [[e]]
  /\ in_lines [lit "#[ink::chain_extension]"; lit "trait T {"; lit "    #[ink(extension = 1, handle_status = true)]"; lit "    fn a();"; lit "    fn b();"; lit "}"; []] e.
Proof. exists (the_edit (acts t_a)). split; [vm_compute; reflexivity|]. at_ascii 57. Qed.
Example example_selected : exists t upa, ExtractSpec.around ext_file at_a (t :: upa) /\ lkind at_a = ATTR /\ (forall c y, part at_a c -> element_of c y -> lkind y <> ATTR)
  /\ HintSpec.inside (50, 55) (range_of at_a)
  /\ attr_focus literal_parser ex_words ex_ctx no_env used_one ext_file (50, 55) V4 = attr_focus literal_parser ex_words ex_ctx no_env used_one ext_file (50, 50) V4.
Proof.
  exists t_a, (tl (snd (nth 1 (filter (fun p : path => skind_eqb (lkind (fst p)) ATTR) (paths [] 0 ext_file)) (at_a, [])))).
  split; [|split; [reflexivity|split; [|split; [vm_compute; lia | vm_compute; reflexivity]]]].
  - apply (proj1 (CompleteProofs.in_paths [] (0, ext_file) (at_a, _))). eapply proj1. apply filter_In.
    match goal with |- In _ (filter ?f ?l) => replace (filter f l) with (filter (fun p : path => skind_eqb (lkind (fst p)) ATTR) (paths [] 0 ext_file)) by reflexivity end. vm_compute. tauto.
  - intros c y (k & cs & E & Hc) Hy. vm_compute in E. injection E as <- <-.
    assert (G : forallb (fun c => forallb (fun p : path => negb (skind_eqb (lkind (fst p)) ATTR)) (paths [] (fst c) (snd c))) (children_of at_a) = true) by (vm_compute; reflexivity).
    rewrite forallb_forall in G. specialize (G c Hc). rewrite forallb_forall in G. apply HintProofs.paths_all in Hy. apply in_map_iff in Hy. destruct Hy as (p & <- & Hp). specialize (G p Hp). intros E. rewrite E in G. discriminate G.
Qed.
(** The attribute gets a line of its own. *)
Example example_offered : exists e1 e2, attribute_actions literal_parser ex_words ex_ctx no_env used_one ascii_unicode ext_file (80, 80) V4 = Done [[e1]; [e2]]
  /\ in_lines [lit "#[ink::chain_extension]"; lit "trait T {"; lit "    #[ink(extension = 1)]"; lit "    fn a();"; lit "    #[ink(handle_status = true)]"; lit "    fn b();"; lit "}"; []] e2.
Proof.
  destruct (attribute_actions literal_parser ex_words ex_ctx no_env used_one ascii_unicode ext_file (80, 80) V4) as [l|] eqn:E; vm_compute in E; [|discriminate E]. injection E as <-.
  eexists _, _. split; [reflexivity|]. at_ascii 76.
Qed.
(** A module outside of any ink! item can become a contract. *)
Definition mod_core : list elem := [tk MOD_KW "mod"; sp_; Node NAME [tk IDENT "c"]; sp_; Node ITEM_LIST [tk L_CURLY "{"; tk R_CURLY "}"]].
Definition mod_file : elem := Node SOURCE_FILE [Node MODULE mod_core].
Definition free_ctx (t : lelem) : item := Item (lkind t) [] [] false false false false.
Example example_contract : item_in mod_file [] MODULE [] mod_core [] /\ macro_fits ex_words free_ctx V5 (item_place [] MODULE [] mod_core) [] MContract.
Proof.
  split.
  - split; [reflexivity|]. split; [constructor|]. split; [eexists _, _; split; reflexivity|]. intros cs H. cbn in H. intuition discriminate.
  - split; [intros x []|]. split; [vm_compute; auto|]. split; [left; reflexivity|]. split; discriminate.
Qed.

(** Finding: the id of a new attribute is always 1, also if it is used already (the ids in use are only looked up for an attribute
    that exists). Here [fn b] gets the id of [fn a]. *)
Theorem C102_id_refuted : exists px words ctx env (ids : lelem -> arg_kind -> list N) root a b e l,
  HintSpec.in_file root a /\ HintSpec.in_file root b /\ a <> b
  /\ texts_of (map snd (child_nodes ATTR a)) = lit "#[ink(extension = 1)]" /\ In 1%N (ids b AExtension)
  /\ arg_actions px words ctx env ids (file_toks root) b V4 = Done (e :: l)
  /\ in_lines [lit "#[ink::chain_extension]"; lit "trait T {"; lit "    #[ink(extension = 1)]"; lit "    fn a();"; lit "    #[ink(extension = 1)]fn b();"; lit "}"; []] e.
Proof.
  exists literal_parser, ex_words, ex_ctx, no_env, used_one, ext_file, t_a, t_b, (the_edit (acts t_b)), (tl (acts t_b)).
  split; [apply example_a|]. split; [apply example_b|]. split; [intros E; apply (f_equal fst) in E; vm_compute in E; discriminate E|].
  split; [vm_compute; reflexivity|]. split; [left; reflexivity|]. split; [vm_compute; reflexivity|]. at_ascii 76.
Qed.

Print Assumptions C102_macro.
Print Assumptions C102_new_argument.
Print Assumptions C102_extended_partial.
Print Assumptions C102_list_added.
Print Assumptions C102_unclosed.
Print Assumptions C102_attribute_partial.
Print Assumptions C102_attribute_list_added.
Print Assumptions C102_declaration.
Print Assumptions C102_cursor.
Print Assumptions C102_selection.
Print Assumptions C102_target.
Print Assumptions C102_total.
Print Assumptions C102_formatted.
Print Assumptions C102_insertion_formatted.
Print Assumptions C102_id_refuted.
