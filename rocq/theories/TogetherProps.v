(** Property C104. *)
From Coq Require Import Permutation.
From Verif Require MoveModel MoveProps EntitySpec.
From Verif Require Import Base BaseFacts Unicode PositionModel PositionSpec PositionProofs TranslateModel SyntaxModel
  UtilModel UtilSpec UtilProofs EditModel EditSpec EditProofs EditProps ChainSpec TogetherModel TogetherSpec TogetherProofs
  ArgEditModel EntityModel MoveSpec TravModel HostModel HostSpec HostProofs TravProofs E2EModel ImportModel.

(** * C104: edits that are applied together *)

(** Each edit is formatted for the file as it is. If the edits can be applied together, deletions end where tokens end and no edit starts
    in or right in front of the white space behind a deletion, then the formatted edits can be applied together as well, and the result differs in
    white space only. *)
Theorem C104_formatted_partial : forall U more e es es' result,
  unicode_ok U -> lexed U e -> rewritten (text_of e) es result -> deletions_end_on_tokens e es -> clear_behind_deletions e es ->
  format_edits U (tokens_of more 0 None None e) (len_of e) es = Done es' ->
  exists result', rewritten (text_of e) es' result' /\ visible U result' = visible U result.
Proof. intros U more e es es' result HU He Hr Hd Hc Hf. exact (together U HU more e He es es' result Hr Hd Hc Hf). Qed.
(** Then no two of them overlap. *)
Theorem C104_apart : forall file es result a b, rewritten file es result -> In a es -> In b es ->
  (te_range a, te_text a) = (te_range b, te_text b) \/ snd (te_range a) <= fst (te_range b) \/ snd (te_range b) <= fst (te_range a).
Proof. exact rewritten_apart. Qed.
(** Formatting them does not fail, unless one replaces a part of some white space. *)
Theorem C104_done : forall U more e es result, rewritten (text_of e) es result ->
  (forall ed, In ed es -> te_text ed = [] \/ fst (te_range ed) = snd (te_range ed)
     \/ ~ exists pre ws post, leaves e = pre ++ (WHITESPACE, ws) :: post
          /\ bytes (flat_map snd pre) < fst (te_range ed) /\ snd (te_range ed) < bytes (flat_map snd pre) + bytes ws) ->
  exists es', format_edits U (tokens_of more 0 None None e) (len_of e) es = Done es'.
Proof.
  intros U more e es result Hr H. apply format_edits_done. intros ed Hi. apply C33_total_partial; [|exact (H ed Hi)].
  exact (rewritten_on_chars _ _ _ _ Hr Hi).
Qed.

(** Both ways to say that edits are applied together (C101 uses the second one) agree. *)
Theorem C104_performed : forall file es result, rewritten file es result <-> performed file es result.
Proof. exact performed_iff. Qed.

(** ** The migration of a file *)

(** The edits are those of the parts, each once and in their order, formatted. *)
Theorem C104_migration : forall U more root events extensions derives hosts e2e es,
  migrate_file U more root events extensions derives hosts e2e = Done es ->
  exists kept, keeps_firsts (fun e => e) (events ++ extensions ++ derives ++ hosts ++ e2e) kept /\ NoDup kept
    /\ (forall x, In x kept <-> of_parts [events; extensions; derives; hosts; e2e] x)
    /\ Forall2 (fun x y => format_in U more root x = Done y) kept es.
Proof.
  intros U more root events extensions derives hosts e2e es H. unfold migrate_file in H.
  set (raw := events ++ extensions ++ derives ++ hosts ++ e2e) in *. destruct (unique_edits_spec raw) as (K1 & K2 & K3).
  exists (unique_edits raw). split; [exact K1|]. split; [exact K2|]. split.
  - intros x. rewrite K3. unfold raw, of_parts. rewrite !in_app_iff. split.
    + intros [H1|[H1|[H1|[H1|H1]]]]; eexists; (split; [|exact H1]); cbn; auto 6.
    + intros (p & [<-|[<-|[<-|[<-|[<-|[]]]]]] & H1); auto 6.
  - unfold format_edits in H. clear K1 K2 K3. revert es H. induction (unique_edits raw) as [|x l IH]; intros es H.
    + cbn in H. apply Done_inj in H. subst. constructor.
    + cbn in H. destruct (format_edit _ _ _ x) as [y|] eqn:E1; [|discriminate]. destruct (outcome_map _ l) as [r|] eqn:E2; [|discriminate].
      apply Done_inj in H. subst es. constructor; [exact E1|]. apply IH. reflexivity.
Qed.
(** If they can be applied together before they are formatted (and nothing stands in the way), they can be afterwards. *)
Theorem C104_migrated_partial : forall U more root events extensions derives hosts e2e kept result es,
  unicode_ok U -> lexed U root -> NoDup kept -> (forall x, In x kept <-> of_parts [events; extensions; derives; hosts; e2e] x) ->
  rewritten (text_of root) kept result -> deletions_end_on_tokens root kept -> clear_behind_deletions root kept ->
  migrate_file U more root events extensions derives hosts e2e = Done es ->
  exists result', rewritten (text_of root) es result' /\ visible U result' = visible U result.
Proof.
  intros U more root events extensions derives hosts e2e kept result es HU Hl Hn Hk Hr Hd Hc H.
  unfold migrate_file in H. set (raw := events ++ extensions ++ derives ++ hosts ++ e2e) in *.
  destruct (unique_edits_spec raw) as (_ & K2 & K3).
  assert (Hx : forall x, In x (unique_edits raw) <-> In x kept).
  { intros x. rewrite K3, Hk. unfold raw, of_parts. rewrite !in_app_iff. split.
    + intros [H1|[H1|[H1|[H1|H1]]]]; eexists; (split; [|exact H1]); cbn; auto 6.
    + intros (p & [<-|[<-|[<-|[<-|[<-|[]]]]]] & H1); auto 6. }
  assert (P : Permutation (unique_edits raw) kept) by (apply NoDup_Permutation; assumption).
  apply (together U HU more root Hl (unique_edits raw) es result); [| | |exact H].
  - destruct Hr as (ps & E1 & E2 & Pp). exists ps. split; [exact E1|]. split; [exact E2|].
    eapply Permutation_trans; [apply Permutation_map; exact P | exact Pp].
  - intros d Hi. apply Hd. apply Hx. exact Hi.
  - intros d x pre ws post Hi Hj. apply Hc; apply Hx; assumption.
Qed.

(** Calls of host functions are renamed, never deleted: their migration can always be applied after it is formatted. *)
Lemma picked_in {A} (kids : list (role * list A)) p a : In a (picked kids p) -> exists r l, In (r, l) kids /\ In a l.
Proof.
  destruct p as [r|r]; cbn; intros H.
  - destruct (filter _ kids) as [|[r' l] rest] eqn:E; [destruct H|]. exists r', l. split; [|exact H].
    assert (I : In (r', l) (filter (fun x => role_eqb (fst x) r) kids)) by (rewrite E; left; reflexivity). apply filter_In in I. exact (proj1 I).
  - apply in_flat_map in H as ([r' l] & Hi & Ha). apply filter_In in Hi as [Hi _]. exists r', l. auto.
Qed.
Lemma visit_all {A} (P : A -> Prop) on_call on_method :
  (forall up t walk, Forall P walk -> Forall P (on_call up t walk)) -> (forall up t walk, Forall P walk -> Forall P (on_method up t walk)) ->
  forall t o up, Forall P (visit on_call on_method t o up).
Proof.
  intros Hc Hm. induction t as [s|k cs IH] using tree_deep; intros o up; [constructor|]. rewrite visit_node.
  assert (W : Forall P (walk_of on_call on_method k cs o up)).
  { apply Forall_forall. intros a Ha. unfold walk_of in Ha. apply in_flat_map in Ha as (p & _ & Ha). apply picked_in in Ha as (r & l & Hi & Ha).
    unfold kids_of in Hi. apply in_map_iff in Hi as ([r' [oc c]] & E & Hi). injection E as <- <-. cbn [fst snd] in Ha.
    apply spread_out_in in Hi. specialize (IH r' c Hi oc ((o, Node k cs) :: up)). rewrite Forall_forall in IH. exact (IH a Ha). }
  destruct k; auto.
Qed.
Definition writes_something (e : text_edit) : Prop := te_text e <> [].
Lemma chained_env_writes up : Forall writes_something (chained_env up).
Proof.
  unfold chained_env. destruct (obind _ _) as [n|]; [|constructor]. destruct (_ || _); [|constructor]. constructor; [|constructor].
  unfold writes_something, replace_edit. cbn [te_text]. destruct (ltext n); discriminate.
Qed.
Lemma host_writes rs : forall t o, Forall writes_something (host_migrate rs t o).
Proof.
  assert (V : forall t o up, Forall writes_something (host_visit rs t o up)).
  { apply visit_all.
    - intros up t walk W. unfold host_call. destruct (call_path t) as [p|]; [|exact W]. destruct (self_type_env p); [apply chained_env_writes|].
      apply Forall_app. split.
      + unfold call_type_edits. destruct (call_type_new _ _ _); [|constructor]. constructor; [discriminate | constructor].
      + destruct (host_fn_of _ _ _) as [[]|]; [| | | |exact W]; cbn.
        * destruct (chained_host _ _ _); constructor; [discriminate | constructor].
        * constructor; [discriminate | constructor].
        * destruct (path_name p) as [n|]; constructor; [|constructor]. unfold writes_something, replace_edit. cbn [te_text]. destruct (ltext n); discriminate.
        * destruct (path_name p) as [n|]; constructor; [|constructor]. unfold writes_something, replace_edit. cbn [te_text]. destruct (ltext n); discriminate.
    - intros up t walk W. unfold host_method. apply Forall_app. split; [destruct (self_env t); [constructor | exact W] | apply chained_env_writes]. }
  induction t as [s|k cs IH] using tree_deep; intros o; [constructor|]. cbn [host_migrate]. apply Forall_app. split.
  - destruct k; try constructor. destruct (child _ _) as [b|]; [apply V | constructor].
  - revert o. induction cs as [|[r c] cs IHc]; intros o; [constructor|]. apply Forall_app. split.
    + apply (IH r c). left. reflexivity.
    + apply IHc. intros r' c' Hi. apply (IH r' c'). right. exact Hi.
Qed.
Theorem C104_hosts : forall U more root rs file es, unicode_ok U -> lexed U root -> parsed file -> text_of root = ttext file ->
  format_edits U (tokens_of more 0 None None root) (len_of root) (host_migrate rs file 0) = Done es ->
  exists result, rewritten (text_of root) es result /\ visible U result = visible U (migrated rs Plain file).
Proof.
  intros U more root rs file es HU Hl Hp Ht Hf. pose proof (host_rewritten rs file Hp) as Hr. rewrite <- Ht in Hr.
  pose proof (host_writes rs file 0) as Hw. rewrite Forall_forall in Hw.
  apply (C104_formatted_partial U more root _ es _ HU Hl Hr); [| |exact Hf].
  - intros d Hi En. destruct (Hw d Hi En).
  - intros d x pre ws post Hi _ En. destruct (Hw d Hi En).
Qed.

(** ** Examples *)
From Verif Require Import HostProps E2EProps.
Notation T := (SyntaxModel.Tok) (only parsing).
Notation N_ := (SyntaxModel.Node) (only parsing).
Definition segment_of_ (s : string) : elem := N_ PATH_SEGMENT [T IDENT (lit s)].
Definition import_ (a b : string) : elem :=
  N_ USE [T (OTHER 151) (lit "use"); T WHITESPACE (lit " ");
          N_ USE_TREE [N_ PATH [N_ PATH [segment_of_ a]; T COLON2 (lit "::"); segment_of_ b]]; T SEMICOLON (lit ";")].
Definition line_ : elem := T WHITESPACE ([c_nl] ++ lit "    ").
Definition body_ : tree :=
  block_ [stmt_ (method_ (word_ (lit "client")) (lit "upload") [arg_ (Leaf (lit "a")); comma_; arg_ (Leaf (lit "b")); comma_; arg_ (word_ (lit "None"))])].
Definition fn_head_ : list elem := [T (OTHER 153) (lit "#[ink_e2e::test]"); line_; T (OTHER 154) (lit "async fn"); T WHITESPACE (lit " ")].
Definition fn_elem_ : elem :=
  N_ FN (fn_head_ ++ [T IDENT (lit "f"); T (OTHER 155) (lit "(mut client: C)"); T WHITESPACE (lit " "); T (OTHER 156) (ttext body_)]).
Definition list_ (uses : list elem) : elem :=
  N_ ITEM_LIST ([T L_CURLY (lit "{")] ++ flat_map (fun u => [line_; u]) uses
                ++ [T WHITESPACE ([c_nl; c_nl] ++ lit "    "); fn_elem_; T WHITESPACE [c_nl]; T R_CURLY (lit "}")]).
Definition module_head_ : list elem := [T (OTHER 152) (lit "mod"); T WHITESPACE (lit " "); T IDENT (lit "tests"); T WHITESPACE (lit " ")].
Definition module_ (uses : list elem) : elem := N_ MODULE (module_head_ ++ [list_ uses]).
Definition file_ (uses : list elem) : elem := N_ SOURCE_FILE [module_ uses].
(** Where the list starts, and the function *)
Definition list_at_ (uses : list elem) : lelem := (bytes (texts_of module_head_), list_ uses).
Definition fn_start_ (uses : list elem) : nat := bytes (texts_of module_head_ ++ lit "{" ++ flat_map (fun u => text_of line_ ++ text_of u) uses) + 6.
Definition test_ (uses : list elem) : e2e_test :=
  let name := fn_start_ uses + bytes (texts_of fn_head_) in
  E2ETest None (Some (name + 1, name + 16)) (Some (name, name + 1)) (Some (name + 17, body_))
    (InModule (Some (item_offset_start (list_at_ uses), item_children_indenting ascii_unicode None))) None (Some (0, module_ uses)).
Definition edits_ (uses : list elem) : outcome (list text_edit) :=
  e2e_edits is_zero by_name (place_leaves 0 (leaves (file_ uses))) (0, file_ uses) [test_ uses].

Definition unlucky_ : list elem := [import_ "super" "Erc20"; import_ "ink_e2e" "build_message"].
Definition lucky_ : list elem := [import_ "ink_e2e" "build_message"; import_ "super" "Erc20"].
(** [a] changed to [b] *)
Definition sig_ : piece := Other (lit "(mut client: C)") (lit "<Client: E2EBackend>(mut client: Client)").
Definition args_ : piece := Other (lit "(a, b, None)") (lit "(a, b).submit()").
Definition backend_ : piece := Other [] ([c_nl] ++ lit "    use ink_e2e::ContractsBackend;").
Definition gone_ : piece := Other (lit "use ink_e2e::build_message;") [].
Definition indent_ : str := [c_nl] ++ lit "    ".
Definition unlucky_pieces : list piece :=
  [Same (lit "mod tests {" ++ indent_ ++ lit "use super::Erc20;" ++ indent_); gone_; backend_;
   Same ([c_nl] ++ indent_ ++ lit "#[ink_e2e::test]" ++ indent_ ++ lit "async fn f"); sig_; Same (lit " { client.upload"); args_; Same (lit "; }" ++ [c_nl] ++ lit "}")].
Definition lucky_pieces : list piece :=
  [Same (lit "mod tests {" ++ indent_); gone_; Same (indent_ ++ lit "use super::Erc20;"); backend_;
   Same ([c_nl] ++ indent_ ++ lit "#[ink_e2e::test]" ++ indent_ ++ lit "async fn f"); sig_; Same (lit " { client.upload"); args_; Same (lit "; }" ++ [c_nl] ++ lit "}")].
Lemma moved_up {A} (s u i d : A) : Permutation [s; u; i; d] [d; i; s; u].
Proof. eapply perm_trans; [apply (Permutation_app_comm [s; u] [i; d]) | apply perm_swap]. Qed.

(** Finding: the import that the migration of e2e tests removes is often the last one of the module, and the new ones go right behind the last one. Once it
    is formatted, the deletion also takes the line breaks behind, so that the insertions are in the middle of it: the edits overlap. *)
Theorem C104_import_refuted : exists raw es result,
  text_of (file_ unlucky_) = lit "mod tests {" ++ indent_ ++ lit "use super::Erc20;" ++ indent_ ++ lit "use ink_e2e::build_message;" ++ [c_nl] ++ indent_
                             ++ lit "#[ink_e2e::test]" ++ indent_ ++ lit "async fn f(mut client: C) { client.upload(a, b, None); }" ++ [c_nl] ++ lit "}"
  /\ edits_ unlucky_ = Done raw /\ rewritten (text_of (file_ unlucky_)) raw result
  /\ migrate_file ascii_unicode (fun _ => false) (file_ unlucky_) [] [] [] [] raw = Done es
  /\ forall r, ~ rewritten (text_of (file_ unlucky_)) es r.
Proof.
  destruct (edits_ unlucky_) as [raw|] eqn:E; [|vm_compute in E; discriminate]. vm_compute in E. apply Done_inj in E. subst raw.
  eexists _, _, (new_text unlucky_pieces). split; [vm_compute; reflexivity|]. split; [reflexivity|]. split.
  { exists unlucky_pieces. split; [vm_compute; reflexivity|]. split; [reflexivity|]. vm_compute. apply moved_up. }
  split; [vm_compute; reflexivity|]. intros r H.
  destruct (C104_apart _ _ _ (TextEdit ([c_nl] ++ lit "    use ink_e2e::ContractsBackend;") (65, 65) None) (TextEdit [] (38, 71) None) H) as [X|[X|X]].
  - right. right. left. reflexivity.
  - right. right. right. left. reflexivity.
  - discriminate X.
  - cbn [te_range fst snd] in X. lia.
  - cbn [te_range fst snd] in X. lia.
Qed.

Lemma same_split (p : list (skind * str)) : forall x q p' x' q', p ++ x :: q = p' ++ x' :: q' -> bytes (flat_map snd p) = bytes (flat_map snd p') ->
  (forall y, In y (p ++ x :: q) -> snd y <> []) -> x = x'.
Proof.
  induction p as [|y p IH]; intros x q [|y' p'] x' q' E B H; cbn [app] in E.
  - injection E as -> _. reflexivity.
  - injection E as <- E. cbn [flat_map bytes] in B. rewrite bytes_app in B. pose proof (bytes_pos (snd x) (H x (or_introl eq_refl))) as P. exfalso. revert P. apply Nat.le_ngt. rewrite B. apply Nat.le_add_r.
  - injection E as <- E. cbn [flat_map bytes] in B. rewrite bytes_app in B. pose proof (bytes_pos (snd y) (H y (or_introl eq_refl))) as P. exfalso. revert P. apply Nat.le_ngt. rewrite <- B. apply Nat.le_add_r.
  - injection E as <- E. cbn [flat_map] in B. rewrite !bytes_app in B. apply (IH x q p' x' q' E); [lia|]. intros z Hz. apply H. right. exact Hz.
Qed.
(** With another import behind it, all goes well: the example meets the conditions of the theorems. *)
Example C104_migrated_case : exists raw es result, edits_ lucky_ = Done raw /\ lexed ascii_unicode (file_ lucky_) /\ NoDup raw
  /\ rewritten (text_of (file_ lucky_)) raw result /\ deletions_end_on_tokens (file_ lucky_) raw /\ clear_behind_deletions (file_ lucky_) raw
  /\ migrate_file ascii_unicode (fun _ => false) (file_ lucky_) [] [] [] [] raw = Done es.
Proof.
  destruct (edits_ lucky_) as [raw|] eqn:E; [|vm_compute in E; discriminate]. vm_compute in E. apply Done_inj in E. subst raw.
  eexists _, _, (new_text lucky_pieces). split; [reflexivity|]. split.
  { intros k t H. vm_compute in H.
    repeat (destruct H as [H|H]; [injection H as <- <-; split; [discriminate|]; intros Ek; try discriminate Ek; intros c Hc;
      repeat (destruct Hc as [<-|Hc]; [reflexivity|]); destruct Hc|]). destruct H. }
  split.
  { repeat (constructor; [intros H; repeat (destruct H as [H|H]; [discriminate H|]); destruct H|]). constructor. }
  split.
  { exists lucky_pieces. split; [vm_compute; reflexivity|]. split; [reflexivity|]. vm_compute. apply moved_up. }
  split.
  { intros d H Ed. repeat (destruct H as [<-|H]; [try discriminate Ed|]); [|destruct H]. cbn [te_range fst snd]. split; [lia|].
    exists (firstn 12 (leaves (file_ lucky_))), (skipn 12 (leaves (file_ lucky_))). split; [symmetry; apply firstn_skipn | vm_compute; reflexivity]. }
  split; [|vm_compute; reflexivity].
  intros d x pre ws post Hd Hx Ed El Eb Hle.
  repeat (destruct Hd as [<-|Hd]; [try discriminate Ed|]); [|destruct Hd]. cbn [te_range fst snd] in *. clear Ed.
  assert (El2 : leaves (file_ lucky_) = firstn 12 (leaves (file_ lucky_)) ++ (WHITESPACE, indent_) :: skipn 13 (leaves (file_ lucky_))) by (vm_compute; reflexivity).
  assert (Ews : (WHITESPACE, ws) = (WHITESPACE, indent_)).
  { apply (same_split pre _ post (firstn 12 (leaves (file_ lucky_))) _ (skipn 13 (leaves (file_ lucky_)))); [rewrite <- El; exact El2 | rewrite Eb; vm_compute; reflexivity|]. intros y Hy. rewrite <- El in Hy. vm_compute in Hy.
    repeat (destruct Hy as [<-|Hy]; [discriminate|]). destruct Hy. }
  injection Ews as ->. change (bytes indent_) with 5.
  repeat (destruct Hx as [<-|Hx]; [cbn [te_range fst snd] in *; lia|]). destruct Hx.
Qed.

(** The hosts of the example of C91 *)
Example C104_hosts_case : exists root es, text_of root = ttext sample /\ parsed sample /\ lexed ascii_unicode root
  /\ format_edits ascii_unicode (tokens_of (fun _ => false) 0 None None root) (len_of root) (host_migrate by_name sample 0) = Done es /\ 2 <= length es.
Proof.
  exists (N_ SOURCE_FILE [T (OTHER 157) (ttext sample)]). destruct (format_edits _ _ _ _) as [es|] eqn:E; [|vm_compute in E; discriminate].
  exists es. split; [cbn [text_of]; rewrite ?app_nil_r; vm_compute; reflexivity|]. split; [apply parsedb_ok; vm_compute; reflexivity|]. split.
  - intros k t H. cbn in H. destruct H as [H|[]]. injection H as <- <-. split; [vm_compute; discriminate | discriminate].
  - split; [reflexivity|]. vm_compute in E. apply Done_inj in E. subst es. cbn. lia.
Qed.

From Verif Require Import AttrModel RuleModel EntityModel EntitySpec HintModel MoveModel.
(** Finding: if a contract without impl blocks has a callable as its last item and a comment behind it, the new impl block is inserted right behind the callable, and the
    callable is deleted with the white space in front of the comment:
    mod m {
        fn a() {}
        // c
    } *)
Definition items4_ : list elem := [MoveProps.ws 4; MoveProps.fn_ "a" []; MoveProps.ws 4; T COMMENT (lit "// c"); MoveProps.ws 0].
Definition root4_ : elem := N_ SOURCE_FILE [MoveProps.mod_ items4_; MoveProps.ws 0].
Definition m4_ : lelem := (0, MoveProps.mod_ items4_).
Definition il4_ : lelem := (6, EntitySpec.braced ITEM_LIST items4_).
Definition known4_ : HintModel.path -> contract := fun _ => Contract (Some (ItemAt None m4_)) (Some (lit "T")) [] [].
Theorem C104_moved_refuted : exists raw es result,
  text_of root4_ = unlines [lit "mod m {"; lit "    fn a() {}"; lit "    // c"; lit "}"] ++ [c_nl]
  /\ MoveModel.ensure_impl_parent ascii_unicode MoveProps.contract_ known4_ ((12, MoveProps.fn_ "a" []), [il4_; m4_; (0, root4_)]) = Some (Some raw)
  /\ rewritten (text_of root4_) raw result
  /\ format_edits ascii_unicode (tokens_of (fun _ => false) 0 None None root4_) (len_of root4_) raw = Done es
  /\ forall r, ~ rewritten (text_of root4_) es r.
Proof.
  set (new := unlines [lit "    impl T {"; lit "        fn a() {}"; lit "    }"]).
  exists [edit_insert new 21; edit_delete (12, 21)]. eexists _, (lit "mod m {" ++ indent_ ++ new ++ indent_ ++ lit "// c" ++ [c_nl] ++ lit "}" ++ [c_nl]).
  split; [vm_compute; reflexivity|]. split; [vm_compute; reflexivity|]. split.
  { exists [Same (lit "mod m {" ++ indent_); Other (lit "fn a() {}") []; Other [] new; Same (indent_ ++ lit "// c" ++ [c_nl] ++ lit "}" ++ [c_nl])].
    split; [vm_compute; reflexivity|]. split; [vm_compute; reflexivity|]. vm_compute. apply perm_swap. }
  split; [vm_compute; reflexivity|]. intros r H.
  edestruct (C104_apart _ _ _ _ _ H (or_introl eq_refl) (or_intror (or_introl eq_refl))) as [X|[X|X]]; cbn [te_range fst snd] in X; [discriminate X | lia | lia].
Qed.

Print Assumptions C104_formatted_partial.
Print Assumptions C104_apart.
Print Assumptions C104_done.
Print Assumptions C104_migration.
Print Assumptions C104_migrated_partial.
Print Assumptions C104_hosts.
Print Assumptions C104_import_refuted.
Print Assumptions C104_moved_refuted.
Print Assumptions C104_performed.
