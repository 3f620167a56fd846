(** Properties C49, C50, C74 (and C41): the migration to ink! 5.0. *)
From Coq Require Import Lia Permutation.
From Verif Require Import Base BaseFacts PositionModel PositionProofs TranslateModel SyntaxModel AttrModel AttrSpec AttrProofs AttrProps EditModel EditSpec
  CommandModel UtilModel UtilSpec UtilProofs ArgEditModel ArgEditSpec ArgEditProofs ArgEditProps FlattenModel MigrateModel MigrateSpec MigrateProofs.

(** * C49: chain extension ids *)

(** The edits are those of the chain extensions, one after the other. A chain extension gets an id iff it has none
    (and its attribute is complete); its functions' arguments are renamed, their values are not touched. All new
    ids are valid, pairwise different and different from all existing ids. (A chain extension without argument has
    no id; a file with more than 65535 chain extensions cannot be migrated, as there are not enough ids.) *)
Theorem C49_ids : forall toks l,
  (forall c, In c l -> ce_arg c = false -> ce_id c = None) -> (N.of_nat (length l) <= 65535)%N ->
  exists ids es,
    migrate_extensions toks l = concat es /\ length es = length l /\ length ids = length l
    /\ (forall i c id e, nth_error l i = Some c -> nth_error ids i = Some id -> nth_error es i = Some e -> migrated toks c id e)
    /\ NoDup (filter_map (fun x => x) ids)
    /\ (forall n, In (Some n) ids -> (1 <= n <= 65535)%N /\ ~ exists c, In c l /\ ce_id c = Some n).
Proof.
  intros toks l Hc Hl. destruct (loop_migrated U16_MAX toks l (filter_map ce_id l)) as (es & E & H1 & H2 & H3).
  assert (Hlen : length l <= N.to_nat U16_MAX) by (unfold U16_MAX; lia).
  destruct (ids_given_fresh U16_MAX toks l ltac:(unfold U16_MAX; lia) (filter_map ce_id l)) as [F1 F2].
  { pose proof (ids_and_missing l Hc). lia. }
  exists (ids_given U16_MAX toks (filter_map ce_id l) l), es. repeat (split; [assumption|]).
  intros n Hn. destruct (F2 n Hn) as [G1 G2]. split; [exact G1|]. intros (c & Hin & Ec). apply G2. apply filter_map_In. exists c. auto.
Qed.

(** The id is written as the first argument [extension = n] of the attribute. *)
Definition id_argument (n : N) : list elem := [Tok IDENT (lit "extension"); sp; Tok EQ (lit "="); sp; Tok INT_NUMBER (dec n)].
Lemma id_argument_ok n : argument (id_argument n).
Proof.
  split; [|split].
  - apply Forall_forall. intros e He. unfold id_argument in He.
    repeat (destruct He as [<-|He]; [split; [constructor; (discriminate || apply dec_nonempty)|discriminate]|]). destruct He.
  - eexists _, _. split; [reflexivity|reflexivity].
  - exists [Tok IDENT (lit "extension"); sp; Tok EQ (lit "="); sp], (Tok INT_NUMBER (dec n)). split; reflexivity.
Qed.
Theorem C49_written : forall pre body post rb cores b c n e,
  listed cores b body -> ce_attr c = Some (Some rb, Some (tree_at pre body)) -> ce_arg c = false -> ce_functions c = [] ->
  migrated (place_leaves 0 (file_tokens pre body post)) c (Some n) e ->
  exists edit body' b', e = [edit] /\ applied (file_text pre body post) edit (file_text pre body' post)
    /\ listed (id_argument n :: cores) b' body' /\ (b' = b \/ cores = []).
Proof.
  intros pre body post rb cores b c n e Hl Ha Hc Hf (renames & -> & _ & Hr). rewrite Ha. rewrite Hf in Hr. inversion Hr; subst.
  destruct (C42_primary_inserted_first pre body post rb cores b (id_argument n) Hl (id_argument_ok n)) as (p & body' & b' & Ep & Happ & Hl' & Hb).
  rewrite Ep, app_nil_r. eexists _, body', b'. split; [reflexivity|]. split; [|split; [exact Hl'|exact Hb]].
  replace (lit "extension = " ++ dec n) with (texts_of (id_argument n)); [exact Happ|].
  unfold id_argument, texts_of. cbn [flat_map text_of sp app]. rewrite app_nil_r. reflexivity.
Qed.

(** Two chain extensions without id, one with the id 1: they get 2 and 3. *)
Definition ext_without (o : nat) (f : list (option trange)) : chain_ext := ChainExt None false (Some (Some (o, (R_BRACK, lit "]")), None)) f.
Definition ex_extensions : list chain_ext :=
  [ext_without 10 []; ChainExt (Some 1%N) true (Some (Some (50, (R_BRACK, lit "]")), None)) [Some (60, 69); None]; ext_without 100 [Some (120, 129)]].
Example C49_example :
  (forall c, In c ex_extensions -> ce_arg c = false -> ce_id c = None) /\ (N.of_nat (length ex_extensions) <= 65535)%N
  /\ migrate_extensions [] ex_extensions
     = [TextEdit (lit "(extension = 2)") (10, 10) None; TextEdit (lit "function") (60, 69) None;
        TextEdit (lit "(extension = 3)") (100, 100) None; TextEdit (lit "function") (120, 129) None].
Proof.
  split; [|split; [vm_compute; discriminate|vm_compute; reflexivity]].
  intros c [<-|[<-|[<-|[]]]] H; try reflexivity; discriminate.
Qed.
Example C49_written_example : exists c e, ce_arg c = false /\ ce_functions c = []
  /\ migrated (place_leaves 0 (file_tokens ink_pre [word "x"] ink_post)) c (Some 7%N) e.
Proof.
  exists (ChainExt None false (Some (Some (8, (R_BRACK, lit "]")), Some (tree_at ink_pre [word "x"]))) []). eexists. split; [reflexivity|]. split; [reflexivity|].
  exists []. split; [reflexivity|]. split; [|constructor]. split; [|reflexivity]. intros _. eexists. split; [reflexivity|]. eexists _, _. split; reflexivity.
Qed.

(** * C50: derived SCALE traits *)

(** [#[derive(..)]] with the names [ns]: the SCALE traits among them are collected; the attribute is left alone if
    there are none, deleted only if all are, and else lists the other names, in their order. *)
Theorem C50_standalone : forall pre body post a ns,
  ma_path a = Some (lit "derive") -> ma_tree a = Some (tree_at pre body) ->
  Forall balanced body -> by_name (ma_scale a) -> lists_names (texts_of body) ns ->
  attr_scale a = filter_map (ma_scale a) ns
  /\ ((filter_map (ma_scale a) ns = [] /\ forall toks, attr_edits toks a = Done [])
      \/ ((forall n, In n ns -> ma_scale a n <> None) /\ forall toks, attr_edits toks a = Done [edit_delete (ma_range a)])
      \/ (filter_map (ma_scale a) ns <> [] /\ exists e new, lists_names new (filter (not_scale (ma_scale a)) ns)
            /\ (forall toks, attr_edits toks a = Done [e])
            /\ applied (file_text pre body post) e
                 (ArgEditSpec.text pre ++ lit "(" ++ new ++ lit ")" ++ ArgEditSpec.text post))).
Proof. exact derive_standalone. Qed.

(** C50 (partial: the first [derive(..)] only, see below). [#[cfg_attr(condition, .., derive(..), ..)]]: likewise;
    a [derive] of SCALE traits only is removed from the list, or with the attribute if there is nothing else. *)
Theorem C50_conditional_partial : forall pre body post cores b i bl d a ns,
  ma_path a = Some (lit "cfg_attr") -> ma_tree a = Some (tree_at pre body) ->
  listed cores b body -> 1 <= i -> nth_error cores i = Some (derive_core bl d) -> blank bl -> Forall no_derive (firstn i cores) ->
  by_name (ma_scale a) -> lists_names (texts_of d) ns ->
  let toks := place_leaves 0 (file_tokens pre body post) in
  attr_scale a = filter_map (ma_scale a) ns
  /\ ((filter_map (ma_scale a) ns = [] /\ attr_edits toks a = Done [])
      \/ ((forall n, In n ns -> ma_scale a n <> None)
          /\ ((length cores = 2 /\ b = false /\ attr_edits toks a = Done [edit_delete (ma_range a)])
              \/ ((2 < length cores \/ b = true) /\ exists e body', attr_edits toks a = Done [e]
                    /\ listed (without i cores) b body' /\ applied (file_text pre body post) e (file_text pre body' post))))
      \/ (filter_map (ma_scale a) ns <> [] /\ exists e new P Q, body = P ++ derive_core bl d ++ Q
            /\ lists_names new (filter (not_scale (ma_scale a)) ns) /\ attr_edits toks a = Done [e]
            /\ applied (file_text pre body post) e
                 (ArgEditSpec.text pre ++ lit "(" ++ texts_of P ++ lit "derive" ++ texts_of bl ++ lit "(" ++ new ++ lit ")"
                  ++ texts_of Q ++ lit ")" ++ ArgEditSpec.text post))).
Proof. exact derive_conditional. Qed.

(** Other attributes are not touched. *)
Theorem C50_other_attributes : forall toks a, ma_path a <> Some (lit "derive") -> ma_path a <> Some (lit "cfg_attr") ->
  attr_scale a = [] /\ attr_edits toks a = Done [].
Proof.
  intros toks a H1 H2. assert (E : derive_tree a = None).
  { unfold derive_tree, path_is. destruct (ma_path a) as [p|]; [|reflexivity]. destruct (str_eqb p (lit "derive")) eqn:E1; [apply str_eqb_eq in E1; congruence|].
    destruct (str_eqb p (lit "cfg_attr")) eqn:E2; [apply str_eqb_eq in E2; congruence|reflexivity]. }
  unfold attr_scale, attr_edits. rewrite E. auto.
Qed.

(** Each item with collected traits (of its [derive] and [cfg_attr] attributes) gets exactly one attribute
    [#[ink::scale_derive(..)]], before the first of these attributes, with the traits in their order. The edits of
    a file are those of its attributes and these insertions. *)
Theorem C50_moved : forall toks ord attrs es, (forall m, Permutation (ord m) m) -> migrate_derives toks ord attrs = Done es ->
  exists ls items new, es = concat ls ++ new /\ Forall2 (fun a l => attr_edits toks a = Done l) attrs ls
    /\ NoDup items
    /\ (forall i, In i items <-> exists a, In a attrs /\ owner a = i /\ attr_scale a <> [])
    /\ Forall2 (fun i e => exists a rest,
          filter (fun x => (owner x =? i) && match attr_scale x with [] => false | _ => true end) attrs = a :: rest
          /\ te_range e = (fst (ma_range a), fst (ma_range a))
          /\ te_text e = lit "#[ink::scale_derive(" ++ join (lit ", ") (map arg_kind_str (flat_map attr_scale (a :: rest))) ++ lit ")]") items new.
Proof.
  intros toks ord attrs es Hp H. unfold migrate_derives in H. destruct (all_done (map (attr_edits toks) attrs)) as [ls|] eqn:E; [|discriminate].
  cbn [obind_o] in H. injection H as <-. destruct (inserts_spec ord attrs Hp) as (items & Hn & Hi & Hf).
  exists ls, items, (scale_inserts ord attrs). split; [reflexivity|]. split; [|split; [exact Hn|split]].
  - apply all_done_list in E. clear - E. revert ls E. induction attrs as [|a attrs IH]; intros ls E; inversion E; subst; constructor; [assumption|]. apply IH. assumption.
  - intros i. rewrite Hi. split; intros (a & Ha & Hx); exists a; split; auto.
    + apply andb_true_iff in Hx as [Hx Hy]. apply Nat.eqb_eq in Hx. split; [exact Hx|]. unfold derives_scale in Hy. intros C. rewrite C in Hy. discriminate.
    + destruct Hx as [Hx Hy]. unfold on_item, derives_scale. apply andb_true_iff. split; [apply Nat.eqb_eq, Hx|]. destruct (attr_scale a); [contradiction|reflexivity].
  - clear - Hf. induction Hf as [|i e is es (a & rest & E & ->) _ IH]; constructor; [|exact IH]. exists a, rest. split; [exact E|]. split; reflexivity.
Qed.

(** Names of SCALE traits in the examples. *)
Definition ex_scale (s : str) : option arg_kind :=
  if str_eqb (squeeze s) (lit "scale::Encode") then Some AEncode
  else if str_eqb (squeeze s) (lit "scale::Decode") then Some ADecode
  else if str_eqb (squeeze s) (lit "scale_info::TypeInfo") then Some ATypeInfo else None.
Lemma ex_scale_by_name : by_name ex_scale.
Proof. split; [|reflexivity]. intros s. unfold ex_scale. rewrite squeeze_idem. reflexivity. Qed.
Definition path_toks (a b : string) : list elem := [Tok IDENT (lit a); Tok COLON2 (lit "::"); Tok IDENT (lit b)].
Definition tok_comma : elem := Tok COMMA (lit ",").
Definition ex_derive_body : list elem := [word "Debug"; tok_comma; sp] ++ path_toks "scale" "Encode" ++ [tok_comma; sp; word "Clone"; tok_comma; sp] ++ path_toks "scale" "Decode".
Definition derive_pre : list (skind * str) := [(POUND, lit "#"); (L_BRACK, lit "["); (IDENT, lit "derive")].
Definition cfg_pre : list (skind * str) := [(POUND, lit "#"); (L_BRACK, lit "["); (IDENT, lit "cfg_attr")].
Definition ex_derive : mig_attr := MigAttr (Some (lit "derive")) (Some (tree_at derive_pre ex_derive_body)) (0, 53) (Some 0) ex_scale.
Example C50_example :
  Forall balanced ex_derive_body /\ by_name ex_scale
  /\ lists_names (texts_of ex_derive_body) [lit "Debug"; lit "scale::Encode"; lit "Clone"; lit "scale::Decode"]
  /\ migrate_derives [] (fun m => m) [ex_derive]
     = Done [TextEdit (lit "(Debug, Clone)") (8, 52) None; TextEdit (lit "#[ink::scale_derive(Encode, Decode)]") (0, 0) None].
Proof.
  split; [apply Forall_forall; intros e He; cbn in He; repeat (destruct He as [<-|He]; [constructor; discriminate|]); destruct He|].
  split; [exact ex_scale_by_name|]. split; [|vm_compute; reflexivity].
  exists [lit "Debug"; lit " scale::Encode"; lit " Clone"; lit " scale::Decode"]. split; [discriminate|]. split; [reflexivity|]. split; [|reflexivity].
  intros p Hp C. apply mem_char_In in C. cbn in Hp. repeat (destruct Hp as [<-|Hp]; [vm_compute in C; discriminate C|]). destruct Hp.
Qed.
Definition ex_cond : list elem := [word "feature"].
Definition cfg_body (l : list (list elem)) : list elem :=
  match l with [] => [] | c :: l' => c ++ flat_map (fun x => tok_comma :: sp :: x) l' end.
Definition cfg_attr_of (l : list (list elem)) : mig_attr :=
  MigAttr (Some (lit "cfg_attr")) (Some (tree_at cfg_pre (cfg_body l))) (0, bytes (ArgEditSpec.text cfg_pre) + len_of (paren_tree (cfg_body l)) + 1) (Some 0) ex_scale.
Definition edits_of (l : list (list elem)) : outcome (list text_edit) :=
  attr_edits (place_leaves 0 (file_tokens cfg_pre (cfg_body l) [(R_BRACK, lit "]")])) (cfg_attr_of l).
Definition type_info : list elem := derive_core [] (path_toks "scale_info" "TypeInfo").
Example C50_conditional_example :
  listed [ex_cond; type_info; [word "other"]] false (cfg_body [ex_cond; type_info; [word "other"]])
  /\ Forall no_derive (firstn 1 [ex_cond; type_info; [word "other"]])
  /\ lists_names (texts_of (path_toks "scale_info" "TypeInfo")) [lit "scale_info::TypeInfo"]
  /\ edits_of [ex_cond; type_info; [word "other"]] = Done [TextEdit [] (20, 49) None]
  /\ edits_of [ex_cond; [word "other"]; type_info] = Done [TextEdit [] (25, 55) None]
  /\ edits_of [ex_cond; type_info] = Done [TextEdit [] (0, 50) None].
Proof.
  assert (Hw : forall s, lit s <> [] -> argument [word s]).
  { intros s Hs. split; [|split].
    - apply Forall_forall. intros e [<-|[]]. split; [constructor; (discriminate || exact Hs)|discriminate].
    - exists (word s), []. split; reflexivity.
    - exists [], (word s). split; reflexivity. }
  assert (Ht : argument type_info).
  { split; [|split].
    - apply Forall_forall. intros e [<-|[<-|[]]]; (split; [|discriminate]); [constructor; discriminate|].
      apply (bal_tree (Tok L_PAREN (lit "(")) (path_toks "scale_info" "TypeInfo") (Tok R_PAREN (lit ")"))); [|left; reflexivity].
      apply Forall_forall. intros e He. cbn in He. repeat (destruct He as [<-|He]; [constructor; discriminate|]). destruct He.
    - eexists _, _. split; reflexivity.
    - exists [Tok IDENT (lit "derive")], (paren_tree (path_toks "scale_info" "TypeInfo")). split; reflexivity. }
  assert (Hs : blank [sp]) by (apply Forall_cons; [eexists _, _; repeat split; discriminate|constructor]).
  split; [|split; [|split; [|vm_compute; auto]]].
  - apply (listed_more ex_cond [] [] type_info [[word "other"]] false ([sp] ++ type_info ++ [] ++ comma :: [sp] ++ [word "other"] ++ []));
      [apply Hw; discriminate|constructor|constructor|].
    apply listed_more; [exact Ht|exact Hs|constructor|]. apply listed_last; [apply Hw; discriminate|exact Hs|constructor].
  - apply Forall_cons; [|constructor]. intros a k bl cs b Hbl E. apply (f_equal (@length _)) in E. rewrite app_length in E. cbn [length] in E. rewrite app_length in E. cbn [length] in E. unfold ex_cond in E. cbn [length] in E. lia.
  - exists [lit "scale_info::TypeInfo"]. split; [discriminate|]. split; [reflexivity|]. split; [|reflexivity].
    intros p [<-|[]] C. apply mem_char_In in C. vm_compute in C. discriminate C.
Qed.

(** Finding: a second [derive(..)] in one [cfg_attr] keeps its SCALE traits. *)
Theorem C50_second_derive_refuted : exists cores i bl d ns,
  nth_error cores i = Some (derive_core bl d) /\ lists_names (texts_of d) ns /\ filter_map ex_scale ns <> []
  /\ attr_scale (cfg_attr_of cores) = [] /\ edits_of cores = Done [].
Proof.
  exists [ex_cond; derive_core [] [word "Debug"]; type_info], 2, [], (path_toks "scale_info" "TypeInfo"), [lit "scale_info::TypeInfo"].
  split; [reflexivity|]. split; [|split; [discriminate|split; vm_compute; reflexivity]].
  exists [lit "scale_info::TypeInfo"]. split; [discriminate|]. split; [reflexivity|]. split; [|reflexivity].
  intros p [<-|[]] C. apply mem_char_In in C. vm_compute in C. discriminate C.
Qed.
(** Finding: the condition of a [cfg_attr] is lost: [cfg_attr(test, derive(scale::Encode))] becomes an
    unconditional [ink::scale_derive(Encode)]. *)
Theorem C50_condition_refuted : exists cond,
  let cores := [cond; derive_core [] (path_toks "scale" "Encode")] in
  cond = [word "test"]
  /\ migrate_derives (place_leaves 0 (file_tokens cfg_pre (cfg_body cores) [(R_BRACK, lit "]")])) (fun m => m) [cfg_attr_of cores]
     = Done [edit_delete (ma_range (cfg_attr_of cores)); edit_insert (lit "#[ink::scale_derive(Encode)]") 0].
Proof. exists [word "test"]. split; [reflexivity|]. vm_compute. reflexivity. Qed.

(** * C74: events *)

(** C74 (partial: if the text of the ink! attribute occurs in the event only once; see below). The event is moved
    before the contract, with its ink! attribute replaced and its lines re-indented, and imported into it. *)
Theorem C74_moved_partial : forall c e attr a b ls pre last,
  ev_attr e = Some attr -> attr <> [] -> ev_text e = a ++ attr ++ b -> only_occurrence attr a b ->
  (forall anon, ev_anonymous e <> Some (false, Some anon)) ->
  tidy (a ++ event_attr (is_some (ev_anonymous e)) ++ b) ls -> ls = pre ++ [last] -> last <> or_empty (ev_indent e) ->
  ~ In c_nl (or_empty (mc_indent c)) -> ~ In c_cr (or_empty (mc_indent c)) ->
  exists code ls', is_lines code ls' /\ relocated (or_empty (ev_indent e)) (or_empty (mc_indent c)) ls ls'
    /\ event_edits c e
       = TextEdit code (mc_start c, mc_start c) None
         :: match mc_use c, ev_name e with
            | Some o, Some n => [TextEdit (lit "use super::" ++ n ++ lit ";") (o, o) None]
            | _, _ => []
            end
         ++ [TextEdit [] (ev_range e) None].
Proof.
  intros c e attr a b ls pre last Ha Hne Et Ho Han Ht El Hl Hn Hr.
  destruct (relocated_spec (or_empty (ev_indent e)) (or_empty (mc_indent c)) _ ls pre last Ht El Hl Hn Hr) as (ls' & Hls & Hrel).
  eexists _, ls'. split; [exact Hls|]. split; [exact Hrel|]. unfold event_edits. rewrite Ha. unfold edit_insert, edit_insert_snippet. f_equal. f_equal.
  unfold event_code. rewrite reduce_none, apply_none, Et. rewrite (replace_only attr _ a b Hne Ho).
  destruct (ev_anonymous e) as [[[] [anon|]]|] eqn:E; try reflexivity. exfalso. exact (Han anon eq_refl).
Qed.
(** With [anonymous] in an attribute of its own, whose text occurs only once: that attribute is dropped. *)
Theorem C74_anonymous_partial : forall c e attr anon a b a' b' ls pre last,
  ev_attr e = Some attr -> attr <> [] -> ev_text e = a ++ attr ++ b -> only_occurrence attr a b ->
  ev_anonymous e = Some (false, Some anon) -> anon <> [] ->
  a ++ event_attr true ++ b = a' ++ anon ++ b' -> only_occurrence anon a' b' ->
  tidy (a' ++ b') ls -> ls = pre ++ [last] -> last <> or_empty (ev_indent e) ->
  ~ In c_nl (or_empty (mc_indent c)) -> ~ In c_cr (or_empty (mc_indent c)) ->
  exists code ls', is_lines code ls' /\ relocated (or_empty (ev_indent e)) (or_empty (mc_indent c)) ls ls'
    /\ hd_error (event_edits c e) = Some (TextEdit code (mc_start c, mc_start c) None).
Proof.
  intros c e attr anon a b a' b' ls pre last Ha Hne Et Ho Han Hna Ee Ho' Ht El Hl Hn Hr.
  destruct (relocated_spec (or_empty (ev_indent e)) (or_empty (mc_indent c)) _ ls pre last Ht El Hl Hn Hr) as (ls' & Hls & Hrel).
  eexists _, ls'. split; [exact Hls|]. split; [exact Hrel|]. unfold event_edits. rewrite Ha. cbn [hd_error]. unfold edit_insert, edit_insert_snippet. do 2 f_equal.
  unfold event_code. rewrite reduce_none, apply_none, Et. rewrite (replace_only attr _ a b Hne Ho). rewrite Han. cbn [is_some].
  change (lit "#[ink::event" ++ lit "(anonymous)" ++ lit "]") with (event_attr true). rewrite Ee, (replace_only anon [] a' b' Hna Ho'). reflexivity.
Qed.
(** The edits of a file: those of its events, contract by contract. *)
Theorem C74_all_events : forall cs ed, In ed (migrate_events cs) <-> exists c e, In c cs /\ In e (mc_events c) /\ In ed (event_edits c e).
Proof.
  intros cs ed. unfold migrate_events. rewrite in_flat_map. split.
  - intros (c & Hc & H). apply in_flat_map in H as (e & He & H). exists c, e. auto.
  - intros (c & e & Hc & He & H). exists c. split; [exact Hc|]. apply in_flat_map. exists e. auto.
Qed.
Definition nl_str : str := [c_nl].
Definition ex_event : legacy_event :=
  LegacyEvent (lit "#[ink(event)]" ++ nl_str ++ lit "    pub struct E {" ++ nl_str ++ lit "        x: u8," ++ nl_str ++ lit "    }") (40, 100)
    (Some (lit "#[ink(event)]")) None (Some (lit "    ")) (Some (lit "E")).
Definition ex_mig_contract : mig_contract := MigContract 0 None (Some 30) [ex_event].
Example C74_example :
  let b := nl_str ++ lit "    pub struct E {" ++ nl_str ++ lit "        x: u8," ++ nl_str ++ lit "    }" in
  ev_text ex_event = [] ++ lit "#[ink(event)]" ++ b /\ only_occurrence (lit "#[ink(event)]") [] b
  /\ tidy ([] ++ event_attr false ++ b) [lit "#[ink::event]"; lit "    pub struct E {"; lit "        x: u8,"; lit "    }"]
  /\ migrate_events [ex_mig_contract]
     = [TextEdit (unlines [lit "#[ink::event]"; lit "pub struct E {"; lit "    x: u8,"; lit "}"]) (0, 0) None;
        TextEdit (lit "use super::E;") (30, 30) None; TextEdit [] (40, 100) None].
Proof.
  intros b. split; [reflexivity|]. split; [|split; [|vm_compute; reflexivity]].
  - intros x y E. destruct x as [|c x]; [reflexivity|]. exfalso. cbn [app] in E. injection E as _ E.
    assert (Ho : ~ occurs (lit "#[ink(event)]") (lit "[ink(event)]" ++ b)) by (apply occursb_no; vm_compute; reflexivity).
    apply Ho. exists x, y. exact E.
  - split; [|split].
    + split; [reflexivity|]. split; [discriminate|]. intros l Hl C. apply mem_char_In in C. simpl in Hl.
      repeat (destruct Hl as [<-|Hl]; [vm_compute in C; discriminate C|]). destruct Hl.
    + intros C. apply mem_char_In in C. vm_compute in C. discriminate C.
    + exists [lit "#[ink::event]"; lit "    pub struct E {"; lit "        x: u8,"], (lit "    }"). split; [reflexivity|discriminate].
Qed.
(** Finding: other occurrences of the attribute's text, such as in a doc comment, are replaced as well. *)
Theorem C74_moved_refuted : exists e a b, ev_attr e = Some (lit "#[ink(event)]") /\ ev_text e = a ++ lit "#[ink(event)]" ++ b
  /\ a = lit "/// Was `#[ink(event)]`" ++ nl_str /\ ev_anonymous e = None
  /\ event_code None (lit "#[ink(event)]") e <> a ++ event_attr false ++ b
  /\ event_code None (lit "#[ink(event)]") e = lit "/// Was `#[ink::event]`" ++ nl_str ++ event_attr false ++ b.
Proof.
  exists (LegacyEvent (lit "/// Was `#[ink(event)]`" ++ nl_str ++ lit "#[ink(event)]" ++ nl_str ++ lit "pub struct E;") (0, 1) (Some (lit "#[ink(event)]")) None None None),
    (lit "/// Was `#[ink(event)]`" ++ nl_str), (nl_str ++ lit "pub struct E;").
  split; [reflexivity|]. split; [reflexivity|]. split; [reflexivity|]. split; [reflexivity|]. split; [vm_compute; discriminate|vm_compute; reflexivity].
Qed.

(** * C41: the edits of the migration *)

(** Finding: an event with derived SCALE traits gets overlapping edits: the event is deleted, and so is (or is
    changed) its [derive] attribute inside of it. *)
Definition event_derive_pre : list (skind * str) :=
  [(POUND, lit "#"); (L_BRACK, lit "["); (IDENT, lit "ink"); (L_PAREN, lit "("); (IDENT, lit "event"); (R_PAREN, lit ")"); (R_BRACK, lit "]");
   (WHITESPACE, lit " "); (POUND, lit "#"); (L_BRACK, lit "["); (IDENT, lit "derive")].
Definition event_derive_post : list (skind * str) := [(R_BRACK, lit "]"); (WHITESPACE, lit " "); (STRUCT_KW, lit "struct"); (WHITESPACE, lit " "); (IDENT, lit "E"); (SEMICOLON, lit ";")].
Theorem C41_migration_refuted : exists c e a l,
  In e (mc_events c) /\ ev_text e = file_text event_derive_pre (path_toks "scale" "Encode") event_derive_post
  /\ ev_range e = (0, bytes (ev_text e)) /\ ma_tree a = Some (tree_at event_derive_pre (path_toks "scale" "Encode"))
  /\ migrate_derives [] (fun m => m) [a] = Done l
  /\ exists x y, In x (migrate_events [c]) /\ In y l /\ ~ apart x y.
Proof.
  set (body := path_toks "scale" "Encode").
  set (e := LegacyEvent (file_text event_derive_pre body event_derive_post) (0, bytes (file_text event_derive_pre body event_derive_post)) (Some (lit "#[ink(event)]")) None None (Some (lit "E"))).
  set (a := MigAttr (Some (lit "derive")) (Some (tree_at event_derive_pre body)) (14, 38) (Some 0) ex_scale).
  exists (MigContract 0 None None [e]), e, a, [edit_delete (14, 38); edit_insert (lit "#[ink::scale_derive(Encode)]") 14].
  split; [left; reflexivity|]. split; [reflexivity|]. split; [reflexivity|]. split; [reflexivity|]. split; [vm_compute; reflexivity|].
  exists (edit_delete (ev_range e)), (edit_delete (14, 38)). split; [right; left; reflexivity|]. split; [left; reflexivity|].
  unfold apart. vm_compute. intros [H|H]; lia.
Qed.

Print Assumptions C49_ids.
Print Assumptions C49_written.
Print Assumptions C50_standalone.
Print Assumptions C50_conditional_partial.
Print Assumptions C50_other_attributes.
Print Assumptions C50_moved.
Print Assumptions C50_second_derive_refuted.
Print Assumptions C50_condition_refuted.
Print Assumptions C74_moved_partial.
Print Assumptions C74_anonymous_partial.
Print Assumptions C74_all_events.
Print Assumptions C74_moved_refuted.
Print Assumptions C41_migration_refuted.
