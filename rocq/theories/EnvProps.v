(** C86 environments and error codes of chain extensions. *)
From Verif Require Import Base BaseFacts Unicode PositionModel TranslateModel CommandModel CallableModel EditModel UtilModel
  ResolveModel ResolveSpec ResolveProofs ResolveProps ExternalModel ExternalSpec ExternalProofs ExternalProps ScaleFixSpec ScaleFixProofs EnvModel EnvSpec EnvProofs.

(** ** C86 *)
Definition indented (i : option str) (s : str) : str := match i with Some i => apply_indenting s i | None => s end.
Definition declared_range (S : source) (x : place) : trange := match src_declaration S x with Some r => r | None => src_range S x end.
(** The items of the trait [ink::env::Environment]. *)
Definition ENVIRONMENT_ITEMS : list str :=
  map lit ["const MAX_EVENT_TOPICS: usize = "; "type AccountId = "; "type Balance = "; "type Hash = "; "type Timestamp = ";
           "type BlockNumber = "; "type ChainExtension = "]%string.
Fixpoint is_infix (pat s : str) : bool := starts_with pat s || match s with [] => false | _ :: s' => is_infix pat s' end.

(** The type of an environment is reported if and only if nothing in the file implements the trait for its name; the
    report's only fix inserts an implementation with all the items of the trait after the type. *)
Theorem C86_environment_impl : exists body plain_end snippet_of, forallb (fun s => is_infix s body) ENVIRONMENT_ITEMS = true /\
  plain_end = c_nl :: lit "}" /\
  (forall name, identifier name -> expands (snippet_of name) (lit "impl ink::env::Environment for " ++ name ++ lit " {" ++ body ++ plain_end)) /\
  forall parse S a n item root adt name,
  in_file root item -> named_impls root -> settled parse root (lit "Environment") (map join_colons [[lit "ink"; lit "env"]; [lit "ink_env"]]) n ->
  environment parse a n item = Ret (Some adt) -> n_name (fst adt) = Some name ->
  (has_impl parse root (lit "Environment") (map join_colons [[lit "ink"; lit "env"]; [lit "ink_env"]]) name ->
     ensure_impl_environment parse S a n item = Ret None)
  /\ (~ has_impl parse root (lit "Environment") (map join_colons [[lit "ink"; lit "env"]; [lit "ink_env"]]) name ->
     ensure_impl_environment parse S a n item = Ret (Some (ADiag
       (lit "Environment values must implement the `ink::env::Environment` trait.") (declared_range S adt) SevError
       (Some [Action (lit "Add `ink::env::Environment` implementation for `" ++ name ++ lit "`.") AkQuickFix (declared_range S adt)
         [TextEdit (indented (src_indent S adt) (lit "impl ink::env::Environment for " ++ name ++ lit " {" ++ body ++ plain_end))
            (snd (src_range S adt), snd (src_range S adt)) (Some (indented (src_indent S adt) (snippet_of name)))]])))).
Proof.
  set (n0 := length ENVIRONMENT_IMPL_PLAIN - 46 - 2).
  exists (firstn n0 (skipn 46 ENVIRONMENT_IMPL_PLAIN)), (c_nl :: lit "}"), (fun name => str_replace (lit "MyEnvironment") name ENVIRONMENT_IMPL_SNIPPET).
  split; [vm_compute; reflexivity|]. split; [reflexivity|]. split.
  { intros name Hid.
    replace (str_replace (lit "MyEnvironment") name ENVIRONMENT_IMPL_SNIPPET)
      with (lit "impl ink::env::Environment for " ++ (lit "${" ++ dec 1 ++ lit ":" ++ name ++ lit "}") ++ skipn 49 ENVIRONMENT_IMPL_SNIPPET)
      by (rewrite <- !app_assoc; reflexivity).
    eexists. eapply expands_app; [apply expands_plain; intros C; vm_compute in C; intuition discriminate|].
    eapply expands_app; [apply expands_one; apply ident_no_brace; exact Hid|]. apply (expand_f_sound 1000). vm_compute. reflexivity. }
  intros parse S a n item root adt name Hr Hni Hs He Hn.
  unfold ensure_impl_environment. rewrite He, Hn. unfold ensure_external_trait_impl. rewrite Hn, (crate_root_is root item Hr).
  change ENV_QUALIFIERS with (map join_colons [[lit "ink"; lit "env"]; [lit "ink_env"]]).
  pose proof (by_name_total parse (lit "Environment") (map join_colons [[lit "ink"; lit "env"]; [lit "ink_env"]]) root name n Hs) as Ht.
  destruct (trait_impl_by_name _ _ _ _ _ _) as [|[x|]] eqn:E; [congruence| |]; (split; intros H).
  - reflexivity.
  - destruct (H (by_name_some _ _ _ _ _ _ _ Hni E)).
  - destruct (by_name_none _ _ _ _ _ _ Hni E H).
  - unfold declared_range, indented, edit_insert_snippet. cbn [option_map].
    assert (Et : str_replace (lit "MyEnvironment") name ENVIRONMENT_IMPL_PLAIN
      = lit "impl ink::env::Environment for " ++ name ++ lit " {" ++ firstn n0 (skipn 46 ENVIRONMENT_IMPL_PLAIN) ++ c_nl :: lit "}") by (rewrite env_text; reflexivity).
    rewrite Et. reflexivity.
Qed.
Theorem C86_error_code_impl : exists body snippet_of, is_infix (lit "fn from_status_code(status_code: u32) -> Result<(), Self> {") body = true /\
  (forall name, identifier name -> expands (snippet_of name) (lit "impl ink::env::chain_extension::FromStatusCode for " ++ name ++ lit " {" ++ body ++ c_nl :: lit "}")) /\
  forall parse S e n ext root adt name,
  in_file root ext -> named_impls root ->
  settled parse root (lit "FromStatusCode") (map join_colons [[lit "ink"; lit "env"; lit "chain_extension"]; [lit "ink_env"; lit "chain_extension"]]) n ->
  error_code_adt parse e n ext = Ret (Some adt) -> n_name (fst adt) = Some name ->
  (has_impl parse root (lit "FromStatusCode") (map join_colons [[lit "ink"; lit "env"; lit "chain_extension"]; [lit "ink_env"; lit "chain_extension"]]) name ->
     ensure_impl_from_status_code parse S e n ext = Ret None)
  /\ (~ has_impl parse root (lit "FromStatusCode") (map join_colons [[lit "ink"; lit "env"; lit "chain_extension"]; [lit "ink_env"; lit "chain_extension"]]) name ->
     ensure_impl_from_status_code parse S e n ext = Ret (Some (ADiag
       (lit "`ErrorCode` associated type must implement the `ink::env::chain_extension::FromStatusCode` trait.") (declared_range S adt) SevError
       (Some [Action (lit "Add `ink::env::chain_extension::FromStatusCode` implementation for `" ++ name ++ lit "`.") AkQuickFix (declared_range S adt)
         [TextEdit (indented (src_indent S adt) (lit "impl ink::env::chain_extension::FromStatusCode for " ++ name ++ lit " {" ++ body ++ c_nl :: lit "}"))
            (snd (src_range S adt), snd (src_range S adt)) (Some (indented (src_indent S adt) (snippet_of name)))]])))).
Proof.
  set (n0 := length FROM_STATUS_CODE_IMPL_PLAIN - 64 - 2).
  exists (firstn n0 (skipn 64 FROM_STATUS_CODE_IMPL_PLAIN)), (fun name => str_replace (lit "MyErrorCode") name FROM_STATUS_CODE_IMPL_SNIPPET).
  split; [vm_compute; reflexivity|]. split.
  { intros name Hid.
    change (str_replace (lit "MyErrorCode") name FROM_STATUS_CODE_IMPL_SNIPPET)
      with (lit "impl ink::env::chain_extension::FromStatusCode for " ++ name ++ skipn 62 FROM_STATUS_CODE_IMPL_SNIPPET).
    eexists. eapply expands_app; [apply expands_plain; intros C; vm_compute in C; intuition discriminate|].
    eapply expands_app; [apply expands_plain; apply ident_no_dollar; exact Hid|]. apply (expand_f_sound 1000). vm_compute. reflexivity. }
  intros parse S e n ext root adt name Hr Hni Hs He Hn.
  unfold ensure_impl_from_status_code. rewrite He, Hn. unfold ensure_external_trait_impl. rewrite Hn, (crate_root_is root ext Hr).
  change STATUS_QUALIFIERS with (map join_colons [[lit "ink"; lit "env"; lit "chain_extension"]; [lit "ink_env"; lit "chain_extension"]]).
  pose proof (by_name_total parse (lit "FromStatusCode") (map join_colons [[lit "ink"; lit "env"; lit "chain_extension"]; [lit "ink_env"; lit "chain_extension"]]) root name n Hs) as Ht.
  destruct (trait_impl_by_name _ _ _ _ _ _) as [|[x|]] eqn:E; [congruence| |]; (split; intros H).
  - reflexivity.
  - destruct (H (by_name_some _ _ _ _ _ _ _ Hni E)).
  - destruct (by_name_none _ _ _ _ _ _ Hni E H).
  - unfold declared_range, indented, edit_insert_snippet. cbn [option_map].
    assert (Et : str_replace (lit "MyErrorCode") name FROM_STATUS_CODE_IMPL_PLAIN
      = lit "impl ink::env::chain_extension::FromStatusCode for " ++ name ++ lit " {" ++ firstn n0 (skipn 64 FROM_STATUS_CODE_IMPL_PLAIN) ++ c_nl :: lit "}") by (rewrite status_text; reflexivity).
    rewrite Et. reflexivity.
Qed.
(** The fix ends the report: no file with an implementation headed like the inserted one is reported, wherever it is. *)
Theorem C86_fix_accepted parse S a item root l g tail sp adt name n d :
  in_file root item -> in_file root l ->
  n_data (fst l) = DImpl (Some (written g [lit "ink"; lit "env"; lit "Environment"] tail)) (Some sp) -> last_word sp name ->
  environment parse a n item = Ret (Some adt) -> n_name (fst adt) = Some name ->
  ensure_impl_environment parse S a n item <> Ret (Some d).
Proof.
  intros Hr Hl Ed Hw He Hn C. unfold ensure_impl_environment in C. rewrite He, Hn in C. unfold ensure_external_trait_impl in C.
  rewrite Hn, (crate_root_is root item Hr) in C. destruct (trait_impl_by_name _ _ _ _ _ _) as [|[x|]] eqn:E; [discriminate | discriminate|].
  apply descendants_in_file in Hl. pose proof (find_res_none _ _ E l Hl) as F. cbv beta in F. unfold implements_trait, impl_for in F. rewrite Ed in F.
  destruct n as [|n]; [discriminate|].
  assert (X : is_external parse (lit "Environment") ENV_QUALIFIERS (Datatypes.S n) (written g [lit "ink"; lit "env"; lit "Environment"] tail) l = Ret true).
  { exact (C85_full_path parse [[lit "ink"; lit "env"]; [lit "ink_env"]] (lit "Environment") tail g [lit "ink"; lit "env"] l n (or_introl eq_refl) ltac:(discriminate)). }
  rewrite X, (last_word_target sp name Hw) in F. discriminate.
Qed.
Theorem C86_error_code_fix_accepted parse S e ext root l g tail sp adt name n d :
  in_file root ext -> in_file root l ->
  n_data (fst l) = DImpl (Some (written g [lit "ink"; lit "env"; lit "chain_extension"; lit "FromStatusCode"] tail)) (Some sp) -> last_word sp name ->
  error_code_adt parse e n ext = Ret (Some adt) -> n_name (fst adt) = Some name ->
  ensure_impl_from_status_code parse S e n ext <> Ret (Some d).
Proof.
  intros Hr Hl Ed Hw He Hn C. unfold ensure_impl_from_status_code in C. rewrite He, Hn in C. unfold ensure_external_trait_impl in C.
  rewrite Hn, (crate_root_is root ext Hr) in C. destruct (trait_impl_by_name _ _ _ _ _ _) as [|[x|]] eqn:E; [discriminate | discriminate|].
  apply descendants_in_file in Hl. pose proof (find_res_none _ _ E l Hl) as F. cbv beta in F. unfold implements_trait, impl_for in F. rewrite Ed in F.
  destruct n as [|n]; [discriminate|].
  assert (X : is_external parse (lit "FromStatusCode") STATUS_QUALIFIERS (Datatypes.S n) (written g [lit "ink"; lit "env"; lit "chain_extension"; lit "FromStatusCode"] tail) l = Ret true).
  { exact (C85_full_path parse [[lit "ink"; lit "env"; lit "chain_extension"]; [lit "ink_env"; lit "chain_extension"]] (lit "FromStatusCode") tail g
      [lit "ink"; lit "env"; lit "chain_extension"] l n (or_introl eq_refl) ltac:(discriminate)). }
  rewrite X, (last_word_target sp name Hw) in F. discriminate.
Qed.
(** A path to a struct, enum or union of the file is found and not reported as unresolved. *)
Theorem C86_resolved parse arg p root item x f : in_file root item -> ev_path arg = Some p -> names_item is_adt root item p x ->
  environment parse (Some arg) (S (S f)) item = Ret (Some x) /\ ensure_env_resolvable parse (Some arg) (S (S f)) item = Ret None.
Proof.
  intros Hr Ep Hn.
  assert (E : environment parse (Some arg) (S (S f)) item = Ret (Some x)) by (unfold environment; cbn [obind]; rewrite Ep; apply (names_resolved parse root item p x f Hr Hn)).
  split; [exact E|]. unfold ensure_env_resolvable. rewrite Ep, E. reflexivity.
Qed.
Theorem C86_error_code_resolved parse ec p root ext x f : in_file root ext -> ec_path ec = Some p -> names_item is_adt root ext p x ->
  error_code_adt parse (Some ec) (S (S f)) ext = Ret (Some x) /\ ensure_error_resolvable parse (Some ec) (S (S f)) ext = Ret None.
Proof.
  intros Hr Ep Hn.
  assert (E : error_code_adt parse (Some ec) (S (S f)) ext = Ret (Some x)) by (unfold error_code_adt; cbn [obind]; rewrite Ep; apply (names_resolved parse root ext p x f Hr Hn)).
  split; [exact E|]. unfold ensure_error_resolvable. rewrite E. reflexivity.
Qed.
(** The default environment is never reported, however it is imported. *)
Theorem C86_default_environment parse arg ws tail item m n d :
  ev_path arg = Some (written false ws tail) -> Forall identifier ws -> scope_of item m -> imports_from m [lit "ink"; lit "ink_env"] ->
  denotes m [lit "ink"; lit "ink_env"] ws [lit "ink"; lit "env"; lit "DefaultEnvironment"]
  \/ denotes m [lit "ink"; lit "ink_env"] ws [lit "ink_env"; lit "DefaultEnvironment"] ->
  ensure_env_resolvable parse (Some arg) (S (S n)) item <> Ret (Some d)
  /\ (environment parse (Some arg) (S (S n)) item <> Spent -> ensure_env_resolvable parse (Some arg) (S (S n)) item = Ret None).
Proof.
  intros Ep Hws Hs Hm Hd. unfold ensure_env_resolvable. rewrite Ep.
  destruct (environment parse (Some arg) (S (S n)) item) as [|[x|]]; [split; [discriminate | congruence] | split; [discriminate | reflexivity]|].
  assert (HQ : good_qualifiers [[lit "ink"; lit "env"]; [lit "ink_env"]]).
  { intros q [<-|[<-|[]]]; (split; [discriminate | repeat (constructor; [ident|]); constructor]). }
  assert (X : is_external parse (lit "DefaultEnvironment") ENV_QUALIFIERS (S (S n)) (written false ws tail) item = Ret true).
  { destruct Hd as [Hd|Hd].
    - refine (C85_recognised parse [[lit "ink"; lit "env"]; [lit "ink_env"]] (lit "DefaultEnvironment") tail ws [lit "ink"; lit "env"] item m n HQ _ Hws Hs Hm (or_introl eq_refl) Hd). ident.
    - refine (C85_recognised parse [[lit "ink"; lit "env"]; [lit "ink_env"]] (lit "DefaultEnvironment") tail ws [lit "ink_env"] item m n HQ _ Hws Hs Hm (or_intror (or_introl eq_refl)) Hd). ident. }
  rewrite X. split; [discriminate | reflexivity].
Qed.
(** Structs, enums and unions are the types that are found. *)
Theorem C86_types n : is_adt n = true <-> exists name, n_data n = DNamed 0 name \/ n_data n = DNamed 1 name \/ n_data n = DNamed 2 name.
Proof.
  unfold is_adt. split.
  - destruct (n_data n); try discriminate. intros H. apply PeanoNat.Nat.leb_le in H. destruct kind as [|[|[|k]]]; [eexists; auto | eexists; auto | eexists; auto |].
    do 2 apply le_S_n in H. inversion H.
  - intros (name & [->|[->| ->]]); reflexivity.
Qed.
(** What is suggested instead of an unresolved path: a type of the file with the same last word or, if there is none, one
    for which the file implements the trait. *)
Theorem C86_candidate parse trait qs n root ref p name x : in_file root ref -> named_impls root -> last_word p name ->
  candidate_adt parse trait qs n ref (Some p) = Ret (Some x) ->
  in_file root x /\ is_adt (fst x) = true
  /\ (n_name (fst x) = Some name
      \/ (no_adt root name /\ exists name', n_name (fst x) = Some name' /\ has_impl parse root trait qs name')).
Proof.
  intros Hr Hn Hw H. destruct (candidate_spec parse trait qs n root ref p name x Hr Hn Hw H) as (H1 & H2 & H3).
  split; [exact H1|]. split; [exact H2|]. destruct H3 as [H3|(H3 & l & tp & sp & name' & A & B & C & D & E)]; [left; exact H3|].
  right. split; [exact H3|]. exists name'. split; [exact E|]. exists l, tp, sp, n. auto.
Qed.
(** Full statement: the suggested path always resolves to the suggested type. Proved for a type of the file or of one of
    its modules whose name no other type has; see the refutation below for nested modules. *)
Theorem C86_suggestion_partial parse arg p name q x root item n : parser_ok parse ->
  in_file root item -> ev_path arg = Some p -> last_word p name -> known_adt root name q x ->
  environment parse (Some arg) n item = Ret None ->
  is_external parse (lit "DefaultEnvironment") (map join_colons [[lit "ink"; lit "env"]; [lit "ink_env"]]) n p item = Ret false ->
  let range := match ev_value_range arg with Some r => r | None => ev_range arg end in
  ensure_env_resolvable parse (Some arg) n item = Ret (Some (ADiag
    (lit "`" ++ ev_name arg ++ lit "` argument value should be a path to a custom type that implements the `ink::env::Environment` trait.")
    range SevError
    (Some [Action (lit "Replace `" ++ ev_name arg ++ lit "` argument value with `" ++ path_text q ++ lit "`.") AkQuickFix range
       [TextEdit (ev_name arg ++ lit " = " ++ path_text q) (ev_range arg) (Some (ev_name arg ++ lit " = ${1:" ++ path_text q ++ lit "}"))]])))
  /\ parse (path_text q) = Some q
  /\ forall arg' f, ev_path arg' = Some q -> environment parse (Some arg') (S (S f)) item = Ret (Some x)
       /\ ensure_env_resolvable parse (Some arg') (S (S f)) item = Ret None.
Proof.
  intros Hp Hr Ep Hw Hk He Hx range. destruct (known_path root name q x Hk) as (H1 & H2 & H3 & H4 & H5 & H6 & H7). split; [|split].
  - unfold ensure_env_resolvable. rewrite Ep, He. change ENV_QUALIFIERS with (map join_colons [[lit "ink"; lit "env"]; [lit "ink_env"]]). rewrite Hx.
    rewrite (candidate_known parse _ _ n root item p name q x Hr Hw Hk). cbn [obind option_map]. rewrite H4. reflexivity.
  - exact (proj1 (Hp q H5)).
  - intros arg' f Ep'. apply (C86_resolved parse arg' q root item x f Hr Ep'). apply H7.
Qed.
Theorem C86_error_code_suggestion_partial parse ec p name q x root ext n : parser_ok parse ->
  in_file root ext -> ec_path ec = Some p -> last_word p name -> known_adt root name q x ->
  error_code_adt parse (Some ec) n ext = Ret None ->
  ensure_error_resolvable parse (Some ec) n ext = Ret (Some (ADiag
    (lit "`ErrorCode` associated type must implement the `ink::env::chain_extension::FromStatusCode` trait.") (ec_range ec) SevError
    (Some [Action (lit "Replace `" ++ ec_text ec ++ lit "` associated type with `" ++ path_text q ++ lit "`.") AkQuickFix (ec_range ec)
       [TextEdit (path_text q) (ec_range ec) (Some (lit "${1:" ++ path_text q ++ lit "}"))]])))
  /\ parse (path_text q) = Some q
  /\ forall ec' f, ec_path ec' = Some q -> error_code_adt parse (Some ec') (S (S f)) ext = Ret (Some x)
       /\ ensure_error_resolvable parse (Some ec') (S (S f)) ext = Ret None.
Proof.
  intros Hp Hr Ep Hw Hk He. destruct (known_path root name q x Hk) as (H1 & H2 & H3 & H4 & H5 & H6 & H7). split; [|split].
  - unfold ensure_error_resolvable. rewrite He, Ep.
    rewrite (candidate_known parse _ _ n root ext p name q x Hr Hw Hk). cbn [obind option_map]. rewrite H4. reflexivity.
  - exact (proj1 (Hp q H5)).
  - intros ec' f Ep'. apply (C86_error_code_resolved parse ec' q root ext x f Hr Ep'). apply H7.
Qed.
(** Each path of a chain extension that starts with [Self::ErrorCode] is reported once, with the range of these two words,
    and nothing else is. *)
Theorem C86_self_error_code parse e n ext ps adt : 
  (forall p, In p ps -> sp_words p <> [] /\ forall x, In x (sp_words p) -> identifier x) ->
  error_code_adt parse e n ext = Ret adt ->
  exists l, ensure_no_self_usage parse e n ext (flat_map path_nodes ps) = Ret l
    /\ map (fun d => (ad_range d, ad_fixes d)) l
       = map (fun p => let r := (sp_offset p, sp_offset p + bytes (lit "Self::ErrorCode")) in
                (r, option_map (fun s => [Action (lit "Replace `Self::ErrorCode` with `" ++ s ++ lit "`") AkQuickFix r
                                            [TextEdit s r (Some (lit "${1:" ++ s ++ lit "}"))]]) (obind adt item_path)))
           (filter starts_with_self_error_code ps).
Proof.
  intros Hps He. unfold ensure_no_self_usage. rewrite He. eexists. split; [reflexivity|]. rewrite (self_usage_all _ ps Hps).
  clear Hps. induction ps as [|p ps IH]; [reflexivity|]. cbn [filter]. destruct (starts_with_self_error_code p) eqn:Es; [|exact IH].
  cbn [flat_map map]. rewrite map_app, IH. 
  assert (Ef : first_words 2 p = (lit "Self::ErrorCode", (sp_offset p, sp_offset p + bytes (lit "Self::ErrorCode")))).
  { unfold starts_with_self_error_code in Es. unfold first_words. destruct (sp_words p) as [|a [|b l]]; try discriminate.
    apply andb_true_iff in Es. destruct Es as [Ea Eb]. apply str_eqb_eq in Ea, Eb. subst. reflexivity. }
  rewrite Ef. destruct (obind adt item_path); reflexivity.
Qed.

(** Never more than one of the two rules reports: the check of the path and the check of the implementation exclude each other. *)
Theorem C86_one_report parse S a n item l : env_diagnostics parse S a n item = Ret l -> length l <= 1
  /\ (forall d, l = [d] -> (environment parse a n item = Ret None /\ ensure_env_resolvable parse a n item = Ret (Some d))
                        \/ (exists adt, environment parse a n item = Ret (Some adt) /\ ensure_impl_environment parse S a n item = Ret (Some d))).
Proof.
  unfold env_diagnostics. intros H.
  assert (X : forall d adt, ensure_env_resolvable parse a n item = Ret (Some d) -> environment parse a n item <> Ret (Some adt)).
  { intros d adt E C. unfold ensure_env_resolvable in E. destruct a as [arg|]; [|discriminate]. destruct (ev_path arg) as [q|]; [|discriminate].
    rewrite C in E. discriminate. }
  assert (Y : environment parse a n item = Ret None -> ensure_impl_environment parse S a n item = Ret None)
    by (intros E; unfold ensure_impl_environment; rewrite E; reflexivity).
  destruct (ensure_env_resolvable parse a n item) as [|[d1|]] eqn:E1; try discriminate.
  - destruct (environment parse a n item) as [|[adt|]] eqn:E.
    + unfold ensure_impl_environment in H. rewrite E in H. discriminate.
    + destruct (X d1 adt eq_refl eq_refl).
    + rewrite (Y eq_refl) in H. apply Ret_inj in H. subst l. split; [cbn; auto|]. intros d Hd. injection Hd as <-. left. auto.
  - destruct (ensure_impl_environment parse S a n item) as [|[d2|]] eqn:E2; try discriminate; apply Ret_inj in H; subst l; (split; [cbn; auto|]).
    + intros d Hd. injection Hd as <-. right. destruct (environment parse a n item) as [|[adt|]] eqn:E.
      * unfold ensure_impl_environment in E2. rewrite E in E2. discriminate.
      * exists adt. auto.
      * specialize (Y eq_refl). discriminate.
    + intros d Hd. discriminate.
Qed.

(** *** Findings *)
Definition struct_node (i : nat) (name : str) : snode := SNode i (DNamed 0 (Some name)) [].
Definition mod_node (i j : nat) (name : str) (items : list snode) : snode := SNode i (DModule (Some name)) [SNode j DItemList items].
Definition ENV : str := lit "Env".
Definition some_source : source := Source (fun _ => (0, 1)) (fun _ => None) (fun _ => None).
Definition env_value (p : rpath) : env_arg := EnvArg (lit "env") (0, 9) (Some (6, 9)) (Some p).
(** [mod a { mod b { struct Env; } } #[ink::contract(env = Env)] mod c {}]: the suggested path does not resolve, and is
    reported in its turn. *)
Definition nested_file : snode := SNode 0 DRoot [mod_node 1 2 (lit "a") [mod_node 3 4 (lit "b") [struct_node 5 ENV]]; mod_node 6 7 (lit "c") []].
Theorem C86_suggestion_refuted : exists n d s p d',
  let item := (nth 1 (n_children nested_file) nested_file, [nested_file]) in
  in_file nested_file item
  /\ ensure_env_resolvable simple_parse (Some (env_value [name_seg ENV])) n item = Ret (Some d)
  /\ option_map (map (fun a => map te_text (ac_edits a))) (ad_fixes d) = Some [[lit "env = " ++ s]]
  /\ simple_parse s = Some p
  /\ ensure_env_resolvable simple_parse (Some (env_value p)) n item = Ret (Some d').
Proof.
  exists 8. do 4 eexists. cbv zeta. split; [|split; [vm_compute; reflexivity|split; [|split]]].
  - apply (if_child nested_file (nested_file, [])); [constructor | right; left; reflexivity].
  - instantiate (1 := lit "crate::b::a::Env"). vm_compute. reflexivity.
  - vm_compute. reflexivity.
  - vm_compute. reflexivity.
Qed.
(** [mod a { struct Env; } mod b { struct Env; impl ink::env::Environment for Env {} }] with [env = crate::a::Env]: the
    implementation for the other type of the same name is enough. *)
Definition two_types_file : snode :=
  SNode 0 DRoot [mod_node 1 2 (lit "a") [struct_node 3 ENV];
                 mod_node 4 5 (lit "b") [struct_node 6 ENV;
                   SNode 7 (DImpl (Some (written false [lit "ink"; lit "env"; lit "Environment"] [])) (Some [name_seg ENV])) []];
                 mod_node 8 9 (lit "c") []].
Theorem C86_other_type_refuted : exists n adt i other,
  let item := (nth 2 (n_children two_types_file) two_types_file, [two_types_file]) in
  environment simple_parse (Some (env_value [crate_seg; name_seg (lit "a"); name_seg ENV])) n item = Ret (Some adt)
  /\ ensure_impl_environment simple_parse some_source (Some (env_value [crate_seg; name_seg (lit "a"); name_seg ENV])) n item = Ret None
  /\ filter (fun l => match n_data (fst l) with DImpl _ _ => true | _ => false end) (descendants_at (two_types_file, [])) = [i]
  /\ n_data (fst i) = DImpl (Some (written false [lit "ink"; lit "env"; lit "Environment"] [])) (Some [name_seg ENV])
  /\ resolve_item simple_parse is_adt n [name_seg ENV] i = Ret (Some other) /\ n_id (fst adt) <> n_id (fst other).
Proof.
  exists 8. do 3 eexists. cbv zeta. split; [vm_compute; reflexivity|]. split; [vm_compute; reflexivity|]. split; [vm_compute; reflexivity|].
  split; [reflexivity|]. split; [vm_compute; reflexivity|]. discriminate.
Qed.
(** A type that is not a path is always reported, also the [()] of the code the analyzer itself inserts. *)
Theorem C86_unit_error_code_refuted parse ec n ext : ec_path ec = None ->
  ensure_error_resolvable parse (Some ec) n ext <> Ret None.
Proof.
  intros E C. unfold ensure_error_resolvable, error_code_adt in C. cbn [obind] in C. rewrite E in C. cbn [obind] in C.
  destruct (candidate_adt _ _ _ _ _ _); discriminate.
Qed.
(** A path [Self::ErrorCode] with a line break in it is not reported. *)
Theorem C86_line_break_refuted : self_usages None [(lit "Self::" ++ [c_nl] ++ lit "ErrorCode", (0, 16))] = [].
Proof. reflexivity. Qed.

(** *** Examples *)
(** [struct Env; mod c {} #[ink::contract(env = Env)]]: the type is found, has no implementation; a wrong path is corrected. *)
Definition ex_env_file : snode := SNode 0 DRoot [struct_node 1 ENV; mod_node 2 3 (lit "c") []].
Example C86_example :
  let item := (nth 1 (n_children ex_env_file) ex_env_file, [ex_env_file]) in
  in_file ex_env_file item /\ named_impls ex_env_file
  /\ settled simple_parse ex_env_file (lit "Environment") ENV_QUALIFIERS 8
  /\ known_adt ex_env_file ENV [crate_seg; name_seg ENV] (struct_node 1 ENV, [ex_env_file])
  /\ environment simple_parse (Some (env_value [crate_seg; name_seg ENV])) 8 item = Ret (Some (struct_node 1 ENV, [ex_env_file]))
  /\ names_item is_adt ex_env_file item [crate_seg; name_seg ENV] (struct_node 1 ENV, [ex_env_file])
  /\ ~ has_impl simple_parse ex_env_file (lit "Environment") ENV_QUALIFIERS ENV
  /\ environment simple_parse (Some (env_value [name_seg ENV])) 8 item = Ret None
  /\ is_external simple_parse (lit "DefaultEnvironment") ENV_QUALIFIERS 8 [name_seg ENV] item = Ret false.
Proof.
  cbv zeta.
  assert (HF : forall l, in_file ex_env_file l -> In l (descendants_at (ex_env_file, []))) by (intros l Hl; apply descendants_in_file; exact Hl).
  assert (HI : forall l tp sp, in_file ex_env_file l -> n_data (fst l) <> DImpl tp sp).
  { intros l tp sp Hl. apply HF in Hl. vm_compute in Hl. destruct Hl as [<-|[<-|[<-|[<-|[]]]]]; discriminate. }
  assert (Hd : declares_item is_adt ENV (ex_env_file, []) (struct_node 1 ENV, [ex_env_file])).
  { exists (ex_env_file, []), (struct_node 1 ENV). split; [reflexivity|]. split; [|left; auto]. exists [], [mod_node 2 3 (lit "c") []].
    split; [reflexivity|]. split; [split; reflexivity|]. intros y [<-|[]] [C _]. discriminate. }
  split; [apply (if_child ex_env_file (ex_env_file, [])); [constructor | right; left; reflexivity]|].
  split; [intros l tp sp Hl E; destruct (HI l _ _ Hl E)|]. split; [intros l tp sp Hl E; destruct (HI l _ _ Hl E)|].
  split.
  { split; [ident|]. split; [reflexivity|]. split; [|left; auto]. intros l Hl Ha Hn. apply HF in Hl. vm_compute in Hl.
    destruct Hl as [<-|[<-|[<-|[<-|[]]]]]; try discriminate. reflexivity. }
  split; [vm_compute; reflexivity|]. split; [apply ni_crate; exact Hd|].
  split; [intros (l & tp & sp & n & Hl & E & _); destruct (HI l _ _ Hl E)|]. split; vm_compute; reflexivity.
Qed.
Example C86_fix_example : in_file two_types_file (nth 5 (descendants_at (two_types_file, [])) (two_types_file, []))
  /\ last_word [name_seg ENV] ENV /\ named_impls two_types_file.
Proof.
  assert (HF : forall l, in_file two_types_file l <-> In l (descendants_at (two_types_file, []))) by (intros l; symmetry; apply descendants_in_file).
  split; [apply HF; apply nth_In; vm_compute; repeat constructor|]. split; [exists [], (name_seg ENV); auto|].
  intros l tp sp Hl E. apply HF in Hl. vm_compute in Hl. repeat (destruct Hl as [<-|Hl]; [try discriminate E; try (injection E as <- <-; exists ENV, [], (name_seg ENV); split; reflexivity)|]). destruct Hl.
Qed.
Example C86_default_example : denotes (ex_module, []) [lit "ink"; lit "ink_env"] [lit "i"; lit "env"; lit "DefaultEnvironment"] [lit "ink"; lit "env"; lit "DefaultEnvironment"].
Proof.
  refine (de_alias _ _ [lit "ink"] (lit "i") [lit "env"; lit "DefaultEnvironment"] _).
  eapply in_use; [left; reflexivity | reflexivity|]. apply (im_path [] (ex_ps [lit "ink"])). discriminate.
Qed.
Example C86_self_example :
  let p := SrcPath [lit "Self"; lit "ErrorCode"; lit "X"] 7 in
  path_nodes p = [(lit "Self::ErrorCode::X", (7, 25)); (lit "Self::ErrorCode", (7, 22)); (lit "Self", (7, 11))]
  /\ map ad_range (self_usages None (path_nodes p)) = [(7, 22)].
Proof. split; reflexivity. Qed.

Print Assumptions C86_environment_impl.
Print Assumptions C86_error_code_impl.
Print Assumptions C86_fix_accepted.
Print Assumptions C86_error_code_fix_accepted.
Print Assumptions C86_resolved.
Print Assumptions C86_error_code_resolved.
Print Assumptions C86_default_environment.
Print Assumptions C86_types.
Print Assumptions C86_candidate.
Print Assumptions C86_suggestion_partial.
Print Assumptions C86_error_code_suggestion_partial.
Print Assumptions C86_self_error_code.
Print Assumptions C86_one_report.
Print Assumptions C86_suggestion_refuted.
Print Assumptions C86_other_type_refuted.
Print Assumptions C86_unit_error_code_refuted.
Print Assumptions C86_line_break_refuted.
