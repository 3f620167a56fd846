(** Properties C40, C41, C42: removing and inserting attribute arguments. *)
From Verif Require Import Base BaseFacts PositionModel PositionProofs TranslateModel SyntaxModel AttrModel AttrSpec AttrProofs AttrProps EditSpec
  ArgEditModel ArgEditSpec ArgEditProofs.

(** The setting of all theorems: an ink! attribute [attr], read from the syntax [syn] whose argument list [body]
    stands in a file after the tokens [pre] and "(" and before ")" and the tokens [post]. *)

(** C40 (partial: for arguments written [name] or [name = value], not [name(...)]). Deleting the computed range
    of one of several arguments leaves a well-formed list of exactly the others. A trailing comma stays, and one
    is left only behind (see below). *)
Theorem C40_others_stay_partial : forall px syn attr pre body post cores b i c,
  attr_cast px syn = Some attr -> as_token_tree syn = Some (tree_at pre body) ->
  listed cores b body -> 2 <= length cores -> nth_error cores i = Some c -> plain_argument c ->
  exists a r body' b',
    nth_error (at_args attr) i = Some a
    /\ arg_removal_range (place_leaves 0 (file_tokens pre body post)) a (Some attr) = Done r
    /\ spliced (file_text pre body post) r [] (file_text pre body' post)
    /\ listed (without i cores) b' body'
    /\ (b' = b \/ (b' = true /\ S i = length cores /\ (exists e, In (Tok EQ e) c)
                   /\ exists b0 l, body = b0 ++ [l] /\ is_trivia (kind_of l) = true)).
Proof.
  intros px syn attr pre body post cores b i c Hc Ht H Hl Hi Hp. destruct (cast_args _ _ _ _ Hc Ht) as [Ha _].
  exact (removal_listed px pre body post cores b attr i c H Hl Hi Hp Ha).
Qed.
Print Assumptions C40_others_stay_partial.

(** C40. The only argument is removed together with the attribute; for [#[ink::macro(argument)]], with the list. *)
Theorem C40_only_argument : forall px syn attr pre body post c b,
  attr_cast px syn = Some attr -> as_token_tree syn = Some (tree_at pre body) ->
  listed [c] b body -> (b = true -> exists body0, body = body0 ++ [comma]) ->
  exists a, at_args attr = [a]
    /\ match at_kind attr with
       | AkArg _ => arg_removal_range (place_leaves 0 (file_tokens pre body post)) a (Some attr) = Done (as_range syn)
       | AkMacro _ => exists r, arg_removal_range (place_leaves 0 (file_tokens pre body post)) a (Some attr) = Done r
                        /\ spliced (file_text pre body post) r [] (ArgEditSpec.text pre ++ ArgEditSpec.text post)
       end.
Proof.
  intros px syn attr pre body post c b Hc Ht H Hb. destruct (cast_args _ _ _ _ Hc Ht) as [Ha Hs].
  assert (Hlen : length (at_args attr) = 1).
  { rewrite Ha. unfold parse_ink_args, tree_at. cbn [fst snd]. destruct b.
    - destruct (Hb eq_refl) as (body0 & ->). apply (listed_args_trailing px [c]), H.
    - apply (listed_args_length px [c]); [exact H|discriminate]. }
  destruct (at_args attr) as [|a [|? ?]] eqn:Ea; try discriminate. exists a. split; [reflexivity|].
  unfold arg_removal_range. rewrite Ea. cbn [length Nat.eqb]. rewrite Hs, Ht. destruct (at_kind attr).
  - eexists. split; [reflexivity|]. unfold file_text, file_tokens. rewrite !text_app, text_leaves.
    eexists _, _, _. split; [reflexivity|]. unfold tree_at, lstart, lend, len_of. cbn [fst snd option_map].
    split; [reflexivity|]. split; [apply bytes_app|reflexivity].
  - reflexivity.
Qed.
Print Assumptions C40_only_argument.

Definition word (s : string) : elem := Tok IDENT (lit s).
Definition ink_pre : list (skind * str) := [(POUND, lit "#"); (L_BRACK, lit "["); (IDENT, lit "ink")].
Definition ink_post : list (skind * str) := [(R_BRACK, lit "]"); (WHITESPACE, lit " "); (FN_KW, lit "fn")].
Definition ink_syntax (segments : list str) (body : list elem) : attr_syntax :=
  AttrSyntax segments (Some (tree_at ink_pre body)) (0, bytes (ArgEditSpec.text ink_pre) + len_of (paren_tree body) + 1).
Definition removal_of px segments body i : option (outcome trange) :=
  obind (attr_cast px (ink_syntax segments body)) (fun attr =>
  option_map (fun a => arg_removal_range (place_leaves 0 (file_tokens ink_pre body ink_post)) a (Some attr))
    (nth_error (at_args attr) i)).
Lemma word_argument s : lit s <> [] -> argument [word s].
Proof.
  intros H. split; [|split].
  - constructor; [|constructor]. split; [apply bal_tok; try discriminate; exact H | discriminate].
  - exists (word s), []. split; reflexivity.
  - exists [], (word s). split; reflexivity.
Qed.
Lemma word_plain s : plain_argument [word s].
Proof. exists IDENT, (lit s), []. split; [reflexivity|]. split; [left; reflexivity | left; reflexivity]. Qed.
(** [#[ink(message, payable)]]: removing either argument. *)
Definition two_words : list elem := [word "message"; comma; space; word "payable"].
Lemma two_words_listed : listed [[word "message"]; [word "payable"]] false two_words.
Proof.
  apply (listed_more [word "message"] [] [] [word "payable"] [] false [space; word "payable"]);
    [apply word_argument; discriminate | apply blank_nil | apply blank_nil |].
  apply (listed_last [word "payable"] [space] []); [apply word_argument; discriminate | apply blank_space | apply blank_nil].
Qed.
Example C40_example :
  listed [[word "message"]; [word "payable"]] false two_words
  /\ removal_of no_expr [lit "ink"] two_words 0 = Some (Done (6, 14))
  /\ removal_of no_expr [lit "ink"] two_words 1 = Some (Done (13, 22)).
Proof. split; [exact two_words_listed|]. split; vm_compute; reflexivity. Qed.

(** C40 is false for nested arguments: removing [backend(node)] from [#[ink_e2e::test(x, backend(node))]] keeps
    the closing parenthesis of the nested list. *)
Definition nested_body : list elem := [word "x"; comma; space; word "backend"; paren_tree [word "node"]].
Theorem C40_nested_refuted :
  listed [[word "x"]; [word "backend"; paren_tree [word "node"]]] false nested_body
  /\ exists r, removal_of no_expr [lit "ink_e2e"; lit "test"] nested_body 1 = Some (Done r)
       /\ spliced (file_text ink_pre nested_body ink_post) r [] (lit "#[ink(x))] fn").
Proof.
  split.
  - apply (listed_more [word "x"] [] [] [word "backend"; paren_tree [word "node"]] [] false [space; word "backend"; paren_tree [word "node"]]);
      [apply word_argument; discriminate | apply blank_nil | apply blank_nil |].
    apply (listed_last [word "backend"; paren_tree [word "node"]] [space] []); [|apply blank_space | apply blank_nil].
    split; [|split].
    + constructor; [split; [apply bal_tok; discriminate | discriminate]|]. constructor; [|constructor]. split; [|discriminate].
      apply (bal_tree (Tok L_PAREN (lit "(")) [word "node"] (Tok R_PAREN (lit ")"))); [|left; reflexivity].
      constructor; [apply bal_tok; discriminate|constructor].
    + eexists _, _. split; reflexivity.
    + exists [word "backend"], (paren_tree [word "node"]). split; reflexivity.
  - eexists. split; [vm_compute; reflexivity|].
    exists (lit "#[ink(x"), (lit ", backend(node"), (lit "))] fn"). repeat split.
Qed.
Print Assumptions C40_nested_refuted.

(** C40 is false for a last argument whose value is followed by white space: the comma before it stays. *)
Definition literal_parser : expr_parser := fun _ => Some (VELiteral INT_NUMBER (lit "1")).
Definition padded_body : list elem :=
  [word "message"; comma; space; word "selector"; space; Tok EQ (lit "="); space; Tok INT_NUMBER (lit "1"); space].
Theorem C40_padded_value_refuted :
  exists r, removal_of literal_parser [lit "ink"] padded_body 1 = Some (Done r)
    /\ spliced (file_text ink_pre padded_body ink_post) r [] (lit "#[ink(message, )] fn").
Proof.
  eexists. split; [vm_compute; reflexivity|].
  exists (lit "#[ink(message, "), (lit "selector = 1 "), (lit ")] fn"). repeat split.
Qed.
Print Assumptions C40_padded_value_refuted.
(** C40 is false for the only argument if the list ends in a comma and white space: an empty [#[ink( )]] stays. *)
Theorem C40_only_argument_refuted :
  listed [[word "message"]] true [word "message"; comma; space]
  /\ exists r, removal_of no_expr [lit "ink"] [word "message"; comma; space] 0 = Some (Done r)
       /\ spliced (file_text ink_pre [word "message"; comma; space] ink_post) r [] (lit "#[ink( )] fn").
Proof.
  split.
  - apply (listed_trailing [word "message"] [] [] [space]); [apply word_argument; discriminate | apply blank_nil | apply blank_nil | apply blank_space].
  - eexists. split; [vm_compute; reflexivity|]. exists (lit "#[ink("), (lit "message,"), (lit " )] fn"). repeat split.
Qed.
Print Assumptions C40_only_argument_refuted.

(** C41 (partial: the edits of the quick fix for conflicting arguments, unless the last two arguments are both
    conflicting and an earlier one is not). The edits never overlap. *)
Theorem C41_conflicting_arguments_partial : forall px syn attr pre body post cores bad,
  attr_cast px syn = Some attr -> as_token_tree syn = Some (tree_at pre body) ->
  listed cores false body -> 2 <= length cores -> Forall plain_argument cores ->
  (forall rest x y, at_args attr = rest ++ [x; y] -> bad x = true -> bad y = true -> Forall (fun a => bad a = true) rest) ->
  exists edits, remove_conflicting (place_leaves 0 (file_tokens pre body post)) attr bad = Done edits
    /\ ForallOrdPairs apart edits.
Proof.
  intros px syn attr pre body post cores bad Hc Ht H Hl Hp Hb. destruct (cast_args _ _ _ _ Hc Ht) as [Ha _].
  exact (conflicting_apart px pre body post cores attr bad H Hl Hp Ha Hb).
Qed.
Print Assumptions C41_conflicting_arguments_partial.

(** C41 (partial: the migration of one e2e test attribute, unless its last two arguments are both dropped). *)
Theorem C41_e2e_migration_partial : forall px syn attr pre body post cores,
  attr_cast px syn = Some attr -> as_token_tree syn = Some (tree_at pre body) ->
  listed cores false body -> 2 <= length cores -> Forall plain_argument cores ->
  (forall rest x y, at_args attr = rest ++ [x; y] ->
     ~ (In (ia_kind x) [AAdditionalContracts; AKeepAttr] /\ In (ia_kind y) [AAdditionalContracts; AKeepAttr] /\ ia_kind x <> ia_kind y)) ->
  exists edits, migrate_e2e_attribute (place_leaves 0 (file_tokens pre body post)) attr = Done edits
    /\ ForallOrdPairs apart edits.
Proof.
  intros px syn attr pre body post cores Hc Ht H Hl Hp Hb. destruct (cast_args _ _ _ _ Hc Ht) as [Ha _].
  exact (migrate_apart px pre body post cores attr H Hl Hp Ha Hb).
Qed.
Print Assumptions C41_e2e_migration_partial.

(** C41. The two edits of the quick fix that makes an argument the first one do not overlap, and together (last
    edit first, as editors apply them) they give the list with that argument moved to the front. *)
Theorem C41_make_first : forall px syn attr pre body post cores b rb i c0 cs ci new x,
  attr_cast px syn = Some attr -> as_token_tree syn = Some (tree_at pre body) ->
  listed cores b body -> cores = c0 :: cs -> 1 <= i -> nth_error cores i = Some ci ->
  plain_argument c0 -> plain_argument ci ->
  nth_error (at_args attr) i = Some x -> argument new -> texts_of new = meta_str x ->
  exists ins del mid body' b',
    make_first (place_leaves 0 (file_tokens pre body post)) attr rb x = Done [ins; del] /\ apart ins del
    /\ applied (file_text pre body post) del mid /\ applied mid ins (file_text pre body' post)
    /\ listed (new :: without i cores) b' body'.
Proof.
  intros px syn attr pre body post cores b rb i c0 cs ci new x Hc Ht H Hcs Hi Hn H0 Hp Hx Hnew Htext.
  destruct (cast_args _ _ _ _ Hc Ht) as [Ha Hs].
  refine (make_first_listed px pre body post cores b attr rb i c0 cs ci new x H Hcs Hi Hn H0 Hp Ha _ Hx Hnew Htext).
  rewrite Hs. exact Ht.
Qed.
Print Assumptions C41_make_first.
Definition edits_of {A} (f : list leaf -> ink_attr -> outcome A) (segments : list str) (body : list elem) : option (outcome A) :=
  option_map (f (place_leaves 0 (file_tokens ink_pre body ink_post))) (attr_cast no_expr (ink_syntax segments body)).
Definition edits_at {A} (f : list leaf -> ink_attr -> ink_arg -> outcome A) (i : nat) (segments : list str) (body : list elem)
  : option (outcome A) :=
  obind (attr_cast no_expr (ink_syntax segments body)) (fun attr =>
  option_map (f (place_leaves 0 (file_tokens ink_pre body ink_post)) attr) (nth_error (at_args attr) i)).
Example C41_make_first_example :
  edits_at (fun toks a x => make_first toks a None x) 1 [lit "ink"] [word "payable"; comma; space; word "message"]
  = Some (Done [TextEdit (lit "message, ") (6, 6) None; TextEdit [] (13, 22) None]).
Proof. vm_compute. reflexivity. Qed.

(** C41 is false when the last two arguments are removed: both edits contain the comma between them. *)
Definition three_words (a b c : string) : list elem := [word a; comma; space; word b; comma; space; word c].
Lemma three_words_listed a b c : lit a <> [] -> lit b <> [] -> lit c <> [] ->
  listed [[word a]; [word b]; [word c]] false (three_words a b c).
Proof.
  intros Ha Hb Hc.
  apply (listed_more [word a] [] [] [word b] [[word c]] false [space; word b; comma; space; word c]);
    [apply word_argument; assumption | apply blank_nil | apply blank_nil |].
  apply (listed_more [word b] [space] [] [word c] [] false [space; word c]);
    [apply word_argument; assumption | apply blank_space | apply blank_nil |].
  apply (listed_last [word c] [space] []); [apply word_argument; assumption | apply blank_space | apply blank_nil].
Qed.
Theorem C41_conflicting_arguments_refuted :
  exists edits x y,
    edits_of (fun toks a => remove_conflicting toks a (fun x => negb (arg_kind_eqb (ia_kind x) AEvent))) [lit "ink"]
      (three_words "event" "storage" "payable") = Some (Done edits)
    /\ edits = [x; y] /\ ~ apart x y.
Proof.
  eexists _, _, _. split; [vm_compute; reflexivity|]. split; [reflexivity|]. unfold apart. cbn [te_range fst snd]. lia.
Qed.
Print Assumptions C41_conflicting_arguments_refuted.
Theorem C41_e2e_migration_refuted :
  exists edits x y,
    edits_of migrate_e2e_attribute [lit "ink_e2e"; lit "test"] (three_words "environment" "additional_contracts" "keep_attr") = Some (Done edits)
    /\ edits = [x; y] /\ ~ apart x y.
Proof.
  eexists _, _, _. split; [vm_compute; reflexivity|]. split; [reflexivity|]. unfold apart. cbn [te_range fst snd]. lia.
Qed.
Print Assumptions C41_e2e_migration_refuted.
(** The hypotheses of the two partial theorems are met: with the kept argument last, the edits are apart. *)
Example C41_example :
  Forall plain_argument [[word "storage"]; [word "payable"]; [word "event"]]
  /\ edits_of (fun toks a => remove_conflicting toks a (fun x => negb (arg_kind_eqb (ia_kind x) AEvent))) [lit "ink"]
       (three_words "storage" "payable" "event") = Some (Done [TextEdit [] (6, 14) None; TextEdit [] (15, 23) None])
  /\ edits_of migrate_e2e_attribute [lit "ink_e2e"; lit "test"] (three_words "additional_contracts" "keep_attr" "environment")
     = Some (Done [TextEdit [] (6, 27) None; TextEdit [] (28, 38) None]).
Proof. split; [repeat constructor; apply word_plain|]. split; vm_compute; reflexivity. Qed.

(** C42. Inserting an argument of an entity ("primary"): it becomes the first of the list. *)
Theorem C42_primary_inserted_first : forall pre body post rb cores b new,
  listed cores b body -> argument new ->
  exists p body' b',
    arg_insert_place (place_leaves 0 (file_tokens pre body post)) (Some rb) (Some (tree_at pre body)) true = Some p
    /\ applied (file_text pre body post) (insert_edit p (texts_of new)) (file_text pre body' post)
    /\ listed (new :: cores) b' body' /\ (b' = b \/ cores = []).
Proof. intros pre body post rb cores b new H Hn. exact (insert_first pre body post rb cores b new H Hn). Qed.
Print Assumptions C42_primary_inserted_first.

(** C42 (partial: not after a trailing comma with white space, nor into an empty list with white space). Any
    other argument becomes the last of the list. *)
Theorem C42_inserted_last_partial : forall pre body post rb cores b new,
  listed cores b body -> argument new ->
  (b = true -> exists body0, body = body0 ++ [comma]) -> (cores = [] -> body = []) ->
  exists p body',
    arg_insert_place (place_leaves 0 (file_tokens pre body post)) (Some rb) (Some (tree_at pre body)) false = Some p
    /\ applied (file_text pre body post) (insert_edit p (texts_of new)) (file_text pre body' post)
    /\ listed (cores ++ [new]) false body'.
Proof. intros pre body post rb cores b new H Hn Hb Hc. exact (insert_last pre body post rb cores b new H Hn Hb Hc). Qed.
Print Assumptions C42_inserted_last_partial.

(** C42. An attribute without list gets one, before its closing bracket; an unclosed attribute is left alone. *)
Theorem C42_list_added : forall pre post toks tt primary new bracket,
  arg_insert_place toks None tt primary = None
  /\ exists p, arg_insert_place toks (Some (bytes (ArgEditSpec.text pre), bracket)) None primary = Some p
    /\ applied (ArgEditSpec.text (pre ++ bracket :: post)) (insert_edit p (texts_of new)) (file_text pre new (bracket :: post)).
Proof.
  intros pre post toks tt primary new bracket. split; [reflexivity|]. eexists. split; [reflexivity|]. unfold applied. cbn [insert_edit te_range te_text lf_start fst].
  exists (ArgEditSpec.text pre), [], (ArgEditSpec.text (bracket :: post)). rewrite file_text_eq, text_app. cbn [app fst snd].
  rewrite app_nil_r. split; [reflexivity|]. split; [reflexivity|]. split; [reflexivity|]. rewrite <- !app_assoc. reflexivity.
Qed.
Print Assumptions C42_list_added.

(** C42. Inserting in front of the first argument (written [name] or [name = value]). *)
Theorem C42_inserted_before_first : forall px syn attr pre body post c cores b rb new,
  attr_cast px syn = Some attr -> as_token_tree syn = Some (tree_at pre body) ->
  listed (c :: cores) b body -> plain_argument c -> argument new ->
  exists p body',
    first_arg_insert_place (at_args attr) rb (Some (tree_at pre body)) = Done (Some p)
    /\ applied (file_text pre body post) (insert_edit p (texts_of new)) (file_text pre body' post)
    /\ listed (new :: c :: cores) b body'.
Proof.
  intros px syn attr pre body post c cores b rb new Hc Ht H Hp Hn. destruct (cast_args _ _ _ _ Hc Ht) as [Ha _].
  exact (insert_before_first px pre body post (c :: cores) b attr rb c cores new H eq_refl Hp Ha Hn).
Qed.
Print Assumptions C42_inserted_before_first.

Definition bracket_at (body : list elem) : leaf := (bytes (ArgEditSpec.text ink_pre) + len_of (paren_tree body), (R_BRACK, lit "]")).
Definition insertion_of (body : list elem) (primary : bool) : option insertion :=
  arg_insert_place (place_leaves 0 (file_tokens ink_pre body ink_post)) (Some (bracket_at body)) (Some (tree_at ink_pre body)) primary.
Example C42_example :
  insertion_of two_words true = Some (6, (None, Some comma_sp))
  /\ insertion_of two_words false = Some (22, (Some comma_sp, None))
  /\ insertion_of [] true = Some (6, (None, None)) /\ insertion_of [] false = Some (6, (None, None))
  /\ insertion_of [word "message"; comma] false = Some (14, (None, None)).
Proof. repeat split. Qed.

(** C42 is false after a trailing comma with white space and for an empty list with white space: two commas, or a
    comma without an argument before it, are written. *)
Theorem C42_inserted_last_refuted :
  (exists p, insertion_of [word "message"; comma; space] false = Some p
     /\ applied (file_text ink_pre [word "message"; comma; space] ink_post) (insert_edit p (lit "payable"))
          (lit "#[ink(message, , payable)] fn"))
  /\ exists p, insertion_of [space] false = Some p
     /\ applied (file_text ink_pre [space] ink_post) (insert_edit p (lit "payable")) (lit "#[ink( , payable)] fn").
Proof.
  split; (eexists; split; [vm_compute; reflexivity|]).
  - exists (lit "#[ink(message, "), [], (lit ")] fn"). repeat split.
  - exists (lit "#[ink( "), [], (lit ")] fn"). repeat split.
Qed.
Print Assumptions C42_inserted_last_refuted.
