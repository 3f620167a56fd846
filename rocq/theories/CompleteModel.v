(** Model of crates/analyzer/src/analysis/completions.rs L472-942 [entity_completions]: which ink! entities are offered for the
    line of the cursor, and which part of the file a completion replaces. *)
From Coq Require Import List.
From Verif Require Import Base Unicode PositionModel VersionModel TranslateModel SyntaxModel AttrModel EditModel UtilModel ArgEditModel RuleModel EntityModel HintModel ExtractModel FocusModel.
Import ListNotations.

Definition RECORD_FIELDS := [RECORD_FIELD; RECORD_FIELD_LIST].
Definition lf_text (t : leaf) : str := snd (snd t).
Definition is_nil {A} (l : list A) : bool := match l with [] => true | _ => false end.
(** The token of a path as a token of the file *)
Definition leaf_of (e : lelem) : leaf := (lstart e, (lkind e, text_of (snd e))).

(** ** The line *)

(** L505-506 [is_inline_token] *)
Definition inline (t : leaf) : bool := negb (is_trivia (lf_kind t)) || negb (mem_char c_nl (lf_text t)).
(** [std::iter::successors] with a filter on the tokens reached by repeating the step *)
Fixpoint while_inline (l : list leaf) : list leaf :=
  match l with t :: l' => if inline t then t :: while_inline l' else [] | [] => [] end.
Definition solid_texts (l : list leaf) : list str := map lf_text (filter (fun t => negb (is_trivia (lf_kind t))) l).

(** What L500-559 find out: the range, the words before and after the token on its line, and the last token *)
Record line := Line { ln_start : nat; ln_end : nat; ln_before : list str; ln_after : list str; ln_last : option leaf }.
(** L507-522 [line_start], L523-539 [line_end] *)
Definition tokens_left (toks : list leaf) (f : leaf) : list leaf := while_inline (leaves_before toks f).
Definition tokens_right (toks : list leaf) (f : leaf) : list leaf := while_inline (leaves_after toks f).
Definition left_end (toks : list leaf) (f : leaf) : nat := lf_start (or_else (last_opt (tokens_left toks f)) f).
Definition right_end (toks : list leaf) (f : leaf) : nat := lf_end (or_else (last_opt (tokens_right toks f)) f).
(** L540-559 *)
Definition line_of (toks : list leaf) (f : leaf) (off : nat) : outcome line :=
  let left := tokens_left toks f in
  let right := tokens_right toks f in
  let whole := Line (left_end toks f) (right_end toks f) (solid_texts left) (solid_texts right) (last_opt right) in
  if skind_eqb (lf_kind f) WHITESPACE && mem_char c_nl (lf_text f) then
    obind_o (split_bytes (off - lf_start f) (lf_text f)) (fun ba =>
    Done (match mem_char c_nl (fst ba), mem_char c_nl (snd ba) with
          | true, true => Line off off [] [] None
          | true, false => Line off (right_end toks f) [] (solid_texts right) (last_opt right)
          | false, true => Line (left_end toks f) off (solid_texts left) [] None
          | false, false => whole
          end))
  else Done whole.

(** L560-587: the start without the indentation *)
Definition unindented_start (U : unicode) (root : elem) (start : nat) : outcome nat :=
  obind_o (tokens_at root start) (fun l =>
  match l with
  | [] => Done start
  | p :: _ =>
      let t := leaf_of (fst p) in
      let ws := if skind_eqb (lf_kind t) WHITESPACE then Some t else hd_error (leaves_before (file_toks root) t) in
      match ws with
      | Some w =>
          if skind_eqb (lf_kind w) WHITESPACE then
            if lf_end w <=? start then
              match end_indenting U (lf_text w) with [] => Done start | i => Done (lf_end w - bytes i) end
            else obind_o (split_bytes (start - lf_start w) (lf_text w)) (fun ba => Done (start - bytes (end_indenting U (fst ba))))
          else Done start
      | None => Done start
      end
  end).

(** ** What may be offered *)

(** [str::contains]: [pat] is part of [s] *)
Fixpoint contains_str (s pat : str) : bool :=
  starts_with pat s || match s with [] => false | _ :: s' => contains_str s' pat end.
(** L590-611 [is_line_affix_of] *)
Definition word_of (options : list str) (w : str) : bool := negb (is_nil w) && existsb (fun o => contains_str o w) options.
Definition is_line_affix_of (focused : str) (ln : line) (options : list str) : bool :=
  (is_nil focused && is_nil (ln_before ln) && is_nil (ln_after ln))
  || word_of options focused
  || existsb (word_of options) (ln_before ln ++ ln_after ln).

(** L613-621 [is_next_node_error]; the token's parent is looked up by the token's start. *)
Definition parent_kind (root : elem) (t : leaf) : option skind :=
  match find (fun p : path => is_tok (snd (fst p)) && (lstart (fst p) =? lf_start t)) (paths [] 0 root) with
  | Some (_, p :: _) => Some (lkind p)
  | _ => None
  end.
Definition next_is_error (root : elem) (f : leaf) : bool :=
  match closest_solid (leaves_after (file_toks root) f) with
  | Some t => match parent_kind root t with Some k => skind_eqb k ERROR | None => false end
  | None => false
  end.

(** What the completions depend on about the item around: casts and lookups of the entities (see TreeModel), here a parameter.
    L683-742: a module that is a contract (with a storage or not), or another one (with a [cfg] attribute for tests, for
    end-to-end tests); L743-753: an [impl] block (of a trait or not; an ink! [impl] or in a contract); L777-823: a trait by its
    cast; L824-831: a struct (an event or not). *)
Inductive around_item :=
  | IsContract (storage : bool) | IsModule (test e2e : bool) | IsImpl (of_trait ink : bool)
  | IsTraitDefinition | IsChainExtension (error_code : bool) | IsStruct (event : bool) | IsOther.
Inductive entity :=
  | EStorage | EEventV2 | EEvent | ETest | EE2ETest | EConstructor | EMessage | ETraitMessage | EErrorCode | EExtension | ETopic
  | EContract | ETraitDefinition | EChainExtension | ECombine | EStorageItem | EEnvironment.

(** L623-638 *)
Definition event_v2 (affix : list str -> bool) (v : version) : list entity :=
  match v with V5 => if affix [lit "struct"; lit "event"] then [EEventV2] else [] | V4 => [] end.
Definition offered (b : bool) (e : entity) : list entity := if b then [e] else [].
(** L680-842 *)
Definition offers_in (affix : list str -> bool) (error : bool) (v : version) (i : around_item) : list entity :=
  match i with
  | IsContract storage =>
      offered (negb storage && affix [lit "struct"; lit "storage"] && negb error) EStorage
      ++ event_v2 affix v
      ++ offered (affix [lit "struct"; lit "event"]) EEvent
  | IsModule test e2e =>
      offered (test && affix [lit "fn"; lit "test"]) ETest
      ++ offered (e2e && affix [lit "async"; lit "fn"; lit "test"; lit "e2e"]) EE2ETest
  | IsImpl of_trait ink =>
      if of_trait || negb ink then []
      else offered (affix [lit "fn"; lit "constructor"; lit "new"]) EConstructor ++ offered (affix [lit "fn"; lit "message"]) EMessage
  | IsTraitDefinition => offered (affix [lit "fn"; lit "message"]) ETraitMessage
  | IsChainExtension code =>
      offered (negb code && affix [lit "type"; lit "error"; lit "code"; lit "ErrorCode"]) EErrorCode
      ++ offered (affix [lit "fn"; lit "extension"; lit "function"]) EExtension
  | IsStruct event => offered event ETopic
  | IsOther => []
  end.
(** L843-941 *)
Definition offers_at_root (affix : list str -> bool) (error : bool) (v : version) (contracts : bool) : list entity :=
  offered (negb contracts && affix [lit "mod"; lit "contract"] && negb error) EContract
  ++ event_v2 affix v
  ++ offered (affix [lit "trait"; lit "definition"; lit "trait_definition"]) ETraitDefinition
  ++ offered (affix [lit "trait"; lit "chain"; lit "extension"; lit "chain_extension"]) EChainExtension
  ++ offered (match v with V5 => affix [lit "ink"; lit "combine"; lit "extensions"; lit "combine_extensions"] | V4 => false end) ECombine
  ++ offered (affix [lit "struct"; lit "enum"; lit "storage"; lit "item"; lit "storage_item"]) EStorageItem
  ++ offered (affix [lit "struct"; lit "enum"; lit "environment"; lit "derive"; lit "scale"; lit "scale_derive"; lit "scale_info";
                     lit "encode"; lit "decode"; lit "type"; lit "info"; lit "type_info"]) EEnvironment.

(** L472-942 [entity_completions]: the entities, and the range each of them replaces; [facts] is what is known about the item
    around, [contracts] whether the file has a contract. *)
Section Completions.
Context (U : unicode) (facts : path -> around_item) (contracts : bool).
Definition entity_completions (root : elem) (off : nat) (v : version) : outcome (list (entity * trange)) :=
  obind_o (focused_token root off) (fun f =>
  match f with
  | None => Done []
  | Some p =>
      let f := leaf_of (fst p) in
      if skind_eqb (lf_kind f) COMMENT || is_some (closest is_attr (snd p)) then Done []
      else
        let focused := if is_trivia (lf_kind f) then [] else lf_text f in
        obind_o (line_of (file_toks root) f off) (fun ln =>
        obind_o (unindented_start U root (ln_start ln)) (fun start =>
        obind_o (mk_range start (ln_end ln)) (fun range =>
        let affix := is_line_affix_of focused ln in
        let field := existsb (fun a => existsb (skind_eqb (lkind a)) RECORD_FIELDS) (snd p) in
        let direct := field || (skind_eqb (lf_kind f) WHITESPACE && is_nil (ln_before ln) && is_nil (ln_after ln)) in
        obind_o (parent_at root (off, off)) (fun around =>
        let focused_item := if direct then None else around in
        let many_lines := match focused_item with Some i => lf_end (or_else (ln_last ln) f) <? lend (fst i) | None => false end in
        let error := next_is_error root f in
        if many_lines && negb error then Done []
        else
          let parent := if direct then around else obind focused_item parent_item in
          Done (map (fun e => (e, range))
                 (match parent with
                  | Some i => offers_in affix error v (facts i)
                  | None => offers_at_root affix error v contracts
                  end))))))
  end).
End Completions.
