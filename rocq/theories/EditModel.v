(** Model of crates/analyzer/src/analysis/text_edit.rs (formatting of edits), crates/analyzer/src/analysis.rs
    (actions), analysis/actions.rs and analysis/diagnostics.rs (collecting results). *)
From Verif Require Import Base Unicode PositionModel TranslateModel SyntaxModel UtilModel.

(** text_edit.rs L23-66: constructors of edits *)
Definition edit_insert_snippet (text : str) (o : nat) (snippet : option str) : text_edit := TextEdit text (o, o) snippet.
Definition edit_insert (text : str) (o : nat) : text_edit := edit_insert_snippet text o None.
Definition edit_replace_snippet (text : str) (r : trange) (snippet : option str) : text_edit := TextEdit text r snippet.
Definition edit_replace (text : str) (r : trange) : text_edit := edit_replace_snippet text r None.
Definition edit_delete (r : trange) : text_edit := TextEdit [] r None.

(** A token of the file: its offset, kind, text, and for the closest enclosing AST item (if any, ir
    tree/ast_ext.rs L12-45 [parent_ast_item]) the element before that item ([prev_sibling_or_token]). *)
Record token := Token { tk_start : nat; tk_kind : skind; tk_text : str; tk_item : option (option elem) }.
Definition tk_end (t : token) : nat := tk_start t + bytes (tk_text t).

(** [ast::Item::can_cast]; kinds of items without a name in [skind] are given by [more]. *)
Definition is_item_kind (more : nat -> bool) (k : skind) : bool :=
  match k with
  | MODULE | STRUCT | ENUM | UNION | TRAIT | IMPL | FN => true
  | OTHER n => more n
  | _ => false
  end.
Section Tokens.
  Context (more : nat -> bool).
  (** All tokens of the tree [e] at offset [o], where [prev] is the element before it and [inner] the closest item. *)
  Fixpoint tokens_of (o : nat) (prev : option elem) (inner : option (option elem)) (e : elem) : list token :=
    match e with
    | Tok k t => [Token o k t inner]
    | Node k cs =>
        let inner' := if is_item_kind more k then Some prev else inner in
        (fix go (o : nat) (prev : option elem) (l : list elem) : list token :=
           match l with
           | [] => []
           | c :: l' => tokens_of o prev inner' c ++ go (o + len_of c) (Some c) l'
           end) o None cs
    end.
  Fixpoint tokens_of_list (o : nat) (prev : option elem) (inner : option (option elem)) (l : list elem) : list token :=
    match l with
    | [] => []
    | c :: l' => tokens_of o prev inner c ++ tokens_of_list (o + len_of c) (Some c) inner l'
    end.
End Tokens.

(** analysis/utils.rs L1962-1965 [starts_with_two_or_more_newlines]: the regular expression
    there (two or more groups of blanks, a line feed and blanks) matches iff the leading whitespace contains two
    line feeds. *)
Definition two_newlines (U : unicode) (s : str) : bool :=
  1 <? length (filter (N.eqb c_nl) (take_while_ch (u_whitespace U) s)).

Definition has_newline (s : str) : bool := mem_char c_nl s.
Definition nl : str := [c_nl].
Definition opt_str (o : option str) : str := match o with Some s => s | None => [] end.

(** text_edit.rs L78-94 [add_affixes] *)
Definition add_affixes (e : text_edit) (affixes : option str * option str) : text_edit :=
  let '(p, s) := affixes in
  TextEdit (opt_str p ++ te_text e ++ opt_str s) (te_range e)
           (option_map (fun sn => opt_str p ++ sn ++ opt_str s) (te_snippet e)).

(** text_edit.rs L97-116 [affix_edit_between_whitespace_or_file_boundaries] *)
Definition build_affix (U : unicode) (ws : str) : option str := if two_newlines U ws then None else Some nl.
Definition affix_between (U : unicode) (before after : option str) : option str * option str :=
  match before, after with
  | Some b, Some a =>
      if has_newline b && has_newline a then (build_affix U b, build_affix U a) else (None, None)
  | Some b, None => if has_newline b then (build_affix U b, None) else (None, None)
  | None, Some a => if has_newline a then (None, build_affix U a) else (None, None)
  | None, None => (None, None)
  end.

(** [str::split_at]: panics when the offset is not a character boundary. *)
Definition split_bytes (n : nat) (s : str) : outcome (str * str) :=
  match take_bytes n s with Some a => Done (a, skipn (length a) s) | None => Panic end.

(** text_edit.rs L119-149: edits strictly inside a whitespace token. A token that strictly contains
    the range is the covering element. *)
Definition covering_ws (toks : list token) (r : trange) : option token :=
  find (fun t => skind_eqb (tk_kind t) WHITESPACE && (tk_start t <? fst r) && (snd r <? tk_end t)) toks.
Definition inside_ws (U : unicode) (t : token) (e : text_edit) : outcome text_edit :=
  match te_text e with
  | [] => Done e
  | _ =>
      let '(s0, e0) := te_range e in
      match split_bytes (s0 - tk_start t) (tk_text t) with
      | Panic => Panic
      | Done (before, rest) =>
          if s0 =? e0 then Done (add_affixes e (affix_between U (Some before) (Some rest)))
          else
            match split_bytes (tk_end t - e0) (tk_text t) with
            | Panic => Panic
            | Done (_, after) => Done (add_affixes e (affix_between U (Some before) (Some after)))
            end
      end
  end.

(** text_edit.rs L152-177: tokens are never empty, so the token found from [token_at_offset] is the last one
    that ends at or before the range, or the first one that starts at or after it. *)
Definition token_before (toks : list token) (r : trange) : option token :=
  last_opt (filter (fun t => tk_end t <=? fst r) toks).
(** The token after the range and the one after that ([next_token]). *)
Fixpoint tokens_after (toks : list token) (r : trange) : list token :=
  match toks with
  | [] => []
  | t :: toks' => if snd r <=? tk_start t then t :: toks' else tokens_after toks' r
  end.

Definition ws_or_none (o : option token) : bool :=
  match o with None => true | Some t => skind_eqb (tk_kind t) WHITESPACE end.
Definition is_curly_r (o : option token) : bool :=
  match o with None => false | Some t => skind_eqb (tk_kind t) R_CURLY end.

(** text_edit.rs L179-198: deletes *)
Definition format_delete (before after next : option token) (e : text_edit) : text_edit :=
  match after with
  | Some t =>
      if ws_or_none before && skind_eqb (tk_kind t) WHITESPACE && negb (is_curly_r next)
      then TextEdit (te_text e) (fst (te_range e), tk_end t) (te_snippet e)
      else e
  | None => e
  end.
(** text_edit.rs L201-247 [affix_edit_after_whitespace_or_bof] *)
Definition affix_after_ws (U : unicode) (before after : option token) : option str * option str :=
  if ws_or_none before && ws_or_none after then
    affix_between U (option_map tk_text before) (option_map tk_text after)
  else if ws_or_none before then
    (None,
     match before with
     | None => Some nl
     | Some t =>
         if has_newline (tk_text t)
         then Some (nl ++ (if two_newlines U (tk_text t) then nl else []) ++ end_indenting U (tk_text t))
         else None
     end)
  else (None, None).
(** text_edit.rs L255-270, L299-318: the edit does not start with a line feed; no indentation if it starts
    with a space or tab. *)
Definition starts_char (c : char) (s : str) : bool := match s with x :: _ => N.eqb x c | [] => false end.
Definition starts_blank (s : str) : bool := starts_char c_space s || starts_char c_tab s.
(** text_edit.rs L248-322: inserts and replacements *)
Definition affixes_for (U : unicode) (before after : option token) (text : str) : option str * option str :=
  match before with
  | None => affix_after_ws U None after
  | Some t =>
      match tk_kind t with
      | WHITESPACE => affix_after_ws U before after
      | L_CURLY =>
          (if starts_char c_nl text then None
           else Some (nl ++ (if starts_blank text then []
                             else match tk_item t with Some prev => item_children_indenting U prev | None => [] end)),
           match after with
           | Some a =>
               if (negb (skind_eqb (tk_kind a) WHITESPACE) || negb (two_newlines U (tk_text a)))
                  && negb (ends_with (nl ++ nl) text)
               then Some (nl ++ (if starts_char c_nl (tk_text a) then [] else nl))
               else None
           | None => None
           end)
      | SEMICOLON | R_CURLY | COMMENT =>
          (if starts_char c_nl text then None
           else Some (nl ++ (if skind_eqb (tk_kind t) COMMENT then [] else nl)
                         ++ (if starts_blank text then []
                             else match tk_item t with Some prev => opt_str (item_indenting U prev) | None => [] end)),
           None)
      | _ => (None, None)
      end
  end.
(** text_edit.rs L76-327 [format_edit]; [covering_element] and [token_at_offset] panic for a range outside of
    the file. *)
Definition format_edit (U : unicode) (toks : list token) (len : nat) (e : text_edit) : outcome text_edit :=
  if len <? snd (te_range e) then Panic
  else
    match covering_ws toks (te_range e) with
    | Some t => inside_ws U t e
    | None =>
        let before := token_before toks (te_range e) in
        let rest := tokens_after toks (te_range e) in
        let after := hd_error rest in
        Done (match te_text e with
              | [] => format_delete before after (hd_error (tl rest)) e
              | _ => add_affixes e (affixes_for U before after (te_text e))
              end)
    end.
(** The same, for the file with syntax tree [e]. *)
Definition format_in (U : unicode) (more : nat -> bool) (e : elem) (ed : text_edit) : outcome text_edit :=
  format_edit U (tokens_of more 0 None None e) (len_of e) ed.
(** text_edit.rs L69-74 [format_edits] *)
Definition format_edits (U : unicode) (toks : list token) (len : nat) (es : list text_edit) : outcome (list text_edit) :=
  outcome_map (format_edit U toks len) es.

(** ** Collecting results *)

(** [TextEdit]: [PartialEq] *)
Definition range_eqb (a b : trange) : bool := (fst a =? fst b) && (snd a =? snd b).
Definition opt_str_eqb (a b : option str) : bool :=
  match a, b with Some x, Some y => str_eqb x y | None, None => true | _, _ => false end.
Definition edit_eqb (a b : text_edit) : bool :=
  str_eqb (te_text a) (te_text b) && range_eqb (te_range a) (te_range b) && opt_str_eqb (te_snippet a) (te_snippet b).
Fixpoint edits_eqb (a b : list text_edit) : bool :=
  match a, b with
  | [], [] => true
  | x :: a', y :: b' => edit_eqb x y && edits_eqb a' b'
  | _, _ => false
  end.
Definition severity_eqb (a b : severity) : bool :=
  match a, b with SevError, SevError | SevWarning, SevWarning => true | _, _ => false end.

Section Collect.
  (** Formatting of edits for the file at hand (panics are outside of this part). *)
  Context (fmt : text_edit -> text_edit).
  Definition fmt_action (a : action) : action := Action (ac_label a) (ac_kind a) (ac_range a) (map fmt (ac_edits a)).

  (** analysis/diagnostics.rs L77-84: the key diagnostics are deduplicated by. *)
  Definition diag_key (d : adiag) : trange * severity * option (list text_edit) :=
    (ad_range d, ad_severity d, option_map (flat_map ac_edits) (ad_fixes d)).
  Definition diag_key_eqb (a b : trange * severity * option (list text_edit)) : bool :=
    let '(ra, sa, ea) := a in
    let '(rb, sb, eb) := b in
    range_eqb ra rb && severity_eqb sa sb
    && match ea, eb with Some x, Some y => edits_eqb x y | None, None => true | _, _ => false end.
  (** analysis/diagnostics.rs L71-98 [diagnostics]; [raw] is what file::diagnostics collects. *)
  Definition diagnostics_of (raw : list adiag) : list adiag :=
    map (fun d => ADiag (ad_message d) (ad_range d) (ad_severity d) (option_map (map fmt_action) (ad_fixes d)))
        (unique_by diag_key_eqb diag_key raw).

  (** analysis/actions.rs L41-60 [actions]; [raw] is what item::actions and attr::actions collect. *)
  Definition generic_actions (raw : list action) : list action :=
    map fmt_action (unique_by edits_eqb ac_edits raw).

  (** [TextRange::contains_range] *)
  Definition contains_range (a b : trange) : bool := (fst a <=? fst b) && (snd b <=? snd a).
  (** analysis/actions.rs L154-161 [action_kind_sort_order] *)
  Definition action_order (a : action) : nat :=
    match ac_kind a with AkMigrate => 0 | AkQuickFix => 1 | AkRefactor => 2 | AkExtract => 3 end.
  (** analysis.rs L61-79 [Analysis::actions] *)
  Definition analysis_actions (diags : list adiag) (generic : list action) (range : trange) : list action :=
    stable_sort action_order
      (unique_by edits_eqb ac_edits
         (filter (fun a => contains_range range (ac_range a) || contains_range (ac_range a) range)
            (flat_map (fun d => match ad_fixes d with Some l => l | None => [] end) (diagnostics_of diags))
          ++ generic_actions generic)).
End Collect.
