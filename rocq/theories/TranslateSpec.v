(** Vocabulary for the statements about the translation to LSP types. *)
From Verif Require Import Base PositionModel PositionSpec TranslateModel.

(** The LSP edits of an action: the translatable edits, in order. *)
Definition lsp_edits (ctx : pos_context) (es : list text_edit) : list lsp_text_edit :=
  filter_map (fun e => match to_lsp_range ctx (te_range e) with
                       | Some r => Some (LspTextEdit r (te_text e)) | None => None end) es.

(** (text, snippet) of the translatable edits that have a snippet. *)
Definition edit_snippets (ctx : pos_context) (es : list text_edit) : list (str * str) :=
  filter_map (fun e => match to_lsp_range ctx (te_range e), te_snippet e with
                       | Some _, Some s => Some (te_text e, s) | _, _ => None end) es.

(** The user's choice: a previous active signature other than the first. *)
Definition user_selected (prev : option (option nat * list str)) (l : str) : Prop :=
  exists i labels, prev = Some (Some i, labels) /\ 0 < i /\ nth_error labels i = Some l.

(** Parameter labels. *)
Definition well_placed (label : str) (r : trange) (text : str) : Prop :=
  exists pre post, label = pre ++ text ++ post /\ r = (bytes pre, bytes pre + bytes text).

(** An edit whose range ends lie on character boundaries of the text. *)
Definition on_boundaries (t : str) (e : text_edit) : Prop :=
  (exists p, at_offset t p (fst (te_range e))) /\ (exists p, at_offset t p (snd (te_range e))).
