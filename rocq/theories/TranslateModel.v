(** Model of crates/lsp-server/src/translator/to_lsp.rs (everything but [position]/[range]/[offset], which
    are in [PositionModel]) and of the capability queries of crates/lsp-server/src/utils.rs. *)
From Verif Require Import Base PositionModel.

(** [serde_json::Value]; numbers are restricted to integers. *)
Inductive json :=
| JNull
| JBool (b : bool)
| JNum (z : Z)
| JStr (s : str)
| JArr (l : list json)
| JObj (m : list (str * json)).

Fixpoint assoc {A} (k : str) (m : list (str * A)) : option A :=
  match m with
  | [] => None
  | (k', v) :: m' => if str_eqb k k' then Some v else assoc k m'
  end.
(** [Map::insert]: overwrites, else adds. (Key order is irrelevant: [assoc] is the only observation.) *)
Fixpoint assoc_set {A} (k : str) (v : A) (m : list (str * A)) : list (str * A) :=
  match m with
  | [] => [(k, v)]
  | (k', v') :: m' => if str_eqb k k' then (k, v) :: m' else (k', v') :: assoc_set k v m'
  end.
(** [value.as_object().and_then(|o| o.get(key))] *)
Definition jget (k : str) (j : json) : option json :=
  match j with JObj m => assoc k m | _ => None end.
(** [Value::as_str] *)
Definition jstr (j : json) : option str := match j with JStr s => Some s | _ => None end.
(** [Value::as_u64] *)
Definition ju64 (j : json) : option N :=
  match j with
  | JNum z => if (0 <=? z)%Z && (z <? 2 ^ 64)%Z then Some (Z.to_N z) else None
  | _ => None
  end.

(** URLs are their normalised string form ([lsp_types::Url] round-trips through [to_string]). *)
Definition uri := str.
Definition trange := (nat * nat)%type.

(** crates/analyzer/src/analysis/text_edit.rs [TextEdit] *)
Record text_edit := TextEdit { te_text : str; te_range : trange; te_snippet : option str }.

(** crates/analyzer/src/analysis/completions.rs [Completion], [CompletionKind] *)
Inductive completion_kind := CkAttr | CkEnum | CkField | CkFn | CkMod | CkStruct | CkTrait.
Record completion := Completion {
  co_label : str; co_range : trange; co_edit : text_edit; co_detail : option str; co_kind : completion_kind }.

(** crates/analyzer/src/analysis/hover.rs [Hover] *)
Record hover := Hover { ho_range : trange; ho_content : str }.

(** crates/analyzer/src/analysis/actions.rs L138-161 [Action], [ActionKind] *)
Inductive action_kind := AkMigrate | AkQuickFix | AkRefactor | AkExtract.
Record action := Action { ac_label : str; ac_kind : action_kind; ac_range : trange; ac_edits : list text_edit }.

(** crates/analyzer/src/analysis/inlay_hints.rs [InlayHint] (the fields translated) *)
Record inlay_hint := InlayHint { ih_position : nat; ih_label : str; ih_detail : option str }.

(** crates/analyzer/src/analysis/diagnostics.rs [Diagnostic] (the fields translated) *)
Inductive severity := SevError | SevWarning.
Record diagnostic := Diagnostic { di_message : str; di_range : trange; di_severity : severity }.

(** crates/analyzer/src/analysis/signature_help.rs [SignatureHelp], [Parameter] *)
Record parameter := MkParam { pa_range : trange; pa_detail : option str }.
Record signature := Signature {
  sg_label : str; sg_range : trange; sg_parameters : list parameter;
  sg_active : option nat; sg_detail : option str }.

(** LSP types *)
Definition lrange := (position * position)%type.
Record lsp_text_edit := LspTextEdit { le_range : lrange; le_new_text : str }.
Record lsp_diagnostic := LspDiagnostic { ld_range : lrange; ld_message : str; ld_severity : nat }.
Record lsp_completion := LspCompletion {
  lc_label : str; lc_kind : nat; lc_detail : option str; lc_snippet_format : option bool;
  lc_edit : lsp_text_edit }.
Record lsp_hover := LspHover { lh_content : str; lh_range : option lrange }.
Record lsp_command := LspCommand { lcm_title : str; lcm_command : str; lcm_args : list json }.
Record lsp_action := LspAction {
  la_title : str; la_kind : str; la_edit : option (uri * list lsp_text_edit);
  la_data : option json; la_command : option lsp_command }.
Record lsp_inlay := LspInlay { li_position : position; li_label : str; li_tooltip : option str }.
Inductive param_label := LabelOffsets (s e : nat) | LabelSimple (s : str).
Record lsp_param := LspParam { lp_label : param_label; lp_doc : option str }.
Record lsp_signature := LspSignature {
  ls_label : str; ls_doc : option str; ls_params : option (list lsp_param); ls_active : option nat }.
Record lsp_signature_help := LspSignatureHelp {
  lsh_signatures : list lsp_signature; lsh_active_signature : option nat; lsh_active_parameter : option nat }.

(** utils.rs L9-11 *)
Definition COMMAND_CREATE_PROJECT : str := lit "createProject".
Definition COMMAND_MIGRATE_PROJECT : str := lit "migrateProject".
Definition COMMAND_EXTRACT_EVENT : str := lit "extractEvent".

(** [lsp_types::CodeActionKind] constants *)
Definition CAK_EMPTY : str := [].
Definition CAK_QUICKFIX : str := lit "quickfix".
Definition CAK_REFACTOR : str := lit "refactor".
Definition CAK_REFACTOR_REWRITE : str := lit "refactor.rewrite".
Definition CAK_REFACTOR_EXTRACT : str := lit "refactor.extract".

(** The client capabilities the server looks at; an absent optional level is flattened:
    [cc_action_kinds] is [text_document.code_action.code_action_literal_support.code_action_kind.value_set]
    ([None] when any level is absent), etc. *)
Record client_caps := ClientCaps {
  cc_encodings : option (list enc_kind);       (* general.position_encodings *)
  cc_action_kinds : option (list str);
  cc_snippet : option bool;                    (* completion_item.snippet_support *)
  cc_resolve_props : option (list str);        (* code_action.resolve_support.properties *)
  cc_active_param : option bool;               (* signature_information.active_parameter_support *)
  cc_label_offset : option bool;               (* parameter_information.label_offset_support *)
  cc_apply_edit : option bool;                 (* workspace.apply_edit *)
  cc_document_changes : option bool;           (* workspace.workspace_edit.document_changes *)
  cc_resource_ops : option (list str)          (* workspace.workspace_edit.resource_operations *)
}.
Definition or_false (o : option bool) : bool := match o with Some b => b | None => false end.

(** utils.rs L13-18 [SERVER_CODE_ACTION_KINDS] *)
Definition SERVER_CODE_ACTION_KINDS : list str := [CAK_EMPTY; CAK_QUICKFIX; CAK_REFACTOR; CAK_REFACTOR_REWRITE].

(** utils.rs L41-62 [code_actions_kinds] (hash-set intersection; the order is that of the server's list here) *)
Definition code_actions_kinds (c : client_caps) : option (list str) :=
  match cc_action_kinds c with
  | None => None
  | Some ks =>
      match filter (fun k => existsb (str_eqb k) ks) SERVER_CODE_ACTION_KINDS with
      | [] => None
      | l => Some l
      end
  end.
(** utils.rs L65-73 *)
Definition snippet_support (c : client_caps) : bool := or_false (cc_snippet c).
(** utils.rs L76-84 *)
Definition code_action_edit_resolve_support (c : client_caps) : bool :=
  match cc_resolve_props c with Some ps => existsb (str_eqb (lit "edit")) ps | None => false end.
(** utils.rs L87-113 [SignatureSupport], [signature_support] *)
Record signature_support := SignatureSupport { ss_active : bool; ss_offsets : bool }.
Definition get_signature_support (c : client_caps) : signature_support :=
  SignatureSupport (or_false (cc_active_param c)) (or_false (cc_label_offset c)).
(** utils.rs L125-137 [can_create_workspace_resources] *)
Definition can_create_workspace_resources (c : client_caps) : bool :=
  or_false (cc_apply_edit c)
  && (or_false (cc_document_changes c)
      && match cc_resource_ops c with Some ops => existsb (str_eqb (lit "create")) ops | None => false end).

(** to_lsp.rs L53-66 [diagnostic] (LSP severities: Error = 1, Warning = 2) *)
Definition to_lsp_diagnostic (ctx : pos_context) (d : diagnostic) : option lsp_diagnostic :=
  match to_lsp_range ctx (di_range d) with
  | Some r => Some (LspDiagnostic r (di_message d) (match di_severity d with SevError => 1 | SevWarning => 2 end))
  | None => None
  end.

(** to_lsp.rs L69-102 [completion] (LSP item kinds: FIELD = 5, ENUM = 13, FUNCTION = 3, MODULE = 9, STRUCT = 22, CLASS = 7) *)
Definition completion_item_kind (k : completion_kind) : nat :=
  match k with
  | CkAttr | CkField => 5
  | CkEnum => 13
  | CkFn => 3
  | CkMod => 9
  | CkStruct => 22
  | CkTrait => 7
  end.
Definition to_lsp_completion (ctx : pos_context) (snippets : bool) (c : completion) : option lsp_completion :=
  match to_lsp_range ctx (co_range c) with
  | None => None
  | Some r =>
      Some (LspCompletion (co_label c) (completion_item_kind (co_kind c)) (co_detail c)
        (if snippets then Some (is_some (te_snippet (co_edit c))) else None)
        (LspTextEdit r
           (match snippets, te_snippet (co_edit c) with
            | true, Some s => s
            | _, _ => te_text (co_edit c)
            end)))
  end.

(** to_lsp.rs L105-115 [hover] *)
Definition to_lsp_hover (ctx : pos_context) (h : hover) : option lsp_hover :=
  match to_lsp_range ctx (ho_range h) with
  | Some r => Some (LspHover (ho_content h) (Some r))
  | None => None
  end.

(** to_lsp.rs L118-219 [code_action] *)
Definition range_json (r : trange) : json :=
  JObj [(lit "start", JNum (Z.of_nat (fst r))); (lit "end", JNum (Z.of_nat (snd r)))].
Definition is_trigger (k : action_kind) : bool :=
  match k with AkMigrate | AkExtract => true | _ => false end.
Definition trigger_command (k : action_kind) : str :=
  match k with AkMigrate => COMMAND_MIGRATE_PROJECT | _ => COMMAND_EXTRACT_EVENT end.
Definition lsp_action_kind (k : action_kind) : str :=
  match k with
  | AkQuickFix => CAK_QUICKFIX
  | AkRefactor => CAK_REFACTOR_REWRITE
  | AkMigrate => CAK_REFACTOR_REWRITE
  | AkExtract => CAK_REFACTOR_EXTRACT
  end.
Definition snippets_map (l : list (str * str)) : list (str * json) :=
  fold_left (fun m p => assoc_set (fst p) (JStr (snd p)) m) l [].
(** L126-133: the translatable edits as (text, range, snippet) *)
Definition translated_edits (ctx : pos_context) (es : list text_edit) : list (str * lrange * option str) :=
  filter_map (fun e =>
    match to_lsp_range ctx (te_range e) with
    | Some r => Some (te_text e, r, te_snippet e)
    | None => None
    end) es.
(** L174-179: the (text, snippet) pairs *)
Definition snippet_pairs (edits : list (str * lrange * option str)) : list (str * str) :=
  filter_map (fun e => match snd e with Some s => Some (fst (fst e), s) | None => None end) edits.
Definition to_lsp_code_action (ctx : pos_context) (u : uri) (resolve : bool) (a : action) : option lsp_action :=
  let edits := translated_edits ctx (ac_edits a) in
  let trigger := is_trigger (ac_kind a) in
  if trigger || negb (match edits with [] => true | _ => false end) then
    Some (LspAction (ac_label a) (lsp_action_kind (ac_kind a))
      (if negb trigger && negb (match edits with [] => true | _ => false end)
       then Some (u, map (fun e => LspTextEdit (snd (fst e)) (fst (fst e))) edits)
       else None)
      (if trigger then
         (if resolve then
            Some (JObj [(lit "command", JStr (trigger_command (ac_kind a)));
                        (lit "uri", JStr u);
                        (lit "range", range_json (ac_range a))])
          else None)
       else
         match snippet_pairs edits with
         | [] => None
         | _ => Some (JObj [(lit "snippets", JObj (snippets_map (snippet_pairs edits)))])
         end)
      (if trigger then
         (if resolve then None
          else Some (LspCommand (ac_label a) (trigger_command (ac_kind a))
                 [JObj [(lit "uri", JStr u); (lit "range", range_json (ac_range a))]]))
       else None))
  else None.

(** to_lsp.rs L222-237 [inlay_hint] *)
Definition to_lsp_inlay_hint (ctx : pos_context) (h : inlay_hint) : option lsp_inlay :=
  match to_lsp_position ctx (ih_position h) with
  | Some p => Some (LspInlay p (lit ": " ++ ih_label h) (ih_detail h))
  | None => None
  end.

(** Sequencing of computations that may panic. *)
Fixpoint outcome_map {A B} (f : A -> outcome B) (l : list A) : outcome (list B) :=
  match l with
  | [] => Done []
  | x :: l' =>
      match f x with
      | Panic => Panic
      | Done y => match outcome_map f l' with Panic => Panic | Done ys => Done (y :: ys) end
      end
  end.

(** [&s[a..b]] on a string: panics unless both ends are character boundaries in order. *)
Definition slice (s : str) (a b : nat) : outcome str :=
  match take_bytes a s, take_bytes b s with
  | Some pa, Some pb => if a <=? b then Done (skipn (length pa) pb) else Panic
  | _, _ => Panic
  end.

(** [Iterator::enumerate().find(..)] *)
Fixpoint find_index {A} (p : A -> bool) (l : list A) : option (nat * A) :=
  match l with
  | [] => None
  | x :: l' => if p x then Some (0, x)
               else match find_index p l' with Some (i, y) => Some (S i, y) | None => None end
  end.

(** to_lsp.rs L263-338 [signature_help]. The previous signature help is given by its active signature
    index and the labels of its signatures. *)
Definition select_active (sigs : list signature) (prev : option (option nat * list str)) : option (nat * signature) :=
  let prev_label :=
    match prev with
    | Some (Some i, labels) => if 0 <? i then nth_error labels i else None
    | _ => None
    end in
  oor (match prev_label with
       | Some l => find_index (fun s => str_eqb (sg_label s) l) sigs
       | None => None
       end)
      (match sigs with s :: _ => Some (0, s) | [] => None end).

Definition to_lsp_param (sup : signature_support) (enc : enc_kind) (label : str) (p : parameter) : outcome lsp_param :=
  if ss_offsets sup then
    match to_lsp_offset enc label (fst (pa_range p)), to_lsp_offset enc label (snd (pa_range p)) with
    | Done s, Done e => Done (LspParam (LabelOffsets s e) (pa_detail p))
    | _, _ => Panic
    end
  else
    match slice label (fst (pa_range p)) (snd (pa_range p)) with
    | Done s => Done (LspParam (LabelSimple s) (pa_detail p))
    | Panic => Panic
    end.

Definition to_lsp_signature (sup : signature_support) (enc : enc_kind) (s : signature) : outcome lsp_signature :=
  match outcome_map (to_lsp_param sup enc (sg_label s)) (sg_parameters s) with
  | Panic => Panic
  | Done ps =>
      Done (LspSignature (sg_label s) (sg_detail s)
              (match sg_parameters s with [] => None | _ => Some ps end)
              (if ss_active sup then sg_active s else None))
  end.

Definition to_lsp_signature_help (sigs : list signature) (sup : signature_support)
    (prev : option (option nat * list str)) (ctx : pos_context) : outcome (option lsp_signature_help) :=
  let active := select_active sigs prev in
  match sigs with
  | [] => Done None
  | _ =>
      match outcome_map (to_lsp_signature sup (pc_encoding ctx)) sigs with
      | Panic => Panic
      | Done ls =>
          Done (Some (LspSignatureHelp ls
                  (match active with Some (i, _) => Some i | None => None end)
                  (match active with Some (_, s) => sg_active s | None => None end)))
      end
  end.

(** initialize.rs L44-116 [server_capabilities]: the parts that depend on the client. [Some kinds]: options with
    [resolve_provider = true]; [None]: [Simple(true)], i.e. no resolve provider announced. *)
Record server_caps := ServerCaps {
  sc_encoding : enc_kind;
  sc_full_sync : bool;
  sc_action_options : option (list str);
  sc_commands : list str }.
Definition server_capabilities (c : client_caps) : server_caps :=
  ServerCaps (position_encoding (cc_encodings c)) true (code_actions_kinds c)
    [COMMAND_CREATE_PROJECT; COMMAND_MIGRATE_PROJECT; COMMAND_EXTRACT_EVENT].
