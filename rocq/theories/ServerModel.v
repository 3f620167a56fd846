(** Model of the server loop: crates/lsp-server/src/memory.rs, dispatch.rs, dispatch/routers/*.rs,
    dispatch/actions.rs, dispatch/handlers/{request,notification}.rs, and of [Connection::handle_shutdown] of the
    external crate lsp-server. Error texts of error responses are not modelled; sending never fails. *)
From Verif Require Import Base Unicode PositionModel TranslateModel VersionModel CommandModel.

(** lsp-server [RequestId] *)
Inductive req_id := IdNum (z : Z) | IdStr (s : str).

(** lsp-server [Message] *)
Record request := Request { rq_id : req_id; rq_method : str; rq_params : json }.
Record notification := Notification { nt_method : str; nt_params : json }.
Inductive message := MReq (r : request) | MNot (n : notification) | MResp (id : req_id).

(** [serde] decoding of parameters: a document URI and what else the handlers use. External; [None] is a JSON error.
    [dc_work_done] is whether the work-done-progress members of [ExecuteCommandParams] decode, [dc_action] whether
    the value decodes as a [CodeAction]. *)
Record decoders := Decoders {
  dc_completion : json -> option (uri * position);
  dc_hover : json -> option (uri * position);
  dc_code_action : json -> option (uri * lrange);
  dc_action : json -> bool;
  dc_inlay : json -> option (uri * lrange);
  dc_signature : json -> option (uri * position * option (option nat * list str));
  dc_work_done : json -> bool;
  dc_open : json -> option (uri * str * Z * str);     (* uri, language id, version, text *)
  dc_change : json -> option (uri * Z * list str);    (* uri, version, texts of the content changes *)
  dc_close : json -> option uri }.

(** The analyzer as the server uses it (crates/analyzer/src/analysis.rs); [Panic] because it looks up syntax at the
    offset it is given (crates/ir/src/tree/item_at_offset.rs L18-24, rowan's [token_at_offset] asserts that the
    offset is in the text), and because it asks for ranges of attribute arguments that may have none (crates/ir/src/meta.rs,
    see C61). *)
Record analyzer := Analyzer {
  an_completions : str -> version -> nat -> outcome (list completion);
  an_hover : str -> version -> trange -> outcome (option hover);
  an_actions : str -> version -> trange -> outcome (list action);
  an_inlay : str -> version -> trange -> outcome (list inlay_hint);
  an_signature : str -> version -> nat -> outcome (list signature);
  an_diagnostics : str -> version -> outcome (list diagnostic);
  an_migrate : str -> version -> list text_edit;
  an_extract : str -> version -> trange -> outcome (option extraction);
  an_new_project : str -> option (str * str) }.

(** [lsp_types::WorkspaceEdit] *)
Inductive wedit := WChanges (l : list (uri * list lsp_text_edit)) | WDocChanges (l : list doc_op).
(** Result of a request ([PNull]: JSON null). [PResolved] is the code action [action] with its edit replaced and its
    command removed. *)
Inductive payload :=
| PNull
| PCompletion (l : list lsp_completion)
| PHover (h : lsp_hover)
| PActions (l : list lsp_action)
| PResolved (action : json) (e : wedit)
| PInlay (l : list lsp_inlay)
| PSignature (s : lsp_signature_help)
| PCreate (r : create_resp)
| PMigrate (r : migrate_resp)
| PExtract (r : extract_resp).
Inductive reply := ROk (p : payload) | RErr (code : Z).
(** Messages sent by the server. *)
Inductive output :=
| OResp (id : req_id) (r : reply)
| OApplyEdit (id : str) (label : str) (e : wedit)
| OShowDocument (id : str) (u : uri) (take_focus : bool)
| ODiagnostics (u : uri) (ds : list lsp_diagnostic) (version : option Z).

(** lsp-server [ErrorCode] *)
Definition METHOD_NOT_FOUND : Z := (-32601)%Z.
Definition INVALID_PARAMS : Z := (-32602)%Z.
Definition INTERNAL_ERROR : Z := (-32603)%Z.

(** [lsp_types] method names *)
Definition M_COMPLETION : str := lit "textDocument/completion".
Definition M_HOVER : str := lit "textDocument/hover".
Definition M_CODE_ACTION : str := lit "textDocument/codeAction".
Definition M_RESOLVE : str := lit "codeAction/resolve".
Definition M_INLAY : str := lit "textDocument/inlayHint".
Definition M_SIGNATURE : str := lit "textDocument/signatureHelp".
Definition M_EXECUTE : str := lit "workspace/executeCommand".
Definition M_OPEN : str := lit "textDocument/didOpen".
Definition M_CHANGE : str := lit "textDocument/didChange".
Definition M_CLOSE : str := lit "textDocument/didClose".
Definition M_EXIT : str := lit "exit".
Definition M_SHUTDOWN : str := lit "shutdown".

(** memory.rs L4-18 [Memory]; [Document] as (content, version). *)
Record memory := Memory { me_docs : list (str * (str * Z)); me_changes : list str }.
Definition add_change (id : str) (l : list str) : list str := if existsb (str_eqb id) l then l else l ++ [id].
(** memory.rs L20-24 *)
Definition mem_insert (id content : str) (v : Z) (m : memory) : memory :=
  Memory (assoc_set id (content, v) (me_docs m)) (add_change id (me_changes m)).
(** memory.rs L31-42 *)
Definition mem_update (id content : str) (v : Z) (m : memory) : memory :=
  match assoc id (me_docs m) with
  | Some _ => Memory (assoc_set id (content, v) (me_docs m)) (add_change id (me_changes m))
  | None => m
  end.
(** memory.rs L45-50 *)
Definition mem_remove (id : str) (m : memory) : memory :=
  match assoc id (me_docs m) with
  | Some _ => Memory (assoc_del id (me_docs m)) (add_change id (me_changes m))
  | None => m
  end.

(** dispatch.rs L67-73 [Dispatcher] (its mutable part) *)
Record state := State { st_memory : memory; st_snapshots : snapshots; st_fuel : nat }.
Definition initial : state := State (Memory [] []) [] 0.

Definition INITIALIZE_PROJECT_ID_PREFIX : str := lit "initialize-project::".
Definition SHOW_DOCUMENT_ID_PREFIX : str := lit "show-document::".
Definition MIGRATE_PROJECT_ID_PREFIX : str := lit "migrate-project::".
Definition EXTRACT_EVENT_ID_PREFIX : str := lit "extract-event::".

Section Server.
  Variable D : decoders.
  Variable A : analyzer.
  Variable P : platform.
  Variable U : unicode.
  Variable dbg : char -> str.     (* [char::escape_debug] as in the [Debug] formatting of strings *)
  Variable caps : client_caps.

  Definition encoding : enc_kind := position_encoding (cc_encodings caps).

  (** handlers/request.rs L9-51 [handle_completion] *)
  Definition handle_completion (p : uri * position) (sn : snapshots) : hres payload :=
    match assoc (fst p) sn with
    | None => HOk PNull
    | Some s =>
        match from_lsp_offset (sn_context s) (snd p) with
        | None => HErr
        | Some off =>
            match an_completions A (sn_text s) (sn_lang s) off with
            | Panic => HPanic
            | Done l =>
                match filter_map (to_lsp_completion (sn_context s) (snippet_support caps)) l with
                | [] => HOk PNull
                | items => HOk (PCompletion items)
                end
            end
        end
    end.

  (** L54-83 [handle_hover] *)
  Definition handle_hover (p : uri * position) (sn : snapshots) : hres payload :=
    match assoc (fst p) sn with
    | None => HOk PNull
    | Some s =>
        match from_lsp_offset (sn_context s) (snd p) with
        | None => HErr
        | Some off =>
            match an_hover A (sn_text s) (sn_lang s) (off, off) with
            | Panic => HPanic
            | Done h =>
                match obind h (to_lsp_hover (sn_context s)) with
                | Some h' => HOk (PHover h')
                | None => HOk PNull
                end
            end
        end
    end.

  (** L86-121 [handle_code_action] *)
  Definition handle_code_action (p : uri * lrange) (sn : snapshots) : hres payload :=
    match assoc (fst p) sn with
    | None => HOk PNull
    | Some s =>
        match from_lsp_text_range (sn_context s) (snd p) with
        | None => HErr
        | Some r =>
            match an_actions A (sn_text s) (sn_lang s) r with
            | Panic => HPanic
            | Done l =>
                HOk (PActions (filter_map
                  (to_lsp_code_action (sn_context s) (fst p) (code_action_edit_resolve_support caps)) l))
            end
        end
    end.

  (** L183-212 [handle_inlay_hint] *)
  Definition handle_inlay_hint (p : uri * lrange) (sn : snapshots) : hres payload :=
    match assoc (fst p) sn with
    | None => HOk PNull
    | Some s =>
        match from_lsp_text_range (sn_context s) (snd p) with
        | None => HErr
        | Some r =>
            match an_inlay A (sn_text s) (sn_lang s) r with
            | Panic => HPanic
            | Done l => HOk (PInlay (filter_map (to_lsp_inlay_hint (sn_context s)) l))
            end
        end
    end.

  (** L215-246 [handle_signature_help] *)
  Definition handle_signature_help (p : uri * position * option (option nat * list str)) (sn : snapshots) : hres payload :=
    match assoc (fst (fst p)) sn with
    | None => HOk PNull
    | Some s =>
        match from_lsp_offset (sn_context s) (snd (fst p)) with
        | None => HErr
        | Some off =>
            match an_signature A (sn_text s) (sn_lang s) off with
            | Panic => HPanic
            | Done sigs =>
                match to_lsp_signature_help sigs (get_signature_support caps) (snd p) (sn_context s) with
                | Panic => HPanic
                | Done (Some h) => HOk (PSignature h)
                | Done None => HOk PNull
                end
            end
        end
    end.

  (** L317-331 [parse_range] on a JSON value *)
  Definition json_range (j : json) : outcome (option trange) :=
    let se := match obind (jget (lit "start") j) ju64, obind (jget (lit "end") j) ju64 with
              | Some s, Some e => Some (s, e)
              | _, _ => None
              end in
    match parse_range se with
    | Panic => Panic
    | Done None => Done None
    | Done (Some (s, e)) => Done (Some (N.to_nat s, N.to_nat e))
    end.
  (** L254-260, L143-147 [parse_uri] *)
  Definition json_uri (j : json) : option uri := obind (obind (jget (lit "uri") j) jstr) (pf_url_parse P).

  (** [parse_uri(..).zip(.. range ..)]: both are evaluated. *)
  Definition uri_and_range (j : json) : outcome (option (uri * trange)) :=
    match jget (lit "range") j with
    | None => Done None
    | Some rj =>
        match json_range rj with
        | Panic => Panic
        | Done r => match json_uri j, r with Some u, Some r => Done (Some (u, r)) | _, _ => Done None end
        end
    end.

  Definition migrate_project (f : fsys) (sn : snapshots) (u : uri) : hres migrate_resp :=
    handle_migrate_project P (an_migrate A) f sn encoding u.
  Definition extract_event (f : fsys) (sn : snapshots) (u : uri) (r : trange) : hres extract_resp :=
    handle_extract_event P U (an_extract A) f sn encoding u r.

  (** L124-180 [handle_code_action_resolve]; the decoded [data] member is absent when it is JSON null. *)
  Definition handle_resolve (f : fsys) (action : json) (sn : snapshots) : hres payload :=
    match jget (lit "data") action with
    | None => HErr
    | Some data =>
        match obind (jget (lit "command") data) jstr with
        | None => HErr
        | Some cmd =>
            if str_eqb cmd COMMAND_MIGRATE_PROJECT then
              match json_uri data with
              | None => HErr
              | Some u =>
                  match migrate_project f sn u with
                  | HOk r => HOk (PResolved action (WChanges (mr_edits r)))
                  | HErr => HErr
                  | HPanic => HPanic
                  end
              end
            else if str_eqb cmd COMMAND_EXTRACT_EVENT then
              match uri_and_range data with
              | Panic => HPanic
              | Done None => HErr
              | Done (Some (u, r)) =>
                  match extract_event f sn u r with
                  | HOk e => HOk (PResolved action (WDocChanges (extract_changes e)))
                  | HErr => HErr
                  | HPanic => HPanic
                  end
              end
            else HErr
        end
    end.

  (** [ExecuteCommandParams]: "command" is a required string, "arguments" an array defaulting to empty. *)
  Definition dc_execute (j : json) : option (str * list json) :=
    match j with
    | JObj m =>
        match assoc (lit "command") m with
        | Some (JStr cmd) =>
            match assoc (lit "arguments") m with
            | None => if dc_work_done D j then Some (cmd, []) else None
            | Some (JArr l) => if dc_work_done D j then Some (cmd, l) else None
            | Some _ => None
            end
        | _ => None
        end
    | _ => None
    end.
  (** L249-315 [handle_execute_command] *)
  Definition slash_terminated (s : str) : str := if ends_with (lit "/") s then s else s ++ lit "/".
  Definition handle_execute_command (f : fsys) (p : str * list json) (sn : snapshots) : hres payload :=
    let arg := match snd p with x :: _ => Some x | [] => None end in
    if str_eqb (fst p) COMMAND_CREATE_PROJECT then
      match obind arg (fun a => obind (jget (lit "name") a) jstr),
            obind (obind arg (fun a => obind (jget (lit "root") a) jstr)) (fun s => pf_url_parse P (slash_terminated s)) with
      | Some name, Some root =>
          match handle_create_project P (an_new_project A) name root with
          | HOk r => HOk (PCreate r)
          | HErr => HErr
          | HPanic => HPanic
          end
      | _, _ => HErr
      end
    else if str_eqb (fst p) COMMAND_MIGRATE_PROJECT then
      match obind arg json_uri with
      | None => HErr
      | Some u =>
          match migrate_project f sn u with
          | HOk r => HOk (PMigrate r)
          | HErr => HErr
          | HPanic => HPanic
          end
      end
    else if str_eqb (fst p) COMMAND_EXTRACT_EVENT then
      match arg with
      | None => HErr
      | Some a =>
          match uri_and_range a with
          | Panic => HPanic
          | Done None => HErr
          | Done (Some (u, r)) =>
              match extract_event f sn u r with
              | HOk e => HOk (PExtract e)
              | HErr => HErr
              | HPanic => HPanic
              end
          end
      end
    else HErr.

  (** routers/request.rs. A route is a method with its decoder composed with its handler; [None]: JSON error. *)
  Definition route := (str * (json -> option (hres payload)))%type.
  Record router := Router { rt_req : option request; rt_resp : option (outcome (req_id * reply)) }.
  Definition to_reply (h : hres payload) : outcome reply :=
    match h with HOk p => Done (ROk p) | HErr => Done (RErr INTERNAL_ERROR) | HPanic => Panic end.
  (** L31-90 [process] *)
  Definition process (rt : router) (r : route) : router :=
    match rt_resp rt with
    | Some _ => rt
    | None =>
        match rt_req rt with
        | None => rt
        | Some q =>
            if str_eqb (rq_method q) (fst r) then
              match snd r (rq_params q) with
              | Some h => Router None (Some (match to_reply h with Done y => Done (rq_id q, y) | Panic => Panic end))
              | None => Router None (Some (Done (rq_id q, RErr INVALID_PARAMS)))
              end
            else rt
        end
    end.
  (** L94-105 [finish] *)
  Definition finish (rt : router) : option (outcome (req_id * reply)) :=
    match rt_resp rt with
    | Some r => Some r
    | None => match rt_req rt with Some q => Some (Done (rq_id q, RErr METHOD_NOT_FOUND)) | None => None end
    end.

  (** dispatch.rs L144-161: the chain of routes. *)
  Definition routes (f : fsys) (sn : snapshots) : list route :=
    [ (M_COMPLETION, fun j => option_map (fun p => handle_completion p sn) (dc_completion D j));
      (M_HOVER, fun j => option_map (fun p => handle_hover p sn) (dc_hover D j));
      (M_CODE_ACTION, fun j => option_map (fun p => handle_code_action p sn) (dc_code_action D j));
      (M_RESOLVE, fun j => if dc_action D j then Some (handle_resolve f j sn) else None);
      (M_INLAY, fun j => option_map (fun p => handle_inlay_hint p sn) (dc_inlay D j));
      (M_SIGNATURE, fun j => option_map (fun p => handle_signature_help p sn) (dc_signature D j));
      (M_EXECUTE, fun j => option_map (fun p => handle_execute_command f p sn) (dc_execute j)) ].
  Definition route_request (f : fsys) (sn : snapshots) (q : request) : option (outcome (req_id * reply)) :=
    finish (fold_left process (routes f sn) (Router (Some q) None)).

  (** dispatch.rs L310-410 [process_command_response] *)
  Definition command_edit (cmd : str) (r : reply) : option (str * str * wedit) :=
    if str_eqb cmd COMMAND_CREATE_PROJECT && can_create_workspace_resources caps then
      match r with
      | ROk (PCreate c) => Some (INITIALIZE_PROJECT_ID_PREFIX ++ cr_uri c, lit "New ink! project", WDocChanges (create_changes c))
      | _ => None
      end
    else if str_eqb cmd COMMAND_MIGRATE_PROJECT then
      match r with
      | ROk (PMigrate m) => Some (MIGRATE_PROJECT_ID_PREFIX ++ mr_uri m, lit "Migrate to ink! 5.0", WChanges (mr_edits m))
      | _ => None
      end
    else if str_eqb cmd COMMAND_EXTRACT_EVENT && can_create_workspace_resources caps then
      match r with
      | ROk (PExtract e) => Some (EXTRACT_EVENT_ID_PREFIX ++ er_uri e ++ er_name e,
                                  lit "Extract ink! event into standalone package", WDocChanges (extract_changes e))
      | _ => None
      end
    else None.
  Definition command_outputs (cmd : str) (id : req_id) (r : reply) : list output :=
    match command_edit cmd r with
    | Some (eid, label, e) => [OResp id (ROk PNull); OApplyEdit eid label e]
    | None => [OResp id r]
    end.

  (** dispatch.rs L297-307 and actions.rs L7-38 [publish_diagnostics] *)
  Definition diagnostics_of (s : snapshot) : outcome (list lsp_diagnostic) :=
    match an_diagnostics A (sn_text s) (sn_lang s) with
    | Panic => Panic
    | Done l => Done (filter_map (to_lsp_diagnostic (sn_context s)) l)
    end.
  Definition publish (u : uri) (sn : snapshots) : outcome output :=
    match assoc u sn with
    | Some s => match diagnostics_of s with Panic => Panic | Done l => Done (ODiagnostics u l (sn_doc_version s)) end
    | None => Done (ODiagnostics u [] None)
    end.

  (** dispatch.rs L249-281: one changed document. *)
  Definition check_version (f : fsys) (doc_uri : option uri) : version :=
    version_check U (parse_ink_project_version (pf_parse P) f (obind doc_uri (pf_to_path P))).
  Definition change_one (f : fsys) (docs : list (str * (str * Z))) (id : str) (sf : snapshots * nat)
    : outcome (snapshots * nat * list output) :=
    let doc_uri := match pf_url_parse P id with Some u => Some u | None => None end in
    let '(sn, fuel) := sf in
    let '(sn', fuel') :=
      match assoc id docs with
      | Some (content, v) =>
          let '(lang, fuel') :=
            match fuel with
            | S n => (check_version f doc_uri, n)
            | 0 => (match assoc id sn with Some s => sn_lang s | None => check_version f doc_uri end, 0)
            end in
          (assoc_set id (Snapshot content encoding (Some v) lang) sn, fuel')
      | None => (assoc_del id sn, fuel)
      end in
    match doc_uri with
    | Some u => match publish u sn' with Panic => Panic | Done o => Done (sn', fuel', [o]) end
    | None => Done (sn', fuel', [])
    end.
  Fixpoint change_all (f : fsys) (docs : list (str * (str * Z))) (ids : list str) (sf : snapshots * nat)
    : outcome (snapshots * nat * list output) :=
    match ids with
    | [] => Done (sf, [])
    | id :: ids' =>
        match change_one f docs id sf with
        | Panic => Panic
        | Done (sf', o) => match change_all f docs ids' sf' with Panic => Panic | Done (sf'', o') => Done (sf'', o ++ o') end
        end
    end.
  (** dispatch.rs L242-294 [process_changes]; the iteration order of the change set is that of the list. *)
  Definition process_changes (f : fsys) (st : state) : outcome (state * list output) :=
    let m := st_memory st in
    match change_all f (me_docs m) (me_changes m) (st_snapshots st, st_fuel st) with
    | Panic => Panic
    | Done (sn, fuel, o) => Done (State (Memory (me_docs m) []) sn fuel, o)
    end.

  (** What happens to the server on one message. *)
  Inductive step_result :=
  | SNext (st : state) (o : list output)   (* the loop goes on *)
  | SErr (o : list output)                 (* the loop ends with an error *)
  | SPanic.                                (* the process panics; what it has sent for this message is left out *)

  (** dispatch.rs L124-142 *)
  Definition command_of (q : request) : option str :=
    if str_eqb (rq_method q) M_EXECUTE then obind (jget (lit "command") (rq_params q)) jstr else None.
  Definition is_migration_resolve (q : request) : bool :=
    str_eqb (rq_method q) M_RESOLVE
    && match obind (obind (jget (lit "data") (rq_params q)) (jget (lit "command"))) jstr with
       | Some c => str_eqb c COMMAND_MIGRATE_PROJECT
       | None => false
       end.
  Definition is_migration (q : request) : bool :=
    is_migration_resolve q || match command_of q with Some c => str_eqb c COMMAND_MIGRATE_PROJECT | None => false end.
  (** dispatch.rs L122-184 [handle_request] *)
  Definition handle_request (f : fsys) (q : request) (st : state) : step_result :=
    match
      match route_request f (st_snapshots st) q with
      | None => Done []
      | Some Panic => Panic
      | Some (Done (id, r)) =>
          Done (match command_of q with
                | Some cmd => command_outputs cmd id r
                | None => [OResp id r]
                end)
      end
    with
    | Panic => SPanic
    | Done o =>
        match process_changes f st with
        | Panic => SPanic
        | Done (st', o') => SNext (if is_migration q then State (st_memory st') (st_snapshots st') 2 else st') (o ++ o')
        end
    end.

  (** handlers/notification.rs L10-54 *)
  Definition handle_did_open (p : uri * str * Z * str) (m : memory) : memory :=
    let '(u, lang, v, text) := p in
    if str_eqb lang (lit "rust") then mem_insert u text v m else m.
  Definition handle_did_change (p : uri * Z * list str) (m : memory) : memory :=
    let '(u, v, texts) := p in
    match last_opt texts with
    | Some text => mem_update u text v m
    | None => m
    end.
  Definition handle_did_close (u : uri) (m : memory) : memory := mem_remove u m.

  (** routers/notification.rs: [None] in the result: the JSON error that ends the loop; the [bool] of the router state
      is whether the notification is still to be handled. *)
  Definition nroute := (str * (json -> option (memory -> memory)))%type.
  Definition nprocess (n : notification) (st : option (bool * memory)) (r : nroute) : option (bool * memory) :=
    match st with
    | Some (true, m) =>
        if str_eqb (nt_method n) (fst r) then
          match snd r (nt_params n) with
          | Some g => Some (false, g m)
          | None => None
          end
        else st
    | _ => st
    end.
  Definition nroutes : list nroute :=
    [ (M_OPEN, fun j => option_map handle_did_open (dc_open D j));
      (M_CHANGE, fun j => option_map handle_did_change (dc_change D j));
      (M_CLOSE, fun j => option_map handle_did_close (dc_close D j)) ].
  (** dispatch.rs L187-206 [handle_notification] *)
  Definition handle_notification (f : fsys) (n : notification) (st : state) : step_result :=
    match fold_left (nprocess n) nroutes (Some (true, st_memory st)) with
    | None => SErr []
    | Some (_, m) =>
        match process_changes f (State m (st_snapshots st) (st_fuel st)) with Panic => SPanic | Done (st', o) => SNext st' o end
    end.

  (** utils.rs L115-120 [request_id_as_str]: [Display] of a number has no quotes, that of a string is its [Debug]
      form, whose quotes are stripped. *)
  Definition request_id_as_str (id : req_id) : option str :=
    match id with IdNum _ => None | IdStr s => Some (flat_map dbg s) end.
  (** dispatch.rs L209-239 [handle_response] *)
  Definition handle_response (id : req_id) (st : state) : step_result :=
    SNext st
      match obind (obind (obind (request_id_as_str id) (strip_prefix INITIALIZE_PROJECT_ID_PREFIX)) (pf_url_parse P))
                  (fun root => pf_join P root (lit "lib.rs")) with
      | Some lib => [OShowDocument (SHOW_DOCUMENT_ID_PREFIX ++ lib) lib true]
      | None => []
      end.

  (** How a run of the loop ends, if it has. *)
  Inductive status := Open (st : state) | EndedOk | EndedErr | Crashed.

  (** dispatch.rs L27-63 [main_loop], with [Connection::handle_shutdown]: after a shutdown request the next message
      must be the exit notification (a time-out counts as no message: the run is [EndedErr] once the list ends). Each
      message comes with the file system as it is while the message is processed. The outputs are grouped by message. *)
  Fixpoint main_loop (msgs : list (fsys * message)) (st : state) : status * list (list output) :=
    match msgs with
    | [] => (Open st, [])
    | (f, MReq q) :: rest =>
        if str_eqb (rq_method q) M_SHUTDOWN then
          (match rest with
           | (_, MNot n) :: _ => if str_eqb (nt_method n) M_EXIT then EndedOk else EndedErr
           | _ => EndedErr
           end, [[OResp (rq_id q) (ROk PNull)]])
        else
          match handle_request f q st with
          | SNext st' o => let '(s, os) := main_loop rest st' in (s, o :: os)
          | SErr o => (EndedErr, [o])
          | SPanic => (Crashed, [])
          end
    | (f, MNot n) :: rest =>
        if str_eqb (nt_method n) M_EXIT then (EndedOk, [[]])
        else
          match handle_notification f n st with
          | SNext st' o => let '(s, os) := main_loop rest st' in (s, o :: os)
          | SErr o => (EndedErr, [o])
          | SPanic => (Crashed, [])
          end
    | (f, MResp id) :: rest =>
        match handle_response id st with
        | SNext st' o => let '(s, os) := main_loop rest st' in (s, o :: os)
        | SErr o => (EndedErr, [o])
        | SPanic => (Crashed, [])
        end
    end.
End Server.
