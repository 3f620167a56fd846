(** Vocabulary for the statements about the server: what a client's messages say about a document, independently of the
    server's own bookkeeping. *)
From Verif Require Import Base Unicode PositionModel PositionSpec TranslateModel TranslateSpec VersionModel CommandModel ServerModel.

(** ** The client's view of a document *)
Inductive doc_event :=
| EvOpen (text : str) (v : Z)      (* didOpen with language "rust" *)
| EvChange (text : str) (v : Z)    (* didChange; [text] is the last of its content changes *)
| EvClose.
Definition event_of (D : decoders) (m : message) (u : uri) : option doc_event :=
  match m with
  | MNot n =>
      if str_eqb (nt_method n) (lit "textDocument/didOpen") then
        match dc_open D (nt_params n) with
        | Some (u', lang, v, text) => if str_eqb u u' && str_eqb lang (lit "rust") then Some (EvOpen text v) else None
        | None => None
        end
      else if str_eqb (nt_method n) (lit "textDocument/didChange") then
        match dc_change D (nt_params n) with
        | Some (u', v, texts) =>
            if str_eqb u u' then match rev texts with text :: _ => Some (EvChange text v) | [] => None end else None
        | None => None
        end
      else if str_eqb (nt_method n) (lit "textDocument/didClose") then
        match dc_close D (nt_params n) with
        | Some u' => if str_eqb u u' then Some EvClose else None
        | None => None
        end
      else None
  | _ => None
  end.

Definition history := list (fsys * message).
(** The client has the document open: it opened it and has not closed it since. *)
Definition is_open (D : decoders) (h : history) (u : uri) : Prop :=
  exists h1 f m h2 text v, h = h1 ++ (f, m) :: h2 /\ event_of D m u = Some (EvOpen text v)
    /\ forall f' m', In (f', m') h2 -> event_of D m' u <> Some EvClose.
(** The client's current text and version: those of the last event about the document, which is its opening or a
    change while it is open. *)
Definition client_holds (D : decoders) (h : history) (u : uri) (text : str) (v : Z) : Prop :=
  exists h1 f m h2, h = h1 ++ (f, m) :: h2
    /\ (forall f' m', In (f', m') h2 -> event_of D m' u = None)
    /\ (event_of D m u = Some (EvOpen text v) \/ (event_of D m u = Some (EvChange text v) /\ is_open D h1 u)).

(** ** Requests about a document *)
Inductive query :=
| QCompletion (p : position)
| QHover (p : position)
| QActions (r : lrange)
| QInlay (r : lrange)
| QSignature (p : position) (prev : option (option nat * list str)).
Definition query_of (D : decoders) (q : request) : option (uri * query) :=
  let is m := str_eqb (rq_method q) m in
  if is (lit "textDocument/completion") then option_map (fun x => (fst x, QCompletion (snd x))) (dc_completion D (rq_params q))
  else if is (lit "textDocument/hover") then option_map (fun x => (fst x, QHover (snd x))) (dc_hover D (rq_params q))
  else if is (lit "textDocument/codeAction") then option_map (fun x => (fst x, QActions (snd x))) (dc_code_action D (rq_params q))
  else if is (lit "textDocument/inlayHint") then option_map (fun x => (fst x, QInlay (snd x))) (dc_inlay D (rq_params q))
  else if is (lit "textDocument/signatureHelp") then
    option_map (fun x => (fst (fst x), QSignature (snd (fst x)) (snd x))) (dc_signature D (rq_params q))
  else None.

Definition or_null {B} (f : B -> payload) (o : option B) : payload := match o with Some b => f b | None => PNull end.
Definition non_empty {B} (l : list B) : option (list B) := match l with [] => None | _ => Some l end.
Definition bind_outcome {B C} (o : outcome B) (f : B -> outcome C) : outcome C :=
  match o with Done b => f b | Panic => Panic end.
(** The answer to a query about [text] analysed as ink! version [lang]: the analyzer's result at the position the client
    means, each item translated to the client's positions. A position on no line of the text is an internal error. *)
Definition answer (A : analyzer) (caps : client_caps) (u : uri) (text : str) (lang : version) (q : query) : outcome reply :=
  let ctx := new_context text (position_encoding (cc_encodings caps)) in
  let at_pos p (k : nat -> outcome reply) :=
    match from_lsp_offset ctx p with Some off => k off | None => Done (RErr (-32603)%Z) end in
  let at_range r (k : trange -> outcome reply) :=
    match from_lsp_text_range ctx r with Some r' => k r' | None => Done (RErr (-32603)%Z) end in
  match q with
  | QCompletion p => at_pos p (fun off => bind_outcome (an_completions A text lang off) (fun l =>
      Done (ROk (or_null PCompletion (non_empty (filter_map (to_lsp_completion ctx (snippet_support caps)) l))))))
  | QHover p => at_pos p (fun off => bind_outcome (an_hover A text lang (off, off)) (fun h =>
      Done (ROk (or_null PHover (obind h (to_lsp_hover ctx))))))
  | QActions r => at_range r (fun r' => bind_outcome (an_actions A text lang r') (fun l =>
      Done (ROk (PActions (filter_map (to_lsp_code_action ctx u (code_action_edit_resolve_support caps)) l)))))
  | QInlay r => at_range r (fun r' => bind_outcome (an_inlay A text lang r') (fun l =>
      Done (ROk (PInlay (filter_map (to_lsp_inlay_hint ctx) l)))))
  | QSignature p prev => at_pos p (fun off => bind_outcome (an_signature A text lang off) (fun sigs =>
      bind_outcome (to_lsp_signature_help sigs (get_signature_support caps) prev ctx) (fun h =>
      Done (ROk (or_null PSignature h)))))
  end.

(** ** Outputs *)
Definition resp_ids (o : list output) : list req_id :=
  flat_map (fun x => match x with OResp id _ => [id] | _ => [] end) o.
Definition req_ids (h : history) : list req_id :=
  flat_map (fun x => match snd x with MReq q => [rq_id q] | _ => [] end) h.
(** Diagnostics published for an analysed document carry its version; those that clear carry none. *)
Definition analyses (o : list output) : nat :=
  length (filter (fun x => match x with ODiagnostics _ _ (Some _) => true | _ => false end) o).
Definition diagnostics_outputs (o : list output) : list output :=
  filter (fun x => match x with ODiagnostics _ _ _ => true | _ => false end) o.
Definition is_response (x : output) : bool := match x with OResp _ _ => true | _ => false end.

(** A request to migrate the project: the command, or resolving a code action that carries it. *)
Definition migration_request (m : message) : Prop :=
  exists q, m = MReq q /\
    ((rq_method q = lit "workspace/executeCommand" /\ obind (jget (lit "command") (rq_params q)) jstr = Some (lit "migrateProject"))
     \/ (rq_method q = lit "codeAction/resolve"
         /\ obind (obind (jget (lit "data") (rq_params q)) (jget (lit "command"))) jstr = Some (lit "migrateProject"))).

(** The diagnostics of a text as the client receives them. *)
Definition client_diagnostics (A : analyzer) (caps : client_caps) (text : str) (lang : version) : outcome (list lsp_diagnostic) :=
  bind_outcome (an_diagnostics A text lang) (fun l => Done (filter_map (to_lsp_diagnostic (new_context text (position_encoding (cc_encodings caps)))) l)).

(** The ink! version the project of a document declares at the moment (given the files on disk). *)
Definition declared_version (P : platform) (U : unicode) (f : fsys) (u : uri) : version :=
  version_check U (parse_ink_project_version (pf_parse P) f (obind (pf_url_parse P u) (pf_to_path P))).

(** ** Assumptions about the external libraries *)
(** Decoded document URIs are normalised: printing and parsing gives them back. *)
Record decoders_ok (D : decoders) (P : platform) : Prop := DecodersOk {
  do_open : forall j u l v t, dc_open D j = Some (u, l, v, t) -> pf_url_parse P u = Some u;
  do_change : forall j u v ts, dc_change D j = Some (u, v, ts) -> pf_url_parse P u = Some u;
  do_close : forall j u, dc_close D j = Some u -> pf_url_parse P u = Some u }.
(** The analyzer fails on offsets behind the text (rowan's assertion); the parameters of a signature are slices of its label. *)
Record analyzer_ok (A : analyzer) : Prop := AnalyzerOk {
  ao_out : forall t lang off, bytes t < off ->
    an_completions A t lang off = Panic /\ an_signature A t lang off = Panic
    /\ an_hover A t lang (off, off) = Panic /\ an_actions A t lang (off, off) = Panic
    /\ an_extract A t lang (off, off) = Panic;
  ao_labels : forall t lang off sigs s p, an_signature A t lang off = Done sigs -> In s sigs -> In p (sg_parameters s) ->
    exists text, well_placed (sg_label s) (pa_range p) text }.
(** A text that the analyzer can deal with: it does not fail for it, as far as positions are in it and characters are not
    split. There are others (see C61, C43 and C106). *)
Record manageable (A : analyzer) (t : str) : Prop := Manageable {
  mg_in : forall lang pre off, at_offset t pre off ->
    an_completions A t lang off <> Panic /\ an_signature A t lang off <> Panic /\ an_hover A t lang (off, off) <> Panic;
  mg_range : forall lang p1 s p2 e, at_offset t p1 s -> at_offset t p2 e -> s <= e -> an_actions A t lang (s, e) <> Panic;
  mg_extract : forall lang s e, s < e \/ e <= bytes t -> an_extract A t lang (s, e) <> Panic;
  mg_inlay : forall lang r, an_inlay A t lang r <> Panic;
  mg_diagnostics : forall lang, an_diagnostics A t lang <> Panic }.

(** The ink! version a document is analysed as, if the server holds an analysis of it. *)
Definition lang_of (st : state) (u : uri) : option version := option_map sn_lang (assoc u (st_snapshots st)).

(** The requests the server supports, and whether the parameters of one decode. *)
Definition SUPPORTED : list str :=
  [lit "textDocument/completion"; lit "textDocument/hover"; lit "textDocument/codeAction"; lit "codeAction/resolve";
   lit "textDocument/inlayHint"; lit "textDocument/signatureHelp"; lit "workspace/executeCommand"].
Definition decodable (D : decoders) (q : request) : Prop :=
  (rq_method q = lit "textDocument/completion" -> dc_completion D (rq_params q) <> None)
  /\ (rq_method q = lit "textDocument/hover" -> dc_hover D (rq_params q) <> None)
  /\ (rq_method q = lit "textDocument/codeAction" -> dc_code_action D (rq_params q) <> None)
  /\ (rq_method q = lit "codeAction/resolve" -> dc_action D (rq_params q) = true)
  /\ (rq_method q = lit "textDocument/inlayHint" -> dc_inlay D (rq_params q) <> None)
  /\ (rq_method q = lit "textDocument/signatureHelp" -> dc_signature D (rq_params q) <> None)
  /\ (rq_method q = lit "workspace/executeCommand" -> dc_execute D (rq_params q) <> None).
(** A document notification with parameters that decode. *)
Definition decodable_notification (D : decoders) (n : notification) : Prop :=
  (nt_method n = lit "textDocument/didOpen" -> dc_open D (nt_params n) <> None)
  /\ (nt_method n = lit "textDocument/didChange" -> dc_change D (nt_params n) <> None)
  /\ (nt_method n = lit "textDocument/didClose" -> dc_close D (nt_params n) <> None).

(** ** Requests whose positions exist *)
Definition position_in (caps : client_caps) (text : str) (p : position) : Prop :=
  exists pre post, text = pre ++ post /\ p = spec_position (position_encoding (cc_encodings caps)) pre.
Definition query_in (caps : client_caps) (text : str) (q : query) : Prop :=
  match q with
  | QCompletion p | QHover p | QSignature p _ => position_in caps text p
  | QActions (p1, p2) => position_in caps text p1 /\ position_in caps text p2
  | QInlay _ => True
  end.
(** The argument of an event extraction: its range is ordered, fits in 32 bits, and if it is empty it lies in the text. *)
Definition arg_in (D : decoders) (P : platform) (h : history) (j : json) : Prop :=
  forall rj s e, jget (lit "range") j = Some rj -> obind (jget (lit "start") rj) ju64 = Some s -> obind (jget (lit "end") rj) ju64 = Some e ->
  (s <= e)%N /\ (e < 2 ^ 32)%N
  /\ forall u text v, json_uri P j = Some u -> client_holds D h u text v -> (s < e)%N \/ N.to_nat e <= bytes text.
Definition positions_exist (D : decoders) (P : platform) (caps : client_caps) (h : history) (q : request) : Prop :=
  (forall u qu text v, query_of D q = Some (u, qu) -> client_holds D h u text v -> query_in caps text qu)
  /\ (rq_method q = lit "codeAction/resolve" -> forall data, jget (lit "data") (rq_params q) = Some data -> arg_in D P h data)
  /\ (rq_method q = lit "workspace/executeCommand" ->
      forall cmd a l, dc_execute D (rq_params q) = Some (cmd, a :: l) -> arg_in D P h a).

(** ** Version re-detection *)
(** Since the last migration request of the history, fewer than two documents were (re-)analysed. *)
Definition recheck_due (h : history) (os : list (list output)) : Prop :=
  exists h1 f m h2 os1 o os2, h = h1 ++ (f, m) :: h2 /\ os = os1 ++ o :: os2 /\ length os1 = length h1
    /\ migration_request m /\ (forall f' m', In (f', m') h2 -> ~ migration_request m')
    /\ analyses (concat os2) < 2.

(** ** Commands *)
(** The client announced that it applies edits with document changes and can create files. *)
Definition announced_file_creation (c : client_caps) : Prop :=
  cc_apply_edit c = Some true /\ cc_document_changes c = Some true
  /\ exists ops, cc_resource_ops c = Some ops /\ In (lit "create") ops.
(** The edit request a command's result leads to: its id, its label and the edit. *)
Definition edit_request (creates : bool) (p : payload) : option (str * str * wedit) :=
  match p with
  | PCreate c => if creates
      then Some (lit "initialize-project::" ++ cr_uri c, lit "New ink! project", WDocChanges (create_changes c)) else None
  | PMigrate m => Some (lit "migrate-project::" ++ mr_uri m, lit "Migrate to ink! 5.0", WChanges (mr_edits m))
  | PExtract e => if creates
      then Some (lit "extract-event::" ++ er_uri e ++ er_name e, lit "Extract ink! event into standalone package",
                 WDocChanges (extract_changes e)) else None
  | _ => None
  end.
(** [char::escape_debug] leaves plain characters alone. *)
Definition plain (c : char) : Prop := (32 <= c)%N /\ (c < 127)%N /\ c <> 34%N /\ c <> 92%N.
Definition dbg_ok (dbg : char -> str) : Prop := forall c, plain c -> dbg c = [c].

(** ** The document store alone *)
(** What can be asked of it; histories are written latest first. *)
Inductive store_op := Put (id content : str) (v : Z) | Replace (id content : str) (v : Z) | Drop (id : str).
Definition op_on (o : store_op) : str := match o with Put id _ _ => id | Replace id _ _ => id | Drop id => id end.
(** What it holds under an identifier *)
Inductive stores : list store_op -> str -> str -> Z -> Prop :=
  | stores_put h id c v : stores (Put id c v :: h) id c v
  | stores_replace h id c v c' v' : stores h id c' v' -> stores (Replace id c v :: h) id c v
  | stores_other h o id c v : op_on o <> id -> stores h id c v -> stores (o :: h) id c v.
(** Something was done to the document: it was put there, or it was there. *)
Definition touches_doc (h : list store_op) (o : store_op) (id : str) : Prop :=
  op_on o = id /\ ((exists c v, o = Put id c v) \/ exists c v, stores h id c v).
Definition touched_doc (h : list store_op) (id : str) : Prop :=
  exists later o earlier, h = later ++ o :: earlier /\ touches_doc earlier o id.
(** The store (memory.rs) after these operations *)
Definition store_step (o : store_op) (m : memory) : memory :=
  match o with Put id c v => mem_insert id c v m | Replace id c v => mem_update id c v m | Drop id => mem_remove id m end.
Definition store_run (h : list store_op) : memory := fold_right store_step (Memory [] []) h.
