(** Model of crates/lsp-server/src/dispatch/handlers/command.rs. *)
From Verif Require Import Base Unicode PositionModel TranslateModel VersionModel.

(** A handler's result ([anyhow::Result], or a panic). Error messages are not modelled. *)
Inductive hres (A : Type) := HOk (a : A) | HErr | HPanic.
Arguments HOk {A} _.
Arguments HErr {A}.
Arguments HPanic {A}.

(** dispatch.rs L77-99 [Snapshot]: the analysis and the position context are functions of the text, so the
    snapshot is what they were built from. *)
Record snapshot := Snapshot {
  sn_text : str; sn_encoding : enc_kind; sn_doc_version : option Z; sn_lang : version }.
Definition sn_context (s : snapshot) : pos_context := new_context (sn_text s) (sn_encoding s).
Definition snapshots := list (str * snapshot).

(** External library functions on URLs and TOML documents: [Url::parse], [Url::join], [Url::to_file_path],
    [Url::from_file_path], parsing and printing of TOML. *)
Record platform := Platform {
  pf_url_parse : str -> option uri;
  pf_join : uri -> str -> option uri;
  pf_to_path : uri -> option path;
  pf_from_path : path -> option uri;
  pf_parse : str -> option (list (str * toml));
  pf_render : list (str * toml) -> str }.

(** crates/analyzer/src/analysis/extract.rs [Extraction] *)
Record extraction := Extraction {
  ex_name : str; ex_content : str; ex_edits : list text_edit; ex_import_offset : nat; ex_import_indent : str }.

(** command.rs L13-32 the three responses; hash maps are association lists (the order of their entries is not
    specified by the code). *)
Record create_resp := CreateResp { cr_name : str; cr_uri : uri; cr_files : list (uri * str) }.
Record migrate_resp := MigrateResp { mr_uri : uri; mr_edits : list (uri * list lsp_text_edit) }.
Record extract_resp := ExtractResp {
  er_name : str; er_uri : uri; er_files : list (uri * str); er_edits : list (uri * list lsp_text_edit) }.

(** command.rs L35-65 [handle_create_project]; [new_project] is [ink_analyzer::new_project(name, V5)] as
    (lib.rs text, Cargo.toml text). *)
Definition handle_create_project (P : platform) (new_project : str -> option (str * str)) (name : str) (root : uri)
  : hres create_resp :=
  match pf_join P root (lit "lib.rs"), pf_join P root CARGO_TOML with
  | Some lib_uri, Some cargo_uri =>
      match new_project name with
      | Some (lib, cargo) => HOk (CreateResp name root [(lib_uri, lib); (cargo_uri, cargo)])
      | None => HErr
      end
  | _, _ => HErr
  end.

(** The translation of analysis edits used by both handlers below (L83-93, L214-222). *)
Definition translate_edits (ctx : pos_context) (es : list text_edit) : list lsp_text_edit :=
  filter_map (fun e => match to_lsp_range ctx (te_range e) with
                       | Some r => Some (LspTextEdit r (te_text e)) | None => None end) es.

(** Removal of a key ([*item = Item::None]: the entry is not printed any more). *)
Definition assoc_del {A} (k : str) (m : list (str * A)) : list (str * A) :=
  filter (fun p => negb (str_eqb k (fst p))) m.
Definition has_key {A} (k : str) (m : list (str * A)) : bool := is_some (assoc k m).

(** [toml_edit] [Table::into_inline_table]: nested tables become inline. *)
Fixpoint to_inline (t : toml) : toml :=
  match t with
  | TTable m | TInline m =>
      TInline ((fix go (m : list (str * toml)) :=
                  match m with [] => [] | (k, v) :: m' => (k, to_inline v) :: go m' end) m)
  | TArr l => TArr ((fix go (l : list toml) := match l with [] => [] | v :: l' => to_inline v :: go l' end) l)
  | _ => t
  end.
Definition inline_entries (m : list (str * toml)) : list (str * toml) :=
  map (fun p => (fst p, to_inline (snd p))) m.

(** [Item::as_table_mut]: only real tables, not inline ones. *)
Definition as_table (t : option toml) : option (list (str * toml)) :=
  match t with Some (TTable m) => Some m | _ => None end.

Definition V500 : toml := TStr (lit "5.0.0").
Definition default_features (m : list (str * toml)) : list (str * toml) :=
  if has_key (lit "default-features") m then m else assoc_set (lit "default-features") (TBool false) m.
(** L306-336 the new ink dependency *)
Definition new_ink_dep (dep : toml) : toml :=
  match dep with
  | TTable m => TInline (inline_entries (default_features (assoc_set (lit "version") V500 m)))
  | TInline m => TInline (default_features (assoc_set (lit "version") V500 m))
  | _ => TInline [(lit "version", V500); (lit "default-features", TBool false)]
  end.

(** L346-354 *)
Definition migrate_dev_deps (doc : list (str * toml)) : list (str * toml) :=
  match as_table (assoc (lit "dev-dependencies") doc) with
  | Some m => if has_key (lit "ink_e2e") m
              then assoc_set (lit "dev-dependencies") (TTable (assoc_set (lit "ink_e2e") V500 m)) doc
              else doc
  | None => doc
  end.
(** L356-369 *)
Definition keep_feature (t : toml) : bool :=
  match t with
  | TStr s => negb (str_eqb s (lit "scale/std") || str_eqb s (lit "scale-info/std"))
  | _ => true
  end.
Definition migrate_features (doc : list (str * toml)) : list (str * toml) :=
  match as_table (assoc (lit "features") doc) with
  | Some m =>
      match assoc (lit "std") m with
      | Some (TArr l) => assoc_set (lit "features") (TTable (assoc_set (lit "std") (TArr (filter keep_feature l)) m)) doc
      | _ => doc
      end
  | None => doc
  end.
(** command.rs L291-372 [migrate_cargo_toml], on the parsed document. *)
Definition migrate_doc (doc : list (str * toml)) : option (list (str * toml)) :=
  match as_table (assoc (lit "dependencies") doc) with
  | None => None
  | Some deps =>
      match assoc (lit "ink") deps with
      | None => None
      | Some dep =>
          let deps1 := assoc_set (lit "ink") (new_ink_dep dep) deps in
          let deps2 := assoc_del (lit "scale-info") (assoc_del (lit "scale") deps1) in
          Some (migrate_features (migrate_dev_deps (assoc_set (lit "dependencies") (TTable deps2) doc)))
      end
  end.
Definition migrate_cargo_toml (P : platform) (input : str) : option str :=
  match pf_parse P input with
  | None => None
  | Some doc => match migrate_doc doc with Some doc' => Some (pf_render P doc') | None => None end
  end.

(** command.rs L375-394 [add_dependency_to_cargo_toml] *)
Definition add_dependency (doc : list (str * toml)) (name : str) (item : toml) : option (list (str * toml)) :=
  match as_table (assoc (lit "dependencies") doc) with
  | None => None
  | Some deps => Some (assoc_set (lit "dependencies") (TTable (assoc_set name item deps)) doc)
  end.
Definition add_dependency_to_cargo_toml (P : platform) (input name : str) (item : toml) : option str :=
  match pf_parse P input with
  | None => None
  | Some doc => match add_dependency doc name item with Some doc' => Some (pf_render P doc') | None => None end
  end.

(** command.rs L402-450 [package_name]. [String::to_lowercase] is taken character by character (the final-sigma
    rule is not modelled). *)
Fixpoint pn_loop (U : unicode) (first last_upper last_hyphen : bool) (s : str) : str :=
  match s with
  | [] => []
  | c :: s' =>
      let pre := if negb first && u_uppercase U c && negb last_upper && negb last_hyphen then [c_hyphen] else [] in
      let up := u_uppercase U c in
      if u_alphanumeric U c then pre ++ c :: pn_loop U false up false s'
      else if negb last_hyphen then pre ++ c_hyphen :: pn_loop U false up true s'
      else pre ++ pn_loop U false up last_hyphen s'
  end.
Fixpoint drop_hyphens (s : str) : str :=
  match s with c :: s' => if N.eqb c c_hyphen then drop_hyphens s' else s | [] => [] end.
Definition trim_end_hyphens (s : str) : str := rev (drop_hyphens (rev s)).
Definition package_name (U : unicode) (name : str) : option (str * str) :=
  if negb (existsb (fun c => u_alphanumeric U c || N.eqb c c_underscore || N.eqb c c_hyphen) name) then None
  else
    match name with
    | [] => None
    | c :: _ =>
        if u_alphabetic U c then
          let pkg := trim_end_hyphens (flat_map (u_lower U) (pn_loop U true false false name)) in
          Some (pkg, map (fun c => if N.eqb c c_hyphen then c_underscore else c) pkg)
        else None
    end.

(** command.rs L168-184: choice of the package directory; [dir] is the directory of the contract's manifest. *)
Fixpoint free_dir (f : fsys) (dir : path) (name : str) (count : nat) (fuel : nat) : str :=
  let cur := match count with 0 => name | _ => name ++ dec (N.of_nat count) end in
  match fuel with
  | 0 => cur
  | S fuel' => if fs_exists f (cur :: dir) then free_dir f dir name (S count) fuel' else cur
  end.
Definition event_package_dir (f : fsys) (dir : path) (name : str) : option str :=
  let d := free_dir f dir name 0 10 in
  if fs_exists f (d :: dir) then None else Some d.

(** [str::replace] with a non-empty pattern: non-overlapping occurrences, left to right. *)
Fixpoint replace_fuel (fuel : nat) (pat by_ s : str) : str :=
  match fuel with
  | 0 => s
  | S fuel' =>
      match s with
      | [] => []
      | c :: s' =>
          match strip_prefix pat s with
          | Some rest => by_ ++ replace_fuel fuel' pat by_ rest
          | None => c :: replace_fuel fuel' pat by_ s'
          end
      end
  end.
Definition str_replace (pat by_ s : str) : str := replace_fuel (length s) pat by_ s.

(** A multi-line constant: lines joined by line feeds. *)
Fixpoint join_lines (l : list str) : str :=
  match l with [] => [] | [x] => x | x :: l' => x ++ c_nl :: join_lines l' end.
(** command.rs L523-538 *)
Definition CARGO_TOML_MINIMAL_V5 : str := join_lines
  [lit "[package]"; lit "name = ""my_package"""; lit "version = ""0.1.0""";
   lit "authors = [""[your_name] <[your_email]>""]"; lit "edition = ""2021"""; [];
   lit "[dependencies]"; lit "ink = { version = ""5.0.0"", default-features = false }"; [];
   lit "[features]"; lit "default = [""std""]"; lit "std = ["; lit "    ""ink/std"","; lit "]";
   lit "ink-as-dependency = []"; lit "e2e-tests = []"].

(** command.rs L68-135 [handle_migrate_project]; [migrate] is [Analysis::migrate] of a text and language version. *)
Definition whole_file_edit (k : enc_kind) (old new_ : str) : option lsp_text_edit :=
  match to_lsp_range (new_context old k) (0, bytes old) with
  | Some r => Some (LspTextEdit r new_)
  | None => None
  end.
Definition handle_migrate_project (P : platform) (migrate : str -> version -> list text_edit) (f : fsys)
    (snaps : snapshots) (enc : enc_kind) (u : uri) : hres migrate_resp :=
  if negb (ends_with (lit ".rs") u) then HErr
  else
    match assoc u snaps with
    | None => HErr
    | Some sn =>
        let code_edits := translate_edits (sn_context sn) (migrate (sn_text sn) (sn_lang sn)) in
        match obind (pf_to_path P u) (find_cargo_toml f) with
        | None => HErr
        | Some cargo_path =>
            match fs_read f cargo_path, pf_from_path P cargo_path with
            | Some cargo_toml, Some cargo_uri =>
                match migrate_cargo_toml P cargo_toml with
                | None => HErr
                | Some updates =>
                    match whole_file_edit enc cargo_toml updates with
                    | None => HErr
                    | Some e => HOk (MigrateResp u [(u, code_edits); (cargo_uri, [e])])
                    end
                end
            | _, _ => HErr
            end
        end
    end.

(** command.rs L138-288 [handle_extract_event]; [extract] is [Analysis::extract] (which may panic, see ServerModel). *)
Definition handle_extract_event (P : platform) (U : unicode) (extract : str -> version -> trange -> outcome (option extraction))
    (f : fsys) (snaps : snapshots) (enc : enc_kind) (u : uri) (range : trange) : hres extract_resp :=
  if negb (ends_with (lit ".rs") u) then HErr
  else
    match assoc u snaps with
    | None => HErr
    | Some sn =>
        match extract (sn_text sn) (sn_lang sn) range with
        | Panic => HPanic
        | Done None => HErr
        | Done (Some ex) =>
            match obind (pf_to_path P u) (find_cargo_toml f) with
            | None => HErr
            | Some cargo_path =>
                match package_name U (ex_name ex) with
                | None => HErr
                | Some (pkg, crate_name) =>
                    let dir := match path_pop cargo_path with Some d => d | None => cargo_path end in
                    match event_package_dir f dir pkg with
                    | None => HErr
                    | Some d =>
                        match pf_from_path P (CARGO_TOML :: d :: dir), pf_from_path P (lit "lib.rs" :: lit "src" :: d :: dir),
                              to_lsp_range (sn_context sn) (ex_import_offset ex, ex_import_offset ex),
                              fs_read f cargo_path, pf_from_path P cargo_path with
                        | Some ev_cargo, Some ev_lib, Some import_range, Some cargo_toml, Some cargo_uri =>
                            let contract_edits :=
                              translate_edits (sn_context sn) (ex_edits ex)
                              ++ [LspTextEdit import_range
                                    (ex_import_indent ex ++ lit "use " ++ crate_name ++ lit "::" ++ ex_name ex ++ lit ";")] in
                            match add_dependency_to_cargo_toml P cargo_toml pkg
                                    (TInline [(lit "path", TStr d); (lit "default-features", TBool false)]) with
                            | None => HErr
                            | Some updates =>
                                match whole_file_edit enc cargo_toml updates with
                                | None => HErr
                                | Some e =>
                                    HOk (ExtractResp pkg u
                                      [(ev_lib, ex_content ex); (ev_cargo, str_replace (lit "my_package") pkg CARGO_TOML_MINIMAL_V5)]
                                      [(u, contract_edits); (cargo_uri, [e])])
                                end
                            end
                        | _, _, _, _, _ => HErr
                        end
                    end
                end
            end
        end
    end.

(** command.rs L452-521: conversion of the responses into workspace edit operations. *)
Inductive doc_op :=
| OpCreate (u : uri)
| OpEdit (u : uri) (es : list lsp_text_edit).
Definition default_range : lrange := ((0, 0), (0, 0)).
Definition file_ops (files : list (uri * str)) : list doc_op :=
  flat_map (fun p => [OpCreate (fst p); OpEdit (fst p) [LspTextEdit default_range (snd p)]]) files.
Definition create_changes (r : create_resp) : list doc_op := file_ops (cr_files r).
Definition extract_changes (r : extract_resp) : list doc_op :=
  file_ops (er_files r) ++ map (fun p => OpEdit (fst p) (snd p)) (er_edits r).
