(** Model of the ink! project version detection: crates/lsp-server/src/dispatch.rs L420-549 and
    crates/lsp-server/src/utils.rs [find_cargo_toml]. *)
From Verif Require Import Base Unicode TranslateModel.

(** crates/analyzer [Version] *)
Inductive version := V4 | V5.
Definition version_eqb (a b : version) : bool :=
  match a, b with V4, V4 | V5, V5 => true | _, _ => false end.

(** Absolute paths as component lists, innermost component first ([] is the root). Prefixes, [.] and [..] are
    not modelled ([Url::to_file_path] yields normalised absolute paths). *)
Definition path := list str.
(** [PathBuf::pop]; [None]: returned [false]. *)
Definition path_pop (p : path) : option path := match p with [] => None | _ :: d => Some d end.
(** [PathBuf::set_file_name] *)
Definition set_file_name (p : path) (n : str) : path := match p with [] => [n] | _ :: d => n :: d end.
(** [Path::extension]: the part of the file name after the last dot, unless the name starts with its only dot
    or is [..]. *)
Fixpoint after_last_dot (s : str) : option str :=
  match s with
  | [] => None
  | c :: s' => match after_last_dot s' with
               | Some e => Some e
               | None => if N.eqb c 46 then Some s' else None
               end
  end.
Definition path_extension (p : path) : option str :=
  match p with
  | (_ :: n) :: _ => after_last_dot n
  | _ => None
  end.

(** The file system as the server observes it while processing one message. *)
Record fsys := Fsys { fs_is_file : path -> bool; fs_exists : path -> bool; fs_read : path -> option str }.

Definition CARGO_TOML : str := lit "Cargo.toml".

(** utils.rs L139-161 [find_cargo_toml]. The loop variable is [cargo_toml_path]. *)
Fixpoint find_up (f : fsys) (n : nat) (p : path) : path :=
  match n with
  | 0 => p
  | S n' =>
      match path_pop p with
      | None => p
      | Some d =>
          let c := set_file_name d CARGO_TOML in
          if fs_is_file f c then c else find_up f n' c
      end
  end.
Definition find_cargo_toml (f : fsys) (p : path) : option path :=
  let c := set_file_name p CARGO_TOML in
  let c' := if fs_is_file f c then c else find_up f 10 p in
  if fs_is_file f c' then Some c' else None.

(** TOML values as [toml_edit] distinguishes them (the [toml] crate sees both kinds of table as [Table]). Dates and
    floats are [TOther]. *)
Inductive toml :=
| TStr (s : str)
| TBool (b : bool)
| TInt (z : Z)
| TArr (l : list toml)
| TInline (m : list (str * toml))
| TTable (m : list (str * toml))
| TOther (s : str).
(** [toml::Value::Table] *)
Definition any_table (t : option toml) : option (list (str * toml)) :=
  match t with Some (TTable m) | Some (TInline m) => Some m | _ => None end.

(** dispatch.rs L511-516 [InkProjectVersion] *)
Record ink_project_version := InkVersion {
  iv_version : option str; iv_path : option str; iv_git : option str; iv_workspace : bool }.

(** dispatch.rs L449-506 [parse_ink_project_version_inner]; [parse] is [toml::from_str::<Table>]. *)
Definition dep_value (m : list (str * toml)) (k : str) : option str :=
  match assoc k m with Some (TStr s) => Some s | _ => None end.
Definition ink_dependency (dep : toml) : option ink_project_version :=
  let v :=
    match dep with
    | TStr s => InkVersion (Some s) None None false
    | TTable m | TInline m =>
        InkVersion (dep_value m (lit "version")) (dep_value m (lit "path")) (dep_value m (lit "git"))
          (match assoc (lit "workspace") m with Some (TBool true) => true | _ => false end)
    | _ => InkVersion None None None false
    end in
  if is_some (iv_version v) || is_some (iv_path v) || is_some (iv_git v) || iv_workspace v
  then Some v else None.
Definition manifest_dependencies (package : list (str * toml)) (workspace : bool) : option toml :=
  if workspace then
    match any_table (assoc (lit "workspace") package) with
    | Some w => assoc (lit "dependencies") w
    | None => None
    end
  else assoc (lit "dependencies") package.
Definition parse_inner (parse : str -> option (list (str * toml))) (f : fsys) (p : path) (workspace : bool)
  : option ink_project_version :=
  if fs_is_file f p then
    match fs_read f p with
    | None => None
    | Some text =>
        match parse text with
        | None => None
        | Some package =>
            match any_table (manifest_dependencies package workspace) with
            | None => None
            | Some deps =>
                match assoc (lit "ink") deps with
                | None => None
                | Some dep => ink_dependency dep
                end
            end
        end
    end
  else None.

(** dispatch.rs L421-447 [parse_ink_project_version]; the argument is [doc_uri.to_file_path().ok()]. *)
Definition parse_ink_project_version (parse : str -> option (list (str * toml))) (f : fsys) (p : option path)
  : option ink_project_version :=
  match p with
  | None => None
  | Some p =>
      if match path_extension p with Some e => str_eqb e (lit "rs") | None => false end then
        match find_cargo_toml f p with
        | None => None
        | Some c =>
            let v := parse_inner parse f c false in
            if match v with Some v => iv_workspace v | None => false end then
              match find_cargo_toml f (match path_pop c with Some d => d | None => c end) with
              | Some wc =>
                  match parse_inner parse f wc true with
                  | Some v' => Some v'
                  | None => v
                  end
              | None => v
              end
            else v
        end
      else None
  end.

(** dispatch.rs L546-549 [is_v5_version_string]: an unanchored search for the regular expression
    (^|\b)(([\^~>=])|(>=))?(\s)*5\. *)
Definition at_word (U : unicode) (s : str) : bool := match s with c :: _ => u_word U c | [] => false end.
Definition at_boundary (U : unicode) (prev : option char) (s : str) : bool :=
  match prev with
  | None => true
  | Some c => xorb (u_word U c) (at_word U s)
  end.
Fixpoint match_ws5 (U : unicode) (s : str) : bool :=
  starts_with (lit "5.") s || match s with c :: s' => u_whitespace U c && match_ws5 U s' | [] => false end.
Definition is_op (c : char) : bool := mem_char c (lit "^~>=").
Definition match_here (U : unicode) (s : str) : bool :=
  match_ws5 U s
  || match s with c :: s' => is_op c && match_ws5 U s' | [] => false end
  || match strip_prefix (lit ">=") s with Some s' => match_ws5 U s' | None => false end.
Fixpoint v5_scan (U : unicode) (prev : option char) (s : str) : bool :=
  (at_boundary U prev s && match_here U s)
  || match s with c :: s' => v5_scan U (Some c) s' | [] => false end.
Definition is_v5_version_string (U : unicode) (s : str) : bool := v5_scan U None s.

(** [str::trim] then [starts_with('*')] *)
Fixpoint trim_start (U : unicode) (s : str) : str :=
  match s with c :: s' => if u_whitespace U c then trim_start U s' else s | [] => [] end.
Definition trim (U : unicode) (s : str) : str := rev (trim_start U (rev (trim_start U s))).

(** dispatch.rs L521-538 [guess_version] *)
Definition guess_version (U : unicode) (v : ink_project_version) : version :=
  match iv_version v with
  | Some s => if is_v5_version_string U s || starts_with (lit "*") (trim U s) then V5 else V4
  | None => if is_some (iv_path v) || is_some (iv_git v) then V5 else V4
  end.

(** dispatch.rs L252-262: the version check (default ink! 4). *)
Definition version_check (U : unicode) (v : option ink_project_version) : version :=
  match v with Some v => guess_version U v | None => V4 end.
