(** Vocabulary for the statements about the custom commands. *)
From Verif Require Import Base Unicode PositionModel PositionSpec TranslateModel VersionModel VersionSpec CommandModel.

(** "The manifest has the dependency [dep] on package [name]" (in a regular [dependencies] section). *)
Definition depends (doc : list (str * toml)) (name : str) (dep : toml) : Prop :=
  exists deps, assoc (lit "dependencies") doc = Some (TTable deps) /\ assoc name deps = Some dep.
(** The keys of a dependency entry (an entry that is a bare version string has none). *)
Definition entry_keys (dep : toml) : list (str * toml) :=
  match dep with TTable m | TInline m => m | _ => [] end.
(** The value at [section].[key]. *)
Definition value_at (doc : list (str * toml)) (section key : str) : option toml :=
  match assoc section doc with Some (TTable m) => assoc key m | _ => None end.
(** The keys of a section, in the order of the file. *)
Definition section_keys (doc : list (str * toml)) (section : str) : list str :=
  match assoc section doc with Some (TTable m) => map fst m | _ => [] end.

(** A lower-case package name character. *)
Definition package_char (c : char) : Prop :=
  ascii_lower c = true \/ ascii_digit c = true \/ c = c_hyphen.

(** The k-th candidate directory name. *)
Definition candidate (name : str) (k : nat) : str := match k with 0 => name | S _ => name ++ dec (N.of_nat k) end.

(** What is assumed of a file system: the root is a directory, and what exists lies in something that exists. *)
Record fsys_ok (f : fsys) : Prop := FsysOk {
  fo_root : fs_is_file f [] = false;
  fo_parent : forall c p, fs_exists f (c :: p) = true -> fs_exists f p = true }.

(** A whole-file replacement: the range that the client receives, read in [old] with the negotiated encoding,
    is all of [old]. *)
Definition replaces_all (enc : enc_kind) (old : str) (e : lsp_text_edit) (new_ : str) : Prop :=
  le_new_text e = new_ /\ from_lsp_text_range (new_context old enc) (le_range e) = Some (0, bytes old).

(** What a client does with a list of document changes: it creates empty files, where there are none, and edits
    documents; [ed] applies edits to a text. *)
Definition store := uri -> option str.
Definition store_set (s : store) (u : uri) (t : str) : store := fun v => if str_eqb u v then Some t else s v.
Fixpoint perform (ed : str -> list lsp_text_edit -> option str) (ops : list doc_op) (s : store) : option store :=
  match ops with
  | [] => Some s
  | OpCreate u :: l => match s u with None => perform ed l (store_set s u []) | Some _ => None end
  | OpEdit u es :: l =>
      match s u with
      | Some t => match ed t es with Some t' => perform ed l (store_set s u t') | None => None end
      | None => None
      end
  end.
(** Inserting a text into the empty document. *)
Definition inserts (ed : str -> list lsp_text_edit -> option str) : Prop :=
  forall t, ed [] [LspTextEdit ((0, 0), (0, 0)) t] = Some t.

(** The same TOML value, except that tables may have become inline tables. *)
Inductive same_value : toml -> toml -> Prop :=
  | same_refl t : same_value t t
  | same_table m m' : same_entries m m' -> same_value (TTable m) (TInline m')
  | same_inline m m' : same_entries m m' -> same_value (TInline m) (TInline m')
  | same_array l l' : same_values l l' -> same_value (TArr l) (TArr l')
with same_entries : list (str * toml) -> list (str * toml) -> Prop :=
  | same_no_entry : same_entries [] []
  | same_entry k v v' m m' : same_value v v' -> same_entries m m' -> same_entries ((k, v) :: m) ((k, v') :: m')
with same_values : list toml -> list toml -> Prop :=
  | same_no_value : same_values [] []
  | same_next v v' l l' : same_value v v' -> same_values l l' -> same_values (v :: l) (v' :: l').

(** What a client receives for edits of a document: the same edits in the same order, each at the positions of its range;
    edits at positions that the document does not have are left out. *)
Inductive sent (ctx : pos_context) : list text_edit -> list lsp_text_edit -> Prop :=
  | sent_nil : sent ctx [] []
  | sent_edit e es s l : from_lsp_text_range ctx (le_range s) = Some (te_range e) -> le_new_text s = te_text e -> sent ctx es l -> sent ctx (e :: es) (s :: l)
  | sent_skip e es l : to_lsp_range ctx (te_range e) = None -> sent ctx es l -> sent ctx (e :: es) l.

(** The manifest of the package of an extracted event *)
Definition event_manifest (pkg : str) : str := join_lines
  [lit "[package]"; lit "name = """ ++ pkg ++ lit """"; lit "version = ""0.1.0""";
   lit "authors = [""[your_name] <[your_email]>""]"; lit "edition = ""2021"""; [];
   lit "[dependencies]"; lit "ink = { version = ""5.0.0"", default-features = false }"; [];
   lit "[features]"; lit "default = [""std""]"; lit "std = ["; lit "    ""ink/std"","; lit "]";
   lit "ink-as-dependency = []"; lit "e2e-tests = []"].
