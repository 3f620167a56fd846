(** Vocabulary for the statements about version detection. *)
From Verif Require Import Base Unicode VersionModel.

(** Declarative meaning of the pattern: somewhere in the string, at the start or at a word boundary, there is an
    optional comparison operator, white space, then "5.". *)
Definition boundary (U : unicode) (pre post : str) : Prop :=
  pre = [] \/
  exists pre' a, pre = pre' ++ [a] /\
    u_word U a = negb (match post with b :: _ => u_word U b | [] => false end).
Definition mentions_v5 (U : unicode) (s : str) : Prop :=
  exists pre op ws post,
    s = pre ++ op ++ ws ++ lit "5." ++ post
    /\ boundary U pre (op ++ ws ++ lit "5." ++ post)
    /\ In op [[]; lit "^"; lit "~"; lit ">"; lit "="; lit ">="]
    /\ Forall (fun c => u_whitespace U c = true) ws.

(** Plain decimal numbers, and requirements "[op] major.minor.patch". *)
Definition is_num (s : str) : Prop := s <> [] /\ Forall (fun c => ascii_digit c = true) s.
Definition requirement (op major minor patch : str) : str := op ++ major ++ lit "." ++ minor ++ lit "." ++ patch.

(** "The requirement admits a 5.x version": a caret/tilde/exact/bare requirement does iff its major is 5. *)
Definition simple_op (op : str) : Prop := In op [[]; lit "^"; lit "~"; lit "="].

From Verif Require Import TranslateModel.

(** The manifest for a path: [Cargo.toml] in the nearest of the eleven enclosing directories, innermost first
    (the root counts repeatedly). *)
Definition nearest_manifest (f : fsys) (p c : path) : Prop :=
  exists x d k, p = x :: d /\ k <= 10 /\ c = CARGO_TOML :: skipn k d /\ fs_is_file f c = true
    /\ forall j, j < k -> fs_is_file f (CARGO_TOML :: skipn j d) = false.

(** The manifest file [c] declares the dependency [dep] on ink, in [dependencies] or [workspace.dependencies]. *)
Definition declares_ink (parse : str -> option (list (str * toml))) (f : fsys) (c : path) (ws : bool) (dep : toml) : Prop :=
  exists text package deps,
    fs_is_file f c = true /\ fs_read f c = Some text /\ parse text = Some package
    /\ any_table (if ws then match any_table (assoc (lit "workspace") package) with
                             | Some w => assoc (lit "dependencies") w | None => None end
                  else assoc (lit "dependencies") package) = Some deps
    /\ assoc (lit "ink") deps = Some dep.

(** A dependency entry that inherits from the workspace. *)
Definition inherits (dep : toml) : Prop :=
  exists m, (dep = TTable m \/ dep = TInline m) /\ assoc (lit "workspace") m = Some (TBool true).

(** The version requirement of an entry. *)
Definition requires (dep : toml) (s : str) : Prop :=
  dep = TStr s \/ exists m, (dep = TTable m \/ dep = TInline m) /\ assoc (lit "version") m = Some (TStr s).
