(** Properties C08 (language version detection) and C19 (manifest search). *)
From Verif Require Import Base Unicode TranslateModel VersionModel VersionSpec VersionProofs.

(** C08. Exact meaning of the guess, for every requirement string: the pattern occurs, or the first non-white
    character is a star; without a version, a path or git source means ink! 5. *)
Theorem C08_guess_meaning : forall U v,
  guess_version U v = V5 <->
  (exists s, iv_version v = Some s /\
     (mentions_v5 U s \/ exists ws r, s = ws ++ lit "*" ++ r /\ Forall (fun c => u_whitespace U c = true) ws
        /\ u_whitespace U 42%N = false))
  \/ (iv_version v = None /\ (iv_path v <> None \/ iv_git v <> None)).
Proof. exact guess_version_spec. Qed.
Print Assumptions C08_guess_meaning.

(** C08. For requirements "[^~=]major.minor.patch": ink! 5 iff the major *or the minor* number is 5. *)
Theorem C08_three_part_requirements : forall U op M m p pth git w,
  unicode_ok U -> simple_op op -> is_num M -> is_num m -> is_num p ->
  (guess_version U (InkVersion (Some (requirement op M m p)) pth git w) = V5 <-> M = lit "5" \/ m = lit "5").
Proof. exact guess_simple. Qed.
Print Assumptions C08_three_part_requirements.

(** C08. Hence the guess is right for such requirements unless the minor number is 5. *)
Theorem C08_right_version_partial : forall U op M m p pth git w,
  unicode_ok U -> simple_op op -> is_num M -> is_num m -> is_num p -> m <> lit "5" ->
  (guess_version U (InkVersion (Some (requirement op M m p)) pth git w) = V5 <-> M = lit "5").
Proof. intros U op M m p pth git w HU Hop HM Hm Hp Hn. rewrite guess_simple by assumption. tauto. Qed.
Print Assumptions C08_right_version_partial.

(** C08 (refuted). Requirements admitting only 4.x are taken for 5, and requirements admitting only 5.x for 4. *)
Theorem C08_right_version_refuted : forall U, unicode_ok U ->
  guess_version U (InkVersion (Some (lit "4.5.0")) None None false) = V5
  /\ guess_version U (InkVersion (Some (lit "<5.0.0")) None None false) = V5
  /\ guess_version U (InkVersion (Some (lit "5")) None None false) = V4
  /\ guess_version U (InkVersion (Some (lit "^5")) None None false) = V4.
Proof.
  intros U HU. assert (Hn : forall d, ascii_digit d = true -> is_num [d]).
  { intros d Hd. split; [discriminate|]. constructor; [exact Hd | constructor]. }
  split; [|split; [|split]].
  - change (lit "4.5.0") with (requirement [] (lit "4") (lit "5") (lit "0")).
    apply guess_simple; [exact HU | left; reflexivity | apply Hn; reflexivity | apply Hn; reflexivity | apply Hn; reflexivity |].
    right; reflexivity.
  - apply guess_version_spec. left. exists (lit "<5.0.0"). split; [reflexivity|]. left.
    exists (lit "<"), [], [], (lit "0.0"). split; [reflexivity|]. split; [|split; [left; reflexivity | constructor]].
    right. exists [], 60%N. split; [reflexivity|]. cbn [app].
    change (u_word U 60%N = negb (u_word U 53%N)). rewrite !(uo_word U HU) by reflexivity. reflexivity.
  - apply guess_no_dot; intros [H|[]]; discriminate.
  - apply guess_no_dot; intros [H|[H|[]]]; discriminate.
Qed.
Print Assumptions C08_right_version_refuted.

Example C08_ex : simple_op (lit "^") /\ is_num (lit "5") /\ is_num (lit "10") /\ unicode_ok ascii_unicode
  /\ guess_version ascii_unicode (InkVersion (Some (requirement (lit "^") (lit "5") (lit "0") (lit "10"))) None None false) = V5
  /\ guess_version ascii_unicode (InkVersion (Some (lit "4.3.0")) None None false) = V4.
Proof.
  split; [right; left; reflexivity|].
  split; [split; [discriminate | repeat constructor]|]. split; [split; [discriminate | repeat constructor]|].
  split; [exact ascii_unicode_ok|]. split; vm_compute; reflexivity.
Qed.

(** C08. Which requirement is looked at: that of the nearest manifest's ink dependency... *)
Theorem C08_own_requirement : forall parse f p c dep s,
  path_extension p = Some (lit "rs") -> nearest_manifest f p c ->
  declares_ink parse f c false dep -> requires dep s -> ~ inherits dep ->
  exists v, parse_ink_project_version parse f (Some p) = Some v /\ iv_version v = Some s.
Proof. exact detect_own. Qed.
Print Assumptions C08_own_requirement.

(** ... or, when that one is inherited, that of the nearest manifest above the package directory. *)
Theorem C08_inherited_requirement : forall parse f p x dir wc dep dep' s,
  path_extension p = Some (lit "rs") -> nearest_manifest f p (CARGO_TOML :: x :: dir) ->
  declares_ink parse f (CARGO_TOML :: x :: dir) false dep -> inherits dep ->
  nearest_manifest f (x :: dir) wc -> declares_ink parse f wc true dep' -> requires dep' s ->
  exists v, parse_ink_project_version parse f (Some p) = Some v /\ iv_version v = Some s.
Proof. exact detect_inherited. Qed.
Print Assumptions C08_inherited_requirement.

(** ... and when there is none above, or it does not declare ink!, the package's own entry decides. *)
Theorem C08_inherited_fallback : forall parse f p x dir dep s,
  path_extension p = Some (lit "rs") -> nearest_manifest f p (CARGO_TOML :: x :: dir) ->
  declares_ink parse f (CARGO_TOML :: x :: dir) false dep -> inherits dep -> requires dep s ->
  (forall wc dep', nearest_manifest f (x :: dir) wc -> ~ declares_ink parse f wc true dep') ->
  exists v, parse_ink_project_version parse f (Some p) = Some v /\ iv_version v = Some s.
Proof. exact detect_fallback. Qed.
Print Assumptions C08_inherited_fallback.

(** Files that are not Rust sources, or have no manifest, are analysed as ink! 4. *)
Theorem C08_default : forall U parse f p,
  (path_extension p <> Some (lit "rs") \/ (forall c, ~ nearest_manifest f p c) /\ p <> []) ->
  version_check U (parse_ink_project_version parse f (Some p)) = V4.
Proof. intros U parse f p H. rewrite detect_none by exact H. reflexivity. Qed.
Print Assumptions C08_default.

(** C08 (refuted). A package that is its own workspace root and inherits [ink = "5.0.0"] from its own
    [workspace.dependencies] is analysed as ink! 4. *)
Definition root_package : list (str * toml) :=
  [(lit "workspace", TTable [(lit "dependencies", TTable [(lit "ink", TStr (lit "5.0.0"))])]);
   (lit "dependencies", TTable [(lit "ink", TInline [(lit "workspace", TBool true)])])].
Definition root_fs : fsys :=
  let man := [CARGO_TOML; lit "p"] in
  let is_man := fun q : path => if list_eq_dec str_eq_dec q man then true else false in
  Fsys is_man is_man (fun q => if is_man q then Some [] else None).
Theorem C08_workspace_root_refuted :
  declares_ink (fun _ => Some root_package) root_fs [CARGO_TOML; lit "p"] true (TStr (lit "5.0.0")) /\
  version_check ascii_unicode
    (parse_ink_project_version (fun _ => Some root_package) root_fs (Some [lit "lib.rs"; lit "p"])) = V4.
Proof.
  split; [|vm_compute; reflexivity].
  exists [], root_package, [(lit "ink", TStr (lit "5.0.0"))].
  repeat split; vm_compute; reflexivity.
Qed.
Print Assumptions C08_workspace_root_refuted.

Example C08_detect_ex :
  let man := [CARGO_TOML; lit "p"] in
  let f := Fsys (fun q => if list_eq_dec str_eq_dec q man then true else false) (fun _ => false) (fun _ => Some []) in
  let parse := fun _ => Some [(lit "dependencies", TTable [(lit "ink", TStr (lit "5.0.0"))])] in
  path_extension [lit "lib.rs"; lit "src"; lit "p"] = Some (lit "rs")
  /\ nearest_manifest f [lit "lib.rs"; lit "src"; lit "p"] man
  /\ declares_ink parse f man false (TStr (lit "5.0.0")) /\ requires (TStr (lit "5.0.0")) (lit "5.0.0")
  /\ ~ inherits (TStr (lit "5.0.0")).
Proof.
  split; [vm_compute; reflexivity|]. split; [|split; [|split]].
  - exists (lit "lib.rs"), [lit "src"; lit "p"], 1. split; [reflexivity|]. split; [lia|]. split; [reflexivity|].
    split; [vm_compute; reflexivity|]. intros j Hj. assert (j = 0) by lia. subst j. vm_compute. reflexivity.
  - exists [], [(lit "dependencies", TTable [(lit "ink", TStr (lit "5.0.0"))])], [(lit "ink", TStr (lit "5.0.0"))].
    repeat split; vm_compute; reflexivity.
  - left; reflexivity.
  - intros [m [[H|H] _]]; discriminate.
Qed.

(** C19. The manifest used for a source file is the nearest one, searching its directory and up to ten levels
    of parents; nothing else is ever returned. *)
Theorem C19_nearest_manifest : forall f x d c,
  find_cargo_toml f (x :: d) = Some c <->
  exists k, k <= 10 /\ c = CARGO_TOML :: skipn k d /\ fs_is_file f c = true
    /\ forall j, j < k -> fs_is_file f (CARGO_TOML :: skipn j d) = false.
Proof. exact find_cargo_toml_spec. Qed.
Print Assumptions C19_nearest_manifest.

Theorem C19_none : forall f x d,
  find_cargo_toml f (x :: d) = None <-> forall k, k <= 10 -> fs_is_file f (CARGO_TOML :: skipn k d) = false.
Proof.
  intros f x d. split.
  - intros H. induction k as [k IH] using lt_wf_ind. intros Hk.
    destruct (fs_is_file f (CARGO_TOML :: skipn k d)) eqn:E; [|reflexivity].
    assert (Hs : find_cargo_toml f (x :: d) = Some (CARGO_TOML :: skipn k d))
      by (apply find_cargo_toml_spec; exists k; repeat split; auto; intros j Hj; apply IH; lia).
    congruence.
  - intros H. destruct (find_cargo_toml f (x :: d)) as [c|] eqn:E; [|reflexivity].
    apply find_cargo_toml_spec in E as [k [Hk [-> [Hf _]]]]. rewrite H in Hf by exact Hk. discriminate.
Qed.
Print Assumptions C19_none.
