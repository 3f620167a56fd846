(** C27 use declarations, C28 termination of path resolution, C29 paths of items, C68 resolution of module paths. *)
From Verif Require Import Base BaseFacts Unicode PositionModel TranslateModel CommandModel CallableModel
  ResolveModel ResolveSpec ResolveProofs.

(** ** C27 *)
(** Full statement: every use tree is flattened to exactly the paths and aliases it imports. Proved for trees whose
    paths are written without line breaks or comments in them and whose [self]s stand directly in a group with a path;
    see the refutations below for the others. *)
Theorem C27_use_tree_partial t : good_tree t ->
  (forall s a, In (s, a) (flatten_use_tree t) -> exists q, imports [] t q a /\ no_spaces s = join_colons q)
  /\ (forall q a, imports [] t q a -> exists s, In (s, a) (flatten_use_tree t) /\ no_spaces s = join_colons q).
Proof.
  intros (Hp & Hs & Hn). split.
  - intros s a Hin. destruct (flatten_sound t false Hp Hs s a Hin) as [[C _]|[_ (q & _ & E & Hi)]]; [destruct (Hn C)|].
    exists q. split; [exact (Hi []) | exact E].
  - intros q a Hi. destruct (flatten_complete t false Hp Hs [] q a Hi) as [[C _]|(q' & s & _ & -> & Hin & E & _)]; [destruct (Hn C)|].
    exists s. auto.
Qed.
(** What the declarations of a scope introduce: paths without an alias, and the path an alias stands for. *)
Theorem C27_scope_paths l :
  (forall c t, In c (n_children (fst (item_list_root l))) -> n_data c = DUse (Some t) -> good_tree t) ->
  forall s, In s (use_paths l) <-> exists q, introduces l q None /\ s = no_spaces (join_colons q).
Proof.
  intros H s. rewrite use_paths_In. split; [apply use_results_sound; exact H|].
  intros (q & Hi & ->). apply use_results_complete; assumption.
Qed.
Theorem C27_scope_aliases l a :
  (forall c t, In c (n_children (fst (item_list_root l))) -> n_data c = DUse (Some t) -> good_tree t) ->
  (forall q q', introduces l q (Some a) -> introduces l q' (Some a) -> q = q') ->
  forall s, assoc a (use_aliases l) = Some s <-> exists q, introduces l q (Some a) /\ s = no_spaces (join_colons q).
Proof.
  intros H Hu s. split.
  - intros E. apply use_aliases_get in E. destruct E as (l1 & l2 & E & _). apply (use_results_sound l H).
    rewrite E. apply in_app_iff. right. left. reflexivity.
  - intros (q & Hi & ->). apply (use_results_complete l H) in Hi as Hin.
    destruct (assoc a (use_aliases l)) as [s'|] eqn:E.
    + apply use_aliases_get in E. destruct E as (l1 & l2 & E & _).
      destruct (use_results_sound l H s' (Some a)) as (q' & Hi' & ->); [rewrite E; apply in_app_iff; right; left; reflexivity|].
      rewrite (Hu q q' Hi Hi'). reflexivity.
    + exfalso. clear Hu Hi.
      destruct (last_alias _ _ _ Hin) as (p & l1 & l2 & Er & Hl).
      assert (C : assoc a (use_aliases l) = Some p) by (apply use_aliases_get; exists l1, l2; auto).
      congruence.
Qed.

Definition ex_ps (l : list str) : path_syntax := PathSyntax l (join_colons l).
(** Valid Rust that is flattened wrongly: a group in a group loses [self], [use a::{{self}};] imports [a]; a line break in
    a path stays in the path. *)
Theorem C27_use_tree_refuted :
  exists t q a, imports [] t q a /\ plain_tree t /\ flatten_use_tree t = [].
Proof.
  set (t0 := UseTree (Some (ex_ps [lit "self"])) UNone None).
  exists (UseTree (Some (ex_ps [lit "a"])) (UList [UseTree None (UList [t0]) None]) None), [lit "a"], None.
  assert (H0 : imports [lit "a"] t0 [lit "a"] None).
  { apply (im_self [lit "a"] (ex_ps [lit "self"]) None); [reflexivity | discriminate]. }
  split; [|split; [|reflexivity]].
  - apply (im_list [] (Some (ex_ps [lit "a"])) _ None (UseTree None (UList [t0]) None)); [left; reflexivity|].
    apply (im_list [lit "a"] None _ None t0); [left; reflexivity | exact H0].
  - constructor; [intros p E; injection E as <-; split; [discriminate | reflexivity]|].
    intros l x E Hx. injection E as <-. destruct Hx as [<-|[]]. constructor; [discriminate|].
    intros l x E Hx. injection E as <-. destruct Hx as [<-|[]].
    constructor; [intros p E; injection E as <-; split; [discriminate | reflexivity]|]. discriminate.
Qed.
Theorem C27_line_break_refuted :
  exists t q, imports [] t q None /\ segments_of (let 'UseTree o _ _ := t in o) = q /\ forall s, In (s, None) (flatten_use_tree t) -> no_spaces s <> join_colons q.
Proof.
  exists (UseTree (Some (PathSyntax [lit "a"; lit "b"] (lit "a::" ++ [10%N] ++ lit "b"))) UNone None), [lit "a"; lit "b"].
  split; [|split; [reflexivity|]].
  - apply (im_path [] (PathSyntax [lit "a"; lit "b"] (lit "a::" ++ [10%N] ++ lit "b"))). discriminate.
  - intros s [E|[]]. apply (f_equal fst) in E. cbn [fst] in E. subst s. vm_compute. discriminate.
Qed.
Definition ex_use (l : list str) (a : option str) : use_tree := UseTree (Some (ex_ps l)) UNone a.
(** [use a::{self as x, b::{c, d::*}, e :: f};] *)
Definition ex_tree : use_tree :=
  UseTree (Some (ex_ps [lit "a"])) (UList [ex_use [SELF] (Some (lit "x"));
    UseTree (Some (ex_ps [lit "b"])) (UList [ex_use [lit "c"] None; UseTree (Some (ex_ps [lit "d"])) UStar None]) None;
    UseTree (Some (PathSyntax [lit "e"; lit "f"] (lit "e :: f"))) UNone None]) None.
Example C27_example :
  good_tree ex_tree
  /\ flatten_use_tree ex_tree
     = [(lit "a", Some (lit "x")); (lit "a::b::c", None); (lit "a::b::d::*", None); (lit "a::e::f", None)].
Proof.
  split; [|reflexivity].
  assert (HP : forall p, (p = ex_ps [lit "a"] \/ p = ex_ps [lit "b"] \/ p = ex_ps [lit "c"] \/ p = ex_ps [lit "d"] \/ p = ex_ps [SELF]
    \/ p = PathSyntax [lit "e"; lit "f"] (lit "e :: f")) ->
    ps_segments p <> [] /\ no_spaces (ps_text p) = join_colons (ps_segments p)).
  { intros p [->|[->|[->|[->|[->| ->]]]]]; (split; [discriminate | reflexivity]). }
  split; [|split].
  - constructor; [intros p E; injection E as <-; apply HP; auto|].
    intros l t E Ht. injection E as <-. destruct Ht as [<-|[<-|[<-|[]]]].
    + constructor; [intros p E; injection E as <-; apply HP; auto 10 | discriminate].
    + constructor; [intros p E; injection E as <-; apply HP; auto 10|].
      intros l t E Ht. injection E as <-. destruct Ht as [<-|[<-|[]]];
        (constructor; [intros p E; injection E as <-; apply HP; auto 10 | discriminate]).
    + constructor; [intros p E; injection E as <-; apply HP; auto 10 | discriminate].
  - constructor; [discriminate | discriminate|].
    intros t [<-|[<-|[<-|[]]]]; try (constructor; fail).
    constructor; [intros _ C; vm_compute in C; discriminate | discriminate|].
    intros t [<-|[<-|[]]]; constructor.
  - intros (p & a & E & _). discriminate.
Qed.

(** ** C28 *)
(** The bound on the depth of a call does not matter once the call ends. *)
Theorem C28_depth parse want p ref n m r : n <= m ->
  (resolve_qualifier parse n p ref = Ret r -> resolve_qualifier parse m p ref = Ret r)
  /\ (resolve_item parse want n p ref = Ret r -> resolve_item parse want m p ref = Ret r).
Proof. intros H. split; [apply qualifier_more; exact H | apply item_more; exact H]. Qed.
(** Full statement: resolving any path in any file ends. Proved for files whose use declarations and type aliases refer to
    other crates only; refuted below for others. *)
Theorem C28_terminates_partial parse root : parser_ok parse -> uses_crates_only root ->
  forall ref, in_file root ref ->
    (forall p, terminates (fun n => resolve_qualifier parse n p ref))
    /\ (forall want p, terminates (fun n => resolve_item parse want n p ref))
    /\ (forall crates, terminates (fun n => external_uses parse crates n ref)).
Proof.
  intros Hp Hr ref H. split; [|split].
  - intros p. exists 2. destruct (qualifier_terminates parse Hp root Hr 0 p ref H) as (o & E & _). rewrite E. discriminate.
  - intros want p. exists 3. apply (item_terminates parse Hp root Hr want 0 p ref H).
  - intros crates. exists 3. apply (external_terminates parse Hp root Hr crates 0 ref H).
Qed.
Definition use_node (i : nat) (t : use_tree) : snode := SNode i (DUse (Some t)) [].
Definition glob (g : list str) : use_tree := UseTree (Some (ex_ps g)) UStar None.
Lemma other_results l : (forall c, In c l -> forall t, n_data c <> DUse t) -> (forall c, In c l -> forall a t, n_data c <> DTypeAlias a t) ->
  forall up, flat_map (fun c : place => use_results_of (fst c)) (map (fun c => (c, up)) l) = [].
Proof.
  intros H1 H2 up. induction l as [|c l IH]; [reflexivity|]. cbn [map flat_map fst].
  rewrite IH; [|intros d Hd; apply H1; right; exact Hd | intros d Hd; apply H2; right; exact Hd].
  rewrite app_nil_r. unfold use_results_of. specialize (H1 c (or_introl eq_refl)). specialize (H2 c (or_introl eq_refl)).
  destruct (n_data c) as [| | | | | |t|a t| | |]; try reflexivity; [destruct (H1 t eq_refl) | destruct (H2 a t eq_refl)].
Qed.
Lemma glob_node_text i g : g <> [] -> Forall identifier g ->
  map (fun x : str * option str => (no_spaces (fst x), snd x)) (use_results_of (use_node i (glob g))) = [(glob_text g, None)].
Proof.
  intros Hg Hi. change ([(no_spaces (join_colons g ++ lit "::*"), @None str)] = [(glob_text g, None)]). rewrite no_spaces_app.
  rewrite join_no_space; [reflexivity|]. intros s Hs. apply ident_chars. rewrite Forall_forall in Hi. exact (Hi s Hs).
Qed.
(** A contract with two glob imports: looking up any name that its module does not declare never ends, whatever else the
    module holds. *)
Theorem C28_two_globs_refuted parse : parser_ok parse ->
  forall g1 g2, g1 <> [] -> g2 <> [] -> Forall identifier g1 -> Forall identifier g2 -> g1 <> g2 ->
  forall i j k l name items up want z ref,
    (forall c, In c items -> (forall t, n_data c <> DUse t) /\ (forall a t, n_data c <> DTypeAlias a t)) ->
    identifier z -> (forall c, In c items -> want c = true -> n_name c <> Some z) ->
    scope_of ref (SNode i (DModule name) [SNode j DItemList (use_node k (glob g1) :: use_node l (glob g2) :: items)], up) ->
    runs_forever (fun n => resolve_item parse want n [name_seg z] ref).
Proof.
  intros Hp g1 g2 Hn1 Hn2 Hi1 Hi2 Hd i j k l name items up want z ref Hits Hz Hw Href n.
  apply scope_of_current in Href.
  set (m := (SNode i (DModule name) [SNode j DItemList (use_node k (glob g1) :: use_node l (glob g2) :: items)], up)) in *.
  assert (Hil : item_list_root m = (SNode j DItemList (use_node k (glob g1) :: use_node l (glob g2) :: items), fst m :: up)) by reflexivity.
  apply (glob_item parse Hp g1 g2 (conj Hn1 Hi1) (conj Hn2 Hi2) Hd m).
  - reflexivity.
  - rewrite Hil. apply scope_of_current. apply sc_up; [reflexivity|]. apply (sc_module m). reflexivity.
  - rewrite Hil. reflexivity.
  - unfold use_results. rewrite Hil. unfold children_at. cbn [fst snd n_children map flat_map].
    rewrite other_results by (intros c Hc; apply Hits; exact Hc). rewrite app_nil_r, map_app.
    rewrite (glob_node_text k g1 Hn1 Hi1), (glob_node_text l g2 Hn2 Hi2). reflexivity.
  - reflexivity.
  - exact Hz.
  - exact Href.
  - rewrite Hil. destruct (find _ _) as [c|] eqn:E; [|reflexivity]. exfalso. apply find_some in E. destruct E as [Hc E].
    unfold children_at in Hc. apply in_map_iff in Hc. destruct Hc as (c' & <- & Hc). cbn [fst n_children] in E, Hc.
    apply andb_true_iff in E. destruct E as [E1 E2]. unfold named in E2. destruct (n_name c') as [s|] eqn:En; [|discriminate].
    apply str_eqb_eq in E2. subst s.
    destruct Hc as [<-|[<-|Hc]]; [discriminate | discriminate | exact (Hw c' Hc E1 En)].
Qed.
(** [use self::b as a; use self::a as b;]: resolving [self::a] never ends. *)
Theorem C28_alias_cycle_refuted parse : parser_ok parse ->
  forall a b, identifier a -> identifier b -> a <> b ->
  forall i j k want,
    let root := SNode i DRoot [use_node j (ex_use [SELF; b] (Some a)); use_node k (ex_use [SELF; a] (Some b))] in
    runs_forever (fun n => resolve_item parse want n [self_seg; name_seg a] (root, [])).
Proof.
  intros Hp a b Ha Hb Hab i j k want root n.
  apply (cycle_item parse Hp a b Ha Hb Hab (root, [])) with (y := b); try reflexivity; [| |left; auto].
  - assert (E : forall x, identifier x -> no_spaces (no_spaces (join_colons [SELF; x])) = lit "self::" ++ x).
    { intros x Hx. rewrite no_spaces_idem. change (join_colons [SELF; x]) with (SELF ++ lit "::" ++ x).
      rewrite !no_spaces_app, (ident_no_space x (ident_chars x Hx)). reflexivity. }
    change ([(no_spaces (no_spaces (join_colons [SELF; b])), Some a); (no_spaces (no_spaces (join_colons [SELF; a])), Some b)]
            = [(lit "self::" ++ b, Some a); (lit "self::" ++ a, Some b)]).
    rewrite (E b Hb), (E a Ha). reflexivity.
  - intros c [<-|[<-|[]]]; reflexivity.
Qed.
(** [mod a { use super::*; } use a::*;]: looking for what the file uses of other crates never ends. *)
Definition cycle_file : snode :=
  SNode 0 DRoot [SNode 1 (DModule (Some (lit "a"))) [SNode 2 DItemList [use_node 3 (glob [lit "super"])]];
                 use_node 4 (glob [lit "a"])].
Theorem C28_glob_cycle_refuted parse : parser_ok parse ->
  runs_forever (fun n => external_uses parse [lit "ink"] n (cycle_file, [])).
Proof.
  intros Hp. unfold runs_forever.
  set (M := (SNode 1 (DModule (Some (lit "a"))) [SNode 2 DItemList [use_node 3 (glob [lit "super"])]], [cycle_file]) : place).
  assert (Pa : parse (lit "a::*") = Some [name_seg (lit "a"); star_seg]).
  { apply (proj2 (Hp [name_seg (lit "a")] ltac:(apply (names_plain (lit "a") []); constructor; [|constructor];
      (split; [discriminate|]; split; [reflexivity|]; intros C; vm_compute in C; intuition discriminate)))). }
  assert (Ps : parse (lit "super::*") = Some [super_seg; star_seg]).
  { apply (proj2 (Hp [super_seg] ltac:(exists super_seg, []; split; [reflexivity|]; split; [|constructor]; right; exists WSuper;
      split; [right; right; left; reflexivity | reflexivity]))). }
  assert (Ea : use_paths (cycle_file, []) = [lit "a::*"]) by reflexivity.
  assert (Em : use_paths M = [lit "super::*"]) by reflexivity.
  assert (HS : forall mat place s, use_paths place = [s] -> is_crate_item_path s [lit "ink"] = false -> mat s place = Spent ->
    external_uses_step parse mat [lit "ink"] place = Spent).
  { intros mat place s E1 E2 E3. unfold external_uses_step. rewrite E1. cbn [fold_res]. rewrite E2, E3. reflexivity. }
  assert (HM : forall n s w node ref, parse s = Some [w; star_seg] ->
    target_name [w; star_seg] = Some (lit "*") ->
    (forall k, resolve_qualifier parse (S k) [w] ref = Ret (Some node)) ->
    (forall k, k < n -> external_uses_step parse (match_path parse [lit "ink"] k) [lit "ink"] node = Spent) ->
    match_path parse [lit "ink"] n s ref = Spent).
  { intros [|n] s w node ref E1 E2 E3 E4; [reflexivity|]. cbn [match_path]. unfold match_path_step at 1.
    rewrite E1. change (qualifier [w; star_seg]) with (Some [w]). rewrite E2.
    destruct n as [|n]; [reflexivity|]. rewrite E3. change (str_eqb (lit "*") (lit "*")) with true. cbv iota.
    rewrite (E4 n); [reflexivity | lia]. }
  assert (G : forall n, match_path parse [lit "ink"] n (lit "a::*") (cycle_file, []) = Spent).
  { induction n as [n IH] using lt_wf_ind. apply (HM n _ (name_seg (lit "a")) M); [exact Pa | reflexivity | reflexivity|].
    intros k Hk. apply (HS _ M (lit "super::*") Em eq_refl).
    apply (HM k _ super_seg (cycle_file, [])); [exact Ps | reflexivity | reflexivity|].
    intros k' Hk'. apply (HS _ (cycle_file, []) (lit "a::*") Ea eq_refl). apply IH. lia. }
  intros [|n]; [reflexivity|]. cbn [external_uses]. apply (HS _ _ (lit "a::*") Ea eq_refl). apply G.
Qed.
Lemma ex_identifier s : s <> [] -> forallb ident_char s = true ->
  existsb (str_eqb s) [lit "crate"; lit "self"; lit "super"] = false -> identifier s.
Proof.
  intros H1 H2 H3. split; [exact H1|]. split; [exact H2|]. intros C. rewrite <- not_true_iff_false in H3. apply H3.
  apply existsb_exists. exists s. split; [exact C | apply str_eqb_refl].
Qed.
Ltac ident := apply ex_identifier; [discriminate | reflexivity | reflexivity].
(** [use ink::prelude::*; use psp22::*; impl ..] in a contract: the parser of the examples, a file that uses other crates
    only, and a contract that is searched forever. *)
Definition ex_crates_file : snode :=
  SNode 0 DRoot [use_node 1 (ex_use [lit "ink"; lit "storage"; lit "Mapping"] None);
                 SNode 2 (DModule (Some (lit "flipper"))) [SNode 3 DItemList
                   [use_node 4 (ex_use [lit "psp22"; lit "PSP22"] (Some (lit "Token"))); SNode 5 (DNamed 0 (Some (lit "Flipper"))) []]]].
Lemma ex_crates_places l : in_file ex_crates_file l -> In (n_id (fst l)) [0; 1; 2; 3; 4; 5]
  /\ (forall q a, introduces l q a -> (q = [lit "ink"; lit "storage"; lit "Mapping"] /\ a = None)
        \/ (q = [lit "psp22"; lit "PSP22"] /\ a = Some (lit "Token")))
  /\ (is_module (fst l) = true -> n_name (fst l) = Some (lit "flipper"))
  /\ (forall c, In c (n_children (fst l)) -> match n_data c with
        | DUse t => t = Some (ex_use [lit "ink"; lit "storage"; lit "Mapping"] None)
                    \/ t = Some (ex_use [lit "psp22"; lit "PSP22"] (Some (lit "Token")))
        | DTypeAlias _ _ => False | _ => True end).
Proof.
  intros H.
  assert (HL : In l [(ex_crates_file, []);
     (use_node 1 (ex_use [lit "ink"; lit "storage"; lit "Mapping"] None), [ex_crates_file]);
     (nth 1 (n_children ex_crates_file) ex_crates_file, [ex_crates_file]);
     (nth 0 (n_children (nth 1 (n_children ex_crates_file) ex_crates_file)) ex_crates_file,
        [nth 1 (n_children ex_crates_file) ex_crates_file; ex_crates_file]);
     (use_node 4 (ex_use [lit "psp22"; lit "PSP22"] (Some (lit "Token"))),
        [nth 0 (n_children (nth 1 (n_children ex_crates_file) ex_crates_file)) ex_crates_file;
         nth 1 (n_children ex_crates_file) ex_crates_file; ex_crates_file]);
     (SNode 5 (DNamed 0 (Some (lit "Flipper"))) [],
        [nth 0 (n_children (nth 1 (n_children ex_crates_file) ex_crates_file)) ex_crates_file;
         nth 1 (n_children ex_crates_file) ex_crates_file; ex_crates_file])]).
  { induction H as [|l c _ IH Hc]; [left; reflexivity|].
    destruct IH as [<-|[<-|[<-|[<-|[<-|[<-|[]]]]]]]; cbn in Hc.
    - destruct Hc as [<-|[<-|[]]]; cbn; auto.
    - destruct Hc.
    - destruct Hc as [<-|[]]; cbn; auto.
    - destruct Hc as [<-|[<-|[]]]; cbn; auto 10.
    - destruct Hc.
    - destruct Hc. }
  assert (HU : forall p a q b, imports [] (ex_use p a) q b -> p <> [SELF] -> q = p /\ b = a).
  { intros p a q b Hi Hs. inversion Hi as [pre p' a' Hne E1 E2 E3 | pre p' a' He Hne | |]; subst; [auto | contradiction]. }
  clear H. split; [|split; [|split]].
  - destruct HL as [<-|[<-|[<-|[<-|[<-|[<-|[]]]]]]]; cbn; auto 10.
  - intros q a Hi. destruct Hi as [c t q a Hc Hd Hi | c name ty Hc Hd].
    + destruct HL as [<-|[<-|[<-|[<-|[<-|[<-|[]]]]]]]; cbn in Hc;
        repeat (destruct Hc as [<-|Hc]; [first [discriminate Hd | cbn in Hd; injection Hd as <-;
          apply HU in Hi; [|intros C; vm_compute in C; discriminate C]; destruct Hi as [-> ->]; auto]|]); destruct Hc.
    + exfalso. destruct HL as [<-|[<-|[<-|[<-|[<-|[<-|[]]]]]]]; cbn in Hc;
        repeat (destruct Hc as [<-|Hc]; [discriminate Hd|]); destruct Hc.
  - destruct HL as [<-|[<-|[<-|[<-|[<-|[<-|[]]]]]]]; cbn; congruence.
  - intros c Hc. destruct HL as [<-|[<-|[<-|[<-|[<-|[<-|[]]]]]]]; cbn in Hc;
      repeat (destruct Hc as [<-|Hc]; [cbn; auto|]); destruct Hc.
Qed.
Example C28_example :
  parser_ok simple_parse /\ uses_crates_only ex_crates_file
  /\ (let m := (SNode 2 (DModule (Some (lit "flipper"))) [SNode 3 DItemList
                 [use_node 4 (glob [lit "ink"; lit "prelude"]); use_node 5 (glob [lit "psp22"]);
                  SNode 6 (DNamed 0 (Some (lit "Flipper"))) []]], [SNode 0 DRoot []]) : place in
      runs_forever (fun n => resolve_item simple_parse (fun _ => true) n [name_seg (lit "PSP22")] m)).
Proof.
  split; [exact simple_parse_ok|]. split.
  - assert (HF : forall n, (n = lit "ink" \/ n = lit "psp22") -> foreign ex_crates_file n).
    { intros n Hn. split.
      - intros l Hl Hm E. apply ex_crates_places in Hl. rewrite (proj1 (proj2 (proj2 Hl)) Hm) in E. injection E as <-.
        destruct Hn; discriminate.
      - intros l q a Hl Hi. apply ex_crates_places in Hl. destruct (proj1 (proj2 Hl) q a Hi) as [[-> ->]|[-> ->]];
          (split; [destruct Hn as [->| ->]; discriminate|]); intros (k & Hk & E).
        + change [lit "ink"; lit "storage"; lit "Mapping"] with ([lit "ink"; lit "storage"] ++ [lit "Mapping"]) in E.
          apply app_inj_tail in E. destruct E as [_ <-]. destruct Hn; discriminate.
        + change [lit "psp22"; lit "PSP22"] with ([lit "psp22"] ++ [lit "PSP22"]) in E.
          apply app_inj_tail in E. destruct E as [_ <-]. destruct Hn; discriminate. }
    split; [|split].
    + intros l q a Hl Hi. apply ex_crates_places in Hl. destruct (proj1 (proj2 Hl) q a Hi) as [[-> _]|[-> _]].
      * exists (lit "ink"), [lit "storage"; lit "Mapping"]. split; [reflexivity|]. split; [repeat (constructor; [ident|]); constructor | apply HF; auto].
      * exists (lit "psp22"), [lit "PSP22"]. split; [reflexivity|]. split; [repeat (constructor; [ident|]); constructor | apply HF; auto].
    + intros l c t Hl Hc Hd. apply ex_crates_places in Hl. pose proof (proj2 (proj2 (proj2 Hl)) c Hc) as H. rewrite Hd in H.
      assert (HG : forall p a, p <> [] -> p <> [SELF] -> no_spaces (join_colons p) = join_colons p -> good_tree (ex_use p a)).
      { intros p a H1 H2 H3. split; [|split].
        - constructor; [intros x E; injection E as <-; auto | discriminate].
        - constructor.
        - intros (x & b & E & Ex). injection E as <- _. exact (H2 Ex). }
      destruct H as [H|H]; injection H as ->; apply HG; (discriminate || reflexivity).
    + intros l c name ty Hl Hc Hd. apply ex_crates_places in Hl. pose proof (proj2 (proj2 (proj2 Hl)) c Hc) as H. rewrite Hd in H. destruct H.
  - intros m. apply (C28_two_globs_refuted simple_parse simple_parse_ok [lit "ink"; lit "prelude"] [lit "psp22"])
      with (i := 2) (j := 3) (k := 4) (l := 5) (name := Some (lit "flipper"))
           (items := [SNode 6 (DNamed 0 (Some (lit "Flipper"))) []]) (up := [SNode 0 DRoot []]); try discriminate.
    + repeat (constructor; [ident|]); constructor.
    + repeat (constructor; [ident|]); constructor.
    + intros c [<-|[]]. split; discriminate.
    + ident.
    + intros c [<-|[]] _ C. discriminate.
    + apply sc_module. reflexivity.
Qed.

(** ** C29 *)
(** Full statement: the path of an item is [crate], the modules around it, outermost first, and its name. Proved for items
    with at most one module around them; refuted for more. *)
Theorem C29_item_path_partial l name : is_module (fst l) = false -> n_name (fst l) = Some name ->
  length (enclosing_modules l) <= 1 ->
  item_path l = Some (join_colons (lit "crate" :: enclosing_modules l ++ [name])).
Proof.
  intros Hm Hn Hl. unfold item_path. rewrite Hn. cbn [option_map].
  assert (E : filter_map (fun a : place => if is_module (fst a) then n_name (fst a) else None) (ancestors_at l)
              = filter_map module_name (snd l)).
  { destruct l as [n up]. unfold ancestors_at. cbn [fst snd] in *. destruct up as [|p up]; cbn [ancestors_from filter_map fst]; rewrite Hm; [reflexivity|].
    clear. revert p. induction up as [|q up IH]; intros p; [reflexivity|].
    change (ancestors_from p (q :: up)) with ((p, q :: up) :: ancestors_from q up).
    cbn [filter_map fst]. cbn [filter_map] in IH. unfold module_name at 1. rewrite IH. reflexivity. }
  match goal with |- context [filter_map ?f (ancestors_at l)] =>
    replace (filter_map f (ancestors_at l)) with (filter_map module_name (snd l)) by (symmetry; exact E) end.
  unfold enclosing_modules in *. rewrite rev_length in Hl.
  destruct (filter_map module_name (snd l)) as [|x [|y k]]; [reflexivity | reflexivity | cbn in Hl; lia].
Qed.
Theorem C29_item_path_refuted : exists root l name,
  in_file root l /\ is_module (fst l) = false /\ n_name (fst l) = Some name
  /\ item_path l <> Some (join_colons (lit "crate" :: enclosing_modules l ++ [name])).
Proof.
  set (x := SNode 5 (DNamed 0 (Some (lit "X"))) []).
  set (lb := SNode 4 DItemList [x]). set (b := SNode 3 (DModule (Some (lit "b"))) [lb]).
  set (la := SNode 2 DItemList [b]). set (a := SNode 1 (DModule (Some (lit "a"))) [la]).
  set (r := SNode 0 DRoot [a]).
  exists r, (x, [lb; b; la; a; r]), (lit "X"). split; [|split; [reflexivity | split; [reflexivity | vm_compute; discriminate]]].
  apply (if_child r (lb, [b; la; a; r]) x); [|left; reflexivity].
  apply (if_child r (b, [la; a; r]) lb); [|left; reflexivity].
  apply (if_child r (la, [a; r]) b); [|left; reflexivity].
  apply (if_child r (a, [r]) la); [|left; reflexivity].
  apply (if_child r (r, []) a); [apply if_root | left; reflexivity].
Qed.
Example C29_example :
  item_path (SNode 3 (DNamed 0 (Some (lit "Env"))) [], [SNode 2 DItemList []; SNode 1 (DModule (Some (lit "contract"))) []; SNode 0 DRoot []])
  = Some (lit "crate::contract::Env").
Proof. reflexivity. Qed.

(** ** C68 *)
(** Full statement: a path of modules resolves to the item it names. Proved for items of the current module, its parent, the
    file and the modules of the file; refuted below for deeper modules. *)
Theorem C68_current_module_partial parse want name ref m x f :
  scope_of ref m -> declares_item want name m x ->
  resolve_item parse want (S (S f)) [name_seg name] ref = Ret (Some x)
  /\ resolve_item parse want (S (S f)) [self_seg; name_seg name] ref = Ret (Some x).
Proof.
  intros Hs Hd. apply scope_of_current in Hs. split.
  - apply (find_item parse want (S f) _ name ref m); [reflexivity | cbn; rewrite Hs; reflexivity | exact Hd].
  - apply (find_item parse want (S f) _ name ref m); [reflexivity | | exact Hd].
    cbn [qualifier removelast]. rewrite rq_S. cbn. rewrite Hs. reflexivity.
Qed.
Theorem C68_parent_module_partial parse want name ref m p up pm x f :
  scope_of ref (m, p :: up) -> scope_of (p, up) pm -> declares_item want name pm x ->
  resolve_item parse want (S (S f)) [super_seg; name_seg name] ref = Ret (Some x).
Proof.
  intros Hs Hp Hd. apply scope_of_current in Hs, Hp.
  apply (find_item parse want (S f) _ name ref pm); [reflexivity | | exact Hd].
  cbn [qualifier removelast]. rewrite rq_S. cbn [qbody super_seg sg_colons sg_word qrest]. rewrite Hs.
  cbn [parent_at snd option_map]. rewrite Hp. reflexivity.
Qed.
Theorem C68_file_partial parse want name root ref x f :
  in_file root ref -> declares_item want name (root, []) x ->
  resolve_item parse want (S (S f)) [crate_seg; name_seg name] ref = Ret (Some x).
Proof.
  intros Hr Hd. apply (find_item parse want (S f) _ name ref (root, [])); [reflexivity | | exact Hd].
  cbn [qualifier removelast]. rewrite rq_S. cbn [qbody crate_seg sg_colons sg_word qrest].
  rewrite (crate_root_is root ref Hr). reflexivity.
Qed.
Theorem C68_file_module_partial parse want name mname md root ref x f :
  in_file root ref -> only (module_named mname) (n_children root) md -> declares_item want name (md, [root]) x ->
  resolve_item parse want (S (S f)) [crate_seg; name_seg mname; name_seg name] ref = Ret (Some x)
  /\ resolve_item parse want (S (S f)) [global_seg mname; name_seg name] ref = Ret (Some x)
  /\ (scope_of ref (root, []) ->
      resolve_item parse want (S (S f)) [name_seg mname; name_seg name] ref = Ret (Some x)).
Proof.
  intros Hr Hm Hd. pose proof (find_module mname (root, []) md Hm) as Ec. cbn [fst snd] in Ec.
  pose proof (crate_root_is root ref Hr) as Er.
  split; [|split].
  - apply (find_item parse want (S f) _ name ref (md, [root])); [reflexivity | | exact Hd].
    cbn [qualifier removelast]. rewrite rq_S. unfold qbody. cbn [crate_seg sg_colons sg_word]. rewrite Er.
    cbn [qrest name_seg seg_name sg_word word_text]. unfold qnext. rewrite Ec. reflexivity.
  - apply (find_item parse want (S f) _ name ref (md, [root])); [reflexivity | | exact Hd].
    cbn [qualifier removelast]. rewrite rq_S. unfold qbody. cbn [global_seg sg_colons sg_word seg_name word_text]. rewrite Er.
    unfold qnext. rewrite Ec. reflexivity.
  - intros Hs. apply scope_of_current in Hs.
    apply (find_item parse want (S f) _ name ref (md, [root])); [reflexivity | | exact Hd].
    cbn [qualifier removelast]. rewrite rq_S. unfold qbody. cbn [name_seg sg_colons sg_word seg_name word_text]. rewrite Hs.
    unfold qnext. rewrite Ec. reflexivity.
Qed.
(** [mod a { mod b { struct X; } } struct Y;]: [crate::a::b::X] is not found, nor is [super::super::Y] from [b]. *)
Definition ex_x := SNode 5 (DNamed 0 (Some (lit "X"))) [].
Definition ex_lb := SNode 4 DItemList [ex_x].
Definition ex_b := SNode 3 (DModule (Some (lit "b"))) [ex_lb].
Definition ex_la := SNode 2 DItemList [ex_b].
Definition ex_a := SNode 1 (DModule (Some (lit "a"))) [ex_la].
Definition ex_y := SNode 6 (DNamed 0 (Some (lit "Y"))) [].
Definition ex_root := SNode 0 DRoot [ex_a; ex_y].
Definition ex_struct (n : snode) : bool := match n_data n with DNamed _ _ => true | _ => false end.
Definition ex_place_b : place := (ex_b, [ex_la; ex_a; ex_root]).
Lemma ex_b_in_file : in_file ex_root ex_place_b.
Proof.
  apply (if_child ex_root (ex_la, [ex_a; ex_root]) ex_b); [|left; reflexivity].
  apply (if_child ex_root (ex_a, [ex_root]) ex_la); [|left; reflexivity].
  apply (if_child ex_root (ex_root, []) ex_a); [apply if_root | left; reflexivity].
Qed.
Theorem C68_nested_refuted parse : exists root m name x, in_file root m /\ enclosing_modules m = [lit "a"] /\ module_named (lit "b") (fst m)
  /\ declares_item ex_struct name m x
  /\ forall f, resolve_item parse ex_struct (S (S (S f))) [crate_seg; name_seg (lit "a"); name_seg (lit "b"); name_seg name] (root, []) = Ret None.
Proof.
  exists ex_root, ex_place_b, (lit "X"), (ex_x, [ex_lb; ex_b; ex_la; ex_a; ex_root]).
  split; [exact ex_b_in_file|]. split; [reflexivity|]. split; [exists (lit "b"); split; reflexivity|]. split.
  - exists (ex_lb, [ex_b; ex_la; ex_a; ex_root]), ex_x. split; [reflexivity|]. split.
    + exists [], []. split; [reflexivity|]. split; [split; reflexivity | intros y []].
    + right. split; [reflexivity|]. exists ex_lb. split; [|reflexivity]. exists [], []. split; [reflexivity|]. split; [reflexivity | intros y []].
  - intros f. reflexivity.
Qed.
Theorem C68_super_super_refuted parse : exists root ref name x, in_file root ref /\ length (enclosing_modules ref) = 1 /\ is_module (fst ref) = true
  /\ declares_item ex_struct name (root, []) x
  /\ forall f, resolve_item parse ex_struct (S (S (S f))) [super_seg; super_seg; name_seg name] ref = Ret None.
Proof.
  exists ex_root, ex_place_b, (lit "Y"), (ex_y, [ex_root]).
  split; [exact ex_b_in_file|]. split; [reflexivity|]. split; [reflexivity|]. split.
  - exists (ex_root, []), ex_y. split; [reflexivity|]. split.
    + exists [ex_a], []. split; [reflexivity|]. split; [split; reflexivity|]. intros y [<-|[]] [C _]. discriminate.
    + left. auto.
  - intros f. reflexivity.
Qed.
Example C68_example :
  let root := SNode 0 DRoot [SNode 1 (DModule (Some (lit "erc20"))) [SNode 2 DItemList [SNode 3 (DNamed 0 (Some (lit "Erc20"))) []]];
                             SNode 4 (DNamed 0 (Some (lit "Error"))) []] in
  let md := nth 0 (n_children root) root in
  declares_item ex_struct (lit "Error") (root, []) (SNode 4 (DNamed 0 (Some (lit "Error"))) [], [root])
  /\ only (module_named (lit "erc20")) (n_children root) md
  /\ resolve_item simple_parse ex_struct 2 [crate_seg; name_seg (lit "erc20"); name_seg (lit "Erc20")] (root, [])
     = Ret (Some (SNode 3 (DNamed 0 (Some (lit "Erc20"))) [], [nth 0 (n_children md) md; md; root])).
Proof.
  cbv zeta. split; [|split; [|reflexivity]].
  - eexists (_, []), _. split; [reflexivity|]. split; [|left; split; [reflexivity | split; reflexivity]].
    eexists [_], []. split; [reflexivity|]. split; [split; reflexivity|]. intros y [<-|[]] [C _]. discriminate.
  - exists [], [SNode 4 (DNamed 0 (Some (lit "Error"))) []]. split; [reflexivity|]. split; [exists (lit "erc20"); auto|].
    intros y [<-|[]] (s & C & _). discriminate.
Qed.
Print Assumptions C27_use_tree_partial.
Print Assumptions C27_scope_paths.
Print Assumptions C27_scope_aliases.
Print Assumptions C27_use_tree_refuted.
Print Assumptions C27_line_break_refuted.
Print Assumptions C28_depth.
Print Assumptions C28_terminates_partial.
Print Assumptions C28_two_globs_refuted.
Print Assumptions C28_alias_cycle_refuted.
Print Assumptions C28_glob_cycle_refuted.
Print Assumptions C29_item_path_partial.
Print Assumptions C29_item_path_refuted.
Print Assumptions C68_current_module_partial.
Print Assumptions C68_parent_module_partial.
Print Assumptions C68_file_partial.
Print Assumptions C68_file_module_partial.
Print Assumptions C68_nested_refuted.
Print Assumptions C68_super_super_refuted.
