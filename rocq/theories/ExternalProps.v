(** C85 items of other crates. *)
From Verif Require Import Base BaseFacts Unicode PositionModel TranslateModel CommandModel CallableModel
  ResolveModel ResolveSpec ResolveProofs ResolveProps ExternalModel ExternalSpec ExternalProofs.

(** ** C85 *)
(** Whatever the module around the path imports and however: a path that stands for an item of the crates is recognised. *)
Theorem C85_recognised parse Q name tail ws q ref m n :
  good_qualifiers Q -> identifier name -> Forall identifier ws ->
  scope_of ref m -> imports_from m (crate_names Q) ->
  In q Q -> denotes m (crate_names Q) ws (q ++ [name]) ->
  is_external parse name (map join_colons Q) (S (S n)) (written false ws tail) ref = Ret true.
Proof.
  intros HQ Hname Hws Href Hm Hq Hd. apply scope_of_current in Href. cbn [is_external]. rewrite Href.
  rewrite crates_of_join by exact HQ. rewrite (module_uses m (crate_names Q) Hm).
  assert (Hne : ws <> []) by (inversion Hd; discriminate).
  rewrite Forall_forall in Hws.
  pose proof (scope_spec (use_paths m, use_aliases m) name tail ws Hws) as H.
  assert (Ha : forall a s, In (a, s) (snd (use_paths m, use_aliases m)) -> nocolon a).
  { intros a s Hin. cbn [snd] in Hin. apply (aliases_In m (crate_names Q) Hm) in Hin. destruct Hin as (q' & Hi & _).
    apply ident_nocolon. apply (proj1 (proj2 (proj2 Hm)) q' a Hi). }
  specialize (H Ha Q Hne HQ (proj1 Hname)). destruct H as [_ H].
  destruct (HQ q Hq) as [Hqn Hqi]. rewrite Forall_forall in Hqi. destruct q as [|c r]; [congruence|].
  assert (Hs : stands_for (use_paths m, use_aliases m) ws ((c :: r) ++ [name])).
  { apply (stands_denotes m (crate_names Q) Hm ws ((c :: r) ++ [name]) c (r ++ [name])); [reflexivity| | |exact Hd].
    - unfold crate_names. apply filter_map_In. exists (c :: r). auto.
    - intros x Hx. apply in_app_iff in Hx. destruct Hx as [Hx|[<-|[]]]; [apply Hqi, Hx | exact Hname]. }
  specialize (H (ex_intro _ _ (conj Hq Hs))). apply orb_true_iff in H. destruct H as [-> | ->]; [reflexivity|].
  destruct (_ && _); reflexivity.
Qed.
(** Full statement: nothing else is recognised. Proved for a module that imports from the crates only and a path that is
    not that of a type alias of the file; see the refutations below for [::] and local modules. *)
Theorem C85_sound_partial parse Q name tail ws ref m n :
  good_qualifiers Q -> identifier name -> Forall identifier ws -> ws <> [] ->
  scope_of ref m -> imports_from m (crate_names Q) -> no_type_alias parse (written false ws tail) m ->
  is_external parse name (map join_colons Q) n (written false ws tail) ref = Ret true ->
  exists q, In q Q /\ denotes m (crate_names Q) ws (q ++ [name]).
Proof.
  intros HQ Hname Hws Hne Href Hm Hnt H. apply scope_of_current in Href. destruct n as [|n]; [discriminate|].
  cbn [is_external] in H. rewrite Href in H. rewrite crates_of_join in H by exact HQ.
  rewrite Forall_forall in Hws.
  assert (Ha : forall a s, In (a, s) (snd (use_paths m, use_aliases m)) -> nocolon a).
  { intros a s Hin. cbn [snd] in Hin. apply (aliases_In m (crate_names Q) Hm) in Hin. destruct Hin as (q' & Hi & _).
    apply ident_nocolon. apply (proj1 (proj2 (proj2 Hm)) q' a Hi). }
  pose proof (scope_spec (use_paths m, use_aliases m) name tail ws Hws Ha Q Hne HQ (proj1 Hname)) as [G _].
  assert (Hok : (is_path_target name (written false ws tail) && has_qualifier (written false ws tail) (map join_colons Q) false
     || known_in_scope name (map join_colons Q) (use_paths m, use_aliases m) (written false ws tail)) = true).
  { destruct (is_path_target _ _ && has_qualifier _ _ _); [reflexivity|]. destruct n as [|n]; [discriminate|].
    rewrite (module_uses m (crate_names Q) Hm) in H. destruct (known_in_scope _ _ _ _); [reflexivity|].
    destruct (resolve_item parse is_type_alias (S n) (written false ws tail) m) as [|o] eqn:E; [discriminate|].
    rewrite (Hnt _ _ E) in H. discriminate. }
  destruct (G Hok) as (q & Hq & Hs). exists q. split; [exact Hq|].
  destruct (HQ q Hq) as [Hqn Hqi]. rewrite Forall_forall in Hqi. destruct q as [|c r]; [congruence|].
  apply (stands_denotes m (crate_names Q) Hm ws ((c :: r) ++ [name]) c (r ++ [name])); [reflexivity| | |exact Hs].
  - unfold crate_names. apply filter_map_In. exists (c :: r). auto.
  - intros x Hx. apply in_app_iff in Hx. destruct Hx as [Hx|[<-|[]]]; [apply Hqi, Hx | exact Hname].
Qed.
(** The full path of an item is recognised everywhere, also with [::] in front, whatever the file holds. *)
Theorem C85_full_path parse Q name tail g q ref n :
  In q Q -> q <> [] -> is_external parse name (map join_colons Q) (S n) (written g (q ++ [name]) tail) ref = Ret true.
Proof.
  intros Hq Hn. cbn [is_external].
  assert (E : is_path_target name (written g (q ++ [name]) tail) && has_qualifier (written g (q ++ [name]) tail) (map join_colons Q) false = true).
  { apply andb_true_iff. split; [apply target_written; reflexivity|]. unfold has_qualifier.
    destruct (written_snoc g q name tail Hn) as (p & -> & ->). apply existsb_str. apply exhaustive_In. exists (join_colons q).
    split; [apply in_map; exact Hq|]. destruct g; auto. }
  rewrite E. reflexivity.
Qed.
(** Paths through the file's own modules: a name that another module imports from a crate, directly or with everything
    else, is recognised where it is re-exported under the same name. *)
Theorem C85_reexported parse Q w x q ref m k n u :
  parser_ok parse -> good_qualifiers Q -> identifier x -> plain_path w ->
  scope_of ref m ->
  (forall c t, In c (n_children (fst (item_list_root m))) -> n_data c = DUse (Some t) -> good_tree t) ->
  introduces m (map seg_text (w ++ [name_seg x])) None ->
  (forall c, In c (crate_names Q) -> hd_error (map seg_text w) <> Some c) ->
  (exists i, resolve_qualifier parse i w m = Ret (Some k)) ->
  imports_from k (crate_names Q) -> In q Q ->
  introduces k (q ++ [x]) None \/ introduces k (q ++ [STAR]) None ->
  external_uses parse (crate_names Q) n m = Ret u ->
  is_external parse x (map join_colons Q) (S n) [name_seg x] ref = Ret true.
Proof.
  intros Hp HQ Hx Hw Href Hg Hi Hnc Hk Hkm Hq Hik Hu. apply scope_of_current in Href. cbn [is_external]. rewrite Href.
  rewrite crates_of_join by exact HQ. rewrite Hu.
  destruct (HQ q Hq) as [Hqn Hqi].
  assert (Hcr : forall c, In c (crate_names Q) -> identifier c).
  { intros c Hc. unfold crate_names in Hc. apply filter_map_In in Hc. destruct Hc as (q' & Hq' & E). destruct (HQ q' Hq') as [_ Hid].
    destruct q' as [|c' r']; [discriminate|]. cbn in E. injection E as <-. inversion Hid; assumption. }
  assert (Hwt : forall s, In s (map seg_text w) -> nocolon s /\ forallb ident_char s = true /\ s <> []).
  { assert (Hn : forall s, plain_name s -> nocolon (seg_text s) /\ forallb ident_char (seg_text s) = true /\ seg_text s <> []).
    { intros s (z & -> & Hz). unfold seg_text. cbn [name_seg sg_colons sg_word sg_tail word_text app]. rewrite app_nil_r.
      split; [apply ident_nocolon, Hz|]. split; [apply ident_chars; exact Hz | apply Hz]. }
    destruct Hw as (h & l & -> & Hh & Hl). intros s Hs. apply in_map_iff in Hs. destruct Hs as (y & <- & Hy).
    destruct Hy as [->|Hy]; [|apply Hn; rewrite Forall_forall in Hl; apply Hl, Hy].
    destruct Hh as [Hh|(wd & Hwd & ->)]; [apply Hn, Hh|].
    destruct Hwd as [<-|[<-|[<-|[]]]]; (split; [intros C; vm_compute in C; intuition discriminate | split; [reflexivity | discriminate]]). }
  assert (Hwn : w <> []) by (destruct Hw as (h & l & -> & _); discriminate).
  assert (Hxt : map seg_text (w ++ [name_seg x]) = map seg_text w ++ [x]).
  { rewrite map_app. f_equal. cbn [map]. unfold seg_text. cbn [name_seg sg_colons sg_word sg_tail word_text app]. rewrite app_nil_r. reflexivity. }
  assert (Hin : In (join_colons (q ++ [x])) (fst u)).
  { apply (uses_reexport parse (crate_names Q) n m k w x q u); auto.
    - destruct Hik as [Hik|Hik]; [left|right]; apply (paths_In k (crate_names Q) Hkm); eexists; split; [exact Hik | reflexivity | exact Hik | reflexivity].
    - apply crate_path_spec. destruct q as [|c r]; [congruence|]. exists c, []. split; [unfold crate_names; apply filter_map_In; exists (c :: r); auto|].
      split; [left; reflexivity|]. right. cbn [app]. destruct (r ++ [x]) as [|y l] eqn:E; [destruct r; discriminate|]. exists (join_colons (y :: l)). reflexivity.
    - destruct (is_crate_item_path (path_text (w ++ [name_seg x])) (crate_names Q)) eqn:E; [exfalso|reflexivity]. apply crate_path_spec in E.
      unfold path_text in E. rewrite Hxt in E. destruct E as (c & g & Hc & Hgg & E). pose proof (ident_nocolon c (Hcr c Hc)) as Hcc.
      destruct w as [|h l]; [congruence|]. cbn [map] in *. destruct (Hwt (seg_text h) (or_introl eq_refl)) as (Hh & _ & Hhn).
      assert (Ej : exists t, join_colons ((seg_text h :: map seg_text l) ++ [x]) = seg_text h ++ lit "::" ++ t).
      { cbn [app]. destruct (map seg_text l ++ [x]) as [|y l'] eqn:E'; [destruct (map seg_text l); discriminate|]. eexists. reflexivity. }
      destruct Ej as [t Ej]. rewrite Ej in E. destruct Hgg as [-> | ->]; cbn [app] in E.
      + destruct E as [E|(t' & E)].
        * apply Hcc. rewrite <- E. apply in_app_iff. right. left. reflexivity.
        * apply (Hnc c Hc). cbn [hd_error]. f_equal.
          assert (S1 : split_colons [] (seg_text h ++ lit "::" ++ t) = split_colons [] (c ++ lit "::" ++ t')) by (f_equal; exact E).
          rewrite !split_first in S1 by assumption. cbn [rev app] in S1. apply (f_equal (hd [])) in S1. exact S1.
      + assert (Hd : exists d s, seg_text h = d :: s /\ d <> 58%N).
        { destruct (seg_text h) as [|d s]; [congruence|]. exists d, s. split; [reflexivity|]. intros ->. apply Hh. left; reflexivity. }
        destruct Hd as (d & s & Ed & Hd). rewrite Ed in E. destruct E as [E|(t' & E)]; apply (f_equal (hd 0%N)) in E; cbn in E; exact (Hd E).
    - apply use_paths_In. unfold path_text.
      assert (E : no_spaces (join_colons (map seg_text (w ++ [name_seg x]))) = join_colons (map seg_text (w ++ [name_seg x]))).
      { apply join_no_space. rewrite Hxt. intros s Hs. apply in_app_iff in Hs. destruct Hs as [Hs|[<-|[]]]; [apply (Hwt s Hs) | apply ident_chars; exact Hx]. }
      rewrite <- E. apply (use_results_complete m Hg). exact Hi. }
  assert (E2 : known_in_scope x (map join_colons Q) u [name_seg x] = true).
  { unfold known_in_scope. apply orb_true_iff. left. apply andb_true_iff. split; [unfold is_path_target; cbn; apply str_eqb_refl|].
    apply orb_true_iff. left. cbn [qualifier is_some negb andb]. apply in_scope_spec.
    exists (join_colons q). split; [apply in_map; exact Hq|]. left. left. change (lit "::" ++ x) with (lit "::" ++ x). rewrite <- (join_snoc q x Hqn). exact Hin. }
  rewrite E2. destruct (_ && _); reflexivity.
Qed.

(** The answer does not depend on how long the search may run. *)
Theorem C85_one_answer parse name qs p ref n n' b b' :
  is_external parse name qs n p ref = Ret b -> is_external parse name qs n' p ref = Ret b' -> b = b'.
Proof.
  intros H H'. apply (external_more _ _ _ n (Nat.max n n')) in H; [|apply Nat.le_max_l].
  apply (external_more _ _ _ n' (Nat.max n n')) in H'; [|apply Nat.le_max_r]. congruence.
Qed.
(** A use path is one of a crate if and only if it is the crate, or the crate followed by [::], also after [::]. *)
Theorem C85_crate_paths path crates : is_crate_item_path path crates = true <->
  exists c g, In c crates /\ (g = [] \/ g = lit "::") /\ (path = g ++ c \/ exists t, path = g ++ c ++ lit "::" ++ t).
Proof. exact (crate_path_spec path crates). Qed.
(** Whatever a module imports and re-exports: only paths of the crates are collected, for names and for aliases. *)
Theorem C85_only_crates parse crates n m u : external_uses parse crates n m = Ret u ->
  (forall s, In s (fst u) -> is_crate_item_path s crates = true)
  /\ (forall a s, In (a, s) (snd u) -> is_crate_item_path s crates = true).
Proof. intros H. exact (proj2 (all_only parse crates n) m u H). Qed.
(** Declarations [use self::x;] of a module refer to themselves: the search ends and collects nothing. *)
Theorem C85_self_imports parse crates xs m n : parser_ok parse -> (forall x, In x xs -> identifier x) -> NoDup xs ->
  ~ In (lit "self") crates -> (forall c, In c crates -> identifier c) -> scope_of m m ->
  use_aliases m = [] -> use_paths m = map (fun x => lit "self::" ++ x) xs ->
  external_uses parse crates (S (S (S n))) m = Ret ([], []).
Proof. intros Hp Hx Hn Hs Hc Hm Ha Hu. apply scope_of_current in Hm. apply (self_imports parse crates xs); assumption. Qed.

(** *** Findings *)
Definition SCALE : list (list str) := [[lit "scale"]; [lit "ink"; lit "scale"]; [lit "parity_scale_codec"]].
Definition scale_item (n : nat) (p : rpath) (ref : place) : res bool :=
  is_external simple_parse (lit "Encode") (map join_colons SCALE) n p ref.
(** A path that starts with [::] names a crate. [::foo::scale::Encode] is accepted after [use ink as foo;], [::Encode]
    after [use scale::Encode;]: no crate is called [foo] or [Encode]. *)
Theorem C85_global_refuted : exists root ws n, (forall c, In c (crate_names SCALE) -> hd_error ws <> Some c)
  /\ scale_item n (written true ws []) (root, []) = Ret true.
Proof.
  exists (SNode 0 DRoot [use_node 1 (ex_use [lit "ink"] (Some (lit "foo")))]), [lit "foo"; lit "scale"; lit "Encode"], 5.
  split; [|vm_compute; reflexivity]. intros c Hc E. injection E as <-. vm_compute in Hc. intuition discriminate.
Qed.
Theorem C85_global_name_refuted : exists root n,
  scale_item n (written true [lit "Encode"] []) (root, []) = Ret true.
Proof. exists (SNode 0 DRoot [use_node 1 (ex_use [lit "scale"; lit "Encode"] None)]), 5. vm_compute. reflexivity. Qed.
(** A path that resolves to a trait of the file's own module is accepted as one of the crate: [mod scale { trait Encode; }]. *)
Theorem C85_local_module_refuted : exists root n x,
  resolve_item simple_parse (fun k => match n_data k with DNamed _ _ => true | _ => false end) n
    (written false [lit "scale"; lit "Encode"] []) (root, []) = Ret (Some x)
  /\ scale_item n (written false [lit "scale"; lit "Encode"] []) (root, []) = Ret true.
Proof.
  exists (SNode 0 DRoot [SNode 1 (DModule (Some (lit "scale"))) [SNode 2 DItemList [SNode 3 (DNamed 3 (Some (lit "Encode"))) []]]]), 8.
  eexists. split; vm_compute; reflexivity.
Qed.
(** [self::Encode] after [use scale::Encode;], and an item used through a crate that another module renamed, are not
    recognised. *)
Theorem C85_self_path_refuted : exists root n, introduces (root, []) [lit "scale"; lit "Encode"] None
  /\ scale_item n [self_seg; name_seg (lit "Encode")] (root, []) = Ret false.
Proof.
  exists (SNode 0 DRoot [use_node 1 (ex_use [lit "scale"; lit "Encode"] None)]), 8. split; [|vm_compute; reflexivity].
  eapply in_use; [left; reflexivity | reflexivity|]. apply (im_path [] (ex_ps [lit "scale"; lit "Encode"])). discriminate.
Qed.
Theorem C85_renamed_crate_refuted : exists root n,
  root = SNode 0 DRoot [SNode 1 (DModule (Some (lit "n"))) [SNode 2 DItemList [use_node 3 (ex_use [lit "ink"] (Some (lit "i")))]];
                        use_node 4 (ex_use [lit "crate"; lit "n"; lit "i"] None)]
  /\ scale_item n (written false [lit "i"; lit "scale"; lit "Encode"] []) (root, []) = Ret false.
Proof. do 2 eexists. split; [reflexivity|]. instantiate (1 := 12). vm_compute. reflexivity. Qed.
(** [mod n { use scale::Encode; } mod m { use crate::n::Encode as X; } mod l { use crate::m::X; }]: in [l] the name [X]
    is not recognised, and [Encode], which [l] does not declare, is. *)
Definition renamed_file : snode :=
  SNode 0 DRoot [SNode 1 (DModule (Some (lit "n"))) [SNode 2 DItemList [use_node 3 (ex_use [lit "scale"; lit "Encode"] None)]];
                 SNode 4 (DModule (Some (lit "m"))) [SNode 5 DItemList [use_node 6 (ex_use [lit "crate"; lit "n"; lit "Encode"] (Some (lit "X")))]];
                 SNode 7 (DModule (Some (lit "l"))) [SNode 8 DItemList [use_node 9 (ex_use [lit "crate"; lit "m"; lit "X"] None)]]].
Theorem C85_renamed_refuted : exists n, let root := renamed_file in
  let l := (nth 2 (n_children root) root, [root]) in
  scale_item n [name_seg (lit "X")] l = Ret false /\ scale_item n [name_seg (lit "Encode")] l = Ret true.
Proof. exists 16. split; vm_compute; reflexivity. Qed.
(** Two glob imports in a module: looking for an item that is not of the crates never ends, whatever else the module
    holds. *)
Theorem C85_two_globs_refuted parse Q : parser_ok parse -> good_qualifiers Q ->
  forall g1 g2, Forall identifier g1 -> Forall identifier g2 -> g1 <> g2 ->
  (exists c1 r1, g1 = c1 :: r1 /\ In c1 (crate_names Q)) -> (exists c2 r2, g2 = c2 :: r2 /\ In c2 (crate_names Q)) ->
  ~ In g1 Q -> ~ In g2 Q ->
  forall i j k l name items up z item ref,
    (forall c, In c items -> (forall t, n_data c <> DUse t) /\ (forall a t, n_data c <> DTypeAlias a t)) ->
    identifier z -> identifier item ->
    scope_of ref (SNode i (DModule name) [SNode j DItemList (use_node k (glob g1) :: use_node l (glob g2) :: items)], up) ->
    runs_forever (fun n => is_external parse item (map join_colons Q) n [name_seg z] ref).
Proof.
  intros Hp HQ g1 g2 Hi1 Hi2 Hd (c1 & r1 & E1 & Hc1) (c2 & r2 & E2 & Hc2) Hn1 Hn2 i j k l name items up z item ref Hits Hz Hitem Href n.
  destruct n as [|n]; [reflexivity|]. cbn [is_external].
  assert (Eq0 : has_qualifier [name_seg z] (map join_colons Q) false = false) by reflexivity. rewrite Eq0, andb_false_r.
  pose proof Href as Hcur. apply scope_of_current in Hcur. rewrite Hcur. rewrite crates_of_join by exact HQ.
  set (m := (SNode i (DModule name) [SNode j DItemList (use_node k (glob g1) :: use_node l (glob g2) :: items)], up)) in *.
  destruct n as [|n]; [reflexivity|].
  assert (Hg1 : g1 <> []) by (rewrite E1; discriminate). assert (Hg2 : g2 <> []) by (rewrite E2; discriminate).
  assert (Hint : forall q a, introduces m q a -> a = None /\ (q = g1 ++ [STAR] \/ q = g2 ++ [STAR])).
  { clear E1 E2. intros q a Hi. inversion Hi as [c t q' a' Hc Et Him|c nm ty Hc Et]; subst.
    - change (In c (use_node k (glob g1) :: use_node l (glob g2) :: items)) in Hc.
      destruct Hc as [<-|[<-|Hc]]; [| |destruct (proj1 (Hits c Hc) (Some t) Et)]; injection Et as <-; inversion Him; subst; (split; [reflexivity|]); auto.
    - change (In c (use_node k (glob g1) :: use_node l (glob g2) :: items)) in Hc.
      destruct Hc as [<-|[<-|Hc]]; [discriminate | discriminate | destruct (proj2 (Hits c Hc) (Some nm) (Some ty) Et)]. }
  assert (Hfr : forall g, g <> [] -> Forall identifier g -> from_root (g ++ [STAR]) = g ++ [STAR]).
  { intros g Hg Hgi. destruct g as [|w g]; [congruence|]. inversion Hgi as [|? ? Hw ?]; subst. destruct w; [destruct Hw as [C _]; congruence | reflexivity]. }
  assert (Hm : imports_from m (crate_names Q)).
  { split; [|split; [|split]].
    - intros c t Hc Et. change (In c (use_node k (glob g1) :: use_node l (glob g2) :: items)) in Hc.
      assert (Hgt : forall g, g <> [] -> Forall identifier g -> good_tree (glob g)).
      { intros g Hg Hgi. split; [|split].
        - constructor; [|discriminate]. intros p Ep. injection Ep as <-. split; [exact Hg|]. cbn [ex_ps ps_text ps_segments].
          apply join_no_space. intros s Hs. rewrite Forall_forall in Hgi. apply (Hgi s Hs).
        - constructor.
        - intros (p & a & C & _). discriminate. }
      destruct Hc as [<-|[<-|Hc]]; [injection Et as <-; apply Hgt; assumption | injection Et as <-; apply Hgt; assumption | destruct (proj1 (Hits c Hc) (Some t) Et)].
    - intros q a Hi. destruct (Hint q a Hi) as [-> Hq].
      assert (G : forall c r g, g = c :: r -> Forall identifier g -> In c (crate_names Q) -> exists c' r', from_root (g ++ [STAR]) = c' :: r' /\ In c' (crate_names Q)
         /\ Forall identifier (c' :: removelast r') /\ (forall x, last_opt r' = Some x -> identifier x \/ (@None str = None /\ x = STAR))).
      { intros c r g -> Hgi Hc. exists c, (r ++ [STAR]). split; [rewrite Hfr; [reflexivity | discriminate | exact Hgi]|]. split; [exact Hc|].
        rewrite removelast_last. split; [exact Hgi|]. intros x Hx. rewrite last_opt_app in Hx. injection Hx as <-. right; auto. }
      destruct Hq as [-> | ->]; [exact (G c1 r1 g1 E1 Hi1 Hc1) | exact (G c2 r2 g2 E2 Hi2 Hc2)].
    - intros q a Hi. destruct (Hint q _ Hi) as [C _]. discriminate.
    - intros q q' a Hi. destruct (Hint q _ Hi) as [C _]. discriminate. }
  rewrite (module_uses m (crate_names Q) Hm).
  assert (Ek : known_in_scope item (map join_colons Q) (use_paths m, use_aliases m) [name_seg z] = false).
  { destruct (known_in_scope _ _ _ _) eqn:Ek; [exfalso|reflexivity].
    assert (Ha : forall a s, In (a, s) (snd (use_paths m, use_aliases m)) -> nocolon a).
    { intros a s Hin. cbn [snd] in Hin. apply (aliases_In m (crate_names Q) Hm) in Hin. destruct Hin as (q' & Hi & _). destruct (Hint _ _ Hi) as [C _]. discriminate. }
    assert (Hzs : forall x, In x [z] -> identifier x) by (intros x [<-|[]]; exact Hz).
    destruct (proj1 (scope_spec (use_paths m, use_aliases m) item [] [z] Hzs Ha Q ltac:(discriminate) HQ (proj1 Hitem))) as (q & Hq & Hs).
    { apply orb_true_iff. right. exact Ek. }
    destruct (HQ q Hq) as [Hqn Hqi]. rewrite Forall_forall in Hqi. destruct q as [|c r]; [congruence|].
    apply (stands_denotes m (crate_names Q) Hm [z] ((c :: r) ++ [item]) c (r ++ [item])) in Hs; [|reflexivity| |].
    - remember [z] as ws eqn:Ews. remember ((c :: r) ++ [item]) as full eqn:Efull.
      destruct Hs as [c' r' Hc'|q' pre x r' Hi Eq Hx|q' pre x r' Hi Eq|q' a r' Hi].
      + injection Ews as -> ->. destruct r; discriminate.
      + destruct (Hint _ _ Hi) as [_ [-> | ->]]; rewrite Hfr in Eq by assumption; apply app_inj_tail in Eq; destruct Eq as [_ C]; congruence.
      + injection Ews as -> ->. apply app_inj_tail in Efull. destruct Efull as [-> _].
        destruct (Hint _ _ Hi) as [_ [-> | ->]]; rewrite Hfr in Eq by assumption; apply app_inj_tail in Eq; destruct Eq as [C _]; rewrite <- C in Hq; contradiction.
      + destruct (Hint _ _ Hi) as [C _]. discriminate.
    - unfold crate_names. apply filter_map_In. exists (c :: r). auto.
    - intros x Hx. apply in_app_iff in Hx. destruct Hx as [Hx|[<-|[]]]; [apply Hqi, Hx | exact Hitem]. }
  rewrite Ek.
  assert (Hf : runs_forever (fun n => resolve_item parse is_type_alias n [name_seg z] m)).
  { apply (C28_two_globs_refuted parse Hp g1 g2 Hg1 Hg2 Hi1 Hi2 Hd i j k l name items up is_type_alias z m Hits Hz).
    - intros c Hc Hw. unfold is_type_alias in Hw. destruct (n_data c) eqn:Ed; try discriminate. destruct (proj2 (Hits c Hc) _ _ Ed).
    - apply sc_module. reflexivity. }
  rewrite (Hf (S n)). reflexivity.
Qed.
(** [fn f() { use scale::Encode; .. }]: the declaration is not seen by the code of the function. *)
Theorem C85_function_use_refuted : exists n here,
  introduces here [lit "scale"; lit "Encode"] None /\ scale_item n [name_seg (lit "Encode")] here = Ret false.
Proof.
  set (u := use_node 3 (ex_use [lit "scale"; lit "Encode"] None)).
  set (sl := SNode 5 DStmtList [u]). set (b := SNode 4 DBlock [sl]). set (f := SNode 2 (DFn (Some (lit "f"))) [b]).
  exists 8, (sl, [b; f; SNode 0 DRoot [f]]). split; [|vm_compute; reflexivity].
  eapply (in_use _ u); [left; reflexivity | reflexivity|]. apply (im_path [] (ex_ps [lit "scale"; lit "Encode"])). discriminate.
Qed.

(** *** Examples *)
(** [use ink as i; use scale::Encode; use ink::scale::*;] and a module that uses its names. *)
Definition ex_module : snode :=
  SNode 0 DRoot [use_node 1 (ex_use [lit "ink"] (Some (lit "i"))); use_node 2 (ex_use [lit "scale"; lit "Encode"] None);
                 use_node 3 (glob [lit "ink"; lit "scale"])].
Lemma ex_module_introduces q a : introduces (ex_module, []) q a ->
  (q = [lit "ink"] /\ a = Some (lit "i")) \/ (q = [lit "scale"; lit "Encode"] /\ a = None) \/ (q = [lit "ink"; lit "scale"; STAR] /\ a = None).
Proof.
  intros H. inversion H as [c t q' a' Hc Et Him|c nm ty Hc Et]; subst.
  - destruct Hc as [<-|[<-|[<-|[]]]]; cbn [use_node n_data] in Et; apply (f_equal (fun d => match d with DUse (Some x) => x | _ => t end)) in Et; subst t; inversion Him; subst; auto; congruence.
  - destruct Hc as [<-|[<-|[<-|[]]]]; discriminate.
Qed.
Lemma scale_good : good_qualifiers SCALE.
Proof. intros q [<-|[<-|[<-|[]]]]; (split; [discriminate | repeat (constructor; [ident|]); constructor]). Qed.
Lemma ex_module_imports : imports_from (ex_module, []) (crate_names SCALE).
Proof.
  assert (Hl : forall l a, Forall (fun s => no_spaces s = s) [join_colons l] -> l <> [] -> l <> [SELF] -> good_tree (ex_use l a)).
  { intros l a Hs Hn Hself. split; [|split]; [|constructor|].
    - constructor; [|discriminate]. intros p E. injection E as <-. inversion Hs; subst. split; [exact Hn | assumption].
    - intros (p & b & E & Hp). injection E as <- <-. exact (Hself Hp). }
  split; [|split; [|split]].
  - intros c t [<-|[<-|[<-|[]]]] Et; cbn [use_node n_data] in Et;
      apply (f_equal (fun d => match d with DUse (Some x) => x | _ => t end)) in Et; subst t;
      [apply Hl; [repeat constructor | discriminate | discriminate] | apply Hl; [repeat constructor | discriminate | discriminate]|].
    split; [|split]; [|constructor | intros (p & b & E & _); discriminate].
    constructor; [|discriminate]. intros p E. injection E as <-. split; [discriminate | reflexivity].
  - intros q a Hi. destruct (ex_module_introduces q a Hi) as [[-> ->]|[[-> ->]|[-> ->]]].
    + exists (lit "ink"), []. split; [reflexivity|]. split; [right; left; reflexivity|]. split; [constructor; [ident | constructor] | discriminate].
    + exists (lit "scale"), [lit "Encode"]. split; [reflexivity|]. split; [left; reflexivity|]. split; [constructor; [ident | constructor]|].
      intros x E. injection E as <-. left. ident.
    + exists (lit "ink"), [lit "scale"; STAR]. split; [reflexivity|]. split; [right; left; reflexivity|].
      split; [constructor; [ident | constructor; [ident | constructor]]|]. intros x E. injection E as <-. right. auto.
  - intros q a Hi. destruct (ex_module_introduces q _ Hi) as [[-> E]|[[-> E]|[-> E]]]; [injection E as ->; ident | discriminate | discriminate].
  - intros q q' a Hi Hi'. destruct (ex_module_introduces q _ Hi) as [[-> E]|[[-> E]|[-> E]]]; [|discriminate|discriminate].
    destruct (ex_module_introduces q' _ Hi') as [[-> E']|[[-> E']|[-> E']]]; [reflexivity | discriminate | discriminate].
Qed.
Example C85_example :
  scale_item 4 (written false [lit "i"; lit "scale"; lit "Encode"] []) (ex_module, []) = Ret true
  /\ scale_item 4 (written false [lit "Encode"] []) (ex_module, []) = Ret true
  /\ scale_item 6 (written false [lit "i"; lit "Encode"] []) (ex_module, []) = Ret false
  /\ no_type_alias simple_parse (written false [lit "i"; lit "scale"; lit "Encode"] []) (ex_module, []).
Proof.
  assert (Hi : introduces (ex_module, []) [lit "ink"] (Some (lit "i"))).
  { eapply in_use; [left; reflexivity | reflexivity|]. apply (im_path [] (ex_ps [lit "ink"])). discriminate. }
  assert (He : introduces (ex_module, []) [lit "scale"; lit "Encode"] None).
  { eapply in_use; [right; left; reflexivity | reflexivity|]. apply (im_path [] (ex_ps [lit "scale"; lit "Encode"])). discriminate. }
  split; [|split; [|split]].
  - apply (C85_recognised simple_parse SCALE (lit "Encode") [] _ [lit "ink"; lit "scale"] (ex_module, []) (ex_module, []) 2);
      [exact scale_good | ident | repeat (constructor; [ident|]); constructor | apply sc_root; reflexivity | exact ex_module_imports | right; left; reflexivity|].
    exact (de_alias _ _ [lit "ink"] (lit "i") [lit "scale"; lit "Encode"] Hi).
  - apply (C85_recognised simple_parse SCALE (lit "Encode") [] _ [lit "scale"] (ex_module, []) (ex_module, []) 2);
      [exact scale_good | ident | repeat (constructor; [ident|]); constructor | apply sc_root; reflexivity | exact ex_module_imports | left; reflexivity|].
    apply (de_import _ _ [lit "scale"; lit "Encode"] [lit "scale"] (lit "Encode") [] He); [reflexivity | discriminate].
  - vm_compute. reflexivity.
  - intros n r H. assert (E : resolve_item simple_parse is_type_alias 8 (written false [lit "i"; lit "scale"; lit "Encode"] []) (ex_module, []) = Ret None) by (vm_compute; reflexivity).
    apply (item_more simple_parse is_type_alias n (Nat.max n 8)) in H; [|apply Nat.le_max_l].
    apply (item_more simple_parse is_type_alias 8 (Nat.max n 8)) in E; [|apply Nat.le_max_r]. congruence.
Qed.
(** [mod n { use scale::*; } use crate::n::Encode;] *)
Definition ex_reexport : snode :=
  SNode 0 DRoot [SNode 1 (DModule (Some (lit "n"))) [SNode 2 DItemList [use_node 3 (glob [lit "scale"])]];
                 use_node 4 (ex_use [lit "crate"; lit "n"; lit "Encode"] None)].
Example C85_reexport_example :
  (exists k, resolve_qualifier simple_parse 4 [crate_seg; name_seg (lit "n")] (ex_reexport, []) = Ret (Some k)
     /\ introduces k [lit "scale"; STAR] None)
  /\ scale_item 9 [name_seg (lit "Encode")] (ex_reexport, []) = Ret true
  /\ scale_item 9 [name_seg (lit "Decode")] (ex_reexport, []) = Ret false.
Proof.
  split; [|split; vm_compute; reflexivity]. eexists. split; [vm_compute; reflexivity|].
  eapply in_use; [left; reflexivity | reflexivity|]. apply (im_star [] (Some (ex_ps [lit "scale"]))).
Qed.
Example C85_self_example : scope_of (SNode 0 DRoot [use_node 1 (ex_use [SELF; lit "x"] None)], []) (SNode 0 DRoot [use_node 1 (ex_use [SELF; lit "x"] None)], [])
  /\ use_paths (SNode 0 DRoot [use_node 1 (ex_use [SELF; lit "x"] None)], []) = [lit "self::x"]
  /\ use_aliases (SNode 0 DRoot [use_node 1 (ex_use [SELF; lit "x"] None)], []) = [].
Proof. split; [apply sc_root; reflexivity | split; reflexivity]. Qed.

Print Assumptions C85_recognised.
Print Assumptions C85_sound_partial.
Print Assumptions C85_full_path.
Print Assumptions C85_reexported.
Print Assumptions C85_one_answer.
Print Assumptions C85_crate_paths.
Print Assumptions C85_only_crates.
Print Assumptions C85_self_imports.
Print Assumptions C85_global_refuted.
Print Assumptions C85_global_name_refuted.
Print Assumptions C85_local_module_refuted.
Print Assumptions C85_self_path_refuted.
Print Assumptions C85_renamed_crate_refuted.
Print Assumptions C85_renamed_refuted.
Print Assumptions C85_two_globs_refuted.
Print Assumptions C85_function_use_refuted.
