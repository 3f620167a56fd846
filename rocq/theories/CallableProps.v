(** Properties C24, C37 and C38: selectors of callables and ids of chain extension functions. *)
From Verif Require Import Base BaseFacts Unicode PositionModel VersionModel TranslateModel SyntaxModel AttrModel AttrSpec AttrProofs
  UtilModel UtilSpec UtilProofs EditModel TreeModel Blake2Model CallableModel CallableSpec CallableProofs.
From Coq Require Import Sorted Lia.

(** ** Examples *)
(** The hash the code uses. *)
Definition blake_selector (s : str) : selector :=
  match blake2b_256 (utf8 s) with a :: b :: c :: d :: _ => (a, b, c, d) | _ => (0, 0, 0, 0)%N end.
(** An argument [selector = text], and callables with it or without one. *)
Definition ex_value (k : skind) (text : str) : mvalue :=
  match k with
  | INT_NUMBER => MValue [(10, Tok k text)] None (Some (VELiteral k text))
  | _ => MValue [(10, Tok k text)] (Some (10, Tok k text)) None
  end.
Definition ex_selector (k : skind) (text : str) : ink_arg :=
  Meta (MOk (0, Tok IDENT (lit "selector"))) (Some (9, Tok EQ (lit "="))) (MOk (ex_value k text)) None 0 None.
Definition ex_attr (args : list ink_arg) : ink_attr := InkAttr (AkArg AMessage) args (AttrSyntax [] None (0, 20)) None.
Definition ex_fn (name : string) (args : list ink_arg) (impl : option impl_block) : callable :=
  Callable [ex_attr args] (Some (lit name, (30, 35))) (Some (25, 40)) (0, 50) impl.

(** ** C24 *)

(** A selector and its big-endian number determine each other. *)
Theorem C24_number_round_trip n : (n <= U32_MAX)%N -> be_u32 (be_bytes n) = n.
Proof. apply be_round_trip. Qed.
Theorem C24_bytes_round_trip s : is_bytes s -> be_bytes (be_u32 s) = s.
Proof. apply be_round_trip'. Qed.
Theorem C24_equality s t : is_bytes s -> is_bytes t -> (be_u32 s = be_u32 t <-> s = t).
Proof. intros Hs Ht. split; [apply be_inj; assumption | intros ->; reflexivity]. Qed.
(** A composed selector is always four bytes. *)
Theorem C24_four_bytes U hash c s : (forall x, is_bytes (hash x)) -> compose U hash c = Some s -> is_bytes s.
Proof. apply compose_bytes. Qed.

(** A written number is the selector. *)
Theorem C24_written U hash c a v n :
  first_argument ASelector (ca_attrs c) a -> m_value a = MOk v -> value_int U32_MAX v = Some n ->
  exists s, compose U hash c = Some s /\ is_bytes s /\ be_u32 s = n.
Proof.
  intros Ha Hv Hn. apply selector_arg_first in Ha. exists (be_bytes n). unfold compose, provided, selector_u32, arg_value. rewrite Ha. cbn. rewrite Hv. cbn.
  rewrite Hn. split; [reflexivity|]. split; [apply be_bytes_ok | apply be_round_trip; exact (value_int_bound _ _ _ Hn)].
Qed.
(** The complement [@] is the reserved selector. *)
Theorem C24_complement U hash c a :
  first_argument ASelector (ca_attrs c) a -> complement_value a -> compose U hash c = Some complement_selector.
Proof.
  intros Ha Hc. apply selector_arg_first in Ha. unfold compose, provided, selector_u32. rewrite Ha. cbn.
  pose proof (proj2 (is_complement_spec a) Hc) as Hb. rewrite Hb.
  destruct Hc as (v & Hv & Hk). unfold arg_value. rewrite Hv. cbn.
  destruct (value_int U32_MAX v) as [n|] eqn:En; [|reflexivity].
  destruct Hk as [Hk|Hk]; [unfold value_int in En; rewrite Hk in En; discriminate|]. injection Hk as ->.
  vm_compute. reflexivity.
Qed.
(** Otherwise it is the hash of the path of the callable and depends on nothing else. *)
Theorem C24_computed U hash c name r ns :
  ca_name c = Some (name, r) ->
  (forall a, first_argument ASelector (ca_attrs c) a ->
     ~ complement_value a /\ forall v, m_value a = MOk v -> value_int U32_MAX v = None) ->
  match ns with Some n => namespace_written c n | None => forall n, ~ namespace_written c n end ->
  compose U hash c = Some (hash (callable_path ns (trait_ident U c) name)).
Proof.
  intros Hn Hfirst Hns.
  assert (Ens : ns = namespace c).
  { destruct ns as [n|]; [symmetry; apply namespace_spec, Hns|]. destruct (namespace c) as [n|] eqn:E; [|reflexivity]. exfalso. apply (Hns n), namespace_spec, E. }
  subst ns. assert (Ha : forall a, selector_arg c = Some a -> ~ complement_value a /\ forall v, m_value a = MOk v -> value_int U32_MAX v = None)
    by (intros a E; apply Hfirst, selector_arg_first, E).
  clear Hfirst Hns. unfold compose, provided, selector_u32. destruct (selector_arg c) as [a|]; cbn.
  - destruct (Ha a eq_refl) as [Hc Hv]. unfold arg_value. destruct (m_value a) as [v|l|] eqn:Ev; cbn.
    + rewrite (Hv v eq_refl). destruct (is_complement a) eqn:Ec; [apply is_complement_spec in Ec; contradiction|].
      rewrite Hn, <- pre_hash_path. reflexivity.
    + destruct (is_complement a) eqn:Ec; [apply is_complement_spec in Ec; contradiction|].
      rewrite Hn, <- pre_hash_path. reflexivity.
    + destruct (is_complement a) eqn:Ec; [apply is_complement_spec in Ec; contradiction|].
      rewrite Hn, <- pre_hash_path. reflexivity.
  - rewrite Hn, <- pre_hash_path. reflexivity.
Qed.
(** Every named function has a selector. *)
Theorem C24_total U hash c nr : ca_name c = Some nr -> compose U hash c <> None.
Proof.
  intros Hn. unfold compose. destruct (provided c); [discriminate|]. rewrite Hn.
  destruct (obind (selector_arg c) _); discriminate.
Qed.

(** The trait's part follows the rule of ink! for paths of one segment, relative paths of two and global paths
    (those starting with [::]) of three or more. *)
Theorem C24_trait_partial U c i p :
  ca_impl c = Some i -> ib_trait i = Some (TyPath (Some p)) -> path_written U p ->
  (length (ps_segments p) = 1
   \/ (length (ps_segments p) = 2 /\ starts_with (lit "::") (join_colons (ps_segments p)) = false)
   \/ (3 <= length (ps_segments p) /\ starts_with (lit "::") (join_colons (ps_segments p)) = true)) ->
  trait_ident U c = Some (trait_part (ps_segments p)).
Proof.
  intros Hi Ht (Hne & Hw & Hs) H. unfold trait_ident. rewrite Hi. cbn [obind]. rewrite Ht. unfold is_full_path, trait_part.
  destruct (ps_segments p) as [|s1 l] eqn:Ep; [congruence|].
  assert (H1 : s1 <> []) by (apply Hs; left; reflexivity).
  destruct l as [|s2 l].
  - cbn [length Nat.leb last_opt join_colons]. destruct s1 as [|ch s1]; [congruence|].
    destruct (starts_with _ _); reflexivity.
  - destruct H as [H|[[H E]|[H E]]]; [discriminate H| |].
    + rewrite E. destruct l as [|s3 l]; [|discriminate H]. cbn [length Nat.leb last_opt].
      assert (s2 <> []) by (apply Hs; right; left; reflexivity). destruct s2; [congruence | reflexivity].
    + rewrite E. rewrite (proj2 (Nat.leb_le _ _) H).
      change (no_white U (ps_text p)) with (spaces_removed U (ps_text p)). rewrite Hw. destruct s1; [congruence | reflexivity].
Qed.
(** ... but not in general: [impl ::a::B for C] and [impl a::b::D for C]. *)
Theorem C24_trait_refuted :
  exists U c1 p1 c2 p2,
    path_written U p1 /\ obind (ca_impl c1) ib_trait = Some (TyPath (Some p1))
    /\ trait_part (ps_segments p1) = lit "::a::B" /\ trait_ident U c1 = Some (lit "B")
    /\ path_written U p2 /\ obind (ca_impl c2) ib_trait = Some (TyPath (Some p2))
    /\ trait_part (ps_segments p2) = lit "D" /\ trait_ident U c2 = Some (lit "a::b::D").
Proof.
  exists ascii_unicode.
  exists (ex_fn "f" [] (Some (ImplBlock (Some (TyPath (Some (PathSyntax [lit "::a"; lit "B"] (lit "::a::B"))))) []))).
  exists (PathSyntax [lit "::a"; lit "B"] (lit "::a::B")).
  exists (ex_fn "f" [] (Some (ImplBlock (Some (TyPath (Some (PathSyntax [lit "a"; lit "b"; lit "D"] (lit "a::b::D"))))) []))).
  exists (PathSyntax [lit "a"; lit "b"; lit "D"] (lit "a::b::D")).
  split; [split; [discriminate|]; split; [vm_compute; reflexivity|]; intros s Hs; vm_compute in Hs;
          repeat destruct Hs as [<-|Hs]; try destruct Hs; discriminate|].
  split; [reflexivity|]. split; [vm_compute; reflexivity|]. split; [vm_compute; reflexivity|].
  split; [split; [discriminate|]; split; [vm_compute; reflexivity|]; intros s Hs; vm_compute in Hs;
          repeat destruct Hs as [<-|Hs]; try destruct Hs; discriminate|].
  split; [reflexivity|]. split; vm_compute; reflexivity.
Qed.
(** The reserved selector is not the hash of its documented text, but that of [new]: a message [new] overlaps with
    a message that has the complement selector. *)
Theorem C24_reserved_text_refuted :
  blake_selector (lit "IIP2_WILDCARD_COMPLEMENT") <> complement_selector
  /\ blake_selector (lit "new") = complement_selector
  /\ map fst (overlapping_selectors ascii_unicode blake_selector [ex_fn "f" [ex_selector AT (lit "@")] None; ex_fn "new" [] None])
     = [ex_fn "new" [] None].
Proof. split; [vm_compute; congruence|]. split; vm_compute; reflexivity. Qed.

(** Selectors from the tests of selector.rs. *)
Example C24_examples :
  let sel c := option_map be_u32 (compose ascii_unicode blake_selector c) in
  let imp p l := Some (ImplBlock (Some (TyPath (Some (PathSyntax l p)))) []) in
  sel (ex_fn "my_message" [ex_selector INT_NUMBER (lit "0xA")] None) = Some 10%N
  /\ sel (ex_fn "my_message" [ex_selector UNDERSCORE (lit "_")] None) = Some 0x6A469E03%N
  /\ sel (ex_fn "my_message" [ex_selector AT (lit "@")] None) = Some 0x9BAE9D5E%N
  /\ sel (ex_fn "my_constructor" [] None) = Some 0xE11C2FAF%N
  /\ sel (ex_fn "my_constructor" [] (imp (lit "MyTrait") [lit "MyTrait"])) = Some 0x235E720C%N
  /\ sel (ex_fn "my_message" [] (imp (lit "::my_full::long_path::MyTrait") [lit "::my_full"; lit "long_path"; lit "MyTrait"]))
     = Some 0x2EC56327%N
  /\ sel (ex_fn "my_message" [] (imp (lit "relative_path::MyTrait") [lit "relative_path"; lit "MyTrait"])) = Some 0x04C49446%N.
Proof. vm_compute. auto 10. Qed.

(** ** C37 *)

(** The id of a callable is its selector as a number. *)
Definition selector_id (U : unicode) (hash : str -> selector) (c : callable) : option N :=
  option_map be_u32 (compose U hash c).

(** Exactly the callables are reported that repeat the selector of an earlier one of their class, in order. *)
Theorem C37_selectors_exact U hash cs :
  picks (repeats (selector_id U hash) cs) cs (map fst (overlapping_selectors U hash cs)).
Proof.
  unfold overlapping_selectors.
  assert (E : with_selectors U hash cs = ided (selector_id U hash) cs).
  { unfold with_selectors, ided, selector_id. induction cs as [|c cs IH]; [reflexivity|]. cbn [filter_map].
    destruct (compose U hash c); cbn; rewrite IH; reflexivity. }
  rewrite E. apply overlap_exact.
Qed.
(** ... where equal numbers mean equal selectors. *)
Theorem C37_same_selector U hash c c' n :
  (forall x, is_bytes (hash x)) -> selector_id U hash c = Some n -> selector_id U hash c' = Some n ->
  compose U hash c = compose U hash c'.
Proof.
  intros Hh. unfold selector_id. destruct (compose U hash c) as [s|] eqn:E; [|discriminate].
  destruct (compose U hash c') as [s'|] eqn:E'; [|discriminate]. cbn. intros H1 H2. f_equal.
  apply be_inj; [exact (compose_bytes U hash c s Hh E) | exact (compose_bytes U hash c' s' Hh E') | congruence].
Qed.
(** The same for the ids of chain extension functions. *)
Theorem C37_ids_exact v cs : picks (repeats (fn_id v) cs) cs (map fst (overlapping_ids v cs)).
Proof. apply overlap_exact. Qed.

(** The suggested ids are in range, unused in the class, and different from each other. *)
Theorem C37_suggested_selectors U hash cs :
  let ids := filter_map snd (overlapping_selectors U hash cs) in
  NoDup ids /\ forall n, In n ids -> (1 <= n <= U32_MAX)%N /\ forall c, In c cs -> selector_id U hash c <> Some n.
Proof.
  unfold overlapping_selectors. cbv zeta.
  assert (E : with_selectors U hash cs = ided (selector_id U hash) cs).
  { unfold with_selectors, ided, selector_id. induction cs as [|c cs IH]; [reflexivity|]. cbn [filter_map].
    destruct (compose U hash c); cbn; rewrite IH; reflexivity. }
  rewrite E. destruct (overlap_ids U32_MAX (ided (selector_id U hash) cs) [] (map fst (ided (selector_id U hash) cs)))
    as [H1 H2]; [vm_compute; discriminate|]. split; [exact H1|]. intros n Hn. destruct (H2 n Hn) as [H3 H4].
  split; [exact H4|]. intros c Hc Hid. apply H3. apply in_map_iff. exists (n, c). split; [reflexivity|].
  apply ided_In. auto.
Qed.
(** Where an id is written and which ids are read *)
Lemma id_limit_max v : id_max v = id_limit v.
Proof. destruct v; reflexivity. Qed.
Lemma id_argument_kind v : id_kind v = id_argument v.
Proof. destruct v; reflexivity. Qed.
Theorem C37_ids_read v c n : fn_id v c = Some n <->
  exists a x, first_argument (id_argument v) (ca_attrs c) a /\ m_value a = MOk x /\ value_int (id_limit v) x = Some n.
Proof.
  assert (G : (exists a x, first_argument (id_argument v) (ca_attrs c) a /\ m_value a = MOk x /\ value_int (id_limit v) x = Some n)
    <-> exists a x, arg_by_kind (ca_attrs c) (id_argument v) = Some a /\ arg_value a = Some x /\ value_int (id_limit v) x = Some n).
  { split; intros (a & x & Ha & Hx & H); exists a, x; (split; [apply arg_by_kind_first; exact Ha|]); (split; [|exact H]); unfold arg_value in *;
      destruct (m_value a); congruence. }
  rewrite G. clear G.
  unfold fn_id. rewrite id_limit_max, id_argument_kind. destruct (arg_by_kind (ca_attrs c) (id_argument v)) as [a|]; cbn [obind].
  - destruct (arg_value a) as [x|] eqn:E; cbn [obind].
    + split; [intros H; exists a, x; auto|]. intros (a' & x' & Ha & Hx & H). injection Ha as <-. rewrite E in Hx. injection Hx as <-. exact H.
    + split; [discriminate|]. intros (a' & x' & Ha & Hx & _). injection Ha as <-. congruence.
  - split; [discriminate|]. intros (a' & x' & Ha & _). discriminate.
Qed.
Theorem C37_suggested_ids v cs :
  let ids := filter_map snd (overlapping_ids v cs) in
  NoDup ids /\ forall n, In n ids -> (1 <= n <= id_limit v)%N /\ forall c, In c cs -> fn_id v c <> Some n.
Proof.
  rewrite <- id_limit_max. unfold overlapping_ids. cbv zeta. change (with_ids v cs) with (ided (fn_id v) cs).
  destruct (overlap_ids (id_max v) (ided (fn_id v) cs) [] (map fst (ided (fn_id v) cs)))
    as [H1 H2]; [destruct v; vm_compute; discriminate|]. split; [exact H1|]. intros n Hn. destruct (H2 n Hn) as [H3 H4].
  split; [exact H4|]. intros c Hc Hid. apply H3. apply in_map_iff. exists (n, c). split; [reflexivity|].
  apply ided_In. auto.
Qed.
(** There is one for every report unless the class is as large as the range of ids. *)
Theorem C37_id_found v cs c o :
  (2 * N.of_nat (length cs) < id_limit v)%N -> In (c, o) (overlapping_ids v cs) -> o <> None.
Proof.
  rewrite <- id_limit_max. intros Hl Hin. unfold overlapping_ids in Hin. revert Hin. cbv zeta. change (with_ids v cs) with (ided (fn_id v) cs).
  apply overlap_found; [destruct v; vm_compute; discriminate|].
  assert (length (ided (fn_id v) cs) <= length cs).
  { clear. unfold ided. induction cs as [|c cs IH]; [simpl; lia|]. cbn [filter_map]. destruct (fn_id v c); cbn; lia. }
  rewrite map_length. lia.
Qed.
Theorem C37_selector_found U hash cs c o :
  (2 * N.of_nat (length cs) < U32_MAX)%N -> In (c, o) (overlapping_selectors U hash cs) -> o <> None.
Proof.
  intros Hl Hin. unfold overlapping_selectors in Hin. revert Hin. cbv zeta.
  apply overlap_found; [vm_compute; discriminate|].
  assert (length (with_selectors U hash cs) <= length cs).
  { clear. unfold with_selectors. induction cs as [|c cs IH]; [simpl; lia|]. cbn [filter_map].
    destruct (compose U hash c); cbn; lia. }
  rewrite map_length. lia.
Qed.

(** The quick fix of a written selector or id replaces exactly the written value by the suggested number, which is
    read back as that number. *)
Theorem C37_selector_edit c a v r n :
  first_argument ASelector (ca_attrs c) a -> m_value a = MOk v -> value_range v = Done r -> (n <= U32_MAX)%N ->
  exists d e, selector_diag c (Some n) = Done d /\ od_range d = r /\ od_fix d = Some e
    /\ te_range e = r /\ int_of_text U32_MAX (te_text e) = Some n.
Proof.
  intros Ha Hv Hr Hn. apply selector_arg_first in Ha. unfold selector_diag, arg_value_range. rewrite Ha. cbn. unfold arg_value. rewrite Hv, Hr. cbn.
  eexists. exists (id_edit r n). split; [reflexivity|]. split; [reflexivity|]. split; [reflexivity|].
  split; [reflexivity | apply dec_reads; exact Hn].
Qed.
Theorem C37_id_edit ver c a v r n :
  first_argument (id_argument ver) (ca_attrs c) a -> m_value a = MOk v -> value_range v = Done r -> (n <= id_limit ver)%N ->
  exists d e, id_diag ver c (Some n) = Done d /\ od_range d = r /\ od_fix d = Some e
    /\ te_range e = r /\ int_of_text (id_limit ver) (te_text e) = Some n.
Proof.
  rewrite <- id_limit_max, <- id_argument_kind. intros Ha Hv Hr Hn. apply arg_by_kind_first in Ha. unfold id_diag, arg_value_range. rewrite Ha. cbn. unfold arg_value. rewrite Hv, Hr. cbn.
  eexists. exists (id_edit r n). split; [reflexivity|]. split; [reflexivity|]. split; [reflexivity|].
  split; [reflexivity | apply dec_reads; exact Hn].
Qed.

(** Replacing every reported id by the one suggested for it leaves no overlap. *)
Theorem C37_fixed_selectors U hash cs positions ids :
  (forall i, In i positions <-> i < length cs /\ repeats (selector_id U hash) cs i) ->
  StronglySorted lt positions ->
  map snd (overlapping_selectors U hash cs) = map Some ids -> length positions = length ids ->
  all_different (new_id (selector_id U hash) cs (combine positions ids)).
Proof.
  intros Hp Hs Hids Hlen. apply (overlap_fixed (selector_id U hash) U32_MAX); [vm_compute; discriminate | exact Hp | | | exact Hlen].
  - clear -Hs. induction Hs as [|p ps Hs IH Hf]; constructor; [|exact IH]. intros Hin. rewrite Forall_forall in Hf.
    specialize (Hf p Hin). lia.
  - unfold overlapping_selectors in Hids.
    assert (E : with_selectors U hash cs = ided (selector_id U hash) cs).
    { unfold with_selectors, ided, selector_id. clear. induction cs as [|c cs IH]; [reflexivity|]. cbn [filter_map].
      destruct (compose U hash c); cbn; rewrite IH; reflexivity. }
    rewrite E in Hids. exact Hids.
Qed.
Theorem C37_fixed_ids v cs positions ids :
  (forall i, In i positions <-> i < length cs /\ repeats (fn_id v) cs i) ->
  StronglySorted lt positions ->
  map snd (overlapping_ids v cs) = map Some ids -> length positions = length ids ->
  all_different (new_id (fn_id v) cs (combine positions ids)).
Proof.
  intros Hp Hs Hids Hlen. apply (overlap_fixed (fn_id v) (id_max v)); [destruct v; vm_compute; discriminate | exact Hp | | exact Hids | exact Hlen].
  clear -Hs. induction Hs as [|p ps Hs IH Hf]; constructor; [|exact IH]. intros Hin. rewrite Forall_forall in Hf.
  specialize (Hf p Hin). lia.
Qed.

(** Without a written selector the quick fix renames the function, possibly to another one's name: for any hash,
    [flip2], [flip], [flip] leaves the overlap of the third with the first. *)
Theorem C37_rename_refuted :
  forall hash, exists a b c d e,
    overlapping_selectors ascii_unicode hash [a; b; c] <> []
    /\ (hash (lit "flip") <> hash (lit "flip2") -> (forall x, is_bytes (hash x)) ->
        exists o, overlapping_selectors ascii_unicode hash [a; b; c] = [(c, o)]
          /\ selector_diag c o = Done d /\ od_fix d = Some e /\ te_text e = lit "flip2"
          /\ compose ascii_unicode hash (Callable (ca_attrs c) (Some (te_text e, te_range e)) (ca_decl c) (ca_range c) (ca_impl c))
             = compose ascii_unicode hash a).
Proof.
  intros hash.
  exists (ex_fn "flip2" [] None), (ex_fn "flip" [] None), (ex_fn "flip" [] None).
  exists (OverlapDiag (30, 35) false (Some (name_edit (30, 35) (lit "flip")))), (name_edit (30, 35) (lit "flip")).
  assert (E : overlapping_selectors ascii_unicode hash [ex_fn "flip2" [] None; ex_fn "flip" [] None; ex_fn "flip" [] None]
              = overlap_loop U32_MAX [] [be_u32 (hash (lit "flip2")); be_u32 (hash (lit "flip")); be_u32 (hash (lit "flip"))]
                  [(be_u32 (hash (lit "flip2")), ex_fn "flip2" [] None);
                   (be_u32 (hash (lit "flip")), ex_fn "flip" [] None);
                   (be_u32 (hash (lit "flip")), ex_fn "flip" [] None)]) by reflexivity.
  rewrite E. clear E. split.
  - cbn [overlap_loop existsb]. destruct (N.eqb (be_u32 (hash (lit "flip"))) (be_u32 (hash (lit "flip2")))); cbn [orb].
    + destruct (suggest_unique_id_mut _ _ _). discriminate.
    + rewrite N.eqb_refl. cbn [orb]. destruct (suggest_unique_id_mut _ _ _). discriminate.
  - intros Hd Hb.
    assert (En : N.eqb (be_u32 (hash (lit "flip"))) (be_u32 (hash (lit "flip2"))) = false).
    { apply N.eqb_neq. intros C. apply Hd. apply be_inj; auto. }
    cbn [overlap_loop existsb]. rewrite En, N.eqb_refl. cbn [orb].
    destruct (suggest_unique_id_mut _ _ _) as [s u]. eexists. split; [reflexivity|].
    split; [reflexivity|]. split; [reflexivity|]. split; reflexivity.
Qed.

Example C37_example :
  let f n := ex_fn "f" [ex_selector INT_NUMBER (dec n)] None in
  map (fun x => (provided (fst x), snd x))
    (overlapping_selectors ascii_unicode blake_selector [f 1; f 2; f 1; f 3; f 2; f 1]%N)
  = [(Some 1, Some 4); (Some 2, Some 5); (Some 1, Some 6)]%N
  /\ new_id (selector_id ascii_unicode blake_selector) [f 1; f 2; f 1]%N [(2, 4%N)] 2 = Some 4%N.
Proof. vm_compute. auto. Qed.

(** ** C38 *)

(** In each class, all wildcard arguments but the first are reported. *)
Theorem C38_wildcards cs :
  exists first l, picks (fun i => exists a, nth_error (flat_map selector_args cs) i = Some a /\ wildcard_arg a)
              (flat_map selector_args cs) l
    /\ ((l = [] /\ extra_wildcards cs = []) \/ l = first :: extra_wildcards cs).
Proof.
  rewrite extra_wildcards_eq. set (L := flat_map selector_args cs).
  assert (G : forall L, picks (fun i => exists a, nth_error L i = Some a /\ wildcard_arg a) L (filter is_wildcard L)).
  { clear. induction L as [|a L IH]; [apply picks_nil|].
    change (filter is_wildcard (a :: L)) with (if is_wildcard a then a :: filter is_wildcard L else filter is_wildcard L).
    replace (if is_wildcard a then a :: filter is_wildcard L else filter is_wildcard L)
      with ((if is_wildcard a then [a] else []) ++ filter is_wildcard L) by (destruct (is_wildcard a); reflexivity).
    apply picks_cons; [|exact IH]. cbn. split.
    - intros (b & E & Hb). injection E as <-. apply is_wildcard_spec. exact Hb.
    - intros E. exists a. split; [reflexivity | apply is_wildcard_spec; exact E]. }
  specialize (G L). destruct (filter is_wildcard L) as [|a l] eqn:E.
  - exists (meta_empty 0 None), []. split; [exact G | left; auto].
  - exists a, (a :: l). split; [exact G | right; reflexivity].
Qed.
Theorem C38_selector_args c a : In a (selector_args c) <-> writes c a.
Proof. apply selector_args_writes. Qed.

(** ink! 5: nothing is reported about complements exactly when there are neither wildcards nor complements, or there
    is a wildcard and the messages without it are one message with the complement. *)
Theorem C38_complement_exact ms :
  complement_reports ms = [] <->
  (forall c, In c ms -> ~ wildcard_callable c /\ ~ complement_callable c)
  \/ ((exists w, In w ms /\ wildcard_callable w)
      /\ exists l1 c l2, ms = l1 ++ c :: l2 /\ ~ wildcard_callable c /\ complement_callable c
           /\ (forall x, In x (l1 ++ l2) -> wildcard_callable x)).
Proof.
  rewrite complement_reports_none.
  assert (E : (exists c, filter (fun c => negb (has_wildcard c)) ms = [c] /\ complement_callable c)
    <-> exists l1 c l2, ms = l1 ++ c :: l2 /\ ~ wildcard_callable c /\ complement_callable c
           /\ (forall x, In x (l1 ++ l2) -> wildcard_callable x)).
  { split.
    - intros (c & Hf & Hc). induction ms as [|m ms IH]; [discriminate|]. cbn [filter] in Hf.
      destruct (has_wildcard m) eqn:Em; cbn [negb] in Hf.
      + destruct (IH Hf) as (l1 & c' & l2 & -> & H1 & H2 & H3). exists (m :: l1), c', l2. split; [reflexivity|].
        split; [exact H1|]. split; [exact H2|]. intros x [<-|Hx]; [apply has_wildcard_spec; exact Em | apply H3; exact Hx].
      + injection Hf as -> Hf. exists [], c, ms. split; [reflexivity|]. split; [|split; [exact Hc|]].
        * intros C. apply has_wildcard_spec in C. congruence.
        * intros x Hx. destruct (has_wildcard x) eqn:Ex; [apply has_wildcard_spec; exact Ex|].
          assert (In x (filter (fun c => negb (has_wildcard c)) ms)) as Hin by (apply filter_In; rewrite Ex; auto).
          rewrite Hf in Hin. destruct Hin.
    - intros (l1 & c & l2 & -> & H1 & H2 & H3). exists c. split; [|exact H2]. rewrite filter_app. cbn [filter].
      assert (Hn : forall l, (forall x, In x l -> wildcard_callable x) -> filter (fun c => negb (has_wildcard c)) l = []).
      { induction l as [|x l IH]; intros H; [reflexivity|]. cbn [filter].
        rewrite (proj2 (has_wildcard_spec x) (H x (or_introl eq_refl))). apply IH. intros y Hy. apply H. right. exact Hy. }
      rewrite (Hn l1), (Hn l2) by (intros x Hx; apply H3; apply in_app_iff; auto).
      destruct (has_wildcard c) eqn:Ec; [apply has_wildcard_spec in Ec; contradiction | reflexivity]. }
  rewrite E. tauto.
Qed.
(** Together with the rule for wildcards: a class of messages passes both exactly when it uses neither symbol, or is
    one message with one wildcard beside one with the complement. *)
Theorem C38_allowed ms :
  (extra_wildcards ms = [] /\ complement_reports ms = []) <->
  (forall c, In c ms -> ~ wildcard_callable c /\ ~ complement_callable c)
  \/ exists w c, (ms = [w; c] \/ ms = [c; w])
       /\ (exists l1 a l2, selector_args w = l1 ++ a :: l2 /\ wildcard_arg a
             /\ forall b, In b (l1 ++ l2) -> ~ wildcard_arg b)
       /\ ~ wildcard_callable c /\ complement_callable c.
Proof.
  rewrite C38_complement_exact, extra_wildcards_eq.
  assert (Hone : forall l, (exists l1 a l2, l = l1 ++ a :: l2 /\ wildcard_arg a /\ forall b, In b (l1 ++ l2) -> ~ wildcard_arg b)
                 <-> exists a, filter is_wildcard l = [a]).
  { induction l as [|x l IH].
    - split; [intros (l1 & a & l2 & E & _); destruct l1; discriminate | intros (a & E); discriminate].
    - cbn [filter]. destruct (is_wildcard x) eqn:Ex.
      + split.
        * intros (l1 & a & l2 & E & Ha & Hb). exists x. f_equal. destruct l1 as [|y l1].
          -- injection E as -> ->. apply filter_nil_of. intros b Hin. cbn in Hb.
             destruct (is_wildcard b) eqn:Eb; [|reflexivity]. apply is_wildcard_spec in Eb. destruct (Hb b Hin Eb).
          -- injection E as -> ->. exfalso. apply (Hb y); [left; reflexivity | apply is_wildcard_spec; exact Ex].
        * intros (a & E). injection E as <- E. exists [], x, l. split; [reflexivity|]. split; [apply is_wildcard_spec; exact Ex|].
          intros b Hb Hw. apply is_wildcard_spec in Hw. cbn in Hb.
          assert (In b (filter is_wildcard l)) as Hin by (apply filter_In; auto). rewrite E in Hin. destruct Hin.
      + rewrite <- IH. split.
        * intros (l1 & a & l2 & E & Ha & Hb). destruct l1 as [|y l1].
          -- injection E as -> ->. apply is_wildcard_spec in Ha. congruence.
          -- injection E as -> ->. exists l1, a, l2. split; [reflexivity|]. split; [exact Ha|].
             intros b Hin. apply Hb. right. exact Hin.
        * intros (l1 & a & l2 & -> & Ha & Hb). exists (x :: l1), a, l2. split; [reflexivity|]. split; [exact Ha|].
          intros b [<-|Hin]; [intros C; apply is_wildcard_spec in C; congruence | apply Hb; exact Hin]. }
  assert (Hno : forall c, ~ wildcard_callable c -> filter is_wildcard (selector_args c) = []).
  { intros c Hc. apply filter_nil_of. intros a Ha. destruct (is_wildcard a) eqn:E; [|reflexivity].
    exfalso. apply Hc. exists a. split; [apply selector_args_writes; exact Ha | apply is_wildcard_spec; exact E]. }
  split.
  - intros [Hx [H|[(w & Hw & Hww) (l1 & c & l2 & -> & H1 & H2 & H3)]]]; [left; exact H|]. right.
    pose proof (count_wild (l1 ++ c :: l2)) as Hcount.
    assert (Hl : length (filter is_wildcard (flat_map selector_args (l1 ++ c :: l2))) <= 1).
    { destruct (filter is_wildcard _) as [|a [|b l]]; simpl in *; [lia | lia | discriminate Hx]. }
    rewrite filter_app in Hcount. cbn [filter] in Hcount.
    assert (Ec : has_wildcard c = false) by (destruct (has_wildcard c) eqn:E; [apply has_wildcard_spec in E; contradiction | reflexivity]).
    rewrite Ec in Hcount. rewrite <- filter_app in Hcount.
    assert (Hf : filter has_wildcard (l1 ++ l2) = l1 ++ l2).
    { apply filter_all. intros x Hin. apply has_wildcard_spec. apply H3. exact Hin. }
    rewrite Hf, app_length in Hcount.
    assert (Hle : length l1 + length l2 <= 1) by lia. clear Hcount.
    assert (Hin : In w (l1 ++ l2)).
    { apply in_app_iff. apply in_app_iff in Hw. destruct Hw as [Hw|[<-|Hw]]; auto. contradiction. }
    assert (Hw1 : exists l1 a l2, selector_args w = l1 ++ a :: l2 /\ wildcard_arg a /\ forall b, In b (l1 ++ l2) -> ~ wildcard_arg b).
    { apply Hone. destruct (filter is_wildcard (selector_args w)) as [|a [|b l]] eqn:Ef.
      - exfalso. destruct Hww as (a & Ha & Hwa). apply selector_args_writes in Ha. apply is_wildcard_spec in Hwa.
        assert (In a (filter is_wildcard (selector_args w))) as Hi by (apply filter_In; auto). rewrite Ef in Hi. destruct Hi.
      - exists a. reflexivity.
      - exfalso. apply in_split in Hw. destruct Hw as (m1 & m2 & E). rewrite E, flat_map_app, filter_app in Hl. cbn [flat_map] in Hl.
        rewrite filter_app, Ef in Hl. rewrite !app_length in Hl. simpl in Hl. lia. }
    exists w, c. split; [|auto]. destruct l1 as [|x l1].
    + destruct l2 as [|y [|z l2]]; [destruct Hin | destruct Hin as [<-|[]]; right; reflexivity | simpl in Hle; lia].
    + destruct l1 as [|y l1]; [|simpl in Hle; lia]. destruct l2 as [|y l2]; [|simpl in Hle; lia].
      destruct Hin as [<-|[]]. left. reflexivity.
  - intros [H|(w & c & Hms & Hw & Hc1 & Hc2)].
    + split; [|left; exact H].
      assert (E : filter is_wildcard (flat_map selector_args ms) = []).
      { apply filter_nil_of. intros a Ha. apply in_flat_map in Ha. destruct Ha as (c & Hc & Ha).
        destruct (is_wildcard a) eqn:Ea; [|reflexivity]. exfalso. apply (proj1 (H c Hc)). exists a.
        split; [apply selector_args_writes; exact Ha | apply is_wildcard_spec; exact Ea]. }
      rewrite E. reflexivity.
    + pose proof (proj1 (Hone _) Hw) as (a & Ha).
      assert (Hww : wildcard_callable w).
      { assert (In a (filter is_wildcard (selector_args w))) as Hin by (rewrite Ha; left; reflexivity). apply filter_In in Hin.
        exists a. split; [apply selector_args_writes; apply Hin | apply is_wildcard_spec; apply Hin]. }
      destruct Hms as [-> | ->].
      * split; [cbn [flat_map]; rewrite !filter_app, Ha, (Hno c Hc1); reflexivity|]. right.
        split; [exists w; split; [left; reflexivity | exact Hww]|]. exists [w], c, []. split; [reflexivity|].
        split; [exact Hc1|]. split; [exact Hc2|]. intros x [<-|[]]. exact Hww.
      * split; [cbn [flat_map]; rewrite !filter_app, Ha, (Hno c Hc1); reflexivity|]. right.
        split; [exists w; split; [right; left; reflexivity | exact Hww]|]. exists [], c, [w]. split; [reflexivity|].
        split; [exact Hc1|]. split; [exact Hc2|]. intros x [<-|[]]. exact Hww.
Qed.

(** Which messages are reported beside a wildcard: every message without the wildcard and the complement, and every
    message with the complement after the first. *)
Theorem C38_beside ms :
  (exists w, In w ms /\ wildcard_callable w) ->
  exists others, picks (fun i => exists c, nth_error ms i = Some c /\ ~ wildcard_callable c) ms others
    /\ ((others = [] /\ complement_reports ms = [WNoOther])
        \/ (others <> []
            /\ (exists l, picks (fun i => exists c, nth_error others i = Some c /\ ~ complement_callable c) others l
                  /\ filter_map beside_of (complement_reports ms) = l)
            /\ (exists l, picks (fun i => exists c, nth_error others i = Some c /\ complement_callable c) others l
                  /\ filter_map second_of (complement_reports ms) = tl l)
            /\ filter_map alone_of (complement_reports ms) = []
            /\ ~ In WNoOther (complement_reports ms))).
Proof.
  intros Hw. pose proof (proj2 (exists_wildcard ms) Hw) as Ew.
  assert (G : forall (f : callable -> bool) (P : callable -> Prop) L, (forall c, f c = true <-> P c) ->
    picks (fun i => exists c, nth_error L i = Some c /\ P c) L (filter f L)).
  { intros f P L Hf. induction L as [|a L IH]; [apply picks_nil|].
    change (filter f (a :: L)) with (if f a then a :: filter f L else filter f L).
    replace (if f a then a :: filter f L else filter f L)
      with ((if f a then [a] else []) ++ filter f L) by (destruct (f a); reflexivity).
    apply picks_cons; [|exact IH]. cbn. split.
    - intros (b & E & Hb). injection E as <-. apply Hf. exact Hb.
    - intros E. exists a. split; [reflexivity | apply Hf; exact E]. }
  exists (filter (fun c => negb (has_wildcard c)) ms). split.
  { apply G. intros c. rewrite negb_true_iff. split; intros H.
    - intros C. apply has_wildcard_spec in C. congruence.
    - destruct (has_wildcard c) eqn:E; [apply has_wildcard_spec in E; contradiction | reflexivity]. }
  unfold complement_reports. cbv zeta. rewrite Ew. cbn [negb andb].
  set (others := filter (fun c => negb (has_wildcard c)) ms). destruct others as [|o l] eqn:Eo.
  - left. auto.
  - right. split; [discriminate|]. rewrite <- Eo.
    destruct (loop_wild_reports (existsb has_complement ms) others false) as (H1 & H2 & H3).
    split; [|split; [|split]].
    + exists (filter (fun c => negb (is_comp c)) others). split; [|rewrite <- H2; rewrite Eo; reflexivity].
      apply G. intros c. rewrite negb_true_iff. split; intros H.
      * intros C. apply is_comp_spec in C. congruence.
      * destruct (is_comp c) eqn:E; [apply is_comp_spec in E; contradiction | reflexivity].
    + exists (filter is_comp others). split; [apply G; apply is_comp_spec | rewrite <- H1; rewrite Eo; reflexivity].
    + rewrite <- H3, Eo. reflexivity.
    + apply complement_loop_no_other.
Qed.
(** The fix offered for a message beside a wildcard: while no message has the complement, its selector is replaced, or
    one is added; otherwise the message can only be removed. *)
Lemma loop_fixes w comp : forall l seen c f, In (WNotComplement c f) (complement_loop w comp seen l) ->
  f = if comp then FixRemoveItem else match selector_arg c with Some a => FixReplaceSelector a | None => FixAddSelector end.
Proof.
  induction l as [|m l IH]; intros seen c f; [intros []|]. cbn [complement_loop]. intros H. apply in_app_or in H. destruct H as [H|H]; [|exact (IH _ _ _ H)].
  destruct w; destruct (complement_arg m).
  - destruct seen; [destruct H as [H|[]]; discriminate H | destruct H].
  - destruct H as [H|[]]. injection H as -> <-. reflexivity.
  - destruct H as [H|[]]; discriminate H.
  - destruct H.
Qed.
Theorem C38_fixes ms c f : In (WNotComplement c f) (complement_reports ms) ->
  (f = FixRemoveItem /\ exists m, In m ms /\ complement_callable m)
  \/ ((forall m, In m ms -> ~ complement_callable m)
      /\ match selector_arg c with Some a => f = FixReplaceSelector a | None => f = FixAddSelector end).
Proof.
  unfold complement_reports. cbv zeta. intros H.
  assert (Hf : f = if existsb has_complement ms then FixRemoveItem else match selector_arg c with Some a => FixReplaceSelector a | None => FixAddSelector end).
  { destruct (negb (existsb has_wildcard ms) && negb (existsb has_complement ms)); [destruct H|].
    destruct (filter (fun c => negb (has_wildcard c)) ms) as [|o l]; [|eapply loop_fixes; exact H].
    destruct (existsb has_wildcard ms); [destruct H as [H|[]]; discriminate | destruct H]. }
  destruct (existsb has_complement ms) eqn:E.
  - left. split; [exact Hf|]. apply exists_complement. exact E.
  - right. split; [|rewrite Hf; destruct (selector_arg c); reflexivity]. intros m Hm C.
    rewrite (proj2 (exists_complement ms)) in E; [discriminate | exists m; auto].
Qed.
(** Without one, every message with the complement is reported. *)
Theorem C38_no_wildcard ms :
  (forall c, In c ms -> ~ wildcard_callable c) ->
  (exists l, picks (fun i => exists c, nth_error ms i = Some c /\ complement_callable c) ms l
     /\ filter_map alone_of (complement_reports ms) = l)
  /\ filter_map beside_of (complement_reports ms) = [] /\ filter_map second_of (complement_reports ms) = []
  /\ ~ In WNoOther (complement_reports ms).
Proof.
  intros Hw.
  assert (G : forall (f : callable -> bool) (P : callable -> Prop) L, (forall c, f c = true <-> P c) ->
    picks (fun i => exists c, nth_error L i = Some c /\ P c) L (filter f L)).
  { intros f P L Hf. induction L as [|a L IH]; [apply picks_nil|].
    change (filter f (a :: L)) with (if f a then a :: filter f L else filter f L).
    replace (if f a then a :: filter f L else filter f L)
      with ((if f a then [a] else []) ++ filter f L) by (destruct (f a); reflexivity).
    apply picks_cons; [|exact IH]. cbn. split.
    - intros (b & E & Hb). injection E as <-. apply Hf. exact Hb.
    - intros E. exists a. split; [reflexivity | apply Hf; exact E]. }
  assert (Ew : existsb has_wildcard ms = false).
  { destruct (existsb has_wildcard ms) eqn:E; [|reflexivity]. apply exists_wildcard in E. destruct E as (c & Hc & Hcw).
    destruct (Hw c Hc Hcw). }
  assert (Eo : filter (fun c => negb (has_wildcard c)) ms = ms).
  { apply filter_all. intros c Hc. apply negb_true_iff. destruct (has_wildcard c) eqn:E; [|reflexivity].
    apply has_wildcard_spec in E. destruct (Hw c Hc E). }
  unfold complement_reports. cbv zeta. rewrite Ew, Eo. cbn [negb andb].
  destruct (existsb has_complement ms) eqn:Ec; cbn [negb].
  - destruct (loop_alone_reports true ms false) as (H1 & H2 & H3).
    assert (E : match ms with [] => [] | _ :: _ => complement_loop false true false ms end = complement_loop false true false ms)
      by (destruct ms; reflexivity). rewrite E. split; [|split; [exact H2 | split; [exact H3 | apply complement_loop_no_other]]].
    exists (filter is_comp ms). split; [apply G; apply is_comp_spec | exact H1].
  - split; [|split; [reflexivity | split; [reflexivity | intros []]]]. exists []. split; [|reflexivity].
    assert (E : filter is_comp ms = []).
    { apply filter_nil_of. intros c Hc. destruct (is_comp c) eqn:E; [|reflexivity]. apply is_comp_spec in E.
      rewrite (proj2 (exists_complement ms)) in Ec; [discriminate | exists c; auto]. }
    rewrite <- E. apply G. apply is_comp_spec.
Qed.
Example C38_example :
  let w := ex_fn "w" [ex_selector UNDERSCORE (lit "_")] None in
  let c := ex_fn "c" [ex_selector INT_NUMBER (lit "0x9BAE9D5E")] None in
  let m := ex_fn "m" [] None in
  complement_reports [w; c] = [] /\ complement_reports [c; m] = [WNoWildcard c (ex_selector INT_NUMBER (lit "0x9BAE9D5E"))]
  /\ complement_reports [m; w] = [WNotComplement m FixAddSelector]
  /\ filter_map second_of (complement_reports [w; c; m; c]) = [c]
  /\ extra_wildcards [w; m; w] = [ex_selector UNDERSCORE (lit "_")].
Proof. vm_compute. auto 10. Qed.

Print Assumptions C24_number_round_trip.
Print Assumptions C24_bytes_round_trip.
Print Assumptions C24_equality.
Print Assumptions C24_four_bytes.
Print Assumptions C24_written.
Print Assumptions C24_complement.
Print Assumptions C24_computed.
Print Assumptions C24_total.
Print Assumptions C24_trait_partial.
Print Assumptions C24_trait_refuted.
Print Assumptions C24_reserved_text_refuted.
Print Assumptions C37_selectors_exact.
Print Assumptions C37_same_selector.
Print Assumptions C37_ids_exact.
Print Assumptions C37_suggested_selectors.
Print Assumptions C37_suggested_ids.
Print Assumptions C37_id_found.
Print Assumptions C37_selector_found.
Print Assumptions C37_selector_edit.
Print Assumptions C37_id_edit.
Print Assumptions C37_fixed_selectors.
Print Assumptions C37_fixed_ids.
Print Assumptions C37_rename_refuted.
Print Assumptions C38_wildcards.
Print Assumptions C38_selector_args.
Print Assumptions C38_complement_exact.
Print Assumptions C38_allowed.
Print Assumptions C38_beside.
Print Assumptions C38_no_wildcard.
Print Assumptions C37_ids_read.
Print Assumptions C38_fixes.
