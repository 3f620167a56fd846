(** Properties C52 and C73: implementations of ink! trait definitions. *)
From Coq Require Import Lia Permutation Sorting.Sorted.
From Verif Require Import Base BaseFacts PositionModel TranslateModel VersionModel SyntaxModel AttrModel AttrSpec AttrProofs AttrProps
  EditModel UtilModel SuggestModel ArgEditModel ArgEditSpec FlattenModel FlattenSpec FlattenProofs FlattenProps ImplModel ImplSpec ImplProofs.

(** C52. A function of the [impl] is reported as undeclared (and its removal offered) exactly when the trait
    declares no method of that name. *)
Theorem C52_undeclared : forall toks rb v ord_args ord t i ds n r e,
  messages_are_methods t ->
  trait_impl_diags toks rb v ord_args ord t i = Done ds ->
  In (DUndeclared n r e) ds <->
  (e = edit_delete r /\ (exists f, has_fn i f /\ named f n /\ fi_range f = r) /\ ~ declares t n).
Proof.
  intros toks rb v oa ord t i ds n r e Hm H. rewrite (undeclared_exact _ _ _ _ _ _ _ _ n r e H). split.
  - intros (H1 & H2 & H3 & _). auto.
  - intros (H1 & H2 & H3). repeat split; try assumption. intros (_ & f & Hf & Hn). apply H3. exists f. auto.
Qed.
Print Assumptions C52_undeclared.

(** C52. The messages offered for insertion are exactly the declarations of the messages the [impl] does not
    implement, each once; a report is made exactly when there are any. *)
Theorem C52_missing : forall toks rb v ord_args ord t i ds,
  (forall l, Permutation l (ord l)) ->
  trait_impl_diags toks rb v ord_args ord t i = Done ds ->
  exists l, NoDup (map fn_text l)
    /\ (forall f, In f l <-> exists n, declaration t n f /\ ~ implements i n)
    /\ forall r e, In (DMissing r e) ds <->
         l <> [] /\ r = im_decl_range i
         /\ exists snippet o, e = Some (TextEdit (in_block i (apply_indenting (stubs l) (im_children_indent i))) (o, o) snippet)
              /\ o = (if im_items i then im_insert i else im_end i)
              /\ snippet = Some (in_block i (apply_indenting (snippet_stubs l) (im_children_indent i))).
Proof.
  intros toks rb v oa ord t i ds Ho H. exists (missing_messages ord t i).
  split; [apply missing_messages_nodup, Ho|]. split.
  - intros f. rewrite (missing_messages_In _ _ _ _ Ho). split; intros (n & H1 & H2); exists n; (split; [apply index_declaration, H1 | exact H2]).
  - intros r e. unfold trait_impl_diags in H. destruct (oflat _) as [l|] eqn:E; [|discriminate]. injection H as <-.
    rewrite in_app_iff.
    assert (Hl : ~ In (DMissing r e) l).
    { intros Hd. apply (oflat_In _ _ _ _ E) in Hd. destruct Hd as (a & ra & Ha & Hr & Hd).
      destruct a as [f|ro]; [|injection Hr as <-; destruct Hd as [Hd|[]]; discriminate].
      unfold item_diags in Hr. destruct (fi_name f) as [nm|] eqn:En; [|injection Hr as <-; contradiction].
      destruct (hm_get str_eqb (message_index t) (snd nm)) as [decl|] eqn:Ei.
      - destruct (message_arg_diags toks rb v oa f decl) as [l'|] eqn:Em; [|discriminate]. injection Hr as <-.
        apply in_app_iff in Hd. destruct Hd as [Hd|Hd].
        + apply (message_arg_diags_arg _ _ _ _ _ _ _ _ Em) in Hd. contradiction.
        + apply signature_diags_kind in Hd. contradiction.
      - destruct (has_str (snd nm) (method_names t)); injection Hr as <-; [contradiction|]. destruct Hd as [Hd|[]]; discriminate. }
    unfold missing_diags. destruct (missing_messages ord t i) as [|f l'] eqn:Em.
    + split; [intros [Hd|[]]; contradiction | intros [Hd _]; contradiction].
    + split.
      * intros [Hd|[[= <- <-]|[]]]; [contradiction|]. split; [discriminate|]. split; [reflexivity|].
        eexists _, _. split; [unfold edit_insert_snippet; reflexivity|]. split; [destruct (im_items i); reflexivity | reflexivity].
      * intros (_ & -> & snip & o & -> & -> & ->). right. left. unfold edit_insert_snippet. destruct (im_items i); reflexivity.
Qed.
Print Assumptions C52_missing.

Lemma declares_declaration t n : declares_message t n <-> exists d, declaration t n d.
Proof. rewrite <- index_some. split; intros [d H]; exists d; apply index_declaration; exact H. Qed.

(** C52. In particular messages are reported as missing exactly when a declared message is not implemented. *)
Theorem C52_missing_iff : forall toks rb v ord_args ord t i ds,
  (forall l, Permutation l (ord l)) ->
  trait_impl_diags toks rb v ord_args ord t i = Done ds ->
  (exists r e, In (DMissing r e) ds) <-> (exists n, declares_message t n /\ ~ implements i n).
Proof.
  intros toks rb v oa ord t i ds Ho H. destruct (C52_missing _ _ _ _ _ _ _ _ Ho H) as (l & _ & Hl & Hd). split.
  - intros (r & e & Hin). apply Hd in Hin. destruct Hin as [Hne _]. destruct l as [|f l]; [contradiction|].
    destruct (proj1 (Hl f) (or_introl eq_refl)) as (n & Hn & Hi). exists n. split; [|exact Hi]. apply declares_declaration. eauto.
  - intros (n & Hn & Hi). apply declares_declaration in Hn. destruct Hn as [d Hdn].
    assert (Hin : In d l) by (apply Hl; eauto).
    eexists _, _. apply Hd. split; [intros ->; contradiction|]. split; [reflexivity|]. eexists _, _. repeat split.
Qed.
Print Assumptions C52_missing_iff.

(** C52. Once functions of the missing names are added, no message is reported as missing. *)
Theorem C52_missing_fixed : forall toks rb v ord_args ord t i fs ds,
  (forall l, Permutation l (ord l)) ->
  (forall n, declares_message t n -> ~ implements i n -> exists g, In g fs /\ named g n) ->
  trait_impl_diags toks rb v ord_args ord t (with_fns i fs) = Done ds ->
  forall r e, ~ In (DMissing r e) ds.
Proof.
  intros toks rb v oa ord t i fs ds Ho Hf H r e Hin.
  assert (Hex : exists r e, In (DMissing r e) ds) by eauto.
  apply (C52_missing_iff _ _ _ _ _ _ _ _ Ho H) in Hex. destruct Hex as (n & Hn & Hi).
  assert (Hni : ~ implements i n).
  { intros (f & (l & Hl & Hfl) & Hnm). apply Hi. exists f. split; [|exact Hnm]. eexists. split; [reflexivity|].
    rewrite Hl. apply in_app_iff. left; exact Hfl. }
  destruct (Hf n Hn Hni) as (g & Hg & Hgn). apply Hi. exists g. split; [|exact Hgn]. eexists. split; [reflexivity|].
  apply in_app_iff. right. apply in_map, Hg.
Qed.
Print Assumptions C52_missing_fixed.

(** C52. The signature of an inserted function matches its declaration (whose parameters are separated, not
    followed, by commas). *)
Theorem C52_stub_signature : forall body f n,
  named f n -> params_written f ->
  exists p r, fn_stub body f = lit "fn " ++ n ++ text_of p ++ match r with Some r => lit " " ++ text_of r | None => [] end
                               ++ lit " {" ++ [c_nl] ++ lit "    " ++ body ++ [c_nl] ++ lit "}"
    /\ part_matches (fi_params f) (Some (0, p)) /\ part_matches (fi_ret f) (option_map (fun r => (0, r)) r).
Proof. exact stub_signature. Qed.
Print Assumptions C52_stub_signature.

(** C52. A function of the [impl] whose parameters or return type do not match the declaration is reported; the
    fix writes the declared text, or deletes what is not declared. *)
Theorem C52_signature_reported : forall toks rb v ord_args ord t i ds f n decl p,
  trait_impl_diags toks rb v ord_args ord t i = Done ds ->
  has_fn i f -> fi_name f = Some n -> declaration t (snd n) decl ->
  ~ part_matches (part_of p decl) (part_of p f) ->
  match part_of p decl, part_of p f with
  | Some d, Some x => In (DMismatch p (lstart x, lend x) (edit_replace (text_of (snd d)) (lstart x, lend x))) ds
  | Some d, None =>
      let name_end := fst n + bytes (snd n) in
      let o := match p with PParams => name_end | PReturn => match fi_params f with Some x => lend x | None => name_end end end in
      exists r, In (DMismatch p r (edit_replace (text_of (snd d)) (o, o))) ds
  | None, Some x => In (DNotDeclared p (lstart x, lend x) (edit_delete (lstart x, lend x))) ds
  | None, None => False
  end.
Proof.
  intros toks rb v oa ord t i ds f n decl p H Hf Hn Hd Hm.
  assert (Hin : forall d, In d (signature_diags f decl n) -> In d ds) by (intros d; apply (item_in _ _ _ _ _ _ _ _ d f n decl H Hf Hn Hd)).
  assert (Hv : forall p d x r s, verify_part p (Some d) (Some x) r s = [] \/ verify_part p (Some d) (Some x) r s = [DMismatch p r (edit_replace (text_of (snd d)) s)]).
  { intros. unfold verify_part. destruct (negb _); auto. }
  destruct p; cbn [part_of] in *; unfold signature_diags in Hin.
  - destruct (fi_params decl) as [d|], (fi_params f) as [x|].
    + apply Hin. apply in_app_iff. left. 
      destruct (Hv PParams d x (node_range x) (node_range x)) as [E|E]; [apply verify_part_nil in E; contradiction|]. rewrite E. left; reflexivity.
    + eexists. apply Hin. apply in_app_iff. left. left. reflexivity.
    + apply Hin. apply in_app_iff. left. left. reflexivity.
    + apply Hm. exact I.
  - destruct (fi_ret decl) as [d|], (fi_ret f) as [x|].
    + apply Hin. apply in_app_iff. right.
      destruct (Hv PReturn d x (node_range x) (node_range x)) as [E|E]; [apply verify_part_nil in E; contradiction|]. rewrite E. left; reflexivity.
    + destruct (fi_params f); eexists; apply Hin; apply in_app_iff; right; left; reflexivity.
    + apply Hin. apply in_app_iff. right. left. reflexivity.
    + apply Hm. exact I.
Qed.
Print Assumptions C52_signature_reported.

(** C52. Nothing else is reported about signatures. *)
Theorem C52_signature_sound : forall toks rb v ord_args ord t i ds p r e,
  trait_impl_diags toks rb v ord_args ord t i = Done ds ->
  In (DMismatch p r e) ds \/ In (DNotDeclared p r e) ds ->
  exists f n decl, has_fn i f /\ fi_name f = Some n /\ declaration t (snd n) decl
    /\ ~ part_matches (part_of p decl) (part_of p f)
    /\ te_text e = match part_of p decl with Some d => text_of (snd d) | None => [] end
    /\ match part_of p f with Some x => te_range e = (lstart x, lend x) | None => True end.
Proof.
  intros toks rb v oa ord t i ds p r e H Hin.
  assert (Hx : exists d, In d ds /\ match d with DMismatch p' r' e' | DNotDeclared p' r' e' => p' = p /\ r' = r /\ e' = e | _ => False end).
  { destruct Hin as [Hin|Hin]; eexists; (split; [exact Hin|]); simpl; auto. }
  clear Hin. destruct Hx as (d & Hd & Hk).
  destruct (sig_in _ _ _ _ _ _ _ _ d H Hd) as (f & n & decl & Hf & Hn & Hdc & Hs); [destruct d; tauto|].
  exists f, n, decl. split; [exact Hf|]. split; [exact Hn|]. split; [exact Hdc|].
  assert (Hv : forall q a b rr s, (forall x, b = Some x -> s = (lstart x, lend x)) -> In d (verify_part q a b rr s) ->
     q = p /\ ~ part_matches a b /\ te_text e = match a with Some d => text_of (snd d) | None => [] end
     /\ match b with Some x => te_range e = (lstart x, lend x) | None => True end).
  { intros q a b rr s Hs' Hi. assert (Hne : verify_part q a b rr s <> []) by (intros E; rewrite E in Hi; contradiction).
    assert (Hnm : ~ part_matches a b) by (intros Hm; apply Hne, verify_part_nil, Hm).
    unfold verify_part in Hi. destruct a as [a|].
    - destruct (match b with Some i => negb (trivia_insensitive_eq i a) | None => true end); [|contradiction].
      destruct Hi as [<-|[]]. simpl in Hk. destruct Hk as (-> & <- & <-). split; [reflexivity|]. split; [exact Hnm|]. split; [reflexivity|].
      destruct b as [x|]; [apply Hs'; reflexivity | exact I].
    - destruct b as [x|]; [|contradiction]. destruct Hi as [<-|[]]. simpl in Hk. destruct Hk as (-> & <- & <-). auto. }
  unfold signature_diags in Hs. apply in_app_iff in Hs. destruct Hs as [Hs|Hs]; apply Hv in Hs;
    try (destruct Hs as (<- & Hs); exact Hs);
    [destruct (fi_params f); intros y [= ->]; reflexivity | destruct (fi_ret f); intros y [= ->]; reflexivity].
Qed.
Print Assumptions C52_signature_sound.

(** ** Examples *)
Definition tok_ (k : skind) (s : str) : elem := Tok k s.
Definition params_node (o : nat) (l : list str) : lelem :=
  (o, Node (OTHER 0) (Tok L_PAREN (lit "(") ::
     (fix go l := match l with [] => [] | [p] => [Tok IDENT p] | p :: l' => Tok IDENT p :: comma_tok :: sp :: go l' end) l ++ [Tok R_PAREN (lit ")")])).
Definition ret_node (o : nat) (ty : str) : lelem := (o, Node (OTHER 1) [Tok (OTHER 2) (lit "->"); sp; Tok IDENT ty]).
Definition mk_fn (o : nat) (name : str) (self : str) (others : list str) (ret : option str) (attrs : list ink_attr) : fn_item :=
  FnItem (o, o + 40) (o, o + 20) (Some (o + 3, name)) (Some (params_node (o + 9) (self :: others))) (Some self) others
    (option_map (ret_node (o + 20)) ret) ret attrs o o.
Definition ex_trait : trait_def :=
  let flip := mk_fn 100 (lit "flip") (lit "&mut self") [] None [] in
  let get := mk_fn 200 (lit "get") (lit "&self") [lit "key: u8"; lit "deep: bool"] (Some (lit "bool")) [] in
  TraitDef [Some flip; Some get] [flip; get; mk_fn 300 (lit "helper") (lit "&self") [] None []].
Definition ex_impl : impl_item :=
  ImplItem (Some [AFn (mk_fn 500 (lit "flip") (lit "&self") [] None []); AOther (550, 560);
                  AFn (mk_fn 600 (lit "extra") (lit "&self") [] None []); AFn (mk_fn 700 (lit "helper") (lit "&self") [] None [])])
    (480, 495) 800 799 (lit "    ") None.
Definition ex_stub : str :=
  lit "    fn get(&self, key: u8, deep: bool) -> bool {" ++ [c_nl] ++ lit "        todo!()" ++ [c_nl] ++ lit "    }".
(** [flip] is implemented with the wrong receiver, a constant and [extra] do not belong here, [get] is missing. *)
Example C52_nonvacuous :
  messages_are_methods ex_trait
  /\ exists ds snippet, trait_impl_diags [] (fun _ => None) V5 (fun l => l) (fun l => l) ex_trait ex_impl = Done ds
     /\ ds = [DMismatch PParams (509, 516) (edit_replace (lit "(&mut self)") (509, 516));
              DNotMessage (550, 560) (edit_delete (550, 560));
              DUndeclared (lit "extra") (600, 640) (edit_delete (600, 640));
              DMissing (480, 495) (Some (TextEdit ex_stub (799, 799) (Some snippet)))].
Proof.
  split.
  - intros f [[= <-]|[[= <-]|[]]]; simpl; auto.
  - eexists _, _. split; vm_compute; reflexivity.
Qed.

Definition ex_padded (o : nat) (l : list elem) : lelem := (o, Node (OTHER 0) (Tok L_PAREN (lit "(") :: l ++ [Tok R_PAREN (lit ")")])).
Definition with_params (f : fn_item) (p : lelem) : fn_item :=
  FnItem (fi_range f) (fi_decl_range f) (fi_name f) (Some p) (fi_self f) (fi_other f) (fi_ret f) (fi_ret_ty f) (fi_attrs f)
    (fi_first_attr_offset f) (fi_attr_offset f).
Definition one_param (white : list elem) : elem := Node (OTHER 3) ([Tok IDENT (lit "a"); Tok (OTHER 4) (lit ":")] ++ white ++ [Tok IDENT (lit "u8")]).
(** White space inside a parameter counts as a difference: [a:u8] is reported against [a: u8]. *)
Theorem C52_whitespace_refuted : exists toks rb v oa o t i ds f decl p q r e,
  trait_impl_diags toks rb v oa o t i = Done ds
  /\ has_fn i f /\ named f (lit "get") /\ declaration t (lit "get") decl
  /\ fi_params f = Some p /\ fi_params decl = Some q /\ same_tokens q p
  /\ In (DMismatch PParams r e) ds.
Proof.
  pose (decl := with_params (mk_fn 100 (lit "get") (lit "&self") [lit "a: u8"] None []) (ex_padded 109 [Tok IDENT (lit "&self"); comma_tok; sp; one_param [sp]])).
  pose (f := with_params (mk_fn 500 (lit "get") (lit "&self") [lit "a:u8"] None []) (ex_padded 509 [Tok IDENT (lit "&self"); comma_tok; sp; one_param []])).
  exists [], (fun _ => None), V5, (fun l => l), (fun l => l), (TraitDef [Some decl] [decl]), (ImplItem (Some [AFn f]) (480, 495) 800 799 [] None).
  eexists _, f, decl, _, _, _, _. split; [vm_compute; reflexivity|].
  split; [exists [AFn f]; split; [reflexivity | left; reflexivity]|].
  split; [exists 503; reflexivity|]. split; [apply index_declaration; vm_compute; reflexivity|].
  split; [reflexivity|]. split; [reflexivity|]. split; [vm_compute; reflexivity|]. left. reflexivity.
Qed.
Print Assumptions C52_whitespace_refuted.

(** A declaration written with a comma after its last parameter: the function the fix for missing messages adds
    for it has no such comma, and is then reported itself. *)
Theorem C52_trailing_comma_refuted : exists toks rb v oa o t i f decl p r e,
  (forall l, Permutation l (o l))
  /\ trait_impl_diags toks rb v oa o t i = Done [DMissing r (Some e)]
  /\ declaration t (lit "get") decl
  /\ te_text e = fn_stub (lit "todo!()") decl
  /\ fn_stub (lit "todo!()") decl = lit "fn get" ++ text_of (snd p) ++ lit " {" ++ [c_nl] ++ lit "    todo!()" ++ [c_nl] ++ lit "}"
  /\ named f (lit "get") /\ fi_params f = Some p
  /\ exists r' e', trait_impl_diags toks rb v oa o t (with_fns i [f]) = Done [DMismatch PParams r' e'].
Proof.
  pose (decl := with_params (mk_fn 100 (lit "get") (lit "&self") [lit "a: u8"] None []) (ex_padded 109 [Tok IDENT (lit "&self"); comma_tok; sp; one_param [sp]; comma_tok])).
  pose (p := ex_padded 509 [Tok IDENT (lit "&self"); comma_tok; sp; one_param [sp]]).
  pose (f := with_params (mk_fn 500 (lit "get") (lit "&self") [lit "a: u8"] None []) p).
  exists [], (fun _ => None), V5, (fun l => l), (fun l => l), (TraitDef [Some decl] [decl]), (ImplItem (Some []) (480, 495) 800 799 [] None).
  exists f, decl, p. eexists _, _. split; [intros l; apply Permutation_refl|].
  split; [vm_compute; reflexivity|].
  split; [apply index_declaration; vm_compute; reflexivity|].
  split; [vm_compute; reflexivity|]. split; [vm_compute; reflexivity|].
  split; [exists 503; reflexivity|]. split; [reflexivity|]. eexists _, _. vm_compute. reflexivity.
Qed.
Print Assumptions C52_trailing_comma_refuted.

(** C52. Every associated item of the [impl] that is not a function is reported, with its removal. *)
Theorem C52_not_message : forall toks rb v ord_args ord t i ds r e,
  trait_impl_diags toks rb v ord_args ord t i = Done ds ->
  In (DNotMessage r e) ds <-> e = edit_delete r /\ exists l, im_items i = Some l /\ In (AOther r) l.
Proof.
  intros toks rb v oa ord t i ds r e H. unfold trait_impl_diags in H. destruct (oflat _) as [l|] eqn:E; [|discriminate].
  injection H as <-. rewrite in_app_iff, (oflat_In _ _ _ _ E). split.
  - intros [(a & ra & Ha & Hr & Hd)|Hd]; [|apply missing_diags_kind in Hd; destruct Hd as (? & ? & ?); discriminate].
    destruct a as [f|ro].
    + exfalso. unfold item_diags in Hr. destruct (fi_name f) as [nm|]; [|injection Hr as <-; contradiction].
      destruct (hm_get str_eqb (message_index t) (snd nm)) as [decl|].
      * destruct (message_arg_diags toks rb v oa f decl) as [l'|] eqn:Em; [|discriminate]. injection Hr as <-.
        apply in_app_iff in Hd. destruct Hd as [Hd|Hd].
        -- apply (message_arg_diags_arg _ _ _ _ _ _ _ _ Em) in Hd. contradiction.
        -- apply signature_diags_kind in Hd. contradiction.
      * destruct (has_str (snd nm) (method_names t)); injection Hr as <-; [contradiction|]. destruct Hd as [Hd|[]]; discriminate.
    + injection Hr as <-. destruct Hd as [[= -> <-]|[]]. split; [reflexivity|].
      destruct (im_items i) as [li|]; [eauto | contradiction].
  - intros (-> & li & Hli & Hin). left. exists (AOther r), [DNotMessage r (edit_delete r)]. rewrite Hli.
    split; [exact Hin|]. split; [reflexivity|]. left; reflexivity.
Qed.
Print Assumptions C52_not_message.

(** ** C73: arguments of implemented messages *)

(** C73. An argument in an [#[ink(..)]] attribute of an implemented message is reported as not belonging there,
    and its removal offered, exactly when the declaration has no such argument. *)
Theorem C73_extra_args : forall toks rb v ord_args ord t i ds r e,
  trait_impl_diags toks rb v ord_args ord t i = Done ds ->
  In (DExtraArg r e) ds <->
  exists f n decl attr a er,
    has_fn i f /\ fi_name f = Some n /\ declaration t (snd n) decl
    /\ In attr (fi_attrs f) /\ (exists k, at_kind attr = AkArg k) /\ In a (at_args attr)
    /\ lacks decl (ia_kind a)
    /\ meta_range a = Done r /\ arg_removal_range toks a (Some attr) = Done er /\ e = edit_delete er.
Proof.
  intros toks rb v oa ord t i ds r e H. rewrite (arg_diag_in _ _ _ _ _ _ _ _ (DExtraArg r e) H I). split.
  - intros (f & n & decl & l & Hf & Hn & Hd & Hm & Hin). apply (one_arg_in _ _ _ _ _ _ _ (DExtraArg r e) Hm I) in Hin.
    destruct Hin as (attr & a & ra & H1 & H2 & H3 & H4). apply one_arg_classes in H3.
    destruct H3 as [(b & _ & Hs)|[(_ & _ & ->)|(Hl & Hma & Hx)]]; [exfalso| contradiction |].
    + unfold shared_arg_diags in Hs. destruct (arg_value b); [|injection Hs as <-; contradiction].
      destruct (match value_kind (ia_kind a) with VNone => true | _ => false end); [injection Hs as <-; contradiction|].
      destruct (arg_value a).
      * destruct (same_value_text _ _); [injection Hs as <-; contradiction|]. destruct (meta_range a); [|discriminate].
        injection Hs as <-. destruct H4 as [H4|[]]; discriminate.
      * destruct (meta_range a); [|discriminate]. injection Hs as <-. destruct H4 as [H4|[]]; discriminate.
    + unfold extra_arg_diags in Hx. destruct (arg_removal_range toks a (Some attr)) as [er|] eqn:Er; [|discriminate]. simpl in Hx.
      destruct (meta_range a) as [mr|] eqn:Emr; [|discriminate]. injection Hx as <-. destruct H4 as [[= <- <-]|[]].
      exists f, n, decl, attr, a, er. split; [exact Hf|]. split; [exact Hn|]. split; [exact Hd|]. split; [exact H1|].
      split; [unfold is_macro_attr in Hma; destruct (at_kind attr); [discriminate | eauto]|].
      split; [exact H2|]. split; [exact Hl|]. split; [exact Emr|]. split; [exact Er|reflexivity].
  - intros (f & n & decl & attr & a & er & Hf & Hn & Hd & Ha & (k & Hk) & Hina & Hl & Hmr & Her & ->).
    destruct Hf as (li & Hli & Hfl).
    assert (Hmd : exists l, message_arg_diags toks rb v oa f decl = Done l).
    { unfold trait_impl_diags in H. destruct (oflat _) as [l|] eqn:E; [|discriminate].
      rewrite Hli in E. destruct (oflat_each _ _ _ E (AFn f) Hfl) as [ra Hra]. unfold item_diags in Hra. rewrite Hn in Hra.
      apply index_declaration in Hd. rewrite Hd in Hra. destruct (message_arg_diags toks rb v oa f decl); [eauto|discriminate]. }
    destruct Hmd as [l Hmd]. exists f, n, decl, l. split; [exists li; auto|]. split; [exact Hn|]. split; [exact Hd|]. split; [exact Hmd|].
    apply (one_arg_in _ _ _ _ _ _ _ (DExtraArg r (edit_delete er)) Hmd I). exists attr, a, [DExtraArg r (edit_delete er)]. split; [exact Ha|]. split; [exact Hina|].
    split; [|left; reflexivity]. unfold one_arg_diags. apply lacks_index in Hl. rewrite Hl. unfold is_macro_attr. rewrite Hk.
    unfold extra_arg_diags. rewrite Her. simpl. rewrite Hmr. reflexivity.
Qed.
Print Assumptions C73_extra_args.

(** C73. Where the declaration gives an argument a value, the implemented message must give it the same value: a
    missing or a different value is reported, and the fix writes the declared argument in its place. *)
Theorem C73_values : forall toks rb v ord_args ord t i ds r e,
  trait_impl_diags toks rb v ord_args ord t i = Done ds ->
  (In (DValueMissing r e) ds <->
   exists f n decl attr a b vb,
     has_fn i f /\ fi_name f = Some n /\ declaration t (snd n) decl
     /\ In attr (fi_attrs f) /\ In a (at_args attr) /\ takes_value (ia_kind a)
     /\ declared_arg decl (ia_kind a) b /\ arg_value b = Some vb /\ arg_value a = None
     /\ meta_range a = Done r /\ e = edit_replace (meta_str b) r)
  /\ (In (DValueMismatch r e) ds <->
   exists f n decl attr a b va vb,
     has_fn i f /\ fi_name f = Some n /\ declaration t (snd n) decl
     /\ In attr (fi_attrs f) /\ In a (at_args attr) /\ takes_value (ia_kind a)
     /\ declared_arg decl (ia_kind a) b /\ arg_value b = Some vb /\ arg_value a = Some va /\ value_tokens va <> value_tokens vb
     /\ meta_range a = Done r /\ e = edit_replace (meta_str b) r).
Proof.
  intros toks rb v oa ord t i ds r e H.
  assert (Hmd : forall f n decl, has_fn i f -> fi_name f = Some n -> declaration t (snd n) decl -> exists l, message_arg_diags toks rb v oa f decl = Done l).
  { intros f n decl (li & Hli & Hfl) Hn Hd. unfold trait_impl_diags in H. destruct (oflat _) as [l|] eqn:E; [|discriminate].
    rewrite Hli in E. destruct (oflat_each _ _ _ E (AFn f) Hfl) as [ra Hra]. unfold item_diags in Hra. rewrite Hn in Hra.
    apply index_declaration in Hd. rewrite Hd in Hra. destruct (message_arg_diags toks rb v oa f decl); [eauto|discriminate]. }
  assert (Hfwd : forall d, In d ds -> match d with DValueMissing _ _ | DValueMismatch _ _ => True | _ => False end ->
     exists f n decl attr a b ra, has_fn i f /\ fi_name f = Some n /\ declaration t (snd n) decl /\ In attr (fi_attrs f) /\ In a (at_args attr)
       /\ declared_arg decl (ia_kind a) b /\ shared_arg_diags a b = Done ra /\ In d ra).
  { intros d Hd Hk. apply (arg_diag_in _ _ _ _ _ _ _ _ d H) in Hd; [|destruct d; try contradiction; exact I].
    destruct Hd as (f & n & decl & l & Hf & Hn & Hdc & Hm & Hin). apply (one_arg_in _ _ _ _ _ _ _ _ Hm) in Hin; [|destruct d; try contradiction; exact I].
    destruct Hin as (attr & a & ra & H1 & H2 & H3 & H4). apply one_arg_classes in H3.
    destruct H3 as [(b & Hb & Hs)|[(_ & _ & ->)|(Hl & Hma & Hx)]]; [|contradiction|exfalso].
    - exists f, n, decl, attr, a, b, ra. auto 10.
    - unfold extra_arg_diags in Hx. destruct (arg_removal_range toks a (Some attr)); [|discriminate]. simpl in Hx.
      destruct (meta_range a); [|discriminate]. injection Hx as <-. destruct H4 as [<-|[]]. contradiction. }
  assert (Hbwd : forall d f n decl attr a b ra, has_fn i f -> fi_name f = Some n -> declaration t (snd n) decl -> In attr (fi_attrs f) -> In a (at_args attr) ->
       declared_arg decl (ia_kind a) b -> shared_arg_diags a b = Done ra -> In d ra -> match d with DValueMissing _ _ | DValueMismatch _ _ => True | _ => False end -> In d ds).
  { intros d f n decl attr a b ra Hf Hn Hdc Ha Hin Hb Hs Hd Hk. destruct (Hmd f n decl Hf Hn Hdc) as [l Hl].
    apply (arg_diag_in _ _ _ _ _ _ _ _ d H); [destruct d; try contradiction; exact I|]. exists f, n, decl, l.
    split; [exact Hf|]. split; [exact Hn|]. split; [exact Hdc|]. split; [exact Hl|].
    apply (one_arg_in _ _ _ _ _ _ _ _ Hl); [destruct d; try contradiction; exact I|]. exists attr, a, ra. split; [exact Ha|]. split; [exact Hin|].
    split; [|exact Hd]. unfold one_arg_diags. apply index_arg in Hb. rewrite Hb. exact Hs. }
  assert (Hvk : forall k, match value_kind k with VNone => true | _ => false end = false <-> takes_value k).
  { intros k. unfold takes_value. destruct (value_kind k); split; intros; try congruence; try reflexivity. }
  split; split.
  - intros Hd. destruct (Hfwd _ Hd I) as (f & n & decl & attr & a & b & ra & Hf & Hn & Hdc & Ha & Hin & Hb & Hs & Hra).
    unfold shared_arg_diags in Hs. destruct (arg_value b) as [vb|] eqn:Evb; [|injection Hs as <-; contradiction].
    destruct (match value_kind (ia_kind a) with VNone => true | _ => false end) eqn:Evk; [injection Hs as <-; contradiction|].
    apply Hvk in Evk. destruct (arg_value a) as [va|] eqn:Eva.
    + destruct (same_value_text va vb); [injection Hs as <-; contradiction|]. destruct (meta_range a); [|discriminate].
      injection Hs as <-. destruct Hra as [Hra|[]]; discriminate.
    + destruct (meta_range a) as [mr|] eqn:Emr; [|discriminate]. injection Hs as <-. destruct Hra as [[= <- <-]|[]].
      exists f, n, decl, attr, a, b, vb. repeat (split; [assumption|]). reflexivity.
  - intros (f & n & decl & attr & a & b & vb & Hf & Hn & Hdc & Ha & Hin & Htv & Hb & Hvb & Hva & Hmr & ->).
    apply (Hbwd _ f n decl attr a b [DValueMissing r (edit_replace (meta_str b) r)] Hf Hn Hdc Ha Hin Hb); [|left; reflexivity | exact I]. unfold shared_arg_diags. rewrite Hvb, Hva.
    apply Hvk in Htv. rewrite Htv, Hmr. reflexivity.
  - intros Hd. destruct (Hfwd _ Hd I) as (f & n & decl & attr & a & b & ra & Hf & Hn & Hdc & Ha & Hin & Hb & Hs & Hra).
    unfold shared_arg_diags in Hs. destruct (arg_value b) as [vb|] eqn:Evb; [|injection Hs as <-; contradiction].
    destruct (match value_kind (ia_kind a) with VNone => true | _ => false end) eqn:Evk; [injection Hs as <-; contradiction|].
    apply Hvk in Evk. destruct (arg_value a) as [va|] eqn:Eva.
    + destruct (same_value_text va vb) eqn:Esv; [injection Hs as <-; contradiction|]. destruct (meta_range a) as [mr|] eqn:Emr; [|discriminate].
      injection Hs as <-. destruct Hra as [[= <- <-]|[]].
      exists f, n, decl, attr, a, b, va, vb. repeat (split; [assumption|]). split; [|split; [assumption|reflexivity]].
      intros E. apply same_value_tokens in E. congruence.
    + destruct (meta_range a) as [mr|]; [|discriminate]. injection Hs as <-. destruct Hra as [Hra|[]]; discriminate.
  - intros (f & n & decl & attr & a & b & va & vb & Hf & Hn & Hdc & Ha & Hin & Htv & Hb & Hvb & Hva & Hne & Hmr & ->).
    apply (Hbwd _ f n decl attr a b [DValueMismatch r (edit_replace (meta_str b) r)] Hf Hn Hdc Ha Hin Hb); [|left; reflexivity | exact I]. unfold shared_arg_diags. rewrite Hvb, Hva.
    apply Hvk in Htv. rewrite Htv. destruct (same_value_text va vb) eqn:Esv; [apply same_value_tokens in Esv; contradiction|].
    rewrite Hmr. reflexivity.
Qed.
Print Assumptions C73_values.

(** C73. The arguments reported as missing are exactly those the declaration has and the implemented message
    lacks, each once, in the order in which attributes list them; the edits write all of them. Without an ink!
    attribute whose leading argument a message can have (an attribute macro does not count), they are written in
    an attribute of their own. *)
Theorem C73_missing_args : forall toks rb v ord_args ord t i ds f n decl,
  (forall l, Permutation l (ord_args l)) ->
  trait_impl_diags toks rb v ord_args ord t i = Done ds ->
  has_fn i f -> fi_name f = Some n -> declaration t (snd n) decl ->
  exists l, NoDup (map ia_kind l)
    /\ (forall a, In a l <-> exists k, declared_arg decl k a /\ ~ has_arg f k /\ In k message_args)
    /\ StronglySorted (fun a b => arg_rank (ia_kind a) <= arg_rank (ia_kind b)) l
    /\ (l <> [] -> exists edits, In (DMissingArgs l (fi_decl_range f) edits) ds
          /\ (forall a, In a l -> exists e, In e edits /\ exists s1 s2, te_text e = s1 ++ meta_str a ++ s2)
          /\ ((forall a k, In a (fi_attrs f) -> at_kind a = AkArg k -> ~ In k message_args) ->
               exists o, edits = [TextEdit (lit "#[ink(" ++ join (lit ", ") (map meta_str l) ++ lit ")]") (o, o) None])).
Proof.
  intros toks rb v oa ord t i ds f n decl Ho H Hf Hn Hd. exists (missing_args v oa f decl).
  split; [apply missing_args_nodup, Ho|]. split; [intros a; apply missing_args_In, Ho|].
  split; [unfold missing_args; apply stable_sort_sorted|].
  intros Hne.
  assert (Hmd : exists l, message_arg_diags toks rb v oa f decl = Done l).
  { destruct Hf as (li & Hli & Hfl). pose proof H as H'. unfold trait_impl_diags in H'. destruct (oflat _) as [l|] eqn:E; [|discriminate].
    rewrite Hli in E. destruct (oflat_each _ _ _ E (AFn f) Hfl) as [ra Hra]. unfold item_diags in Hra. rewrite Hn in Hra.
    apply index_declaration in Hd. rewrite Hd in Hra. destruct (message_arg_diags toks rb v oa f decl); [eauto|discriminate]. }
  destruct Hmd as [l Hl].
  assert (Hj : forall l a, In a l -> exists s1 s2, join_args l = s1 ++ meta_str a ++ s2).
  { clear. unfold join_args. induction l as [|x l IH]; intros a Hin; [contradiction|]. destruct Hin as [->|Hin].
    - destruct l as [|y l]; simpl; [exists [], []; rewrite app_nil_r; reflexivity | exists []; eexists; reflexivity].
    - destruct (IH a Hin) as (s1 & s2 & E). destruct l as [|y l]; [contradiction|].
      change (join (lit ", ") (map meta_str (x :: y :: l))) with (meta_str x ++ lit ", " ++ join (lit ", ") (map meta_str (y :: l))).
      rewrite E. exists (meta_str x ++ lit ", " ++ s1), s2. rewrite <- !app_assoc. reflexivity. }
  pose proof Hl as Hl'. unfold message_arg_diags in Hl'. destruct (oflat _) as [l0|]; [|discriminate]. cbn [obind_o] in Hl'.
  destruct (missing_args v oa f decl) as [|x xs] eqn:Em; [contradiction|].
  destruct (missing_args_edits toks rb v f x xs) as [edits|] eqn:Ee; [|discriminate]. injection Hl' as Hl'.
  exists edits. split; [|split].
  - apply (arg_diag_in _ _ _ _ _ _ _ _ (DMissingArgs (x :: xs) (fi_decl_range f) edits) H I). exists f, n, decl, l.
    repeat (split; [assumption|]). rewrite <- Hl'. apply in_app_iff. right. left; reflexivity.
  - intros a Ha.
    assert (Hins : forall p s, exists s1 s2, te_text (insert_edit p s) = s1 ++ s ++ s2).
    { intros p s. unfold insert_edit. destruct p as [o0 [pre post]]. simpl. eexists _, _. reflexivity. }
    assert (Hnest : forall e s, (exists s1 s2, te_text e = s1 ++ s ++ s2) -> (exists s1 s2, s = s1 ++ meta_str a ++ s2) -> exists s1 s2, te_text e = s1 ++ meta_str a ++ s2).
    { intros e s (s1 & s2 & E1) (s3 & s4 & E2). rewrite E1, E2. exists (s1 ++ s3), (s4 ++ s2). rewrite <- !app_assoc. reflexivity. }
    unfold missing_args_edits in Ee.
    set (fb := edit_insert (lit "#[ink(" ++ join_args (x :: xs) ++ lit ")]") (if arg_kind_eqb (ia_kind x) AMessage then fi_first_attr_offset f else fi_attr_offset f)) in *.
    assert (Hfb : exists e, In e [fb] /\ exists s1 s2, te_text e = s1 ++ meta_str a ++ s2).
    { exists fb. split; [left; reflexivity|]. apply (Hnest fb (join_args (x :: xs))); [|apply Hj, Ha].
      exists (lit "#[ink("), (lit ")]"). reflexivity. }
    destruct (extendable v f) as [attr|]; [|injection Ee as <-; exact Hfb].
    destruct (arg_kind_eqb (ia_kind x) AMessage).
    + destruct (first_arg_insert_place _ _ _) as [[p|]|]; cbn [obind_o] in Ee; [|injection Ee as <-; exact Hfb | discriminate].
      destruct (join_args xs) as [|c others] eqn:Eo.
      * injection Ee as <-. destruct Ha as [->|Ha].
        -- exists (insert_edit p (meta_str a)). split; [left; reflexivity | apply Hins].
        -- destruct (Hj xs a Ha) as (s1 & s2 & E). rewrite Eo in E. destruct s1; [|discriminate]. destruct (meta_str a) eqn:Ea; [|discriminate].
           eexists. split; [left; reflexivity|]. exists [], (te_text (insert_edit p (meta_str x))). reflexivity.
      * rewrite <- Eo in Ee. destruct (arg_insert_place _ _ _ _) as [q|].
        -- injection Ee as <-. destruct Ha as [->|Ha].
           ++ exists (insert_edit p (meta_str a)). split; [left; reflexivity | apply Hins].
           ++ eexists. split; [right; left; reflexivity|]. eapply Hnest; [apply Hins | apply Hj, Ha].
        -- injection Ee as <-. eexists. split; [left; reflexivity|]. destruct Ha as [->|Ha].
           ++ eapply Hnest; [apply Hins|]. exists []. eexists. reflexivity.
           ++ eapply Hnest; [apply Hins|]. destruct (Hj xs a Ha) as (s1 & s2 & E).
              exists (meta_str x ++ lit ", " ++ s1), s2. unfold join. rewrite E. rewrite <- !app_assoc. reflexivity.
    + destruct (arg_insert_place _ _ _ _) as [q|]; [|injection Ee as <-; exact Hfb]. injection Ee as <-.
      eexists. split; [left; reflexivity|]. eapply Hnest; [apply Hins | apply Hj, Ha].
  - intros Hno. assert (En : extendable v f = None).
    { unfold extendable. assert (Hf0 : forall (p : ink_attr -> bool) l, (forall x, In x l -> p x = false) -> filter p l = []).
      { clear. intros p l. induction l as [|x l IH]; intros Hx; [reflexivity|]. simpl. rewrite (Hx x (or_introl eq_refl)). apply IH. intros y Hy. apply Hx. right; exact Hy. }
      rewrite Hf0; [reflexivity|]. intros at0 Hat. specialize (Hno at0).
      destruct (at_kind at0) as [m|k]; [reflexivity|]. destruct (has_kind k (allowed_kinds v)) eqn:E; [|reflexivity].
      exfalso. apply (Hno k Hat eq_refl), (allowed_message_args v), has_kind_In, E. }
    unfold missing_args_edits in Ee. rewrite En in Ee. injection Ee as <-. eexists. reflexivity.
Qed.
Print Assumptions C73_missing_args.

(** C73. No other missing arguments are reported. *)
Theorem C73_missing_args_sound : forall toks rb v ord_args ord t i ds l r edits,
  (forall l, Permutation l (ord_args l)) ->
  trait_impl_diags toks rb v ord_args ord t i = Done ds ->
  In (DMissingArgs l r edits) ds ->
  l <> [] /\ exists f n decl, has_fn i f /\ fi_name f = Some n /\ declaration t (snd n) decl /\ r = fi_decl_range f
    /\ forall a, In a l <-> exists k, declared_arg decl k a /\ ~ has_arg f k /\ In k message_args.
Proof.
  intros toks rb v oa ord t i ds l r edits Ho H Hin. apply (arg_diag_in _ _ _ _ _ _ _ _ (DMissingArgs l r edits) H I) in Hin.
  destruct Hin as (f & n & decl & l' & Hf & Hn & Hd & Hm & Hin).
  unfold message_arg_diags in Hm. destruct (oflat _) as [l0|] eqn:E; [|discriminate]. cbn [obind_o] in Hm.
  assert (Hl0 : ~ In (DMissingArgs l r edits) l0).
  { intros Hi. apply (oflat_In _ _ _ _ E) in Hi. destruct Hi as (attr & ra & _ & Hr & Hi). unfold attr_diags in Hr.
    destruct (oflat (all_done (map (one_arg_diags _ _ _) _))) as [l1|] eqn:E1; [|discriminate]. injection Hr as <-. apply in_app_iff in Hi. destruct Hi as [Hi|Hi].
    - destruct (is_macro_attr attr); [destruct Hi as [Hi|[]]; discriminate | contradiction].
    - apply (oflat_In _ _ _ _ E1) in Hi. destruct Hi as (a & rb' & _ & Hr & Hi). apply one_arg_classes in Hr.
      destruct Hr as [(b & _ & Hs)|[(_ & _ & ->)|(_ & _ & Hx)]]; [|contradiction|].
      + unfold shared_arg_diags in Hs. destruct (arg_value b); [|injection Hs as <-; contradiction].
        destruct (match value_kind (ia_kind a) with VNone => true | _ => false end); [injection Hs as <-; contradiction|].
        destruct (arg_value a).
        * destruct (same_value_text _ _); [injection Hs as <-; contradiction|]. destruct (meta_range a); [|discriminate].
          injection Hs as <-. destruct Hi as [Hi|[]]; discriminate.
        * destruct (meta_range a); [|discriminate]. injection Hs as <-. destruct Hi as [Hi|[]]; discriminate.
      + unfold extra_arg_diags in Hx. destruct (arg_removal_range toks a (Some attr)); [|discriminate]. simpl in Hx.
        destruct (meta_range a); [|discriminate]. injection Hx as <-. destruct Hi as [Hi|[]]; discriminate. }
  destruct (missing_args v oa f decl) as [|x xs] eqn:Em; [injection Hm as <-; contradiction|].
  destruct (missing_args_edits toks rb v f x xs) as [edits'|]; [|discriminate]. injection Hm as <-.
  apply in_app_iff in Hin. destruct Hin as [Hin|[[= <- <- <-]|[]]]; [contradiction|]. split; [discriminate|].
  exists f, n, decl. repeat (split; [assumption || reflexivity|]). intros a. rewrite <- Em. apply missing_args_In, Ho.
Qed.
Print Assumptions C73_missing_args_sound.

(** The declaration says [#[ink(message, selector = 1, payable)]], the implementation
    [#[ink(message, selector = 2, default)]]: [selector] is to be replaced, [default] removed, [payable] added. *)
Definition int_expr : expr_parser := fun s =>
  match skip_blanks s with
  | [c] => if N.eqb c 49 || N.eqb c 50 then Some (VELiteral INT_NUMBER [c]) else None
  | _ => None
  end.
Definition ex_attr (o : nat) (body : list elem) : list ink_attr :=
  filter_map (fun x => x) [attr_cast int_expr (AttrSyntax [lit "ink"] (Some (o + 5, paren_tree body)) (o, o + 5 + bytes (texts_of body) + 3))].
Definition sel_body (d last : str) := [id_tok (lit "message"); comma_tok; sp; id_tok (lit "selector"); sp; eq_tok; sp; Tok INT_NUMBER d; comma_tok; sp; id_tok last].
Definition ex_body := sel_body (lit "2") (lit "default").
Definition ex_toks : list leaf :=
  place_leaves 480 ([(OTHER 5, lit "#"); (OTHER 6, lit "["); (IDENT, lit "ink")] ++ leaves (paren_tree ex_body) ++ [(OTHER 7, lit "]")]).
Definition args_trait : trait_def :=
  let f := mk_fn 200 (lit "get") (lit "&self") [] None (ex_attr 150 (sel_body (lit "1") (lit "payable"))) in
  TraitDef [Some f] [f].
Definition args_impl : impl_item :=
  ImplItem (Some [AFn (mk_fn 520 (lit "get") (lit "&self") [] None (ex_attr 480 ex_body))]) (460, 475) 800 799 [] None.
Example C73_nonvacuous :
  exists l, trait_impl_diags ex_toks (fun _ => Some (517, (OTHER 7, lit "]"))) V5 (fun l => l) (fun l => l) args_trait args_impl
    = Done [DValueMismatch (495, 507) (edit_replace (lit "selector = 1") (495, 507));
            DExtraArg (509, 516) (edit_delete (507, 516));
            DMissingArgs l (520, 540) [TextEdit (lit ", payable") (516, 516) None]]
    /\ map meta_str l = [lit "payable"].
Proof. eexists. split; vm_compute; reflexivity. Qed.
