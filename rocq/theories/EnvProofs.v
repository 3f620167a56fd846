(** Proofs for C86. *)
From Coq Require Import Lia.
From Verif Require Import Base BaseFacts PositionModel TranslateModel CommandModel CallableModel EditModel UtilModel UtilSpec UtilProofs MigrateSpec MigrateProofs ScaleFixSpec ScaleFixProofs
  ResolveModel ResolveSpec ResolveProofs ResolveProps ExternalModel ExternalSpec ExternalProofs ExternalProps EnvModel EnvSpec.

(** ** The nodes of a file *)
Definition snode_ind' (P : snode -> Prop) (H : forall i d cs, Forall P cs -> P (SNode i d cs)) : forall n, P n :=
  fix go n := match n with
  | SNode i d cs => H i d cs ((fix all cs : Forall P cs := match cs with [] => Forall_nil P | c :: cs' => Forall_cons c (go c) (all cs') end) cs)
  end.
Lemma below_in root n : forall up l, In l (below up n) -> in_file root (n, up) -> in_file root l.
Proof.
  induction n as [i d cs IH] using snode_ind'. intros up l H Hin. cbn [below] in H. destruct H as [<-|H]; [exact Hin|].
  apply in_flat_map in H. destruct H as (c & Hc & Hl). rewrite Forall_forall in IH.
  apply (IH c Hc _ _ Hl). apply (if_child root (SNode i d cs, up) c Hin Hc).
Qed.
Lemma below_trans n : forall up l c, In l (below up n) -> In c (n_children (fst l)) -> In (c, fst l :: snd l) (below up n).
Proof.
  induction n as [i d cs IH] using snode_ind'. intros up l c H Hc. rewrite Forall_forall in IH. cbn [below] in *. right. destruct H as [<-|H].
  - cbn [fst snd n_children] in *. apply in_flat_map. exists c. split; [exact Hc|]. destruct c. cbn [below]. left. reflexivity.
  - apply in_flat_map in H. destruct H as (c' & Hc' & Hl). apply in_flat_map. exists c'. split; [exact Hc'|]. apply (IH c' Hc'); assumption.
Qed.
Lemma descendants_in_file root l : In l (descendants_at (root, [])) <-> in_file root l.
Proof.
  split.
  - intros H. apply (below_in root root [] l H). constructor.
  - intros H. induction H as [|l c Hl IH Hc]; [destruct root; left; reflexivity|]. exact (below_trans root [] l c IH Hc).
Qed.

Lemma find_res_some {A} (f : A -> res bool) l x : find_res f l = Ret (Some x) -> In x l /\ f x = Ret true.
Proof.
  induction l as [|y l IH]; [discriminate|]. cbn. destruct (f y) as [|[]] eqn:E; [discriminate | |].
  - intros H. injection H as <-. auto.
  - intros H. destruct (IH H). auto.
Qed.
Lemma find_res_none {A} (f : A -> res bool) l : find_res f l = Ret None -> forall x, In x l -> f x = Ret false.
Proof.
  induction l as [|y l IH]; intros H x Hx; [destruct Hx|]. cbn in H. destruct (f y) as [|[]] eqn:E; [discriminate | discriminate|].
  destruct Hx as [<-|Hx]; [exact E | exact (IH H x Hx)].
Qed.
Lemma find_res_total {A} (f : A -> res bool) l : (forall x, In x l -> f x <> Spent) -> find_res f l <> Spent.
Proof.
  induction l as [|y l IH]; intros H; [discriminate|]. cbn. destruct (f y) as [|[]] eqn:E; [destruct (H y (or_introl eq_refl) E) | discriminate|].
  apply IH. intros x Hx. apply H. right; exact Hx.
Qed.
Lemma target_last_word p name : is_path_target name p = true -> (exists n, last_word p n) -> last_word p name.
Proof.
  intros H (n & q & s & -> & Es). unfold is_path_target, last_seg in H. rewrite last_opt_app in H. cbn [obind] in H.
  unfold seg_name in H. rewrite Es in H. apply str_eqb_eq in H. cbn in H. subst n. exists q, s. auto.
Qed.
Lemma last_word_target p name : last_word p name -> is_path_target name p = true.
Proof.
  intros (q & s & -> & Es). unfold is_path_target, last_seg. rewrite last_opt_app. cbn [obind]. unfold seg_name. rewrite Es. apply str_eqb_refl.
Qed.

(** ** Implementations *)
Section Impls.
  Variables (parse : str -> option rpath) (trait : str) (qs : list str) (root : snode).
  Lemma by_name_none name n : named_impls root -> trait_impl_by_name parse name trait qs n (root, []) = Ret None -> ~ has_impl parse root trait qs name.
  Proof.
    intros Hn H (l & tp & sp & k & Hl & Ed & He & Hw). apply descendants_in_file in Hl.
    pose proof (find_res_none _ _ H l Hl) as E. cbv beta in E. unfold implements_trait, impl_for in E. rewrite Ed in E.
    destruct (is_external parse trait qs n tp l) as [|b] eqn:Eb; [discriminate|].
    assert (b = true) by (eapply C85_one_answer; eassumption). subst b. rewrite (last_word_target sp name Hw) in E. discriminate.
  Qed.
  Lemma by_name_some name n x : named_impls root -> trait_impl_by_name parse name trait qs n (root, []) = Ret (Some x) -> has_impl parse root trait qs name.
  Proof.
    intros Hn H. apply find_res_some in H. destruct H as [Hx E]. apply descendants_in_file in Hx. unfold implements_trait, impl_for in E.
    destruct (n_data (fst x)) as [| | | | | | | | |[tp|] [sp|]|] eqn:Ed; try discriminate.
    - destruct (is_external parse trait qs n tp x) as [|[]] eqn:Eb; [discriminate | | discriminate]. apply Ret_inj in E.
      exists x, tp, sp, n. split; [exact Hx|]. split; [exact Ed|]. split; [exact Eb|]. apply target_last_word; [exact E|]. exact (Hn x (Some tp) sp Hx Ed).
    - destruct (is_external parse trait qs n tp x) as [|[]]; discriminate.
  Qed.
  Lemma by_name_total name n : settled parse root trait qs n -> trait_impl_by_name parse name trait qs n (root, []) <> Spent.
  Proof.
    intros Hs. apply find_res_total. intros x Hx. apply descendants_in_file in Hx. cbv beta. unfold implements_trait.
    destruct (n_data (fst x)) as [| | | | | | | | |[tp|] sp|] eqn:Ed; try discriminate.
    pose proof (Hs x tp sp Hx Ed). destruct (is_external parse trait qs n tp x) as [|[]]; [congruence | discriminate | discriminate].
  Qed.
End Impls.

(** ** Candidates *)
Lemma find_In {A} (f : A -> bool) l x : find f l = Some x -> In x l /\ f x = true.
Proof. apply find_some. Qed.
Lemma adt_name_spec root p ref x name : in_file root ref -> last_word p name ->
  adt_by_name p ref = Some x -> in_file root x /\ is_adt (fst x) = true /\ n_name (fst x) = Some name.
Proof.
  intros Hr (q & s & -> & Es) H. unfold adt_by_name, last_seg in H. rewrite last_opt_app in H. cbn [obind] in H. unfold seg_name in H. rewrite Es in H. cbn [word_text] in H.
  apply find_some in H. destruct H as [Hx Hf]. rewrite (crate_root_is root ref Hr) in Hx. apply descendants_in_file in Hx.
  apply andb_true_iff in Hf. destruct Hf as [Ha Hn]. split; [exact Hx|]. split; [exact Ha|]. unfold named in Hn.
  destruct (n_name (fst x)) as [s'|]; [|discriminate]. apply str_eqb_eq in Hn. subst s'. reflexivity.
Qed.
Lemma adt_name_none root p ref name : in_file root ref -> last_word p name -> adt_by_name p ref = None -> no_adt root name.
Proof.
  intros Hr (q & s & -> & Es) H l Hl Ha Hn. unfold adt_by_name, last_seg in H. rewrite last_opt_app in H. cbn [obind] in H. unfold seg_name in H. rewrite Es in H. cbn [word_text] in H.
  rewrite (crate_root_is root ref Hr) in H. apply descendants_in_file in Hl. pose proof (find_none _ _ H l Hl) as E. cbv beta in E.
  rewrite Ha in E. unfold named in E. rewrite Hn, str_eqb_refl in E. discriminate.
Qed.
Lemma candidate_spec parse trait qs n root ref p name x : in_file root ref -> named_impls root -> last_word p name ->
  candidate_adt parse trait qs n ref (Some p) = Ret (Some x) ->
  in_file root x /\ is_adt (fst x) = true
  /\ (n_name (fst x) = Some name
      \/ (no_adt root name /\ exists l tp sp name', in_file root l /\ n_data (fst l) = DImpl (Some tp) (Some sp)
            /\ is_external parse trait qs n tp l = Ret true /\ last_word sp name' /\ n_name (fst x) = Some name')).
Proof.
  intros Hr Hni Hw H. unfold candidate_adt in H. cbn [obind] in H. destruct (adt_by_name p ref) as [a|] eqn:Ea.
  - apply Ret_inj in H. injection H as <-. destruct (adt_name_spec root p ref a name Hr Hw Ea) as (H1 & H2 & H3). auto.
  - destruct (find_res (implements_trait parse trait qs n) (descendants_at (crate_root ref))) as [|[i|]] eqn:Ei; [discriminate | | discriminate].
    apply Ret_inj in H. apply find_res_some in Ei. destruct Ei as [Hi Et]. rewrite (crate_root_is root ref Hr) in Hi. apply descendants_in_file in Hi.
    unfold adt_for_impl in H. unfold implements_trait in Et. destruct (n_data (fst i)) as [| | | | | | | | |[tp|] [sp|]|] eqn:Ed; try discriminate.
    destruct (Hni i _ _ Hi Ed) as (name' & Hw'). destruct (adt_name_spec root sp ref x name' Hr Hw' H) as (H1 & H2 & H3).
    split; [exact H1|]. split; [exact H2|]. right. split; [exact (adt_name_none root p ref name Hr Hw Ea)|]. exists i, tp, sp, name'. auto.
Qed.

(** ** Resolution *)
Lemma names_resolved parse root ref p x f : in_file root ref -> names_item is_adt root ref p x ->
  resolve_item parse is_adt (S (S f)) p ref = Ret (Some x).
Proof.
  intros Hr H. destruct H as [name m x Hs Hd|name m x Hs Hd|name m q up pm x Hs Hp Hd|name x Hd|name mname md x Hm Hd].
  - apply (C68_current_module_partial parse is_adt name ref m x f Hs Hd).
  - apply (C68_current_module_partial parse is_adt name ref m x f Hs Hd).
  - exact (C68_parent_module_partial parse is_adt name ref m q up pm x f Hs Hp Hd).
  - exact (C68_file_partial parse is_adt name root ref x f Hr Hd).
  - apply (C68_file_module_partial parse is_adt name mname md root ref x f Hr Hm Hd).
Qed.
Lemma known_path root name p x : known_adt root name p x -> in_file root x /\ n_name (fst x) = Some name /\ is_adt (fst x) = true
  /\ item_path x = Some (path_text p) /\ plain_path p /\ last_word p name
  /\ (forall ref, names_item is_adt root ref p x).
Proof.
  intros (Hname & Hroot & _ & H).
  assert (Hadt : forall n, is_adt n = true -> is_module n = false) by (intros n Hn; unfold is_adt, is_module in *; destruct (n_data n); congruence).
  assert (Hrm : is_module root = false) by (unfold is_module; rewrite Hroot; reflexivity).
  assert (Hpl : forall a, identifier a -> plain_name (name_seg a)) by (intros a Ha; exists a; auto).
  assert (Hcr : plain_head crate_seg) by (right; exists WCrate; split; [left; reflexivity | reflexivity]).
  destruct H as [[-> Hd]|(mname & md & Hmn & -> & Hm & Hd)].
  - pose proof Hd as (l & n & -> & (l1 & l2 & El & (Hw & Hn) & _) & Hc). cbn [fst snd] in *.
    assert (Hl : l = (root, [])) by (destruct Hc as [(_ & _ & Hl)|(C & _)]; [exact Hl | cbn [fst] in C; congruence]).
    subst l. cbn [fst snd] in *. split; [|split; [exact Hn|split; [exact Hw|split; [|split; [|split]]]]].
    + apply (if_child root (root, [])); [constructor|]. cbn [fst]. rewrite El. apply in_app_iff. right; left; reflexivity.
    + rewrite (C29_item_path_partial (n, [root]) name); [|apply Hadt; exact Hw | exact Hn|]; unfold enclosing_modules; cbn [snd filter_map rev]; unfold module_name; rewrite Hrm; [|cbn; lia].
      f_equal. cbn [app]. unfold path_text. cbn [map]. f_equal. f_equal. unfold seg_text. cbn. rewrite app_nil_r. reflexivity.
    + exists crate_seg, [name_seg name]. split; [reflexivity|]. split; [exact Hcr|]. constructor; [apply Hpl, Hname | constructor].
    + exists [crate_seg], (name_seg name). auto.
    + intros ref. apply ni_crate, Hd.
  - pose proof Hd as (l & n & -> & (l1 & l2 & El & (Hw & Hn) & _) & Hc). cbn [fst snd] in *.
    pose proof Hm as (m1 & m2 & Em & (s & Es & ->) & _).
    assert (Hmm : is_module md = true) by (unfold is_module; rewrite Es; reflexivity).
    destruct Hc as [(C & _)|(_ & il & (i1 & i2 & Eil & Hil & _) & ->)]; [congruence|]. cbn [fst snd] in *.
    assert (Himm : is_module il = false) by (unfold is_module; rewrite Hil; reflexivity).
    split; [|split; [exact Hn|split; [exact Hw|split; [|split; [|split]]]]].
    + apply (if_child root (il, [md; root])); [|cbn [fst]; rewrite El; apply in_app_iff; right; left; reflexivity].
      apply (if_child root (md, [root])); [|cbn [fst]; rewrite Eil; apply in_app_iff; right; left; reflexivity].
      apply (if_child root (root, [])); [constructor|]. cbn [fst]. rewrite Em. apply in_app_iff. right; left; reflexivity.
    + assert (Een : enclosing_modules (n, [il; md; root]) = [mname]).
      { unfold enclosing_modules. cbn [snd filter_map]. unfold module_name. rewrite Himm, Hmm, Hrm. unfold n_name. rewrite Es. reflexivity. }
      rewrite (C29_item_path_partial (n, [il; md; root]) name); [|apply Hadt; exact Hw | exact Hn | rewrite Een; cbn; lia].
      rewrite Een. f_equal. cbn [app]. unfold path_text. cbn [map]. f_equal. unfold seg_text. cbn. rewrite !app_nil_r. reflexivity.
    + exists crate_seg, [name_seg mname; name_seg name]. split; [reflexivity|]. split; [exact Hcr|]. constructor; [apply Hpl, Hmn | constructor; [apply Hpl, Hname | constructor]].
    + exists [crate_seg; name_seg mname], (name_seg name). auto.
    + intros ref. exact (ni_module is_adt root ref name mname md _ Hm Hd).
Qed.
Lemma candidate_known parse trait qs n root ref p name q x : in_file root ref -> last_word p name -> known_adt root name q x ->
  candidate_adt parse trait qs n ref (Some p) = Ret (Some x).
Proof.
  intros Hr Hw Hk. destruct (known_path root name q x Hk) as (Hx & Hn & Ha & _). unfold candidate_adt. cbn [obind].
  destruct (adt_by_name p ref) as [a|] eqn:Ea.
  - destruct (adt_name_spec root p ref a name Hr Hw Ea) as (H1 & H2 & H3). destruct Hk as (_ & _ & Hu & _). rewrite (Hu a H1 H2 H3). reflexivity.
  - destruct (adt_name_none root p ref name Hr Hw Ea x Hx Ha Hn).
Qed.

(** ** The inserted text *)
Lemma env_text name : str_replace (lit "MyEnvironment") name ENVIRONMENT_IMPL_PLAIN
  = lit "impl ink::env::Environment for " ++ name ++ skipn 44 ENVIRONMENT_IMPL_PLAIN.
Proof. reflexivity. Qed.
Lemma status_text name : str_replace (lit "MyErrorCode") name FROM_STATUS_CODE_IMPL_PLAIN
  = lit "impl ink::env::chain_extension::FromStatusCode for " ++ name ++ skipn 62 FROM_STATUS_CODE_IMPL_PLAIN.
Proof. reflexivity. Qed.

(** ** Uses of [Self::ErrorCode] *)
Lemma filter_map_app {A B} (f : A -> option B) l l' : filter_map f (l ++ l') = filter_map f l ++ filter_map f l'.
Proof. induction l as [|x l IH]; [reflexivity|]. cbn [app filter_map]. rewrite IH. destruct (f x); reflexivity. Qed.
Lemma filter_map_none {A B} (f : A -> option B) l : (forall x, In x l -> f x = None) -> filter_map f l = [].
Proof. induction l as [|x l IH]; intros H; [reflexivity|]. cbn [filter_map]. rewrite (H x (or_introl eq_refl)). apply IH. intros y Hy. apply H. right; exact Hy. Qed.
Lemma ident_join_spaces l : (forall x, In x l -> identifier x) -> no_spaces (join_colons l) = join_colons l.
Proof. intros H. apply join_no_space. intros x Hx. apply (H x Hx). Qed.
Lemma self_prefix p k : (forall x, In x (sp_words p) -> identifier x) -> 1 <= k <= length (sp_words p) ->
  str_eqb (no_spaces (fst (first_words k p))) (lit "Self::ErrorCode") = true <-> k = 2 /\ starts_with_self_error_code p = true.
Proof.
  intros Hi Hk. unfold first_words. cbn [fst].
  assert (Hf : forall x, In x (firstn k (sp_words p)) -> identifier x).
  { intros x Hx. apply Hi. rewrite <- (firstn_skipn k). apply in_app_iff. left. exact Hx. }
  rewrite (ident_join_spaces _ Hf), str_eqb_eq. unfold starts_with_self_error_code. split.
  - intros E. change (lit "Self::ErrorCode") with (join_colons [lit "Self"; lit "ErrorCode"]) in E. apply join_inj in E.
    + assert (Hlen : length (firstn k (sp_words p)) = 2) by (rewrite E; reflexivity). rewrite firstn_length in Hlen.
      assert (k = 2) by lia. subst k. split; [reflexivity|]. destruct (sp_words p) as [|a [|b l]]; try discriminate.
      cbn [firstn] in E. injection E as Ea Eb. rewrite Ea, Eb. reflexivity.
    + destruct (sp_words p); [cbn in Hk; lia|]. destruct k; [lia | discriminate].
    + discriminate.
    + intros x Hx. apply ident_nocolon, Hf, Hx.
    + intros x [<-|[<-|[]]]; intros C; vm_compute in C; intuition discriminate.
  - intros [-> Hs]. destruct (sp_words p) as [|a [|b l]]; try discriminate. apply andb_true_iff in Hs. destruct Hs as [Ha Hb].
    apply str_eqb_eq in Ha, Hb. subst. reflexivity.
Qed.
Lemma self_usage_one fix_path p : sp_words p <> [] -> (forall x, In x (sp_words p) -> identifier x) ->
  self_usages fix_path (path_nodes p) = if starts_with_self_error_code p then self_usages fix_path [first_words 2 p] else [].
Proof.
  intros Hn Hi. unfold path_nodes. destruct (starts_with_self_error_code p) eqn:Es.
  - assert (Hl : 2 <= length (sp_words p)) by (unfold starts_with_self_error_code in Es; destruct (sp_words p) as [|a [|b l]]; [discriminate | discriminate | cbn; lia]).
    replace (length (sp_words p)) with (2 + (length (sp_words p) - 2)) by lia. rewrite seq_app. cbn [seq Nat.add]. rewrite rev_app_distr, map_app. cbn [rev app map].
    unfold self_usages. rewrite filter_map_app, filter_map_none.
    + cbn [app]. change [first_words 2 p; first_words 1 p] with ([first_words 2 p] ++ [first_words 1 p]). rewrite filter_map_app.
      rewrite (filter_map_none _ [first_words 1 p]); [apply app_nil_r|]. intros x [<-|[]].
      destruct (str_eqb (no_spaces (fst (first_words 1 p))) (lit "Self::ErrorCode")) eqn:E; [|reflexivity].
      apply (self_prefix p 1 Hi) in E; [|lia]. destruct E as [C _]. discriminate.
    + intros x Hx. apply in_map_iff in Hx. destruct Hx as (k & <- & Hk). apply in_rev in Hk. apply in_seq in Hk.
      destruct (str_eqb (no_spaces (fst (first_words k p))) (lit "Self::ErrorCode")) eqn:E; [|reflexivity].
      apply (self_prefix p k Hi) in E; [|lia]. lia.
  - unfold self_usages. apply filter_map_none. intros x Hx. apply in_map_iff in Hx. destruct Hx as (k & <- & Hk). apply in_rev in Hk. apply in_seq in Hk.
    destruct (str_eqb (no_spaces (fst (first_words k p))) (lit "Self::ErrorCode")) eqn:E; [|reflexivity].
    apply (self_prefix p k Hi) in E; [|lia]. destruct E. congruence.
Qed.
Lemma self_usage_all fix_path ps : (forall p, In p ps -> sp_words p <> [] /\ forall x, In x (sp_words p) -> identifier x) ->
  self_usages fix_path (flat_map path_nodes ps) = flat_map (fun p => self_usages fix_path [first_words 2 p]) (filter starts_with_self_error_code ps).
Proof.
  induction ps as [|p ps IH]; intros H; [reflexivity|]. cbn [flat_map filter]. unfold self_usages at 1. rewrite filter_map_app.
  destruct (H p (or_introl eq_refl)) as [H1 H2]. pose proof (self_usage_one fix_path p H1 H2) as E. unfold self_usages at 1 in E. rewrite E.
  specialize (IH (fun q Hq => H q (or_intror Hq))). unfold self_usages at 1 in IH. rewrite IH. destruct (starts_with_self_error_code p); reflexivity.
Qed.

(** ** Snippets: a function that expands placeholders with one digit *)
Fixpoint until_brace (s : str) : option (str * str) :=
  match s with
  | [] => None
  | c :: s' => if N.eqb c 125 then Some ([], s') else option_map (fun p : str * str => (c :: fst p, snd p)) (until_brace s')
  end.
Fixpoint expand_f (fuel : nat) (i : N) (s : str) : option (N * str) :=
  match fuel with
  | 0 => None
  | S fuel' =>
      match s with
      | [] => Some (i, [])
      | c :: s' =>
          if N.eqb c 36 then
            match s' with
            | b :: d :: e :: r =>
                if N.eqb b 123 && N.eqb e 58 && str_eqb (dec i) [d] then
                  match until_brace r with
                  | Some (x, rest) => option_map (fun p => (fst p, x ++ snd p)) (expand_f fuel' (i + 1) rest)
                  | None => None
                  end
                else None
            | _ => None
            end
          else option_map (fun p => (fst p, c :: snd p)) (expand_f fuel' i s')
      end
  end.
Lemma until_brace_sound s x r : until_brace s = Some (x, r) -> s = x ++ lit "}" ++ r /\ ~ In 125%N x.
Proof.
  revert x r. induction s as [|c s IH]; intros x r H; [discriminate|]. cbn in H. destruct (N.eqb_spec c 125) as [->|Hc].
  - injection H as <- <-. split; [reflexivity | intros []].
  - destruct (until_brace s) as [[x' r']|]; [|discriminate]. cbn in H. injection H as <- <-. destruct (IH x' r' eq_refl) as [-> Hn].
    split; [reflexivity|]. intros [C|C]; [congruence | exact (Hn C)].
Qed.
Lemma expand_f_sound n : forall i j s t, expand_f n i s = Some (j, t) -> expands_in i j s t.
Proof.
  induction n as [|n IH]; intros i j s t H; [discriminate|]. cbn [expand_f] in H. destruct s as [|c s]; [injection H as <- <-; constructor|].
  destruct (N.eqb_spec c 36) as [->|Hc].
  - destruct s as [|b [|d [|e r]]]; try discriminate. destruct (N.eqb_spec b 123) as [->|]; [|discriminate]. destruct (N.eqb_spec e 58) as [->|]; [|discriminate].
    cbn [andb] in H. destruct (str_eqb (dec i) [d]) eqn:Ed; [|discriminate]. apply str_eqb_eq in Ed.
    destruct (until_brace r) as [[x rest]|] eqn:Er; [|discriminate]. destruct (until_brace_sound r x rest Er) as [-> Hx].
    destruct (expand_f n (i + 1) rest) as [[j' t']|] eqn:Et; [|discriminate]. cbn in H. injection H as <- <-.
    pose proof (expands_hole i j' x rest t' Hx (IH _ _ _ _ Et)) as E. rewrite Ed in E. exact E.
  - destruct (expand_f n i s) as [[j' t']|] eqn:Et; [|discriminate]. cbn in H. injection H as <- <-. apply expands_char; [exact Hc | apply IH, Et].
Qed.
Lemma ident_no_char c name : ident_char c = false -> identifier name -> ~ In c name.
Proof. intros Hc (_ & H & _) C. rewrite forallb_forall in H. rewrite (H c C) in Hc. discriminate. Qed.
Lemma ident_no_brace name : identifier name -> ~ In 125%N name.
Proof. apply ident_no_char. reflexivity. Qed.
Lemma ident_no_dollar name : identifier name -> ~ In 36%N name.
Proof. apply ident_no_char. reflexivity. Qed.
