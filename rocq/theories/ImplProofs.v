From Coq Require Import Lia Permutation Sorting.Sorted.
From Verif Require Import Base BaseFacts PositionModel TranslateModel VersionModel SyntaxModel AttrModel AttrSpec AttrProofs
  EditModel UtilModel SuggestModel ArgEditModel FlattenModel FlattenSpec FlattenProofs ImplModel ImplSpec.

(** ** Hash maps *)
Section HashMapFacts.
  Context {K V : Type} (keqb : K -> K -> bool).
  Hypothesis keq : forall a b, keqb a b = true <-> a = b.
  Lemma keqb_refl a : keqb a a = true. Proof. apply keq; reflexivity. Qed.
  Lemma hm_get_insert (m : list (K * V)) k v k' :
    hm_get keqb (hm_insert keqb m k v) k' = if keqb k' k then Some v else hm_get keqb m k'.
  Proof.
    induction m as [|[k0 v0] m IH]; simpl.
    - reflexivity.
    - destruct (keqb k k0) eqn:E; simpl.
      + apply keq in E. subst k0. destruct (keqb k' k); reflexivity.
      + rewrite IH. destruct (keqb k' k0) eqn:E0; [|reflexivity].
        apply keq in E0. subst k0. destruct (keqb k' k) eqn:E1; [|reflexivity].
        apply keq in E1. subst k'. rewrite keqb_refl in E. discriminate.
  Qed.
  Lemma hm_insert_keys (m : list (K * V)) k v x : In x (map fst (hm_insert keqb m k v)) <-> x = k \/ In x (map fst m).
  Proof.
    induction m as [|[k0 v0] m IH]; simpl; [intuition|].
    destruct (keqb k k0) eqn:E; simpl.
    - apply keq in E. subst. intuition.
    - rewrite IH. intuition.
  Qed.
  Lemma hm_insert_nodup (m : list (K * V)) k v : NoDup (map fst m) -> NoDup (map fst (hm_insert keqb m k v)).
  Proof.
    induction m as [|[k0 v0] m IH]; simpl; intros H; [constructor; [intros []|constructor]|].
    inversion H; subst. destruct (keqb k k0) eqn:E; simpl; [constructor; assumption|].
    constructor; [|apply IH; assumption]. rewrite hm_insert_keys. intros [->|Hin]; [|contradiction].
    rewrite keqb_refl in E. discriminate.
  Qed.
  Lemma hm_fold_nodup (l : list (K * V)) : forall m, NoDup (map fst m) ->
    NoDup (map fst (fold_left (fun m kv => hm_insert keqb m (fst kv) (snd kv)) l m)).
  Proof. induction l as [|[k v] l IH]; intros m H; simpl; [exact H|]. apply IH, hm_insert_nodup, H. Qed.
  Lemma hm_collect_nodup (l : list (K * V)) : NoDup (map fst (hm_collect keqb l)).
  Proof. apply hm_fold_nodup. constructor. Qed.
  Lemma hm_get_In (m : list (K * V)) k v : NoDup (map fst m) -> hm_get keqb m k = Some v <-> In (k, v) m.
  Proof.
    induction m as [|[k0 v0] m IH]; simpl; intros H; [split; [discriminate|tauto]|].
    inversion H as [|? ? Hni Hn]; subst. destruct (keqb k k0) eqn:E.
    - apply keq in E. subst k0. split; [intros [= <-]; left; reflexivity|]. intros [[= <-]|Hin]; [reflexivity|].
      exfalso. apply Hni. apply in_map_iff. exists (k, v). auto.
    - rewrite IH by assumption. split; [auto|]. intros [[= -> ->]|Hin]; [rewrite keqb_refl in E; discriminate | exact Hin].
  Qed.
  (** The last entry of a key counts. *)
  Lemma hm_get_fold (l : list (K * V)) : forall m k,
    hm_get keqb (fold_left (fun m kv => hm_insert keqb m (fst kv) (snd kv)) l m) k
    = match find (fun kv => keqb k (fst kv)) (rev l) with Some kv => Some (snd kv) | None => hm_get keqb m k end.
  Proof.
    induction l as [|[k0 v0] l IH] using rev_ind; intros m k; simpl; [reflexivity|].
    rewrite fold_left_app, rev_app_distr. simpl. rewrite hm_get_insert, IH. destruct (keqb k k0); reflexivity.
  Qed.
  Lemma hm_get_collect (l : list (K * V)) k :
    hm_get keqb (hm_collect keqb l) k = option_map snd (find (fun kv => keqb k (fst kv)) (rev l)).
  Proof. unfold hm_collect. rewrite hm_get_fold. destruct (find _ _); reflexivity. Qed.
  Lemma find_rev_last {A} (p : A -> bool) l x :
    find p (rev l) = Some x <-> exists l1 l2, l = l1 ++ x :: l2 /\ p x = true /\ forall y, In y l2 -> p y = false.
  Proof.
    induction l as [|y l IH] using rev_ind; simpl.
    - split; [discriminate|]. intros ([|? ?] & ? & E & _); discriminate.
    - rewrite rev_app_distr. simpl. destruct (p y) eqn:E.
      + split.
        * intros [= <-]. exists l, []. split; [reflexivity|]. split; [exact E | intros ? []].
        * intros (l1 & l2 & El & Hp & Hf). destruct l2 as [|z l2] using rev_ind.
          -- apply app_inj_tail in El. destruct El as [_ <-]. reflexivity.
          -- exfalso. rewrite app_comm_cons, app_assoc in El. apply app_inj_tail in El. destruct El as [_ <-].
             rewrite (Hf y) in E; [discriminate|]. apply in_app_iff; right; left; reflexivity.
      + rewrite IH. split.
        * intros (l1 & l2 & -> & Hp & Hf). exists l1, (l2 ++ [y]). split; [rewrite <- app_assoc; reflexivity|]. split; [exact Hp|].
          intros z Hz. apply in_app_iff in Hz. destruct Hz as [Hz|[<-|[]]]; [apply Hf, Hz | exact E].
        * intros (l1 & l2 & El & Hp & Hf). destruct l2 as [|z l2 _] using rev_ind.
          -- apply app_inj_tail in El. destruct El as [_ <-]. congruence.
          -- rewrite app_comm_cons, app_assoc in El. apply app_inj_tail in El. destruct El as [-> _].
             exists l1, l2. split; [reflexivity|]. split; [exact Hp|]. intros w Hw. apply Hf, in_app_iff. left; exact Hw.
  Qed.
End HashMapFacts.

Lemma arg_keq a b : arg_kind_eqb a b = true <-> a = b. Proof. apply arg_kind_eqb_eq. Qed.

(** ** The message index *)
Lemma fn_text_named f n : fn_text f = Some n <-> named f n.
Proof.
  unfold fn_text, named. destruct (fi_name f) as [[o s]|]; simpl; split.
  - intros [= <-]. eauto.
  - intros [o' [= _ <-]]. reflexivity.
  - discriminate.
  - intros [o' E]; discriminate.
Qed.
Lemma message_entry_spec m n f : message_entry m = Some (n, f) <-> m = Some f /\ named f n /\ n <> [].
Proof.
  unfold message_entry, obind. destruct m as [g|]; [|split; [discriminate | intros [? _]; discriminate]].
  destruct (fn_text g) as [s|] eqn:E.
  - destruct s as [|c s].
    + split; [discriminate|]. intros ([= ->] & H & Hn). apply fn_text_named in H. congruence.
    + split.
      * intros [= <- <-]. split; [reflexivity|]. split; [apply fn_text_named, E | discriminate].
      * intros ([= ->] & H & Hn). apply fn_text_named in H. congruence.
  - split; [discriminate|]. intros ([= ->] & H & _). apply fn_text_named in H. congruence.
Qed.
Lemma index_get t n f : hm_get str_eqb (message_index t) n = Some f -> In (Some f) (td_messages t) /\ named f n /\ n <> [].
Proof.
  unfold message_index. rewrite (hm_get_collect str_eqb str_eqb_eq).
  destruct (find _ _) as [[n' f']|] eqn:E; [|discriminate]. simpl. intros [= <-].
  apply find_some in E. destruct E as [E1 E2]. apply str_eqb_eq in E2. simpl in E2. subst n'.
  apply in_rev in E1. apply filter_map_In in E1. destruct E1 as (m & Hm & E). apply message_entry_spec in E.
  destruct E as (-> & H & Hn). auto.
Qed.
Lemma index_none t n : hm_get str_eqb (message_index t) n = None <-> ~ declares_message t n.
Proof.
  split.
  - unfold message_index. rewrite (hm_get_collect str_eqb str_eqb_eq).
    destruct (find _ _) as [kv|] eqn:E; [discriminate|]. intros _ (Hn & f & Hf & Hnm).
    assert (Hin : In (n, f) (rev (filter_map message_entry (td_messages t)))).
    { rewrite <- in_rev. apply filter_map_In. exists (Some f). split; [exact Hf|]. apply message_entry_spec. auto. }
    pose proof (find_none _ _ E _ Hin) as H. simpl in H. rewrite str_eqb_refl in H. discriminate.
  - intros H. destruct (hm_get str_eqb (message_index t) n) as [f|] eqn:E; [exfalso|reflexivity].
    apply index_get in E. destruct E as (H1 & H2 & H3). apply H. split; [exact H3|]. eauto.
Qed.
Lemma index_some t n : (exists f, hm_get str_eqb (message_index t) n = Some f) <-> declares_message t n.
Proof.
  split.
  - intros [f H]. apply index_get in H. destruct H as (H1 & H2 & H3). split; [exact H3 | eauto].
  - intros H. destruct (hm_get str_eqb (message_index t) n) as [f|] eqn:E; [eauto|]. apply index_none in E. contradiction.
Qed.
Lemma has_str_In s l : has_str s l = true <-> In s l.
Proof.
  unfold has_str. rewrite existsb_exists. split.
  - intros (x & Hx & E). apply str_eqb_eq in E. subst; exact Hx.
  - intros H. exists s. split; [exact H | apply str_eqb_refl].
Qed.
Lemma method_names_spec t n : has_str n (method_names t) = true <-> declares t n.
Proof.
  rewrite has_str_In. unfold method_names. rewrite filter_map_In. split.
  - intros (f & Hf & E). exists f. split; [exact Hf | apply fn_text_named, E].
  - intros (f & Hf & E). exists f. split; [exact Hf | apply fn_text_named, E].
Qed.

(** ** Collecting diagnostics *)
Lemma all_done_spec {A} (l : list (outcome A)) r : all_done l = Done r <-> Forall2 (fun o a => o = Done a) l r.
Proof.
  revert r. induction l as [|o l IH]; intros r; simpl.
  - split; [intros [= <-]; constructor | intros H; inversion H; reflexivity].
  - destruct o as [a|]; simpl.
    + destruct (all_done l) as [r'|] eqn:E; simpl.
      * split; [intros [= <-]; constructor; [reflexivity | apply IH; reflexivity]|].
        intros H. inversion H as [|? a' ? r2 E1 H2]; subst. injection E1 as <-. apply IH in H2. injection H2 as ->. reflexivity.
      * split; [discriminate|]. intros H. inversion H as [|? a' ? r2 E1 H2]; subst. apply IH in H2. discriminate.
    + split; [discriminate|]. intros H. inversion H; discriminate.
Qed.
Lemma oflat_In {A B} (f : A -> outcome (list B)) l ds d :
  oflat (all_done (map f l)) = Done ds -> In d ds <-> exists a r, In a l /\ f a = Done r /\ In d r.
Proof.
  unfold oflat. destruct (all_done (map f l)) as [r|] eqn:E; [|discriminate]. simpl. intros [= <-].
  apply all_done_spec in E. rewrite in_concat. split.
  - intros (x & Hx & Hd). revert Hx. remember (map f l) as ml. revert l Heqml. induction E as [|o a ml r Ho E IH]; intros l Heq Hx; [contradiction|].
    destruct l as [|y l]; [discriminate|]. injection Heq as -> ->. destruct Hx as [<-|Hx].
    + exists y, a. split; [left; reflexivity|]. auto.
    + destruct (IH l eq_refl Hx) as (z & rz & Hz & H1 & H2). exists z, rz. split; [right; exact Hz|]. auto.
  - intros (a & x & Ha & Hf & Hd). exists x. split; [|exact Hd]. remember (map f l) as ml. revert l Heqml Ha.
    induction E as [|o b ml r Ho E IH]; intros l Heq Ha; destruct l as [|y l]; try discriminate; [contradiction|].
    injection Heq as -> ->. destruct Ha as [<-|Ha]; [left; congruence | right; apply (IH l eq_refl Ha)].
Qed.
Lemma oflat_each {A B} (f : A -> outcome (list B)) l ds :
  oflat (all_done (map f l)) = Done ds -> forall a, In a l -> exists r, f a = Done r.
Proof.
  unfold oflat. destruct (all_done (map f l)) as [r|] eqn:E; [|discriminate]. intros _ a Ha.
  apply all_done_spec in E. remember (map f l) as ml. revert l Heqml Ha.
  induction E as [|o b ml r Ho E IH]; intros l Heq Ha; destruct l as [|y l]; try discriminate; [contradiction|].
  injection Heq as -> ->. destruct Ha as [<-|Ha]; [eauto | apply (IH l eq_refl Ha)].
Qed.

Definition arg_diag (d : impl_diag) : Prop :=
  match d with DMacroAttr _ _ | DValueMissing _ _ | DValueMismatch _ _ | DExtraArg _ _ | DMissingArgs _ _ _ => True | _ => False end.
Lemma shared_arg_diags_arg a decl ds d : shared_arg_diags a decl = Done ds -> In d ds -> arg_diag d.
Proof.
  unfold shared_arg_diags. destruct (arg_value decl); [|intros [= <-] []].
  destruct (match value_kind (ia_kind a) with VNone => true | _ => false end); [intros [= <-] []|].
  destruct (arg_value a).
  - destruct (same_value_text _ _); [intros [= <-] []|]. destruct (meta_range a); [|discriminate]. intros [= <-] [<-|[]]; exact I.
  - destruct (meta_range a); [|discriminate]. intros [= <-] [<-|[]]; exact I.
Qed.
Lemma one_arg_diags_arg toks index attr a ds d : one_arg_diags toks index attr a = Done ds -> In d ds -> arg_diag d.
Proof.
  unfold one_arg_diags. destruct (hm_get arg_kind_eqb index (ia_kind a)); [apply shared_arg_diags_arg|].
  destruct (is_macro_attr attr); [intros [= <-] []|]. unfold extra_arg_diags.
  destruct (arg_removal_range _ _ _); [|discriminate]. simpl. destruct (meta_range a); [|discriminate]. intros [= <-] [<-|[]]; exact I.
Qed.
Lemma attr_diags_arg toks index attr ds d : attr_diags toks index attr = Done ds -> In d ds -> arg_diag d.
Proof.
  unfold attr_diags. destruct (oflat _) as [l|] eqn:E; [|discriminate]. simpl. intros [= <-] Hd.
  apply in_app_iff in Hd. destruct Hd as [Hd|Hd].
  - destruct (is_macro_attr attr); [destruct Hd as [<-|[]]; exact I | contradiction].
  - apply (oflat_In _ _ _ _ E) in Hd. destruct Hd as (a & r & _ & Hr & Hd). eapply one_arg_diags_arg; eassumption.
Qed.
Lemma message_arg_diags_arg toks rb v ord f decl ds d : message_arg_diags toks rb v ord f decl = Done ds -> In d ds -> arg_diag d.
Proof.
  unfold message_arg_diags. destruct (oflat _) as [l|] eqn:E; [|discriminate]. simpl.
  assert (Hl : forall d, In d l -> arg_diag d).
  { intros d0 Hd. apply (oflat_In _ _ _ _ E) in Hd. destruct Hd as (a & r & _ & Hr & Hd). eapply attr_diags_arg; eassumption. }
  destruct (missing_args v ord f decl) as [|x xs]; [intros [= <-]; apply Hl|].
  destruct (missing_args_edits _ _ _ _ _ _); [|discriminate]. simpl. intros [= <-] Hd. apply in_app_iff in Hd.
  destruct Hd as [Hd|[<-|[]]]; [apply Hl, Hd | exact I].
Qed.
Lemma signature_diags_kind f decl n d : In d (signature_diags f decl n) ->
  match d with DMismatch _ _ _ | DNotDeclared _ _ _ => True | _ => False end.
Proof.
  unfold signature_diags. intros H. apply in_app_iff in H.
  assert (Hv : forall p a b r s, In d (verify_part p a b r s) -> match d with DMismatch _ _ _ | DNotDeclared _ _ _ => True | _ => False end).
  { intros p a b r s. unfold verify_part. destruct a as [x|].
    - destruct (match b with Some i => negb (trivia_insensitive_eq i x) | None => true end); [intros [<-|[]]; exact I | intros []].
    - destruct b; [intros [<-|[]]; exact I | intros []]. }
  destruct H as [H|H]; eapply Hv; exact H.
Qed.
Lemma missing_diags_kind ord t i d : In d (missing_diags ord t i) -> exists r e, d = DMissing r e.
Proof. unfold missing_diags. destruct (missing_messages ord t i); [intros []|]. intros [<-|[]]. eauto. Qed.

(** ** C52: undeclared methods *)
Lemma undeclared_exact toks rb v oa ord t i ds n r e :
  trait_impl_diags toks rb v oa ord t i = Done ds ->
  In (DUndeclared n r e) ds <->
  (e = edit_delete r /\ (exists f, has_fn i f /\ named f n /\ fi_range f = r) /\ ~ declares t n /\ ~ declares_message t n).
Proof.
  unfold trait_impl_diags. destruct (oflat _) as [l|] eqn:E; [|discriminate]. simpl. intros [= <-].
  rewrite in_app_iff, (oflat_In _ _ _ _ E). split.
  - intros [(a & ra & Ha & Hr & Hd)|Hd]; [|apply missing_diags_kind in Hd; destruct Hd as (? & ? & ?); discriminate].
    destruct a as [f|ro]; [|injection Hr as <-; destruct Hd as [Hd|[]]; discriminate].
    unfold item_diags in Hr. destruct (fi_name f) as [nm|] eqn:En; [|injection Hr as <-; contradiction].
    destruct (hm_get str_eqb (message_index t) (snd nm)) as [decl|] eqn:Ei.
    + destruct (message_arg_diags toks rb v oa f decl) as [l'|] eqn:Em; [|discriminate]. injection Hr as <-.
      apply in_app_iff in Hd. destruct Hd as [Hd|Hd].
      * apply (message_arg_diags_arg _ _ _ _ _ _ _ _ Em) in Hd. contradiction.
      * apply signature_diags_kind in Hd. contradiction.
    + destruct (has_str (snd nm) (method_names t)) eqn:Eh; injection Hr as <-; [contradiction|].
      destruct Hd as [[= <- <- <-]|[]]. split; [reflexivity|]. split.
      * exists f. split; [|split; [|reflexivity]].
        -- destruct (im_items i) as [li|] eqn:Ei'; [|contradiction]. exists li. auto.
        -- exists (fst nm). rewrite En. destruct nm; reflexivity.
      * split; [intros Hd; apply method_names_spec in Hd; congruence | apply index_none, Ei].
  - intros (-> & (f & (li & Hli & Hf) & [o Hn] & Hr) & Hd & Hm). left. exists (AFn f), [DUndeclared n r (edit_delete r)].
    rewrite Hli. split; [exact Hf|]. split; [|left; reflexivity].
    unfold item_diags. rewrite Hn. cbn [snd]. apply index_none in Hm. rewrite Hm.
    destruct (has_str n (method_names t)) eqn:Eh; [apply method_names_spec in Eh; contradiction|]. rewrite Hr. reflexivity.
Qed.

(** ** C52: missing messages *)
Lemma impl_fn_names_spec i n : In n (impl_fn_names i) <-> implements i n.
Proof.
  unfold impl_fn_names, implements, has_fn. destruct (im_items i) as [l|].
  - rewrite filter_map_In. split.
    + intros ([f|r] & Hin & E); [|discriminate]. exists f. split; [eauto | apply fn_text_named, E].
    + intros (f & (l' & [= <-] & Hin) & E). exists (AFn f). split; [exact Hin | apply fn_text_named, E].
  - split; [intros [] | intros (f & (l' & E & _) & _); discriminate].
Qed.
Lemma missing_messages_In ord t i f :
  (forall l, Permutation l (ord l)) ->
  In f (missing_messages ord t i) <->
  exists n, hm_get str_eqb (message_index t) n = Some f /\ ~ implements i n.
Proof.
  intros Ho. unfold missing_messages. rewrite filter_In, in_map_iff.
  assert (Hnd : NoDup (map fst (message_index t))) by (apply (hm_collect_nodup str_eqb str_eqb_eq)).
  split.
  - intros [([n f'] & Ef & Hin) Hf]. simpl in Ef. subst f'.
    apply (Permutation_in _ (Permutation_sym (Ho (message_index t)))) in Hin.
    apply (hm_get_In str_eqb str_eqb_eq _ _ _ Hnd) in Hin. exists n. split; [exact Hin|].
    destruct (index_get _ _ _ Hin) as (H1 & H2 & H3). apply fn_text_named in H2. rewrite H2 in Hf.
    destruct n as [|c n]; [contradiction|]. intros Hi. apply negb_true_iff in Hf.
    assert (Ht : has_str (c :: n) (filter (fun n => is_some (hm_get str_eqb (message_index t) n)) (impl_fn_names i)) = true); [|congruence].
    apply has_str_In, filter_In. split; [apply impl_fn_names_spec, Hi | rewrite Hin; reflexivity].
  - intros (n & Hg & Hi). split.
    + exists (n, f). split; [reflexivity|]. apply (Permutation_in _ (Ho (message_index t))).
      apply (hm_get_In str_eqb str_eqb_eq _ _ _ Hnd), Hg.
    + destruct (index_get _ _ _ Hg) as (H1 & H2 & H3). apply fn_text_named in H2. rewrite H2.
      destruct n as [|c n]; [contradiction|]. apply negb_true_iff.
      match goal with |- ?x = false => destruct x eqn:E; [exfalso|reflexivity] end.
      apply has_str_In, filter_In in E. apply Hi, impl_fn_names_spec, E.
Qed.
Lemma NoDup_map_filter {A B} (f : A -> B) (p : A -> bool) l : NoDup (map f l) -> NoDup (map f (filter p l)).
Proof.
  induction l as [|x l IH]; simpl; intros H; [constructor|]. inversion H; subst. destruct (p x); simpl; [|auto].
  constructor; [|auto]. intros Hin. apply in_map_iff in Hin. destruct Hin as (y & E & Hy). apply filter_In in Hy.
  match goal with Hn : ~ In _ _ |- _ => apply Hn end. rewrite <- E. apply in_map, Hy.
Qed.
Lemma missing_messages_nodup ord t i :
  (forall l, Permutation l (ord l)) -> NoDup (map fn_text (missing_messages ord t i)).
Proof.
  intros Ho. unfold missing_messages. apply NoDup_map_filter.
  assert (E : map fn_text (map snd (ord (message_index t))) = map (fun kv => Some (fst kv)) (ord (message_index t))).
  { rewrite map_map. apply map_ext_in. intros [n f] Hin.
    apply (Permutation_in _ (Permutation_sym (Ho (message_index t)))) in Hin.
    apply (hm_get_In str_eqb str_eqb_eq _ _ _ (hm_collect_nodup str_eqb str_eqb_eq _)) in Hin.
    apply index_get in Hin. simpl. apply fn_text_named, Hin. }
  rewrite E. rewrite <- (map_map fst Some). apply FinFun.Injective_map_NoDup; [intros a b [= ->]; reflexivity|].
  eapply Permutation_NoDup; [apply Permutation_map, Ho|]. apply (hm_collect_nodup str_eqb str_eqb_eq).
Qed.

(** ** C52: signatures *)
Lemma strip_top_parts n : strip_top n = concat (parts n).
Proof. unfold strip_top, parts. destruct (snd n); [reflexivity|]. unfold texts_of. apply flat_map_concat_map. Qed.
Lemma trivia_eq_parts a b : trivia_insensitive_eq a b = true <-> concat (parts a) = concat (parts b).
Proof. unfold trivia_insensitive_eq. rewrite str_eqb_eq, !strip_top_parts. reflexivity. Qed.
Lemma verify_part_nil p d i r s : verify_part p d i r s = [] <-> part_matches d i.
Proof.
  unfold verify_part, part_matches. destruct d as [d|], i as [i|].
  - destruct (trivia_insensitive_eq i d) eqn:E; simpl.
    + apply trivia_eq_parts in E. split; [auto | reflexivity].
    + split; [discriminate|]. intros H. exfalso. assert (trivia_insensitive_eq i d = true); [|congruence].
      apply trivia_eq_parts. auto.
  - split; [discriminate | contradiction].
  - split; [discriminate | contradiction].
  - tauto.
Qed.

Lemma filter_map_app' {A B} (g : A -> option B) a b : filter_map g (a ++ b) = filter_map g a ++ filter_map g b.
Proof. induction a as [|x a IH]; simpl; [reflexivity|]. destruct (g x); simpl; rewrite IH; reflexivity. Qed.
Lemma filter_map_split {A B} (g : A -> option B) l l1 y l2 :
  filter_map g l = l1 ++ y :: l2 -> exists a x b, l = a ++ x :: b /\ g x = Some y /\ filter_map g a = l1 /\ filter_map g b = l2.
Proof.
  revert l1. induction l as [|x l IH]; intros l1 H; simpl in H; [destruct l1; discriminate|].
  destruct (g x) as [z|] eqn:E.
  - destruct l1 as [|w l1].
    + injection H as -> H. exists [], x, l. auto.
    + injection H as -> H. destruct (IH _ H) as (a & x' & b & -> & H1 & H2 & H3).
      exists (x :: a), x', b. simpl. rewrite E, H2. auto.
  - destruct (IH _ H) as (a & x' & b & -> & H1 & H2 & H3). exists (x :: a), x', b. simpl. rewrite E. auto.
Qed.
Lemma index_declaration t n d : hm_get str_eqb (message_index t) n = Some d <-> declaration t n d.
Proof.
  unfold message_index. rewrite (hm_get_collect str_eqb str_eqb_eq). split.
  - destruct (find _ _) as [[n' d']|] eqn:E; [|discriminate]. simpl. intros [= <-].
    apply find_rev_last in E. destruct E as (l1 & l2 & El & Hp & Hf). simpl in Hp. apply str_eqb_eq in Hp. subst n'.
    apply filter_map_split in El. destruct El as (a & x & b & Ea & Ex & E1 & E2). apply message_entry_spec in Ex.
    destruct Ex as (-> & H1 & H2). split; [exact H2|]. split; [exact H1|]. exists a, b. split; [exact Ea|].
    intros f Hin Hn. specialize (Hf (n, f)). simpl in Hf. rewrite str_eqb_refl in Hf.
    assert (true = false); [|discriminate]. apply Hf. rewrite <- E2. apply filter_map_In. exists (Some f).
    split; [exact Hin|]. apply message_entry_spec. auto.
  - intros (Hn & Hd & l1 & l2 & E & Hl).
    assert (Ef : find (fun kv => str_eqb n (fst kv)) (rev (filter_map message_entry (td_messages t))) = Some (n, d)).
    { apply find_rev_last. exists (filter_map message_entry l1), (filter_map message_entry l2). rewrite E, filter_map_app'. simpl.
      assert (Ee : message_entry (Some d) = Some (n, d)) by (apply message_entry_spec; auto). simpl in Ee. rewrite Ee.
      split; [reflexivity|]. split; [apply str_eqb_refl|].
      intros [n' f] Hin. apply filter_map_In in Hin. destruct Hin as (x & Hx & Ex). apply message_entry_spec in Ex. destruct Ex as (-> & H1 & H2).
      simpl. destruct (str_eqb n n') eqn:Es; [|reflexivity]. apply str_eqb_eq in Es. subst n'. exfalso. apply (Hl f Hx H1). }
    rewrite Ef. reflexivity.
Qed.

(** Diagnostics of one function. *)
Lemma item_in toks rb v oa ord t i ds d f n decl :
  trait_impl_diags toks rb v oa ord t i = Done ds -> has_fn i f -> fi_name f = Some n -> declaration t (snd n) decl ->
  In d (signature_diags f decl n) -> In d ds.
Proof.
  unfold trait_impl_diags. destruct (oflat _) as [l|] eqn:E; [|discriminate]. simpl. intros [= <-] (li & Hli & Hf) Hn Hd Hin.
  apply in_app_iff. left. apply (oflat_In _ _ _ _ E). rewrite Hli in *.
  destruct (oflat_each _ _ _ E (AFn f) Hf) as [r Hr]. exists (AFn f), r. split; [exact Hf|]. split; [exact Hr|].
  unfold item_diags in Hr. rewrite Hn in Hr. apply index_declaration in Hd. rewrite Hd in Hr.
  destruct (message_arg_diags toks rb v oa f decl); [|discriminate]. injection Hr as <-. apply in_app_iff. right; exact Hin.
Qed.
Lemma sig_in toks rb v oa ord t i ds d :
  trait_impl_diags toks rb v oa ord t i = Done ds -> In d ds ->
  match d with DMismatch _ _ _ | DNotDeclared _ _ _ => True | _ => False end ->
  exists f n decl, has_fn i f /\ fi_name f = Some n /\ declaration t (snd n) decl /\ In d (signature_diags f decl n).
Proof.
  unfold trait_impl_diags. destruct (oflat _) as [l|] eqn:E; [|discriminate]. simpl. intros [= <-] Hd Hk.
  apply in_app_iff in Hd. destruct Hd as [Hd|Hd]; [|apply missing_diags_kind in Hd; destruct Hd as (? & ? & ->); contradiction].
  apply (oflat_In _ _ _ _ E) in Hd. destruct Hd as (a & r & Ha & Hr & Hd).
  destruct a as [f|ro]; [|injection Hr as <-; destruct Hd as [<-|[]]; contradiction].
  unfold item_diags in Hr. destruct (fi_name f) as [nm|] eqn:En; [|injection Hr as <-; contradiction].
  destruct (hm_get str_eqb (message_index t) (snd nm)) as [decl|] eqn:Ei.
  - destruct (message_arg_diags toks rb v oa f decl) as [l'|] eqn:Em; [|discriminate]. injection Hr as <-.
    apply in_app_iff in Hd. destruct Hd as [Hd|Hd].
    + apply (message_arg_diags_arg _ _ _ _ _ _ _ _ Em) in Hd. destruct d; contradiction.
    + exists f, nm, decl. split; [|split; [exact En|split; [apply index_declaration, Ei | exact Hd]]].
      destruct (im_items i) as [li|] eqn:Eli; [|contradiction]. exists li. auto.
  - destruct (has_str (snd nm) (method_names t)); injection Hr as <-; [contradiction|]. destruct Hd as [<-|[]]; contradiction.
Qed.

(** ** Stubs *)
Lemma join_commas l : (forall x, In x l -> x <> []) ->
  exists cs, texts_of cs = join (lit ", ") l /\ map text_of (filter (fun e => negb (is_trivia (kind_of e))) cs) = with_commas l.
Proof.
  induction l as [|x l IH]; intros H; [exists []; split; reflexivity|].
  destruct (IH (fun y Hy => H y (or_intror Hy))) as (cs & E1 & E2).
  destruct l as [|y l].
  - exists [Tok IDENT x]. split; [simpl; apply app_nil_r | reflexivity].
  - exists (Tok IDENT x :: Tok COMMA (lit ",") :: Tok WHITESPACE (lit " ") :: cs). split.
    + change (texts_of (Tok IDENT x :: Tok COMMA (lit ",") :: Tok WHITESPACE (lit " ") :: cs)) with (x ++ lit ", " ++ texts_of cs).
      rewrite E1. reflexivity.
    + change (with_commas (x :: y :: l)) with (x :: lit "," :: with_commas (y :: l)). rewrite <- E2. reflexivity.
Qed.
Lemma self_join (s : option str) (l : list str) :
  (forall x, In x (opt_list s ++ l) -> x <> []) ->
  opt_text s ++ (if is_some s && negb (str_eqb (join (lit ", ") l) []) then lit ", " else []) ++ join (lit ", ") l
  = join (lit ", ") (opt_list s ++ l).
Proof.
  intros H. destruct s as [s|]; [|reflexivity]. simpl opt_text. simpl is_some. simpl opt_list.
  destruct l as [|x l]; [simpl; rewrite app_nil_r; reflexivity|].
  assert (Hne : str_eqb (join (lit ", ") (x :: l)) [] = false).
  { apply str_eqb_neq. assert (x <> []) by (apply H; right; left; reflexivity). destruct x; [contradiction|].
    destruct l; discriminate. }
  rewrite Hne. simpl negb. simpl andb. cbv iota. reflexivity.
Qed.
Lemma stub_signature body f n :
  named f n -> params_written f ->
  exists p r, fn_stub body f = lit "fn " ++ n ++ text_of p ++ match r with Some r => lit " " ++ text_of r | None => [] end
                               ++ lit " {" ++ [c_nl] ++ lit "    " ++ body ++ [c_nl] ++ lit "}"
    /\ part_matches (fi_params f) (Some (0, p)) /\ part_matches (fi_ret f) (option_map (fun r => (0, r)) r).
Proof.
  intros Hn ((pn & Hp & Hparts) & Hne & Hret). apply fn_text_named in Hn.
  destruct (join_commas _ Hne) as (cs & E1 & E2).
  exists (Node (OTHER 0) (Tok L_PAREN (lit "(") :: cs ++ [Tok R_PAREN (lit ")")])).
  assert (Et : text_of (Node (OTHER 0) (Tok L_PAREN (lit "(") :: cs ++ [Tok R_PAREN (lit ")")]))
               = lit "(" ++ join (lit ", ") (opt_list (fi_self f) ++ fi_other f) ++ lit ")").
  { rewrite texts_node. change (Tok L_PAREN (lit "(") :: cs ++ [Tok R_PAREN (lit ")")]) with ([Tok L_PAREN (lit "(")] ++ cs ++ [Tok R_PAREN (lit ")")]).
    rewrite !texts_app, E1. reflexivity. }
  assert (Em : part_matches (fi_params f) (Some (0, Node (OTHER 0) (Tok L_PAREN (lit "(") :: cs ++ [Tok R_PAREN (lit ")")])))).
  { rewrite Hp. simpl. rewrite Hparts. unfold parts. cbn [snd]. cbn [filter kind_of is_trivia negb map text_of].
    rewrite filter_app, map_app, E2. reflexivity. }
  rewrite Hp in Em. unfold fn_stub. rewrite Hn, Hp. cbn [opt_text]. rewrite (self_join _ _ Hne).
  destruct (fi_ret f) as [rn|].
  - destruct Hret as (ty & Hty & Hr). rewrite Hty.
    exists (Some (Node (OTHER 0) [Tok (OTHER 1) (lit "->"); Tok WHITESPACE (lit " "); Tok IDENT ty])).
    split; [|split; [exact Em|]].
    + rewrite Et, texts_node. cbn [is_some opt_text texts_of flat_map text_of]. rewrite app_nil_r.
      rewrite <- !app_assoc. reflexivity.
    + simpl. rewrite Hr. reflexivity.
  - exists None. split; [|split; [exact Em | exact I]].
    rewrite Et. cbn [is_some opt_text]. rewrite <- !app_assoc. reflexivity.
Qed.

(** ** C73: arguments *)
Lemma index_arg decl k a : hm_get arg_kind_eqb (arg_index decl) k = Some a <-> declared_arg decl k a.
Proof.
  unfold arg_index. rewrite (hm_get_collect arg_kind_eqb arg_keq).
  assert (Efm : filter_map (fun a => if arg_kind_eqb (ia_kind a) AUnknown then None else Some (ia_kind a, a)) (fn_args decl)
                = map (fun a => (ia_kind a, a)) (known_args decl)).
  { unfold known_args, fn_args. induction (flat_map at_args (fi_attrs decl)) as [|x l IH]; simpl; [reflexivity|].
    destruct (arg_kind_eqb (ia_kind x) AUnknown); simpl; [exact IH | f_equal; exact IH]. }
  rewrite Efm. rewrite <- map_rev.
  assert (Ef : option_map snd (find (fun kv => arg_kind_eqb k (fst kv)) (map (fun a => (ia_kind a, a)) (rev (known_args decl))))
               = find (fun a => arg_kind_eqb k (ia_kind a)) (rev (known_args decl))).
  { induction (rev (known_args decl)) as [|x l IH]; simpl; [reflexivity|]. destruct (arg_kind_eqb k (ia_kind x)); [reflexivity | exact IH]. }
  rewrite Ef, find_rev_last. unfold declared_arg. split; intros (l1 & l2 & H1 & H2 & H3); exists l1, l2; (split; [exact H1|]).
  - split; [symmetry; apply arg_keq, H2|]. intros b Hb E. specialize (H3 b Hb). assert (arg_kind_eqb k (ia_kind b) = true) by (apply arg_keq; auto). congruence.
  - split; [apply arg_keq; auto|]. intros y Hy. destruct (arg_kind_eqb k (ia_kind y)) eqn:E; [|reflexivity]. apply arg_keq in E. exfalso. apply (H3 y Hy). auto.
Qed.
Lemma index_arg_none decl k : hm_get arg_kind_eqb (arg_index decl) k = None <-> forall a, ~ declared_arg decl k a.
Proof.
  split.
  - intros H a Ha. apply index_arg in Ha. congruence.
  - intros H. destruct (hm_get arg_kind_eqb (arg_index decl) k) as [a|] eqn:E; [|reflexivity]. apply index_arg in E. exfalso. apply (H a E).
Qed.
Lemma has_kind_In k l : has_kind k l = true <-> In k l.
Proof.
  unfold has_kind. rewrite existsb_exists. split.
  - intros (x & Hx & E). apply arg_keq in E. subst; exact Hx.
  - intros H. exists k. split; [exact H | apply arg_keq; reflexivity].
Qed.
Lemma allowed_message_args v k : In k (allowed_kinds v) <-> In k message_args.
Proof. destruct v; reflexivity. Qed.
Lemma missing_args_In v ord f decl a :
  (forall l, Permutation l (ord l)) ->
  In a (missing_args v ord f decl) <-> exists k, declared_arg decl k a /\ ~ has_arg f k /\ In k message_args.
Proof.
  intros Ho. unfold missing_args. rewrite stable_sort_In, filter_In, in_map_iff, andb_true_iff, negb_true_iff, has_kind_In, allowed_message_args.
  assert (Hnd : NoDup (map fst (arg_index decl))) by (apply (hm_collect_nodup arg_kind_eqb arg_keq)).
  split.
  - intros [([k a'] & E & Hin) [H1 H2]]. simpl in E. subst a'.
    apply (Permutation_in _ (Permutation_sym (Ho (arg_index decl)))) in Hin.
    apply (hm_get_In arg_kind_eqb arg_keq _ _ _ Hnd) in Hin. pose proof Hin as Hg. apply index_arg in Hin. exists k. split; [exact Hin|].
    assert (Ek : ia_kind a = k) by (destruct Hin as (? & ? & _ & E & _); exact E). rewrite Ek in *. split; [|exact H2].
    intros (b & Hb & Eb). assert (Ht : has_kind k (filter (fun k => is_some (hm_get arg_kind_eqb (arg_index decl) k)) (map ia_kind (fn_args f))) = true); [|congruence].
    apply has_kind_In, filter_In. split; [apply in_map_iff; exists b; auto | rewrite Hg; reflexivity].
  - intros (k & Hd & Hn & Hk). assert (Ek : ia_kind a = k) by (destruct Hd as (? & ? & _ & E & _); exact E). rewrite Ek.
    apply index_arg in Hd. split.
    + exists (k, a). split; [reflexivity|]. apply (Permutation_in _ (Ho (arg_index decl))). apply (hm_get_In arg_kind_eqb arg_keq _ _ _ Hnd), Hd.
    + split; [|exact Hk]. match goal with |- ?x = false => destruct x eqn:E; [exfalso|reflexivity] end.
      apply has_kind_In, filter_In in E. destruct E as [E _]. apply in_map_iff in E. destruct E as (b & Eb & Hb). apply Hn. exists b. auto.
Qed.
Lemma missing_args_nodup v ord f decl :
  (forall l, Permutation l (ord l)) -> NoDup (map ia_kind (missing_args v ord f decl)).
Proof.
  intros Ho. unfold missing_args. eapply Permutation_NoDup; [apply Permutation_map, stable_sort_perm|].
  apply NoDup_map_filter.
  assert (E : map ia_kind (map snd (ord (arg_index decl))) = map fst (ord (arg_index decl))).
  { rewrite map_map. apply map_ext_in. intros [k a] Hin.
    apply (Permutation_in _ (Permutation_sym (Ho (arg_index decl)))) in Hin.
    apply (hm_get_In arg_kind_eqb arg_keq _ _ _ (hm_collect_nodup arg_kind_eqb arg_keq _)) in Hin.
    apply index_arg in Hin. destruct Hin as (? & ? & _ & E & _). exact E. }
  rewrite E. eapply Permutation_NoDup; [apply Permutation_map, Ho|]. apply (hm_collect_nodup arg_kind_eqb arg_keq).
Qed.

(** ** C73: reports about arguments *)
Lemma arg_diag_in toks rb v oa ord t i ds d :
  trait_impl_diags toks rb v oa ord t i = Done ds -> arg_diag d ->
  In d ds <-> exists f n decl l, has_fn i f /\ fi_name f = Some n /\ declaration t (snd n) decl
              /\ message_arg_diags toks rb v oa f decl = Done l /\ In d l.
Proof.
  unfold trait_impl_diags. destruct (oflat _) as [l|] eqn:E; [|discriminate]. simpl. intros [= <-] Hk.
  rewrite in_app_iff, (oflat_In _ _ _ _ E). split.
  - intros [(a & r & Ha & Hr & Hd)|Hd]; [|apply missing_diags_kind in Hd; destruct Hd as (? & ? & ->); contradiction].
    destruct a as [f|ro]; [|injection Hr as <-; destruct Hd as [<-|[]]; contradiction].
    unfold item_diags in Hr. destruct (fi_name f) as [n|] eqn:En; [|injection Hr as <-; contradiction].
    destruct (hm_get str_eqb (message_index t) (snd n)) as [decl|] eqn:Ei.
    + destruct (message_arg_diags toks rb v oa f decl) as [l'|] eqn:Em; [|discriminate]. injection Hr as <-.
      apply in_app_iff in Hd. destruct Hd as [Hd|Hd]; [|apply signature_diags_kind in Hd; destruct d; contradiction].
      exists f, n, decl, l'. split.
      * unfold has_fn. destruct (im_items i); [eauto | contradiction].
      * split; [exact En|]. split; [apply index_declaration, Ei|]. auto.
    + destruct (has_str (snd n) (method_names t)); injection Hr as <-; [contradiction|]. destruct Hd as [<-|[]]; contradiction.
  - intros (f & n & decl & l' & (li & Hli & Hf) & Hn & Hd & Hm & Hin). left. exists (AFn f). rewrite Hli.
    exists (l' ++ signature_diags f decl n). split; [exact Hf|]. split; [|apply in_app_iff; left; exact Hin].
    unfold item_diags. rewrite Hn. apply index_declaration in Hd. rewrite Hd, Hm. reflexivity.
Qed.
Lemma lacks_index decl k : hm_get arg_kind_eqb (arg_index decl) k = None <-> lacks decl k.
Proof.
  rewrite index_arg_none. unfold lacks. split.
  - intros H. destruct (arg_kind_eqb k AUnknown) eqn:Ek; [left; apply arg_keq, Ek|]. right.
    intros (a & Ha & Hka).
    assert (Hin : In a (known_args decl)).
    { unfold known_args. apply filter_In. split; [exact Ha|]. rewrite Hka, Ek. reflexivity. }
    destruct (find (fun a => arg_kind_eqb (ia_kind a) k) (rev (known_args decl))) as [b|] eqn:E.
    + apply find_rev_last in E. destruct E as (l1 & l2 & El & Hb & Hl). apply (H b). exists l1, l2. split; [exact El|].
      split; [apply arg_keq, Hb|]. intros c Hc Ec. specialize (Hl c Hc). apply arg_keq in Ec. congruence.
    + apply in_rev in Hin. pose proof (find_none _ _ E a Hin) as Hf. simpl in Hf. apply arg_keq in Hka. congruence.
  - intros H a (l1 & l2 & E & Hk & _). assert (Hin : In a (known_args decl)) by (rewrite E; apply in_app_iff; right; left; reflexivity).
    unfold known_args in Hin. apply filter_In in Hin. destruct Hin as [Hin Hu]. destruct H as [->|H].
    + rewrite Hk in Hu. discriminate.
    + apply H. exists a. auto.
Qed.
Lemma same_value_tokens a b : same_value_text a b = true <-> value_tokens a = value_tokens b.
Proof.
  unfold same_value_text. rewrite str_eqb_eq.
  assert (E : forall v, texts_of (map snd (non_trivia (mv_elements v))) = value_tokens v).
  { intros v. unfold value_tokens, texts_of, non_trivia, lkind. rewrite flat_map_concat_map. f_equal. f_equal.
    induction (mv_elements v) as [|x l IH]; [reflexivity|]. simpl. destruct (is_trivia (kind_of (snd x))); simpl; rewrite IH; reflexivity. }
  rewrite !E. reflexivity.
Qed.
(** The reports about one argument, and about one function. *)
Lemma one_arg_in toks rb v oa f decl l d :
  message_arg_diags toks rb v oa f decl = Done l ->
  match d with DMissingArgs _ _ _ | DMacroAttr _ _ => False | _ => True end ->
  In d l <-> exists attr a r, In attr (fi_attrs f) /\ In a (at_args attr)
             /\ one_arg_diags toks (arg_index decl) attr a = Done r /\ In d r.
Proof.
  unfold message_arg_diags. destruct (oflat _) as [l0|] eqn:E; [|discriminate]. simpl. intros H Hk.
  assert (Hl : In d l <-> In d l0).
  { destruct (missing_args v oa f decl) as [|x xs]; [injection H as <-; reflexivity|].
    destruct (missing_args_edits _ _ _ _ _ _); [|discriminate]. injection H as <-. rewrite in_app_iff. split; [|auto].
    intros [Hd|[<-|[]]]; [exact Hd | contradiction]. }
  rewrite Hl, (oflat_In _ _ _ _ E). split.
  - intros (attr & r & Ha & Hr & Hd). unfold attr_diags in Hr. destruct (oflat (all_done (map (one_arg_diags _ _ _) _))) as [l1|] eqn:E1; [|discriminate].
    injection Hr as <-. apply in_app_iff in Hd. destruct Hd as [Hd|Hd].
    + destruct (is_macro_attr attr); [destruct Hd as [<-|[]]|]; contradiction.
    + apply (oflat_In _ _ _ _ E1) in Hd. destruct Hd as (a & ra & H1 & H2 & H3). eauto 8.
  - intros (attr & a & r & Ha & Hin & Hr & Hd). destruct (oflat_each _ _ _ E attr Ha) as [ra Hra]. exists attr, ra.
    split; [exact Ha|]. split; [exact Hra|]. unfold attr_diags in Hra. destruct (oflat (all_done (map (one_arg_diags _ _ _) _))) as [l1|] eqn:E1; [|discriminate].
    injection Hra as <-. apply in_app_iff. right. apply (oflat_In _ _ _ _ E1). eauto.
Qed.
Lemma one_arg_classes toks decl attr a r :
  one_arg_diags toks (arg_index decl) attr a = Done r ->
  (exists b, declared_arg decl (ia_kind a) b /\ shared_arg_diags a b = Done r)
  \/ (lacks decl (ia_kind a) /\ is_macro_attr attr = true /\ r = [])
  \/ (lacks decl (ia_kind a) /\ is_macro_attr attr = false /\ extra_arg_diags toks attr a = Done r).
Proof.
  unfold one_arg_diags. destruct (hm_get _ _ _) as [b|] eqn:E.
  - intros H. left. exists b. split; [apply index_arg, E | exact H].
  - apply lacks_index in E. destruct (is_macro_attr attr); [intros [= <-]|]; auto.
Qed.
Lemma declared_not_lacks decl k b : declared_arg decl k b -> ~ lacks decl k.
Proof. intros H Hl. apply lacks_index in Hl. apply index_arg in H. congruence. Qed.
Lemma declared_unique decl k a b : declared_arg decl k a -> declared_arg decl k b -> a = b.
Proof. intros H1 H2. apply index_arg in H1. apply index_arg in H2. congruence. Qed.
