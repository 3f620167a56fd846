(** Proofs for C91. *)
From Coq Require Import Permutation.
From Verif Require Import Base BaseFacts Unicode PositionModel PositionProofs TranslateModel CommandModel EditSpec ChainSpec ChainProofs
  TravModel TravProofs HostModel HostSpec.

Lemma parsed_node k cs : parsed (Node k cs) ->
  (forall r, many r = false -> length (filter (fun x => role_eqb (fst x) r) cs) <= 1)
  /\ (forall r c, In (r, c) cs -> (r = Rname \/ r = Rqual) -> no_fn c)
  /\ (forall c, In (Rpath, c) cs -> exists ps, c = Node KPath ps)
  /\ (forall c, In (Rseg, c) cs -> exists ps, c = Node KSegment ps)
  /\ (forall c, In (Rqual, c) cs -> exists ps, c = Node KPath ps)
  /\ (forall c, In (Rargs, c) cs -> exists ps, c = Node KArgList ps)
  /\ (forall r c, In (r, c) cs -> parsed c).
Proof.
  intros [H1 [H2 [H3 [H4 [H5 [H6 H]]]]]]. repeat (split; [assumption|]). clear H1 H2 H3 H4 H5 H6.
  induction cs as [|[r0 c0] cs IH]; intros r c Hc; [destruct Hc|]. destruct H as [H0 H]. destruct Hc as [E|Hc].
  - injection E as <- <-. exact H0.
  - exact (IH H r c Hc).
Qed.
Lemma no_fn_node k cs : no_fn (Node k cs) -> k <> KFn /\ forall r c, In (r, c) cs -> no_fn c.
Proof.
  intros [H1 H]. split; [exact H1|]. clear H1.
  induction cs as [|[r0 c0] cs IH]; intros r c Hc; [destruct Hc|]. destruct H as [H0 H]. destruct Hc as [E|Hc].
  - injection E as <- <-. exact H0.
  - exact (IH H r c Hc).
Qed.

(** ** Parts and accessors *)
Lemma part_child r t o : part r t = option_map snd (child r (o, t)).
Proof.
  destruct t as [s|k cs]; [reflexivity|]. unfold part, child. cbn [fst snd].
  revert o; induction cs as [|[r0 c0] cs IH]; intros o; [reflexivity|]. cbn.
  destruct (role_eqb r0 r); cbn; [reflexivity|]. rewrite (IH (o + width c0)).
  destruct (filter _ (spread_out (o + width c0) cs)) as [|x l]; reflexivity.
Qed.
Lemma part_some r t o c : child r (o, t) = Some c -> part r t = Some (snd c).
Proof. intros H. rewrite (part_child r t o), H. reflexivity. Qed.
Lemma part_none r t o : child r (o, t) = None -> part r t = None.
Proof. intros H. rewrite (part_child r t o), H. reflexivity. Qed.
Lemma parts_child r r' t o : obind (part r t) (part r') = option_map snd (obind (child r (o, t)) (child r')).
Proof.
  rewrite (part_child r t o). destruct (child r (o, t)) as [[o' t']|]; cbn; [|reflexivity]. rewrite (part_child r' t' o'). reflexivity.
Qed.
Lemma generics_text o p o' : option_map ltext (generic_args (o, p)) = option_map ltext (generic_args (o', p)).
Proof.
  unfold generic_args.
  assert (E : forall o, option_map ltext (obind (child Rseg (o, p)) (child Rgenerics)) = option_map ttext (obind (part Rseg p) (part Rgenerics))).
  { intros q. rewrite (parts_child _ _ p q). destruct (obind _ _); reflexivity. }
  rewrite !E. reflexivity.
Qed.
Lemma simple_path_any rs o p : simple_path rs (o, p) = bare rs p.
Proof.
  unfold bare, simple_path. pose proof (generics_text o p 0) as E.
  destruct (generic_args (o, p)) as [g|], (generic_args (0, p)) as [g'|]; cbn in E; try discriminate E; [|reflexivity].
  injection E as E. rewrite E. reflexivity.
Qed.

Section Facts.
  Variable rs : resolver.
  Notation V := (host_visit rs).
  Definition ev (e : text_edit) : trange * str := (te_range e, te_text e).
  Notation E := (map ev).

  (** ** The changes of a part of the file *)
  Fixpoint marks (m : mode) (t : tree) (o : nat) {struct t} : list (trange * str) :=
    match m with
    | Replaced s => [((o, o + width t), s)]
    | _ =>
        match t with
        | Leaf _ => []
        | Node k cs =>
            (fix go (o : nat) (cs : list (role * tree)) : list (trange * str) :=
               match cs with
               | [] => []
               | (r, c) :: cs' => marks (mode_in rs m t k r) c o ++ go (o + width c) cs'
               end) o cs
            ++ match m with
               | Looked => if calls rs BuildCreate t then [((o + width t, o + width t), lit ".instantiate_v1()")] else []
               | _ => []
               end
        end
    end.
  Definition is_replaced (m : mode) : bool := match m with Replaced _ => true | _ => false end.
  Definition tail_mark (m : mode) (t : tree) (o : nat) : list (trange * str) :=
    match m with
    | Looked => if calls rs BuildCreate t then [((o + width t, o + width t), lit ".instantiate_v1()")] else []
    | _ => []
    end.
  Lemma marks_node m k cs o : is_replaced m = false ->
    marks m (Node k cs) o
    = flat_map (fun x => marks (mode_in rs m (Node k cs) k (fst x)) (snd (snd x)) (fst (snd x))) (spread_out o cs) ++ tail_mark m (Node k cs) o.
  Proof.
    intros Hm.
    assert (G : forall t cs o, (fix go (o : nat) (cs : list (role * tree)) : list (trange * str) :=
               match cs with
               | [] => []
               | (r, c) :: cs' => marks (mode_in rs m t k r) c o ++ go (o + width c) cs'
               end) o cs = flat_map (fun x => marks (mode_in rs m t k (fst x)) (snd (snd x)) (fst (snd x))) (spread_out o cs)).
    { intros t cs0. induction cs0 as [|[r c] cs0 IH]; intros o0; [reflexivity|]. cbn [spread_out flat_map fst snd]. rewrite <- IH. reflexivity. }
    destruct m; try discriminate Hm; cbn [marks]; rewrite G; reflexivity.
  Qed.
  Lemma pieces_of t : forall m o, exists ps, ttext t = old_text ps /\ migrated rs m t = new_text ps /\ changes o ps = marks m t o.
  Proof.
    induction t as [s|k cs IH] using tree_deep; intros m o.
    - destruct m as [s'| |q n|]; [exists [Other s s'] | exists [Same s] ..]; cbn; rewrite ?app_nil_r; repeat split; reflexivity.
    - destruct (is_replaced m) eqn:Em.
      { destruct m as [s'| | |]; try discriminate Em. exists [Other (ttext (Node k cs)) s']. cbn -[ttext]. rewrite !app_nil_r. repeat split; reflexivity. }
      assert (H : forall cs', (forall r c, In (r, c) cs' -> In (r, c) cs) -> forall o, exists ps,
        flat_map (fun rc => ttext (snd rc)) cs' = old_text ps
        /\ flat_map (fun rc => migrated rs (mode_in rs m (Node k cs) k (fst rc)) (snd rc)) cs' = new_text ps
        /\ changes o ps = flat_map (fun x => marks (mode_in rs m (Node k cs) k (fst x)) (snd (snd x)) (fst (snd x))) (spread_out o cs')).
      { induction cs' as [|[r c] cs' IHc]; intros Hin o'; [exists []; repeat split; reflexivity|].
        destruct (IH r c (Hin r c (or_introl eq_refl)) (mode_in rs m (Node k cs) k r) o') as [p1 [A1 [B1 C1]]].
        destruct (IHc (fun r0 c0 H0 => Hin r0 c0 (or_intror H0)) (o' + width c)) as [p2 [A2 [B2 C2]]].
        exists (p1 ++ p2). cbn [flat_map spread_out fst snd]. unfold old_text, new_text in *. rewrite !flat_map_app.
        rewrite A1, A2, B1, B2, changes_app, C1. split; [reflexivity|]. split; [reflexivity|].
        unfold old_text. rewrite <- A1. fold (width c). rewrite C2. reflexivity. }
      destruct (H cs (fun r c X => X) o) as [ps [A [B C]]].
      assert (Ha : appended rs m (Node k cs) = match tail_mark m (Node k cs) o with [] => [] | x :: _ => snd x end).
      { destruct m; cbn; try reflexivity. destruct (calls rs BuildCreate (Node k cs)); reflexivity. }
      assert (Hm : migrated rs m (Node k cs) = flat_map (fun rc => migrated rs (mode_in rs m (Node k cs) k (fst rc)) (snd rc)) cs ++ appended rs m (Node k cs)).
      { destruct m; try discriminate Em; reflexivity. }
      rewrite Hm, (marks_node m k cs o Em), Ha. clear Hm Ha.
      assert (Ht : ttext (Node k cs) = flat_map (fun rc => ttext (snd rc)) cs) by reflexivity.
      assert (Htail : tail_mark m (Node k cs) o = [] \/ exists s, tail_mark m (Node k cs) o = [((o + width (Node k cs), o + width (Node k cs)), s)]).
      { destruct m; cbn -[width]; try (left; reflexivity). destruct (calls rs BuildCreate (Node k cs)); [right; eexists; reflexivity | left; reflexivity]. }
      destruct Htail as [-> | [s ->]].
      + exists ps. rewrite !app_nil_r. rewrite Ht, A, B, C. repeat split; reflexivity.
      + exists (ps ++ [Other [] s]). unfold old_text, new_text in *. rewrite !flat_map_app, changes_app. cbn [flat_map snd changes].
        rewrite !app_nil_r, Ht, A, B, C. split; [reflexivity|]. split; [reflexivity|].
        f_equal. unfold width, old_text. rewrite Ht, A. cbn [bytes]. rewrite Nat.add_0_r. reflexivity.
  Qed.

  (** ** Functions inside a part of the file *)
  Lemma migrate_node k cs o :
    host_migrate rs (Node k cs) o
    = match k with KFn => match child Rbody (o, Node k cs) with Some b => V (snd b) (fst b) [] | None => [] end | _ => [] end
      ++ flat_map (fun x => host_migrate rs (snd (snd x)) (fst (snd x))) (spread_out o cs).
  Proof.
    cbn [host_migrate]. f_equal. generalize o. induction cs as [|[r c] cs IH]; intros o0; [reflexivity|].
    cbn [spread_out flat_map fst snd]. rewrite <- IH. reflexivity.
  Qed.
  Lemma migrate_none t : no_fn t -> forall o, host_migrate rs t o = [].
  Proof.
    induction t as [s|k cs IH] using tree_deep; intros H o; [reflexivity|].
    apply no_fn_node in H. destruct H as [Hk Hc]. rewrite migrate_node.
    rewrite (flat_map_none (fun x => host_migrate rs (snd (snd x)) (fst (snd x)))).
    - destruct k; try reflexivity. contradiction Hk; reflexivity.
    - intros [r [oc c]] Hx. apply spread_out_in in Hx. cbn. exact (IH r c Hx (Hc r c Hx) oc).
  Qed.

  (** ** What a visit changes outside of what it visits *)
  Definition env_like (t : tree) : bool := match t with Node KMethod _ => true | _ => is_self_type_env t end.
  Definition host_chain (up : list ltree) : list text_edit :=
    match chained_host (lit "call") INTERMEDIATES up with Some n => [replace_edit n (lit "call_v1")] | None => [] end.
  Definition outside (t : tree) (up : list ltree) : list text_edit :=
    (if env_like t then chained_env up else []) ++ (if builder rs t then host_chain up else []).
  Definition head_method (up : list ltree) : bool := match parent_method up with Some _ => true | None => false end.
  Lemma outside_none t up : head_method up = false -> outside t up = [].
  Proof.
    unfold head_method. intros H. unfold outside, host_chain, chained_env.
    assert (E : chained_host (lit "call") INTERMEDIATES up = None).
    { destruct up as [|x up]; [reflexivity|]. cbn [chained_host]. destruct (parent_method (x :: up)); [discriminate H | reflexivity]. }
    rewrite E. destruct (parent_method up); [discriminate H|]. cbn. destruct (env_like t), (builder rs t); reflexivity.
  Qed.

  Definition opt_mark (s : option str) (c : option ltree) : list (trange * str) :=
    match s, c with Some s, Some c => [(trange_of c, s)] | _, _ => [] end.
  Definition path_marks (q n : option str) (p : ltree) : list (trange * str) := opt_mark q (child Rqual p) ++ opt_mark n (path_name p).
  Definition callee_marks (q n : option str) (t : ltree) : list (trange * str) :=
    match t with
    | (o, Node KPathExpr cs) => match child Rpath (o, Node KPathExpr cs) with Some p => path_marks q n p | None => [] end
    | (o, Node KPath cs) => path_marks q n (o, Node KPath cs)
    | (o, Node KSegment cs) => opt_mark n (child Rname (o, Node KSegment cs))
    | _ => []
    end.
  Definition good (t : tree) : Prop :=
    (forall o, Permutation (marks Plain t o) (E (host_migrate rs t o)))
    /\ (forall o up, Permutation (marks Looked t o ++ E (outside t up)) (E (V t o up) ++ E (host_migrate rs t o)))
    /\ (forall q n o, Permutation (marks (Callee q n) t o) (callee_marks q n (o, t) ++ E (host_migrate rs t o))).

  Lemma E_flat {X} (f : X -> list text_edit) l : E (flat_map f l) = flat_map (fun x => E (f x)) l.
  Proof. induction l as [|x l IH]; [reflexivity|]. cbn. rewrite map_app, IH. reflexivity. Qed.

  Lemma sum_plain (F h : role * ltree -> list (trange * str)) L :
    (forall x, In x L -> Permutation (F x) (h x ++ E (host_migrate rs (snd (snd x)) (fst (snd x))))) ->
    Permutation (flat_map F L) (flat_map h L ++ E (flat_map (fun x => host_migrate rs (snd (snd x)) (fst (snd x))) L)).
  Proof. intros H. rewrite E_flat. apply flat_map_plus. exact H. Qed.

  Lemma filter_count {X Y} (g : role * X -> Y) r (l : list (role * X)) :
    length (filter (fun x => role_eqb (fst x) r) (map (fun x => (fst x, g x)) l)) = length (filter (fun x => role_eqb (fst x) r) l).
  Proof. induction l as [|x l IH]; [reflexivity|]. cbn. destruct (role_eqb (fst x) r); cbn; rewrite IH; reflexivity. Qed.
  Lemma places k r : expression_place k r && negb (left_out k r) = walks k r.
  Proof. destruct k, r; reflexivity. Qed.
  Lemma one_many k r : existsb (fun p => match p with One r' => role_eqb r r' | All _ => false end) (walked k) = true -> many r = false.
  Proof. destruct k, r; intros H; try reflexivity; discriminate H. Qed.
  Lemma walk_sum k cs o up : parsed (Node k cs) ->
    Permutation (E (walk_of (host_call rs) host_method k cs o up))
      (flat_map (fun x => if walks k (fst x) then E (V (snd (snd x)) (fst (snd x)) ((o, Node k cs) :: up)) else []) (spread_out o cs)).
  Proof.
    intros Hp. apply parsed_node in Hp. destruct Hp as [Hone _]. unfold walk_of.
    eapply Permutation_trans; [apply Permutation_map, walk_perm|].
    - intros r _ Hr. apply one_many in Hr. unfold kids_of.
      eapply Nat.le_trans; [|exact (Hone r Hr)]. rewrite <- (spread_out_count o cs r). apply Nat.eq_le_incl.
      apply filter_count.
    - unfold kids_of. rewrite E_flat. generalize (spread_out o cs). intros l. induction l as [|[r [oc c]] l IH]; [apply Permutation_refl|].
      cbn [map flat_map fst snd]. apply Permutation_app; [|exact IH]. destruct (walks k r); apply Permutation_refl.
  Qed.

  Lemma callee_call t p : callee t = Some p -> exists n cs, t = Node (KCall n) cs.
  Proof. destruct t as [s|k cs]; [discriminate|]. destruct k; try discriminate. intros _. eexists _, _. reflexivity. Qed.
  Lemma callee_path n cs o : callee (Node (KCall n) cs) = option_map snd (call_path (o, Node (KCall n) cs)).
  Proof.
    unfold callee, call_path. rewrite (part_child Rexpr _ o). destruct (child Rexpr _) as [[oe [s|k es]]|]; cbn [option_map snd]; try reflexivity.
    destruct k; try reflexivity. apply part_child.
  Qed.
  Lemma not_call k cs : (forall n, k <> KCall n) -> callee (Node k cs) = None.
  Proof. intros H. destruct k; try reflexivity. exfalso; eapply H; reflexivity. Qed.
  Lemma not_called k cs : (forall n, k <> KCall n) -> called rs (Node k cs) = None.
  Proof. intros H. destruct k; try reflexivity. exfalso; eapply H; reflexivity. Qed.
  Lemma not_calls k cs f : (forall n, k <> KCall n) -> calls rs f (Node k cs) = false.
  Proof. intros H. unfold calls. rewrite (not_called k cs H). reflexivity. Qed.
  Lemma not_self_type k cs : (forall n, k <> KCall n) -> is_self_type_env (Node k cs) = false.
  Proof. intros H. unfold is_self_type_env. rewrite (not_call k cs H). reflexivity. Qed.

  Lemma good_fn cs m o : (forall r c, In (r, c) cs -> good c) -> parsed (Node KFn cs) -> is_replaced m = false ->
    Permutation (marks m (Node KFn cs) o) (E (host_migrate rs (Node KFn cs) o)).
  Proof.
    intros IH Hp Hm. rewrite (marks_node m _ _ _ Hm), migrate_node, map_app.
    assert (Ht : tail_mark m (Node KFn cs) o = []) by (destruct m; reflexivity).
    rewrite Ht, app_nil_r. apply parsed_node in Hp. destruct Hp as [Hone _].
    eapply Permutation_trans.
    - apply (sum_plain _ (fun x => if role_eqb (fst x) Rbody then E (V (snd (snd x)) (fst (snd x)) []) else [])).
      intros [r [oc c]] Hx. apply spread_out_in in Hx. cbn [fst snd]. destruct (IH r c Hx) as [H1 [H2 _]].
      destruct (role_eqb r Rbody) eqn:Er.
      + apply role_eqb_eq in Er. subst r. assert (Em : mode_in rs m (Node KFn cs) KFn Rbody = Looked) by (destruct m; reflexivity).
        rewrite Em. specialize (H2 oc []). rewrite (outside_none c [] eq_refl) in H2. cbn [map] in H2. rewrite app_nil_r in H2. exact H2.
      + assert (Em : mode_in rs m (Node KFn cs) KFn r = Plain) by (destruct m, r; try discriminate Er; reflexivity).
        rewrite Em. cbn [app]. apply H1.
    - rewrite (flat_map_child Rbody _ o KFn cs (Hone Rbody eq_refl)). cbn [fst snd].
      destruct (child Rbody (o, Node KFn cs)); apply Permutation_refl.
  Qed.

  Lemma good_plain k cs o : (forall r c, In (r, c) cs -> good c) -> parsed (Node k cs) ->
    Permutation (marks Plain (Node k cs) o) (E (host_migrate rs (Node k cs) o)).
  Proof.
    intros IH Hp. destruct k; try exact (good_fn cs Plain o IH Hp eq_refl);
    (rewrite (marks_node Plain _ _ _ eq_refl), migrate_node; cbn [tail_mark app]; rewrite app_nil_r;
     eapply Permutation_trans; [apply (sum_plain _ (fun _ => []))|];
     [intros [r [oc c]] Hx; apply spread_out_in in Hx; cbn [fst snd app];
      match goal with |- context [mode_in rs Plain ?t ?k0 r] => assert (Em : mode_in rs Plain t k0 r = Plain) by (destruct r; reflexivity) end;
      rewrite Em; exact (proj1 (IH r c Hx) oc)
     |rewrite flat_map_none; [apply Permutation_refl | reflexivity]]).
  Qed.

  Lemma good_callee k cs q n o : (forall r c, In (r, c) cs -> good c) -> parsed (Node k cs) ->
    Permutation (marks (Callee q n) (Node k cs) o) (callee_marks q n (o, Node k cs) ++ E (host_migrate rs (Node k cs) o)).
  Proof.
    intros IH Hp.
    assert (Hdefault : (forall r, mode_in rs (Callee q n) (Node k cs) k r = Plain) -> callee_marks q n (o, Node k cs) = [] -> k <> KFn ->
      Permutation (marks (Callee q n) (Node k cs) o) (callee_marks q n (o, Node k cs) ++ E (host_migrate rs (Node k cs) o))).
    { intros Hm Hc Hk. rewrite Hc. rewrite (marks_node (Callee q n) _ _ _ eq_refl), migrate_node. cbn [tail_mark app]. rewrite app_nil_r.
      eapply Permutation_trans; [apply (sum_plain _ (fun _ => []))|].
      - intros [r [oc c]] Hx. apply spread_out_in in Hx. cbn [fst snd app]. rewrite Hm. exact (proj1 (IH r c Hx) oc).
      - rewrite flat_map_none; [|reflexivity]. assert (Ek : match k with KFn => match child Rbody (o, Node k cs) with Some b => V (snd b) (fst b) [] | None => [] end | _ => [] end = [])
          by (destruct k; try reflexivity; exfalso; apply Hk; reflexivity).
        rewrite Ek. apply Permutation_refl. }
    pose proof (parsed_node _ _ Hp) as [Hone [Hno [Hpa [Hse [Hqu [Har Hall]]]]]].
    destruct k; try (apply Hdefault; [intros r; destruct r; reflexivity | reflexivity | discriminate]); clear Hdefault.
    - (* path expressions *)
      rewrite (marks_node (Callee q n) _ _ _ eq_refl), migrate_node. cbn [tail_mark app]. rewrite app_nil_r.
      eapply Permutation_trans; [apply (sum_plain _ (fun x => if role_eqb (fst x) Rpath then path_marks q n (snd x) else []))|].
      + intros [r [oc c]] Hx. apply spread_out_in in Hx. cbn [fst snd]. destruct (IH r c Hx) as [H1 [_ H3]].
        destruct (role_eqb r Rpath) eqn:Er.
        * apply role_eqb_eq in Er. subst r. destruct (Hpa c Hx) as [ps ->]. exact (H3 q n oc).
        * assert (Em : mode_in rs (Callee q n) (Node KPathExpr cs) KPathExpr r = Plain) by (destruct r; try discriminate Er; reflexivity).
          rewrite Em. apply H1.
      + rewrite (flat_map_child Rpath _ o KPathExpr cs (Hone Rpath eq_refl)). cbn [snd callee_marks].
        destruct (child Rpath (o, Node KPathExpr cs)); apply Permutation_refl.
    - (* paths *)
      rewrite (marks_node (Callee q n) _ _ _ eq_refl), migrate_node. cbn [tail_mark app]. rewrite app_nil_r.
      eapply Permutation_trans;
        [apply (sum_plain _ (fun x => (if role_eqb (fst x) Rqual then opt_mark q (Some (snd x)) else [])
                                      ++ (if role_eqb (fst x) Rseg then opt_mark n (child Rname (snd x)) else [])))|].
      + intros [r [oc c]] Hx. apply spread_out_in in Hx. cbn [fst snd]. destruct (IH r c Hx) as [H1 [_ H3]].
        destruct (role_eqb r Rqual) eqn:Er; [|destruct (role_eqb r Rseg) eqn:Es].
        * apply role_eqb_eq in Er. subst r. rewrite (role_eqb_neq Rqual Rseg ltac:(discriminate)), app_nil_r. cbn [mode_in].
          destruct q as [s|]; [|exact (H1 oc)]. cbn [replaced opt_mark]. rewrite (migrate_none c (Hno Rqual c Hx (or_intror eq_refl)) oc).
          destruct c; apply Permutation_refl.
        * apply role_eqb_eq in Es. subst r. destruct (Hse c Hx) as [ps ->]. exact (H3 None n oc).
        * assert (Em : mode_in rs (Callee q n) (Node KPath cs) KPath r = Plain) by (destruct r; try discriminate Er; try discriminate Es; reflexivity).
          rewrite Em. apply H1.
      + apply Permutation_app_tail. eapply Permutation_trans; [apply flat_map_plus; intros x _; apply Permutation_refl|].
        rewrite (flat_map_child Rqual _ o KPath cs (Hone Rqual eq_refl)), (flat_map_child Rseg _ o KPath cs (Hone Rseg eq_refl)). cbn [snd callee_marks].
        unfold path_marks, path_name. destruct (child Rqual (o, Node KPath cs)), (child Rseg (o, Node KPath cs)); cbn [obind opt_mark];
          destruct q, n; cbn [opt_mark]; apply Permutation_refl.
    - (* segments *)
      rewrite (marks_node (Callee q n) _ _ _ eq_refl), migrate_node. cbn [tail_mark app]. rewrite app_nil_r.
      eapply Permutation_trans; [apply (sum_plain _ (fun x => if role_eqb (fst x) Rname then opt_mark n (Some (snd x)) else []))|].
      + intros [r [oc c]] Hx. apply spread_out_in in Hx. cbn [fst snd]. destruct (IH r c Hx) as [H1 [_ H3]].
        destruct (role_eqb r Rname) eqn:Er.
        * apply role_eqb_eq in Er. subst r. cbn [mode_in].
          destruct n as [s|]; [|exact (H1 oc)]. cbn [replaced opt_mark]. rewrite (migrate_none c (Hno Rname c Hx (or_introl eq_refl)) oc).
          destruct c; apply Permutation_refl.
        * assert (Em : mode_in rs (Callee q n) (Node KSegment cs) KSegment r = Plain) by (destruct r; try discriminate Er; reflexivity).
          rewrite Em. apply H1.
      + rewrite (flat_map_child Rname _ o KSegment cs (Hone Rname eq_refl)). cbn [snd callee_marks].
        destruct (child Rname (o, Node KSegment cs)); destruct n; apply Permutation_refl.
    - (* functions *)
      exact (good_fn cs (Callee q n) o IH Hp eq_refl).
  Qed.

  Lemma not_method_up x up : (forall cs, snd x <> Node KMethod cs) -> head_method (x :: up) = false.
  Proof. intros H. destruct x as [o [s|k cs]]; [reflexivity|]. destruct k; try reflexivity. exfalso; eapply H; reflexivity. Qed.

  Definition looked_ok (t : tree) : Prop :=
    forall o up, Permutation (marks Looked t o ++ E (outside t up)) (E (V t o up) ++ E (host_migrate rs t o)).
  Lemma good_simple k cs : (forall n, k <> KCall n) -> k <> KMethod -> k <> KFn ->
    (forall r c, In (r, c) cs -> good c) -> parsed (Node k cs) -> looked_ok (Node k cs).
  Proof.
    intros Hc Hm Hf IH Hp o up.
    assert (Ho : outside (Node k cs) up = []).
    { unfold outside. assert (E1 : env_like (Node k cs) = false).
      { unfold env_like. rewrite (not_self_type k cs Hc). destruct k; try reflexivity. exfalso; apply Hm; reflexivity. }
      assert (E2 : builder rs (Node k cs) = false).
      { cbn [builder]. rewrite (not_calls k cs BuildCall Hc). destruct k; try reflexivity. exfalso; apply Hm; reflexivity. }
      rewrite E1, E2. reflexivity. }
    rewrite Ho. cbn [map]. rewrite app_nil_r.
    assert (Hcl : closed rs (Node k cs) = false).
    { unfold closed. rewrite (not_self_type k cs Hc), (not_called k cs Hc). unfold is_self_env.
      destruct k; try reflexivity. exfalso; apply Hm; reflexivity. }
    assert (Hmode : forall r, mode_in rs Looked (Node k cs) k r = if walks k r then Looked else Plain).
    { intros r. rewrite <- places. destruct k; try (exfalso; eapply Hc; reflexivity); try (exfalso; apply Hm; reflexivity); try (exfalso; apply Hf; reflexivity);
        unfold mode_in; rewrite Hcl, andb_true_r; destruct r; reflexivity. }
    unfold host_visit. rewrite visit_node.
    assert (Hv : forall w, match k with KCall _ => host_call rs up (o, Node k cs) w | KMethod => host_method up (o, Node k cs) w | _ => w end = w).
    { intros w. destruct k; try reflexivity; [exfalso; eapply Hc; reflexivity | exfalso; apply Hm; reflexivity]. }
    rewrite Hv. rewrite (marks_node Looked _ _ _ eq_refl), migrate_node.
    assert (Ht : tail_mark Looked (Node k cs) o = []) by (cbn [tail_mark]; rewrite (not_calls k cs BuildCreate Hc); reflexivity).
    rewrite Ht, app_nil_r.
    assert (Hk : match k with KFn => match child Rbody (o, Node k cs) with Some b => V (snd b) (fst b) [] | None => [] end | _ => [] end = [])
      by (destruct k; try reflexivity; exfalso; apply Hf; reflexivity).
    rewrite Hk. cbn [app].
    eapply Permutation_trans; [|apply Permutation_app_tail, Permutation_sym, walk_sum, Hp].
    apply sum_plain. intros [r [oc c]] Hx. apply spread_out_in in Hx. cbn [fst snd]. rewrite Hmode. destruct (IH r c Hx) as [H1 [H2 _]].
    destruct (walks k r); [|exact (H1 oc)].
    specialize (H2 oc ((o, Node k cs) :: up)). rewrite outside_none in H2.
    - cbn [map] in H2. rewrite app_nil_r in H2. exact H2.
    - apply not_method_up. intros cs' E. injection E as E _. contradiction.
  Qed.

  (** ** Method calls *)
  Lemma builder_method cs :
    builder rs (Node KMethod cs) = one_of INTERMEDIATES (part Rname (Node KMethod cs))
                                   && match part Rrecv (Node KMethod cs) with Some r => builder rs r | None => false end.
  Proof.
    cbn [builder]. f_equal. unfold part. induction cs as [|[r c] cs IH]; [reflexivity|].
    destruct r; try exact IH. reflexivity.
  Qed.
  Lemma self_env_eq cs o : self_env (o, Node KMethod cs) = is_self_env (Node KMethod cs).
  Proof.
    unfold self_env, is_self_env. rewrite (part_child Rrecv _ o), (part_child Rname _ o).
    destruct (child Rrecv (o, Node KMethod cs)) as [[oe [s|k es]]|]; cbn [option_map snd]; try reflexivity.
    destruct k; try reflexivity. unfold is_text, reads, ltext. cbn [snd].
    destruct (child Rname (o, Node KMethod cs)); reflexivity.
  Qed.
  Lemma recv_out cs o up c : child Rrecv (o, Node KMethod cs) = Some c ->
    E (outside (snd c) ((o, Node KMethod cs) :: up))
    = opt_mark (new_method rs (Node KMethod cs)) (child Rname (o, Node KMethod cs))
      ++ E (if builder rs (Node KMethod cs) then host_chain up else []).
  Proof.
    intros Hc. unfold outside, new_method. rewrite builder_method, (part_some Rrecv _ o c Hc), (part_child Rname _ o).
    unfold host_chain at 1, chained_env. cbn [chained_host parent_method obind].
    destruct (child Rname (o, Node KMethod cs)) as [n|]; cbn [option_map].
    2:{ cbn [one_of andb]. destruct (env_like (snd c)), (builder rs (snd c)); reflexivity. }
    assert (Henv : match snd c with Node KMethod _ => true | _ => is_self_type_env (snd c) end = env_like (snd c)) by reflexivity.
    rewrite Henv. clear Henv. unfold one_of, reads. fold (ltext n). cbn [existsb].
    destruct (str_eqb (ltext n) (lit "instantiate_contract")) eqn:E1; [|destruct (str_eqb (ltext n) (lit "invoke_contract")) eqn:E2].
    - apply str_eqb_eq in E1. rewrite !E1. cbn [orb andb].
      replace (str_eqb (lit "instantiate_contract") (lit "call")) with false by (vm_compute; reflexivity).
      replace (existsb (str_eqb (lit "instantiate_contract")) INTERMEDIATES) with false by (vm_compute; reflexivity).
      cbn [andb]. destruct (env_like (snd c)), (builder rs (snd c)); reflexivity.
    - apply str_eqb_eq in E2. rewrite !E2. cbn [orb andb].
      replace (str_eqb (lit "invoke_contract") (lit "call")) with false by (vm_compute; reflexivity).
      replace (existsb (str_eqb (lit "invoke_contract")) INTERMEDIATES) with false by (vm_compute; reflexivity).
      cbn [andb]. destruct (env_like (snd c)), (builder rs (snd c)); reflexivity.
    - cbn [orb andb]. destruct (str_eqb (ltext n) (lit "call")) eqn:E3.
      + apply str_eqb_eq in E3. rewrite !E3.
        replace (existsb (str_eqb (lit "call")) INTERMEDIATES) with false by (vm_compute; reflexivity).
        cbn [andb]. destruct (env_like (snd c)), (builder rs (snd c)); reflexivity.
      + destruct (existsb (str_eqb (ltext n)) INTERMEDIATES) eqn:E4; cbn [andb].
        * fold (host_chain up). destruct (env_like (snd c)), (builder rs (snd c)); reflexivity.
        * destruct (env_like (snd c)), (builder rs (snd c)); reflexivity.
  Qed.
  Lemma new_method_self cs : is_self_env (Node KMethod cs) = true -> new_method rs (Node KMethod cs) = None /\ builder rs (Node KMethod cs) = false.
  Proof.
    unfold is_self_env. intros H. rewrite builder_method. unfold new_method.
    destruct (part Rrecv (Node KMethod cs)) as [[s|k es]|]; try discriminate H. destruct k; try discriminate H.
    change (builder rs (Node KPathExpr es)) with false. change (is_self_type_env (Node KPathExpr es)) with false. cbv zeta.
    rewrite !andb_false_r. destruct (part Rname (Node KMethod cs)); [rewrite !andb_false_r|]; split; reflexivity.
  Qed.
  Lemma new_method_norecv cs : part Rrecv (Node KMethod cs) = None -> new_method rs (Node KMethod cs) = None /\ builder rs (Node KMethod cs) = false.
  Proof. intros H. rewrite builder_method. unfold new_method. rewrite H, andb_false_r. destruct (part Rname (Node KMethod cs)); split; reflexivity. Qed.

  Lemma name_marks cs o : parsed (Node KMethod cs) ->
    flat_map (fun x => if role_eqb (fst x) Rname then opt_mark (new_method rs (Node KMethod cs)) (Some (snd x)) else []) (spread_out o cs)
    = opt_mark (new_method rs (Node KMethod cs)) (child Rname (o, Node KMethod cs)).
  Proof.
    intros Hp. apply parsed_node in Hp. destruct Hp as [Hone _].
    rewrite (flat_map_child Rname _ o KMethod cs (Hone Rname eq_refl)). cbn [snd].
    destruct (child Rname (o, Node KMethod cs)), (new_method rs (Node KMethod cs)); reflexivity.
  Qed.

  Lemma good_method cs : (forall r c, In (r, c) cs -> good c) -> parsed (Node KMethod cs) -> looked_ok (Node KMethod cs).
  Proof.
    intros IH Hp o up. set (t := Node KMethod cs) in *.
    assert (HV : V t o up = (if is_self_env t then [] else walk_of (host_call rs) host_method KMethod cs o up) ++ chained_env up).
    { unfold host_visit, t. rewrite visit_node. unfold host_method. rewrite self_env_eq. reflexivity. }
    assert (HM : marks Looked t o = flat_map (fun x => marks (mode_in rs Looked t KMethod (fst x)) (snd (snd x)) (fst (snd x))) (spread_out o cs)).
    { unfold t. rewrite (marks_node Looked _ _ _ eq_refl). unfold tail_mark. change (calls rs BuildCreate (Node KMethod cs)) with false. apply app_nil_r. }
    assert (HG : host_migrate rs t o = flat_map (fun x => host_migrate rs (snd (snd x)) (fst (snd x))) (spread_out o cs)) by (unfold t; rewrite migrate_node; reflexivity).
    assert (Hout : outside t up = chained_env up ++ (if builder rs t then host_chain up else [])) by reflexivity.
    rewrite HV, HM, HG, Hout, !map_app. clear HV HM HG Hout.
    pose proof (parsed_node _ _ Hp) as [Hone [Hno [_ [_ [_ [Har _]]]]]].
    assert (Hcl : closed rs t = is_self_env t) by (unfold closed; change (is_self_type_env t) with false; change (called rs t) with (@None host_fn); rewrite orb_false_r; reflexivity).
    assert (Hmode : forall r, r <> Rname -> mode_in rs Looked t KMethod r = if walks KMethod r && negb (is_self_env t) then Looked else Plain).
    { intros r Hr. rewrite <- places, <- Hcl. unfold mode_in. destruct r; try reflexivity. exfalso; apply Hr; reflexivity. }
    assert (Hname : forall r oc c, In (r, c) cs -> r = Rname ->
      Permutation (marks (mode_in rs Looked t KMethod r) c oc) (opt_mark (new_method rs t) (Some (oc, c)) ++ E (host_migrate rs c oc))).
    { intros r oc c Hx ->. cbn [mode_in]. destruct (new_method rs t) as [s|]; [|exact (proj1 (IH _ _ Hx) oc)].
      cbn [replaced opt_mark]. rewrite (migrate_none c (Hno Rname c Hx (or_introl eq_refl)) oc). destruct c; apply Permutation_refl. }
    destruct (is_self_env t) eqn:Hs.
    - destruct (new_method_self cs Hs) as [Hn Hb]. fold t in Hn, Hb. rewrite Hb. cbn [map app]. rewrite app_nil_r.
      eapply Permutation_trans; [apply Permutation_app_comm|]. apply Permutation_app_head.
      eapply Permutation_trans; [apply (sum_plain _ (fun _ => []))|].
      + intros [r [oc c]] Hx. apply spread_out_in in Hx. cbn [fst snd app].
        destruct (role_eq_dec r Rname) as [Er|Er]; [pose proof (Hname r oc c Hx Er) as Hm; rewrite Hn in Hm; exact Hm|].
        rewrite (Hmode r Er), andb_false_r. exact (proj1 (IH r c Hx) oc).
      + rewrite flat_map_none; [apply Permutation_refl | reflexivity].
    - set (out := fun x : role * ltree => if role_eqb (fst x) Rrecv then E (outside (snd (snd x)) ((o, t) :: up)) else []).
      set (F := fun x : role * (nat * tree) => marks (mode_in rs Looked t KMethod (fst x)) (snd (snd x)) (fst (snd x))).
      assert (Hsum : Permutation (flat_map F (spread_out o cs) ++ flat_map out (spread_out o cs))
        (opt_mark (new_method rs t) (child Rname (o, t)) ++ E (walk_of (host_call rs) host_method KMethod cs o up)
         ++ E (flat_map (fun x => host_migrate rs (snd (snd x)) (fst (snd x))) (spread_out o cs)))).
      { eapply Permutation_trans; [apply Permutation_sym, flat_map_plus; intros x _; apply Permutation_refl|].
        eapply Permutation_trans.
        - apply (flat_map_plus _ (fun x : role * ltree => if role_eqb (fst x) Rname then opt_mark (new_method rs t) (Some (snd x)) else [])
                   (fun x => (if walks KMethod (fst x) then E (V (snd (snd x)) (fst (snd x)) ((o, t) :: up)) else [])
                             ++ E (host_migrate rs (snd (snd x)) (fst (snd x))))).
          intros [r [oc c]] Hx. apply spread_out_in in Hx. unfold F, out. cbn [fst snd].
          destruct (role_eq_dec r Rname) as [Er|Er].
          + subst r. rewrite role_eqb_refl, (role_eqb_neq Rname Rrecv ltac:(discriminate)), app_nil_r.
            change (walks KMethod Rname) with false. cbn [app]. exact (Hname Rname oc c Hx eq_refl).
          + rewrite (role_eqb_neq r Rname Er). cbn [app]. rewrite (Hmode r Er). cbn [negb]. rewrite andb_true_r.
            destruct (IH r c Hx) as [H1 [H2 _]]. destruct (role_eqb r Rrecv) eqn:Erv.
            * apply role_eqb_eq in Erv. subst r. change (walks KMethod Rrecv) with true. exact (H2 oc ((o, t) :: up)).
            * rewrite app_nil_r. destruct (walks KMethod r) eqn:Ew; [|exact (H1 oc)].
              assert (Hr : r = Rargs) by (destruct r; try discriminate Ew; try discriminate Erv; reflexivity). subst r.
              destruct (Har c Hx) as [ps ->]. specialize (H2 oc ((o, t) :: up)).
              change (outside (Node KArgList ps) ((o, t) :: up)) with (@nil text_edit) in H2. cbn [map] in H2. rewrite app_nil_r in H2. exact H2.
        - pose proof (name_marks cs o Hp) as Hnm. fold t in Hnm. rewrite Hnm. apply Permutation_app_head.
          eapply Permutation_trans; [apply flat_map_plus; intros x _; apply Permutation_refl|]. rewrite E_flat.
          apply Permutation_app_tail. apply Permutation_sym. exact (walk_sum KMethod cs o up Hp). }
      assert (Ho : flat_map out (spread_out o cs)
                   = opt_mark (new_method rs t) (child Rname (o, t)) ++ E (if builder rs t then host_chain up else [])).
      { unfold out. rewrite (flat_map_child Rrecv (fun x => E (outside (snd (snd x)) ((o, t) :: up))) o KMethod cs (Hone Rrecv eq_refl)). fold t. cbn [snd].
        destruct (child Rrecv (o, t)) as [c|] eqn:Ec.
        - exact (recv_out cs o up c Ec).
        - destruct (new_method_norecv cs (part_none Rrecv _ o Ec)) as [Hn Hb]. fold t in Hn, Hb. rewrite Hn, Hb. reflexivity. }
      rewrite Ho in Hsum. fold F. rewrite app_assoc in Hsum.
      assert (Hsum' : Permutation (flat_map F (spread_out o cs) ++ E (if builder rs t then host_chain up else []))
        (E (walk_of (host_call rs) host_method KMethod cs o up) ++ E (flat_map (fun x => host_migrate rs (snd (snd x)) (fst (snd x))) (spread_out o cs)))).
      { apply (Permutation_app_inv_l (opt_mark (new_method rs t) (child Rname (o, t)))).
        eapply Permutation_trans; [|exact Hsum]. rewrite app_assoc. apply Permutation_app_tail. apply Permutation_app_comm. }
      eapply Permutation_trans; [rewrite app_assoc; apply Permutation_app_tail, Permutation_app_comm|].
      rewrite <- app_assoc. eapply Permutation_trans; [apply Permutation_app_head, Hsum'|].
      rewrite !app_assoc. apply Permutation_app_tail. apply Permutation_app_comm.
  Qed.

  (** ** Calls *)
  Lemma self_type_eq n cs o p : call_path (o, Node (KCall n) cs) = Some p -> is_self_type_env (Node (KCall n) cs) = self_type_env p.
  Proof.
    intros H. unfold is_self_type_env. rewrite (callee_path n cs o), H. cbn [option_map]. unfold self_type_env, last_name, path_name.
    destruct p as [op pt]. cbn [snd]. rewrite (part_child Rqual pt op), (parts_child Rseg Rname pt op).
    destruct (child Rqual (op, pt)); [|reflexivity]. destruct (obind _ _); cbn; [reflexivity | apply andb_false_r].
  Qed.
  Lemma called_eq n cs o p : call_path (o, Node (KCall n) cs) = Some p -> is_self_type_env (Node (KCall n) cs) = false ->
    called rs (Node (KCall n) cs) = host_fn_of rs p n.
  Proof.
    intros H Hs. unfold called. rewrite Hs, (callee_path n cs o), H. cbn [option_map].
    unfold host_fn_of, is_call_path. destruct p as [op pt]. rewrite !simple_path_any. cbn [snd].
    unfold WRAPPERS, CALL_QUALIFIERS, ENV_QUALIFIERS. cbn [find fst snd].
    repeat match goal with |- context [rs_item rs ?a ?b ?c ?d] => destruct (rs_item rs a b c d) end; reflexivity.
  Qed.
  Lemma qualifier_eq n cs o p : call_path (o, Node (KCall n) cs) = Some p -> is_self_type_env (Node (KCall n) cs) = false ->
    opt_mark (new_qualifier rs (Node (KCall n) cs)) (child Rqual p) = E (call_type_edits rs p n).
  Proof.
    intros H Hs. unfold new_qualifier, is_call_new. rewrite Hs, (callee_path n cs o), H. cbn [option_map obind negb andb].
    unfold call_type_edits, call_type_new. destruct p as [op pt]. cbn [snd].
    rewrite (part_child Rqual pt op), (part_child Rseg pt op).
    destruct (child Rqual (op, pt)) as [[oq qt]|]; cbn [option_map snd opt_mark]; [|reflexivity].
    destruct (child Rseg (op, pt)) as [[os st]|]; cbn [option_map snd reads]; [|reflexivity].
    change (ltext (os, st)) with (ttext st). rewrite simple_path_any.
    destruct (str_eqb (ttext st) (lit "new")); cbn [andb]; [|reflexivity]. unfold CALL_QUALIFIERS.
    destruct (rs_item rs (lit "Call") (bare rs qt) _ n); [|reflexivity].
    rewrite (parts_child Rseg Rgenerics qt oq). unfold generic_args.
    destruct (obind (child Rseg (oq, qt)) (child Rgenerics)) as [[og g]|]; reflexivity.
  Qed.
  Lemma function_eq n cs o p : call_path (o, Node (KCall n) cs) = Some p ->
    opt_mark (new_function rs (Node (KCall n) cs)) (path_name p)
    = E (match called rs (Node (KCall n) cs) with
         | Some InstantiateContract | Some InvokeContract => match path_name p with Some m => [replace_edit m (ltext m ++ lit "_v1")] | None => [] end
         | _ => []
         end).
  Proof.
    intros H. unfold new_function, calls. rewrite (callee_path n cs o), H. cbn [option_map obind].
    unfold last_name, path_name. destruct p as [op pt]. cbn [snd]. rewrite (parts_child Rseg Rname pt op).
    destruct (obind (child Rseg (op, pt)) (child Rname)) as [m|]; cbn [option_map].
    - destruct (called rs (Node (KCall n) cs)) as [[| | |]|]; reflexivity.
    - destruct (called rs (Node (KCall n) cs)) as [[| | |]|]; reflexivity.
  Qed.

  Lemma called_self n cs : is_self_type_env (Node (KCall n) cs) = true ->
    called rs (Node (KCall n) cs) = None /\ is_call_new rs (Node (KCall n) cs) = false.
  Proof. intros H. unfold called, is_call_new. rewrite H. destruct (callee (Node (KCall n) cs)); split; reflexivity. Qed.
  Lemma called_other n cs : callee (Node (KCall n) cs) = None -> called rs (Node (KCall n) cs) = None.
  Proof. intros H. unfold called. rewrite H. reflexivity. Qed.

  Lemma good_call n cs : (forall r c, In (r, c) cs -> good c) -> parsed (Node (KCall n) cs) -> looked_ok (Node (KCall n) cs).
  Proof.
    intros IH Hp o up. set (t := Node (KCall n) cs) in *.
    set (walk := walk_of (host_call rs) host_method (KCall n) cs o up).
    assert (HV : V t o up = host_call rs up (o, t) walk) by (unfold host_visit, t; rewrite visit_node; reflexivity).
    assert (HM : marks Looked t o = flat_map (fun x => marks (mode_in rs Looked t (KCall n) (fst x)) (snd (snd x)) (fst (snd x))) (spread_out o cs)
                                    ++ tail_mark Looked t o) by (unfold t; rewrite (marks_node Looked _ _ _ eq_refl); reflexivity).
    assert (HG : host_migrate rs t o = flat_map (fun x => host_migrate rs (snd (snd x)) (fst (snd x))) (spread_out o cs)) by (unfold t; rewrite migrate_node; reflexivity).
    assert (Hout : outside t up = (if is_self_type_env t then chained_env up else []) ++ (if calls rs BuildCall t then host_chain up else [])) by reflexivity.
    rewrite HV, HM, HG, Hout, map_app. clear HV HM HG Hout.
    pose proof (parsed_node _ _ Hp) as [Hone [Hno [_ [_ [_ [Har _]]]]]].
    assert (Hup : head_method ((o, t) :: up) = false) by reflexivity.
    assert (Hlook : forall r oc c, In (r, c) cs -> Permutation (marks Looked c oc) (E (V c oc ((o, t) :: up)) ++ E (host_migrate rs c oc))).
    { intros r oc c Hx. destruct (IH r c Hx) as [_ [H2 _]]. specialize (H2 oc ((o, t) :: up)). rewrite (outside_none c _ Hup) in H2.
      cbn [map] in H2. rewrite app_nil_r in H2. exact H2. }
    pose proof (walk_sum (KCall n) cs o up Hp) as Hwalk. fold walk in Hwalk. fold t in Hwalk.
    destruct (call_path (o, t)) as [p|] eqn:Hcp.
    - (* a path is called *)
      assert (Hce : callee t = Some (snd p)) by (unfold t; rewrite (callee_path n cs o); fold t; rewrite Hcp; reflexivity).
      assert (Hex : exists oe es, child Rexpr (o, t) = Some (oe, Node KPathExpr es) /\ child Rpath (oe, Node KPathExpr es) = Some p).
      { unfold call_path in Hcp. destruct (child Rexpr (o, t)) as [[oe [s|k es]]|]; try discriminate Hcp. destruct k; try discriminate Hcp.
        eexists _, _. split; [reflexivity | exact Hcp]. }
      destruct Hex as [oe [es [Hex Hpp]]].
      set (q := new_qualifier rs t) in *. set (f := new_function rs t) in *.
      assert (Hsum : Permutation (flat_map (fun x => marks (mode_in rs Looked t (KCall n) (fst x)) (snd (snd x)) (fst (snd x))) (spread_out o cs))
        (path_marks q f p ++ (if closed rs t then [] else E walk) ++ E (flat_map (fun x => host_migrate rs (snd (snd x)) (fst (snd x))) (spread_out o cs)))).
      { eapply Permutation_trans.
        - apply (flat_map_plus _ (fun x : role * ltree => if role_eqb (fst x) Rexpr then callee_marks q f (snd x) else [])
                   (fun x => (if role_eqb (fst x) Rargs && negb (closed rs t) then E (V (snd (snd x)) (fst (snd x)) ((o, t) :: up)) else [])
                             ++ E (host_migrate rs (snd (snd x)) (fst (snd x))))).
          intros [r [oc c]] Hx. apply spread_out_in in Hx. cbn [fst snd]. destruct (IH r c Hx) as [H1 [_ H3]].
          destruct (role_eqb r Rexpr) eqn:Er; [|destruct (role_eqb r Rargs) eqn:Ea].
          + apply role_eqb_eq in Er. subst r. rewrite (role_eqb_neq Rexpr Rargs ltac:(discriminate)). cbn [andb app].
            unfold mode_in. rewrite Hce. exact (H3 q f oc).
          + apply role_eqb_eq in Ea. subst r. cbn [app andb].
            assert (Em : mode_in rs Looked t (KCall n) Rargs = if negb (closed rs t) then Looked else Plain) by reflexivity.
            rewrite Em. destruct (negb (closed rs t)); [exact (Hlook Rargs oc c Hx) | exact (H1 oc)].
          + assert (Em : mode_in rs Looked t (KCall n) r = Plain) by (destruct r; try discriminate Er; try discriminate Ea; reflexivity).
            rewrite Em. cbn [app andb]. apply H1.
        - rewrite (flat_map_child Rexpr (fun x => callee_marks q f (snd x)) o (KCall n) cs (Hone Rexpr eq_refl)). fold t. rewrite Hex. cbn [snd].
          unfold callee_marks. rewrite Hpp. apply Permutation_app_head.
          eapply Permutation_trans; [apply flat_map_plus; intros x _; apply Permutation_refl|]. rewrite E_flat.
          apply Permutation_app_tail. destruct (closed rs t) eqn:Hcl.
          + rewrite flat_map_none; [apply Permutation_refl|]. intros x _. rewrite andb_false_r. reflexivity.
          + eapply Permutation_trans; [|apply Permutation_sym; exact Hwalk]. cbn [negb].
            eapply Permutation_trans;
              [|apply flat_map_perm; intros x _; assert (Ew : (if walks (KCall n) (fst x) then E (V (snd (snd x)) (fst (snd x)) ((o, t) :: up)) else [])
                 = (if role_eqb (fst x) Rexpr then E (V (snd (snd x)) (fst (snd x)) ((o, t) :: up)) else [])
                   ++ (if role_eqb (fst x) Rargs then E (V (snd (snd x)) (fst (snd x)) ((o, t) :: up)) else []));
               [destruct (fst x); cbn -[host_visit]; rewrite ?app_nil_r; reflexivity | rewrite Ew; apply Permutation_refl]].
            eapply Permutation_trans; [|apply Permutation_sym, (flat_map_plus _
              (fun x : role * ltree => if role_eqb (fst x) Rexpr then E (V (snd (snd x)) (fst (snd x)) ((o, t) :: up)) else [])
              (fun x : role * ltree => if role_eqb (fst x) Rargs then E (V (snd (snd x)) (fst (snd x)) ((o, t) :: up)) else [])); intros x _; apply Permutation_refl].
            rewrite (flat_map_child Rexpr (fun x => E (V (snd (snd x)) (fst (snd x)) ((o, t) :: up))) o (KCall n) cs (Hone Rexpr eq_refl)).
            fold t. rewrite Hex. cbn [snd fst].
            assert (Hv0 : V (Node KPathExpr es) oe ((o, t) :: up) = []) by (unfold host_visit; rewrite visit_node; reflexivity).
            rewrite Hv0. cbn [map app]. apply flat_map_perm. intros x _. rewrite andb_true_r. apply Permutation_refl. }
      unfold host_call. rewrite Hcp. change (call_number (o, t)) with n.
      assert (Hnc : is_self_env t = false) by reflexivity.
      assert (Hcl : closed rs t = is_self_type_env t || match called rs t with Some _ => true | None => false end).
      { unfold closed. rewrite Hnc, orb_false_r. reflexivity. }
      rewrite <- (self_type_eq n cs o p Hcp). fold t.
      pose proof (function_eq n cs o p Hcp) as Hf. fold t in Hf. fold f in Hf.
      destruct (is_self_type_env t) eqn:Hs.
      + assert (Hca : called rs t = None) by exact (proj1 (called_self n cs Hs)).
        assert (Hcn : is_call_new rs t = false) by exact (proj2 (called_self n cs Hs)).
        assert (Hq : q = None) by (unfold q, new_qualifier; rewrite Hcn; destruct (obind _ _); reflexivity).
        assert (Htm : tail_mark Looked t o = []) by (unfold tail_mark, calls; rewrite Hca; reflexivity).
        assert (Hcb : calls rs BuildCall t = false) by (unfold calls; rewrite Hca; reflexivity).
        rewrite Htm, Hcb, app_nil_r. cbn [map]. rewrite app_nil_r. eapply Permutation_trans; [apply Permutation_app_comm|].
        apply Permutation_app_head. eapply Permutation_trans; [exact Hsum|]. rewrite Hcl. cbn [orb app].
        unfold path_marks. rewrite Hq, Hf, Hca. apply Permutation_refl.
      + cbn [map app orb] in *.
        assert (Hcd : host_fn_of rs p n = called rs t) by (symmetry; exact (called_eq n cs o p Hcp Hs)). rewrite Hcd.
        pose proof (qualifier_eq n cs o p Hcp Hs) as Hq. fold t in Hq. fold q in Hq.
        unfold path_marks in Hsum. rewrite Hq, Hf in Hsum. rewrite map_app. rewrite Hcl in Hsum. unfold tail_mark, calls. clear Hf.
        destruct (called rs t) as [[| | |]|]; cbn [map app] in *; rewrite ?app_nil_r in *; cbn [host_fn_edits].
        * (* build_call *) fold (host_chain up). eapply Permutation_trans; [apply Permutation_app_tail; exact Hsum|].
          rewrite <- !app_assoc. apply Permutation_app_head. apply Permutation_app_comm.
        * (* build_create *) eapply Permutation_trans; [apply Permutation_app_tail; exact Hsum|].
          rewrite <- !app_assoc. apply Permutation_app_head. apply Permutation_app_comm.
        * (* instantiate_contract *) rewrite <- app_assoc in Hsum. rewrite <- app_assoc. exact Hsum.
        * (* invoke_contract *) rewrite <- app_assoc in Hsum. rewrite <- app_assoc. exact Hsum.
        * rewrite <- app_assoc. exact Hsum.
    - (* something else is called *)
      assert (Hce : callee t = None) by (unfold t; rewrite (callee_path n cs o); fold t; rewrite Hcp; reflexivity).
      assert (Hs : is_self_type_env t = false) by (unfold is_self_type_env; rewrite Hce; reflexivity).
      assert (Hca : called rs t = None) by exact (called_other n cs Hce).
      assert (Htm : tail_mark Looked t o = []) by (unfold tail_mark, calls; rewrite Hca; reflexivity).
      assert (Hcb : calls rs BuildCall t = false) by (unfold calls; rewrite Hca; reflexivity).
      assert (Hcl : closed rs t = false) by (unfold closed; rewrite Hs, Hca; reflexivity).
      rewrite Htm, Hs, Hcb. cbn [map app]. rewrite !app_nil_r. unfold host_call. rewrite Hcp.
      eapply Permutation_trans; [|apply Permutation_app_tail, Permutation_sym; exact Hwalk].
      apply sum_plain. intros [r [oc c]] Hx. apply spread_out_in in Hx. cbn [fst snd].
      assert (Em : mode_in rs Looked t (KCall n) r = if walks (KCall n) r then Looked else Plain).
      { rewrite <- places. unfold mode_in. rewrite Hce, Hcl. destruct r; reflexivity. }
      rewrite Em. destruct (walks (KCall n) r); [exact (Hlook r oc c Hx) | exact (proj1 (IH r c Hx) oc)].
  Qed.

  Theorem good_all t : parsed t -> good t.
  Proof.
    induction t as [s|k cs IH] using tree_deep; intros Hp.
    - split; [intros; apply Permutation_refl|]. split; [|intros; apply Permutation_refl].
      intros o up. change (outside (Leaf s) up) with (@nil text_edit). apply Permutation_refl.
    - assert (IH' : forall r c, In (r, c) cs -> good c).
      { intros r c Hx. apply (IH r c Hx). apply parsed_node in Hp. destruct Hp as [_ [_ [_ [_ [_ [_ H]]]]]]. exact (H r c Hx). }
      split; [intros o; apply good_plain; assumption|]. split; [|intros q n o; apply good_callee; assumption].
      assert (Hfn : k = KFn -> looked_ok (Node k cs)).
      { intros -> o up. change (outside (Node KFn cs) up) with (@nil text_edit). cbn [map]. rewrite app_nil_r.
        assert (HV : V (Node KFn cs) o up = []) by (unfold host_visit; rewrite visit_node; reflexivity). rewrite HV.
        exact (good_fn cs Looked o IH' Hp eq_refl). }
      destruct k; try (apply good_simple; [intros ?; discriminate | discriminate | discriminate | exact IH' | exact Hp]).
      + apply good_call; assumption.
      + apply good_method; assumption.
      + apply Hfn; reflexivity.
  Qed.

  Theorem host_rewritten t : parsed t -> rewritten (ttext t) (host_migrate rs t 0) (migrated rs Plain t).
  Proof.
    intros Hp. destruct (pieces_of t Plain 0) as [ps [A [B C]]]. exists ps. split; [exact A|]. split; [exact B|].
    rewrite C. apply Permutation_sym. exact (proj1 (good_all t Hp) 0).
  Qed.
End Facts.

(** ** Checking examples *)
Definition ROLES : list role :=
  [Rexpr; Rlhs; Rrhs; Relem; Rinit; Rstmts; Rstmt; Rtail; Rargs; Rarg; Rbody; Riter; Rcond; Rthen; Relse; Rbase; Rindex; Rarms; Rarm; Rguard; Rrecv;
   Rname; Rstart; Rend; Rfields; Rfield; Rspread; Rtemplate; Rlen; Rpath; Rqual; Rseg; Rgenerics; Rrest].
Fixpoint no_fnb (t : tree) : bool :=
  match t with Leaf _ => true | Node k cs => match k with KFn => false | _ => true end && forallb (fun x => no_fnb (snd x)) cs end.
Definition role_fits (r : role) (c : tree) : bool :=
  match r, c with
  | Rpath, Node KPath _ | Rseg, Node KSegment _ | Rargs, Node KArgList _ => true
  | Rqual, Node KPath _ | Rname, _ => no_fnb c
  | (Rpath | Rseg | Rqual | Rargs), _ => false
  | _, _ => true
  end.
Fixpoint parsedb (t : tree) : bool :=
  match t with
  | Leaf _ => true
  | Node k cs =>
      forallb (fun r => many r || (length (filter (fun x => role_eqb (fst x) r) cs) <=? 1)) ROLES
      && forallb (fun x => role_fits (fst x) (snd x)) cs && forallb (fun x => parsedb (snd x)) cs
  end.
Lemma no_fnb_ok t : no_fnb t = true -> no_fn t.
Proof.
  induction t as [s|k cs IH] using tree_deep; intros H; [exact I|]. cbn in H. apply andb_true_iff in H. destruct H as [Hk Hc].
  cbn. split; [intros ->; discriminate Hk|].
  assert (H : forall l, (forall r c, In (r, c) l -> In (r, c) cs) ->
    (fix all (cs : list (role * tree)) : Prop := match cs with [] => True | (_, c) :: cs' => no_fn c /\ all cs' end) l).
  { induction l as [|[r c] l IHl]; intros Hin; [exact I|]. split; [|apply IHl; intros r0 c0 H0; apply Hin; right; exact H0].
    apply (IH r c (Hin r c (or_introl eq_refl))). rewrite forallb_forall in Hc. exact (Hc (r, c) (Hin r c (or_introl eq_refl))). }
  apply H. intros r c X; exact X.
Qed.
Lemma parsedb_ok t : parsedb t = true -> parsed t.
Proof.
  induction t as [s|k cs IH] using tree_deep; intros H; [exact I|]. cbn [parsedb] in H.
  apply andb_true_iff in H. destruct H as [H Hall]. apply andb_true_iff in H. destruct H as [Hone Hfit].
  rewrite forallb_forall in Hone, Hfit, Hall. cbn [parsed].
  assert (Hrole : forall r, In r ROLES) by (intros r; unfold ROLES; destruct r; cbn; tauto).
  split. { intros r Hr. specialize (Hone r (Hrole r)). rewrite Hr in Hone. apply Nat.leb_le in Hone. exact Hone. }
  split. { intros r c Hx Hr. specialize (Hfit (r, c) Hx). apply no_fnb_ok. destruct Hr as [-> | ->]; cbn in Hfit; [destruct c; exact Hfit|].
    destruct c as [|[] ]; try discriminate Hfit; exact Hfit. }
  split. { intros c Hx. specialize (Hfit (Rpath, c) Hx). destruct c as [|[] ]; try discriminate Hfit. eexists; reflexivity. }
  split. { intros c Hx. specialize (Hfit (Rseg, c) Hx). destruct c as [|[] ]; try discriminate Hfit. eexists; reflexivity. }
  split. { intros c Hx. specialize (Hfit (Rqual, c) Hx). destruct c as [|[] ]; try discriminate Hfit. eexists; reflexivity. }
  split. { intros c Hx. specialize (Hfit (Rargs, c) Hx). destruct c as [|[] ]; try discriminate Hfit. eexists; reflexivity. }
  assert (H : forall l, (forall r c, In (r, c) l -> In (r, c) cs) ->
    (fix all (cs : list (role * tree)) : Prop := match cs with [] => True | (_, c) :: cs' => parsed c /\ all cs' end) l).
  { induction l as [|[r c] l IHl]; intros Hin; [exact I|]. split; [|apply IHl; intros r0 c0 H0; apply Hin; right; exact H0].
    exact (IH r c (Hin r c (or_introl eq_refl)) (Hall (r, c) (Hin r c (or_introl eq_refl)))). }
  apply H. intros r c X; exact X.
Qed.
