(** Proofs for C92. *)
From Coq Require Import Permutation.
From Verif Require Import Base BaseFacts Unicode PositionModel PositionProofs TranslateModel CommandModel TravModel TravProofs HostModel HostSpec HostProofs
  E2EModel E2ESpec.

(** ** What a visitor finds *)
Section Found.
  Context {A : Type} (on_call on_method : list ltree -> ltree -> list A -> list A).
  Variable own : list ltree -> ltree -> A -> Prop.
  Variable closed : ltree -> Prop.
  Hypothesis Hcall : forall n cs o up walk a,
    In a (on_call up (o, Node (KCall n) cs) walk) <-> own up (o, Node (KCall n) cs) a \/ (~ closed (o, Node (KCall n) cs) /\ In a walk).
  Hypothesis Hmethod : forall cs o up walk a,
    In a (on_method up (o, Node KMethod cs) walk) <-> own up (o, Node KMethod cs) a \/ (~ closed (o, Node KMethod cs) /\ In a walk).
  Hypothesis Hother : forall k cs o, (forall n, k <> KCall n) -> k <> KMethod -> ~ closed (o, Node k cs) /\ forall up a, ~ own up (o, Node k cs) a.
  Hypothesis Hleaf : forall up o s a, ~ own up (o, Leaf s) a.

  Lemma walk_in k cs o up a : parsed (Node k cs) ->
    In a (walk_of on_call on_method k cs o up)
    <-> exists r c, walks k r = true /\ In (r, c) (spread_out o cs) /\ In a (visit on_call on_method (snd c) (fst c) ((o, Node k cs) :: up)).
  Proof.
    intros Hp. apply parsed_node in Hp. destruct Hp as [Hone _]. unfold walk_of.
    assert (HP : Permutation (flat_map (picked (kids_of on_call on_method ((o, Node k cs) :: up) (spread_out o cs))) (walked k))
      (flat_map (fun x => if walks k (fst x) then snd x else []) (kids_of on_call on_method ((o, Node k cs) :: up) (spread_out o cs)))).
    { apply walk_perm. intros r _ Hr. apply one_many in Hr. unfold kids_of.
      eapply Nat.le_trans; [|exact (Hone r Hr)]. rewrite <- (spread_out_count o cs r). apply Nat.eq_le_incl. apply filter_count. }
    split.
    - intros H. apply (Permutation_in _ HP) in H. apply in_flat_map in H. destruct H as [x [Hx Ha]].
      unfold kids_of in Hx. apply in_map_iff in Hx. destruct Hx as [[r c] [<- Hx]]. cbn [fst snd] in Ha.
      destruct (walks k r) eqn:E; [|destruct Ha]. exists r, c. auto.
    - intros [r [c [Hw [Hc Ha]]]]. apply (Permutation_in _ (Permutation_sym HP)). apply in_flat_map.
      exists (r, visit on_call on_method (snd c) (fst c) ((o, Node k cs) :: up)). split.
      + unfold kids_of. apply in_map_iff. exists (r, c). split; [reflexivity | exact Hc].
      + cbn [fst snd]. rewrite Hw. exact Ha.
  Qed.

  Lemma visit_in t : parsed t -> forall o up a,
    In a (visit on_call on_method t o up) <-> exists up' t', sees closed up (o, t) up' t' /\ own up' t' a.
  Proof.
    induction t as [s|k cs IH] using tree_deep; intros Hp o up a.
    - cbn. split; [intros []|]. intros [up' [t' [Hs Ho]]]. inversion Hs; subst. exact (Hleaf _ _ _ _ Ho).
    - assert (Hw : ~ closed (o, Node k cs) ->
        (In a (walk_of on_call on_method k cs o up)
         <-> exists r c up' t', expression_place k r = true /\ left_out k r = false /\ In (r, c) (spread_out o cs)
               /\ sees closed ((o, Node k cs) :: up) c up' t' /\ own up' t' a)).
      { intros Hc. rewrite (walk_in k cs o up a Hp). pose proof (parsed_node _ _ Hp) as [_ [_ [_ [_ [_ [_ Hps]]]]]]. split.
        - intros [r [[oc c] [Hr [Hin Ha]]]]. rewrite <- places in Hr. apply andb_true_iff in Hr. destruct Hr as [Hr1 Hr2].
          apply negb_true_iff in Hr2. pose proof (spread_out_in _ _ _ _ _ Hin) as Hi. cbn [fst snd] in Ha.
          apply (IH r c Hi (Hps r c Hi)) in Ha. destruct Ha as [up' [t' [Hs Ho]]]. exists r, (oc, c), up', t'. auto 10.
        - intros [r [[oc c] [up' [t' [H1 [H2 [Hin [Hs Ho]]]]]]]]. exists r, (oc, c). split.
          { rewrite <- places, H1, H2. reflexivity. }
          split; [exact Hin|]. pose proof (spread_out_in _ _ _ _ _ Hin) as Hi. apply (IH r c Hi (Hps r c Hi)). exists up', t'. auto. }
      assert (Hmain : own up (o, Node k cs) a \/ (~ closed (o, Node k cs) /\ In a (walk_of on_call on_method k cs o up))
        <-> exists up' t', sees closed up (o, Node k cs) up' t' /\ own up' t' a).
      { split.
        - intros [H|[Hc H]]; [exists up, (o, Node k cs); split; [constructor | exact H]|].
          apply (Hw Hc) in H. destruct H as [r [c [up' [t' [H1 [H2 [Hin [Hs Ho]]]]]]]]. exists up', t'. split; [|exact Ho].
          eapply sees_inside; eassumption.
        - intros [up' [t' [Hs Ho]]]. inversion Hs; subst; [left; exact Ho|]. right. split; [assumption|].
          apply (Hw ltac:(assumption)). exists r, c, up', t'. auto 10. }
      rewrite <- Hmain, visit_node.
      assert (Hoth : (forall n, k <> KCall n) -> k <> KMethod ->
        (In a (walk_of on_call on_method k cs o up) <-> own up (o, Node k cs) a \/ (~ closed (o, Node k cs) /\ In a (walk_of on_call on_method k cs o up)))).
      { intros H1 H2. destruct (Hother k cs o H1 H2) as [Hc Ho]. split; [intros H; right; auto|]. intros [H|[_ H]]; [destruct (Ho _ _ H) | exact H]. }
      destruct k; try (apply Hoth; [intros ? ?; discriminate | discriminate]); [apply Hcall | apply Hmethod].
  Qed.
End Found.

(** ** Parts of calls *)
Section E2E.
  Variable zero : str -> bool.
  Variable rs : resolver.

  Lemma kind_node k o cs : is_kind k (o, Node k cs).
  Proof. exists cs. reflexivity. Qed.
  Lemma kept_spec q g : kept_generics q g <-> match obind (generic_args q) last_arg with Some x => g = lit "::<" ++ ltext x ++ lit ">" | None => g = [] end.
  Proof.
    unfold last_arg. destruct (generic_args q) as [x|] eqn:E; cbn [obind].
    - destruct (children Rarg x) as [|a l _] eqn:El using rev_ind.
      + cbn [rev]. split; [intros H; inversion H as [|? l a H1 H2]; [reflexivity|]; rewrite E in H1; injection H1 as <-; rewrite El in H2; destruct l; discriminate|].
        intros ->. apply generics_none. intros x' Ex. rewrite E in Ex. injection Ex as <-. exact El.
      + rewrite rev_app_distr. cbn [rev app]. split.
        * intros H. inversion H as [H1|? l' a' H1 H2]; [exfalso; specialize (H1 x E); rewrite El in H1; destruct l; discriminate|].
          rewrite E in H1. injection H1 as <-. rewrite El in H2. apply app_inj_tail in H2. destruct H2 as [_ ->]. reflexivity.
        * intros ->. eapply generics_last; eassumption.
    - split; [intros H; inversion H as [|? l a H1 H2]; [reflexivity | congruence]|]. intros ->. apply generics_none. intros x Ex. congruence.
  Qed.
  Lemma builder_spec n cs o p g :
    (exists b, builder_of rs (o, Node (KCall n) cs) = Some b /\ p = builder_path b /\ g = builder_generics b) <-> builds rs (o, Node (KCall n) cs) p g.
  Proof.
    unfold builder_of, call_path, is_call_path. cbn [number_of snd]. split.
    - intros [b [Hb [-> ->]]].
      destruct (child Rexpr (o, Node (KCall n) cs)) as [[oe [s|k es]]|] eqn:He; try discriminate.
      destruct k; try discriminate.
      destruct (child Rpath (oe, Node KPathExpr es)) as [p|] eqn:Hp; [|discriminate].
      destruct (rs_item rs (lit "build_message") (simple_path rs p) [lit "ink_e2e"] n) eqn:Hr.
      + injection Hb as <-. cbn [builder_path builder_generics].
        eapply builds_message; eauto using kind_node. destruct (generic_args p); reflexivity.
      + destruct (from_account_id rs p n) eqn:Hf; [|discriminate]. injection Hb as <-. cbn [builder_path builder_generics].
        unfold from_account_id in Hf. destruct (child Rqual p) as [q|] eqn:Hq; [|discriminate]. destruct (child Rseg p) as [s|] eqn:Hs; [|discriminate].
        apply andb_true_iff in Hf. destruct Hf as [H1 H2]. apply str_eqb_eq in H1.
        eapply builds_account; eauto using kind_node. apply kept_spec. cbn [obind].
        destruct (obind (generic_args q) last_arg); reflexivity.
    - intros H. inversion H as [? oe es ? at_ ? Hk He Hp Hr Hg | ? oe es ? at_ q s ? Hk He Hp Hr Hq Hs Ht Hi Hg]; subst.
      + destruct Hk as [cs' Hk]. injection Hk as <- <-. rewrite He, Hp, Hr. exists (BuildMessageFn p). split; [reflexivity|]. split; [reflexivity|].
        cbn. destruct (generic_args p); exact Hg.
      + destruct Hk as [cs' Hk]. injection Hk as <- <-. rewrite He, Hp, Hr. unfold from_account_id. rewrite Hq, Hs, Ht, str_eqb_refl, Hi.
        exists (FromAccountId p). split; [reflexivity|]. split; [reflexivity|]. cbn [builder_generics]. rewrite Hq. cbn [obind].
        apply kept_spec in Hg. destruct (obind (generic_args q) last_arg); exact Hg.
  Qed.
  Lemma builds_call t p g : builds rs t p g -> exists o n cs, t = (o, Node (KCall n) cs).
  Proof. destruct t as [o t]. intros H. inversion H; subst; match goal with H : is_kind _ _ |- _ => destruct H as [cs E]; cbn in E; subst end; eauto. Qed.

  Lemma last_method_node k cs o :
    let get r := match filter (fun x => role_eqb (fst x) r) (spread_out o cs) with x :: _ => Some (snd (snd x), last_method (snd (snd x)) (fst (snd x))) | [] => None end in
    last_method (Node k cs) o =
      match k with
      | KMethod => Some (o, Node k cs)
      | KBlock => match get Rstmts with Some x => snd x | None => None end
      | KStmtList =>
          match get Rtail with
          | Some x => snd x
          | None => match get Rstmt with Some (Node KExprStmt _, x) => x | _ => None end
          end
      | KExprStmt => match get Rexpr with Some (Node (KWrap WReturn) _, x) => x | _ => None end
      | KWrap WReturn => match get Rexpr with Some x => snd x | None => None end
      | _ => None
      end.
  Proof.
    cbn [last_method].
    match goal with |- context [filter _ (?F0 o cs)] => set (F := F0) end.
    assert (E : forall r cs0 o0, match filter (fun x => role_eqb (fst x) r) (F o0 cs0) with x :: _ => Some (snd x) | [] => None end
      = match filter (fun x => role_eqb (fst x) r) (spread_out o0 cs0) with x :: _ => Some (snd (snd x), last_method (snd (snd x)) (fst (snd x))) | [] => None end).
    { intros r. induction cs0 as [|[r0 c] cs0 IH]; intros o0; [reflexivity|]. cbn. destruct (role_eqb r0 r); [reflexivity|]. apply IH. }
    cbv zeta. rewrite !E. reflexivity.
  Qed.
  Lemma get_child r k cs o :
    match filter (fun x => role_eqb (fst x) r) (spread_out o cs) with x :: _ => Some (snd (snd x), last_method (snd (snd x)) (fst (snd x))) | [] => None end
    = option_map (fun c => (snd c, last_method (snd c) (fst c))) (child r (o, Node k cs)).
  Proof. unfold child. cbn [fst snd]. destruct (filter _ (spread_out o cs)) as [|x l]; reflexivity. Qed.
  Lemma last_method_spec t : forall o c, last_method t o = Some c <-> ends_with_call (o, t) c.
  Proof.
    induction t as [s|k cs IH] using tree_deep; intros o c.
    - cbn. split; [discriminate|]. intros H. inversion H; subst;
        repeat match goal with H : is_kind _ _ |- _ => destruct H as [? E]; cbn in E; discriminate E end.
    - rewrite last_method_node. rewrite !(get_child _ k).
      assert (Hc : forall r x, child r (o, Node k cs) = Some x -> forall c, last_method (snd x) (fst x) = Some c <-> ends_with_call x c).
      { intros r [ox x] Hx c'. apply child_role in Hx. destruct Hx as [k' [cs' [E Hx]]]. cbn in E. injection E as <- <-.
        apply spread_out_in in Hx. apply (IH r x Hx). }
      destruct k; try (split; [discriminate|]; intros H; inversion H; subst;
        repeat match goal with H : is_kind _ _ |- _ => destruct H as [? E]; cbn in E; discriminate E end).
      + (* block *)
        destruct (child Rstmts _) as [l|] eqn:El; cbn [option_map snd].
        * rewrite (Hc _ _ El). split; intros H; [eapply ec_block; eauto using kind_node|].
          inversion H; subst; try (match goal with H : is_kind _ _ |- _ => destruct H as [? E]; cbn in E; discriminate E end).
          congruence.
        * split; [discriminate|]. intros H.
          inversion H; subst; try (match goal with H : is_kind _ _ |- _ => destruct H as [? E]; cbn in E; discriminate E end).
          congruence.
      + (* method *)
        split; intros H; [injection H as <-; constructor; apply kind_node|].
        inversion H; subst; try (match goal with H : is_kind _ _ |- _ => destruct H as [? E]; cbn in E; discriminate E end). reflexivity.
      + (* wrappers *)
        destruct w; try (split; [discriminate|]; intros H; inversion H; subst;
          repeat match goal with H : is_kind _ _ |- _ => destruct H as [? E]; cbn in E; discriminate E end).
        destruct (child Rexpr _) as [e|] eqn:Ee; cbn [option_map snd].
        * rewrite (Hc _ _ Ee). split; intros H; [eapply ec_return; eauto using kind_node|].
          inversion H; subst; try (match goal with H : is_kind _ _ |- _ => destruct H as [? E]; cbn in E; discriminate E end). congruence.
        * split; [discriminate|]. intros H.
          inversion H; subst; try (match goal with H : is_kind _ _ |- _ => destruct H as [? E]; cbn in E; discriminate E end). congruence.
      + (* statement list *)
        destruct (child Rtail _) as [e|] eqn:Ee; cbn [option_map snd].
        * rewrite (Hc _ _ Ee). split; intros H; [eapply ec_tail; eauto using kind_node|].
          inversion H; subst; try (match goal with H : is_kind _ _ |- _ => destruct H as [? E]; cbn in E; discriminate E end); congruence.
        * destruct (child Rstmt _) as [[os s]|] eqn:Es; cbn [option_map snd].
          -- assert (Hiff : ends_with_call (o, Node KStmtList cs) c <-> is_kind KExprStmt (os, s) /\ ends_with_call (os, s) c).
             { split; intros H.
               - inversion H; subst; try (match goal with H : is_kind _ (_, Node KStmtList _) |- _ => destruct H as [? E]; cbn in E; discriminate E end); [congruence|].
                 assert (s0 = (os, s)) by congruence. subst. auto.
               - destruct H. eapply ec_first; eauto using kind_node. }
             rewrite Hiff. specialize (Hc _ _ Es c). cbn [fst snd] in Hc.
             assert (Hk : is_kind KExprStmt (os, s) -> exists ss, s = Node KExprStmt ss) by (intros [ss E]; exists ss; exact E).
             destruct s as [s|k ss]; cbn [fst snd].
             { split; [discriminate|]. intros [H _]. destruct (Hk H). discriminate. }
             destruct k; try (split; [discriminate|]; intros [H _]; destruct (Hk H); discriminate).
             split; [intros H; split; [apply kind_node | apply Hc, H] | intros [_ H]; apply Hc, H].
          -- split; [discriminate|]. intros H.
             inversion H; subst; try (match goal with H : is_kind _ _ |- _ => destruct H as [? E]; cbn in E; discriminate E end); congruence.
      + (* statement *)
        destruct (child Rexpr _) as [[os s]|] eqn:Es; cbn [option_map snd].
        * assert (Hiff : ends_with_call (o, Node KExprStmt cs) c <-> is_kind (KWrap WReturn) (os, s) /\ ends_with_call (os, s) c).
          { split; intros H.
            - inversion H; subst; try (match goal with H : is_kind _ (_, Node KExprStmt _) |- _ => destruct H as [? E]; cbn in E; discriminate E end).
              assert (e = (os, s)) by congruence. subst. auto.
            - destruct H. eapply ec_statement; eauto using kind_node. }
          rewrite Hiff. specialize (Hc _ _ Es c). cbn [fst snd] in Hc.
          assert (Hk : is_kind (KWrap WReturn) (os, s) -> exists ss, s = Node (KWrap WReturn) ss) by (intros [ss E]; exists ss; exact E).
          destruct s as [s|k ss]; cbn [fst snd].
          { split; [discriminate|]. intros [H _]. destruct (Hk H). discriminate. }
          destruct k; try (split; [discriminate|]; intros [H _]; destruct (Hk H); discriminate).
          destruct w; try (split; [discriminate|]; intros [H _]; destruct (Hk H); discriminate).
          split; [intros H; split; [apply kind_node | apply Hc, H] | intros [_ H]; apply Hc, H].
        * split; [discriminate|]. intros H.
          inversion H; subst; try (match goal with H : is_kind _ _ |- _ => destruct H as [? E]; cbn in E; discriminate E end); congruence.
  Qed.

  Lemma kind_of k t : is_kind k t -> exists o cs, t = (o, Node k cs).
  Proof. destruct t as [o t]. intros [cs E]. cbn in E. subst. eauto. Qed.
  Lemma not_kind k k' o cs : is_kind k (o, Node k' cs) -> k' = k.
  Proof. intros [cs' E]. cbn in E. congruence. Qed.

  (** *** Setters *)
  Lemma value_spec v s : sets_value zero v s <-> s = value_call zero v.
  Proof.
    unfold sets_value, literal_zero, value_call. destruct v as [o [x|k cs]].
    - cbn [snd]. split; [|intros ->; right; split; [intros [[cs E] _]; discriminate E | reflexivity]].
      intros [[[[cs E] _] _]|[_ H]]; [discriminate E | exact H].
    - cbn [snd].
      assert (Hk : k = KInt \/ k <> KInt) by (destruct k; ((left; reflexivity) || (right; discriminate))).
      destruct Hk as [->|Hk].
      + destruct (zero _) eqn:Ez.
        * split; [intros [[_ H]|[H _]]; [exact H | exfalso; apply H; split; [apply kind_node | (exact Ez || reflexivity)]]|].
          intros ->. left. split; [split; [apply kind_node | (exact Ez || reflexivity)] | reflexivity].
        * split; [intros [[[_ H] _]|[_ H]]; [congruence | exact H]|].
          intros ->. right. split; [intros [_ H]; congruence | reflexivity].
      + replace (match k with KInt => if zero _ then [] else lit ".value(" ++ _ ++ _ | _ => lit ".value(" ++ _ ++ _ end)
          with (lit ".value(" ++ ltext (o, Node k cs) ++ lit ")") by (destruct k; (reflexivity || congruence)).
        split; [intros [[[H _] _]|[_ H]]; [apply not_kind in H; congruence | exact H]|].
        intros ->. right. split; [intros [H _]; apply not_kind in H; congruence | reflexivity].
  Qed.
  Lemma or_eqb s a b : str_eqb s a || str_eqb s b = true <-> s = a \/ s = b.
  Proof. rewrite orb_true_iff, !str_eqb_eq. tauto. Qed.
  Lemma limit_value_some d x : some_limit d x -> limit_value d = ltext x.
  Proof.
    intros [[n Hk] [f [a [l [Hf [Hp [Ht [Ha Hl]]]]]]]]. apply kind_of in Hk. destruct Hk as [o [cs ->]].
    apply kind_of in Hp. destruct Hp as [of_ [fs ->]]. unfold limit_value. cbn [snd]. rewrite Hf. apply or_eqb in Ht. rewrite Ht.
    unfold arg_exprs. rewrite Ha, Hl. reflexivity.
  Qed.
  Lemma limit_value_other d : (forall x, ~ some_limit d x) -> limit_value d = ltext d.
  Proof.
    intros H. unfold limit_value. destruct d as [o [x|k cs]]; [reflexivity|]. cbn [snd]. destruct k; try reflexivity.
    destruct (child Rexpr _) as [[of_ [y|k fs]]|] eqn:Hf; try reflexivity. destruct k; try reflexivity.
    destruct (_ || _) eqn:Ho; [|reflexivity]. unfold arg_exprs. destruct (child Rargs _) as [a|] eqn:Ha; [|reflexivity].
    destruct (children Rarg a) as [|x l] eqn:Hl; [reflexivity|]. exfalso. apply (H x). split; [exists at_; apply kind_node|].
    exists (of_, Node KPathExpr fs), a, l. split; [exact Hf|]. split; [apply kind_node|]. split; [apply or_eqb; exact Ho|]. split; assumption.
  Qed.
  Lemma some_limit_dec d : (exists x, some_limit d x) \/ (forall x, ~ some_limit d x).
  Proof.
    destruct d as [o [x|k cs]]; [right; intros y [[n [cs E]] _]; discriminate E|].
    destruct (child Rexpr (o, Node k cs)) as [[of_ [y|kf fs]]|] eqn:Hf.
    - right. intros x [_ [f [a [l [Hf' [[fs E] _]]]]]]. assert (f = (of_, Leaf y)) by congruence. subst. discriminate E.
    - destruct (child Rargs (o, Node k cs)) as [a|] eqn:Ha.
      + destruct (children Rarg a) as [|x l] eqn:Hl.
        * right. intros x [_ [f [a' [l [_ [_ [_ [Ha' Hl']]]]]]]]. assert (a' = a) by congruence. subst. congruence.
        * destruct (str_eqb (ltext (of_, Node kf fs)) (lit "Some") || str_eqb (ltext (of_, Node kf fs)) (lit "Option::Some")) eqn:Ht.
          -- assert (Hk : (exists n, k = KCall n) \/ forall n, k <> KCall n) by (destruct k; eauto; right; discriminate).
             assert (Hkf : kf = KPathExpr \/ kf <> KPathExpr) by (destruct kf; ((left; reflexivity) || (right; discriminate))).
             destruct Hk as [[n ->]|Hk]; [|right; intros y [[n H] _]; apply not_kind in H; exact (Hk n H)].
             destruct Hkf as [->|Hkf].
             ++ left. exists x. split; [exists n; apply kind_node|]. exists (of_, Node KPathExpr fs), a, l. apply or_eqb in Ht. unfold has_args. auto using kind_node.
             ++ right. intros y [_ [f [a' [l' [Hf' [Hp _]]]]]]. assert (f = (of_, Node kf fs)) by congruence. subst. apply not_kind in Hp. congruence.
          -- right. intros y [_ [f [a' [l' [Hf' [_ [Ht' _]]]]]]]. assert (f = (of_, Node kf fs)) by congruence. subst. apply or_eqb in Ht'. congruence.
      + right. intros x [_ [f [a' [l [_ [_ [_ [Ha' _]]]]]]]]. congruence.
    - right. intros x [_ [f [a [l [Hf' _]]]]]. congruence.
  Qed.
  Lemma limit_spec d s : sets_limit d s <-> s = limit_call d.
  Proof.
    assert (Hn : (no_limit d /\ limit_call d = []) \/ (~ no_limit d /\ limit_call d = lit ".storage_deposit_limit(" ++ limit_value d ++ lit ")")).
    { unfold limit_call, no_limit. destruct d as [o [x|k cs]].
      - right. split; [intros [[cs E] _]; discriminate E | reflexivity].
      - assert (Hk : k = KPathExpr \/ k <> KPathExpr) by (destruct k; ((left; reflexivity) || (right; discriminate))). destruct Hk as [->|Hk].
        + cbn [snd]. destruct (_ || _) eqn:Ho.
          * left. apply or_eqb in Ho. split; [split; [apply kind_node | exact Ho] | reflexivity].
          * right. split; [|reflexivity]. intros [_ H]. apply or_eqb in H. congruence.
        + right. split; [intros [H _]; apply not_kind in H; congruence|]. cbn [snd]. destruct k; (reflexivity || congruence). }
    unfold sets_limit. destruct Hn as [[Hn ->]|[Hn ->]].
    - split; [intros [[_ H]|[[H _]|[H _]]]; [exact H | contradiction | contradiction]|]. intros ->. left. auto.
    - split.
      + intros [[H _]|[[_ [x [Hx ->]]]|[_ [Hx ->]]]]; [contradiction | rewrite (limit_value_some _ _ Hx); reflexivity | rewrite (limit_value_other _ Hx); reflexivity].
      + intros ->. right. destruct (some_limit_dec d) as [[x Hx]|Hx].
        * left. split; [exact Hn|]. exists x. split; [exact Hx|]. rewrite (limit_value_some _ _ Hx). reflexivity.
        * right. split; [exact Hn|]. split; [exact Hx|]. rewrite (limit_value_other _ Hx). reflexivity.
  Qed.

  (** *** Nodes *)
  Definition owns (up : list ltree) (t : ltree) (f : found) : Prop :=
    match f with Edit e => change zero rs up t e | Needs tr => needs t tr end.
  Lemma callback_spec up f p g n cs o : builds rs (o, Node (KCall n) cs) p g ->
    In f (callback_edit up) <->
    exists m up' nm a c b k cn, up = m :: up' /\ is_kind KMethod m /\ has_name m nm (lit "call") /\ has_args m a [c] /\ is_kind KClosure c
      /\ child Rbody c = Some b /\ ends_with_call b k /\ child Rname k = Some cn
      /\ f = Edit (TextEdit (ltext cn ++ match child Rargs k with Some x => ltext x | None => lit "()" end) (fst nm, fst m + width (snd m)) None).
  Proof.
    intros _. unfold callback_edit, parent_method. split.
    - destruct up as [|[om [s|km ms]] up]; try (intros []). destruct km; try (intros []).
      destruct (child Rname _) as [nm|] eqn:Hn; [|intros []]. destruct (child Rargs _) as [a|] eqn:Ha; [|intros []].
      destruct (str_eqb (ltext nm) (lit "call")) eqn:Hc; [|intros []]. apply str_eqb_eq in Hc.
      unfold arg_exprs. rewrite Ha. destruct (children Rarg a) as [|[oc [s|kc ccs]] [|]] eqn:Hl; try (intros []).
      all: destruct kc; try (intros []).
      destruct (child Rbody _) as [b|] eqn:Hb; cbn [obind]; [|intros []]. destruct (last_method (snd b) (fst b)) as [k|] eqn:Hk; [|intros []].
      destruct (child Rname k) as [cn|] eqn:Hcn; [|intros []]. intros [<-|[]].
      exists (om, Node KMethod ms), up, nm, a, (oc, Node KClosure ccs), b, k, cn. apply last_method_spec in Hk. destruct b.
      unfold has_name, has_args. auto 12 using kind_node.
    - intros [m [up' [nm [a [c [b [k [cn [-> [Hm [[Hn Ht] [[Ha Hl] [Hc [Hb [Hk [Hcn ->]]]]]]]]]]]]]]]].
      apply kind_of in Hm. destruct Hm as [om [ms ->]]. apply kind_of in Hc. destruct Hc as [oc [ccs ->]].
      rewrite Hn, Ha, Ht, str_eqb_refl. unfold arg_exprs. rewrite Ha, Hl, Hb. cbn [obind].
      destruct b as [ob b]. apply last_method_spec in Hk. cbn [fst snd]. rewrite Hk, Hcn. left. reflexivity.
  Qed.
  Lemma no_method_call o n cs : ~ is_kind KMethod (o, Node (KCall n) cs).
  Proof. intros H. apply not_kind in H. discriminate. Qed.
  Lemma call_in n cs o up walk f :
    In f (e2e_call rs up (o, Node (KCall n) cs) walk) <-> owns up (o, Node (KCall n) cs) f \/ (~ shut rs (o, Node (KCall n) cs) /\ In f walk).
  Proof.
    unfold e2e_call. destruct (builder_of rs (o, Node (KCall n) cs)) as [b|] eqn:Hb.
    - assert (Hbs : builds rs (o, Node (KCall n) cs) (builder_path b) (builder_generics b)) by (apply builder_spec; eauto).
      assert (Hu : forall p g, builds rs (o, Node (KCall n) cs) p g -> p = builder_path b /\ g = builder_generics b).
      { intros p g H. apply builder_spec in H. destruct H as [b' [Hb' [-> ->]]]. assert (b' = b) by congruence. subst. auto. }
      split.
      + intros [<-|H].
        * left. eapply ch_builder; [exact Hbs | reflexivity].
        * apply (callback_spec up f _ _ _ _ _ Hbs) in H. left.
          destruct H as [m [up' [nm [a [c [bd [k [cn [-> [Hm [Hn [Ha [Hc [Hbd [Hk [Hcn ->]]]]]]]]]]]]]]]]. cbn [owns].
          eapply ch_callback; eassumption.
      + intros [H|[H _]].
        * destruct f as [e|tr]; cbn [owns] in H.
          -- inversion H; subst; try (match goal with H : is_kind KMethod (_, Node (KCall _) _) |- _ => destruct (no_method_call _ _ _ H) end).
             ++ match goal with H : builds _ _ _ _ |- _ => destruct (Hu _ _ H) as [-> ->] end. left.
                match goal with H : replaces _ _ _ |- _ => rewrite H end. reflexivity.
             ++ right. eapply callback_spec; [exact Hbs|]. do 8 eexists. repeat (split; [first [reflexivity | eassumption]|]). reflexivity.
          -- destruct H as [H _]. destruct (no_method_call _ _ _ H).
        * exfalso. apply H. left. eauto.
    - assert (Hno : forall p g, ~ builds rs (o, Node (KCall n) cs) p g).
      { intros p g H. apply builder_spec in H. destruct H as [b' [Hb' _]]. congruence. }
      split.
      + intros H. right. split; [|exact H]. intros [[p [g Hs]]|[[Hs _] _]]; [exact (Hno _ _ Hs) | destruct (no_method_call _ _ _ Hs)].
      + intros [H|[_ H]]; [|exact H]. exfalso. destruct f as [e|tr]; cbn [owns] in H.
        * inversion H; subst; try (match goal with H : is_kind KMethod (_, Node (KCall _) _) |- _ => destruct (no_method_call _ _ _ H) end);
            match goal with H : builds _ _ _ _ |- _ => exact (Hno _ _ H) end.
        * destruct H as [H _]. destruct (no_method_call _ _ _ H).
  Qed.

  Lemma client_spec cs o : on_client (o, Node KMethod cs) = true <-> client_call (o, Node KMethod cs).
  Proof.
    unfold on_client, client_call. split.
    - destruct (child Rrecv _) as [[or [s|k rcs]]|]; try discriminate. destruct k; try discriminate. intros H. apply str_eqb_eq in H.
      split; [apply kind_node|]. eauto.
    - intros [_ [or [rcs [-> H]]]]. unfold ltext. cbn [snd]. rewrite H. apply str_eqb_refl.
  Qed.
  Lemma no_builds_method o cs p g : ~ builds rs (o, Node KMethod cs) p g.
  Proof. intros H. apply builds_call in H. destruct H as [o' [n [cs' E]]]. discriminate E. Qed.
  Lemma unwrap_spec up f : In f (unwrap_dry_run up) <->
    exists w up', up = w :: up' /\ is_kind (KWrap WAwait) w /\ f = Edit (TextEdit (lit "?") (fst w + width (snd w), fst w + width (snd w)) None).
  Proof.
    unfold unwrap_dry_run. split.
    - destruct up as [|[ow [s|k ws]] up]; try solve [intros []]. destruct k; try solve [intros []]. destruct w; try solve [intros []]. intros [<-|[]].
      exists (ow, Node (KWrap WAwait) ws), up. split; [reflexivity|]. split; [apply kind_node | reflexivity].
    - intros [w [up' [-> [Hw ->]]]]. apply kind_of in Hw. destruct Hw as [ow [ws ->]]. left. reflexivity.
  Qed.
  Ltac lits := cbv zeta; repeat (match goal with |- context [str_eqb (lit ?a) (lit ?b)] =>
    let v := eval vm_compute in (str_eqb (lit a) (lit b)) in change (str_eqb (lit a) (lit b)) with v end); cbn [orb].
  Lemma method_found_spec up cs o n a f : child Rname (o, Node KMethod cs) = Some n -> child Rargs (o, Node KMethod cs) = Some a ->
    In f (method_found zero up n a) <-> owns up (o, Node KMethod cs) f.
  Proof.
    intros Hn Ha. set (t := (o, Node KMethod cs)) in *.
    assert (Hk : is_kind KMethod t) by apply kind_node.
    split.
    - unfold method_found. cbv zeta.
      assert (Hname : forall s, str_eqb (ltext n) s = true -> has_name t n s) by (intros s H; apply str_eqb_eq in H; split; assumption).
      assert (Hneed : forall tr name l, children Rarg a = l -> has_name t n name ->
        match tr with
        | Contracts => (name = lit "instantiate" \/ name = lit "instantiate_dry_run") /\ length l = 5
                       \/ (name = lit "call" \/ name = lit "call_dry_run") /\ length l = 4 \/ name = lit "upload" /\ length l = 3
        | Chain => name = lit "create_and_fund_account" /\ length l = 2 \/ name = lit "balance" /\ length l = 1 \/ name = lit "runtime_call" /\ length l = 4
        end -> owns up t (Needs tr)).
      { intros tr name l Hl Hname' H. split; [exact Hk|]. exists n, name, a, l. split; [exact Hname'|]. split; [split; assumption | exact H]. }
      destruct (str_eqb (ltext n) (lit "instantiate") || str_eqb (ltext n) (lit "instantiate_dry_run")) eqn:E1.
      { destruct (children Rarg a) as [|c [|s [|k [|v [|d [|]]]]]] eqn:Hl; try solve [intros []].
        assert (Hd : has_name t n (if str_eqb (ltext n) (lit "instantiate_dry_run") then lit "instantiate_dry_run" else lit "instantiate")).
        { destruct (str_eqb (ltext n) (lit "instantiate_dry_run")) eqn:E2; [apply Hname, E2|]. rewrite orb_false_r in E1. apply Hname, E1. }
        intros [<-|H].
        - cbn [owns]. eapply ch_instantiate with (dry := str_eqb (ltext n) (lit "instantiate_dry_run"));
            [exact Hk | exact Hd | split; [exact Ha | exact Hl] | apply value_spec; reflexivity | apply limit_spec; reflexivity | reflexivity].
        - apply in_app_or in H. destruct H as [H|[<-|[]]].
          + destruct (str_eqb (ltext n) (lit "instantiate_dry_run")) eqn:E2; [|destruct H].
            apply unwrap_spec in H. destruct H as [w [up' [-> [Hw ->]]]]. cbn [owns].
            eapply ch_unwrap with (l := [c; s; k; v; d]); [exact Hk | left; split; [exact Hd | reflexivity] | split; [exact Ha | exact Hl] | exact Hw].
          + apply (Hneed Contracts _ _ eq_refl Hd). left. split; [|reflexivity]. match goal with |- context [if ?b then _ else _] => destruct b end; auto. }
      destruct (str_eqb (ltext n) (lit "call") || str_eqb (ltext n) (lit "call_dry_run")) eqn:E3.
      { destruct (children Rarg a) as [|s [|m [|v [|d [|]]]]] eqn:Hl; try solve [intros []].
        assert (Hd : has_name t n (if str_eqb (ltext n) (lit "call_dry_run") then lit "call_dry_run" else lit "call")).
        { destruct (str_eqb (ltext n) (lit "call_dry_run")) eqn:E2; [apply Hname, E2|]. rewrite orb_false_r in E3. apply Hname, E3. }
        intros [<-|H].
        - cbn [owns]. eapply ch_call with (dry := str_eqb (ltext n) (lit "call_dry_run"));
            [exact Hk | exact Hd | split; [exact Ha | exact Hl] | apply value_spec; reflexivity | apply limit_spec; reflexivity | reflexivity].
        - apply in_app_or in H. destruct H as [H|[<-|[]]].
          + destruct (str_eqb (ltext n) (lit "call_dry_run")) eqn:E2; [|destruct H].
            apply unwrap_spec in H. destruct H as [w [up' [-> [Hw ->]]]]. cbn [owns].
            eapply ch_unwrap with (l := [s; m; v; d]); [exact Hk | right; split; [exact Hd | reflexivity] | split; [exact Ha | exact Hl] | exact Hw].
          + apply (Hneed Contracts _ _ eq_refl Hd). right; left. split; [|reflexivity]. match goal with |- context [if ?b then _ else _] => destruct b end; auto. }
      destruct (str_eqb (ltext n) (lit "upload")) eqn:E4.
      { destruct (children Rarg a) as [|c [|s [|d [|]]]] eqn:Hl; try solve [intros []]. intros [<-|[<-|[]]].
        - cbn [owns]. eapply ch_upload; [exact Hk | exact (Hname _ E4) | split; [exact Ha | exact Hl] | apply limit_spec; reflexivity | reflexivity].
        - apply (Hneed Contracts _ _ eq_refl (Hname _ E4)). auto. }
      destruct (str_eqb (ltext n) (lit "create_and_fund_account")) eqn:E5.
      { destruct (length (children Rarg a) =? 2) eqn:Hl; [|intros []]. apply Nat.eqb_eq in Hl. intros [<-|[]].
        apply (Hneed Chain _ _ eq_refl (Hname _ E5)). auto. }
      destruct (str_eqb (ltext n) (lit "balance")) eqn:E6.
      { destruct (length (children Rarg a) =? 1) eqn:Hl; [|intros []]. apply Nat.eqb_eq in Hl. intros [<-|[<-|[]]].
        - destruct (children Rarg a) as [|x [|]] eqn:Hc; try discriminate Hl. cbn [owns].
          eapply ch_balance; [exact Hk | exact (Hname _ E6) | split; [exact Ha | exact Hc] | reflexivity].
        - apply (Hneed Chain _ _ eq_refl (Hname _ E6)). auto. }
      destruct (str_eqb (ltext n) (lit "runtime_call")) eqn:E7; [|intros []].
      destruct (length (children Rarg a) =? 4) eqn:Hl; [|intros []]. apply Nat.eqb_eq in Hl. intros [<-|[]].
      apply (Hneed Chain _ _ eq_refl (Hname _ E7)). auto.
    - assert (Hsame : forall n' s, has_name t n' s -> n' = n /\ ltext n = s).
      { intros n' s [H1 H2]. assert (n' = n) by congruence. subst. auto. }
      assert (Hargs : forall a' l, has_args t a' l -> a' = a /\ children Rarg a = l).
      { intros a' l [H1 H2]. assert (a' = a) by congruence. subst. auto. }
      destruct f as [e|tr]; cbn [owns]; intros H.
      + inversion H; subst; try (match goal with H : builds _ _ _ _ |- _ => destruct (no_builds_method _ _ _ _ H) end).
        * match goal with H1 : has_name _ _ _, H2 : has_args _ _ _ |- _ => apply Hsame in H1; destruct H1 as [-> H1]; apply Hargs in H2; destruct H2 as [-> H2];
            unfold method_found; rewrite H1, H2 end.
          match goal with H : sets_value _ _ _ |- _ => apply value_spec in H; subst end.
          match goal with H : sets_limit _ _ |- _ => apply limit_spec in H; subst end.
          match goal with H : replaces _ _ _ |- _ => rewrite H end.
          destruct dry; lits; left; reflexivity.
        * match goal with H1 : has_name _ _ _, H2 : has_args _ _ _ |- _ => apply Hsame in H1; destruct H1 as [-> H1]; apply Hargs in H2; destruct H2 as [-> H2];
            unfold method_found; rewrite H1, H2 end.
          match goal with H : sets_value _ _ _ |- _ => apply value_spec in H; subst end.
          match goal with H : sets_limit _ _ |- _ => apply limit_spec in H; subst end.
          match goal with H : replaces _ _ _ |- _ => rewrite H end.
          destruct dry; lits; left; reflexivity.
        * match goal with H1 : has_name _ _ _, H2 : has_args _ _ _ |- _ => apply Hsame in H1; destruct H1 as [-> H1]; apply Hargs in H2; destruct H2 as [-> H2];
            unfold method_found; rewrite H1, H2 end.
          match goal with H : sets_limit _ _ |- _ => apply limit_spec in H; subst end.
          match goal with H : replaces _ _ _ |- _ => rewrite H end.
          lits; left; reflexivity.
        * match goal with H1 : has_name _ _ _, H2 : has_args _ _ _ |- _ => apply Hsame in H1; destruct H1 as [-> H1]; apply Hargs in H2; destruct H2 as [-> H2];
            unfold method_found; rewrite H1, H2 end.
          match goal with H : replaces _ _ _ |- _ => rewrite H end.
          lits; left; reflexivity.
        * match goal with H2 : has_args _ _ _ |- _ => apply Hargs in H2; destruct H2 as [-> H2] end.
          match goal with H : _ \/ _ |- _ => destruct H as [[H1 H4]|[H1 H4]] end; apply Hsame in H1; destruct H1 as [-> H1];
            unfold method_found; rewrite H1; lits.
          -- match goal with |- In _ (match ?x with _ => _ end) => destruct x as [|? [|? [|? [|? [|? [|]]]]]] eqn:Hl end; subst; try discriminate H4.
             right. apply in_or_app. left. apply unwrap_spec. do 2 eexists. split; [reflexivity|]. split; [assumption | reflexivity].
          -- match goal with |- In _ (match ?x with _ => _ end) => destruct x as [|? [|? [|? [|? [|]]]]] eqn:Hl end; subst; try discriminate H4.
             right. apply in_or_app. left. apply unwrap_spec. do 2 eexists. split; [reflexivity|]. split; [assumption | reflexivity].
      + destruct H as [_ [n' [name [a' [l [H1 [H2 H]]]]]]]. apply Hsame in H1. destruct H1 as [-> H1]. apply Hargs in H2. destruct H2 as [-> H2].
        unfold method_found. rewrite H1, H2. clear H1 H2. destruct tr.
        * destruct H as [[[->| ->] H]|[[[->| ->] H]|[-> H]]]; lits;
            repeat (destruct l as [|? l]; try discriminate H); try (right; apply in_or_app; right; left; reflexivity).
          right; left; reflexivity.
        * destruct H as [[-> H]|[[-> H]|[-> H]]]; lits; rewrite H; cbn; auto.
  Qed.
  Lemma method_in cs o up walk f :
    In f (e2e_method zero up (o, Node KMethod cs) walk) <-> owns up (o, Node KMethod cs) f \/ (~ shut rs (o, Node KMethod cs) /\ In f walk).
  Proof.
    unfold e2e_method. destruct (child Rname (o, Node KMethod cs)) as [n|] eqn:Hn.
    - assert (Hs : shut rs (o, Node KMethod cs) <-> on_client (o, Node KMethod cs) = true).
      { rewrite client_spec. unfold shut. split; [intros [[p [g H]]|[H _]]; [destruct (no_builds_method _ _ _ _ H) | exact H]|].
        intros H. right. split; [exact H | eauto]. }
      assert (Hw : In f (if on_client (o, Node KMethod cs) then [] else walk) <-> ~ shut rs (o, Node KMethod cs) /\ In f walk).
      { rewrite Hs. destruct (on_client _); [split; [intros [] | intros [H _]; congruence]|].
        split; [intros H; split; [discriminate | exact H] | intros [_ H]; exact H]. }
      assert (Ho : In f (match child Rargs (o, Node KMethod cs) with Some a => method_found zero up n a | None => [] end) <-> owns up (o, Node KMethod cs) f).
      { destruct (child Rargs _) as [a|] eqn:Ha; [apply method_found_spec; assumption|]. split; [intros []|].
        intros H. destruct f as [e|tr]; cbn [owns] in H.
        - inversion H; subst; try (match goal with H : builds _ _ _ _ |- _ => destruct (no_builds_method _ _ _ _ H) end);
            match goal with H : has_args _ _ _ |- _ => destruct H; congruence end.
        - destruct H as [_ [? [? [? [? [_ [[H _] _]]]]]]]. congruence. }
      rewrite in_app_iff, Hw, Ho. tauto.
    - assert (Hs : ~ shut rs (o, Node KMethod cs)).
      { intros [[p [g H]]|[_ [n H]]]; [destruct (no_builds_method _ _ _ _ H) | congruence]. }
      assert (Ho : ~ owns up (o, Node KMethod cs) f).
      { intros H. destruct f as [e|tr]; cbn [owns] in H.
        - inversion H; subst; try (match goal with H : builds _ _ _ _ |- _ => destruct (no_builds_method _ _ _ _ H) end);
            repeat match goal with H : has_name _ _ _ |- _ => destruct H; congruence | H : _ \/ _ |- _ => destruct H as [[H _]|[H _]] end.
        - destruct H as [_ [? [? [? [? [[H _] _]]]]]]. congruence. }
      split; [intros H; right; split; [exact Hs|]; apply in_app_or in H; destruct H as [H|H]; [destruct (on_client _); [destruct H | exact H] | exact H]|].
      intros [H|[_ H]]; [contradiction|]. apply in_or_app. right. exact H.
  Qed.
  Theorem e2e_in body : parsed body -> forall o up f,
    In f (e2e_visit zero rs body o up) <-> exists up' t', sees (shut rs) up (o, body) up' t' /\ owns up' t' f.
  Proof.
    intros Hp o up f. apply (visit_in _ _ owns (shut rs)); [apply call_in | apply method_in | | | exact Hp].
    - intros k cs o' H1 H2. assert (Hb : forall p g, ~ builds rs (o', Node k cs) p g).
      { intros p g H. apply builds_call in H. destruct H as [? [n [? E]]]. injection E as _ E _. exact (H1 n E). }
      assert (Hm : ~ is_kind KMethod (o', Node k cs)) by (intros H; apply not_kind in H; exact (H2 H)).
      split; [intros [[p [g H]]|[[H _] _]]; [exact (Hb _ _ H) | exact (Hm H)]|].
      intros up' [e|tr] H; cbn [owns] in H.
      + inversion H; subst; try (match goal with H : builds _ _ _ _ |- _ => exact (Hb _ _ H) end); contradiction.
      + destruct H as [H _]. contradiction.
    - intros up' o' s [e|tr] H; cbn [owns] in H.
      + assert (Hb : forall p g, ~ builds rs (o', Leaf s) p g).
        { intros p g Hb. apply builds_call in Hb. destruct Hb as [? [n [? E]]]. discriminate E. }
        inversion H; subst; try (match goal with H : builds _ _ _ _ |- _ => exact (Hb _ _ H) end);
          match goal with H : is_kind KMethod (_, Leaf _) |- _ => destruct H as [? E]; discriminate E end.
      + destruct H as [[? E] _]. discriminate E.
  Qed.
End E2E.

(** ** Edits do not overlap *)
Section Clear.
  Variable zero : str -> bool.
  Variable rs : resolver.
  Definition within (r : trange) (t : ltree) : Prop := fst t <= fst r /\ snd r <= fst t + width (snd t).
  Lemma width_node k cs : width (Node k cs) = bytes (flat_map (fun rc => ttext (snd rc)) cs).
  Proof. reflexivity. Qed.
  Lemma spread_within o cs r c : In (r, c) (spread_out o cs) -> o <= fst c /\ fst c + width (snd c) <= o + bytes (flat_map (fun rc => ttext (snd rc)) cs).
  Proof.
    revert o; induction cs as [|[r0 c0] cs IH]; intros o H; [destruct H|]. cbn [spread_out] in H. cbn [flat_map snd]. rewrite bytes_app.
    change (bytes (ttext c0)) with (width c0). destruct H as [E|H].
    - injection E as <- <-. cbn [fst snd]. lia.
    - specialize (IH _ H). lia.
  Qed.
  Lemma child_within r t c : child r t = Some c -> within (trange_of c) t.
  Proof.
    intros H. apply child_role in H. destruct H as [k [cs [E H]]]. destruct t as [o t]; cbn in E, H; subst. apply spread_within in H.
    unfold within, trange_of. cbn [fst snd]. rewrite width_node. exact H.
  Qed.
  Lemma within_trans r c t : within r c -> within (trange_of c) t -> within r t.
  Proof. unfold within, trange_of. cbn [fst snd]. lia. Qed.
  Lemma spread_apart o cs x y : In x (spread_out o cs) -> In y (spread_out o cs) ->
    x = y \/ snd (trange_of (snd x)) <= fst (trange_of (snd y)) \/ snd (trange_of (snd y)) <= fst (trange_of (snd x)).
  Proof.
    revert o; induction cs as [|[r c] cs IH]; intros o Hx Hy; [destruct Hx|]. cbn [spread_out] in Hx, Hy.
    destruct Hx as [<-|Hx], Hy as [<-|Hy]; [left; reflexivity | | | exact (IH _ Hx Hy)]; right.
    - destruct y as [ry y]. apply spread_within in Hy. unfold trange_of. cbn [fst snd]. left. lia.
    - destruct x as [rx x]. apply spread_within in Hx. unfold trange_of. cbn [fst snd]. right. lia.
  Qed.
  Lemma child_apart r1 r2 t c1 c2 : r1 <> r2 -> child r1 t = Some c1 -> child r2 t = Some c2 ->
    snd (trange_of c1) <= fst (trange_of c2) \/ snd (trange_of c2) <= fst (trange_of c1).
  Proof.
    intros Hne H1 H2. apply child_role in H1, H2. destruct H1 as [k [cs [E H1]]], H2 as [k' [cs' [E' H2]]].
    rewrite E in E'. injection E' as <- <-. destruct (spread_apart _ _ _ _ H1 H2) as [Heq|H]; [congruence | exact H].
  Qed.
  Lemma only_child k cs o r c1 c2 : length (filter (fun x => role_eqb (fst x) r) cs) <= 1 ->
    In (r, c1) (spread_out o cs) -> In (r, c2) (spread_out o cs) -> c1 = c2 /\ child r (o, Node k cs) = Some c1.
  Proof.
    intros H H1 H2. rewrite <- (spread_out_count o) in H.
    assert (Hf : forall c, In (r, c) (spread_out o cs) -> In (r, c) (filter (fun x => role_eqb (fst x) r) (spread_out o cs))).
    { intros c Hc. apply filter_In. split; [exact Hc | apply role_eqb_refl]. }
    apply Hf in H1, H2. unfold child. cbn [fst snd].
    destruct (filter _ (spread_out o cs)) as [|x [|]]; cbn in H; [destruct H1 | | lia].
    destruct H1 as [->|[]], H2 as [E|[]]. injection E as ->. split; reflexivity.
  Qed.

  (** An edit outside of the node it is for: in the method call or behind the [.await] around it *)
  Definition callback_out (up : list ltree) (t : ltree) (e : text_edit) : Prop :=
    exists m up' n a f p g, up = m :: up' /\ is_kind KMethod m /\ has_name m n (lit "call") /\ has_args m a [f] /\ builds rs t p g
      /\ te_range e = (fst n, fst m + width (snd m)).
  Definition await_out (up : list ltree) (e : text_edit) : Prop :=
    exists w up', up = w :: up' /\ is_kind (KWrap WAwait) w /\ te_range e = (fst w + width (snd w), fst w + width (snd w)).
  Lemma change_range up t e : change zero rs up t e -> within (te_range e) t \/ callback_out up t e \/ await_out up e.
  Proof.
    intros H. inversion H; subst.
    - left. match goal with H : replaces _ _ _ |- _ => rewrite H end. cbn [te_range].
      assert (Hp : exists c, child Rexpr t = Some c /\ child Rpath c = Some p) by (match goal with H : builds _ _ _ _ |- _ => inversion H; subst; eauto end).
      destruct Hp as [c [H1' H2']]. exact (within_trans _ _ _ (child_within _ _ _ H2') (child_within _ _ _ H1')).
    - right. left. exists m, up0, n, a, f, p, g. repeat (split; [first [reflexivity | assumption]|]). reflexivity.
    - left. match goal with H : replaces _ _ _ |- _ => rewrite H end. match goal with H : has_args _ _ _ |- _ => destruct H as [Ha _] end.
      exact (child_within _ _ _ Ha).
    - left. match goal with H : replaces _ _ _ |- _ => rewrite H end. match goal with H : has_args _ _ _ |- _ => destruct H as [Ha _] end.
      exact (child_within _ _ _ Ha).
    - left. match goal with H : replaces _ _ _ |- _ => rewrite H end. match goal with H : has_args _ _ _ |- _ => destruct H as [Ha _] end.
      exact (child_within _ _ _ Ha).
    - left. match goal with H : replaces _ _ _ |- _ => rewrite H end. match goal with H : has_name _ _ _ |- _ => destruct H as [Ha _] end.
      exact (child_within _ _ _ Ha).
    - right. right. exists w, up0. auto.
  Qed.
  Notation seen := (sees (shut rs)).
  (** An edit at a node seen from another one lies in that one, or is outside of it as an edit for it. *)
  Lemma seen_range up t up' t' : seen up t up' t' -> forall e, change zero rs up' t' e ->
    within (te_range e) t \/ (up' = up /\ t' = t /\ (callback_out up t e \/ await_out up e)).
  Proof.
    induction 1 as [up t|up o k cs r c up' t' H1 H2 H3 Hc Hs IH]; intros e He.
    - destruct (change_range _ _ _ He) as [H|H]; auto.
    - left. assert (Hcw : within (trange_of c) (o, Node k cs)).
      { apply spread_within in Hc. unfold within, trange_of. cbn [fst snd]. rewrite width_node. exact Hc. }
      destruct (IH e He) as [H|[-> [-> H]]]; [exact (within_trans _ _ _ H Hcw)|].
      destruct H as [[m [up2 [n [a [f [p [g [E [Hm [[Hn _] [_ [_ Hr]]]]]]]]]]]]|[w [up2 [E [Hw Hr]]]]].
      + injection E as <- <-. rewrite Hr. apply child_within in Hn. unfold within, trange_of in *. cbn [fst snd] in *. lia.
      + injection E as <- <-. rewrite Hr. unfold within. cbn [fst snd]. lia.
  Qed.

  (** Two changes at one node *)
  Lemma method_edits up n a : exists e0, (te_range e0 = trange_of a \/ te_range e0 = trange_of n) /\
    forall e, In (Edit e) (method_found zero up n a) -> e = e0 \/ In (Edit e) (unwrap_dry_run up).
  Proof.
    unfold method_found. cbv zeta.
    assert (Hdry : forall (b : bool) l x, In x ((if b then unwrap_dry_run up else []) ++ l) -> In x (unwrap_dry_run up) \/ In x l).
    { intros b l x H. apply in_app_or in H. destruct H as [H|H]; [destruct b; [left; exact H | destruct H] | right; exact H]. }
    assert (Hnone : exists e0, (te_range e0 = trange_of a \/ te_range e0 = trange_of n) /\ forall e, In (Edit e) [] -> e = e0 \/ In (Edit e) (unwrap_dry_run up)).
    { exists (replace_edit a []). split; [left; reflexivity | intros e []]. }
    assert (Hneed : forall tr, exists e0, (te_range e0 = trange_of a \/ te_range e0 = trange_of n) /\ forall e, In (Edit e) [Needs tr] -> e = e0 \/ In (Edit e) (unwrap_dry_run up)).
    { exists (replace_edit a []). split; [left; reflexivity | intros e [H|[]]; discriminate H]. }
    destruct (str_eqb (ltext n) (lit "instantiate") || str_eqb (ltext n) (lit "instantiate_dry_run")).
    { destruct (children Rarg a) as [|c [|s [|k [|v [|d [|]]]]]]; try exact Hnone. eexists. split; [left|intros e [H|H]; [left; injection H as <-; reflexivity|]]; [reflexivity|].
      apply Hdry in H. destruct H as [H|[H|[]]]; [right; exact H | discriminate H]. }
    destruct (str_eqb (ltext n) (lit "call") || str_eqb (ltext n) (lit "call_dry_run")).
    { destruct (children Rarg a) as [|s [|m [|v [|d [|]]]]]; try exact Hnone. eexists. split; [left|intros e [H|H]; [left; injection H as <-; reflexivity|]]; [reflexivity|].
      apply Hdry in H. destruct H as [H|[H|[]]]; [right; exact H | discriminate H]. }
    destruct (str_eqb (ltext n) (lit "upload")).
    { destruct (children Rarg a) as [|c [|s [|d [|]]]]; try exact Hnone. eexists. split; [left|intros e [H|[H|[]]]; [left; injection H as <-; reflexivity | discriminate H]]. reflexivity. }
    destruct (str_eqb (ltext n) (lit "create_and_fund_account")); [destruct (_ =? _); [apply Hneed | exact Hnone]|].
    destruct (str_eqb (ltext n) (lit "balance")).
    { destruct (_ =? _); [|exact Hnone]. eexists. split; [right|intros e [H|[H|[]]]; [left; injection H as <-; reflexivity | discriminate H]]. reflexivity. }
    destruct (str_eqb (ltext n) (lit "runtime_call")); [destruct (_ =? _); [apply Hneed | exact Hnone] | exact Hnone].
  Qed.
  Lemma callback_one up e1 e2 : In (Edit e1) (callback_edit up) -> In (Edit e2) (callback_edit up) -> e1 = e2.
  Proof.
    unfold callback_edit. destruct (parent_method up) as [m|]; [|intros []]. destruct (child Rname m) as [n|]; [|intros []]. destruct (child Rargs m) as [a|]; [|intros []].
    destruct (str_eqb _ _); [|intros []]. destruct (arg_exprs m) as [|[oc [s|k cs]] [|]]; try solve [intros []].
    all: destruct k; try solve [intros []].
    destruct (obind _ _) as [c|]; [|intros []]. destruct (child Rname c) as [cn|]; [|intros []]. intros [H1|[]] [H2|[]]. congruence.
  Qed.
  Lemma clear_sym a b : clear_of a b -> clear_of b a.
  Proof. unfold clear_of. lia. Qed.
  Lemma same_node up t e1 e2 :
    (forall p up', up = p :: up' -> within (trange_of t) p) ->
    (forall m up' n, up = m :: up' -> is_kind KMethod m -> child Rname m = Some n -> is_call t -> fst t + width (snd t) <= fst n) ->
    change zero rs up t e1 -> change zero rs up t e2 -> e1 = e2 \/ clear_of e1 e2.
  Proof.
    intros Hin Hpos H1 H2.
    assert (Hk : (exists o n cs, t = (o, Node (KCall n) cs)) \/ exists o cs, t = (o, Node KMethod cs)).
    { inversion H1; subst; try (right; apply kind_of; assumption); left; eapply builds_call; eassumption. }
    destruct Hk as [[o [n [cs ->]]]|[o [cs ->]]].
    - assert (Hc : forall e, change zero rs up (o, Node (KCall n) cs) e -> In (Edit e) (e2e_call rs up (o, Node (KCall n) cs) [])).
      { intros e He. apply (call_in zero). left. exact He. }
      apply Hc in H1, H2. unfold e2e_call in H1, H2. destruct (builder_of rs (o, Node (KCall n) cs)) as [b|] eqn:Eb; [|destruct H1].
      assert (Hbs : builds rs (o, Node (KCall n) cs) (builder_path b) (builder_generics b)) by (apply builder_spec; eauto).
      assert (Hx : forall e, In (Edit e) (callback_edit up) ->
        clear_of (replace_edit (builder_path b) (lit "ink_e2e::create_call_builder" ++ builder_generics b)) e).
      { intros e He. apply (callback_spec rs up _ _ _ _ _ _ Hbs) in He.
        destruct He as [m [up' [nm [a [c [bd [k [cn [-> [Hm [[Hn _] [_ [_ [_ [_ [_ E]]]]]]]]]]]]]]]]. injection E as ->.
        specialize (Hpos _ _ _ eq_refl Hm Hn (ex_intro _ n (kind_node _ _ _))).
        assert (Hp : exists c, child Rexpr (o, Node (KCall n) cs) = Some c /\ child Rpath c = Some (builder_path b)) by (inversion Hbs; subst; eauto).
        destruct Hp as [c' [H1' H2']]. pose proof (within_trans _ _ _ (child_within _ _ _ H2') (child_within _ _ _ H1')) as Hw.
        unfold replace_edit, clear_of in *. cbn [te_range] in *. unfold within, trange_of in *. cbn [fst snd] in *. lia. }
      destruct H1 as [H1|H1], H2 as [H2|H2].
      + left. congruence.
      + injection H1 as <-. right. apply Hx. exact H2.
      + injection H2 as <-. right. apply clear_sym. apply Hx. exact H1.
      + left. exact (callback_one _ _ _ H1 H2).
    - assert (Hc : forall e, change zero rs up (o, Node KMethod cs) e -> In (Edit e) (e2e_method zero up (o, Node KMethod cs) [])).
      { intros e He. apply (method_in zero rs). left. exact He. }
      apply Hc in H1, H2. unfold e2e_method in H1, H2. replace (if on_client (o, Node KMethod cs) then [] else []) with (@nil found) in H1, H2 by (destruct (on_client _); reflexivity).
      cbn [app] in H1, H2. destruct (child Rname (o, Node KMethod cs)) as [n|] eqn:En; [|destruct H1].
      destruct (child Rargs (o, Node KMethod cs)) as [a|] eqn:Ea; [|destruct H1].
      destruct (method_edits up n a) as [e0 [Hr He0]].
      assert (Hx : forall e, In (Edit e) (unwrap_dry_run up) -> clear_of e0 e).
      { intros e He. apply unwrap_spec in He. destruct He as [w [up' [-> [_ E]]]]. injection E as ->. specialize (Hin _ _ eq_refl).
        apply child_within in En, Ea. unfold clear_of, within, trange_of in *. cbn [te_range fst snd] in *.
        destruct Hr as [-> | ->]; cbn [fst snd]; lia. }
      destruct (He0 _ H1) as [->|U1], (He0 _ H2) as [->|U2].
      + left. reflexivity.
      + right. apply Hx, U2.
      + right. apply clear_sym, Hx, U1.
      + left. apply unwrap_spec in U1, U2. destruct U1 as [w [up' [-> [_ E]]]], U2 as [w' [up'' [E' [_ E2]]]]. injection E' as <- <-. congruence.
  Qed.

  (** The node is a method call whose parts are looked at: its changes, and those inside of it *)
  Lemma method_and_inside up o cs r c up2 t2 e1 e2 : parsed (Node KMethod cs) ->
    (forall p up', up = p :: up' -> within (trange_of (o, Node KMethod cs)) p) ->
    (forall n s a up2 t e, has_name (o, Node KMethod cs) n s -> In s REPLACED -> child Rargs (o, Node KMethod cs) = Some a ->
       seen ((o, Node KMethod cs) :: up) a up2 t -> ~ change zero rs up2 t e) ->
    ~ shut rs (o, Node KMethod cs) ->
    walks KMethod r = true -> In (r, c) (spread_out o cs) -> seen ((o, Node KMethod cs) :: up) c up2 t2 ->
    change zero rs up (o, Node KMethod cs) e1 -> change zero rs up2 t2 e2 -> clear_of e1 e2.
  Proof.
    intros Hp Hin Hq Hs Hr Hc Hsee H1 H2. set (t := (o, Node KMethod cs)) in *.
    pose proof (parsed_node _ _ Hp) as [Hone [_ [_ [_ [_ [Hal _]]]]]].
    assert (Hcw : within (trange_of c) t).
    { pose proof (spread_within _ _ _ _ Hc) as Hw. unfold within, trange_of, t. cbn [fst snd]. rewrite width_node. exact Hw. }
    assert (Hrole : r = Rrecv \/ r = Rargs) by (destruct r; try discriminate Hr; auto).
    assert (Hch : child r t = Some c).
    { apply (only_child KMethod cs o r c c); [apply Hone; destruct Hrole as [-> | ->]; reflexivity | exact Hc | exact Hc]. }
    (* no change inside arguments when the name is one of those *)
    assert (Hrecv : forall n s, has_name t n s -> In s REPLACED -> r = Rrecv).
    { intros n s Hn Hin'. destruct Hrole as [->| ->]; [reflexivity|]. exfalso. exact (Hq n s c up2 t2 e2 Hn Hin' Hch Hsee H2). }
    (* edits at the end of the enclosing await *)
    assert (Hbehind : await_out up e1 -> within (te_range e2) t -> clear_of e1 e2).
    { intros [w [up' [-> [_ Er]]]] Hw. specialize (Hin _ _ eq_refl). unfold clear_of, within, trange_of in *. rewrite Er. cbn [fst snd] in *. lia. }
    (* where the inner edit is *)
    destruct (seen_range _ _ _ _ Hsee _ H2) as [Hw2|[-> [-> Hout]]].
    - assert (Hsib : forall r' c', child r' t = Some c' -> r' <> r -> te_range e1 = trange_of c' -> clear_of e1 e2).
      { intros r' c' Hc' Hne E. destruct (child_apart _ _ _ _ _ Hne Hc' Hch) as [H|H]; unfold clear_of, within, trange_of in *; rewrite E; cbn [fst snd] in *; lia. }
      inversion H1; subst; try (match goal with H : builds _ _ _ _ |- _ => destruct (no_builds_method _ _ _ _ _ H) end).
      all: try (match goal with H : replaces _ _ _ |- _ => rewrite H in * end; cbn [te_range] in *;
        match goal with Hn : has_name _ _ _, Ha : has_args _ _ _ |- _ => destruct Ha as [Ha _];
          eapply Hsib; [exact Ha | | reflexivity];
          rewrite (Hrecv _ _ Hn ltac:(try destruct dry; cbn; auto 10)); discriminate end).
      + match goal with H : replaces _ _ _ |- _ => rewrite H in * end. cbn [te_range] in *.
        match goal with Hn : has_name _ _ _ |- _ => destruct Hn as [Hn _]; eapply Hsib; [exact Hn | | reflexivity] end.
        destruct Hrole as [->| ->]; discriminate.
      + apply Hbehind; [exists w, up0; auto|]. exact (within_trans _ _ _ Hw2 Hcw).
    - destruct Hout as [[m [up' [n [a [f [p [g [E [Hm [Hn [Ha [Hb Er]]]]]]]]]]]]|[w [up' [E [Hw Er]]]]].
      + injection E as <- <-. destruct Hn as [Hn Ht]. destruct Ha as [Ha Hl].
        inversion H1; subst; try (match goal with H : builds _ _ _ _ |- _ => destruct (no_builds_method _ _ _ _ _ H) end).
        all: try (match goal with Hn' : has_name _ ?n' _ |- _ => destruct Hn' as [Hn' Ht']; assert (n' = n) by congruence; subst n'; rewrite Ht in Ht';
          try destruct dry; vm_compute in Ht'; try discriminate Ht' end).
        all: try (match goal with Ha' : has_args _ ?a' _ |- _ => destruct Ha' as [Ha' Hl']; assert (a' = a) by congruence; subst a'; rewrite Hl in Hl'; discriminate Hl' end).
        match goal with H : _ \/ _ |- _ => destruct H as [[[Hn' Ht'] _]|[[Hn' Ht'] _]] end;
          (assert (n0 = n) by congruence; subst n0; rewrite Ht in Ht'; vm_compute in Ht'; discriminate Ht').
      + injection E as <- <-. apply not_kind in Hw. discriminate Hw.
  Qed.

  Theorem clear_all t : parsed t -> forall o up,
    quiet zero rs up (o, t) -> in_order rs up (o, t) ->
    (forall p up', up = p :: up' -> within (trange_of (o, t)) p) ->
    (forall m up' n, up = m :: up' -> is_kind KMethod m -> child Rname m = Some n -> is_call (o, t) -> o + width t <= fst n) ->
    forall up1 t1 e1 up2 t2 e2, seen up (o, t) up1 t1 -> change zero rs up1 t1 e1 -> seen up (o, t) up2 t2 -> change zero rs up2 t2 e2 ->
    e1 = e2 \/ clear_of e1 e2.
  Proof.
    induction t as [s|k cs IH] using tree_deep; intros Hp o up Hq Ho Hin Hpos up1 t1 e1 up2 t2 e2 S1 C1 S2 C2.
    { inversion S1; subst. inversion S2; subst. exact (same_node _ _ _ _ Hin Hpos C1 C2). }
    pose proof (parsed_node _ _ Hp) as [Hone [_ [_ [_ [_ [Hal Hps]]]]]].
    assert (Hwalk : forall r, expression_place k r = true -> left_out k r = false -> walks k r = true).
    { intros r H1 H2. rewrite <- places, H1, H2. reflexivity. }
    assert (Hmi : forall r c up' t' e e', expression_place k r = true -> left_out k r = false -> ~ shut rs (o, Node k cs) -> In (r, c) (spread_out o cs) ->
      seen ((o, Node k cs) :: up) c up' t' -> change zero rs up (o, Node k cs) e -> change zero rs up' t' e' -> clear_of e e').
    { intros r c up' t' e e' P1 P2 Hs Hc Hsee He He'.
      assert (Hk : k = KMethod).
      { inversion He; subst; try (match goal with H : is_kind KMethod _ |- _ => exact (not_kind _ _ _ _ H) end); exfalso; apply Hs; left; eauto. }
      subst k. eapply method_and_inside; try eassumption; [|apply Hwalk; assumption].
      intros n s a up3 t3 e3 Hn Hin3 Ha Hs3. exact (Hq up (o, Node KMethod cs) n s a up3 t3 e3 (sees_itself _ _ _) Hs (kind_node _ _ _) Hn Hin3 Ha Hs3). }
    inversion S1 as [|? ? ? ? r1 c1 ? ? P1 Q1 Hs1 Hc1 S1']; subst; inversion S2 as [|? ? ? ? r2 c2 ? ? P2 Q2 Hs2 Hc2 S2']; subst.
    - exact (same_node _ _ _ _ Hin Hpos C1 C2).
    - right. eapply Hmi; eassumption.
    - right. apply clear_sym. eapply Hmi; eassumption.
    - assert (Hsame : (r1, c1) = (r2, c2) -> e1 = e2 \/ clear_of e1 e2).
      { intros E. injection E as <- <-. destruct c1 as [oc c]. pose proof (spread_out_in _ _ _ _ _ Hc1) as Hi.
        refine (IH r1 c Hi (Hps r1 c Hi) oc ((o, Node k cs) :: up) _ _ _ _ _ _ _ _ _ _ S1' C1 S2' C2).
        * intros up3 m n s a up4 t4 e4 Hm. apply Hq. eapply sees_inside; eassumption.
        * intros up3 m r n Hm. apply Ho with (up1 := up3). eapply sees_inside; eassumption.
        * intros p up' E. injection E as <- <-. pose proof (spread_within _ _ _ _ Hc1) as Hw. unfold within, trange_of. cbn [fst snd] in *. rewrite width_node. exact Hw.
        * intros m up' n E Hm Hn Hcall. injection E as <- <-. apply not_kind in Hm. subst k.
          assert (Hr : r1 = Rrecv \/ r1 = Rargs) by (specialize (Hwalk r1 P1 Q1); destruct r1; try discriminate Hwalk; auto).
          destruct Hr as [->| ->].
          -- destruct (only_child KMethod cs o Rrecv (oc, c) (oc, c) (Hone Rrecv eq_refl) Hc1 Hc1) as [_ Hch].
             refine (Ho up (o, Node KMethod cs) (oc, c) n _ (kind_node _ _ _) Hch Hn). constructor.
          -- destruct (Hal c Hi) as [ps ->]. destruct Hcall as [n' H]. apply not_kind in H. discriminate H. }
      destruct (spread_apart _ _ _ _ Hc1 Hc2) as [E|Hap]; [exact (Hsame E)|].
      assert (Hcase : forall r c r' c' up3 t3 e3 up4 t4 e4, expression_place k r = true -> left_out k r = false -> In (r, c) (spread_out o cs) ->
          expression_place k r' = true -> left_out k r' = false -> In (r', c') (spread_out o cs) ->
          seen ((o, Node k cs) :: up) c up3 t3 -> change zero rs up3 t3 e3 -> seen ((o, Node k cs) :: up) c' up4 t4 -> change zero rs up4 t4 e4 ->
          within (te_range e3) c \/ (r, c) = (r', c')).
        { intros r c r' c' up3 t3 e3 up4 t4 e4 A1 A2 A3 B1 B2 B3 T3 D3 T4 D4.
          destruct (seen_range _ _ _ _ T3 _ D3) as [H|[-> [-> Hout]]]; [left; exact H|]. right.
          destruct Hout as [[m [up' [n [a [f [p [g [E [Hm [Hn [Ha [Hb Er]]]]]]]]]]]]|[w [up' [E [Hw Er]]]]].
          - injection E as <- <-. apply not_kind in Hm. subst k.
            pose proof (Hwalk r A1 A2) as W1. pose proof (Hwalk r' B1 B2) as W2.
            assert (Hr : r = Rrecv \/ r = Rargs) by (destruct r; try discriminate W1; auto).
            assert (Hr' : r' = Rrecv \/ r' = Rargs) by (destruct r'; try discriminate W2; auto).
            destruct Hr as [->| ->].
            + destruct Hr' as [->| ->].
              * destruct (only_child KMethod cs o Rrecv c c' (Hone Rrecv eq_refl) A3 B3) as [-> _]. reflexivity.
              * destruct (only_child KMethod cs o Rargs c' c' (Hone Rargs eq_refl) B3 B3) as [_ Hch].
                exfalso. refine (Hq up (o, Node KMethod cs) n (lit "call") c' up4 t4 e4 _ Hs1 (kind_node _ _ _) Hn _ Hch T4 D4); [constructor | cbn; auto].
            + destruct c as [oc c]. pose proof (spread_out_in _ _ _ _ _ A3) as Hi. destruct (Hal c Hi) as [ps ->].
              apply builds_call in Hb. destruct Hb as [? [? [? E]]]. discriminate E.
          - injection E as <- <-. apply not_kind in Hw. subst k.
            pose proof (Hwalk r A1 A2) as W1. pose proof (Hwalk r' B1 B2) as W2.
            assert (r = Rexpr) by (destruct r; try discriminate W1; auto). assert (r' = Rexpr) by (destruct r'; try discriminate W2; auto). subst.
            destruct (only_child (KWrap WAwait) cs o Rexpr c c' (Hone Rexpr eq_refl) A3 B3) as [-> _]. reflexivity. }
      destruct (Hcase _ _ _ _ _ _ _ _ _ _ P1 Q1 Hc1 P2 Q2 Hc2 S1' C1 S2' C2) as [W1|E]; [|exact (Hsame E)].
      destruct (Hcase _ _ _ _ _ _ _ _ _ _ P2 Q2 Hc2 P1 Q1 Hc1 S2' C2 S1' C1) as [W2|E]; [|exact (Hsame (eq_sym E))].
      right. unfold clear_of, within, trange_of in *. cbn [fst snd] in *. lia.
  Qed.

  (** A test for [quiet] and [in_order] *)
  Fixpoint nodes (t : tree) (o : nat) (up : list ltree) {struct t} : list (list ltree * ltree) :=
    (up, (o, t)) ::
    match t with
    | Leaf _ => []
    | Node k cs =>
        (fix all (o' : nat) (cs' : list (role * tree)) : list (list ltree * ltree) :=
           match cs' with [] => [] | (_, c) :: cs' => nodes c o' ((o, t) :: up) ++ all (o' + width c) cs' end) o cs
    end.
  Lemma nodes_all up t up' t' : seen up t up' t' -> In (up', t') (nodes (snd t) (fst t) up).
  Proof.
    induction 1 as [up [o t]|up o k cs r c up' t' _ _ _ Hc _ IH]; [destruct t; left; reflexivity|].
    cbn [fst snd nodes]. right.
    match goal with |- In _ (?F0 o cs) => set (F := F0) end.
    assert (H : forall cs0 o0, In (r, c) (spread_out o0 cs0) -> In (up', t') (F o0 cs0)).
    { induction cs0 as [|[r0 c0] cs0 IHc]; intros o0 H; [destruct H|]. cbn [spread_out] in H. cbn. apply in_or_app.
      destruct H as [E|H]; [|right; exact (IHc _ H)]. injection E as <- <-. left. exact IH. }
    exact (H _ _ Hc).
  Qed.
  Definition quiet_at (x : list ltree * ltree) : bool :=
    match snd (snd x), child Rname (snd x), child Rargs (snd x) with
    | Node KMethod _, Some n, Some a =>
        negb (existsb (str_eqb (ltext n)) REPLACED) || on_client (snd x)
        || match found_edits (e2e_visit zero rs (snd a) (fst a) (snd x :: fst x)) with [] => true | _ => false end
    | _, _, _ => true
    end.
  Definition order_at (x : list ltree * ltree) : bool :=
    match snd (snd x), child Rrecv (snd x), child Rname (snd x) with
    | Node KMethod _, Some r, Some n => fst r + width (snd r) <=? fst n
    | _, _, _ => true
    end.
  Lemma parsed_child r t c : parsed (snd t) -> child r t = Some c -> parsed (snd c).
  Proof.
    destruct t as [o t]. intros Hp H. apply child_role in H. destruct H as [k [cs [E H]]]. cbn in E, H. subst.
    apply parsed_node in Hp. destruct c as [oc c]. apply spread_out_in in H. destruct Hp as [_ [_ [_ [_ [_ [_ Hp]]]]]]. exact (Hp _ _ H).
  Qed.
  Lemma parsed_seen up t up' t' : seen up t up' t' -> parsed (snd t) -> parsed (snd t').
  Proof.
    induction 1 as [up t|up o k cs r c up' t' _ _ _ Hc _ IH]; intros Hp; [exact Hp|]. apply IH. apply parsed_node in Hp.
    destruct c as [oc c]. apply spread_out_in in Hc. destruct Hp as [_ [_ [_ [_ [_ [_ Hp]]]]]]. exact (Hp _ _ Hc).
  Qed.
  Lemma quiet_ok up t : parsed (snd t) -> forallb quiet_at (nodes (snd t) (fst t) up) = true -> quiet zero rs up t.
  Proof.
    intros Hp H up1 m n s a up2 t2 e S1 Hs Hk [Hn Hn'] Hin Ha S2 C. rewrite forallb_forall in H. specialize (H _ (nodes_all _ _ _ _ S1)).
    pose proof (parsed_seen _ _ _ _ S1 Hp) as Hpm. apply kind_of in Hk. destruct Hk as [o [cs ->]].
    unfold quiet_at in H. cbn [fst snd] in H. rewrite Hn, Ha in H. apply orb_true_iff in H. destruct H as [H|H].
    - apply orb_true_iff in H. destruct H as [H|H].
      + apply negb_true_iff in H. apply Bool.not_true_iff_false in H. apply H. apply existsb_exists. exists s. split; [exact Hin|]. apply str_eqb_eq. exact Hn'.
      + apply Hs. right. apply client_spec in H. split; [exact H | eauto].
    - destruct (found_edits _) as [|x l] eqn:E; [|discriminate H].
      assert (Hi : In e (found_edits (e2e_visit zero rs (snd a) (fst a) ((o, Node KMethod cs) :: up1)))); [|exact (eq_ind _ (fun l => In e l) Hi _ E)].
      apply in_flat_map. exists (Edit e). split; [|left; reflexivity]. apply e2e_in; [exact (parsed_child _ _ _ Hpm Ha)|].
      exists up2, t2. split; [destruct a; exact S2 | exact C].
  Qed.
  Lemma order_ok up t : forallb order_at (nodes (snd t) (fst t) up) = true -> in_order rs up t.
  Proof.
    intros H up1 m r n S1 Hk Hr Hn. rewrite forallb_forall in H. specialize (H _ (nodes_all _ _ _ _ S1)).
    apply kind_of in Hk. destruct Hk as [o [cs ->]]. unfold order_at in H. cbn [fst snd] in H. rewrite Hr, Hn in H. apply Nat.leb_le. exact H.
  Qed.
End Clear.
