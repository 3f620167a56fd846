From Verif Require Import Base BaseFacts Unicode PositionModel PositionSpec PositionProofs TranslateModel TranslateSpec TranslateProofs
  VersionModel CommandModel CommandProofs ServerModel ServerSpec.

Section Server.
  Variable D : decoders.
  Variable A : analyzer.
  Variable P : platform.
  Variable U : unicode.
  Variable dbg : char -> str.
  Variable caps : client_caps.
  Notation main_loop := (main_loop D A P U dbg caps).
  Notation handle_request := (handle_request D A P U caps).
  Notation handle_notification := (handle_notification D A P U caps).
  Notation process_changes := (process_changes A P U caps).
  Notation enc := (encoding caps).

  (** * Routing *)
  Lemma route_request_eq f sn q :
    route_request D A P U caps f sn q =
    Some (let is m := str_eqb (rq_method q) m in
          let run (h : option (hres payload)) :=
            match h with
            | Some h => match to_reply h with Done y => Done (rq_id q, y) | Panic => Panic end
            | None => Done (rq_id q, RErr INVALID_PARAMS)
            end in
          if is M_COMPLETION then run (option_map (fun p => handle_completion A caps p sn) (dc_completion D (rq_params q)))
          else if is M_HOVER then run (option_map (fun p => handle_hover A p sn) (dc_hover D (rq_params q)))
          else if is M_CODE_ACTION then run (option_map (fun p => handle_code_action A caps p sn) (dc_code_action D (rq_params q)))
          else if is M_RESOLVE then run (if dc_action D (rq_params q) then Some (handle_resolve A P U caps f (rq_params q) sn) else None)
          else if is M_INLAY then run (option_map (fun p => handle_inlay_hint A p sn) (dc_inlay D (rq_params q)))
          else if is M_SIGNATURE then run (option_map (fun p => handle_signature_help A caps p sn) (dc_signature D (rq_params q)))
          else if is M_EXECUTE then run (option_map (fun p => handle_execute_command A P U caps f p sn) (dc_execute D (rq_params q)))
          else Done (rq_id q, RErr METHOD_NOT_FOUND)).
  Proof.
    unfold route_request, routes. cbn [fold_left].
    assert (Hdone : forall l r, fold_left process l (Router None (Some r)) = Router None (Some r)).
    { induction l as [|x l IH]; intros r; [reflexivity|]. cbn [fold_left]. apply IH. }
    assert (Hstep : forall m h l, fold_left process ((m, h) :: l) (Router (Some q) None) =
       if str_eqb (rq_method q) m
       then Router None (Some match h (rq_params q) with
                              | Some h => match to_reply h with Done y => Done (rq_id q, y) | Panic => Panic end
                              | None => Done (rq_id q, RErr INVALID_PARAMS) end)
       else fold_left process l (Router (Some q) None)).
    { intros m h l. cbn [fold_left]. unfold process at 2. cbn [rt_resp rt_req fst snd].
      destruct (str_eqb (rq_method q) m); [|reflexivity]. destruct (h (rq_params q)); apply Hdone. }
    match goal with |- finish ?t = _ =>
      change t with (fold_left process (routes D A P U caps f sn) (Router (Some q) None)) end.
    unfold routes. repeat (rewrite Hstep; match goal with |- context [if str_eqb (rq_method q) ?m then Router _ _ else _] =>
      destruct (str_eqb (rq_method q) m); [reflexivity|] end).
    reflexivity.
  Qed.

  Lemma nroute_eq n m :
    fold_left (nprocess n) (nroutes D) (Some (true, m)) =
    let is x := str_eqb (nt_method n) x in
    if is M_OPEN then match dc_open D (nt_params n) with Some p => Some (false, handle_did_open p m) | None => None end
    else if is M_CHANGE then match dc_change D (nt_params n) with Some p => Some (false, handle_did_change p m) | None => None end
    else if is M_CLOSE then match dc_close D (nt_params n) with Some p => Some (false, handle_did_close p m) | None => None end
    else Some (true, m).
  Proof.
    assert (Hdone : forall l x, fold_left (nprocess n) l (Some (false, x)) = Some (false, x)).
    { induction l as [|r l IH]; intros x; [reflexivity|]. cbn [fold_left]. apply IH. }
    assert (Hnone : forall l, fold_left (nprocess n) l None = None).
    { induction l as [|r l IH]; [reflexivity|]. cbn [fold_left]. apply IH. }
    assert (Hstep : forall k h l, fold_left (nprocess n) ((k, h) :: l) (Some (true, m)) =
       if str_eqb (nt_method n) k
       then match h (nt_params n) with Some g => Some (false, g m) | None => None end
       else fold_left (nprocess n) l (Some (true, m))).
    { intros k h l. cbn [fold_left]. unfold nprocess at 2. cbn [fst snd].
      destruct (str_eqb (nt_method n) k); [|reflexivity]. destruct (h (nt_params n)); [apply Hdone | apply Hnone]. }
    unfold nroutes. rewrite !Hstep. cbv zeta.
    destruct (str_eqb (nt_method n) M_OPEN); [destruct (dc_open D (nt_params n)); reflexivity|].
    destruct (str_eqb (nt_method n) M_CHANGE); [destruct (dc_change D (nt_params n)); reflexivity|].
    destruct (str_eqb (nt_method n) M_CLOSE); [destruct (dc_close D (nt_params n)); reflexivity|]. reflexivity.
  Qed.

  (** * The effect of a notification on the documents: nothing, or one document set or removed *)
  Definition target (n : notification) (docs : list (str * (str * Z))) : option (option (uri * option (str * Z))) :=
    let is x := str_eqb (nt_method n) x in
    if is M_OPEN then
      match dc_open D (nt_params n) with
      | Some (u, lang, v, text) => Some (if str_eqb lang (lit "rust") then Some (u, Some (text, v)) else None)
      | None => None
      end
    else if is M_CHANGE then
      match dc_change D (nt_params n) with
      | Some (u, v, texts) =>
          Some (match last_opt texts, assoc u docs with Some text, Some _ => Some (u, Some (text, v)) | _, _ => None end)
      | None => None
      end
    else if is M_CLOSE then
      match dc_close D (nt_params n) with
      | Some u => Some (match assoc u docs with Some _ => Some (u, None) | None => None end)
      | None => None
      end
    else Some None.
  Definition set_doc (t : uri * option (str * Z)) (docs : list (str * (str * Z))) :=
    match snd t with Some x => assoc_set (fst t) x docs | None => assoc_del (fst t) docs end.

  Lemma nroute_target n docs :
    option_map snd (fold_left (nprocess n) (nroutes D) (Some (true, Memory docs []))) =
    match target n docs with
    | None => None
    | Some None => Some (Memory docs [])
    | Some (Some t) => Some (Memory (set_doc t docs) [fst t])
    end.
  Proof.
    rewrite nroute_eq. cbv zeta. unfold target.
    destruct (str_eqb (nt_method n) M_OPEN).
    { destruct (dc_open D (nt_params n)) as [[[[u lang] v] text]|]; [|reflexivity].
      cbn [option_map snd handle_did_open]. destruct (str_eqb lang (lit "rust")); reflexivity. }
    destruct (str_eqb (nt_method n) M_CHANGE).
    { destruct (dc_change D (nt_params n)) as [[[u v] texts]|]; [|reflexivity].
      cbn [option_map snd handle_did_change]. destruct (last_opt texts) as [text|]; [|reflexivity].
      unfold mem_update. cbn [me_docs me_changes]. destruct (assoc u docs); reflexivity. }
    destruct (str_eqb (nt_method n) M_CLOSE); [|reflexivity].
    destruct (dc_close D (nt_params n)) as [u|]; [|reflexivity].
    cbn [option_map snd]. unfold handle_did_close, mem_remove. cbn [me_docs me_changes]. destruct (assoc u docs); reflexivity.
  Qed.

  Definition inv (st : state) : Prop :=
    me_changes (st_memory st) = [] /\
    forall u, match assoc u (me_docs (st_memory st)) with
              | Some (t, v) => exists lang, assoc u (st_snapshots st) = Some (Snapshot t enc (Some v) lang)
              | None => assoc u (st_snapshots st) = None
              end.
  Lemma inv_initial : inv initial.
  Proof. split; [reflexivity|]. intros u. reflexivity. Qed.

  Lemma process_nothing f docs sn fuel :
    process_changes f (State (Memory docs []) sn fuel) = Done (State (Memory docs []) sn fuel, []).
  Proof. reflexivity. Qed.

  (** The version used for an analysis, and the fuel left. *)
  Definition pick (f : fsys) (u : uri) (sn : snapshots) (fuel : nat) : version * nat :=
    match fuel with
    | S k => (declared_version P U f u, k)
    | 0 => (match assoc u sn with Some s => sn_lang s | None => declared_version P U f u end, 0)
    end.
  Lemma process_one f docs u sn fuel :
    pf_url_parse P u = Some u ->
    process_changes f (State (Memory docs [u]) sn fuel) =
    match assoc u docs with
    | Some (t, v) =>
        let '(lang, fuel') := pick f u sn fuel in
        let s := Snapshot t enc (Some v) lang in
        match diagnostics_of A s with
        | Panic => Panic
        | Done ds => Done (State (Memory docs []) (assoc_set u s sn) fuel', [ODiagnostics u ds (Some v)])
        end
    | None => Done (State (Memory docs []) (assoc_del u sn) fuel, [ODiagnostics u [] None])
    end.
  Proof.
    intros Hu. unfold ServerModel.process_changes. cbn [st_memory me_docs me_changes st_snapshots st_fuel change_all].
    unfold change_one. rewrite Hu. destruct (assoc u docs) as [[t v]|].
    - unfold pick, check_version, declared_version. rewrite Hu. destruct fuel as [|k]; cbn [obind]; unfold publish; rewrite assoc_set_same; cbn [sn_doc_version]; destruct (diagnostics_of A _); reflexivity.
    - unfold publish. rewrite assoc_del_same. reflexivity.
  Qed.

  (** * Notifications *)
  Lemma handle_notification_eq f n docs sn fuel :
    handle_notification f n (State (Memory docs []) sn fuel) =
    match target n docs with
    | None => SErr []
    | Some None => SNext (State (Memory docs []) sn fuel) []
    | Some (Some t) =>
        match process_changes f (State (Memory (set_doc t docs) [fst t]) sn fuel) with Panic => SPanic | Done (st', o) => SNext st' o end
    end.
  Proof.
    unfold ServerModel.handle_notification. cbn [st_memory st_snapshots st_fuel].
    pose proof (nroute_target n docs) as H.
    destruct (fold_left (nprocess n) (nroutes D) (Some (true, Memory docs []))) as [[b m]|]; cbn [option_map snd] in H;
      destruct (target n docs) as [[t|]|]; try discriminate; try reflexivity; injection H as ->; reflexivity.
  Qed.

  Lemma target_url n docs t : decoders_ok D P -> target n docs = Some (Some t) -> pf_url_parse P (fst t) = Some (fst t).
  Proof.
    intros HD. unfold target. destruct (str_eqb (nt_method n) M_OPEN).
    { destruct (dc_open D (nt_params n)) as [[[[u lang] v] text]|] eqn:E; [|discriminate].
      destruct (str_eqb lang _); [|discriminate]. intros H. injection H as <-. eapply do_open; eassumption. }
    destruct (str_eqb (nt_method n) M_CHANGE).
    { destruct (dc_change D (nt_params n)) as [[[u v] texts]|] eqn:E; [|discriminate].
      destruct (last_opt texts); [|discriminate]. destruct (assoc u docs); [|discriminate].
      intros H. injection H as <-. eapply do_change; eassumption. }
    destruct (str_eqb (nt_method n) M_CLOSE); [|discriminate].
    destruct (dc_close D (nt_params n)) as [u|] eqn:E; [|discriminate]. destruct (assoc u docs); [|discriminate].
    intros H. injection H as <-. eapply do_close; eassumption.
  Qed.

  Lemma last_opt_rev {B} (l : list B) : last_opt l = match rev l with x :: _ => Some x | [] => None end.
  Proof.
    destruct l as [|x l _] using rev_ind; [reflexivity|]. rewrite rev_unit.
    induction l as [|y l IH]; [reflexivity|]. cbn [app]. change (last_opt (y :: l ++ [x])) with
      (match l ++ [x] with [] => Some y | _ => last_opt (l ++ [x]) end). rewrite IH. destruct (l ++ [x]); [discriminate|reflexivity].
  Qed.

  (** The documents after a notification, in terms of the events. *)
  Lemma target_events n docs t u : target n docs = Some t ->
    assoc u (match t with Some t => set_doc t docs | None => docs end) =
    match event_of D (MNot n) u with
    | Some (EvOpen text v) => Some (text, v)
    | Some (EvChange text v) => match assoc u docs with Some _ => Some (text, v) | None => None end
    | Some EvClose => None
    | None => assoc u docs
    end.
  Proof.
    unfold target, event_of. change (lit "textDocument/didOpen") with M_OPEN. change (lit "textDocument/didChange") with M_CHANGE.
    change (lit "textDocument/didClose") with M_CLOSE.
    destruct (str_eqb (nt_method n) M_OPEN).
    { destruct (dc_open D (nt_params n)) as [[[[u' lang] v] text]|] eqn:E; [|discriminate].
      intros H. injection H as <-. destruct (str_eqb lang (lit "rust")).
      - unfold set_doc. cbn [fst snd]. destruct (str_eqb u u') eqn:Eu; cbn [andb].
        + apply str_eqb_eq in Eu. subst u'. apply assoc_set_same.
        + apply assoc_set_other. apply str_eqb_neq in Eu. congruence.
      - rewrite andb_false_r. reflexivity. }
    destruct (str_eqb (nt_method n) M_CHANGE).
    { destruct (dc_change D (nt_params n)) as [[[u' v] texts]|] eqn:E; [|discriminate].
      rewrite last_opt_rev. intros H. injection H as <-. destruct (str_eqb u u') eqn:Eu.
      - apply str_eqb_eq in Eu. subst u'. destruct (rev texts) as [|text r]; [reflexivity|].
        destruct (assoc u docs) eqn:Ed; [|exact Ed]. unfold set_doc. cbn [fst snd]. apply assoc_set_same.
      - apply str_eqb_neq in Eu. destruct (rev texts) as [|text r]; [reflexivity|].
        destruct (assoc u' docs); [|reflexivity]. unfold set_doc. cbn [fst snd]. apply assoc_set_other. congruence. }
    destruct (str_eqb (nt_method n) M_CLOSE); [|intros H; injection H as <-; reflexivity].
    destruct (dc_close D (nt_params n)) as [u'|] eqn:E; [|discriminate]. intros H. injection H as <-.
    destruct (str_eqb u u') eqn:Eu.
    - apply str_eqb_eq in Eu. subst u'. destruct (assoc u docs) eqn:Ed; [|exact Ed]. unfold set_doc. cbn [fst snd]. apply assoc_del_same.
    - apply str_eqb_neq in Eu. destruct (assoc u' docs); [|reflexivity]. unfold set_doc. cbn [fst snd]. apply assoc_del_other. congruence.
  Qed.

  Lemma set_doc_inv t docs sn f fuel st' o :
    decoders_ok D P -> pf_url_parse P (fst t) = Some (fst t) -> inv (State (Memory docs []) sn fuel) ->
    process_changes f (State (Memory (set_doc t docs) [fst t]) sn fuel) = Done (st', o) ->
    inv st' /\ me_docs (st_memory st') = set_doc t docs.
  Proof.
    intros HD Hu [_ Hinv] H. cbn [st_memory me_docs st_snapshots] in Hinv. rewrite process_one in H by exact Hu.
    destruct t as [u [[text v]|]]; unfold set_doc in *; cbn [fst snd] in *.
    - rewrite assoc_set_same in H. destruct (pick f u sn fuel) as [lang fuel'] eqn:Ep. cbv zeta in H. destruct (diagnostics_of A _); [|discriminate]. injection H as <- <-.
      split; [|reflexivity]. split; [reflexivity|]. cbn [st_memory me_docs st_snapshots]. intros u'.
      destruct (str_eqb u u') eqn:E.
      + apply str_eqb_eq in E. subst u'. rewrite !assoc_set_same. eexists. reflexivity.
      + apply str_eqb_neq in E. rewrite !assoc_set_other by exact E. apply Hinv.
    - rewrite assoc_del_same in H. injection H as <- <-. split; [|reflexivity]. split; [reflexivity|].
      cbn [st_memory me_docs st_snapshots]. intros u'. destruct (str_eqb u u') eqn:E.
      + apply str_eqb_eq in E. subst u'. rewrite !assoc_del_same. reflexivity.
      + apply str_eqb_neq in E. rewrite !assoc_del_other by exact E. apply Hinv.
  Qed.

  (** * Requests *)
  Lemma handle_request_eq f q docs sn fuel :
    handle_request f q (State (Memory docs []) sn fuel) =
    match route_request D A P U caps f sn q with
    | Some Panic => SPanic
    | Some (Done (id, r)) =>
        SNext (State (Memory docs []) sn (if is_migration q then 2 else fuel))
          (match command_of q with Some cmd => command_outputs caps cmd id r | None => [OResp id r] end)
    | None => SNext (State (Memory docs []) sn (if is_migration q then 2 else fuel)) []
    end.
  Proof.
    unfold ServerModel.handle_request. cbn [st_snapshots].
    destruct (route_request D A P U caps f sn q) as [[[id r]|]|]; try reflexivity;
      rewrite process_nothing; cbn [st_memory st_snapshots]; rewrite ?app_nil_r; destruct (is_migration q); reflexivity.
  Qed.

  (** * One message *)
  Definition one (f : fsys) (m : message) (st : state) : step_result :=
    match m with
    | MReq q => handle_request f q st
    | MNot n => handle_notification f n st
    | MResp id => handle_response P dbg id st
    end.
  Definition final (m : message) : bool :=
    match m with
    | MReq q => str_eqb (rq_method q) M_SHUTDOWN
    | MNot n => str_eqb (nt_method n) M_EXIT
    | MResp _ => false
    end.
  Lemma main_loop_cons f m rest st : final m = false ->
    main_loop ((f, m) :: rest) st =
    match one f m st with
    | SNext st' o => let '(s, os) := main_loop rest st' in (s, o :: os)
    | SErr o => (EndedErr, [o])
    | SPanic => (Crashed, [])
    end.
  Proof. destruct m; cbn [final ServerModel.main_loop one]; intros H; rewrite ?H; reflexivity. Qed.
  Lemma main_loop_final f m rest st : final m = true -> forall st', fst (main_loop ((f, m) :: rest) st) <> Open st'.
  Proof.
    destruct m as [q|n|id]; cbn [final ServerModel.main_loop]; intros H st'; [| |discriminate]; rewrite H; cbn [fst]; [|discriminate].
    destruct rest as [|[f' [ |n| ]] rest]; try discriminate. destruct (str_eqb (nt_method n) M_EXIT); discriminate.
  Qed.
  Lemma main_loop_app a : forall st st' os, main_loop a st = (Open st', os) ->
    forall b, main_loop (a ++ b) st = let '(s, os') := main_loop b st' in (s, os ++ os').
  Proof.
    induction a as [|[f m] a IH]; intros st st' os H b.
    - cbn in H. injection H as -> <-. cbn [app]. destruct (main_loop b st'); reflexivity.
    - destruct (final m) eqn:Ef; [exfalso; apply (main_loop_final f m a st Ef st'); rewrite H; reflexivity|].
      cbn [app]. rewrite main_loop_cons in H |- * by exact Ef. destruct (one f m st) as [st1 o|o|]; try discriminate.
      destruct (main_loop a st1) as [s os1] eqn:E1. injection H as -> <-. rewrite (IH _ _ _ E1).
      destruct (main_loop b st'); reflexivity.
  Qed.
  Lemma main_loop_app_open a b st st2 os : main_loop (a ++ b) st = (Open st2, os) ->
    exists st1 os1 os2, main_loop a st = (Open st1, os1) /\ main_loop b st1 = (Open st2, os2) /\ os = os1 ++ os2.
  Proof.
    revert st os. induction a as [|[f m] a IH]; intros st os H.
    - exists st, [], os. auto.
    - cbn [app] in H. destruct (final m) eqn:Ef.
      { exfalso; apply (main_loop_final f m (a ++ b) st Ef st2); rewrite H; reflexivity. }
      rewrite main_loop_cons in H |- * by exact Ef. destruct (one f m st) as [st1 o|o|]; try discriminate.
      destruct (main_loop (a ++ b) st1) as [s os1] eqn:E1. injection H as -> <-.
      destruct (IH _ _ E1) as [st1' [o1 [o2 [H1 [H2 ->]]]]]. rewrite H1. exists st1', (o :: o1), o2. auto.
  Qed.
  Lemma main_loop_snoc a f m st st2 os : main_loop (a ++ [(f, m)]) st = (Open st2, os) ->
    exists st1 os1 o, main_loop a st = (Open st1, os1) /\ final m = false /\ one f m st1 = SNext st2 o /\ os = os1 ++ [o].
  Proof.
    intros H. apply main_loop_app_open in H as [st1 [os1 [os2 [H1 [H2 ->]]]]]. exists st1, os1.
    destruct (final m) eqn:Ef; [exfalso; apply (main_loop_final f m [] st1 Ef st2); rewrite H2; reflexivity|].
    rewrite main_loop_cons in H2 by exact Ef. destruct (one f m st1) as [st' o|o|]; try discriminate.
    cbn in H2. injection H2 as -> <-. exists o. auto.
  Qed.

  Lemma one_inv f m st st' o : decoders_ok D P -> inv st -> one f m st = SNext st' o ->
    inv st' /\ forall u, assoc u (me_docs (st_memory st')) =
      match event_of D m u with
      | Some (EvOpen text v) => Some (text, v)
      | Some (EvChange text v) => match assoc u (me_docs (st_memory st)) with Some _ => Some (text, v) | None => None end
      | Some EvClose => None
      | None => assoc u (me_docs (st_memory st))
      end.
  Proof.
    intros HD Hinv H. destruct st as [[docs ch] sn fuel]. pose proof Hinv as [Hch _]. cbn in Hch. subst ch.
    destruct m as [q|n|id]; cbn [one] in H.
    - rewrite handle_request_eq in H. destruct (route_request D A P U caps f sn q) as [[[id r]|]|]; try discriminate;
      injection H as <- <-; (split; [|intros u; reflexivity]); split; try reflexivity; apply Hinv.
    - rewrite handle_notification_eq in H. destruct (target n docs) as [t|] eqn:Et; [|discriminate].
      destruct t as [t|].
      + destruct (process_changes f _) as [[st1 o1]|] eqn:Ep; [|discriminate]. injection H as <- <-.
        pose proof (target_url n docs t HD Et) as Hu.
        destruct (set_doc_inv t docs sn f fuel st1 o1 HD Hu Hinv Ep) as [H1 H2]. split; [exact H1|].
        intros u. rewrite H2. cbn [st_memory me_docs]. apply (target_events n docs (Some t) u Et).
      + injection H as <- <-. split; [exact Hinv|]. intros u. cbn [st_memory me_docs]. apply (target_events n docs None u Et).
    - unfold handle_response in H. injection H as <- _. split; [exact Hinv|]. intros u. reflexivity.
  Qed.

  Lemma run_inv msgs st os : decoders_ok D P -> main_loop msgs initial = (Open st, os) -> inv st.
  Proof.
    intros HD. revert st os. induction msgs as [|[f m] msgs IH] using rev_ind; intros st os H.
    - cbn in H. injection H as <- _. apply inv_initial.
    - apply main_loop_snoc in H as [st1 [os1 [o [H1 [_ [H2 _]]]]]].
      apply (one_inv f m st1 st o HD (IH _ _ H1) H2).
  Qed.

  (** * The client's view *)
  Lemma is_open_snoc h f m u : is_open D (h ++ [(f, m)]) u <->
    match event_of D m u with
    | Some (EvOpen _ _) => True
    | Some EvClose => False
    | _ => is_open D h u
    end.
  Proof.
    split.
    - intros (h1 & f0 & m0 & h2 & text & v & E & Ho & Hn).
      destruct h2 as [|[f2 m2] h2 _] using rev_ind.
      + apply app_inj_tail in E as [<- E]. injection E as -> ->. rewrite Ho. exact I.
      + rewrite app_comm_cons, app_assoc in E. apply app_inj_tail in E as [E E2]. injection E2 as <- <-.
        assert (K : is_open D h u).
        { exists h1, f0, m0, h2, text, v. split; [exact E|]. split; [exact Ho|].
          intros f' m' Hin. apply (Hn f' m'). apply in_or_app. left. exact Hin. }
        pose proof (Hn f m ltac:(apply in_or_app; right; left; reflexivity)) as Hc.
        destruct (event_of D m u) as [[| |]|]; auto.
    - intros H. assert (K : event_of D m u <> Some EvClose -> is_open D h u -> is_open D (h ++ [(f, m)]) u).
      { intros Hc (h1 & f0 & m0 & h2 & text & v & E & Ho & Hn). exists h1, f0, m0, (h2 ++ [(f, m)]), text, v.
        split; [rewrite E, <- app_assoc; reflexivity|]. split; [exact Ho|].
        intros f' m' Hin. apply in_app_or in Hin as [Hin|[Hin|[]]]; [apply (Hn f' m' Hin)|]. injection Hin as <- <-. exact Hc. }
      destruct (event_of D m u) as [[text v|text v|]|] eqn:E; [|apply K; [congruence | exact H] | destruct H | apply K; [congruence | exact H]].
      exists h, f, m, [], text, v. split; [reflexivity|]. split; [exact E|]. intros f' m' [].
  Qed.
  Lemma client_holds_snoc h f m u text v : client_holds D (h ++ [(f, m)]) u text v <->
    match event_of D m u with
    | Some (EvOpen text' v') => text = text' /\ v = v'
    | Some (EvChange text' v') => text = text' /\ v = v' /\ is_open D h u
    | Some EvClose => False
    | None => client_holds D h u text v
    end.
  Proof.
    split.
    - intros (h1 & f0 & m0 & h2 & E & Hn & He).
      destruct h2 as [|[f2 m2] h2 _] using rev_ind.
      + apply app_inj_tail in E as [<- E]. injection E as -> ->. destruct He as [->|[-> Ho]]; auto.
      + rewrite app_comm_cons, app_assoc in E. apply app_inj_tail in E as [E E2]. injection E2 as <- <-.
        rewrite (Hn f m ltac:(apply in_or_app; right; left; reflexivity)).
        exists h1, f0, m0, h2. split; [exact E|]. split; [|exact He].
        intros f' m' Hin. apply (Hn f' m'). apply in_or_app. left. exact Hin.
    - intros H. destruct (event_of D m u) as [[text' v'|text' v'|]|] eqn:E.
      + destruct H as [-> ->]. exists h, f, m, []. split; [reflexivity|]. split; [intros f' m' []|]. left. exact E.
      + destruct H as [-> [-> Ho]]. exists h, f, m, []. split; [reflexivity|]. split; [intros f' m' []|]. right. auto.
      + destruct H.
      + destruct H as (h1 & f0 & m0 & h2 & -> & Hn & He). exists h1, f0, m0, (h2 ++ [(f, m)]).
        split; [rewrite <- app_assoc; reflexivity|]. split; [|exact He].
        intros f' m' Hin. apply in_app_or in Hin as [Hin|[Hin|[]]]; [apply (Hn f' m' Hin)|]. injection Hin as <- <-. exact E.
  Qed.
  Lemma is_open_nil u : ~ is_open D [] u.
  Proof. intros (h1 & f & m & h2 & text & v & E & _). destruct h1; discriminate. Qed.
  Lemma client_holds_nil u text v : ~ client_holds D [] u text v.
  Proof. intros (h1 & f & m & h2 & E & _). destruct h1; discriminate. Qed.

  Lemma docs_spec msgs : forall st os u, decoders_ok D P -> main_loop msgs initial = (Open st, os) ->
    (forall text v, assoc u (me_docs (st_memory st)) = Some (text, v) <-> client_holds D msgs u text v)
    /\ (is_some (assoc u (me_docs (st_memory st))) = true <-> is_open D msgs u).
  Proof.
    induction msgs as [|[f m] msgs IH] using rev_ind; intros st os u HD H.
    - cbn in H. injection H as <- _. cbn. split.
      + intros text v. split; [discriminate|]. intros K. destruct (client_holds_nil _ _ _ K).
      + split; [discriminate|]. intros K. destruct (is_open_nil _ K).
    - apply main_loop_snoc in H as [st1 [os1 [o [H1 [_ [H2 _]]]]]].
      pose proof (run_inv msgs st1 os1 HD H1) as Hinv.
      destruct (one_inv f m st1 st o HD Hinv H2) as [_ Hd]. specialize (Hd u).
      destruct (IH st1 os1 u HD H1) as [IH1 IH2]. split.
      + intros text v. rewrite client_holds_snoc, Hd. destruct (event_of D m u) as [[text' v'|text' v'|]|].
        * split; [intros K; injection K as <- <-; auto | intros [-> ->]; reflexivity].
        * destruct (assoc u (me_docs (st_memory st1))) as [x|].
          -- split; [intros K; injection K as <- <-; split; [reflexivity|]; split; [reflexivity | apply IH2; reflexivity]|].
             intros [-> [-> _]]. reflexivity.
          -- split; [discriminate|]. intros [_ [_ K]]. apply IH2 in K. discriminate.
        * split; [discriminate | intros []].
        * apply IH1.
      + rewrite is_open_snoc, Hd. destruct (event_of D m u) as [[text' v'|text' v'|]|].
        * split; auto.
        * rewrite <- IH2. destruct (assoc u (me_docs (st_memory st1))); split; auto.
        * split; [discriminate | intros []].
        * exact IH2.
  Qed.

  (** * Queries *)
  Lemma query_command D' q u qu : query_of D' q = Some (u, qu) -> command_of q = None /\ is_migration q = false /\ final (MReq q) = false.
  Proof.
    intros H. unfold final, is_migration, is_migration_resolve, command_of.
    assert (Hm : In (rq_method q) [M_COMPLETION; M_HOVER; M_CODE_ACTION; M_INLAY; M_SIGNATURE]).
    { unfold query_of in H.
      repeat match type of H with (if ?b then _ else _) = _ => destruct b eqn:E; [apply str_eqb_eq in E; rewrite E; cbn; tauto|]; clear E end.
      discriminate. }
    repeat (destruct Hm as [<-|Hm]; [vm_compute; auto|]). destruct Hm.
  Qed.
  Lemma answer_route f sn q u qu : query_of D q = Some (u, qu) ->
    route_request D A P U caps f sn q = Some
      match assoc u sn with
      | None => Done (rq_id q, ROk PNull)
      | Some s => if str_eqb (sn_encoding s) enc
                  then match answer A caps u (sn_text s) (sn_lang s) qu with Done r => Done (rq_id q, r) | Panic => Panic end
                  else match route_request D A P U caps f sn q with Some x => x | None => Panic end
      end.
  Proof.
    intros H. destruct (assoc u sn) as [[t e v lang]|] eqn:Es.
    - cbn [sn_encoding sn_text sn_lang]. destruct (str_eqb e enc) eqn:Ee.
      2:{ rewrite route_request_eq at 1. rewrite route_request_eq. reflexivity. }
      apply str_eqb_eq in Ee. subst e. rewrite route_request_eq. cbv zeta. unfold query_of in H. cbv zeta in H.
      change (lit "textDocument/completion") with M_COMPLETION in H. change (lit "textDocument/hover") with M_HOVER in H.
      change (lit "textDocument/codeAction") with M_CODE_ACTION in H. change (lit "textDocument/inlayHint") with M_INLAY in H.
      change (lit "textDocument/signatureHelp") with M_SIGNATURE in H.
      destruct (str_eqb (rq_method q) M_COMPLETION).
      { destruct (dc_completion D (rq_params q)) as [[u' p]|]; [|discriminate]. cbn [option_map fst snd] in H |- *. injection H as -> <-.
        unfold handle_completion. cbn [fst snd]. rewrite Es. unfold sn_context. cbn [sn_encoding sn_text sn_lang answer].
        fold enc. destruct (from_lsp_offset _ p); [|reflexivity]. destruct (an_completions A t lang n) as [l|]; [|reflexivity].
        cbn [bind_outcome]. destruct (filter_map _ l); reflexivity. }
      destruct (str_eqb (rq_method q) M_HOVER).
      { destruct (dc_hover D (rq_params q)) as [[u' p]|]; [|discriminate]. cbn [option_map fst snd] in H |- *. injection H as -> <-.
        unfold handle_hover. cbn [fst snd]. rewrite Es. unfold sn_context. cbn [sn_encoding sn_text sn_lang answer].
        fold enc. destruct (from_lsp_offset _ p); [|reflexivity]. destruct (an_hover A t lang (n, n)) as [l|]; [|reflexivity].
        cbn [bind_outcome]. destruct (obind l _); reflexivity. }
      destruct (str_eqb (rq_method q) M_CODE_ACTION).
      { destruct (dc_code_action D (rq_params q)) as [[u' p]|]; [|discriminate]. cbn [option_map fst snd] in H |- *. injection H as -> <-.
        unfold handle_code_action. cbn [fst snd]. rewrite Es. unfold sn_context. cbn [sn_encoding sn_text sn_lang answer].
        fold enc. destruct (from_lsp_text_range _ p); [|reflexivity]. destruct (an_actions A t lang p0) as [l|]; reflexivity. }
      destruct (str_eqb (rq_method q) M_RESOLVE) eqn:Er.
      { apply str_eqb_eq in Er. rewrite Er in H. discriminate H. }
      destruct (str_eqb (rq_method q) M_INLAY).
      { destruct (dc_inlay D (rq_params q)) as [[u' p]|]; [|discriminate]. cbn [option_map fst snd] in H |- *. injection H as -> <-.
        unfold handle_inlay_hint. cbn [fst snd]. rewrite Es. unfold sn_context. cbn [sn_encoding sn_text sn_lang answer].
        fold enc. destruct (from_lsp_text_range _ p); [|reflexivity]. destruct (an_inlay A t lang p0); reflexivity. }
      destruct (str_eqb (rq_method q) M_SIGNATURE); [|discriminate].
      destruct (dc_signature D (rq_params q)) as [[[u' p] prev]|]; [|discriminate]. cbn [option_map fst snd] in H |- *. injection H as -> <-.
      unfold handle_signature_help. cbn [fst snd]. rewrite Es. unfold sn_context. cbn [sn_encoding sn_text sn_lang answer].
      fold enc. destruct (from_lsp_offset _ p); [|reflexivity]. destruct (an_signature A t lang n) as [l|]; [|reflexivity].
      cbn [bind_outcome]. destruct (to_lsp_signature_help _ _ _ _) as [[h|]|]; reflexivity.
    - rewrite route_request_eq. cbv zeta. unfold query_of in H. cbv zeta in H.
      change (lit "textDocument/completion") with M_COMPLETION in H. change (lit "textDocument/hover") with M_HOVER in H.
      change (lit "textDocument/codeAction") with M_CODE_ACTION in H. change (lit "textDocument/inlayHint") with M_INLAY in H.
      change (lit "textDocument/signatureHelp") with M_SIGNATURE in H.
      destruct (str_eqb (rq_method q) M_COMPLETION).
      { destruct (dc_completion D (rq_params q)) as [[u' p]|]; [|discriminate]. cbn [option_map fst snd] in H |- *. injection H as -> <-.
        unfold handle_completion. cbn [fst snd]. rewrite Es. reflexivity. }
      destruct (str_eqb (rq_method q) M_HOVER).
      { destruct (dc_hover D (rq_params q)) as [[u' p]|]; [|discriminate]. cbn [option_map fst snd] in H |- *. injection H as -> <-.
        unfold handle_hover. cbn [fst snd]. rewrite Es. reflexivity. }
      destruct (str_eqb (rq_method q) M_CODE_ACTION).
      { destruct (dc_code_action D (rq_params q)) as [[u' p]|]; [|discriminate]. cbn [option_map fst snd] in H |- *. injection H as -> <-.
        unfold handle_code_action. cbn [fst snd]. rewrite Es. reflexivity. }
      destruct (str_eqb (rq_method q) M_RESOLVE) eqn:Er.
      { apply str_eqb_eq in Er. rewrite Er in H. discriminate H. }
      destruct (str_eqb (rq_method q) M_INLAY).
      { destruct (dc_inlay D (rq_params q)) as [[u' p]|]; [|discriminate]. cbn [option_map fst snd] in H |- *. injection H as -> <-.
        unfold handle_inlay_hint. cbn [fst snd]. rewrite Es. reflexivity. }
      destruct (str_eqb (rq_method q) M_SIGNATURE); [|discriminate].
      destruct (dc_signature D (rq_params q)) as [[[u' p] prev]|]; [|discriminate]. cbn [option_map fst snd] in H |- *. injection H as -> <-.
      unfold handle_signature_help. cbn [fst snd]. rewrite Es. reflexivity.
  Qed.

  Lemma query_step f q u qu st : inv st -> query_of D q = Some (u, qu) ->
    handle_request f q st =
    match assoc u (st_snapshots st) with
    | None => SNext st [OResp (rq_id q) (ROk PNull)]
    | Some s => match answer A caps u (sn_text s) (sn_lang s) qu with
                | Done r => SNext st [OResp (rq_id q) r]
                | Panic => SPanic
                end
    end.
  Proof.
    intros Hinv Hq. destruct st as [[docs ch] sn fuel]. pose proof Hinv as [Hch Hsn]. cbn in Hch. subst ch.
    destruct (query_command D q u qu Hq) as [Hc [Hm _]].
    rewrite handle_request_eq, (answer_route f sn q u qu Hq), Hc, Hm. cbn [st_snapshots].
    destruct (assoc u sn) as [s|] eqn:Es; [|reflexivity].
    specialize (Hsn u). cbn [st_memory me_docs st_snapshots] in Hsn. destruct (assoc u docs) as [[t v]|]; [|congruence].
    destruct Hsn as [lang Hl]. rewrite Hl in Es. injection Es as <-. cbn [sn_encoding sn_text sn_lang].
    rewrite str_eqb_refl. destruct (answer A caps u t lang qu); reflexivity.
  Qed.

  Lemma main_loop_open_snoc msgs st os f m : main_loop msgs initial = (Open st, os) -> final m = false ->
    main_loop (msgs ++ [(f, m)]) initial =
    match one f m st with
    | SNext st' o => (Open st', os ++ [o])
    | SErr o => (EndedErr, os ++ [o])
    | SPanic => (Crashed, os)
    end.
  Proof.
    intros H Hf. rewrite (main_loop_app msgs _ _ _ H), main_loop_cons by exact Hf.
    destruct (one f m st) as [st' o|o|]; try reflexivity. rewrite app_nil_r. reflexivity.
  Qed.

  (** A notification ends the process exactly if the diagnostics of the text it brings fail. *)
  Lemma notification_panic f n docs sn fuel : decoders_ok D P ->
    (handle_notification f n (State (Memory docs []) sn fuel) = SPanic <->
     exists u t v, (event_of D (MNot n) u = Some (EvOpen t v) \/ (event_of D (MNot n) u = Some (EvChange t v) /\ is_some (assoc u docs) = true))
       /\ an_diagnostics A t (fst (pick f u sn fuel)) = Panic).
  Proof.
    intros HD. rewrite handle_notification_eq.
    assert (Hone : forall u t v, pf_url_parse P u = Some u ->
      (match process_changes f (State (Memory (set_doc (u, Some (t, v)) docs) [fst (u, Some (t, v))]) sn fuel) with Panic => SPanic | Done (st', o) => SNext st' o end = SPanic
       <-> an_diagnostics A t (fst (pick f u sn fuel)) = Panic)).
    { intros u t v Hu. cbn [fst]. rewrite process_one by exact Hu. unfold set_doc. cbn [fst snd]. rewrite assoc_set_same. destruct (pick f u sn fuel) as [l fuel'].
      cbv zeta. unfold diagnostics_of. cbn [sn_text sn_lang fst]. destruct (an_diagnostics A t l); split; intros; congruence. }
    unfold event_of, target.
    change (lit "textDocument/didOpen") with M_OPEN. change (lit "textDocument/didChange") with M_CHANGE. change (lit "textDocument/didClose") with M_CLOSE.
    destruct (str_eqb (nt_method n) M_OPEN).
    { destruct (dc_open D (nt_params n)) as [[[[u lang] v] t]|] eqn:E; [|split; [discriminate|]; intros (? & ? & ? & [K|[K _]] & _); discriminate].
      assert (Hu : pf_url_parse P u = Some u) by (eapply do_open; eassumption).
      destruct (str_eqb lang (lit "rust")).
      - rewrite (Hone u t v Hu). split.
        + intros K. exists u, t, v. rewrite str_eqb_refl. split; [left; reflexivity | exact K].
        + intros (u0 & t0 & v0 & K & K'). destruct (str_eqb u0 u) eqn:Eu; cbn [andb] in K; [|destruct K as [K|[K _]]; discriminate].
          apply str_eqb_eq in Eu. subst u0. destruct K as [K|[K _]]; [injection K as <- <-; exact K' | discriminate].
      - split; [discriminate|]. intros (u0 & t0 & v0 & K & _). rewrite andb_false_r in K. destruct K as [K|[K _]]; discriminate. }
    destruct (str_eqb (nt_method n) M_CHANGE).
    { destruct (dc_change D (nt_params n)) as [[[u v] texts]|] eqn:E; [|split; [discriminate|]; intros (? & ? & ? & [K|[K _]] & _); discriminate].
      assert (Hu : pf_url_parse P u = Some u) by (eapply do_change; eassumption).
      rewrite last_opt_rev. destruct (rev texts) as [|t r].
      { split; [discriminate|]. intros (u0 & ? & ? & K & _). destruct (str_eqb u0 u); destruct K as [K|[K _]]; discriminate. }
      destruct (assoc u docs) as [x|] eqn:Ed.
      - rewrite (Hone u t v Hu). split.
        + intros K. exists u, t, v. rewrite str_eqb_refl, Ed. split; [right; split; reflexivity | exact K].
        + intros (u0 & t0 & v0 & K & K'). destruct (str_eqb u0 u) eqn:Eu; [|destruct K as [K|[K _]]; discriminate].
          apply str_eqb_eq in Eu. subst u0. destruct K as [K|[K _]]; [discriminate | injection K as <- <-; exact K'].
      - split; [discriminate|]. intros (u0 & t0 & v0 & K & _). destruct (str_eqb u0 u) eqn:Eu; [|destruct K as [K|[K _]]; discriminate].
        apply str_eqb_eq in Eu. subst u0. rewrite Ed in K. destruct K as [K|[_ K]]; discriminate. }
    destruct (str_eqb (nt_method n) M_CLOSE).
    { destruct (dc_close D (nt_params n)) as [u|] eqn:E; [|split; [discriminate|]; intros (? & ? & ? & [K|[K _]] & _); discriminate].
      assert (Hu : pf_url_parse P u = Some u) by (eapply do_close; eassumption). split.
      - destruct (assoc u docs); [|discriminate]. cbn [fst]. rewrite process_one by exact Hu. unfold set_doc. cbn [fst snd]. rewrite assoc_del_same. discriminate.
      - intros (u0 & t0 & v0 & K & _). destruct (str_eqb u0 u); destruct K as [K|[K _]]; discriminate. }
    split; [discriminate|]. intros (? & ? & ? & [K|[K _]] & _); discriminate.
  Qed.

  (** * What one message does to analyses, versions and diagnostics *)
  Lemma one_effect f m st st' o : decoders_ok D P -> inv st -> one f m st = SNext st' o ->
    let docs := me_docs (st_memory st) in
    let held u := is_some (assoc u docs) in
    (exists u t v, (event_of D m u = Some (EvOpen t v) \/ (event_of D m u = Some (EvChange t v) /\ held u = true))
       /\ (forall u' , u' <> u -> event_of D m u' = None)
       /\ let '(lang, fuel') := pick f u (st_snapshots st) (st_fuel st) in
          st_fuel st' = fuel' /\ st_snapshots st' = assoc_set u (Snapshot t enc (Some v) lang) (st_snapshots st)
          /\ exists ds, client_diagnostics A caps t lang = Done ds /\ o = [ODiagnostics u ds (Some v)])
    \/ (exists u, event_of D m u = Some EvClose /\ held u = true /\ (forall u' , u' <> u -> event_of D m u' = None)
         /\ st_fuel st' = st_fuel st /\ st_snapshots st' = assoc_del u (st_snapshots st) /\ o = [ODiagnostics u [] None])
    \/ ((forall u, match event_of D m u with
                  | Some (EvOpen _ _) => False | Some (EvChange _ _) => held u = false | Some EvClose => held u = false | None => True end)
        /\ st_snapshots st' = st_snapshots st
        /\ st_fuel st' = (match m with MReq q => if is_migration q then 2 else st_fuel st | _ => st_fuel st end)
        /\ diagnostics_outputs o = []).
  Proof.
    intros HD Hinv H docs held. destruct st as [[docs' ch] sn fuel]. pose proof Hinv as [Hch _]. cbn in Hch. subst ch.
    cbn [st_memory me_docs st_snapshots st_fuel] in *. subst docs. rename docs' into docs.
    destruct m as [q|n|id]; cbn [one] in H.
    - right. right. split; [intros u; exact I|]. rewrite handle_request_eq in H.
      destruct (route_request D A P U caps f sn q) as [[[id r]|]|]; try discriminate; injection H as <- <-;
        (split; [reflexivity|]; split; [reflexivity|]); [|reflexivity].
      destruct (command_of q) as [cmd|]; [|reflexivity]. unfold command_outputs.
      destruct (command_edit caps cmd r) as [[[? ?] ?]|]; reflexivity.
    - rewrite handle_notification_eq in H. unfold event_of. unfold target in H.
      change (lit "textDocument/didOpen") with M_OPEN. change (lit "textDocument/didChange") with M_CHANGE.
      change (lit "textDocument/didClose") with M_CLOSE.
      destruct (str_eqb (nt_method n) M_OPEN).
      { destruct (dc_open D (nt_params n)) as [[[[u lang] v] t]|] eqn:E; [|discriminate].
        assert (Hu : pf_url_parse P u = Some u) by (eapply do_open; eassumption).
        destruct (str_eqb lang (lit "rust")) eqn:El.
        - left. exists u, t, v. rewrite str_eqb_refl. cbn [andb]. split; [left; reflexivity|]. split.
          { intros u' Hne. apply str_eqb_neq in Hne. rewrite Hne. reflexivity. }
          cbn [set_doc fst snd] in H. rewrite process_one in H by exact Hu.
          unfold set_doc in H. cbn [fst snd] in H. rewrite assoc_set_same in H.
          destruct (pick f u sn fuel) as [l fuel']. cbv zeta in H. destruct (diagnostics_of A _) as [ds|] eqn:Eds; [|discriminate]. injection H as <- <-.
          split; [reflexivity|]. split; [reflexivity|]. exists ds. split; [|reflexivity]. rewrite <- Eds. unfold client_diagnostics, diagnostics_of, bind_outcome, sn_context. cbn [sn_text sn_lang sn_encoding]. destruct (an_diagnostics A t l); reflexivity.
        - right. right. injection H as <- <-. split; [intros u'; rewrite andb_false_r; exact I|]. auto. }
      destruct (str_eqb (nt_method n) M_CHANGE).
      { destruct (dc_change D (nt_params n)) as [[[u v] texts]|] eqn:E; [|discriminate].
        assert (Hu : pf_url_parse P u = Some u) by (eapply do_change; eassumption).
        rewrite last_opt_rev in H. destruct (rev texts) as [|t r] eqn:Er.
        { right. right. injection H as <- <-. split; [intros u'; destruct (str_eqb u' u); exact I|]. auto. }
        destruct (assoc u docs) as [x|] eqn:Ed.
        - left. exists u, t, v. rewrite str_eqb_refl. split; [right; split; [reflexivity | unfold held; rewrite Ed; reflexivity]|]. split.
          { intros u' Hne. apply str_eqb_neq in Hne. rewrite Hne. reflexivity. }
          rewrite process_one in H by exact Hu.
          unfold set_doc in H. cbn [fst snd] in H. rewrite assoc_set_same in H.
          destruct (pick f u sn fuel) as [l fuel']. cbv zeta in H. destruct (diagnostics_of A _) as [ds|] eqn:Eds; [|discriminate]. injection H as <- <-.
          split; [reflexivity|]. split; [reflexivity|]. exists ds. split; [|reflexivity]. rewrite <- Eds. unfold client_diagnostics, diagnostics_of, bind_outcome, sn_context. cbn [sn_text sn_lang sn_encoding]. destruct (an_diagnostics A t l); reflexivity.
        - right. right. injection H as <- <-. split; [|auto]. intros u'. destruct (str_eqb u' u) eqn:Eu; [|exact I].
          apply str_eqb_eq in Eu. subst u'. unfold held. rewrite Ed. reflexivity. }
      destruct (str_eqb (nt_method n) M_CLOSE).
      { destruct (dc_close D (nt_params n)) as [u|] eqn:E; [|discriminate].
        assert (Hu : pf_url_parse P u = Some u) by (eapply do_close; eassumption).
        destruct (assoc u docs) as [x|] eqn:Ed.
        - right. left. exists u. rewrite str_eqb_refl. split; [reflexivity|]. split; [unfold held; rewrite Ed; reflexivity|]. split.
          { intros u' Hne. apply str_eqb_neq in Hne. rewrite Hne. reflexivity. }
          rewrite process_one in H by exact Hu.
          unfold set_doc in H. cbn [fst snd] in H. rewrite assoc_del_same in H. injection H as <- <-. auto.
        - right. right. injection H as <- <-. split; [|auto]. intros u'. destruct (str_eqb u' u) eqn:Eu; [|exact I].
          apply str_eqb_eq in Eu. subst u'. unfold held. rewrite Ed. reflexivity. }
      right. right. injection H as <- <-. split; [intros u; exact I|]. auto.
    - right. right. unfold handle_response in H. injection H as <- <-. split; [intros u; exact I|]. split; [reflexivity|]. split; [reflexivity|].
      match goal with |- diagnostics_outputs (match ?x with _ => _ end) = _ => destruct x; reflexivity end.
  Qed.

  Lemma is_migration_spec m : (match m with MReq q => is_migration q | _ => false end) = true <-> migration_request m.
  Proof.
    unfold migration_request. destruct m as [q|n|id]; [|split; [discriminate | intros (q & ? & _); discriminate]..].
    unfold is_migration, is_migration_resolve, command_of. change COMMAND_MIGRATE_PROJECT with (lit "migrateProject").
    change M_RESOLVE with (lit "codeAction/resolve"). change M_EXECUTE with (lit "workspace/executeCommand"). split.
    - intros H. exists q. split; [reflexivity|]. apply orb_true_iff in H as [H|H].
      + right. apply andb_true_iff in H as [H1 H2]. apply str_eqb_eq in H1. split; [exact H1|].
        destruct (obind _ jstr) as [c|]; [|discriminate]. apply str_eqb_eq in H2. subst c. reflexivity.
      + left. destruct (str_eqb (rq_method q) _) eqn:E; [|discriminate]. apply str_eqb_eq in E. split; [exact E|].
        destruct (obind _ jstr) as [c|]; [|discriminate]. apply str_eqb_eq in H. subst c. reflexivity.
    - intros (q' & Hq & H). injection Hq as <-. apply orb_true_iff. destruct H as [[H1 H2]|[H1 H2]].
      + right. rewrite H1, str_eqb_refl, H2, str_eqb_refl. reflexivity.
      + left. rewrite H1, str_eqb_refl, H2, str_eqb_refl. reflexivity.
  Qed.

  (** The fuel: two minus the analyses since the last migration request. *)
  Definition fuel_ok (h : history) (os : list (list output)) (fuel : nat) : Prop :=
    (fuel = 0 /\ forall f m, In (f, m) h -> ~ migration_request m)
    \/ exists h1 f m h2 os1 o os2, h = h1 ++ (f, m) :: h2 /\ os = os1 ++ o :: os2 /\ length os1 = length h1
         /\ migration_request m /\ (forall f' m', In (f', m') h2 -> ~ migration_request m')
         /\ fuel = 2 - analyses (concat os2).
  Lemma analyses_app a b : analyses (a ++ b) = analyses a + analyses b.
  Proof. unfold analyses. rewrite filter_app, app_length. reflexivity. Qed.
  Lemma analyses_none o : diagnostics_outputs o = [] -> analyses o = 0.
  Proof.
    unfold analyses, diagnostics_outputs. induction o as [|x o IH]; [reflexivity|]. cbn [filter].
    destruct x; try exact IH. discriminate.
  Qed.
  Lemma open_length msgs : forall st st' os, main_loop msgs st = (Open st', os) -> length os = length msgs.
  Proof.
    induction msgs as [|[f m] msgs IH]; intros st st' os H.
    - cbn in H. injection H as _ <-. reflexivity.
    - destruct (final m) eqn:Ef; [exfalso; apply (main_loop_final f m msgs st Ef st'); rewrite H; reflexivity|].
      rewrite main_loop_cons in H by exact Ef. destruct (one f m st) as [st1 o|o|]; try discriminate.
      destruct (main_loop msgs st1) as [s os1] eqn:E1. injection H as -> <-. cbn [length]. f_equal. eapply IH; eassumption.
  Qed.
  Lemma fuel_spec msgs : forall st os, decoders_ok D P -> main_loop msgs initial = (Open st, os) -> fuel_ok msgs os (st_fuel st).
  Proof.
    induction msgs as [|[f m] msgs IH] using rev_ind; intros st os HD H.
    - cbn in H. injection H as <- <-. left. split; [reflexivity|]. intros f m [].
    - apply main_loop_snoc in H as [st1 [os1 [o [H1 [_ [H2 ->]]]]]].
      pose proof (run_inv msgs st1 os1 HD H1) as Hinv. specialize (IH st1 os1 HD H1).
      pose proof (one_effect f m st1 st o HD Hinv H2) as Heff. cbv zeta in Heff.
      pose proof (open_length _ _ _ _ H1) as Hlen.
      destruct (match m with MReq q => is_migration q | _ => false end) eqn:Em.
      + (* a migration request *)
        pose proof Em as Em'. apply is_migration_spec in Em. right. exists msgs, f, m, [], os1, o, [].
        split; [reflexivity|]. split; [reflexivity|]. split; [exact Hlen|]. split; [exact Em|]. split; [intros f' m' []|].
        cbn [concat]. destruct m as [q|n|id]; try discriminate.
        destruct Heff as [(u & t & v & [E|[E _]] & _)|[(u & E & _)|(_ & _ & E & _)]]; try discriminate.
        rewrite Em' in E. exact E.
      + assert (Hnm : ~ migration_request m). { intros K. apply is_migration_spec in K. congruence. }
        assert (Hf : st_fuel st = st_fuel st1 - analyses o).
        { destruct Heff as [(u & t & v & E & _ & K)|[(u & E & _ & _ & K1 & _ & ->)|(_ & _ & E & K)]].
          - unfold pick in K. destruct (st_fuel st1) as [|k].
            + destruct K as [K1 [_ (ds & _ & ->)]]. rewrite K1. reflexivity.
            + destruct K as [K1 [_ (ds & _ & ->)]]. rewrite K1. cbn. lia.
          - rewrite K1. cbn. lia.
          - rewrite (analyses_none o K). rewrite E. destruct m as [q|n|id]; try lia. rewrite Em. lia. }
        destruct IH as [[IH1 IH2]|(h1 & f0 & m0 & h2 & o1 & o0 & o2 & -> & -> & L & Mm & Mn & IH)].
        * left. split; [rewrite Hf, IH1; reflexivity|]. intros f' m' Hin. apply in_app_or in Hin as [Hin|[Hin|[]]].
          -- apply (IH2 _ _ Hin).
          -- injection Hin as <- <-. exact Hnm.
        * right. exists h1, f0, m0, (h2 ++ [(f, m)]), o1, o0, (o2 ++ [o]).
          split; [rewrite <- app_assoc; reflexivity|]. split; [rewrite <- app_assoc; reflexivity|]. split; [exact L|]. split; [exact Mm|].
          split; [|rewrite concat_app, analyses_app, Hf, IH; cbn [concat]; rewrite app_nil_r; lia].
          intros f' m' Hin. apply in_app_or in Hin as [Hin|[Hin|[]]]; [apply (Mn _ _ Hin)|]. injection Hin as <- <-. exact Hnm.
  Qed.
  Lemma split_last_unique (h1 h1' : history) x x' h2 h2' (Q : message -> Prop) :
    h1 ++ x :: h2 = h1' ++ x' :: h2' -> Q (snd x) -> Q (snd x') ->
    (forall f m, In (f, m) h2 -> ~ Q m) -> (forall f m, In (f, m) h2' -> ~ Q m) -> length h1 = length h1'.
  Proof.
    revert h1'. induction h1 as [|y h1 IH]; intros h1' E Hx Hx' N N'.
    - destruct h1' as [|y' h1']; [reflexivity|]. cbn in E. injection E as _ ->. exfalso. destruct x' as [f' m'].
      apply (N f' m'); [|exact Hx']. apply in_or_app. right. left. reflexivity.
    - destruct h1' as [|y' h1'].
      + cbn in E. injection E as _ <-. exfalso. destruct x as [f m]. apply (N' f m); [|exact Hx]. apply in_or_app. right. left. reflexivity.
      + cbn in E. injection E as _ E. cbn [length]. f_equal. eapply IH; eassumption.
  Qed.
  Lemma app_split_at {B} (a b c d : list B) x y : a ++ x :: b = c ++ y :: d -> length a = length c -> a = c /\ x = y /\ b = d.
  Proof.
    revert c. induction a as [|z a IH]; intros [|w c] E L; try discriminate.
    - injection E as -> ->. auto.
    - injection E as -> E. injection L as L. destruct (IH _ E L) as [-> [-> ->]]. auto.
  Qed.
  Lemma recheck_spec msgs st os : decoders_ok D P -> main_loop msgs initial = (Open st, os) ->
    (recheck_due msgs os <-> st_fuel st <> 0).
  Proof.
    intros HD H. pose proof (fuel_spec msgs st os HD H) as K. split.
    - intros (h1 & f & m & h2 & os1 & o & os2 & E & Eo & L & Mm & Mn & Ha).
      destruct K as [[K1 K2]|(h1' & f' & m' & h2' & os1' & o' & os2' & E' & Eo' & L' & Mm' & Mn' & Hf)].
      + exfalso. apply (K2 f m); [|exact Mm]. rewrite E. apply in_or_app. right. left. reflexivity.
      + assert (Hl : length h1 = length h1').
        { rewrite E in E'. eapply (split_last_unique h1 h1' (f, m) (f', m') h2 h2' migration_request); eauto. }
        rewrite Eo in Eo'. destruct (app_split_at _ _ _ _ _ _ Eo') as [_ [_ <-]]; [congruence|]. lia.
    - intros Hn. destruct K as [[K1 _]|(h1 & f & m & h2 & os1 & o & os2 & E & Eo & L & Mm & Mn & Hf)]; [contradiction|].
      exists h1, f, m, h2, os1, o, os2. repeat (split; [assumption|]). lia.
  Qed.

  (** * Responses *)
  Lemma route_id f sn q i r : route_request D A P U caps f sn q = Some (Done (i, r)) -> i = rq_id q.
  Proof.
    rewrite route_request_eq. cbv zeta.
    assert (K : forall h, match h with Some h => match to_reply h with Done y => Done (rq_id q, y) | Panic => Panic end
                          | None => Done (rq_id q, RErr INVALID_PARAMS) end = Done (i, r) -> i = rq_id q).
    { intros [h|]; [destruct (to_reply h)|]; intros E; try discriminate; injection E as <- _; reflexivity. }
    intros E. injection E as E.
    repeat match type of E with (if str_eqb (rq_method q) ?m then _ else _) = _ => destruct (str_eqb (rq_method q) m); [exact (K _ E)|] end.
    injection E as <- _. reflexivity.
  Qed.
  Lemma one_responses f m st st' o : inv st -> one f m st = SNext st' o ->
    match m with
    | MReq q => exists r rest, o = OResp (rq_id q) r :: rest /\ resp_ids rest = []
    | _ => resp_ids o = []
    end.
  Proof.
    intros Hinv H. destruct st as [[docs ch] sn fuel]. pose proof Hinv as [Hch _]. cbn in Hch. subst ch.
    destruct m as [q|n|id]; cbn [one] in H.
    - rewrite handle_request_eq in H.
      destruct (route_request D A P U caps f sn q) as [[[i r]|]|] eqn:E; [|discriminate|rewrite route_request_eq in E; discriminate].
      apply route_id in E. subst i. injection H as <- <-.
      destruct (command_of q) as [cmd|]; [|exists r, []; auto]. unfold command_outputs.
      destruct (command_edit caps cmd r) as [[[? ?] ?]|]; [|exists r, []; auto]. eexists. eexists. split; [reflexivity|]. reflexivity.
    - rewrite handle_notification_eq in H. destruct (target n docs) as [[t|]|]; try discriminate.
      + unfold ServerModel.process_changes in H. cbn [st_memory me_docs me_changes st_snapshots st_fuel change_all] in H.
        destruct (change_one A P U caps f (set_doc t docs) (fst t) (sn, fuel)) as [[[sn' fuel'] o1]|] eqn:E1; [|discriminate]. injection H as <- <-.
        unfold change_one in E1. rewrite app_nil_r.
        assert (Ho : exists x y w, o1 = [] \/ o1 = [ODiagnostics x y w]).
        { destruct (pf_url_parse P (fst t)) as [x|].
          - assert (Hp : forall sn0 o0, publish A x sn0 = Done o0 -> exists y w, o0 = ODiagnostics x y w).
            { intros sn0 o0. unfold publish. destruct (assoc x sn0) as [s0|]; [destruct (diagnostics_of A s0); [|discriminate]|]; intros E0; injection E0 as <-; eauto. }
            exists x. match type of E1 with (let '(_, _) := ?z in _) = _ => destruct z as [sn0 fuel0] end.
            destruct (publish A x sn0) as [o0|] eqn:E0; [|discriminate]. destruct (Hp _ _ E0) as (y & w & ->). injection E1 as _ _ <-. exists y, w. right. reflexivity.
          - exists [], [], None. left. repeat match type of E1 with context [match ?z with _ => _ end] => destruct z end; congruence. }
        destruct Ho as (x & y & w & [->| ->]); reflexivity.
      + injection H as <- <-. reflexivity.
    - unfold handle_response in H. injection H as <- <-.
      match goal with |- resp_ids (match ?x with _ => _ end) = _ => destruct x; reflexivity end.
  Qed.
End Server.

(** ** The document store alone *)
Lemma stores_cons o h id c v : stores (o :: h) id c v <->
  (op_on o <> id /\ stores h id c v) \/ o = Put id c v \/ (o = Replace id c v /\ exists c' v', stores h id c' v').
Proof.
  split.
  - inversion 1; subst; eauto 8.
  - intros [[H1 H2]|[->|[-> (c' & v' & H)]]]; [apply stores_other; assumption | constructor | econstructor; exact H].
Qed.
Lemma store_docs h : forall id c v, assoc id (me_docs (store_run h)) = Some (c, v) <-> stores h id c v.
Proof.
  induction h as [|o h IH]; intros id c v.
  - split; [discriminate | inversion 1].
  - rewrite stores_cons. cbn [store_run fold_right]. fold (store_run h). destruct o as [i c0 v0|i c0 v0|i]; cbn [store_step op_on].
    + unfold mem_insert. cbn [me_docs]. destruct (str_eqb i id) eqn:E.
      * apply str_eqb_eq in E. subst i. rewrite assoc_set_same. split.
        -- intros H. injection H as <- <-. auto.
        -- intros [[H _]|[H|[H _]]]; [contradiction | congruence | discriminate].
      * assert (N : i <> id) by (intros ->; rewrite str_eqb_refl in E; discriminate). rewrite (assoc_set_other _ _ _ _ N). rewrite IH. split; [auto|].
        intros [[_ H]|[H|[H _]]]; [exact H | congruence | discriminate].
    + unfold mem_update. destruct (str_eqb i id) eqn:E.
      * apply str_eqb_eq in E. subst i. destruct (assoc id (me_docs (store_run h))) as [[c1 v1]|] eqn:A.
        -- cbn [me_docs]. rewrite assoc_set_same. apply IH in A. split; [intros H; injection H as <- <-; eauto 6|].
           intros [[H _]|[H|[H _]]]; [contradiction | discriminate | congruence].
        -- rewrite A. split; [discriminate|]. intros [[H _]|[H|[_ (c' & v' & H)]]]; [contradiction | discriminate | apply IH in H; congruence].
      * assert (N : i <> id) by (intros ->; rewrite str_eqb_refl in E; discriminate).
        assert (R : assoc id (me_docs (match assoc i (me_docs (store_run h)) with Some _ => Memory (assoc_set i (c0, v0) (me_docs (store_run h))) (add_change i (me_changes (store_run h))) | None => store_run h end)) = assoc id (me_docs (store_run h)))
          by (destruct (assoc i (me_docs (store_run h))); [cbn [me_docs]; apply assoc_set_other, N | reflexivity]).
        rewrite R, IH. split; [auto|]. intros [[_ H]|[H|[H _]]]; [exact H | discriminate | congruence].
    + unfold mem_remove. destruct (str_eqb i id) eqn:E.
      * apply str_eqb_eq in E. subst i.
        assert (R : assoc id (me_docs (match assoc id (me_docs (store_run h)) with Some _ => Memory (assoc_del id (me_docs (store_run h))) (add_change id (me_changes (store_run h))) | None => store_run h end)) = None)
          by (destruct (assoc id (me_docs (store_run h))) eqn:A; [cbn [me_docs]; apply assoc_del_same | exact A]).
        rewrite R. split; [discriminate|]. intros [[H _]|[H|[H _]]]; [contradiction | discriminate | discriminate].
      * assert (N : i <> id) by (intros ->; rewrite str_eqb_refl in E; discriminate).
        assert (R : assoc id (me_docs (match assoc i (me_docs (store_run h)) with Some _ => Memory (assoc_del i (me_docs (store_run h))) (add_change i (me_changes (store_run h))) | None => store_run h end)) = assoc id (me_docs (store_run h)))
          by (destruct (assoc i (me_docs (store_run h))); [cbn [me_docs]; apply assoc_del_other, N | reflexivity]).
        rewrite R, IH. split; [auto|]. intros [[_ H]|[H|[H _]]]; [exact H | discriminate | discriminate].
Qed.
Lemma add_change_in id l x : In x (add_change id l) <-> x = id \/ In x l.
Proof.
  unfold add_change. destruct (existsb (str_eqb id) l) eqn:E.
  - apply existsb_exists in E as (y & Hy & E). apply str_eqb_eq in E. subst y. split; [auto|]. intros [->|H]; assumption.
  - rewrite in_app_iff. cbn [In]. intuition congruence.
Qed.
Lemma add_change_nodup id l : NoDup l -> NoDup (add_change id l).
Proof.
  intros H. unfold add_change. destruct (existsb (str_eqb id) l) eqn:E; [exact H|]. apply NoDup_rev in H. rewrite <- (rev_involutive (l ++ [id])). apply NoDup_rev.
  rewrite rev_app_distr. cbn [rev app]. constructor; [|exact H]. rewrite <- in_rev. intros K.
  assert (existsb (str_eqb id) l = true) by (apply existsb_exists; exists id; split; [exact K | apply str_eqb_refl]). congruence.
Qed.
Lemma touched_cons o h id : touched_doc (o :: h) id <-> touches_doc h o id \/ touched_doc h id.
Proof.
  split.
  - intros (l & x & e & E & H). destruct l as [|y l]; injection E as <- E; [subst; auto|]. right. exists l, x, e. auto.
  - intros [H|(l & x & e & -> & H)]; [exists [], o, h; auto | exists (o :: l), x, e; auto].
Qed.
Lemma store_changes h : NoDup (me_changes (store_run h)) /\ forall id, In id (me_changes (store_run h)) <-> touched_doc h id.
Proof.
  induction h as [|o h [N IH]].
  - split; [constructor|]. intros id. split; [intros [] | intros (l & x & e & E & _); destruct l; discriminate].
  - cbn [store_run fold_right]. fold (store_run h). destruct o as [i c0 v0|i c0 v0|i]; cbn [store_step].
    + split; [apply add_change_nodup, N|]. intros id. unfold mem_insert. cbn [me_changes]. rewrite add_change_in, touched_cons, IH. unfold touches_doc. cbn [op_on]. split.
      * intros [->|H]; [left; split; [reflexivity | left; eauto] | auto].
      * intros [[-> _]|H]; auto.
    + unfold mem_update. destruct (assoc i (me_docs (store_run h))) as [[c1 v1]|] eqn:A.
      * apply store_docs in A. split; [apply add_change_nodup, N|]. intros id. cbn [me_changes]. rewrite add_change_in, touched_cons, IH. unfold touches_doc. cbn [op_on]. split.
        -- intros [->|H]; [left; split; [reflexivity | right; eauto] | auto].
        -- intros [[-> _]|H]; auto.
      * split; [exact N|]. intros id. rewrite touched_cons, IH. split; [auto|]. intros [[Hi [(c & v & H)|(c & v & H)]]|H]; [discriminate | | exact H].
        cbn [op_on] in Hi. subst i. apply store_docs in H. congruence.
    + unfold mem_remove. destruct (assoc i (me_docs (store_run h))) as [[c1 v1]|] eqn:A.
      * apply store_docs in A. split; [apply add_change_nodup, N|]. intros id. cbn [me_changes]. rewrite add_change_in, touched_cons, IH. unfold touches_doc. cbn [op_on]. split.
        -- intros [->|H]; [left; split; [reflexivity | right; eauto] | auto].
        -- intros [[-> _]|H]; auto.
      * split; [exact N|]. intros id. rewrite touched_cons, IH. split; [auto|]. intros [[Hi [(c & v & H)|(c & v & H)]]|H]; [discriminate | | exact H].
        cbn [op_on] in Hi. subst i. apply store_docs in H. congruence.
Qed.
