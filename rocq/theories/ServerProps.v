(** Properties C01-C07, C09, C10 and C60 (the server loop). *)
From Verif Require Import Base BaseFacts Unicode PositionModel PositionSpec PositionProofs PositionProps TranslateModel TranslateSpec
  TranslateProofs TranslateProps VersionModel CommandModel CommandProofs ServerModel ServerSpec ServerProofs.

(** ** A concrete server for the examples: parameters are JSON arrays, URLs are their own paths. *)
Definition demo_decoders : decoders :=
  let pos j := match j with JArr [JStr u; JNum l; JNum c] => Some (u, (Z.to_nat l, Z.to_nat c)) | _ => None end in
  let rng j := match j with JArr [JStr u; JNum l; JNum c] => Some (u, ((Z.to_nat l, Z.to_nat c), (Z.to_nat l, Z.to_nat c))) | _ => None end in
  Decoders pos pos rng (fun _ => true) rng (fun j => option_map (fun x => (x, None)) (pos j)) (fun _ => true)
    (fun j => match j with JArr [JStr u; JStr lang; JNum v; JStr t] => Some (u, lang, v, t) | _ => None end)
    (fun j => match j with JArr (JStr u :: JNum v :: l) => Some (u, v, filter_map jstr l) | _ => None end)
    (fun j => match j with JStr u => Some u | _ => None end).
Definition demo_analyzer : analyzer :=
  let guard {B} (b : B) (t : str) (off : nat) : outcome B := if bytes t <? off then Panic else Done b in
  Analyzer (fun t _ off => guard [] t off) (fun t _ r => guard (Some (Hover (0, bytes t) (lit "doc"))) t (snd r))
    (fun t _ r => if (snd r =? fst r) && (bytes t <? snd r) then Panic else Done [])
    (fun _ _ _ => Done []) (fun t _ off => guard [] t off)
    (fun t _ => if str_eqb t (lit "#[ink((a) b)]") then Panic else Done [Diagnostic (lit "d") (0, bytes t) SevError]) (fun _ _ => [])
    (fun t _ r => if (snd r =? fst r) && (bytes t <? snd r) then Panic else Done None) (fun n => Some (n, n)).
Definition demo_platform : platform :=
  Platform Some (fun r s => Some (r ++ s)) (fun u => Some [u]) (fun p => match p with x :: _ => Some x | [] => None end)
    (fun _ => None) (fun _ => []).
Definition demo_caps : client_caps := ClientCaps None None None None None None None None None.
Definition demo_fs : fsys := Fsys (fun _ => false) (fun _ => false) (fun _ => None).
Definition demo_dbg (c : char) : str := [c].
Lemma demo_decoders_ok : decoders_ok demo_decoders demo_platform.
Proof. split; intros; reflexivity. Qed.
Definition demo_run (ms : list message) :=
  main_loop demo_decoders demo_analyzer demo_platform ascii_unicode demo_dbg demo_caps (map (fun m => (demo_fs, m)) ms) initial.
Definition note (m : str) (j : json) : message := MNot (Notification m j).
Definition ask (id : Z) (m : str) (j : json) : message := MReq (Request (IdNum id) m j).
Definition demo_open : message := note (lit "textDocument/didOpen") (JArr [JStr (lit "a.rs"); JStr (lit "rust"); JNum 1; JStr (lit "ab")]).
Definition demo_change : message := note (lit "textDocument/didChange") (JArr [JStr (lit "a.rs"); JNum 2; JStr (lit "x"); JStr (lit "abc")]).
Definition demo_close : message := note (lit "textDocument/didClose") (JStr (lit "a.rs")).

Lemma demo_analyzer_ok : analyzer_ok demo_analyzer.
Proof.
  split; cbn -[Nat.ltb Nat.eqb].
  - intros t _ off H. assert (E : (bytes t <? off) = true) by (apply Nat.ltb_lt; exact H). rewrite E, Nat.eqb_refl. auto.
  - intros t _ off sigs s p H Hin. destruct (bytes t <? off); [discriminate|]. injection H as <-. destruct Hin.
Qed.
Lemma demo_manageable t : t <> lit "#[ink((a) b)]" -> manageable demo_analyzer t.
Proof.
  intros Ht. split; cbn -[Nat.ltb Nat.eqb].
  - intros _ pre off [[post ->] ->]. rewrite bytes_app.
    assert (E : (bytes pre + bytes post <? bytes pre) = false) by (apply Nat.ltb_ge; lia). rewrite E.
    repeat split; discriminate.
  - intros _ p1 s p2 e _ [[post ->] ->] _. rewrite bytes_app.
    assert (E : (bytes p2 + bytes post <? bytes p2) = false) by (apply Nat.ltb_ge; lia). rewrite E, andb_false_r. discriminate.
  - intros _ s e H. destruct ((e =? s) && (bytes t <? e)) eqn:E; [|discriminate].
    apply andb_true_iff in E as [E1 E2]. apply Nat.eqb_eq in E1. apply Nat.ltb_lt in E2. lia.
  - discriminate.
  - intros _. rewrite (proj2 (str_eqb_neq _ _) Ht). discriminate.
Qed.

(** C01. While the server runs, the text and version it holds for a document are exactly the client's. *)
Theorem C01_documents_mirror_client : forall D A P U dbg caps msgs st os,
  decoders_ok D P -> main_loop D A P U dbg caps msgs initial = (Open st, os) ->
  forall u text v, assoc u (me_docs (st_memory st)) = Some (text, v) <-> client_holds D msgs u text v.
Proof. intros D A P U dbg caps msgs st os HD H u. apply (docs_spec D A P U dbg caps msgs st os u HD H). Qed.
Print Assumptions C01_documents_mirror_client.

(** C01. A document is held exactly while the client has it open, and then with one text and version. *)
Theorem C01_held_iff_open : forall D A P U dbg caps msgs st os,
  decoders_ok D P -> main_loop D A P U dbg caps msgs initial = (Open st, os) ->
  forall u, (exists text v, client_holds D msgs u text v) <-> is_open D msgs u.
Proof.
  intros D A P U dbg caps msgs st os HD H u. destruct (docs_spec D A P U dbg caps msgs st os u HD H) as [H1 H2].
  rewrite <- H2. split.
  - intros (text & v & K). apply H1 in K. rewrite K. reflexivity.
  - destruct (assoc u (me_docs (st_memory st))) as [[text v]|] eqn:E; [|discriminate]. intros _.
    exists text, v. apply H1. reflexivity.
Qed.
Print Assumptions C01_held_iff_open.

(** C01. The store alone, after any operations: each document is held with its latest content and version, and the documents to be
    processed are those to which something was done, each once. *)
Theorem C01_store : forall h,
  (forall id c v, assoc id (me_docs (store_run h)) = Some (c, v) <-> stores h id c v)
  /\ NoDup (me_changes (store_run h)) /\ (forall id, In id (me_changes (store_run h)) <-> touched_doc h id).
Proof. intros h. split; [apply store_docs | apply store_changes]. Qed.
Print Assumptions C01_store.
Example C01_store_example :
  let h := [Replace (lit "c") (lit "x") 2; Drop (lit "b"); Replace (lit "a") (lit "z") 3; Put (lit "b") (lit "y") 1; Put (lit "a") (lit "y") 1]%Z in
  stores h (lit "a") (lit "z") 3%Z /\ touched_doc h (lit "b") /\ ~ touched_doc h (lit "c").
Proof.
  cbv zeta. split; [apply store_docs; vm_compute; reflexivity|]. split; [apply store_changes; vm_compute; auto|].
  intros H. apply store_changes in H. vm_compute in H. intuition discriminate.
Qed.

Example C01_example :
  exists st os, demo_run [demo_open; demo_change] = (Open st, os)
  /\ client_holds demo_decoders (map (fun m => (demo_fs, m)) [demo_open; demo_change]) (lit "a.rs") (lit "abc") 2%Z.
Proof.
  eexists. eexists. split; [vm_compute; reflexivity|].
  exists [(demo_fs, demo_open)], demo_fs, demo_change, []. split; [reflexivity|]. split; [intros f' m' []|]. right. split; [reflexivity|].
  exists [], demo_fs, demo_open, [], (lit "ab"), 1%Z. split; [reflexivity|]. split; [reflexivity|]. intros f' m' [].
Qed.

(** C02. The answer to a request about an open document is the one for the client's current text, in one ink! version
    (the same for all requests); about a document that is not open it is null. Nothing else is sent, and no state changes. *)
Theorem C02_answers_from_latest_text : forall D A P U dbg caps msgs st os u,
  decoders_ok D P -> main_loop D A P U dbg caps msgs initial = (Open st, os) ->
  (forall text v, client_holds D msgs u text v ->
     exists lang, lang_of st u = Some lang /\
     forall f q qu, query_of D q = Some (u, qu) ->
       main_loop D A P U dbg caps (msgs ++ [(f, MReq q)]) initial =
       match answer A caps u text lang qu with
       | Done r => (Open st, os ++ [[OResp (rq_id q) r]])
       | Panic => (Crashed, os)
       end)
  /\ (~ is_open D msgs u ->
      lang_of st u = None /\
      forall f q qu, query_of D q = Some (u, qu) ->
        main_loop D A P U dbg caps (msgs ++ [(f, MReq q)]) initial = (Open st, os ++ [[OResp (rq_id q) (ROk PNull)]])).
Proof.
  intros D A P U dbg caps msgs st os u HD H. pose proof (run_inv D A P U dbg caps msgs st os HD H) as Hinv.
  destruct (docs_spec D A P U dbg caps msgs st os u HD H) as [H1 H2]. pose proof Hinv as [_ Hs]. specialize (Hs u).
  assert (Hfin : forall q qu, query_of D q = Some (u, qu) -> final (MReq q) = false).
  { intros q qu Hq. apply (query_command D q u qu Hq). }
  split.
  - intros text v Hc. apply H1 in Hc. rewrite Hc in Hs. destruct Hs as [lang Hl]. exists lang. unfold lang_of. rewrite Hl.
    split; [reflexivity|]. intros f q qu Hq. rewrite (main_loop_open_snoc D A P U dbg caps msgs st os f (MReq q) H (Hfin q qu Hq)).
    cbn [one]. rewrite (query_step D A P U caps f q u qu st Hinv Hq), Hl. cbn [sn_text sn_lang].
    destruct (answer A caps u text lang qu); reflexivity.
  - intros Hno. destruct (assoc u (me_docs (st_memory st))) eqn:E; [destruct Hno; apply H2; reflexivity|].
    unfold lang_of. rewrite Hs. split; [reflexivity|]. intros f q qu Hq.
    rewrite (main_loop_open_snoc D A P U dbg caps msgs st os f (MReq q) H (Hfin q qu Hq)).
    cbn [one]. rewrite (query_step D A P U caps f q u qu st Hinv Hq), Hs. reflexivity.
Qed.
Print Assumptions C02_answers_from_latest_text.

(** C02. No request changes the documents or what the analyses were built from. *)
Theorem C02_requests_read_only : forall D A P U dbg caps msgs st os f q st' os',
  decoders_ok D P -> main_loop D A P U dbg caps msgs initial = (Open st, os) ->
  main_loop D A P U dbg caps (msgs ++ [(f, MReq q)]) initial = (Open st', os') ->
  st_memory st' = st_memory st /\ st_snapshots st' = st_snapshots st.
Proof.
  intros D A P U dbg caps msgs st os f q st' os' HD H H'. pose proof (run_inv D A P U dbg caps msgs st os HD H) as Hinv.
  apply main_loop_snoc in H' as [st1 [os1 [o [K1 [Kf [K2 _]]]]]]. rewrite H in K1. injection K1 as <- <-.
  destruct st as [[docs ch] sn fuel]. destruct Hinv as [Hch _]. cbn in Hch. subst ch. cbn [one] in K2.
  rewrite handle_request_eq in K2. destruct (route_request D A P U caps f sn q) as [[[i r]|]|]; try discriminate; injection K2 as <- _; auto.
Qed.
Print Assumptions C02_requests_read_only.

(** C02. Every analysis the server holds is of an open document, with the client's text and version. *)
Theorem C02_analyses_current : forall D A P U dbg caps msgs st os,
  decoders_ok D P -> main_loop D A P U dbg caps msgs initial = (Open st, os) ->
  forall u s, assoc u (st_snapshots st) = Some s -> exists v, sn_doc_version s = Some v /\ client_holds D msgs u (sn_text s) v.
Proof.
  intros D A P U dbg caps msgs st os HD H u s Hs. pose proof (run_inv D A P U dbg caps msgs st os HD H) as [_ Hinv]. specialize (Hinv u).
  destruct (assoc u (me_docs (st_memory st))) as [[t v]|] eqn:E; [|congruence]. destruct Hinv as [lang Hl].
  rewrite Hl in Hs. injection Hs as <-. exists v. split; [reflexivity|]. cbn [sn_text]. apply (docs_spec D A P U dbg caps msgs st os u HD H). exact E.
Qed.
Print Assumptions C02_analyses_current.
Example C02_example :
  exists st, demo_run [demo_open; demo_change; ask 7 (lit "textDocument/hover") (JArr [JStr (lit "a.rs"); JNum 0; JNum 3])]
  = (Open st, [[ODiagnostics (lit "a.rs") [LspDiagnostic ((0, 0), (0, 2)) (lit "d") 1] (Some 1%Z)];
               [ODiagnostics (lit "a.rs") [LspDiagnostic ((0, 0), (0, 3)) (lit "d") 1] (Some 2%Z)];
               [OResp (IdNum 7) (ROk (PHover (LspHover (lit "doc") (Some ((0, 0), (0, 3))))))]]).
Proof. eexists. vm_compute. reflexivity. Qed.

(** C03. What a message publishes: for an opened or changed document its diagnostics, computed from the new text, with
    its version; for a closed one an empty unversioned list; otherwise nothing. *)
Theorem C03_published : forall D A P U dbg caps msgs st os f m st' o,
  decoders_ok D P -> main_loop D A P U dbg caps msgs initial = (Open st, os) ->
  main_loop D A P U dbg caps (msgs ++ [(f, m)]) initial = (Open st', os ++ [o]) ->
  length (diagnostics_outputs o) <= 1 /\
  forall u ds v, In (ODiagnostics u ds v) o <->
    (exists text v', (event_of D m u = Some (EvOpen text v') \/ (event_of D m u = Some (EvChange text v') /\ is_open D msgs u))
       /\ v = Some v' /\ exists lang, lang_of st' u = Some lang /\ client_diagnostics A caps text lang = Done ds)
    \/ (event_of D m u = Some EvClose /\ is_open D msgs u /\ v = None /\ ds = []).
Proof.
  intros D A P U dbg caps msgs st os f m st' o HD H H'. pose proof (run_inv D A P U dbg caps msgs st os HD H) as Hinv.
  apply main_loop_snoc in H' as [st1 [os1 [o' [K1 [Kf [K2 K3]]]]]]. rewrite H in K1. injection K1 as <- <-.
  apply app_inj_tail in K3 as [_ <-].
  pose proof (one_effect D A P U dbg caps f m st st' o HD Hinv K2) as Heff. cbv zeta in Heff.
  assert (Hop : forall u, is_open D msgs u <-> is_some (assoc u (me_docs (st_memory st))) = true).
  { intros u. destruct (docs_spec D A P U dbg caps msgs st os u HD H) as [_ K]. rewrite K. reflexivity. }
  destruct Heff as [(u & t & v & E & Hne & K)|[(u & E & Hh & Hne & _ & Ks & ->)|(Hall & _ & _ & K)]].
  - destruct (pick P U f u (st_snapshots st) (st_fuel st)) as [lang fuel'] eqn:Ep. destruct K as [_ [Ks (ds0 & Eds & ->)]].
    split; [cbn; lia|]. intros u0 ds v0. split.
    + intros [K|[]]. injection K as <- <- <-. left. exists t, v. split; [rewrite Hop; exact E|]. split; [reflexivity|].
      exists lang. unfold lang_of. rewrite Ks, assoc_set_same. auto.
    + intros K. assert (u0 = u).
      { destruct (str_eq_dec u0 u) as [?|n]; [assumption|]. rewrite (Hne u0 n) in K.
        destruct K as [(? & ? & [K|[K _]] & _)|(K & _)]; discriminate. }
      subst u0. destruct K as [(t' & v' & E' & -> & lang' & Hl & El)|(E' & _)].
      * assert (t' = t /\ v' = v) as [-> ->]. { destruct E as [E|[E _]], E' as [E'|[E' _]]; rewrite E in E'; try discriminate; injection E' as <- <-; auto. }
        unfold lang_of in Hl. rewrite Ks, assoc_set_same in Hl. injection Hl as <-. left. congruence.
      * destruct E as [E|[E _]]; congruence.
  - split; [cbn; lia|]. intros u0 ds v0. split.
    + intros [K|[]]. injection K as <- <- <-. right. rewrite Hop. auto.
    + intros K. assert (u0 = u).
      { destruct (str_eq_dec u0 u) as [?|n]; [assumption|]. rewrite (Hne u0 n) in K.
        destruct K as [(? & ? & [K|[K _]] & _)|(K & _)]; discriminate. }
      subst u0. destruct K as [(t' & v' & [E'|[E' _]] & _)|(_ & _ & -> & ->)]; [congruence..|]. left. reflexivity.
  - rewrite K. split; [cbn; lia|]. intros u ds v. split.
    + intros Hin. assert (Hf : In (ODiagnostics u ds v) (diagnostics_outputs o)) by (apply filter_In; auto). rewrite K in Hf. destruct Hf.
    + intros Hc. exfalso. specialize (Hall u).
      destruct Hc as [(t' & v' & [E'|[E' Ho]] & _)|(E' & Ho & _)]; rewrite E' in Hall; [destruct Hall | |]; apply Hop in Ho; congruence.
Qed.
Print Assumptions C03_published.
Example C03_example :
  exists st, demo_run [demo_open; demo_change; demo_close; demo_change; demo_close]
  = (Open st, [[ODiagnostics (lit "a.rs") [LspDiagnostic ((0, 0), (0, 2)) (lit "d") 1] (Some 1%Z)];
               [ODiagnostics (lit "a.rs") [LspDiagnostic ((0, 0), (0, 3)) (lit "d") 1] (Some 2%Z)];
               [ODiagnostics (lit "a.rs") [] None]; []; []]).
Proof. eexists. vm_compute. reflexivity. Qed.

(** C03. At any time, the diagnostics last published for an open document are those of its current text and version. *)
Theorem C03_last_published : forall D A P U dbg caps msgs st os u text v,
  decoders_ok D P -> main_loop D A P U dbg caps msgs initial = (Open st, os) -> client_holds D msgs u text v ->
  exists os1 os2 lang ds, concat os = os1 ++ ODiagnostics u ds (Some v) :: os2
    /\ client_diagnostics A caps text lang = Done ds /\ lang_of st u = Some lang
    /\ forall ds' v', ~ In (ODiagnostics u ds' v') os2.
Proof.
  intros D A P U dbg caps msgs. induction msgs as [|[f m] msgs IH] using rev_ind; intros st os u text v HD H Hc.
  { destruct (client_holds_nil _ _ _ _ Hc). }
  pose proof H as Hrun. apply main_loop_snoc in H as [st1 [os1 [o [K1 [Kf [K2 ->]]]]]].
  pose proof (run_inv D A P U dbg caps msgs st1 os1 HD K1) as Hinv.
  pose proof (one_effect D A P U dbg caps f m st1 st o HD Hinv K2) as Heff. cbv zeta in Heff.
  destruct (C03_published D A P U dbg caps msgs st1 os1 f m st o HD K1 Hrun) as [Hlen Hpub].
  apply client_holds_snoc in Hc. rewrite concat_app. cbn [concat]. rewrite app_nil_r.
  assert (Hnew : (event_of D m u = Some (EvOpen text v) \/ (event_of D m u = Some (EvChange text v) /\ is_open D msgs u)) ->
    exists os0 os2 lang ds, concat os1 ++ o = os0 ++ ODiagnostics u ds (Some v) :: os2
    /\ client_diagnostics A caps text lang = Done ds /\ lang_of st u = Some lang /\ forall ds' v', ~ In (ODiagnostics u ds' v') os2).
  { intros E. assert (Hl : exists lang, lang_of st u = Some lang).
    { assert (Hh : client_holds D (msgs ++ [(f, m)]) u text v).
      { apply client_holds_snoc. destruct E as [E|[E Ho]]; rewrite E; auto. }
      destruct (C02_answers_from_latest_text D A P U dbg caps _ st _ u HD Hrun) as [K _]. destruct (K text v Hh) as [lang [Hl _]]. eauto. }
    destruct Hl as [lang Hl].
    assert (Hd : exists ds, client_diagnostics A caps text lang = Done ds).
    { destruct Heff as [(u0 & t0 & v0 & E0 & Hne & K)|[(u0 & E0 & Ho0 & Hne & _)|(Hall & _)]].
      - assert (u0 = u) by (destruct (str_eq_dec u u0) as [?|n]; [congruence|]; rewrite (Hne u n) in E; destruct E as [E|[E _]]; discriminate). subst u0.
        assert (t0 = text /\ v0 = v) as [-> ->] by (destruct E as [E|[E _]], E0 as [E0|[E0 _]]; rewrite E in E0; try discriminate; injection E0 as <- <-; auto).
        destruct (pick P U f u _ _) as [l fl]. destruct K as [_ [Ks (ds & Eds & _)]]. unfold lang_of in Hl. rewrite Ks, assoc_set_same in Hl. injection Hl as <-. eauto.
      - exfalso. assert (u0 = u) by (destruct (str_eq_dec u u0) as [?|n]; [congruence|]; rewrite (Hne u n) in E; destruct E as [E|[E _]]; discriminate). subst u0. destruct E as [E|[E _]]; congruence.
      - exfalso. specialize (Hall u). destruct E as [E|[E Ho]]; rewrite E in Hall; [destruct Hall|].
        destruct (docs_spec D A P U dbg caps msgs st1 os1 u HD K1) as [_ Kd]. apply Kd in Ho. cbn [is_some] in *. congruence. }
    destruct Hd as [ds Hd].
    assert (Hin : In (ODiagnostics u ds (Some v)) o).
    { apply Hpub. left. exists text, v. split; [exact E|]. split; [reflexivity|]. exists lang. auto. }
    apply in_split in Hin as [o1 [o2 ->]]. exists (concat os1 ++ o1), o2, lang, ds. split; [rewrite <- app_assoc; reflexivity|].
    split; [exact Hd|]. split; [exact Hl|]. intros ds' v' Hin. unfold diagnostics_outputs in Hlen. rewrite filter_app, app_length in Hlen. cbn [filter length] in Hlen.
    assert (Hf : In (ODiagnostics u ds' v') (filter (fun x => match x with ODiagnostics _ _ _ => true | _ => false end) o2)) by (apply filter_In; auto).
    destruct (filter _ o2); [destruct Hf | cbn [length] in Hlen; lia]. }
  destruct (event_of D m u) as [[t' v'|t' v'|]|] eqn:E.
  - destruct Hc as [-> ->]. apply Hnew. left. reflexivity.
  - destruct Hc as [-> [-> Ho]]. apply Hnew. right. auto.
  - destruct Hc.
  - destruct (IH st1 os1 u text v HD K1 Hc) as (o1 & o2 & lang & ds0 & Ho & Hd & Hl & Hn).
    exists o1, (o2 ++ o), lang, ds0. split; [rewrite Ho, <- app_assoc; reflexivity|]. split; [exact Hd|]. split.
    + assert (Hs : assoc u (st_snapshots st) = assoc u (st_snapshots st1)).
      { destruct Heff as [(u0 & t0 & v0 & E0 & Hne & K)|[(u0 & E0 & _ & Hne & _ & Ks & _)|(_ & -> & _ & _)]].
        - assert (u0 <> u) by (intros ->; destruct E0 as [E0|[E0 _]]; congruence).
          destruct (pick P U f u0 _ _). destruct K as [_ [-> _]]. apply assoc_set_other. assumption.
        - assert (u0 <> u) by (intros ->; congruence). rewrite Ks. apply assoc_del_other. assumption.
        - reflexivity. }
      unfold lang_of in *. rewrite Hs. exact Hl.
    + intros ds v' Hin. apply in_app_or in Hin as [Hin|Hin]; [apply (Hn _ _ Hin)|].
      apply Hpub in Hin as [(t & w & [E0|[E0 _]] & _)|(E0 & _)]; congruence.
Qed.
Print Assumptions C03_last_published.

(** C04. Per message, up to the point where the server stops: a request causes exactly one response, with its id and
    sent before anything else the request causes; other messages cause none. *)
Theorem C04_one_response : forall D A P U dbg caps msgs s os,
  decoders_ok D P -> main_loop D A P U dbg caps msgs initial = (s, os) ->
  Forall2 (fun m o => match snd m with
                      | MReq q => exists r rest, o = OResp (rq_id q) r :: rest /\ resp_ids rest = []
                      | _ => resp_ids o = []
                      end) (firstn (length os) msgs) os.
Proof.
  intros D A P U dbg caps msgs s os HD. pose proof (inv_initial caps) as Hinv. revert s os Hinv. generalize initial.
  induction msgs as [|[f m] msgs IH]; intros st s os Hinv H.
  - cbn in H. injection H as _ <-. constructor.
  - destruct (final m) eqn:Ef.
    + destruct m as [q|n|id]; cbn [final main_loop] in Ef, H; [| |discriminate]; rewrite Ef in H; injection H as _ <-; cbn [firstn length].
      * constructor; [|constructor]. cbn [snd]. eexists. exists []. split; reflexivity.
      * constructor; [|constructor]. reflexivity.
    + rewrite main_loop_cons in H by exact Ef. destruct (one D A P U dbg caps f m st) as [st1 o|o|] eqn:E1.
      * destruct (main_loop D A P U dbg caps msgs st1) as [s1 os1] eqn:E2. injection H as <- <-. cbn [length firstn].
        destruct (one_inv D A P U dbg caps f m st st1 o HD Hinv E1) as [Hinv1 _].
        constructor; [|eapply IH; eassumption]. cbn [snd]. apply (one_responses D A P U dbg caps f m st st1 o Hinv E1).
      * destruct m as [q|n|id]; cbn [one] in E1.
        -- unfold handle_request in E1. destruct (match route_request D A P U caps f (st_snapshots st) q with Some _ => _ | None => _ end); [|discriminate].
           destruct (process_changes A P U caps f st) as [[? ?]|]; discriminate.
        -- injection H as <- <-. cbn [length firstn]. constructor; [|constructor]. cbn [snd].
           unfold handle_notification in E1. destruct (fold_left _ _ _) as [[? ?]|]; [destruct (process_changes A P U caps f _) as [[? ?]|]; discriminate|].
           injection E1 as <-. reflexivity.
        -- discriminate.
      * injection H as <- <-. constructor.
Qed.
Print Assumptions C04_one_response.

(** C04. So the ids of the responses are the ids of the processed requests, in order. *)
Theorem C04_response_ids : forall D A P U dbg caps msgs s os,
  decoders_ok D P -> main_loop D A P U dbg caps msgs initial = (s, os) ->
  resp_ids (concat os) = req_ids (firstn (length os) msgs)
  /\ (forall st, s = Open st -> length os = length msgs).
Proof.
  intros D A P U dbg caps msgs s os HD H. split.
  - pose proof (C04_one_response D A P U dbg caps msgs s os HD H) as K.
    clear H. induction K as [|[f m] o ms os' Hm _ IH]; [reflexivity|]. cbn [concat]. unfold resp_ids, req_ids in *. rewrite flat_map_app, IH.
    cbn [flat_map snd]. f_equal. cbn [snd] in Hm. destruct m as [q| |]; [|exact Hm..].
    destruct Hm as (r & rest & -> & Hr). cbn [flat_map]. rewrite Hr. reflexivity.
  - intros st ->. eapply open_length; eassumption.
Qed.
Print Assumptions C04_response_ids.
Example C04_example :
  exists st, demo_run [demo_open; ask 1 (lit "textDocument/hover") (JArr [JStr (lit "a.rs"); JNum 0; JNum 3]); ask 9 (lit "nope") JNull]
  = (Crashed, [[ODiagnostics (lit "a.rs") [LspDiagnostic ((0, 0), (0, 2)) (lit "d") 1] (Some 1%Z)]])
  /\ demo_run [ask 1 (lit "textDocument/hover") JNull; ask 9 (lit "nope") JNull; demo_close; ask 2 (lit "shutdown") JNull; note (lit "exit") JNull]
  = (EndedOk, [[OResp (IdNum 1) (RErr (-32602))]; [OResp (IdNum 9) (RErr (-32601))]; []; [OResp (IdNum 2) (ROk PNull)]])
  /\ st = initial.
Proof. eexists. split; [vm_compute; reflexivity|]. split; [vm_compute; reflexivity | reflexivity]. Qed.

(** C05. A request other than shutdown never ends the loop (it may crash the process, see C60); its response is an
    error exactly as classified: -32601 iff the method is not supported, -32602 iff it is and its parameters do not
    decode; any other error is -32603. *)
Theorem C05_error_codes : forall D A P U dbg caps msgs st os f q,
  decoders_ok D P -> main_loop D A P U dbg caps msgs initial = (Open st, os) -> rq_method q <> lit "shutdown" ->
  main_loop D A P U dbg caps (msgs ++ [(f, MReq q)]) initial = (Crashed, os)
  \/ exists st' r rest,
     main_loop D A P U dbg caps (msgs ++ [(f, MReq q)]) initial = (Open st', os ++ [OResp (rq_id q) r :: rest])
     /\ (r = RErr (-32601)%Z <-> ~ In (rq_method q) SUPPORTED)
     /\ (r = RErr (-32602)%Z <-> In (rq_method q) SUPPORTED /\ ~ decodable D q)
     /\ (forall c, r = RErr c -> c = (-32601)%Z \/ c = (-32602)%Z \/ c = (-32603)%Z).
Proof.
  intros D A P U dbg caps msgs st os f q HD H Hns. pose proof (run_inv D A P U dbg caps msgs st os HD H) as Hinv.
  assert (Hf : final (MReq q) = false) by (cbn [final]; apply str_eqb_neq; exact Hns).
  rewrite (main_loop_open_snoc D A P U dbg caps msgs st os f (MReq q) H Hf). cbn [one].
  destruct st as [[docs ch] sn fuel]. pose proof Hinv as [Hch _]. cbn in Hch. subst ch. rewrite handle_request_eq.
  assert (Hcase : route_request D A P U caps f sn q = Some Panic
    \/ exists r, route_request D A P U caps f sn q = Some (Done (rq_id q, r))
       /\ (r = RErr (-32601)%Z <-> ~ In (rq_method q) SUPPORTED)
       /\ (r = RErr (-32602)%Z <-> In (rq_method q) SUPPORTED /\ ~ decodable D q)
       /\ (forall c, r = RErr c -> c = (-32601)%Z \/ c = (-32602)%Z \/ c = (-32603)%Z)).
  { rewrite route_request_eq. cbv zeta.
    assert (Hrun : forall (h : option (hres payload)) (ok : Prop), In (rq_method q) SUPPORTED -> (h <> None <-> decodable D q) ->
      let x := match h with Some h => match to_reply h with Done y => Done (rq_id q, y) | Panic => Panic end
               | None => Done (rq_id q, RErr INVALID_PARAMS) end in
      Some x = Some Panic \/ exists r, Some x = Some (Done (rq_id q, r))
        /\ (r = RErr (-32601)%Z <-> ~ In (rq_method q) SUPPORTED)
        /\ (r = RErr (-32602)%Z <-> In (rq_method q) SUPPORTED /\ ~ decodable D q)
        /\ (forall c, r = RErr c -> c = (-32601)%Z \/ c = (-32602)%Z \/ c = (-32603)%Z)).
    { intros h _ Hin Hd. destruct h as [h|]; cbv zeta.
      - assert (Hdq : decodable D q) by (apply Hd; discriminate).
        destruct h as [p| |]; cbn [to_reply]; [right|right|left; reflexivity]; eexists; (split; [reflexivity|]).
        + split; [split; [discriminate | tauto]|]. split; [split; [discriminate | tauto]|]. discriminate.
        + split; [split; [discriminate | tauto]|]. split; [split; [discriminate | tauto]|].
          intros c E. injection E as <-. right. right. reflexivity.
      - assert (Hdq : ~ decodable D q) by (intros K; apply Hd in K; apply K; reflexivity).
        right. eexists. split; [reflexivity|]. split; [split; [discriminate | tauto]|]. split; [split; [tauto | reflexivity]|].
        intros c E. injection E as <-. right. left. reflexivity. }
    assert (Hmap : forall B C (g : B -> C) o, option_map g o <> None <-> o <> None).
    { intros B C g [b|]; cbn; split; congruence. }
    unfold decodable in *.
    destruct (str_eqb (rq_method q) M_COMPLETION) eqn:E1; [apply str_eqb_eq in E1|apply str_eqb_neq in E1].
    { apply (Hrun _ True); [rewrite E1; left; reflexivity|]. rewrite Hmap, E1. split; [intros K; repeat (split; [first [intros _; exact K | discriminate]|]); discriminate | intros K; apply K; reflexivity]. }
    destruct (str_eqb (rq_method q) M_HOVER) eqn:E2; [apply str_eqb_eq in E2|apply str_eqb_neq in E2].
    { apply (Hrun _ True); [rewrite E2; right; left; reflexivity|]. rewrite Hmap, E2. split; [intros K; repeat (split; [first [intros _; exact K | discriminate]|]); discriminate | intros K; apply K; reflexivity]. }
    destruct (str_eqb (rq_method q) M_CODE_ACTION) eqn:E3; [apply str_eqb_eq in E3|apply str_eqb_neq in E3].
    { apply (Hrun _ True); [rewrite E3; do 2 right; left; reflexivity|]. rewrite Hmap, E3. split; [intros K; repeat (split; [first [intros _; exact K | discriminate]|]); discriminate | intros K; apply K; reflexivity]. }
    destruct (str_eqb (rq_method q) M_RESOLVE) eqn:E4; [apply str_eqb_eq in E4|apply str_eqb_neq in E4].
    { apply (Hrun _ True); [rewrite E4; do 3 right; left; reflexivity|]. rewrite E4. destruct (dc_action D (rq_params q)).
      - split; [intros _; repeat (split; [first [intros _; reflexivity | discriminate]|]); discriminate | discriminate].
      - split; [congruence | intros K; destruct K as (_ & _ & _ & K & _); discriminate (K eq_refl)]. }
    destruct (str_eqb (rq_method q) M_INLAY) eqn:E5; [apply str_eqb_eq in E5|apply str_eqb_neq in E5].
    { apply (Hrun _ True); [rewrite E5; do 4 right; left; reflexivity|]. rewrite Hmap, E5. split; [intros K; repeat (split; [first [intros _; exact K | discriminate]|]); discriminate | intros K; apply K; reflexivity]. }
    destruct (str_eqb (rq_method q) M_SIGNATURE) eqn:E6; [apply str_eqb_eq in E6|apply str_eqb_neq in E6].
    { apply (Hrun _ True); [rewrite E6; do 5 right; left; reflexivity|]. rewrite Hmap, E6. split; [intros K; repeat (split; [first [intros _; exact K | discriminate]|]); discriminate | intros K; apply K; reflexivity]. }
    destruct (str_eqb (rq_method q) M_EXECUTE) eqn:E7; [apply str_eqb_eq in E7|apply str_eqb_neq in E7].
    { apply (Hrun _ True); [rewrite E7; do 6 right; left; reflexivity|]. rewrite Hmap, E7. split; [intros K; repeat (split; [discriminate|]); intros _; exact K | intros K; apply K; reflexivity]. }
    right. eexists. split; [reflexivity|].
    assert (Hnin : ~ In (rq_method q) SUPPORTED).
    { intros K. unfold SUPPORTED in K. cbn [In] in K.
      destruct K as [K|[K|[K|[K|[K|[K|[K|[]]]]]]]]; symmetry in K; contradiction. }
    split; [split; [auto | reflexivity]|]. split; [split; [discriminate | tauto]|]. intros c E. injection E as <-. left. reflexivity. }
  destruct Hcase as [Hr|(r & Hr & R1 & R2 & R3)]; rewrite Hr; [left; reflexivity|]. right.
  destruct (command_of q) as [cmd|]; [|eexists; exists r, []; repeat (split; [first [reflexivity | assumption]|]); assumption].
  unfold command_outputs. destruct (command_edit caps cmd r) as [[[? ?] ?]|] eqn:Ee;
    [|eexists; exists r, []; repeat (split; [first [reflexivity | assumption]|]); assumption].
  eexists. exists (ROk PNull). eexists. split; [reflexivity|].
  assert (Hok : exists p, r = ROk p).
  { unfold command_edit in Ee. destruct r as [p|c]; [eauto|].
    repeat match type of Ee with (if ?b then _ else _) = _ => destruct b end; discriminate. }
  destruct Hok as [p ->].
  split; [split; [discriminate | intros K; apply R1 in K; discriminate]|].
  split; [split; [discriminate | intros K; apply R2 in K; discriminate]|]. discriminate.
Qed.
Print Assumptions C05_error_codes.

(** C05. How a run ends: after any history the loop ends with an error only on a document notification whose
    parameters do not decode, or on a shutdown request not followed by exit; successfully only on exit or shutdown-exit. *)
Theorem C05_loop_end : forall D A P U dbg caps msgs st os f m rest,
  decoders_ok D P -> main_loop D A P U dbg caps msgs initial = (Open st, os) ->
  (forall st', fst (main_loop D A P U dbg caps (msgs ++ [(f, m)]) initial) <> Open st') ->
  match fst (main_loop D A P U dbg caps (msgs ++ (f, m) :: rest) initial) with
  | EndedOk => (exists n, m = MNot n /\ nt_method n = lit "exit")
      \/ (exists q f' n rest', m = MReq q /\ rq_method q = lit "shutdown" /\ rest = (f', MNot n) :: rest' /\ nt_method n = lit "exit")
  | EndedErr => (exists n, m = MNot n /\ ~ decodable_notification D n)
      \/ (exists q, m = MReq q /\ rq_method q = lit "shutdown"
            /\ ~ exists f' n rest', rest = (f', MNot n) :: rest' /\ nt_method n = lit "exit")
  | Crashed => (exists q, m = MReq q /\ rq_method q <> lit "shutdown")
      \/ (exists n u text v lang, m = MNot n /\ client_holds D (msgs ++ [(f, m)]) u text v /\ an_diagnostics A text lang = Panic)
  | Open _ => False
  end.
Proof.
  intros D A P U dbg caps msgs st os f m rest HD H Hno. pose proof (run_inv D A P U dbg caps msgs st os HD H) as Hinv.
  rewrite (main_loop_app D A P U dbg caps msgs _ _ _ H).
  destruct (final m) eqn:Ef.
  - destruct m as [q|n|id]; cbn [final main_loop] in Ef |- *; [| |discriminate]; rewrite Ef; apply str_eqb_eq in Ef; cbn [fst].
    + destruct rest as [|[f' [q'|n|id']] rest'].
      1,2,4: right; exists q; split; [reflexivity|]; split; [exact Ef|]; intros (? & ? & ? & K & _); discriminate.
      destruct (str_eqb (nt_method n) M_EXIT) eqn:En; [apply str_eqb_eq in En | apply str_eqb_neq in En].
      * right. exists q, f', n, rest'. auto.
      * right. exists q. split; [reflexivity|]. split; [exact Ef|]. intros (f0 & n0 & r0 & K & K'). injection K as _ <- _. contradiction.
    + left. exists n. auto.
  - rewrite (main_loop_open_snoc D A P U dbg caps msgs st os f m H Ef) in Hno.
    rewrite main_loop_cons by exact Ef. destruct (one D A P U dbg caps f m st) as [st1 o|o|] eqn:E1.
    + exfalso. apply (Hno st1). reflexivity.
    + cbn [fst]. left. destruct st as [[docs ch] sn fuel]. destruct Hinv as [Hch _]. cbn in Hch. subst ch. destruct m as [q|n|id]; cbn [one] in E1.
      * rewrite handle_request_eq in E1. destruct (route_request D A P U caps f sn q) as [[[? ?]|]|]; discriminate.
      * exists n. split; [reflexivity|]. rewrite handle_notification_eq in E1.
        destruct (target D n docs) as [[t|]|] eqn:Et; [destruct (process_changes A P U caps f _) as [[? ?]|]; discriminate|discriminate|].
        unfold target in Et. unfold decodable_notification. intros (K1 & K2 & K3).
        destruct (str_eqb (nt_method n) M_OPEN) eqn:En; [apply str_eqb_eq in En; apply (K1 En); destruct (dc_open D (nt_params n)) as [[[[? ?] ?] ?]|]; [discriminate|reflexivity]|].
        destruct (str_eqb (nt_method n) M_CHANGE) eqn:En2; [apply str_eqb_eq in En2; apply (K2 En2); destruct (dc_change D (nt_params n)) as [[[? ?] ?]|]; [discriminate|reflexivity]|].
        destruct (str_eqb (nt_method n) M_CLOSE) eqn:En3; [apply str_eqb_eq in En3; apply (K3 En3); destruct (dc_close D (nt_params n)); [discriminate|reflexivity]|]. discriminate.
      * discriminate.
    + cbn [fst]. destruct m as [q|n|id]; cbn [one] in E1.
      * left. exists q. split; [reflexivity|]. cbn [final] in Ef. apply str_eqb_neq in Ef. exact Ef.
      * right. destruct st as [[docs ch] sn fuel]. destruct Hinv as [Hch _]. cbn in Hch. subst ch. apply notification_panic in E1; [|exact HD].
        destruct E1 as (u & t & v & E & Ep). exists n, u, t, v, (fst (pick P U f u sn fuel)). split; [reflexivity|]. split; [|exact Ep].
        apply client_holds_snoc. destruct E as [E|[E Ho]]; rewrite E; [auto|].
        destruct (docs_spec D A P U dbg caps msgs _ os u HD H) as [_ K]. split; [reflexivity|]. split; [reflexivity|]. apply K, Ho.
      * discriminate.
Qed.
Print Assumptions C05_loop_end.
Example C05_example :
  fst (demo_run [demo_open; ask 1 (lit "textDocument/hover") JNull; ask 2 (lit "nope") JNull;
                 ask 3 (lit "textDocument/hover") (JArr [JStr (lit "a.rs"); JNum 9; JNum 0]); note (lit "exit") JNull]) = EndedOk
  /\ snd (demo_run [demo_open; ask 1 (lit "textDocument/hover") JNull; ask 2 (lit "nope") JNull;
                 ask 3 (lit "textDocument/hover") (JArr [JStr (lit "a.rs"); JNum 9; JNum 0]); note (lit "exit") JNull])
  = [[ODiagnostics (lit "a.rs") [LspDiagnostic ((0, 0), (0, 2)) (lit "d") 1] (Some 1%Z)];
     [OResp (IdNum 1) (RErr (-32602))]; [OResp (IdNum 2) (RErr (-32601))]; [OResp (IdNum 3) (RErr (-32603))]; []].
Proof. split; vm_compute; reflexivity. Qed.

(** C06 (refuted). In every session, a document notification whose parameters do not decode ends the server with an
    error. *)
Theorem C06_malformed_notification_refuted : forall D A P U dbg caps msgs st os f n,
  decoders_ok D P -> main_loop D A P U dbg caps msgs initial = (Open st, os) -> ~ decodable_notification D n ->
  (forall rest, fst (main_loop D A P U dbg caps (msgs ++ (f, MNot n) :: rest) initial) = EndedErr)
  \/ nt_method n = lit "exit".
Proof.
  intros D A P U dbg caps msgs st os f n HD H Hd. pose proof (run_inv D A P U dbg caps msgs st os HD H) as Hinv.
  destruct (str_eqb (nt_method n) (lit "exit")) eqn:Ex; [right; apply str_eqb_eq; exact Ex|]. left. intros rest.
  rewrite (main_loop_app D A P U dbg caps msgs _ _ _ H), main_loop_cons by exact Ex. cbn [one].
  destruct st as [[docs ch] sn fuel]. destruct Hinv as [Hch _]. cbn in Hch. subst ch. rewrite handle_notification_eq.
  assert (Ht : target D n docs = None); [|rewrite Ht; reflexivity].
  unfold decodable_notification in Hd. unfold target.
  change (lit "textDocument/didOpen") with M_OPEN in Hd. change (lit "textDocument/didChange") with M_CHANGE in Hd.
  change (lit "textDocument/didClose") with M_CLOSE in Hd.
  destruct (str_eqb (nt_method n) M_OPEN) eqn:E1.
  { apply str_eqb_eq in E1. destruct (dc_open D (nt_params n)) as [[[[? ?] ?] ?]|]; [|reflexivity].
    exfalso. apply Hd. rewrite E1. split; [discriminate|]. split; discriminate. }
  apply str_eqb_neq in E1. destruct (str_eqb (nt_method n) M_CHANGE) eqn:E2.
  { apply str_eqb_eq in E2. destruct (dc_change D (nt_params n)) as [[[? ?] ?]|]; [|reflexivity].
    exfalso. apply Hd. rewrite E2. split; [discriminate|]. split; discriminate. }
  apply str_eqb_neq in E2. destruct (str_eqb (nt_method n) M_CLOSE) eqn:E3.
  { apply str_eqb_eq in E3. destruct (dc_close D (nt_params n)); [|reflexivity].
    exfalso. apply Hd. rewrite E3. split; [discriminate|]. split; discriminate. }
  apply str_eqb_neq in E3. exfalso. apply Hd. split; [contradiction|]. split; contradiction.
Qed.
Print Assumptions C06_malformed_notification_refuted.
(** C06. The rest: any other notification (other than exit) leaves the server running, unless the diagnostics of the text it brings
    fail (see C60_diagnostics_refuted). *)
Theorem C06_wellformed_notification_partial : forall D A P U dbg caps msgs st os f n,
  decoders_ok D P -> main_loop D A P U dbg caps msgs initial = (Open st, os) ->
  decodable_notification D n -> nt_method n <> lit "exit" ->
  (forall u text v lang, client_holds D (msgs ++ [(f, MNot n)]) u text v -> an_diagnostics A text lang <> Panic) ->
  exists st' o, main_loop D A P U dbg caps (msgs ++ [(f, MNot n)]) initial = (Open st', os ++ [o]).
Proof.
  intros D A P U dbg caps msgs st os f n HD H Hd Hx Hm. pose proof (run_inv D A P U dbg caps msgs st os HD H) as Hinv.
  assert (Ef : final (MNot n) = false) by (cbn [final]; apply str_eqb_neq; exact Hx).
  rewrite (main_loop_open_snoc D A P U dbg caps msgs st os f (MNot n) H Ef). cbn [one].
  destruct (handle_notification D A P U caps f n st) as [st' o|o|] eqn:E1; [exists st', o; reflexivity| |].
  - exfalso. unfold handle_notification in E1. rewrite nroute_eq in E1. cbv zeta in E1. destruct Hd as (K1 & K2 & K3).
    destruct (str_eqb (nt_method n) M_OPEN) eqn:E2.
    { apply str_eqb_eq in E2. specialize (K1 E2). destruct (dc_open D (nt_params n)); [|congruence].
      destruct (process_changes A P U caps f _) as [[? ?]|]; discriminate. }
    destruct (str_eqb (nt_method n) M_CHANGE) eqn:E3.
    { apply str_eqb_eq in E3. specialize (K2 E3). destruct (dc_change D (nt_params n)); [|congruence].
      destruct (process_changes A P U caps f _) as [[? ?]|]; discriminate. }
    destruct (str_eqb (nt_method n) M_CLOSE) eqn:E4.
    { apply str_eqb_eq in E4. specialize (K3 E4). destruct (dc_close D (nt_params n)); [|congruence].
      destruct (process_changes A P U caps f _) as [[? ?]|]; discriminate. }
    destruct (process_changes A P U caps f _) as [[? ?]|]; discriminate.
  - exfalso. destruct st as [[docs ch] sn fuel]. destruct Hinv as [Hch _]. cbn in Hch. subst ch. apply notification_panic in E1; [|exact HD].
    destruct E1 as (u & t & v & E & Ep). apply (Hm u t v (fst (pick P U f u sn fuel))); [|exact Ep].
    apply client_holds_snoc. destruct E as [E|[E Ho]]; rewrite E; [auto|].
    destruct (docs_spec D A P U dbg caps msgs _ os u HD H) as [_ K]. split; [reflexivity|]. split; [reflexivity|]. apply K, Ho.
Qed.
Print Assumptions C06_wellformed_notification_partial.
Example C06_example :
  ~ decodable_notification demo_decoders (Notification (lit "textDocument/didChange") JNull)
  /\ fst (demo_run [demo_open; note (lit "textDocument/didChange") JNull; demo_close]) = EndedErr.
Proof. split; [intros (_ & K & _); apply K; reflexivity | vm_compute; reflexivity]. Qed.

(** C07. The ink! version of a document after a message: a message that is not about it keeps it; closing forgets it;
    an open or change re-detects it when the document was not analysed before or a re-check is due, and otherwise
    keeps it. *)
Theorem C07_version_sticky : forall D A P U dbg caps msgs st os f m st' os' u,
  decoders_ok D P -> main_loop D A P U dbg caps msgs initial = (Open st, os) ->
  main_loop D A P U dbg caps (msgs ++ [(f, m)]) initial = (Open st', os') ->
  match event_of D m u with
  | None => lang_of st' u = lang_of st u
  | Some EvClose => lang_of st' u = None
  | Some (EvChange _ _) | Some (EvOpen _ _) =>
      match lang_of st u with
      | Some lang => (recheck_due msgs os -> lang_of st' u = Some (declared_version P U f u))
                     /\ (~ recheck_due msgs os -> lang_of st' u = Some lang)
      | None => lang_of st' u = match event_of D m u with Some (EvOpen _ _) => Some (declared_version P U f u) | _ => None end
      end
  end.
Proof.
  intros D A P U dbg caps msgs st os f m st' os' u HD H H'. pose proof (run_inv D A P U dbg caps msgs st os HD H) as Hinv.
  pose proof (recheck_spec D A P U dbg caps msgs st os HD H) as Hre.
  apply main_loop_snoc in H' as [st1 [os1 [o [K1 [Kf [K2 _]]]]]]. rewrite H in K1. injection K1 as <- <-.
  pose proof (one_effect D A P U dbg caps f m st st' o HD Hinv K2) as Heff. cbv zeta in Heff.
  destruct Hinv as [_ Hs]. specialize (Hs u). unfold lang_of.
  assert (Hsome : is_some (assoc u (st_snapshots st)) = is_some (assoc u (me_docs (st_memory st)))).
  { destruct (assoc u (me_docs (st_memory st))) as [[? ?]|]; [destruct Hs as [? ->]|rewrite Hs]; reflexivity. }
  destruct Heff as [(u0 & t & v & E & Hne & K)|[(u0 & E & Hh & Hne & _ & Ks & _)|(Hall & Ks & _ & _)]].
  - destruct (pick P U f u0 (st_snapshots st) (st_fuel st)) as [lang fuel'] eqn:Ep. destruct K as [_ [Ks _]]. rewrite Ks.
    destruct (str_eq_dec u u0) as [->|n].
    + assert (Hgoal : match option_map sn_lang (assoc u0 (st_snapshots st)) with
        | Some l => (recheck_due msgs os -> Some lang = Some (declared_version P U f u0)) /\ (~ recheck_due msgs os -> Some lang = Some l)
        | None => lang = declared_version P U f u0
        end).
      { unfold pick in Ep. destruct (st_fuel st) as [|k].
        - destruct (assoc u0 (st_snapshots st)) as [s|]; cbn [option_map]; injection Ep as <- _; [|reflexivity].
          split; [intros K; apply Hre in K; contradiction K; reflexivity | reflexivity].
        - injection Ep as <- _. destruct (assoc u0 (st_snapshots st)); cbn [option_map]; [|reflexivity].
          split; [reflexivity|]. intros K. exfalso. apply K. apply Hre. discriminate. }
      rewrite assoc_set_same. cbn [option_map sn_lang].
      destruct E as [E|[E Hh]]; rewrite E.
      * destruct (option_map sn_lang (assoc u0 (st_snapshots st))); [exact Hgoal | rewrite Hgoal; reflexivity].
      * rewrite <- Hsome in Hh. destruct (assoc u0 (st_snapshots st)); [|discriminate]. cbn [option_map] in *. exact Hgoal.
    + rewrite (Hne u n). rewrite assoc_set_other by congruence. reflexivity.
  - rewrite Ks. destruct (str_eq_dec u u0) as [->|n].
    + rewrite E, assoc_del_same. reflexivity.
    + rewrite (Hne u n), assoc_del_other by congruence. reflexivity.
  - rewrite Ks. specialize (Hall u). destruct (event_of D m u) as [[? ?|? ?|]|]; [destruct Hall | | |reflexivity];
      rewrite <- Hsome in Hall; destruct (assoc u (st_snapshots st)); try discriminate; reflexivity.
Qed.
Print Assumptions C07_version_sticky.

(** C07. A re-check is due only after a migration request, and then for the next two analyses of any documents: none
    is ever due without one, one is due right after one, and after a request it is due iff fewer than two analyses were
    published since. *)
Theorem C07_recheck : forall D A P U dbg caps h1 f m h2 st os,
  decoders_ok D P -> main_loop D A P U dbg caps (h1 ++ (f, m) :: h2) initial = (Open st, os) ->
  migration_request m -> (forall f' m', In (f', m') h2 -> ~ migration_request m') ->
  (recheck_due (h1 ++ (f, m) :: h2) os <-> analyses (concat (skipn (S (length h1)) os)) < 2).
Proof.
  intros D A P U dbg caps h1 f m h2 st os HD H Hm Hn. pose proof (open_length D A P U dbg caps _ _ _ _ H) as L.
  rewrite app_length in L. cbn [length] in L. split.
  - intros (h1' & f' & m' & h2' & os1 & o & os2 & E & -> & L' & Hm' & Hn' & Ha).
    assert (Hl : length h1 = length h1') by (eapply (split_last_unique h1 h1' (f, m) (f', m') h2 h2' migration_request); eauto).
    rewrite Hl, <- L'. replace (S (length os1)) with (length (os1 ++ [o])) by (rewrite app_length; cbn; lia).
    change (o :: os2) with ([o] ++ os2). rewrite app_assoc, skipn_app, skipn_all, Nat.sub_diag. exact Ha.
  - intros Ha. destruct (nth_error os (length h1)) as [o|] eqn:En; [|apply nth_error_None in En; lia].
    apply nth_error_split in En as [os1 [os2 [-> Hl]]]. exists h1, f, m, h2, os1, o, os2.
    split; [reflexivity|]. split; [reflexivity|]. split; [exact Hl|]. split; [exact Hm|]. split; [exact Hn|].
    rewrite <- Hl in Ha. replace (S (length os1)) with (length (os1 ++ [o])) in Ha by (rewrite app_length; cbn; lia).
    change (o :: os2) with ([o] ++ os2) in Ha. rewrite app_assoc, skipn_app, skipn_all, Nat.sub_diag in Ha. exact Ha.
Qed.
Print Assumptions C07_recheck.
Theorem C07_no_recheck_without_migration : forall h os,
  (forall f m, In (f, m) h -> ~ migration_request m) -> ~ recheck_due h os.
Proof.
  intros h os Hn (h1 & f & m & h2 & os1 & o & os2 & -> & _ & _ & Hm & _). apply (Hn f m); [|exact Hm].
  apply in_or_app. right. left. reflexivity.
Qed.
Print Assumptions C07_no_recheck_without_migration.
(** The manifest (here: any) says ink! 5 from the third message on; without a migration request the open document stays
    at its version, with one it is re-detected. *)
Example C07_example :
  let P5 := Platform Some (fun r s => Some (r ++ s)) (fun u => Some [u; lit "p"]) (fun p => None)
              (fun t => Some [(lit "dependencies", TTable [(lit "ink", TStr t)])]) (fun _ => []) in
  let fs v := Fsys (fun p => match p with [a; b] => str_eqb a CARGO_TOML | _ => false end) (fun _ => true) (fun _ => Some v) in
  let run l := main_loop demo_decoders demo_analyzer P5 ascii_unicode demo_dbg demo_caps l initial in
  let mig := ask 1 (lit "workspace/executeCommand") (JObj [(lit "command", JStr (lit "migrateProject"))]) in
  let lang r := match fst r with Open st => lang_of st (lit "a.rs") | _ => None end in
  lang (run [(fs (lit "4.0"), demo_open); (fs (lit "5.0"), demo_change)]) = Some V4
  /\ lang (run [(fs (lit "4.0"), demo_open); (fs (lit "4.0"), mig); (fs (lit "5.0"), demo_change)]) = Some V5
  /\ lang (run [(fs (lit "4.0"), demo_open); (fs (lit "4.0"), mig); (fs (lit "4.0"), demo_change); (fs (lit "4.0"), demo_change); (fs (lit "5.0"), demo_change)]) = Some V4.
Proof. vm_compute. repeat split; reflexivity. Qed.

(** C09. A command: when it succeeds with a result that leads to an edit (file-creating ones only if the client
    announced it can create files), the reply is empty and the edit request follows it at once; otherwise the reply is
    the result or an error, and nothing follows. *)
Theorem C09_command : forall D A P U dbg caps msgs st os f q cmd args,
  decoders_ok D P -> main_loop D A P U dbg caps msgs initial = (Open st, os) ->
  rq_method q = lit "workspace/executeCommand" -> dc_execute D (rq_params q) = Some (cmd, args) ->
  exists st' creates, (creates = true <-> announced_file_creation caps) /\
  main_loop D A P U dbg caps (msgs ++ [(f, MReq q)]) initial =
  match handle_execute_command A P U caps f (cmd, args) (st_snapshots st) with
  | HPanic => (Crashed, os)
  | HErr => (Open st', os ++ [[OResp (rq_id q) (RErr (-32603)%Z)]])
  | HOk p => (Open st', os ++ [match edit_request creates p with
                               | Some (id, label, e) => [OResp (rq_id q) (ROk PNull); OApplyEdit id label e]
                               | None => [OResp (rq_id q) (ROk p)]
                               end])
  end.
Proof.
  intros D A P U dbg caps msgs st os f q cmd args HD H Hm Hx. pose proof (run_inv D A P U dbg caps msgs st os HD H) as Hinv.
  assert (Hf : final (MReq q) = false) by (cbn [final]; rewrite Hm; reflexivity).
  rewrite (main_loop_open_snoc D A P U dbg caps msgs st os f (MReq q) H Hf). cbn [one].
  destruct st as [[docs ch] sn fuel]. pose proof Hinv as [Hch _]. cbn in Hch. subst ch. rewrite handle_request_eq, route_request_eq.
  cbv zeta. rewrite Hm. cbn [st_snapshots]. change (str_eqb (lit "workspace/executeCommand") M_COMPLETION) with false.
  change (str_eqb (lit "workspace/executeCommand") M_HOVER) with false. change (str_eqb (lit "workspace/executeCommand") M_CODE_ACTION) with false.
  change (str_eqb (lit "workspace/executeCommand") M_RESOLVE) with false. change (str_eqb (lit "workspace/executeCommand") M_INLAY) with false.
  change (str_eqb (lit "workspace/executeCommand") M_SIGNATURE) with false. change (str_eqb (lit "workspace/executeCommand") M_EXECUTE) with true.
  cbv iota. rewrite Hx. cbn [option_map].
  assert (Hcmd : command_of q = Some cmd).
  { unfold command_of. rewrite Hm. change (str_eqb (lit "workspace/executeCommand") M_EXECUTE) with true. cbv iota.
    unfold dc_execute in Hx. destruct (rq_params q) as [| | | | |m]; try discriminate. cbn [jget].
    destruct (assoc (lit "command") m) as [[| | |s| |]|]; try discriminate. cbn [obind jstr].
    destruct (assoc (lit "arguments") m) as [[| | | |l|]|]; try discriminate; destruct (dc_work_done D (JObj m)); try discriminate;
      injection Hx as <- _; reflexivity. }
  rewrite Hcmd.
  exists (State (Memory docs []) sn (if is_migration q then 2 else fuel)), (can_create_workspace_resources caps). split.
  { unfold can_create_workspace_resources, announced_file_creation. rewrite !andb_true_iff. split.
    - intros [H1 [H2 H3]]. split; [destruct (cc_apply_edit caps) as [[|]|]; try discriminate; reflexivity|].
      split; [destruct (cc_document_changes caps) as [[|]|]; try discriminate; reflexivity|].
      destruct (cc_resource_ops caps) as [ops|]; [|discriminate]. exists ops. split; [reflexivity|].
      apply existsb_exists in H3 as [x [Hin E]]. apply str_eqb_eq in E. subst x. exact Hin.
    - intros [-> [-> [ops [-> Hin]]]]. split; [reflexivity|]. split; [reflexivity|]. apply existsb_exists. exists (lit "create").
      split; [exact Hin | apply str_eqb_refl]. }
  assert (Hkind : forall p, handle_execute_command A P U caps f (cmd, args) sn = HOk p ->
     command_edit caps cmd (ROk p) = edit_request (can_create_workspace_resources caps) p).
  { intros p. unfold handle_execute_command. cbn [fst snd]. unfold command_edit.
    destruct (str_eqb cmd COMMAND_CREATE_PROJECT) eqn:E1.
    { apply str_eqb_eq in E1. subst cmd.
      destruct (obind _ (fun a => obind (jget (lit "name") a) jstr)) as [nm|]; [|discriminate]. destruct (obind _ (fun s => pf_url_parse P (slash_terminated s))) as [rt|]; [|discriminate].
      destruct (handle_create_project P (an_new_project A) nm rt) as [c| |]; try discriminate. intros K. injection K as <-. cbn [andb edit_request].
      destruct (can_create_workspace_resources caps); reflexivity. }
    cbn [andb]. destruct (str_eqb cmd COMMAND_MIGRATE_PROJECT) eqn:E2.
    { destruct (obind _ (json_uri P)) as [u|]; [|discriminate]. destruct (migrate_project A P caps f sn u); try discriminate. intros K. injection K as <-. reflexivity. }
    destruct (str_eqb cmd COMMAND_EXTRACT_EVENT) eqn:E3; [|discriminate]. cbn [andb].
    destruct (match args with x :: _ => Some x | [] => None end) as [a|]; [|discriminate].
    destruct (uri_and_range P a) as [[[u r]|]|]; try discriminate. destruct (extract_event A P U caps f sn u r); try discriminate.
    intros K. injection K as <-. cbn [edit_request]. destruct (can_create_workspace_resources caps); reflexivity. }
  destruct (handle_execute_command A P U caps f (cmd, args) sn) as [p| |] eqn:Eh; cbn [to_reply].
  - unfold command_outputs. rewrite (Hkind p eq_refl). destruct (edit_request (can_create_workspace_resources caps) p) as [[[? ?] ?]|]; reflexivity.
  - unfold command_outputs.
    assert (He : command_edit caps cmd (RErr INTERNAL_ERROR) = None).
    { unfold command_edit. destruct (str_eqb cmd COMMAND_CREATE_PROJECT && _); [reflexivity|]. destruct (str_eqb cmd COMMAND_MIGRATE_PROJECT); [reflexivity|].
      destruct (str_eqb cmd COMMAND_EXTRACT_EVENT && _); reflexivity. }
    rewrite He. reflexivity.
  - reflexivity.
Qed.
Print Assumptions C09_command.

(** C09. No other message causes an edit request. *)
Theorem C09_only_commands : forall D A P U dbg caps msgs st os f m s o id label e,
  decoders_ok D P -> main_loop D A P U dbg caps msgs initial = (Open st, os) ->
  main_loop D A P U dbg caps (msgs ++ [(f, m)]) initial = (s, os ++ [o]) -> In (OApplyEdit id label e) o ->
  exists q cmd args, m = MReq q /\ rq_method q = lit "workspace/executeCommand" /\ dc_execute D (rq_params q) = Some (cmd, args).
Proof.
  intros D A P U dbg caps msgs st os f m s o id label e HD H H' Hin. pose proof (run_inv D A P U dbg caps msgs st os HD H) as Hinv.
  destruct (final m) eqn:Ef.
  { rewrite (main_loop_app D A P U dbg caps msgs _ _ _ H) in H'.
    destruct m as [q|n|i]; cbn [final main_loop] in Ef, H'; [| |discriminate]; rewrite Ef in H'; injection H' as _ H';
      apply app_inv_head in H'; injection H' as <-; cbn [In] in Hin; intuition discriminate. }
  rewrite (main_loop_open_snoc D A P U dbg caps msgs st os f m H Ef) in H'.
  destruct (one D A P U dbg caps f m st) as [st1 o1|o1|] eqn:E1; [| |exfalso; injection H' as _ H'; apply (f_equal (@length _)) in H'; rewrite app_length in H'; cbn in H'; lia].
  2:{ injection H' as _ H'. apply app_inv_head in H'. injection H' as ->. destruct m as [q|n|i]; cbn [one] in E1.
      - unfold handle_request in E1. destruct (match route_request D A P U caps f (st_snapshots st) q with Some _ => _ | None => _ end); [|discriminate].
        destruct (process_changes A P U caps f st) as [[? ?]|]; discriminate.
      - unfold handle_notification in E1. destruct (fold_left _ _ _) as [[? ?]|]; [destruct (process_changes A P U caps f _) as [[? ?]|]; discriminate|].
        injection E1 as <-. destruct Hin.
      - discriminate. }
  injection H' as _ H'. apply app_inv_head in H'. injection H' as ->.
  destruct m as [q|n|i]; cbn [one] in E1.
  - destruct st as [[docs ch] sn fuel]. pose proof Hinv as [Hch _]. cbn in Hch. subst ch. rewrite handle_request_eq in E1.
    destruct (route_request D A P U caps f sn q) as [[[i r]|]|] eqn:Er; [|discriminate|rewrite route_request_eq in Er; discriminate].
    injection E1 as _ <-. destruct (command_of q) as [cmd|] eqn:Ec; [|destruct Hin as [Hin|[]]; discriminate].
    unfold command_of in Ec. destruct (str_eqb (rq_method q) M_EXECUTE) eqn:Em; [|discriminate]. apply str_eqb_eq in Em.
    destruct (dc_execute D (rq_params q)) as [[cmd' args]|] eqn:Ex; [exists q, cmd', args; auto|]. exfalso.
    rewrite route_request_eq in Er. cbv zeta in Er. rewrite Em in Er. vm_compute str_eqb in Er. cbv iota in Er.
    rewrite Ex in Er. cbn [option_map] in Er. injection Er as <- <-. unfold command_outputs in Hin.
    assert (He : command_edit caps cmd (RErr INVALID_PARAMS) = None).
    { unfold command_edit. destruct (str_eqb cmd COMMAND_CREATE_PROJECT && _); [reflexivity|]. destruct (str_eqb cmd COMMAND_MIGRATE_PROJECT); [reflexivity|].
      destruct (str_eqb cmd COMMAND_EXTRACT_EVENT && _); reflexivity. }
    rewrite He in Hin. destruct Hin as [Hin|[]]; discriminate.
  - exfalso. pose proof (one_effect D A P U dbg caps f (MNot n) st st1 o HD Hinv E1) as Heff. cbv zeta in Heff.
    destruct Heff as [(u & t & v & _ & _ & K)|[(u & _ & _ & _ & _ & _ & ->)|(_ & _ & _ & K)]].
    + destruct (pick P U f u (st_snapshots st) (st_fuel st)). destruct K as [_ [_ (ds & _ & ->)]]. destruct Hin as [Hin|[]]; discriminate.
    + destruct Hin as [Hin|[]]; discriminate.
    + destruct st as [[docs ch] sn fuel]. destruct Hinv as [Hch _]. cbn in Hch. subst ch. rewrite handle_notification_eq in E1.
      destruct (target D n docs) as [[t|]|] eqn:Et; try discriminate.
      * pose proof (target_url D P n docs t HD Et) as Hu. rewrite process_one in E1 by exact Hu.
        destruct (assoc (fst t) (set_doc t docs)) as [[? ?]|].
        -- destruct (pick P U f (fst t) sn fuel). cbv zeta in E1. destruct (diagnostics_of A _); [|discriminate]. injection E1 as _ <-. destruct Hin as [Hin|[]]; discriminate.
        -- injection E1 as _ <-. destruct Hin as [Hin|[]]; discriminate.
      * injection E1 as _ <-. destruct Hin.
  - exfalso. unfold handle_response in E1. injection E1 as _ <-.
    match type of Hin with In _ (match ?x with _ => _ end) => destruct x; [destruct Hin as [Hin|[]]; discriminate | destruct Hin] end.
Qed.
Print Assumptions C09_only_commands.
Example C09_example :
  let caps := ClientCaps None None None None None None (Some true) (Some true) (Some [lit "create"]) in
  let msgs := [(demo_fs, ask 1 (lit "workspace/executeCommand")
      (JObj [(lit "command", JStr (lit "createProject"));
             (lit "arguments", JArr [JObj [(lit "name", JStr (lit "flip")); (lit "root", JStr (lit "file:///p"))]])]))] in
  announced_file_creation caps /\
  snd (main_loop demo_decoders demo_analyzer demo_platform ascii_unicode demo_dbg caps msgs initial)
  = [[OResp (IdNum 1) (ROk PNull);
      OApplyEdit (lit "initialize-project::file:///p/") (lit "New ink! project")
        (WDocChanges [OpCreate (lit "file:///p/lib.rs"); OpEdit (lit "file:///p/lib.rs") [LspTextEdit default_range (lit "flip")];
                      OpCreate (lit "file:///p/Cargo.toml"); OpEdit (lit "file:///p/Cargo.toml") [LspTextEdit default_range (lit "flip")]])]].
Proof. split; [|vm_compute; reflexivity]. split; [reflexivity|]. split; [reflexivity|]. exists [lit "create"]. split; [reflexivity | left; reflexivity]. Qed.

(** C10. A document is shown exactly when the client responds to a request whose id is "initialize-project::" followed
    by a URL that has a "lib.rs" child, and it is that child; the server's state does not change. *)
Theorem C10_show_document : forall D A P U dbg caps msgs st os f id,
  main_loop D A P U dbg caps msgs initial = (Open st, os) ->
  exists o, main_loop D A P U dbg caps (msgs ++ [(f, MResp id)]) initial = (Open st, os ++ [o])
  /\ forall sid u focus, In (OShowDocument sid u focus) o <->
       sid = lit "show-document::" ++ u /\ focus = true /\ o = [OShowDocument sid u focus]
       /\ exists s url root, id = IdStr s /\ flat_map dbg s = lit "initialize-project::" ++ url
            /\ pf_url_parse P url = Some root /\ pf_join P root (lit "lib.rs") = Some u.
Proof.
  intros D A P U dbg caps msgs st os f id H.
  rewrite (main_loop_open_snoc D A P U dbg caps msgs st os f (MResp id) H eq_refl). cbn [one]. unfold handle_response.
  eexists. split; [reflexivity|]. intros sid u focus.
  change SHOW_DOCUMENT_ID_PREFIX with (lit "show-document::"). change INITIALIZE_PROJECT_ID_PREFIX with (lit "initialize-project::").
  destruct id as [z|s]; cbn [request_id_as_str obind].
  { split; [intros []|]. intros (_ & _ & _ & s & url & root & K & _). discriminate. }
  destruct (strip_prefix (lit "initialize-project::") (flat_map dbg s)) as [url|] eqn:E1; cbn [obind].
  - apply strip_prefix_some in E1. destruct (pf_url_parse P url) as [root|] eqn:E2; cbn [obind].
    + destruct (pf_join P root (lit "lib.rs")) as [lib|] eqn:E3; cbn [obind].
      * split.
        -- intros [K|[]]. injection K as <- <- <-. split; [reflexivity|]. split; [reflexivity|]. split; [reflexivity|].
           exists s, url, root. auto.
        -- intros (_ & _ & -> & _). left. reflexivity.
      * split; [intros []|]. intros (_ & _ & K & _). discriminate.
    + split; [intros []|]. intros (_ & _ & K & _). discriminate.
  - split; [intros []|]. intros (_ & _ & K & _). discriminate.
Qed.
Print Assumptions C10_show_document.

(** C10. Documents are shown in reaction to responses only. *)
Theorem C10_only_responses : forall D A P U dbg caps msgs st os f m s o sid u focus,
  decoders_ok D P -> main_loop D A P U dbg caps msgs initial = (Open st, os) ->
  main_loop D A P U dbg caps (msgs ++ [(f, m)]) initial = (s, os ++ [o]) -> In (OShowDocument sid u focus) o ->
  exists id, m = MResp id.
Proof.
  intros D A P U dbg caps msgs st os f m s o sid u focus HD H H' Hin. pose proof (run_inv D A P U dbg caps msgs st os HD H) as Hinv.
  destruct m as [q|n|i]; [| |eauto]; exfalso;
    match type of H' with context [(f, ?m)] => destruct (final m) eqn:Ef end.
  - rewrite (main_loop_app D A P U dbg caps msgs _ _ _ H) in H'.
    cbn [final main_loop] in Ef, H'. rewrite Ef in H'. injection H' as _ H'.
    apply app_inv_head in H'; injection H' as <-; destruct Hin as [Hin|[]]; discriminate.
  - rewrite (main_loop_open_snoc D A P U dbg caps msgs st os f (MReq q) H Ef) in H'. cbn [one] in H'.
    destruct st as [[docs ch] sn fuel]. destruct Hinv as [Hch _]. cbn in Hch. subst ch. rewrite handle_request_eq in H'.
    destruct (route_request D A P U caps f sn q) as [[[i r]|]|] eqn:Er;
      [|injection H' as _ H'; apply (f_equal (@length _)) in H'; rewrite app_length in H'; cbn in H'; lia|rewrite route_request_eq in Er; discriminate].
    injection H' as _ H'. apply app_inv_head in H'. injection H' as <-.
    destruct (command_of q) as [cmd|]; [|destruct Hin as [Hin|[]]; discriminate]. unfold command_outputs in Hin.
    destruct (command_edit caps cmd r) as [[[? ?] ?]|]; [destruct Hin as [Hin|[Hin|[]]] | destruct Hin as [Hin|[]]]; discriminate.
  - rewrite (main_loop_app D A P U dbg caps msgs _ _ _ H) in H'.
    cbn [final main_loop] in Ef, H'. rewrite Ef in H'. injection H' as _ H'.
    apply app_inv_head in H'; injection H' as <-; destruct Hin.
  - rewrite (main_loop_open_snoc D A P U dbg caps msgs st os f (MNot n) H Ef) in H'. cbn [one] in H'.
    destruct st as [[docs ch] sn fuel]. destruct Hinv as [Hch _]. cbn in Hch. subst ch. rewrite handle_notification_eq in H'.
    destruct (target D n docs) as [[t|]|] eqn:Et.
    + rewrite process_one in H' by exact (target_url D P n docs t HD Et).
      destruct (assoc (fst t) (set_doc t docs)) as [[? ?]|].
      * destruct (pick P U f (fst t) sn fuel). cbv zeta in H'. destruct (diagnostics_of A _).
        -- injection H' as _ H'. apply app_inv_head in H'. injection H' as <-. destruct Hin as [Hin|[]]; discriminate.
        -- exfalso. injection H' as _ H'. rewrite <- (app_nil_r os) in H' at 1. apply app_inv_head in H'. discriminate.
      * injection H' as _ H'. apply app_inv_head in H'. injection H' as <-. destruct Hin as [Hin|[]]; discriminate.
    + injection H' as _ H'. apply app_inv_head in H'. injection H' as <-. destruct Hin.
    + injection H' as _ H'. apply app_inv_head in H'. injection H' as <-. destruct Hin.
Qed.
Print Assumptions C10_only_responses.

(** C10. The reply to the project creation of C09 opens the project's lib.rs (for a URL of plain characters), whatever
    the reply says: its content is not looked at. *)
Theorem C10_created_project_opened : forall D A P U dbg caps msgs st os f root lib,
  dbg_ok dbg -> Forall plain root -> pf_url_parse P root = Some root -> pf_join P root (lit "lib.rs") = Some lib ->
  main_loop D A P U dbg caps msgs initial = (Open st, os) ->
  main_loop D A P U dbg caps (msgs ++ [(f, MResp (IdStr (lit "initialize-project::" ++ root)))]) initial
  = (Open st, os ++ [[OShowDocument (lit "show-document::" ++ lib) lib true]]).
Proof.
  intros D A P U dbg caps msgs st os f root lib Hdbg Hp Hu Hj H.
  rewrite (main_loop_open_snoc D A P U dbg caps msgs st os f (MResp _) H eq_refl). cbn [one]. unfold handle_response. cbn [request_id_as_str obind].
  assert (Hid : forall s, Forall plain s -> flat_map dbg s = s).
  { induction s as [|c s IH]; intros K; [reflexivity|]. inversion K as [|? ? K1 K2]; subst. cbn [flat_map]. rewrite (Hdbg c K1), (IH K2). reflexivity. }
  rewrite Hid.
  - assert (E : strip_prefix INITIALIZE_PROJECT_ID_PREFIX (lit "initialize-project::" ++ root) = Some root) by (apply strip_prefix_some; reflexivity).
    rewrite E. cbn [obind]. rewrite Hu. cbn [obind]. rewrite Hj. reflexivity.
  - apply Forall_app. split; [|exact Hp].
    apply Forall_forall. intros c Hin. unfold lit in Hin. cbn in Hin. unfold plain.
    repeat (destruct Hin as [<-|Hin]; [vm_compute; repeat split; discriminate|]). destruct Hin.
Qed.
Print Assumptions C10_created_project_opened.
Example C10_example :
  dbg_ok demo_dbg /\ Forall plain (lit "file:///p/") /\
  snd (demo_run [MResp (IdStr (lit "initialize-project::file:///p/")); MResp (IdStr (lit "migrate-project::x")); MResp (IdNum 3)])
  = [[OShowDocument (lit "show-document::file:///p/lib.rs") (lit "file:///p/lib.rs") true]; []; []].
Proof.
  split; [intros c _; reflexivity|]. split; [|vm_compute; reflexivity].
  repeat constructor; vm_compute; congruence.
Qed.

(** C60 (refuted). A hover past the end of a document, which the protocol allows (such a column means the end of the
    line), and a command argument whose range ends before it starts, each crash the server. *)
Theorem C60_no_crash_refuted :
  fst (demo_run [demo_open; ask 1 (lit "textDocument/hover") (JArr [JStr (lit "a.rs"); JNum 0; JNum 3])]) = Crashed
  /\ fst (demo_run [ask 1 (lit "workspace/executeCommand")
        (JObj [(lit "command", JStr (lit "extractEvent"));
               (lit "arguments", JArr [JObj [(lit "uri", JStr (lit "a.rs"));
                 (lit "range", JObj [(lit "start", JNum 2); (lit "end", JNum 1)])]])])]) = Crashed.
Proof. split; vm_compute; reflexivity. Qed.
Print Assumptions C60_no_crash_refuted.
(** C60. In every session with any analyzer that fails outside the text: such a hover crashes the server. *)
Theorem C60_position_past_end_refuted : forall D A P U dbg caps msgs st os u text v f q p off,
  decoders_ok D P -> analyzer_ok A -> main_loop D A P U dbg caps msgs initial = (Open st, os) -> client_holds D msgs u text v ->
  query_of D q = Some (u, QCompletion p) \/ query_of D q = Some (u, QHover p) \/ (exists prev, query_of D q = Some (u, QSignature p prev)) ->
  from_lsp_offset (new_context text (position_encoding (cc_encodings caps))) p = Some off -> bytes text < off ->
  main_loop D A P U dbg caps (msgs ++ [(f, MReq q)]) initial = (Crashed, os).
Proof.
  intros D A P U dbg caps msgs st os u text v f q p off HD HA H Hc Hq Hoff Hlt.
  destruct (C02_answers_from_latest_text D A P U dbg caps msgs st os u HD H) as [K _]. destruct (K text v Hc) as [lang [_ Ka]].
  destruct (ao_out A HA text lang off Hlt) as (A1 & A2 & A3 & _).
  destruct Hq as [Hq|[Hq|[prev Hq]]]; rewrite (Ka f q _ Hq); cbn [answer]; rewrite Hoff.
  - rewrite A1. reflexivity.
  - rewrite A3. reflexivity.
  - rewrite A2. reflexivity.
Qed.
Print Assumptions C60_position_past_end_refuted.
(** C60. In every session with any analyzer: a text whose diagnostics fail crashes the server as soon as the client opens it or changes
    a document to it, and a text whose inlay hints fail when they are asked for. *)
Theorem C60_diagnostics_refuted : forall D A P U dbg caps msgs st os u text v f n,
  decoders_ok D P -> main_loop D A P U dbg caps msgs initial = (Open st, os) -> nt_method n <> lit "exit" ->
  event_of D (MNot n) u = Some (EvOpen text v) \/ (event_of D (MNot n) u = Some (EvChange text v) /\ is_open D msgs u) ->
  (forall lang, an_diagnostics A text lang = Panic) ->
  main_loop D A P U dbg caps (msgs ++ [(f, MNot n)]) initial = (Crashed, os).
Proof.
  intros D A P U dbg caps msgs st os u text v f n HD H Hx He Hp. pose proof (run_inv D A P U dbg caps msgs st os HD H) as Hinv.
  assert (Ef : final (MNot n) = false) by (cbn [final]; apply str_eqb_neq; exact Hx).
  rewrite (main_loop_open_snoc D A P U dbg caps msgs st os f (MNot n) H Ef). cbn [one].
  assert (E : handle_notification D A P U caps f n st = SPanic); [|rewrite E; reflexivity].
  destruct st as [[docs ch] sn fuel]. destruct Hinv as [Hch _]. cbn in Hch. subst ch. apply notification_panic; [exact HD|].
  exists u, text, v. split; [|apply Hp]. destruct He as [He|[He Ho]]; [left; exact He | right; split; [exact He|]].
  destruct (docs_spec D A P U dbg caps msgs _ os u HD H) as [_ K]. apply K, Ho.
Qed.
Theorem C60_inlay_refuted : forall D A P U dbg caps msgs st os u text v f q r r',
  decoders_ok D P -> main_loop D A P U dbg caps msgs initial = (Open st, os) -> client_holds D msgs u text v ->
  query_of D q = Some (u, QInlay r) -> from_lsp_text_range (new_context text (position_encoding (cc_encodings caps))) r = Some r' ->
  (forall lang, an_inlay A text lang r' = Panic) ->
  main_loop D A P U dbg caps (msgs ++ [(f, MReq q)]) initial = (Crashed, os).
Proof.
  intros D A P U dbg caps msgs st os u text v f q r r' HD H Hc Hq Hr Hp.
  destruct (C02_answers_from_latest_text D A P U dbg caps msgs st os u HD H) as [K _]. destruct (K text v Hc) as [lang [_ Ka]].
  rewrite (Ka f q _ Hq). cbn [answer]. rewrite Hr, Hp. reflexivity.
Qed.
Print Assumptions C60_diagnostics_refuted.
Print Assumptions C60_inlay_refuted.
Example C60_diagnostics_example :
  demo_run [demo_open; note (lit "textDocument/didChange") (JArr [JStr (lit "a.rs"); JNum 2; JStr (lit "#[ink((a) b)]")])]
  = (Crashed, [[ODiagnostics (lit "a.rs") [LspDiagnostic ((0, 0), (0, 2)) (lit "d") 1] (Some 1%Z)]]).
Proof. vm_compute. reflexivity. Qed.

(** C60. The rest: a session in which every position a request mentions exists in the client's text, and every range of
    an extraction is ordered, and every text the client sends is one the analyzer can deal with, never crashes the server. *)
Theorem C60_no_crash_partial : forall D A P U dbg caps msgs,
  decoders_ok D P -> analyzer_ok A ->
  (forall h1 h2 u text v, msgs = h1 ++ h2 -> client_holds D h1 u text v -> manageable A text) ->
  (forall h1 f q h2, msgs = h1 ++ (f, MReq q) :: h2 -> positions_exist D P caps h1 q) ->
  fst (main_loop D A P U dbg caps msgs initial) <> Crashed.
Proof.
  intros D A P U dbg caps msgs HD HA Hman Hpos.
  assert (Hstep : forall h st os f q, main_loop D A P U dbg caps h initial = (Open st, os) -> (forall u text v, client_holds D h u text v -> manageable A text) -> positions_exist D P caps h q ->
                  handle_request D A P U caps f q st <> SPanic).
  { intros h st os f q H Hmg (Hq & Hr & Hx). pose proof (run_inv D A P U dbg caps h st os HD H) as Hinv.
    destruct (query_of D q) as [[u qu]|] eqn:Eq.
    - rewrite (query_step D A P U caps f q u qu st Hinv Eq).
      destruct (assoc u (st_snapshots st)) as [s|] eqn:Es; [|discriminate].
      destruct (C02_analyses_current D A P U dbg caps h st os HD H u s Es) as [v [_ Hh]].
      specialize (Hq u qu (sn_text s) v eq_refl Hh). pose proof (Hmg u (sn_text s) v Hh) as HM.
      assert (Hat : forall p, position_in caps (sn_text s) p -> exists pre, at_offset (sn_text s) pre (bytes pre)
         /\ from_lsp_offset (new_context (sn_text s) (position_encoding (cc_encodings caps))) p = Some (bytes pre)).
      { intros p (pre & post & E & ->). exists pre. split; [split; [eauto | reflexivity]|]. apply valid_position_offset; eauto. }
      enough (Ha : answer A caps u (sn_text s) (sn_lang s) qu <> Panic) by (destruct (answer A caps u (sn_text s) (sn_lang s) qu); congruence).
      destruct qu as [p|p|[p1 p2]|r|p prev]; cbn [answer query_in] in *.
      + destruct (Hat p Hq) as [pre [Ho ->]]. destruct (mg_in A (sn_text s) HM (sn_lang s) pre _ Ho) as (K & _ & _).
        destruct (an_completions A (sn_text s) (sn_lang s) (bytes pre)); [discriminate | congruence].
      + destruct (Hat p Hq) as [pre [Ho ->]]. destruct (mg_in A (sn_text s) HM (sn_lang s) pre _ Ho) as (_ & _ & K).
        destruct (an_hover A (sn_text s) (sn_lang s) (bytes pre, bytes pre)); [discriminate | congruence].
      + destruct Hq as [Hq1 Hq2]. destruct (Hat p1 Hq1) as [pre1 [Ho1 E1]]. destruct (Hat p2 Hq2) as [pre2 [Ho2 E2]].
        unfold from_lsp_text_range. cbn [fst snd]. rewrite E1, E2. destruct (bytes pre1 <=? bytes pre2) eqn:El; [|discriminate].
        apply Nat.leb_le in El. pose proof (mg_range A (sn_text s) HM (sn_lang s) pre1 _ pre2 _ Ho1 Ho2 El) as K.
        destruct (an_actions A (sn_text s) (sn_lang s) (bytes pre1, bytes pre2)); [discriminate | congruence].
      + destruct (from_lsp_text_range _ r) as [r'|]; [|discriminate]. pose proof (mg_inlay A (sn_text s) HM (sn_lang s) r') as K.
        destruct (an_inlay A (sn_text s) (sn_lang s) r'); [discriminate | congruence].
      + destruct (Hat p Hq) as [pre [Ho ->]]. destruct (mg_in A (sn_text s) HM (sn_lang s) pre _ Ho) as (_ & K & _).
        destruct (an_signature A (sn_text s) (sn_lang s) (bytes pre)) as [sigs|] eqn:Esig; [|congruence]. cbn [bind_outcome].
        assert (Hsig : to_lsp_signature_help sigs (get_signature_support caps) prev (new_context (sn_text s) (position_encoding (cc_encodings caps))) <> Panic).
        { unfold to_lsp_signature_help. destruct sigs as [|s0 sigs']; [discriminate|].
          enough (Hm : outcome_map (to_lsp_signature (get_signature_support caps) (pc_encoding (new_context (sn_text s) (position_encoding (cc_encodings caps))))) (s0 :: sigs') <> Panic)
            by (destruct (outcome_map _ (s0 :: sigs')); congruence).
          assert (Hall : forall sg, In sg (s0 :: sigs') -> forall e, to_lsp_signature (get_signature_support caps) e sg <> Panic).
          { intros sg Hin e. unfold to_lsp_signature.
            assert (Hps : forall ps, (forall p0, In p0 ps -> exists text, well_placed (sg_label sg) (pa_range p0) text) ->
                      outcome_map (to_lsp_param (get_signature_support caps) e (sg_label sg)) ps <> Panic).
            { induction ps as [|p0 ps IH]; intros Hp; [discriminate|]. cbn [outcome_map].
              destruct (Hp p0 (or_introl eq_refl)) as [text Hw]. destruct (C15_parameter_label (get_signature_support caps) e (sg_label sg) p0 text Hw) as (? & ? & _ & ->).
              specialize (IH (fun p1 Hi => Hp p1 (or_intror Hi))). destruct (outcome_map _ ps); [discriminate | congruence]. }
            specialize (Hps (sg_parameters sg) (fun p0 Hi => ao_labels A HA _ _ _ _ sg p0 Esig Hin Hi)).
            destruct (outcome_map _ (sg_parameters sg)); [discriminate | congruence]. }
          clear Esig K. revert Hall. generalize (s0 :: sigs'). induction l as [|sg l IH]; intros Hall; [discriminate|]. cbn [outcome_map].
          pose proof (Hall sg (or_introl eq_refl) (pc_encoding (new_context (sn_text s) (position_encoding (cc_encodings caps))))) as K.
          destruct (to_lsp_signature _ _ sg); [|congruence].
          specialize (IH (fun x Hi => Hall x (or_intror Hi))). destruct (outcome_map _ l); [discriminate | congruence]. }
        destruct (to_lsp_signature_help _ _ _ _); [discriminate | congruence].
    - destruct st as [[docs ch] sn fuel]. pose proof Hinv as [Hch _]. cbn in Hch. subst ch. rewrite handle_request_eq.
      assert (Harg : forall j, arg_in D P h j ->
        uri_and_range P j <> Panic /\ forall u r, uri_and_range P j = Done (Some (u, r)) -> extract_event A P U caps f sn u r <> HPanic).
      { intros j Hj. unfold uri_and_range. destruct (jget (lit "range") j) as [rj|] eqn:Erj; [|split; [discriminate | discriminate]].
        unfold json_range. destruct (obind (jget (lit "start") rj) ju64) as [s0|] eqn:E1; [|cbn; split; [destruct (json_uri P j); discriminate | intros u r; destruct (json_uri P j); discriminate]].
        destruct (obind (jget (lit "end") rj) ju64) as [e0|] eqn:E2; [|cbn; split; [destruct (json_uri P j); discriminate | intros u r; destruct (json_uri P j); discriminate]].
        destruct (Hj rj s0 e0 Erj E1 E2) as (L1 & L2 & Lt). cbn [parse_range].
        assert (T1 : u32_trunc s0 = s0) by (apply N.mod_small; change 4294967296%N with (2^32)%N; lia).
        assert (T2 : u32_trunc e0 = e0) by (apply N.mod_small; change 4294967296%N with (2^32)%N; lia).
        rewrite T1, T2. assert (L : (s0 <=? e0)%N = true) by (apply N.leb_le; exact L1). rewrite L. split; [destruct (json_uri P j); discriminate|].
        intros u r. destruct (json_uri P j) as [u'|] eqn:Eu; [|discriminate]. intros K. injection K as <- <-.
        unfold extract_event, handle_extract_event. destruct (negb (ends_with (lit ".rs") u')); [discriminate|].
        destruct (assoc u' sn) as [sn0|] eqn:Es; [|discriminate].
        destruct (C02_analyses_current D A P U dbg caps h _ os HD H u' sn0 Es) as [v [_ Hh]].
        specialize (Lt u' (sn_text sn0) v eq_refl Hh).
        assert (Hex : an_extract A (sn_text sn0) (sn_lang sn0) (N.to_nat s0, N.to_nat e0) <> Panic).
        { apply (mg_extract A (sn_text sn0) (Hmg u' (sn_text sn0) v Hh)). destruct Lt; [left; lia | right; assumption]. }
        destruct (an_extract A (sn_text sn0) (sn_lang sn0) (N.to_nat s0, N.to_nat e0)) as [[ex|]|]; [|discriminate|congruence].
        repeat match goal with |- (match ?x with _ => _ end) <> HPanic => destruct x; try discriminate end. }
      assert (Hmig : forall u, migrate_project A P caps f sn u <> HPanic).
      { intros u. unfold migrate_project, handle_migrate_project.
        repeat match goal with |- (match ?x with _ => _ end) <> HPanic => destruct x; try discriminate
                          | |- (if ?x then _ else _) <> HPanic => destruct x; try discriminate end. }
      enough (Hrt : route_request D A P U caps f sn q <> Some Panic).
      { destruct (route_request D A P U caps f sn q) as [[[i r]|]|]; [discriminate | congruence | discriminate]. }
      assert (Hred : forall h0, h0 <> HPanic -> match to_reply h0 with Done y => Done (rq_id q, y) | Panic => Panic end <> Panic).
      { intros [?| |] Hh; cbn; [discriminate | discriminate | congruence]. }
      rewrite route_request_eq. cbv zeta. intros Hp. injection Hp as Hp. unfold query_of in Eq. cbv zeta in Eq.
      change (lit "textDocument/completion") with M_COMPLETION in Eq. change (lit "textDocument/hover") with M_HOVER in Eq.
      change (lit "textDocument/codeAction") with M_CODE_ACTION in Eq. change (lit "textDocument/inlayHint") with M_INLAY in Eq.
      change (lit "textDocument/signatureHelp") with M_SIGNATURE in Eq.
      destruct (str_eqb (rq_method q) M_COMPLETION). { destruct (dc_completion D (rq_params q)); [discriminate | discriminate Hp]. }
      destruct (str_eqb (rq_method q) M_HOVER). { destruct (dc_hover D (rq_params q)); [discriminate | discriminate Hp]. }
      destruct (str_eqb (rq_method q) M_CODE_ACTION). { destruct (dc_code_action D (rq_params q)); [discriminate | discriminate Hp]. }
      destruct (str_eqb (rq_method q) M_RESOLVE) eqn:Er.
      { apply str_eqb_eq in Er. specialize (Hr Er). destruct (dc_action D (rq_params q)); [|discriminate Hp].
        revert Hp. apply Hred. unfold handle_resolve.
        destruct (jget (lit "data") (rq_params q)) as [data|] eqn:Ed; [|discriminate]. destruct (Harg data (Hr data eq_refl)) as [K1 K2].
        destruct (obind (jget (lit "command") data) jstr) as [cmd|]; [|discriminate]. destruct (str_eqb cmd COMMAND_MIGRATE_PROJECT).
        - destruct (json_uri P data) as [u|]; [|discriminate]. specialize (Hmig u). destruct (migrate_project A P caps f sn u); [discriminate | discriminate | congruence].
        - destruct (str_eqb cmd COMMAND_EXTRACT_EVENT); [|discriminate]. destruct (uri_and_range P data) as [[[u r]|]|]; [|discriminate|congruence].
          specialize (K2 u r eq_refl). destruct (extract_event A P U caps f sn u r); [discriminate | discriminate | congruence]. }
      destruct (str_eqb (rq_method q) M_INLAY). { destruct (dc_inlay D (rq_params q)); [discriminate | discriminate Hp]. }
      destruct (str_eqb (rq_method q) M_SIGNATURE). { destruct (dc_signature D (rq_params q)); [discriminate | discriminate Hp]. }
      destruct (str_eqb (rq_method q) M_EXECUTE) eqn:Ee; [|discriminate].
      apply str_eqb_eq in Ee. specialize (Hx Ee). destruct (dc_execute D (rq_params q)) as [[cmd args]|]; [|discriminate Hp].
      cbn [option_map] in Hp. revert Hp. apply Hred. unfold handle_execute_command. cbn [fst snd].
      destruct (str_eqb cmd COMMAND_CREATE_PROJECT).
      { destruct (obind _ (fun a => obind (jget (lit "name") a) jstr)); [|discriminate]. destruct (obind _ (fun s => pf_url_parse P (slash_terminated s))); [|discriminate].
        unfold handle_create_project. destruct (pf_join P _ (lit "lib.rs")); [|discriminate]. destruct (pf_join P _ CARGO_TOML); [|discriminate].
        destruct (an_new_project A _) as [[? ?]|]; discriminate. }
      destruct (str_eqb cmd COMMAND_MIGRATE_PROJECT).
      { destruct (obind _ (json_uri P)) as [u|]; [|discriminate]. specialize (Hmig u). destruct (migrate_project A P caps f sn u); [discriminate | discriminate | congruence]. }
      destruct (str_eqb cmd COMMAND_EXTRACT_EVENT); [|discriminate]. destruct args as [|a l]; [discriminate|].
      destruct (Harg a (Hx cmd a l eq_refl)) as [K1 K2].
      destruct (uri_and_range P a) as [[[u r]|]|]; [|discriminate|congruence].
      specialize (K2 u r eq_refl). destruct (extract_event A P U caps f sn u r); [discriminate | discriminate | congruence]. }
  assert (Hgen : forall rest h st os, main_loop D A P U dbg caps h initial = (Open st, os) -> msgs = h ++ rest ->
                 fst (main_loop D A P U dbg caps rest st) <> Crashed).
  { induction rest as [|[f m] rest IH]; intros h st os H E; [discriminate|].
    destruct (final m) eqn:Ef.
    - destruct m as [q|n|i]; cbn [final main_loop] in Ef |- *; [| |discriminate]; rewrite Ef; cbn [fst]; [|discriminate].
      destruct rest as [|[? [?|n|?]] ?]; try discriminate. destruct (str_eqb (nt_method n) M_EXIT); discriminate.
    - pose proof (main_loop_open_snoc D A P U dbg caps h st os f m H Ef) as Hs. rewrite main_loop_cons by exact Ef.
      destruct (one D A P U dbg caps f m st) as [st1 o|o|] eqn:E1.
      + specialize (IH (h ++ [(f, m)]) st1 (os ++ [o]) Hs). rewrite <- app_assoc in IH. specialize (IH E).
        destruct (main_loop D A P U dbg caps rest st1). exact IH.
      + discriminate.
      + exfalso. destruct m as [q|n|i]; cbn [one] in E1.
        * apply (Hstep h st os f q H (fun u t v Hc => Hman h _ u t v E Hc) (Hpos h f q rest E) E1).
        * pose proof (run_inv D A P U dbg caps h st os HD H) as Hinv. destruct st as [[docs ch] sn fuel]. destruct Hinv as [Hch _]. cbn in Hch. subst ch.
          apply notification_panic in E1; [|exact HD]. destruct E1 as (u & t & v & E1 & Ep).
          assert (Hc : client_holds D (h ++ [(f, MNot n)]) u t v).
          { apply client_holds_snoc. destruct E1 as [E1|[E1 Ho]]; rewrite E1; [auto|].
            destruct (docs_spec D A P U dbg caps h _ os u HD H) as [_ K]. split; [reflexivity|]. split; [reflexivity|]. apply K, Ho. }
          refine (mg_diagnostics A t (Hman (h ++ [(f, MNot n)]) rest u t v _ Hc) _ Ep). rewrite <- app_assoc. exact E.
        * discriminate. }
  apply (Hgen msgs [] initial []); reflexivity.
Qed.
Print Assumptions C60_no_crash_partial.
Example C60_example :
  let msgs := [(demo_fs, demo_open); (demo_fs, ask 1 (lit "textDocument/hover") (JArr [JStr (lit "a.rs"); JNum 0; JNum 2]))] in
  (forall h1 h2 u text v, msgs = h1 ++ h2 -> client_holds demo_decoders h1 u text v -> manageable demo_analyzer text)
  /\ forall h1 f q h2, msgs = h1 ++ (f, MReq q) :: h2 -> positions_exist demo_decoders demo_platform demo_caps h1 q.
Proof.
  intros msgs. split.
  { intros h1 h2 u text v E (k1 & f0 & m0 & k2 & E1 & _ & He). assert (Hin : In (f0, m0) msgs) by (rewrite E, E1; apply in_or_app; left; apply in_or_app; right; left; reflexivity).
    destruct Hin as [Hin|[Hin|[]]]; injection Hin as <- <-; [|destruct He as [He|[He _]]; discriminate].
    unfold event_of in He. cbn -[lit str_eqb] in He. vm_compute str_eqb in He.
    destruct He as [He|[He _]]; match type of He with context [if ?b then _ else _] => destruct b end; try discriminate; injection He as <- <-; apply demo_manageable; vm_compute; discriminate. }
  intros h1 f q h2 E. destruct h1 as [|x [|y h1]].
  - discriminate.
  - unfold msgs in E. cbn [app] in E. injection E as <- <- <- <-. split; [|split; [discriminate|discriminate]].
    intros u qu text v Hq (k1 & f0 & m0 & k2 & E & _ & He). destruct k1 as [|z k1]; [|destruct k1; discriminate]. cbn [app] in E. injection E as _ <- <-.
    vm_compute in Hq. injection Hq as <- <-. change (event_of demo_decoders demo_open _) with (Some (EvOpen (lit "ab") 1%Z)) in He.
    destruct He as [He|[He _]]; [|discriminate]. injection He as <- <-. cbn [query_in]. exists (lit "ab"), []. split; reflexivity.
  - unfold msgs in E. cbn [app] in E. injection E as _ _ E. destruct h1; discriminate.
Qed.

(** C71. The migrate and extract actions offered for a document start, for this document and the action's range, the
    migration or extraction; the resolved action has exactly the edits that the command would apply. [url_ok]: the
    document's address is a URL. *)
Definition url_ok (P : platform) (u : uri) : Prop := pf_url_parse P u = Some u.
Definition small_range (r : trange) : Prop := fst r <= snd r /\ (Z.of_nat (snd r) < 2 ^ 32)%Z.
Lemma json_range_round r : small_range r -> json_range (range_json r) = Done (Some r).
Proof.
  intros [H1 H2]. destruct r as [a b]. cbn [fst snd] in *. unfold json_range, range_json. cbn [fst snd].
  change (jget (lit "start") (JObj [(lit "start", JNum (Z.of_nat a)); (lit "end", JNum (Z.of_nat b))])) with (Some (JNum (Z.of_nat a))).
  change (jget (lit "end") (JObj [(lit "start", JNum (Z.of_nat a)); (lit "end", JNum (Z.of_nat b))])) with (Some (JNum (Z.of_nat b))).
  cbn [obind]. unfold ju64.
  assert (E : forall n, n <= b -> ((0 <=? Z.of_nat n) && (Z.of_nat n <? 2 ^ 64))%Z = true) by (intros n Hn; lia).
  rewrite !E by lia. rewrite C14_command_range_partial by lia. do 2 f_equal. f_equal; lia.
Qed.
Theorem C71_command : forall A P U caps f sn ctx u a x,
  url_ok P u -> small_range (ac_range a) -> to_lsp_code_action ctx u false a = Some x ->
  exists c, (ac_kind a = AkMigrate \/ ac_kind a = AkExtract -> la_command x = Some c)
  /\ (ac_kind a = AkMigrate ->
      handle_execute_command A P U caps f (lcm_command c, lcm_args c) sn =
      match migrate_project A P caps f sn u with HOk r => HOk (PMigrate r) | HErr => HErr | HPanic => HPanic end)
  /\ (ac_kind a = AkExtract ->
      handle_execute_command A P U caps f (lcm_command c, lcm_args c) sn =
      match extract_event A P U caps f sn u (ac_range a) with HOk r => HOk (PExtract r) | HErr => HErr | HPanic => HPanic end).
Proof.
  intros A P U caps f sn ctx u a x Hu Hr H.
  exists (LspCommand (ac_label a) (started_command (ac_kind a)) [JObj [(lit "uri", JStr u); (lit "range", range_json (ac_range a))]]).
  split; [|split].
  - intros Hk. unfold to_lsp_code_action in H. destruct Hk as [Hk|Hk]; rewrite Hk in H; cbn [is_trigger orb negb andb] in H;
      injection H as <-; rewrite Hk; reflexivity.
  - intros Hk. rewrite Hk. unfold handle_execute_command. cbn [started_command lcm_command lcm_args fst snd].
    change (str_eqb (lit "migrateProject") COMMAND_CREATE_PROJECT) with false.
    change (str_eqb (lit "migrateProject") COMMAND_MIGRATE_PROJECT) with true. cbv iota.
    change (obind (Some (JObj [(lit "uri", JStr u); (lit "range", range_json (ac_range a))])) (json_uri P)) with (pf_url_parse P u).
    rewrite Hu. reflexivity.
  - intros Hk. rewrite Hk. unfold handle_execute_command. cbn [started_command lcm_command lcm_args fst snd].
    change (str_eqb (lit "extractEvent") COMMAND_CREATE_PROJECT) with false.
    change (str_eqb (lit "extractEvent") COMMAND_MIGRATE_PROJECT) with false.
    change (str_eqb (lit "extractEvent") COMMAND_EXTRACT_EVENT) with true. cbv iota.
    unfold uri_and_range.
    change (jget (lit "range") (JObj [(lit "uri", JStr u); (lit "range", range_json (ac_range a))])) with (Some (range_json (ac_range a))).
    change (json_uri P (JObj [(lit "uri", JStr u); (lit "range", range_json (ac_range a))])) with (pf_url_parse P u).
    cbn [obind]. rewrite (json_range_round _ Hr), Hu. reflexivity.
Qed.
Print Assumptions C71_command.
Theorem C71_resolve : forall A P U caps f sn ctx u a x d action,
  url_ok P u -> small_range (ac_range a) -> to_lsp_code_action ctx u true a = Some x ->
  la_data x = Some d -> jget (lit "data") action = Some d ->
  (ac_kind a = AkMigrate ->
      handle_resolve A P U caps f action sn =
      match migrate_project A P caps f sn u with
      | HOk r => HOk (PResolved action (WChanges (mr_edits r))) | HErr => HErr | HPanic => HPanic end)
  /\ (ac_kind a = AkExtract ->
      handle_resolve A P U caps f action sn =
      match extract_event A P U caps f sn u (ac_range a) with
      | HOk r => HOk (PResolved action (WDocChanges (extract_changes r))) | HErr => HErr | HPanic => HPanic end).
Proof.
  intros A P U caps f sn ctx u a x d action Hu Hr H Hd Ha. unfold handle_resolve. rewrite Ha.
  assert (Ed : forall k, ac_kind a = k -> k = AkMigrate \/ k = AkExtract ->
    d = JObj [(lit "command", JStr (started_command k)); (lit "uri", JStr u); (lit "range", range_json (ac_range a))]).
  { intros k Hk Ht. unfold to_lsp_code_action in H. rewrite Hk in H.
    destruct Ht as [->| ->]; cbn [is_trigger orb negb andb] in H; injection H as <-; cbn [la_data] in Hd; injection Hd as <-; reflexivity. }
  split; intros Hk.
  - rewrite (Ed AkMigrate Hk (or_introl eq_refl)).
    match goal with |- context [obind (jget (lit "command") ?j) jstr] => change (obind (jget (lit "command") j) jstr) with (Some (lit "migrateProject")) end.
    cbv iota beta. change (str_eqb (lit "migrateProject") COMMAND_MIGRATE_PROJECT) with true. cbv iota.
    match goal with |- context [json_uri P ?j] => change (json_uri P j) with (pf_url_parse P u) end. rewrite Hu. reflexivity.
  - rewrite (Ed AkExtract Hk (or_intror eq_refl)).
    match goal with |- context [obind (jget (lit "command") ?j) jstr] => change (obind (jget (lit "command") j) jstr) with (Some (lit "extractEvent")) end.
    cbv iota beta. change (str_eqb (lit "extractEvent") COMMAND_MIGRATE_PROJECT) with false.
    change (str_eqb (lit "extractEvent") COMMAND_EXTRACT_EVENT) with true. cbv iota. unfold uri_and_range.
    match goal with |- context [jget (lit "range") ?j] => change (jget (lit "range") j) with (Some (range_json (ac_range a))) end.
    match goal with |- context [json_uri P ?j] => change (json_uri P j) with (pf_url_parse P u) end.
    cbn [obind]. rewrite (json_range_round _ Hr), Hu. reflexivity.
Qed.
Print Assumptions C71_resolve.
(** C70. The root directory of a new project is given with or without a slash at its end. *)
Theorem C70_project_root : forall A P U caps f sn arg rest name root,
  jget (lit "name") arg = Some (JStr name) -> jget (lit "root") arg = Some (JStr root) ->
  exists full, ((exists d, root = d ++ lit "/") /\ full = root \/ (~ exists d, root = d ++ lit "/") /\ full = root ++ lit "/")
  /\ handle_execute_command A P U caps f (lit "createProject", arg :: rest) sn =
     match pf_url_parse P full with
     | Some r => match handle_create_project P (an_new_project A) name r with HOk c => HOk (PCreate c) | HErr => HErr | HPanic => HPanic end
     | None => HErr
     end.
Proof.
  intros A P U caps f sn arg rest name root Hn Hr. exists (slash_terminated root).
  assert (E : ends_with (lit "/") root = true <-> exists d, root = d ++ lit "/").
  { unfold ends_with. split.
    - intros H. apply starts_with_app in H as [t H]. exists (rev t). rewrite <- (rev_involutive root), H, rev_app_distr, rev_involutive. reflexivity.
    - intros [d ->]. apply starts_with_app. exists (rev d). apply rev_app_distr. }
  split.
  - unfold slash_terminated. destruct (ends_with (lit "/") root).
    + left. split; [apply E; reflexivity | reflexivity].
    + right. split; [|reflexivity]. intros C. apply E in C. discriminate.
  - unfold handle_execute_command. cbn [fst snd]. change (str_eqb (lit "createProject") COMMAND_CREATE_PROJECT) with true. cbv iota.
    cbn [obind]. rewrite Hn, Hr. cbn [obind jstr]. reflexivity.
Qed.
Print Assumptions C70_project_root.
Example C71_example :
  let a := Action (lit "t") AkExtract (2, 5) [] in
  url_ok demo_platform (lit "a.rs") /\ small_range (ac_range a)
  /\ exists x, to_lsp_code_action (new_context (lit "text") UTF16) (lit "a.rs") false a = Some x.
Proof. cbv zeta. split; [reflexivity|]. split; [split; [cbn; lia | reflexivity]|]. eexists. reflexivity. Qed.
