(** C92: the migration of the bodies and signatures of e2e tests. *)
From Coq Require Import Permutation.
From Verif Require Import Base Unicode PositionModel TranslateModel CommandModel EditSpec ChainSpec TravModel HostModel HostSpec HostProofs HostProps
  E2EModel E2ESpec E2EProofs.

(** The edits in the body of a test are the changes at the nodes that are looked at, and an import for each trait that
    these need; there is no other edit. *)
Theorem C92_body : forall zero rs body around inside e, parsed (snd body) ->
  In e (e2e_body zero rs body around inside) <->
  (exists up t, sees (shut rs) [] body up t /\ change zero rs up t e)
  \/ (exists up t tr o indent, sees (shut rs) [] body up t /\ needs t tr /\ goes_at around inside o indent
        /\ e = TextEdit ([c_nl] ++ indent ++ lit "use ink_e2e::" ++ match tr with Contracts => lit "ContractsBackend" | Chain => lit "ChainBackend" end ++ lit ";") (o, o) None).
Proof.
  intros zero rs [o body] ar inside e Hp. unfold e2e_body. rewrite in_app_iff. cbn [fst snd].
  assert (H1 : In e (found_edits (e2e_visit zero rs body o [])) <-> exists up t, sees (shut rs) [] (o, body) up t /\ change zero rs up t e).
  { unfold found_edits. rewrite in_flat_map. rewrite <- (e2e_in zero rs body Hp o [] (Edit e)). split.
    - intros [[x|x] [Hx He]]; [|destruct He]. destruct He as [->|[]]. exact Hx.
    - intros H. exists (Edit e). split; [exact H | left; reflexivity]. }
  assert (H2 : forall tr, In tr (found_traits (e2e_visit zero rs body o [])) <-> exists up t, sees (shut rs) [] (o, body) up t /\ needs t tr).
  { intros tr. unfold found_traits. rewrite in_flat_map. rewrite <- (e2e_in zero rs body Hp o [] (Needs tr)). split.
    - intros [[x|x] [Hx He]]; [destruct He|]. destruct He as [->|[]]. exact Hx.
    - intros H. exists (Needs tr). split; [exact H | left; reflexivity]. }
  rewrite H1. clear H1. unfold trait_imports.
  assert (Htext : forall tr indent, [c_nl] ++ indent ++ lit "use " ++ trait_path tr ++ lit ";"
    = [c_nl] ++ indent ++ lit "use ink_e2e::" ++ match tr with Contracts => lit "ContractsBackend" | Chain => lit "ChainBackend" end ++ lit ";").
  { intros [] indent; do 2 f_equal. }
  assert (Hplace : forall p indent, goes_at ar inside p indent <-> import_place ar inside = Some (p, indent)).
  { intros p indent. split; [intros H; inversion H; reflexivity|]. destruct ar as [[d|] start|[[q i]|]|]; cbn; intros H; try (injection H as <- <-; constructor).
    - rewrite H. constructor.
    - rewrite H. constructor. }
  split; (intros [H|H]; [left; exact H|right]).
  - destruct (import_place ar inside) as [[p indent]|] eqn:E; [|destruct H]. apply in_map_iff in H. destruct H as [tr [<- H]].
    apply nodup_In in H. apply H2 in H. destruct H as [up [t [Hs Hn]]]. exists up, t, tr, p, indent.
    split; [exact Hs|]. split; [exact Hn|]. split; [apply Hplace; reflexivity|]. unfold insert_at. rewrite Htext. reflexivity.
  - destruct H as [up [t [tr [p [indent [Hs [Hn [Hg ->]]]]]]]]. apply Hplace in Hg. rewrite Hg. apply in_map_iff. exists tr. split.
    + unfold insert_at. rewrite Htext. reflexivity.
    + apply nodup_In. apply H2. eauto.
Qed.
(** Every trait is imported at most once for a test. *)
Theorem C92_imports_once : forall place traits, NoDup (trait_imports place traits).
Proof.
  intros [[o indent]|] traits; [|constructor]. unfold trait_imports.
  pose proof (NoDup_nodup trait_eq_dec traits) as H. induction H as [|x l Hx H IH]; cbn; constructor; [|exact IH].
  intros Hin. apply in_map_iff in Hin. destruct Hin as [y [E Hy]]. apply Hx. replace x with y; [exact Hy|].
  unfold insert_at in E. injection E as E. apply app_inv_head in E. destruct x, y; try reflexivity; vm_compute in E; discriminate E.
Qed.

(** Changes do not overlap, if nothing changes inside of argument lists that may be replaced. *)
Theorem C92_clear : forall zero rs body up1 t1 e1 up2 t2 e2, parsed (snd body) -> quiet zero rs [] body -> in_order rs [] body ->
  sees (shut rs) [] body up1 t1 -> change zero rs up1 t1 e1 -> sees (shut rs) [] body up2 t2 -> change zero rs up2 t2 e2 ->
  e1 = e2 \/ clear_of e1 e2.
Proof.
  intros zero rs [o body] up1 t1 e1 up2 t2 e2 Hp Hq Ho. apply (clear_all zero rs body Hp o [] Hq Ho); discriminate.
Qed.

(** ** A test *)
Definition word_ (s : str) : tree := path_ (words_ s).
Definition comma_ : role * tree := (Rrest, Leaf (lit ", ")).
Definition arg_ (t : tree) : role * tree := (Rarg, t).
Definition int_ (s : str) : tree := Node KInt [(Rrest, Leaf s)].
Definition await_ (t : tree) : tree := Node (KWrap WAwait) [(Rexpr, t); (Rrest, Leaf (lit ".await"))].
Definition let_ (s : str) (e : tree) : role * tree :=
  (Rstmt, Node KLetStmt [(Rrest, Leaf (lit "let ")); (Rrest, Leaf s); (Rrest, Leaf (lit " = ")); (Rinit, e); (Rrest, Leaf (lit "; "))]).
Definition block_ (l : list (role * tree)) : tree :=
  Node KBlock [(Rstmts, Node KStmtList ([(Rrest, Leaf (lit "{ "))] ++ l ++ [(Rrest, Leaf (lit "}"))]))].
Definition closure_ (x : str) (b : tree) : tree :=
  Node KClosure [(Rrest, Leaf (lit "|")); (Rrest, Leaf x); (Rrest, Leaf (lit "| ")); (Rbody, b)].
Definition is_zero (s : str) : bool := str_eqb s (lit "0").
Definition builder_ (b : tree) : tree :=
  method_ (call_ (path_ (joined_ (words_ (lit "ink_e2e")) (generic_ (lit "build_message") (lit "::<R>")))) [arg_ (word_ (lit "id"))])
    (lit "call") [arg_ (closure_ (lit "x") b)].
Definition get_ : tree := method_ (word_ (lit "x")) (lit "get") [].
Definition test_body : tree :=
  block_ [let_ (lit "a") (await_ (method_ (word_ (lit "client")) (lit "instantiate")
            [arg_ (Leaf (lit """f""")); comma_; arg_ (Leaf (lit "&alice")); comma_; arg_ (word_ (lit "new")); comma_; arg_ (int_ (lit "0")); comma_; arg_ (word_ (lit "None"))]));
          let_ (lit "m") (builder_ (block_ [(Rtail, get_)]));
          stmt_ (await_ (method_ (word_ (lit "client")) (lit "call_dry_run")
            [arg_ (Leaf (lit "&alice")); comma_; arg_ (word_ (lit "m")); comma_; arg_ (int_ (lit "5")); comma_;
             arg_ (call_ (word_ (lit "Some")) [arg_ (word_ (lit "l"))])]));
          stmt_ (await_ (method_ (word_ (lit "client")) (lit "balance") [arg_ (word_ (lit "a"))]))].
Definition pieces_of_test : list piece :=
  [Same (lit "{ "); Other [] ([c_nl] ++ lit "use ink_e2e::ContractsBackend;"); Other [] ([c_nl] ++ lit "use ink_e2e::ChainBackend;");
   Same (lit "let a = client.instantiate"); Other (lit "(""f"", &alice, new, 0, None)") (lit "(""f"", &alice, new).submit()");
   Same (lit ".await; let m = "); Other (lit "ink_e2e::build_message::<R>") (lit "ink_e2e::create_call_builder::<R>");
   Same (lit "(id)."); Other (lit "call(|x| { x.get()})") (lit "get()");
   Same (lit "; client.call_dry_run"); Other (lit "(&alice, m, 5, Some(l))") (lit "(&alice, m).value(5).storage_deposit_limit(l).dry_run()");
   Same (lit ".await"); Other [] (lit "?"); Same (lit "; client."); Other (lit "balance") (lit "free_balance"); Same (lit "(a).await; }")].
Example C92_body_case :
  parsed test_body
  /\ ttext test_body = lit "{ let a = client.instantiate(""f"", &alice, new, 0, None).await; let m = ink_e2e::build_message::<R>(id).call(|x| { x.get()}); client.call_dry_run(&alice, m, 5, Some(l)).await; client.balance(a).await; }"
  /\ rewritten (ttext test_body) (e2e_body is_zero by_name (0, test_body) InOther (Some (2, [])))
       (lit "{ " ++ [c_nl] ++ lit "use ink_e2e::ContractsBackend;" ++ [c_nl] ++ lit "use ink_e2e::ChainBackend;"
        ++ lit "let a = client.instantiate(""f"", &alice, new).submit().await; let m = ink_e2e::create_call_builder::<R>(id).get(); client.call_dry_run(&alice, m).value(5).storage_deposit_limit(l).dry_run().await?; client.free_balance(a).await; }").
Proof.
  split; [apply parsedb_ok; vm_compute; reflexivity|]. split; [vm_compute; reflexivity|].
  exists pieces_of_test. split; [vm_compute; reflexivity|]. split; [vm_compute; reflexivity|].
  match goal with |- Permutation ?l _ => assert (E : l = skipn 2 (changes 0 pieces_of_test) ++ firstn 2 (changes 0 pieces_of_test)) by (vm_compute; reflexivity) end.
  rewrite E. rewrite <- (firstn_skipn 2 (changes 0 pieces_of_test)) at 3. apply Permutation_app_comm.
Qed.

Example C92_clear_case :
  quiet is_zero by_name [] (0, test_body) /\ in_order by_name [] (0, test_body)
  /\ (exists up t e, sees (shut by_name) [] (0, test_body) up t /\ change is_zero by_name up t e /\ te_text e = lit "get()").
Proof.
  assert (Hp : parsed test_body) by (apply parsedb_ok; vm_compute; reflexivity).
  split; [apply quiet_ok; [exact Hp | vm_compute; reflexivity]|]. split; [apply order_ok; vm_compute; reflexivity|].
  set (l := e2e_visit is_zero by_name test_body 0 []).
  assert (H : exists e, In (Edit e) l /\ te_text e = lit "get()").
  { exists (TextEdit (lit "get()") (103, 123) None). split; [|reflexivity]. unfold l. vm_compute. auto 10. }
  destruct H as [e [He Ht]]. apply (e2e_in is_zero by_name test_body Hp 0 []) in He. destruct He as [up [t [Hs Hc]]]. exists up, t, e. auto.
Qed.

(** ** What the migration does not do *)

(** Edits may overlap: the message of the contract that is called in the callback has the name of a method of the client. *)
Definition overlap (a b : text_edit) : Prop := Nat.max (fst (te_range a)) (fst (te_range b)) < Nat.min (snd (te_range a)) (snd (te_range b)).
Theorem C92_overlap_refuted : exists zero rs body e1 e2,
  parsed body
  /\ ttext body = lit "{ let m = ink_e2e::build_message::<R>(id).call(|x| x.balance(a)); }"
  /\ In e1 (e2e_body zero rs (0, body) InOther None) /\ te_text e1 = lit "balance(a)"
  /\ In e2 (e2e_body zero rs (0, body) InOther None) /\ te_text e2 = lit "free_balance"
  /\ overlap e1 e2.
Proof.
  set (body := block_ [let_ (lit "m") (builder_ (method_ (word_ (lit "x")) (lit "balance") [arg_ (word_ (lit "a"))]))]).
  set (l := e2e_body is_zero by_name (0, body) InOther None).
  exists is_zero, by_name, body, (nth 1 l (insert_at 0 [])), (nth 2 l (insert_at 0 [])).
  split; [apply parsedb_ok; vm_compute; reflexivity|]. split; [vm_compute; reflexivity|].
  fold l. split; [apply nth_In; vm_compute; lia|]. split; [vm_compute; reflexivity|].
  split; [apply nth_In; vm_compute; lia|]. split; [vm_compute; reflexivity|]. unfold overlap. vm_compute. lia.
Qed.
(** Arguments of a method call on the client are kept as they are, even if they use what is gone in ink! 5. *)
Theorem C92_arguments_refuted : exists zero rs body,
  parsed body
  /\ ttext body = lit "{ client.call(&alice, ink_e2e::build_message::<R>(id).call(|x| x.get()), 0, None); }"
  /\ rewritten (ttext body) (e2e_body zero rs (0, body) InOther None)
       (lit "{ client.call(&alice, ink_e2e::build_message::<R>(id).call(|x| x.get())).submit(); }").
Proof.
  exists is_zero, by_name,
    (block_ [stmt_ (method_ (word_ (lit "client")) (lit "call")
      [arg_ (Leaf (lit "&alice")); comma_; arg_ (builder_ get_); comma_; arg_ (int_ (lit "0")); comma_; arg_ (word_ (lit "None"))])]).
  split; [apply parsedb_ok; vm_compute; reflexivity|]. split; [vm_compute; reflexivity|].
  exists [Same (lit "{ client.call");
    Other (lit "(&alice, ink_e2e::build_message::<R>(id).call(|x| x.get()), 0, None)") (lit "(&alice, ink_e2e::build_message::<R>(id).call(|x| x.get())).submit()");
    Same (lit "; }")].
  split; [vm_compute; reflexivity|]. split; [vm_compute; reflexivity|].
  match goal with |- Permutation ?l ?r => let l' := eval vm_compute in l in let r' := eval vm_compute in r in change (Permutation l' r') end.
  apply Permutation_refl.
Qed.
(** Methods of other values are changed too, if name and number of arguments fit. *)
Theorem C92_other_method_refuted : exists zero rs body,
  parsed body
  /\ (forall name path quals at_, rs_item rs name path quals at_ = false)
  /\ ttext body = lit "{ pool.upload(a, b, c); token.balance(a); }"
  /\ rewritten (ttext body) (e2e_body zero rs (0, body) InOther None) (lit "{ pool.upload(a, b).storage_deposit_limit(c).submit(); token.free_balance(a); }").
Proof.
  exists is_zero, (Resolver (fun _ => true) (fun _ _ _ _ => false)),
    (block_ [stmt_ (method_ (word_ (lit "pool")) (lit "upload") [arg_ (word_ (lit "a")); comma_; arg_ (word_ (lit "b")); comma_; arg_ (word_ (lit "c"))]);
             stmt_ (method_ (word_ (lit "token")) (lit "balance") [arg_ (word_ (lit "a"))])]).
  split; [apply parsedb_ok; vm_compute; reflexivity|]. split; [reflexivity|]. split; [vm_compute; reflexivity|].
  exists [Same (lit "{ pool.upload"); Other (lit "(a, b, c)") (lit "(a, b).storage_deposit_limit(c).submit()"); Same (lit "; token.");
    Other (lit "balance") (lit "free_balance"); Same (lit "(a); }")].
  split; [vm_compute; reflexivity|]. split; [vm_compute; reflexivity|].
  match goal with |- Permutation ?l ?r => let l' := eval vm_compute in l in let r' := eval vm_compute in r in change (Permutation l' r') end.
  apply Permutation_refl.
Qed.
(** Calls in macros such as [assert!] and in conditions are not changed. *)
Theorem C92_missed_refuted : exists zero rs body,
  parsed body
  /\ ttext body = lit "{ assert!(client.balance(a)); if client.balance(a) { }; }"
  /\ e2e_body zero rs (0, body) InOther None = [].
Proof.
  set (b := method_ (word_ (lit "client")) (lit "balance") [arg_ (word_ (lit "a"))]).
  exists is_zero, by_name,
    (block_ [stmt_ (Node KOther [(Rrest, Leaf (lit "assert!(")); (Rrest, b); (Rrest, Leaf (lit ")"))]);
             stmt_ (Node KIf [(Rrest, Leaf (lit "if ")); (Rcond, b); (Rrest, Leaf (lit " ")); (Rthen, block_ [])])]).
  split; [apply parsedb_ok; vm_compute; reflexivity|]. split; vm_compute; reflexivity.
Qed.

(** ** Signatures *)

(** The parameters are replaced by generic parameters and the new parameter; without parameters these are added behind
    the name. All else is as before. *)
Theorem C92_signature : forall pre name generics params rest,
  exists e, fn_sig (Some (bytes (pre ++ name ++ generics), bytes (pre ++ name ++ generics ++ params))) (Some (bytes pre, bytes (pre ++ name))) = [e]
    /\ applied (pre ++ name ++ generics ++ params ++ rest) e (pre ++ name ++ generics ++ lit "<Client: E2EBackend>(mut client: Client)" ++ rest).
Proof.
  intros. eexists. split; [reflexivity|]. exists (pre ++ name ++ generics), params, rest. cbn [te_range te_text fst snd].
  rewrite <- !app_assoc. repeat split.
Qed.
Theorem C92_signature_bare : forall pre name rest,
  exists e, fn_sig None (Some (bytes pre, bytes (pre ++ name))) = [e]
    /\ applied (pre ++ name ++ rest) e (pre ++ name ++ lit "<Client: E2EBackend>(mut client: Client)" ++ rest).
Proof.
  intros. eexists. split; [reflexivity|]. exists (pre ++ name), [], rest. cbn [te_range te_text fst snd app].
  rewrite <- !app_assoc, app_nil_r. repeat split.
Qed.
Example C92_signature_case :
  fn_sig (Some (14, 38)) (Some (9, 14)) = [TextEdit (lit "<Client: E2EBackend>(mut client: Client)") (14, 38) None].
Proof. reflexivity. Qed.
(** The signature of a test for ink! 5 is changed again, into one that is not Rust. *)
Theorem C92_signature_again_refuted : exists e,
  fn_sig (Some (bytes (lit "async fn f<Client: E2EBackend>"), bytes (lit "async fn f<Client: E2EBackend>(mut client: Client)"))) (Some (9, 10)) = [e]
  /\ applied (lit "async fn f<Client: E2EBackend>(mut client: Client) {}") e
       (lit "async fn f<Client: E2EBackend><Client: E2EBackend>(mut client: Client) {}").
Proof.
  destruct (C92_signature (lit "async fn ") (lit "f") (lit "<Client: E2EBackend>") (lit "(mut client: Client)") (lit " {}")) as [e [He Ha]].
  exists e. split; [exact He | exact Ha].
Qed.

Print Assumptions C92_body.
Print Assumptions C92_clear.
Print Assumptions C92_imports_once.
Print Assumptions C92_overlap_refuted.
Print Assumptions C92_arguments_refuted.
Print Assumptions C92_other_method_refuted.
Print Assumptions C92_missed_refuted.
Print Assumptions C92_signature.
Print Assumptions C92_signature_bare.
Print Assumptions C92_signature_again_refuted.
