(** C91: the migration of host functions. *)
From Coq Require Import Permutation.
From Verif Require Import Base Unicode PositionModel TranslateModel CommandModel EditSpec ChainSpec TravModel HostModel HostSpec HostProofs.

(** ** A small language for examples *)
Definition name_ (s : str) : role * tree := (Rname, Leaf s).
Definition segment_ (s : str) : role * tree := (Rseg, Node KSegment [name_ s]).
Definition generic_ (s g : str) : role * tree := (Rseg, Node KSegment [name_ s; (Rgenerics, Leaf g)]).
Definition words_ (s : str) : tree := Node KPath [segment_ s].
Definition path_ (p : tree) : tree := Node KPathExpr [(Rpath, p)].
Definition joined_ (q : tree) (s : role * tree) : tree := Node KPath [(Rqual, q); (Rrest, Leaf (lit "::")); s].
Definition args_ (l : list (role * tree)) : role * tree := (Rargs, Node KArgList ([(Rrest, Leaf (lit "("))] ++ l ++ [(Rrest, Leaf (lit ")"))])).
Definition call_ (f : tree) (l : list (role * tree)) : tree := Node (KCall 0%N) [(Rexpr, f); args_ l].
Definition method_ (r : tree) (m : str) (l : list (role * tree)) : tree :=
  Node KMethod [(Rrecv, r); (Rrest, Leaf (lit ".")); name_ m; args_ l].
Definition fn_ (l : list (role * tree)) : tree :=
  Node KFn [(Rrest, Leaf (lit "fn f() "));
            (Rbody, Node KBlock [(Rstmts, Node KStmtList ([(Rrest, Leaf (lit "{ "))] ++ l ++ [(Rrest, Leaf (lit " }"))]))])].
Definition stmt_ (e : tree) : role * tree := (Rstmt, Node KExprStmt [(Rexpr, e); (Rrest, Leaf (lit "; "))]).
(** Paths are recognised by their full names. *)
Definition by_name : resolver :=
  Resolver (fun _ => true) (fun name path quals _ => existsb (fun q => str_eqb path (q ++ lit "::" ++ name)) quals).
Definition env_call : tree := joined_ (joined_ (words_ (lit "ink")) (segment_ (lit "env"))) (segment_ (lit "call")).

(** ** C91 *)

(** The edits are just the described ones: they do not overlap, and the file that results is the file in which the
    qualifiers and names of the calls that are looked at are new, [.instantiate_v1()] is added, and all else is as before. *)
Theorem C91_migrated : forall rs file, parsed file -> rewritten (ttext file) (host_migrate rs file 0) (migrated rs Plain file).
Proof. intros rs file H. exact (host_rewritten rs file H). Qed.
Definition sample : tree :=
  fn_ [stmt_ (method_ (method_ (call_ (path_ (joined_ env_call (generic_ (lit "build_call") (lit "::<E>")))) []) (lit "gas_limit") [(Rarg, Leaf (lit "1"))])
                (lit "call") [(Rarg, path_ (words_ (lit "x")))]);
       stmt_ (method_ (method_ (path_ (words_ (lit "self"))) (lit "env") []) (lit "invoke_contract") []);
       stmt_ (call_ (path_ (joined_ (Node KPath [(Rqual, env_call); (Rrest, Leaf (lit "::")); generic_ (lit "Call") (lit "::<E>")]) (segment_ (lit "new"))))
                [(Rarg, call_ (path_ (joined_ env_call (segment_ (lit "build_create")))) [])])].
Example C91_migrated_case :
  parsed sample
  /\ ttext sample
     = lit "fn f() { ink::env::call::build_call::<E>().gas_limit(1).call(x); self.env().invoke_contract(); ink::env::call::Call::<E>::new(ink::env::call::build_create());  }"
  /\ migrated by_name Plain sample
     = lit "fn f() { ink::env::call::build_call::<E>().gas_limit(1).call_v1(x); self.env().invoke_contract_v1(); ink::env::call::CallV1::<E>::new(ink::env::call::build_create().instantiate_v1());  }"
  /\ length (host_migrate by_name sample 0) = 4.
Proof.
  split; [apply parsedb_ok; vm_compute; reflexivity|]. repeat split; vm_compute; reflexivity.
Qed.

(** Not all calls of function bodies are looked at. [if] conditions are not; nor are [while] conditions, what a [for]
    iterates over, guards of match arms and blocks of [let … else]. *)
Definition invoke_ : tree := path_ (joined_ (joined_ (words_ (lit "ink")) (segment_ (lit "env"))) (segment_ (lit "invoke_contract"))).
Definition empty_block : tree := Node KBlock [(Rstmts, Node KStmtList [(Rrest, Leaf (lit "{}"))])].
Theorem C91_condition_refuted : exists rs file,
  parsed file
  /\ ttext file = lit "fn f() { ink::env::invoke_contract(); if ink::env::invoke_contract() {};  }"
  /\ rewritten (ttext file) (host_migrate rs file 0) (lit "fn f() { ink::env::invoke_contract_v1(); if ink::env::invoke_contract() {};  }").
Proof.
  set (file := fn_ [stmt_ (call_ invoke_ []);
    stmt_ (Node KIf [(Rrest, Leaf (lit "if ")); (Rcond, call_ invoke_ []); (Rrest, Leaf (lit " ")); (Rthen, empty_block)])]).
  exists by_name, file.
  assert (Hp : parsed file) by (apply parsedb_ok; vm_compute; reflexivity).
  split; [exact Hp|]. split; [vm_compute; reflexivity|]. exact (C91_migrated by_name file Hp).
Qed.
Theorem C91_places_refuted : exists rs file,
  parsed file
  /\ ttext file = lit "fn f() { while ink::env::invoke_contract() {}; for x in ink::env::invoke_contract() {}; match x { y if ink::env::invoke_contract() => z };  }"
  /\ host_migrate rs file 0 = [].
Proof.
  exists by_name, (fn_ [stmt_ (Node KWhile [(Rrest, Leaf (lit "while ")); (Rcond, call_ invoke_ []); (Rrest, Leaf (lit " ")); (Rbody, empty_block)]);
    stmt_ (Node KFor [(Rrest, Leaf (lit "for x in ")); (Riter, call_ invoke_ []); (Rrest, Leaf (lit " ")); (Rbody, empty_block)]);
    stmt_ (Node KMatch [(Rrest, Leaf (lit "match ")); (Rexpr, path_ (words_ (lit "x"))); (Rrest, Leaf (lit " "));
      (Rarms, Node KArmList [(Rrest, Leaf (lit "{ "));
        (Rarm, Node KArm [(Rrest, Leaf (lit "y if ")); (Rguard, call_ invoke_ []); (Rrest, Leaf (lit " => ")); (Rexpr, path_ (words_ (lit "z")))]);
        (Rrest, Leaf (lit " }"))])])]).
  split; [apply parsedb_ok; vm_compute; reflexivity|]. split; vm_compute; reflexivity.
Qed.
(** The arguments of a call that is changed are not looked at. *)
Theorem C91_arguments_refuted : exists rs file,
  parsed file
  /\ ttext file = lit "fn f() { ink::env::invoke_contract(ink::env::invoke_contract());  }"
  /\ rewritten (ttext file) (host_migrate rs file 0) (lit "fn f() { ink::env::invoke_contract_v1(ink::env::invoke_contract());  }").
Proof.
  set (file := fn_ [stmt_ (call_ invoke_ [(Rarg, call_ invoke_ [])])]). exists by_name, file.
  assert (Hp : parsed file) by (apply parsedb_ok; vm_compute; reflexivity).
  split; [exact Hp|]. split; [vm_compute; reflexivity|]. exact (C91_migrated by_name file Hp).
Qed.
(** A method [invoke_contract] of some other type is renamed too, when it is called on the result of a method. *)
Theorem C91_other_method_refuted : exists rs file,
  parsed file
  /\ (forall name path quals at_, rs_item rs name path quals at_ = false)
  /\ ttext file = lit "fn f() { vm.runtime().invoke_contract();  }"
  /\ rewritten (ttext file) (host_migrate rs file 0) (lit "fn f() { vm.runtime().invoke_contract_v1();  }").
Proof.
  set (file := fn_ [stmt_ (method_ (method_ (path_ (words_ (lit "vm"))) (lit "runtime") []) (lit "invoke_contract") [])]).
  exists (Resolver (fun _ => true) (fun _ _ _ _ => false)), file.
  assert (Hp : parsed file) by (apply parsedb_ok; vm_compute; reflexivity).
  split; [exact Hp|]. split; [reflexivity|]. split; [vm_compute; reflexivity|]. exact (C91_migrated _ file Hp).
Qed.
(** Code for ink! 5 is changed again: the added method call is added once more. *)
Theorem C91_again_refuted : exists rs file,
  parsed file
  /\ ttext file = lit "fn f() { ink::env::call::build_create().instantiate_v1();  }"
  /\ rewritten (ttext file) (host_migrate rs file 0) (lit "fn f() { ink::env::call::build_create().instantiate_v1().instantiate_v1();  }").
Proof.
  set (file := fn_ [stmt_ (method_ (call_ (path_ (joined_ env_call (segment_ (lit "build_create")))) []) (lit "instantiate_v1") [])]).
  exists by_name, file.
  assert (Hp : parsed file) by (apply parsedb_ok; vm_compute; reflexivity).
  split; [exact Hp|]. split; [vm_compute; reflexivity|]. exact (C91_migrated by_name file Hp).
Qed.

(** The imports of renamed functions stay: a name that the file imports is changed into one that it does not import. An
    imported function that has been given another name is recognised too (C85), and [_v1] is added to that name. *)
Definition one_item (name path : str) (quals : list str) : resolver :=
  Resolver (fun _ => true) (fun n p q _ => str_eqb n name && str_eqb p path && (if list_eq_dec str_eq_dec q quals then true else false)).
Theorem C91_import_refuted : exists file,
  parsed file
  /\ ttext file = lit "use ink::env::invoke_contract;fn f() { invoke_contract();  }"
  /\ rewritten (ttext file) (host_migrate (one_item (lit "invoke_contract") (lit "invoke_contract") [lit "ink_env"; lit "ink::env"]) file 0)
       (lit "use ink::env::invoke_contract;fn f() { invoke_contract_v1();  }").
Proof.
  set (file := Node KOther [(Rrest, Leaf (lit "use ink::env::invoke_contract;")); (Rrest, fn_ [stmt_ (call_ (path_ (words_ (lit "invoke_contract"))) [])])]).
  exists file. assert (Hp : parsed file) by (apply parsedb_ok; vm_compute; reflexivity).
  split; [exact Hp|]. split; [vm_compute; reflexivity|]. exact (C91_migrated _ file Hp).
Qed.
Theorem C91_alias_refuted : exists file,
  parsed file
  /\ ttext file = lit "use ink::env::invoke_contract as invoke;fn f() { invoke();  }"
  /\ rewritten (ttext file) (host_migrate (one_item (lit "invoke_contract") (lit "invoke") [lit "ink_env"; lit "ink::env"]) file 0)
       (lit "use ink::env::invoke_contract as invoke;fn f() { invoke_v1();  }").
Proof.
  set (file := Node KOther [(Rrest, Leaf (lit "use ink::env::invoke_contract as invoke;")); (Rrest, fn_ [stmt_ (call_ (path_ (words_ (lit "invoke"))) [])])]).
  exists file. assert (Hp : parsed file) by (apply parsedb_ok; vm_compute; reflexivity).
  split; [exact Hp|]. split; [vm_compute; reflexivity|]. exact (C91_migrated _ file Hp).
Qed.

Print Assumptions C91_migrated.
Print Assumptions C91_condition_refuted.
Print Assumptions C91_places_refuted.
Print Assumptions C91_arguments_refuted.
Print Assumptions C91_other_method_refuted.
Print Assumptions C91_again_refuted.
Print Assumptions C91_alias_refuted.
Print Assumptions C91_import_refuted.
