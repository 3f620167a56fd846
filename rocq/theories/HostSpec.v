(** What C91 means: which calls the migration of host functions changes, and what becomes of the file. *)
From Coq Require Import Permutation.
From Verif Require Import Base Unicode PositionModel TranslateModel CommandModel EditSpec ChainSpec TravModel HostModel.

(** ** Calls *)
Definition part (r : role) (t : tree) : option tree :=
  match t with Leaf _ => None | Node _ cs => option_map snd (find (fun x => role_eqb (fst x) r) cs) end.
Definition reads (s : str) (t : option tree) : bool := match t with Some t => str_eqb (ttext t) s | None => false end.
Definition one_of (l : list str) (t : option tree) : bool := match t with Some t => existsb (str_eqb (ttext t)) l | None => false end.
(** The path of the function that is called *)
Definition callee (t : tree) : option tree :=
  match t, part Rexpr t with
  | Node (KCall _) _, Some (Node KPathExpr cs) => part Rpath (Node KPathExpr cs)
  | _, _ => None
  end.
(** A path without its generic arguments *)
Definition bare (rs : resolver) (p : tree) : str := simple_path rs (0, p).
Definition last_name (p : tree) : option tree := obind (part Rseg p) (part Rname).
(** [Self::env(..)] and [self.env(..)] *)
Definition is_self_type_env (t : tree) : bool :=
  match callee t with Some p => reads (lit "Self") (part Rqual p) && reads (lit "env") (last_name p) | None => false end.
Definition is_self_env (t : tree) : bool :=
  match t, part Rrecv t with
  | Node KMethod _, Some (Node KPathExpr cs) => str_eqb (ttext (Node KPathExpr cs)) (lit "self") && reads (lit "env") (part Rname t)
  | _, _ => false
  end.
(** The function of ink! that is called, if the path is one of these (the first that fits) *)
Definition WRAPPERS : list (host_fn * (str * list str)) :=
  [(BuildCall, (lit "build_call", [lit "ink_env::call"; lit "ink::env::call"]));
   (BuildCreate, (lit "build_create", [lit "ink_env::call"; lit "ink::env::call"]));
   (InstantiateContract, (lit "instantiate_contract", [lit "ink_env"; lit "ink::env"]));
   (InvokeContract, (lit "invoke_contract", [lit "ink_env"; lit "ink::env"]))].
Definition called (rs : resolver) (t : tree) : option host_fn :=
  match t, callee t with
  | Node (KCall n) _, Some p =>
      if is_self_type_env t then None
      else option_map fst (find (fun w => rs_item rs (fst (snd w)) (bare rs p) (snd (snd w)) n) WRAPPERS)
  | _, _ => None
  end.
Definition calls (rs : resolver) (f : host_fn) (t : tree) : bool :=
  match called rs t, f with
  | Some BuildCall, BuildCall | Some BuildCreate, BuildCreate | Some InstantiateContract, InstantiateContract | Some InvokeContract, InvokeContract => true
  | _, _ => false
  end.
(** [Call::new(..)], with the type [Call] of ink! *)
Definition is_call_new (rs : resolver) (t : tree) : bool :=
  match t, callee t with
  | Node (KCall n) _, Some p =>
      negb (is_self_type_env t) && reads (lit "new") (part Rseg p)
      && match part Rqual p with Some q => rs_item rs (lit "Call") (bare rs q) [lit "ink_env::call"; lit "ink::env::call"] n | None => false end
  | _, _ => false
  end.
(** [build_call(..)] with method calls that only set options *)
Fixpoint builder (rs : resolver) (t : tree) : bool :=
  match t with
  | Leaf _ => false
  | Node KMethod cs =>
      one_of [lit "call_type"; lit "call_flags"; lit "returns"; lit "exec_input"; lit "delegate"; lit "gas_limit"; lit "transferred_value"; lit "code_hash"]
        (part Rname t)
      && (fix receiver (cs : list (role * tree)) : bool :=
            match cs with [] => false | (Rrecv, c) :: _ => builder rs c | _ :: cs' => receiver cs' end) cs
  | Node _ _ => calls rs BuildCall t
  end.

(** ** What becomes of names *)

(** The new name of the method of a method call: [invoke_contract] and [instantiate_contract] after another method call or
    [Self::env()], [call] after a builder *)
Definition new_method (rs : resolver) (t : tree) : option str :=
  match part Rname t, part Rrecv t with
  | Some n, Some r =>
      let after_env := match r with Node KMethod _ => true | _ => is_self_type_env r end in
      if one_of [lit "instantiate_contract"; lit "invoke_contract"] (Some n) && after_env then Some (ttext n ++ lit "_v1")
      else if reads (lit "call") (Some n) && builder rs r then Some (lit "call_v1")
      else None
  | _, _ => None
  end.
(** The new qualifier and the new name of the path of a called function *)
Definition new_qualifier (rs : resolver) (t : tree) : option str :=
  match obind (callee t) (part Rqual) with
  | Some q =>
      if is_call_new rs t
      then Some (lit "ink::env::call::CallV1" ++ match obind (part Rseg q) (part Rgenerics) with Some g => ttext g | None => [] end)
      else None
  | None => None
  end.
Definition new_function (rs : resolver) (t : tree) : option str :=
  match obind (callee t) last_name with
  | Some n => if calls rs InstantiateContract t || calls rs InvokeContract t then Some (ttext n ++ lit "_v1") else None
  | None => None
  end.

(** ** Where calls are looked at *)

(** The places of expressions inside expressions, blocks and so on *)
Definition expression_place (k : kind) (r : role) : bool :=
  match k, r with
  | (KArray | KTuple), Relem | KRepeat, (Rinit | Rlen) | KBin, (Rlhs | Rrhs) | KBlock, Rstmts | KStmtList, (Rstmt | Rtail)
  | KExprStmt, Rexpr | KLetStmt, (Rinit | Relse) | KCall _, (Rexpr | Rargs) | KArgList, Rarg | KClosure, Rbody | KFor, (Riter | Rbody)
  | KFormatArgs, (Rtemplate | Rarg) | KFormatArg, Rexpr | KIf, (Rcond | Rthen | Relse) | KIndex, (Rbase | Rindex) | KLoop, Rbody
  | KMatch, (Rexpr | Rarms) | KArmList, Rarm | KArm, (Rexpr | Rguard) | KMethod, (Rrecv | Rargs) | KRange, (Rstart | Rend)
  | KRecord, Rfields | KFieldList, (Rfield | Rspread) | KField, Rexpr | KWhile, (Rcond | Rbody) | KWrap _, Rexpr => true
  | _, _ => false
  end.
(** The ones that are left out: the length of an array, the block of [let … else], what a [for] iterates over, the
    conditions of [if] and [while], the guards of match arms *)
Definition left_out (k : kind) (r : role) : bool :=
  match k, r with
  | KRepeat, Rlen | KLetStmt, Relse | KFor, Riter | (KIf | KWhile), Rcond | KArm, Rguard => true
  | _, _ => false
  end.
(** So are the arguments of the calls above, of [Self::env] and of [self.env]. *)
Definition closed (rs : resolver) (t : tree) : bool :=
  is_self_type_env t || is_self_env t || match called rs t with Some _ => true | None => false end.

(** ** What becomes of the file *)

(** A part of the file is replaced; is an expression that is looked at; is the path of a called function, to be given
    a new qualifier and a new name; or is none of these. *)
Inductive mode := Replaced (s : str) | Looked | Callee (q n : option str) | Plain.
Definition replaced (s : option str) : mode := match s with Some s => Replaced s | None => Plain end.
Definition mode_in (rs : resolver) (m : mode) (t : tree) (k : kind) (r : role) : mode :=
  match m, k, r with
  | _, KFn, Rbody => Looked
  | Looked, KMethod, Rname => replaced (new_method rs t)
  | Looked, KCall _, Rexpr =>
      match callee t with
      | Some _ => Callee (new_qualifier rs t) (new_function rs t)
      | None => Looked
      end
  | Looked, _, _ => if expression_place k r && negb (left_out k r) && negb (closed rs t) then Looked else Plain
  | Callee q n, KPathExpr, Rpath => Callee q n
  | Callee q n, KPath, Rqual => replaced q
  | Callee q n, KPath, Rseg => Callee None n
  | Callee q n, KSegment, Rname => replaced n
  | _, _, _ => Plain
  end.
(** [build_create(..)] is followed by a new method call. *)
Definition appended (rs : resolver) (m : mode) (t : tree) : str :=
  match m with Looked => if calls rs BuildCreate t then lit ".instantiate_v1()" else [] | _ => [] end.
Fixpoint migrated (rs : resolver) (m : mode) (t : tree) {struct t} : str :=
  match m with
  | Replaced s => s
  | _ =>
      match t with
      | Leaf s => s
      | Node k cs => flat_map (fun rc => migrated rs (mode_in rs m t k (fst rc)) (snd rc)) cs ++ appended rs m t
      end
  end.

(** ** Trees *)

(** The parser's guarantees: every accessor for one child finds at most one; names are tokens, and no function is inside
    a qualifier of a path; what a role is for. *)
Definition many (r : role) : bool :=
  match r with Relem | Rstmt | Rarg | Rarm | Rfield | Rrest => true | _ => false end.
Fixpoint no_fn (t : tree) : Prop :=
  match t with
  | Leaf _ => True
  | Node k cs => k <> KFn /\ (fix all (cs : list (role * tree)) : Prop := match cs with [] => True | (_, c) :: cs' => no_fn c /\ all cs' end) cs
  end.
Fixpoint parsed (t : tree) : Prop :=
  match t with
  | Leaf _ => True
  | Node k cs =>
      (forall r, many r = false -> length (filter (fun x => role_eqb (fst x) r) cs) <= 1)
      /\ (forall r c, In (r, c) cs -> (r = Rname \/ r = Rqual) -> no_fn c)
      /\ (forall c, In (Rpath, c) cs -> exists ps, c = Node KPath ps)
      /\ (forall c, In (Rseg, c) cs -> exists ps, c = Node KSegment ps)
      /\ (forall c, In (Rqual, c) cs -> exists ps, c = Node KPath ps)
      /\ (forall c, In (Rargs, c) cs -> exists ps, c = Node KArgList ps)
      /\ (fix all (cs : list (role * tree)) : Prop := match cs with [] => True | (_, c) :: cs' => parsed c /\ all cs' end) cs
  end.
