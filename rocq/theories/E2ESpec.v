(** What C92 means: what the migration changes in the body of an e2e test. *)
From Verif Require Import Base Unicode PositionModel TranslateModel CommandModel TravModel HostSpec E2EModel.

(** ** What is looked at *)

(** A node and the nodes around it (innermost first), both with their places, seen from another such pair: an expression
    in a place that is not left out, unless a node in between is closed. *)
Inductive sees (closed : ltree -> Prop) : list ltree -> ltree -> list ltree -> ltree -> Prop :=
  | sees_itself up t : sees closed up t up t
  | sees_inside up o k cs r c up' t' :
      expression_place k r = true -> left_out k r = false -> ~ closed (o, Node k cs) ->
      In (r, c) (spread_out o cs) -> sees closed ((o, Node k cs) :: up) c up' t' ->
      sees closed up (o, Node k cs) up' t'.

(** ** Parts of a call *)
Definition is_kind (k : kind) (t : ltree) : Prop := exists cs, snd t = Node k cs.
Definition is_call (t : ltree) : Prop := exists n, is_kind (KCall n) t.
Definition has_name (t : ltree) (n : ltree) (s : str) : Prop := child Rname t = Some n /\ ltext n = s.
(** The argument list and the arguments *)
Definition has_args (t : ltree) (a : ltree) (l : list ltree) : Prop := child Rargs t = Some a /\ children Rarg a = l.

(** Of the generic arguments of [MessageBuilder::<E, Contract>], the last one is the contract's type. *)
Inductive kept_generics (q : ltree) : str -> Prop :=
  | generics_none : (forall x, generic_args q = Some x -> children Rarg x = []) -> kept_generics q []
  | generics_last x l a : generic_args q = Some x -> children Rarg x = l ++ [a] -> kept_generics q (lit "::<" ++ ltext a ++ lit ">").
(** [build_message(..)] or [MessageBuilder::from_account_id(..)]: the path, and the generic arguments for the new function *)
Inductive builds (rs : resolver) : ltree -> ltree -> str -> Prop :=
  | builds_message t oe es p at_ g :
      is_kind (KCall at_) t -> child Rexpr t = Some (oe, Node KPathExpr es) -> child Rpath (oe, Node KPathExpr es) = Some p ->
      rs_item rs (lit "build_message") (simple_path rs p) [lit "ink_e2e"] at_ = true ->
      match generic_args p with Some x => g = ltext x | None => g = [] end ->
      builds rs t p g
  | builds_account t oe es p at_ q s g :
      is_kind (KCall at_) t -> child Rexpr t = Some (oe, Node KPathExpr es) -> child Rpath (oe, Node KPathExpr es) = Some p ->
      rs_item rs (lit "build_message") (simple_path rs p) [lit "ink_e2e"] at_ = false ->
      child Rqual p = Some q -> child Rseg p = Some s -> ltext s = lit "from_account_id" ->
      rs_item rs (lit "MessageBuilder") (simple_path rs q) [lit "ink_e2e"] at_ = true ->
      kept_generics q g ->
      builds rs t p g.
(** A method call on [client] *)
Definition client_call (t : ltree) : Prop :=
  is_kind KMethod t /\ exists o cs, child Rrecv t = Some (o, Node KPathExpr cs) /\ ttext (Node KPathExpr cs) = lit "client".
(** The parts of these are not looked at. *)
Definition shut (rs : resolver) (t : ltree) : Prop :=
  (exists p g, builds rs t p g) \/ (client_call t /\ exists n, child Rname t = Some n).

(** The method call that a callback ends with: its body is one, or the operand of its [return] ends with one, or its
    block does. A block ends with the call that its last expression ends with; without a last expression, its first
    statement counts, if it is a [return]. *)
Inductive ends_with_call : ltree -> ltree -> Prop :=
  | ec_method t : is_kind KMethod t -> ends_with_call t t
  | ec_return t e c : is_kind (KWrap WReturn) t -> child Rexpr t = Some e -> ends_with_call e c -> ends_with_call t c
  | ec_block t l c : is_kind KBlock t -> child Rstmts t = Some l -> ends_with_call l c -> ends_with_call t c
  | ec_tail l e c : is_kind KStmtList l -> child Rtail l = Some e -> ends_with_call e c -> ends_with_call l c
  | ec_first l s c : is_kind KStmtList l -> child Rtail l = None -> child Rstmt l = Some s -> is_kind KExprStmt s ->
      ends_with_call s c -> ends_with_call l c
  | ec_statement s e c : is_kind KExprStmt s -> child Rexpr s = Some e -> is_kind (KWrap WReturn) e -> ends_with_call e c ->
      ends_with_call s c.

Section Changes.
  (** Whether the text of an integer literal stands for zero *)
  Variable zero : str -> bool.
  (** The setters for the transferred value and the storage deposit limit *)
  Definition literal_zero (v : ltree) : Prop := is_kind KInt v /\ zero (ltext v) = true.
  Definition sets_value (v : ltree) (s : str) : Prop :=
    (literal_zero v /\ s = []) \/ (~ literal_zero v /\ s = lit ".value(" ++ ltext v ++ lit ")").
  Definition no_limit (d : ltree) : Prop := is_kind KPathExpr d /\ (ltext d = lit "None" \/ ltext d = lit "Option::None").
  Definition some_limit (d x : ltree) : Prop :=
    is_call d /\ exists f a l, child Rexpr d = Some f /\ is_kind KPathExpr f /\ (ltext f = lit "Some" \/ ltext f = lit "Option::Some")
      /\ has_args d a (x :: l).
  Definition sets_limit (d : ltree) (s : str) : Prop :=
    (no_limit d /\ s = [])
    \/ (~ no_limit d /\ exists x, some_limit d x /\ s = lit ".storage_deposit_limit(" ++ ltext x ++ lit ")")
    \/ (~ no_limit d /\ (forall x, ~ some_limit d x) /\ s = lit ".storage_deposit_limit(" ++ ltext d ++ lit ")").

  Definition replaces (t : ltree) (s : str) (e : text_edit) : Prop := e = TextEdit s (trange_of t) None.
  (** The change at a node: from the nodes around it, the node, and the edit *)
  Inductive change (rs : resolver) : list ltree -> ltree -> text_edit -> Prop :=
    | ch_builder up t p g e :
        builds rs t p g -> replaces p (lit "ink_e2e::create_call_builder" ++ g) e -> change rs up t e
    | ch_callback t p g m up n a f b c cn :
        builds rs t p g -> is_kind KMethod m -> has_name m n (lit "call") -> has_args m a [f] -> is_kind KClosure f -> child Rbody f = Some b ->
        ends_with_call b c -> child Rname c = Some cn ->
        change rs (m :: up) t
          (TextEdit (ltext cn ++ match child Rargs c with Some x => ltext x | None => lit "()" end) (fst n, fst m + width (snd m)) None)
    | ch_instantiate up t n (dry : bool) a c s k v d x y e :
        is_kind KMethod t -> has_name t n (if dry then lit "instantiate_dry_run" else lit "instantiate") -> has_args t a [c; s; k; v; d] ->
        sets_value v x -> sets_limit d y ->
        replaces a (lit "(" ++ ltext c ++ lit ", " ++ ltext s ++ lit ", " ++ ltext k ++ lit ")" ++ x ++ y
                    ++ (if dry then lit ".dry_run()" else lit ".submit()")) e ->
        change rs up t e
    | ch_call up t n (dry : bool) a s m v d x y e :
        is_kind KMethod t -> has_name t n (if dry then lit "call_dry_run" else lit "call") -> has_args t a [s; m; v; d] ->
        sets_value v x -> sets_limit d y ->
        replaces a (lit "(" ++ ltext s ++ lit ", " ++ ltext m ++ lit ")" ++ x ++ y ++ (if dry then lit ".dry_run()" else lit ".submit()")) e ->
        change rs up t e
    | ch_upload up t n a c s d y e :
        is_kind KMethod t -> has_name t n (lit "upload") -> has_args t a [c; s; d] -> sets_limit d y ->
        replaces a (lit "(" ++ ltext c ++ lit ", " ++ ltext s ++ lit ")" ++ y ++ lit ".submit()") e ->
        change rs up t e
    | ch_balance up t n a x e :
        is_kind KMethod t -> has_name t n (lit "balance") -> has_args t a [x] -> replaces n (lit "free_balance") e ->
        change rs up t e
    | ch_unwrap t n a l w up :
        (** after [.await], the result of a dry run *)
        is_kind KMethod t -> (has_name t n (lit "instantiate_dry_run") /\ length l = 5 \/ has_name t n (lit "call_dry_run") /\ length l = 4) -> has_args t a l ->
        is_kind (KWrap WAwait) w ->
        change rs (w :: up) t (TextEdit (lit "?") (fst w + width (snd w), fst w + width (snd w)) None).
  (** The traits that the changed calls need *)
  Definition needs (t : ltree) (tr : e2e_trait) : Prop :=
    is_kind KMethod t /\ exists n name a l, has_name t n name /\ has_args t a l /\
      match tr with
      | Contracts => (name = lit "instantiate" \/ name = lit "instantiate_dry_run") /\ length l = 5
                     \/ (name = lit "call" \/ name = lit "call_dry_run") /\ length l = 4
                     \/ name = lit "upload" /\ length l = 3
      | Chain => name = lit "create_and_fund_account" /\ length l = 2 \/ name = lit "balance" /\ length l = 1 \/ name = lit "runtime_call" /\ length l = 4
      end.
End Changes.

(** ** Edits that do not overlap *)
Definition clear_of (a b : text_edit) : Prop := snd (te_range a) <= fst (te_range b) \/ snd (te_range b) <= fst (te_range a).
(** The methods whose argument list may be replaced *)
Definition REPLACED : list str := [lit "instantiate"; lit "instantiate_dry_run"; lit "call"; lit "call_dry_run"; lit "upload"].
(** Nothing changes inside of argument lists that may be replaced. *)
Definition quiet (zero : str -> bool) (rs : resolver) (up : list ltree) (body : ltree) : Prop :=
  forall up1 m n s a up2 t e, sees (shut rs) up body up1 m -> ~ shut rs m -> is_kind KMethod m -> has_name m n s -> In s REPLACED -> child Rargs m = Some a ->
    sees (shut rs) (m :: up1) a up2 t -> ~ change zero rs up2 t e.
(** The receiver of a method call stands before the name of the method (the parser's guarantee). *)
Definition in_order (rs : resolver) (up : list ltree) (body : ltree) : Prop :=
  forall up1 m r n, sees (shut rs) up body up1 m -> is_kind KMethod m -> child Rrecv m = Some r -> child Rname m = Some n -> fst r + width (snd r) <= fst n.

(** Where imports go, and how they are indented: in a file without an item around the test behind its doc comments, in a
    module at the place for its items, else at the start of the function's body *)
Inductive goes_at : around -> option (nat * str) -> nat -> str -> Prop :=
  | ga_docs e start inside : goes_at (NoItem (Some e) start) inside e []
  | ga_start start inside : goes_at (NoItem None start) inside start []
  | ga_module o indent inside : goes_at (InModule (Some (o, indent))) inside o indent
  | ga_no_list o indent : goes_at (InModule None) (Some (o, indent)) o indent
  | ga_other o indent : goes_at InOther (Some (o, indent)) o indent.
