(** Model of the migration of the bodies of e2e tests: crates/analyzer/src/analysis/migrate/e2e_test.rs L63-84, L308-654. *)
From Verif Require Import Base Unicode PositionModel TranslateModel CommandModel TravModel.

(** e2e_test.rs L87-93 [E2ETrait]; the variant [E2E] is never made. *)
Inductive e2e_trait := Contracts | Chain.
(** What a visit adds: to [results] or to [required_traits] (a set; here a list in the order of insertion) *)
Inductive found := Edit (e : text_edit) | Needs (t : e2e_trait).

(** e2e_test.rs L602-605 [MessageBuilderCall] *)
Inductive builder_call := BuildMessageFn (p : ltree) | FromAccountId (p : ltree).
(** e2e_test.rs L608-643 [MessageBuilderCall::parse] *)
Definition from_account_id (rs : resolver) (p : ltree) (at_ : N) : bool :=
  match child Rqual p, child Rseg p with
  | Some q, Some s =>
      str_eqb (ltext s) (lit "from_account_id") && rs_item rs (lit "MessageBuilder") (simple_path rs q) [lit "ink_e2e"] at_
  | _, _ => false
  end.
Definition number_of (t : ltree) : N := match snd t with Node (KCall n) _ => n | _ => 0%N end.
Definition builder_of (rs : resolver) (t : ltree) : option builder_call :=
  match call_path t with
  | Some p =>
      if is_call_path rs p (lit "build_message") [lit "ink_e2e"] (number_of t) then Some (BuildMessageFn p)
      else if from_account_id rs p (number_of t) then Some (FromAccountId p)
      else None
  | None => None
  end.
(** e2e_test.rs L645-653 [generic_args] and L330-357: the path and the generic arguments of its replacement *)
Definition builder_path (b : builder_call) : ltree := match b with BuildMessageFn p | FromAccountId p => p end.
Definition last_arg (g : ltree) : option ltree :=
  match rev (children Rarg g) with x :: _ => Some x | [] => None end.
Definition builder_generics (b : builder_call) : str :=
  match b with
  | BuildMessageFn p => match generic_args p with Some g => ltext g | None => [] end
  | FromAccountId p =>
      match obind (obind (child Rqual p) generic_args) last_arg with
      | Some a => lit "::<" ++ ltext a ++ lit ">"
      | None => []
      end
  end.

(** e2e_test.rs L406-434 [last_method_call]: the results of the parts of the body are computed first; statement lists and
    statements, which the code looks into from the block, have their own cases. *)
Fixpoint last_method (t : tree) (o : nat) {struct t} : option ltree :=
  match t with
  | Leaf _ => None
  | Node k cs =>
      let kids := (fix kids (o : nat) (cs : list (role * tree)) : list (role * (tree * option ltree)) :=
                     match cs with
                     | [] => []
                     | (r, c) :: cs' => (r, (c, last_method c o)) :: kids (o + width c) cs'
                     end) o cs in
      let get r := match filter (fun x => role_eqb (fst x) r) kids with x :: _ => Some (snd x) | [] => None end in
      match k with
      | KMethod => Some (o, t)
      | KBlock => match get Rstmts with Some x => snd x | None => None end
      | KStmtList =>
          match get Rtail with
          | Some x => snd x
          | None => match get Rstmt with Some (Node KExprStmt _, x) => x | _ => None end
          end
      | KExprStmt => match get Rexpr with Some (Node (KWrap WReturn) _, x) => x | _ => None end
      | KWrap WReturn => match get Rexpr with Some x => snd x | None => None end
      | _ => None
      end
  end.
(** e2e_test.rs L359-404: [.call(|contract| contract.message(..))] after the builder *)
Definition arg_exprs (t : ltree) : list ltree := match child Rargs t with Some a => children Rarg a | None => [] end.
Definition callback_edit (up : list ltree) : list found :=
  match parent_method up with
  | Some m =>
      match child Rname m, child Rargs m with
      | Some n, Some _ =>
          if str_eqb (ltext n) (lit "call") then
            match arg_exprs m with
            | [(oc, Node KClosure cs)] =>
                match obind (child Rbody (oc, Node KClosure cs)) (fun b => last_method (snd b) (fst b)) with
                | Some c =>
                    match child Rname c with
                    | Some cn =>
                        [Edit (TextEdit (ltext cn ++ match child Rargs c with Some a => ltext a | None => lit "()" end)
                                 (fst n, snd (trange_of m)) None)]
                    | None => []
                    end
                | None => []
                end
            | _ => []
            end
          else []
      | _, _ => []
      end
  | None => []
  end.
(** e2e_test.rs L323-435 [BodyVisitor::visit_call] *)
Definition e2e_call (rs : resolver) (up : list ltree) (t : ltree) (walk : list found) : list found :=
  match builder_of rs t with
  | None => walk
  | Some b => Edit (replace_edit (builder_path b) (lit "ink_e2e::create_call_builder" ++ builder_generics b)) :: callback_edit up
  end.

Section Methods.
  (** [IntNumber::value] of ra_ap_syntax is [Ok(0)] for this text. *)
  Variable zero : str -> bool.
  (** e2e_test.rs L551-561 [value_call] *)
  Definition value_call (e : ltree) : str :=
    match snd e with
    | Node KInt _ => if zero (ltext e) then [] else lit ".value(" ++ ltext e ++ lit ")"
    | _ => lit ".value(" ++ ltext e ++ lit ")"
    end.
  (** e2e_test.rs L563-588 [storage_deposit_limit_call] *)
  Definition limit_value (e : ltree) : str :=
    match snd e with
    | Node (KCall _) _ =>
        match child Rexpr e with
        | Some (o, Node KPathExpr cs) =>
            if str_eqb (ltext (o, Node KPathExpr cs)) (lit "Some") || str_eqb (ltext (o, Node KPathExpr cs)) (lit "Option::Some")
            then match arg_exprs e with a :: _ => ltext a | [] => ltext e end
            else ltext e
        | _ => ltext e
        end
    | _ => ltext e
    end.
  Definition limit_call (e : ltree) : str :=
    let is_none := match snd e with
                   | Node KPathExpr _ => str_eqb (ltext e) (lit "None") || str_eqb (ltext e) (lit "Option::None")
                   | _ => false
                   end in
    if is_none then [] else lit ".storage_deposit_limit(" ++ limit_value e ++ lit ")".
  (** e2e_test.rs L590-597 [unwrap_dry_run_result] *)
  Definition unwrap_dry_run (up : list ltree) : list found :=
    match up with
    | (o, Node (KWrap WAwait) cs) :: _ => [Edit (insert_at (snd (trange_of (o, Node (KWrap WAwait) cs))) (lit "?"))]
    | _ => []
    end.
  Definition submit (dry : bool) : str := if dry then lit ".dry_run()" else lit ".submit()".
  (** e2e_test.rs L455-549: the edits at a method call, from its name and argument list *)
  Definition method_found (up : list ltree) (n args : ltree) : list found :=
    let is s := str_eqb (ltext n) s in
    let l := children Rarg args in
    if is (lit "instantiate") || is (lit "instantiate_dry_run") then
      match l with
      | [c; s; k; v; d] =>
          Edit (replace_edit args (lit "(" ++ ltext c ++ lit ", " ++ ltext s ++ lit ", " ++ ltext k ++ lit ")" ++ value_call v ++ limit_call d
                                   ++ submit (is (lit "instantiate_dry_run"))))
          :: (if is (lit "instantiate_dry_run") then unwrap_dry_run up else []) ++ [Needs Contracts]
      | _ => []
      end
    else if is (lit "call") || is (lit "call_dry_run") then
      match l with
      | [s; m; v; d] =>
          Edit (replace_edit args (lit "(" ++ ltext s ++ lit ", " ++ ltext m ++ lit ")" ++ value_call v ++ limit_call d ++ submit (is (lit "call_dry_run"))))
          :: (if is (lit "call_dry_run") then unwrap_dry_run up else []) ++ [Needs Contracts]
      | _ => []
      end
    else if is (lit "upload") then
      match l with
      | [c; s; d] => [Edit (replace_edit args (lit "(" ++ ltext c ++ lit ", " ++ ltext s ++ lit ")" ++ limit_call d ++ lit ".submit()")); Needs Contracts]
      | _ => []
      end
    else if is (lit "create_and_fund_account") then (if length l =? 2 then [Needs Chain] else [])
    else if is (lit "balance") then
      if length l =? 1 then [Edit (replace_edit n (lit "free_balance")); Needs Chain] else []
    else if is (lit "runtime_call") then (if length l =? 4 then [Needs Chain] else [])
    else [].
  (** e2e_test.rs L438-598 [BodyVisitor::visit_method_call] *)
  Definition on_client (t : ltree) : bool :=
    match child Rrecv t with Some (o, Node KPathExpr cs) => str_eqb (ltext (o, Node KPathExpr cs)) (lit "client") | _ => false end.
  Definition e2e_method (up : list ltree) (t : ltree) (walk : list found) : list found :=
    (if on_client t then [] else walk)
    ++ match child Rname t with
       | None => walk
       | Some n => match child Rargs t with Some a => method_found up n a | None => [] end
       end.
  (** e2e_test.rs L100-108 [fn_body]: what the visitor finds in the body of a test *)
  Definition e2e_visit (rs : resolver) : tree -> nat -> list ltree -> list found := visit (e2e_call rs) e2e_method.
End Methods.

(** e2e_test.rs L63-84 [fn_sig]: from the parameter list or the name of the function *)
Definition fn_sig (params name : option trange) : list text_edit :=
  match oor params (option_map (fun r => (snd r, snd r)) name) with
  | Some r => [TextEdit (lit "<Client: E2EBackend>(mut client: Client)") r None]
  | None => []
  end.

(** ** The imports of traits: e2e_test.rs L109-175 *)
(** The item around the test (ir [parent_ast_item]): none, with the end of the last doc comment of the file and the start
    of the file; a module, with the place for its items and their indentation (L141-151); some other item *)
Inductive around := NoItem (docs : option nat) (start : nat) | InModule (at_ : option (nat * str)) | InOther.
(** L113-165; [inside] is the place after the brace of the function's body, and its indentation *)
Definition import_place (a : around) (inside : option (nat * str)) : option (nat * str) :=
  match a with
  | NoItem docs start => Some (match docs with Some e => e | None => start end, [])
  | InModule (Some p) => Some p
  | InModule None | InOther => inside
  end.
(** e2e_test.rs L94-98 [Display] *)
Definition trait_path (t : e2e_trait) : str :=
  lit "ink_e2e::" ++ match t with Contracts => lit "Contracts" | Chain => lit "Chain" end ++ lit "Backend".
Definition trait_eq_dec (a b : e2e_trait) : {a = b} + {a <> b}.
Proof. decide equality. Defined.
(** L167-174. The traits are in a set; here they come in the order of their last insertion. *)
Definition trait_imports (place : option (nat * str)) (traits : list e2e_trait) : list text_edit :=
  match place with
  | Some (o, indent) => map (fun t => insert_at o ([c_nl] ++ indent ++ lit "use " ++ trait_path t ++ lit ";")) (nodup trait_eq_dec traits)
  | None => []
  end.
(** e2e_test.rs L100-175 [fn_body] *)
Definition found_edits (l : list found) : list text_edit := flat_map (fun f => match f with Edit e => [e] | Needs _ => [] end) l.
Definition found_traits (l : list found) : list e2e_trait := flat_map (fun f => match f with Needs t => [t] | Edit _ => [] end) l.
Definition e2e_body (zero : str -> bool) (rs : resolver) (body : ltree) (a : around) (inside : option (nat * str)) : list text_edit :=
  let l := e2e_visit zero rs (snd body) (fst body) [] in
  found_edits l ++ trait_imports (import_place a inside) (found_traits l).
