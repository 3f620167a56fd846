(** Model of the migration of host functions: crates/analyzer/src/analysis/migrate/host_fn.rs. *)
From Verif Require Import Base Unicode PositionModel TranslateModel CommandModel TravModel.

Definition CALL_QUALIFIERS : list str := [lit "ink_env::call"; lit "ink::env::call"].
Definition ENV_QUALIFIERS : list str := [lit "ink_env"; lit "ink::env"].

(** host_fn.rs L232-256 [chained_env_host_fn_call] *)
Definition chained_env (up : list ltree) : list text_edit :=
  match obind (parent_method up) (child Rname) with
  | Some n =>
      if str_eqb (ltext n) (lit "instantiate_contract") || str_eqb (ltext n) (lit "invoke_contract")
      then [replace_edit n (ltext n ++ lit "_v1")] else []
  | None => []
  end.
(** host_fn.rs L183-203 [chained_host_fn_call]: the name of the method that is found *)
Fixpoint chained_host (name : str) (between : list str) (up : list ltree) : option ltree :=
  match up with
  | [] => None
  | _ :: up' =>
      match obind (parent_method up) (child Rname) with
      | Some n =>
          if str_eqb (ltext n) name then Some n
          else if existsb (str_eqb (ltext n)) between then chained_host name between up'
          else None
      | None => None
      end
  end.
(** host_fn.rs L158-168 *)
Definition INTERMEDIATES : list str :=
  [lit "call_type"; lit "call_flags"; lit "returns"; lit "exec_input"; lit "delegate"; lit "gas_limit"; lit "transferred_value"; lit "code_hash"].

(** host_fn.rs L47-61 [is_self_type_env_call] *)
Definition self_type_env (p : ltree) : bool :=
  match child Rqual p, path_name p with
  | Some q, Some n => str_eqb (ltext q) (lit "Self") && str_eqb (ltext n) (lit "env")
  | _, _ => false
  end.
(** host_fn.rs L68-87 [call_type_new_info] *)
Definition call_type_new (rs : resolver) (p : ltree) (at_ : N) : option ltree :=
  match child Rqual p, child Rseg p with
  | Some q, Some s =>
      if str_eqb (ltext s) (lit "new")
      then (if rs_item rs (lit "Call") (simple_path rs q) CALL_QUALIFIERS at_ then Some q else None)
      else None
  | _, _ => None
  end.
(** host_fn.rs L88-99 *)
Definition call_type_edits (rs : resolver) (p : ltree) (at_ : N) : list text_edit :=
  match call_type_new rs p at_ with
  | Some q => [replace_edit q (lit "ink::env::call::CallV1" ++ match generic_args q with Some g => ltext g | None => [] end)]
  | None => []
  end.
(** host_fn.rs L101-139 [HostFnWrapper] *)
Inductive host_fn := BuildCall | BuildCreate | InstantiateContract | InvokeContract.
Definition host_fn_of (rs : resolver) (p : ltree) (at_ : N) : option host_fn :=
  if is_call_path rs p (lit "build_call") CALL_QUALIFIERS at_ then Some BuildCall
  else if is_call_path rs p (lit "build_create") CALL_QUALIFIERS at_ then Some BuildCreate
  else if is_call_path rs p (lit "instantiate_contract") ENV_QUALIFIERS at_ then Some InstantiateContract
  else if is_call_path rs p (lit "invoke_contract") ENV_QUALIFIERS at_ then Some InvokeContract
  else None.
(** host_fn.rs L145-181: the edits for one of these functions *)
Definition host_fn_edits (up : list ltree) (t p : ltree) (f : host_fn) : list text_edit :=
  match f with
  | BuildCreate => [insert_at (snd (trange_of t)) (lit ".instantiate_v1()")]
  | BuildCall =>
      match chained_host (lit "call") INTERMEDIATES up with Some n => [replace_edit n (lit "call_v1")] | None => [] end
  | InstantiateContract | InvokeContract =>
      match path_name p with Some n => [replace_edit n (ltext n ++ lit "_v1")] | None => [] end
  end.
Definition call_number (t : ltree) : N := match snd t with Node (KCall n) _ => n | _ => 0%N end.
(** host_fn.rs L36-204 [BodyVisitor::visit_call] *)
Definition host_call (rs : resolver) (up : list ltree) (t : ltree) (walk : list text_edit) : list text_edit :=
  match call_path t with
  | None => walk
  | Some p =>
      if self_type_env p then chained_env up
      else call_type_edits rs p (call_number t)
           ++ match host_fn_of rs p (call_number t) with
              | None => walk
              | Some f => host_fn_edits up t p f
              end
  end.
(** host_fn.rs L207-225 [BodyVisitor::visit_method_call] *)
Definition self_env (t : ltree) : bool :=
  match child Rrecv t with
  | Some (o, Node KPathExpr cs) => str_eqb (ltext (o, Node KPathExpr cs)) (lit "self") && is_text (lit "env") (child Rname t)
  | _ => false
  end.
Definition host_method (up : list ltree) (t : ltree) (walk : list text_edit) : list text_edit :=
  (if self_env t then [] else walk) ++ chained_env up.
Definition host_visit (rs : resolver) : tree -> nat -> list ltree -> list text_edit := visit (host_call rs) host_method.

(** host_fn.rs L12-21 [migrate]: the bodies of all functions of the file, in the order of the file. What encloses a
    function's body is not a method call, so it is left out. *)
Fixpoint host_migrate (rs : resolver) (t : tree) (o : nat) {struct t} : list text_edit :=
  match t with
  | Leaf _ => []
  | Node k cs =>
      match k with
      | KFn => match child Rbody (o, t) with Some b => host_visit rs (snd b) (fst b) [] | None => [] end
      | _ => []
      end
      ++ (fix go (o : nat) (cs : list (role * tree)) : list text_edit :=
            match cs with
            | [] => []
            | (_, c) :: cs' => host_migrate rs c o ++ go (o + width c) cs'
            end) o cs
  end.
