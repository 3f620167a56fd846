(** Model of the traversal of function bodies by migrations: crates/analyzer/src/analysis/migrate/traversal.rs.
    A syntax tree is given with the accessor of ra_ap_syntax through which a node reaches each of its children; the
    parser and these accessors are not modelled. *)
From Verif Require Import Base Unicode PositionModel TranslateModel CommandModel.

(** The expressions with one operand, traversal.rs L100-112 *)
Inductive wrapper := WAwait | WBreak | WCast | WFieldAccess | WLet | WParen | WPrefix | WRef | WReturn | WTry | WYield | WYeet.
(** Kinds of nodes. Expressions are [KArray] to [KOther]; [KArray] is [ArrayExprKind::ElementList] and [KRepeat] is
    [ArrayExprKind::Repeat]; calls have a number that tells where in the file they are, for the resolution of paths.
    [KInt] is an integer literal, [KGenericArgs] a list of generic arguments;
    [KOther] is every other node: other expressions, items, patterns, types, macro calls and so on. *)
Inductive kind :=
  | KArray | KRepeat | KBin | KBlock | KCall (at_ : N) | KClosure | KFor | KFormatArgs | KIf | KIndex | KLoop | KMatch | KMethod | KRange
  | KRecord | KTuple | KWhile | KWrap (w : wrapper) | KPathExpr | KOther
  | KStmtList | KExprStmt | KLetStmt | KArgList | KFormatArg | KArmList | KArm | KFieldList | KField | KPath | KSegment | KFn
  | KInt | KGenericArgs.
(** The accessor that returns a child: [expr], [lhs], [rhs], [exprs], [initializer], [stmt_list], [statements],
    [tail_expr], [arg_list], [args], [body] or [loop_body], [iterable], [condition], [then_branch], [else_branch] or
    [let_else], [base], [index], [match_arm_list], [arms], [guard], [receiver], [name_ref], [start], [end],
    [record_expr_field_list], [fields], [spread], [template], [repeat], [path], [qualifier], [segment],
    [generic_arg_list]; [Rrest] for all other children and tokens *)
Inductive role :=
  | Rexpr | Rlhs | Rrhs | Relem | Rinit | Rstmts | Rstmt | Rtail | Rargs | Rarg | Rbody | Riter | Rcond | Rthen | Relse | Rbase | Rindex
  | Rarms | Rarm | Rguard | Rrecv | Rname | Rstart | Rend | Rfields | Rfield | Rspread | Rtemplate | Rlen | Rpath | Rqual | Rseg | Rgenerics | Rrest.
Definition role_eq_dec (a b : role) : {a = b} + {a <> b}.
Proof. decide equality. Defined.
Definition role_eqb (a b : role) : bool := if role_eq_dec a b then true else false.

Inductive tree := Leaf (s : str) | Node (k : kind) (cs : list (role * tree)).
(** [to_string] *)
Fixpoint ttext (t : tree) : str :=
  match t with Leaf s => s | Node _ cs => flat_map (fun rc => ttext (snd rc)) cs end.
Definition width (t : tree) : nat := bytes (ttext t).
(** A node and where it starts; its range *)
Definition ltree : Type := nat * tree.
Definition trange_of (t : ltree) : trange := (fst t, fst t + width (snd t)).
(** The children with their places *)
Fixpoint spread_out (o : nat) (cs : list (role * tree)) : list (role * ltree) :=
  match cs with
  | [] => []
  | (r, c) :: cs' => (r, (o, c)) :: spread_out (o + width c) cs'
  end.
(** An accessor: the first child it returns *)
Definition child (r : role) (t : ltree) : option ltree :=
  match snd t with
  | Leaf _ => None
  | Node _ cs => match filter (fun x => role_eqb (fst x) r) (spread_out (fst t) cs) with x :: _ => Some (snd x) | [] => None end
  end.
(** All children an accessor returns *)
Definition children (r : role) (t : ltree) : list ltree :=
  match snd t with Leaf _ => [] | Node _ cs => map snd (filter (fun x => role_eqb (fst x) r) (spread_out (fst t) cs)) end.
Definition ltext (t : ltree) : str := ttext (snd t).

(** [TextEdit::replace], [TextEdit::insert] *)
Definition replace_edit (t : ltree) (s : str) : text_edit := TextEdit s (trange_of t) None.
Definition insert_at (o : nat) (s : str) : text_edit := TextEdit s (o, o) None.

(** Which children are visited, in this order: one child, or all of a role *)
Inductive pick := One (r : role) | All (r : role).
(** traversal.rs L31-115 [walk_expr], L117-137 [walk_block], L139-146 [walk_call], L148-158 [walk_if_expr] and L160-167
    [walk_method_call]: the children they visit. Nodes between expressions (argument lists, statements, match arms,
    fields) have their own lines here. *)
Definition walked (k : kind) : list pick :=
  match k with
  | KArray => [All Relem]
  | KRepeat => [One Rinit]
  | KBin => [One Rlhs; One Rrhs]
  | KBlock => [One Rstmts]
  | KStmtList => [All Rstmt; One Rtail]
  | KExprStmt => [One Rexpr]
  | KLetStmt => [One Rinit]
  | KCall _ => [One Rexpr; One Rargs]
  | KArgList => [All Rarg]
  | KClosure => [One Rbody]
  | KFor => [One Rbody]
  | KFormatArgs => [One Rtemplate; All Rarg]
  | KFormatArg => [One Rexpr]
  | KIf => [One Rthen; One Relse]
  | KIndex => [One Rbase; One Rindex]
  | KLoop => [One Rbody]
  | KMatch => [One Rexpr; One Rarms]
  | KArmList => [All Rarm]
  | KArm => [One Rexpr]
  | KMethod => [One Rrecv; One Rargs]
  | KRange => [One Rstart; One Rend]
  | KRecord => [One Rfields]
  | KFieldList => [All Rfield; One Rspread]
  | KField => [One Rexpr]
  | KTuple => [All Relem]
  | KWhile => [One Rbody]
  | KWrap _ => [One Rexpr]
  | KPathExpr | KOther | KPath | KSegment | KFn | KInt | KGenericArgs => []
  end.

Section Visit.
  Context {A : Type}.
  (** traversal.rs L169-190 [Visitor]: what is done at calls and method calls, from the enclosing nodes (innermost
      first), the node itself, and the results of walking it. *)
  Variable on_call on_method : list ltree -> ltree -> list A -> list A.
  (** The chosen ones of the children's results *)
  Definition picked (kids : list (role * list A)) (p : pick) : list A :=
    match p with
    | One r => match filter (fun x => role_eqb (fst x) r) kids with x :: _ => snd x | [] => [] end
    | All r => flat_map snd (filter (fun x => role_eqb (fst x) r) kids)
    end.
  Fixpoint visit (t : tree) (o : nat) (up : list ltree) {struct t} : list A :=
    match t with
    | Leaf _ => []
    | Node k cs =>
        let up' := (o, t) :: up in
        let kids := (fix kids (o : nat) (cs : list (role * tree)) : list (role * list A) :=
                       match cs with
                       | [] => []
                       | (r, c) :: cs' => (r, visit c o up') :: kids (o + width c) cs'
                       end) o cs in
        let walk := flat_map (picked kids) (walked k) in
        match k with
        | KCall _ => on_call up (o, t) walk
        | KMethod => on_method up (o, t) walk
        | _ => walk
        end
    end.
End Visit.

(** ** Paths: crates/analyzer/src/analysis/migrate/common.rs *)

(** [ink_analyzer_ir::path_from_str] finds a path; [resolution::is_external_crate_item] with the name, the path, the
    qualifiers and the place of the call (modelled in ExternalModel.v) *)
Record resolver := Resolver { rs_path : str -> bool; rs_item : str -> str -> list str -> N -> bool }.
(** common.rs L8-12 [last_segment_generic_args] *)
Definition generic_args (p : ltree) : option ltree := obind (child Rseg p) (child Rgenerics).
(** common.rs L14-17 [simplify_path]: every occurrence of the text of the generic arguments is removed. *)
Definition simple_path (rs : resolver) (p : ltree) : str :=
  match generic_args p with
  | Some g => let s := str_replace (ltext g) [] (ltext p) in if rs_path rs s then s else ltext p
  | None => ltext p
  end.
(** common.rs L19-28 [is_call_path] *)
Definition is_call_path (rs : resolver) (p : ltree) (name : str) (quals : list str) (at_ : N) : bool :=
  rs_item rs name (simple_path rs p) quals at_.
(** The path of the called function: [expr.expr()] is a path expression with a path. *)
Definition call_path (t : ltree) : option ltree :=
  match child Rexpr t with Some (o, Node KPathExpr cs) => child Rpath (o, Node KPathExpr cs) | _ => None end.
(** [path.segment().and_then(name_ref)] *)
Definition path_name (p : ltree) : option ltree := obind (child Rseg p) (child Rname).
Definition is_text (s : str) (t : option ltree) : bool := match t with Some t => str_eqb (ltext t) s | None => false end.
(** The parent, if it is a method call *)
Definition parent_method (up : list ltree) : option ltree :=
  match up with (o, Node KMethod cs) :: _ => Some (o, Node KMethod cs) | _ => None end.
