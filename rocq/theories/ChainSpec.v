(** What C89 and C90 mean: which functions and associated types of chain extensions and trait definitions are reported,
    and what the fixes make of the file. *)
From Coq Require Import Permutation Sorted.
From Verif Require Import Base Unicode VersionModel PositionModel TranslateModel SyntaxModel AttrModel EditSpec UtilModel UtilSpec ArgEditSpec ArgCheckSpec RuleModel RuleSpec
  EntityModel EntitySpec ChainModel.

(** ** Fixes with several edits *)

(** A text as a sequence of parts that stay and parts that are replaced *)
Inductive piece := Same (s : str) | Other (old new : str).
Definition old_text (ps : list piece) : str := flat_map (fun p => match p with Same s => s | Other old _ => old end) ps.
Definition new_text (ps : list piece) : str := flat_map (fun p => match p with Same s => s | Other _ new => new end) ps.
(** The replaced parts: where they are, and the new text *)
Fixpoint changes (o : nat) (ps : list piece) : list (trange * str) :=
  match ps with
  | [] => []
  | Same s :: ps' => changes (o + bytes s) ps'
  | Other old new :: ps' => ((o, o + bytes old), new) :: changes (o + bytes old) ps'
  end.
(** The edits, in whatever order, turn the file into the result; none overlaps another. *)
Definition rewritten (file : str) (edits : list text_edit) (result : str) : Prop :=
  exists ps, file = old_text ps /\ result = new_text ps
    /\ Permutation (map (fun e => (te_range e, te_text e)) edits) (changes 0 ps).

(** ** Functions *)

(** A function: attributes, comments and white space; then its signature; then the body or a semicolon *)
Record method := Method { me_front : list elem; me_head : list elem; me_end : fn_end }.
Definition method_tree (m : method) : elem := Node FN (me_front m ++ me_head m ++ ending (me_end m)).
Definition method_ok (m : method) : Prop :=
  front_only (me_front m) /\ begins_solid (me_head m) /\ no_docs (me_head m)
  /\ (forall cs, ~ In (Node ATTR cs) (me_head m)) /\ (forall cs, ~ In (Node BLOCK_EXPR cs) (me_head m))
  /\ (forall s, ~ In (Tok SEMICOLON s) (me_head m)).
(** What a report on a function marks: from the first token after the attributes and doc comments to the opening brace
    or the semicolon; without those, from the start of the item. *)
Definition annotation (e : elem) : bool :=
  match e with Node ATTR _ => true | Tok COMMENT c => is_doc c | _ => false end.
Definition signature (m : method) : list elem :=
  (if existsb annotation (me_front m) then [] else me_front m) ++ me_head m
  ++ match me_end m with WithBody _ => [Tok L_CURLY (lit "{")] | WithoutBody => [Tok SEMICOLON (lit ";")] end.

(** The ink! attributes of a function *)
Definition ink_attrs (read : reader) (m : method) : list seen :=
  filter_map (fun e => match e with Node ATTR _ => read e | _ => None end) (me_front m).
(** An attribute of the kind of an argument; [function]s for ink! 5, [extension]s for ink! 4 *)
Definition marked_as (read : reader) (k : arg_kind) (m : method) : Prop := exists s, In s (ink_attrs read m) /\ sn_kind s = AkArg k.
Definition mentions (read : reader) (k : arg_kind) (m : method) : Prop := exists s, In s (ink_attrs read m) /\ In k (sn_args s).
Definition wanted (v : version) : arg_kind := match v with V5 => AFunction | V4 => AExtension end.
(** The functions that are reported: without the attribute, except for those of ink! 5 with the one of ink! 4 *)
Definition missing_id (v : version) (read : reader) (m : method) : Prop :=
  ~ marked_as read (wanted v) m /\ (v = V5 -> ~ mentions read AExtension m).

(** The text of the front with ink! attributes of other kinds than these removed *)
Definition stays (read : reader) (keep : list arg_kind) (e : elem) : Prop :=
  (forall cs, e <> Node ATTR cs) \/ read e = None \/ exists s k, read e = Some s /\ sn_kind s = AkArg k /\ In k keep.
Inductive kept (read : reader) (keep : list arg_kind) : list elem -> str -> Prop :=
  | kept_nil : kept read keep [] []
  | kept_stays e l s : stays read keep e -> kept read keep l s -> kept read keep (e :: l) (text_of e ++ s)
  | kept_goes e l s : ~ stays read keep e -> kept read keep l s -> kept read keep (e :: l) s.
(** The fix: the new attribute is in front of the first ink! attribute, or else behind all attributes; the ink!
    attributes of other kinds are gone; the rest of the file is as before. *)
Definition attributed (read : reader) (keep : list arg_kind) (pre post : list (skind * str)) (m : method) (new : str) (edits : list text_edit) : Prop :=
  exists a b s, me_front m = a ++ b /\ first_attr_place (is_ink_attr read) a b /\ kept read keep b s
    /\ rewritten (in_file pre (method_tree m) post) edits
         (text pre ++ texts_of a ++ new ++ s ++ texts_of (me_head m ++ ending (me_end m)) ++ text post).

(** A report on the function in its place in the file *)
Definition method_reported (r : crule) (read : reader) (keep : list arg_kind) (new : str) (place : list (skind * str) * method * list (skind * str))
    (d : cdiag) : Prop :=
  let '(pre, m, post) := place in
  cd_rule d = r /\ marks pre (method_tree m) (leaves_of (signature m)) (cd_range d)
  /\ exists edits, cd_fix d = Some edits /\ attributed read keep pre post m new edits
    /\ Forall (fun e => match te_snippet e with Some s => fills s (te_text e) | None => True end) edits.
Definition id_attribute (v : version) (id : N) : str :=
  lit "#[ink(" ++ match v with V5 => lit "function" | V4 => lit "extension" end ++ lit " = " ++ dec id ++ lit ")]".
(** Functions in one file *)
Definition in_place (toks : list (skind * str)) (place : list (skind * str) * method * list (skind * str)) : Prop :=
  let '(pre, m, post) := place in toks = pre ++ leaves (method_tree m) ++ post /\ method_ok m.
Definition placed_at (place : list (skind * str) * method * list (skind * str)) : lelem :=
  let '(pre, m, post) := place in at_place pre (method_tree m).

(** *** Arguments of the attributes *)

(** The value of the [i]-th argument of an attribute is [_]. *)
Definition wildcard_at (attr : ink_attr) (i : nat) : Prop :=
  exists a v t, nth_error (at_args attr) i = Some a /\ m_value a = MOk v /\ shows v UNDERSCORE t.
(** A report on the [i]-th argument, whose fix removes it and leaves the others *)
Definition wildcard_fixed (attr : ink_attr) (pre : list (skind * str)) (body : list elem) (post : list (skind * str)) (cores : list (list elem)) (i : nat) (d : cdiag) : Prop :=
  cd_rule d = CWildcard /\ (exists a, nth_error (at_args attr) i = Some a /\ meta_range a = Done (cd_range d))
  /\ exists edit body' b', cd_fix d = Some [edit] /\ applied (file_text pre body post) edit (file_text pre body' post) /\ listed (without i cores) b' body'.
(** *** Ids of chain extensions *)

Definition sp : elem := Tok WHITESPACE (lit " ").
Definition extension_argument (id : N) : list elem :=
  [Tok IDENT (lit "extension"); sp; Tok EQ (lit "="); sp; Tok INT_NUMBER (dec id)].
Definition id_suggested (ids : list N) (id : N) : Prop :=
  least_free 1 U16_MAX ids id \/ (id = 1%N /\ forall n, (1 <= n <= U16_MAX)%N -> In n ids).
Definition id_reported (rg : trange) (before after : str) (ds : list cdiag) : Prop :=
  exists edit, ds = [CDiag CNoId rg (Some [edit])] /\ applied before edit after
    /\ exists s, te_snippet edit = Some s /\ fills s (te_text edit).

(** ** Associated types *)

(** [type name<generics>: bounds = type;] *)
Record alias := Alias {
  al_front : list elem;
  al_name : list elem;                                   (* the name with white space around it, or only white space *)
  al_generics : option (list elem);
  al_gap : list elem;
  al_bounds : option (list elem * list elem * list elem); (* after the colon: white space, the bounds, white space *)
  al_value : option (list elem * option elem * list elem); (* after [=]: white space, the type, white space *)
  al_semi : bool }.
Definition TYPE_KW := OTHER 163.
Definition bounds (w : option (list elem * list elem * list elem)) : list elem :=
  match w with Some (g, cs, h) => Tok COLON (lit ":") :: g ++ Node TYPE_BOUND_LIST cs :: h | None => [] end.
Definition assigned (w : option (list elem * option elem * list elem)) : list elem :=
  match w with Some (g, t, h) => Tok EQ (lit "=") :: g ++ match t with Some t => [t] | None => [] end ++ h | None => [] end.
Definition alias_tree (a : alias) : elem :=
  Node TYPE_ALIAS (al_front a ++ Tok TYPE_KW (lit "type") :: al_name a ++ generics (al_generics a) ++ al_gap a ++ bounds (al_bounds a)
                   ++ assigned (al_value a) ++ if al_semi a then [Tok SEMICOLON (lit ";")] else []).
Definition alias_ok (a : alias) : Prop :=
  front_only (al_front a) /\ gap_name_ok (al_name a) /\ blank (al_gap a)
  /\ match al_bounds a with Some (g, _, h) => blank g /\ blank h | None => True end
  /\ match al_value a with
     | Some (g, t, h) => blank g /\ blank h
                         /\ match t with
                            | Some t => is_tok t = false /\ is_type (kind_of t) = true
                            | None => True
                            end
     | None => True
     end.
(** The name; [None] if there is none *)
Definition alias_named (a : alias) (n : str) : Prop :=
  exists g h, al_name a = g ++ Node NAME [Tok IDENT n] :: h /\ blank g /\ blank h.
(** What is wrong with an associated type of a chain extension *)
Inductive alias_wrong (a : alias) : crule -> Prop :=
  | aw_name : ~ alias_named a (lit "ErrorCode") -> alias_wrong a CName
  | aw_generics cs : al_generics a = Some cs -> alias_wrong a CGenerics
  | aw_bounds w : al_bounds a = Some w -> alias_wrong a CBounds
  | aw_type : (forall g t h, al_value a <> Some (g, Some t, h)) -> alias_wrong a CNoType.
(** What a report marks *)
Inductive alias_marks (a : alias) : crule -> list (skind * str) -> Prop :=
  | am_name n : alias_named a n -> alias_marks a CName [(IDENT, n)]
  | am_generics cs : al_generics a = Some cs -> alias_marks a CGenerics (leaves_of cs)
  | am_bounds g cs h : al_bounds a = Some (g, cs, h) ->
      alias_marks a CBounds (leaves_of (Tok COLON (lit ":") :: g ++ [Node TYPE_BOUND_LIST cs]))
  | am_type : alias_marks a CNoType (leaves (alias_tree a)).
(** What a fix makes of it; nothing for a type without a name, and none is described for a type without [=] and [;]. *)
Definition UNIT_TYPE := Node (OTHER 135) [Tok L_PAREN (lit "("); Tok R_PAREN (lit ")")].
Inductive alias_fixed (a : alias) : crule -> alias -> Prop :=
  | af_name n g h : al_name a = g ++ Node NAME [Tok IDENT n] :: h -> blank g -> blank h ->
      alias_fixed a CName (Alias (al_front a) (g ++ Node NAME [Tok IDENT (lit "ErrorCode")] :: h) (al_generics a) (al_gap a) (al_bounds a) (al_value a) (al_semi a))
  | af_generics : alias_fixed a CGenerics (Alias (al_front a) (al_name a) None (al_gap a) (al_bounds a) (al_value a) (al_semi a))
  | af_bounds g cs h : al_bounds a = Some (g, cs, h) ->
      alias_fixed a CBounds (Alias (al_front a) (al_name a) (al_generics a) (al_gap a ++ h) None (al_value a) (al_semi a))
  | af_value g h : al_value a = Some (g, None, h) -> (al_semi a = false -> g = [] /\ h = []) ->
      alias_fixed a CNoType (Alias (al_front a) (al_name a) (al_generics a) (al_gap a) (al_bounds a) (Some ([], Some UNIT_TYPE, g ++ h)) true)
  | af_assign : al_value a = None -> al_bounds a = None -> al_semi a = true ->
      alias_fixed a CNoType (Alias (al_front a) (al_name a) (al_generics a) (al_gap a ++ [sp]) None (Some ([sp], Some UNIT_TYPE, [])) true)
  | af_assign_bounds g cs h : al_value a = None -> al_bounds a = Some (g, cs, h) -> al_semi a = true ->
      alias_fixed a CNoType (Alias (al_front a) (al_name a) (al_generics a) (al_gap a) (Some (g, cs, h ++ [sp])) (Some ([sp], Some UNIT_TYPE, [])) true).

(** A fix has the effect described; its snippet is the text it inserts. *)
Definition ok_fix (pre post : list (skind * str)) (a : alias) (d : cdiag) : Prop :=
  exists edits a', cd_fix d = Some edits /\ alias_fixed a (cd_rule d) a'
    /\ effect (in_file pre (alias_tree a) post) edits (in_file pre (alias_tree a') post)
    /\ Forall (fun e => match te_snippet e with Some s => fills s (te_text e) | None => True end) edits.
Definition ok_marks (pre : list (skind * str)) (a : alias) (d : cdiag) : Prop :=
  exists part, alias_marks a (cd_rule d) part /\ marks pre (alias_tree a) part (cd_range d).
(** All but a missing type if neither [=] nor [;] is there, or no [;] and white space after [=] *)
Definition fixable (a : alias) (r : crule) : Prop := r = CNoType -> al_semi a = true \/ al_value a = Some ([], None, []).

(** *** How many *)
(** An associated type called [ErrorCode] *)
Definition error_code (e : elem) : Prop := exists cs, e = Node TYPE_ALIAS cs /\ named cs (lit "ErrorCode").
(** The places of the second, third, ... element with a property *)
Inductive later (P : elem -> Prop) : bool -> list elem -> list elem -> list (list elem * elem * list elem) -> Prop :=
  | later_nil b a : later P b a [] []
  | later_other b a e l ps : ~ P e -> later P b (a ++ [e]) l ps -> later P b a (e :: l) ps
  | later_first a e l ps : P e -> later P true (a ++ [e]) l ps -> later P false a (e :: l) ps
  | later_more a e l ps : P e -> later P true (a ++ [e]) l ps -> later P true a (e :: l) ((a, e, l) :: ps).

(** Those elements of a list that have a property, in order *)
Inductive those {A} (P : A -> Prop) : list A -> list A -> Prop :=
  | those_nil : those P [] []
  | those_in x l out : P x -> those P l out -> those P (x :: l) (x :: out)
  | those_out x l out : ~ P x -> those P l out -> those P (x :: l) out.

(** A trait: attributes, comments and white space, then [head] with its list in braces *)
Definition trait_head (front head : list elem) : Prop :=
  front_only front /\ begins_solid head /\ no_docs head /\ (forall cs, ~ In (Node ATTR cs) head) /\ heads ASSOC_ITEM_LIST head.
Definition trait_tail (tail : list elem) : Prop := no_docs tail /\ forall cs, ~ In (Node ATTR cs) tail.
(** What a report on a trait marks: from the first token after the attributes and doc comments to the opening brace *)
Definition declaration (front head : list elem) : list elem :=
  (if existsb annotation front then [] else front) ++ head ++ [lbrace].
(** A report on a superfluous [ErrorCode] *)
Definition superfluous (pre post : list (skind * str)) (head tail : list elem) (p : list elem * elem * list elem) (d : cdiag) : Prop :=
  let '(a, e, b) := p in
  let before := text pre ++ texts_of head ++ lit "{" ++ texts_of a in
  let after := texts_of b ++ lit "}" ++ texts_of tail ++ text post in
  cd_rule d = CSecondErrorCode /\ cd_range d = (bytes before, bytes (before ++ text_of e))
  /\ exists edits, cd_fix d = Some edits /\ effect (before ++ text_of e ++ after) edits (before ++ after).
