(** What C76-C79 mean: items as written, the rules they break, and items with one part taken out.

    An item is described by its parts in the order Rust's grammar prescribes. A part is a list of syntax elements; the
    gaps between parts are white space and comments. *)
From Verif Require Import Base PositionModel TranslateModel SyntaxModel AttrModel AttrSpec ArgEditSpec EditSpec RuleModel.

(** ** Parts *)

(** No token is empty, and the first and the last are neither white space nor comments. *)
Definition tokens_ok (l : list elem) : Prop := Forall (fun t => snd t <> []) (leaves_of l).
Definition begins_solid (l : list elem) : Prop := exists t r, leaves_of l = t :: r /\ is_trivia (fst t) = false.
Definition ends_solid (l : list elem) : Prop := exists r t, leaves_of l = r ++ [t] /\ is_trivia (fst t) = false.
Definition solid (l : list elem) : Prop := tokens_ok l /\ begins_solid l /\ ends_solid l.
(** A keyword and what follows it up to the next part; [None]: the keyword is not there. *)
Definition keyword (k : skind) (s : str) (w : option (list elem)) : list elem :=
  match w with Some g => Tok k s :: g | None => [] end.
(** A node and what follows it. *)
Definition noded (k : skind) (w : option (list elem * list elem)) : list elem :=
  match w with Some (cs, g) => Node k cs :: g | None => [] end.
Definition keyword_ok (w : option (list elem)) : Prop := match w with Some g => blank g | None => True end.
Definition noded_ok (w : option (list elem * list elem)) : Prop :=
  match w with Some (cs, g) => solid cs /\ blank g | None => True end.
Definition generics_ok (w : option (list elem)) : Prop := match w with Some cs => solid cs | None => True end.
Definition generics (w : option (list elem)) : list elem :=
  match w with Some cs => [Node GENERIC_PARAM_LIST cs] | None => [] end.
(** Attributes, comments and white space in front of an item; an ink! item has an attribute. *)
Definition front_ok (l : list elem) : Prop :=
  Forall (fun e => (exists cs, e = Node ATTR cs /\ solid cs) \/ (exists k s, e = Tok k s /\ is_trivia k = true /\ s <> [])) l
  /\ exists cs, In (Node ATTR cs) l.

(** ** Functions *)

(** A parameter: the receiver ([self] in one of its forms) or another one. *)
Definition param_ok (e : elem) : Prop :=
  exists k cs, e = Node k cs /\ (k = SELF_PARAM \/ k = PARAM) /\ solid cs
    /\ (forall s r, leaves_of cs <> (COMMA, s) :: r) /\ (forall s r, leaves_of cs <> r ++ [(COMMA, s)]).
(** [params items body]: [body] stands between the parentheses and lists [items]. *)
Inductive params : list elem -> list elem -> Prop :=
  | params_none t : blank t -> params [] t
  | params_last e t1 t2 : param_ok e -> blank t1 -> blank t2 -> params [e] (t1 ++ e :: t2)
  | params_comma e t1 t2 t3 : param_ok e -> blank t1 -> blank t2 -> blank t3 -> params [e] (t1 ++ e :: t2 ++ comma :: t3)
  | params_more e t1 t2 f l body : param_ok e -> blank t1 -> blank t2 -> params (f :: l) body ->
      params (e :: f :: l) (t1 ++ e :: t2 ++ comma :: body).
(** Only the first parameter can be a receiver. *)
Definition receiver_first (items : list elem) : Prop :=
  match items with [] => True | _ :: r => Forall (fun e => kind_of e = PARAM) r end.

(** How a function ends: with a body or a semicolon. *)
Inductive fn_end := WithBody (stmts : list elem) | WithoutBody.
Definition ending (e : fn_end) : list elem :=
  match e with
  | WithBody l => [Node BLOCK_EXPR [Node STMT_LIST (Tok L_CURLY (lit "{") :: l)]]
  | WithoutBody => [Tok SEMICOLON (lit ";")]
  end.

Record fn_src := FnSrc {
  f_front : list elem;
  f_vis : option (list elem * list elem);
  f_default : option (list elem); f_const : option (list elem); f_async : option (list elem); f_unsafe : option (list elem);
  f_abi : option (list elem * list elem);
  f_name : list elem;                     (* the name with the white space around it *)
  f_generics : option (list elem);
  f_gap : list elem;
  f_params : list elem;                   (* between the parentheses *)
  f_params_gap : list elem;
  f_ret : option (list elem * list elem); (* [-> type] *)
  f_where : option (list elem * list elem);
  f_end : fn_end }.

Definition WHERE_CLAUSE := OTHER 125.
Definition fn_parts (s : fn_src) : list elem :=
  noded VISIBILITY (f_vis s)
  ++ keyword DEFAULT_KW (lit "default") (f_default s) ++ keyword CONST_KW (lit "const") (f_const s)
  ++ keyword ASYNC_KW (lit "async") (f_async s) ++ keyword UNSAFE_KW (lit "unsafe") (f_unsafe s)
  ++ noded ABI (f_abi s) ++ Tok FN_KW (lit "fn") :: f_name s ++ generics (f_generics s) ++ f_gap s
  ++ Node PARAM_LIST (Tok L_PAREN (lit "(") :: f_params s ++ [Tok R_PAREN (lit ")")]) :: f_params_gap s
  ++ noded RET_TYPE (f_ret s) ++ noded WHERE_CLAUSE (f_where s) ++ ending (f_end s).
Definition fn_children (s : fn_src) : list elem := f_front s ++ fn_parts s.
Definition fn_tree (s : fn_src) : elem := Node FN (fn_children s).

(** The return type of [-> type]: the only type node among the children. *)
Definition ret_ok (w : option (list elem * list elem)) : Prop :=
  match w with
  | Some (cs, _) => exists a ty b, cs = a ++ ty :: b /\ is_tok ty = false /\ is_type (kind_of ty) = true
                      /\ Forall (fun e => is_tok e = true \/ is_type (kind_of e) = false) a /\ tokens_ok [ty]
  | None => True
  end.
Definition name_ok (l : list elem) : Prop :=
  exists g n h, l = g ++ Node NAME [Tok IDENT n] :: h /\ blank g /\ blank h /\ n <> [].
(** Doc comments stand in front of the function only. *)
Definition no_docs (l : list elem) : Prop := Forall (fun e => forall c, e = Tok COMMENT c -> is_doc c = false) l.
Definition end_ok (e : fn_end) : Prop := match e with WithBody l => tokens_ok l | WithoutBody => True end.
Definition fn_ok (s : fn_src) (items : list elem) : Prop :=
  front_ok (f_front s) /\ noded_ok (f_vis s) /\ keyword_ok (f_default s) /\ keyword_ok (f_const s) /\ keyword_ok (f_async s)
  /\ keyword_ok (f_unsafe s) /\ noded_ok (f_abi s) /\ name_ok (f_name s) /\ generics_ok (f_generics s) /\ blank (f_gap s)
  /\ params items (f_params s) /\ receiver_first items /\ blank (f_params_gap s)
  /\ noded_ok (f_ret s) /\ ret_ok (f_ret s) /\ noded_ok (f_where s) /\ end_ok (f_end s) /\ no_docs (fn_parts s).

(** A file with the item between [pre] and [post], its tokens and the item in its place. *)
Definition in_file (pre : list (skind * str)) (e : elem) (post : list (skind * str)) : str := text (pre ++ leaves e ++ post).
Definition file_leaves (pre : list (skind * str)) (e : elem) (post : list (skind * str)) : list ArgEditModel.leaf :=
  ArgEditModel.place_leaves 0 (pre ++ leaves e ++ post).
Definition at_place (pre : list (skind * str)) (e : elem) : lelem := (bytes (text pre), e).

(** *** The rules *)

Definition yes (b : bool) (r : rule) : list rule := if b then [r] else [].
(** A visibility other than [pub] *)
Definition restricted (w : option (list elem * list elem)) : bool :=
  match w with Some (cs, _) => negb (str_eqb (texts_of cs) pub) | None => false end.
Definition has_tok (k : skind) (e : elem) : bool :=
  match e with Node _ cs => existsb (fun c => is_tok c && skind_eqb (kind_of c) k) cs | Tok _ _ => false end.
Definition is_receiver (e : elem) : bool := skind_eqb (kind_of e) SELF_PARAM.
(** A parameter with [...] *)
Definition variadic (e : elem) : bool := skind_eqb (kind_of e) PARAM && has_tok DOT3 e.
(** The type after [->] *)
Definition returned (w : option (list elem * list elem)) : option elem :=
  match w with
  | Some (cs, _) => find (fun e => negb (is_tok e) && is_type (kind_of e)) cs
  | None => None
  end.
Definition by_reference (items : list elem) : bool :=
  match items with e :: _ => is_receiver e && has_tok AMP e | [] => false end.

(** What every function may not have *)
Definition fn_broken (s : fn_src) (items : list elem) : list rule :=
  yes (is_some (f_generics s)) RGenerics ++ yes (is_some (f_const s)) RConst ++ yes (is_some (f_async s)) RAsync
  ++ yes (is_some (f_unsafe s)) RUnsafe ++ yes (is_some (f_abi s)) RAbi
  ++ map (fun _ => RVariadic) (filter variadic items).
Definition broken (e : fn_entity) (s : fn_src) (items : list elem) : list rule :=
  match e with
  | EConstructor =>
      yes (restricted (f_vis s)) RVisibility ++ fn_broken s items
      ++ yes (existsb is_receiver items) RNoReceiver ++ yes (negb (is_some (f_ret s))) RReturn
  | EMessage =>
      yes (restricted (f_vis s)) RVisibility ++ fn_broken s items
      ++ yes (negb (by_reference items)) RReceiver
      ++ yes (match returned (f_ret s) with Some ty => str_eqb (text_of ty) (lit "Self") | None => false end) RReturnSelf
  | EExtension => fn_broken s items ++ yes (existsb is_receiver items) RNoReceiver
  end.

(** *** What a report marks *)

(** From the first token after the attributes and comments to the start of the body, or to the semicolon *)
Definition declaration (s : fn_src) : list elem :=
  noded VISIBILITY (f_vis s)
  ++ keyword DEFAULT_KW (lit "default") (f_default s) ++ keyword CONST_KW (lit "const") (f_const s)
  ++ keyword ASYNC_KW (lit "async") (f_async s) ++ keyword UNSAFE_KW (lit "unsafe") (f_unsafe s)
  ++ noded ABI (f_abi s) ++ Tok FN_KW (lit "fn") :: f_name s ++ generics (f_generics s) ++ f_gap s
  ++ Node PARAM_LIST (Tok L_PAREN (lit "(") :: f_params s ++ [Tok R_PAREN (lit ")")]) :: f_params_gap s
  ++ noded RET_TYPE (f_ret s) ++ noded WHERE_CLAUSE (f_where s)
  ++ match f_end s with WithBody _ => [Tok L_CURLY (lit "{")] | WithoutBody => [Tok SEMICOLON (lit ";")] end.
(** The tokens the report of a rule marks *)
Inductive marked (s : fn_src) (items : list elem) : rule -> list (skind * str) -> Prop :=
  | md_vis cs g : f_vis s = Some (cs, g) -> marked s items RVisibility (leaves_of cs)
  | md_generics cs : f_generics s = Some cs -> marked s items RGenerics (leaves_of cs)
  | md_const : marked s items RConst [(CONST_KW, lit "const")]
  | md_async : marked s items RAsync [(ASYNC_KW, lit "async")]
  | md_unsafe : marked s items RUnsafe [(UNSAFE_KW, lit "unsafe")]
  | md_abi cs g : f_abi s = Some (cs, g) -> marked s items RAbi (leaves_of cs)
  | md_variadic cs t : In (Node PARAM cs) items -> In (Tok DOT3 t) cs -> marked s items RVariadic [(DOT3, t)]
  | md_no_receiver e l : items = e :: l -> marked s items RNoReceiver (leaves e)
  | md_return : marked s items RReturn (leaves_of (declaration s))
  | md_receiver : marked s items RReceiver (leaves_of (declaration s))
  | md_return_self ty : returned (f_ret s) = Some ty -> marked s items RReturnSelf (leaves ty).
(** The range of these tokens of the item *)
Definition marks (pre : list (skind * str)) (item : elem) (part : list (skind * str)) (r : trange) : Prop :=
  exists a b, leaves item = a ++ part ++ b /\ r = (bytes (text (pre ++ a)), bytes (text (pre ++ a ++ part))).

(** *** Functions with one part changed *)
Definition set_vis w s := FnSrc (f_front s) w (f_default s) (f_const s) (f_async s) (f_unsafe s) (f_abi s) (f_name s)
  (f_generics s) (f_gap s) (f_params s) (f_params_gap s) (f_ret s) (f_where s) (f_end s).
Definition no_const s := FnSrc (f_front s) (f_vis s) (f_default s) None (f_async s) (f_unsafe s) (f_abi s) (f_name s)
  (f_generics s) (f_gap s) (f_params s) (f_params_gap s) (f_ret s) (f_where s) (f_end s).
Definition no_async s := FnSrc (f_front s) (f_vis s) (f_default s) (f_const s) None (f_unsafe s) (f_abi s) (f_name s)
  (f_generics s) (f_gap s) (f_params s) (f_params_gap s) (f_ret s) (f_where s) (f_end s).
Definition no_unsafe s := FnSrc (f_front s) (f_vis s) (f_default s) (f_const s) (f_async s) None (f_abi s) (f_name s)
  (f_generics s) (f_gap s) (f_params s) (f_params_gap s) (f_ret s) (f_where s) (f_end s).
Definition without_abi s := FnSrc (f_front s) (f_vis s) (f_default s) (f_const s) (f_async s) (f_unsafe s) None (f_name s)
  (f_generics s) (f_gap s) (f_params s) (f_params_gap s) (f_ret s) (f_where s) (f_end s).
Definition without_generics s := FnSrc (f_front s) (f_vis s) (f_default s) (f_const s) (f_async s) (f_unsafe s) (f_abi s) (f_name s)
  None (f_gap s) (f_params s) (f_params_gap s) (f_ret s) (f_where s) (f_end s).
Definition set_params p s := FnSrc (f_front s) (f_vis s) (f_default s) (f_const s) (f_async s) (f_unsafe s) (f_abi s) (f_name s)
  (f_generics s) (f_gap s) p (f_params_gap s) (f_ret s) (f_where s) (f_end s).
Definition set_ret g w s := FnSrc (f_front s) (f_vis s) (f_default s) (f_const s) (f_async s) (f_unsafe s) (f_abi s) (f_name s)
  (f_generics s) (f_gap s) (f_params s) g w (f_where s) (f_end s).

Definition pub_only : list elem := [Tok (OTHER 108) (lit "pub")].
Definition blank_one : elem := Tok WHITESPACE (lit " ").
(** [-> Self] *)
Definition arrow_self : list elem := [Tok (OTHER 109) (lit "->"); blank_one; Node (OTHER 135) [Tok IDENT (lit "Self")]].
(** [&self] and [&mut self] *)
Definition self_ref : elem := Node SELF_PARAM [Tok AMP (lit "&"); Node NAME [Tok IDENT (lit "self")]].
Definition self_mut : elem := Node SELF_PARAM [Tok AMP (lit "&"); Tok (OTHER 126) (lit "mut"); blank_one; Node NAME [Tok IDENT (lit "self")]].

(** [repaired r s items s' items']: the second function is the first one changed so that it keeps rule [r], with
    nothing else changed but white space and commas. *)
Inductive repaired : rule -> fn_src -> list elem -> fn_src -> list elem -> Prop :=
  | rp_pub cs g s items : f_vis s = Some (cs, g) -> repaired RVisibility s items (set_vis (Some (pub_only, g)) s) items
  | rp_inherited s items : repaired RVisibility s items (set_vis None s) items
  | rp_generics s items : repaired RGenerics s items (without_generics s) items
  | rp_const s items : repaired RConst s items (no_const s) items
  | rp_async s items : repaired RAsync s items (no_async s) items
  | rp_unsafe s items : repaired RUnsafe s items (no_unsafe s) items
  | rp_abi s items : repaired RAbi s items (without_abi s) items
  | rp_variadic s i e items p : nth_error items i = Some e -> variadic e = true ->
      repaired RVariadic s items (set_params p s) (without i items)
  | rp_no_receiver s e items p : is_receiver e = true -> repaired RNoReceiver s (e :: items) (set_params p s) items
  | rp_return s items : repaired RReturn s items (set_ret [blank_one] (Some (arrow_self, f_params_gap s)) s) items
  | rp_receiver s e items p : e = self_ref \/ e = self_mut -> repaired RReceiver s items (set_params p s) (e :: items)
  | rp_return_self s items : repaired RReturnSelf s items (set_ret (f_params_gap s) None s) items.

(** The fixes that work: those of a function without a receiver, and of [...] without a name *)
Definition simple (items : list elem) (r : rule) : Prop :=
  match r with
  | RReceiver => existsb is_receiver items = false
  | RVariadic => forall e, In e items -> variadic e = true -> exists t, e = Node PARAM [Tok DOT3 t]
  | _ => True
  end.

(** The second list is the first one without one occurrence of [r]. *)
Definition drops (r : rule) (l l' : list rule) : Prop := exists l1 l2, l = l1 ++ r :: l2 /\ l' = l1 ++ l2.

(** The quick fix is one edit with this effect. *)
Definition effect (file : str) (fix_ : list text_edit) (result : str) : Prop := exists e, fix_ = [e] /\ applied file e result.

(** A function all of whose fixes work *)
Definition plain (e : fn_entity) (items : list elem) : Prop :=
  (forall x, In x items -> variadic x = true -> exists t, x = Node PARAM [Tok DOT3 t])
  /\ (e = EMessage -> by_reference items = true \/ existsb is_receiver items = false).
(** [ends_clean e pre post n s items]: whichever fixes are applied one after the other to the function, each
    application leads to a function again, and after [n] of them nothing is reported any more. *)
Inductive ends_clean (e : fn_entity) (pre post : list (skind * str)) : nat -> fn_src -> list elem -> Prop :=
  | ec_clean s items : fn_diags e (file_leaves pre (fn_tree s) post) (at_place pre (fn_tree s)) = Done [] ->
      ends_clean e pre post 0 s items
  | ec_step n s items ds : fn_diags e (file_leaves pre (fn_tree s) post) (at_place pre (fn_tree s)) = Done ds -> ds <> [] ->
      (forall d, In d ds -> rd_fixes d <> []) ->
      (forall d fx, In d ds -> In fx (rd_fixes d) ->
         exists s' items', fn_ok s' items' /\ effect (in_file pre (fn_tree s) post) fx (in_file pre (fn_tree s') post)
           /\ ends_clean e pre post n s' items') ->
      ends_clean e pre post (S n) s items.

(** *** The visibility of the functions of an impl block *)
Definition is_pub (w : option (list elem * list elem)) : bool :=
  match w with Some (cs, _) => str_eqb (texts_of cs) pub | None => false end.
Definition vis_broken (of_trait : bool) (s : fn_src) : list rule :=
  if of_trait then yes (is_some (f_vis s)) RInherited else yes (negb (is_pub (f_vis s))) RPub.
(** What is marked: the visibility, or else the declaration *)
Definition vis_marked (s : fn_src) : list (skind * str) :=
  match f_vis s with Some (cs, _) => leaves_of cs | None => leaves_of (declaration s) end.
(** The function with the visibility the fix gives it *)
Definition vis_fixed (of_trait : bool) (s : fn_src) : fn_src :=
  if of_trait then set_vis None s
  else set_vis (Some (pub_only, match f_vis s with Some (_, g) => g | None => [blank_one] end)) s.

(** ** Other items: traits, structs and impl blocks *)

(** An item up to its bounds, and what follows *)
Record item_src := ItemSrc {
  i_front : list elem; i_vis : option (list elem * list elem);
  i_default : option (list elem); i_unsafe : option (list elem); i_auto : option (list elem);
  i_name : list elem; i_generics : option (list elem); i_gap : list elem;
  i_bounds : option (list elem * list elem * list elem);   (* after the colon, the bounds, after them *)
  i_rest : list elem }.
Definition bounds (w : option (list elem * list elem * list elem)) : list elem :=
  match w with Some (g, cs, h) => Tok COLON (lit ":") :: g ++ Node TYPE_BOUND_LIST cs :: h | None => [] end.
Definition item_keyword (e : item_entity) : elem :=
  match e with ITrait => Tok TRAIT_KW (lit "trait") | IEvent => Tok STRUCT_KW (lit "struct") | IImpl => Tok IMPL_KW (lit "impl") end.
Definition item_kind (e : item_entity) : skind := match e with ITrait => TRAIT | IEvent => STRUCT | IImpl => IMPL end.
Definition item_children (e : item_entity) (s : item_src) : list elem :=
  i_front s ++ noded VISIBILITY (i_vis s) ++ keyword DEFAULT_KW (lit "default") (i_default s)
  ++ keyword UNSAFE_KW (lit "unsafe") (i_unsafe s) ++ keyword AUTO_KW (lit "auto") (i_auto s)
  ++ item_keyword e :: i_name s ++ generics (i_generics s) ++ i_gap s ++ bounds (i_bounds s) ++ i_rest s.
Definition item_tree (e : item_entity) (s : item_src) : elem := Node (item_kind e) (item_children e s).
Definition bounds_ok (w : option (list elem * list elem * list elem)) : Prop :=
  match w with Some (g, cs, h) => blank g /\ tokens_ok cs /\ blank h | None => True end.
(** What the rest of an item contains is not one of the parts above. *)
Definition rest_ok (l : list elem) : Prop :=
  forall e, In e l -> ~ In (kind_of e) [VISIBILITY; DEFAULT_KW; UNSAFE_KW; AUTO_KW; GENERIC_PARAM_LIST; TYPE_BOUND_LIST; COLON].
Definition gap_name_ok (l : list elem) : Prop := blank l \/ name_ok l.
Definition fronts (l : list elem) : Prop :=
  Forall (fun e => (exists cs, e = Node ATTR cs) \/ (exists k s, e = Tok k s /\ is_trivia k = true)) l.
(** Which parts an item can have *)
Definition shape (e : item_entity) (s : item_src) : Prop :=
  match e with
  | ITrait => i_default s = None
  | IEvent => i_default s = None /\ i_unsafe s = None /\ i_auto s = None /\ i_bounds s = None
  | IImpl => i_vis s = None /\ i_auto s = None /\ i_bounds s = None
  end.
Definition item_ok (e : item_entity) (s : item_src) : Prop :=
  fronts (i_front s) /\ noded_ok (i_vis s) /\ keyword_ok (i_default s) /\ keyword_ok (i_unsafe s) /\ keyword_ok (i_auto s)
  /\ gap_name_ok (i_name s) /\ generics_ok (i_generics s) /\ blank (i_gap s) /\ bounds_ok (i_bounds s) /\ rest_ok (i_rest s)
  /\ shape e s.

Definition item_broken (e : item_entity) (s : item_src) : list rule :=
  match e with
  | ITrait => yes (is_some (i_unsafe s)) RUnsafe ++ yes (is_some (i_auto s)) RAuto ++ yes (is_some (i_generics s)) RGenerics
              ++ yes (negb (is_pub (i_vis s))) RPub ++ yes (is_some (i_bounds s)) RSupertraits
  | IEvent => yes (negb (is_pub (i_vis s))) RPub ++ yes (is_some (i_generics s)) RGenerics
  | IImpl => yes (is_some (i_default s)) RDefault ++ yes (is_some (i_unsafe s)) RUnsafe ++ yes (is_some (i_generics s)) RGenerics
  end.
Inductive item_marked (e : item_entity) (s : item_src) : rule -> list (skind * str) -> Prop :=
  | im_unsafe : item_marked e s RUnsafe [(UNSAFE_KW, lit "unsafe")]
  | im_auto : item_marked e s RAuto [(AUTO_KW, lit "auto")]
  | im_default : item_marked e s RDefault [(DEFAULT_KW, lit "default")]
  | im_generics cs : i_generics s = Some cs -> item_marked e s RGenerics (leaves_of cs)
  | im_vis cs g : i_vis s = Some (cs, g) -> item_marked e s RPub (leaves_of cs)
  | im_no_vis : i_vis s = None -> item_marked e s RPub (leaves (item_tree e s))
  | im_bounds g cs h : i_bounds s = Some (g, cs, h) -> item_marked e s RSupertraits ((COLON, lit ":") :: leaves_of g ++ leaves_of cs).
(** The item changed so that it keeps the rule *)
Definition item_fixed (r : rule) (s : item_src) : item_src :=
  match r with
  | RUnsafe => ItemSrc (i_front s) (i_vis s) (i_default s) None (i_auto s) (i_name s) (i_generics s) (i_gap s) (i_bounds s) (i_rest s)
  | RAuto => ItemSrc (i_front s) (i_vis s) (i_default s) (i_unsafe s) None (i_name s) (i_generics s) (i_gap s) (i_bounds s) (i_rest s)
  | RDefault => ItemSrc (i_front s) (i_vis s) None (i_unsafe s) (i_auto s) (i_name s) (i_generics s) (i_gap s) (i_bounds s) (i_rest s)
  | RGenerics => ItemSrc (i_front s) (i_vis s) (i_default s) (i_unsafe s) (i_auto s) (i_name s) None (i_gap s) (i_bounds s) (i_rest s)
  | RPub => ItemSrc (i_front s) (Some (pub_only, match i_vis s with Some (_, g) => g | None => [blank_one] end))
              (i_default s) (i_unsafe s) (i_auto s) (i_name s) (i_generics s) (i_gap s) (i_bounds s) (i_rest s)
  | RSupertraits => ItemSrc (i_front s) (i_vis s) (i_default s) (i_unsafe s) (i_auto s) (i_name s) (i_generics s)
              (i_gap s ++ match i_bounds s with Some (_, _, h) => h | None => [] end) None (i_rest s)
  | _ => s
  end.

(** *** The items of a trait *)

(** What is reported for an item: the rule and the part that is marked and removed *)
Definition assoc_broken (c : elem) : option rule :=
  match c with
  | Tok _ _ => None
  | Node k cs => if skind_eqb k CONST then Some RAssocConst else if skind_eqb k MACRO_CALL then Some RAssocMacro
                 else if skind_eqb k TYPE_ALIAS then Some RAssocType
                 else if skind_eqb k FN && existsb (fun x => negb (is_tok x) && skind_eqb (kind_of x) BLOCK_EXPR) cs then Some RBody else None
  end.
(** The indices of the children that are reported, in their order *)
Definition reported_at (cs : list elem) : list nat :=
  filter (fun i => match nth_error cs i with Some c => is_some (assoc_broken c) | None => false end) (seq 0 (length cs)).
Definition is_block (e : elem) : bool := negb (is_tok e) && skind_eqb (kind_of e) BLOCK_EXPR.
(** [assoc_fix c part c']: the part of [c] that is marked, and what is left of [c] after the fix *)
Inductive assoc_fix : elem -> list (skind * str) -> list elem -> Prop :=
  | af_item c r : assoc_broken c = Some r -> r <> RBody -> assoc_fix c (leaves c) []
  | af_body u v w : forallb (fun e => negb (is_block e)) u = true ->
      assoc_fix (Node FN (u ++ Node BLOCK_EXPR v :: w)) (leaves_of v) [Node FN (u ++ w)].
(** A trait with these children of its item list *)
Definition trait_with (a cs b : list elem) : elem := Node TRAIT (a ++ Node ASSOC_ITEM_LIST cs :: b).
(** A report is about the child at this index: it marks the part of that child, and its fix leaves everything else *)
Definition assoc_report (pre post : list (skind * str)) (a cs b : list elem) (i : nat) (d : rdiag) : Prop :=
  exists x c y part c', cs = x ++ c :: y /\ length x = i /\ assoc_broken c = Some (rd_rule d) /\ assoc_fix c part c'
    /\ marks (pre ++ leaves_of a ++ leaves_of x) c part (rd_range d)
    /\ exists fx, rd_fixes d = [fx]
       /\ effect (in_file pre (trait_with a cs b) post) fx (in_file pre (trait_with a (x ++ c' ++ y) b) post).
