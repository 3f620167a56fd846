(** Model of the checks on implementations of ink! trait definitions:
    crates/analyzer/src/analysis/diagnostics/contract/ink_impl.rs L361-962. The texts of messages and labels are
    left out (the constructors below stand for them); ranges and edits are kept. *)
From Verif Require Import Base PositionModel TranslateModel VersionModel SyntaxModel AttrModel EditModel UtilModel SuggestModel
  ArgEditModel FlattenModel.

(** What the code reads from an [ast::Fn]: its range and declaration range; its name with the offset; its
    parameter list and return type (nodes with their offsets) and, from those, the texts of the self parameter,
    of the other parameters and of the returned type; its ink! attributes; the offsets where
    [first_ink_attribute_insert_offset] and [ink_attribute_insert_offset] put a new attribute. *)
Record fn_item := FnItem {
  fi_range : trange; fi_decl_range : trange;
  fi_name : option (nat * str);
  fi_params : option lelem; fi_self : option str; fi_other : list str;
  fi_ret : option lelem; fi_ret_ty : option str;
  fi_attrs : list ink_attr;
  fi_first_attr_offset : nat; fi_attr_offset : nat }.
Inductive assoc_item := AFn (f : fn_item) | AOther (range : trange).
(** A trait definition: its messages (the function of each, if it is one) and the functions of its item list. *)
Record trait_def := TraitDef { td_messages : list (option fn_item); td_methods : list fn_item }.
(** An [impl] item: its associated items, if it has an item list; its declaration range and end; the offset
    where [assoc_item_insert_offset_end] puts new items and the indentation of its children and of itself. *)
Record impl_item := ImplItem {
  im_items : option (list assoc_item);
  im_decl_range : trange; im_end : nat; im_insert : nat;
  im_children_indent : str; im_indent : option str }.

Definition fn_text (f : fn_item) : option str := option_map snd (fi_name f).
Definition name_range (n : nat * str) : trange := (fst n, fst n + bytes (snd n)).
Definition node_range (n : lelem) : trange := (lstart n, lend n).

(** [collect] into a [HashMap]: of several entries with the same key the last one stays. The order of
    [HashMap::values] is not determined: it is the parameter [ord] below. *)
Section HashMap.
  Context {K V : Type} (keqb : K -> K -> bool).
  Fixpoint hm_insert (m : list (K * V)) (k : K) (v : V) : list (K * V) :=
    match m with
    | [] => [(k, v)]
    | (k', v') :: m' => if keqb k k' then (k', v) :: m' else (k', v') :: hm_insert m' k v
    end.
  Definition hm_collect (l : list (K * V)) : list (K * V) :=
    fold_left (fun m kv => hm_insert m (fst kv) (snd kv)) l [].
  Fixpoint hm_get (m : list (K * V)) (k : K) : option V :=
    match m with
    | [] => None
    | (k', v) :: m' => if keqb k k' then Some v else hm_get m' k
    end.
End HashMap.

(** L374-386 [message_index] *)
Definition message_entry (m : option fn_item) : option (str * fn_item) :=
  obind m (fun f => obind (fn_text f) (fun n => match n with [] => None | _ => Some (n, f) end)).
Definition message_index (t : trait_def) : list (str * fn_item) :=
  hm_collect str_eqb (filter_map message_entry (td_messages t)).
(** L387-401 [method_names] *)
Definition method_names (t : trait_def) : list str := filter_map fn_text (td_methods t).
Definition has_str (s : str) (l : list str) : bool := existsb (str_eqb s) l.

(** analysis/utils.rs L2054-2061 [is_trivia_insensitive_eq] *)
Definition strip_top (n : lelem) : str :=
  match snd n with
  | Tok _ _ => []
  | Node _ cs => texts_of (filter (fun e => negb (is_trivia (kind_of e))) cs)
  end.
Definition trivia_insensitive_eq (a b : lelem) : bool := str_eqb (strip_top a) (strip_top b).

(** What is reported. *)
Inductive sig_part := PParams | PReturn.
Inductive impl_diag :=
  | DUndeclared (name : str) (range : trange) (fix_ : text_edit)
  | DNotMessage (range : trange) (fix_ : text_edit)
  | DMismatch (part : sig_part) (range : trange) (fix_ : text_edit)
  | DNotDeclared (part : sig_part) (range : trange) (fix_ : text_edit)
  | DMacroAttr (range : trange) (fix_ : text_edit)
  | DValueMissing (range : trange) (fix_ : text_edit)
  | DValueMismatch (range : trange) (fix_ : text_edit)
  | DExtraArg (range : trange) (fix_ : text_edit)
  | DMissingArgs (args : list ink_arg) (range : trange) (fix_ : list text_edit)
  | DMissing (range : trange) (fix_ : option text_edit).

(** L634-698 [verify_signature_part_match] *)
Definition verify_part (part : sig_part) (declared implemented : option lelem) (range replace : trange) : list impl_diag :=
  match declared, implemented with
  | Some d, i =>
      if match i with Some i => negb (trivia_insensitive_eq i d) | None => true end
      then [DMismatch part range (edit_replace (text_of (snd d)) replace)]
      else []
  | None, Some i => [DNotDeclared part (node_range i) (edit_delete (node_range i))]
  | None, None => []
  end.

(** L440-501: the signature of an implemented message against its declaration. *)
Definition signature_diags (f decl : fn_item) (n : nat * str) : list impl_diag :=
  let name_end := snd (name_range n) in
  let params_range := match fi_params f with Some p => node_range p | None => name_range n end in
  let params_replace := match fi_params f with Some p => node_range p | None => (name_end, name_end) end in
  let fallback := snd params_range in
  let ret_range := match fi_ret f with Some r => node_range r | None => (fst (name_range n), fallback) end in
  let ret_replace := match fi_ret f with Some r => node_range r | None => (fallback, fallback) end in
  verify_part PParams (fi_params decl) (fi_params f) params_range params_replace
  ++ verify_part PReturn (fi_ret decl) (fi_ret f) ret_range ret_replace.

(** ** ink! arguments of an implemented message *)

(** L707-713 *)
Definition allowed_kinds (v : version) : list arg_kind := AMessage :: sibling_args (AkArg AMessage) v.
Definition has_kind (k : arg_kind) (l : list arg_kind) : bool := existsb (arg_kind_eqb k) l.
(** [ink_analyzer_ir::ink_args] of a function *)
Definition fn_args (f : fn_item) : list ink_arg := flat_map at_args (fi_attrs f).
(** L716-720 [ink_arg_index] *)
Definition arg_index (decl : fn_item) : list (arg_kind * ink_arg) :=
  hm_collect arg_kind_eqb
    (filter_map (fun a => if arg_kind_eqb (ia_kind a) AUnknown then None else Some (ia_kind a, a)) (fn_args decl)).
(** [MetaNameValue::value] *)
Definition arg_value (a : ink_arg) : option mvalue := mo_ok (m_value a).
(** value.rs L235-243 [trivia_insensitive_eq] *)
Definition same_value_text (a b : mvalue) : bool :=
  let strip := fun v => texts_of (map snd (non_trivia (mv_elements v))) in
  str_eqb (strip a) (strip b).

(** L734-783: an argument the declaration has too. *)
Definition shared_arg_diags (a decl : ink_arg) : outcome (list impl_diag) :=
  match arg_value decl with
  | None => Done []
  | Some vd =>
      if match value_kind (ia_kind a) with VNone => true | _ => false end then Done [] else
      match arg_value a with
      | None => obind_o (meta_range a) (fun r => Done [DValueMissing r (edit_replace (meta_str decl) r)])
      | Some v =>
          if same_value_text v vd then Done []
          else obind_o (meta_range a) (fun r => Done [DValueMismatch r (edit_replace (meta_str decl) r)])
      end
  end.
(** L784-806: an argument the declaration lacks. *)
Definition extra_arg_diags (toks : list leaf) (attr : ink_attr) (a : ink_arg) : outcome (list impl_diag) :=
  obind_o (arg_removal_range toks a (Some attr)) (fun er =>
  obind_o (meta_range a) (fun r => Done [DExtraArg r (edit_delete er)])).
(** L731-808 *)
Definition is_macro_attr (a : ink_attr) : bool := match at_kind a with AkMacro _ => true | AkArg _ => false end.
Definition one_arg_diags (toks : list leaf) (index : list (arg_kind * ink_arg)) (attr : ink_attr) (a : ink_arg)
  : outcome (list impl_diag) :=
  match hm_get arg_kind_eqb index (ia_kind a) with
  | Some decl => shared_arg_diags a decl
  | None => if is_macro_attr attr then Done [] else extra_arg_diags toks attr a
  end.
Definition oflat {A} (o : outcome (list (list A))) : outcome (list A) := obind_o o (fun l => Done (concat l)).
(** L722-809 *)
Definition attr_diags (toks : list leaf) (index : list (arg_kind * ink_arg)) (attr : ink_attr) : outcome (list impl_diag) :=
  obind_o (oflat (all_done (map (one_arg_diags toks index attr) (at_args attr)))) (fun l =>
  Done ((if is_macro_attr attr then [DMacroAttr (at_range attr) (edit_delete (at_range attr))] else []) ++ l)).

(** L811-817: the missing arguments, in order. [ord]: order of [HashMap::values]. *)
Definition missing_args (v : version) (ord : list (arg_kind * ink_arg) -> list (arg_kind * ink_arg))
    (f decl : fn_item) : list ink_arg :=
  let index := arg_index decl in
  let seen := filter (fun k => is_some (hm_get arg_kind_eqb index k)) (map ia_kind (fn_args f)) in
  stable_sort (fun a => arg_rank (ia_kind a))
    (filter (fun a => negb (has_kind (ia_kind a) seen) && has_kind (ia_kind a) (allowed_kinds v)) (map snd (ord index))).
Definition join_args (l : list ink_arg) : str := join (lit ", ") (map meta_str l).
(** L820-826: the attribute to extend. *)
Definition extendable (v : version) (f : fn_item) : option ink_attr :=
  hd_error (stable_sort (fun a => attr_rank (at_kind a))
    (filter (fun a => match at_kind a with AkArg k => has_kind k (allowed_kinds v) | AkMacro _ => false end) (fi_attrs f))).
(** L835-924: the edits that add the missing arguments [first :: rest]; [rb]: the closing bracket of an attribute. *)
Definition missing_args_edits (toks : list leaf) (rb : ink_attr -> option leaf) (v : version) (f : fn_item)
    (first : ink_arg) (rest : list ink_arg) : outcome (list text_edit) :=
  let is_message := arg_kind_eqb (ia_kind first) AMessage in
  let fallback :=
    [edit_insert (lit "#[ink(" ++ join_args (first :: rest) ++ lit ")]")
                 (if is_message then fi_first_attr_offset f else fi_attr_offset f)] in
  match extendable v f with
  | None => Done fallback
  | Some attr =>
      let tt := as_token_tree (at_syntax attr) in
      if is_message then
        obind_o (first_arg_insert_place (at_args attr) (rb attr) tt) (fun p =>
        match p with
        | None => Done fallback
        | Some p =>
            match join_args rest with
            | [] => Done [insert_edit p (meta_str first)]
            | others =>
                match arg_insert_place toks (rb attr) tt false with
                | Some q => Done [insert_edit p (meta_str first); insert_edit q others]
                | None => Done [insert_edit p (join (lit ", ") [meta_str first; others])]
                end
            end
        end)
      else
        match arg_insert_place toks (rb attr) tt false with
        | Some q => Done [insert_edit q (join_args (first :: rest))]
        | None => Done fallback
        end
  end.
(** L701-942 [ensure_trait_definition_impl_message_args] *)
Definition message_arg_diags (toks : list leaf) (rb : ink_attr -> option leaf) (v : version)
    (ord : list (arg_kind * ink_arg) -> list (arg_kind * ink_arg)) (f decl : fn_item) : outcome (list impl_diag) :=
  obind_o (oflat (all_done (map (attr_diags toks (arg_index decl)) (fi_attrs f)))) (fun l =>
  match missing_args v ord f decl with
  | [] => Done l
  | first :: rest =>
      obind_o (missing_args_edits toks rb v f first rest) (fun edits =>
      Done (l ++ [DMissingArgs (first :: rest) (fi_decl_range f) edits]))
  end).

(** ** The whole check *)

(** L405-526: one associated item. *)
Definition item_diags (toks : list leaf) (rb : ink_attr -> option leaf) (v : version)
    (ord_args : list (arg_kind * ink_arg) -> list (arg_kind * ink_arg)) (t : trait_def) (i : assoc_item)
  : outcome (list impl_diag) :=
  match i with
  | AOther r => Done [DNotMessage r (edit_delete r)]
  | AFn f =>
      match fi_name f with
      | None => Done []
      | Some n =>
          match hm_get str_eqb (message_index t) (snd n) with
          | None => if has_str (snd n) (method_names t) then Done []
                    else Done [DUndeclared (snd n) (fi_range f) (edit_delete (fi_range f))]
          | Some decl =>
              obind_o (message_arg_diags toks rb v ord_args f decl) (fun l => Done (l ++ signature_diags f decl n))
          end
      end
  end.

(** The names of the functions of an [impl]. *)
Definition impl_fn_names (i : impl_item) : list str :=
  match im_items i with
  | Some l => filter_map (fun x => match x with AFn f => fn_text f | AOther _ => None end) l
  | None => []
  end.
(** L528-540: the missing messages. [seen_messages] holds the names of the functions of the [impl] that are in
    the index. *)
Definition missing_messages (ord : list (str * fn_item) -> list (str * fn_item)) (t : trait_def) (i : impl_item)
  : list fn_item :=
  let seen := filter (fun n => is_some (hm_get str_eqb (message_index t) n)) (impl_fn_names i) in
  filter (fun f => match fn_text f with
                   | Some (c :: n) => negb (has_str (c :: n) seen)
                   | _ => false
                   end) (map snd (ord (message_index t))).
(** L569-597: the stub of a function. *)
Definition opt_text (o : option str) : str := match o with Some s => s | None => [] end.
Definition fn_stub (body : str) (f : fn_item) : str :=
  let others := join (lit ", ") (fi_other f) in
  let params :=
    match fi_params f with
    | Some _ => opt_text (fi_self f)
                ++ (if is_some (fi_self f) && negb (str_eqb others []) then lit ", " else []) ++ others
    | None => []
    end in
  let ret := match fi_ret f with Some _ => fi_ret_ty f | None => None end in
  lit "fn " ++ opt_text (fn_text f) ++ lit "(" ++ params ++ lit ")"
  ++ (if is_some ret then lit " -> " else []) ++ opt_text ret
  ++ lit " {" ++ [c_nl] ++ lit "    " ++ body ++ [c_nl] ++ lit "}".
(** L565-609: the stubs of all missing messages (each of them has a name), in plain text. The snippet differs in
    the body only ([${1:todo!()}] ...). *)
Definition stubs (l : list fn_item) : str := join ([c_nl] ++ [c_nl]) (map (fn_stub (lit "todo!()")) l).
Definition snippet_body (i : nat) : str := lit "${" ++ dec (N.of_nat i) ++ lit ":todo!()}".
Fixpoint snippet_stubs_from (i : nat) (l : list fn_item) : list str :=
  match l with [] => [] | f :: l' => fn_stub (snippet_body i) f :: snippet_stubs_from (S i) l' end.
Definition snippet_stubs (l : list fn_item) : str := join ([c_nl] ++ [c_nl]) (snippet_stubs_from 1 l).
(** L610-619 [format_edit], with the prefix and suffix of L546-562 *)
Definition format_stubs (i : impl_item) (s : str) : str :=
  let indented := apply_indenting s (im_children_indent i) in
  match im_items i with
  | Some _ => indented
  | None => lit " {" ++ indented ++ opt_text (im_indent i) ++ lit "}"
  end.
(** L541-628 *)
Definition missing_diags (ord : list (str * fn_item) -> list (str * fn_item)) (t : trait_def) (i : impl_item) : list impl_diag :=
  match missing_messages ord t i with
  | [] => []
  | l =>
      let offset := match im_items i with Some _ => im_insert i | None => im_end i end in
      [DMissing (im_decl_range i)
         (Some (edit_insert_snippet (format_stubs i (stubs l)) offset (Some (format_stubs i (snippet_stubs l)))))]
  end.
(** L365-632 [ensure_trait_definition_impl_invariants], for an [impl] whose trait definition is found. *)
Definition trait_impl_diags (toks : list leaf) (rb : ink_attr -> option leaf) (v : version)
    (ord_args : list (arg_kind * ink_arg) -> list (arg_kind * ink_arg))
    (ord : list (str * fn_item) -> list (str * fn_item)) (t : trait_def) (i : impl_item) : outcome (list impl_diag) :=
  obind_o (oflat (all_done (map (item_diags toks rb v ord_args t)
                             (match im_items i with Some l => l | None => [] end)))) (fun l =>
  Done (l ++ missing_diags ord t i)).
