(** Model of crates/ir/src/selector.rs, of the selector checks of
    crates/analyzer/src/analysis/diagnostics/contract.rs, and of the id check of
    crates/analyzer/src/analysis/diagnostics/chain_extension.rs. *)
From Verif Require Import Base Unicode PositionModel VersionModel TranslateModel SyntaxModel AttrModel UtilModel EditModel
  TreeModel.

(** ** Selectors *)

(** selector.rs L29 [Selector]: four bytes *)
Definition selector := (N * N * N * N)%type.
(** [u32::to_be_bytes] and [u32::from_be_bytes] *)
Definition be_bytes (n : N) : selector :=
  ((n / 16777216) mod 256, (n / 65536) mod 256, (n / 256) mod 256, n mod 256)%N.
Definition be_u32 (s : selector) : N :=
  let '(a, b, c, d) := s in (a * 16777216 + b * 65536 + c * 256 + d)%N.
Definition selector_eqb (s t : selector) : bool :=
  let '(a, b, c, d) := s in let '(a', b', c', d') := t in
  N.eqb a a' && N.eqb b b' && N.eqb c c' && N.eqb d d'.

(** selector.rs L21 [IIP2_WILDCARD_COMPLEMENT_SELECTOR] *)
Definition complement_selector : selector := (0x9B, 0xAE, 0x9D, 0x5E)%N.

(** What the code reads from the trait path of an [impl]: the texts of its segments (a leading [::] belongs to the
    first one) and its whole text. *)
Record path_syntax := PathSyntax { ps_segments : list str; ps_text : str }.
(** The type after [impl]: a path type (whose path may be missing) or another type *)
Inductive trait_type := TyPath (p : option path_syntax) | TyOther.
(** The [impl] right around a [fn] (traits/ast_type.rs L37-42 [parent_impl_item]) *)
Record impl_block := ImplBlock { ib_trait : option trait_type; ib_attrs : list ink_attr }.
(** What the code reads from a callable: its ink! attributes; the name of its [fn] item, if it is one; the range of
    its declaration (analysis/utils.rs [ast_item_declaration_range]) and of its node; the [impl] around it. *)
Record callable := Callable {
  ca_attrs : list ink_attr;
  ca_name : option (str * trange);
  ca_decl : option trange;
  ca_range : trange;
  ca_impl : option impl_block }.

(** tree/utils.rs L105-118 [ink_args_by_kind], [ink_arg_by_kind] of a node with the given attributes *)
Definition args_by_kind (l : list ink_attr) (k : arg_kind) : list ink_arg := filter_map (find_kind k) l.
Definition arg_by_kind (l : list ink_attr) (k : arg_kind) : option ink_arg := find_map (find_kind k) l.

(** selector.rs L268-276 [SelectorArgKind] and L175-194 [SelectorArg::cast] *)
Inductive selector_kind := SkInteger | SkWildcard | SkComplement | SkOther.
Definition arg_value (a : ink_arg) : option mvalue := match m_value a with MOk v => Some v | _ => None end.
Definition selector_kind_of (a : ink_arg) : selector_kind :=
  match arg_value a with
  | Some v => match value_skind v with
              | Some INT_NUMBER => SkInteger
              | Some UNDERSCORE => SkWildcard
              | Some AT => SkComplement
              | _ => SkOther
              end
  | None => SkOther
  end.
Definition is_selector_arg (a : ink_arg) : bool := arg_kind_eqb (ia_kind a) ASelector.
Definition selector_cast (a : ink_arg) : option ink_arg := if is_selector_arg a then Some a else None.
(** selector.rs L217-221 [is_wildcard], L223-240 [is_wildcard_complement], L242-245 [as_u32] *)
Definition is_wildcard (a : ink_arg) : bool := match selector_kind_of a with SkWildcard => true | _ => false end.
Definition selector_u32 (a : ink_arg) : option N := obind (arg_value a) (value_int U32_MAX).
Definition is_complement (a : ink_arg) : bool :=
  match selector_kind_of a with
  | SkComplement => true
  | _ => match selector_u32 a with Some n => selector_eqb (be_bytes n) complement_selector | None => false end
  end.

(** traits/shared.rs L15-18 [selector_arg] *)
Definition selector_arg (c : callable) : option ink_arg := obind (arg_by_kind (ca_attrs c) ASelector) selector_cast.

(** selector.rs L105-109 [provided_int_selector] *)
Definition provided (c : callable) : option N := obind (selector_arg c) selector_u32.

(** selector.rs L121-150 [trait_ident]. [qualifier().coloncolon_token()] exists iff the path without its last
    segment is itself made of more than one segment. *)
Definition no_white (U : unicode) (s : str) : str := filter (fun c => negb (u_whitespace U c)) s.
Definition is_full_path (p : path_syntax) : bool := 3 <=? length (ps_segments p).
Definition trait_ident (U : unicode) (c : callable) : option str :=
  match obind (ca_impl c) ib_trait with
  | Some (TyPath (Some p)) =>
      let ident := if is_full_path p then no_white U (ps_text p)
                   else match last_opt (ps_segments p) with Some s => s | None => [] end in
      match ident with [] => None | _ => Some ident end
  | _ => None
  end.
(** selector.rs L153-161 [namespace] *)
Definition namespace (c : callable) : option str :=
  obind (obind (ca_impl c) (fun i => arg_by_kind (ib_attrs i) ANamespace))
        (fun a => obind (arg_value a) value_string).

(** [Itertools::join] with "::" *)
Fixpoint join_colons (l : list str) : str :=
  match l with [] => [] | [s] => s | s :: l' => s ++ lit "::" ++ join_colons l' end.
Definition flatten_opts {A} (l : list (option A)) : list A := filter_map (fun x => x) l.
(** The text that is hashed (selector.rs L59-65) *)
Definition pre_hash (U : unicode) (c : callable) (name : str) : str :=
  join_colons (flatten_opts [namespace c; trait_ident U c; Some name]).

(** selector.rs L37-90 [compose]; [hash]: the first four bytes of the BLAKE2b-256 hash of a text. *)
Definition compose (U : unicode) (hash : str -> selector) (c : callable) : option selector :=
  match provided c with
  | Some n => Some (be_bytes n)
  | None =>
      oor (obind (selector_arg c) (fun a => if is_complement a then Some complement_selector else None))
          (option_map (fun nr => hash (pre_hash U c (fst nr))) (ca_name c))
  end.

(** ** Overlapping selectors *)

(** The loops of contract.rs L287-360 and chain_extension.rs L419-473: the items whose id was seen before, each
    with the unique id taken for it; [used] is [unavailable_ids]. *)
Fixpoint overlap_loop {A} (max : N) (seen used : list N) (items : list (N * A)) : list (A * option N) :=
  match items with
  | [] => []
  | (id, x) :: items' =>
      if existsb (N.eqb id) seen then
        let (s, used') := suggest_unique_id_mut max None used in
        (x, match s with Found n => Some n | _ => None end) :: overlap_loop max (id :: seen) used' items'
      else overlap_loop max (id :: seen) used items'
  end.
(** contract.rs L244-255 [get_composed_selectors] and L266-286: one class of callables *)
Definition with_selectors (U : unicode) (hash : str -> selector) (cs : list callable) : list (N * callable) :=
  filter_map (fun c => option_map (fun s => (be_u32 s, c)) (compose U hash c)) cs.
Definition overlapping_selectors (U : unicode) (hash : str -> selector) (cs : list callable)
  : list (callable * option N) :=
  let l := with_selectors U hash cs in overlap_loop U32_MAX [] (map fst l) l.

(** contract.rs L293-355: the diagnostic of an overlapping callable: its range, whether its text is about values,
    and the edits of its quick fixes. *)
Record overlap_diag := OverlapDiag { od_range : trange; od_values : bool; od_fix : option text_edit }.
Definition arg_value_range (a : option ink_arg) : outcome (option trange) :=
  match obind a arg_value with
  | Some v => match value_range v with Done r => Done (Some r) | Panic => Panic end
  | None => Done None
  end.
Definition snippet_1 (s : str) : str := lit "${1:" ++ s ++ lit "}".
Definition id_edit (r : trange) (id : N) : text_edit := edit_replace_snippet (dec id) r (Some (snippet_1 (dec id))).
Definition name_edit (r : trange) (name : str) : text_edit :=
  edit_replace_snippet (name ++ lit "2") r (Some (snippet_1 (name ++ lit "2"))).
Definition selector_diag (c : callable) (id : option N) : outcome overlap_diag :=
  obind_o (arg_value_range (selector_arg c)) (fun vr =>
  let fix_ := match vr, id with
              | Some r, Some n => Some (id_edit r n)
              | _, _ => option_map (fun nr => name_edit (snd nr) (fst nr)) (ca_name c)
              end in
  Done (OverlapDiag
          (match oor vr (oor (option_map snd (ca_name c)) (ca_decl c)) with Some r => r | None => ca_range c end)
          (is_some vr) fix_)).

(** chain_extension.rs L388-476 [ensure_no_overlapping_ids]: the ids of the functions of a chain extension.
    traits/shared.rs L62-77 [id]: of kind [function] (ink! 5, 16 bits) or [extension] (ink! 4, 32 bits). *)
Definition id_max (v : version) : N := match v with V5 => U16_MAX | V4 => U32_MAX end.
Definition id_kind (v : version) : arg_kind := match v with V5 => AFunction | V4 => AExtension end.
Definition fn_id (v : version) (c : callable) : option N :=
  obind (obind (arg_by_kind (ca_attrs c) (id_kind v)) arg_value) (value_int (id_max v)).
Definition with_ids (v : version) (cs : list callable) : list (N * callable) :=
  filter_map (fun c => option_map (fun n => (n, c)) (fn_id v c)) cs.
Definition overlapping_ids (v : version) (cs : list callable) : list (callable * option N) :=
  let l := with_ids v cs in overlap_loop (id_max v) [] (map fst l) l.
Definition id_diag (v : version) (c : callable) (id : option N) : outcome overlap_diag :=
  obind_o (arg_value_range (arg_by_kind (ca_attrs c) (id_kind v))) (fun vr =>
  Done (OverlapDiag
          (match oor vr (option_map at_range (hd_error (ca_attrs c))) with Some r => r | None => ca_range c end)
          (is_some vr)
          (match vr, id with Some r, Some n => Some (id_edit r n) | _, _ => None end))).

(** ** Wildcards *)

(** contract.rs L364-377 [get_selector_args] *)
Definition selector_args (c : callable) : list ink_arg := filter_map selector_cast (args_by_kind (ca_attrs c) ASelector).
(** contract.rs L388-416 [ensure_at_most_one_wildcard_selector]: the arguments reported, for one class *)
Fixpoint wildcard_loop (seen : bool) (l : list ink_arg) : list ink_arg :=
  match l with
  | [] => []
  | a :: l' => if is_wildcard a then (if seen then [a] else []) ++ wildcard_loop true l' else wildcard_loop seen l'
  end.
Definition extra_wildcards (cs : list callable) : list ink_arg := wildcard_loop false (flat_map selector_args cs).

(** contract.rs L425-579 [validate_wildcard_complement_selector]: what is reported; for the report that a message
    may not stand beside the wildcard, the kind of its quick fix. *)
Inductive beside_fix := FixRemoveItem | FixReplaceSelector (a : ink_arg) | FixAddSelector.
Inductive wildcard_report :=
  | WNoOther
  | WSecondComplement (c : callable) (a : ink_arg)
  | WNotComplement (c : callable) (f : beside_fix)
  | WNoWildcard (c : callable) (a : ink_arg).
Definition has_wildcard (c : callable) : bool :=
  existsb (fun a => match arg_value a with Some v => value_is_wildcard v | None => false end)
    (args_by_kind (ca_attrs c) ASelector).
Definition complement_arg (c : callable) : option ink_arg := find is_complement (selector_args c).
Definition has_complement (c : callable) : bool :=
  existsb (fun a => match selector_cast a with Some s => is_complement s | None => false end)
    (args_by_kind (ca_attrs c) ASelector).
Fixpoint complement_loop (wildcard complement seen : bool) (l : list callable) : list wildcard_report :=
  match l with
  | [] => []
  | c :: l' =>
      let here :=
        if wildcard then
          match complement_arg c with
          | Some a => if seen then [WSecondComplement c a] else []
          | None => [WNotComplement c (if complement then FixRemoveItem
                                       else match selector_arg c with
                                            | Some a => FixReplaceSelector a
                                            | None => FixAddSelector
                                            end)]
          end
        else match complement_arg c with Some a => [WNoWildcard c a] | None => [] end in
      here ++ complement_loop wildcard complement (seen || is_some (complement_arg c)) l'
  end.
Definition complement_reports (messages : list callable) : list wildcard_report :=
  let wildcard := existsb has_wildcard messages in
  let complement := existsb has_complement messages in
  if negb wildcard && negb complement then []
  else
    let others := filter (fun c => negb (has_wildcard c)) messages in
    match others with
    | [] => if wildcard then [WNoOther] else []
    | _ => complement_loop wildcard complement false others
    end.
