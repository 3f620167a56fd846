(** What C100 means: what stands before the cursor in an attribute, and what is left after accepting a completion. *)
From Coq Require Import List.
From Verif Require Import Base Unicode PositionModel VersionModel TranslateModel SyntaxModel AttrModel EditSpec ArgEditSpec SuggestModel SuggestSpec ArgCheckModel HintModel ExtractSpec CompleteSpec FinishModel.
Import ListNotations.

(** The innermost attribute around something with the ancestors [up] *)
Definition in_attribute (up : list lelem) (a : lelem) (upa : list lelem) : Prop :=
  exists inner, up = inner ++ a :: upa /\ lkind a = ATTR /\ forall y, In y inner -> lkind y <> ATTR.

(** ** Macros *)

(** The words of some tokens: those which are no white space and no comments *)
Definition solid (l : list (skind * str)) : list str := map snd (filter (fun t => negb (is_trivia (fst t))) l).
Definition crate_name (s : str) : Prop := s = lit "ink" \/ s = lit "ink_e2e".
Definition colons (s : str) : Prop := s = lit "::" \/ s = lit ":".
Definition macro_path (m : macro_kind) : str := macro_crate m ++ lit "::" ++ macro_name m.
(** What has been written of the path of a macro, behind the bracket, before the word [w] at the cursor *)
Definition path_so_far (words : list str) (w : str) : Prop :=
  words = []
  \/ (exists c, words = [c] /\ crate_name c /\ colons w)
  \/ (exists c, words = [c; lit "::"] /\ crate_name c /\ ~ crate_name w /\ ~ colons w).
(** In a longer path, the text before the cursor is the beginning of the name. *)
Definition begins_name (words : list str) (p : str) (m : macro_kind) : Prop :=
  forall c, words = [c; lit "::"] -> exists rest, macro_name m = p ++ rest.
(** The enclosing ink! item allows the macro. *)
Definition allowed_in (v : version) (it : item) (m : macro_kind) : Prop :=
  it_scope it = [] \/ exists s, In s (it_scope it) /\ macro_belongs v m (at_kind s).
(** Rust items with the keyword can have the macro; without an item, it is a macro of that version. *)
Definition for_item (v : version) (keyword : option skind) (path : Prop) (m : macro_kind) : Prop :=
  match keyword with Some k => In k (macro_carriers v m) | None => path /\ macro_carriers v m <> [] end.

(** ** Keywords *)

(** A direct part of a node; a token among them *)
Definition part (e c : lelem) : Prop := exists k cs, snd e = Node k cs /\ In c (place (fst e) cs).
Definition has_token (k : skind) (e : lelem) : Prop := exists c, part e c /\ is_tok (snd c) = true /\ lkind c = k.
Definition item_words : list skind := [MOD_KW; TRAIT_KW; ENUM_KW; STRUCT_KW; UNION_KW; FN_KW; IMPL_KW].
Definition word_of (k : skind) : option skind :=
  match k with
  | MODULE => Some MOD_KW | TRAIT => Some TRAIT_KW | ENUM => Some ENUM_KW | STRUCT => Some STRUCT_KW | UNION => Some UNION_KW
  | FN => Some FN_KW | IMPL => Some IMPL_KW | _ => None
  end.
(** What may stand between an attribute without its closing bracket and the keyword of the item *)
Definition skippable (punct : skind -> bool) (t : skind * str) : Prop :=
  ~ In (fst t) item_words /\ (is_trivia (fst t) = true \/ punct (fst t) = true \/ fst t = PUB_KW).

(** ** Arguments *)

(** A place for an argument in a list: the arguments before it, each with its comma, and the rest of the list *)
Definition args_before (cs : list (list elem)) (b : list elem) : Prop := (cs = [] /\ blank b) \/ listed cs true b.
Definition args_behind (cs : list (list elem)) (trailing : bool) (b : list elem) : Prop :=
  (cs = [] /\ trailing = false /\ blank b)
  \/ (exists t2 t3, cs = [] /\ trailing = true /\ b = t2 ++ comma :: t3 /\ blank t2 /\ blank t3)
  \/ (exists t2 rest, cs <> [] /\ b = t2 ++ comma :: rest /\ blank t2 /\ listed cs trailing rest).
(** The arguments which take options, not values, and their options *)
Definition takes_options (k : arg_kind) : list arg_kind :=
  match k with ABackend => [ANode; ARuntimeOnly] | ANode => [AUrl] | ARuntimeOnly => [ASandbox] | _ => [] end.
(** The text of an argument when a comma or the end of the list follows *)
Definition arg_text (env : option str) (ids : arg_kind -> list N) (k : arg_kind) (txt : str) : Prop :=
  exists next, (next = COMMA \/ next = R_PAREN) /\ txt = fst (insert_text (InsertContext (Some next) env ids) k).
(** The edit writes the argument [k] between the arguments [before] and [behind]; all else stays. *)
Definition writes (pre post : list (skind * str)) (file : str) (before behind : list (list elem)) (trailing : bool)
    (env : option str) (ids : arg_kind -> list N) (e : text_edit) (k : arg_kind) : Prop :=
  exists txt, arg_text env ids k txt
    /\ forall new, argument new -> texts_of new = txt ->
       exists body, listed (before ++ new :: behind) trailing body /\ applied file e (file_text pre body post).

(** No argument that takes options is at the cursor. *)
Definition free_of_options (off : nat) (args : list ink_arg) : Prop :=
  forall m, In m (flat_map nested_chain args) -> exists r, meta_range m = Done r /\ (fst r <= off <= snd r -> takes_options (ia_kind m) = []).

(** The argument at the cursor, and the innermost of its options there *)
Definition known_at (off : nat) (m : ink_arg) : Prop :=
  ia_kind m <> AUnknown /\ (exists n, m_name m = MOk n) /\ exists r, meta_range m = Done r /\ fst r <= off <= snd r.
Definition not_at (off : nat) (m : ink_arg) : Prop :=
  exists r, meta_range m = Done r /\ (ia_kind m = AUnknown \/ ~ (fst r <= off <= snd r)).
Inductive innermost (off : nat) : ink_arg -> ink_arg -> Prop :=
  | in_self m : (forall n, m_nested m = Some n -> not_at off n) -> innermost off m m
  | in_nested m n a : m_nested m = Some n -> known_at off n -> innermost off n a -> innermost off m a.
(** The cursor is behind a parenthesis or a comma, or on the word behind it. *)
Definition begins_argument (root : elem) (x : lelem) : Prop :=
  lkind x = L_PAREN \/ lkind x = COMMA
  \/ exists A k t T B, leaves root = A ++ (k, t) :: T ++ (lkind x, text_of (snd x)) :: B /\ lstart x = bytes (text (A ++ (k, t) :: T))
       /\ (k = L_PAREN \/ k = COMMA) /\ forall y, In y T -> is_trivia (fst y) = true.
