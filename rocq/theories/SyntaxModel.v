(** Model of the syntax trees the analyzer reads (external crate ra_ap_syntax / rowan): tokens carry their
    text, nodes carry their children, and the text of a tree is the concatenation of its tokens.

    The parser itself is not modelled: theorems quantify over trees of this type. *)
From Verif Require Import Base PositionModel.

(** ra_ap_syntax [SyntaxKind], the kinds the modelled code distinguishes; every other kind is [OTHER n]. *)
Inductive skind :=
  (* tokens *)
  | WHITESPACE | COMMENT | COMMA | EQ | L_PAREN | R_PAREN | L_BRACK | R_BRACK | L_CURLY | R_CURLY
  | SEMICOLON | POUND | BANG | COLON2 | IDENT | IMPL_KW | INT_NUMBER | STRING | TRUE_KW | FALSE_KW
  | UNDERSCORE | AT | MOD_KW | TRAIT_KW | STRUCT_KW | ENUM_KW | UNION_KW | FN_KW
  (* nodes *)
  | SOURCE_FILE | ATTR | META | PATH | TOKEN_TREE | ERROR
  | MODULE | ITEM_LIST | STRUCT | ENUM | UNION | TRAIT | IMPL | FN | ASSOC_ITEM_LIST | RECORD_FIELD_LIST
  | RECORD_FIELD | TUPLE_FIELD
  | OTHER (n : nat).

Scheme Equality for skind.
Definition skind_eqb := skind_beq.

Lemma skind_eqb_eq a b : skind_eqb a b = true <-> a = b.
Proof.
  split.
  - apply internal_skind_dec_bl.
  - apply internal_skind_dec_lb.
Qed.
Lemma skind_eqb_refl a : skind_eqb a a = true.
Proof. apply skind_eqb_eq; reflexivity. Qed.

(** [SyntaxKind::is_trivia] *)
Definition is_trivia (k : skind) : bool := match k with WHITESPACE | COMMENT => true | _ => false end.

(** [SyntaxElement]: a token or a node. *)
Inductive elem :=
  | Tok (k : skind) (text : str)
  | Node (k : skind) (children : list elem).

Definition kind_of (e : elem) : skind := match e with Tok k _ => k | Node k _ => k end.
Definition is_tok (e : elem) : bool := match e with Tok _ _ => true | Node _ _ => false end.

(** [SyntaxElement::to_string] *)
Fixpoint text_of (e : elem) : str :=
  match e with
  | Tok _ t => t
  | Node _ cs => (fix go (l : list elem) : str :=
                    match l with [] => [] | c :: l' => text_of c ++ go l' end) cs
  end.
Definition texts_of (l : list elem) : str := flat_map text_of l.

(** The tokens below an element, in order. *)
Fixpoint leaves (e : elem) : list (skind * str) :=
  match e with
  | Tok k t => [(k, t)]
  | Node _ cs => (fix go (l : list elem) : list (skind * str) :=
                    match l with [] => [] | c :: l' => leaves c ++ go l' end) cs
  end.
Definition leaves_of (l : list elem) : list (skind * str) := flat_map leaves l.

Definition len_of (e : elem) : nat := bytes (text_of e).

(** An element with its start offset in the file ([text_range().start()]). *)
Definition lelem := (nat * elem)%type.
Definition lkind (e : lelem) : skind := kind_of (snd e).
Definition lstart (e : lelem) : nat := fst e.
Definition lend (e : lelem) : nat := fst e + len_of (snd e).

(** [SyntaxNode::children_with_tokens] with their offsets, for a node starting at [o]. *)
Fixpoint place (o : nat) (l : list elem) : list lelem :=
  match l with
  | [] => []
  | e :: l' => (o, e) :: place (o + len_of e) l'
  end.

(** Induction principle for trees. *)
Lemma elem_ind' (P : elem -> Prop) :
  (forall k t, P (Tok k t)) ->
  (forall k cs, Forall P cs -> P (Node k cs)) ->
  forall e, P e.
Proof.
  intros Ht Hn. fix IH 1. intros [k t|k cs].
  - apply Ht.
  - apply Hn. induction cs as [|c cs IHcs]; constructor; [apply IH | exact IHcs].
Qed.

Lemma text_of_node k cs : text_of (Node k cs) = texts_of cs.
Proof. simpl. induction cs as [|c cs IH]; simpl; [reflexivity | f_equal; exact IH]. Qed.
Lemma leaves_node k cs : leaves (Node k cs) = leaves_of cs.
Proof. simpl. induction cs as [|c cs IH]; simpl; [reflexivity | f_equal; exact IH]. Qed.
