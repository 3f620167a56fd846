(** What the properties about selectors and ids (C24, C37, C38) mean, independently of how the code computes them. *)
From Verif Require Import Base Unicode PositionModel VersionModel TranslateModel SyntaxModel AttrModel TreeModel CallableModel.
From Coq Require Import Sorted.

(** Exactly the elements at the positions with property [P], in order. *)
Definition picks {A} (P : nat -> Prop) (l out : list A) : Prop :=
  exists positions, StronglySorted lt positions
    /\ (forall i, In i positions <-> i < length l /\ P i)
    /\ map (nth_error l) positions = map Some out.

(** ** C24 *)
Definition is_byte (b : N) : Prop := (b < 256)%N.
Definition is_bytes (s : selector) : Prop := let '(a, b, c, d) := s in is_byte a /\ is_byte b /\ is_byte c /\ is_byte d.

(** The path of a callable: namespace, trait and name, those that exist, with [::] between. *)
Definition callable_path (ns tr : option str) (name : str) : str :=
  match ns, tr with
  | None, None => name
  | Some n, None => n ++ lit "::" ++ name
  | None, Some t => t ++ lit "::" ++ name
  | Some n, Some t => n ++ lit "::" ++ t ++ lit "::" ++ name
  end.

(** The trait's part of that path: all of a path that starts with [::], the last segment of any other (the tests of
    selector.rs; ink! decides by the leading [::]). *)
Definition trait_part (segments : list str) : str :=
  if starts_with (lit "::") (join_colons segments) then join_colons segments
  else match last_opt segments with Some s => s | None => [] end.
(** A path as written: without white space it is its segments with [::] between; segments are not empty. *)
Definition spaces_removed (U : unicode) (s : str) : str := filter (fun c => negb (u_whitespace U c)) s.
Definition path_written (U : unicode) (p : path_syntax) : Prop :=
  ps_segments p <> []
  /\ spaces_removed U (ps_text p) = join_colons (ps_segments p)
  /\ (forall s, In s (ps_segments p) -> s <> []).

(** The first argument of a kind in the attributes of an item *)
Definition first_argument (k : arg_kind) (attrs : list ink_attr) (a : ink_arg) : Prop :=
  exists l1 x l2 m1 m2, attrs = l1 ++ x :: l2 /\ at_args x = m1 ++ a :: m2 /\ ia_kind a = k
    /\ (forall y b, In y l1 -> In b (at_args y) -> ia_kind b <> k) /\ (forall b, In b m1 -> ia_kind b <> k).
(** The namespace of the [impl] around a callable: the text of the string in its first [namespace] argument *)
Definition namespace_written (c : callable) (ns : str) : Prop :=
  exists i a v, ca_impl c = Some i /\ first_argument ANamespace (ib_attrs i) a /\ m_value a = MOk v /\ value_string v = Some ns.

(** ** C37 *)

(** Position [i] repeats the id of an earlier position. *)
Definition repeats {A} (id : A -> option N) (l : list A) (i : nat) : Prop :=
  exists c n, nth_error l i = Some c /\ id c = Some n
    /\ exists j c', j < i /\ nth_error l j = Some c' /\ id c' = Some n.

(** The ids of a list after the ids at some positions are replaced. *)
Fixpoint lookup (i : nat) (l : list (nat * N)) : option N :=
  match l with [] => None | (j, n) :: l' => if i =? j then Some n else lookup i l' end.
Definition new_id {A} (id : A -> option N) (l : list A) (news : list (nat * N)) (i : nat) : option N :=
  match lookup i news with Some n => Some n | None => obind (nth_error l i) id end.
(** No two positions have the same id. *)
Definition all_different (ids : nat -> option N) : Prop :=
  forall i j n, ids i = Some n -> ids j = Some n -> i = j.

(** ** C38 *)

(** The selector arguments of a callable: the first of each attribute (others are reported as duplicates). *)
Definition writes (c : callable) (a : ink_arg) : Prop :=
  exists x l1 l2, In x (ca_attrs c) /\ at_args x = l1 ++ a :: l2 /\ ia_kind a = ASelector
    /\ (forall b, In b l1 -> ia_kind b <> ASelector).
Definition wildcard_arg (a : ink_arg) : Prop :=
  exists v, m_value a = MOk v /\ value_skind v = Some UNDERSCORE.
Definition complement_value (a : ink_arg) : Prop :=
  exists v, m_value a = MOk v /\ (value_skind v = Some AT \/ value_int U32_MAX v = Some 0x9BAE9D5E%N).
Definition wildcard_callable (c : callable) : Prop := exists a, writes c a /\ wildcard_arg a.
Definition complement_callable (c : callable) : Prop := exists a, writes c a /\ complement_value a.

(** The argument that holds the id of a function of a chain extension, and the largest id *)
Definition id_argument (v : version) : arg_kind := match v with V4 => AExtension | V5 => AFunction end.
Definition id_limit (v : version) : N := match v with V4 => 4294967295%N | V5 => 65535%N end.
