(** What an LSP position means, without any index: the number of line feeds before a point of the text
    and the number of code units since the last one. Only [utf8_len] (the size of a character) is shared. *)
From Verif Require Import Base PositionModel.

(** Code units of one character in an encoding: UTF-16 has surrogate pairs, UTF-32 has one unit per
    character, anything else is treated as UTF-8. *)
Definition units1 (k : enc_kind) (c : char) : nat :=
  if str_eqb k UTF16 then (if (65536 <=? c)%N then 2 else 1)
  else if str_eqb k UTF32 then 1
  else utf8_len c.
Definition units (k : enc_kind) (s : str) : nat := list_sum (map (units1 k) s).

(** The characters after the last line feed of [s]. *)
Fixpoint after_last_nl (s : str) : str :=
  match s with
  | [] => []
  | c :: s' =>
      if existsb (N.eqb c_nl) s' then after_last_nl s'
      else if N.eqb c c_nl then s' else s
  end.

Definition line_feeds (s : str) : nat := count_occ N.eq_dec s c_nl.

(** The position of the point between [pre] and the rest of the text. *)
Definition spec_position (k : enc_kind) (pre : str) : position := (line_feeds pre, units k (after_last_nl pre)).

(** [off] is a character boundary of [t], at the end of the prefix [pre]. *)
Definition at_offset (t pre : str) (off : nat) : Prop := (exists post, t = pre ++ post) /\ off = bytes pre.

(** Lexicographic order on positions. *)
Definition pos_le (p q : position) : Prop := fst p < fst q \/ (fst p = fst q /\ snd p <= snd q).
