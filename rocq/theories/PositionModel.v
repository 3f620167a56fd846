(** Model of LSP position translation.

    Sources: crates/lsp-server/src/translator.rs, translator/from_lsp.rs, translator/to_lsp.rs,
    utils.rs (position_encoding), dispatch/handlers/request.rs (parse_range), and the external crate
    [line-index] 0.1.1 (LineIndex::{new, try_line_col, offset, to_wide, to_utf8}), which is not part of
    /repo and is modelled from its documented behaviour.

    Offsets and columns are unbounded naturals ([TextSize] and LSP integers are u32 in the code; overflow
    of sums is not modelled, except for the truncating cast of [parse_range]). *)
From Verif Require Import Base.

(** [lsp_types::PositionEncodingKind] is a string newtype; its three constants. *)
Definition enc_kind := str.
Definition UTF8 : enc_kind := lit "utf-8".
Definition UTF16 : enc_kind := lit "utf-16".
Definition UTF32 : enc_kind := lit "utf-32".

(** crates/lsp-server/src/utils.rs L21-38 [position_encoding]; the argument is
    [general.position_encodings], [None] when the client sent none. *)
Definition position_encoding (client : option (list enc_kind)) : enc_kind :=
  match
    find_map (fun e => if str_eqb e UTF8 || str_eqb e UTF32 then Some e else None)
             (match client with Some l => l | None => [] end)
  with
  | Some e => e
  | None => UTF16
  end.

(** UTF-8 length of a character ([char::len_utf8]). *)
Definition utf8_len (c : char) : nat :=
  if (c <? 128)%N then 1 else if (c <? 2048)%N then 2 else if (c <? 65536)%N then 3 else 4.

(** [str::len] *)
Fixpoint bytes (s : str) : nat :=
  match s with [] => 0 | c :: s' => utf8_len c + bytes s' end.

(** line-index [WideEncoding] *)
Inductive wide_enc := Wide16 | Wide32.

(** line-index [WideChar { start, end }], byte columns in its line. *)
Record wide_char := WideChar { wc_start : nat; wc_end : nat }.
Definition wc_len (w : wide_char) : nat := wc_end w - wc_start w.
(** line-index [WideChar::wide_len] *)
Definition wide_len (e : wide_enc) (w : wide_char) : nat :=
  match e with Wide16 => if wc_len w =? 4 then 2 else 1 | Wide32 => 1 end.

(** line-index [LineIndex]; the map from line to wide characters is a list indexed by line (an absent
    entry of the map is an empty list). *)
Record line_index := LineIndex {
  li_newlines : list nat;             (* offsets of line starts, except the first *)
  li_wide : list (list wide_char);    (* non-ASCII characters of each line *)
  li_len : nat
}.

(** line-index [analyze_source_file]: one pass over the text. [pos]: offset, [col]: byte column,
    [cur]: wide characters of the current line, latest first. *)
Fixpoint analyze (t : str) (pos col : nat) (cur : list wide_char) : list nat * list (list wide_char) :=
  match t with
  | [] => ([], [rev cur])
  | c :: t' =>
      if N.eqb c c_nl then
        let r := analyze t' (pos + 1) 0 [] in (pos + 1 :: fst r, rev cur :: snd r)
      else
        let n := utf8_len c in
        analyze t' (pos + n) (col + n)
                (if 1 <? n then WideChar col (col + n) :: cur else cur)
  end.

(** line-index [LineIndex::new] *)
Definition new_line_index (t : str) : line_index :=
  let r := analyze t 0 0 [] in LineIndex (fst r) (snd r) (bytes t).

(** [slice::partition_point] on a slice partitioned by [p] (the newline offsets are increasing,
    lemma [analyze_increasing]): number of leading elements satisfying [p]. *)
Fixpoint partition_point {A} (p : A -> bool) (l : list A) : nat :=
  match l with
  | x :: l' => if p x then S (partition_point p l') else 0
  | [] => 0
  end.

(** line-index [LineIndex::start_offset] *)
Definition start_offset (li : line_index) (line : nat) : option nat :=
  match line with
  | 0 => Some 0
  | S i => nth_error (li_newlines li) i
  end.

Definition wide_of_line (li : line_index) (line : nat) : list wide_char :=
  match nth_error (li_wide li) line with Some l => l | None => [] end.

(** line-index [LineIndex::try_line_col] *)
Definition try_line_col (li : line_index) (off : nat) : option (nat * nat) :=
  if li_len li <? off then None
  else
    let line := partition_point (fun n => n <=? off) (li_newlines li) in
    match start_offset li line with
    | None => None
    | Some start =>
        let col := off - start in
        if forallb (fun w => (col <=? wc_start w) || (wc_end w <=? col)) (wide_of_line li line)
        then Some (line, col)
        else None
    end.

(** line-index [LineIndex::offset] (no check of the column against the line length). *)
Definition li_offset (li : line_index) (lc : nat * nat) : option nat :=
  match start_offset li (fst lc) with
  | Some start => Some (start + snd lc)
  | None => None
  end.

(** u32::checked_sub *)
Definition checked_sub (a b : nat) : option nat := if b <=? a then Some (a - b) else None.

(** line-index [LineIndex::to_wide], the loop over the wide characters of the line. *)
Fixpoint to_wide_loop (e : wide_enc) (limit col : nat) (ws : list wide_char) : option nat :=
  match ws with
  | [] => Some col
  | w :: ws' =>
      if wc_end w <=? limit then
        match checked_sub col (wc_len w - wide_len e w) with
        | Some col' => to_wide_loop e limit col' ws'
        | None => None
        end
      else Some col
  end.
Definition to_wide (li : line_index) (e : wide_enc) (lc : nat * nat) : option (nat * nat) :=
  match to_wide_loop e (snd lc) (snd lc) (wide_of_line li (fst lc)) with
  | Some col => Some (fst lc, col)
  | None => None
  end.

(** line-index [LineIndex::to_utf8]; [checked_add] cannot fail on unbounded naturals. *)
Fixpoint to_utf8_loop (e : wide_enc) (col : nat) (ws : list wide_char) : nat :=
  match ws with
  | [] => col
  | w :: ws' =>
      if wc_start w <? col then to_utf8_loop e (col + (wc_len w - wide_len e w)) ws' else col
  end.
Definition to_utf8 (li : line_index) (e : wide_enc) (lc : nat * nat) : option (nat * nat) :=
  Some (fst lc, to_utf8_loop e (snd lc) (wide_of_line li (fst lc))).

(** translator.rs L10-22 [PositionTranslationContext] *)
Record pos_context := PosContext { pc_encoding : enc_kind; pc_index : line_index }.
Definition new_context (content : str) (enc : enc_kind) : pos_context :=
  PosContext enc (new_line_index content).

(** [lsp_types::Position { line, character }] *)
Definition position := (nat * nat)%type.

(** translator/to_lsp.rs L11-40 [position] *)
Definition to_lsp_position (ctx : pos_context) (off : nat) : option position :=
  match try_line_col (pc_index ctx) off with
  | None => None
  | Some lc =>
      if str_eqb (pc_encoding ctx) UTF16 || str_eqb (pc_encoding ctx) UTF32 then
        let e := if str_eqb (pc_encoding ctx) UTF32 then Wide32 else Wide16 in
        to_wide (pc_index ctx) e lc
      else Some lc
  end.

(** translator/to_lsp.rs L43-50 [range] *)
Definition to_lsp_range (ctx : pos_context) (r : nat * nat) : option (position * position) :=
  match to_lsp_position ctx (fst r), to_lsp_position ctx (snd r) with
  | Some s, Some e => Some (s, e)
  | _, _ => None
  end.

(** translator/from_lsp.rs L8-34 [offset] *)
Definition from_lsp_offset (ctx : pos_context) (p : position) : option nat :=
  let lc :=
    if str_eqb (pc_encoding ctx) UTF16 || str_eqb (pc_encoding ctx) UTF32 then
      let e := if str_eqb (pc_encoding ctx) UTF32 then Wide32 else Wide16 in
      to_utf8 (pc_index ctx) e p
    else Some p in
  match lc with
  | Some lc => li_offset (pc_index ctx) lc
  | None => None
  end.

(** translator/from_lsp.rs L37-44 [text_range] *)
Definition from_lsp_text_range (ctx : pos_context) (r : position * position) : option (nat * nat) :=
  match from_lsp_offset ctx (fst r) with
  | None => None
  | Some s =>
      match from_lsp_offset ctx (snd r) with
      | None => None
      | Some e => if s <=? e then Some (s, e) else None
      end
  end.

(** A computation that may panic. *)
Inductive outcome (A : Type) := Done (a : A) | Panic.
Arguments Done {A} _.
Arguments Panic {A}.

(** dispatch/handlers/request.rs L317-331 [parse_range]; the argument is the pair of u64 values of the
    "start" and "end" members, [None] when either is missing or not a u64. [TextRange::new] asserts
    [start <= end]; [as u32] truncates. *)
Definition u32_trunc (n : N) : N := (n mod 4294967296)%N.
Definition parse_range (se : option (N * N)) : outcome (option (N * N)) :=
  match se with
  | None => Done None
  | Some (s, e) =>
      let s' := u32_trunc s in
      let e' := u32_trunc e in
      if (s' <=? e')%N then Done (Some (s', e')) else Panic
  end.

(** translator/to_lsp.rs L240-260 [offset]: byte offset into a label to an offset in code units.
    [&text[0..offset]] panics when [offset] is not a character boundary (or past the end). *)
Fixpoint take_bytes (n : nat) (s : str) : option str :=
  match n, s with
  | 0, _ => Some []
  | _, [] => None
  | _, c :: s' =>
      if utf8_len c <=? n then
        match take_bytes (n - utf8_len c) s' with Some p => Some (c :: p) | None => None end
      else None
  end.
(** line-index [WideEncoding::measure] *)
Definition char_units (e : wide_enc) (c : char) : nat :=
  match e with Wide16 => if (c <? 65536)%N then 1 else 2 | Wide32 => 1 end.
Fixpoint measure (e : wide_enc) (s : str) : nat :=
  match s with [] => 0 | c :: s' => char_units e c + measure e s' end.
Definition to_lsp_offset (enc : enc_kind) (text : str) (off : nat) : outcome nat :=
  if (0 <? off) && (str_eqb enc UTF16 || str_eqb enc UTF32) then
    let e := if str_eqb enc UTF32 then Wide32 else Wide16 in
    match take_bytes off text with
    | Some p => Done (measure e p)
    | None => Panic
    end
  else Done off.
