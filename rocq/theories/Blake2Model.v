(** The BLAKE2b-256 hash (RFC 7693), which the code takes from the external crate [blake2]. The properties hold for
    any hash function; this one is used to check the model of selectors against known values. *)
From Verif Require Import Base.

Local Open Scope N_scope.

(** UTF-8 encoding of a text ([String::into_bytes]). *)
Definition utf8_char (c : char) : list N :=
  if c <? 128 then [c]
  else if c <? 2048 then [192 + c / 64; 128 + c mod 64]
  else if c <? 65536 then [224 + c / 4096; 128 + (c / 64) mod 64; 128 + c mod 64]
  else [240 + c / 262144; 128 + (c / 4096) mod 64; 128 + (c / 64) mod 64; 128 + c mod 64].
Definition utf8 (s : str) : list N := flat_map utf8_char s.

Definition w64 : N := 0x10000000000000000.
Definition add64 (a b : N) : N := (a + b) mod w64.
Definition rotr64 (a n : N) : N := N.lor (N.shiftr a n) ((N.shiftl a (64 - n)) mod w64).

(** RFC 7693, section 2.6 (initialization vector) and section 2.7 (message schedule) *)
Definition blake2_iv : list N :=
  [0x6a09e667f3bcc908; 0xbb67ae8584caa73b; 0x3c6ef372fe94f82b; 0xa54ff53a5f1d36f1;
   0x510e527fade682d1; 0x9b05688c2b3e6c1f; 0x1f83d9abfb41bd6b; 0x5be0cd19137e2179].
Definition blake2_sigma : list (list nat) :=
  [[0;1;2;3;4;5;6;7;8;9;10;11;12;13;14;15];
   [14;10;4;8;9;15;13;6;1;12;0;2;11;7;5;3];
   [11;8;12;0;5;2;15;13;10;14;3;6;7;1;9;4];
   [7;9;3;1;13;12;11;14;2;6;5;10;4;0;15;8];
   [9;0;5;7;2;4;10;15;14;1;11;12;6;8;3;13];
   [2;12;6;10;0;11;8;3;4;13;7;5;15;14;1;9];
   [12;5;1;15;14;13;4;10;0;7;6;3;9;2;8;11];
   [13;11;7;14;12;1;3;9;5;0;15;4;8;6;2;10];
   [6;15;14;9;11;3;0;8;12;2;13;7;1;4;10;5];
   [10;2;8;4;7;6;1;5;15;11;9;14;3;12;13;0];
   [0;1;2;3;4;5;6;7;8;9;10;11;12;13;14;15];
   [14;10;4;8;9;15;13;6;1;12;0;2;11;7;5;3]]%nat.

Definition get (l : list N) (i : nat) : N := nth i l 0.
Fixpoint set_nth (l : list N) (i : nat) (x : N) : list N :=
  match l, i with
  | [], _ => []
  | _ :: l', O => x :: l'
  | y :: l', S i' => y :: set_nth l' i' x
  end.

(** RFC 7693, section 3.1 (mixing function G) *)
Definition mix (v : list N) (a b c d : nat) (x y : N) : list N :=
  let va := add64 (add64 (get v a) (get v b)) x in
  let vd := rotr64 (N.lxor (get v d) va) 32 in
  let vc := add64 (get v c) vd in
  let vb := rotr64 (N.lxor (get v b) vc) 24 in
  let va := add64 (add64 va vb) y in
  let vd := rotr64 (N.lxor vd va) 16 in
  let vc := add64 vc vd in
  let vb := rotr64 (N.lxor vb vc) 63 in
  set_nth (set_nth (set_nth (set_nth v a va) b vb) c vc) d vd.
Definition round (m : list N) (v : list N) (s : list nat) : list N :=
  let w i := get m (nth i s O) in
  let v := mix v 0 4 8 12 (w 0%nat) (w 1%nat) in
  let v := mix v 1 5 9 13 (w 2%nat) (w 3%nat) in
  let v := mix v 2 6 10 14 (w 4%nat) (w 5%nat) in
  let v := mix v 3 7 11 15 (w 6%nat) (w 7%nat) in
  let v := mix v 0 5 10 15 (w 8%nat) (w 9%nat) in
  let v := mix v 1 6 11 12 (w 10%nat) (w 11%nat) in
  let v := mix v 2 7 8 13 (w 12%nat) (w 13%nat) in
  mix v 3 4 9 14 (w 14%nat) (w 15%nat).
(** RFC 7693, section 3.2 (compression function F); [t] is below 2^64 *)
Definition compress (h m : list N) (t : N) (final : bool) : list N :=
  let v := h ++ blake2_iv in
  let v := set_nth v 12 (N.lxor (get v 12) (t mod w64)) in
  let v := if final then set_nth v 14 (N.lxor (get v 14) (w64 - 1)) else v in
  let v := fold_left (round m) blake2_sigma v in
  map (fun i => N.lxor (get h i) (N.lxor (get v i) (get v (i + 8)%nat))) (seq 0 8).

(** Little-endian words of a block, and back. *)
Fixpoint word_of (l : list N) : N := match l with [] => 0 | b :: l' => b + 256 * word_of l' end.
Fixpoint words (n : nat) (l : list N) : list N :=
  match n with O => [] | S n' => word_of (firstn 8 l) :: words n' (skipn 8 l) end.
Fixpoint bytes_of (n : nat) (w : N) : list N :=
  match n with O => [] | S n' => w mod 256 :: bytes_of n' (w / 256) end.

(** RFC 7693, section 3.3: the blocks of the message, the last one marked and padded with zeros. *)
Fixpoint blocks (fuel : nat) (h : list N) (t : N) (data : list N) : list N :=
  match fuel with
  | O => h
  | S fuel' =>
      if (128 <? length data)%nat
      then blocks fuel' (compress h (words 16 (firstn 128 data)) (t + 128) false) (t + 128) (skipn 128 data)
      else compress h (words 16 data) (t + N.of_nat (length data)) true
  end.
Definition blake2b_256 (data : list N) : list N :=
  let h0 := match blake2_iv with
            | x :: l => N.lxor x 0x01010020 :: l
            | [] => []
            end in
  firstn 32 (flat_map (bytes_of 8) (blocks (S (length data)) h0 0 data)).
