(** Properties C11-C14: position encodings and position translation. *)
From Verif Require Import Base PositionModel PositionSpec PositionProofs.

(** C11. The encoding is the first of UTF-8/UTF-32 the client lists, in the client's order; UTF-16 iff
    it lists neither. *)
Theorem C11_encoding_negotiation : forall client,
  (exists l1 e l2, client = Some (l1 ++ e :: l2) /\ (e = UTF8 \/ e = UTF32)
      /\ Forall (fun x => x <> UTF8 /\ x <> UTF32) l1 /\ position_encoding client = e)
  \/ ((forall l, client = Some l -> ~ In UTF8 l /\ ~ In UTF32 l) /\ position_encoding client = UTF16).
Proof. exact position_encoding_spec. Qed.
Print Assumptions C11_encoding_negotiation.

Example C11_ex : position_encoding (Some [UTF16; lit "utf-7"; UTF32; UTF8]) = UTF32.
Proof. reflexivity. Qed.

(** C12. An offset has a position iff it is a character boundary of the text, and then the position is
    (line feeds before it, code units of the encoding since the last one). *)
Theorem C12_position_meaning : forall k t off p,
  to_lsp_position (new_context t k) off = Some p <->
  exists pre, at_offset t pre off /\ p = spec_position k pre.
Proof. exact to_lsp_position_iff. Qed.
Print Assumptions C12_position_meaning.

(** C12. Translating back gives the same offset. *)
Theorem C12_roundtrip : forall k t off p,
  to_lsp_position (new_context t k) off = Some p ->
  from_lsp_offset (new_context t k) p = Some off.
Proof.
  intros k t off p H. apply to_lsp_position_iff in H. destruct H as [pre [[Hp ->] ->]].
  exact (valid_position_offset k t pre _ Hp eq_refl).
Qed.
Print Assumptions C12_roundtrip.

(** C12. Every boundary has a position, and different boundaries have different positions. *)
Theorem C12_total_injective : forall k t pre1 pre2,
  (exists post, t = pre1 ++ post) -> (exists post, t = pre2 ++ post) ->
  (exists p, to_lsp_position (new_context t k) (bytes pre1) = Some p)
  /\ (to_lsp_position (new_context t k) (bytes pre1) = to_lsp_position (new_context t k) (bytes pre2) ->
      pre1 = pre2).
Proof.
  intros k t pre1 pre2 [q1 E1] [q2 E2]. split.
  - exists (spec_position k pre1). rewrite E1. apply to_lsp_position_at.
  - intros H. apply (spec_position_inj k t); [exists q1; exact E1 | exists q2; exact E2 |].
    rewrite E1 in H at 1. rewrite E2 in H. rewrite !to_lsp_position_at in H. congruence.
Qed.
Print Assumptions C12_total_injective.

(* "a\né𝒳b": offset 8 is after the 4-byte character on the second line. *)
Example C12_ex :
  let t := [97; 10; 233; 119987; 98]%N in
  to_lsp_position (new_context t UTF16) 8 = Some (1, 3)
  /\ to_lsp_position (new_context t UTF32) 8 = Some (1, 2)
  /\ to_lsp_position (new_context t UTF8) 8 = Some (1, 6)
  /\ from_lsp_offset (new_context t UTF16) (1, 3) = Some 8
  /\ to_lsp_position (new_context t UTF16) 5 = None.
Proof. vm_compute. auto. Qed.

(** C13 (proved part). A position is rejected iff its line does not exist, and a position that exists in
    the text is translated to its offset. Missing: columns are not checked, see the refutation below. *)
Theorem C13_positions_partial : forall k t p,
  (from_lsp_offset (new_context t k) p = None <-> line_feeds t < fst p)
  /\ (forall pre, (exists post, t = pre ++ post) -> p = spec_position k pre ->
        from_lsp_offset (new_context t k) p = Some (bytes pre)).
Proof.
  intros k t p. split; [apply from_lsp_offset_none | intros pre; apply valid_position_offset].
Qed.
Print Assumptions C13_positions_partial.

(** C13 (refuted). The full claim "an accepted position is a position of the text": columns past the end of
    the line are accepted and denote offsets on another line or past the end of the text, and a UTF-16
    column inside a surrogate pair denotes an offset inside a character. *)
Theorem C13_accepted_positions_exist_refuted :
  (exists k t p off, from_lsp_offset (new_context t k) p = Some off /\ bytes t < off)
  /\ (exists k t p off q, from_lsp_offset (new_context t k) p = Some off
        /\ to_lsp_position (new_context t k) off = Some q /\ fst q <> fst p)
  /\ (exists t p off, from_lsp_offset (new_context t UTF16) p = Some off /\ off <= bytes t
        /\ forall pre, ~ at_offset t pre off).
Proof.
  split; [|split].
  - exists UTF8, (lit "a"), (0, 7), 7. split; [reflexivity | simpl; lia].
  - exists UTF16, [97; 10; 98]%N, (0, 3), 3, (1, 1). repeat split; try reflexivity. simpl; lia.
  - exists [119987]%N, (0, 1), 3. split; [reflexivity|]. split; [vm_compute; lia|].
    intros pre [[post E] H]. destruct pre as [|c pre]; [discriminate|].
    simpl in E. inversion E; subst. simpl in H. destruct pre; [simpl in H; discriminate | discriminate].
Qed.
Print Assumptions C13_accepted_positions_exist_refuted.

(** C14. Accepted client ranges are ordered, and a reversed range is rejected. *)
Theorem C14_client_ranges : forall ctx r s e,
  from_lsp_text_range ctx r = Some (s, e) <->
  from_lsp_offset ctx (fst r) = Some s /\ from_lsp_offset ctx (snd r) = Some e /\ s <= e.
Proof. exact from_lsp_text_range_spec. Qed.
Print Assumptions C14_client_ranges.

(** C14. Ranges sent to the client are ordered. *)
Theorem C14_server_ranges_ordered : forall k t s e ps pe,
  s <= e -> to_lsp_range (new_context t k) (s, e) = Some (ps, pe) -> pos_le ps pe.
Proof. exact to_lsp_range_ordered. Qed.
Print Assumptions C14_server_ranges_ordered.

(** C14. A range of the text goes to the client and back unchanged. *)
Theorem C14_range_roundtrip : forall k t s e r,
  s <= e -> to_lsp_range (new_context t k) (s, e) = Some r ->
  from_lsp_text_range (new_context t k) r = Some (s, e).
Proof.
  intros k t s e [ps pe] Hle H. unfold to_lsp_range in H; cbn [fst snd] in H.
  destruct (to_lsp_position (new_context t k) s) eqn:Es; [|discriminate].
  destruct (to_lsp_position (new_context t k) e) eqn:Ee; [|discriminate].
  inversion H; subst. apply from_lsp_text_range_spec; cbn [fst snd].
  split; [exact (C12_roundtrip _ _ _ _ Es) | split; [exact (C12_roundtrip _ _ _ _ Ee) | exact Hle]].
Qed.
Print Assumptions C14_range_roundtrip.

Example C14_ex : to_lsp_range (new_context (lit "ab") UTF16) (0, 2) = Some ((0, 0), (0, 2)).
Proof. reflexivity. Qed.

(** C14 (refuted for the resolve/command path). The byte range carried in the data of an event extraction is
    turned into a range without checking its order: a reversed range panics, i.e. ends the server. *)
Theorem C14_command_range_no_panic_refuted : exists se, parse_range se = Panic.
Proof. exists (Some (5, 3)%N). reflexivity. Qed.
Print Assumptions C14_command_range_no_panic_refuted.

(** C14 (proved part for that path): in-order 32-bit ranges, as the server itself produces them, are accepted unchanged. *)
Theorem C14_command_range_partial : forall s e : N,
  (s <= e)%N -> (e < 4294967296)%N -> parse_range (Some (s, e)) = Done (Some (s, e)).
Proof.
  intros s e H1 H2. unfold parse_range, u32_trunc. rewrite !N.mod_small by lia.
  destruct (N.leb_spec s e); [reflexivity | lia].
Qed.
Print Assumptions C14_command_range_partial.

(** C15 (label offsets). A byte offset at a character boundary of a signature label is translated to the
    number of code units before it, without panicking. *)
Theorem C15_label_offset : forall k pre post,
  to_lsp_offset k (pre ++ post) (bytes pre) = Done (units k pre).
Proof. exact to_lsp_offset_at. Qed.
Print Assumptions C15_label_offset.
