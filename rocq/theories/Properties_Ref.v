(** Properties C05, C06, C42 and C43: bit references, bit pointers, streams. *)
From Coq Require Import ZArith Bool List Lia.
From Verif Require Import Base WordOps IterModel RefModel Spec SpecRef Demo
  ProofReference ProofPointer.
Import ListNotations.
Open Scope Z_scope.

(** C05: a reference built from a word and a position designates that bit. *)
Theorem C05_reference_position : forall p w a q, valid_w w -> 0 <= q < w ->
  exists r, mk_ref p w a q = Ok r /\ refers_to w r (a * w + q) /\
    rptr r = a /\ rmask r = 2 ^ q /\ ref_position w r = q.
Proof. exact mk_ref_refers. Qed.
Print Assumptions C05_reference_position.

Example C05_reference_position_example :
  valid_w 16 /\ 0 <= 11 < 16 /\ mk_ref Strict17 16 4 11 = Ok (Ref 4 2048) /\
  ref_position 16 (Ref 4 2048) = 11.
Proof. demo. Qed.

(** Reading. *)
Theorem C05_reference_read : forall w m r i, valid_w w -> wf_mem w m ->
  refers_to w r i -> mapped w m i (i + 1) -> ref_get r m = Ok (bit w m i, m).
Proof. exact ref_get_ok. Qed.
Print Assumptions C05_reference_read.

Example C05_reference_read_example :
  let m := mem_of [227; 90] in
  valid_w 8 /\ wf_mem 8 m /\ refers_to 8 (Ref 1 16) 12 /\ mapped 8 m 12 (12 + 1) /\
  bit 8 m 12 = true.
Proof.
  cbv zeta. demo. exists 1, 4. repeat split; lia.
Qed.

(** Setting, resetting, flipping. *)
Theorem C05_reference_set : forall w m r i (b : bool), valid_w w -> wf_mem w m ->
  refers_to w r i -> mapped w m i (i + 1) ->
  writes w (ref_set1 r) m i true /\ writes w (ref_reset w r) m i false /\
  writes w (ref_set w r b) m i b /\ writes w (ref_flip r) m i (negb (bit w m i)).
Proof. exact ref_set_ok. Qed.
Print Assumptions C05_reference_set.

Example C05_reference_set_example :
  let m := mem_of [227; 90] in
  valid_w 8 /\ wf_mem 8 m /\ refers_to 8 (Ref 1 16) 12 /\ mapped 8 m 12 (12 + 1) /\
  run 2 (ref_flip (Ref 1 16)) [227; 90] = Ok (tt, [Some 227; Some 74]) /\
  run 2 (ref_reset 8 (Ref 1 16)) [227; 90] = Ok (tt, [Some 227; Some 74]) /\
  run 2 (ref_set1 (Ref 1 32)) [227; 90] = Ok (tt, [Some 227; Some 122]).
Proof.
  cbv zeta. demo. exists 1, 4. repeat split; lia.
Qed.

(** Assignment from a bit value, another reference (possibly to the same word or
    bit), the lowest bit of a word and bit [n] of a word. *)
Theorem C05_reference_assign : forall p w m r i r' i' (b : bool) v n,
  valid_w w -> wf_mem w m ->
  refers_to w r i -> mapped w m i (i + 1) ->
  refers_to w r' i' -> mapped w m i' (i' + 1) -> 0 <= n < w ->
  writes w (ref_assign_val w r b) m i b /\
  writes w (ref_assign_ref w r r') m i (bit w m i') /\
  writes w (ref_assign_word w r v) m i (Z.testbit v 0) /\
  writes w (ref_assign_word_pos p w r v n) m i (Z.testbit v n).
Proof. exact ref_assign_ok. Qed.
Print Assumptions C05_reference_assign.

Example C05_reference_assign_example :
  let m := mem_of [227; 90] in
  valid_w 8 /\ wf_mem 8 m /\ refers_to 8 (Ref 1 16) 12 /\ mapped 8 m 12 (12 + 1) /\
  refers_to 8 (Ref 0 4) 2 /\ mapped 8 m 2 (2 + 1) /\ 0 <= 5 < 8 /\
  run 2 (ref_assign_ref 8 (Ref 1 16) (Ref 0 4)) [227; 90] = Ok (tt, [Some 227; Some 74]) /\
  run 2 (ref_assign_word_pos Strict17 8 (Ref 0 4) 32 5) [227; 90]
    = Ok (tt, [Some 231; Some 90]).
Proof.
  cbv zeta. demo; [exists 1, 4|exists 0, 2]; repeat split; lia.
Qed.

(** Compound assignment. *)
Theorem C05_reference_compound : forall w m r i (b : bool), valid_w w -> wf_mem w m ->
  refers_to w r i -> mapped w m i (i + 1) ->
  writes w (ref_and w r b) m i (bit w m i && b) /\
  writes w (ref_or w r b) m i (bit w m i || b) /\
  writes w (ref_xor w r b) m i (xorb (bit w m i) b).
Proof. exact ref_compound_ok. Qed.
Print Assumptions C05_reference_compound.

Example C05_reference_compound_example :
  let m := mem_of [227; 90] in
  valid_w 8 /\ wf_mem 8 m /\ refers_to 8 (Ref 1 16) 12 /\ mapped 8 m 12 (12 + 1) /\
  run 2 (ref_and 8 (Ref 1 16) false) [227; 90] = Ok (tt, [Some 227; Some 74]) /\
  run 2 (ref_or 8 (Ref 1 16) true) [227; 90] = Ok (tt, [Some 227; Some 90]) /\
  run 2 (ref_xor 8 (Ref 1 16) true) [227; 90] = Ok (tt, [Some 227; Some 74]).
Proof.
  cbv zeta. demo. exists 1, 4. repeat split; lia.
Qed.

(** C05, bit values: the operators of bit_value are those of bool, and a
    bit_value made from bit [n] of a word is that bit. *)
Theorem C05_bit_value : forall p w v n (l r : bool), valid_w w -> 0 <= n < w ->
  val_of_word p w v n = Ok (Z.testbit v n) /\
  val_not l = negb l /\ val_and l r = (l && r)%bool /\
  val_or l r = (l || r)%bool /\ val_xor l r = xorb l r /\
  val_and_assign l r = (l && r)%bool /\ val_or_assign l r = (l || r)%bool /\
  val_xor_assign l r = xorb l r.
Proof. exact val_all. Qed.
Print Assumptions C05_bit_value.

Example C05_bit_value_example :
  valid_w 32 /\ 0 <= 31 < 32 /\ val_of_word Strict17 32 (2 ^ 31) 31 = Ok true.
Proof. demo. Qed.

(** C06: swapping two references, whether or not they share a word or a bit. *)
Theorem C06_reference_swap : forall w m l r i j, valid_w w -> wf_mem w m ->
  refers_to w l i -> refers_to w r j -> mapped w m i (i + 1) -> mapped w m j (j + 1) ->
  exists m', ref_swap l r m = Ok (tt, m') /\ wf_mem w m' /\ same_dom m m' /\
    forall k, bit w m' k = if k =? i then bit w m j else
                           if k =? j then bit w m i else bit w m k.
Proof. exact ref_swap_ok. Qed.
Print Assumptions C06_reference_swap.

(** Two bits of one word. *)
Example C06_reference_swap_example :
  let m := mem_of [227; 90] in
  valid_w 8 /\ wf_mem 8 m /\ refers_to 8 (Ref 0 2) 1 /\ refers_to 8 (Ref 0 16) 4 /\
  mapped 8 m 1 (1 + 1) /\ mapped 8 m 4 (4 + 1) /\
  run 2 (ref_swap (Ref 0 2) (Ref 0 16)) [227; 90] = Ok (tt, [Some 241; Some 90]).
Proof.
  cbv zeta. demo; [exists 0, 1|exists 0, 4]; repeat split; lia.
Qed.

Theorem C06_reference_value_swap : forall w m r i v, valid_w w -> wf_mem w m ->
  refers_to w r i -> mapped w m i (i + 1) ->
  exists m', ref_swap_val r v m = Ok (bit w m i, m') /\
    updated w m m' i (i + 1) (fun _ => v).
Proof. exact ref_swap_val_ok. Qed.
Print Assumptions C06_reference_value_swap.

Example C06_reference_value_swap_example :
  let m := mem_of [227; 90] in
  valid_w 8 /\ wf_mem 8 m /\ refers_to 8 (Ref 0 2) 1 /\ mapped 8 m 1 (1 + 1) /\
  run 2 (ref_swap_val (Ref 0 2) false) [227; 90] = Ok (true, [Some 225; Some 90]).
Proof.
  cbv zeta. demo. exists 0, 1. repeat split; lia.
Qed.

(** C42: bit pointers. Construction, offsets and subscript. *)
Theorem C42_pointer_construct : forall p w a q, valid_w w -> 0 <= q < w ->
  exists x, mk_ptr p w a q = Ok x /\ points_to w x (a * w + q).
Proof. exact mk_ptr_points. Qed.
Print Assumptions C42_pointer_construct.

Example C42_pointer_construct_example :
  valid_w 8 /\ 0 <= 7 < 8 /\ mk_ptr Strict17 8 2 7 = Ok (Ptr (Some 2) 128).
Proof. demo. Qed.

Theorem C42_pointer_offset : forall p w x i n, valid_w w -> points_to w x i ->
  - 2 ^ 63 <= i mod w + n < 2 ^ 63 -> - 2 ^ 63 <= i mod w - n < 2 ^ 63 ->
  (exists y, padd p w x n = Ok y /\ points_to w y (i + n)) /\
  (exists y, psub p w x n = Ok y /\ points_to w y (i - n)) /\
  (exists r, pindex p w x n = Ok r /\ refers_to w r (i + n)).
Proof. exact ptr_offset. Qed.
Print Assumptions C42_pointer_offset.

Example C42_pointer_offset_example :
  valid_w 8 /\ points_to 8 (Ptr (Some 2) 128) 23 /\
  - 2 ^ 63 <= 23 mod 8 + -30 < 2 ^ 63 /\ - 2 ^ 63 <= 23 mod 8 - -30 < 2 ^ 63 /\
  padd Strict17 8 (Ptr (Some 2) 128) (-30) = Ok (Ptr (Some (-1)) 2) /\
  psub Strict17 8 (Ptr (Some 2) 128) (-30) = Ok (Ptr (Some 6) 32).
Proof. demo. exists 2, 7. repeat split; lia. Qed.

(** Increment and decrement, each the inverse of the other. *)
Theorem C42_pointer_step : forall w x i, valid_w w -> points_to w x i ->
  (exists y, pinc w x = Ok y /\ points_to w y (i + 1) /\ pdec w y = Ok x) /\
  (exists y, pdec w x = Ok y /\ points_to w y (i - 1) /\ pinc w y = Ok x).
Proof. exact ptr_step_ok. Qed.
Print Assumptions C42_pointer_step.

Example C42_pointer_step_example :
  valid_w 8 /\ points_to 8 (Ptr (Some 2) 128) 23 /\
  pinc 8 (Ptr (Some 2) 128) = Ok (Ptr (Some 3) 1) /\
  pdec 8 (Ptr (Some 3) 1) = Ok (Ptr (Some 2) 128) /\
  pdec 8 (Ptr (Some 2) 128) = Ok (Ptr (Some 2) 64).
Proof. demo. exists 2, 7. repeat split; lia. Qed.

(** Difference and comparisons. *)
Theorem C42_pointer_compare : forall w x y i j,
  valid_w w -> points_to w x i -> points_to w y j ->
  (- 2 ^ 63 + w <= i - j < 2 ^ 63 - w -> pdiff w x y = Ok (i - j)) /\
  peq w x y = (i =? j) /\ pne w x y = negb (i =? j) /\
  plt w x y = Ok (i <? j) /\ ple w x y = Ok (i <=? j) /\
  pgt w x y = Ok (j <? i) /\ pge w x y = Ok (j <=? i).
Proof. exact ptr_compare. Qed.
Print Assumptions C42_pointer_compare.

Example C42_pointer_compare_example :
  valid_w 8 /\ points_to 8 (Ptr (Some 2) 128) 23 /\ points_to 8 (Ptr (Some 3) 2) 25 /\
  - 2 ^ 63 + 8 <= 23 - 25 < 2 ^ 63 - 8 /\
  pdiff 8 (Ptr (Some 2) 128) (Ptr (Some 3) 2) = Ok (-2) /\
  plt 8 (Ptr (Some 2) 128) (Ptr (Some 3) 2) = Ok true.
Proof. demo; [exists 2, 7|exists 3, 1]; repeat split; lia. Qed.

(** [*&r] is [r]; a pointer to a bit is true, a null pointer false. *)
Theorem C42_pointer_address : forall p w r i, valid_w w -> refers_to w r i ->
  exists x, ref_addr p w r = Ok x /\ points_to w x i /\ ptr_deref x = Ok r /\
    ptr_bool x = true /\ ptr_bool ptr_null = false.
Proof. exact ptr_address. Qed.
Print Assumptions C42_pointer_address.

Example C42_pointer_address_example :
  valid_w 8 /\ refers_to 8 (Ref 2 128) 23 /\
  ref_addr Strict17 8 (Ref 2 128) = Ok (Ptr (Some 2) 128).
Proof. demo. exists 2, 7. repeat split; lia. Qed.

(** C53: a null pointer is false, is equal to itself and different from every
    pointer to a bit. *)
Theorem C53_null_pointer_partial : forall w x i, valid_w w -> points_to w x i ->
  forall y, y = ptr_null \/ y = ptr_aligned None ->
  ptr_bool y = false /\ peq w y y = true /\ pne w y y = false /\
  peq w x y = false /\ peq w y x = false /\ pne w x y = true /\ pne w y x = true.
Proof. exact null_pointer. Qed.
Print Assumptions C53_null_pointer_partial.

Example C53_null_pointer_example :
  valid_w 8 /\ points_to 8 (Ptr (Some 0) 128) 7 /\
  (ptr_null = ptr_null \/ ptr_null = ptr_aligned None) /\
  peq 8 (Ptr (Some 0) 128) ptr_null = false.
Proof. demo. exists 0, 7. repeat split; lia. Qed.

(** C53 is false of two null pointers made in different ways: bit_pointer<W>() and
    bit_pointer<W>(p) where p is a null W*. *)
Theorem C53_null_equal_refuted : exists w x y,
  valid_w w /\ x = ptr_null /\ y = ptr_aligned None /\
  ptr_bool x = false /\ ptr_bool y = false /\ peq w x y = false /\ pne w x y = true.
Proof. exists 64, ptr_null, (ptr_aligned None). demo. Qed.
Print Assumptions C53_null_equal_refuted.

(** C43: what operator>> does with the next character (white space being
    skipped first if the stream says so). *)
Theorem C43_extract_char : forall s x c l, good_stream s -> pending s = c :: l ->
  extract s x =
    if c =? 48 then (false, Is l false false false (skipws s))
    else if c =? 49 then (true, Is l false false false (skipws s))
    else (x, Is (c :: l) false true false (skipws s)).
Proof. exact extract_char. Qed.
Print Assumptions C43_extract_char.

Example C43_extract_char_example :
  let s := Is [32; 10; 49; 50] false false false true in
  good_stream s /\ pending s = [49; 50] /\
  extract s false = (true, Is [50] false false false true) /\
  extract (Is [50] false false false true) true = (true, Is [50] false true false true).
Proof. unfold good_stream. cbn. auto 10. Qed.

(** At the end of the input, and on a stream already in error. *)
Theorem C43_extract_end : forall s x,
  (good_stream s -> pending s = [] ->
     extract s x = (x, Is [] true true false (skipws s))) /\
  (eofb s = true \/ failb s = true \/ badb s = true ->
     extract s x = (x, Is (chars s) (eofb s) true (badb s) (skipws s))).
Proof. exact extract_stop. Qed.
Print Assumptions C43_extract_end.

Example C43_extract_end_example :
  good_stream (Is [32; 32] false false false true) /\
  pending (Is [32; 32] false false false true) = [] /\
  extract (Is [32; 32] false false false true) true
    = (true, Is [] true true false true) /\
  extract (Is [49] false true false true) false = (false, Is [49] false true false true).
Proof. unfold good_stream. cbn. auto 10. Qed.

(** Writing any sequence of bits and reading it back. *)
Theorem C43_round_trip : forall l rest k,
  extract_many (length l) (Is (map insert_char l ++ rest) false false false k)
  = (l, Is rest false false false k).
Proof. exact extract_many_ok. Qed.
Print Assumptions C43_round_trip.

Example C43_round_trip_example :
  extract_many 3 (Is [49; 48; 49; 97] false false false true)
  = ([true; false; true], Is [97] false false false true).
Proof. reflexivity. Qed.

(** Extraction into a reference: the bit gets the value of C43_extract_char and
    C43_extract_end (its own if nothing is extracted), no other bit changes. *)
Theorem C43_extract_reference : forall w m r i s, valid_w w -> wf_mem w m ->
  refers_to w r i -> mapped w m i (i + 1) ->
  exists m', extract_ref w s r m = Ok (snd (extract s (bit w m i)), m') /\
    updated w m m' i (i + 1) (fun _ => fst (extract s (bit w m i))).
Proof. exact extract_ref_ok. Qed.
Print Assumptions C43_extract_reference.

Example C43_extract_reference_example :
  let m := mem_of [227; 90] in
  valid_w 8 /\ wf_mem 8 m /\ refers_to 8 (Ref 0 2) 1 /\ mapped 8 m 1 (1 + 1) /\
  run 2 (extract_ref 8 (Is [32; 48] false false false true) (Ref 0 2)) [227; 90]
    = Ok (Is [] false false false true, [Some 225; Some 90]).
Proof. cbv zeta. demo. exists 0, 1. repeat split; lia. Qed.
