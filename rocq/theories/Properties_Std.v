(** Property C55: the algorithms do what the standard library's do on the same
    bit iterators. *)
From Coq Require Import ZArith Bool List Lia.
From Verif Require Import Base IterModel RefModel PopcntModel AlgModel TransformModel SwapModel
  ReverseModel RotateModel ShiftModel StdModel Spec SpecRotate SpecClient SpecStd Demo ProofTransform ProofStd ProofStdShift.
Import ListNotations.
Open Scope Z_scope.

(** C55, fill: writing the words of the range at once leaves what assigning bit after
    bit leaves. *)
Theorem C55_fill : forall p w m fuel first last b,
  valid_w w -> wf_mem w m -> good_range w m first last ->
  addr w last - addr w first < Z.of_nat fuel ->
  agree (fill p w first last b) (std_fill p w fuel first last b) m.
Proof. exact std_fill_agree. Qed.
Print Assumptions C55_fill.

(** 18 bits across three words. *)
Example C55_fill_example :
  let m := mem_of [227; 90; 165; 17; 204] in
  valid_w 8 /\ wf_mem 8 m /\ good_range 8 m (It 0 3) (It 2 5) /\
  addr 8 (It 2 5) - addr 8 (It 0 3) < Z.of_nat 20 /\
  run 5 (fill Strict17 8 (It 0 3) (It 2 5) false)
    [227; 90; 165; 17; 204] = Ok (tt, [Some 3; Some 0; Some 160; Some 17; Some 204]) /\
  run 5 (std_fill Strict17 8 20 (It 0 3) (It 2 5) false)
    [227; 90; 165; 17; 204] = Ok (tt, [Some 3; Some 0; Some 160; Some 17; Some 204]).
Proof. cbv zeta. demo. Qed.

(** C55, copy, also into an overlapping range in front of the source. *)
Theorem C55_copy : forall p w m fuel first last d,
  valid_w w -> wf_mem w m -> good_range w m first last ->
  good_dest w m d (addr w last - addr w first) ->
  addr w d <= addr w first \/ addr w last <= addr w d ->
  addr w last - addr w first < Z.of_nat fuel ->
  agree (copy p w first last d) (std_copy p w fuel first last d) m.
Proof. exact std_copy_agree. Qed.
Print Assumptions C55_copy.

(** Two bits to the front, overlapping. *)
Example C55_copy_example :
  let m := mem_of [227; 90; 165; 17; 204] in
  valid_w 8 /\ wf_mem 8 m /\ good_range 8 m (It 0 3) (It 2 5) /\
  good_dest 8 m (It 0 1) (addr 8 (It 2 5) - addr 8 (It 0 3)) /\
  (addr 8 (It 0 1) <= addr 8 (It 0 3) \/ addr 8 (It 2 5) <= addr 8 (It 0 1)) /\
  addr 8 (It 2 5) - addr 8 (It 0 3) < Z.of_nat 20 /\
  run 5 (copy Strict17 8 (It 0 3) (It 2 5) (It 0 1))
    [227; 90; 165; 17; 204] = Ok (It 2 3, [Some 185; Some 86; Some 161; Some 17; Some 204]) /\
  run 5 (std_copy Strict17 8 20 (It 0 3) (It 2 5) (It 0 1))
    [227; 90; 165; 17; 204] = Ok (It 2 3, [Some 185; Some 86; Some 161; Some 17; Some 204]).
Proof. cbv zeta. demo. Qed.

(** C55, move: std::move assigns bit references, that is, copies the bits. *)
Theorem C55_move : forall p w m fuel first last d,
  valid_w w -> wf_mem w m -> good_range w m first last ->
  good_dest w m d (addr w last - addr w first) ->
  addr w d <= addr w first \/ addr w last <= addr w d ->
  addr w last - addr w first < Z.of_nat fuel ->
  agree (move p w first last d) (std_copy p w fuel first last d) m.
Proof. exact std_move_agree. Qed.
Print Assumptions C55_move.

(** Into a range behind the source. *)
Example C55_move_example :
  let m := mem_of [227; 90; 165; 17; 204] in
  valid_w 8 /\ wf_mem 8 m /\ good_range 8 m (It 0 3) (It 2 5) /\
  good_dest 8 m (It 2 6) (addr 8 (It 2 5) - addr 8 (It 0 3)) /\
  (addr 8 (It 2 6) <= addr 8 (It 0 3) \/ addr 8 (It 2 5) <= addr 8 (It 2 6)) /\
  addr 8 (It 2 5) - addr 8 (It 0 3) < Z.of_nat 20 /\
  run 5 (move Strict17 8 (It 0 3) (It 2 5) (It 2 6))
    [227; 90; 165; 17; 204] = Ok (It 5 0, [Some 227; Some 90; Some 37; Some 215; Some 42]) /\
  run 5 (std_copy Strict17 8 20 (It 0 3) (It 2 5) (It 2 6))
    [227; 90; 165; 17; 204] = Ok (It 5 0, [Some 227; Some 90; Some 37; Some 215; Some 42]).
Proof. cbv zeta. demo. Qed.

(** C55, copy_backward. Missing, because it is false of the code: two or more whole
    words from a word boundary on with both ends at the same position, under the
    rules that leave the shift of _bitblend undefined (C55_copy_backward_refuted). *)
Theorem C55_copy_backward_partial : forall p w m fuel first last d,
  valid_w w -> wf_mem w m -> good_range w m first last ->
  good_dest_end w m d (addr w last - addr w first) ->
  addr w last <= addr w d \/ addr w d <= addr w first ->
  ip first <> 0 \/ ip last <> ip d \/ ib last - ib first < 2 \/ full_blend_defined p w ->
  addr w last - addr w first < Z.of_nat fuel ->
  agree (copy_backward p w first last d) (std_copy_backward p w fuel first last d) m.
Proof. exact std_copy_backward_agree. Qed.
Print Assumptions C55_copy_backward_partial.

(** Nine bits to the back, overlapping. *)
Example C55_copy_backward_example :
  let m := mem_of [227; 90; 165; 17; 204] in
  valid_w 8 /\ wf_mem 8 m /\ good_range 8 m (It 0 3) (It 2 5) /\
  good_dest_end 8 m (It 3 6) (addr 8 (It 2 5) - addr 8 (It 0 3)) /\
  (addr 8 (It 2 5) <= addr 8 (It 3 6) \/ addr 8 (It 3 6) <= addr 8 (It 0 3)) /\
  (3 <> 0 \/ 5 <> 6 \/ 2 - 0 < 2 \/ full_blend_defined Strict17 8) /\
  addr 8 (It 2 5) - addr 8 (It 0 3) < Z.of_nat 20 /\
  run 5 (copy_backward Strict17 8 (It 0 3) (It 2 5) (It 3 6))
    [227; 90; 165; 17; 204] = Ok (It 1 4, [Some 227; Some 202; Some 181; Some 10; Some 204]) /\
  run 5 (std_copy_backward Strict17 8 20 (It 0 3) (It 2 5) (It 3 6))
    [227; 90; 165; 17; 204] = Ok (It 1 4, [Some 227; Some 202; Some 181; Some 10; Some 204]).
Proof. cbv zeta. demo. Qed.

(** C55, swap_ranges of disjoint ranges. *)
Theorem C55_swap_ranges : forall p w m fuel first last d,
  let len := addr w last - addr w first in
  valid_w w -> wf_mem w m -> good_range w m first last -> good_dest w m d len ->
  addr w last <= addr w d \/ addr w d + len <= addr w first -> len < Z.of_nat fuel ->
  agree (swap_ranges p w first last d) (std_swap_ranges p w fuel first last d) m.
Proof. exact std_swap_agree. Qed.
Print Assumptions C55_swap_ranges.

(** 18 bits with the 18 bits behind them. *)
Example C55_swap_ranges_example :
  let m := mem_of [227; 90; 165; 17; 204] in
  valid_w 8 /\ wf_mem 8 m /\ good_range 8 m (It 0 3) (It 2 5) /\
  good_dest 8 m (It 2 5) (addr 8 (It 2 5) - addr 8 (It 0 3)) /\
  (addr 8 (It 2 5) <= addr 8 (It 2 5) \/
   addr 8 (It 2 5) + (addr 8 (It 2 5) - addr 8 (It 0 3)) <= addr 8 (It 0 3)) /\
  addr 8 (It 2 5) - addr 8 (It 0 3) < Z.of_nat 20 /\
  run 5 (swap_ranges Strict17 8 (It 0 3) (It 2 5) (It 2 5))
    [227; 90; 165; 17; 204] = Ok (It 4 7, [Some 107; Some 4; Some 147; Some 107; Some 149]) /\
  run 5 (std_swap_ranges Strict17 8 20 (It 0 3) (It 2 5) (It 2 5))
    [227; 90; 165; 17; 204] = Ok (It 4 7, [Some 107; Some 4; Some 147; Some 107; Some 149]).
Proof. cbv zeta. demo. Qed.

(** C55, reverse. Missing, because it is false of the code: a range from inside a
    word to its end under the rules that leave the shift of _bitblend undefined
    (C55_reverse_refuted). *)
Theorem C55_reverse_partial : forall p w m fuel first last,
  valid_w w -> wf_mem w m -> good_range w m first last ->
  addr w last - addr w first + 2 * w <= max_bits ->
  (addr w first = addr w last -> ip first = 0 \/ m (ib first) <> None) ->
  ip first = 0 \/ ip last <> 0 \/ ib last - ib first <> 1 \/ full_blend_defined p w ->
  addr w last - addr w first < Z.of_nat fuel ->
  agree (reverse p w first last) (std_reverse p w fuel first last) m.
Proof. exact std_reverse_agree. Qed.
Print Assumptions C55_reverse_partial.

(** 18 bits across three words. *)
Example C55_reverse_example :
  let m := mem_of [227; 90; 165; 17; 204] in
  valid_w 8 /\ wf_mem 8 m /\ good_range 8 m (It 0 3) (It 2 5) /\
  addr 8 (It 2 5) - addr 8 (It 0 3) + 2 * 8 <= max_bits /\
  (addr 8 (It 0 3) = addr 8 (It 2 5) -> 3 = 0 \/ m 0 <> None) /\
  (3 = 0 \/ 5 <> 0 \/ 2 - 0 <> 1 \/ full_blend_defined Strict17 8) /\
  addr 8 (It 2 5) - addr 8 (It 0 3) < Z.of_nat 20 /\
  run 5 (reverse Strict17 8 (It 0 3) (It 2 5))
    [227; 90; 165; 17; 204] = Ok (tt, [Some 163; Some 90; Some 167; Some 17; Some 204]) /\
  run 5 (std_reverse Strict17 8 20 (It 0 3) (It 2 5))
    [227; 90; 165; 17; 204] = Ok (tt, [Some 163; Some 90; Some 167; Some 17; Some 204]).
Proof. cbv zeta. demo. Qed.

(** C55, rotate. Missing, because it is false of the code: n_first = last
    (C55_rotate_refuted), and parts of more than 2^32 (w + 1) bits or 2^32 times as
    long as each other (C22), and the parts of a 128-bit word of C69. *)
Theorem C55_rotate_partial : forall p w m fuel first n_first last,
  valid_w w -> wf_mem w m -> good_range w m first last -> valid_it w n_first ->
  addr w first <= addr w n_first < addr w last ->
  Z.min (addr w n_first - addr w first) (addr w last - addr w n_first) <= 2 ^ 32 * (w + 1) ->
  (addr w last - addr w n_first <= w \/
   (addr w n_first - addr w first) / (addr w last - addr w n_first) < 2 ^ 32) ->
  mask_fits w (ip first) (addr w last - addr w first) ->
  addr w last - addr w first < Z.of_nat fuel ->
  agree (rotate p w first n_first last) (std_rotate p w fuel first n_first last) m.
Proof. exact std_rotate_agree. Qed.
Print Assumptions C55_rotate_partial.

(** 18 bits by six. *)
Example C55_rotate_example :
  let m := mem_of [227; 90; 165; 17; 204] in
  valid_w 8 /\ wf_mem 8 m /\ good_range 8 m (It 0 3) (It 2 5) /\
  valid_it 8 (It 1 1) /\ addr 8 (It 0 3) <= addr 8 (It 1 1) < addr 8 (It 2 5) /\
  Z.min (addr 8 (It 1 1) - addr 8 (It 0 3)) (addr 8 (It 2 5) - addr 8 (It 1 1))
    <= 2 ^ 32 * (8 + 1) /\
  (addr 8 (It 2 5) - addr 8 (It 1 1) <= 8 \/
   (addr 8 (It 1 1) - addr 8 (It 0 3)) / (addr 8 (It 2 5) - addr 8 (It 1 1)) < 2 ^ 32) /\
  mask_fits 8 (ip (It 0 3)) (addr 8 (It 2 5) - addr 8 (It 0 3)) /\
  addr 8 (It 2 5) - addr 8 (It 0 3) < Z.of_nat 20 /\
  run 5 (rotate Strict17 8 (It 0 3) (It 1 1) (It 2 5))
    [227; 90; 165; 17; 204] = Ok (It 1 7, [Some 107; Some 21; Some 174; Some 17; Some 204]) /\
  run 5 (std_rotate Strict17 8 20 (It 0 3) (It 1 1) (It 2 5))
    [227; 90; 165; 17; 204] = Ok (It 1 7, [Some 107; Some 21; Some 174; Some 17; Some 204]).
Proof. cbv zeta. demo. Qed.

(** C55, transform with an operation on words that works bit by bit as [g]. *)
Theorem C55_transform : forall p w op g m fuel first last d,
  valid_w w -> wf_mem w m -> good_range w m first last ->
  good_dest w m d (addr w last - addr w first) ->
  addr w d <= addr w first \/ addr w last <= addr w d -> bitwise w op g ->
  addr w last - addr w first < Z.of_nat fuel ->
  agree (transform1 p w op first last d) (std_transform p w fuel g first last d) m.
Proof. exact std_transform_agree. Qed.
Print Assumptions C55_transform.

(** Complementing 18 bits on the way two bits to the front. *)
Example C55_transform_example :
  let m := mem_of [227; 90; 165; 17; 204] in
  valid_w 8 /\ wf_mem 8 m /\ good_range 8 m (It 0 3) (It 2 5) /\
  good_dest 8 m (It 0 1) (addr 8 (It 2 5) - addr 8 (It 0 3)) /\
  (addr 8 (It 0 1) <= addr 8 (It 0 3) \/ addr 8 (It 2 5) <= addr 8 (It 0 1)) /\
  bitwise 8 (fun x => Z.lxor x 255) negb /\
  addr 8 (It 2 5) - addr 8 (It 0 3) < Z.of_nat 20 /\
  run 5 (transform1 Strict17 8 (fun x => Z.lxor x 255) (It 0 3) (It 2 5) (It 0 1))
    [227; 90; 165; 17; 204] = Ok (It 2 3, [Some 71; Some 169; Some 166; Some 17; Some 204]) /\
  run 5 (std_transform Strict17 8 20 negb (It 0 3) (It 2 5) (It 0 1))
    [227; 90; 165; 17; 204] = Ok (It 2 3, [Some 71; Some 169; Some 166; Some 17; Some 204]).
Proof. cbv zeta. do 5 (split; [demo|]).
  split; [exact bitwise_not8|]. demo. Qed.

(** C55, transform with a binary operation. *)
Theorem C55_transform2 : forall p w op g m fuel first last first2 d,
  let len := addr w last - addr w first in
  valid_w w -> wf_mem w m -> good_range w m first last -> good_dest w m first2 len ->
  good_dest w m d len -> addr w d <= addr w first \/ addr w last <= addr w d ->
  addr w d <= addr w first2 \/ addr w first2 + len <= addr w d -> bitwise2 w op g ->
  len < Z.of_nat fuel ->
  agree (transform2 p w op first last first2 d) (std_transform2 p w fuel g first last first2 d) m.
Proof. exact std_transform2_agree. Qed.
Print Assumptions C55_transform2.

(** The conjunction of two overlapping ranges. *)
Example C55_transform2_example :
  let m := mem_of [227; 90; 165; 17; 204] in
  valid_w 8 /\ wf_mem 8 m /\ good_range 8 m (It 0 3) (It 2 5) /\
  good_dest 8 m (It 1 6) (addr 8 (It 2 5) - addr 8 (It 0 3)) /\
  good_dest 8 m (It 0 1) (addr 8 (It 2 5) - addr 8 (It 0 3)) /\
  (addr 8 (It 0 1) <= addr 8 (It 0 3) \/ addr 8 (It 2 5) <= addr 8 (It 0 1)) /\
  (addr 8 (It 0 1) <= addr 8 (It 1 6) \/
   addr 8 (It 1 6) + (addr 8 (It 2 5) - addr 8 (It 0 3)) <= addr 8 (It 0 1)) /\
  bitwise2 8 Z.land andb /\
  addr 8 (It 2 5) - addr 8 (It 0 3) < Z.of_nat 20 /\
  run 5 (transform2 Strict17 8 Z.land (It 0 3) (It 2 5) (It 1 6) (It 0 1))
    [227; 90; 165; 17; 204] = Ok (It 2 3, [Some 41; Some 4; Some 160; Some 17; Some 204]) /\
  run 5 (std_transform2 Strict17 8 20 andb (It 0 3) (It 2 5) (It 1 6) (It 0 1))
    [227; 90; 165; 17; 204] = Ok (It 2 3, [Some 41; Some 4; Some 160; Some 17; Some 204]).
Proof. cbv zeta. do 7 (split; [demo|]).
  split; [exact bitwise2_and8|]. demo. Qed.

(** C55, find; a position inside a word is one of a word that exists, also if the range
    is empty. *)
Theorem C55_find : forall p w m fuel first last b,
  valid_w w -> wf_mem w m -> good_range w m first last ->
  (ip first <> 0 -> m (ib first) <> None) -> addr w last - addr w first < Z.of_nat fuel ->
  agree (find p w first last b) (std_find p w fuel first last b) m.
Proof. exact std_find_agree. Qed.
Print Assumptions C55_find.

(** The first false bit of 18. *)
Example C55_find_example :
  let m := mem_of [227; 90; 165; 17; 204] in
  valid_w 8 /\ wf_mem 8 m /\ good_range 8 m (It 0 3) (It 2 5) /\
  (3 <> 0 -> m 0 <> None) /\
  addr 8 (It 2 5) - addr 8 (It 0 3) < Z.of_nat 20 /\
  run 0 (find Strict17 8 (It 0 3) (It 2 5) false)
    [227; 90; 165; 17; 204] = Ok (It 0 3, []) /\
  run 0 (std_find Strict17 8 20 (It 0 3) (It 2 5) false)
    [227; 90; 165; 17; 204] = Ok (It 0 3, []).
Proof. cbv zeta. demo. Qed.

(** C55, count. Missing, because it is false of the code: an empty range behind the last
    word (C55_count_refuted), and the targets on which libpopcnt reads past the range
    (C14). *)
Theorem C55_count_partial : forall t p w m fuel first last b,
  valid_w w -> wf_mem w m -> good_range w m first last ->
  (exists c, t = X86 c) \/ t = Neon true \/ w = 64 ->
  (first = last -> m (ib first) <> None) -> addr w last - addr w first < Z.of_nat fuel ->
  agree (count t p w first last b) (std_count p w fuel first last b 0) m.
Proof. exact std_count_agree. Qed.
Print Assumptions C55_count_partial.

(** The true bits of 18. *)
Example C55_count_example :
  let m := mem_of [227; 90; 165; 17; 204] in
  valid_w 8 /\ wf_mem 8 m /\ good_range 8 m (It 0 3) (It 2 5) /\
  ((exists c, X86 (Cpu true true true) = X86 c) \/
   X86 (Cpu true true true) = Neon true \/ 8 = 64) /\
  (It 0 3 = It 2 5 -> m 0 <> None) /\
  addr 8 (It 2 5) - addr 8 (It 0 3) < Z.of_nat 20 /\
  run 0 (count (X86 (Cpu true true true)) Strict17 8 (It 0 3) (It 2 5) true)
    [227; 90; 165; 17; 204] = Ok (9, []) /\
  run 0 (std_count Strict17 8 20 (It 0 3) (It 2 5) true 0)
    [227; 90; 165; 17; 204] = Ok (9, []).
Proof. cbv zeta. split; [demo|]. split; [demo|]. split; [demo|].
  split; [left; eexists; reflexivity|]. demo. Qed.

(** C55, equal. *)
Theorem C55_equal : forall p w m fuel first last d,
  valid_w w -> wf_mem w m -> good_range w m first last ->
  good_dest w m d (addr w last - addr w first) -> addr w last - addr w first < Z.of_nat fuel ->
  agree (equal p w first last d) (std_equal p w fuel first last d) m.
Proof. exact std_equal_agree. Qed.
Print Assumptions C55_equal.

(** Two different ranges of 18 bits. *)
Example C55_equal_example :
  let m := mem_of [227; 90; 165; 17; 204] in
  valid_w 8 /\ wf_mem 8 m /\ good_range 8 m (It 0 3) (It 2 5) /\
  good_dest 8 m (It 2 1) (addr 8 (It 2 5) - addr 8 (It 0 3)) /\
  addr 8 (It 2 5) - addr 8 (It 0 3) < Z.of_nat 20 /\
  run 0 (equal Strict17 8 (It 0 3) (It 2 5) (It 2 1))
    [227; 90; 165; 17; 204] = Ok (false, []) /\
  run 0 (std_equal Strict17 8 20 (It 0 3) (It 2 5) (It 2 1))
    [227; 90; 165; 17; 204] = Ok (false, []).
Proof. cbv zeta. demo. Qed.

(** C55 is false of copy_backward: two whole words to the words behind them. *)
Theorem C55_copy_backward_refuted : exists p w m fuel first last d,
  valid_w w /\ wf_mem w m /\ good_range w m first last /\
  good_dest_end w m d (addr w last - addr w first) /\ addr w last <= addr w d /\
  (exists r m', std_copy_backward p w fuel first last d m = Ok (r, m')) /\
  exists u, copy_backward p w first last d m = UB u.
Proof. exact std_copy_backward_refuted. Qed.
Print Assumptions C55_copy_backward_refuted.

(** C55 is false of reverse: the last five bits of a word. *)
Theorem C55_reverse_refuted : exists p w m fuel first last,
  valid_w w /\ wf_mem w m /\ good_range w m first last /\
  (exists m', std_reverse p w fuel first last m = Ok (tt, m')) /\
  exists u, reverse p w first last m = UB u.
Proof. exact std_reverse_refuted. Qed.
Print Assumptions C55_reverse_refuted.

(** C55 is false of rotate: std::rotate (first, last, last) returns first, bit::rotate
    reads behind the array. *)
Theorem C55_rotate_refuted : exists p w m fuel first last,
  valid_w w /\ wf_mem w m /\ good_range w m first last /\ addr w first < addr w last /\
  std_rotate p w fuel first last last m = Ok (first, m) /\
  rotate p w first last last m = UB OutOfBounds.
Proof. exact std_rotate_refuted. Qed.
Print Assumptions C55_rotate_refuted.

(** C55 is false of count on an empty range: the standard's loop reads nothing. *)
Theorem C55_count_refuted : exists t p w m fuel it b,
  valid_w w /\ wf_mem w m /\ good_range w m it it /\
  std_count p w fuel it it b 0 m = Ok (0, m) /\ count t p w it it b m = UB OutOfBounds.
Proof. exact std_count_refuted. Qed.
Print Assumptions C55_count_refuted.

(** C55, shift_left: the same iterator returned, the same bits kept and the same bits
    around the range; the vacated ones are unspecified in std::shift_left. *)
Theorem C55_shift_left_partial : forall p w m fuel first last n,
  valid_w w -> wf_mem w m -> good_range w m first last ->
  0 < n < addr w last - addr w first ->
  ip first <> 0 \/ ip last <> 0 \/ ib last - ib first <> 1 \/ full_blend_defined p w ->
  addr w last - addr w first < Z.of_nat fuel ->
  agree_but w (addr w last - n) (addr w last)
    (shift_left p w first last n) (std_shift_left p w fuel first last n) m.
Proof. exact std_shift_left_agree. Qed.
Print Assumptions C55_shift_left_partial.

(** 27 bits by 5. *)
Example C55_shift_left_example :
  let m := mem_of [227; 90; 165; 17] in
  valid_w 8 /\ wf_mem 8 m /\ good_range 8 m (It 0 3) (It 3 6) /\
  0 < 5 < addr 8 (It 3 6) - addr 8 (It 0 3) /\
  (ip (It 0 3) <> 0 \/ ip (It 3 6) <> 0 \/ ib (It 3 6) - ib (It 0 3) <> 1 \/
    full_blend_defined Strict17 8) /\
  addr 8 (It 3 6) - addr 8 (It 0 3) < Z.of_nat 40 /\
  run 4 (shift_left Strict17 8 (It 0 3) (It 3 6) 5) [227; 90; 165; 17]
    = Ok (It 3 1, [Some 211; Some 42; Some 141; Some 16]) /\
  run 4 (std_shift_left Strict17 8 40 (It 0 3) (It 3 6) 5) [227; 90; 165; 17]
    = Ok (It 3 1, [Some 211; Some 42; Some 141; Some 16]).
Proof. cbv zeta. demo. Qed.

(** C55, shift_right. *)
Theorem C55_shift_right_partial : forall p w m fuel first last n,
  valid_w w -> wf_mem w m -> good_range w m first last ->
  0 < n < addr w last - addr w first ->
  ip first <> 0 \/ ip last <> 0 \/ ib last - ib first <> 1 \/ full_blend_defined p w ->
  addr w last - addr w first < Z.of_nat fuel ->
  agree_but w (addr w first) (addr w first + n)
    (shift_right p w first last n) (std_shift_right p w fuel first last n) m.
Proof. exact std_shift_right_agree. Qed.
Print Assumptions C55_shift_right_partial.

Example C55_shift_right_example :
  let m := mem_of [227; 90; 165; 17] in
  valid_w 8 /\ wf_mem 8 m /\ good_range 8 m (It 0 3) (It 3 6) /\
  0 < 5 < addr 8 (It 3 6) - addr 8 (It 0 3) /\
  (ip (It 0 3) <> 0 \/ ip (It 3 6) <> 0 \/ ib (It 3 6) - ib (It 0 3) <> 1 \/
    full_blend_defined Strict17 8) /\
  addr 8 (It 3 6) - addr 8 (It 0 3) < Z.of_nat 40 /\
  run 4 (shift_right Strict17 8 (It 0 3) (It 3 6) 5) [227; 90; 165; 17]
    = Ok (It 1 0, [Some 227; Some 92; Some 171; Some 52]) /\
  run 4 (std_shift_right Strict17 8 40 (It 0 3) (It 3 6) 5) [227; 90; 165; 17]
    = Ok (It 1 0, [Some 227; Some 92; Some 171; Some 52]).
Proof. cbv zeta. demo. Qed.

(** C55, shifts by nothing or by the whole range or more do nothing in both. *)
Theorem C55_shift_none : forall p w m fuel first last n,
  valid_w w -> good_range w m first last ->
  n = 0 \/ addr w last - addr w first <= n -> 0 <= n ->
  agree (shift_left p w first last n) (std_shift_left p w fuel first last n) m /\
  agree (shift_right p w first last n) (std_shift_right p w fuel first last n) m.
Proof.
  exact (fun p w m fuel first last n V G H H0 =>
    conj (std_shift_left_none p w m fuel first last n V G H H0)
      (std_shift_right_none p w m fuel first last n V G H H0)).
Qed.
Print Assumptions C55_shift_none.

Example C55_shift_none_example :
  let m := mem_of [227; 90] in
  valid_w 8 /\ good_range 8 m (It 0 3) (It 1 6) /\
  (11 = 0 \/ addr 8 (It 1 6) - addr 8 (It 0 3) <= 11) /\
  run 2 (shift_left Strict17 8 (It 0 3) (It 1 6) 11) [227; 90] = Ok (It 0 3, [Some 227; Some 90]) /\
  run 2 (std_shift_right Strict17 8 0 (It 0 3) (It 1 6) 11) [227; 90]
    = Ok (It 1 6, [Some 227; Some 90]).
Proof. cbv zeta. demo. Qed.

(** C55 is false of the shifts of exactly one whole word. *)
Theorem C55_shift_refuted : exists p w m fuel first last n,
  valid_w w /\ wf_mem w m /\ good_range w m first last /\ 0 < n < addr w last - addr w first /\
  (exists r m', std_shift_left p w fuel first last n m = Ok (r, m')) /\
  (exists r m', std_shift_right p w fuel first last n m = Ok (r, m')) /\
  (exists u, shift_left p w first last n m = UB u) /\
  exists u, shift_right p w first last n m = UB u.
Proof. exact std_shift_refuted. Qed.
Print Assumptions C55_shift_refuted.
