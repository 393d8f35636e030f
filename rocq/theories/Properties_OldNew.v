(** Property C76: what the words hold while an algorithm runs, as another thread or a signal
    handler would find them between two accesses. *)
From Coq Require Import ZArith Bool List Lia.
From Verif Require Import Base IterModel AlgModel TransformModel SwapModel ShiftModel ReverseModel
  RotateModel ThreadModel Spec Demo ProofOldNew ProofOutside
  ProofSwapOutside ProofRotateOutside.
From Verif Require TraceModel.
Import ListNotations.
Open Scope Z_scope.

(** At every moment of fill every word has its old or its final value. *)
Theorem C76_fill : forall p w first last b m x m', valid_w w -> valid_it w first ->
  valid_it w last -> 0 <= addr w last - addr w first <= max_bits ->
  fill p w first last b m = Ok (x, m') ->
  forall s, psteps (m, [TraceModel.fill p w first last b]) s ->
  forall a, fst s a = m a \/ fst s a = m' a.
Proof. exact fill_old_or_new. Qed.
Print Assumptions C76_fill.

(** Bits 5 to 22, after the first of the words has been written. *)
Example C76_fill_example :
  let m := mem_of [1; 2; 3] in let t := TraceModel.fill Strict20 8 (It 0 5) (It 2 6) true in
  valid_w 8 /\ valid_it 8 (It 0 5) /\ valid_it 8 (It 2 6) /\
  0 <= addr 8 (It 2 6) - addr 8 (It 0 5) <= max_bits /\
  run 3 (fill Strict20 8 (It 0 5) (It 2 6) true) [1; 2; 3] = Ok (tt, map Some [225; 255; 63]) /\
  psteps (m, [t]) (after 2 m t) /\
  map (fst (after 2 m t)) [0; 1; 2] = map Some [225; 2; 3].
Proof.
  cbv zeta. split; [demo|]. split; [demo|]. split; [demo|]. split; [demo|]. split; [demo|].
  split; [apply after_steps|demo].
Qed.

(** The same of copy, move, copy_backward and both transforms, also where the ranges overlap. *)
Theorem C76_copy : forall p w op op2 first last first2 d m x m', valid_w w -> valid_it w first ->
  valid_it w last -> valid_it w d -> 0 <= addr w last - addr w first <= max_bits ->
  let sees_only t := forall s, psteps (m, [t]) s -> forall a, fst s a = m a \/ fst s a = m' a in
  (copy p w first last d m = Ok (x, m') -> sees_only (TraceModel.copy p w first last d)) /\
  (move p w first last d m = Ok (x, m') -> sees_only (TraceModel.move p w first last d)) /\
  (copy_backward p w first last d m = Ok (x, m') ->
     sees_only (TraceModel.copy_backward p w first last d)) /\
  (transform1 p w op first last d m = Ok (x, m') ->
     sees_only (TraceModel.transform1 p w op first last d)) /\
  (transform2 p w op2 first last first2 d m = Ok (x, m') ->
     sees_only (TraceModel.transform2 p w op2 first last first2 d)).
Proof. exact copy_old_or_new. Qed.
Print Assumptions C76_copy.

(** 18 bits from bit 3 to bit 13 of the same words, after two of three writes. *)
Example C76_copy_example :
  let m := mem_of [165; 60; 15; 200] in
  let t := TraceModel.copy Strict20 8 (It 0 3) (It 2 5) (It 1 5) in
  valid_w 8 /\ valid_it 8 (It 0 3) /\ valid_it 8 (It 2 5) /\ valid_it 8 (It 1 5) /\
  0 <= addr 8 (It 2 5) - addr 8 (It 0 3) <= max_bits /\
  run 4 (copy Strict20 8 (It 0 3) (It 2 5) (It 1 5)) [165; 60; 15; 200]
    = Ok (It 3 7, map Some [165; 156; 114; 202]) /\
  psteps (m, [t]) (after 6 m t) /\
  map (fst (after 6 m t)) [0; 1; 2; 3] = map Some [165; 156; 114; 200].
Proof.
  cbv zeta. split; [demo|]. split; [demo|]. split; [demo|]. split; [demo|]. split; [demo|].
  split; [demo|]. split; [apply after_steps|demo].
Qed.

(** The same of shift_right. *)
Theorem C76_shift_right : forall p w first last n m x m', valid_w w -> valid_it w first ->
  valid_it w last -> 0 <= addr w last - addr w first <= max_bits ->
  shift_right p w first last n m = Ok (x, m') ->
  forall s, psteps (m, [TraceModel.shift_right p w first last n]) s ->
  forall a, fst s a = m a \/ fst s a = m' a.
Proof. exact shift_right_old_or_new. Qed.
Print Assumptions C76_shift_right.

(** 28 bits by 5, halfway through. *)
Example C76_shift_right_example :
  let m := mem_of [165; 60; 15; 200] in
  let t := TraceModel.shift_right Strict20 8 (It 0 2) (It 3 6) 5 in
  valid_w 8 /\ valid_it 8 (It 0 2) /\ valid_it 8 (It 3 6) /\
  0 <= addr 8 (It 3 6) - addr 8 (It 0 2) <= max_bits /\
  run 4 (shift_right Strict20 8 (It 0 2) (It 3 6) 5) [165; 60; 15; 200]
    = Ok (It 0 7, map Some [165; 148; 231; 193]) /\
  psteps (m, [t]) (after 7 m t) /\
  map (fst (after 7 m t)) [0; 1; 2; 3] = map Some [165; 60; 231; 193].
Proof.
  cbv zeta. split; [demo|]. split; [demo|]. split; [demo|]. split; [demo|]. split; [demo|].
  split; [apply after_steps|demo].
Qed.

(** Bit by bit: while fill runs, a bit outside the range never changes, and one inside has
    its old value or already the new one. *)
Theorem C76_fill_bits : forall p w m first last b s i, valid_w w -> wf_mem w m ->
  good_range w m first last -> psteps (m, [TraceModel.fill p w first last b]) s ->
  bit w (fst s) i = bit w m i \/
  (addr w first <= i < addr w last /\ bit w (fst s) i = b).
Proof. exact fill_bits. Qed.
Print Assumptions C76_fill_bits.

(** Bit 6 is already set, bit 10 not yet; bit 4 is not in the range. *)
Example C76_fill_bits_example :
  let m := mem_of [1; 2; 3] in let t := TraceModel.fill Strict20 8 (It 0 5) (It 2 6) true in
  valid_w 8 /\ wf_mem 8 m /\ good_range 8 m (It 0 5) (It 2 6) /\
  psteps (m, [t]) (after 2 m t) /\
  map (bit 8 (fst (after 2 m t))) [4; 6; 10] = [false; true; false] /\
  map (bit 8 m) [4; 6; 10] = [false; false; false].
Proof.
  cbv zeta. split; [demo|]. split; [demo|]. split; [demo|]. split; [apply after_steps|]. split; demo.
Qed.

(** While copy runs, a bit outside the destination never changes, and one inside has its old
    value or already that of the source before the call. *)
Theorem C76_copy_bits : forall p w m first last d s i, valid_w w -> wf_mem w m ->
  good_range w m first last -> good_dest w m d (addr w last - addr w first) ->
  addr w d <= addr w first \/ addr w last <= addr w d ->
  psteps (m, [TraceModel.copy p w first last d]) s ->
  bit w (fst s) i = bit w m i \/
  (addr w d <= i < addr w d + (addr w last - addr w first) /\
   bit w (fst s) i = bit w m (addr w first + (i - addr w d))).
Proof. exact copy_bits. Qed.
Print Assumptions C76_copy_bits.

(** 22 bits moved down by three within the same words, after the first write. *)
Example C76_copy_bits_example :
  let m := mem_of [227; 90; 165; 17] in
  let t := TraceModel.copy Strict20 8 (It 0 5) (It 3 3) (It 0 2) in
  valid_w 8 /\ wf_mem 8 m /\ good_range 8 m (It 0 5) (It 3 3) /\
  good_dest 8 m (It 0 2) (addr 8 (It 3 3) - addr 8 (It 0 5)) /\
  addr 8 (It 0 2) <= addr 8 (It 0 5) /\
  psteps (m, [t]) (after 4 m t) /\
  map (fst (after 4 m t)) [0; 1; 2; 3] = map Some [95; 90; 165; 17].
Proof.
  cbv zeta. split; [demo|]. split; [demo|]. split; [demo|]. split; [demo|]. split; [demo|].
  split; [apply after_steps|demo].
Qed.

(** The same of copy_backward, whose destination ends at [d], *)
Theorem C76_copy_backward_bits : forall o w m first last d s i, valid_w w -> wf_mem w m ->
  good_range w m first last -> good_dest_end w m d (addr w last - addr w first) ->
  addr w last <= addr w d \/ addr w d <= addr w first ->
  psteps (m, [TraceModel.copy_backward (Hw o) w first last d]) s ->
  bit w (fst s) i = bit w m i \/
  (addr w d - (addr w last - addr w first) <= i < addr w d /\
   bit w (fst s) i = bit w m (addr w last - (addr w d - i))).
Proof. exact copy_backward_bits. Qed.
Print Assumptions C76_copy_backward_bits.

(** 22 bits moved up by three within the same words, after the first write. *)
Example C76_copy_backward_bits_example :
  let m := mem_of [227; 90; 165; 17] in
  let t := TraceModel.copy_backward (Hw (fun _ _ _ => 77)) 8 (It 0 2) (It 3 0) (It 3 3) in
  valid_w 8 /\ wf_mem 8 m /\ good_range 8 m (It 0 2) (It 3 0) /\
  good_dest_end 8 m (It 3 3) (addr 8 (It 3 0) - addr 8 (It 0 2)) /\
  addr 8 (It 3 0) <= addr 8 (It 3 3) /\
  psteps (m, [t]) (after 4 m t) /\
  map (fst (after 4 m t)) [0; 1; 2; 3] = map Some [227; 90; 165; 21].
Proof.
  cbv zeta. split; [demo|]. split; [demo|]. split; [demo|]. split; [demo|]. split; [demo|].
  split; [apply after_steps|demo].
Qed.

(** and of transform with a function [f] of bits that [op] applies to whole words. *)
Theorem C76_transform_bits : forall p w op f m first last d s i, valid_w w -> wf_mem w m ->
  good_range w m first last -> good_dest w m d (addr w last - addr w first) ->
  addr w d <= addr w first \/ addr w last <= addr w d ->
  (forall x, 0 <= x < 2 ^ w -> 0 <= op x < 2 ^ w) ->
  (forall x k, 0 <= x < 2 ^ w -> 0 <= k < w -> Z.testbit (op x) k = f (Z.testbit x k)) ->
  psteps (m, [TraceModel.transform1 p w op first last d]) s ->
  bit w (fst s) i = bit w m i \/
  (addr w d <= i < addr w d + (addr w last - addr w first) /\
   bit w (fst s) i = f (bit w m (addr w first + (i - addr w d)))).
Proof. exact transform_bits. Qed.
Print Assumptions C76_transform_bits.

(** 22 bits inverted in place, after the first write. *)
Example C76_transform_bits_example :
  let m := mem_of [227; 90; 165; 17] in let op := fun x => 255 - x in
  let t := TraceModel.transform1 Strict20 8 op (It 0 5) (It 3 3) (It 0 5) in
  valid_w 8 /\ wf_mem 8 m /\ good_range 8 m (It 0 5) (It 3 3) /\
  good_dest 8 m (It 0 5) (addr 8 (It 3 3) - addr 8 (It 0 5)) /\
  (forall x, 0 <= x < 2 ^ 8 -> 0 <= op x < 2 ^ 8) /\
  (forall x k, 0 <= x < 2 ^ 8 -> 0 <= k < 8 -> Z.testbit (op x) k = negb (Z.testbit x k)) /\
  psteps (m, [t]) (after 3 m t) /\
  map (fst (after 3 m t)) [0; 1; 2; 3] = map Some [3; 90; 165; 17].
Proof.
  cbv zeta. split; [demo|]. split; [demo|]. split; [demo|]. split; [demo|].
  split; [intros; lia|]. split.
  - intros x k Hx Hk. replace (255 - x) with (Z.lnot x + 1 * 2 ^ 8) by (unfold Z.lnot; lia).
    rewrite <- (Z.mod_pow2_bits_low _ 8) by lia. rewrite Z.mod_add by lia.
    rewrite Z.mod_pow2_bits_low by lia. apply Z.lnot_spec. lia.
  - split; [apply after_steps|demo].
Qed.

(** While shift_right runs, a bit outside the range never changes, and one that receives a
    bit has its old value or already that of the bit [n] places before it. *)
Theorem C76_shift_right_bits : forall o w m first last n s i, valid_w w -> wf_mem w m ->
  good_range w m first last -> 0 < n < addr w last - addr w first ->
  psteps (m, [TraceModel.shift_right (Hw o) w first last n]) s ->
  i < addr w first \/ addr w first + n <= i ->
  bit w (fst s) i = bit w m i \/
  (addr w first + n <= i < addr w last /\ bit w (fst s) i = bit w m (i - n)).
Proof. exact shift_right_bits. Qed.
Print Assumptions C76_shift_right_bits.

(** Bit 27 has received bit 22 after the first write. *)
Example C76_shift_right_bits_example :
  let m := mem_of [165; 60; 15; 200] in
  let t := TraceModel.shift_right (Hw (fun _ _ _ => 77)) 8 (It 0 2) (It 3 6) 5 in
  valid_w 8 /\ wf_mem 8 m /\ good_range 8 m (It 0 2) (It 3 6) /\
  0 < 5 < addr 8 (It 3 6) - addr 8 (It 0 2) /\
  psteps (m, [t]) (after 4 m t) /\ addr 8 (It 0 2) + 5 <= 27 /\
  bit 8 m 27 = true /\ bit 8 (fst (after 4 m t)) 27 = false /\ bit 8 m (27 - 5) = false.
Proof.
  cbv zeta. split; [demo|]. split; [demo|]. split; [demo|]. split; [demo|].
  split; [apply after_steps|]. split; [demo|]. split; [demo|]. split; demo.
Qed.

(** It is false of the algorithms that write some words of the range more than once: of
    swap_ranges, even on disjoint ranges, *)
Theorem C76_swap_ranges_refuted : exists p w first last first2 m x m' s a, valid_w w /\
  wf_mem w m /\ valid_it w first /\ valid_it w last /\ valid_it w first2 /\
  addr w last <= addr w first2 /\ swap_ranges p w first last first2 m = Ok (x, m') /\
  psteps (m, [TraceModel.swap_ranges p w first last first2]) s /\
  fst s a <> m a /\ fst s a <> m' a.
Proof. exact swap_ranges_in_between. Qed.
Print Assumptions C76_swap_ranges_refuted.

(** Still, while swap_ranges runs no bit outside its two ranges changes, whether they overlap
    or not, on any memory and even if the call fails later. *)
Theorem C76_swap_ranges_outside : forall p w first last first2 m s i, valid_w w ->
  valid_it w first -> valid_it w last -> valid_it w first2 ->
  0 <= addr w last - addr w first <= max_bits ->
  psteps (m, [TraceModel.swap_ranges p w first last first2]) s ->
  (i < addr w first \/ addr w last <= i) ->
  (i < addr w first2 \/ addr w first2 + (addr w last - addr w first) <= i) ->
  bit w (fst s) i = bit w m i.
Proof. exact swap_ranges_outside. Qed.
Print Assumptions C76_swap_ranges_outside.

(** Word 0 between its two writes; bits 0, 1, 6 and 7 are outside. *)
Example C76_swap_ranges_outside_example :
  let m := mem_of [165; 60; 15; 200] in
  let t := TraceModel.swap_ranges Strict20 8 (It 0 2) (It 0 6) (It 1 1) in
  valid_w 8 /\ valid_it 8 (It 0 2) /\ valid_it 8 (It 0 6) /\ valid_it 8 (It 1 1) /\
  0 <= addr 8 (It 0 6) - addr 8 (It 0 2) <= max_bits /\
  psteps (m, [t]) (after 3 m t) /\
  map (fst (after 3 m t)) [0; 1; 2; 3] = map Some [157; 60; 15; 200] /\
  map (bit 8 m) [0; 1; 6; 7] = map (bit 8 (fst (after 3 m t))) [0; 1; 6; 7].
Proof.
  cbv zeta. split; [demo|]. split; [demo|]. split; [demo|]. split; [demo|]. split; [demo|].
  split; [apply after_steps|]. split; demo.
Qed.

(** The claim is false of shift_left, *)
Theorem C76_shift_left_refuted : exists p w first last n m x m' s a, valid_w w /\ wf_mem w m /\
  valid_it w first /\ valid_it w last /\ 0 < n < addr w last - addr w first /\
  shift_left p w first last n m = Ok (x, m') /\
  psteps (m, [TraceModel.shift_left p w first last n]) s /\ fst s a <> m a /\ fst s a <> m' a.
Proof. exact shift_left_in_between. Qed.
Print Assumptions C76_shift_left_refuted.

(** Still, while shift_left runs no bit outside its range changes, on any memory and even if
    the call fails later. *)
Theorem C76_shift_left_outside : forall p w first last n m s i, valid_w w ->
  valid_it w first -> valid_it w last -> 0 <= addr w last - addr w first <= max_bits ->
  psteps (m, [TraceModel.shift_left p w first last n]) s ->
  i < addr w first \/ addr w last <= i ->
  bit w (fst s) i = bit w m i.
Proof. exact shift_left_outside. Qed.
Print Assumptions C76_shift_left_outside.

(** Words 0 and 1 have been written, of which bits 0 and 1 are not in the range. *)
Example C76_shift_left_outside_example :
  let m := mem_of [165; 60; 15; 200] in
  let t := TraceModel.shift_left Strict20 8 (It 0 2) (It 2 6) 5 in
  valid_w 8 /\ valid_it 8 (It 0 2) /\ valid_it 8 (It 2 6) /\
  0 <= addr 8 (It 2 6) - addr 8 (It 0 2) <= max_bits /\
  psteps (m, [t]) (after 11 m t) /\
  map (fst (after 11 m t)) [0; 1; 2; 3] = map Some [229; 57; 15; 200] /\
  map (bit 8 m) [0; 1; 22] = [true; false; false].
Proof.
  cbv zeta. split; [demo|]. split; [demo|]. split; [demo|]. split; [demo|].
  split; [apply after_steps|]. split; demo.
Qed.

(** The claim is false of rotate, *)
Theorem C76_rotate_refuted : exists p w first n_first last m x m' s a, valid_w w /\ wf_mem w m /\
  valid_it w first /\ valid_it w n_first /\ valid_it w last /\
  addr w first < addr w n_first < addr w last /\
  rotate p w first n_first last m = Ok (x, m') /\
  psteps (m, [TraceModel.rotate p w first n_first last]) s /\ fst s a <> m a /\ fst s a <> m' a.
Proof. exact rotate_in_between. Qed.
Print Assumptions C76_rotate_refuted.

(** Outside the range rotate changes no bit while it runs, on any memory: proved for a range
    in one word, *)
Theorem C76_rotate_one_word_outside_partial : forall p w first n_first last m s i, valid_w w ->
  valid_it w first -> valid_it w n_first -> valid_it w last ->
  addr w first <= addr w n_first <= addr w last -> addr w last - addr w first <= max_bits ->
  one_word first last = true ->
  psteps (m, [TraceModel.rotate p w first n_first last]) s ->
  i < addr w first \/ addr w last <= i -> bit w (fst s) i = bit w m i.
Proof. exact rotate_one_word_outside. Qed.
Print Assumptions C76_rotate_one_word_outside_partial.

Example C76_rotate_one_word_outside_partial_example :
  let m := mem_of [165; 60] in
  let t := TraceModel.rotate Strict20 8 (It 0 2) (It 0 3) (It 0 7) in
  valid_w 8 /\ valid_it 8 (It 0 2) /\ valid_it 8 (It 0 3) /\ valid_it 8 (It 0 7) /\
  addr 8 (It 0 2) <= addr 8 (It 0 3) <= addr 8 (It 0 7) /\
  addr 8 (It 0 7) - addr 8 (It 0 2) <= max_bits /\ one_word (It 0 2) (It 0 7) = true /\
  psteps (m, [t]) (after 2 m t) /\
  map (fst (after 2 m t)) [0; 1] = map Some [209; 60].
Proof.
  cbv zeta. split; [demo|]. split; [demo|]. split; [demo|]. split; [demo|]. split; [demo|].
  split; [demo|]. split; [demo|]. split; [apply after_steps|]. demo.
Qed.

(** and for two halves of equal length, more than a word each. *)
Theorem C76_rotate_halves_outside_partial : forall p w first n_first last m s i, valid_w w ->
  valid_it w first -> valid_it w n_first -> valid_it w last ->
  addr w n_first - addr w first = addr w last - addr w n_first ->
  w < addr w n_first - addr w first -> addr w last - addr w first <= max_bits ->
  psteps (m, [TraceModel.rotate p w first n_first last]) s ->
  i < addr w first \/ addr w last <= i -> bit w (fst s) i = bit w m i.
Proof. exact rotate_halves_outside. Qed.
Print Assumptions C76_rotate_halves_outside_partial.

Example C76_rotate_halves_outside_partial_example :
  let m := mem_of [165; 60; 15; 200] in
  let t := TraceModel.rotate Strict20 8 (It 0 2) (It 1 4) (It 2 6) in
  valid_w 8 /\ valid_it 8 (It 0 2) /\ valid_it 8 (It 1 4) /\ valid_it 8 (It 2 6) /\
  addr 8 (It 1 4) - addr 8 (It 0 2) = addr 8 (It 2 6) - addr 8 (It 1 4) /\
  8 < addr 8 (It 1 4) - addr 8 (It 0 2) /\ addr 8 (It 2 6) - addr 8 (It 0 2) <= max_bits /\
  psteps (m, [t]) (after 3 m t) /\
  map (fst (after 3 m t)) [0; 1; 2; 3] = map Some [169; 60; 15; 200] /\
  map (bit 8 m) [0; 1] = map (bit 8 (fst (after 3 m t))) [0; 1].
Proof.
  cbv zeta. split; [demo|]. split; [demo|]. split; [demo|]. split; [demo|]. split; [demo|].
  split; [demo|]. split; [demo|]. split; [apply after_steps|]. split; demo.
Qed.

(** The claim is false, too, of reverse, which for a while changes even bits [i] that are not in its range. *)
Theorem C76_reverse_refuted : exists p w first last m x m' s i y z, valid_w w /\ wf_mem w m /\
  valid_it w first /\ valid_it w last /\ addr w first < addr w last /\
  reverse p w first last m = Ok (x, m') /\
  psteps (m, [TraceModel.reverse p w first last]) s /\
  (i < addr w first \/ addr w last <= i) /\
  m (i / w) = Some y /\ fst s (i / w) = Some z /\ Z.testbit z (i mod w) <> Z.testbit y (i mod w).
Proof. exact reverse_in_between. Qed.
Print Assumptions C76_reverse_refuted.
