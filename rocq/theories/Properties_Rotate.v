(** Properties C22 and C23: rotate. *)
From Coq Require Import ZArith Bool List Lia.
From Verif Require Import Base WordOps IterModel AlgModel ShiftModel RotateModel
  Spec SpecRotate Demo ProofRotate ProofRotateAll.
Import ListNotations.
Open Scope Z_scope.

(** C22: bit [i] of the range becomes the bit [n_first - first] positions
    further on, cyclically; the iterator returned is the new position of the bit
    at [first]. Missing, because it is false of the code (see the theorems after
    the examples): lengths with a quotient of 2^32 or more, which rotate.hpp:138 and
    164 keep in an unsigned int; parts of a 128-bit word that the mask of 64 bits in
    rotate.hpp:224 does not cover (C69). *)
Theorem C22_rotate_partial : forall p w m first n_first last,
  valid_w w -> wf_mem w m -> good_range w m first last -> valid_it w n_first ->
  addr w first <= addr w n_first < addr w last ->
  let left := addr w n_first - addr w first in
  let right := addr w last - addr w n_first in
  Z.min left right <= 2 ^ 32 * (w + 1) ->
  mask_fits w (ip first) (addr w last - addr w first) ->
  (right <= w \/ left / right < 2 ^ 32) ->
  exists r m', rotate p w first n_first last m = Ok (r, m') /\ valid_it w r /\
    addr w r = addr w first + right /\
    updated w m m' (addr w first) (addr w last)
      (fun i => let j := i + left in
         bit w m (if j <? addr w last then j else j - (addr w last - addr w first))).
Proof. exact rotate_ok. Qed.
Print Assumptions C22_rotate_partial.

(** The general algorithm, both directions and two rounds. *)
Example C22_rotate_example :
  let m := mem_of [227; 90; 165; 17; 204] in
  valid_w 8 /\ wf_mem 8 m /\ good_range 8 m (It 0 3) (It 4 2) /\ valid_it 8 (It 1 6) /\
  addr 8 (It 0 3) <= addr 8 (It 1 6) < addr 8 (It 4 2) /\
  (let left := addr 8 (It 1 6) - addr 8 (It 0 3) in
   let right := addr 8 (It 4 2) - addr 8 (It 1 6) in
   Z.min left right <= 2 ^ 32 * (8 + 1) /\
   mask_fits 8 (ip (It 0 3)) (addr 8 (It 4 2) - addr 8 (It 0 3)) /\
   (right <= 8 \/ left / right < 2 ^ 32)) /\
  run 5 (rotate Strict17 8 (It 0 3) (It 1 6) (It 4 2)) [227; 90; 165; 17; 204]
    = Ok (It 2 7, [Some 171; Some 52; Some 2; Some 174; Some 205]).
Proof. cbv zeta. demo. Qed.

Example C22_rotate_example2 :
  let m := mem_of [227; 90; 165; 17; 204] in
  good_range 8 m (It 0 3) (It 4 3) /\ valid_it 8 (It 2 4) /\
  run 5 (rotate Strict17 8 (It 0 3) (It 2 4) (It 4 3)) [227; 90; 165; 17; 204]
    = Ok (It 2 2, [Some 211; Some 8; Some 114; Some 173; Some 202]).
Proof. cbv zeta. demo. Qed.

(** Within one word, and a short left part. *)
Example C22_rotate_example3 :
  let m := mem_of [227; 90] in
  good_range 8 m (It 0 2) (It 0 7) /\ valid_it 8 (It 0 5) /\
  run 2 (rotate Strict17 8 (It 0 2) (It 0 5) (It 0 7)) [227; 90]
    = Ok (It 0 4, [Some 143; Some 90]).
Proof. cbv zeta. demo. Qed.

Example C22_rotate_example4 :
  let m := mem_of [4660; 22136; 39612] in
  good_range 16 m (It 0 5) (It 2 9) /\ valid_it 16 (It 0 9) /\
  run 3 (rotate Strict20 16 (It 0 5) (It 0 9) (It 2 9)) [4660; 22136; 39612]
    = Ok (It 2 5, [Some 33076; Some 50535; Some 39467]).
Proof. cbv zeta. demo. Qed.

(** C22, the lengths decided: rotate does its job on every memory exactly when no
    quotient it computes reaches 2^32 (ranges inside a 128-bit word: C69). *)
Theorem C22_rotate_exact : forall p w first n_first last,
  valid_w w -> valid_it w first -> valid_it w n_first -> valid_it w last ->
  addr w first <= addr w n_first < addr w last ->
  addr w last - addr w first <= max_bits ->
  mask_fits w (ip first) (addr w last - addr w first) ->
  (quotients_fit 64 w (addr w n_first - addr w first) (addr w last - addr w n_first) = true
   <->
   forall m, wf_mem w m -> good_range w m first last ->
   exists r m', rotate p w first n_first last m = Ok (r, m') /\ valid_it w r /\
     addr w r = addr w first + (addr w last - addr w n_first) /\
     updated w m m' (addr w first) (addr w last)
       (fun i => let j := i + (addr w n_first - addr w first) in
          bit w m (if j <? addr w last then j else j - (addr w last - addr w first)))).
Proof. exact rotate_exact. Qed.
Print Assumptions C22_rotate_exact.

(** A range with lengths of either kind. *)
Example C22_rotate_exact_example :
  valid_w 64 /\ valid_it 64 (It 0 3) /\ valid_it 64 (It (2 ^ 40) 7) /\
  valid_it 64 (It (2 ^ 40 + 2) 0) /\ valid_it 64 (It (2 ^ 50) 9) /\
  addr 64 (It 0 3) <= addr 64 (It (2 ^ 40) 7) < addr 64 (It (2 ^ 40 + 2) 0) /\
  addr 64 (It (2 ^ 40 + 2) 0) - addr 64 (It 0 3) <= max_bits /\
  addr 64 (It (2 ^ 50) 9) - addr 64 (It 0 3) <= max_bits /\
  mask_fits 64 (ip (It 0 3)) (addr 64 (It (2 ^ 40 + 2) 0) - addr 64 (It 0 3)) /\
  quotients_fit 64 64 (addr 64 (It (2 ^ 40) 7) - addr 64 (It 0 3))
    (addr 64 (It (2 ^ 40 + 2) 0) - addr 64 (It (2 ^ 40) 7)) = false /\
  quotients_fit 64 64 (addr 64 (It (2 ^ 40) 7) - addr 64 (It 0 3))
    (addr 64 (It (2 ^ 50) 9) - addr 64 (It (2 ^ 40) 7)) = true.
Proof. demo. Qed.

(** C22, every length: rotate ends normally, returns the right iterator, touches
    nothing outside the range and neither loses nor duplicates a bit. *)
Theorem C22_rotate_permutes : forall p w first n_first last,
  valid_w w -> valid_it w first -> valid_it w n_first -> valid_it w last ->
  addr w first <= addr w n_first < addr w last ->
  addr w last - addr w first <= max_bits ->
  mask_fits w (ip first) (addr w last - addr w first) ->
  exists s : Z -> Z,
    (forall i, addr w first <= i < addr w last -> addr w first <= s i < addr w last) /\
    (forall i j, addr w first <= i < addr w last -> addr w first <= j < addr w last ->
       s i = s j -> i = j) /\
    forall m, wf_mem w m -> good_range w m first last ->
    exists r m', rotate p w first n_first last m = Ok (r, m') /\ valid_it w r /\
      addr w r = addr w first + (addr w last - addr w n_first) /\
      updated w m m' (addr w first) (addr w last) (fun i => bit w m (s i)).
Proof. exact rotate_permutes. Qed.
Print Assumptions C22_rotate_permutes.

Example C22_rotate_permutes_example :
  let m := mem_of [227; 90; 165; 17; 204] in
  valid_w 8 /\ valid_it 8 (It 0 3) /\ valid_it 8 (It 2 4) /\ valid_it 8 (It 4 3) /\
  addr 8 (It 0 3) <= addr 8 (It 2 4) < addr 8 (It 4 3) /\
  addr 8 (It 4 3) - addr 8 (It 0 3) <= max_bits /\
  mask_fits 8 (ip (It 0 3)) (addr 8 (It 4 3) - addr 8 (It 0 3)) /\
  wf_mem 8 m /\ good_range 8 m (It 0 3) (It 4 3).
Proof. cbv zeta. demo. Qed.

(** C22 without a bound on the lengths is false: a valid call on bytes, with 2 bytes
    after n_first and 2^33 bytes before it, leaves a wrong bit. *)
Theorem C22_rotate_refuted : exists w m first n_first last,
  valid_w w /\ wf_mem w m /\ good_range w m first last /\ valid_it w n_first /\
  addr w first < addr w n_first < addr w last /\
  exists r m' i, rotate Strict17 w first n_first last m = Ok (r, m') /\
    addr w first <= i < addr w last /\
    bit w m' i <> bit w m (rotl_from (addr w first) (addr w last - addr w first)
                             (addr w n_first - addr w first) i).
Proof. exact rotate_refuted. Qed.
Print Assumptions C22_rotate_refuted.

(** C23, the part that holds: rotating by the whole range changes no bit and
    returns first, provided the word of [last] exists and the range does not end
    with its only word. *)
Theorem C23_rotate_all_partial : forall p w m first last,
  valid_w w -> wf_mem w m -> good_range w m first last ->
  addr w first < addr w last -> m (ib last) <> None ->
  (ip last <> 0 \/ w < addr w last - addr w first) ->
  mask_fits w (ip first) (addr w last - addr w first) ->
  exists m', rotate p w first last last m = Ok (first, m') /\
    forall i, bit w m' i = bit w m i.
Proof. exact rotate_all_ok. Qed.
Print Assumptions C23_rotate_all_partial.

Example C23_rotate_all_example :
  let m := mem_of [227; 90; 165] in
  valid_w 8 /\ wf_mem 8 m /\ good_range 8 m (It 0 3) (It 2 0) /\
  addr 8 (It 0 3) < addr 8 (It 2 0) /\ m (ib (It 2 0)) <> None /\
  (ip (It 2 0) <> 0 \/ 8 < addr 8 (It 2 0) - addr 8 (It 0 3)) /\
  mask_fits 8 (ip (It 0 3)) (addr 8 (It 2 0) - addr 8 (It 0 3)) /\
  run 3 (rotate Strict17 8 (It 0 3) (It 2 0) (It 2 0)) [227; 90; 165]
    = Ok (It 0 3, [Some 227; Some 90; Some 165]).
Proof. cbv zeta. demo. Qed.

(** C23 fails in each of the remaining cases. A range of more than a word that
    ends with the array: the word after the array is read. *)
Theorem C23_rotate_all_overread : forall p w m first last,
  valid_w w -> wf_mem w m -> good_range w m first last ->
  w < addr w last - addr w first -> m (ib last) = None ->
  rotate p w first last last m = UB OutOfBounds.
Proof. exact rotate_all_overread. Qed.
Print Assumptions C23_rotate_all_overread.

Example C23_rotate_all_overread_example :
  let m := mem_of [227; 90] in
  valid_w 8 /\ wf_mem 8 m /\ good_range 8 m (It 0 3) (It 2 0) /\
  8 < addr 8 (It 2 0) - addr 8 (It 0 3) /\ m (ib (It 2 0)) = None.
Proof. cbv zeta. demo. Qed.

(** A range inside one word that ends with it: over-wide shift. *)
Theorem C23_rotate_all_undefined : forall p w m first last,
  valid_w w -> wf_mem w m -> good_range w m first last ->
  p = Strict17 \/ p = Strict20 ->
  0 < addr w last - addr w first <= w -> ip last = 0 ->
  (ip first <> 0 \/ 32 <= w) ->
  rotate p w first last last m = UB OverShift.
Proof. exact rotate_all_undefined. Qed.
Print Assumptions C23_rotate_all_undefined.

Example C23_rotate_all_undefined_example :
  let m := mem_of [227; 90] in
  valid_w 8 /\ wf_mem 8 m /\ good_range 8 m (It 0 3) (It 1 0) /\
  0 < addr 8 (It 1 0) - addr 8 (It 0 3) <= 8 /\ ip (It 1 0) = 0 /\
  (ip (It 0 3) <> 0 \/ 32 <= 8).
Proof. cbv zeta. demo. Qed.

(** A whole word narrower than int: last is returned instead of first. *)
Theorem C23_rotate_all_last : forall p w m first last,
  valid_w w -> wf_mem w m -> good_range w m first last ->
  w < 32 -> addr w last - addr w first = w -> ip last = 0 ->
  exists m', rotate p w first last last m = Ok (last, m').
Proof. exact rotate_all_last. Qed.
Print Assumptions C23_rotate_all_last.

Example C23_rotate_all_last_example :
  let m := mem_of [4660; 22136] in
  valid_w 16 /\ wf_mem 16 m /\ good_range 16 m (It 0 0) (It 1 0) /\
  16 < 32 /\ addr 16 (It 1 0) - addr 16 (It 0 0) = 16 /\ ip (It 1 0) = 0 /\
  run 2 (rotate Strict17 16 (It 0 0) (It 1 0) (It 1 0)) [4660; 22136]
    = Ok (It 1 0, [Some 4660; Some 22136]).
Proof. cbv zeta. demo. Qed.

(** C23 as stated is false: a witness for each way it fails. *)
Theorem C23_rotate_all_refuted :
  (exists w m first last, valid_w w /\ wf_mem w m /\ good_range w m first last /\
     addr w first < addr w last /\
     rotate Strict20 w first last last m = UB OutOfBounds) /\
  (exists w m first last, valid_w w /\ wf_mem w m /\ good_range w m first last /\
     addr w first < addr w last /\
     rotate Strict20 w first last last m = UB OverShift) /\
  (exists w m first last r m', valid_w w /\ wf_mem w m /\ good_range w m first last /\
     addr w first < addr w last /\
     rotate Strict20 w first last last m = Ok (r, m') /\ r <> first).
Proof. exact rotate_all_refuted. Qed.
Print Assumptions C23_rotate_all_refuted.
