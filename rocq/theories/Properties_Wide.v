(** Property C69: rotate on words of 128 bits. *)
From Coq Require Import ZArith Bool List Lia.
From Verif Require Import Base WordOps IterModel PopcntModel AlgModel TransformModel ShiftModel
  SwapModel ReverseModel RotateModel Spec SpecRotate SpecMask Demo ProofWide ProofMask.
Import ListNotations.
Open Scope Z_scope.

(** Under the rules of the language rotate does its job on every memory exactly when no
    quotient reaches 2^32 and, in words of more than 64 bits, the range leaves its first
    word, is that word, or lies in the lower 64 bits and is shorter than 64. *)
Theorem C69_rotate_exact : forall p w first n_first last,
  p = Strict17 \/ p = Strict20 \/ w <= 64 ->
  valid_w w -> valid_it w first -> valid_it w n_first -> valid_it w last ->
  addr w first < addr w n_first < addr w last ->
  addr w last - addr w first <= max_bits ->
  (quotients_fit 64 w (addr w n_first - addr w first) (addr w last - addr w n_first) = true /\
   mask_fits w (ip first) (addr w last - addr w first)
   <->
   forall m, wf_mem w m -> good_range w m first last ->
   exists r m', rotate p w first n_first last m = Ok (r, m') /\ valid_it w r /\
     addr w r = addr w first + (addr w last - addr w n_first) /\
     updated w m m' (addr w first) (addr w last)
       (fun i => let j := i + (addr w n_first - addr w first) in
          bit w m (if j <? addr w last then j else j - (addr w last - addr w first)))).
Proof. exact rotate_wide_exact. Qed.
Print Assumptions C69_rotate_exact.

(** Ranges of every kind in words of 128 bits: one that leaves its word, one inside the
    lower half, one across the middle of a word. *)
Example C69_rotate_exact_example :
  let m := mem_of [2 ^ 127 + 5; 2 ^ 64 + 2 ^ 3] in
  valid_w 128 /\ wf_mem 128 m /\
  good_range 128 m (It 0 100) (It 1 40) /\ good_range 128 m (It 0 0) (It 0 63) /\
  good_range 128 m (It 0 60) (It 0 70) /\ valid_it 128 (It 0 127) /\ valid_it 128 (It 0 1) /\
  valid_it 128 (It 0 62) /\
  addr 128 (It 0 100) < addr 128 (It 0 127) < addr 128 (It 1 40) /\
  addr 128 (It 0 0) < addr 128 (It 0 1) < addr 128 (It 0 63) /\
  addr 128 (It 1 40) - addr 128 (It 0 100) <= max_bits /\
  quotients_fit 64 128 (addr 128 (It 0 127) - addr 128 (It 0 100))
    (addr 128 (It 1 40) - addr 128 (It 0 127)) = true /\
  mask_fits 128 100 (addr 128 (It 1 40) - addr 128 (It 0 100)) /\
  mask_fits 128 0 (addr 128 (It 0 63) - addr 128 (It 0 0)) /\
  ~ mask_fits 128 60 (addr 128 (It 0 70) - addr 128 (It 0 60)) /\
  run 2 (rotate Strict17 128 (It 0 100) (It 0 127) (It 1 40)) [2 ^ 127 + 5; 2 ^ 64 + 2 ^ 3]
    = Ok (It 1 13, [Some (2 ^ 100 + 2 ^ 104 + 5); Some (2 ^ 64)]) /\
  run 2 (rotate Strict17 128 (It 0 0) (It 0 1) (It 0 63)) [2 ^ 127 + 5; 2 ^ 64 + 2 ^ 3]
    = Ok (It 0 62, [Some (2 ^ 127 + 2 ^ 62 + 2); Some (2 ^ 64 + 2 ^ 3)]).
Proof. cbv zeta. demo. Qed.

(** Inside one word, the range of less than 64 bits starts below bit 64 and reaches
    beyond: the bits at positions 64 and above are cleared before the rotation (also
    with n_first = last, which completes C23). *)
Theorem C69_rotate_cut : forall p w m first n_first last,
  valid_w w -> wf_mem w m -> good_range w m first last -> valid_it w n_first ->
  addr w first < addr w n_first <= addr w last ->
  let n := addr w last - addr w first in
  let k := addr w n_first - addr w first in
  n < 64 -> ip first < 64 -> 64 < ip first + n <= w ->
  exists r m', rotate p w first n_first last m = Ok (r, m') /\ valid_it w r /\
    addr w r = addr w first + (addr w last - addr w n_first) /\
    updated w m m' (addr w first) (addr w last)
      (fun i => let j := if i + k <? addr w last then i + k else i + k - n in
         bit w m j && (j <? ib first * w + 64)).
Proof. exact rotate_cut_ok. Qed.
Print Assumptions C69_rotate_cut.

(** Bits 60 to 69, all set, by two: six of them are lost, also by a rotation by ten. *)
Example C69_rotate_cut_example :
  let m := mem_of [2 ^ 70 - 2 ^ 60] in
  valid_w 128 /\ wf_mem 128 m /\ good_range 128 m (It 0 60) (It 0 70) /\ valid_it 128 (It 0 62) /\
  addr 128 (It 0 60) < addr 128 (It 0 62) < addr 128 (It 0 70) /\
  addr 128 (It 0 70) - addr 128 (It 0 60) < 64 /\ ip (It 0 60) < 64 /\
  64 < ip (It 0 60) + (addr 128 (It 0 70) - addr 128 (It 0 60)) <= 128 /\
  run 1 (rotate Strict20 128 (It 0 60) (It 0 62) (It 0 70)) [2 ^ 70 - 2 ^ 60]
    = Ok (It 0 68, [Some (2 ^ 60 + 2 ^ 61 + 2 ^ 68 + 2 ^ 69)]) /\
  run 1 (rotate Strict20 128 (It 0 60) (It 0 70) (It 0 70)) [2 ^ 70 - 2 ^ 60]
    = Ok (It 0 60, [Some (2 ^ 60 + 2 ^ 61 + 2 ^ 62 + 2 ^ 63)]).
Proof. cbv zeta. demo. Qed.

(** Inside one word, the range has 64 bits or more without being the word, or starts in
    the upper half: a shift by 64 or more of a 64-bit value. *)
Theorem C69_rotate_undefined : forall p w m first n_first last,
  p = Strict17 \/ p = Strict20 ->
  valid_w w -> valid_it w first -> valid_it w n_first -> valid_it w last ->
  addr w first < addr w n_first <= addr w last ->
  let n := addr w last - addr w first in
  n < w -> ip first + n <= w -> 64 <= n \/ 64 <= ip first ->
  rotate p w first n_first last m = UB OverShift.
Proof. exact rotate_wide_undefined. Qed.
Print Assumptions C69_rotate_undefined.

Example C69_rotate_undefined_example :
  let m := mem_of [2 ^ 127 + 5; 2 ^ 64 + 2 ^ 3] in
  valid_w 128 /\ valid_it 128 (It 1 80) /\ valid_it 128 (It 1 90) /\ valid_it 128 (It 2 0) /\
  addr 128 (It 1 80) < addr 128 (It 1 90) < addr 128 (It 2 0) /\
  addr 128 (It 2 0) - addr 128 (It 1 80) < 128 /\
  ip (It 1 80) + (addr 128 (It 2 0) - addr 128 (It 1 80)) <= 128 /\
  (64 <= addr 128 (It 2 0) - addr 128 (It 1 80) \/ 64 <= ip (It 1 80)) /\
  good_range 128 m (It 1 80) (It 2 0).
Proof. cbv zeta. demo. Qed.

(** C22 is false of words of 128 bits: a defined call leaves a wrong bit. *)
Theorem C69_rotate_refuted : exists m first n_first last,
  wf_mem 128 m /\ good_range 128 m first last /\ valid_it 128 n_first /\
  addr 128 first < addr 128 n_first < addr 128 last /\
  exists r m' i, rotate Strict20 128 first n_first last m = Ok (r, m') /\
    addr 128 first <= i < addr 128 last /\
    bit 128 m' i <> bit 128 m (rotl_from (addr 128 first) (addr 128 last - addr 128 first)
                                 (addr 128 n_first - addr 128 first) i).
Proof. exact rotate_wide_refuted. Qed.
Print Assumptions C69_rotate_refuted.

(** Nor are the calls of C69_rotate_undefined the same on all machines (C25): two
    machines with different results of a shift by 64 leave different words. *)
Theorem C69_rotate_machines_refuted : exists o o' m first n_first last,
  wf_mem 128 m /\ good_range 128 m first last /\ valid_it 128 n_first /\
  addr 128 first < addr 128 n_first < addr 128 last /\
  exists r m1 m2 a, rotate (Hw o) 128 first n_first last m = Ok (r, m1) /\
    rotate (Hw o') 128 first n_first last m = Ok (r, m2) /\ m1 a <> m2 a.
Proof. exact rotate_machines_refuted. Qed.
Print Assumptions C69_rotate_machines_refuted.

(** On a machine with its own results for shifts by 64 or more: rotate does its job on
    every memory exactly when no quotient reaches 2^32 and the machine gets the mask, if
    one is needed. No machine gets the mask of a range with bits beyond the low 64. *)
Theorem C69_rotate_machine_exact : forall o w first n_first last,
  valid_w w -> valid_it w first -> valid_it w n_first -> valid_it w last ->
  addr w first < addr w n_first < addr w last ->
  addr w last - addr w first <= max_bits ->
  (quotients_fit 64 w (addr w n_first - addr w first) (addr w last - addr w n_first) = true /\
   machine_fits o w (ip first) (addr w last - addr w first)
   <->
   forall m, wf_mem w m -> good_range w m first last ->
   exists r m', rotate (Hw o) w first n_first last m = Ok (r, m') /\ valid_it w r /\
     addr w r = addr w first + (addr w last - addr w n_first) /\
     updated w m m' (addr w first) (addr w last)
       (fun i => let j := i + (addr w n_first - addr w first) in
          bit w m (if j <? addr w last then j else j - (addr w last - addr w first)))).
Proof. exact rotate_machine_exact. Qed.
Print Assumptions C69_rotate_machine_exact.

(** The low 64 bits: a machine that shifts the one out rotates them; one that takes the
    count modulo 64, as x86 does, clears them. *)
Example C69_rotate_machine_exact_example :
  let out := fun (left : bool) (x c : Z) => 0 in
  let x86 := fun (left : bool) x c => if left then Z.shiftl x (c mod 64) else Z.shiftr x (c mod 64) in
  let m := mem_of [2 ^ 127 + 2 ^ 63 + 5] in
  valid_w 128 /\ wf_mem 128 m /\ good_range 128 m (It 0 0) (It 0 64) /\ valid_it 128 (It 0 1) /\
  addr 128 (It 0 0) < addr 128 (It 0 1) < addr 128 (It 0 64) /\
  addr 128 (It 0 64) - addr 128 (It 0 0) <= max_bits /\
  machine_fits out 128 0 64 /\ ~ machine_fits x86 128 0 64 /\ ~ machine_fits out 128 64 10 /\
  run 1 (rotate (Hw out) 128 (It 0 0) (It 0 1) (It 0 64)) [2 ^ 127 + 2 ^ 63 + 5]
    = Ok (It 0 63, [Some (2 ^ 127 + 2 ^ 62 + 2 ^ 63 + 2)]) /\
  run 1 (rotate (Hw x86) 128 (It 0 0) (It 0 1) (It 0 64)) [2 ^ 127 + 2 ^ 63 + 5]
    = Ok (It 0 63, [Some (2 ^ 127)]).
Proof. cbv zeta. unfold machine_fits. demo. Qed.

(** What those calls do on the machine, its wrong masks included: the bits under the mask,
    moved down and moved up, are put together, also those from outside the range. *)
Theorem C69_rotate_machine : forall o w m first n_first last,
  64 < w -> valid_w w -> wf_mem w m -> good_range w m first last -> valid_it w n_first ->
  addr w first < addr w n_first < addr w last ->
  let n := addr w last - addr w first in
  let k := addr w n_first - addr w first in
  let mask := machine_mask o (ip first) n in
  n < w -> ip first + n <= w ->
  exists r m', rotate (Hw o) w first n_first last m = Ok (r, m') /\ valid_it w r /\
    addr w r = addr w first + (addr w last - addr w n_first) /\
    updated w m m' (addr w first) (addr w last)
      (fun i => bit w m (i + k) && Z.testbit mask (i - ib first * w + k) ||
                bit w m (i - (n - k)) && Z.testbit mask (i - ib first * w - (n - k))).
Proof. exact rotate_machine_ok. Qed.
Print Assumptions C69_rotate_machine.

(** Bits 70 to 79 by three on x86: the mask is that of the bits 6 to 15 and the range is
    cleared. Bits 64 to 126 by three: bits 10 and 62, not in the range, appear in it at 70
    and 122, and bit 65 is lost. *)
Example C69_rotate_machine_example :
  let x86 := fun (left : bool) x c => if left then Z.shiftl x (c mod 64) else Z.shiftr x (c mod 64) in
  let x := 2 ^ 75 + 2 ^ 65 + 2 ^ 62 + 2 ^ 10 in
  64 < 128 /\ valid_w 128 /\ wf_mem 128 (mem_of [x]) /\
  good_range 128 (mem_of [x]) (It 0 70) (It 0 80) /\ valid_it 128 (It 0 73) /\
  good_range 128 (mem_of [x]) (It 0 64) (It 0 127) /\ valid_it 128 (It 0 67) /\
  addr 128 (It 0 70) < addr 128 (It 0 73) < addr 128 (It 0 80) /\
  addr 128 (It 0 64) < addr 128 (It 0 67) < addr 128 (It 0 127) /\
  addr 128 (It 0 127) - addr 128 (It 0 64) < 128 /\
  machine_mask x86 70 10 = 2 ^ 16 - 2 ^ 6 /\
  run 1 (rotate (Hw x86) 128 (It 0 70) (It 0 73) (It 0 80)) [x]
    = Ok (It 0 77, [Some (2 ^ 65 + 2 ^ 62 + 2 ^ 10)]) /\
  run 1 (rotate (Hw x86) 128 (It 0 64) (It 0 67) (It 0 127)) [x]
    = Ok (It 0 124, [Some (2 ^ 122 + 2 ^ 70 + 2 ^ 62 + 2 ^ 10)]).
Proof. cbv zeta. demo. Qed.

(** The other algorithms on words of 128 bits, to which their theorems apply like to
    any width. *)
Example C69_others_example :
  let l := [2 ^ 127 + 5; 2 ^ 64 + 2 ^ 3] in
  valid_w 128 /\ wf_mem 128 (mem_of l) /\ good_range 128 (mem_of l) (It 0 1) (It 1 66) /\
  run 2 (reverse Strict17 128 (It 0 1) (It 1 66)) l
    = Ok (tt, [Some (2 ^ 67 + 2 ^ 63 + 2 ^ 2 + 1); Some (2 ^ 64)]) /\
  run 2 (shift_left Strict17 128 (It 0 1) (It 1 66) 100) l
    = Ok (It 0 94, [Some (2 ^ 127 + 2 ^ 92 + 2 ^ 31 + 2 ^ 27 + 1); Some (2 ^ 64 + 2 ^ 3)]) /\
  run 2 (count (X86 (Cpu true true true)) Strict17 128 (It 0 1) (It 1 66) true) l
    = Ok (4, map Some l) /\
  run 2 (find Strict17 128 (It 0 3) (It 1 66) true) l = Ok (It 0 127, map Some l).
Proof. cbv zeta. demo. Qed.
