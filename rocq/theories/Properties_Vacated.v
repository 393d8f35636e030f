(** Property C52: the elements that a shift vacates. README.md shows them as
    zeros. *)
From Coq Require Import ZArith Bool List Lia.
From Verif Require Import Base WordOps IterModel AlgModel ShiftModel HwyModel Spec SpecHwy Demo
  ProofVacated.
Import ListNotations.
Open Scope Z_scope.

(** C52, shift_left on a range inside one word: the vacated elements are zero.
    Missing are ranges over several words, see [C52_shift_left_kept]. *)
Theorem C52_shift_left_zero_partial : forall p w m first last n,
  valid_w w -> wf_mem w m -> good_range w m first last ->
  0 < n < addr w last - addr w first ->
  ip first <> 0 \/ ip last <> 0 \/ ib last - ib first <> 1 \/
    full_blend_defined p w ->
  addr w first / w = (addr w last - 1) / w ->
  exists r m', shift_left p w first last n m = Ok (r, m') /\
    forall i, addr w last - n <= i < addr w last -> bit w m' i = false.
Proof. exact shift_left_zero. Qed.
Print Assumptions C52_shift_left_zero_partial.

Example C52_shift_left_zero_example :
  let m := mem_of [65535; 65535] in
  valid_w 16 /\ wf_mem 16 m /\ good_range 16 m (It 0 3) (It 1 0) /\
  0 < 4 < addr 16 (It 1 0) - addr 16 (It 0 3) /\
  (ip (It 0 3) <> 0 \/ ip (It 1 0) <> 0 \/ ib (It 1 0) - ib (It 0 3) <> 1 \/
     full_blend_defined Strict17 16) /\
  addr 16 (It 0 3) / 16 = (addr 16 (It 1 0) - 1) / 16 /\
  run 2 (shift_left Strict17 16 (It 0 3) (It 1 0) 4) [65535; 65535]
    = Ok (It 0 12, [Some 4095; Some 65535]).
Proof. cbv zeta. demo. Qed.

(** C52, shift_left on a range that reaches into several words: the vacated
    elements keep their values. *)
Theorem C52_shift_left_kept : forall p w m first last n,
  valid_w w -> wf_mem w m -> good_range w m first last ->
  0 < n < addr w last - addr w first ->
  addr w first / w <> (addr w last - 1) / w ->
  exists r m', shift_left p w first last n m = Ok (r, m') /\
    forall i, addr w last - n <= i < addr w last -> bit w m' i = bit w m i.
Proof. exact shift_left_kept. Qed.
Print Assumptions C52_shift_left_kept.

Example C52_shift_left_kept_example :
  let m := mem_of [227; 90; 165; 17] in
  valid_w 8 /\ wf_mem 8 m /\ good_range 8 m (It 0 3) (It 3 6) /\
  0 < 5 < addr 8 (It 3 6) - addr 8 (It 0 3) /\
  addr 8 (It 0 3) / 8 <> (addr 8 (It 3 6) - 1) / 8 /\
  run 4 (shift_left Strict17 8 (It 0 3) (It 3 6) 5) [227; 90; 165; 17]
    = Ok (It 3 1, [Some 211; Some 42; Some 141; Some 16]).
Proof. cbv zeta. demo. Qed.

(** C52 is false of shift_left: a vacated element that is one. *)
Theorem C52_shift_left_zero_refuted :
  exists w m first last n r m' i,
    valid_w w /\ wf_mem w m /\ good_range w m first last /\
    0 < n < addr w last - addr w first /\
    shift_left Strict17 w first last n m = Ok (r, m') /\
    addr w last - n <= i < addr w last /\ bit w m' i = true.
Proof.
  exists 8, (mem_of [255; 255]), (It 0 0), (It 2 0), 1. eexists. eexists. exists 15.
  repeat match goal with |- _ /\ _ => split end;
    try (vm_compute; reflexivity); try (vm_compute; intuition congruence); demo.
Qed.
Print Assumptions C52_shift_left_zero_refuted.

(** C52, shift_right on a range inside one word. Missing are ranges over several
    words, see [C52_shift_right_kept]. *)
Theorem C52_shift_right_zero_partial : forall p w m first last n,
  valid_w w -> wf_mem w m -> good_range w m first last ->
  0 < n < addr w last - addr w first ->
  ip first <> 0 \/ ip last <> 0 \/ ib last - ib first <> 1 \/
    full_blend_defined p w ->
  addr w first / w = (addr w last - 1) / w ->
  exists r m', shift_right p w first last n m = Ok (r, m') /\
    forall i, addr w first <= i < addr w first + n -> bit w m' i = false.
Proof. exact shift_right_zero. Qed.
Print Assumptions C52_shift_right_zero_partial.

(** The picture in README.md: 01010001 shifted right by 2 is 01000100
    (under the shift rules of C++20: C24 shows that C++17 leaves it undefined). *)
Example C52_shift_right_zero_example :
  let m := mem_of [81] in
  valid_w 8 /\ wf_mem 8 m /\ good_range 8 m (It 0 0) (It 1 0) /\
  0 < 2 < addr 8 (It 1 0) - addr 8 (It 0 0) /\
  (ip (It 0 0) <> 0 \/ ip (It 1 0) <> 0 \/ ib (It 1 0) - ib (It 0 0) <> 1 \/
     full_blend_defined Strict20 8) /\
  addr 8 (It 0 0) / 8 = (addr 8 (It 1 0) - 1) / 8 /\
  run 1 (shift_right Strict20 8 (It 0 0) (It 1 0) 2) [81] = Ok (It 0 2, [Some 68]).
Proof. cbv zeta. demo. Qed.

(** C52, shift_right on a range that reaches into several words: the vacated
    elements keep their values, except that a shift by whole words copies the
    bits in front of the range, in the word where it begins, into the range. *)
Theorem C52_shift_right_kept : forall p w m first last n,
  valid_w w -> wf_mem w m -> good_range w m first last ->
  0 < n < addr w last - addr w first ->
  addr w first / w <> (addr w last - 1) / w ->
  exists r m', shift_right p w first last n m = Ok (r, m') /\
    (n mod w <> 0 \/ addr w last / w * w <= addr w first + n ->
       forall i, addr w first <= i < addr w first + n -> bit w m' i = bit w m i) /\
    (n mod w = 0 -> addr w first + n < addr w last / w * w ->
       (forall i, addr w first <= i < addr w first + n - addr w first mod w ->
          bit w m' i = bit w m i) /\
       (forall i, addr w first + n - addr w first mod w <= i < addr w first + n ->
          bit w m' i = bit w m (i - n))).
Proof. exact shift_right_kept. Qed.
Print Assumptions C52_shift_right_kept.

Example C52_shift_right_kept_example :
  let m := mem_of [7; 0; 255; 170] in
  valid_w 8 /\ wf_mem 8 m /\ good_range 8 m (It 0 3) (It 4 0) /\
  0 < 8 < addr 8 (It 4 0) - addr 8 (It 0 3) /\
  addr 8 (It 0 3) / 8 <> (addr 8 (It 4 0) - 1) / 8 /\
  8 mod 8 = 0 /\ addr 8 (It 0 3) + 8 < addr 8 (It 4 0) / 8 * 8 /\
  5 mod 8 <> 0 /\
  run 4 (shift_right Strict17 8 (It 0 3) (It 4 0) 8) [7; 0; 255; 170]
    = Ok (It 1 3, [Some 7; Some 7; Some 0; Some 255]) /\
  run 4 (shift_right Strict17 8 (It 0 3) (It 4 0) 5) [7; 0; 255; 170]
    = Ok (It 1 0, [Some 7; Some 0; Some 224; Some 95]).
Proof. cbv zeta. demo. Qed.

(** C52 is false of shift_right. *)
Theorem C52_shift_right_zero_refuted :
  exists w m first last n r m' i,
    valid_w w /\ wf_mem w m /\ good_range w m first last /\
    0 < n < addr w last - addr w first /\
    shift_right Strict17 w first last n m = Ok (r, m') /\
    addr w first <= i < addr w first + n /\ bit w m' i = true.
Proof.
  exists 8, (mem_of [255; 255]), (It 0 0), (It 2 0), 1. eexists. eexists. exists 0.
  repeat match goal with |- _ /\ _ => split end;
    try (vm_compute; reflexivity); try (vm_compute; intuition congruence); demo.
Qed.
Print Assumptions C52_shift_right_zero_refuted.

(** What shift_right leaves in the range depends on bits outside the range: two
    arrays that agree on the range and differ on it afterwards. *)
Theorem C52_shift_right_inside_refuted :
  exists w m1 m2 first last n r m1' m2' i,
    valid_w w /\ wf_mem w m1 /\ wf_mem w m2 /\
    good_range w m1 first last /\ good_range w m2 first last /\
    0 < n < addr w last - addr w first /\
    (forall j, addr w first <= j < addr w last -> bit w m1 j = bit w m2 j) /\
    shift_right Strict17 w first last n m1 = Ok (r, m1') /\
    shift_right Strict17 w first last n m2 = Ok (r, m2') /\
    addr w first <= i < addr w last /\ bit w m1' i <> bit w m2' i.
Proof.
  exists 8, (mem_of [7; 0; 0]), (mem_of [0; 0; 0]), (It 0 3), (It 3 0), 8.
  eexists. eexists. eexists. exists 8.
  repeat match goal with |- _ /\ _ => split end;
    try (vm_compute; reflexivity); try (vm_compute; intuition congruence); try demo.
  intros j Hj. change (addr 8 (It 0 3)) with 3 in Hj. change (addr 8 (It 3 0)) with 24 in Hj.
  assert (Hc : exists k : nat, (k < 21)%nat /\ j = 3 + Z.of_nat k)
    by (exists (Z.to_nat (j - 3)); lia).
  destruct Hc as (k & Hk & ->).
  do 21 (destruct k as [|k]; [vm_compute; reflexivity|]). exfalso. lia.
Qed.
Print Assumptions C52_shift_right_inside_refuted.

(** C52: the build with Highway leaves the same bits everywhere, including the
    vacated elements. *)
Theorem C52_shift_left_builds : forall o h w m first last n,
  valid_w w -> vector_fits h w -> wf_mem w m -> good_range w m first last ->
  0 < n < addr w last - addr w first ->
  exists r m1 m2, shift_left (Hw o) w first last n m = Ok (r, m1) /\
    shift_left_hwy (Hw o) h w first last n m = Ok (r, m2) /\
    forall i, bit w m1 i = bit w m2 i.
Proof. exact shift_left_builds. Qed.
Print Assumptions C52_shift_left_builds.

Theorem C52_shift_right_builds : forall o h w m first last n,
  valid_w w -> vector_fits h w -> wf_mem w m -> good_range w m first last ->
  0 < n < addr w last - addr w first ->
  exists r m1 m2, shift_right (Hw o) w first last n m = Ok (r, m1) /\
    shift_right_hwy (Hw o) h w first last n m = Ok (r, m2) /\
    forall i, bit w m1 i = bit w m2 i.
Proof. exact shift_right_builds. Qed.
Print Assumptions C52_shift_right_builds.

Example C52_builds_example :
  let l := [1; 2; 4; 8; 16; 32; 64; 128; 256; 512; 1024; 2048; 4096; 8192; 16384;
            32768; 65536; 131072; 262144; 524288] in
  valid_w 32 /\ vector_fits (Unit 4 24) 32 /\ wf_mem 32 (mem_of l) /\
  good_range 32 (mem_of l) (It 0 5) (It 19 3) /\
  0 < 40 < addr 32 (It 19 3) - addr 32 (It 0 5) /\
  run 20 (shift_right_hwy (Hw (fun _ _ _ => 77)) (Unit 4 24) 32 (It 0 5) (It 19 3) 40) l
    = run 20 (shift_right (Hw (fun _ _ _ => 77)) 32 (It 0 5) (It 19 3) 40) l /\
  run 20 (shift_left_hwy (Hw (fun _ _ _ => 77)) (Unit 4 24) 32 (It 0 5) (It 19 3) 40) l
    = run 20 (shift_left (Hw (fun _ _ _ => 77)) 32 (It 0 5) (It 19 3) 40) l.
Proof. cbv zeta. unfold vector_fits. demo. Qed.
