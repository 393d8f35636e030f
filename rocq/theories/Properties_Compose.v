(** C44: algorithms in sequence. Only theorems, each closed by a lemma, with an
    example beside it. *)
From Coq Require Import ZArith Bool List Lia.
From Verif Require Import Base WordOps IterModel PopcntModel AlgModel TransformModel
  ShiftModel SwapModel ReverseModel RotateModel Spec SpecRotate Demo ProofCompose.
Import ListNotations.
Open Scope Z_scope.

(** C44. A copy to a disjoint destination compares equal to its source. *)
Theorem C44_copy_then_equal : forall p w m first last d,
  valid_w w -> wf_mem w m -> good_range w m first last ->
  good_dest w m d (addr w last - addr w first) ->
  addr w d + (addr w last - addr w first) <= addr w first \/ addr w last <= addr w d ->
  exists r m', copy p w first last d m = Ok (r, m') /\
    equal p w first last d m' = Ok (true, m').
Proof. exact copy_equal. Qed.
Print Assumptions C44_copy_then_equal.

Example C44_copy_then_equal_example :
  let m := mem_of [227; 90; 165; 17] in
  valid_w 8 /\ wf_mem 8 m /\ good_range 8 m (It 0 3) (It 1 7) /\
  addr 8 (It 0 3) < addr 8 (It 1 7) /\
  good_dest 8 m (It 2 1) (addr 8 (It 1 7) - addr 8 (It 0 3)) /\
  (addr 8 (It 2 1) + (addr 8 (It 1 7) - addr 8 (It 0 3)) <= addr 8 (It 0 3) \/
   addr 8 (It 1 7) <= addr 8 (It 2 1)) /\
  run 4 (let* _ := copy Strict17 8 (It 0 3) (It 1 7) (It 2 1) in
         equal Strict17 8 (It 0 3) (It 1 7) (It 2 1)) [227; 90; 165; 17]
    = Ok (true, [Some 227; Some 90; Some 185; Some 22]).
Proof. cbv zeta. demo. Qed.

(** C44. A rotation followed by the rotation at the returned iterator (the old first
    element) restores the range and returns the old middle. Missing: the lengths for
    which C22_rotate_exact says that one of the two rotations goes wrong. *)
Theorem C44_rotate_back_partial : forall p w m first mid last,
  valid_w w -> wf_mem w m -> good_range w m first last -> valid_it w mid ->
  addr w first < addr w mid < addr w last ->
  quotients_fit 64 w (addr w mid - addr w first) (addr w last - addr w mid) = true ->
  quotients_fit 64 w (addr w last - addr w mid) (addr w mid - addr w first) = true ->
  mask_fits w (ip first) (addr w last - addr w first) ->
  exists r m' m'', rotate p w first mid last m = Ok (r, m') /\
    rotate p w first r last m' = Ok (mid, m'') /\
    forall i, bit w m'' i = bit w m i.
Proof. exact rotate_back. Qed.
Print Assumptions C44_rotate_back_partial.

Example C44_rotate_back_example :
  let m := mem_of [227; 90; 165; 17] in
  valid_w 8 /\ wf_mem 8 m /\ good_range 8 m (It 0 3) (It 1 7) /\
  addr 8 (It 0 3) < addr 8 (It 1 7) /\
  valid_it 8 (It 1 1) /\ addr 8 (It 0 3) < addr 8 (It 1 1) < addr 8 (It 1 7) /\
  quotients_fit 64 8 (addr 8 (It 1 1) - addr 8 (It 0 3)) (addr 8 (It 1 7) - addr 8 (It 1 1)) = true /\
  quotients_fit 64 8 (addr 8 (It 1 7) - addr 8 (It 1 1)) (addr 8 (It 1 1) - addr 8 (It 0 3)) = true /\
  mask_fits 8 (ip (It 0 3)) (addr 8 (It 1 7) - addr 8 (It 0 3)) /\
  run 4 (let* r := rotate Strict17 8 (It 0 3) (It 1 1) (It 1 7) in
         rotate Strict17 8 (It 0 3) r (It 1 7)) [227; 90; 165; 17]
    = Ok (It 1 1, [Some 227; Some 90; Some 165; Some 17]).
Proof. cbv zeta. demo. Qed.

(** C44. shift_left after shift_right by the same amount restores every bit that was
    not shifted out, inside and outside the range. *)
Theorem C44_shift_back : forall o w m first last n,
  valid_w w -> wf_mem w m -> good_range w m first last ->
  0 < n < addr w last - addr w first ->
  exists r m' r' m'', shift_right (Hw o) w first last n m = Ok (r, m') /\
    shift_left (Hw o) w first last n m' = Ok (r', m'') /\
    forall i, i < addr w last - n \/ addr w last <= i -> bit w m'' i = bit w m i.
Proof. exact shift_back. Qed.
Print Assumptions C44_shift_back.

Example C44_shift_back_example :
  let m := mem_of [227; 90; 165; 17] in
  valid_w 8 /\ wf_mem 8 m /\ good_range 8 m (It 0 3) (It 1 7) /\
  addr 8 (It 0 3) < addr 8 (It 1 7) /\
  0 < 5 < addr 8 (It 1 7) - addr 8 (It 0 3) /\
  run 4 (let* _ := shift_right (Hw (fun _ _ _ => 3)) 8 (It 0 3) (It 1 7) 5 in
         shift_left (Hw (fun _ _ _ => 3)) 8 (It 0 3) (It 1 7) 5) [227; 90; 165; 17]
    = Ok (It 1 2, [Some 227; Some 94; Some 165; Some 17]).
Proof. cbv zeta. demo. Qed.

(** C44. reverse keeps the number of bits of either value. *)
Theorem C44_reverse_count : forall o c w m first last b,
  valid_w w -> wf_mem w m -> good_range w m first last ->
  addr w first < addr w last -> addr w last - addr w first + 2 * w <= max_bits ->
  exists m' n, reverse (Hw o) w first last m = Ok (tt, m') /\
    count (X86 c) (Hw o) w first last b m = Ok (n, m) /\
    count (X86 c) (Hw o) w first last b m' = Ok (n, m').
Proof. exact reverse_count. Qed.
Print Assumptions C44_reverse_count.

Example C44_reverse_count_example :
  let m := mem_of [227; 90; 165; 17] in
  valid_w 8 /\ wf_mem 8 m /\ good_range 8 m (It 0 3) (It 1 7) /\
  addr 8 (It 0 3) < addr 8 (It 1 7) /\
  addr 8 (It 1 7) - addr 8 (It 0 3) + 2 * 8 <= max_bits /\
  run 4 (let* _ := reverse (Hw (fun _ _ _ => 3)) 8 (It 0 3) (It 1 7) in
         count (X86 (Cpu false true true)) (Hw (fun _ _ _ => 3)) 8 (It 0 3) (It 1 7) true)
      [227; 90; 165; 17] = Ok (7, [Some 107; Some 29; Some 165; Some 17]) /\
  run 4 (count (X86 (Cpu false true true)) (Hw (fun _ _ _ => 3)) 8 (It 0 3) (It 1 7) true)
      [227; 90; 165; 17] = Ok (7, [Some 227; Some 90; Some 165; Some 17]).
Proof. cbv zeta. demo. Qed.

(** C44. rotate keeps the number of bits of either value, whatever the length. *)
Theorem C44_rotate_count : forall p c w m first mid last b,
  valid_w w -> wf_mem w m -> good_range w m first last -> valid_it w mid ->
  addr w first <= addr w mid < addr w last ->
  mask_fits w (ip first) (addr w last - addr w first) ->
  exists r m' n, rotate p w first mid last m = Ok (r, m') /\
    count (X86 c) p w first last b m = Ok (n, m) /\
    count (X86 c) p w first last b m' = Ok (n, m').
Proof. exact rotate_count. Qed.
Print Assumptions C44_rotate_count.

Example C44_rotate_count_example :
  let m := mem_of [227; 90; 165; 17] in
  valid_w 8 /\ wf_mem 8 m /\ good_range 8 m (It 0 3) (It 1 7) /\
  addr 8 (It 0 3) < addr 8 (It 1 7) /\
  valid_it 8 (It 1 1) /\ addr 8 (It 0 3) <= addr 8 (It 1 1) < addr 8 (It 1 7) /\
  mask_fits 8 (ip (It 0 3)) (addr 8 (It 1 7) - addr 8 (It 0 3)) /\
  run 4 (let* _ := rotate Strict17 8 (It 0 3) (It 1 1) (It 1 7) in
         count (X86 (Cpu false true true)) Strict17 8 (It 0 3) (It 1 7) false)
      [227; 90; 165; 17] = Ok (5, [Some 107; Some 57; Some 165; Some 17]).
Proof. cbv zeta. demo. Qed.

(** C44. swap_ranges exchanges the counts of the two ranges. *)
Theorem C44_swap_ranges_count : forall p c w m first1 last1 first2 last2 b,
  valid_w w -> wf_mem w m -> good_range w m first1 last1 -> good_range w m first2 last2 ->
  addr w first1 < addr w last1 ->
  addr w last2 - addr w first2 = addr w last1 - addr w first1 ->
  addr w last1 <= addr w first2 \/ addr w last2 <= addr w first1 ->
  exists r m' n1 n2, swap_ranges p w first1 last1 first2 m = Ok (r, m') /\
    count (X86 c) p w first1 last1 b m = Ok (n1, m) /\
    count (X86 c) p w first2 last2 b m = Ok (n2, m) /\
    count (X86 c) p w first1 last1 b m' = Ok (n2, m') /\
    count (X86 c) p w first2 last2 b m' = Ok (n1, m').
Proof. exact swap_ranges_count. Qed.
Print Assumptions C44_swap_ranges_count.

Example C44_swap_ranges_count_example :
  let m := mem_of [227; 90; 165; 17] in
  valid_w 8 /\ wf_mem 8 m /\ good_range 8 m (It 0 3) (It 1 7) /\
  addr 8 (It 0 3) < addr 8 (It 1 7) /\
  good_range 8 m (It 2 1) (It 3 5) /\
  addr 8 (It 3 5) - addr 8 (It 2 1) = addr 8 (It 1 7) - addr 8 (It 0 3) /\
  (addr 8 (It 1 7) <= addr 8 (It 2 1) \/ addr 8 (It 3 5) <= addr 8 (It 0 3)) /\
  run 4 (let* _ := swap_ranges Strict17 8 (It 0 3) (It 1 7) (It 2 1) in
         count (X86 (Cpu false true true)) Strict17 8 (It 2 1) (It 3 5) true)
      [227; 90; 165; 17] = Ok (7, [Some 147; Some 70; Some 185; Some 22]).
Proof. cbv zeta. demo. Qed.

(** C44. find returns last exactly when count is zero. *)
Theorem C44_find_count : forall p c w m first last b,
  valid_w w -> wf_mem w m -> good_range w m first last -> addr w first < addr w last ->
  exists r n, find p w first last b m = Ok (r, m) /\
    count (X86 c) p w first last b m = Ok (n, m) /\ (r = last <-> n = 0).
Proof. exact find_count. Qed.
Print Assumptions C44_find_count.

Example C44_find_count_example :
  let m := mem_of [227; 90; 165; 17] in
  valid_w 8 /\ wf_mem 8 m /\ good_range 8 m (It 0 3) (It 1 7) /\
  addr 8 (It 0 3) < addr 8 (It 1 7) /\
  run 4 (find Strict17 8 (It 0 3) (It 1 7) true) [227; 90; 165; 17]
    = Ok (It 0 5, [Some 227; Some 90; Some 165; Some 17]) /\
  run 4 (count (X86 (Cpu false true true)) Strict17 8 (It 0 3) (It 1 7) true) [227; 90; 165; 17]
    = Ok (7, [Some 227; Some 90; Some 165; Some 17]).
Proof. cbv zeta. demo. Qed.

(** C44. After fill, count sees the whole length and find the ends. *)
Theorem C44_fill_count_find : forall p c w m first last b,
  valid_w w -> wf_mem w m -> good_range w m first last -> addr w first < addr w last ->
  exists m', fill p w first last b m = Ok (tt, m') /\
    count (X86 c) p w first last b m' = Ok (addr w last - addr w first, m') /\
    count (X86 c) p w first last (negb b) m' = Ok (0, m') /\
    find p w first last (negb b) m' = Ok (last, m') /\
    find p w first last b m' = Ok (first, m').
Proof. exact fill_count_find. Qed.
Print Assumptions C44_fill_count_find.

Example C44_fill_count_find_example :
  let m := mem_of [227; 90; 165; 17] in
  valid_w 8 /\ wf_mem 8 m /\ good_range 8 m (It 0 3) (It 1 7) /\
  addr 8 (It 0 3) < addr 8 (It 1 7) /\
  run 4 (let* _ := fill Strict17 8 (It 0 3) (It 1 7) true in
         count (X86 (Cpu false true true)) Strict17 8 (It 0 3) (It 1 7) true) [227; 90; 165; 17]
    = Ok (12, [Some 251; Some 127; Some 165; Some 17]).
Proof. cbv zeta. demo. Qed.

