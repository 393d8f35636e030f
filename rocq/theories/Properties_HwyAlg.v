(** Property C72: reverse and rotate in the BITLIB_HWY build. *)
From Coq Require Import ZArith Bool List Lia.
From Verif Require Import Base WordOps IterModel AlgModel ShiftModel SwapModel
  ReverseModel RotateModel HwyModel HwyAlgModel Spec SpecHwy SpecRotate SpecStd Demo
  ProofHwyAlg.
Import ListNotations.
Open Scope Z_scope.

(** C72, reverse, on any machine: bit i of the range becomes the former bit counted from
    the other end, and nothing else changes. *)
Theorem C72_reverse : forall o h w m first last,
  valid_w w -> vector_fits h w -> wf_mem w m -> good_range w m first last ->
  addr w last - addr w first + 2 * w <= max_bits ->
  (addr w first = addr w last -> ip first = 0 \/ m (ib first) <> None) ->
  exists m', reverse_hwy (Hw o) h w first last m = Ok (tt, m') /\
    updated w m m' (addr w first) (addr w last)
      (fun i => bit w m (addr w last - 1 - (i - addr w first))).
Proof. exact reverse_hwy_hw. Qed.
Print Assumptions C72_reverse.

(** Long enough for the vector loop of shift_right. *)
Example C72_reverse_example :
  let l := [1; 2; 3; 5; 8; 13; 21; 34; 55; 89; 144; 233; 251; 7; 11; 18; 29; 47; 76; 123] in
  let m := mem_of l in
  valid_w 8 /\ vector_fits (Unit 4 3) 8 /\ wf_mem 8 m /\ good_range 8 m (It 0 5) (It 20 0) /\
  addr 8 (It 20 0) - addr 8 (It 0 5) + 2 * 8 <= max_bits /\
  (addr 8 (It 0 5) = addr 8 (It 20 0) -> ip (It 0 5) = 0 \/ m (ib (It 0 5)) <> None) /\
  run 20 (reverse_hwy (Hw (fun _ _ _ => 77)) (Unit 4 3) 8 (It 0 5) (It 20 0)) l
    = run 20 (reverse (Hw (fun _ _ _ => 77)) 8 (It 0 5) (It 20 0)) l /\
  run 2 (reverse_hwy (Hw (fun _ _ _ => 77)) (Unit 4 3) 8 (It 0 5) (It 20 0)) l
    = Ok (tt, [Some 193; Some 91]).
Proof. cbv zeta. unfold vector_fits. demo. Qed.

(** C72: the macro does not change what reverse does. *)
Theorem C72_reverse_same : forall o h w m first last,
  valid_w w -> vector_fits h w -> wf_mem w m -> good_range w m first last ->
  addr w last - addr w first + 2 * w <= max_bits ->
  (addr w first = addr w last -> ip first = 0 \/ m (ib first) <> None) ->
  agree (reverse_hwy (Hw o) h w first last) (reverse (Hw o) w first last) m.
Proof. exact reverse_hwy_same. Qed.
Print Assumptions C72_reverse_same.

Example C72_reverse_same_example :
  let m := mem_of [4660; 22136; 39612; 57072; 291; 17767; 35243; 52719; 99; 1] in
  valid_w 16 /\ vector_fits (Unit 2 6) 16 /\ wf_mem 16 m /\
  good_range 16 m (It 0 1) (It 9 3) /\
  addr 16 (It 9 3) - addr 16 (It 0 1) + 2 * 16 <= max_bits /\
  (addr 16 (It 0 1) = addr 16 (It 9 3) -> ip (It 0 1) = 0 \/ m (ib (It 0 1)) <> None).
Proof. cbv zeta. unfold vector_fits. demo. Qed.

(** C72, rotate, on any machine, the lengths decided: it does its job on every memory
    exactly when no quotient it computes reaches 2^32 (as C22_rotate_exact without the
    macro). *)
Theorem C72_rotate_exact : forall o h w first n_first last,
  valid_w w -> vector_fits h w ->
  valid_it w first -> valid_it w n_first -> valid_it w last ->
  addr w first <= addr w n_first < addr w last ->
  addr w last - addr w first <= max_bits ->
  mask_fits w (ip first) (addr w last - addr w first) ->
  (quotients_fit 64 w (addr w n_first - addr w first) (addr w last - addr w n_first) = true
   <->
   forall m, wf_mem w m -> good_range w m first last ->
   exists r m', rotate_hwy (Hw o) h w first n_first last m = Ok (r, m') /\ valid_it w r /\
     addr w r = addr w first + (addr w last - addr w n_first) /\
     updated w m m' (addr w first) (addr w last)
       (fun i => let j := i + (addr w n_first - addr w first) in
          bit w m (if j <? addr w last then j else j - (addr w last - addr w first)))).
Proof. exact rotate_hwy_exact. Qed.
Print Assumptions C72_rotate_exact.

Example C72_rotate_exact_example :
  let l := [1; 2; 3; 5; 8; 13; 21; 34; 55; 89; 144; 233; 251; 7; 11; 18; 29; 47; 76; 123] in
  valid_w 8 /\ vector_fits (Unit 4 3) 8 /\
  valid_it 8 (It 0 5) /\ valid_it 8 (It 18 7) /\ valid_it 8 (It 19 3) /\
  addr 8 (It 0 5) <= addr 8 (It 18 7) < addr 8 (It 19 3) /\
  addr 8 (It 19 3) - addr 8 (It 0 5) <= max_bits /\
  mask_fits 8 (ip (It 0 5)) (addr 8 (It 19 3) - addr 8 (It 0 5)) /\
  quotients_fit 64 8 (addr 8 (It 18 7) - addr 8 (It 0 5))
    (addr 8 (It 19 3) - addr 8 (It 18 7)) = true /\
  wf_mem 8 (mem_of l) /\ good_range 8 (mem_of l) (It 0 5) (It 19 3) /\
  run 3 (rotate_hwy (Hw (fun _ _ _ => 77)) (Unit 4 3) 8 (It 0 5) (It 18 7) (It 19 3)) l
    = Ok (It 1 1, [Some 193; Some 32; Some 48]).
Proof. cbv zeta. unfold vector_fits. demo. Qed.

(** C72: the macro does not change what rotate does, whatever the lengths; the plain build
    may here be judged by the rules of the language as well ([p]). *)
Theorem C72_rotate_same : forall o p h w m first n_first last,
  valid_w w -> vector_fits h w -> wf_mem w m -> good_range w m first last ->
  valid_it w n_first -> addr w first <= addr w n_first < addr w last ->
  mask_fits w (ip first) (addr w last - addr w first) ->
  agree (rotate_hwy (Hw o) h w first n_first last) (rotate p w first n_first last) m.
Proof. exact rotate_hwy_same. Qed.
Print Assumptions C72_rotate_same.

Example C72_rotate_same_example :
  let l := [4660; 22136; 39612; 57072; 291; 17767; 35243; 52719; 99; 1] in
  let m := mem_of l in
  valid_w 16 /\ vector_fits (Unit 2 6) 16 /\ wf_mem 16 m /\
  good_range 16 m (It 0 1) (It 9 3) /\ valid_it 16 (It 0 14) /\
  addr 16 (It 0 1) <= addr 16 (It 0 14) < addr 16 (It 9 3) /\
  mask_fits 16 (ip (It 0 1)) (addr 16 (It 9 3) - addr 16 (It 0 1)) /\
  run 10 (rotate_hwy (Hw (fun _ _ _ => 77)) (Unit 2 6) 16 (It 0 1) (It 0 14) (It 9 3)) l
    = run 10 (rotate Strict17 16 (It 0 1) (It 0 14) (It 9 3)) l /\
  run 2 (rotate Strict17 16 (It 0 1) (It 0 14) (It 9 3)) l = Ok (It 8 6, [Some 46016; Some 54754]).
Proof. cbv zeta. unfold vector_fits. demo. Qed.

(** Under the rules of the language the two builds differ: shift_right of the vector build
    forms a pointer in front of an array the range begins with, and rotate and reverse
    inherit it. *)
Theorem C72_rotate_pointer_refuted : exists h w l first n_first last,
  valid_w w /\ vector_fits h w /\ wf_mem w (mem_of l) /\
  good_range w (mem_of l) first last /\ valid_it w n_first /\
  addr w first <= addr w n_first < addr w last /\
  run 4 (rotate Strict20 w first n_first last) l
    = Ok (It 0 3, [Some 24; Some 215; Some 42; Some 141]) /\
  rotate_hwy Strict20 h w first n_first last (mem_of l) = UB OutOfBounds.
Proof.
  exists (Unit 16 0), 8, [227; 90; 165; 17], (It 0 0), (It 3 5), (It 4 0).
  unfold vector_fits. demo.
Qed.
Print Assumptions C72_rotate_pointer_refuted.

Theorem C72_reverse_pointer_refuted : exists h w l first last,
  valid_w w /\ vector_fits h w /\ wf_mem w (mem_of l) /\
  good_range w (mem_of l) first last /\
  run 4 (reverse Strict20 w first last) l
    = Ok (tt, [Some 67; Some 44; Some 213; Some 58]) /\
  reverse_hwy Strict20 h w first last (mem_of l) = UB OutOfBounds.
Proof.
  exists (Unit 16 0), 8, [227; 90; 165; 17], (It 0 3), (It 4 0).
  unfold vector_fits. demo.
Qed.
Print Assumptions C72_reverse_pointer_refuted.
