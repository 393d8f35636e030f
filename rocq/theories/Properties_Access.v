(** Property C50: the mask of a bit iterator, the constructors for the first bit of
    a word and the functions that move an iterator. *)
From Coq Require Import ZArith Bool List Lia.
From Verif Require Import Base WordOps IterModel RefModel Spec SpecRef Demo ProofAccess.
Import ListNotations.
Open Scope Z_scope.

(** C50, mask(): a word with the one bit that the iterator designates, so that the
    usual test [*it.base() & it.mask()] reads that bit. *)
Theorem C50_mask : forall p w m it x, valid_w w -> valid_it w it ->
  m (ib it) = Some x ->
  exists k, imask p w it = Ok k /\ 0 < k < 2 ^ w /\
    (forall j, 0 <= j -> Z.testbit k j = (j =? ip it)) /\
    (Z.land x k <> 0 <-> bit w m (addr w it) = true).
Proof. exact mask_selects. Qed.
Print Assumptions C50_mask.

Example C50_mask_example :
  valid_w 16 /\ valid_it 16 (It 1 11) /\
  mem_of [7; 2048] (ib (It 1 11)) = Some 2048 /\
  imask Strict17 16 (It 1 11) = Ok 2048 /\ imask Strict17 16 (It 1 15) = Ok 32768.
Proof. demo. Qed.

(** C50, an iterator, a reference and a pointer made from a word alone designate its
    lowest bit, and the iterator dereferences to the reference. *)
Theorem C50_first_bit : forall p w a, valid_w w ->
  valid_it w (mk_aligned a) /\ addr w (mk_aligned a) = a * w /\
  refers_to w (ref_aligned a) (a * w) /\ points_to w (ptr_aligned (Some a)) (a * w) /\
  ideref p w (mk_aligned a) = Ok (ref_aligned a).
Proof. exact aligned_ok. Qed.
Print Assumptions C50_first_bit.

Example C50_first_bit_example :
  valid_w 64 /\ ideref Strict17 64 (mk_aligned 3) = Ok (Ref 3 1) /\
  addr 64 (mk_aligned 3) = 192.
Proof. demo. Qed.

(** C50, [n + it], [it += n], advance and next all designate the bit n places on. *)
Theorem C50_moves : forall w it n, valid_w w -> valid_it w it ->
  - 2 ^ 63 <= ip it + n < 2 ^ 63 ->
  exists r, valid_it w r /\ addr w r = addr w it + n /\
    iadd_left w n it = Ok r /\ advance w it n = Ok r /\ inext w it n = Ok r /\
    iadd_assign w it n = Ok r.
Proof. exact moves_ok. Qed.
Print Assumptions C50_moves.

Example C50_moves_example :
  valid_w 8 /\ valid_it 8 (It 2 3) /\ - 2 ^ 63 <= ip (It 2 3) + -20 < 2 ^ 63 /\
  iadd_left 8 (-20) (It 2 3) = Ok (It (-1) 7) /\ inext 8 (It 2 3) 13 = Ok (It 4 0).
Proof. demo. Qed.
