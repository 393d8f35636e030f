(** Property C49, shift_right in the BITLIB_HWY build under the rules of the language. *)
From Coq Require Import ZArith Bool List Lia.
From Verif Require Import Base WordOps IterModel AlgModel ShiftModel HwyModel
  Spec SpecHwy SpecPoint Demo ProofHwyRight.
Import ListNotations.
Open Scope Z_scope.

(** C49, shift_right under any rules: it is right when every word looked at on the way to
    a multiple of 64 bytes is a place to which a pointer may point. *)
Theorem C49_shift_right_inside_partial : forall p h w m first last n,
  valid_w w -> vector_fits h w -> wf_mem w m -> good_range w m first last ->
  0 < n < addr w last - addr w first ->
  (ip first <> 0 \/ ip last <> 0 \/ ib last - ib first <> 1 \/ full_blend_defined p w) ->
  (n mod w <> 0 -> forall a, looked_at h w (ib first) ((ib last * w - n) / w) (ib last) a ->
     may_be_formed m a) ->
  exists r m', shift_right_hwy p h w first last n m = Ok (r, m') /\ valid_it w r /\
    addr w r = addr w first + n /\ wf_mem w m' /\ same_dom m m' /\
    (forall i, addr w first + n <= i < addr w last -> bit w m' i = bit w m (i - n)) /\
    (forall i, i < addr w first \/ addr w last <= i -> bit w m' i = bit w m i).
Proof. exact shift_right_inside. Qed.
Print Assumptions C49_shift_right_inside_partial.

(** The array begins 3 bytes before a multiple of 64: a vector that ends at word 11 begins
    there. *)
Example C49_shift_right_inside_example :
  let l := [1; 2; 4; 8; 16; 32; 64; 128; 255; 127; 63; 31] in
  valid_w 8 /\ vector_fits (Unit 8 61) 8 /\ wf_mem 8 (mem_of l) /\
  good_range 8 (mem_of l) (It 1 3) (It 11 2) /\
  0 < 13 < addr 8 (It 11 2) - addr 8 (It 1 3) /\
  (ip (It 1 3) <> 0 \/ ip (It 11 2) <> 0 \/ ib (It 11 2) - ib (It 1 3) <> 1 \/
     full_blend_defined Strict20 8) /\
  (13 mod 8 <> 0 -> forall a, looked_at (Unit 8 61) 8 1 ((11 * 8 - 13) / 8) 11 a ->
     may_be_formed (mem_of l) a) /\
  run 12 (shift_right_hwy Strict20 (Unit 8 61) 8 (It 1 3) (It 11 2) 13) l
    = Ok (It 3 0, [Some 1; Some 2; Some 4; Some 128; Some 0; Some 1; Some 2; Some 4; Some 8;
                   Some 240; Some 255; Some 31]).
Proof.
  cbv zeta. unfold vector_fits. do 6 (split; [demo|]). split; [|demo].
  intros _ a (j & J1 & J2 & J3 & J4). cbn [lanes] in J2.
  destruct (Z.eq_dec j 0) as [->|C].
  - replace a with 3 by lia. left. discriminate.
  - exfalso. apply (J4 0); [lia|reflexivity].
Qed.

(** That is exact under the rules of the language: otherwise the call is undefined. *)
Theorem C49_shift_right_undefined : forall p h w m first last n,
  p = Strict17 \/ p = Strict20 ->
  valid_w w -> vector_fits h w -> wf_mem w m -> good_range w m first last ->
  0 < n < addr w last - addr w first ->
  (ip first <> 0 \/ ip last <> 0 \/ ib last - ib first <> 1 \/ full_blend_defined p w) ->
  shift_right_hwy p h w first last n m = UB OutOfBounds <->
  n mod w <> 0 /\
  ~ (forall a, looked_at h w (ib first) ((ib last * w - n) / w) (ib last) a -> may_be_formed m a).
Proof. exact shift_right_exact. Qed.
Print Assumptions C49_shift_right_undefined.

(** The same array one byte further from a multiple of 64 bytes: the vector is moved down
    until the source is used up, past the beginning of the array. *)
Example C49_shift_right_undefined_example :
  let l := [1; 2; 4; 8; 16; 32; 64; 128; 255; 127; 63; 31] in
  valid_w 8 /\ vector_fits (Unit 8 60) 8 /\ wf_mem 8 (mem_of l) /\
  good_range 8 (mem_of l) (It 1 3) (It 11 2) /\
  0 < 13 < addr 8 (It 11 2) - addr 8 (It 1 3) /\
  (ip (It 1 3) <> 0 \/ ip (It 11 2) <> 0 \/ ib (It 11 2) - ib (It 1 3) <> 1 \/
     full_blend_defined Strict17 8) /\
  13 mod 8 <> 0 /\
  ~ (forall a, looked_at (Unit 8 60) 8 1 ((11 * 8 - 13) / 8) 11 a -> may_be_formed (mem_of l) a) /\
  shift_right_hwy Strict17 (Unit 8 60) 8 (It 1 3) (It 11 2) 13 (mem_of l) = UB OutOfBounds.
Proof.
  cbv zeta. unfold vector_fits. do 7 (split; [demo|]). split; [|demo].
  intros K. destruct (K (-1)) as [E|E]; [|apply E; reflexivity..].
  exists 4. split; [lia|]. split; [reflexivity|]. split; [vm_compute; reflexivity|].
  intros i Hi. assert (C : i = 0 \/ i = 1 \/ i = 2 \/ i = 3) by lia.
  destruct C as [->|[->|[->| ->]]]; vm_compute; discriminate.
Qed.

(** Every call that moves at least two words by a part of a word is undefined when the
    words of the array up to the end of the range are fewer than those of a vector. *)
Theorem C49_shift_right_short_array : forall p h w m first last n,
  p = Strict17 \/ p = Strict20 ->
  valid_w w -> vector_fits h w -> wf_mem w m -> good_range w m first last ->
  0 < n < addr w last - addr w first -> n mod w <> 0 ->
  n + (ib first + 2) * w <= ib last * w ->
  (forall a, a <= ib last - lanes h -> m a = None) ->
  shift_right_hwy p h w first last n m = UB OutOfBounds.
Proof. exact shift_right_short_array. Qed.
Print Assumptions C49_shift_right_short_array.

(** Four bytes, vectors of 16. *)
Example C49_shift_right_short_array_example :
  let l := [227; 90; 165; 17] in
  valid_w 8 /\ vector_fits (Unit 16 0) 8 /\ wf_mem 8 (mem_of l) /\
  good_range 8 (mem_of l) (It 0 0) (It 4 0) /\
  0 < 3 < addr 8 (It 4 0) - addr 8 (It 0 0) /\ 3 mod 8 <> 0 /\
  3 + (ib (It 0 0) + 2) * 8 <= ib (It 4 0) * 8 /\
  (forall a, a <= ib (It 4 0) - lanes (Unit 16 0) -> mem_of l a = None) /\
  shift_right_hwy Strict20 (Unit 16 0) 8 (It 0 0) (It 4 0) 3 (mem_of l) = UB OutOfBounds.
Proof.
  cbv zeta. unfold vector_fits. do 7 (split; [demo|]). split; [|demo].
  intros a Ha. cbn in Ha. unfold mem_of. replace (0 <=? a) with false; [reflexivity|].
  symmetry. apply Z.leb_gt. lia.
Qed.
