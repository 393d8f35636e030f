(** Property C72, reverse and rotate of the BITLIB_HWY build under the rules of the
    language. *)
From Coq Require Import ZArith Bool List Lia.
From Verif Require Import Base WordOps IterModel AlgModel ShiftModel SwapModel
  ReverseModel RotateModel HwyModel HwyAlgModel Spec SpecHwy SpecRotate SpecStd SpecPoint
  Demo ProofHwyAlgLang.
Import ListNotations.
Open Scope Z_scope.

(** C72, reverse under any rules: with [e] the end of the words of the range, it is right
    when every word that the shift to the right looks at on the way to a multiple of 64
    bytes is a place to which a pointer may point. The shift goes to the right when fewer
    bits are free behind the range in its last word than in front of it in its first. *)
Theorem C72_reverse_inside_partial : forall p h w m first last,
  valid_w w -> vector_fits h w -> wf_mem w m -> good_range w m first last ->
  addr w last - addr w first + 2 * w <= max_bits ->
  (addr w first = addr w last -> ip first = 0 \/ m (ib first) <> None) ->
  (ip first = 0 \/ ip last <> 0 \/ ib last - ib first <> 1 \/ full_blend_defined p w) ->
  let e := (addr w last + (w - 1)) / w in
  (e * w - addr w last < ip first ->
   forall a, looked_at h w (ib first) (e - 1) e a -> may_be_formed m a) ->
  exists m', reverse_hwy p h w first last m = Ok (tt, m') /\
    updated w m m' (addr w first) (addr w last)
      (fun i => bit w m (addr w last - 1 - (i - addr w first))).
Proof. exact reverse_hwy_inside. Qed.
Print Assumptions C72_reverse_inside_partial.

(** Word 3 is at a multiple of 64 bytes. *)
Example C72_reverse_inside_example :
  let l := [1; 2; 3; 5; 8; 13; 21; 34; 55; 89; 144; 233] in
  let m := mem_of l in
  valid_w 8 /\ vector_fits (Unit 8 61) 8 /\ wf_mem 8 m /\ good_range 8 m (It 0 5) (It 12 0) /\
  addr 8 (It 12 0) - addr 8 (It 0 5) + 2 * 8 <= max_bits /\
  (addr 8 (It 0 5) = addr 8 (It 12 0) -> ip (It 0 5) = 0 \/ m (ib (It 0 5)) <> None) /\
  (ip (It 0 5) = 0 \/ ip (It 12 0) <> 0 \/ ib (It 12 0) - ib (It 0 5) <> 1 \/
     full_blend_defined Strict17 8) /\
  ((addr 8 (It 12 0) + (8 - 1)) / 8 = 12) /\
  (12 * 8 - addr 8 (It 12 0) < ip (It 0 5) ->
   forall a, looked_at (Unit 8 61) 8 (ib (It 0 5)) (12 - 1) 12 a -> may_be_formed m a) /\
  run 2 (reverse_hwy Strict17 (Unit 8 61) 8 (It 0 5) (It 12 0)) l
    = Ok (tt, [Some 225; Some 50]).
Proof.
  cbv zeta. unfold vector_fits. do 8 (split; [demo|]). split; [|demo].
  intros _ a (j & J1 & J2 & J3 & J4). cbn [lanes ib] in *.
  assert (C : j = 0 \/ j = 1 \/ 2 <= j) by lia. destruct C as [->|[->|C]].
  - replace a with 4 by lia. left. discriminate.
  - replace a with 3 by lia. left. discriminate.
  - exfalso. apply (J4 1); [lia|reflexivity].
Qed.

(** That is exact under the rules of the language: otherwise the call is undefined. *)
Theorem C72_reverse_undefined : forall p h w m first last,
  p = Strict17 \/ p = Strict20 ->
  valid_w w -> vector_fits h w -> wf_mem w m -> good_range w m first last ->
  addr w last - addr w first + 2 * w <= max_bits ->
  (addr w first = addr w last -> ip first = 0 \/ m (ib first) <> None) ->
  (ip first = 0 \/ ip last <> 0 \/ ib last - ib first <> 1 \/ full_blend_defined p w) ->
  let e := (addr w last + (w - 1)) / w in
  reverse_hwy p h w first last m = UB OutOfBounds <->
  e * w - addr w last < ip first /\
  ~ (forall a, looked_at h w (ib first) (e - 1) e a -> may_be_formed m a).
Proof. exact reverse_hwy_undefined. Qed.
Print Assumptions C72_reverse_undefined.

(** Four bytes, vectors of 16: undefined for the range that begins in bit 3 and has 2
    bits behind it, defined for the one that has 3. *)
Example C72_reverse_undefined_example :
  let l := [227; 90; 165; 17] in
  let m := mem_of l in
  valid_w 8 /\ vector_fits (Unit 16 0) 8 /\ wf_mem 8 m /\ good_range 8 m (It 0 3) (It 3 6) /\
  addr 8 (It 3 6) - addr 8 (It 0 3) + 2 * 8 <= max_bits /\
  (ip (It 0 3) = 0 \/ ip (It 3 6) <> 0 \/ ib (It 3 6) - ib (It 0 3) <> 1 \/
     full_blend_defined Strict20 8) /\
  (addr 8 (It 3 6) + (8 - 1)) / 8 = 4 /\
  4 * 8 - addr 8 (It 3 6) < ip (It 0 3) /\
  ~ (forall a, looked_at (Unit 16 0) 8 (ib (It 0 3)) (4 - 1) 4 a -> may_be_formed m a) /\
  reverse_hwy Strict20 (Unit 16 0) 8 (It 0 3) (It 3 6) m = UB OutOfBounds /\
  run 4 (reverse_hwy Strict20 (Unit 16 0) 8 (It 0 3) (It 3 5)) l
    = run 4 (reverse Strict20 8 (It 0 3) (It 3 5)) l.
Proof.
  cbv zeta. unfold vector_fits. do 8 (split; [demo|]). split; [|demo].
  intros K. destruct (K (-12)) as [E|E]; [|apply E; reflexivity..].
  exists 0. split; [lia|]. split; [reflexivity|]. split; [vm_compute; reflexivity|].
  intros i Hi. lia.
Qed.

(** C72, rotate under any rules: it does what the plain build does (C22 says what that
    is), whatever the lengths, when every word that the shift to the right with which it
    ends looks at is a place to which a pointer may point. *)
Theorem C72_rotate_inside_partial : forall p q h w m first n_first last,
  valid_w w -> vector_fits h w -> wf_mem w m -> good_range w m first last ->
  valid_it w n_first -> addr w first <= addr w n_first < addr w last ->
  mask_fits w (ip first) (addr w last - addr w first) ->
  (forall a b n,
     rotate_shift w (addr w first) (addr w n_first - addr w first)
       (addr w last - addr w n_first) = Some (a, b, n) ->
     n mod w <> 0 -> forall x, looked_at h w (a / w) ((b / w * w - n) / w) (b / w) x ->
     may_be_formed m x) ->
  agree (rotate_hwy p h w first n_first last) (rotate q w first n_first last) m.
Proof. exact rotate_hwy_inside. Qed.
Print Assumptions C72_rotate_inside_partial.

(** 30 bits are moved past 95, three times past as many; bits 95 to 124 are left, which
    are shifted by 5. A vector of 8 that ends at word 15 begins in word 7. *)
Example C72_rotate_inside_example :
  let l := [1; 2; 3; 5; 8; 13; 21; 34; 55; 89; 144; 233; 251; 7; 11; 18] in
  let m := mem_of l in
  valid_w 8 /\ vector_fits (Unit 8 0) 8 /\ wf_mem 8 m /\
  good_range 8 m (It 0 0) (It 15 5) /\ valid_it 8 (It 3 6) /\
  addr 8 (It 0 0) <= addr 8 (It 3 6) < addr 8 (It 15 5) /\
  mask_fits 8 (ip (It 0 0)) (addr 8 (It 15 5) - addr 8 (It 0 0)) /\
  rotate_shift 8 (addr 8 (It 0 0)) (addr 8 (It 3 6) - addr 8 (It 0 0))
    (addr 8 (It 15 5) - addr 8 (It 3 6)) = Some (95, 125, 5) /\
  (forall x, looked_at (Unit 8 0) 8 (95 / 8) ((125 / 8 * 8 - 5) / 8) (125 / 8) x ->
     may_be_formed m x) /\
  run 16 (rotate_hwy Strict20 (Unit 8 0) 8 (It 0 0) (It 3 6) (It 15 5)) l
    = run 16 (rotate Strict17 8 (It 0 0) (It 3 6) (It 15 5)) l /\
  run 3 (rotate Strict17 8 (It 0 0) (It 3 6) (It 15 5)) l
    = Ok (It 11 7, [Some 32; Some 52; Some 84]).
Proof.
  cbv zeta. unfold vector_fits. do 8 (split; [demo|]). split; [|demo].
  intros x (j & J1 & J2 & J3 & J4).
  change (125 / 8) with 15 in *. change (95 / 8) with 11 in *.
  change ((15 * 8 - 5) / 8) with 14 in *. cbn [lanes] in J2.
  assert (C : j = 0 \/ j = 1) by lia. destruct C as [->| ->].
  - replace x with 7 by lia. left. discriminate.
  - replace x with 6 by lia. left. discriminate.
Qed.

(** That is exact under the rules of the language: otherwise the call is undefined. *)
Theorem C72_rotate_undefined : forall p h w m first n_first last,
  p = Strict17 \/ p = Strict20 ->
  valid_w w -> vector_fits h w -> wf_mem w m -> good_range w m first last ->
  valid_it w n_first -> addr w first <= addr w n_first < addr w last ->
  mask_fits w (ip first) (addr w last - addr w first) ->
  rotate_hwy p h w first n_first last m = UB OutOfBounds <->
  exists a b n,
    rotate_shift w (addr w first) (addr w n_first - addr w first)
      (addr w last - addr w n_first) = Some (a, b, n) /\
    n mod w <> 0 /\
    ~ (forall x, looked_at h w (a / w) ((b / w * w - n) / w) (b / w) x -> may_be_formed m x).
Proof. exact rotate_hwy_undefined. Qed.
Print Assumptions C72_rotate_undefined.

(** The same call with vectors of 16: the last shift is at the end of the array, and still
    a pointer in front of the array is formed. *)
Example C72_rotate_undefined_example :
  let l := [1; 2; 3; 5; 8; 13; 21; 34; 55; 89; 144; 233; 251; 7; 11; 18] in
  let m := mem_of l in
  valid_w 8 /\ vector_fits (Unit 16 0) 8 /\ wf_mem 8 m /\
  good_range 8 m (It 0 0) (It 15 5) /\ valid_it 8 (It 3 6) /\
  addr 8 (It 0 0) <= addr 8 (It 3 6) < addr 8 (It 15 5) /\
  mask_fits 8 (ip (It 0 0)) (addr 8 (It 15 5) - addr 8 (It 0 0)) /\
  rotate_shift 8 (addr 8 (It 0 0)) (addr 8 (It 3 6) - addr 8 (It 0 0))
    (addr 8 (It 15 5) - addr 8 (It 3 6)) = Some (95, 125, 5) /\
  5 mod 8 <> 0 /\
  ~ (forall x, looked_at (Unit 16 0) 8 (95 / 8) ((125 / 8 * 8 - 5) / 8) (125 / 8) x ->
       may_be_formed m x) /\
  rotate_hwy Strict17 (Unit 16 0) 8 (It 0 0) (It 3 6) (It 15 5) m = UB OutOfBounds.
Proof.
  cbv zeta. unfold vector_fits. do 9 (split; [demo|]). split; [|demo].
  intros K. destruct (K (-1)) as [E|E]; [|apply E; reflexivity..].
  exists 0. split; [lia|]. split; [reflexivity|]. split; [vm_compute; reflexivity|].
  intros i Hi. lia.
Qed.

(** C72: in arrays with as many words in front of the range as a
    vector has behind its first, every call does what the plain build does. *)
Theorem C72_rotate_room_partial : forall p q h w m first n_first last,
  valid_w w -> vector_fits h w -> wf_mem w m -> good_range w m first last ->
  valid_it w n_first -> addr w first <= addr w n_first < addr w last ->
  mask_fits w (ip first) (addr w last - addr w first) ->
  (forall a, ib first - lanes h < a < ib first -> m a <> None) ->
  agree (rotate_hwy p h w first n_first last) (rotate q w first n_first last) m.
Proof. exact rotate_hwy_strict. Qed.
Print Assumptions C72_rotate_room_partial.

Example C72_rotate_room_example :
  let l := [1; 2; 3; 5; 8; 13; 21; 34; 55; 89; 144; 233] in
  let m := mem_of l in
  valid_w 8 /\ vector_fits (Unit 4 3) 8 /\ wf_mem 8 m /\
  good_range 8 m (It 3 5) (It 11 3) /\ valid_it 8 (It 10 7) /\
  addr 8 (It 3 5) <= addr 8 (It 10 7) < addr 8 (It 11 3) /\
  mask_fits 8 (ip (It 3 5)) (addr 8 (It 11 3) - addr 8 (It 3 5)) /\
  (forall a, ib (It 3 5) - lanes (Unit 4 3) < a < ib (It 3 5) -> m a <> None) /\
  run 12 (rotate_hwy Strict20 (Unit 4 3) 8 (It 3 5) (It 10 7) (It 11 3)) l
    = run 12 (rotate Strict17 8 (It 3 5) (It 10 7) (It 11 3)) l.
Proof.
  cbv zeta. unfold vector_fits. do 7 (split; [demo|]). split; [|demo].
  intros a Ha. cbn in Ha. assert (C : a = 0 \/ a = 1 \/ a = 2) by lia.
  destruct C as [->|[->| ->]]; discriminate.
Qed.
