(** Property C54: _rotate_via_copy_begin and _rotate_via_copy_end. *)
From Coq Require Import ZArith Bool List Lia.
From Verif Require Import Base IterModel AlgModel ShiftModel RotateCopyModel Spec SpecRotate Demo
  ProofRotateCopy.
Import ListNotations.
Open Scope Z_scope.

(** C54: the range is rotated and the new position of the bit at [first] returned,
    also if one of the two parts is empty; nothing changes outside the range and the
    array on the stack ([buf], [bs] words). Missing, because it is false of the code
    (see the theorems below): parts for which the array is too short although the
    assertion holds, and parts of 2^15 bits or more. The word of [first] is read
    also if the range is empty. *)
Theorem C54_copy_begin_partial : forall p w m buf bs first n_first last,
  valid_w w -> wf_mem w m -> good_range w m first last -> valid_it w n_first ->
  addr w first <= addr w n_first <= addr w last ->
  mapped w m (buf * w) ((buf + bs) * w) -> 0 < bs ->
  buf + bs <= ib first \/ addr w last <= buf * w ->
  let k := addr w n_first - addr w first in
  ip first + k <= bs * w -> ip first + k - w < 2 ^ 15 -> m (ib first) <> None ->
  (0 < k < addr w last - addr w first -> ip first <> 0 \/ ip last <> 0 \/
     ib last - ib first <> 1 \/ full_blend_defined p w) ->
  exists r m', rotate_copy_begin p w buf bs first n_first last m = Ok (r, m') /\ valid_it w r /\
    addr w r = addr w first + (addr w last - addr w n_first) /\ wf_mem w m' /\ same_dom m m' /\
    forall i, i < buf * w \/ (buf + bs) * w <= i ->
      bit w m' i =
        if inr (addr w first) (addr w last) i
        then bit w m (rotl_from (addr w first) (addr w last - addr w first)
                                (addr w n_first - addr w first) i)
        else bit w m i.
Proof. exact copy_begin_ok. Qed.
Print Assumptions C54_copy_begin_partial.

(** 13 of 21 bits carried over, in an array of two words at address 5. *)
Example C54_copy_begin_example :
  let m := mem_of [227; 90; 165; 17; 204; 1; 2; 3] in
  valid_w 8 /\ wf_mem 8 m /\ good_range 8 m (It 0 3) (It 3 0) /\ valid_it 8 (It 2 0) /\
  addr 8 (It 0 3) <= addr 8 (It 2 0) <= addr 8 (It 3 0) /\
  mapped 8 m (5 * 8) ((5 + 2) * 8) /\ 0 < 2 /\ (5 + 2 <= 0 \/ addr 8 (It 3 0) <= 5 * 8) /\
  3 + 13 <= 2 * 8 /\ 3 + 13 - 8 < 2 ^ 15 /\ m 0 <> None /\
  (0 < 13 < 21 -> 3 <> 0 \/ 0 <> 0 \/ 3 - 0 <> 1 \/ full_blend_defined Strict17 8) /\
  run 5 (rotate_copy_begin Strict17 8 5 2 (It 0 3) (It 2 0) (It 3 0))
    [227; 90; 165; 17; 204; 1; 2; 3]
    = Ok (It 1 3, [Some 43; Some 229; Some 90; Some 17; Some 204]).
Proof. cbv zeta. demo. Qed.

(** C54, _rotate_via_copy_end: the part from [n_first] on is carried over. *)
Theorem C54_copy_end_partial : forall p w m buf bs first n_first last,
  valid_w w -> wf_mem w m -> good_range w m first last -> valid_it w n_first ->
  addr w first <= addr w n_first <= addr w last ->
  mapped w m (buf * w) ((buf + bs) * w) -> 0 < bs ->
  buf + bs <= ib first \/ addr w last <= buf * w ->
  let k := addr w last - addr w n_first in
  ip n_first + k <= bs * w -> ip n_first + k - w < 2 ^ 15 -> m (ib n_first) <> None ->
  (0 < k < addr w last - addr w first -> ip first <> 0 \/ ip last <> 0 \/
     ib last - ib first <> 1 \/ full_blend_defined p w) ->
  exists r m', rotate_copy_end p w buf bs first n_first last m = Ok (r, m') /\ valid_it w r /\
    addr w r = addr w first + (addr w last - addr w n_first) /\ wf_mem w m' /\ same_dom m m' /\
    forall i, i < buf * w \/ (buf + bs) * w <= i ->
      bit w m' i =
        if inr (addr w first) (addr w last) i
        then bit w m (rotl_from (addr w first) (addr w last - addr w first)
                                (addr w n_first - addr w first) i)
        else bit w m i.
Proof. exact copy_end_ok. Qed.
Print Assumptions C54_copy_end_partial.

Example C54_copy_end_example :
  let m := mem_of [227; 90; 165; 17; 204; 1; 2; 3] in
  good_range 8 m (It 0 3) (It 3 0) /\ valid_it 8 (It 1 4) /\
  addr 8 (It 0 3) <= addr 8 (It 1 4) <= addr 8 (It 3 0) /\
  4 + 12 <= 2 * 8 /\ 4 + 12 - 8 < 2 ^ 15 /\ m 1 <> None /\
  run 5 (rotate_copy_end Strict17 8 5 2 (It 0 3) (It 1 4) (It 3 0))
    [227; 90; 165; 17; 204; 1; 2; 3]
    = Ok (It 1 7, [Some 171; Some 82; Some 174; Some 17; Some 204]).
Proof. cbv zeta. demo. Qed.

(** The assertion k <= BufferSize*digits (line 40) leaves out the position of
    [first] in its word: whenever the two disagree the function writes past the end
    of the array. *)
Theorem C54_copy_begin_overrun : forall p w m buf bs first n_first last,
  valid_w w -> good_range w m first last -> valid_it w n_first ->
  addr w first <= addr w n_first <= addr w last ->
  mapped w m (buf * w) ((buf + bs) * w) -> 0 < bs ->
  let k := addr w n_first - addr w first in
  k <= bs * w < ip first + k -> ip first + k - w < 2 ^ 15 ->
  rotate_copy_begin p w buf bs first n_first last m = UB OutOfBounds.
Proof. exact copy_begin_overrun. Qed.
Print Assumptions C54_copy_begin_overrun.

(** The same for line 78 and the position of [n_first]. *)
Theorem C54_copy_end_overrun : forall p w m buf bs first n_first last,
  valid_w w -> good_range w m first last -> valid_it w n_first ->
  addr w first <= addr w n_first <= addr w last ->
  mapped w m (buf * w) ((buf + bs) * w) -> 0 < bs ->
  let k := addr w last - addr w n_first in
  k <= bs * w < ip n_first + k -> ip n_first + k - w < 2 ^ 15 ->
  rotate_copy_end p w buf bs first n_first last m = UB OutOfBounds.
Proof. exact copy_end_overrun. Qed.
Print Assumptions C54_copy_end_overrun.

Example C54_overrun_example :
  let m := mem_of [227; 90; 165; 17; 204; 1; 2; 3] in
  good_range 8 m (It 0 3) (It 3 0) /\ valid_it 8 (It 2 3) /\ valid_it 8 (It 1 2) /\
  16 <= 2 * 8 < 3 + 16 /\  3 + 16 - 8 < 2 ^ 15 /\
  run 5 (rotate_copy_begin Strict17 8 5 2 (It 0 3) (It 2 3) (It 3 0))
    [227; 90; 165; 17; 204; 1; 2; 3] = UB OutOfBounds /\
  13 <= 2 * 8 < 5 + 13 /\
  run 5 (rotate_copy_end Strict17 8 5 2 (It 0 3) (It 1 5) (It 3 2))
    [227; 90; 165; 17; 204; 1; 2; 3] = UB OutOfBounds.
Proof. cbv zeta. demo. Qed.

(** So the assertion does not keep the accesses inside the array. *)
Theorem C54_assertion_refuted : exists p w m buf bs first n_first last,
  valid_w w /\ wf_mem w m /\ good_range w m first last /\ valid_it w n_first /\
  addr w first <= addr w n_first <= addr w last /\
  mapped w m (buf * w) ((buf + bs) * w) /\ 0 < bs /\
  (buf + bs <= ib first \/ addr w last <= buf * w) /\
  addr w n_first - addr w first <= bs * w /\
  match rotate_copy_begin p w buf bs first n_first last m with
  | Ok _ | Assert => False
  | _ => True
  end.
Proof.
  exists Strict17, 8, (mem_of [227; 90; 165; 17; 204; 1; 2; 3]), 5, 2, (It 0 3), (It 2 3), (It 3 0).
  cbv zeta. demo.
Qed.
Print Assumptions C54_assertion_refuted.

(** bits_left_to_copy is a short int (line 45): whenever it does not fit, the last
    bit of the rotated range is read from a word of the array that was never
    written, that is, it is whatever the stack held there. *)
Theorem C54_copy_begin_long : forall p w m buf bs first n_first last,
  valid_w w -> wf_mem w m -> good_range w m first last -> valid_it w n_first ->
  addr w first <= addr w n_first <= addr w last ->
  mapped w m (buf * w) ((buf + bs) * w) -> 0 < bs ->
  buf + bs <= ib first \/ addr w last <= buf * w ->
  let k := addr w n_first - addr w first in
  ip first + k <= bs * w -> 2 ^ 15 <= ip first + k - w -> m (ib first) <> None ->
  (0 < k < addr w last - addr w first -> ip first <> 0 \/ ip last <> 0 \/
     ib last - ib first <> 1 \/ full_blend_defined p w) ->
  exists r m', rotate_copy_begin p w buf bs first n_first last m = Ok (r, m') /\
    bit w m' (addr w last - 1) = bit w m (buf * w + (ip first + k - 1)).
Proof. exact copy_begin_long. Qed.
Print Assumptions C54_copy_begin_long.

(** The same for line 83 and the last bit of the part carried over. *)
Theorem C54_copy_end_long : forall p w m buf bs first n_first last,
  valid_w w -> wf_mem w m -> good_range w m first last -> valid_it w n_first ->
  addr w first <= addr w n_first <= addr w last ->
  mapped w m (buf * w) ((buf + bs) * w) -> 0 < bs ->
  buf + bs <= ib first \/ addr w last <= buf * w ->
  let k := addr w last - addr w n_first in
  ip n_first + k <= bs * w -> 2 ^ 15 <= ip n_first + k - w -> m (ib n_first) <> None ->
  (0 < k < addr w last - addr w first -> ip first <> 0 \/ ip last <> 0 \/
     ib last - ib first <> 1 \/ full_blend_defined p w) ->
  exists r m', rotate_copy_end p w buf bs first n_first last m = Ok (r, m') /\
    bit w m' (addr w first + k - 1) = bit w m (buf * w + (ip n_first + k - 1)).
Proof. exact copy_end_long. Qed.
Print Assumptions C54_copy_end_long.

(** 514 words of zeros and an array of 514 words of ones: a rotation by the whole
    range brings in ones. *)
Example C54_long_example :
  let l := repeat 0 514 ++ repeat (2 ^ 64 - 1) 514 in
  let m := mem_of l in
  valid_w 64 /\ good_range 64 m (It 0 0) (It 513 5) /\ valid_it 64 (It 513 5) /\
  mapped 64 m (514 * 64) ((514 + 514) * 64) /\ addr 64 (It 513 5) <= 514 * 64 /\
  addr 64 (It 513 5) = 32837 /\ 0 + 32837 <= 514 * 64 /\ 2 ^ 15 <= 0 + 32837 - 64 /\ m 0 <> None /\
  match rotate_copy_begin Strict17 64 514 514 (It 0 0) (It 513 5) (It 513 5) m with
  | Ok (r, m') => r = It 0 0 /\ m' 0 = Some 0 /\ m' 1 = Some (2 ^ 64 - 1) /\ m' 513 = Some 31
  | _ => False
  end.
Proof. cbv zeta. demo. Qed.
