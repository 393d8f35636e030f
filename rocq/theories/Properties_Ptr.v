(** Property C62: the word iterators the algorithms compute stay in their arrays. *)
From Coq Require Import ZArith Bool List Lia.
From Verif Require Import Base WordOps IterModel PopcntModel AlgModel ShiftModel SwapModel ReverseModel
  RotateModel TransformModel Spec PtrModel SpecPtr Demo ProofPtrAll.
Import ListNotations.
Open Scope Z_scope.

(** C62. Over checked word iterators (an iterator into the array [A] may be computed
    only if it points to a word of [A] or behind its last one) fill, find, equal,
    copy (and move), swap_ranges and transform do exactly what they do over unchecked
    ones, in every memory, for ranges anywhere in their arrays: at its beginning and
    up to its end. *)
Theorem C62_fill : forall p w A first last b m, valid_w w -> arr_range A w first last ->
  fill_c A p w first last b m = fill p w first last b m.
Proof. exact ptr_fill. Qed.
Print Assumptions C62_fill.

Example C62_fill_example :
  valid_w 8 /\ arr_range (Arr 0 3) 8 (It 0 3) (It 3 0) /\
  run 3 (fill_c (Arr 0 3) Strict20 8 (It 0 3) (It 3 0) true) [0; 0; 0] = Ok (tt, [Some 248; Some 255; Some 255]).
Proof.
  split; [unfold valid_w; lia|]. split; [|vm_compute; reflexivity].
  unfold arr_range, inside, valid_it, addr, max_bits. cbn. lia.
Qed.

Theorem C62_find : forall p w A first last b m, valid_w w -> arr_range A w first last ->
  find_c A p w first last b m = find p w first last b m.
Proof. exact ptr_find. Qed.
Print Assumptions C62_find.

Example C62_find_example :
  valid_w 8 /\ arr_range (Arr 0 2) 8 (It 0 3) (It 2 0) /\
  run 0 (find_c (Arr 0 2) Strict20 8 (It 0 3) (It 2 0) true) [7; 16] = Ok (It 1 4, []).
Proof.
  split; [unfold valid_w; lia|]. split; [|vm_compute; reflexivity].
  unfold arr_range, inside, valid_it, addr, max_bits. cbn. lia.
Qed.

Theorem C62_equal : forall p w A B first last d_first m, valid_w w -> arr_range A w first last ->
  arr_dest B w d_first (addr w last - addr w first) ->
  equal_c A B p w first last d_first m = equal p w first last d_first m.
Proof. exact ptr_equal. Qed.
Print Assumptions C62_equal.

Example C62_equal_example :
  valid_w 8 /\ arr_range (Arr 0 2) 8 (It 0 0) (It 2 0) /\ arr_dest (Arr 2 5) 8 (It 2 3) 16 /\
  run 0 (equal_c (Arr 0 2) (Arr 2 5) Strict20 8 (It 0 0) (It 2 0) (It 2 3)) [171; 205; 88; 109; 6] = Ok (true, []).
Proof.
  split; [unfold valid_w; lia|]. split; [|split; [|vm_compute; reflexivity]];
  unfold arr_range, arr_dest, inside, valid_it, addr, max_bits; cbn; lia.
Qed.

Theorem C62_copy : forall p w A B first last d_first m, valid_w w -> arr_range A w first last ->
  arr_dest B w d_first (addr w last - addr w first) ->
  copy_c A B p w first last d_first m = copy p w first last d_first m.
Proof. exact ptr_copy. Qed.
Print Assumptions C62_copy.

Example C62_copy_example :
  valid_w 8 /\ arr_range (Arr 0 2) 8 (It 0 0) (It 2 0) /\ arr_dest (Arr 2 5) 8 (It 2 3) 16 /\
  run 5 (copy_c (Arr 0 2) (Arr 2 5) Strict20 8 (It 0 0) (It 2 0) (It 2 3)) [171; 205; 0; 0; 0] =
    Ok (It 4 3, [Some 171; Some 205; Some 88; Some 109; Some 6]).
Proof.
  split; [unfold valid_w; lia|]. split; [|split; [|vm_compute; reflexivity]];
  unfold arr_range, arr_dest, inside, valid_it, addr, max_bits; cbn; lia.
Qed.

Theorem C62_swap_ranges : forall p w A B first1 last1 first2 m, valid_w w -> arr_range A w first1 last1 ->
  arr_dest B w first2 (addr w last1 - addr w first1) ->
  swap_ranges_c A B p w first1 last1 first2 m = swap_ranges p w first1 last1 first2 m.
Proof. exact ptr_swap. Qed.
Print Assumptions C62_swap_ranges.

Example C62_swap_ranges_example :
  valid_w 8 /\ arr_range (Arr 0 2) 8 (It 0 0) (It 2 0) /\ arr_dest (Arr 2 5) 8 (It 2 3) 16 /\
  run 5 (swap_ranges_c (Arr 0 2) (Arr 2 5) Strict20 8 (It 0 0) (It 2 0) (It 2 3)) [171; 205; 0; 0; 0] =
    Ok (It 4 3, [Some 0; Some 0; Some 88; Some 109; Some 6]).
Proof.
  split; [unfold valid_w; lia|]. split; [|split; [|vm_compute; reflexivity]];
  unfold arr_range, arr_dest, inside, valid_it, addr, max_bits; cbn; lia.
Qed.

Theorem C62_transform1 : forall p w A B op first last d_first m, valid_w w -> arr_range A w first last ->
  arr_dest B w d_first (addr w last - addr w first) ->
  transform1_c A B p w op first last d_first m = transform1 p w op first last d_first m.
Proof. exact ptr_transform1. Qed.
Print Assumptions C62_transform1.

Example C62_transform1_example :
  valid_w 8 /\ arr_range (Arr 0 2) 8 (It 0 0) (It 2 0) /\ arr_dest (Arr 2 4) 8 (It 2 0) 16 /\
  run 4 (transform1_c (Arr 0 2) (Arr 2 4) Strict20 8 (fun x => Z.lxor x 255) (It 0 0) (It 2 0) (It 2 0))
      [171; 205; 0; 0] = Ok (It 4 0, [Some 171; Some 205; Some 84; Some 50]).
Proof.
  split; [unfold valid_w; lia|]. split; [|split; [|vm_compute; reflexivity]];
  unfold arr_range, arr_dest, inside, valid_it, addr, max_bits; cbn; lia.
Qed.

Theorem C62_transform2 : forall p w A1 A2 B op first1 last1 first2 d_first m, valid_w w ->
  arr_range A1 w first1 last1 -> arr_dest A2 w first2 (addr w last1 - addr w first1) ->
  arr_dest B w d_first (addr w last1 - addr w first1) ->
  transform2_c A1 A2 B p w op first1 last1 first2 d_first m =
    transform2 p w op first1 last1 first2 d_first m.
Proof. exact ptr_transform2. Qed.
Print Assumptions C62_transform2.

Example C62_transform2_example :
  valid_w 8 /\ arr_range (Arr 0 2) 8 (It 0 0) (It 2 0) /\ arr_dest (Arr 2 4) 8 (It 2 0) 16 /\
  arr_dest (Arr 4 7) 8 (It 4 3) 16 /\
  run 7 (transform2_c (Arr 0 2) (Arr 2 4) (Arr 4 7) Strict20 8 Z.lor (It 0 0) (It 2 0) (It 2 0) (It 4 3))
      [171; 205; 0; 16; 0; 0; 0] =
    Ok (It 6 3, [Some 171; Some 205; Some 0; Some 16; Some 88; Some 237; Some 6]).
Proof.
  split; [unfold valid_w; lia|]. split; [|split; [|split; [|vm_compute; reflexivity]]];
  unfold arr_range, arr_dest, inside, valid_it, addr, max_bits; cbn; lia.
Qed.

(** count computes &*it for the word behind the first one even when there is no such
    word: exactly when the range starts inside the last word of the array and ends
    with it. *)
Theorem C62_count : forall t p w A first last b m, valid_w w -> arr_range A w first last ->
  let past := ip first <> 0 /\ ib first + 1 = ib last /\ ib last = ahi A in
  (~ past -> count_c A t p w first last b m = count t p w first last b m) /\
  (past -> forall r, count t p w first last b m = Ok r -> count_c A t p w first last b m = UB BadUse).
Proof. exact ptr_count. Qed.
Print Assumptions C62_count.

Example C62_count_example :
  valid_w 8 /\ arr_range (Arr 0 3) 8 (It 0 3) (It 3 0) /\
  run 0 (count_c (Arr 0 3) (X86 (Cpu true true true)) Strict20 8 (It 0 3) (It 3 0) true) [248; 3; 1] = Ok (8, []).
Proof.
  split; [unfold valid_w; lia|]. split; [|vm_compute; reflexivity].
  unfold arr_range, inside, valid_it, addr, max_bits. cbn. lia.
Qed.

Theorem C62_count_end_refuted : exists A w first last m r, valid_w w /\ arr_range A w first last /\
  count (X86 (Cpu true true true)) Strict20 w first last true m = Ok r /\
  count_c A (X86 (Cpu true true true)) Strict20 w first last true m = UB BadUse.
Proof.
  exists (Arr 0 1), 8, (It 0 3), (It 1 0), (mem_of [248]). eexists.
  split; [unfold valid_w; lia|]. split; [unfold arr_range, inside, valid_it, addr, max_bits; cbn; lia|].
  split; vm_compute; reflexivity.
Qed.
Print Assumptions C62_count_end_refuted.

(** copy_backward decrements the pointer to the destination once more after the last
    whole word: it then lies in front of the array exactly if the destination starts
    with the array. *)
Theorem C62_copy_backward : forall p w A B first last d_last m, valid_w w -> arr_range A w first last ->
  arr_dest_end B w d_last (addr w last - addr w first) ->
  (~ copies_to_front w B first d_last (addr w last - addr w first) ->
     copy_backward_c A B p w first last d_last m = copy_backward p w first last d_last m) /\
  (copies_to_front w B first d_last (addr w last - addr w first) ->
     forall r, copy_backward p w first last d_last m = Ok r ->
       copy_backward_c A B p w first last d_last m = UB BadUse).
Proof. exact ptr_copy_backward. Qed.
Print Assumptions C62_copy_backward.

Example C62_copy_backward_example :
  valid_w 8 /\ arr_range (Arr 0 3) 8 (It 0 3) (It 2 3) /\ arr_dest_end (Arr 3 6) 8 (It 5 4) 16 /\
  ~ copies_to_front 8 (Arr 3 6) (It 0 3) (It 5 4) 16 /\
  run 6 (copy_backward_c (Arr 0 3) (Arr 3 6) Strict20 8 (It 0 3) (It 2 3) (It 5 4)) [88; 109; 6; 0; 0; 0] =
    Ok (It 3 4, [Some 88; Some 109; Some 6; Some 176; Some 218; Some 12]).
Proof.
  split; [unfold valid_w; lia|]. split; [|split; [|split; [|vm_compute; reflexivity]]];
  unfold arr_range, arr_dest_end, copies_to_front, inside, valid_it, addr, max_bits; cbn; lia.
Qed.

(** In particular bits may be moved up inside an array: insertion into a bit_vector
    stays inside its words. *)
Theorem C62_copy_backward_up : forall p w A first last d_last m, valid_w w -> arr_range A w first last ->
  valid_it w d_last -> addr w last < addr w d_last <= ahi A * w ->
  copy_backward_c A A p w first last d_last m = copy_backward p w first last d_last m.
Proof. exact ptr_copy_backward_up. Qed.
Print Assumptions C62_copy_backward_up.

Example C62_copy_backward_up_example :
  valid_w 8 /\ arr_range (Arr 0 3) 8 (It 0 0) (It 2 0) /\ valid_it 8 (It 2 3) /\
  addr 8 (It 2 0) < addr 8 (It 2 3) <= ahi (Arr 0 3) * 8 /\
  run 3 (copy_backward_c (Arr 0 3) (Arr 0 3) Strict20 8 (It 0 0) (It 2 0) (It 2 3)) [171; 205; 0] =
    Ok (It 0 3, [Some 91; Some 109; Some 6]).
Proof.
  split; [unfold valid_w; lia|]. split; [|split; [|split; [|vm_compute; reflexivity]]];
  unfold arr_range, inside, valid_it, addr, max_bits; cbn; lia.
Qed.

Theorem C62_copy_backward_refuted : exists A B w first last d_last m r,
  valid_w w /\ arr_range A w first last /\ arr_dest_end B w d_last (addr w last - addr w first) /\
  copy_backward Strict20 w first last d_last m = Ok r /\
  copy_backward_c A B Strict20 w first last d_last m = UB BadUse.
Proof.
  exists (Arr 0 3), (Arr 3 5), 8, (It 0 3), (It 2 3), (It 5 0), (mem_of [88; 109; 6; 0; 0]). eexists.
  split; [unfold valid_w; lia|]. 
  split; [unfold arr_range, inside, valid_it, addr, max_bits; cbn; lia|].
  split; [unfold arr_dest_end, inside, valid_it, addr; cbn; lia|].
  split; vm_compute; reflexivity.
Qed.
Print Assumptions C62_copy_backward_refuted.

(** shift_left computes first + n before it compares n with the length: exactly the
    counts that lead outside the array are undefined, even though the shift itself
    would do nothing. *)
Theorem C62_shift_left : forall p w A first last n m, valid_w w -> arr_range A w first last ->
  - max_bits <= n <= max_bits ->
  (pointable A w (addr w first + n) -> shift_left_c A p w first last n m = shift_left p w first last n m) /\
  (~ pointable A w (addr w first + n) -> shift_left_c A p w first last n m = UB BadUse).
Proof. exact ptr_shift_left. Qed.
Print Assumptions C62_shift_left.

Example C62_shift_left_example :
  valid_w 8 /\ arr_range (Arr 0 3) 8 (It 0 0) (It 3 0) /\ - max_bits <= 5 <= max_bits /\
  pointable (Arr 0 3) 8 (addr 8 (It 0 0) + 5) /\ ~ pointable (Arr 0 3) 8 (addr 8 (It 0 0) + 32) /\
  ~ pointable (Arr 0 3) 8 (addr 8 (It 0 0) + -1) /\
  run 3 (shift_left_c (Arr 0 3) Strict20 8 (It 0 0) (It 3 0) 5) [171; 205; 239] =
    Ok (It 2 3, [Some 109; Some 126; Some 239]) /\
  run 3 (shift_left Strict20 8 (It 0 0) (It 3 0) 32) [171; 205; 239] =
    Ok (It 0 0, [Some 171; Some 205; Some 239]) /\
  run 3 (shift_left_c (Arr 0 3) Strict20 8 (It 0 0) (It 3 0) 32) [171; 205; 239] = UB BadUse /\
  run 3 (shift_left_c (Arr 0 3) Strict20 8 (It 0 0) (It 3 0) (-1)) [171; 205; 239] = UB BadUse.
Proof.
  split; [unfold valid_w; lia|]. split; [unfold arr_range, inside, valid_it, addr, max_bits; cbn; lia|].
  split; [unfold max_bits; lia|]. split; [unfold pointable; vm_compute; split; discriminate|].
  split; [intros [_ H]; vm_compute in H; apply H; reflexivity|].
  split; [intros [H _]; vm_compute in H; apply H; reflexivity|].
  repeat split; vm_compute; reflexivity.
Qed.

(** shift_right computes last - n just so, and steps with middle_base_prev in front of
    the first word of the range: on ranges that start in the first word of their array,
    e.g. on a whole bit_vector. *)
Theorem C62_shift_right : forall p w A first last n m, valid_w w -> arr_range A w first last ->
  - max_bits <= n <= max_bits ->
  (~ pointable A w (addr w last - n) -> shift_right_c A p w first last n m = UB BadUse) /\
  (pointable A w (addr w last - n) -> ~ shifts_from_front w A first last n ->
     shift_right_c A p w first last n m = shift_right p w first last n m) /\
  (shifts_from_front w A first last n ->
     forall r, shift_right p w first last n m = Ok r -> shift_right_c A p w first last n m = UB BadUse).
Proof. exact ptr_shift_right. Qed.
Print Assumptions C62_shift_right.

Example C62_shift_right_example :
  valid_w 8 /\ arr_range (Arr 0 4) 8 (It 1 0) (It 4 0) /\ - max_bits <= 5 <= max_bits /\
  pointable (Arr 0 4) 8 (addr 8 (It 4 0) - 5) /\ ~ shifts_from_front 8 (Arr 0 4) (It 1 0) (It 4 0) 5 /\
  run 4 (shift_right_c (Arr 0 4) Strict20 8 (It 1 0) (It 4 0) 5) [0; 171; 205; 239] =
    Ok (It 1 5, [Some 0; Some 107; Some 181; Some 249]).
Proof.
  split; [unfold valid_w; lia|]. split; [unfold arr_range, inside, valid_it, addr, max_bits; cbn; lia|].
  split; [unfold max_bits; lia|]. split; [unfold pointable; vm_compute; split; discriminate|].
  split; [intros (_ & _ & _ & _ & H); discriminate H|]. vm_compute; reflexivity.
Qed.

Theorem C62_shift_right_refuted : exists A w first last n m r,
  valid_w w /\ arr_range A w first last /\ 0 < n < addr w last - addr w first /\
  shift_right Strict20 w first last n m = Ok r /\
  shift_right_c A Strict20 w first last n m = UB BadUse.
Proof.
  exists (Arr 0 3), 8, (It 0 0), (It 3 0), 5, (mem_of [171; 205; 239]). eexists.
  split; [unfold valid_w; lia|].
  split; [unfold arr_range, inside, valid_it, addr, max_bits; cbn; lia|]. split; [cbn; lia|].
  split; vm_compute; reflexivity.
Qed.
Print Assumptions C62_shift_right_refuted.

(** reverse shifts the words of its range right when there are more bits in front of
    the range in its first word than behind it in its last one. *)
Theorem C62_reverse : forall p w A first last m, valid_w w -> arr_range A w first last ->
  addr w last - addr w first + 2 * w <= max_bits ->
  (~ reverses_from_front w A first last -> reverse_c A p w first last m = reverse p w first last m) /\
  (reverses_from_front w A first last ->
     forall r, reverse p w first last m = Ok r -> reverse_c A p w first last m = UB BadUse).
Proof. exact ptr_reverse. Qed.
Print Assumptions C62_reverse.

Example C62_reverse_example :
  valid_w 8 /\ arr_range (Arr 0 3) 8 (It 0 2) (It 2 3) /\
  addr 8 (It 2 3) - addr 8 (It 0 2) + 2 * 8 <= max_bits /\
  ~ reverses_from_front 8 (Arr 0 3) (It 0 2) (It 2 3) /\
  run 3 (reverse_c (Arr 0 3) Strict20 8 (It 0 2) (It 2 3)) [171; 205; 239] =
    Ok (tt, [Some 127; Some 182; Some 234]).
Proof.
  split; [unfold valid_w; lia|]. split; [unfold arr_range, inside, valid_it, addr, max_bits; cbn; lia|].
  split; [vm_compute; discriminate|]. split; [intros (_ & H & _); discriminate H|]. vm_compute; reflexivity.
Qed.

Theorem C62_reverse_refuted : exists A w first last m r,
  valid_w w /\ arr_range A w first last /\ addr w last - addr w first + 2 * w <= max_bits /\
  reverse Strict20 w first last m = Ok r /\ reverse_c A Strict20 w first last m = UB BadUse.
Proof.
  exists (Arr 0 3), 8, (It 0 2), (It 3 0), (mem_of [171; 205; 239]). eexists.
  split; [unfold valid_w; lia|].
  split; [unfold arr_range, inside, valid_it, addr, max_bits; cbn; lia|].
  split; [vm_compute; discriminate|]. split; vm_compute; reflexivity.
Qed.
Print Assumptions C62_reverse_refuted.

(** Which rotations stay inside, exactly: all but those that end in a shift_right that
    does not, of a range with a first part of more than a word. *)
Theorem C62_rotate : forall p w A first n_first last m, valid_w w -> arr_range A w first last ->
  valid_it w n_first -> addr w first <= addr w n_first < addr w last ->
  let bad := w < addr w n_first - addr w first /\
             rotates_from_front w A first (addr w n_first - addr w first) (addr w last - addr w n_first) in
  (~ bad -> rotate_c A p w first n_first last m = rotate p w first n_first last m) /\
  (bad -> forall r, rotate p w first n_first last m = Ok r -> rotate_c A p w first n_first last m = UB BadUse).
Proof. exact ptr_rotate_both. Qed.
Print Assumptions C62_rotate.

(** Parts of 46 and 26 bits, of which 20 and 6 remain after the swaps; and parts of 14
    and 4 bits in the same place as the last 18 bits of three bytes. *)
Example C62_rotate_example :
  (valid_w 8 /\ arr_range (Arr 0 9) 8 (It 0 0) (It 9 0) /\ valid_it 8 (It 5 6) /\
   addr 8 (It 0 0) <= addr 8 (It 5 6) < addr 8 (It 9 0) /\
   8 < addr 8 (It 5 6) - addr 8 (It 0 0) /\
   rotates_from_front 8 (Arr 0 9) (It 0 0) (addr 8 (It 5 6) - addr 8 (It 0 0)) (addr 8 (It 9 0) - addr 8 (It 5 6)) /\
   run 9 (rotate Strict20 8 (It 0 0) (It 5 6) (It 9 0)) [1; 2; 3; 4; 5; 6; 7; 8; 9] =
     Ok (It 3 2, map Some [28; 32; 36; 4; 8; 12; 16; 20; 24]) /\
   rotate_c (Arr 0 9) Strict20 8 (It 0 0) (It 5 6) (It 9 0) (mem_of [1; 2; 3; 4; 5; 6; 7; 8; 9]) = UB BadUse) /\
  (arr_range (Arr 0 3) 8 (It 0 6) (It 3 0) /\ valid_it 8 (It 2 4) /\
   addr 8 (It 0 6) <= addr 8 (It 2 4) < addr 8 (It 3 0) /\
   ~ rotates_from_front 8 (Arr 0 3) (It 0 6) (addr 8 (It 2 4) - addr 8 (It 0 6)) (addr 8 (It 3 0) - addr 8 (It 2 4)) /\
   run 3 (rotate_c (Arr 0 3) Strict20 8 (It 0 6) (It 2 4) (It 3 0)) [171; 205; 239] =
     Ok (It 1 2, [Some 171; Some 219; Some 252])).
Proof.
  split.
  - split; [unfold valid_w; lia|]. split; [unfold arr_range, inside, valid_it, addr, max_bits; cbn; lia|].
    split; [unfold valid_it; cbn; lia|]. split; [cbn; lia|]. split; [cbn; lia|].
    split; [|split; vm_compute; reflexivity].
    change (rotates_from_front 8 (Arr 0 9) (It 0 0) 46 26). apply AfterSwaps; [lia|lia|].
    change (rotates_from_front 8 (Arr 0 9) (It 0 0) 20 6).
    apply LastShift with (last := It 3 2); [lia|lia|unfold valid_it; cbn; lia|reflexivity|].
    repeat split; cbn; lia.
  - split; [unfold arr_range, inside, valid_it, addr, max_bits; cbn; lia|].
    split; [unfold valid_it; cbn; lia|]. split; [cbn; lia|]. split; [|vm_compute; reflexivity].
    change (~ rotates_from_front 8 (Arr 0 3) (It 0 6) 14 4). intros B.
    inversion B as [a b last L1 L2 Vl El (_ & _ & _ & S & _)|a b L1 L2 R]; [|lia].
    vm_compute in S. apply S. reflexivity.
Qed.

(** In particular rotate stays inside if there is a word of the array in front of the
    range, or the part that moves to the back fits a word or is not longer than the
    other one. *)
Theorem C62_rotate_inside : forall p w A first n_first last m, valid_w w -> arr_range A w first last ->
  valid_it w n_first -> addr w first <= addr w n_first < addr w last ->
  (alo A < ib first \/ addr w n_first - addr w first <= w \/
   addr w n_first - addr w first <= addr w last - addr w n_first) ->
  rotate_c A p w first n_first last m = rotate p w first n_first last m.
Proof. exact ptr_rotate. Qed.
Print Assumptions C62_rotate_inside.

Example C62_rotate_inside_example :
  valid_w 8 /\ arr_range (Arr 0 4) 8 (It 0 0) (It 4 0) /\ valid_it 8 (It 1 4) /\
  addr 8 (It 0 0) <= addr 8 (It 1 4) < addr 8 (It 4 0) /\
  addr 8 (It 1 4) - addr 8 (It 0 0) <= addr 8 (It 4 0) - addr 8 (It 1 4) /\
  run 4 (rotate_c (Arr 0 4) Strict20 8 (It 0 0) (It 1 4) (It 4 0)) [171; 205; 239; 1] =
    Ok (It 2 4, [Some 252; Some 30; Some 176; Some 218]).
Proof.
  split; [unfold valid_w; lia|]. split; [unfold arr_range, inside, valid_it, addr, max_bits; cbn; lia|].
  split; [unfold valid_it; cbn; lia|]. split; [cbn; lia|]. split; [cbn; lia|]. vm_compute; reflexivity.
Qed.

(** Both ways of rotate: the one through shift_right alone, and the one that swaps
    blocks first. *)
Theorem C62_rotate_refuted :
  (exists A w first n_first last m r, valid_w w /\ arr_range A w first last /\
     addr w last - addr w n_first <= w /\
     rotate Strict20 w first n_first last m = Ok r /\ rotate_c A Strict20 w first n_first last m = UB BadUse) /\
  (exists A w first n_first last m r, valid_w w /\ arr_range A w first last /\
     w < addr w last - addr w n_first /\
     rotate Strict20 w first n_first last m = Ok r /\ rotate_c A Strict20 w first n_first last m = UB BadUse).
Proof.
  split.
  - exists (Arr 0 3), 8, (It 0 0), (It 2 3), (It 3 0), (mem_of [171; 205; 239]). eexists.
    split; [unfold valid_w; lia|].
    split; [unfold arr_range, inside, valid_it, addr, max_bits; cbn; lia|].
    split; [cbn; lia|]. split; vm_compute; reflexivity.
  - exists (Arr 0 9), 8, (It 0 0), (It 5 6), (It 9 0), (mem_of [1; 2; 3; 4; 5; 6; 7; 8; 9]). eexists.
    split; [unfold valid_w; lia|].
    split; [unfold arr_range, inside, valid_it, addr, max_bits; cbn; lia|].
    split; [cbn; lia|]. split; vm_compute; reflexivity.
Qed.
Print Assumptions C62_rotate_refuted.
