(** The element-by-element algorithms of the standard library on bit_iterators, as
    the standard states them: loops of *, ++, --, != and <
    (/repo/include/bitlib/bit-iterator/bit_iterator.hpp:203-209, 241-268, 416-443)
    and of reads, assignments and swaps through bit_reference
    (bit_reference.hpp:185-213, 276-281, 402-412). README.md, "Usage", offers the
    bit:: algorithms in their place, and /repo/test/src compares against them.
    [fuel] bounds the number of rounds. *)
From Coq Require Import ZArith Bool.
From Verif Require Import Base IterModel RefModel.
Open Scope Z_scope.

(** std::fill, compared in /repo/test/src/test-fill.cpp. *)
Fixpoint std_fill (p : policy) (w : Z) (fuel : nat) (first last : iter) (b : bool) : M unit :=
  match fuel with
  | O => lift Fuel
  | S f =>
    if ine first last then
      let! r := ideref p w first in
      ref_assign_val w r b ;;
      std_fill p w f (iinc w first) last b
    else ret tt
  end.

(** std::copy and std::move, compared in /repo/test/src/test-copy.cpp and
    test-move.cpp: moving from a bit_reference copies it (bit_reference.hpp:194-203). *)
Fixpoint std_copy (p : policy) (w : Z) (fuel : nat) (first last d : iter) : M iter :=
  match fuel with
  | O => lift Fuel
  | S f =>
    if ine first last then
      let! r := ideref p w d in
      let! s := ideref p w first in
      ref_assign_ref w r s ;;
      std_copy p w f (iinc w first) last (iinc w d)
    else ret d
  end.

(** std::copy_backward, compared in /repo/test/src/test-copy_backward.cpp. *)
Fixpoint std_copy_backward (p : policy) (w : Z) (fuel : nat) (first last d : iter) : M iter :=
  match fuel with
  | O => lift Fuel
  | S f =>
    if ine first last then
      let last := idec w last in
      let d := idec w d in
      let! r := ideref p w d in
      let! s := ideref p w last in
      ref_assign_ref w r s ;;
      std_copy_backward p w f first last d
    else ret d
  end.

(** std::swap_ranges, compared in /repo/test/src/test-swap_ranges.cpp; the elements
    are exchanged by swap(bit_reference, bit_reference). *)
Fixpoint std_swap_ranges (p : policy) (w : Z) (fuel : nat) (first last d : iter) : M iter :=
  match fuel with
  | O => lift Fuel
  | S f =>
    if ine first last then
      let! r := ideref p w first in
      let! s := ideref p w d in
      ref_swap r s ;;
      std_swap_ranges p w f (iinc w first) last (iinc w d)
    else ret d
  end.

(** std::reverse for random access iterators, compared in
    /repo/test/src/test-reverse.cpp: [rev_loop] is entered with last already
    decremented. *)
Fixpoint rev_loop (p : policy) (w : Z) (fuel : nat) (first last : iter) : M unit :=
  match fuel with
  | O => lift Fuel
  | S f =>
    if ilt first last then
      let! r := ideref p w first in
      let! s := ideref p w last in
      ref_swap r s ;;
      rev_loop p w f (iinc w first) (idec w last)
    else ret tt
  end.
Definition std_reverse (p : policy) (w : Z) (fuel : nat) (first last : iter) : M unit :=
  if ieq first last then ret tt   (* test-reverse.cpp: std::reverse *)
  else rev_loop p w fuel first (idec w last).

(** std::transform with a unary and a binary function of bit values, compared in
    /repo/test/src/test-transform.cpp. *)
Fixpoint std_transform (p : policy) (w : Z) (fuel : nat) (g : bool -> bool)
  (first last d : iter) : M iter :=
  match fuel with
  | O => lift Fuel
  | S f =>
    if ine first last then
      let! s := ideref p w first in
      let* x := ref_get s in
      let! r := ideref p w d in
      ref_assign_val w r (g x) ;;
      std_transform p w f g (iinc w first) last (iinc w d)
    else ret d
  end.
Fixpoint std_transform2 (p : policy) (w : Z) (fuel : nat) (g : bool -> bool -> bool)
  (first last first2 d : iter) : M iter :=
  match fuel with
  | O => lift Fuel
  | S f =>
    if ine first last then
      let! s := ideref p w first in
      let* x := ref_get s in
      let! s2 := ideref p w first2 in
      let* y := ref_get s2 in
      let! r := ideref p w d in
      ref_assign_val w r (g x y) ;;
      std_transform2 p w f g (iinc w first) last (iinc w first2) (iinc w d)
    else ret d
  end.

(** std::find, std::count and std::equal, compared in /repo/test/src/test-find.cpp,
    test-count.cpp and test-equal.cpp. *)
Fixpoint std_find (p : policy) (w : Z) (fuel : nat) (first last : iter) (b : bool) : M iter :=
  match fuel with
  | O => lift Fuel
  | S f =>
    if ine first last then
      let! s := ideref p w first in
      let* x := ref_get s in
      if eqb x b then ret first else std_find p w f (iinc w first) last b
    else ret last
  end.
Fixpoint std_count (p : policy) (w : Z) (fuel : nat) (first last : iter) (b : bool) (n : Z) : M Z :=
  match fuel with
  | O => lift Fuel
  | S f =>
    if ine first last then
      let! s := ideref p w first in
      let* x := ref_get s in
      std_count p w f (iinc w first) last b (if eqb x b then n + 1 else n)
    else ret n
  end.
Fixpoint std_equal (p : policy) (w : Z) (fuel : nat) (first last d : iter) : M bool :=
  match fuel with
  | O => lift Fuel
  | S f =>
    if ine first last then
      let! s := ideref p w first in
      let* x := ref_get s in
      let! t := ideref p w d in
      let* y := ref_get t in
      if eqb x y then std_equal p w f (iinc w first) last (iinc w d) else ret false
    else ret true
  end.

(** std::rotate, compared in /repo/test/src/test-rotate.cpp ("Same behavior as
    std::rotate", README.md:25). The standard fixes the effect only; this is the
    well-known implementation by three reversals, which returns the iterator behind the
    bits from [mid] on, first + (last - mid) (bit_iterator.hpp:293-305, 389-409). *)
Definition std_rotate (p : policy) (w : Z) (fuel : nat) (first mid last : iter) : M iter :=
  if ieq first mid then ret last
  else if ieq mid last then ret first
  else
    std_reverse p w fuel first mid ;;
    std_reverse p w fuel mid last ;;
    std_reverse p w fuel first last ;;
    let! n := idiff w last mid in
    lift (iadd w first n).

(** std::shift_left and std::shift_right (C++20), whose tests are
    /repo/test/src/test-shift.cpp: nothing happens unless 0 < n < last - first, else the
    bits are moved as std::move and std::move_backward move them
    (shift.hpp:27-33 takes them for the words, 44-238, 240-377 for the bits). *)
Definition std_shift_left (p : policy) (w : Z) (fuel : nat) (first last : iter) (n : Z) : M iter :=
  if n =? 0 then ret last                     (* test-shift.cpp:33: std::shift_left *)
  else
    let! d := idiff w last first in
    if d <=? n then ret first
    else
      let! mid := iadd w first n in
      std_copy p w fuel mid last first.
Definition std_shift_right (p : policy) (w : Z) (fuel : nat) (first last : iter) (n : Z) : M iter :=
  if n =? 0 then ret first                    (* test-shift.cpp:55: std::shift_right *)
  else
    let! d := idiff w last first in
    if d <=? n then ret last
    else
      let! mid := isub w last n in
      std_copy_backward p w fuel first mid last.
