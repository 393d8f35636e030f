(** Vocabulary for the theorems about checked word iterators. *)
From Coq Require Import ZArith Bool List.
From Verif Require Import Base IterModel Spec PtrModel.
Import ListNotations.
Open Scope Z_scope.

(** The bits [lo, hi) lie in the words of the array [A]
    (the ranges handed to /repo/include/bitlib/bit-algorithms). *)
Definition inside (A : arr) (w lo hi : Z) : Prop := alo A * w <= lo /\ hi <= ahi A * w.

(** Bit [i] lies in a word of [A], or in the one behind its last word: the word
    pointer of a bit iterator at bit [i] may be computed
    (bit-iterator/bit_iterator.hpp:293-320). *)
Definition pointable (A : arr) (w i : Z) : Prop := alo A <= i / w <= ahi A.

(** A range of at most [max_bits] bits whose words belong to [A]. *)
Definition arr_range (A : arr) (w : Z) (first last : iter) : Prop :=
  valid_it w first /\ valid_it w last /\ addr w first <= addr w last /\
  addr w last - addr w first <= max_bits /\ inside A w (addr w first) (addr w last).

(** The [n] bits from [d] on, or the [n] bits before [d], belong to [B]. *)
Definition arr_dest (B : arr) (w : Z) (d : iter) (n : Z) : Prop :=
  valid_it w d /\ inside B w (addr w d) (addr w d + n).
Definition arr_dest_end (B : arr) (w : Z) (d : iter) (n : Z) : Prop :=
  valid_it w d /\ inside B w (addr w d - n) (addr w d).

(** copy_backward of [n] > 0 bits to the very beginning of [B] and over more than one
    of its words, from a source that does not start at the beginning of a word, or
    with the destination ending in its second word (copy_backward.hpp:87). *)
Definition copies_to_front (w : Z) (B : arr) (first d_last : iter) (n : Z) : Prop :=
  0 < n /\ addr w d_last - n = alo B * w /\ alo B < ib d_last /\
  (ip first <> 0 \/ ib d_last = alo B + 1).

(** shift_right by [n], not a multiple of the word size, of a range that starts in
    the first word of [A], at a position not behind that of last.base() - n bits, and
    has another word's worth of bits between first + n and the word of last
    (shift.hpp:345-358). *)
Definition shifts_from_front (w : Z) (A : arr) (first last : iter) (n : Z) : Prop :=
  0 < n /\ n mod w <> 0 /\ addr w first + n + w <= ib last * w /\
  ip first <= (- n) mod w /\ ib first = alo A.

(** rotate of a range from [first] on with parts of [a] and [b] bits: while the second
    part is longer than a word and not longer than the first, it is exchanged with the
    bits in front of it, part by part, and what remains is a rotation of its own length
    (rotate.hpp:159-179); if it is not longer than a word in the end, shift_right is
    called (rotate.hpp:160-165, 246-250). *)
Inductive rotates_from_front (w : Z) (A : arr) (first : iter) : Z -> Z -> Prop :=
| LastShift : forall a b last, b <= a -> b <= w -> valid_it w last ->
    addr w last = addr w first + a + b -> shifts_from_front w A first last b ->
    rotates_from_front w A first a b
| AfterSwaps : forall a b, b <= a -> w < b ->
    rotates_from_front w A first (a mod b) (b - a mod b) ->
    rotates_from_front w A first a b.

(** reverse of a range in more than one word that starts in the first word of [A],
    with more bits in front of it in its first word than behind it in its last
    (reverse.hpp:77-83). *)
Definition reverses_from_front (w : Z) (A : arr) (first last : iter) : Prop :=
  ib first = alo A /\ (if ip last =? 0 then 0 else w - ip last) < ip first /\
  ib first * w + w < addr w last.
