(** Model of /repo/include/bitlib/bit-iterator/bit_iterator.hpp and of the
    iterator utilities of
    /repo/include/bitlib/bit-algorithms/bit_algorithm_details.hpp:29-102.
    [w] is the number of digits of the word type. *)
From Coq Require Import ZArith Bool List.
From Verif Require Import Base WordOps.
Import ListNotations.
Open Scope Z_scope.

(** bit_iterator: the members _current (a word address) and _position,
    bit_iterator.hpp:85-86 (declared), 172-180. Simplification: the word
    iterator is a pointer, its arithmetic is unbounded. *)
Record iter : Type := It { ib : Z; ip : Z }.

(** Constructor with a position (size_t), bit_iterator.hpp:172-180. *)
Definition mk_iter (w b q : Z) : res iter :=
  if q <? w then Ok (It b q) else Assert.

(** Constructor from a word iterator, bit_iterator.hpp:161-169. *)
Definition mk_aligned (b : Z) : iter := It b 0.

(** The quotient correction of lines 228-232, 299-303 and 314-318, where
    [sum] has type ptrdiff_t. *)
Definition floor_diff (w sum : Z) : Z :=
  let diff := Z.quot sum w in
  if (sum <? 0) && negb (diff * w =? sum) then diff - 1 else diff.

(** operator+(n), bit_iterator.hpp:293-305. *)
Definition iadd (w : Z) (it : iter) (n : Z) : res iter :=
  let sum := swrap64 (ip it + n) in
  let diff := floor_diff w sum in
  mk_iter w (ib it + diff) (wrap 64 (sum - diff * w)).

(** operator-(n), bit_iterator.hpp:308-320. *)
Definition isub (w : Z) (it : iter) (n : Z) : res iter :=
  let sum := swrap64 (ip it - n) in
  let diff := floor_diff w sum in
  mk_iter w (ib it + diff) (wrap 64 (sum - diff * w)).

(** operator+= and operator-=, bit_iterator.hpp:323-340. *)
Definition iadd_assign (w : Z) (it : iter) (n : Z) : res iter := iadd w it n.
Definition isub_assign (w : Z) (it : iter) (n : Z) : res iter := isub w it n.

(** operator+(n, it), bit_iterator.hpp:379-386. *)
Definition iadd_left (w n : Z) (it : iter) : res iter := iadd w it n.

(** operator++, bit_iterator.hpp:241-253. *)
Definition iinc (w : Z) (it : iter) : iter :=
  if ip it + 1 <? w then It (ib it) (ip it + 1) else It (ib it + 1) 0.

(** operator--, bit_iterator.hpp:256-268. *)
Definition idec (w : Z) (it : iter) : iter :=
  if ip it =? 0 then It (ib it - 1) (w - 1) else It (ib it) (ip it - 1).

(** Postfix operators, bit_iterator.hpp:271-290: (old value, new value). *)
Definition ipostinc (w : Z) (it : iter) : iter * iter := (it, iinc w it).
Definition ipostdec (w : Z) (it : iter) : iter * iter := (it, idec w it).

(** mask(), bit_iterator.hpp:365-372; the shift is by the position. *)
Definition imask (p : policy) (w : Z) (it : iter) : res Z :=
  let? s := cshl p w 1 (ip it) in Ok (wrap w s).

(** Fits a ptrdiff_t (64-bit signed), bit_iterator.hpp:400-408. *)
Definition in_int64 (x : Z) : bool := (- 2 ^ 63 <=? x) && (x <? 2 ^ 63).

(** operator-(lhs, rhs), bit_iterator.hpp:389-409: main * digits is a signed
    product (its overflow is UB), the sum with the unsigned position difference
    is converted back to ptrdiff_t. *)
Definition idiff (w : Z) (lhs rhs : iter) : res Z :=
  let main := ib lhs - ib rhs in
  if in_int64 (main * w) then Ok (swrap64 (main * w + (ip lhs - ip rhs)))
  else UB SignedOverflow.

(** Comparison operators, bit_iterator.hpp:416-477. *)
Definition ieq (l r : iter) : bool := (ib l =? ib r) && (ip l =? ip r).
Definition ine (l r : iter) : bool :=
  negb (ib l =? ib r) || negb (ip l =? ip r).
Definition ilt (l r : iter) : bool :=
  (ib l <? ib r) || ((ib l =? ib r) && (ip l <? ip r)).
Definition ile (l r : iter) : bool :=
  (ib l <? ib r) || ((ib l =? ib r) && (ip l <=? ip r)).
Definition igt (l r : iter) : bool :=
  (ib r <? ib l) || ((ib l =? ib r) && (ip r <? ip l)).
Definition ige (l r : iter) : bool :=
  (ib r <? ib l) || ((ib l =? ib r) && (ip r <=? ip l)).

(** _assert_range_viability, bit_details.hpp:377-387: std::distance of two
    random access bit iterators is last - first. *)
Definition assert_viable (w : Z) (first last : iter) : res unit :=
  let? d := idiff w last first in
  if 0 <=? d then Ok tt else Assert.

(** bit::distance, bit_algorithm_details.hpp:29-41. *)
Definition distance (w : Z) (first last : iter) : res Z :=
  let? _ := assert_viable w first last in
  Ok (swrap64 ((ib last - ib first) * w + (ip last - ip first))).

(** advance and next, bit_algorithm_details.hpp:44-56. *)
Definition advance (w : Z) (it : iter) (n : Z) : res iter := iadd w it n.
Definition inext (w : Z) (it : iter) (n : Z) : res iter := iadd w it n.

(** is_within with a run-time bound, bit_algorithm_details.hpp:65-76. *)
Definition is_within_rt (w : Z) (first last : iter) (n : Z) : res bool :=
  let? d := distance w first last in Ok (d <=? n).

(** is_within<N>, bit_algorithm_details.hpp:78-102; [fuel] bounds the template
    recursion N, N - digits, ... *)
Fixpoint is_within_ct (w : Z) (fuel : nat) (n : Z) (first last : iter)
  : res bool :=
  let full_words := Z.quot n w in
  let remainder_bits := Z.rem n w in
  if 0 <? full_words then
    if (ib first =? ib last)
       || ((ib first + 1 =? ib last) && (ip last <=? ip first))
    then Ok true
    else
      match fuel with
      | O => Fuel
      | S f =>
        let? first' := iadd w first w in
        is_within_ct w f (n - w) first' last
      end
  else
    Ok (((ib first =? ib last) && (ip last <=? ip first + remainder_bits))
        || ((ib first + 1 =? ib last)
            && (ip last <=? ip first + remainder_bits - w))).

(** is_within<digits>, the instance used by fill.hpp and rotate.hpp
    (bit_algorithm_details.hpp:78-102). *)
Definition is_within (w : Z) (first last : iter) : res bool :=
  is_within_ct w 2 w first last.
