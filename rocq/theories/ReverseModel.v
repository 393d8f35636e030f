(** Model of /repo/include/bitlib/bit-algorithms/reverse.hpp (line numbers
    without a file name refer to that file). *)
From Coq Require Import ZArith Bool List.
From Verif Require Import Base WordOps IterModel PopcntModel AlgModel ShiftModel.
Import ListNotations.
Open Scope Z_scope.

(** std::reverse on words, lines 51 and 59: [n] exchanges of the words at the
    two ends, [hi] being the last word. *)
Fixpoint words_reverse_loop (n : nat) (lo hi : Z) : M unit :=
  match n with
  | O => ret tt
  | S n' =>
    let* x := load lo in
    let* y := load hi in
    store lo y ;;
    store hi x ;;
    words_reverse_loop n' (lo + 1) (hi - 1)
  end.

(** std::reverse(a, b), lines 51 and 59: half the number of words. *)
Definition words_reverse (a b : Z) : M unit :=
  words_reverse_loop (Z.to_nat ((b - a) / 2)) a (b - 1).

(** std::transform with _bitswap in place on [n] words, lines 52 and 61-66. *)
Fixpoint words_bitswap (p : policy) (w : Z) (n : nat) (a : Z) : M unit :=
  match n with
  | O => ret tt
  | S n' =>
    let* x := load a in
    let! r := bitswap p w x in
    store a r ;;
    words_bitswap p w n' (a + 1)
  end.

(** The shifts of lines 68-83; [e] is std::next(last.base(), !is_last_aligned).
    In the first branch gap is positive, so last is unaligned and
    std::next(last.base()) is [e]. *)
Definition reverse_shift (p : policy) (w : Z) (first last : iter) (gap e : Z)
  : M unit :=
  if ip first <? gap then
    shift_left p w (It (ib first) 0) (It (ib last + 1) 0) (gap - ip first) ;;
    ret tt
  else if gap <? ip first then
    shift_right p w (It (ib first) 0) (It e 0) (ip first - gap) ;;
    ret tt
  else ret tt.

(** reverse, lines 27-111. *)
Definition reverse (p : policy) (w : Z) (first last : iter) : M unit :=
  let! _ := assert_viable w first last in
  let is_first_aligned := ip first =? 0 in
  let is_last_aligned := ip last =? 0 in
  let gap := usub w (ip last) * b2z (negb is_last_aligned) in
  if is_first_aligned && is_last_aligned then
    words_reverse (ib first) (ib last) ;;
    words_bitswap p w (Z.to_nat (ib last - ib first)) (ib first)
  else if negb (ib first =? ib last) then
    let* first_value := load (ib first) in
    let* last_value := load (ib last - b2z is_last_aligned) in
    let e := ib last + b2z (negb is_last_aligned) in
    words_reverse (ib first) e ;;
    words_bitswap p w (Z.to_nat (e - ib first)) (ib first) ;;
    reverse_shift p w first last gap e ;;
    (if negb is_first_aligned then
       let* x := load (ib first) in
       let! v := bitblend p w first_value x (ip first) (usub w (ip first)) in
       store (ib first) v
     else ret tt) ;;
    (if negb is_last_aligned then
       let* x := load (ib last) in
       let! v := bitblend p w x last_value (ip last) (usub w (ip last)) in
       store (ib last) v
     else ret tt)
  else
    let* x := load (ib first) in
    let! s := cshr p w x (ip first) in
    let! b := bitswap p w (wrap w s) in
    let! t := cshr p w b gap in
    let! v := bitblend p w x (wrap w t) (ip first) (usub (ip last) (ip first)) in
    store (ib first) v.
