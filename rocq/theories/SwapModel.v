(** Model of /repo/include/bitlib/bit-algorithms/swap_ranges.hpp (line numbers
    without a file name refer to that file), for two ranges of the same word
    type (the only case the C++ implements: lines 50, 191). *)
From Coq Require Import ZArith Bool List.
From Verif Require Import Base WordOps IterModel PopcntModel AlgModel.
Import ListNotations.
Open Scope Z_scope.

(** std::swap_ranges of [n] words, line 95. *)
Fixpoint words_swap (n : nat) (a b : Z) : M unit :=
  match n with
  | O => ret tt
  | S n' =>
    let* x := load a in
    let* y := load b in
    store a y ;;
    store b x ;;
    words_swap n' (a + 1) (b + 1)
  end.

(** The single word case, lines 52-84. *)
Definition swap_one_word (p : policy) (w : Z) (first1 last1 first2 : iter)
  : M iter :=
  let it1 := ib first1 in
  let it2 := ib first2 in
  let! digits_to_copy := distance w first1 last1 in
  (if ip first2 <=? ip first1 then
     bitexch3 p w it1 it2 (ip first1) (ip first2) digits_to_copy
   else
     let partial := Z.min digits_to_copy (usub w (ip first2)) in
     bitexch3 p w it1 it2 (ip first1) (ip first2) partial ;;
     if partial <? digits_to_copy then
       bitexch3 p w it1 (it2 + 1) (ip first1 + partial) 0
                (usub digits_to_copy partial)
     else ret tt) ;;
  lift (iadd w first2 digits_to_copy).

(** Several words with equal alignment, lines 88-109. *)
Definition swap_aligned (p : policy) (w : Z) (first1 last1 first2 : iter)
  : M iter :=
  let it1 := ib first1 in
  let it2 := ib first2 in
  bitexch2 p w it1 it2 (ip first1) (usub w (ip first1)) ;;
  let n := ib last1 - (it1 + 1) in
  words_swap (Z.to_nat n) (it1 + 1) (it2 + 1) ;;
  let it2 := it2 + 1 + n in
  (if negb (ip last1 =? 0) then
     bitexch2 p w (ib last1) it2 0 (ip last1)
   else ret tt) ;;
  lift (mk_iter w it2 (ip last1)).

(** The loop over the full words, lines 143-158: [n] words remain up to
    last1.base(); returns (it1, it2). *)
Fixpoint swap_loop (p : policy) (w : Z) (n : nat) (it1 it2 pos2 digits : Z)
  : M (Z * Z) :=
  match n with
  | O => ret (it1, it2)
  | S n' =>
    bitexch3 p w it1 it2 0 pos2 digits ;;
    bitexch3 p w it1 (it2 + 1) digits 0 (usub w digits) ;;
    swap_loop p w n' (it1 + 1) (it2 + 1) pos2 digits
  end.

(** Several words with different alignment, lines 112-189. *)
Definition swap_unaligned (p : policy) (w : Z) (first1 last1 first2 : iter)
  : M iter :=
  let it1 := ib first1 in
  let it2 := ib first2 in
  let digits_to_copy := usub w (ip first1) in
  let* it2 :=
    (if ip first2 <? ip first1 then
       bitexch3 p w it1 it2 (ip first1) (ip first2) digits_to_copy ;;
       ret it2
     else
       let partial := usub w (ip first2) in
       bitexch3 p w it1 it2 (ip first1) (ip first2) partial ;;
       bitexch3 p w it1 (it2 + 1) (ip first1 + partial) 0
                (usub digits_to_copy partial) ;;
       ret (it2 + 1)) in
  let it1 := it1 + 1 in
  let! first2 := advance w first2 digits_to_copy in
  let digits_to_copy := usub w (ip first2) in
  let* (it1, it2) :=
    swap_loop p w (Z.to_nat (ib last1 - it1)) it1 it2 (ip first2)
              digits_to_copy in
  if negb (ip last1 =? 0) then
    let partial := usub w (ip first2) in
    if ip last1 <=? partial then
      bitexch3 p w it1 it2 0 (ip first2) (ip last1) ;;
      let! r := mk_iter w it2 (ip first2) in
      lift (iadd w r (ip last1))
    else
      bitexch3 p w it1 it2 0 (ip first2) partial ;;
      bitexch3 p w it1 (it2 + 1) partial 0 (usub (ip last1) partial) ;;
      lift (mk_iter w (it2 + 1) (usub (ip last1) partial))
  else lift (mk_iter w it2 (ip first2)).

(** swap_ranges, lines 23-192. *)
Definition swap_ranges (p : policy) (w : Z) (first1 last1 first2 : iter)
  : M iter :=
  let! _ := assert_viable w first1 last1 in
  if ieq first1 last1 then ret first2
  else if ib first1 + b2z (ip last1 =? 0) =? ib last1 then
    swap_one_word p w first1 last1 first2
  else if ip first1 =? ip first2 then swap_aligned p w first1 last1 first2
  else swap_unaligned p w first1 last1 first2.
