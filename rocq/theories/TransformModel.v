(** Model of /repo/include/bitlib/bit-algorithms/transform.hpp (line numbers
    without a file name refer to that file). The operations are functions on
    words, [op : Z -> Z] and [op : Z -> Z -> Z]. Simplification: they are total
    and without side effects. *)
From Coq Require Import ZArith Bool List.
From Verif Require Import Base WordOps IterModel PopcntModel AlgModel.
Import ListNotations.
Open Scope Z_scope.

(** std::transform over [n] words, front to back: line 106. *)
Fixpoint words_transform (op : Z -> Z) (n : nat) (src dst : Z) : M unit :=
  match n with
  | O => ret tt
  | S n' =>
    let* x := load src in
    store dst (op x) ;;
    words_transform op n' (src + 1) (dst + 1)
  end.

(** The loop of lines 111-116: returns (it, first, remaining). *)
Fixpoint transform_loop (p : policy) (w : Z) (op : Z -> Z) (fuel : nat) (it : Z)
  (first : iter) (remaining : Z) : M (Z * iter * Z) :=
  if w <=? remaining then
    match fuel with
    | O => lift Fuel
    | S f =>
      let* x := get_word p w first w in
      store it (op x) ;;
      let! first' := advance w first w in
      transform_loop p w op f (it + 1) first' (usub remaining w)
    end
  else ret (it, first, remaining).

(** transform with a unary operation, lines 34-128, without the BITLIB_HWY
    block. *)
Definition transform1 (p : policy) (w : Z) (op : Z -> Z)
  (first last d_first : iter) : M iter :=
  let! _ := assert_viable w first last in
  if ieq first last then ret d_first else
  let! total := distance w first last in
  let* (remaining, first, it) :=
    (if negb (ip d_first =? 0) then
       let partial := Z.min total (usub w (ip d_first)) in
       let* x := load (ib d_first) in
       let* g := get_word p w first partial in
       let! s := cshl p w g (ip d_first) in
       let! v := bitblend p w x (op (wrap w s)) (ip d_first) partial in
       store (ib d_first) v ;;
       let! f := advance w first partial in
       ret (usub total partial, f, ib d_first + 1)
     else ret (total, first, ib d_first)) in
  (if 0 <? remaining then
     let* (it, first, remaining) :=
       (if (ip first =? 0) && (w <? remaining) then
          let n := ib last - ib first in
          words_transform op (Z.to_nat n) (ib first) it ;;
          ret (it + n, mk_aligned (ib first + n), usub remaining (w * n))
        else
          transform_loop p w op (Z.to_nat (remaining / w)) it first remaining) in
     if 0 <? remaining then
       let* x := load it in
       let* g := get_word p w first remaining in
       let! mask := low_mask p w remaining in
       store it (bitblend_mask x (op g) mask)
     else ret tt
   else ret tt) ;;
  lift (iadd w d_first total).

(** std::transform of two word ranges, line 184. *)
Fixpoint words_transform2 (op : Z -> Z -> Z) (n : nat) (src1 src2 dst : Z)
  : M unit :=
  match n with
  | O => ret tt
  | S n' =>
    let* x := load src1 in
    let* y := load src2 in
    store dst (op x y) ;;
    words_transform2 op n' (src1 + 1) (src2 + 1) (dst + 1)
  end.

(** The loop of lines 189-197: returns (it, first1, first2, remaining). *)
Fixpoint transform2_loop (p : policy) (w : Z) (op : Z -> Z -> Z) (fuel : nat)
  (it : Z) (first1 first2 : iter) (remaining : Z) : M (Z * iter * iter * Z) :=
  if w <=? remaining then
    match fuel with
    | O => lift Fuel
    | S f =>
      let* x := get_word p w first1 w in
      let* y := get_word p w first2 w in
      store it (op x y) ;;
      let! first1' := advance w first1 w in
      let! first2' := advance w first2 w in
      transform2_loop p w op f (it + 1) first1' first2' (usub remaining w)
    end
  else ret (it, first1, first2, remaining).

(** transform with a binary operation, lines 130-212. *)
Definition transform2 (p : policy) (w : Z) (op : Z -> Z -> Z)
  (first1 last1 first2 d_first : iter) : M iter :=
  let! _ := assert_viable w first1 last1 in
  if ieq first1 last1 then ret d_first else
  let! total := distance w first1 last1 in
  let* (remaining, first1, first2, it) :=
    (if negb (ip d_first =? 0) then
       let partial := Z.min total (usub w (ip d_first)) in
       let* x := load (ib d_first) in
       let* g1 := get_word p w first1 partial in
       let! s1 := cshl p w g1 (ip d_first) in
       let* g2 := get_word p w first2 partial in
       let! s2 := cshl p w g2 (ip d_first) in
       let! v := bitblend p w x (op (wrap w s1) (wrap w s2)) (ip d_first)
                          partial in
       store (ib d_first) v ;;
       let! f1 := advance w first1 partial in
       let! f2 := advance w first2 partial in
       ret (usub total partial, f1, f2, ib d_first + 1)
     else ret (total, first1, first2, ib d_first)) in
  (if 0 <? remaining then
     let* (it, first1, first2, remaining) :=
       (if (ip first1 =? 0) && (ip first2 =? 0) && (w <? remaining) then
          let n := ib last1 - ib first1 in
          words_transform2 op (Z.to_nat n) (ib first1) (ib first2) it ;;
          let! f1 := iadd_assign w first1 (w * n) in
          let! f2 := iadd_assign w first2 (w * n) in
          ret (it + n, f1, f2, usub remaining (w * n))
        else
          transform2_loop p w op (Z.to_nat (remaining / w)) it first1 first2
                          remaining) in
     if 0 <? remaining then
       let* x := load it in
       let* g1 := get_word p w first1 remaining in
       let* g2 := get_word p w first2 remaining in
       let! mask := low_mask p w remaining in
       store it (bitblend_mask x (op g1 g2) mask)
     else ret tt
   else ret tt) ;;
  lift (iadd w d_first total).
