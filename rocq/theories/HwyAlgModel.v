(** Model of reverse and rotate in a build with BITLIB_HWY
    (/repo/include/bitlib/bit-algorithms/reverse.hpp and rotate.hpp). Their text does
    not depend on the macro; what changes are the functions they call: shift_left and
    shift_right then are the ones of shift.hpp:123-236 and 240-377 with the vector loops
    (HwyModel.v). swap_ranges (swap_ranges.hpp), std::reverse and std::transform on words
    have no vector version. So the definitions below are those of ReverseModel.v and
    RotateModel.v with the two shifts as parameters [sl] and [sr]; the instances of a
    BITLIB_HWY build are at the end. *)
From Coq Require Import ZArith Bool List.
From Verif Require Import Base WordOps IterModel PopcntModel AlgModel ShiftModel
  SwapModel ReverseModel RotateModel HwyModel.
Import ListNotations.
Open Scope Z_scope.

(** The shifts of reverse.hpp:68-83; [e] is std::next(last.base(), !is_last_aligned). *)
Definition reverse_shift_with (sl sr : iter -> iter -> Z -> M iter)
  (p : policy) (w : Z) (first last : iter) (gap e : Z)
  : M unit :=
  if ip first <? gap then
    sl (It (ib first) 0) (It (ib last + 1) 0) (gap - ip first) ;;
    ret tt
  else if gap <? ip first then
    sr (It (ib first) 0) (It e 0) (ip first - gap) ;;
    ret tt
  else ret tt.

(** reverse, reverse.hpp:27-111. *)
Definition reverse_with (sl sr : iter -> iter -> Z -> M iter)
  (p : policy) (w : Z) (first last : iter) : M unit :=
  let! _ := assert_viable w first last in
  let is_first_aligned := ip first =? 0 in
  let is_last_aligned := ip last =? 0 in
  let gap := usub w (ip last) * b2z (negb is_last_aligned) in
  if is_first_aligned && is_last_aligned then
    words_reverse (ib first) (ib last) ;;
    words_bitswap p w (Z.to_nat (ib last - ib first)) (ib first)
  else if negb (ib first =? ib last) then
    let* first_value := load (ib first) in
    let* last_value := load (ib last - b2z is_last_aligned) in
    let e := ib last + b2z (negb is_last_aligned) in
    words_reverse (ib first) e ;;
    words_bitswap p w (Z.to_nat (e - ib first)) (ib first) ;;
    reverse_shift_with sl sr p w first last gap e ;;
    (if negb is_first_aligned then
       let* x := load (ib first) in
       let! v := bitblend p w first_value x (ip first) (usub w (ip first)) in
       store (ib first) v
     else ret tt) ;;
    (if negb is_last_aligned then
       let* x := load (ib last) in
       let! v := bitblend p w x last_value (ip last) (usub w (ip last)) in
       store (ib last) v
     else ret tt)
  else
    let* x := load (ib first) in
    let! s := cshr p w x (ip first) in
    let! b := bitswap p w (wrap w s) in
    let! t := cshr p w b gap in
    let! v := bitblend p w x (wrap w t) (ip first) (usub (ip last) (ip first)) in
    store (ib first) v.

(** The endless loop of _rotate_via_raw, rotate.hpp:127-180. [fuel] bounds the number of
    rounds, each of which at least halves n. full_swaps is an unsigned int (lines 138
    and 164), hence the reduction modulo 2^32. *)
Fixpoint rot_loop_with (sl sr : iter -> iter -> Z -> M iter)
  (pl : policy) (w : Z) (fuel : nat) (p : iter) (n k : Z)
  (r : iter) : M iter :=
  match fuel with
  | O => lift Fuel
  | S f =>
    if k <? n - k then
      if k <=? w then
        let* temp_word := get_word pl w p k in
        let! e := iadd w p n in
        let* temp_it := sl p e k in
        write_word pl w temp_word temp_it k ;;
        ret r
      else
        let! q := iadd w p k in
        let full_swaps := wrap 32 (Z.quot (n - k) k) in
        let remainder := wrap 64 ((n - k) - full_swaps * k) in
        let* (p, q) := rot_up pl w (Z.to_nat full_swaps) p q k in
        let! e := iadd w p remainder in
        swap_ranges pl w p e q ;;
        let! p := iadd_assign w p remainder in
        let! q := iadd_assign w q remainder in
        let n := Z.rem n k in
        if n =? 0 then ret r
        else rot_loop_with sl sr pl w f p k (k - n) r
    else
      let k := n - k in
      if k <=? w then
        let! e := iadd w p n in
        let! s := isub w e k in
        let* temp_word := get_word pl w s k in
        let! e := iadd w p n in
        sr p e k ;;
        write_word pl w temp_word p k ;;
        ret r
      else
        let! q := iadd w p n in
        let! p := isub w q k in
        let full_swaps := wrap 32 (Z.quot (n - k) k) in
        let remainder := wrap 64 ((n - k) - full_swaps * k) in
        let* (p, q) := rot_down pl w (Z.to_nat full_swaps) p q k in
        let! p := isub_assign w p remainder in
        let! q := isub_assign w q remainder in
        let! e := iadd w p remainder in
        swap_ranges pl w p e q ;;
        let n := Z.rem n k in
        if n =? 0 then ret r
        else rot_loop_with sl sr pl w f p k n r
  end.

(** _rotate_via_raw, rotate.hpp:102-181. *)
Definition rotate_via_raw_with (sl sr : iter -> iter -> Z -> M iter)
  (pl : policy) (w : Z) (first n_first last : iter)
  : M iter :=
  let! k := idiff w n_first first in
  let! n := idiff w last first in
  if k =? n - k then
    swap_ranges pl w first n_first n_first ;;
    ret n_first
  else
    let! d := idiff w last n_first in
    let! r := iadd w first d in
    rot_loop_with sl sr pl w 64 first n k r.

(** rotate, rotate.hpp:184-258. *)
Definition rotate_with (sl sr : iter -> iter -> Z -> M iter)
  (pl : policy) (w : Z) (first n_first last : iter) : M iter :=
  let! _ := assert_viable w first n_first in
  let! _ := assert_viable w n_first last in
  let! _ := assert_viable w first last in
  if ieq first n_first then ret last
  else if one_word first last then rotate_one_word pl w first n_first last
  else
    let! b1 := is_within w first n_first in
    if b1 then
      let! k := distance w first n_first in
      let* temp := get_word pl w first k in
      let* new_last := sl first last k in
      write_word pl w temp new_last k ;;
      ret new_last
    else
      let! b2 := is_within w n_first last in
      if b2 then
        let! p := distance w n_first last in
        let* temp := get_word pl w n_first p in
        let* new_last := sr first last p in
        write_word pl w temp first p ;;
        ret new_last
      else rotate_via_raw_with sl sr pl w first n_first last.

(** reverse of a BITLIB_HWY build, reverse.hpp:27-111 with shift.hpp:123-377. *)
Definition reverse_hwy (p : policy) (h : simd_unit) (w : Z) (first last : iter) : M unit :=
  reverse_with (shift_left_hwy p h w) (shift_right_hwy p h w) p w first last.

(** rotate of a BITLIB_HWY build, rotate.hpp:184-258 with shift.hpp:123-377. *)
Definition rotate_hwy (p : policy) (h : simd_unit) (w : Z) (first n_first last : iter)
  : M iter :=
  rotate_with (shift_left_hwy p h w) (shift_right_hwy p h w) p w first n_first last.
