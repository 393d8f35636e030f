(** Model of /repo/include/bitlib/bit-algorithms/rotate.hpp (line numbers
    without a file name refer to that file). _rotate_via_copy_begin and
    _rotate_via_copy_end (lines 24-98), which rotate does not call, are in
    RotateCopyModel.v. *)
From Coq Require Import ZArith Bool List.
From Verif Require Import Base WordOps IterModel PopcntModel AlgModel ShiftModel
  SwapModel.
Import ListNotations.
Open Scope Z_scope.

(** The loop of lines 140-145: [n] is full_swaps; returns (p, q). *)
Fixpoint rot_up (pl : policy) (w : Z) (n : nat) (p q : iter) (k : Z)
  : M (iter * iter) :=
  match n with
  | O => ret (p, q)
  | S n' =>
    swap_ranges pl w p q q ;;
    let! p := iadd_assign w p k in
    let! q := iadd_assign w q k in
    rot_up pl w n' p q k
  end.

(** The loop of lines 166-171: [n] is full_swaps; returns (p, q). *)
Fixpoint rot_down (pl : policy) (w : Z) (n : nat) (p q : iter) (k : Z)
  : M (iter * iter) :=
  match n with
  | O => ret (p, q)
  | S n' =>
    let! p := isub_assign w p k in
    let! q := isub_assign w q k in
    swap_ranges pl w p q q ;;
    rot_down pl w n' p q k
  end.

(** The endless loop of _rotate_via_raw, lines 127-180. [fuel] bounds the
    number of rounds, each of which at least halves n. full_swaps is an
    unsigned int (lines 138 and 164), hence the reduction modulo 2^32. *)
Fixpoint rot_loop (pl : policy) (w : Z) (fuel : nat) (p : iter) (n k : Z)
  (r : iter) : M iter :=
  match fuel with
  | O => lift Fuel
  | S f =>
    if k <? n - k then
      if k <=? w then
        let* temp_word := get_word pl w p k in
        let! e := iadd w p n in
        let* temp_it := shift_left pl w p e k in
        write_word pl w temp_word temp_it k ;;
        ret r
      else
        let! q := iadd w p k in
        let full_swaps := wrap 32 (Z.quot (n - k) k) in
        let remainder := wrap 64 ((n - k) - full_swaps * k) in
        let* (p, q) := rot_up pl w (Z.to_nat full_swaps) p q k in
        let! e := iadd w p remainder in
        swap_ranges pl w p e q ;;
        let! p := iadd_assign w p remainder in
        let! q := iadd_assign w q remainder in
        let n := Z.rem n k in
        if n =? 0 then ret r
        else rot_loop pl w f p k (k - n) r
    else
      let k := n - k in
      if k <=? w then
        let! e := iadd w p n in
        let! s := isub w e k in
        let* temp_word := get_word pl w s k in
        let! e := iadd w p n in
        shift_right pl w p e k ;;
        write_word pl w temp_word p k ;;
        ret r
      else
        let! q := iadd w p n in
        let! p := isub w q k in
        let full_swaps := wrap 32 (Z.quot (n - k) k) in
        let remainder := wrap 64 ((n - k) - full_swaps * k) in
        let* (p, q) := rot_down pl w (Z.to_nat full_swaps) p q k in
        let! p := isub_assign w p remainder in
        let! q := isub_assign w q remainder in
        let! e := iadd w p remainder in
        swap_ranges pl w p e q ;;
        let n := Z.rem n k in
        if n =? 0 then ret r
        else rot_loop pl w f p k n r
  end.

(** _rotate_via_raw, lines 102-181. *)
Definition rotate_via_raw (pl : policy) (w : Z) (first n_first last : iter)
  : M iter :=
  let! k := idiff w n_first first in
  let! n := idiff w last first in
  if k =? n - k then
    swap_ranges pl w first n_first n_first ;;
    ret n_first
  else
    let! d := idiff w last n_first in
    let! r := iadd w first d in
    rot_loop pl w 64 first n k r.

(** The single word cases of rotate, lines 209-236. The mask of line 224 is
    computed in unsigned long long. *)
Definition rotate_one_word (pl : policy) (w : Z) (first n_first last : iter)
  : M iter :=
  if (ip first =? 0) && (ip last =? 0) then
    let* x := load (ib first) in
    let! a := cshr pl w x (ip n_first) in
    let! b := cshl pl w x (usub w (ip n_first)) in
    store (ib first) (wrap w (Z.lor a (wrap w b))) ;;
    lift (iadd_assign w first (swrap64 (usub w (ip n_first))))
  else
    let last_pos := if ip last =? 0 then w else ip last in
    let k := usub (ip n_first) (ip first) in
    let p := usub last_pos (ip n_first) in
    let d := usub last_pos (ip first) in
    let! s := cshl pl 64 1 d in
    let! mk := cshl pl 64 (wrap 64 (s - 1)) (ip first) in
    let mask := wrap w mk in
    let* x := load (ib first) in
    let rotated := Z.land x mask in
    let! a := cshr pl w rotated k in
    let! b := cshl pl w rotated p in
    let rotated := Z.lor (wrap w a) (wrap w b) in
    let! v := bitblend pl w x rotated (ip first) d in
    store (ib first) v ;;
    lift (iadd_assign w first (swrap64 p)).

(** rotate, lines 184-258. *)
Definition rotate (pl : policy) (w : Z) (first n_first last : iter) : M iter :=
  let! _ := assert_viable w first n_first in
  let! _ := assert_viable w n_first last in
  let! _ := assert_viable w first last in
  if ieq first n_first then ret last
  else if one_word first last then rotate_one_word pl w first n_first last
  else
    let! b1 := is_within w first n_first in
    if b1 then
      let! k := distance w first n_first in
      let* temp := get_word pl w first k in
      let* new_last := shift_left pl w first last k in
      write_word pl w temp new_last k ;;
      ret new_last
    else
      let! b2 := is_within w n_first last in
      if b2 then
        let! p := distance w n_first last in
        let* temp := get_word pl w n_first p in
        let* new_last := shift_right pl w first last p in
        write_word pl w temp first p ;;
        ret new_last
      else rotate_via_raw pl w first n_first last.
