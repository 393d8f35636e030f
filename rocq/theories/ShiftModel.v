(** Model of /repo/include/bitlib/bit-algorithms/shift.hpp (line numbers without
    a file name refer to that file), without the BITLIB_HWY blocks (HwyModel).
    The C++20
    macro STD_SHIFT_LEFT/RIGHT (lines 27-33) stands for a function with the
    result of word_shift_left/right, which the C++17 build calls. *)
From Coq Require Import ZArith Bool List.
From Verif Require Import Base WordOps IterModel PopcntModel AlgModel.
Import ListNotations.
Open Scope Z_scope.

(** Position one past the last bit of the range in its last word:
    [is_last_aligned ? digits : last.position()], lines 83, 88, 271. *)
Definition end_pos (w : Z) (last : iter) : Z :=
  if ip last =? 0 then w else ip last.

(** The test for the single word case, lines 77 and 262. *)
Definition one_word (first last : iter) : bool :=
  ib first + b2z (ip last =? 0) =? ib last.

(** Alignment of first in shift_left, lines 105-136: (first, middle). *)
Definition shift_left_align (p : policy) (w : Z) (first middle : iter) (d n : Z)
  : M (iter * iter) :=
  if negb (ip first =? 0) then
    (if ip middle <=? ip first then
       let* x := load (ib first) in
       let* y := load (ib middle) in
       let! s := cshl p w y (ip first - ip middle) in
       let! v := bitblend p w x (wrap w s) (ip first) (w - ip first) in
       store (ib first) v
     else
       let n1 := w - ip middle in
       let n2 := w - ip first - n1 in
       let* x := load (ib first) in
       let* y := load (ib middle) in
       let! s := cshr p w y (ip middle - ip first) in
       let! v := bitblend p w x (wrap w s) (ip first) n1 in
       store (ib first) v ;;
       let* x := load (ib first) in
       let* y := load (ib middle + 1) in
       let! s := cshl p w y (w - n2) in
       let! v := bitblend p w x (wrap w s) (ip first + n1) n2 in
       store (ib first) v) ;;
    let shifted := Z.min (d - n) (w - ip first) in
    let! f := iadd_assign w first shifted in
    let! mi := iadd_assign w middle shifted in
    ret (f, mi)
  else ret (first, middle).

(** The loop of lines 207-211 on word addresses: (first_base, middle_base). *)
Fixpoint shift_left_loop (p : policy) (w : Z) (fuel : nat)
  (first_base middle_base last_base offset : Z) : M (Z * Z) :=
  if middle_base + 1 <? last_base then
    match fuel with
    | O => lift Fuel
    | S f =>
      let* x := load middle_base in
      let* y := load (middle_base + 1) in
      let! v := shrd p w x y offset in
      store first_base v ;;
      shift_left_loop p w f (first_base + 1) (middle_base + 1) last_base offset
    end
  else ret (first_base, middle_base).

(** shift_left, lines 46-238. The words read into first_value and last_value
    (lines 101-102) are not used afterwards; the reads are kept. *)
Definition shift_left (p : policy) (w : Z) (first last : iter) (n : Z)
  : M iter :=
  let! _ := assert_viable w first last in
  let! d := distance w first last in
  let is_last_aligned := ip last =? 0 in
  let! middle := iadd w first n in
  if n <=? 0 then ret last
  else if d <=? n then ret first
  else if one_word first last then
    let* x := load (ib first) in
    let! mask := cshr p w (all_ones w) (w - end_pos w last) in
    let! s := cshr p w (Z.land x mask) n in
    let! v := bitblend p w x (wrap w s) (ip first) (end_pos w last - ip first) in
    store (ib first) v ;;
    let! r := iadd w first d in
    lift (isub w r n)
  else if d - n <=? w then
    let* new_word := get_word p w middle (d - n) in
    write_word p w new_word first (d - n) ;;
    let! r := iadd w first d in
    lift (isub w r n)
  else
    let* first_value := load (ib first) in
    let* last_value := (if negb is_last_aligned then load (ib last) else ret 0) in
    let* (first, middle) := shift_left_align p w first middle d n in
    if ib middle =? ib last then
      let bits_left := ip last - ip middle in
      if 0 <? bits_left then
        let* x := load (ib first) in
        let* y := load (ib middle) in
        let! s := cshr p w y (ip middle) in
        let! v := bitblend p w x (wrap w s) 0 bits_left in
        store (ib first) v ;;
        lift (iadd_assign w first bits_left)
      else ret first
    else
      let! d := distance w first last in
      let word_shifts := n / w in
      let offset := ip middle in
      if offset =? 0 then
        let* fb := word_shift_left (ib first) (ib last) word_shifts in
        let first := It fb 0 in
        if negb is_last_aligned then
          let* x := load (ib last) in
          write_word p w x first (ip last) ;;
          lift (iadd_assign w first (ip last))
        else ret first
      else
        let* (fb, mb) :=
          shift_left_loop p w (Z.to_nat (ib last - ib middle)) (ib first)
                          (ib middle) (ib last) offset in
        let first := It fb 0 in
        let middle := It mb (ip middle) in
        let* (first, middle) :=
          (if ib middle + 1 =? ib last then
             let* x := load (ib first) in
             let* y := load (ib middle) in
             let! s := cshr p w y offset in
             let! v := bitblend p w x (wrap w s) 0 (w - offset) in
             store (ib first) v ;;
             let! f := iadd_assign w first (w - offset) in
             let! mi := iadd_assign w middle (w - offset) in
             ret (f, mi)
           else ret (first, middle)) in
        if negb is_last_aligned then
          let bits_left := ip last - ip middle in
          let* new_word := get_word p w middle bits_left in
          write_word p w new_word first bits_left ;;
          lift (iadd_assign w first bits_left)
        else ret first.

(** The loop of lines 347-351: (last_base_prev, middle_base_prev). *)
Fixpoint shift_right_loop (p : policy) (w : Z) (fuel : nat)
  (first_base lbp mbp offset : Z) : M (Z * Z) :=
  if first_base <? mbp then
    match fuel with
    | O => lift Fuel
    | S f =>
      let* x := load mbp in
      let* y := load (mbp + 1) in
      let! v := shrd p w x y offset in
      store lbp v ;;
      shift_right_loop p w f first_base (lbp - 1) (mbp - 1) offset
    end
  else ret (lbp, mbp).

(** The whole words of shift_right, lines 344-361: (last, middle). *)
Definition shift_right_words (p : policy) (w : Z) (first last middle : iter)
  (offset : Z) : M (iter * iter) :=
  let* (lbp, mbp) :=
    shift_right_loop p w (Z.to_nat (ib middle - ib first)) (ib first)
                     (ib last - 1) (ib middle - 1) offset in
  let* (lbp, mbp) :=
    (if ip first <=? ip middle then
       let* x := load mbp in
       let* y := load (mbp + 1) in
       let! v := shrd p w x y offset in
       store lbp v ;;
       ret (lbp - 1, mbp - 1)
     else ret (lbp, mbp)) in
  ret (It (lbp + 1) (ip last), It (mbp + 1) (ip middle)).

(** shift_right after the alignment of last, lines 297-376. [first0] + n is
    returned. *)
Definition shift_right_main (p : policy) (w : Z) (first last middle : iter)
  (n : Z) : M iter :=
  let word_shifts := n / w in
  let offset := ip middle in
  if offset =? 0 then
    let* _ := word_shift_right (ib first) (ib last) word_shifts in
    lift (iadd w first n)
  else
    let! dist := distance w first middle in
    let* (last, middle) :=
      (if w <=? dist then shift_right_words p w first last middle offset
       else ret (last, middle)) in
    (if negb (ip first =? ip middle) then
       let! bits := distance w first middle in
       let* word := get_word p w first bits in
       let! dst := isub w last bits in
       write_word p w word dst bits
     else ret tt) ;;
    lift (iadd w first n).

(** shift_right, lines 240-377. *)
Definition shift_right (p : policy) (w : Z) (first last : iter) (n : Z)
  : M iter :=
  let! d := distance w first last in
  let! middle := isub w last n in
  if n <=? 0 then ret first
  else if d <=? n then ret last
  else if one_word first last then
    let* x := load (ib first) in
    let! mask := cshl p w (all_ones w) (ip first) in
    let! s := cshl p w (Z.land x mask) n in
    let! v := bitblend p w x (wrap w s) (ip first) (end_pos w last - ip first) in
    store (ib first) v ;;
    lift (iadd w first n)
  else if negb (ip last =? 0) then
    let! dm := distance w first middle in
    let bits := Z.min (ip last) dm in
    let! src := isub w middle bits in
    let* word := get_word p w src bits in
    let! dst := isub w last bits in
    write_word p w word dst bits ;;
    let! middle := isub_assign w middle bits in
    let! last := isub_assign w last bits in
    if ieq middle first then lift (iadd w first n)
    else shift_right_main p w first last middle n
  else shift_right_main p w first last middle n.
