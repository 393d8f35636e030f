(** Model of the word-level helpers in
    /repo/include/bitlib/bit-algorithms/bit_algorithm_details.hpp and of the
    algorithms fill, find, equal, count, copy, move, copy_backward. Files are
    named relative to /repo/include/bitlib/bit-algorithms. [w] is the number of
    digits of the word type, [p] the shift policy.

    Conventions. Positions and bit lengths not larger than digits are passed to
    word-typed parameters without an explicit conversion, since they fit. size_t
    subtraction is [usub]. Word iterators are word addresses; std algorithms on
    words are loops with the meaning given by the C++ standard. *)
From Coq Require Import ZArith Bool List.
From Verif Require Import Base WordOps IterModel PopcntModel.
Import ListNotations.
Open Scope Z_scope.

(** size_t subtraction, e.g. copy.hpp:60, 71. *)
Definition usub (a b : Z) : Z := wrap 64 (a - b).

(** All ones / all zeros as a word: bit_algorithm_details.hpp:310-317,
    fill.hpp:49. *)
Definition all_ones (w : Z) : Z := wrap w (-1).

(** get_word<T>(first, len) for T the word type of the range,
    bit_algorithm_details.hpp:105-142. The loop of lines 123-133 is entered
    only if len > digits + offset, which the assertion excludes; the model
    yields [Fuel] there. *)
Definition get_word (p : policy) (w : Z) (first : iter) (len : Z) : M Z :=
  if w <? len then lift Assert else
  let offset := w - ip first in
  let* x := load (ib first) in
  let! r := cshr p w x (ip first) in
  let ret_word := wrap w r in
  if len <=? offset then ret ret_word
  else
    let it := ib first + 1 in
    let len' := usub len offset in
    if w <? len' then lift Fuel else
    let* y := load it in
    let! s := cshl p w y offset in
    lift (bitblend p w ret_word (wrap w s) offset len').

(** write_word(src, dst_bit_it, len) for src_type equal to the word type of the
    range, bit_algorithm_details.hpp:211-243. *)
Definition write_word (p : policy) (w : Z) (src : Z) (dst : iter) (len : Z)
  : M unit :=
  let pos := ip dst in
  if (pos =? 0) && (len =? w) then store (ib dst) src
  else
    let* x := load (ib dst) in
    let! s := cshl p w src pos in
    let! v := bitblend p w x (wrap w s) pos (Z.min (w - pos) len) in
    store (ib dst) v ;;
    if w - pos <? len then
      let* y := load (ib dst + 1) in
      let! s := cshr p w src (w - pos) in
      let! v := bitblend p w y (wrap w s) 0 (len - (w - pos)) in
      store (ib dst + 1) v
    else ret tt.

(** std::copy / std::move of [n] words from [src] to [dst], front to back:
    copy.hpp:82, move.hpp:77, bit_algorithm_details.hpp:288. *)
Fixpoint words_copy (n : nat) (src dst : Z) : M unit :=
  match n with
  | O => ret tt
  | S n' =>
    let* x := load src in
    store dst x ;;
    words_copy n' (src + 1) (dst + 1)
  end.

(** std::copy_backward / std::move_backward of [n] words ending at [src_end]
    to the words ending at [dst_end]: copy_backward.hpp:76,
    bit_algorithm_details.hpp:305. *)
Fixpoint words_copy_backward (n : nat) (src_end dst_end : Z) : M unit :=
  match n with
  | O => ret tt
  | S n' =>
    let* x := load (src_end - 1) in
    store (dst_end - 1) x ;;
    words_copy_backward n' (src_end - 1) (dst_end - 1)
  end.

(** std::fill of [n] words: fill.hpp:76. *)
Fixpoint words_fill (n : nat) (dst v : Z) : M unit :=
  match n with
  | O => ret tt
  | S n' => store dst v ;; words_fill n' (dst + 1) v
  end.

(** std::equal of [n] words: equal.hpp:76. *)
Fixpoint words_equal (n : nat) (a b : Z) : M bool :=
  match n with
  | O => ret true
  | S n' =>
    let* x := load a in
    let* y := load b in
    if x =? y then words_equal n' (a + 1) (b + 1) else ret false
  end.

(** std::find_if of a word different from [skip] among [n] words from [it];
    returns the address found or the end: find.hpp:102-106. *)
Fixpoint words_find (n : nat) (it skip : Z) : M Z :=
  match n with
  | O => ret it
  | S n' =>
    let* x := load it in
    if negb (x =? skip) then ret it else words_find n' (it + 1) skip
  end.

(** word_shift_left, bit_algorithm_details.hpp:279-290, on words [first, last). *)
Definition word_shift_left (first last n : Z) : M Z :=
  if n <=? 0 then ret last
  else if last - first <=? n then ret first
  else
    let mid := first + n in
    words_copy (Z.to_nat (last - mid)) mid first ;;
    ret (first + (last - mid)).

(** word_shift_right, bit_algorithm_details.hpp:296-307. *)
Definition word_shift_right (first last n : Z) : M Z :=
  let d := last - first in
  if n <=? 0 then ret first
  else if d <=? n then ret last
  else
    words_copy_backward (Z.to_nat (last - n - first)) (last - n) last ;;
    ret (first + n).

(** _padded_read, bit_algorithm_details.hpp:368-419, with the helpers of lines
    309-348 (_is_aligned_lsb, _in_same_word, _shift_towards_lsb/msb). *)
Definition padded_read (p : policy) (w : Z) (first last : iter) (bv : bool)
  : M Z :=
  let fp := ip first in
  let lp := ip last in
  let* rd := load (ib first) in
  let lsb (n : Z) := let? s := cshr p w (all_ones w) n in Ok (wrap w s) in
  let msb (n : Z) := let? s := cshl p w (all_ones w) n in Ok (wrap w s) in
  let same := ib first =? ib last in
  if fp =? 0 then
    if same then
      if bv then let! mask := msb lp in ret (Z.lor rd mask)
      else let! mask := lsb (w - lp) in ret (Z.land rd mask)
    else ret rd
  else if negb same then
    if bv then let! mask := lsb (w - fp) in ret (Z.lor rd mask)
    else let! mask := msb fp in ret (Z.land rd mask)
  else
    if bv then
      let! m1 := lsb (w - fp) in
      let! m2 := msb lp in
      ret (Z.lor rd (Z.lor m1 m2))
    else
      let! m1 := msb fp in
      let! m2 := lsb (w - lp) in
      ret (Z.land rd (Z.land m1 m2)).

(** fill, fill.hpp:38-82, without the BITLIB_HWY block (HwyModel.fill_hwy). *)
Definition fill (p : policy) (w : Z) (first last : iter) (bv : bool) : M unit :=
  let! _ := assert_viable w first last in
  let fill_word := if bv then all_ones w else 0 in
  let! d := distance w first last in
  if d =? 0 then ret tt else
  let! within := is_within w first last in
  if within then
    let! len := distance w first last in
    write_word p w fill_word first len
  else
    let* it :=
      (if negb (ip first =? 0) then
         write_word p w fill_word first (w - ip first) ;;
         ret (ib first + 1)
       else ret (ib first)) in
    words_fill (Z.to_nat (ib last - it)) it fill_word ;;
    if negb (ip last =? 0) then
      write_word p w fill_word (mk_aligned (ib last)) (ip last)
    else ret tt.

(** The conditional [_tzcnt] of find.hpp:50-52, 109-111, 117-119: number of
    low bits of [x] different from [bv]. *)
Definition tz_bv (w : Z) (bv : bool) (x : Z) : Z :=
  if bv then tzcnt w (wrap w x) else tzcnt w (wrap w (Z.lnot x)).

(** find, find.hpp:33-123, without the BITLIB_HWY block (HwyModel.find_hwy). *)
Definition find (p : policy) (w : Z) (first last : iter) (bv : bool)
  : M iter :=
  let is_first_aligned := ip first =? 0 in
  let is_last_aligned := ip last =? 0 in
  let* step :=
    (if negb is_first_aligned then
       let* x := load (ib first) in
       let! s := cshr p w x (ip first) in
       let num := tz_bv w bv (wrap w s) in
       if ib first + b2z is_last_aligned =? ib last then
         let! d := distance w first last in
         let! r := iadd w first (Z.min num (wrap 64 d)) in
         ret (inl r)
       else if num + ip first <? w then
         let! r := iadd w first num in ret (inl r)
       else
         let! f := iadd w first (usub w (ip first)) in ret (inr f)
     else ret (inr first)) in
  match step with
  | inl r => ret r
  | inr first =>
    let* it := words_find (Z.to_nat (ib last - ib first)) (ib first)
                          (if bv then 0 else all_ones w) in
    if negb (it =? ib last) then
      let* x := load it in
      lift (mk_iter w it (tz_bv w bv x))
    else if negb is_last_aligned then
      let* x := load it in
      lift (mk_iter w it (Z.min (tz_bv w bv x) (ip last)))
    else ret last
  end.

(** The loop of equal.hpp:83-88. Returns (mismatch found, it, first,
    remaining). *)
Fixpoint equal_loop (p : policy) (w : Z) (fuel : nat) (it : Z) (first : iter)
  (remaining : Z) : M (bool * Z * iter * Z) :=
  if w <=? remaining then
    match fuel with
    | O => lift Fuel
    | S f =>
      let* x := load it in
      let* y := get_word p w first w in
      if negb (x =? y) then ret (true, it, first, remaining)
      else
        let! first' := advance w first w in
        equal_loop p w f (it + 1) first' (usub remaining w)
    end
  else ret (false, it, first, remaining).

(** The mask (T(1) << n) - 1 of equal.hpp:59-61, 91-93 and copy.hpp:98-99. *)
Definition low_mask (p : policy) (w n : Z) : res Z :=
  let? s := cshl p w 1 n in Ok (wrap w (arith w s - 1)).

(** The comparison of the remaining low bits, equal.hpp:90-96. *)
Definition equal_tail (p : policy) (w it : Z) (first : iter) (remaining : Z)
  : M bool :=
  if 0 <? remaining then
    let! mask := low_mask p w remaining in
    let* comp := get_word p w first remaining in
    let* x := load it in
    ret (Z.land mask x =? Z.land mask comp)
  else ret true.

(** equal, equal.hpp:29-99. *)
Definition equal (p : policy) (w : Z) (first last d_first : iter) : M bool :=
  let! _ := assert_viable w first last in
  if ieq first last then ret true else
  let! total := distance w first last in
  let* step :=
    (if negb (ip d_first =? 0) then
       let partial := Z.min total (usub w (ip d_first)) in
       let! lm := low_mask p w partial in
       let! mk := cshl p w lm (ip d_first) in
       let mask := wrap w mk in
       let* g := get_word p w first partial in
       let! c := cshl p w g (ip d_first) in
       let comp := wrap w c in
       let* x := load (ib d_first) in
       if negb (Z.land mask x =? Z.land mask comp) then ret None
       else
         let! f := advance w first partial in
         ret (Some (usub total partial, f, ib d_first + 1))
     else ret (Some (total, first, ib d_first))) in
  match step with
  | None => ret false
  | Some (remaining, first, it) =>
    if 0 <? remaining then
      if (ip first =? 0) && (w <=? remaining) then
        let n := ib last - ib first in
        let* same := words_equal (Z.to_nat n) (ib first) it in
        if negb same then ret false
        else
          let! first' := iadd_assign w first (w * n) in
          equal_tail p w (it + n) first' (usub remaining (w * n))
      else
        let* (bad, it', first', remaining') :=
          equal_loop p w (Z.to_nat (remaining / w)) it first remaining in
        if bad then ret false
        else equal_tail p w it' first' remaining'
    else ret true
  end.

(** Bytes of the word memory as popcnt sees them through a pointer cast,
    count.hpp:96 (little endian). Word address [a] has byte address
    [a * sizeof(word)]. *)
Definition byte_view (w : Z) (m : mem) (ba : Z) : option Z :=
  match m (ba / (w / 8)) with
  | Some x => Some (byte_of x (ba mod (w / 8)))
  | None => None
  end.

(** popcnt(&*it, size), count.hpp:96. *)
Definition popcnt_mem (t : target) (w it size : Z) : M Z :=
  fun m => lift (popcnt t (byte_view w m) (it * (w / 8)) size) m.

(** count, count.hpp:34-117, on target [t]. *)
Definition count (t : target) (p : policy) (w : Z) (first last : iter)
  (value : bool) : M Z :=
  let! _ := assert_viable w first last in
  let* result :=
    (if negb (ib first =? ib last) then
       let* (result, it) :=
         (if negb (ip first =? 0) then
            let* x := load (ib first) in
            let! s := cshr p w x (ip first) in
            ret (popcnt_intrin w (wrap w s), ib first + 1)
          else ret (0, ib first)) in
       let* c := popcnt_mem t w it (w / 8 * (ib last - it)) in
       let result := swrap64 (result + c) in
       if negb (ip last =? 0) then
         let* x := load (ib last) in
         let! s := cshl p w x (w - ip last) in
         ret (swrap64 (result + popcnt_intrin w (wrap w s)))
       else ret result
     else
       let* x := load (ib first) in
       let! e := bextr p w x (ip first) (ip last - ip first) in
       ret (popcnt_intrin w e)) in
  if negb value then
    let! d := idiff w last first in
    ret (d - result)
  else ret result.

(** The loop of copy.hpp:87-92: returns (it, first, remaining). *)
Fixpoint copy_loop (p : policy) (w : Z) (fuel : nat) (it : Z) (first : iter)
  (remaining : Z) : M (Z * iter * Z) :=
  if w <=? remaining then
    match fuel with
    | O => lift Fuel
    | S f =>
      let* x := get_word p w first w in
      store it x ;;
      let! first' := advance w first w in
      copy_loop p w f (it + 1) first' (usub remaining w)
    end
  else ret (it, first, remaining).

(** copy, copy.hpp:30-104. *)
Definition copy (p : policy) (w : Z) (first last d_first : iter) : M iter :=
  let! _ := assert_viable w first last in
  if ieq first last then ret d_first else
  let! total := distance w first last in
  let* (remaining, first, it) :=
    (if negb (ip d_first =? 0) then
       let partial := Z.min total (usub w (ip d_first)) in
       let* x := load (ib d_first) in
       let* g := get_word p w first partial in
       let! s := cshl p w g (ip d_first) in
       let! v := bitblend p w x (wrap w s) (ip d_first) partial in
       store (ib d_first) v ;;
       let! f := advance w first partial in
       ret (usub total partial, f, ib d_first + 1)
     else ret (total, first, ib d_first)) in
  (if 0 <? remaining then
     let* (it, first, remaining) :=
       (if (ip first =? 0) && (w <? remaining) then
          let n := ib last - ib first in
          words_copy (Z.to_nat n) (ib first) it ;;
          let! f := iadd_assign w first (w * n) in
          ret (it + n, f, usub remaining (w * n))
        else copy_loop p w (Z.to_nat (remaining / w)) it first remaining) in
     if 0 <? remaining then
       let* x := load it in
       let* g := get_word p w first remaining in
       let! mask := low_mask p w remaining in
       store it (bitblend_mask x g mask)
     else ret tt
   else ret tt) ;;
  lift (iadd w d_first total).

(** move, move.hpp:25-99: statement by statement the text of copy with
    std::move in place of std::copy; moving an unsigned word is copying it. *)
Definition move (p : policy) (w : Z) (first last d_first : iter) : M iter :=
  copy p w first last d_first.

(** The loop of copy_backward.hpp:82-86: returns (it, last, remaining). *)
Fixpoint copy_backward_loop (p : policy) (w : Z) (fuel : nat) (it : Z)
  (last : iter) (remaining : Z) : M (Z * iter * Z) :=
  if w <=? remaining then
    match fuel with
    | O => lift Fuel
    | S f =>
      let! src := isub w last w in
      let* x := get_word p w src w in
      store (it - 1) x ;;
      let! last' := advance w last (swrap64 (- w)) in
      copy_backward_loop p w f (it - 1) last' (usub remaining w)
    end
  else ret (it, last, remaining).

(** copy_backward, copy_backward.hpp:27-101. *)
Definition copy_backward (p : policy) (w : Z) (first last d_last : iter)
  : M iter :=
  let! _ := assert_viable w first last in
  if ieq first last then ret d_last else
  let! total := distance w first last in
  let it := ib d_last in
  let* (remaining, last) :=
    (if negb (ip d_last =? 0) then
       let partial := Z.min total (ip d_last) in
       let* x := load it in
       let! src := isub w last partial in
       let* g := get_word p w src partial in
       let! s := cshl p w g (usub (ip d_last) partial) in
       let! v := bitblend p w x (wrap w s) (usub (ip d_last) partial) partial in
       store it v ;;
       let! l := advance w last (swrap64 (- partial)) in
       ret (usub total partial, l)
     else ret (total, last)) in
  (if 0 <? remaining then
     let* (it, last, remaining) :=
       (if (ip last =? 0) && (w <? remaining) then
          let n := ib last - ib first - 1 in
          words_copy_backward (Z.to_nat n) (ib last) it ;;
          let! l := isub_assign w last (w * n) in
          ret (it - n - 1, l, usub remaining (w * n))
        else
          let* (it, last, remaining) :=
            copy_backward_loop p w (Z.to_nat (remaining / w)) it last
                               remaining in
          ret (it - 1, last, remaining)) in
     if 0 <? remaining then
       let* x := load it in
       let! src := isub w last remaining in
       let* g := get_word p w src remaining in
       let! s := cshl p w g (usub w remaining) in
       let! v := bitblend p w x (wrap w s) (usub w remaining) remaining in
       store it v
     else ret tt
   else ret tt) ;;
  lift (isub w d_last total).
