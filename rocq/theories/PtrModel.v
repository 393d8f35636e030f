(** The algorithms over checked word iterators: every word pointer that is computed
    must lie in the array it points into, or be the one past its last word, and only
    pointers to words may be dereferenced (what the C++ standard asks of pointers and
    of std::vector iterators, and what the debug modes of the standard libraries
    check). Everything else is as in IterModel, AlgModel, ShiftModel, SwapModel,
    ReverseModel, RotateModel and TransformModel; files are named relative to
    /repo/include/bitlib/bit-algorithms.

    Simplifications. A pointer that is only dereferenced (get_word, write_word, the
    next word in the shifts) is not checked here: the memory of the theorems about
    the plain functions has no other words. The standard algorithms on words are
    checked at the ends of their ranges. Comparisons of pointers are not checked. *)
From Coq Require Import ZArith Bool List.
From Verif Require Import Base WordOps IterModel PopcntModel AlgModel ShiftModel SwapModel
  ReverseModel RotateModel TransformModel.
Import ListNotations.
Open Scope Z_scope.

(** An array of words: its words have the addresses [alo], ..., [ahi] - 1
    (bit-containers/bit_vector.hpp:39, or any array handed to the algorithms). *)
Record arr : Type := Arr { alo : Z; ahi : Z }.

(** A pointer into [A] is computed: std::next, std::prev, ++, --, + and - on the
    word iterators, e.g. bit-iterator/bit_iterator.hpp:233, 304, 319. *)
Definition form (A : arr) (a : Z) : res Z :=
  if (alo A <=? a) && (a <=? ahi A) then Ok a else UB BadUse.

(** A word iterator is dereferenced without an access, [&*it] (count.hpp:96). *)
Definition form_ref (A : arr) (a : Z) : res Z :=
  if (alo A <=? a) && (a <? ahi A) then Ok a else UB BadUse.

(** operator+(n), bit-iterator/bit_iterator.hpp:293-305. *)
Definition iadd_c (A : arr) (w : Z) (it : iter) (n : Z) : res iter :=
  let sum := swrap64 (ip it + n) in
  let diff := floor_diff w sum in
  let? b := form A (ib it + diff) in
  mk_iter w b (wrap 64 (sum - diff * w)).

(** operator-(n), bit-iterator/bit_iterator.hpp:308-320. *)
Definition isub_c (A : arr) (w : Z) (it : iter) (n : Z) : res iter :=
  let sum := swrap64 (ip it - n) in
  let diff := floor_diff w sum in
  let? b := form A (ib it + diff) in
  mk_iter w b (wrap 64 (sum - diff * w)).

(** is_within<digits>, bit_algorithm_details.hpp:78-102: the instance for digits and
    the one for 0 it calls; || and && do not evaluate what they do not need. *)
Definition is_within_c (A : arr) (w : Z) (first last : iter) : res bool :=
  if ib first =? ib last then Ok true
  else
    let? nx := form A (ib first + 1) in
    if (nx =? ib last) && (ip last <=? ip first) then Ok true
    else
      let? f := iadd_c A w first w in
      if (ib f =? ib last) && (ip last <=? ip f) then Ok true
      else
        let? nx := form A (ib f + 1) in
        Ok ((nx =? ib last) && (ip last <=? ip f - w)).

(** fill, fill.hpp:38-82. *)
Definition fill_c (A : arr) (p : policy) (w : Z) (first last : iter) (bv : bool) : M unit :=
  let! _ := assert_viable w first last in
  let fill_word := if bv then all_ones w else 0 in
  let! d := distance w first last in
  if d =? 0 then ret tt else
  let! within := is_within_c A w first last in
  if within then
    let! len := distance w first last in
    write_word p w fill_word first len
  else
    let* it :=
      (if negb (ip first =? 0) then
         write_word p w fill_word first (w - ip first) ;;
         lift (form A (ib first + 1))
       else ret (ib first)) in
    words_fill (Z.to_nat (ib last - it)) it fill_word ;;
    if negb (ip last =? 0) then
      write_word p w fill_word (mk_aligned (ib last)) (ip last)
    else ret tt.

(** find, find.hpp:33-123. *)
Definition find_c (A : arr) (p : policy) (w : Z) (first last : iter) (bv : bool)
  : M iter :=
  let is_first_aligned := ip first =? 0 in
  let is_last_aligned := ip last =? 0 in
  let* step :=
    (if negb is_first_aligned then
       let* x := load (ib first) in
       let! s := cshr p w x (ip first) in
       let num := tz_bv w bv (wrap w s) in
       let! nx := form A (ib first + b2z is_last_aligned) in
       if nx =? ib last then
         let! d := distance w first last in
         let! r := iadd_c A w first (Z.min num (wrap 64 d)) in
         ret (inl r)
       else if num + ip first <? w then
         let! r := iadd_c A w first num in ret (inl r)
       else
         let! f := iadd_c A w first (usub w (ip first)) in ret (inr f)
     else ret (inr first)) in
  match step with
  | inl r => ret r
  | inr first =>
    let* it := words_find (Z.to_nat (ib last - ib first)) (ib first)
                          (if bv then 0 else all_ones w) in
    if negb (it =? ib last) then
      let* x := load it in
      lift (mk_iter w it (tz_bv w bv x))
    else if negb is_last_aligned then
      let* x := load it in
      lift (mk_iter w it (Z.min (tz_bv w bv x) (ip last)))
    else ret last
  end.

(** count, count.hpp:34-117; [&*it] is line 96. *)
Definition count_c (A : arr) (t : target) (p : policy) (w : Z) (first last : iter)
  (value : bool) : M Z :=
  let! _ := assert_viable w first last in
  let* result :=
    (if negb (ib first =? ib last) then
       let* (result, it) :=
         (if negb (ip first =? 0) then
            let* x := load (ib first) in
            let! s := cshr p w x (ip first) in
            let! it := form A (ib first + 1) in
            ret (popcnt_intrin w (wrap w s), it)
          else ret (0, ib first)) in
       let! at_it := form_ref A it in
       let* c := popcnt_mem t w at_it (w / 8 * (ib last - it)) in
       let result := swrap64 (result + c) in
       if negb (ip last =? 0) then
         let* x := load (ib last) in
         let! s := cshl p w x (w - ip last) in
         ret (swrap64 (result + popcnt_intrin w (wrap w s)))
       else ret result
     else
       let* x := load (ib first) in
       let! e := bextr p w x (ip first) (ip last - ip first) in
       ret (popcnt_intrin w e)) in
  if negb value then
    let! d := idiff w last first in
    ret (d - result)
  else ret result.

(** The loop of equal.hpp:83-88; [A] is the array of first, [B] that of it. *)
Fixpoint equal_loop_c (A B : arr) (p : policy) (w : Z) (fuel : nat) (it : Z) (first : iter)
  (remaining : Z) : M (bool * Z * iter * Z) :=
  if w <=? remaining then
    match fuel with
    | O => lift Fuel
    | S f =>
      let* x := load it in
      let* y := get_word p w first w in
      if negb (x =? y) then ret (true, it, first, remaining)
      else
        let! it' := form B (it + 1) in
        let! first' := iadd_c A w first w in
        equal_loop_c A B p w f it' first' (usub remaining w)
    end
  else ret (false, it, first, remaining).

(** equal, equal.hpp:29-99. *)
Definition equal_c (A B : arr) (p : policy) (w : Z) (first last d_first : iter) : M bool :=
  let! _ := assert_viable w first last in
  if ieq first last then ret true else
  let! total := distance w first last in
  let* step :=
    (if negb (ip d_first =? 0) then
       let partial := Z.min total (usub w (ip d_first)) in
       let! lm := low_mask p w partial in
       let! mk := cshl p w lm (ip d_first) in
       let mask := wrap w mk in
       let* g := get_word p w first partial in
       let! c := cshl p w g (ip d_first) in
       let comp := wrap w c in
       let* x := load (ib d_first) in
       if negb (Z.land mask x =? Z.land mask comp) then ret None
       else
         let! f := iadd_c A w first partial in
         let! it := form B (ib d_first + 1) in
         ret (Some (usub total partial, f, it))
     else ret (Some (total, first, ib d_first))) in
  match step with
  | None => ret false
  | Some (remaining, first, it) =>
    if 0 <? remaining then
      if (ip first =? 0) && (w <=? remaining) then
        let n := ib last - ib first in
        let* same := words_equal (Z.to_nat n) (ib first) it in
        if negb same then ret false
        else
          let! it' := form B (it + n) in
          let! first' := iadd_c A w first (w * n) in
          equal_tail p w it' first' (usub remaining (w * n))
      else
        let* (bad, it', first', remaining') :=
          equal_loop_c A B p w (Z.to_nat (remaining / w)) it first remaining in
        if bad then ret false
        else equal_tail p w it' first' remaining'
    else ret true
  end.

(** The loop of copy.hpp:87-92; [A] is the array of first, [B] that of it. *)
Fixpoint copy_loop_c (A B : arr) (p : policy) (w : Z) (fuel : nat) (it : Z) (first : iter)
  (remaining : Z) : M (Z * iter * Z) :=
  if w <=? remaining then
    match fuel with
    | O => lift Fuel
    | S f =>
      let* x := get_word p w first w in
      store it x ;;
      let! it' := form B (it + 1) in
      let! first' := iadd_c A w first w in
      copy_loop_c A B p w f it' first' (usub remaining w)
    end
  else ret (it, first, remaining).

(** copy, copy.hpp:30-104, and move, move.hpp:25-99. *)
Definition copy_c (A B : arr) (p : policy) (w : Z) (first last d_first : iter) : M iter :=
  let! _ := assert_viable w first last in
  if ieq first last then ret d_first else
  let! total := distance w first last in
  let* (remaining, first, it) :=
    (if negb (ip d_first =? 0) then
       let partial := Z.min total (usub w (ip d_first)) in
       let* x := load (ib d_first) in
       let* g := get_word p w first partial in
       let! s := cshl p w g (ip d_first) in
       let! v := bitblend p w x (wrap w s) (ip d_first) partial in
       store (ib d_first) v ;;
       let! f := iadd_c A w first partial in
       let! it := form B (ib d_first + 1) in
       ret (usub total partial, f, it)
     else ret (total, first, ib d_first)) in
  (if 0 <? remaining then
     let* (it, first, remaining) :=
       (if (ip first =? 0) && (w <? remaining) then
          let n := ib last - ib first in
          words_copy (Z.to_nat n) (ib first) it ;;
          let! it' := form B (it + n) in
          let! f := iadd_c A w first (w * n) in
          ret (it', f, usub remaining (w * n))
        else copy_loop_c A B p w (Z.to_nat (remaining / w)) it first remaining) in
     if 0 <? remaining then
       let* x := load it in
       let* g := get_word p w first remaining in
       let! mask := low_mask p w remaining in
       store it (bitblend_mask x g mask)
     else ret tt
   else ret tt) ;;
  lift (iadd_c B w d_first total).

(** The loop of copy_backward.hpp:82-86; [A] is the array of last, [B] that of it. *)
Fixpoint copy_backward_loop_c (A B : arr) (p : policy) (w : Z) (fuel : nat) (it : Z)
  (last : iter) (remaining : Z) : M (Z * iter * Z) :=
  if w <=? remaining then
    match fuel with
    | O => lift Fuel
    | S f =>
      let! src := isub_c A w last w in
      let* x := get_word p w src w in
      let! it' := form B (it - 1) in
      store it' x ;;
      let! last' := iadd_c A w last (swrap64 (- w)) in
      copy_backward_loop_c A B p w f it' last' (usub remaining w)
    end
  else ret (it, last, remaining).

(** copy_backward, copy_backward.hpp:27-101; the decrements are lines 79 and 87. *)
Definition copy_backward_c (A B : arr) (p : policy) (w : Z) (first last d_last : iter)
  : M iter :=
  let! _ := assert_viable w first last in
  if ieq first last then ret d_last else
  let! total := distance w first last in
  let it := ib d_last in
  let* (remaining, last) :=
    (if negb (ip d_last =? 0) then
       let partial := Z.min total (ip d_last) in
       let* x := load it in
       let! src := isub_c A w last partial in
       let* g := get_word p w src partial in
       let! s := cshl p w g (usub (ip d_last) partial) in
       let! v := bitblend p w x (wrap w s) (usub (ip d_last) partial) partial in
       store it v ;;
       let! l := iadd_c A w last (swrap64 (- partial)) in
       ret (usub total partial, l)
     else ret (total, last)) in
  (if 0 <? remaining then
     let* (it, last, remaining) :=
       (if (ip last =? 0) && (w <? remaining) then
          let n := ib last - ib first - 1 in
          let! f1 := form A (ib first + 1) in
          words_copy_backward (Z.to_nat n) (ib last) it ;;
          let! it' := form B (it - n) in
          let! l := isub_c A w last (w * n) in
          let! it'' := form B (it' - 1) in
          ret (it'', l, usub remaining (w * n))
        else
          let* (it, last, remaining) :=
            copy_backward_loop_c A B p w (Z.to_nat (remaining / w)) it last
                                 remaining in
          let! it' := form B (it - 1) in
          ret (it', last, remaining)) in
     if 0 <? remaining then
       let* x := load it in
       let! src := isub_c A w last remaining in
       let* g := get_word p w src remaining in
       let! s := cshl p w g (usub w remaining) in
       let! v := bitblend p w x (wrap w s) (usub w remaining) remaining in
       store it v
     else ret tt
   else ret tt) ;;
  lift (isub_c B w d_last total).

(** The test for the single word case, shift.hpp:77 and 262, rotate.hpp:209. *)
Definition one_word_c (A : arr) (first last : iter) : res bool :=
  let? nx := form A (ib first + b2z (ip last =? 0)) in
  Ok (nx =? ib last).

(** word_shift_left, bit_algorithm_details.hpp:279-290. *)
Definition word_shift_left_c (A : arr) (first last n : Z) : M Z :=
  if n <=? 0 then ret last
  else if last - first <=? n then ret first
  else
    let! mid := form A (first + n) in
    words_copy (Z.to_nat (last - mid)) mid first ;;
    lift (form A (first + (last - mid))).

(** word_shift_right, bit_algorithm_details.hpp:296-307. *)
Definition word_shift_right_c (A : arr) (first last n : Z) : M Z :=
  let d := last - first in
  if n <=? 0 then ret first
  else if d <=? n then ret last
  else
    let! e := form A (last - n) in
    words_copy_backward (Z.to_nat (e - first)) e last ;;
    lift (form A (first + n)).

(** Alignment of first in shift_left, shift.hpp:105-136. *)
Definition shift_left_align_c (A : arr) (p : policy) (w : Z) (first middle : iter) (d n : Z)
  : M (iter * iter) :=
  if negb (ip first =? 0) then
    (if ip middle <=? ip first then
       let* x := load (ib first) in
       let* y := load (ib middle) in
       let! s := cshl p w y (ip first - ip middle) in
       let! v := bitblend p w x (wrap w s) (ip first) (w - ip first) in
       store (ib first) v
     else
       let n1 := w - ip middle in
       let n2 := w - ip first - n1 in
       let* x := load (ib first) in
       let* y := load (ib middle) in
       let! s := cshr p w y (ip middle - ip first) in
       let! v := bitblend p w x (wrap w s) (ip first) n1 in
       store (ib first) v ;;
       let* x := load (ib first) in
       let! nx := form A (ib middle + 1) in
       let* y := load nx in
       let! s := cshl p w y (w - n2) in
       let! v := bitblend p w x (wrap w s) (ip first + n1) n2 in
       store (ib first) v) ;;
    let shifted := Z.min (d - n) (w - ip first) in
    let! f := iadd_c A w first shifted in
    let! mi := iadd_c A w middle shifted in
    ret (f, mi)
  else ret (first, middle).

(** The loop of shift.hpp:207-211. *)
Fixpoint shift_left_loop_c (A : arr) (p : policy) (w : Z) (fuel : nat)
  (first_base middle_base last_base offset : Z) : M (Z * Z) :=
  let! nx := form A (middle_base + 1) in
  if nx <? last_base then
    match fuel with
    | O => lift Fuel
    | S f =>
      let* x := load middle_base in
      let* y := load (middle_base + 1) in
      let! v := shrd p w x y offset in
      store first_base v ;;
      let! fb := form A (first_base + 1) in
      let! mb := form A (middle_base + 1) in
      shift_left_loop_c A p w f fb mb last_base offset
    end
  else ret (first_base, middle_base).

(** shift_left, shift.hpp:46-238; middle is computed in line 65, before n is
    tested. *)
Definition shift_left_c (A : arr) (p : policy) (w : Z) (first last : iter) (n : Z)
  : M iter :=
  let! _ := assert_viable w first last in
  let! d := distance w first last in
  let is_last_aligned := ip last =? 0 in
  let! middle := iadd_c A w first n in
  if n <=? 0 then ret last
  else if d <=? n then ret first
  else
  let! one := one_word_c A first last in
  if one then
    let* x := load (ib first) in
    let! mask := cshr p w (all_ones w) (w - end_pos w last) in
    let! s := cshr p w (Z.land x mask) n in
    let! v := bitblend p w x (wrap w s) (ip first) (end_pos w last - ip first) in
    store (ib first) v ;;
    let! r := iadd_c A w first d in
    lift (isub_c A w r n)
  else if d - n <=? w then
    let* new_word := get_word p w middle (d - n) in
    write_word p w new_word first (d - n) ;;
    let! r := iadd_c A w first d in
    lift (isub_c A w r n)
  else
    let* first_value := load (ib first) in
    let* last_value := (if negb is_last_aligned then load (ib last) else ret 0) in
    let* (first, middle) := shift_left_align_c A p w first middle d n in
    if ib middle =? ib last then
      let bits_left := ip last - ip middle in
      if 0 <? bits_left then
        let* x := load (ib first) in
        let* y := load (ib middle) in
        let! s := cshr p w y (ip middle) in
        let! v := bitblend p w x (wrap w s) 0 bits_left in
        store (ib first) v ;;
        lift (iadd_c A w first bits_left)
      else ret first
    else
      let! d := distance w first last in
      let word_shifts := n / w in
      let offset := ip middle in
      if offset =? 0 then
        let* fb := word_shift_left_c A (ib first) (ib last) word_shifts in
        let first := It fb 0 in
        if negb is_last_aligned then
          let* x := load (ib last) in
          write_word p w x first (ip last) ;;
          lift (iadd_c A w first (ip last))
        else ret first
      else
        let* (fb, mb) :=
          shift_left_loop_c A p w (Z.to_nat (ib last - ib middle)) (ib first)
                            (ib middle) (ib last) offset in
        let first := It fb 0 in
        let middle := It mb (ip middle) in
        let! nx := form A (ib middle + 1) in
        let* (first, middle) :=
          (if nx =? ib last then
             let* x := load (ib first) in
             let* y := load (ib middle) in
             let! s := cshr p w y offset in
             let! v := bitblend p w x (wrap w s) 0 (w - offset) in
             store (ib first) v ;;
             let! f := iadd_c A w first (w - offset) in
             let! mi := iadd_c A w middle (w - offset) in
             ret (f, mi)
           else ret (first, middle)) in
        if negb is_last_aligned then
          let bits_left := ip last - ip middle in
          let* new_word := get_word p w middle bits_left in
          write_word p w new_word first bits_left ;;
          lift (iadd_c A w first bits_left)
        else ret first.

(** The loop of shift.hpp:347-351. *)
Fixpoint shift_right_loop_c (A : arr) (p : policy) (w : Z) (fuel : nat)
  (first_base lbp mbp offset : Z) : M (Z * Z) :=
  if first_base <? mbp then
    match fuel with
    | O => lift Fuel
    | S f =>
      let* x := load mbp in
      let* y := load (mbp + 1) in
      let! v := shrd p w x y offset in
      store lbp v ;;
      let! lbp' := form A (lbp - 1) in
      let! mbp' := form A (mbp - 1) in
      shift_right_loop_c A p w f first_base lbp' mbp' offset
    end
  else ret (lbp, mbp).

(** The whole words of shift_right, shift.hpp:344-361. *)
Definition shift_right_words_c (A : arr) (p : policy) (w : Z) (first last middle : iter)
  (offset : Z) : M (iter * iter) :=
  let! lbp := form A (ib last - 1) in
  let! mbp := form A (ib middle - 1) in
  let* (lbp, mbp) :=
    shift_right_loop_c A p w (Z.to_nat (ib middle - ib first)) (ib first) lbp mbp offset in
  let* (lbp, mbp) :=
    (if ip first <=? ip middle then
       let* x := load mbp in
       let* y := load (mbp + 1) in
       let! v := shrd p w x y offset in
       store lbp v ;;
       let! lbp' := form A (lbp - 1) in
       let! mbp' := form A (mbp - 1) in
       ret (lbp', mbp')
     else ret (lbp, mbp)) in
  let! lb := form A (lbp + 1) in
  let! mb := form A (mbp + 1) in
  ret (It lb (ip last), It mb (ip middle)).

(** shift_right after the alignment of last, shift.hpp:297-376. *)
Definition shift_right_main_c (A : arr) (p : policy) (w : Z) (first last middle : iter)
  (n : Z) : M iter :=
  let word_shifts := n / w in
  let offset := ip middle in
  if offset =? 0 then
    let* _ := word_shift_right_c A (ib first) (ib last) word_shifts in
    lift (iadd_c A w first n)
  else
    let! dist := distance w first middle in
    let* (last, middle) :=
      (if w <=? dist then shift_right_words_c A p w first last middle offset
       else ret (last, middle)) in
    (if negb (ip first =? ip middle) then
       let! bits := distance w first middle in
       let* word := get_word p w first bits in
       let! dst := isub_c A w last bits in
       write_word p w word dst bits
     else ret tt) ;;
    lift (iadd_c A w first n).

(** shift_right, shift.hpp:240-377; middle is computed in line 255, before n is
    tested. *)
Definition shift_right_c (A : arr) (p : policy) (w : Z) (first last : iter) (n : Z)
  : M iter :=
  let! d := distance w first last in
  let! middle := isub_c A w last n in
  if n <=? 0 then ret first
  else if d <=? n then ret last
  else
  let! one := one_word_c A first last in
  if one then
    let* x := load (ib first) in
    let! mask := cshl p w (all_ones w) (ip first) in
    let! s := cshl p w (Z.land x mask) n in
    let! v := bitblend p w x (wrap w s) (ip first) (end_pos w last - ip first) in
    store (ib first) v ;;
    lift (iadd_c A w first n)
  else if negb (ip last =? 0) then
    let! dm := distance w first middle in
    let bits := Z.min (ip last) dm in
    let! src := isub_c A w middle bits in
    let* word := get_word p w src bits in
    let! dst := isub_c A w last bits in
    write_word p w word dst bits ;;
    let! middle := isub_c A w middle bits in
    let! last := isub_c A w last bits in
    if ieq middle first then lift (iadd_c A w first n)
    else shift_right_main_c A p w first last middle n
  else shift_right_main_c A p w first last middle n.

(** The shifts of reverse.hpp:68-83; [e] is std::next(last.base(), !is_last_aligned). *)
Definition reverse_shift_c (A : arr) (p : policy) (w : Z) (first last : iter) (gap e : Z)
  : M unit :=
  if ip first <? gap then
    let! e' := form A (ib last + 1) in
    shift_left_c A p w (It (ib first) 0) (It e' 0) (gap - ip first) ;;
    ret tt
  else if gap <? ip first then
    shift_right_c A p w (It (ib first) 0) (It e 0) (ip first - gap) ;;
    ret tt
  else ret tt.

(** reverse, reverse.hpp:27-111. *)
Definition reverse_c (A : arr) (p : policy) (w : Z) (first last : iter) : M unit :=
  let! _ := assert_viable w first last in
  let is_first_aligned := ip first =? 0 in
  let is_last_aligned := ip last =? 0 in
  let gap := usub w (ip last) * b2z (negb is_last_aligned) in
  if is_first_aligned && is_last_aligned then
    words_reverse (ib first) (ib last) ;;
    words_bitswap p w (Z.to_nat (ib last - ib first)) (ib first)
  else if negb (ib first =? ib last) then
    let* first_value := load (ib first) in
    let! lw := form A (ib last - b2z is_last_aligned) in
    let* last_value := load lw in
    let! e := form A (ib last + b2z (negb is_last_aligned)) in
    words_reverse (ib first) e ;;
    words_bitswap p w (Z.to_nat (e - ib first)) (ib first) ;;
    reverse_shift_c A p w first last gap e ;;
    (if negb is_first_aligned then
       let* x := load (ib first) in
       let! v := bitblend p w first_value x (ip first) (usub w (ip first)) in
       store (ib first) v
     else ret tt) ;;
    (if negb is_last_aligned then
       let* x := load (ib last) in
       let! v := bitblend p w x last_value (ip last) (usub w (ip last)) in
       store (ib last) v
     else ret tt)
  else
    let* x := load (ib first) in
    let! s := cshr p w x (ip first) in
    let! b := bitswap p w (wrap w s) in
    let! t := cshr p w b gap in
    let! v := bitblend p w x (wrap w t) (ip first) (usub (ip last) (ip first)) in
    store (ib first) v.

(** swap_ranges, swap_ranges.hpp:52-84: the single word case; [A] is the array of the
    first range, [B] that of the second. *)
Definition swap_one_word_c (B : arr) (p : policy) (w : Z) (first1 last1 first2 : iter)
  : M iter :=
  let it1 := ib first1 in
  let it2 := ib first2 in
  let! digits_to_copy := distance w first1 last1 in
  (if ip first2 <=? ip first1 then
     bitexch3 p w it1 it2 (ip first1) (ip first2) digits_to_copy
   else
     let partial := Z.min digits_to_copy (usub w (ip first2)) in
     bitexch3 p w it1 it2 (ip first1) (ip first2) partial ;;
     if partial <? digits_to_copy then
       let! it2 := form B (it2 + 1) in
       bitexch3 p w it1 it2 (ip first1 + partial) 0
                (usub digits_to_copy partial)
     else ret tt) ;;
  lift (iadd_c B w first2 digits_to_copy).

(** swap_ranges.hpp:88-109: several words with equal alignment. *)
Definition swap_aligned_c (A B : arr) (p : policy) (w : Z) (first1 last1 first2 : iter)
  : M iter :=
  let! it1 := form A (ib first1 + 1) in
  let! it2 := form B (ib first2 + 1) in
  bitexch2 p w (ib first1) (ib first2) (ip first1) (usub w (ip first1)) ;;
  let n := ib last1 - it1 in
  words_swap (Z.to_nat n) it1 it2 ;;
  let! it2 := form B (it2 + n) in
  (if negb (ip last1 =? 0) then
     bitexch2 p w (ib last1) it2 0 (ip last1)
   else ret tt) ;;
  lift (mk_iter w it2 (ip last1)).

(** The loop of swap_ranges.hpp:143-158. *)
Fixpoint swap_loop_c (A B : arr) (p : policy) (w : Z) (n : nat) (it1 it2 pos2 digits : Z)
  : M (Z * Z) :=
  match n with
  | O => ret (it1, it2)
  | S n' =>
    let! it2' := form B (it2 + 1) in
    bitexch3 p w it1 it2 0 pos2 digits ;;
    let! it1' := form A (it1 + 1) in
    bitexch3 p w it1 it2' digits 0 (usub w digits) ;;
    swap_loop_c A B p w n' it1' it2' pos2 digits
  end.

(** swap_ranges.hpp:112-189: several words with different alignment. *)
Definition swap_unaligned_c (A B : arr) (p : policy) (w : Z) (first1 last1 first2 : iter)
  : M iter :=
  let it1 := ib first1 in
  let it2 := ib first2 in
  let digits_to_copy := usub w (ip first1) in
  let* it2 :=
    (if ip first2 <? ip first1 then
       bitexch3 p w it1 it2 (ip first1) (ip first2) digits_to_copy ;;
       ret it2
     else
       let partial := usub w (ip first2) in
       let! it2' := form B (it2 + 1) in
       bitexch3 p w it1 it2 (ip first1) (ip first2) partial ;;
       bitexch3 p w it1 it2' (ip first1 + partial) 0
                (usub digits_to_copy partial) ;;
       ret it2') in
  let! it1 := form A (it1 + 1) in
  let! first2 := iadd_c B w first2 digits_to_copy in
  let digits_to_copy := usub w (ip first2) in
  let* (it1, it2) :=
    swap_loop_c A B p w (Z.to_nat (ib last1 - it1)) it1 it2 (ip first2)
                digits_to_copy in
  if negb (ip last1 =? 0) then
    let partial := usub w (ip first2) in
    if ip last1 <=? partial then
      bitexch3 p w it1 it2 0 (ip first2) (ip last1) ;;
      let! r := mk_iter w it2 (ip first2) in
      lift (iadd_c B w r (ip last1))
    else
      let! it2' := form B (it2 + 1) in
      bitexch3 p w it1 it2 0 (ip first2) partial ;;
      bitexch3 p w it1 it2' partial 0 (usub (ip last1) partial) ;;
      lift (mk_iter w it2' (usub (ip last1) partial))
  else lift (mk_iter w it2 (ip first2)).

(** swap_ranges, swap_ranges.hpp:23-192. *)
Definition swap_ranges_c (A B : arr) (p : policy) (w : Z) (first1 last1 first2 : iter)
  : M iter :=
  let! _ := assert_viable w first1 last1 in
  if ieq first1 last1 then ret first2
  else
    let! one := one_word_c A first1 last1 in
    if one then swap_one_word_c B p w first1 last1 first2
    else if ip first1 =? ip first2 then swap_aligned_c A B p w first1 last1 first2
    else swap_unaligned_c A B p w first1 last1 first2.

(** The loops of rotate.hpp:140-145 and 166-171. *)
Fixpoint rot_up_c (A : arr) (pl : policy) (w : Z) (n : nat) (p q : iter) (k : Z)
  : M (iter * iter) :=
  match n with
  | O => ret (p, q)
  | S n' =>
    swap_ranges_c A A pl w p q q ;;
    let! p := iadd_c A w p k in
    let! q := iadd_c A w q k in
    rot_up_c A pl w n' p q k
  end.
Fixpoint rot_down_c (A : arr) (pl : policy) (w : Z) (n : nat) (p q : iter) (k : Z)
  : M (iter * iter) :=
  match n with
  | O => ret (p, q)
  | S n' =>
    let! p := isub_c A w p k in
    let! q := isub_c A w q k in
    swap_ranges_c A A pl w p q q ;;
    rot_down_c A pl w n' p q k
  end.

(** The endless loop of _rotate_via_raw, rotate.hpp:127-180. *)
Fixpoint rot_loop_c (A : arr) (pl : policy) (w : Z) (fuel : nat) (p : iter) (n k : Z)
  (r : iter) : M iter :=
  match fuel with
  | O => lift Fuel
  | S f =>
    if k <? n - k then
      if k <=? w then
        let* temp_word := get_word pl w p k in
        let! e := iadd_c A w p n in
        let* temp_it := shift_left_c A pl w p e k in
        write_word pl w temp_word temp_it k ;;
        ret r
      else
        let! q := iadd_c A w p k in
        let full_swaps := wrap 32 (Z.quot (n - k) k) in
        let remainder := wrap 64 ((n - k) - full_swaps * k) in
        let* (p, q) := rot_up_c A pl w (Z.to_nat full_swaps) p q k in
        let! e := iadd_c A w p remainder in
        swap_ranges_c A A pl w p e q ;;
        let! p := iadd_c A w p remainder in
        let! q := iadd_c A w q remainder in
        let n := Z.rem n k in
        if n =? 0 then ret r
        else rot_loop_c A pl w f p k (k - n) r
    else
      let k := n - k in
      if k <=? w then
        let! e := iadd_c A w p n in
        let! s := isub_c A w e k in
        let* temp_word := get_word pl w s k in
        let! e := iadd_c A w p n in
        shift_right_c A pl w p e k ;;
        write_word pl w temp_word p k ;;
        ret r
      else
        let! q := iadd_c A w p n in
        let! p := isub_c A w q k in
        let full_swaps := wrap 32 (Z.quot (n - k) k) in
        let remainder := wrap 64 ((n - k) - full_swaps * k) in
        let* (p, q) := rot_down_c A pl w (Z.to_nat full_swaps) p q k in
        let! p := isub_c A w p remainder in
        let! q := isub_c A w q remainder in
        let! e := iadd_c A w p remainder in
        swap_ranges_c A A pl w p e q ;;
        let n := Z.rem n k in
        if n =? 0 then ret r
        else rot_loop_c A pl w f p k n r
  end.

(** _rotate_via_raw, rotate.hpp:102-181. *)
Definition rotate_via_raw_c (A : arr) (pl : policy) (w : Z) (first n_first last : iter)
  : M iter :=
  let! k := idiff w n_first first in
  let! n := idiff w last first in
  if k =? n - k then
    swap_ranges_c A A pl w first n_first n_first ;;
    ret n_first
  else
    let! d := idiff w last n_first in
    let! r := iadd_c A w first d in
    rot_loop_c A pl w 64 first n k r.

(** The single word cases of rotate, rotate.hpp:209-236; std::next(first, n) is
    bit_algorithm_details.hpp:44-56 or the std function on bit iterators. *)
Definition rotate_one_word_c (A : arr) (pl : policy) (w : Z) (first n_first last : iter)
  : M iter :=
  if (ip first =? 0) && (ip last =? 0) then
    let* x := load (ib first) in
    let! a := cshr pl w x (ip n_first) in
    let! b := cshl pl w x (usub w (ip n_first)) in
    store (ib first) (wrap w (Z.lor a (wrap w b))) ;;
    lift (iadd_c A w first (swrap64 (usub w (ip n_first))))
  else
    let last_pos := if ip last =? 0 then w else ip last in
    let k := usub (ip n_first) (ip first) in
    let p := usub last_pos (ip n_first) in
    let d := usub last_pos (ip first) in
    let! s := cshl pl 64 1 d in
    let! mk := cshl pl 64 (wrap 64 (s - 1)) (ip first) in
    let mask := wrap w mk in
    let* x := load (ib first) in
    let rotated := Z.land x mask in
    let! a := cshr pl w rotated k in
    let! b := cshl pl w rotated p in
    let rotated := Z.lor (wrap w a) (wrap w b) in
    let! v := bitblend pl w x rotated (ip first) d in
    store (ib first) v ;;
    lift (iadd_c A w first (swrap64 p)).

(** rotate, rotate.hpp:184-258. *)
Definition rotate_c (A : arr) (pl : policy) (w : Z) (first n_first last : iter) : M iter :=
  let! _ := assert_viable w first n_first in
  let! _ := assert_viable w n_first last in
  let! _ := assert_viable w first last in
  if ieq first n_first then ret last
  else
  let! one := one_word_c A first last in
  if one then rotate_one_word_c A pl w first n_first last
  else
    let! b1 := is_within_c A w first n_first in
    if b1 then
      let! k := distance w first n_first in
      let* temp := get_word pl w first k in
      let* new_last := shift_left_c A pl w first last k in
      write_word pl w temp new_last k ;;
      ret new_last
    else
      let! b2 := is_within_c A w n_first last in
      if b2 then
        let! p := distance w n_first last in
        let* temp := get_word pl w n_first p in
        let* new_last := shift_right_c A pl w first last p in
        write_word pl w temp first p ;;
        ret new_last
      else rotate_via_raw_c A pl w first n_first last.

(** The loop of transform.hpp:111-116; [A] is the array of first, [B] that of it. *)
Fixpoint transform_loop_c (A B : arr) (p : policy) (w : Z) (op : Z -> Z) (fuel : nat) (it : Z)
  (first : iter) (remaining : Z) : M (Z * iter * Z) :=
  if w <=? remaining then
    match fuel with
    | O => lift Fuel
    | S f =>
      let* x := get_word p w first w in
      store it (op x) ;;
      let! it' := form B (it + 1) in
      let! first' := iadd_c A w first w in
      transform_loop_c A B p w op f it' first' (usub remaining w)
    end
  else ret (it, first, remaining).

(** transform with a unary operation, transform.hpp:34-128. *)
Definition transform1_c (A B : arr) (p : policy) (w : Z) (op : Z -> Z)
  (first last d_first : iter) : M iter :=
  let! _ := assert_viable w first last in
  if ieq first last then ret d_first else
  let! total := distance w first last in
  let* (remaining, first, it) :=
    (if negb (ip d_first =? 0) then
       let partial := Z.min total (usub w (ip d_first)) in
       let* x := load (ib d_first) in
       let* g := get_word p w first partial in
       let! s := cshl p w g (ip d_first) in
       let! v := bitblend p w x (op (wrap w s)) (ip d_first) partial in
       store (ib d_first) v ;;
       let! f := iadd_c A w first partial in
       let! it := form B (ib d_first + 1) in
       ret (usub total partial, f, it)
     else ret (total, first, ib d_first)) in
  (if 0 <? remaining then
     let* (it, first, remaining) :=
       (if (ip first =? 0) && (w <? remaining) then
          let n := ib last - ib first in
          words_transform op (Z.to_nat n) (ib first) it ;;
          let! it' := form B (it + n) in
          let! f := form A (ib first + n) in
          ret (it', mk_aligned f, usub remaining (w * n))
        else
          transform_loop_c A B p w op (Z.to_nat (remaining / w)) it first remaining) in
     if 0 <? remaining then
       let* x := load it in
       let* g := get_word p w first remaining in
       let! mask := low_mask p w remaining in
       store it (bitblend_mask x (op g) mask)
     else ret tt
   else ret tt) ;;
  lift (iadd_c B w d_first total).

(** The loop of transform.hpp:189-197; [A1], [A2], [B] are the arrays of first1,
    first2 and it. *)
Fixpoint transform2_loop_c (A1 A2 B : arr) (p : policy) (w : Z) (op : Z -> Z -> Z) (fuel : nat)
  (it : Z) (first1 first2 : iter) (remaining : Z) : M (Z * iter * iter * Z) :=
  if w <=? remaining then
    match fuel with
    | O => lift Fuel
    | S f =>
      let* x := get_word p w first1 w in
      let* y := get_word p w first2 w in
      store it (op x y) ;;
      let! it' := form B (it + 1) in
      let! first1' := iadd_c A1 w first1 w in
      let! first2' := iadd_c A2 w first2 w in
      transform2_loop_c A1 A2 B p w op f it' first1' first2' (usub remaining w)
    end
  else ret (it, first1, first2, remaining).

(** transform with a binary operation, transform.hpp:130-212. *)
Definition transform2_c (A1 A2 B : arr) (p : policy) (w : Z) (op : Z -> Z -> Z)
  (first1 last1 first2 d_first : iter) : M iter :=
  let! _ := assert_viable w first1 last1 in
  if ieq first1 last1 then ret d_first else
  let! total := distance w first1 last1 in
  let* (remaining, first1, first2, it) :=
    (if negb (ip d_first =? 0) then
       let partial := Z.min total (usub w (ip d_first)) in
       let* x := load (ib d_first) in
       let* g1 := get_word p w first1 partial in
       let! s1 := cshl p w g1 (ip d_first) in
       let* g2 := get_word p w first2 partial in
       let! s2 := cshl p w g2 (ip d_first) in
       let! v := bitblend p w x (op (wrap w s1) (wrap w s2)) (ip d_first)
                          partial in
       store (ib d_first) v ;;
       let! f1 := iadd_c A1 w first1 partial in
       let! f2 := iadd_c A2 w first2 partial in
       let! it := form B (ib d_first + 1) in
       ret (usub total partial, f1, f2, it)
     else ret (total, first1, first2, ib d_first)) in
  (if 0 <? remaining then
     let* (it, first1, first2, remaining) :=
       (if (ip first1 =? 0) && (ip first2 =? 0) && (w <? remaining) then
          let n := ib last1 - ib first1 in
          words_transform2 op (Z.to_nat n) (ib first1) (ib first2) it ;;
          let! it' := form B (it + n) in
          let! f1 := iadd_c A1 w first1 (w * n) in
          let! f2 := iadd_c A2 w first2 (w * n) in
          ret (it', f1, f2, usub remaining (w * n))
        else
          transform2_loop_c A1 A2 B p w op (Z.to_nat (remaining / w)) it first1 first2
                            remaining) in
     if 0 <? remaining then
       let* x := load it in
       let* g1 := get_word p w first1 remaining in
       let* g2 := get_word p w first2 remaining in
       let! mask := low_mask p w remaining in
       store it (bitblend_mask x (op g1 g2) mask)
     else ret tt
   else ret tt) ;;
  lift (iadd_c B w d_first total).
