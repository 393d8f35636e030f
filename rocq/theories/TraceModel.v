(** The algorithms once more, as the sequences of reads and writes of words that they
    make: the definitions of WordOps, AlgModel, ShiftModel, TransformModel, SwapModel,
    ReverseModel and RotateModel text for text, over [thread] (ThreadModel) in place of
    [M], so that the accesses can be counted. ProofTrace.v proves that every one of them
    run alone is the function of the same name. Files are named relative to
    /repo/include/bitlib/bit-algorithms (bit_details.hpp: .../bit-iterator). Not here:
    count, which reads bytes (CountTraceModel). *)
From Coq Require Import ZArith Bool List.
From Verif Require Import Base WordOps IterModel PopcntModel AlgModel ShiftModel
  TransformModel SwapModel ReverseModel RotateModel ThreadModel.
Import ListNotations.
Open Scope Z_scope.

(** A computation over memory (Base.M; no /repo lines). *)
Definition M (A : Type) : Type := thread A.

Definition ret {A} (a : A) : M A := Done (Ok a).  (* value; no /repo lines *)

(** A computation that does not touch memory (no /repo lines). *)
Definition lift {A} (r : res A) : M A := Done r.

(** Read of the word at [a], e.g. bit_algorithm_details.hpp:105-142. *)
Definition load (a : Z) : M Z := Read a (fun x => Done (Ok x)).

(** Write of a word, e.g. bit_algorithm_details.hpp:211-274. *)
Definition store (a v : Z) : M unit := Write a v (Done (Ok tt)).

Local Notation "'let*' x := c 'in' k" := (tbind c (fun x => k))
  (at level 200, x pattern, c at level 100, k at level 200).
Local Notation "'let!' x := r 'in' k" := (tbind (lift r) (fun x => k))
  (at level 200, x pattern, r at level 100, k at level 200).
Local Notation "c ';;' k" := (tbind c (fun _ => k))
  (at level 100, right associativity, k at level 200).

(** bit_details.hpp:768-775. *)
Definition bitexch_mask (a0 a1 msk : Z) : M unit :=
  let* x := load a0 in
  let* y := load a1 in
  store a0 (Z.lxor x (Z.land y msk)) ;;
  let* y := load a1 in
  let* x := load a0 in
  store a1 (Z.lxor y (Z.land x msk)) ;;
  let* x := load a0 in
  let* y := load a1 in
  store a0 (Z.lxor x (Z.land y msk)).

(** bit_details.hpp:778-790. *)
Definition bitexch2 (p : policy) (w a0 a1 start len : Z) : M unit :=
  let! msk :=
    (if len <? w then
       let? s1 := cshl p w 1 len in
       let? s2 := cshl p w (arith w (s1 - 1)) start in
       Ok (wrap w s2)
     else Ok (wrap w (-1))) in
  bitexch_mask a0 a1 msk.

(** bit_details.hpp:804-834. *)
Definition exch_step (p : policy) (w a0 a1 : Z) (left : bool)
  (d msk start : Z) : M unit :=
  let* x := load a0 in
  let* y := load a1 in
  let! s := (if left then cshl p w y d else cshr p w y d) in
  let! k := cshl p w msk start in
  store a0 (Z.lxor x (Z.land (wrap w s) (wrap w k))).

(** bit_details.hpp:795-837. *)
Definition bitexch3 (p : policy) (w a0 a1 start0 start1 len : Z) : M unit :=
  let! msk :=
    (if len <? w then
       let? s1 := cshl p w 1 len in
       Ok (wrap w (s1 - 1))
     else Ok (wrap w (-1))) in
  if start1 <=? start0 then
    exch_step p w a0 a1 true (start0 - start1) msk start0 ;;
    exch_step p w a1 a0 false (start0 - start1) msk start1 ;;
    exch_step p w a0 a1 true (start0 - start1) msk start0
  else
    exch_step p w a0 a1 false (start1 - start0) msk start0 ;;
    exch_step p w a1 a0 true (start1 - start0) msk start1 ;;
    exch_step p w a0 a1 false (start1 - start0) msk start0.

(** bit_algorithm_details.hpp:105-142. *)
Definition get_word (p : policy) (w : Z) (first : iter) (len : Z) : M Z :=
  if w <? len then lift Assert else
  let offset := w - ip first in
  let* x := load (ib first) in
  let! r := cshr p w x (ip first) in
  let ret_word := wrap w r in
  if len <=? offset then ret ret_word
  else
    let it := ib first + 1 in
    let len' := usub len offset in
    if w <? len' then lift Fuel else
    let* y := load it in
    let! s := cshl p w y offset in
    lift (bitblend p w ret_word (wrap w s) offset len').

(** bit_algorithm_details.hpp:211-243. *)
Definition write_word (p : policy) (w : Z) (src : Z) (dst : iter) (len : Z)
  : M unit :=
  let pos := ip dst in
  if (pos =? 0) && (len =? w) then store (ib dst) src
  else
    let* x := load (ib dst) in
    let! s := cshl p w src pos in
    let! v := bitblend p w x (wrap w s) pos (Z.min (w - pos) len) in
    store (ib dst) v ;;
    if w - pos <? len then
      let* y := load (ib dst + 1) in
      let! s := cshr p w src (w - pos) in
      let! v := bitblend p w y (wrap w s) 0 (len - (w - pos)) in
      store (ib dst + 1) v
    else ret tt.

(** copy.hpp:82, move.hpp:77, bit_algorithm_details.hpp:288. *)
Fixpoint words_copy (n : nat) (src dst : Z) : M unit :=
  match n with
  | O => ret tt
  | S n' =>
    let* x := load src in
    store dst x ;;
    words_copy n' (src + 1) (dst + 1)
  end.

(** copy_backward.hpp:76, bit_algorithm_details.hpp:305. *)
Fixpoint words_copy_backward (n : nat) (src_end dst_end : Z) : M unit :=
  match n with
  | O => ret tt
  | S n' =>
    let* x := load (src_end - 1) in
    store (dst_end - 1) x ;;
    words_copy_backward n' (src_end - 1) (dst_end - 1)
  end.

(** fill.hpp:76. *)
Fixpoint words_fill (n : nat) (dst v : Z) : M unit :=
  match n with
  | O => ret tt
  | S n' => store dst v ;; words_fill n' (dst + 1) v
  end.

(** equal.hpp:76. *)
Fixpoint words_equal (n : nat) (a b : Z) : M bool :=
  match n with
  | O => ret true
  | S n' =>
    let* x := load a in
    let* y := load b in
    if x =? y then words_equal n' (a + 1) (b + 1) else ret false
  end.

(** find.hpp:102-106. *)
Fixpoint words_find (n : nat) (it skip : Z) : M Z :=
  match n with
  | O => ret it
  | S n' =>
    let* x := load it in
    if negb (x =? skip) then ret it else words_find n' (it + 1) skip
  end.

(** bit_algorithm_details.hpp:279-290. *)
Definition word_shift_left (first last n : Z) : M Z :=
  if n <=? 0 then ret last
  else if last - first <=? n then ret first
  else
    let mid := first + n in
    words_copy (Z.to_nat (last - mid)) mid first ;;
    ret (first + (last - mid)).

(** bit_algorithm_details.hpp:296-307. *)
Definition word_shift_right (first last n : Z) : M Z :=
  let d := last - first in
  if n <=? 0 then ret first
  else if d <=? n then ret last
  else
    words_copy_backward (Z.to_nat (last - n - first)) (last - n) last ;;
    ret (first + n).

(** fill.hpp:38-82. *)
Definition fill (p : policy) (w : Z) (first last : iter) (bv : bool) : M unit :=
  let! _ := assert_viable w first last in
  let fill_word := if bv then all_ones w else 0 in
  let! d := distance w first last in
  if d =? 0 then ret tt else
  let! within := is_within w first last in
  if within then
    let! len := distance w first last in
    write_word p w fill_word first len
  else
    let* it :=
      (if negb (ip first =? 0) then
         write_word p w fill_word first (w - ip first) ;;
         ret (ib first + 1)
       else ret (ib first)) in
    words_fill (Z.to_nat (ib last - it)) it fill_word ;;
    if negb (ip last =? 0) then
      write_word p w fill_word (mk_aligned (ib last)) (ip last)
    else ret tt.

(** find.hpp:33-123. *)
Definition find (p : policy) (w : Z) (first last : iter) (bv : bool)
  : M iter :=
  let is_first_aligned := ip first =? 0 in
  let is_last_aligned := ip last =? 0 in
  let* step :=
    (if negb is_first_aligned then
       let* x := load (ib first) in
       let! s := cshr p w x (ip first) in
       let num := tz_bv w bv (wrap w s) in
       if ib first + b2z is_last_aligned =? ib last then
         let! d := distance w first last in
         let! r := iadd w first (Z.min num (wrap 64 d)) in
         ret (inl r)
       else if num + ip first <? w then
         let! r := iadd w first num in ret (inl r)
       else
         let! f := iadd w first (usub w (ip first)) in ret (inr f)
     else ret (inr first)) in
  match step with
  | inl r => ret r
  | inr first =>
    let* it := words_find (Z.to_nat (ib last - ib first)) (ib first)
                          (if bv then 0 else all_ones w) in
    if negb (it =? ib last) then
      let* x := load it in
      lift (mk_iter w it (tz_bv w bv x))
    else if negb is_last_aligned then
      let* x := load it in
      lift (mk_iter w it (Z.min (tz_bv w bv x) (ip last)))
    else ret last
  end.

(** equal.hpp:83-88. *)
Fixpoint equal_loop (p : policy) (w : Z) (fuel : nat) (it : Z) (first : iter)
  (remaining : Z) : M (bool * Z * iter * Z) :=
  if w <=? remaining then
    match fuel with
    | O => lift Fuel
    | S f =>
      let* x := load it in
      let* y := get_word p w first w in
      if negb (x =? y) then ret (true, it, first, remaining)
      else
        let! first' := advance w first w in
        equal_loop p w f (it + 1) first' (usub remaining w)
    end
  else ret (false, it, first, remaining).

(** equal.hpp:90-96. *)
Definition equal_tail (p : policy) (w it : Z) (first : iter) (remaining : Z)
  : M bool :=
  if 0 <? remaining then
    let! mask := low_mask p w remaining in
    let* comp := get_word p w first remaining in
    let* x := load it in
    ret (Z.land mask x =? Z.land mask comp)
  else ret true.

(** equal.hpp:29-99. *)
Definition equal (p : policy) (w : Z) (first last d_first : iter) : M bool :=
  let! _ := assert_viable w first last in
  if ieq first last then ret true else
  let! total := distance w first last in
  let* step :=
    (if negb (ip d_first =? 0) then
       let partial := Z.min total (usub w (ip d_first)) in
       let! lm := low_mask p w partial in
       let! mk := cshl p w lm (ip d_first) in
       let mask := wrap w mk in
       let* g := get_word p w first partial in
       let! c := cshl p w g (ip d_first) in
       let comp := wrap w c in
       let* x := load (ib d_first) in
       if negb (Z.land mask x =? Z.land mask comp) then ret None
       else
         let! f := advance w first partial in
         ret (Some (usub total partial, f, ib d_first + 1))
     else ret (Some (total, first, ib d_first))) in
  match step with
  | None => ret false
  | Some (remaining, first, it) =>
    if 0 <? remaining then
      if (ip first =? 0) && (w <=? remaining) then
        let n := ib last - ib first in
        let* same := words_equal (Z.to_nat n) (ib first) it in
        if negb same then ret false
        else
          let! first' := iadd_assign w first (w * n) in
          equal_tail p w (it + n) first' (usub remaining (w * n))
      else
        let* (bad, it', first', remaining') :=
          equal_loop p w (Z.to_nat (remaining / w)) it first remaining in
        if bad then ret false
        else equal_tail p w it' first' remaining'
    else ret true
  end.

(** copy.hpp:87-92. *)
Fixpoint copy_loop (p : policy) (w : Z) (fuel : nat) (it : Z) (first : iter)
  (remaining : Z) : M (Z * iter * Z) :=
  if w <=? remaining then
    match fuel with
    | O => lift Fuel
    | S f =>
      let* x := get_word p w first w in
      store it x ;;
      let! first' := advance w first w in
      copy_loop p w f (it + 1) first' (usub remaining w)
    end
  else ret (it, first, remaining).

(** copy.hpp:30-104. *)
Definition copy (p : policy) (w : Z) (first last d_first : iter) : M iter :=
  let! _ := assert_viable w first last in
  if ieq first last then ret d_first else
  let! total := distance w first last in
  let* (remaining, first, it) :=
    (if negb (ip d_first =? 0) then
       let partial := Z.min total (usub w (ip d_first)) in
       let* x := load (ib d_first) in
       let* g := get_word p w first partial in
       let! s := cshl p w g (ip d_first) in
       let! v := bitblend p w x (wrap w s) (ip d_first) partial in
       store (ib d_first) v ;;
       let! f := advance w first partial in
       ret (usub total partial, f, ib d_first + 1)
     else ret (total, first, ib d_first)) in
  (if 0 <? remaining then
     let* (it, first, remaining) :=
       (if (ip first =? 0) && (w <? remaining) then
          let n := ib last - ib first in
          words_copy (Z.to_nat n) (ib first) it ;;
          let! f := iadd_assign w first (w * n) in
          ret (it + n, f, usub remaining (w * n))
        else copy_loop p w (Z.to_nat (remaining / w)) it first remaining) in
     if 0 <? remaining then
       let* x := load it in
       let* g := get_word p w first remaining in
       let! mask := low_mask p w remaining in
       store it (bitblend_mask x g mask)
     else ret tt
   else ret tt) ;;
  lift (iadd w d_first total).

(** move.hpp:25-99. *)
Definition move (p : policy) (w : Z) (first last d_first : iter) : M iter :=
  copy p w first last d_first.

(** copy_backward.hpp:82-86. *)
Fixpoint copy_backward_loop (p : policy) (w : Z) (fuel : nat) (it : Z)
  (last : iter) (remaining : Z) : M (Z * iter * Z) :=
  if w <=? remaining then
    match fuel with
    | O => lift Fuel
    | S f =>
      let! src := isub w last w in
      let* x := get_word p w src w in
      store (it - 1) x ;;
      let! last' := advance w last (swrap64 (- w)) in
      copy_backward_loop p w f (it - 1) last' (usub remaining w)
    end
  else ret (it, last, remaining).

(** copy_backward.hpp:27-101. *)
Definition copy_backward (p : policy) (w : Z) (first last d_last : iter)
  : M iter :=
  let! _ := assert_viable w first last in
  if ieq first last then ret d_last else
  let! total := distance w first last in
  let it := ib d_last in
  let* (remaining, last) :=
    (if negb (ip d_last =? 0) then
       let partial := Z.min total (ip d_last) in
       let* x := load it in
       let! src := isub w last partial in
       let* g := get_word p w src partial in
       let! s := cshl p w g (usub (ip d_last) partial) in
       let! v := bitblend p w x (wrap w s) (usub (ip d_last) partial) partial in
       store it v ;;
       let! l := advance w last (swrap64 (- partial)) in
       ret (usub total partial, l)
     else ret (total, last)) in
  (if 0 <? remaining then
     let* (it, last, remaining) :=
       (if (ip last =? 0) && (w <? remaining) then
          let n := ib last - ib first - 1 in
          words_copy_backward (Z.to_nat n) (ib last) it ;;
          let! l := isub_assign w last (w * n) in
          ret (it - n - 1, l, usub remaining (w * n))
        else
          let* (it, last, remaining) :=
            copy_backward_loop p w (Z.to_nat (remaining / w)) it last
                               remaining in
          ret (it - 1, last, remaining)) in
     if 0 <? remaining then
       let* x := load it in
       let! src := isub w last remaining in
       let* g := get_word p w src remaining in
       let! s := cshl p w g (usub w remaining) in
       let! v := bitblend p w x (wrap w s) (usub w remaining) remaining in
       store it v
     else ret tt
   else ret tt) ;;
  lift (isub w d_last total).

(** shift.hpp:105-136. *)
Definition shift_left_align (p : policy) (w : Z) (first middle : iter) (d n : Z)
  : M (iter * iter) :=
  if negb (ip first =? 0) then
    (if ip middle <=? ip first then
       let* x := load (ib first) in
       let* y := load (ib middle) in
       let! s := cshl p w y (ip first - ip middle) in
       let! v := bitblend p w x (wrap w s) (ip first) (w - ip first) in
       store (ib first) v
     else
       let n1 := w - ip middle in
       let n2 := w - ip first - n1 in
       let* x := load (ib first) in
       let* y := load (ib middle) in
       let! s := cshr p w y (ip middle - ip first) in
       let! v := bitblend p w x (wrap w s) (ip first) n1 in
       store (ib first) v ;;
       let* x := load (ib first) in
       let* y := load (ib middle + 1) in
       let! s := cshl p w y (w - n2) in
       let! v := bitblend p w x (wrap w s) (ip first + n1) n2 in
       store (ib first) v) ;;
    let shifted := Z.min (d - n) (w - ip first) in
    let! f := iadd_assign w first shifted in
    let! mi := iadd_assign w middle shifted in
    ret (f, mi)
  else ret (first, middle).

(** shift.hpp:207-211. *)
Fixpoint shift_left_loop (p : policy) (w : Z) (fuel : nat)
  (first_base middle_base last_base offset : Z) : M (Z * Z) :=
  if middle_base + 1 <? last_base then
    match fuel with
    | O => lift Fuel
    | S f =>
      let* x := load middle_base in
      let* y := load (middle_base + 1) in
      let! v := shrd p w x y offset in
      store first_base v ;;
      shift_left_loop p w f (first_base + 1) (middle_base + 1) last_base offset
    end
  else ret (first_base, middle_base).

(** shift.hpp:46-238. *)
Definition shift_left (p : policy) (w : Z) (first last : iter) (n : Z)
  : M iter :=
  let! _ := assert_viable w first last in
  let! d := distance w first last in
  let is_last_aligned := ip last =? 0 in
  let! middle := iadd w first n in
  if n <=? 0 then ret last
  else if d <=? n then ret first
  else if one_word first last then
    let* x := load (ib first) in
    let! mask := cshr p w (all_ones w) (w - end_pos w last) in
    let! s := cshr p w (Z.land x mask) n in
    let! v := bitblend p w x (wrap w s) (ip first) (end_pos w last - ip first) in
    store (ib first) v ;;
    let! r := iadd w first d in
    lift (isub w r n)
  else if d - n <=? w then
    let* new_word := get_word p w middle (d - n) in
    write_word p w new_word first (d - n) ;;
    let! r := iadd w first d in
    lift (isub w r n)
  else
    let* first_value := load (ib first) in
    let* last_value := (if negb is_last_aligned then load (ib last) else ret 0) in
    let* (first, middle) := shift_left_align p w first middle d n in
    if ib middle =? ib last then
      let bits_left := ip last - ip middle in
      if 0 <? bits_left then
        let* x := load (ib first) in
        let* y := load (ib middle) in
        let! s := cshr p w y (ip middle) in
        let! v := bitblend p w x (wrap w s) 0 bits_left in
        store (ib first) v ;;
        lift (iadd_assign w first bits_left)
      else ret first
    else
      let! d := distance w first last in
      let word_shifts := n / w in
      let offset := ip middle in
      if offset =? 0 then
        let* fb := word_shift_left (ib first) (ib last) word_shifts in
        let first := It fb 0 in
        if negb is_last_aligned then
          let* x := load (ib last) in
          write_word p w x first (ip last) ;;
          lift (iadd_assign w first (ip last))
        else ret first
      else
        let* (fb, mb) :=
          shift_left_loop p w (Z.to_nat (ib last - ib middle)) (ib first)
                          (ib middle) (ib last) offset in
        let first := It fb 0 in
        let middle := It mb (ip middle) in
        let* (first, middle) :=
          (if ib middle + 1 =? ib last then
             let* x := load (ib first) in
             let* y := load (ib middle) in
             let! s := cshr p w y offset in
             let! v := bitblend p w x (wrap w s) 0 (w - offset) in
             store (ib first) v ;;
             let! f := iadd_assign w first (w - offset) in
             let! mi := iadd_assign w middle (w - offset) in
             ret (f, mi)
           else ret (first, middle)) in
        if negb is_last_aligned then
          let bits_left := ip last - ip middle in
          let* new_word := get_word p w middle bits_left in
          write_word p w new_word first bits_left ;;
          lift (iadd_assign w first bits_left)
        else ret first.

(** shift.hpp:347-351. *)
Fixpoint shift_right_loop (p : policy) (w : Z) (fuel : nat)
  (first_base lbp mbp offset : Z) : M (Z * Z) :=
  if first_base <? mbp then
    match fuel with
    | O => lift Fuel
    | S f =>
      let* x := load mbp in
      let* y := load (mbp + 1) in
      let! v := shrd p w x y offset in
      store lbp v ;;
      shift_right_loop p w f first_base (lbp - 1) (mbp - 1) offset
    end
  else ret (lbp, mbp).

(** shift.hpp:344-361. *)
Definition shift_right_words (p : policy) (w : Z) (first last middle : iter)
  (offset : Z) : M (iter * iter) :=
  let* (lbp, mbp) :=
    shift_right_loop p w (Z.to_nat (ib middle - ib first)) (ib first)
                     (ib last - 1) (ib middle - 1) offset in
  let* (lbp, mbp) :=
    (if ip first <=? ip middle then
       let* x := load mbp in
       let* y := load (mbp + 1) in
       let! v := shrd p w x y offset in
       store lbp v ;;
       ret (lbp - 1, mbp - 1)
     else ret (lbp, mbp)) in
  ret (It (lbp + 1) (ip last), It (mbp + 1) (ip middle)).

(** shift.hpp:297-376. *)
Definition shift_right_main (p : policy) (w : Z) (first last middle : iter)
  (n : Z) : M iter :=
  let word_shifts := n / w in
  let offset := ip middle in
  if offset =? 0 then
    let* _ := word_shift_right (ib first) (ib last) word_shifts in
    lift (iadd w first n)
  else
    let! dist := distance w first middle in
    let* (last, middle) :=
      (if w <=? dist then shift_right_words p w first last middle offset
       else ret (last, middle)) in
    (if negb (ip first =? ip middle) then
       let! bits := distance w first middle in
       let* word := get_word p w first bits in
       let! dst := isub w last bits in
       write_word p w word dst bits
     else ret tt) ;;
    lift (iadd w first n).

(** shift.hpp:240-377. *)
Definition shift_right (p : policy) (w : Z) (first last : iter) (n : Z)
  : M iter :=
  let! d := distance w first last in
  let! middle := isub w last n in
  if n <=? 0 then ret first
  else if d <=? n then ret last
  else if one_word first last then
    let* x := load (ib first) in
    let! mask := cshl p w (all_ones w) (ip first) in
    let! s := cshl p w (Z.land x mask) n in
    let! v := bitblend p w x (wrap w s) (ip first) (end_pos w last - ip first) in
    store (ib first) v ;;
    lift (iadd w first n)
  else if negb (ip last =? 0) then
    let! dm := distance w first middle in
    let bits := Z.min (ip last) dm in
    let! src := isub w middle bits in
    let* word := get_word p w src bits in
    let! dst := isub w last bits in
    write_word p w word dst bits ;;
    let! middle := isub_assign w middle bits in
    let! last := isub_assign w last bits in
    if ieq middle first then lift (iadd w first n)
    else shift_right_main p w first last middle n
  else shift_right_main p w first last middle n.

(** transform.hpp:106. *)
Fixpoint words_transform (op : Z -> Z) (n : nat) (src dst : Z) : M unit :=
  match n with
  | O => ret tt
  | S n' =>
    let* x := load src in
    store dst (op x) ;;
    words_transform op n' (src + 1) (dst + 1)
  end.

(** transform.hpp:111-116. *)
Fixpoint transform_loop (p : policy) (w : Z) (op : Z -> Z) (fuel : nat) (it : Z)
  (first : iter) (remaining : Z) : M (Z * iter * Z) :=
  if w <=? remaining then
    match fuel with
    | O => lift Fuel
    | S f =>
      let* x := get_word p w first w in
      store it (op x) ;;
      let! first' := advance w first w in
      transform_loop p w op f (it + 1) first' (usub remaining w)
    end
  else ret (it, first, remaining).

(** transform.hpp:34-128. *)
Definition transform1 (p : policy) (w : Z) (op : Z -> Z)
  (first last d_first : iter) : M iter :=
  let! _ := assert_viable w first last in
  if ieq first last then ret d_first else
  let! total := distance w first last in
  let* (remaining, first, it) :=
    (if negb (ip d_first =? 0) then
       let partial := Z.min total (usub w (ip d_first)) in
       let* x := load (ib d_first) in
       let* g := get_word p w first partial in
       let! s := cshl p w g (ip d_first) in
       let! v := bitblend p w x (op (wrap w s)) (ip d_first) partial in
       store (ib d_first) v ;;
       let! f := advance w first partial in
       ret (usub total partial, f, ib d_first + 1)
     else ret (total, first, ib d_first)) in
  (if 0 <? remaining then
     let* (it, first, remaining) :=
       (if (ip first =? 0) && (w <? remaining) then
          let n := ib last - ib first in
          words_transform op (Z.to_nat n) (ib first) it ;;
          ret (it + n, mk_aligned (ib first + n), usub remaining (w * n))
        else
          transform_loop p w op (Z.to_nat (remaining / w)) it first remaining) in
     if 0 <? remaining then
       let* x := load it in
       let* g := get_word p w first remaining in
       let! mask := low_mask p w remaining in
       store it (bitblend_mask x (op g) mask)
     else ret tt
   else ret tt) ;;
  lift (iadd w d_first total).

(** transform.hpp:184. *)
Fixpoint words_transform2 (op : Z -> Z -> Z) (n : nat) (src1 src2 dst : Z)
  : M unit :=
  match n with
  | O => ret tt
  | S n' =>
    let* x := load src1 in
    let* y := load src2 in
    store dst (op x y) ;;
    words_transform2 op n' (src1 + 1) (src2 + 1) (dst + 1)
  end.

(** transform.hpp:189-197. *)
Fixpoint transform2_loop (p : policy) (w : Z) (op : Z -> Z -> Z) (fuel : nat)
  (it : Z) (first1 first2 : iter) (remaining : Z) : M (Z * iter * iter * Z) :=
  if w <=? remaining then
    match fuel with
    | O => lift Fuel
    | S f =>
      let* x := get_word p w first1 w in
      let* y := get_word p w first2 w in
      store it (op x y) ;;
      let! first1' := advance w first1 w in
      let! first2' := advance w first2 w in
      transform2_loop p w op f (it + 1) first1' first2' (usub remaining w)
    end
  else ret (it, first1, first2, remaining).

(** transform.hpp:130-212. *)
Definition transform2 (p : policy) (w : Z) (op : Z -> Z -> Z)
  (first1 last1 first2 d_first : iter) : M iter :=
  let! _ := assert_viable w first1 last1 in
  if ieq first1 last1 then ret d_first else
  let! total := distance w first1 last1 in
  let* (remaining, first1, first2, it) :=
    (if negb (ip d_first =? 0) then
       let partial := Z.min total (usub w (ip d_first)) in
       let* x := load (ib d_first) in
       let* g1 := get_word p w first1 partial in
       let! s1 := cshl p w g1 (ip d_first) in
       let* g2 := get_word p w first2 partial in
       let! s2 := cshl p w g2 (ip d_first) in
       let! v := bitblend p w x (op (wrap w s1) (wrap w s2)) (ip d_first)
                          partial in
       store (ib d_first) v ;;
       let! f1 := advance w first1 partial in
       let! f2 := advance w first2 partial in
       ret (usub total partial, f1, f2, ib d_first + 1)
     else ret (total, first1, first2, ib d_first)) in
  (if 0 <? remaining then
     let* (it, first1, first2, remaining) :=
       (if (ip first1 =? 0) && (ip first2 =? 0) && (w <? remaining) then
          let n := ib last1 - ib first1 in
          words_transform2 op (Z.to_nat n) (ib first1) (ib first2) it ;;
          let! f1 := iadd_assign w first1 (w * n) in
          let! f2 := iadd_assign w first2 (w * n) in
          ret (it + n, f1, f2, usub remaining (w * n))
        else
          transform2_loop p w op (Z.to_nat (remaining / w)) it first1 first2
                          remaining) in
     if 0 <? remaining then
       let* x := load it in
       let* g1 := get_word p w first1 remaining in
       let* g2 := get_word p w first2 remaining in
       let! mask := low_mask p w remaining in
       store it (bitblend_mask x (op g1 g2) mask)
     else ret tt
   else ret tt) ;;
  lift (iadd w d_first total).

(** swap_ranges.hpp:95. *)
Fixpoint words_swap (n : nat) (a b : Z) : M unit :=
  match n with
  | O => ret tt
  | S n' =>
    let* x := load a in
    let* y := load b in
    store a y ;;
    store b x ;;
    words_swap n' (a + 1) (b + 1)
  end.

(** swap_ranges.hpp:52-84. *)
Definition swap_one_word (p : policy) (w : Z) (first1 last1 first2 : iter)
  : M iter :=
  let it1 := ib first1 in
  let it2 := ib first2 in
  let! digits_to_copy := distance w first1 last1 in
  (if ip first2 <=? ip first1 then
     bitexch3 p w it1 it2 (ip first1) (ip first2) digits_to_copy
   else
     let partial := Z.min digits_to_copy (usub w (ip first2)) in
     bitexch3 p w it1 it2 (ip first1) (ip first2) partial ;;
     if partial <? digits_to_copy then
       bitexch3 p w it1 (it2 + 1) (ip first1 + partial) 0
                (usub digits_to_copy partial)
     else ret tt) ;;
  lift (iadd w first2 digits_to_copy).

(** swap_ranges.hpp:88-109. *)
Definition swap_aligned (p : policy) (w : Z) (first1 last1 first2 : iter)
  : M iter :=
  let it1 := ib first1 in
  let it2 := ib first2 in
  bitexch2 p w it1 it2 (ip first1) (usub w (ip first1)) ;;
  let n := ib last1 - (it1 + 1) in
  words_swap (Z.to_nat n) (it1 + 1) (it2 + 1) ;;
  let it2 := it2 + 1 + n in
  (if negb (ip last1 =? 0) then
     bitexch2 p w (ib last1) it2 0 (ip last1)
   else ret tt) ;;
  lift (mk_iter w it2 (ip last1)).

(** swap_ranges.hpp:143-158. *)
Fixpoint swap_loop (p : policy) (w : Z) (n : nat) (it1 it2 pos2 digits : Z)
  : M (Z * Z) :=
  match n with
  | O => ret (it1, it2)
  | S n' =>
    bitexch3 p w it1 it2 0 pos2 digits ;;
    bitexch3 p w it1 (it2 + 1) digits 0 (usub w digits) ;;
    swap_loop p w n' (it1 + 1) (it2 + 1) pos2 digits
  end.

(** swap_ranges.hpp:112-189. *)
Definition swap_unaligned (p : policy) (w : Z) (first1 last1 first2 : iter)
  : M iter :=
  let it1 := ib first1 in
  let it2 := ib first2 in
  let digits_to_copy := usub w (ip first1) in
  let* it2 :=
    (if ip first2 <? ip first1 then
       bitexch3 p w it1 it2 (ip first1) (ip first2) digits_to_copy ;;
       ret it2
     else
       let partial := usub w (ip first2) in
       bitexch3 p w it1 it2 (ip first1) (ip first2) partial ;;
       bitexch3 p w it1 (it2 + 1) (ip first1 + partial) 0
                (usub digits_to_copy partial) ;;
       ret (it2 + 1)) in
  let it1 := it1 + 1 in
  let! first2 := advance w first2 digits_to_copy in
  let digits_to_copy := usub w (ip first2) in
  let* (it1, it2) :=
    swap_loop p w (Z.to_nat (ib last1 - it1)) it1 it2 (ip first2)
              digits_to_copy in
  if negb (ip last1 =? 0) then
    let partial := usub w (ip first2) in
    if ip last1 <=? partial then
      bitexch3 p w it1 it2 0 (ip first2) (ip last1) ;;
      let! r := mk_iter w it2 (ip first2) in
      lift (iadd w r (ip last1))
    else
      bitexch3 p w it1 it2 0 (ip first2) partial ;;
      bitexch3 p w it1 (it2 + 1) partial 0 (usub (ip last1) partial) ;;
      lift (mk_iter w (it2 + 1) (usub (ip last1) partial))
  else lift (mk_iter w it2 (ip first2)).

(** swap_ranges.hpp:23-192. *)
Definition swap_ranges (p : policy) (w : Z) (first1 last1 first2 : iter)
  : M iter :=
  let! _ := assert_viable w first1 last1 in
  if ieq first1 last1 then ret first2
  else if ib first1 + b2z (ip last1 =? 0) =? ib last1 then
    swap_one_word p w first1 last1 first2
  else if ip first1 =? ip first2 then swap_aligned p w first1 last1 first2
  else swap_unaligned p w first1 last1 first2.

(** reverse.hpp:51, 59. *)
Fixpoint words_reverse_loop (n : nat) (lo hi : Z) : M unit :=
  match n with
  | O => ret tt
  | S n' =>
    let* x := load lo in
    let* y := load hi in
    store lo y ;;
    store hi x ;;
    words_reverse_loop n' (lo + 1) (hi - 1)
  end.

(** reverse.hpp:51, 59. *)
Definition words_reverse (a b : Z) : M unit :=
  words_reverse_loop (Z.to_nat ((b - a) / 2)) a (b - 1).

(** reverse.hpp:52, 61-66. *)
Fixpoint words_bitswap (p : policy) (w : Z) (n : nat) (a : Z) : M unit :=
  match n with
  | O => ret tt
  | S n' =>
    let* x := load a in
    let! r := bitswap p w x in
    store a r ;;
    words_bitswap p w n' (a + 1)
  end.

(** reverse.hpp:68-83. *)
Definition reverse_shift (p : policy) (w : Z) (first last : iter) (gap e : Z)
  : M unit :=
  if ip first <? gap then
    shift_left p w (It (ib first) 0) (It (ib last + 1) 0) (gap - ip first) ;;
    ret tt
  else if gap <? ip first then
    shift_right p w (It (ib first) 0) (It e 0) (ip first - gap) ;;
    ret tt
  else ret tt.

(** reverse.hpp:27-111. *)
Definition reverse (p : policy) (w : Z) (first last : iter) : M unit :=
  let! _ := assert_viable w first last in
  let is_first_aligned := ip first =? 0 in
  let is_last_aligned := ip last =? 0 in
  let gap := usub w (ip last) * b2z (negb is_last_aligned) in
  if is_first_aligned && is_last_aligned then
    words_reverse (ib first) (ib last) ;;
    words_bitswap p w (Z.to_nat (ib last - ib first)) (ib first)
  else if negb (ib first =? ib last) then
    let* first_value := load (ib first) in
    let* last_value := load (ib last - b2z is_last_aligned) in
    let e := ib last + b2z (negb is_last_aligned) in
    words_reverse (ib first) e ;;
    words_bitswap p w (Z.to_nat (e - ib first)) (ib first) ;;
    reverse_shift p w first last gap e ;;
    (if negb is_first_aligned then
       let* x := load (ib first) in
       let! v := bitblend p w first_value x (ip first) (usub w (ip first)) in
       store (ib first) v
     else ret tt) ;;
    (if negb is_last_aligned then
       let* x := load (ib last) in
       let! v := bitblend p w x last_value (ip last) (usub w (ip last)) in
       store (ib last) v
     else ret tt)
  else
    let* x := load (ib first) in
    let! s := cshr p w x (ip first) in
    let! b := bitswap p w (wrap w s) in
    let! t := cshr p w b gap in
    let! v := bitblend p w x (wrap w t) (ip first) (usub (ip last) (ip first)) in
    store (ib first) v.

(** rotate.hpp:140-145. *)
Fixpoint rot_up (pl : policy) (w : Z) (n : nat) (p q : iter) (k : Z)
  : M (iter * iter) :=
  match n with
  | O => ret (p, q)
  | S n' =>
    swap_ranges pl w p q q ;;
    let! p := iadd_assign w p k in
    let! q := iadd_assign w q k in
    rot_up pl w n' p q k
  end.

(** rotate.hpp:166-171. *)
Fixpoint rot_down (pl : policy) (w : Z) (n : nat) (p q : iter) (k : Z)
  : M (iter * iter) :=
  match n with
  | O => ret (p, q)
  | S n' =>
    let! p := isub_assign w p k in
    let! q := isub_assign w q k in
    swap_ranges pl w p q q ;;
    rot_down pl w n' p q k
  end.

(** rotate.hpp:127-180. *)
Fixpoint rot_loop (pl : policy) (w : Z) (fuel : nat) (p : iter) (n k : Z)
  (r : iter) : M iter :=
  match fuel with
  | O => lift Fuel
  | S f =>
    if k <? n - k then
      if k <=? w then
        let* temp_word := get_word pl w p k in
        let! e := iadd w p n in
        let* temp_it := shift_left pl w p e k in
        write_word pl w temp_word temp_it k ;;
        ret r
      else
        let! q := iadd w p k in
        let full_swaps := wrap 32 (Z.quot (n - k) k) in
        let remainder := wrap 64 ((n - k) - full_swaps * k) in
        let* (p, q) := rot_up pl w (Z.to_nat full_swaps) p q k in
        let! e := iadd w p remainder in
        swap_ranges pl w p e q ;;
        let! p := iadd_assign w p remainder in
        let! q := iadd_assign w q remainder in
        let n := Z.rem n k in
        if n =? 0 then ret r
        else rot_loop pl w f p k (k - n) r
    else
      let k := n - k in
      if k <=? w then
        let! e := iadd w p n in
        let! s := isub w e k in
        let* temp_word := get_word pl w s k in
        let! e := iadd w p n in
        shift_right pl w p e k ;;
        write_word pl w temp_word p k ;;
        ret r
      else
        let! q := iadd w p n in
        let! p := isub w q k in
        let full_swaps := wrap 32 (Z.quot (n - k) k) in
        let remainder := wrap 64 ((n - k) - full_swaps * k) in
        let* (p, q) := rot_down pl w (Z.to_nat full_swaps) p q k in
        let! p := isub_assign w p remainder in
        let! q := isub_assign w q remainder in
        let! e := iadd w p remainder in
        swap_ranges pl w p e q ;;
        let n := Z.rem n k in
        if n =? 0 then ret r
        else rot_loop pl w f p k n r
  end.

(** rotate.hpp:102-181. *)
Definition rotate_via_raw (pl : policy) (w : Z) (first n_first last : iter)
  : M iter :=
  let! k := idiff w n_first first in
  let! n := idiff w last first in
  if k =? n - k then
    swap_ranges pl w first n_first n_first ;;
    ret n_first
  else
    let! d := idiff w last n_first in
    let! r := iadd w first d in
    rot_loop pl w 64 first n k r.

(** rotate.hpp:209-236. *)
Definition rotate_one_word (pl : policy) (w : Z) (first n_first last : iter)
  : M iter :=
  if (ip first =? 0) && (ip last =? 0) then
    let* x := load (ib first) in
    let! a := cshr pl w x (ip n_first) in
    let! b := cshl pl w x (usub w (ip n_first)) in
    store (ib first) (wrap w (Z.lor a (wrap w b))) ;;
    lift (iadd_assign w first (swrap64 (usub w (ip n_first))))
  else
    let last_pos := if ip last =? 0 then w else ip last in
    let k := usub (ip n_first) (ip first) in
    let p := usub last_pos (ip n_first) in
    let d := usub last_pos (ip first) in
    let! s := cshl pl 64 1 d in
    let! mk := cshl pl 64 (wrap 64 (s - 1)) (ip first) in
    let mask := wrap w mk in
    let* x := load (ib first) in
    let rotated := Z.land x mask in
    let! a := cshr pl w rotated k in
    let! b := cshl pl w rotated p in
    let rotated := Z.lor (wrap w a) (wrap w b) in
    let! v := bitblend pl w x rotated (ip first) d in
    store (ib first) v ;;
    lift (iadd_assign w first (swrap64 p)).

(** rotate.hpp:184-258. *)
Definition rotate (pl : policy) (w : Z) (first n_first last : iter) : M iter :=
  let! _ := assert_viable w first n_first in
  let! _ := assert_viable w n_first last in
  let! _ := assert_viable w first last in
  if ieq first n_first then ret last
  else if one_word first last then rotate_one_word pl w first n_first last
  else
    let! b1 := is_within w first n_first in
    if b1 then
      let! k := distance w first n_first in
      let* temp := get_word pl w first k in
      let* new_last := shift_left pl w first last k in
      write_word pl w temp new_last k ;;
      ret new_last
    else
      let! b2 := is_within w n_first last in
      if b2 then
        let! p := distance w n_first last in
        let* temp := get_word pl w n_first p in
        let* new_last := shift_right pl w first last p in
        write_word pl w temp first p ;;
        ret new_last
      else rotate_via_raw pl w first n_first last.
