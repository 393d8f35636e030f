(** Model of the code that is compiled when BITLIB_HWY is defined
    (CMakeLists.txt:44, 51-53): the vector loops of
    /repo/include/bitlib/bit-algorithms/fill.hpp:64-75, find.hpp:66-99,
    transform.hpp:82-103, shift.hpp:186-203 and 320-342. Each algorithm is
    given once more with the stage in which the two builds differ as a
    parameter; the scalar models of AlgModel, ShiftModel and TransformModel are
    the instances without vector code (ProofAlg1, ProofAlg2, ProofTransform and
    ProofShift prove them from the same lemmas on the parametrised versions).
    Google Highway itself is not part of /repo: Load, Store, Set, Not, Gt,
    ShiftRightSame, ... are modelled lane by lane after its documentation. *)
From Coq Require Import ZArith Bool List.
From Verif Require Import Base WordOps IterModel PopcntModel AlgModel ShiftModel
  TransformModel.
Import ListNotations.
Open Scope Z_scope.

(** The machine the vector code runs on: hn::Lanes(d) of the word type
    (fill.hpp:69-71) and the byte address of word 0 of the memory, which the
    is_aligned macro inspects (fill.hpp:25-26). *)
Record simd_unit : Type := Unit { lanes : Z; origin : Z }.

(** Byte address of the word [a], the uintptr_t of fill.hpp:25-26. *)
Definition byte_addr (h : simd_unit) (w a : Z) : Z := origin h + a * (w / 8).

(** is_aligned(&*it, 64), fill.hpp:25-26 and the copies in find.hpp:22-23,
    shift.hpp:24-25. Forming the pointer is defined by the language only inside
    an array or one past its end ([expr.add] 4); a machine ([Hw]) computes any
    address. *)
Definition is_aligned (p : policy) (h : simd_unit) (w a : Z) : M bool :=
  fun m =>
    let answer := Ok (byte_addr h w a mod 64 =? 0, m) in
    match p, m a, m (a - 1) with
    | Hw _, _, _ | _, Some _, _ | _, _, Some _ => answer
    | _, None, None => UB OutOfBounds
    end.

(** hn::LoadU, shift.hpp:197-198, 331-335: the words [a, a + n). *)
Fixpoint vloadu (n : nat) (a : Z) : M (list Z) :=
  match n with
  | O => ret []
  | S n' =>
    let* x := load a in
    let* l := vloadu n' (a + 1) in
    ret (x :: l)
  end.

(** hn::StoreU, transform.hpp:100. *)
Fixpoint vstoreu (a : Z) (l : list Z) : M unit :=
  match l with
  | [] => ret tt
  | x :: l' => store a x ;; vstoreu (a + 1) l'
  end.

(** The requirement of hn::Load and hn::Store (fill.hpp:73, find.hpp:85,
    transform.hpp:95-98): the address is a multiple of the vector size. *)
Definition vector_aligned (h : simd_unit) (w a : Z) : res unit :=
  if byte_addr h w a mod (lanes h * (w / 8)) =? 0 then Ok tt else UB BadUse.

(** hn::Load, find.hpp:85, transform.hpp:95. *)
Definition vload (h : simd_unit) (w a : Z) : M (list Z) :=
  let! _ := vector_aligned h w a in vloadu (Z.to_nat (lanes h)) a.

(** hn::Store, fill.hpp:73, transform.hpp:98, shift.hpp:199, 336. *)
Definition vstore (h : simd_unit) (w a : Z) (l : list Z) : M unit :=
  let! _ := vector_aligned h w a in vstoreu a l.

(** hn::ShiftRightSame of one lane, shift.hpp:197, 330-332; the count must be
    smaller than the lane. *)
Definition lane_shr (w c x : Z) : res Z :=
  if (0 <=? c) && (c <? w) then Ok (Z.shiftr x c) else UB OverShift.

(** hn::ShiftLeftSame of one lane, shift.hpp:198, 333-335. *)
Definition lane_shl (w c x : Z) : res Z :=
  if (0 <=? c) && (c <? w) then Ok (wrap w (Z.shiftl x c)) else UB OverShift.

(** ShiftRightSame(v, offset) | ShiftLeftSame(v_plus1, digits - offset) lane by
    lane, shift.hpp:197-199 and 330-336. *)
Fixpoint vshrd (w offset : Z) (v v1 : list Z) : res (list Z) :=
  match v, v1 with
  | x :: v', y :: v1' =>
    let? s := lane_shr w offset x in
    let? t := lane_shl w (w - offset) y in
    let? l := vshrd w offset v' v1' in
    Ok (Z.lor s t :: l)
  | _, _ => Ok []
  end.

(** Words written up to the first 64 byte boundary, fill.hpp:66-68. *)
Fixpoint fill_align (p : policy) (h : simd_unit) (w : Z) (fuel : nat)
  (it last v : Z) : M Z :=
  if it =? last then ret it else
  let* al := is_aligned p h w it in
  if al then ret it else
  match fuel with
  | O => lift Fuel
  | S f => store it v ;; fill_align p h w f (it + 1) last v
  end.

(** The vector loop of fill.hpp:71-74. The signed distance is compared as an
    unsigned number. *)
Fixpoint fill_vectors (h : simd_unit) (w : Z) (fuel : nat) (it last v : Z)
  : M Z :=
  if lanes h <=? wrap 64 (last - it) then
    match fuel with
    | O => lift Fuel
    | S f =>
      vstore h w it (repeat v (Z.to_nat (lanes h))) ;;
      fill_vectors h w f (it + lanes h) last v
    end
  else ret it.

(** Whole words of fill with the vector block, fill.hpp:64-76. *)
Definition fill_words_hwy (p : policy) (h : simd_unit) (w it last v : Z)
  : M unit :=
  let* it := fill_align p h w (Z.to_nat (last - it)) it last v in
  let* it := fill_vectors h w (Z.to_nat (last - it)) it last v in
  words_fill (Z.to_nat (last - it)) it v.

(** fill, fill.hpp:38-82; [words it last v] is the stage of lines 64-76. *)
Definition fill_with (words : Z -> Z -> Z -> M unit) (p : policy) (w : Z)
  (first last : iter) (bv : bool) : M unit :=
  let! _ := assert_viable w first last in
  let fill_word := if bv then all_ones w else 0 in
  let! d := distance w first last in
  if d =? 0 then ret tt else
  let! within := is_within w first last in
  if within then
    let! len := distance w first last in
    write_word p w fill_word first len
  else
    let* it :=
      (if negb (ip first =? 0) then
         write_word p w fill_word first (w - ip first) ;;
         ret (ib first + 1)
       else ret (ib first)) in
    words it (ib last) fill_word ;;
    if negb (ip last =? 0) then
      write_word p w fill_word (mk_aligned (ib last)) (ip last)
    else ret tt.

(** fill of a BITLIB_HWY build, fill.hpp:38-82. *)
Definition fill_hwy (p : policy) (h : simd_unit) (w : Z) (first last : iter)
  (bv : bool) : M unit :=
  fill_with (fill_words_hwy p h w) p w first last bv.

(** The search up to the first 64 byte boundary, find.hpp:68-78: an iterator is
    found or the search goes on at a word. *)
Fixpoint find_align (p : policy) (h : simd_unit) (w : Z) (fuel : nat)
  (it last : Z) (bv : bool) : M (iter + Z) :=
  if it =? last then ret (inr it) else
  let* al := is_aligned p h w it in
  if al then ret (inr it) else
  let* x := load it in
  if (bv && (x =? 0)) || (negb bv && (x =? all_ones w)) then
    match fuel with
    | O => lift Fuel
    | S f => find_align p h w f (it + 1) last bv
    end
  else
    let! r := mk_iter w it (tz_bv w bv x) in ret (inl r).

(** hn::FindKnownFirstTrue of hn::Gt(v, 0), None if hn::AllFalse:
    find.hpp:90-93. *)
Fixpoint first_nonzero (i : Z) (v : list Z) : option Z :=
  match v with
  | [] => None
  | x :: v' => if 0 <? x then Some i else first_nonzero (i + 1) v'
  end.

(** The vector loop of find.hpp:83-98. *)
Fixpoint find_vectors (h : simd_unit) (w : Z) (fuel : nat) (it last : Z)
  (bv : bool) : M (iter + Z) :=
  if lanes h <=? wrap 64 (last - it) then
    match fuel with
    | O => lift Fuel
    | S f =>
      let* v := vload h w it in
      let v := if bv then v else map (fun x => wrap w (Z.lnot x)) v in
      match first_nonzero 0 v with
      | Some i =>
        let* x := load (it + i) in
        let! r := mk_iter w (it + i) (tz_bv w bv x) in
        ret (inl r)
      | None => find_vectors h w f (it + lanes h) last bv
      end
    end
  else ret (inr it).

(** The search through whole words, find.hpp:63 and 101-122. [it] is the word
    to start at. *)
Definition find_words (w it : Z) (last : iter) (bv : bool) : M iter :=
  let* it := words_find (Z.to_nat (ib last - it)) it
                        (if bv then 0 else all_ones w) in
  if negb (it =? ib last) then
    let* x := load it in
    lift (mk_iter w it (tz_bv w bv x))
  else if negb (ip last =? 0) then
    let* x := load it in
    lift (mk_iter w it (Z.min (tz_bv w bv x) (ip last)))
  else ret last.

(** The same with the vector block in front, find.hpp:63-122. *)
Definition find_words_hwy (p : policy) (h : simd_unit) (w it : Z) (last : iter)
  (bv : bool) : M iter :=
  let* s := find_align p h w (Z.to_nat (ib last - it)) it (ib last) bv in
  match s with
  | inl r => ret r
  | inr it =>
    let* s := find_vectors h w (Z.to_nat (ib last - it)) it (ib last) bv in
    match s with
    | inl r => ret r
    | inr it => find_words w it last bv
    end
  end.

(** find, find.hpp:33-123; [words] is the stage of lines 63-122. *)
Definition find_with (words : Z -> iter -> bool -> M iter) (p : policy) (w : Z)
  (first last : iter) (bv : bool) : M iter :=
  let is_first_aligned := ip first =? 0 in
  let is_last_aligned := ip last =? 0 in
  let* step :=
    (if negb is_first_aligned then
       let* x := load (ib first) in
       let! s := cshr p w x (ip first) in
       let num := tz_bv w bv (wrap w s) in
       if ib first + b2z is_last_aligned =? ib last then
         let! d := distance w first last in
         let! r := iadd w first (Z.min num (wrap 64 d)) in
         ret (inl r)
       else if num + ip first <? w then
         let! r := iadd w first num in ret (inl r)
       else
         let! f := iadd w first (usub w (ip first)) in ret (inr f)
     else ret (inr first)) in
  match step with
  | inl r => ret r
  | inr first => words (ib first) last bv
  end.

(** find of a BITLIB_HWY build, find.hpp:33-123. *)
Definition find_hwy (p : policy) (h : simd_unit) (w : Z) (first last : iter)
  (bv : bool) : M iter :=
  find_with (find_words_hwy p h w) p w first last bv.

(** std::bit_not<word_type>, the operation the vector block of transform is
    compiled for: transform.hpp:83. *)
Definition op_not (w x : Z) : Z := wrap w (Z.lnot x).

(** Words up to the first 64 byte boundary of the source, transform.hpp:86-88:
    (firstIt, it). *)
Fixpoint not_align (p : policy) (h : simd_unit) (w : Z) (fuel : nat)
  (src last dst : Z) : M (Z * Z) :=
  if src =? last then ret (src, dst) else
  let* al := is_aligned p h w src in
  if al then ret (src, dst) else
  match fuel with
  | O => lift Fuel
  | S f =>
    let* x := load src in
    store dst (op_not w x) ;;
    not_align p h w f (src + 1) last (dst + 1)
  end.

(** The vector loop of transform.hpp:93-102: (firstIt, it). *)
Fixpoint not_vectors (h : simd_unit) (w : Z) (out_is_aligned : bool)
  (fuel : nat) (src last dst : Z) : M (Z * Z) :=
  if lanes h <=? wrap 64 (last - src) then
    match fuel with
    | O => lift Fuel
    | S f =>
      let* v := vload h w src in
      let v := map (op_not w) v in
      (if out_is_aligned then vstore h w dst v else vstoreu dst v) ;;
      not_vectors h w out_is_aligned f (src + lanes h) last (dst + lanes h)
    end
  else ret (src, dst).

(** Whole words of transform with bit_not, transform.hpp:82-108: the new
    (firstIt, it). *)
Definition not_words_hwy (p : policy) (h : simd_unit) (w src last dst : Z)
  : M (Z * Z) :=
  let* (src, dst) := not_align p h w (Z.to_nat (last - src)) src last dst in
  let* out_is_aligned := is_aligned p h w dst in
  let* (src, dst) :=
    not_vectors h w out_is_aligned (Z.to_nat (last - src)) src last dst in
  let std_dist := last - src in
  words_transform (op_not w) (Z.to_nat std_dist) src dst ;;
  ret (src + std_dist, dst + std_dist).

(** transform with a unary operation, transform.hpp:34-128; [words src last
    dst] is the stage of lines 82-108. *)
Definition transform1_with (words : Z -> Z -> Z -> M (Z * Z)) (p : policy)
  (w : Z) (op : Z -> Z) (first last d_first : iter) : M iter :=
  let! _ := assert_viable w first last in
  if ieq first last then ret d_first else
  let! total := distance w first last in
  let* (remaining, first, it) :=
    (if negb (ip d_first =? 0) then
       let partial := Z.min total (usub w (ip d_first)) in
       let* x := load (ib d_first) in
       let* g := get_word p w first partial in
       let! s := cshl p w g (ip d_first) in
       let! v := bitblend p w x (op (wrap w s)) (ip d_first) partial in
       store (ib d_first) v ;;
       let! f := advance w first partial in
       ret (usub total partial, f, ib d_first + 1)
     else ret (total, first, ib d_first)) in
  (if 0 <? remaining then
     let* (it, first, remaining) :=
       (if (ip first =? 0) && (w <? remaining) then
          let n := ib last - ib first in
          let* (src, dst) := words (ib first) (ib last) it in
          ret (dst, mk_aligned src, usub remaining (w * n))
        else
          transform_loop p w op (Z.to_nat (remaining / w)) it first remaining) in
     if 0 <? remaining then
       let* x := load it in
       let* g := get_word p w first remaining in
       let! mask := low_mask p w remaining in
       store it (bitblend_mask x (op g) mask)
     else ret tt
   else ret tt) ;;
  lift (iadd w d_first total).

(** transform with std::bit_not of a BITLIB_HWY build, transform.hpp:34-128. *)
Definition transform_not_hwy (p : policy) (h : simd_unit) (w : Z)
  (first last d_first : iter) : M iter :=
  transform1_with (not_words_hwy p h w) p w (op_not w) first last d_first.

(** Words of shift_left up to a 64 byte boundary of the destination,
    shift.hpp:188-192. *)
Fixpoint sl_align (p : policy) (h : simd_unit) (w : Z) (fuel : nat)
  (first middle : iter) (last_base offset : Z) : M (iter * iter) :=
  if ib middle + 1 <? last_base then
    let* al := is_aligned p h w (ib first) in
    if al then ret (first, middle) else
    match fuel with
    | O => lift Fuel
    | S f =>
      let* x := load (ib middle) in
      let* y := load (ib middle + 1) in
      let! v := shrd p w x y offset in
      store (ib first) v ;;
      let! first := iadd_assign w first w in
      let! middle := iadd_assign w middle w in
      sl_align p h w f first middle last_base offset
    end
  else ret (first, middle).

(** The vector loop of shift.hpp:195-202. *)
Fixpoint sl_vectors (h : simd_unit) (w : Z) (fuel : nat) (first middle last : iter)
  (offset : Z) : M (iter * iter) :=
  if lanes h + 10 + b2z (negb (ip last =? 0)) <=? wrap 64 (ib last - ib middle)
  then
    match fuel with
    | O => lift Fuel
    | S f =>
      let n := Z.to_nat (lanes h) in
      let* v := vloadu n (ib middle) in
      let* v1 := vloadu n (ib middle + 1) in
      let! r := vshrd w offset v v1 in
      vstore h w (ib first) r ;;
      let! first := iadd_assign w first (lanes h * w) in
      let! middle := iadd_assign w middle (lanes h * w) in
      sl_vectors h w f first middle last offset
    end
  else ret (first, middle).

(** The words of shift_left, shift.hpp:186-211: (first_base, middle_base). *)
Definition sl_words_hwy (p : policy) (h : simd_unit) (w : Z)
  (first middle last : iter) (offset : Z) : M (Z * Z) :=
  let fuel := Z.to_nat (ib last - ib middle) in
  let* (first, middle) := sl_align p h w fuel first middle (ib last) offset in
  let* (first, middle) := sl_vectors h w fuel first middle last offset in
  shift_left_loop p w fuel (ib first) (ib middle) (ib last) offset.

(** shift_left, shift.hpp:46-238; [words] is the stage of lines 186-211. *)
Definition shift_left_with
  (words : iter -> iter -> iter -> Z -> M (Z * Z)) (p : policy) (w : Z)
  (first last : iter) (n : Z) : M iter :=
  let! _ := assert_viable w first last in
  let! d := distance w first last in
  let is_last_aligned := ip last =? 0 in
  let! middle := iadd w first n in
  if n <=? 0 then ret last
  else if d <=? n then ret first
  else if one_word first last then
    let* x := load (ib first) in
    let! mask := cshr p w (all_ones w) (w - end_pos w last) in
    let! s := cshr p w (Z.land x mask) n in
    let! v := bitblend p w x (wrap w s) (ip first) (end_pos w last - ip first) in
    store (ib first) v ;;
    let! r := iadd w first d in
    lift (isub w r n)
  else if d - n <=? w then
    let* new_word := get_word p w middle (d - n) in
    write_word p w new_word first (d - n) ;;
    let! r := iadd w first d in
    lift (isub w r n)
  else
    let* first_value := load (ib first) in
    let* last_value := (if negb is_last_aligned then load (ib last) else ret 0) in
    let* (first, middle) := shift_left_align p w first middle d n in
    if ib middle =? ib last then
      let bits_left := ip last - ip middle in
      if 0 <? bits_left then
        let* x := load (ib first) in
        let* y := load (ib middle) in
        let! s := cshr p w y (ip middle) in
        let! v := bitblend p w x (wrap w s) 0 bits_left in
        store (ib first) v ;;
        lift (iadd_assign w first bits_left)
      else ret first
    else
      let! d := distance w first last in
      let word_shifts := n / w in
      let offset := ip middle in
      if offset =? 0 then
        let* fb := word_shift_left (ib first) (ib last) word_shifts in
        let first := It fb 0 in
        if negb is_last_aligned then
          let* x := load (ib last) in
          write_word p w x first (ip last) ;;
          lift (iadd_assign w first (ip last))
        else ret first
      else
        let* (fb, mb) := words first middle last offset in
        let first := It fb 0 in
        let middle := It mb (ip middle) in
        let* (first, middle) :=
          (if ib middle + 1 =? ib last then
             let* x := load (ib first) in
             let* y := load (ib middle) in
             let! s := cshr p w y offset in
             let! v := bitblend p w x (wrap w s) 0 (w - offset) in
             store (ib first) v ;;
             let! f := iadd_assign w first (w - offset) in
             let! mi := iadd_assign w middle (w - offset) in
             ret (f, mi)
           else ret (first, middle)) in
        if negb is_last_aligned then
          let bits_left := ip last - ip middle in
          let* new_word := get_word p w middle bits_left in
          write_word p w new_word first bits_left ;;
          lift (iadd_assign w first bits_left)
        else ret first.

(** shift_left of a BITLIB_HWY build, shift.hpp:46-238. *)
Definition shift_left_hwy (p : policy) (h : simd_unit) (w : Z)
  (first last : iter) (n : Z) : M iter :=
  shift_left_with (sl_words_hwy p h w) p w first last n.

(** Words of shift_right until a vector ending at last is 64 byte aligned,
    shift.hpp:323-327: (last, middle). *)
Fixpoint sr_align (p : policy) (h : simd_unit) (w : Z) (fuel : nat)
  (first_base : Z) (last middle : iter) (offset : Z) : M (iter * iter) :=
  if first_base <? ib middle - 1 then
    let* al := is_aligned p h w (ib last - lanes h) in
    if al then ret (last, middle) else
    match fuel with
    | O => lift Fuel
    | S f =>
      let* x := load (ib middle - 1) in
      let* y := load (ib middle) in
      let! v := shrd p w x y offset in
      store (ib last - 1) v ;;
      let! last := isub_assign w last w in
      let! middle := isub_assign w middle w in
      sr_align p h w f first_base last middle offset
    end
  else ret (last, middle).

(** The vector loop of shift.hpp:329-341: (last, middle). *)
Fixpoint sr_vectors (h : simd_unit) (w : Z) (fuel : nat) (first_base : Z)
  (last middle : iter) (offset : Z) : M (iter * iter) :=
  if lanes h + 1 <? wrap 64 (ib middle - first_base) then
    match fuel with
    | O => lift Fuel
    | S f =>
      let n := Z.to_nat (lanes h) in
      let* v := vloadu n (ib middle - lanes h) in
      let* v1 := vloadu n (ib middle - lanes h + 1) in
      let! r := vshrd w offset v v1 in
      vstore h w (ib last - lanes h) r ;;
      let! last := isub_assign w last (w * lanes h) in
      let! middle := isub_assign w middle (w * lanes h) in
      sr_vectors h w f first_base last middle offset
    end
  else ret (last, middle).

(** The whole words of shift_right, shift.hpp:320-361: (last, middle). *)
Definition sr_words_hwy (p : policy) (h : simd_unit) (w : Z)
  (first last middle : iter) (offset : Z) : M (iter * iter) :=
  let fuel := Z.to_nat (ib middle - ib first) in
  let* (last, middle) := sr_align p h w fuel (ib first) last middle offset in
  let* (last, middle) := sr_vectors h w fuel (ib first) last middle offset in
  shift_right_words p w first last middle offset.

(** shift_right after the alignment of last, shift.hpp:297-376; [words] is the
    stage of lines 320-361. *)
Definition shift_right_main_with
  (words : iter -> iter -> iter -> Z -> M (iter * iter)) (p : policy) (w : Z)
  (first last middle : iter) (n : Z) : M iter :=
  let word_shifts := n / w in
  let offset := ip middle in
  if offset =? 0 then
    let* _ := word_shift_right (ib first) (ib last) word_shifts in
    lift (iadd w first n)
  else
    let! dist := distance w first middle in
    let* (last, middle) :=
      (if w <=? dist then words first last middle offset
       else ret (last, middle)) in
    (if negb (ip first =? ip middle) then
       let! bits := distance w first middle in
       let* word := get_word p w first bits in
       let! dst := isub w last bits in
       write_word p w word dst bits
     else ret tt) ;;
    lift (iadd w first n).

(** shift_right, shift.hpp:240-377. *)
Definition shift_right_with
  (words : iter -> iter -> iter -> Z -> M (iter * iter)) (p : policy) (w : Z)
  (first last : iter) (n : Z) : M iter :=
  let! d := distance w first last in
  let! middle := isub w last n in
  if n <=? 0 then ret first
  else if d <=? n then ret last
  else if one_word first last then
    let* x := load (ib first) in
    let! mask := cshl p w (all_ones w) (ip first) in
    let! s := cshl p w (Z.land x mask) n in
    let! v := bitblend p w x (wrap w s) (ip first) (end_pos w last - ip first) in
    store (ib first) v ;;
    lift (iadd w first n)
  else if negb (ip last =? 0) then
    let! dm := distance w first middle in
    let bits := Z.min (ip last) dm in
    let! src := isub w middle bits in
    let* word := get_word p w src bits in
    let! dst := isub w last bits in
    write_word p w word dst bits ;;
    let! middle := isub_assign w middle bits in
    let! last := isub_assign w last bits in
    if ieq middle first then lift (iadd w first n)
    else shift_right_main_with words p w first last middle n
  else shift_right_main_with words p w first last middle n.

(** shift_right of a BITLIB_HWY build, shift.hpp:240-377. *)
Definition shift_right_hwy (p : policy) (h : simd_unit) (w : Z)
  (first last : iter) (n : Z) : M iter :=
  shift_right_with (sr_words_hwy p h w) p w first last n.
