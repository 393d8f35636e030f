(** Model of bit_vector in a build with BITLIB_HWY
    (/repo/include/bitlib/bit-containers/bit_vector.hpp; line numbers without a file name
    refer to that file). The text of the class does not depend on the macro; insert, erase
    and resize call the shift_left, shift_right and fill of that build (HwyModel.v). All
    other functions are those of VecModel.v: the copy of line 563, the references and the
    word vector have no vector version. [h] says how many words a vector of the machine
    has and where the storage lies during the call. *)
From Coq Require Import ZArith Bool List.
From Verif Require Import Base WordOps IterModel RefModel PopcntModel AlgModel ShiftModel
  HwyModel VecModel.
Import ListNotations.
Open Scope Z_scope.

(** insert(pos, value), lines 506-519, with shift_right of shift.hpp:240-377. *)
Definition insert1_hwy (p : policy) (h : simd_unit) (w : Z) (v : bvec) (pos : iter) (b : bool)
  : res (iter * bvec) :=
  let? d := distance w vbegin pos in
  let l := if wrap 64 (wsize (vwords v) * w) =? vlen v then vwords v ++ [0]
           else vwords v in
  let n := wrap 64 (vlen v + 1) in
  let? (_, l') := on_words l
    (let! f := iadd w vbegin d in
     let! e := iadd w vbegin (swrap64 n) in
     shift_right_hwy p h w f e 1 ;;
     let! r := iindex p w vbegin d in
     ref_assign_val w r b) in
  let? r := iadd w vbegin d in
  Ok (r, BV l' n).

(** insert(pos, count, value), lines 521-542, with shift_right of shift.hpp:240-377 and
    fill of fill.hpp:34-83. *)
Definition insert_n_hwy (p : policy) (h : simd_unit) (w : Z) (v : bvec) (pos : iter) (count : Z)
  (b : bool) : res (iter * bvec) :=
  let? d := distance w vbegin pos in
  if count =? 0 then
    let? r := iadd w vbegin d in Ok (r, v)
  else
    let? l := grow w (vwords v) (vlen v + count) in
    let n := wrap 64 (vlen v + count) in
    let? (_, l') := on_words l
      (let! f := iadd w vbegin d in
       let! e := iadd w vbegin (swrap64 n) in
       shift_right_hwy p h w f e (swrap64 count) ;;
       let! g := iadd w f (swrap64 count) in
       fill_hwy p h w f g b) in
    let? r := iadd w vbegin d in
    Ok (r, BV l' n).

(** insert(pos, first, last), lines 544-565, with shift_right of shift.hpp:240-377; first
    and last are in [ext]. *)
Definition insert_range_hwy (p : policy) (h : simd_unit) (w : Z) (ext : mem) (v : bvec) (pos first last : iter)
  : res (iter * bvec * mem) :=
  let? d := distance w vbegin pos in
  let? c := distance w first last in
  let count := wrap 64 c in
  if count =? 0 then
    let? r := iadd w vbegin d in Ok (r, v, ext)
  else
    let? l := grow w (vwords v) (vlen v + count) in
    let n := wrap 64 (vlen v + count) in
    let? (_, l', ext') := on_words_ext l ext
      (let! f := iadd w vbegin d in
       let! e := iadd w vbegin (swrap64 n) in
       shift_right_hwy p h w f e (swrap64 count) ;;
       copy p w first last f) in
    let? r := iadd w vbegin d in
    Ok (r, BV l' n, ext').

(** erase(pos), lines 567-576, with shift_left of shift.hpp:123-236. *)
Definition erase1_hwy (p : policy) (h : simd_unit) (w : Z) (v : bvec) (pos : iter) : res (iter * bvec) :=
  let? (_, l) := on_words (vwords v)
    (let! e := iadd w vbegin (swrap64 (vlen v)) in shift_left_hwy p h w pos e 1) in
  let n := wrap 64 (vlen v - 1) in
  if n mod w =? 0 then
    let? l' := pop_word l in Ok (pos, BV l' n)
  else Ok (pos, BV l n).

(** erase(first, last), lines 578-590, with shift_left of shift.hpp:123-236. *)
Definition erase_range_hwy (p : policy) (h : simd_unit) (w : Z) (v : bvec) (first last : iter)
  : res (iter * bvec) :=
  let? d := distance w vbegin first in
  let? count := distance w first last in
  if count =? 0 then Ok (last, v)
  else
    let? (_, l) := on_words (vwords v)
      (let! e := vend w v in shift_left_hwy p h w first e count) in
    let n := wrap 64 (vlen v - count) in
    let? r := iadd w vbegin d in
    Ok (r, BV (resize_words l (word_count w n)) n).

(** resize(count, value), lines 618-627, with fill of fill.hpp:34-83. *)
Definition resize_val_hwy (p : policy) (h : simd_unit) (w : Z) (v : bvec) (count : Z) (b : bool)
  : res bvec :=
  let l := resize_words (vwords v) (word_count w count) in
  if vlen v <? count then
    let? (_, l') := on_words l
      (let! f := iadd w vbegin (swrap64 count) in
       let! e := iadd w vbegin (swrap64 count) in
       fill_hwy p h w f e b) in
    Ok (BV l' count)
  else Ok (BV l count).

(** Execution of one call; lines as in [vop]. The calls that are not listed use none of
    the vector loops. *)
Definition vstep_hwy (p : policy) (h : simd_unit) (w : Z) (v : bvec) (o : vop) : res (vout * bvec) :=
  match o with
  | OpInsert i b =>
    let? pos := iadd w vbegin i in see_iter w (insert1_hwy p h w v pos b)
  | OpInsertN i n b =>
    let? pos := iadd w vbegin i in see_iter w (insert_n_hwy p h w v pos n b)
  | OpInsertRange i src j k =>
    let? pos := iadd w vbegin i in
    let? f := iadd w (ext_begin src) j in
    let? l := iadd w (ext_begin src) k in
    see_iter w (let? (r, v', _) := insert_range_hwy p h w (ext_mem src) v pos f l in
                Ok (r, v'))
  | OpErase i => let? pos := iadd w vbegin i in see_iter w (erase1_hwy p h w v pos)
  | OpEraseRange i j =>
    let? f := iadd w vbegin i in
    let? l := iadd w vbegin j in
    see_iter w (erase_range_hwy p h w v f l)
  | _ => vstep p w v o
  end.

(** A history of calls; each comes with the place of the storage during the call, which
    changes when the word vector is reallocated (no /repo lines). [n] is the number of
    words of a vector of the machine. *)
Fixpoint vrun_hwy (p : policy) (n : Z) (w : Z) (v : bvec) (os : list (Z * vop))
  : res (list vout * bvec) :=
  match os with
  | [] => Ok ([], v)
  | (place, o) :: os' =>
    let? (x, v') := vstep_hwy p (Unit n place) w v o in
    let? (xs, v'') := vrun_hwy p n w v' os' in
    Ok (x :: xs, v'')
  end.
