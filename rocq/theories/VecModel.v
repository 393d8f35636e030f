(** Model of /repo/include/bitlib/bit-containers/bit_vector.hpp (line numbers
    without a file name refer to that file). [w] is digits (line 38), [p] the
    shift policy.

    Simplifications. The storage is the list of the words of the std::vector
    word_vector; allocation never fails and capacity beyond size() is not
    modelled here (so reserve and shrink_to_fit do nothing; see CapModel for
    capacity()). max_size() is in DataModel.v. While an algorithm runs, word k of the storage has
    address k; everything else lives at negative addresses. A reallocation
    therefore does not move the storage; iterators obtained before one must not
    be used after it, as for std::vector. Allocators are left out. *)
From Coq Require Import ZArith Bool List.
From Verif Require Import Base WordOps IterModel RefModel PopcntModel AlgModel
  ShiftModel.
Import ListNotations.
Open Scope Z_scope.

(** bit_vector: the members word_vector and length_, lines 39-40. *)
Record bvec : Type := BV { vwords : list Z; vlen : Z }.

(** word_vector.size(), used in lines 512, 532, 555, 594. *)
Definition wsize (l : list Z) : Z := Z.of_nat (length l).

(** Memory with the storage [l] at addresses 0, 1, ... and [ext] at the negative
    addresses (word_vector, line 39). *)
Definition vmem (l : list Z) (ext : mem) : mem :=
  fun a =>
    if a <? 0 then ext a
    else if a <? wsize l then Some (nth (Z.to_nat a) l 0) else None.

(** No memory besides the storage (no /repo lines). *)
Definition nomem : mem := fun _ => None.

(** The storage after an algorithm has run (word_vector, line 39). *)
Definition words_of (n : nat) (m : mem) : list Z :=
  map (fun k => match m (Z.of_nat k) with Some x => x | None => 0 end) (seq 0 n).

(** The memory outside the storage after an algorithm has run (no /repo
    lines). *)
Definition outside (m : mem) : mem := fun a => if a <? 0 then m a else None.

(** Runs [c] on the storage [l] inside [ext]: result, storage, outside. The calls
    of algorithms and references in lines 227, 516-517, 539-540, 562-563, 570, 586, 597. *)
Definition on_words_ext {A} (l : list Z) (ext : mem) (c : M A)
  : res (A * list Z * mem) :=
  match c (vmem l ext) with
  | Ok (a, m) => Ok (a, words_of (length l) m, outside m)
  | UB k => UB k
  | Assert => Assert
  | Throw => Throw
  | Fuel => Fuel
  end.

(** The same without other memory (lines as above). *)
Definition on_words {A} (l : list Z) (c : M A) : res (A * list Z) :=
  let? (a, l', _) := on_words_ext l nomem c in Ok (a, l').

(** word_count, lines 44-46: the parameter is an unsigned int; the sum is
    computed in size_t. *)
Definition word_count (w n : Z) : Z := (wrap 32 n + w - 1) / w.

(** word_vector.resize(n), lines 536, 559, 588, 613, 621: new words are 0. *)
Definition resize_words (l : list Z) (n : Z) : list Z :=
  if n <=? wsize l then firstn (Z.to_nat n) l
  else l ++ repeat 0 (Z.to_nat (n - wsize l)).

(** word_vector.pop_back(), lines 573, 606: undefined if empty. *)
Definition pop_word (l : list Z) : res (list Z) :=
  match l with [] => UB BadUse | _ => Ok (removelast l) end.

(** begin(), lines 424-428, and end(), lines 430-434. *)
Definition vbegin : iter := mk_aligned 0.
Definition vend (w : Z) (v : bvec) : res iter := iadd w vbegin (swrap64 (vlen v)).

(** size() and empty(), lines 464-473. *)
Definition vsize (v : bvec) : Z := vlen v.
Definition vempty (v : bvec) : bool := vlen v =? 0.

(** Conversion of a non-negative integer to float, lines 532-535 and 555-558: round to
    nearest even with a 24-bit significand. *)
Definition to_float (n : Z) : Z :=
  if n <? 2 ^ 24 then n
  else
    let e := Z.log2 n - 23 in
    let q := n / 2 ^ e in
    let r := n mod 2 ^ e in
    let half := 2 ^ (e - 1) in
    let q' := if r <? half then q
              else if half <? r then q + 1
              else if Z.even q then q else q + 1 in
    q' * 2 ^ e.

(** Enlarging the storage for a bulk insertion, lines 532-537 and 555-560.
    length_ + count is converted to float for the comparison and for the
    subtraction; the difference of two integral floats is integral and is rounded
    to float; its conversion to unsigned int is undefined beyond 2^32. *)
Definition grow (w : Z) (l : list Z) (n : Z) : res (list Z) :=
  let avail := to_float (wrap 64 (wsize l * w)) in
  let total := to_float (wrap 64 n) in
  if avail <? total then
    let extra := to_float (total - avail) in
    if extra <? 2 ^ 32 then Ok (resize_words l (wsize l + word_count w extra))
    else UB BadUse
  else Ok l.

(** Default constructor, lines 203-204; constructor with an allocator, 206-207. *)
Definition ctor_default : bvec := BV [] 0.

(** bit_vector(count, bit_val), lines 209-213. *)
Definition ctor_fill (w count : Z) (b : bool) : bvec :=
  BV (repeat (if b then wrap w (-1) else 0) (Z.to_nat (word_count w count))) count.

(** bit_vector(count), lines 215-217. *)
Definition ctor_count (w count : Z) : bvec :=
  BV (repeat 0 (Z.to_nat (word_count w count))) count.

(** bit_vector(first, last) from bit iterators into [ext], lines 219-228: one
    word per bit is allocated. *)
Definition ctor_bits (p : policy) (w : Z) (ext : mem) (first last : iter)
  : res (bvec * mem) :=
  let? d := distance w first last in
  let? (_, l, ext') :=
    on_words_ext (repeat 0 (Z.to_nat d)) ext (copy p w first last vbegin) in
  Ok (BV l d, ext').

(** The loop of std::transform into bit iterators, lines 305-310. *)
Fixpoint write_bools (p : policy) (w : Z) (d : iter) (bs : list bool) : M unit :=
  match bs with
  | [] => ret tt
  | b :: bs' =>
    let! r := ideref p w d in
    ref_assign_val w r b ;;
    write_bools p w (iinc w d) bs'
  end.

(** bit_vector(first, last) from a range of bool, lines 231-242 and 291-311. *)
Definition ctor_bools (p : policy) (w : Z) (bs : list bool) : res bvec :=
  let n := Z.of_nat (length bs) in
  let? (_, l) := on_words (repeat 0 (length bs)) (write_bools p w vbegin bs) in
  Ok (BV l n).

(** bit_vector(first, last) from a range of words, lines 314-328, and from an
    initializer_list of words, lines 268-272. *)
Definition ctor_words (w : Z) (ws : list Z) : bvec := BV ws (wrap 64 (w * wsize ws)).

(** Copy constructor and copy assignment (defaulted, lines 113 and 132), and the
    move constructors, lines 244-250: they take a const rvalue, so the words are
    copied and the source stays as it is. *)
Definition ctor_copy (other : bvec) : bvec := BV (vwords other) (vlen other).

(** Move assignment, lines 343-350: ( *this, other). A moved-from std::vector is
    empty. Simplification: the two objects are different. *)
Definition move_assign (other : bvec) : bvec * bvec :=
  (BV (vwords other) (vlen other), BV [] 0).

(** push_back, lines 592-600. *)
Definition push_back (p : policy) (w : Z) (v : bvec) (b : bool) : res bvec :=
  let l := if wrap 64 (wsize (vwords v) * w) =? vlen v then vwords v ++ [0]
           else vwords v in
  let? (_, l') := on_words l
    (let! r := iindex p w vbegin (swrap64 (vlen v)) in ref_assign_val w r b) in
  Ok (BV l' (wrap 64 (vlen v + 1))).

(** Construction from an initializer_list of bool, lines 260-266 (the loop; the
    list of bit_values of lines 252-258 would be the same loop). *)
Fixpoint push_all (p : policy) (w : Z) (v : bvec) (bs : list bool) : res bvec :=
  match bs with
  | [] => Ok v
  | b :: bs' => let? v' := push_back p w v b in push_all p w v' bs'
  end.
Definition ctor_init (p : policy) (w : Z) (bs : list bool) : res bvec :=
  push_all p w ctor_default bs.

(** The loop of the string constructor, lines 280-286; characters are their
    codes. *)
Fixpoint write_string (p : policy) (w i : Z) (s : list Z) : M unit :=
  match s with
  | [] => ret tt
  | c :: s' =>
    if c =? 48 then
      let! r := iindex p w vbegin (swrap64 i) in
      ref_assign_val w r false ;;
      write_string p w (wrap 64 (i + 1)) s'
    else if c =? 49 then
      let! r := iindex p w vbegin (swrap64 i) in
      ref_assign_val w r true ;;
      write_string p w (wrap 64 (i + 1)) s'
    else write_string p w i s'
  end.

(** std::count of a character, line 277. *)
Definition count_char (c : Z) (s : list Z) : Z :=
  Z.of_nat (length (filter (fun x => x =? c) s)).

(** bit_vector(string_view), lines 275-287. *)
Definition ctor_string (p : policy) (w : Z) (s : list Z) : res bvec :=
  let n := count_char 48 s + count_char 49 s in
  let? (_, l) := on_words (repeat 0 (Z.to_nat n)) (write_string p w 0 s) in
  Ok (BV l n).

(** operator[], lines 356-362 (read). *)
Definition vget (p : policy) (w : Z) (v : bvec) (pos : Z) : res bool :=
  let? (b, _) := on_words (vwords v)
    (let! r := iindex p w vbegin (swrap64 pos) in ref_get r) in
  Ok b.

(** operator[] on the left of an assignment of a bit_value, lines 356-358. *)
Definition vset (p : policy) (w : Z) (v : bvec) (pos : Z) (b : bool) : res bvec :=
  let? (_, l) := on_words (vwords v)
    (let! r := iindex p w vbegin (swrap64 pos) in ref_assign_val w r b) in
  Ok (BV l (vlen v)).

(** at, lines 364-382 (read), and assignment through it. *)
Definition vat (p : policy) (w : Z) (v : bvec) (pos : Z) : res bool :=
  if pos <? vlen v then vget p w v pos else Throw.
Definition vat_set (p : policy) (w : Z) (v : bvec) (pos : Z) (b : bool) : res bvec :=
  if pos <? vlen v then vset p w v pos b else Throw.

(** front and back, lines 384-406 (read). *)
Definition vfront (p : policy) (w : Z) (v : bvec) : res bool := vget p w v 0.
Definition vback (p : policy) (w : Z) (v : bvec) : res bool :=
  vget p w v (wrap 64 (vlen v - 1)).

(** clear, lines 501-504. *)
Definition vclear (v : bvec) : bvec := BV [] 0.

(** reserve and shrink_to_fit, lines 481-495: no effect on the words. *)
Definition vreserve (v : bvec) (n : Z) : bvec := v.
Definition vshrink_to_fit (v : bvec) : bvec := v.

(** insert(pos, value), lines 506-519. *)
Definition insert1 (p : policy) (w : Z) (v : bvec) (pos : iter) (b : bool)
  : res (iter * bvec) :=
  let? d := distance w vbegin pos in
  let l := if wrap 64 (wsize (vwords v) * w) =? vlen v then vwords v ++ [0]
           else vwords v in
  let n := wrap 64 (vlen v + 1) in
  let? (_, l') := on_words l
    (let! f := iadd w vbegin d in
     let! e := iadd w vbegin (swrap64 n) in
     shift_right p w f e 1 ;;
     let! r := iindex p w vbegin d in
     ref_assign_val w r b) in
  let? r := iadd w vbegin d in
  Ok (r, BV l' n).

(** insert(pos, count, value), lines 521-542. *)
Definition insert_n (p : policy) (w : Z) (v : bvec) (pos : iter) (count : Z)
  (b : bool) : res (iter * bvec) :=
  let? d := distance w vbegin pos in
  if count =? 0 then
    let? r := iadd w vbegin d in Ok (r, v)
  else
    let? l := grow w (vwords v) (vlen v + count) in
    let n := wrap 64 (vlen v + count) in
    let? (_, l') := on_words l
      (let! f := iadd w vbegin d in
       let! e := iadd w vbegin (swrap64 n) in
       shift_right p w f e (swrap64 count) ;;
       let! g := iadd w f (swrap64 count) in
       fill p w f g b) in
    let? r := iadd w vbegin d in
    Ok (r, BV l' n).

(** insert(pos, first, last), lines 544-565, with first and last in [ext]. *)
Definition insert_range (p : policy) (w : Z) (ext : mem) (v : bvec) (pos first last : iter)
  : res (iter * bvec * mem) :=
  let? d := distance w vbegin pos in
  let? c := distance w first last in
  let count := wrap 64 c in
  if count =? 0 then
    let? r := iadd w vbegin d in Ok (r, v, ext)
  else
    let? l := grow w (vwords v) (vlen v + count) in
    let n := wrap 64 (vlen v + count) in
    let? (_, l', ext') := on_words_ext l ext
      (let! f := iadd w vbegin d in
       let! e := iadd w vbegin (swrap64 n) in
       shift_right p w f e (swrap64 count) ;;
       copy p w first last f) in
    let? r := iadd w vbegin d in
    Ok (r, BV l' n, ext').

(** erase(pos), lines 567-576. *)
Definition erase1 (p : policy) (w : Z) (v : bvec) (pos : iter) : res (iter * bvec) :=
  let? (_, l) := on_words (vwords v)
    (let! e := iadd w vbegin (swrap64 (vlen v)) in shift_left p w pos e 1) in
  let n := wrap 64 (vlen v - 1) in
  if n mod w =? 0 then
    let? l' := pop_word l in Ok (pos, BV l' n)
  else Ok (pos, BV l n).

(** erase(first, last), lines 578-590. *)
Definition erase_range (p : policy) (w : Z) (v : bvec) (first last : iter)
  : res (iter * bvec) :=
  let? d := distance w vbegin first in
  let? count := distance w first last in
  if count =? 0 then Ok (last, v)
  else
    let? (_, l) := on_words (vwords v)
      (let! e := vend w v in shift_left p w first e count) in
    let n := wrap 64 (vlen v - count) in
    let? r := iadd w vbegin d in
    Ok (r, BV (resize_words l (word_count w n)) n).

(** pop_back, lines 602-609. *)
Definition pop_back (w : Z) (v : bvec) : res bvec :=
  let n := wrap 64 (vlen v - 1) in
  if n mod w =? 0 then
    let? l := pop_word (vwords v) in Ok (BV l n)
  else Ok (BV (vwords v) n).

(** resize(count), lines 611-616. *)
Definition resize (w : Z) (v : bvec) (count : Z) : bvec :=
  BV (resize_words (vwords v) (word_count w count)) count.

(** resize(count, value), lines 618-627: the fill starts at begin() + length_
    with the new length_. *)
Definition resize_val (p : policy) (w : Z) (v : bvec) (count : Z) (b : bool)
  : res bvec :=
  let l := resize_words (vwords v) (word_count w count) in
  if vlen v <? count then
    let? (_, l') := on_words l
      (let! f := iadd w vbegin (swrap64 count) in
       let! e := iadd w vbegin (swrap64 count) in
       fill p w f e b) in
    Ok (BV l' count)
  else Ok (BV l count).

(** The loop of debug_string, lines 658-668. [position] is an int. *)
Fixpoint debug_loop (p : policy) (w : Z) (fuel : nat) (it last : iter) (position : Z)
  : M (list Z) :=
  if ine it last then
    match fuel with
    | O => lift Fuel
    | S f =>
      let sep := if (position mod w =? 0) && negb (position =? 0) then [32]
                 else if (position mod 8 =? 0) && negb (position =? 0) then [46]
                 else [] in
      let! r := ideref p w it in
      let* b := ref_get r in
      if 2 ^ 31 <=? position + 1 then lift (UB SignedOverflow)
      else
        let* rest := debug_loop p w f (iinc w it) last (position + 1) in
        ret (sep ++ (if (b : bool) then 49 else 48) :: rest)
    end
  else ret [].

(** debug_string(), lines 651-669. The overload with const_iterators (633-649)
    does not compile, since it converts them to iterators. *)
Definition debug_string (p : policy) (w : Z) (v : bvec) : res (list Z) :=
  let? last := vend w v in
  let? (s, _) := on_words (vwords v)
    (debug_loop p w (Z.to_nat (vlen v)) vbegin last 0) in
  Ok s.

(** One call by a client that holds no iterators across calls: positions are given
    as begin() + i, returned iterators are observed as it - begin(). Every
    constructor names the lines of the operation. *)
Inductive vop : Type :=
| OpPush (b : bool)                       (* 592-600 *)
| OpPop                                   (* 602-609 *)
| OpInsert (i : Z) (b : bool)             (* 506-519 *)
| OpInsertN (i n : Z) (b : bool)          (* 521-542 *)
| OpInsertRange (i : Z) (src : list Z) (j k : Z)
    (* 544-565: bits [j, k) of another vector with words src *)
| OpErase (i : Z)                         (* 567-576 *)
| OpEraseRange (i j : Z)                  (* 578-590 *)
| OpSet (i : Z) (b : bool)                (* 356-358 *)
| OpSetAt (i : Z) (b : bool)              (* 364-372 *)
| OpGet (i : Z)                           (* 356-362 *)
| OpAt (i : Z)                            (* 364-382 *)
| OpFront                                 (* 384-394 *)
| OpBack                                  (* 396-406 *)
| OpSize                                  (* 469-473 *)
| OpEmpty                                 (* 464-467 *)
| OpClear                                 (* 501-504 *)
| OpReserve (n : Z)                       (* 481-484 *)
| OpShrinkToFit                           (* 492-495 *)
| OpResize (n : Z)                        (* 611-616 *)
| OpAssign (other : bvec)                 (* 132 *)
| OpMoveAssign (other : bvec).            (* 343-350 *)

(** What the client sees of a call (no /repo lines). *)
Inductive vout : Type :=
| ONone
| OBit (b : bool)
| OIdx (i : Z)
| ONum (n : Z)
| OThrow.

(** Other storage handed to insert(pos, first, last): its words end at address -64;
    no word from there to -1 is mapped (no /repo lines; the vector that first and
    last of lines 544-548 point into). *)
Definition ext_mem (src : list Z) : mem :=
  fun a => if (- wsize src - 64 <=? a) && (a <? -64)
           then Some (nth (Z.to_nat (a + wsize src + 64)) src 0) else None.
Definition ext_begin (src : list Z) : iter := It (- wsize src - 64) 0.

(** Observation of a returned iterator: it - begin(), bit_iterator.hpp:389-409. *)
Definition see_iter (w : Z) (r : res (iter * bvec)) : res (vout * bvec) :=
  let? (it, v) := r in
  let? i := idiff w it vbegin in Ok (OIdx i, v).

(** Observation of a call that may throw std::out_of_range, lines 364-382: the
    vector is unchanged then. *)
Definition see_throw (v : bvec) (r : res (vout * bvec)) : res (vout * bvec) :=
  match r with Throw => Ok (OThrow, v) | _ => r end.

(** Execution of one call; lines as in [vop]. *)
Definition vstep (p : policy) (w : Z) (v : bvec) (o : vop) : res (vout * bvec) :=
  match o with
  | OpPush b => let? v' := push_back p w v b in Ok (ONone, v')
  | OpPop => let? v' := pop_back w v in Ok (ONone, v')
  | OpInsert i b =>
    let? pos := iadd w vbegin i in see_iter w (insert1 p w v pos b)
  | OpInsertN i n b =>
    let? pos := iadd w vbegin i in see_iter w (insert_n p w v pos n b)
  | OpInsertRange i src j k =>
    let? pos := iadd w vbegin i in
    let? f := iadd w (ext_begin src) j in
    let? l := iadd w (ext_begin src) k in
    see_iter w (let? (r, v', _) := insert_range p w (ext_mem src) v pos f l in
                Ok (r, v'))
  | OpErase i => let? pos := iadd w vbegin i in see_iter w (erase1 p w v pos)
  | OpEraseRange i j =>
    let? f := iadd w vbegin i in
    let? l := iadd w vbegin j in
    see_iter w (erase_range p w v f l)
  | OpSet i b => let? v' := vset p w v i b in Ok (ONone, v')
  | OpSetAt i b =>
    see_throw v (let? v' := vat_set p w v i b in Ok (ONone, v'))
  | OpGet i => let? b := vget p w v i in Ok (OBit b, v)
  | OpAt i => see_throw v (let? b := vat p w v i in Ok (OBit b, v))
  | OpFront => let? b := vfront p w v in Ok (OBit b, v)
  | OpBack => let? b := vback p w v in Ok (OBit b, v)
  | OpSize => Ok (ONum (vsize v), v)
  | OpEmpty => Ok (OBit (vempty v), v)
  | OpClear => Ok (ONone, vclear v)
  | OpReserve n => Ok (ONone, vreserve v n)
  | OpShrinkToFit => Ok (ONone, vshrink_to_fit v)
  | OpResize n => Ok (ONone, resize w v n)
  | OpAssign other => Ok (ONone, ctor_copy other)
  | OpMoveAssign other => Ok (ONone, fst (move_assign other))
  end.

(** A history of calls (no /repo lines). *)
Fixpoint vrun (p : policy) (w : Z) (v : bvec) (os : list vop)
  : res (list vout * bvec) :=
  match os with
  | [] => Ok ([], v)
  | o :: os' =>
    let? (x, v') := vstep p w v o in
    let? (xs, v'') := vrun p w v' os' in
    Ok (x :: xs, v'')
  end.
