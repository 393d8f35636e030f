(** The capacity of bit_vector and iterators held across calls
    (/repo/include/bitlib/bit-containers/bit_vector.hpp; line numbers refer to that
    file), on top of VecModel, which leaves them out.

    word_vector (line 39) is a std::vector: it has room for capacity() words and gets
    a new buffer exactly when a call gives it more words than that. Every member
    function gives word_vector a new number of words at most once (by push_back,
    pop_back, resize, clear or assignment; lines 132, 503, 513, 536, 559, 573, 588,
    595, 606, 613), so the number of words after the call decides. How much room a
    new buffer has is up to the implementation of std::vector. Buffers are told
    apart by a serial number. Allocation never fails here; see
    FailModel. *)
From Coq Require Import ZArith Bool List.
From Verif Require Import Base WordOps IterModel RefModel VecModel.
Import ListNotations.
Open Scope Z_scope.

(** The buffer of word_vector, line 39: room in words, serial number. *)
Record buffer : Type := Buf { bcap : Z; bserial : Z }.

(** The choices of the implementation of std::vector: the room after push_back
    finds a buffer with room for c words full (lines 513, 595); the room of a buffer
    made for n words when the old one had room for c and held s (lines 132, 346, 483,
    536, 559); whether shrink_to_fit does anything (line 494). *)
Record growth : Type :=
  Growth { g_push : Z -> Z; g_other : Z -> Z -> Z -> Z; g_shrink : bool }.

(** The buffer after word_vector, with [s] words, is to hold [n] words, lines 132,
    483, 536, 559. *)
Definition room_for (g : growth) (b : buffer) (s n : Z) : buffer :=
  if n <=? bcap b then b else Buf (g_other g s (bcap b) n) (bserial b + 1).

(** The same when the words are added by push_back, lines 513, 595. *)
Definition room_push (g : growth) (b : buffer) (n : Z) : buffer :=
  if n <=? bcap b then b else Buf (g_push g (bcap b)) (bserial b + 1).

(** capacity(), lines 486-490, in size_t. *)
Definition vcapacity (w : Z) (b : buffer) : Z := wrap 64 (bcap b * w).

(** A bit_vector with its buffer, lines 39-40. *)
Definition cvec : Type := (bvec * buffer)%type.

(** The buffer after a call that makes [v] into [v']. Move assignment takes over
    the buffer of the other vector. Every line names the operation. *)
Definition buffer_after (g : growth) (w : Z) (v v' : bvec) (b : buffer) (o : vop) : buffer :=
  let s := wsize (vwords v) in
  let n := wsize (vwords v') in
  match o with
  | OpPush _ => room_push g b n                                     (* 592-600 *)
  | OpInsert _ _ => room_push g b n                                 (* 506-519 *)
  | OpReserve r => room_for g b s (word_count w r)                  (* 481-484 *)
  | OpShrinkToFit =>                                                (* 492-495 *)
    if g_shrink g && (n <? bcap b) then Buf n (bserial b + 1) else b
  | OpMoveAssign _ => Buf (g_other g 0 0 n) (bserial b + 1)         (* 343-350 *)
  | _ => room_for g b s n         (* 132, 356-406, 464-473, 501-504, 521-590, 602-616 *)
  end.

(** One call; lines as in VecModel.vop. *)
Definition cstep (g : growth) (p : policy) (w : Z) (c : cvec) (o : vop) : res (vout * cvec) :=
  let? (x, v') := vstep p w (fst c) o in
  Ok (x, (v', buffer_after g w (fst c) v' (snd c) o)).

(** A history of calls (no /repo lines). *)
Fixpoint crun (g : growth) (p : policy) (w : Z) (c : cvec) (os : list vop)
  : res (list vout * cvec) :=
  match os with
  | [] => Ok ([], c)
  | o :: os' =>
    let? (x, c') := cstep g p w c o in
    let? (xs, c'') := crun g p w c' os' in
    Ok (x :: xs, c'')
  end.

(** An iterator begin() + i that the client keeps: the buffer it points into and i
    (lines 424-428; bit_iterator.hpp:293-305). *)
Record held : Type := Held { hserial : Z; hpos : Z }.
Definition hold (c : cvec) (i : Z) : held := Held (bserial (snd c)) i.

(** Reading and writing through it, bit_iterator.hpp:203-209: undefined if the
    buffer is gone. *)
Definition held_get (p : policy) (w : Z) (c : cvec) (h : held) : res bool :=
  if hserial h =? bserial (snd c) then vget p w (fst c) (hpos h) else UB BadUse.
Definition held_set (p : policy) (w : Z) (c : cvec) (h : held) (b : bool) : res cvec :=
  if hserial h =? bserial (snd c)
  then let? v := vset p w (fst c) (hpos h) b in Ok (v, snd c) else UB BadUse.
