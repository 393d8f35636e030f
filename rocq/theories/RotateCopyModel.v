(** Model of _rotate_via_copy_begin and _rotate_via_copy_end,
    /repo/include/bitlib/bit-algorithms/rotate.hpp:24-98 (line numbers refer to that
    file). Nothing in the library calls these templates. The array copy_arr on the
    stack (lines 41 and 79) is the [bs] words from word address [buf] on; what it
    holds before is arbitrary, as it is not initialised. *)
From Coq Require Import ZArith Bool.
From Verif Require Import Base IterModel AlgModel ShiftModel.
Open Scope Z_scope.

(** Conversion to short int, lines 45, 48, 83 and 86. *)
Definition swrap16 (x : Z) : Z := (x + 2 ^ 15) mod 2 ^ 16 - 2 ^ 15.

(** The loop of lines 46-49 and 84-87: [pos] is the unsigned short index,
    [left] is bits_left_to_copy. A store beyond the array is out of bounds. [fuel]
    bounds the number of rounds. *)
Fixpoint buf_loop (w : Z) (fuel : nat) (buf bs it pos left : Z) : M unit :=
  match fuel with
  | O => lift Fuel
  | S f =>
    if 0 <? left then
      let* x := load it in
      if pos <? bs then
        store (buf + pos) x ;;
        buf_loop w f buf bs (it + 1) (wrap 16 (pos + 1)) (swrap16 (left - w))
      else lift (UB OutOfBounds)
    else ret tt
  end.

(** Lines 40-49 and 78-87: the assertion and the copy of the words from that of
    [s] on to the array. *)
Definition buf_fill (w : Z) (buf bs : Z) (s : iter) (k : Z) : M unit :=
  if k <=? bs * w then
    let* x := load (ib s) in
    store buf x ;;
    let left := swrap16 (wrap 64 (k - (w - ip s))) in
    buf_loop w (S (Z.to_nat left)) buf bs (ib s + 1) 1 left
  else lift Assert.

(** _rotate_via_copy_begin, lines 28-60. *)
Definition rotate_copy_begin (p : policy) (w buf bs : Z) (first n_first last : iter) : M iter :=
  let! k := distance w first n_first in
  buf_fill w buf bs first k ;;
  let* r := shift_left p w first last k in
  let! f := mk_iter w buf (ip first) in
  let! e := iadd w f k in
  copy p w f e r ;;
  ret r.

(** _rotate_via_copy_end, lines 66-98. *)
Definition rotate_copy_end (p : policy) (w buf bs : Z) (first n_first last : iter) : M iter :=
  let! k := distance w n_first last in
  buf_fill w buf bs n_first k ;;
  let* r := shift_right p w first last k in
  let! f := mk_iter w buf (ip n_first) in
  let! e := iadd w f k in
  copy p w f e first ;;
  ret r.
