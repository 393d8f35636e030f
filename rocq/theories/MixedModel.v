(** Model of get_word and write_word when the type of the value is not the word type
    of the range, /repo/include/bitlib/bit-algorithms/bit_algorithm_details.hpp:104-274
    (line numbers refer to that file). [w] is the number of digits of the words of the
    range.

    Not modelled: the branch of write_word for a source wider than the words (lines
    244-271). It cannot be instantiated: lines 247-251 and 265-269 call
    _bitblend(T, T, T) (bit_details.hpp:322) with two words and an int, for which no T
    can be deduced. *)
From Coq Require Import ZArith Bool List.
From Verif Require Import Base WordOps IterModel PopcntModel AlgModel SwapModel.
Open Scope Z_scope.

(** The loop of lines 123-133 and the last blend, lines 135-140. [t] is the number of
    digits of T. *)
Fixpoint get_word_loop (p : policy) (t w : Z) (fuel : nat) (ret_word it offset len : Z)
  : M Z :=
  if w <? len then
    match fuel with
    | O => lift Fuel
    | S f =>
      let* y := load it in
      let! s := cshl p t (wrap t y) offset in
      let! v := bitblend p t ret_word (wrap t s) offset w in
      get_word_loop p t w f v (it + 1) (wrap t (offset + w)) (len - w)
    end
  else
    let* y := load it in
    let! s := cshl p t (wrap t y) offset in
    lift (bitblend p t ret_word (wrap t s) offset len).

(** get_word<T>(first, len), lines 104-142. [ndebug] tells whether NDEBUG is defined,
    which removes the assertion of line 110. *)
Definition get_word_as (ndebug : bool) (p : policy) (t w : Z) (first : iter) (len : Z)
  : M Z :=
  if negb ndebug && (w <? len) then lift Assert else
  let offset := wrap t (w - ip first) in
  let* x := load (ib first) in
  let! r := cshr p w x (ip first) in
  let ret_word := wrap t r in
  if len <=? offset then ret ret_word
  else
    get_word_loop p t w (Z.to_nat len) ret_word (ib first + 1) offset (usub len offset).

(** write_word(src, dst_bit_it, len) for a source of [s] <= [w] digits, lines 210-243:
    the blends are computed in the source type and their result is converted to the
    word type. *)
Definition write_word_as (p : policy) (s w : Z) (src : Z) (dst : iter) (len : Z)
  : M unit :=
  let pos := ip dst in
  if (pos =? 0) && (len =? w) then store (ib dst) src
  else
    let* x := load (ib dst) in
    let! c := cshl p s src pos in
    let! v := bitblend p s (wrap s x) (wrap s c) (wrap s pos) (Z.min (wrap s (w - pos)) len) in
    store (ib dst) v ;;
    if w - pos <? len then
      let* y := load (ib dst + 1) in
      let! c := cshr p s src (w - pos) in
      let! v := bitblend p s (wrap s y) (wrap s c) 0 (wrap s (len - (w - pos))) in
      store (ib dst + 1) v
    else ret tt.

(** swap_ranges for two ranges whose words have [w1] and [w2] digits, swap_ranges.hpp:
    23-192. Everything behind line 49 is inside if constexpr (digits1 == digits2): for
    different numbers of digits control reaches the end of a function that has to
    return a value, which is undefined ([stmt.return]); no word is touched before. For
    equal numbers of digits [swap_ranges] of SwapModel is the function. *)
Definition swap_ranges_mixed (p : policy) (w1 w2 : Z) (first1 last1 first2 : iter) : M iter :=
  if w1 =? w2 then swap_ranges p w1 first1 last1 first2
  else
    let! _ := assert_viable w1 first1 last1 in
    if ieq first1 last1 then ret first2 else lift (UB BadUse).
