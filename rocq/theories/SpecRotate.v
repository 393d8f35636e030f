(** Vocabulary for the theorems about rotate
    (/repo/include/bitlib/bit-algorithms/rotate.hpp) on very long ranges. *)
From Coq Require Import ZArith Bool.
Open Scope Z_scope.

(** The part lengths that rotate meets, starting with [l] bits before n_first and
    [r] bits from n_first on: the shorter part is moved past the longer one, which
    leaves a shorter rotation of as many bits (the algorithm of
    rotate.hpp:100-181). The answer is whether every time the left part is the
    longer one it is less than 2^32 times as long as the right one, the parts
    that fit a word excepted. [fuel] bounds the number of rounds; every round at
    least halves l + r, so 64 rounds are enough for every 64-bit length. *)
Fixpoint quotients_fit (fuel : nat) (w l r : Z) : bool :=
  match fuel with
  | O => true
  | S f =>
    if (l <=? w) || (r <=? w) then true
    else if l <? r then
      (r mod l =? 0) || quotients_fit f w (l - r mod l) (r mod l)
    else
      (l / r <? 2 ^ 32) &&
      ((l mod r =? 0) || quotients_fit f w (l mod r) (r - l mod r))
  end.

(** Whether the mask of a range of [len] bits from bit [pos] of a word on can be built
    in an unsigned long long, as rotate.hpp:224 does: always for words of at most 64
    bits; for wider ones if the range is not inside one word, or is the whole word (no
    mask is built then), or is shorter than 64 bits and ends within the low 64. *)
Definition mask_fits (w pos len : Z) : Prop :=
  w <= 64 \/ w < pos + len \/ len = w \/ len < 64 /\ pos + len <= 64.

(** Where the bit that a rotation to the left by [k] puts at [i] comes from, in a
    range of [n] bits from [a] on (std::rotate). *)
Definition rotl_from (a n k i : Z) : Z :=
  if i + k <? a + n then i + k else i + k - n.
