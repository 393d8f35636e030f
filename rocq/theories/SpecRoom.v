(** Vocabulary for the theorems about the storage of bulk insertions
    (/repo/include/bitlib/bit-containers/bit_vector.hpp:521-565), which is computed
    in single precision. *)
From Coq Require Import ZArith Bool.
Open Scope Z_scope.

(** The float nearest to the integer [n]: a float has 24 significant bits, so it
    is [n] itself below 2^24, and otherwise the nearest multiple of 2^k, where 2^k
    is the unit of the last of the 24 bits; of two nearest ones, the even multiple
    (IEEE 754, used in bit_vector.hpp:532-535 and 555-558). *)
Definition rounds (n f : Z) : Prop :=
  (n < 2 ^ 24 /\ f = n) \/
  exists k q, 0 <= k /\ 2 ^ (23 + k) <= n < 2 ^ (24 + k) /\ f = q * 2 ^ k /\
    2 * Z.abs (n - f) <= 2 ^ k /\ (2 * Z.abs (n - f) = 2 ^ k -> Z.even q = true).

(** The storage has [s] bits after a bulk insertion into a storage of [cap] bits
    that needs [n] bits in all: both numbers are rounded; the rounded difference,
    if positive, is what is added, in whole words of [w] bits (bit_vector.hpp:532-537 and
    555-560). *)
Definition new_room (w cap n s : Z) : Prop :=
  exists a t, rounds cap a /\ rounds n t /\
    ((t <= a /\ s = cap) \/
     (a < t /\ exists x, rounds (t - a) x /\ x < 2 ^ 32 /\ (w | s) /\ cap + x <= s < cap + x + w)).

(** The rounded difference is no unsigned int (bit_vector.hpp:535, 558). *)
Definition too_much_room (cap n : Z) : Prop :=
  exists a t x, rounds cap a /\ rounds n t /\ a < t /\ rounds (t - a) x /\ 2 ^ 32 <= x.
