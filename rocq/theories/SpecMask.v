(** Vocabulary for rotate within one word of 128 bits on a machine with its own results for
    shifts by 64 or more (/repo/include/bitlib/bit-algorithms/rotate.hpp:224). *)
From Coq Require Import ZArith.
Open Scope Z_scope.

(** [x << c] of an unsigned long long on a machine whose result of a shift by 64 or more is
    [o true x c]. *)
Definition machine_shl (o : bool -> Z -> Z -> Z) (x c : Z) : Z :=
  (if c <? 64 then x * 2 ^ c else o true x c) mod 2 ^ 64.

(** ((1ULL << len) - 1) << pos on that machine. *)
Definition machine_mask (o : bool -> Z -> Z -> Z) (pos len : Z) : Z :=
  machine_shl o ((machine_shl o 1 len - 1) mod 2 ^ 64) pos.

(** Whether the machine gets the mask of a range of [len] bits from bit [pos] of a word on,
    if it needs one: for words of at most 64 bits it does; for wider ones if the range is
    not inside one word, or is the whole word, or is in the low 64 bits and not all of them;
    if it is all of them, when the machine shifts the one out. *)
Definition machine_fits (o : bool -> Z -> Z -> Z) (w pos len : Z) : Prop :=
  w <= 64 \/ w < pos + len \/ len = w \/
  pos + len <= 64 /\ (len < 64 \/ o true 1 64 mod 2 ^ 64 = 0).
