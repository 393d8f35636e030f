(** Vocabulary for the theorems about the capacity of bit_vector
    (/repo/include/bitlib/bit-containers/bit_vector.hpp:475-495). *)
From Coq Require Import ZArith Bool List.
From Verif Require Import Base Spec VecModel CapModel SpecVec.
Import ListNotations.
Open Scope Z_scope.

(** What [std.vector] asks of an implementation: a new buffer has the room it is made
    for, and its bits can be counted in size_t (bit_vector.hpp:487-489). *)
Definition growth_ok (w : Z) (g : growth) : Prop :=
  (forall c, c * w <= max_bits -> c < g_push g c /\ g_push g c * w < 2 ^ 64) /\
  (forall s c n, n * w <= max_bits -> n <= g_other g s c n /\ g_other g s c n * w < 2 ^ 64).

(** push_back takes amortised constant time: a full buffer is replaced by one of at
    least twice the size ([vector.modifiers]). *)
Definition doubles (g : growth) : Prop := forall c, 2 * c <= g_push g c.

(** A vector with a buffer that holds its words and whose bits can be counted in
    size_t (bit_vector.hpp:39-40, 486-490). *)
Definition cap_ok (w : Z) (c : cvec) : Prop :=
  vec_ok w (fst c) /\ zlen (vwords (fst c)) <= bcap (snd c) /\ bcap (snd c) * w < 2 ^ 64.

(** The call does not ask for another buffer by itself: it is no shrink_to_fit and
    no move assignment, reserves at most [n] bits and assigns at most so many words as
    have [n] bits (bit_vector.hpp:132, 343-350, 481-484, 492-495). *)
Definition asks_at_most (w n : Z) (o : vop) : Prop :=
  match o with
  | OpShrinkToFit | OpMoveAssign _ => False
  | OpReserve r => 0 <= r <= n
  | OpAssign other => zlen (vwords other) * w <= n
  | _ => True
  end.

(** At most [n] bits after every call of the history. *)
Fixpoint stays_within (w n : Z) (l : list bool) (os : list vop) : Prop :=
  match os with
  | [] => True
  | o :: os' => asks_at_most w n o /\ zlen (snd (vspec w l o)) <= n /\
                stays_within w n (snd (vspec w l o)) os'
  end.

(** The history adds bits only one at a time. *)
Definition one_at_a_time (o : vop) : Prop :=
  match o with
  | OpInsertN _ _ _ | OpInsertRange _ _ _ _ | OpReserve _ | OpShrinkToFit
  | OpAssign _ | OpMoveAssign _ => False
  | _ => True
  end.
