(** Vocabulary for the pointers that the loops with vectors form. *)
From Coq Require Import ZArith Bool List.
From Verif Require Import Base HwyModel VecModel SpecVec.
Import ListNotations.
Open Scope Z_scope.

(** Word number [a] of the memory, or the end of the array behind word [a - 1]:
    the only places a pointer may point to under the rules of the language
    ([expr.add] 4). *)
Definition may_be_formed (m : mem) (a : Z) : Prop := m a <> None \/ m (a - 1) <> None.

(** Word [a] begins at a multiple of 64 bytes. *)
Definition at_64 (h : simd_unit) (w a : Z) : Prop := byte_addr h w a mod 64 = 0.

(** The words whose addresses are looked at while a vector that ends at word
    [last] is moved down until it begins at a multiple of 64 bytes, at most
    until the source, which ends in word [middle], is down to [first]. *)
Definition looked_at (h : simd_unit) (w first middle last a : Z) : Prop :=
  exists j, 0 <= j /\ a = last - j - lanes h /\ first < middle - j - 1 /\
    forall i, 0 <= i < j -> ~ at_64 h w (last - i - lanes h).

(** An insertion of [c] bits at bit [i] of a bit_vector that makes its length [n] looks
    at no word in front of the storage. *)
Definition inserts_inside (h : simd_unit) (w i c n : Z) : Prop :=
  c mod w <> 0 -> forall a, looked_at h w (i / w) ((n / w * w - c) / w) (n / w) a -> 0 <= a.

(** The same of a call on a vector with the bits [l]; every call but the three
    insertions is allowed. *)
Definition call_inside (h : simd_unit) (w : Z) (l : list bool) (o : vop) : Prop :=
  match o with
  | OpInsert i _ => inserts_inside h w i 1 (zlen l + 1)
  | OpInsertN i c _ => inserts_inside h w i c (zlen l + c)
  | OpInsertRange i _ j k => inserts_inside h w i (k - j) (zlen l + (k - j))
  | _ => True
  end.

(** A history of calls, each with the place of the storage during the call. *)
Fixpoint calls_inside (n w : Z) (l : list bool) (os : list (Z * vop)) : Prop :=
  match os with
  | [] => True
  | (place, o) :: os' =>
    call_inside (Unit n place) w l o /\ calls_inside n w (snd (vspec w l o)) os'
  end.

(** The shift to the right with which rotate ends, as its first bit, its end and its
    distance, for [l] bits from bit [a] on in front of n_first and [r] behind it. As
    long as both parts are longer than a word the shorter one is moved past the longer
    one, which leaves a rotation of as many bits; a part that fits a word is moved by
    shifting the other one (rotate.hpp:127-180). [fuel] as in [quotients_fit]. *)
Fixpoint last_shift (fuel : nat) (w a l r : Z) : option (Z * Z * Z) :=
  match fuel with
  | O => None
  | S f =>
    if l <? r then
      if (l <=? w) || (r mod l =? 0) then None
      else last_shift f w (a + r) (l - r mod l) (r mod l)
    else if r <=? w then Some (a, a + l + r, r)
    else if l mod r =? 0 then None
    else last_shift f w a (l mod r) (r - l mod r)
  end.

(** The same of a call: when the bits in front of n_first fit a word they are moved by a
    shift to the left (rotate.hpp:236). *)
Definition rotate_shift (w a l r : Z) : option (Z * Z * Z) :=
  if l <=? w then None else last_shift 64 w a l r.
