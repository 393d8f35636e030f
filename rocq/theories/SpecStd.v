(** Vocabulary for the comparison of the algorithms of
    /repo/include/bitlib/bit-algorithms with those of the standard library. *)
From Coq Require Import ZArith.
From Verif Require Import Base Spec.
Open Scope Z_scope.

(** Run from the same memory, both calls return, with the same value and the same
    memory ("Same behavior as std::reverse", README.md:20). *)
Definition agree {A : Type} (c1 c2 : M A) (m : mem) : Prop :=
  exists v m1 m2, c1 m = Ok (v, m1) /\ c2 m = Ok (v, m2) /\ forall a, m1 a = m2 a.

(** The same, but for the bits numbered from lo up to hi, which the standard leaves
    "in a valid but unspecified state" (std::shift_left, std::shift_right). *)
Definition agree_but {A : Type} (w lo hi : Z) (c1 c2 : M A) (m : mem) : Prop :=
  exists v m1 m2, c1 m = Ok (v, m1) /\ c2 m = Ok (v, m2) /\ same_dom m1 m2 /\
    forall i, i < lo \/ hi <= i -> bit w m1 i = bit w m2 i.
