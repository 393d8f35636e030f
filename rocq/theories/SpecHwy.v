(** Specification vocabulary for the BITLIB_HWY build. *)
From Coq Require Import ZArith.
From Verif Require Import HwyModel.
Open Scope Z_scope.

(** The vectors are at most 64 bytes long and 64 bytes are a whole number of
    them, as on SSE, AVX2, AVX-512 and NEON. The code aligns to 64 bytes
    (bit-algorithms/fill.hpp:66, find.hpp:68, transform.hpp:86,
    shift.hpp:188, 323). *)
Definition vector_fits (h : simd_unit) (w : Z) : Prop :=
  0 < lanes h /\ 512 mod (lanes h * w) = 0.
