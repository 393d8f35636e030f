(** Specification vocabulary for C66: what a machine supports, by the bits the
    processor manuals define, read with [Z.testbit]. *)
From Coq Require Import ZArith Bool.
From Verif Require Import CpuModel.
Open Scope Z_scope.

(** The operating system saves the registers named by bit [i] of XCR0. *)
Definition os_saves (m : machine) (i : Z) : Prop :=
  Z.testbit (ecx m 1) 27 = true /\ Z.testbit (xcr0 m) i = true.

(** The popcnt instruction: leaf 1, ecx bit 23. *)
Definition supports_popcnt (m : machine) : Prop := Z.testbit (ecx m 1) 23 = true.

(** AVX2: leaf 7, ebx bit 5, with the SSE and YMM state saved. *)
Definition supports_avx2 (m : machine) : Prop :=
  7 <= max_leaf m /\ Z.testbit (ebx m 7) 5 = true /\ os_saves m 1 /\ os_saves m 2.

(** AVX512BW: leaf 7, ebx bit 30, with the SSE, YMM, opmask and both ZMM states
    saved. *)
Definition supports_avx512 (m : machine) : Prop :=
  7 <= max_leaf m /\ Z.testbit (ebx m 7) 30 = true /\
  os_saves m 1 /\ os_saves m 2 /\ os_saves m 5 /\ os_saves m 6 /\ os_saves m 7.

(** The program was compiled for this machine or a weaker one: what the
    compiler was told to use is there. *)
Definition runs_on (c : macros) (m : machine) : Prop :=
  (d_popcnt c = true -> supports_popcnt m) /\
  (d_avx2 c = true -> supports_avx2 m) /\
  (d_avx512 c = true -> supports_avx512 m).
