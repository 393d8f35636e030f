(** Properties C01 to C04: bit iterators. *)
From Coq Require Import ZArith Bool List Lia.
From Verif Require Import Base WordOps IterModel RefModel Spec Demo ProofBase ProofIter ProofRef.
Import ListNotations.
Open Scope Z_scope.

(** C01. [it + n] and [it - n] are exact for every n for which
    position +/- n fits ptrdiff_t; the constructor's assertion never fires. *)
Theorem C01_iterator_plus : forall w it n,
  valid_w w -> valid_it w it -> - 2 ^ 63 <= ip it + n < 2 ^ 63 ->
  exists r, iadd w it n = Ok r /\ 0 <= ip r < w /\
    ib r * w + ip r = (ib it * w + ip it) + n.
Proof. exact iadd_exact. Qed.
Print Assumptions C01_iterator_plus.

Example C01_iterator_plus_example :
  valid_w 16 /\ valid_it 16 (It 5 3) /\ - 2 ^ 63 <= 3 + -100 < 2 ^ 63 /\
  iadd 16 (It 5 3) (-100) = Ok (It (-2) 15).
Proof. demo. Qed.

Theorem C01_iterator_minus : forall w it n,
  valid_w w -> valid_it w it -> - 2 ^ 63 <= ip it - n < 2 ^ 63 ->
  exists r, isub w it n = Ok r /\ 0 <= ip r < w /\
    ib r * w + ip r = (ib it * w + ip it) - n.
Proof. exact isub_exact. Qed.
Print Assumptions C01_iterator_minus.

Example C01_iterator_minus_example :
  valid_w 64 /\ valid_it 64 (It 0 0) /\ - 2 ^ 63 <= 0 - 1 < 2 ^ 63 /\
  isub 64 (It 0 0) 1 = Ok (It (-1) 63).
Proof. demo. Qed.

(** [it[n]] designates the same bit as [*(it + n)]: the word address and the
    one-bit mask of the reference. *)
Theorem C01_iterator_subscript : forall p w it n,
  valid_w w -> valid_it w it -> - 2 ^ 63 <= ip it + n < 2 ^ 63 ->
  exists r, iadd w it n = Ok r /\
    iindex p w it n = Ok (Ref (ib r) (2 ^ ip r)) /\
    ideref p w r = Ok (Ref (ib r) (2 ^ ip r)).
Proof. exact iindex_deref. Qed.
Print Assumptions C01_iterator_subscript.

Example C01_iterator_subscript_example :
  valid_w 8 /\ valid_it 8 (It 2 7) /\ - 2 ^ 63 <= 7 + 4 < 2 ^ 63 /\
  iindex Strict17 8 (It 2 7) 4 = Ok (Ref 3 8).
Proof. demo. Qed.

(** C02. Difference and comparisons. *)
Theorem C02_iterator_difference : forall w l r,
  valid_w w -> valid_it w l -> valid_it w r ->
  - 2 ^ 63 + w <= addr w l - addr w r < 2 ^ 63 - w ->
  idiff w l r = Ok (addr w l - addr w r).
Proof. exact idiff_full. Qed.
Print Assumptions C02_iterator_difference.

Example C02_iterator_difference_example :
  valid_w 32 /\ valid_it 32 (It 1 3) /\ valid_it 32 (It 9 31) /\
  - 2 ^ 63 + 32 <= addr 32 (It 1 3) - addr 32 (It 9 31) < 2 ^ 63 - 32 /\
  idiff 32 (It 1 3) (It 9 31) = Ok (-284).
Proof. demo. Qed.

Theorem C02_iterator_comparisons : forall w l r,
  valid_w w -> valid_it w l -> valid_it w r ->
  (ieq l r = true <-> addr w l = addr w r) /\
  (ine l r = true <-> addr w l <> addr w r) /\
  (ilt l r = true <-> addr w l < addr w r) /\
  (ile l r = true <-> addr w l <= addr w r) /\
  (igt l r = true <-> addr w l > addr w r) /\
  (ige l r = true <-> addr w l >= addr w r).
Proof. exact comparisons_addr. Qed.
Print Assumptions C02_iterator_comparisons.

Example C02_iterator_comparisons_example :
  valid_w 8 /\ valid_it 8 (It 2 7) /\ valid_it 8 (It 3 0) /\
  ilt (It 2 7) (It 3 0) = true /\ ige (It 2 7) (It 3 0) = false.
Proof. demo. Qed.

(** [(it + n) - it == n] and [(a - b) + b == a]. *)
Theorem C02_difference_inverts_plus : forall w it n r,
  valid_w w -> valid_it w it -> - 2 ^ 63 + w <= n < 2 ^ 63 - w ->
  iadd w it n = Ok r -> idiff w r it = Ok n.
Proof. exact idiff_iadd. Qed.
Print Assumptions C02_difference_inverts_plus.

Example C02_difference_inverts_plus_example :
  valid_w 64 /\ valid_it 64 (It 7 60) /\ - 2 ^ 63 + 64 <= -1000 < 2 ^ 63 - 64 /\
  iadd 64 (It 7 60) (-1000) = Ok (It (-8) 20).
Proof. demo. Qed.

Theorem C02_plus_inverts_difference : forall w a b,
  valid_w w -> valid_it w a -> valid_it w b ->
  - 2 ^ 63 + w <= addr w a - addr w b < 2 ^ 63 - w ->
  exists n, idiff w a b = Ok n /\ iadd w b n = Ok a.
Proof. exact iadd_idiff. Qed.
Print Assumptions C02_plus_inverts_difference.

Example C02_plus_inverts_difference_example :
  valid_w 16 /\ valid_it 16 (It 4 1) /\ valid_it 16 (It 2 9) /\
  - 2 ^ 63 + 16 <= addr 16 (It 4 1) - addr 16 (It 2 9) < 2 ^ 63 - 16 /\
  idiff 16 (It 4 1) (It 2 9) = Ok 24.
Proof. demo. Qed.

(** bit::distance is the difference for ordered arguments; for reversed ones
    the range assertion fires (the comment in the source announces a negative
    result instead). *)
Theorem C02_distance : forall w a b,
  valid_w w -> valid_it w a -> valid_it w b ->
  - 2 ^ 63 + w <= addr w b - addr w a < 2 ^ 63 - w ->
  distance w a b =
  if addr w a <=? addr w b then Ok (addr w b - addr w a) else Assert.
Proof. exact distance_cases. Qed.
Print Assumptions C02_distance.

Example C02_distance_example :
  valid_w 8 /\ valid_it 8 (It 1 1) /\ valid_it 8 (It 3 0) /\
  - 2 ^ 63 + 8 <= addr 8 (It 3 0) - addr 8 (It 1 1) < 2 ^ 63 - 8 /\
  distance 8 (It 1 1) (It 3 0) = Ok 15 /\ distance 8 (It 3 0) (It 1 1) = Assert.
Proof. demo. Qed.

(** C03. ++ and --. *)
Theorem C03_unit_steps : forall w it, valid_w w -> valid_it w it ->
  valid_it w (iinc w it) /\ addr w (iinc w it) = addr w it + 1 /\
  valid_it w (idec w it) /\ addr w (idec w it) = addr w it - 1 /\
  idec w (iinc w it) = it /\ iinc w (idec w it) = it /\
  ipostinc w it = (it, iinc w it) /\ ipostdec w it = (it, idec w it).
Proof. exact unit_steps. Qed.
Print Assumptions C03_unit_steps.

Example C03_unit_steps_example :
  valid_w 8 /\ valid_it 8 (It 4 7) /\ iinc 8 (It 4 7) = It 5 0 /\
  idec 8 (It 4 0) = It 3 7.
Proof. demo. Qed.

Theorem C03_repeated_steps : forall w it n, valid_w w -> valid_it w it ->
  Z.of_nat n < 2 ^ 63 - w ->
  iadd w it (Z.of_nat n) = Ok (Nat.iter n (iinc w) it) /\
  isub w it (Z.of_nat n) = Ok (Nat.iter n (idec w) it).
Proof. exact repeated_steps. Qed.
Print Assumptions C03_repeated_steps.

Example C03_repeated_steps_example :
  valid_w 8 /\ valid_it 8 (It 4 7) /\ Z.of_nat 11 < 2 ^ 63 - 8 /\
  Nat.iter 11 (iinc 8) (It 4 7) = It 6 2 /\
  Nat.iter 11 (idec 8) (It 4 7) = It 3 4.
Proof. demo. Qed.

(** C04. is_within<N> for every N (the template recursion is at most N / digits
    deep), its instance N = digits and the run-time version. *)
Theorem C04_is_within : forall w n first last fuel,
  valid_w w -> valid_it w first -> valid_it w last -> 0 <= n ->
  0 <= addr w last - addr w first -> n / w < Z.of_nat fuel ->
  is_within_ct w fuel n first last = Ok (addr w last - addr w first <=? n).
Proof. exact is_within_any. Qed.
Print Assumptions C04_is_within.

Example C04_is_within_example :
  valid_w 8 /\ valid_it 8 (It 0 5) /\ valid_it 8 (It 2 6) /\ 0 <= 17 /\
  0 <= addr 8 (It 2 6) - addr 8 (It 0 5) /\ 17 / 8 < Z.of_nat 3 /\
  is_within_ct 8 3 17 (It 0 5) (It 2 6) = Ok true /\
  is_within_ct 8 3 16 (It 0 5) (It 2 6) = Ok false.
Proof. demo. Qed.

Theorem C04_is_within_digits : forall w first last,
  valid_w w -> valid_it w first -> valid_it w last ->
  0 <= addr w last - addr w first ->
  is_within w first last = Ok (addr w last - addr w first <=? w).
Proof. exact is_within_eq. Qed.
Print Assumptions C04_is_within_digits.

Example C04_is_within_digits_example :
  valid_w 8 /\ valid_it 8 (It 0 5) /\ valid_it 8 (It 1 6) /\
  0 <= addr 8 (It 1 6) - addr 8 (It 0 5) /\
  is_within 8 (It 0 5) (It 1 6) = Ok false /\
  is_within 8 (It 0 5) (It 1 5) = Ok true.
Proof. demo. Qed.

Theorem C04_is_within_runtime : forall w n first last,
  valid_w w -> valid_it w first -> valid_it w last ->
  0 <= addr w last - addr w first < 2 ^ 63 - w ->
  is_within_rt w first last n = Ok (addr w last - addr w first <=? n).
Proof. exact is_within_rt_eq. Qed.
Print Assumptions C04_is_within_runtime.

Example C04_is_within_runtime_example :
  valid_w 8 /\ valid_it 8 (It 0 5) /\ valid_it 8 (It 1 6) /\
  0 <= addr 8 (It 1 6) - addr 8 (It 0 5) < 2 ^ 63 - 8 /\
  is_within_rt 8 (It 0 5) (It 1 6) 9 = Ok true.
Proof. demo. Qed.
