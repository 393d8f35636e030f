(** Property C40: libpopcnt.h. The buffer is a memory of bytes ([bit 8 rd] is a
    bit of it); only the bytes of the buffer are known to be readable, so [Ok]
    also says that no other byte is read. *)
From Coq Require Import ZArith Bool List Lia.
From Verif Require Import Base WordOps IterModel PopcntModel Spec Demo ProofPopcntTop.
Import ListNotations.
Open Scope Z_scope.

Theorem C40_popcount64 : forall x, 0 <= x < 2 ^ 64 ->
  popcount64 x = count_true (Z.testbit x) 0 64.
Proof. exact popcount64_ok. Qed.
Print Assumptions C40_popcount64.

Example C40_popcount64_example :
  0 <= 81985529216486895 < 2 ^ 64 /\ popcount64 81985529216486895 = 32 /\
  count_true (Z.testbit 81985529216486895) 0 64 = 32 /\
  popcount64 18446744073709551615 = 64.
Proof. demo. Qed.

(** x86, whatever instruction sets the CPU has: AVX512, AVX2, POPCNT or none. *)
Theorem C40_popcnt_x86 : forall c rd a size,
  wf_mem 8 rd -> 0 <= size < 2 ^ 61 ->
  (forall b, a <= b < a + size -> rd b <> None) ->
  popcnt (X86 c) rd a size =
  Ok (count_true (bit 8 rd) (8 * a) (Z.to_nat (8 * size))).
Proof. exact popcnt_x86_all. Qed.
Print Assumptions C40_popcnt_x86.

(** Buffers long enough for the vector loops and their tails. *)
Example C40_popcnt_x86_example :
  let rd := fun b => if (3 <=? b) && (b <? 1032) then Some (b mod 251) else None in
  wf_mem 8 rd /\ (forall b, 3 <= b < 3 + 1029 -> rd b <> None) /\
  popcnt (X86 (Cpu true true true)) rd 3 1029 = Ok 4018 /\
  popcnt (X86 (Cpu false true false)) rd 3 517 = Ok 2011 /\
  popcnt (X86 (Cpu false false true)) rd 3 37 = Ok 98 /\
  popcnt (X86 (Cpu true false false)) rd 3 37 = Ok 98.
Proof.
  cbv zeta. split; [|split; [|vm_compute; intuition congruence]].
  - intros b x. destruct ((3 <=? b) && (b <? 1032)); [|discriminate].
    intros H. injection H as <-. pose proof (Z.mod_pos_bound b 251). lia.
  - intros b Hb. destruct (Z.leb_spec 3 b); [|lia].
    destruct (Z.ltb_spec b 1032); [discriminate|lia].
Qed.

(** ARM with unaligned loads. *)
Theorem C40_popcnt_neon : forall rd a size,
  wf_mem 8 rd -> 0 <= size < 2 ^ 61 ->
  (forall b, a <= b < a + size -> rd b <> None) ->
  popcnt (Neon true) rd a size =
  Ok (count_true (bit 8 rd) (8 * a) (Z.to_nat (8 * size))).
Proof. exact popcnt_neon_all. Qed.
Print Assumptions C40_popcnt_neon.

(** A block of 64 bytes and a rest of 13. *)
Example C40_popcnt_neon_example :
  let rd := fun b => if (3 <=? b) && (b <? 80) then Some 255 else None in
  wf_mem 8 rd /\ (forall b, 3 <= b < 3 + 77 -> rd b <> None) /\
  popcnt (Neon true) rd 3 77 = Ok 616.
Proof.
  cbv zeta. split; [|split; [|vm_compute; intuition congruence]].
  - intros b x. destruct ((3 <=? b) && (b <? 80)); [|discriminate].
    intros H. injection H as <-. lia.
  - intros b Hb. destruct (Z.leb_spec 3 b); [|lia].
    destruct (Z.ltb_spec b 80); [discriminate|lia].
Qed.

(** Targets on which the reads are aligned first. Missing: buffers with fewer
    bytes after the last multiple of eight than the alignment skips, for which
    the claim is false (C40_popcnt_aligned_overread). *)
Theorem C40_popcnt_aligned_partial : forall t rd a size,
  t = Generic \/ t = Neon false ->
  wf_mem 8 rd -> 0 <= size < 2 ^ 61 ->
  (forall b, a <= b < a + size -> rd b <> None) ->
  size < 8 \/ (- a) mod 8 <= size mod 8 \/ (t = Neon false /\ size mod 64 < 8) ->
  popcnt t rd a size =
  Ok (count_true (bit 8 rd) (8 * a) (Z.to_nat (8 * size))).
Proof. exact popcnt_aligned. Qed.
Print Assumptions C40_popcnt_aligned_partial.

Example C40_popcnt_aligned_partial_example :
  let rd := fun b => if (3 <=? b) && (b <? 104) then Some (b mod 251) else None in
  wf_mem 8 rd /\ (forall b, 3 <= b < 3 + 101 -> rd b <> None) /\
  (101 < 8 \/ (- (3)) mod 8 <= 101 mod 8) /\
  popcnt Generic rd 3 101 = Ok 330 /\ popcnt (Neon false) rd 3 101 = Ok 330.
Proof.
  cbv zeta. split; [|split; [|split; [|vm_compute; intuition congruence]]].
  - intros b x. destruct ((3 <=? b) && (b <? 104)); [|discriminate].
    intros H. injection H as <-. pose proof (Z.mod_pos_bound b 251). lia.
  - intros b Hb. destruct (Z.leb_spec 3 b); [|lia].
    destruct (Z.ltb_spec b 104); [discriminate|lia].
  - right. vm_compute. discriminate.
Qed.

(** Every other buffer that is followed by unreadable memory is overrun. *)
Theorem C40_popcnt_aligned_overread : forall t rd a size,
  (t = Generic /\ 8 <= size) \/ (t = Neon false /\ 8 <= size mod 64) ->
  wf_mem 8 rd -> 0 <= size < 2 ^ 61 ->
  (forall b, a <= b < a + size -> rd b <> None) ->
  size mod 8 < (- a) mod 8 -> rd (a + size) = None ->
  popcnt t rd a size = UB OutOfBounds.
Proof. exact popcnt_aligned_overread. Qed.
Print Assumptions C40_popcnt_aligned_overread.

Theorem C40_popcnt_aligned_refuted : exists t rd a size,
  wf_mem 8 rd /\ 0 <= size < 2 ^ 61 /\
  (forall b, a <= b < a + size -> rd b <> None) /\
  popcnt t rd a size <> Ok (count_true (bit 8 rd) (8 * a) (Z.to_nat (8 * size))).
Proof. exact popcnt_aligned_refuted. Qed.
Print Assumptions C40_popcnt_aligned_refuted.

(** Even where the memory behind the buffer can be read the count is wrong: the
    nine bytes at address 1, of which the last is 0, are followed by bytes 255. *)
Example C40_popcnt_aligned_overread_example :
  let rd := fun b => if (1 <=? b) && (b <? 10) then Some 0
                     else if (10 <=? b) && (b <? 40) then Some 255 else None in
  (forall b, 1 <= b < 1 + 9 -> rd b <> None) /\ 9 mod 8 < (- (1)) mod 8 /\
  popcnt Generic rd 1 9 = Ok 48 /\
  popcnt Generic (fun b => if (1 <=? b) && (b <? 10) then Some 0 else None) 1 9 =
    UB OutOfBounds.
Proof.
  cbv zeta. split; [|vm_compute; intuition congruence].
  intros b Hb. destruct (Z.leb_spec 1 b); [|lia].
  destruct (Z.ltb_spec b 10); [discriminate|lia].
Qed.
