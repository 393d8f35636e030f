(** Property C66: which instructions libpopcnt uses on an x86 machine. [select c m]
    is the choice made by a program compiled with the macros [c] on the machine
    [m]; SpecCpu says what a machine supports. *)
From Coq Require Import ZArith Bool List Lia.
From Verif Require Import Base WordOps IterModel PopcntModel Spec CpuModel SpecCpu ProofCpu.
Import ListNotations.
Open Scope Z_scope.

(** Every build compiles, and the check itself executes no instruction that the
    machine lacks. *)
Theorem C66_total : forall c m, exists k, select c m = Ok (Some k).
Proof. exact select_total. Qed.
Print Assumptions C66_total.

(** On a machine with neither OSXSAVE nor anything else, where xgetbv is invalid. *)
Example C66_total_example :
  get_xcr0 (Machine 1 (fun _ => 0) (fun _ => 0) 0) = UB BadUse /\
  select (Macros true true true false false false) (Machine 1 (fun _ => 0) (fun _ => 0) 0)
  = Ok (Some (Cpu false false false)).
Proof. split; vm_compute; reflexivity. Qed.

(** An instruction set that is used is supported, by the processor and by the
    operating system. *)
Theorem C66_sound : forall c m k, 7 <= max_leaf m -> runs_on c m ->
  select c m = Ok (Some k) ->
  (has_avx512 k = true -> supports_avx512 m) /\
  (has_avx2 k = true -> supports_avx2 m) /\
  (has_popcnt k = true -> supports_popcnt m).
Proof. exact select_sound. Qed.
Print Assumptions C66_sound.

(** A processor with AVX512BW under a system that saves YMM but not ZMM. *)
Example C66_sound_example :
  let c := Macros true true true true false false in
  let m := Machine 13 (fun l => if l =? 7 then 2 ^ 5 + 2 ^ 30 else 0)
             (fun l => if l =? 1 then 2 ^ 23 + 2 ^ 27 else 0) 7 in
  7 <= max_leaf m /\ runs_on c m /\
  select c m = Ok (Some (Cpu false true true)) /\
  supports_avx2 m /\ ~ supports_avx512 m.
Proof.
  cbv zeta. split; [cbn; lia|]. split; [split; [|split]; intros H; try discriminate H; reflexivity|].
  split; [vm_compute; reflexivity|]. split.
  - unfold supports_avx2, os_saves. cbn; repeat split; lia.
  - unfold supports_avx512, os_saves. intros H. decompose [and] H. discriminate.
Qed.

(** A build that can use all three sets uses what the machine supports; the popcnt
    instruction only if OSXSAVE is set. *)
Theorem C66_complete : forall c m k, 7 <= max_leaf m ->
  have_avx512 c = true -> have_avx2 c = true -> have_popcnt c = true ->
  select c m = Ok (Some k) ->
  (supports_avx512 m -> has_avx512 k = true) /\
  (supports_avx2 m -> has_avx2 k = true) /\
  (supports_popcnt m -> Z.testbit (ecx m 1) 27 = true -> has_popcnt k = true).
Proof. exact select_complete. Qed.
Print Assumptions C66_complete.

Example C66_complete_example :
  let c := Macros true true true false false false in
  let m := Machine 13 (fun l => if l =? 7 then 2 ^ 5 + 2 ^ 30 else 0)
             (fun l => if l =? 1 then 2 ^ 23 + 2 ^ 27 else 0) 231 in
  7 <= max_leaf m /\ select c m = Ok (Some (Cpu true true true)) /\ supports_avx512 m.
Proof.
  cbv zeta. split; [cbn; lia|]. split; [vm_compute; reflexivity|].
  unfold supports_avx512, os_saves. cbn; repeat split; lia.
Qed.

(** Without the restriction to OSXSAVE the last part is false: get_cpuid returns 0,
    not the flags it has, so popcnt is not used on a machine that has it. *)
Theorem C66_popcnt_refuted : exists c m,
  7 <= max_leaf m /\ have_popcnt c = true /\ supports_popcnt m /\
  select c m = Ok (Some (Cpu false false false)).
Proof. exact select_loses_popcnt. Qed.
Print Assumptions C66_popcnt_refuted.

(** The same machine and a build without the vector code, which does use popcnt. *)
Example C66_popcnt_refuted_example :
  let m := Machine 7 (fun _ => 0) (fun l => if l =? 1 then 2 ^ 23 else 0) 0 in
  select (Macros true true true false false false) m = Ok (Some (Cpu false false false)) /\
  select (Macros true false false false false false) m = Ok (Some (Cpu false false true)).
Proof. split; vm_compute; reflexivity. Qed.

(** Without [7 <= max_leaf] soundness is false: get_cpuid does not ask how many
    leaves there are, and a missing leaf answers with the bits of another. *)
Theorem C66_leaf_refuted : exists c m k,
  runs_on c m /\ select c m = Ok (Some k) /\
  has_avx2 k = true /\ ~ supports_avx2 m.
Proof. exact select_old_leaf. Qed.
Print Assumptions C66_leaf_refuted.

(** A machine whose highest leaf is 2; the same bits with leaf 7 present. *)
Example C66_leaf_refuted_example :
  let c := Macros true true true false false false in
  let m := fun h => Machine h (fun l => if l =? 2 then 2 ^ 5 else 0)
             (fun l => if l =? 1 then 2 ^ 23 + 2 ^ 27 else 0) 7 in
  select c (m 2) = Ok (Some (Cpu false true true)) /\
  select c (m 7) = Ok (Some (Cpu false false true)).
Proof. cbv zeta. split; vm_compute; reflexivity. Qed.

(** Whatever is chosen, the count is the number of set bits of the buffer, and any
    two builds on any two machines agree. *)
Theorem C66_count : forall c m c' m' rd a size,
  wf_mem 8 rd -> 0 <= size < 2 ^ 61 ->
  (forall b, a <= b < a + size -> rd b <> None) ->
  exists k k', select c m = Ok (Some k) /\ select c' m' = Ok (Some k') /\
  popcnt (X86 k) rd a size = popcnt (X86 k') rd a size /\
  popcnt (X86 k) rd a size =
  Ok (count_true (bit 8 rd) (8 * a) (Z.to_nat (8 * size))).
Proof. exact select_counts. Qed.
Print Assumptions C66_count.

(** 600 bytes: the AVX2 loop on one machine, the portable code on the other. *)
Example C66_count_example :
  let c := Macros true true true false false false in
  let m := Machine 13 (fun l => if l =? 7 then 2 ^ 5 else 0)
             (fun l => if l =? 1 then 2 ^ 23 + 2 ^ 27 else 0) 7 in
  let m' := Machine 1 (fun _ => 0) (fun _ => 0) 0 in
  let rd := fun b => if (3 <=? b) && (b <? 603) then Some (b mod 251) else None in
  wf_mem 8 rd /\ (forall b, 3 <= b < 3 + 600 -> rd b <> None) /\
  select c m = Ok (Some (Cpu false true true)) /\
  select c m' = Ok (Some (Cpu false false false)) /\
  popcnt (X86 (Cpu false true true)) rd 3 600 = popcnt (X86 (Cpu false false false)) rd 3 600.
Proof.
  cbv zeta. split; [|split; [|vm_compute; repeat split; reflexivity]].
  - intros b x. destruct ((3 <=? b) && (b <? 603)); [|discriminate].
    intros H. injection H as <-. pose proof (Z.mod_pos_bound b 251). lia.
  - intros b Hb. destruct (Z.leb_spec 3 b); [|lia].
    destruct (Z.ltb_spec b 603); [discriminate|lia].
Qed.
