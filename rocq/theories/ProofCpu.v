(** Proofs for C66. *)
From Coq Require Import ZArith Bool List Lia.
From Verif Require Import Base WordOps IterModel PopcntModel Spec ProofPopcntTop CpuModel SpecCpu.
Import ListNotations.
Open Scope Z_scope.

Lemma has_mask_spec : forall x mask, 0 <= mask ->
  has_mask x mask = true <-> (forall i, 0 <= i -> Z.testbit mask i = true -> Z.testbit x i = true).
Proof.
  intros x mask H. unfold has_mask. rewrite Z.eqb_eq. split.
  - intros E i Hi T. rewrite <- E, Z.land_spec in T. apply andb_prop in T. tauto.
  - intros E. apply Z.bits_inj'. intros i Hi. rewrite Z.land_spec.
    destruct (Z.testbit mask i) eqn:T; [rewrite (E i Hi T); reflexivity|apply andb_false_r].
Qed.

Lemma testbit_pow2 : forall k i, 0 <= k -> Z.testbit (2 ^ k) i = (k =? i).
Proof.
  intros k i Hk. destruct (Z.eqb_spec k i) as [->|N].
  - apply Z.pow2_bits_true. exact Hk.
  - apply Z.pow2_bits_false. exact N.
Qed.

Lemma has_bit : forall x k, 0 <= k -> has_mask x (2 ^ k) = Z.testbit x k.
Proof.
  intros x k Hk. apply eq_true_iff_eq. rewrite has_mask_spec by (apply Z.pow_nonneg; lia).
  split.
  - intros H. apply H; [exact Hk|]. rewrite testbit_pow2 by exact Hk. apply Z.eqb_refl.
  - intros H i Hi T. rewrite testbit_pow2 in T by exact Hk. apply Z.eqb_eq in T. subst i. exact H.
Qed.

(** The bits of the two XCR0 masks. *)
Lemma small_mask : forall mask (P : Z -> Prop), 0 <= mask < 256 ->
  (forall i, 0 <= i -> Z.testbit mask i = true -> P i) <->
  (forall i, 0 <= i < 8 -> Z.testbit mask i = true -> P i).
Proof.
  intros mask P H. split; [intros G i Hi; apply G; lia|].
  intros G i Hi T. apply G; [|exact T]. split; [exact Hi|].
  destruct (Z.lt_ge_cases i 8) as [L|L]; [exact L|]. exfalso.
  destruct (Z.eq_dec mask 0) as [->|N]; [rewrite Z.testbit_0_l in T; discriminate|].
  rewrite Z.bits_above_log2 in T; [discriminate|lia|].
  assert (Z.log2 mask < 8) by (apply Z.log2_lt_pow2; [lia|exact (proj2 H)]). lia.
Qed.

Lemma ymm_spec : forall x, has_mask x ymm_mask = Z.testbit x 1 && Z.testbit x 2.
Proof.
  intros x. apply eq_true_iff_eq. rewrite has_mask_spec by (vm_compute; discriminate).
  rewrite small_mask by (vm_compute; split; [discriminate|reflexivity]). rewrite andb_true_iff. split.
  - intros H. split; apply H; try lia; reflexivity.
  - intros [H1 H2] i Hi T.
    assert (C : i = 0 \/ i = 1 \/ i = 2 \/ i = 3 \/ i = 4 \/ i = 5 \/ i = 6 \/ i = 7) by lia.
    destruct C as [->|[->|[->|[->|[->|[->|[->| ->]]]]]]]; try assumption; discriminate T.
Qed.

Lemma zmm_spec : forall x, has_mask x zmm_mask =
  Z.testbit x 1 && Z.testbit x 2 && (Z.testbit x 5 && Z.testbit x 6 && Z.testbit x 7).
Proof.
  intros x. apply eq_true_iff_eq. rewrite has_mask_spec by (vm_compute; discriminate).
  rewrite small_mask by (vm_compute; split; [discriminate|reflexivity]). rewrite !andb_true_iff. split.
  - intros H. repeat split; apply H; try lia; reflexivity.
  - intros [[H1 H2] [[H5 H6] H7]] i Hi T.
    assert (C : i = 0 \/ i = 1 \/ i = 2 \/ i = 3 \/ i = 4 \/ i = 5 \/ i = 6 \/ i = 7) by lia.
    destruct C as [->|[->|[->|[->|[->|[->|[->| ->]]]]]]]; try assumption; discriminate T.
Qed.

(** The three flags. *)
Definition flags_of (p a2 a5 : bool) : Z :=
  Z.lor (Z.lor (if p then bit_POPCNT else 0) (if a2 then bit_AVX2 else 0))
        (if a5 then bit_AVX512 else 0).

Lemma flags_test : forall p a2 a5,
  negb (Z.land (flags_of p a2 a5) bit_POPCNT =? 0) = p /\
  negb (Z.land (flags_of p a2 a5) bit_AVX2 =? 0) = a2 /\
  negb (Z.land (flags_of p a2 a5) bit_AVX512 =? 0) = a5.
Proof. intros [|] [|] [|]; vm_compute; repeat split. Qed.

Lemma has_popcnt_bit : forall x, has_mask x bit_POPCNT = Z.testbit x 23.
Proof. intros x. apply (has_bit x 23). lia. Qed.

Lemma has_avx2_bit : forall x, has_mask x bit_AVX2 = Z.testbit x 5.
Proof. intros x. apply (has_bit x 5). lia. Qed.

Lemma has_avx512_bit : forall x, has_mask x bit_AVX512 = Z.testbit x 30.
Proof. intros x. apply (has_bit x 30). lia. Qed.

Lemma has_os_bit : forall x, has_mask x osxsave_mask = Z.testbit x 27.
Proof. intros x. apply (has_bit x 27). lia. Qed.

(** What get_cpuid finds, in terms of the bits of the machine. *)
Lemma get_cpuid_flags : forall c m,
  get_cpuid c m = Ok (
    let c1 := ecx m (if 1 <=? max_leaf m then 1 else max_leaf m) in
    let b7 := ebx m (if 7 <=? max_leaf m then 7 else max_leaf m) in
    let v := have_avx2 c || have_avx512 c in
    let os := Z.testbit c1 27 in
    let ymm := v && os && (Z.testbit (xcr0 m) 1 && Z.testbit (xcr0 m) 2) in
    let zmm := ymm && (Z.testbit (xcr0 m) 5 && Z.testbit (xcr0 m) 6 && Z.testbit (xcr0 m) 7) in
    flags_of (Z.testbit c1 23 && (negb v || os)) (ymm && Z.testbit b7 5)
             (zmm && Z.testbit b7 30)).
Proof.
  intros c m. unfold get_cpuid, get_xcr0, run_cpuid. cbv zeta. cbn [fst snd].
  rewrite has_popcnt_bit, !has_os_bit.
  destruct (have_avx2 c || have_avx512 c);
    destruct (Z.testbit (ecx m (if 1 <=? max_leaf m then 1 else max_leaf m)) 27);
    cbn [negb rbind]; rewrite ?ymm_spec, ?zmm_spec, ?has_avx2_bit, ?has_avx512_bit;
    destruct (Z.testbit (ecx m (if 1 <=? max_leaf m then 1 else max_leaf m)) 23);
    destruct (Z.testbit (xcr0 m) 1 && Z.testbit (xcr0 m) 2); try reflexivity;
    destruct (Z.testbit (xcr0 m) 5 && Z.testbit (xcr0 m) 6 && Z.testbit (xcr0 m) 7);
    destruct (Z.testbit (ebx m (if 7 <=? max_leaf m then 7 else max_leaf m)) 5);
    destruct (Z.testbit (ebx m (if 7 <=? max_leaf m then 7 else max_leaf m)) 30); reflexivity.
Qed.

(** The selection always compiles and never faults. *)
Lemma select_total : forall c m, exists k, select c m = Ok (Some k).
Proof.
  intros c m. unfold select, have_cpuid. rewrite get_cpuid_flags.
  destruct c as [hp h2 h5 dp d2 d5]. unfold chosen.
  cbn [have_popcnt have_avx2 have_avx512 d_popcnt d_avx2 d_avx512].
  destruct hp, h2, h5, dp, d2, d5; cbn [negb andb orb rbind]; eexists; reflexivity.
Qed.

(** The selection, in terms of the bits. *)
Lemma select_bits : forall c m k, 1 <= max_leaf m -> select c m = Ok (Some k) ->
  let b7 := ebx m (if 7 <=? max_leaf m then 7 else max_leaf m) in
  let v := have_avx2 c || have_avx512 c in
  let os := Z.testbit (ecx m 1) 27 in
  let ymm := os && (Z.testbit (xcr0 m) 1 && Z.testbit (xcr0 m) 2) in
  let zmm := ymm && (Z.testbit (xcr0 m) 5 && Z.testbit (xcr0 m) 6 && Z.testbit (xcr0 m) 7) in
  has_avx512 k = have_avx512 c && (d_avx512 c || zmm && Z.testbit b7 30) /\
  has_avx2 k = have_avx2 c && (d_avx2 c || ymm && Z.testbit b7 5) /\
  has_popcnt k = have_popcnt c && (d_popcnt c || Z.testbit (ecx m 1) 23 && (negb v || os)).
Proof.
  intros c m k H1. unfold select. rewrite get_cpuid_flags. cbv zeta.
  destruct (Z.leb_spec 1 (max_leaf m)) as [_|C]; [|lia].
  set (F := flags_of _ _ _).
  pose proof (flags_test (Z.testbit (ecx m 1) 23 && (negb (have_avx2 c || have_avx512 c) ||
      Z.testbit (ecx m 1) 27))
    ((have_avx2 c || have_avx512 c) && Z.testbit (ecx m 1) 27 &&
      (Z.testbit (xcr0 m) 1 && Z.testbit (xcr0 m) 2) &&
      Z.testbit (ebx m (if 7 <=? max_leaf m then 7 else max_leaf m)) 5)
    ((have_avx2 c || have_avx512 c) && Z.testbit (ecx m 1) 27 &&
      (Z.testbit (xcr0 m) 1 && Z.testbit (xcr0 m) 2) &&
      (Z.testbit (xcr0 m) 5 && Z.testbit (xcr0 m) 6 && Z.testbit (xcr0 m) 7) &&
      Z.testbit (ebx m (if 7 <=? max_leaf m then 7 else max_leaf m)) 30)) as T.
  fold F in T. destruct T as [T1 [T2 T3]]. clearbody F.
  unfold have_cpuid, chosen. destruct c as [hp h2 h5 dp d2 d5].
  cbn [have_popcnt have_avx2 have_avx512 d_popcnt d_avx2 d_avx512] in *.
  destruct hp, h2, h5, dp, d2, d5; cbn [negb andb orb rbind] in *;
    intros E; injection E as <-; cbn [has_avx512 has_avx2 has_popcnt];
    rewrite ?T1, ?T2, ?T3, ?andb_true_r, ?orb_true_r; repeat split; reflexivity.
Qed.

Lemma select_sound : forall c m k, 7 <= max_leaf m -> runs_on c m ->
  select c m = Ok (Some k) ->
  (has_avx512 k = true -> supports_avx512 m) /\
  (has_avx2 k = true -> supports_avx2 m) /\
  (has_popcnt k = true -> supports_popcnt m).
Proof.
  intros c m k H7 [R1 [R2 R3]] E.
  pose proof (select_bits c m k ltac:(lia) E) as B. cbv zeta in B.
  destruct (Z.leb_spec 7 (max_leaf m)) as [_|C]; [|lia].
  destruct B as [B5 [B2 B1]].
  unfold supports_avx512, supports_avx2, supports_popcnt, os_saves in *.
  split; [|split]; intros T.
  - rewrite B5 in T. destruct (d_avx512 c).
    + exact (R3 eq_refl).
    + cbn [orb] in T. repeat rewrite andb_true_iff in T. tauto.
  - rewrite B2 in T. destruct (d_avx2 c).
    + exact (R2 eq_refl).
    + cbn [orb] in T. repeat rewrite andb_true_iff in T. tauto.
  - rewrite B1 in T. destruct (d_popcnt c).
    + exact (R1 eq_refl).
    + cbn [orb] in T. repeat rewrite andb_true_iff in T. tauto.
Qed.

Lemma select_complete : forall c m k, 7 <= max_leaf m ->
  have_avx512 c = true -> have_avx2 c = true -> have_popcnt c = true ->
  select c m = Ok (Some k) ->
  (supports_avx512 m -> has_avx512 k = true) /\
  (supports_avx2 m -> has_avx2 k = true) /\
  (supports_popcnt m -> Z.testbit (ecx m 1) 27 = true -> has_popcnt k = true).
Proof.
  intros c m k H7 H5 H2 H1 E.
  pose proof (select_bits c m k ltac:(lia) E) as B. cbv zeta in B.
  destruct (Z.leb_spec 7 (max_leaf m)) as [_|C]; [|lia].
  destruct B as [B5 [B2 B1]]. rewrite H5, H2 in *. rewrite H1 in B1.
  unfold supports_avx512, supports_avx2, supports_popcnt, os_saves in *.
  split; [|split].
  - intros T. rewrite B5. decompose [and] T.
    repeat match goal with HH : Z.testbit _ _ = true |- _ => rewrite HH; clear HH end.
    apply orb_true_r.
  - intros T. rewrite B2. decompose [and] T.
    repeat match goal with HH : Z.testbit _ _ = true |- _ => rewrite HH; clear HH end.
    apply orb_true_r.
  - intros T1 T2. rewrite B1, T1, T2. apply orb_true_r.
Qed.

Lemma select_loses_popcnt : exists c m,
  7 <= max_leaf m /\ have_popcnt c = true /\ supports_popcnt m /\
  select c m = Ok (Some (Cpu false false false)).
Proof.
  exists (Macros true true true false false false).
  exists (Machine 7 (fun _ => 0) (fun l => if l =? 1 then 2 ^ 23 else 0) 0).
  split; [cbn; lia|]. repeat split; vm_compute; reflexivity.
Qed.

Lemma select_old_leaf : exists c m k,
  runs_on c m /\ select c m = Ok (Some k) /\
  has_avx2 k = true /\ ~ supports_avx2 m.
Proof.
  exists (Macros true true true false false false).
  exists (Machine 2 (fun l => if l =? 2 then 2 ^ 5 else 0)
             (fun l => if l =? 1 then 2 ^ 23 + 2 ^ 27 else 0) 7).
  exists (Cpu false true true).
  split; [split; [|split]; intros H; discriminate H|].
  split; [vm_compute; reflexivity|]. split; [reflexivity|].
  unfold supports_avx2. intros [H _]. cbn in H. lia.
Qed.

Lemma select_counts : forall c m c' m' rd a size,
  wf_mem 8 rd -> 0 <= size < 2 ^ 61 ->
  (forall b, a <= b < a + size -> rd b <> None) ->
  exists k k', select c m = Ok (Some k) /\ select c' m' = Ok (Some k') /\
  popcnt (X86 k) rd a size = popcnt (X86 k') rd a size /\
  popcnt (X86 k) rd a size =
  Ok (count_true (bit 8 rd) (8 * a) (Z.to_nat (8 * size))).
Proof.
  intros c m c' m' rd a size W S R.
  destruct (select_total c m) as [k E]. destruct (select_total c' m') as [k' E'].
  exists k, k'. split; [exact E|]. split; [exact E'|].
  rewrite !popcnt_x86_all by assumption. split; reflexivity.
Qed.
