(** Proofs about popcnt of libpopcnt.h on x86 and on other CPUs. *)
From Coq Require Import ZArith Bool List Lia.
From Coq Require Import ZifyBool.
From Verif Require Import Base WordOps IterModel PopcntModel AlgModel Spec ProofBase
  ProofIter ProofWord ProofCnt ProofAlg1 ProofPopcnt ProofPopcnt2.
Import ListNotations.
Open Scope Z_scope.
Ltac Zify.zify_post_hook ::= Z.div_mod_to_equations.

Lemma popcnt64_cnt : forall x n, 0 <= x < 2 ^ Z.of_nat n -> popcnt64 x = cnt x n.
Proof. intros. apply builtin_popcount_count. assumption. Qed.

Lemma cnt_more : forall x n k, 0 <= x < 2 ^ Z.of_nat n -> cnt x (n + k) = cnt x n.
Proof.
  intros x n k Hx. unfold cnt. rewrite count_true_app.
  rewrite (count_true_false _ k); [lia|]. intros j Hj.
  apply (testbit_high (Z.of_nat n)); lia.
Qed.

Section Bytes.
Variable rd : mem.
Hypothesis Hwf : wf_mem 8 rd.

Lemma rwp_pop_words_o : forall (pop : Z -> Z) o fuel a size i ct (Q : Z * Z -> Prop),
  (forall x, 0 <= x < 2 ^ 64 -> pop x = cnt x 64) ->
  let limit := size - size mod 8 in
  limit - i <= 8 * Z.of_nat fuel -> 0 <= i <= size ->
  i mod 8 <= size mod 8 -> bmapped rd a size -> 0 <= o -> o + 8 * size < 2 ^ 64 ->
  ct = o + bcount rd a i ->
  (forall i', limit <= i' <= size -> i' mod 8 = i mod 8 -> Q (i', o + bcount rd a i')) ->
  rwp (pop_words pop rd a fuel limit i ct) Q.
Proof.
  intros pop o fuel a size i ct Q Hpop limit. revert i ct.
  induction fuel as [|fuel IH]; intros i ct Hf Hi Hr Hm Ho Hsz Hct HQ; cbn [pop_words];
    destruct (Z.leb_spec limit i) as [E|E].
  - subst ct. apply HQ; lia.
  - lia.
  - subst ct. apply HQ; lia.
  - assert (Hi8 : i + 8 <= size) by lia.
    apply rwp_bind, rwp_load_bytes; [assumption| |].
    { intros b Hb. apply Hm. lia. }
    intros v Hv Hc. change (8 * Z.of_nat 8) with 64 in Hv.
    change (Z.of_nat 8) with 8 in Hc. change (8 * 8)%nat with 64%nat in Hc.
    apply IH; try assumption; try lia.
    + pose proof (bcount_range rd a (i + 8) ltac:(lia)).
      rewrite Hpop, Hc by assumption. subst ct.
      rewrite (bcount_split rd a (i + 8) i) by lia.
      replace (i + 8 - i) with 8 by lia.
      pose proof (bcount_range rd a i ltac:(lia)).
      pose proof (bcount_range rd (a + i) 8 ltac:(lia)).
      rewrite wrap_small by lia. lia.
    + intros i' H1 H2. apply HQ; lia.
Qed.

Lemma rwp_pop_words : forall (pop : Z -> Z) fuel a size i ct (Q : Z * Z -> Prop),
  (forall x, 0 <= x < 2 ^ 64 -> pop x = cnt x 64) ->
  let limit := size - size mod 8 in
  limit - i <= 8 * Z.of_nat fuel -> 0 <= i <= size ->
  i mod 8 <= size mod 8 -> bmapped rd a size -> 8 * size < 2 ^ 64 ->
  ct = bcount rd a i ->
  (forall i', limit <= i' <= size -> i' mod 8 = i mod 8 -> Q (i', bcount rd a i')) ->
  rwp (pop_words pop rd a fuel limit i ct) Q.
Proof.
  intros pop fuel a size i ct Q Hpop limit Hf Hi Hr Hm Hsz Hct HQ.
  apply (rwp_pop_words_o pop 0); try assumption; lia || auto.
Qed.

Lemma rwp_pop_bytes : forall fuel a size i ct (Q : Z -> Prop),
  size - i <= Z.of_nat fuel -> 0 <= i <= size -> bmapped rd a size ->
  8 * size < 2 ^ 64 -> ct = bcount rd a i -> Q (bcount rd a size) ->
  rwp (pop_bytes rd a fuel size i ct) Q.
Proof.
  induction fuel as [|fuel IH]; intros a size i ct Q Hf Hi Hm Hsz Hct HQ;
    cbn [pop_bytes]; destruct (Z.leb_spec size i) as [E|E].
  - subst ct. replace i with size by lia. exact HQ.
  - lia.
  - subst ct. replace i with size by lia. exact HQ.
  - apply rwp_bind, rwp_load_bytes; [assumption| |].
    { intros b Hb. apply Hm. lia. }
    intros v Hv Hc. change (8 * Z.of_nat 1) with 8 in Hv.
    change (Z.of_nat 1) with 1 in Hc. change (8 * 1)%nat with 8%nat in Hc.
    apply IH; try assumption; try lia.
    pose proof (bcount_range rd a (i + 1) ltac:(lia)).
    rewrite (popcnt64_cnt v 8) by exact Hv. rewrite Hc. subst ct.
    rewrite (bcount_split rd a (i + 1) i) by lia.
    replace (i + 1 - i) with 1 by lia.
    pose proof (bcount_range rd a i ltac:(lia)).
    pose proof (bcount_range rd (a + i) 1 ltac:(lia)).
    rewrite wrap_small by lia. reflexivity.
Qed.

Lemma bcount_0 : forall a, bcount rd a 0 = 0.
Proof. reflexivity. Qed.

Lemma popcnt_x86_ok : forall c a size, 0 <= size -> 8 * size < 2 ^ 64 ->
  bmapped rd a size ->
  popcnt_x86 c rd a size = Ok (bcount rd a size).
Proof.
  intros c a size Hs0 Hs Hm.
  enough (H : rwp (popcnt_x86 c rd a size) (fun r => r = bcount rd a size)).
  { apply rwp_exists in H. destruct H as (r & -> & ->). reflexivity. }
  unfold popcnt_x86.
  apply rwp_bind, rwp_simd_part; try assumption; try lia.
  { exact avx512_ok. }
  { reflexivity. }
  { reflexivity. }
  change (vbytes avx512) with 64. intros i Hi Hcase.
  apply rwp_bind, rwp_simd_part; try assumption; try lia.
  { exact avx2_ok. }
  { change (vbytes avx2) with 32. lia. }
  change (vbytes avx2) with 32. intros i2 Hi2 Hcase2.
  assert (Hi8 : i2 mod 8 = 0) by lia.
  destruct (has_popcnt c).
  - apply rwp_bind, (rwp_pop_words popcnt64); try assumption; try lia.
    { intros x Hx. apply popcnt64_cnt. exact Hx. }
    intros i3 H1 H2. apply rwp_pop_bytes; try assumption; try lia.
  - apply rwp_bind, (rwp_pop_words popcount64); try assumption; try lia.
    { intros x Hx. apply popcount64_count. exact Hx. }
    intros i3 H1 H2. destruct (Z.ltb_spec i3 size) as [E|E].
    + assert (En : Z.of_nat (Z.to_nat (size - i3)) = size - i3) by lia.
      apply rwp_bind, rwp_load_bytes; [assumption| |].
      { intros b Hb. apply Hm. lia. }
      rewrite En. intros v Hv Hc. apply rwp_ok.
      assert (Hp : 2 ^ (8 * (size - i3)) <= 2 ^ 64) by (apply Z.pow_le_mono_r; lia).
      rewrite popcount64_count by lia. fold (cnt v 64).
      replace 64%nat with (8 * Z.to_nat (size - i3) + (64 - 8 * Z.to_nat (size - i3)))%nat
        by lia.
      rewrite cnt_more; [|replace (Z.of_nat (8 * Z.to_nat (size - i3)))
                            with (8 * (size - i3)) by lia; exact Hv].
      rewrite Hc. rewrite (bcount_split rd a size i3) by lia.
      pose proof (bcount_range rd a i3 ltac:(lia)).
      pose proof (bcount_range rd (a + i3) (size - i3) ltac:(lia)).
      apply wrap_small. lia.
    + apply rwp_ok. f_equal. lia.
Qed.

Lemma rwp_pop_align_o : forall o fuel a size i ct (Q : Z * Z -> Prop),
  (- (a + i)) mod 8 <= Z.of_nat fuel -> 0 <= i ->
  i + (- (a + i)) mod 8 <= size -> bmapped rd a size -> 0 <= o -> o + 8 * size < 2 ^ 64 ->
  ct = o + bcount rd a i ->
  Q (i + (- (a + i)) mod 8, o + bcount rd a (i + (- (a + i)) mod 8)) ->
  rwp (pop_align rd a fuel i ct) Q.
Proof.
  intros o.
  induction fuel as [|fuel IH]; intros a size i ct Q Hf Hi His Hm Ho Hsz Hct HQ;
    cbn [pop_align]; destruct (Z.eqb_spec ((a + i) mod 8) 0) as [E|E].
  - subst ct. replace (i + - (a + i) mod 8) with i in HQ by lia. exact HQ.
  - lia.
  - subst ct. replace (i + - (a + i) mod 8) with i in HQ by lia. exact HQ.
  - assert (E1 : (- (a + (i + 1))) mod 8 = (- (a + i)) mod 8 - 1) by lia.
    apply rwp_bind, rwp_load_bytes; [assumption| |].
    { intros b Hb. apply Hm. lia. }
    intros v Hv Hc. change (8 * Z.of_nat 1) with 8 in Hv.
    change (Z.of_nat 1) with 1 in Hc. change (8 * 1)%nat with 8%nat in Hc.
    apply (IH a size); try assumption; try lia.
    + pose proof (bcount_range rd a (i + 1) ltac:(lia)).
      rewrite (popcnt64_cnt v 8) by exact Hv. rewrite Hc. subst ct.
      rewrite (bcount_split rd a (i + 1) i) by lia.
      replace (i + 1 - i) with 1 by lia.
      pose proof (bcount_range rd a i ltac:(lia)).
      pose proof (bcount_range rd (a + i) 1 ltac:(lia)).
      rewrite wrap_small by lia. lia.
    + rewrite E1. replace (i + 1 + ((- (a + i)) mod 8 - 1)) with (i + (- (a + i)) mod 8)
        by lia. exact HQ.
Qed.

Lemma rwp_pop_align : forall fuel a size i ct (Q : Z * Z -> Prop),
  (- (a + i)) mod 8 <= Z.of_nat fuel -> 0 <= i ->
  i + (- (a + i)) mod 8 <= size -> bmapped rd a size -> 8 * size < 2 ^ 64 ->
  ct = bcount rd a i ->
  Q (i + (- (a + i)) mod 8, bcount rd a (i + (- (a + i)) mod 8)) ->
  rwp (pop_align rd a fuel i ct) Q.
Proof.
  intros fuel a size i ct Q Hf Hi His Hm Hsz Hct HQ.
  apply (rwp_pop_align_o 0 fuel a size); try assumption; lia || auto.
Qed.

(** The portable variant is right when the data is aligned, shorter than eight
    bytes, or has enough bytes after the last whole word. *)
Lemma popcnt_generic_ok : forall a size, 0 <= size -> 8 * size < 2 ^ 64 ->
  bmapped rd a size -> size < 8 \/ (- a) mod 8 <= size mod 8 ->
  popcnt_generic rd a size = Ok (bcount rd a size).
Proof.
  intros a size Hs0 Hs Hm Hg.
  enough (H : rwp (popcnt_generic rd a size) (fun r => r = bcount rd a size)).
  { apply rwp_exists in H. destruct H as (r & -> & ->). reflexivity. }
  unfold popcnt_generic. apply rwp_bind.
  destruct (Z.leb_spec 8 size) as [E|E].
  - apply rwp_bind, (rwp_pop_align _ _ size); try assumption; try lia.
    { reflexivity. }
    rewrite !Z.add_0_l, !Z.add_0_r.
    assert (Hal : 0 <= (- a) mod 8 < 8) by lia.
    assert (Hmm : (- a) mod 8 mod 8 = (- a) mod 8) by (apply Z.mod_small; lia).
    apply (rwp_pop_words popcnt64); try assumption; try lia.
    { intros x Hx. apply popcnt64_cnt. exact Hx. }
    intros i H1 H2. apply rwp_pop_bytes; try assumption; try lia.
  - apply rwp_ok. apply rwp_pop_bytes; try assumption; try lia. reflexivity.
Qed.

Lemma load_bytes_oob : forall n a, (exists b, a <= b < a + Z.of_nat n /\ rd b = None) ->
  load_bytes rd a n = UB OutOfBounds.
Proof.
  induction n as [|n IH]; intros a (b & Hb & Hn); [lia|]. cbn [load_bytes].
  destruct (Z.eq_dec a b) as [->|].
  - rewrite Hn. reflexivity.
  - destruct (rd a); [|reflexivity]. rewrite IH; [reflexivity|].
    exists b. split; [lia|assumption].
Qed.

Lemma pop_words_oob : forall (pop : Z -> Z) fuel a size i ct,
  let limit := size - size mod 8 in
  limit - i <= 8 * Z.of_nat fuel -> 0 <= i < limit ->
  size mod 8 < i mod 8 -> bmapped rd a size -> rd (a + size) = None ->
  pop_words pop rd a fuel limit i ct = UB OutOfBounds.
Proof.
  intros pop fuel a size i ct limit. revert i ct.
  induction fuel as [|fuel IH]; intros i ct Hf Hi Hr Hm Hn; cbn [pop_words];
    destruct (Z.leb_spec limit i) as [E|E]; try lia.
  destruct (Z.le_gt_cases limit (i + 8)).
  - rewrite load_bytes_oob; [reflexivity|]. exists (a + size). split; [lia|assumption].
  - assert (Hl : rwp (load_bytes rd (a + i) 8) (fun _ => True)).
    { apply rwp_load_bytes; try assumption; [|trivial]. intros b Hb. apply Hm. lia. }
    apply rwp_exists in Hl. destruct Hl as (v & -> & _). cbn [rbind].
    apply IH; try assumption; lia.
Qed.

Lemma popcnt_generic_oob : forall a size, 8 <= size -> 8 * size < 2 ^ 64 ->
  bmapped rd a size -> size mod 8 < (- a) mod 8 -> rd (a + size) = None ->
  popcnt_generic rd a size = UB OutOfBounds.
Proof.
  intros a size Hs8 Hs Hm Hg Hn. unfold popcnt_generic.
  destruct (Z.leb_spec 8 size) as [_|]; [|lia].
  assert (Ha : rwp (pop_align rd a 8 0 0)
    (fun q => fst q = (- a) mod 8)).
  { apply (rwp_pop_align _ _ size); try assumption; try lia.
    - reflexivity.
    - cbn [fst]. rewrite Z.add_0_r. lia. }
  apply rwp_exists in Ha. destruct Ha as ([i c] & -> & Hi). cbn [fst] in Hi. subst i.
  cbn [rbind]. rewrite pop_words_oob; try assumption; try reflexivity; try lia.
Qed.

End Bytes.

