(** Proofs about _popcnt, _lzcnt, _tzcnt (bit_details.hpp:394-511). *)
From Coq Require Import ZArith Bool List Lia.
From Coq Require Import ZifyBool.
From Verif Require Import Base WordOps IterModel Spec ProofBase ProofIter.
Import ListNotations.
Open Scope Z_scope.
Ltac Zify.zify_post_hook ::= Z.div_mod_to_equations.

Lemma count_true_ext : forall f g n lo lo',
  (forall k, 0 <= k < Z.of_nat n -> f (lo + k) = g (lo' + k)) ->
  count_true f lo n = count_true g lo' n.
Proof.
  intros f g n. induction n as [|n IH]; intros lo lo' H; [reflexivity|].
  cbn [count_true]. rewrite (IH (lo + 1) (lo' + 1)).
  - specialize (H 0). rewrite !Z.add_0_r in H. rewrite H by lia. reflexivity.
  - intros k Hk. specialize (H (k + 1)).
    replace (lo + 1 + k) with (lo + (k + 1)) by lia.
    replace (lo' + 1 + k) with (lo' + (k + 1)) by lia. apply H. lia.
Qed.

Lemma count_true_range : forall f n lo, 0 <= count_true f lo n <= Z.of_nat n.
Proof.
  intros f n. induction n as [|n IH]; intros lo; cbn [count_true]; [lia|].
  specialize (IH (lo + 1)). destruct (f lo); lia.
Qed.

Lemma count_true_app : forall f a b lo,
  count_true f lo (a + b) =
  count_true f lo a + count_true f (lo + Z.of_nat a) b.
Proof.
  intros f a b. induction a as [|a IH]; intros lo.
  - cbn. f_equal. lia.
  - cbn [count_true Nat.add]. rewrite IH.
    replace (lo + 1 + Z.of_nat a) with (lo + Z.of_nat (S a)) by lia. lia.
Qed.

Lemma count_true_false : forall f n lo,
  (forall k, 0 <= k < Z.of_nat n -> f (lo + k) = false) -> count_true f lo n = 0.
Proof.
  intros f n. induction n as [|n IH]; intros lo H; [reflexivity|].
  cbn [count_true]. rewrite IH.
  - specialize (H 0). rewrite Z.add_0_r in H. rewrite H by lia. reflexivity.
  - intros k Hk. specialize (H (k + 1)).
    replace (lo + 1 + k) with (lo + (k + 1)) by lia. apply H. lia.
Qed.

Lemma count_true_negb : forall f n lo,
  count_true (fun i => negb (f i)) lo n = Z.of_nat n - count_true f lo n.
Proof.
  intros f n. induction n as [|n IH]; intros lo; [reflexivity|].
  cbn [count_true]. rewrite IH. destruct (f lo); cbn [negb]; lia.
Qed.

Lemma pos_popcount_count : forall q n, Zpos q < 2 ^ Z.of_nat n ->
  pos_popcount q = count_true (Z.testbit (Zpos q)) 0 n.
Proof.
  intros q n. revert q. induction n as [|n IH]; intros q H.
  - cbn in H. lia.
  - rewrite Nat2Z.inj_succ, Z.pow_succ_r in H by lia. cbn [count_true].
    assert (Hs : forall r b, Zpos q = 2 * Zpos r + Z.b2z b ->
      count_true (Z.testbit (Zpos q)) (0 + 1) n =
      count_true (Z.testbit (Zpos r)) 0 n).
    { intros r b E. apply count_true_ext. intros k Hk. rewrite E.
      replace (0 + 1 + k) with (Z.succ k) by lia.
      rewrite Z.testbit_succ_r by lia. reflexivity. }
    destruct q as [q|q|]; cbn [pos_popcount].
    + rewrite (Hs q true) by (cbn; lia). rewrite (IH q) by lia. reflexivity.
    + rewrite (Hs q false) by (cbn; lia). rewrite (IH q) by lia. reflexivity.
    + rewrite count_true_false; [reflexivity|]. intros k Hk.
      apply (testbit_high 1); lia.
Qed.

Lemma builtin_popcount_count : forall x n, 0 <= x < 2 ^ Z.of_nat n ->
  builtin_popcount x = count_true (Z.testbit x) 0 n.
Proof.
  intros x n H. destruct x as [|q|q]; cbn [builtin_popcount].
  - rewrite count_true_false; [reflexivity|]. intros. apply Z.bits_0.
  - apply pos_popcount_count. lia.
  - lia.
Qed.

Lemma w_lt_pow : forall w, valid_w w -> w < 2 ^ w.
Proof. intros w H. apply Z.pow_gt_lin_r; pose proof (valid_pos w H); lia. Qed.

Lemma popcnt_builtin_count : forall w x, valid_w w -> 0 <= x < 2 ^ w ->
  popcnt_builtin w x = count_true (Z.testbit x) 0 (Z.to_nat w).
Proof.
  intros w x Hw Hx. pose proof (valid_pos w Hw). pose proof (w_lt_pow w Hw).
  unfold popcnt_builtin.
  rewrite (builtin_popcount_count x (Z.to_nat w)) by (rewrite Z2Nat.id; lia).
  apply wrap_small. pose proof (count_true_range (Z.testbit x) (Z.to_nat w) 0). lia.
Qed.

Lemma shiftr1_bound : forall x n, 0 <= x < 2 ^ Z.of_nat (S n) ->
  0 <= Z.shiftr x 1 < 2 ^ Z.of_nat n.
Proof.
  intros x n H. rewrite Nat2Z.inj_succ, Z.pow_succ_r in H by lia.
  rewrite Z.shiftr_div_pow2 by lia. change (2 ^ 1) with 2. lia.
Qed.

Lemma count_true_shiftr : forall x n,
  count_true (Z.testbit x) 1 n = count_true (Z.testbit (Z.shiftr x 1)) 0 n.
Proof.
  intros x n. apply count_true_ext. intros k Hk.
  rewrite Z.shiftr_spec by lia. f_equal. lia.
Qed.

Lemma popcnt_loop_eq : forall w n x dst, 0 <= w -> 0 <= x < 2 ^ Z.of_nat n ->
  0 <= dst -> dst + Z.of_nat n < 2 ^ w ->
  popcnt_loop w n x dst = Ok (dst + count_true (Z.testbit x) 0 n).
Proof.
  intros w n. induction n as [|n IH]; intros x dst Hw Hx Hd Hdn; cbn [popcnt_loop].
  - cbn in Hx. assert (x = 0) by lia. subst. cbn. f_equal. lia.
  - destruct (Z.eqb_spec x 0) as [E|E].
    + subst. rewrite count_true_false by (intros; apply Z.bits_0). f_equal. lia.
    + assert (Hb : Z.land x 1 = Z.b2z (Z.testbit x 0)).
      { rewrite Z.bit0_mod. change 1 with (Z.ones 1).
        rewrite Z.land_ones by lia. reflexivity. }
      rewrite Hb. rewrite wrap_small by (destruct (Z.testbit x 0); cbn; lia).
      rewrite IH; try assumption.
      * f_equal. cbn [count_true]. change (0 + 1) with 1. rewrite count_true_shiftr.
        destruct (Z.testbit x 0); cbn [Z.b2z]; lia.
      * apply shiftr1_bound, Hx.
      * destruct (Z.testbit x 0); cbn; lia.
      * destruct (Z.testbit x 0); cbn [Z.b2z]; lia.
Qed.

Lemma popcnt_fallback_count : forall w x, valid_w w -> 0 <= x < 2 ^ w ->
  popcnt_fallback w x = Ok (count_true (Z.testbit x) 0 (Z.to_nat w)).
Proof.
  intros w x Hw Hx. pose proof (valid_pos w Hw). pose proof (w_lt_pow w Hw).
  unfold popcnt_fallback. rewrite popcnt_loop_eq; try lia.
  - reflexivity.
  - rewrite Z2Nat.id; lia.
Qed.

Lemma popcnt_intrin_count : forall w x, valid_w w -> 0 <= x < 2 ^ w ->
  popcnt_intrin w x = count_true (Z.testbit x) 0 (Z.to_nat w).
Proof.
  intros w x Hw Hx. unfold popcnt_intrin. destruct (w <=? 64).
  - apply popcnt_builtin_count; assumption.
  - rewrite popcnt_fallback_count by assumption. reflexivity.
Qed.

(** Trailing zeros. *)
Lemma pos_ctz_spec : forall q, 0 <= pos_ctz q /\
  Z.testbit (Zpos q) (pos_ctz q) = true /\
  forall k, 0 <= k < pos_ctz q -> Z.testbit (Zpos q) k = false.
Proof.
  intros q. induction q as [q IH|q IH|]; cbn [pos_ctz].
  - split; [lia|]. split; [reflexivity|]. intros; lia.
  - destruct IH as (H0 & H1 & H2). split; [lia|].
    rewrite Pos2Z.inj_xO.
    split.
    + replace (1 + pos_ctz q) with (Z.succ (pos_ctz q)) by lia.
      rewrite Z.testbit_even_succ by lia. exact H1.
    + intros k Hk. destruct (Z.eq_dec k 0) as [->|].
      * apply Z.testbit_even_0.
      * replace k with (Z.succ (k - 1)) by lia.
        rewrite Z.testbit_even_succ by lia. apply H2. lia.
  - split; [lia|]. split; [reflexivity|]. intros; lia.
Qed.

Lemma tzcnt_builtin_spec : forall w x, valid_w w -> 0 <= x < 2 ^ w ->
  0 <= tzcnt_builtin w x <= w /\
  (tzcnt_builtin w x < w -> Z.testbit x (tzcnt_builtin w x) = true) /\
  (forall k, 0 <= k < tzcnt_builtin w x -> Z.testbit x k = false).
Proof.
  intros w x Hw Hx. pose proof (valid_pos w Hw). pose proof (w_lt_pow w Hw).
  unfold tzcnt_builtin. destruct (Z.eqb_spec x 0) as [E|E].
  - subst. split; [lia|]. split; [lia|]. intros. apply Z.bits_0.
  - destruct x as [|q|q]; try lia. cbn [builtin_ctz].
    destruct (pos_ctz_spec q) as (H0' & H1 & H2).
    assert (pos_ctz q < w).
    { destruct (Z.lt_ge_cases (pos_ctz q) w); [assumption|].
      rewrite (testbit_high w) in H1 by lia. discriminate. }
    rewrite wrap_small by lia. split; [lia|]. split; [auto|]. exact H2.
Qed.

(** A value with this specification is unique. *)
Lemma tz_unique : forall w x a b, 
  0 <= a <= w -> (a < w -> Z.testbit x a = true) ->
  (forall k, 0 <= k < a -> Z.testbit x k = false) ->
  0 <= b <= w -> (b < w -> Z.testbit x b = true) ->
  (forall k, 0 <= k < b -> Z.testbit x k = false) -> a = b.
Proof.
  intros w x a b Ha A1 A2 Hb B1 B2.
  destruct (Z.lt_trichotomy a b) as [H|[H|H]]; [|assumption|].
  - rewrite (B2 a) in A1 by lia. discriminate A1. lia.
  - rewrite (A2 b) in B1 by lia. discriminate B1. lia.
Qed.

Lemma tzcnt_loop_eq : forall w n t dst, 0 <= t <= Z.of_nat n -> 0 <= dst ->
  dst + t < 2 ^ w ->
  tzcnt_loop w n (Z.ones t) dst = Ok (dst + t).
Proof.
  intros w n. induction n as [|n IH]; intros t dst Ht Hd Hb; cbn [tzcnt_loop].
  - assert (t = 0) by lia. subst. cbn. f_equal. lia.
  - destruct (Z.eq_dec t 0) as [->|].
    + cbn. f_equal. lia.
    + assert (Hne : Z.ones t <> 0).
      { rewrite Z.ones_equiv. assert (2 ^ 1 <= 2 ^ t) by (apply Z.pow_le_mono_r; lia).
        lia. }
      destruct (Z.eqb_spec (Z.ones t) 0); [contradiction|].
      rewrite wrap_small by lia.
      replace (Z.shiftr (Z.ones t) 1) with (Z.ones (t - 1)).
      * rewrite IH by lia. f_equal. lia.
      * apply Z.bits_inj'. intros k Hk.
        rewrite Z.shiftr_spec, !Z.testbit_ones_nonneg by lia. lia.
Qed.

Lemma pred_low_bits : forall x t, 0 < x -> 0 <= t -> Z.testbit x t = true ->
  (forall k, 0 <= k < t -> Z.testbit x k = false) ->
  Z.shiftr (Z.lxor x (x - 1)) 1 = Z.ones t.
Proof.
  intros x t Hx Ht H1 H2.
  (* x = 2^t * (2 y + 1) *)
  assert (E : x = 2 ^ t * (2 * (x / 2 ^ (t + 1)) + 1)).
  { apply Z.bits_inj'. intros k Hk. rewrite Z.mul_comm.
    rewrite Z.mul_pow2_bits by lia.
    destruct (Z.lt_trichotomy k t) as [H|[H|H]].
    - rewrite H2, Z.testbit_neg_r by lia. reflexivity.
    - subst. rewrite Z.sub_diag, Z.testbit_odd_0. exact H1.
    - replace (k - t) with (Z.succ (k - t - 1)) by lia.
      rewrite Z.testbit_odd_succ, Z.div_pow2_bits by lia. f_equal. lia. }
  set (y := x / 2 ^ (t + 1)) in E.
  assert (E2 : x - 1 = 2 * y * 2 ^ t + Z.ones t).
  { rewrite Z.ones_equiv. lia. }
  apply Z.bits_inj'. intros k Hk.
  rewrite Z.shiftr_spec, Z.lxor_spec, Z.testbit_ones_nonneg by lia.
  assert (Hd : forall j, 0 <= j -> Z.testbit (x - 1) j =
     if j <? t then true else Z.testbit (2 * y) (j - t)).
  { intros j Hj. rewrite E2.
    replace (2 * y * 2 ^ t) with (Z.shiftl (2 * y) t) by (rewrite Z.shiftl_mul_pow2; lia).
    rewrite Z.add_nocarry_lxor.
    - rewrite Z.lxor_spec, Z.shiftl_spec, Z.testbit_ones_nonneg by lia.
      destruct (Z.ltb_spec j t).
      + rewrite Z.testbit_neg_r by lia. reflexivity.
      + apply xorb_false_r.
    - apply Z.bits_inj'. intros i Hi. rewrite Z.land_spec, Z.bits_0.
      rewrite Z.shiftl_spec, Z.testbit_ones_nonneg by lia.
      destruct (Z.ltb_spec i t).
      + rewrite Z.testbit_neg_r by lia. reflexivity.
      + apply andb_false_r. }
  rewrite Hd by lia. destruct (Z.ltb_spec k t).
  - destruct (Z.ltb_spec (k + 1) t).
    + rewrite H2 by lia. reflexivity.
    + replace (k + 1) with t by lia. rewrite H1, Z.sub_diag, Z.testbit_even_0.
      reflexivity.
  - destruct (Z.ltb_spec (k + 1) t); [lia|].
    rewrite E at 1. rewrite Z.mul_comm, Z.mul_pow2_bits by lia.
    replace (k + 1 - t) with (Z.succ (k - t)) by lia.
    rewrite Z.testbit_odd_succ, Z.testbit_even_succ by lia. apply xorb_nilpotent.
Qed.

Lemma tzcnt_fallback_builtin : forall w x, valid_w w -> 0 <= x < 2 ^ w ->
  tzcnt_fallback w x = Ok (tzcnt_builtin w x).
Proof.
  intros w x Hw Hx. pose proof (valid_pos w Hw). pose proof (w_lt_pow w Hw).
  destruct (tzcnt_builtin_spec w x Hw Hx) as (H1 & H2 & H3).
  unfold tzcnt_fallback. destruct (Z.eqb_spec x 0) as [E|E].
  - subst. reflexivity.
  - assert (tzcnt_builtin w x < w).
    { unfold tzcnt_builtin in *. destruct (Z.eqb_spec x 0); [contradiction|].
      destruct x as [|q|q]; try lia. cbn [builtin_ctz] in *.
      destruct (pos_ctz_spec q) as (A0 & A1 & A2).
      destruct (Z.lt_ge_cases (pos_ctz q) w).
      - rewrite wrap_small; lia.
      - rewrite (testbit_high w) in A1 by lia. discriminate. }
    rewrite arith_small by lia.
    rewrite (pred_low_bits x (tzcnt_builtin w x)) by (lia || auto).
    rewrite tzcnt_loop_eq by lia. reflexivity.
Qed.

Lemma tzcnt_same : forall w x, valid_w w -> 0 <= x < 2 ^ w -> tzcnt w x = tzcnt_builtin w x.
Proof.
  intros w x Hw Hx. unfold tzcnt. destruct (w <=? 64); [reflexivity|].
  rewrite tzcnt_fallback_builtin by assumption. reflexivity.
Qed.

Lemma tzcnt_spec : forall w x, valid_w w -> 0 <= x < 2 ^ w ->
  0 <= tzcnt w x <= w /\
  (tzcnt w x < w -> Z.testbit x (tzcnt w x) = true) /\
  (forall k, 0 <= k < tzcnt w x -> Z.testbit x k = false).
Proof. intros w x Hw Hx. rewrite tzcnt_same by assumption. apply tzcnt_builtin_spec; assumption. Qed.

Lemma tzcnt_fallback_eq : forall w x, valid_w w -> 0 <= x < 2 ^ w ->
  tzcnt_fallback w x = Ok (tzcnt w x).
Proof. intros w x Hw Hx. rewrite tzcnt_same by assumption. apply tzcnt_fallback_builtin; assumption. Qed.

(** Leading zeros. *)
Lemma lzcnt_builtin_spec : forall w x, valid_w w -> 0 <= x < 2 ^ w ->
  0 <= lzcnt_builtin w x <= w /\
  (lzcnt_builtin w x < w -> Z.testbit x (w - 1 - lzcnt_builtin w x) = true) /\
  (forall k, w - lzcnt_builtin w x <= k < w -> Z.testbit x k = false).
Proof.
  intros w x Hw Hx. pose proof (valid_pos w Hw). pose proof (w_lt_pow w Hw).
  unfold lzcnt_builtin. destruct (Z.eqb_spec x 0) as [E|E].
  - subst. split; [lia|]. split; [lia|]. intros. apply Z.bits_0.
  - assert (Hl : 0 <= Z.log2 x < w).
    { split; [apply Z.log2_nonneg|]. apply Z.log2_lt_pow2; lia. }
    assert (HE : (if w <? 32 then wrap w (builtin_clz 32 x - (32 - w))
                  else wrap w (builtin_clz w x)) = w - 1 - Z.log2 x).
    { unfold builtin_clz. destruct (w <? 32); rewrite wrap_small; lia. }
    rewrite HE. split; [lia|]. split.
    + intros _. replace (w - 1 - (w - 1 - Z.log2 x)) with (Z.log2 x) by lia.
      apply Z.bit_log2. lia.
    + intros k Hk. apply Z.bits_above_log2; lia.
Qed.

Lemma lzcnt_loop_eq : forall w n x dst, 0 < x -> Z.log2 x <= Z.of_nat n ->
  0 <= dst -> dst + Z.log2 x < 2 ^ w ->
  lzcnt_loop w n x dst = Ok (dst + Z.log2 x).
Proof.
  intros w n. induction n as [|n IH]; intros x dst Hx Hl Hd Hb; cbn [lzcnt_loop].
  - assert (Z.log2 x = 0) by (pose proof (Z.log2_nonneg x); lia).
    assert (x = 1) by (apply Z.log2_null in H; lia). subst. cbn. f_equal. lia.
  - destruct (Z.eqb_spec (Z.shiftr x 1) 0) as [E|E].
    + rewrite Z.shiftr_div_pow2 in E by lia. change (2 ^ 1) with 2 in E.
      assert (x = 1) by lia. subst. cbn. f_equal. lia.
    + assert (0 < Z.shiftr x 1).
      { pose proof (Z.shiftr_nonneg x 1). lia. }
      assert (El : Z.log2 (Z.shiftr x 1) = Z.log2 x - 1).
      { rewrite Z.log2_shiftr by lia. apply Z.max_r.
        assert (0 < Z.log2 x); [|lia]. apply Z.log2_pos.
        destruct (Z.eq_dec x 1); [subst; cbn in E; contradiction|lia]. }
      pose proof (Z.log2_nonneg (Z.shiftr x 1)).
      rewrite wrap_small by lia. rewrite IH by lia. f_equal. lia.
Qed.

Lemma lzcnt_fallback_builtin : forall w x, valid_w w -> 0 <= x < 2 ^ w ->
  lzcnt_fallback w x = Ok (lzcnt_builtin w x).
Proof.
  intros w x Hw Hx. pose proof (valid_pos w Hw). pose proof (w_lt_pow w Hw).
  unfold lzcnt_fallback, lzcnt_builtin. destruct (Z.eqb_spec x 0) as [E|E].
  - subst. cbn [negb b2z].
    assert (Hl : forall n, lzcnt_loop w n 0 0 = Ok 0) by (intros [|]; reflexivity).
    rewrite Hl. cbn [rbind]. rewrite wrap_small by lia. f_equal. lia.
  - assert (Hl : 0 <= Z.log2 x < w).
    { split; [apply Z.log2_nonneg|]. apply Z.log2_lt_pow2; lia. }
    cbn [negb b2z]. rewrite lzcnt_loop_eq by lia. cbn [rbind]. f_equal.
    unfold builtin_clz. destruct (w <? 32); f_equal; lia.
Qed.

Lemma lzcnt_same : forall w x, valid_w w -> 0 <= x < 2 ^ w -> lzcnt_intrin w x = lzcnt_builtin w x.
Proof.
  intros w x Hw Hx. unfold lzcnt_intrin. destruct (w <=? 64); [reflexivity|].
  rewrite lzcnt_fallback_builtin by assumption. reflexivity.
Qed.

Lemma lzcnt_intrin_spec : forall w x, valid_w w -> 0 <= x < 2 ^ w ->
  0 <= lzcnt_intrin w x <= w /\
  (lzcnt_intrin w x < w -> Z.testbit x (w - 1 - lzcnt_intrin w x) = true) /\
  (forall k, w - lzcnt_intrin w x <= k < w -> Z.testbit x k = false).
Proof. intros w x Hw Hx. rewrite lzcnt_same by assumption. apply lzcnt_builtin_spec; assumption. Qed.

Lemma lzcnt_fallback_eq : forall w x, valid_w w -> 0 <= x < 2 ^ w ->
  lzcnt_fallback w x = Ok (lzcnt_intrin w x).
Proof. intros w x Hw Hx. rewrite lzcnt_same by assumption. apply lzcnt_fallback_builtin; assumption. Qed.
