(** Proofs about the word operations of WordOps.v that no algorithm uses:
    deposit/extract, byte swap, carry arithmetic, double shifts, compare. *)
From Coq Require Import ZArith Bool List Lia.
From Verif Require Import Base WordOps Spec ProofBase ProofWord ProofCnt.
Import ListNotations.
Open Scope Z_scope.

Ltac Zify.zify_post_hook ::= idtac.

(** Number of mask bits below position [k]. *)
Definition rank (msk k : Z) : Z := count_true (Z.testbit msk) 0 (Z.to_nat k).

Lemma rank_0 : forall msk, rank msk 0 = 0.
Proof. reflexivity. Qed.

Lemma rank_succ : forall msk k, 0 <= k ->
  rank msk (k + 1) = rank msk k + (if Z.testbit msk k then 1 else 0).
Proof.
  intros msk k Hk. unfold rank.
  replace (Z.to_nat (k + 1)) with (Z.to_nat k + 1)%nat by lia.
  rewrite count_true_app. cbn [count_true]. rewrite Z.add_0_l, Z2Nat.id by lia.
  lia.
Qed.

Lemma rank_range : forall msk k, 0 <= k -> 0 <= rank msk k <= k.
Proof.
  intros msk k Hk. unfold rank.
  pose proof (count_true_range (Z.testbit msk) (Z.to_nat k) 0). lia.
Qed.

Lemma rank_mono : forall msk a b, 0 <= a <= b -> rank msk a <= rank msk b.
Proof.
  intros msk a b H. unfold rank.
  replace (Z.to_nat b) with (Z.to_nat a + Z.to_nat (b - a))%nat by lia.
  rewrite count_true_app.
  pose proof (count_true_range (Z.testbit msk) (Z.to_nat (b - a))
                (0 + Z.of_nat (Z.to_nat a))). lia.
Qed.

Lemma rank_lt : forall msk k n, 0 <= k < n -> Z.testbit msk k = true ->
  rank msk k < rank msk n.
Proof.
  intros msk k n H Hb. pose proof (rank_mono msk (k + 1) n ltac:(lia)).
  rewrite rank_succ, Hb in H0 by lia. lia.
Qed.

Lemma rank_onto : forall msk n j, 0 <= n -> 0 <= j < rank msk n ->
  exists k, 0 <= k < n /\ Z.testbit msk k = true /\ rank msk k = j.
Proof.
  intros msk n j Hn. revert j.
  pattern n. apply natlike_ind; [|clear n Hn; intros n Hn IH|exact Hn].
  - intros j H. rewrite rank_0 in H. lia.
  - intros j H. rewrite <- Z.add_1_r, rank_succ in H by lia.
    destruct (Z.lt_ge_cases j (rank msk n)) as [C|C].
    + destruct (IH j ltac:(lia)) as (k & H1 & H2 & H3).
      exists k. repeat split; try assumption; lia.
    + destruct (Z.testbit msk n) eqn:E; [|lia].
      exists n. repeat split; try assumption; lia.
Qed.

(** Rotating one more bit into the top of the accumulator. *)
Lemma push_top : forall p w dst src (Q : Z -> Prop), valid_w w ->
  0 <= dst < 2 ^ w -> 0 <= src < 2 ^ w ->
  (forall v, 0 <= v < 2 ^ w ->
     (forall k, 0 <= k < w -> Z.testbit v k =
        if k =? w - 1 then Z.testbit src 0 else Z.testbit dst (k + 1)) -> Q v) ->
  rwp (cshl p w src (w - 1)) (fun hi => Q (wrap w (Z.lor (Z.shiftr dst 1) hi))).
Proof.
  intros p w dst src Q Hw Hd Hs HQ. pose proof (valid_pos w Hw).
  pose proof (prom_ge w Hw). apply rwp_cshl; try assumption; try lia.
  intros s E. apply HQ; [apply wrap_range; lia|].
  intros k Hk. rewrite wrap_testbit, Z.lor_spec, Z.shiftr_spec by lia.
  assert (Es : Z.testbit s k = Z.testbit src (k - (w - 1))).
  { rewrite <- (shl_testbit w s src (w - 1)) by (assumption || lia).
    rewrite wrap_testbit by lia. destruct (Z.ltb_spec k w); [reflexivity|lia]. }
  rewrite Es. destruct (Z.ltb_spec k w); [|lia]. cbn [andb].
  destruct (Z.eqb_spec k (w - 1)) as [->|].
  - replace (w - 1 + 1) with w by lia. rewrite (testbit_high w dst) by lia.
    cbn [orb]. f_equal. lia.
  - rewrite (Z.testbit_neg_r src) by lia. apply orb_false_r.
Qed.

Lemma shiftr_step : forall x c, 0 <= c -> Z.shiftr (Z.shiftr x c) 1 = Z.shiftr x (c + 1).
Proof. intros. apply Z.shiftr_shiftr. lia. Qed.

Lemma shiftr_zero : forall x c k, 0 <= c <= k -> Z.shiftr x c = 0 -> Z.testbit x k = false.
Proof.
  intros x c k H E. replace k with (k - c + c) by lia.
  rewrite <- Z.shiftr_spec by lia. rewrite E. apply Z.bits_0.
Qed.

Definition dep_inv (w x msk c dst : Z) : Prop :=
  0 <= dst < 2 ^ w /\
  forall k, 0 <= k < w -> Z.testbit dst k =
    (w - c <=? k) && Z.testbit msk (k - (w - c)) &&
    Z.testbit x (rank msk (k - (w - c))).

Lemma rwp_pdep_loop : forall p w x msk n c dst (Q : Z * Z -> Prop), valid_w w ->
  0 <= x < 2 ^ w -> 0 <= msk < 2 ^ w -> 0 <= c -> c + Z.of_nat n = w ->
  dep_inv w x msk c dst ->
  (forall dst' c', 0 <= c' <= w -> dep_inv w x msk c' dst' ->
     (forall k, c' <= k -> Z.testbit msk k = false) -> Q (dst', c')) ->
  rwp (pdep_loop p w n (Z.shiftr x (rank msk c)) (Z.shiftr msk c) dst c) Q.
Proof.
  intros p w x msk n. induction n as [|n IH]; intros c dst Q Hw Hx Hm Hc Hn Hinv HQ;
    cbn [pdep_loop]; pose proof (valid_pos w Hw).
  - assert (E : Z.shiftr msk c = 0).
    { apply Z.bits_inj'. intros k Hk. rewrite Z.shiftr_spec, Z.bits_0 by lia.
      apply (testbit_high w); lia. }
    rewrite E. cbn [Z.eqb]. apply rwp_ok, HQ; try assumption; try lia.
    intros k Hk. apply (testbit_high w); lia.
  - destruct (Z.eqb_spec (Z.shiftr msk c) 0) as [E|E].
    + apply rwp_ok, HQ; try assumption; try lia.
      intros k Hk. apply (shiftr_zero msk c); [lia|assumption].
    + rewrite !shiftr_step by (pose proof (rank_range msk c); lia).
      rewrite Z.shiftr_spec, Z.add_0_l by lia.
      destruct Hinv as [Hd Hinv].
      assert (Hrange := rank_range msk c Hc).
      destruct (Z.testbit msk c) eqn:Eb.
      * apply rwp_bind.
        replace (rank msk c + 1) with (rank msk (c + 1)) by (rewrite rank_succ, Eb; lia).
        apply (push_top p w dst (Z.shiftr x (rank msk c)) (fun v => rwp
          (pdep_loop p w n (Z.shiftr x (rank msk (c + 1))) (Z.shiftr msk (c + 1)) v
             (c + 1)) Q)); try assumption; [apply shiftr_range; lia|].
        intros v Hv Hvb. apply IH; try assumption; try lia.
        split; [assumption|]. intros k Hk. rewrite Hvb by assumption.
        destruct (Z.eqb_spec k (w - 1)) as [->|].
        -- replace (w - 1 - (w - (c + 1))) with c by lia. rewrite Eb.
           destruct (Z.leb_spec (w - (c + 1)) (w - 1)); [|lia].
           rewrite Z.shiftr_spec by lia. reflexivity.
        -- rewrite Hinv by lia. replace (k + 1 - (w - c)) with (k - (w - (c + 1))) by lia.
           f_equal. f_equal. destruct (Z.leb_spec (w - c) (k + 1)), (Z.leb_spec (w - (c + 1)) k);
             try reflexivity; lia.
      * assert (Er : rank msk (c + 1) = rank msk c) by (rewrite rank_succ, Eb; lia).
        rewrite <- Er at 1. apply IH; try assumption; try lia.
        split; [apply shiftr_range; lia|]. intros k Hk.
        rewrite Z.shiftr_spec by lia.
        destruct (Z.eq_dec k (w - 1)) as [->|].
        -- rewrite (testbit_high w) by lia.
           replace (w - 1 - (w - (c + 1))) with c by lia. rewrite Eb.
           rewrite andb_false_r. reflexivity.
        -- rewrite Hinv by lia. replace (k + 1 - (w - c)) with (k - (w - (c + 1))) by lia.
           f_equal. f_equal. destruct (Z.leb_spec (w - c) (k + 1)), (Z.leb_spec (w - (c + 1)) k);
             try reflexivity; lia.
Qed.

Lemma shr_end : forall p w dst c (Q : Z -> Prop), valid_w w -> 0 <= dst < 2 ^ w ->
  0 <= c <= w -> (c = 0 -> dst = 0) -> Q (Z.shiftr dst (w - c)) ->
  rwp (cshr p w dst ((w - c) * b2z (0 <? c))) Q.
Proof.
  intros p w dst c Q Hw Hd Hc H0 HQ. pose proof (valid_pos w Hw).
  pose proof (prom_ge w Hw). destruct (Z.ltb_spec 0 c); cbn [b2z].
  - rewrite Z.mul_1_r. apply rwp_cshr; [lia|exact HQ].
  - rewrite Z.mul_0_r. apply rwp_cshr; [lia|]. rewrite H0 in * by lia.
    rewrite Z.shiftr_0_l in *. exact HQ.
Qed.

Lemma rwp_pdep : forall p w x msk (Q : Z -> Prop), valid_w w ->
  0 <= x < 2 ^ w -> 0 <= msk < 2 ^ w ->
  (forall r, 0 <= r < 2 ^ w ->
     (forall k, 0 <= k < w ->
        Z.testbit r k = Z.testbit msk k && Z.testbit x (rank msk k)) -> Q r) ->
  rwp (pdep p w x msk) Q.
Proof.
  intros p w x msk Q Hw Hx Hm HQ. pose proof (valid_pos w Hw).
  unfold pdep. apply rwp_bind.
  rewrite <- (Z.shiftr_0_r x) at 1. rewrite <- (Z.shiftr_0_r msk) at 1.
  rewrite <- (rank_0 msk) at 1.
  apply rwp_pdep_loop; try assumption; try lia.
  - split; [lia|]. intros k Hk. rewrite Z.bits_0.
    destruct (Z.leb_spec (w - 0) k); [lia|reflexivity].
  - intros dst c Hc [Hd Hinv] Hz.
    assert (Hhi : forall k, 0 <= k < w ->
      Z.testbit (Z.shiftr dst (w - c)) k = Z.testbit msk k && Z.testbit x (rank msk k)).
    { intros k Hk. rewrite Z.shiftr_spec by lia.
      destruct (Z.lt_ge_cases k c) as [C|C].
      - rewrite Hinv by lia. replace (k + (w - c) - (w - c)) with k by lia.
        destruct (Z.leb_spec (w - c) (k + (w - c))); [reflexivity|lia].
      - rewrite (Hz k C), (testbit_high w) by lia. reflexivity. }
    apply shr_end; try assumption.
    + intros ->. apply (word_ext w); try lia. intros k Hk.
      rewrite Hinv, Z.bits_0 by lia.
      destruct (Z.leb_spec (w - 0) k); [lia|reflexivity].
    + apply HQ; [apply shiftr_range; lia|exact Hhi].
Qed.

Definition ext_inv (w x msk c dst : Z) : Prop :=
  0 <= dst < 2 ^ w /\
  (forall k, 0 <= k < w - rank msk c -> Z.testbit dst k = false) /\
  forall k, 0 <= k < c -> Z.testbit msk k = true ->
    Z.testbit dst (w - rank msk c + rank msk k) = Z.testbit x k.

Lemma rwp_pext_loop : forall p w x msk n c dst (Q : Z * Z -> Prop), valid_w w ->
  0 <= x < 2 ^ w -> 0 <= msk < 2 ^ w -> 0 <= c -> c + Z.of_nat n = w ->
  ext_inv w x msk c dst ->
  (forall dst' c', 0 <= c' <= w -> ext_inv w x msk c' dst' ->
     (forall k, c' <= k -> Z.testbit msk k = false) -> Q (dst', rank msk c')) ->
  rwp (pext_loop p w n (Z.shiftr x c) (Z.shiftr msk c) dst (rank msk c)) Q.
Proof.
  intros p w x msk n. induction n as [|n IH]; intros c dst Q Hw Hx Hm Hc Hn Hinv HQ;
    cbn [pext_loop]; pose proof (valid_pos w Hw).
  - assert (E : Z.shiftr msk c = 0).
    { apply Z.bits_inj'. intros k Hk. rewrite Z.shiftr_spec, Z.bits_0 by lia.
      apply (testbit_high w); lia. }
    rewrite E. cbn [Z.eqb]. apply rwp_ok, HQ; try assumption; try lia.
    intros k Hk. apply (testbit_high w); lia.
  - destruct (Z.eqb_spec (Z.shiftr msk c) 0) as [E|E].
    + apply rwp_ok, HQ; try assumption; try lia.
      intros k Hk. apply (shiftr_zero msk c); [lia|assumption].
    + rewrite !shiftr_step by lia.
      rewrite Z.shiftr_spec, Z.add_0_l by lia.
      destruct Hinv as (Hd & Hlow & Hinv).
      assert (Hrange := rank_range msk c Hc).
      destruct (Z.testbit msk c) eqn:Eb.
      * assert (Er : rank msk (c + 1) = rank msk c + 1) by (rewrite rank_succ, Eb; lia).
        apply rwp_bind. rewrite <- Er.
        apply (push_top p w dst (Z.shiftr x c) (fun v => rwp
          (pext_loop p w n (Z.shiftr x (c + 1)) (Z.shiftr msk (c + 1)) v
             (rank msk (c + 1))) Q)); try assumption; [apply shiftr_range; lia|].
        intros v Hv Hvb. apply IH; try assumption; try lia.
        split; [assumption|]. rewrite Er. split.
        -- intros k Hk. rewrite Hvb by lia.
           destruct (Z.eqb_spec k (w - 1)); [lia|]. apply Hlow. lia.
        -- intros k Hk Hkb. destruct (Z.eq_dec k c) as [->|].
           ++ replace (w - (rank msk c + 1) + rank msk c) with (w - 1) by lia.
              rewrite Hvb, Z.eqb_refl, Z.shiftr_spec by lia. reflexivity.
           ++ pose proof (rank_lt msk k c ltac:(lia) Hkb).
              pose proof (rank_range msk k ltac:(lia)).
              rewrite Hvb by lia.
              destruct (Z.eqb_spec (w - (rank msk c + 1) + rank msk k) (w - 1)); [lia|].
              rewrite <- (Hinv k) by (assumption || lia). f_equal. lia.
      * assert (Er : rank msk (c + 1) = rank msk c) by (rewrite rank_succ, Eb; lia).
        rewrite <- Er. apply IH; try assumption; try lia.
        split; [assumption|]. rewrite Er. split; [assumption|].
        intros k Hk Hkb. apply Hinv; [|assumption].
        destruct (Z.eq_dec k c) as [->|]; [congruence|lia].
Qed.

Lemma rwp_pext : forall p w x msk (Q : Z -> Prop), valid_w w ->
  0 <= x < 2 ^ w -> 0 <= msk < 2 ^ w ->
  (forall r, 0 <= r < 2 ^ rank msk w ->
     (forall k, 0 <= k < w -> Z.testbit msk k = true ->
        Z.testbit r (rank msk k) = Z.testbit x k) -> Q r) ->
  rwp (pext p w x msk) Q.
Proof.
  intros p w x msk Q Hw Hx Hm HQ. pose proof (valid_pos w Hw).
  unfold pext. apply rwp_bind.
  rewrite <- (Z.shiftr_0_r x) at 1. rewrite <- (Z.shiftr_0_r msk) at 1.
  change (pext_loop p w (Z.to_nat w) (Z.shiftr x 0) (Z.shiftr msk 0) 0 0) with
    (pext_loop p w (Z.to_nat w) (Z.shiftr x 0) (Z.shiftr msk 0) 0 (rank msk 0)).
  apply rwp_pext_loop; try assumption; try lia.
  - split; [lia|]. split; [intros; apply Z.bits_0|]. intros; lia.
  - intros dst c Hc (Hd & Hlow & Hinv) Hz.
    assert (Hrange := rank_range msk c ltac:(lia)).
    assert (Er : rank msk w = rank msk c).
    { unfold rank at 1. replace (Z.to_nat w) with (Z.to_nat c + Z.to_nat (w - c))%nat by lia.
      rewrite count_true_app. fold (rank msk c).
      rewrite (count_true_false _ (Z.to_nat (w - c))); [lia|].
      intros k Hk. apply Hz. lia. }
    apply shr_end; try assumption; try lia.
    + intros E. apply (word_ext w); try lia. intros k Hk.
      rewrite Hlow, Z.bits_0 by lia. reflexivity.
    + apply HQ.
      * rewrite Er. apply range_of_bits; [lia|]. intros k Hk.
        rewrite Z.shiftr_spec by lia. apply (testbit_high w); lia.
      * intros k Hk Hkb. rewrite Z.shiftr_spec by (pose proof (rank_range msk k); lia).
        rewrite <- (Hinv k); [f_equal; lia| |assumption].
        destruct (Z.lt_ge_cases k c) as [C|C]; [lia|]. rewrite (Hz k C) in Hkb. discriminate.
Qed.

Lemma pdep_ok : forall p w x msk, valid_w w -> 0 <= x < 2 ^ w -> 0 <= msk < 2 ^ w ->
  exists r, pdep p w x msk = Ok r /\ 0 <= r < 2 ^ w /\
    forall k, 0 <= k < w -> Z.testbit r k =
      Z.testbit msk k && Z.testbit x (count_true (Z.testbit msk) 0 (Z.to_nat k)).
Proof.
  intros p w x msk Hw Hx Hm. apply rwp_exists, rwp_pdep; auto.
Qed.

Lemma pext_ok : forall p w x msk, valid_w w -> 0 <= x < 2 ^ w -> 0 <= msk < 2 ^ w ->
  exists r, pext p w x msk = Ok r /\
    0 <= r < 2 ^ count_true (Z.testbit msk) 0 (Z.to_nat w) /\
    forall k, 0 <= k < w -> Z.testbit msk k = true ->
      Z.testbit r (count_true (Z.testbit msk) 0 (Z.to_nat k)) = Z.testbit x k.
Proof.
  intros p w x msk Hw Hx Hm. apply rwp_exists, rwp_pext; auto.
Qed.

Lemma rank_pow : forall w msk, valid_w w -> 2 ^ rank msk w <= 2 ^ w.
Proof.
  intros w msk Hw. pose proof (valid_pos w Hw). pose proof (rank_range msk w ltac:(lia)).
  apply Z.pow_le_mono_r; lia.
Qed.

Lemma pext_pdep : forall p w x msk, valid_w w -> 0 <= x < 2 ^ w -> 0 <= msk < 2 ^ w ->
  exists r, pdep p w x msk = Ok r /\
    pext p w r msk = Ok (x mod 2 ^ count_true (Z.testbit msk) 0 (Z.to_nat w)).
Proof.
  intros p w x msk Hw Hx Hm. pose proof (valid_pos w Hw).
  apply rwp_exists, rwp_pdep; try assumption.
  intros r Hr Hb.
  assert (H1 : rwp (pext p w r msk) (fun y => y = x mod 2 ^ rank msk w)).
  { apply rwp_pext; try assumption. intros y Hy Hyb.
    pose proof (rank_range msk w ltac:(lia)).
    apply (word_ext (rank msk w)); try lia.
    - apply Z.mod_pos_bound, pow_pos. lia.
    - intros j Hj. destruct (rank_onto msk w j ltac:(lia) Hj) as (k & Hk & Hkb & <-).
      rewrite Hyb, Hb, Hkb, Z.mod_pow2_bits_low by (assumption || lia). reflexivity. }
  apply rwp_exists in H1. destruct H1 as (y & -> & ->). reflexivity.
Qed.

Lemma pdep_pext : forall p w x msk, valid_w w -> 0 <= x < 2 ^ w -> 0 <= msk < 2 ^ w ->
  exists r, pext p w x msk = Ok r /\ pdep p w r msk = Ok (Z.land x msk).
Proof.
  intros p w x msk Hw Hx Hm. pose proof (valid_pos w Hw).
  apply rwp_exists, rwp_pext; try assumption.
  intros r Hr Hb. pose proof (rank_pow w msk Hw).
  assert (H1 : rwp (pdep p w r msk) (fun y => y = Z.land x msk)).
  { apply rwp_pdep; try assumption; try lia. intros y Hy Hyb.
    apply (word_ext w); try lia; [apply land_range; lia|].
    intros k Hk. rewrite Hyb, Z.land_spec by lia.
    destruct (Z.testbit msk k) eqn:E; [|rewrite andb_false_r; reflexivity].
    rewrite Hb by assumption. rewrite andb_true_r. reflexivity. }
  apply rwp_exists in H1. destruct H1 as (y & -> & ->). reflexivity.
Qed.

(** Concatenation of two fields. *)
Lemma testbit_concat : forall n a b k, 0 <= n -> 0 <= b < 2 ^ n -> 0 <= k ->
  Z.testbit (a * 2 ^ n + b) k = if k <? n then Z.testbit b k else Z.testbit a (k - n).
Proof.
  intros n a b k Hn Hb Hk. pose proof (pow_pos n Hn).
  destruct (Z.ltb_spec k n).
  - rewrite <- (Z.mod_pow2_bits_low _ n k) by lia. f_equal.
    rewrite Z.add_comm, Z.mod_add by lia. apply Z.mod_small. lia.
  - replace k with (k - n + n) at 1 by lia. rewrite <- Z.div_pow2_bits by lia.
    f_equal. rewrite Z.add_comm, Z.div_add by lia. rewrite Z.div_small by lia. lia.
Qed.

(** Bytes. *)
Lemma byte_of_range : forall x i, 0 <= byte_of x i < 256.
Proof. intros. unfold byte_of. apply Z.mod_pos_bound. lia. Qed.

Lemma byte_of_testbit : forall x i b, 0 <= i -> 0 <= b < 8 ->
  Z.testbit (byte_of x i) b = Z.testbit x (8 * i + b).
Proof.
  intros x i b Hi Hb. unfold byte_of. change 256 with (2 ^ 8).
  rewrite Z.mod_pow2_bits_low, Z.div_pow2_bits by lia. f_equal. lia.
Qed.

Lemma set_byte_split : forall x i v, 0 <= i ->
  set_byte x i v = (x / 2 ^ (8 * i) / 256 * 2 ^ 8 + v) * 2 ^ (8 * i) + x mod 2 ^ (8 * i).
Proof.
  intros x i v Hi. unfold set_byte, byte_of.
  pose proof (pow_pos (8 * i) ltac:(lia)).
  pose proof (Z.div_mod x (2 ^ (8 * i)) ltac:(lia)).
  pose proof (Z.div_mod (x / 2 ^ (8 * i)) 256 ltac:(lia)).
  set (q := x / 2 ^ (8 * i)) in *. set (t := 2 ^ (8 * i)) in *.
  change (2 ^ 8) with 256.
  assert (E : x = (256 * (q / 256) + q mod 256) * t + x mod t) by (rewrite <- H1; lia).
  rewrite E at 1. ring.
Qed.

Lemma set_byte_testbit : forall x i v j b, 0 <= i -> 0 <= v < 256 -> 0 <= j ->
  0 <= b < 8 ->
  Z.testbit (set_byte x i v) (8 * j + b) =
  if j =? i then Z.testbit v b else Z.testbit x (8 * j + b).
Proof.
  intros x i v j b Hi Hv Hj Hb. rewrite set_byte_split by assumption.
  pose proof (pow_pos (8 * i) ltac:(lia)).
  rewrite testbit_concat by (try apply Z.mod_pos_bound; lia).
  destruct (Z.ltb_spec (8 * j + b) (8 * i)).
  - destruct (Z.eqb_spec j i); [lia|]. apply Z.mod_pow2_bits_low. lia.
  - rewrite testbit_concat by lia.
    destruct (Z.ltb_spec (8 * j + b - 8 * i) 8).
    + destruct (Z.eqb_spec j i); [|lia]. f_equal. lia.
    + destruct (Z.eqb_spec j i); [lia|]. change 256 with (2 ^ 8).
      rewrite !Z.div_pow2_bits by lia. f_equal. lia.
Qed.

Lemma byteswap_loop_ok : forall w n x fuel i src, w = 8 * n -> 0 <= n -> 0 <= i ->
  n / 2 <= i + Z.of_nat fuel -> (n = 1 \/ 2 * (n / 2) = n) -> i <= n / 2 ->
  (forall j b, 0 <= j < n -> 0 <= b < 8 -> Z.testbit src (8 * j + b) =
     if (j <? i) || (n - i <=? j) then Z.testbit x (8 * (n - 1 - j) + b)
     else Z.testbit x (8 * j + b)) ->
  (forall k, 8 * n <= k -> Z.testbit src k = false) ->
  rwp (byteswap_loop w fuel i src) (fun r =>
    (forall k, 8 * n <= k -> Z.testbit r k = false) /\
    forall j b, 0 <= j < n -> 0 <= b < 8 ->
      Z.testbit r (8 * j + b) = Z.testbit x (8 * (n - 1 - j) + b)).
Proof.
  intros w n x fuel. induction fuel as [|f IH];
    intros i src Hw Hn Hi Hf Heven Hle Hinv Hhi; cbn [byteswap_loop];
    replace (w / 8) with n by (subst w; rewrite Z.mul_comm, Z.div_mul; lia);
    (destruct (Z.leb_spec (n / 2) i) as [C|C]; [|try lia]).
  1,2: apply rwp_ok; split; [assumption|]; intros j b Hj Hb; rewrite Hinv by assumption;
    destruct Heven as [->|He];
    [assert (j = 0) by lia; subst; replace (1 - 1 - 0) with 0 by lia;
     destruct ((0 <? i) || (1 - i <=? 0)); reflexivity|];
    destruct (Z.ltb_spec j i); [reflexivity|];
    destruct (Z.leb_spec (n - i) j); [reflexivity|lia].
  assert (Hn2 : 2 * (n / 2) <= n) by (apply Z.mul_div_le; lia).
  apply IH; try assumption; try lia.
  - intros j b Hj Hb.
    rewrite !set_byte_testbit by (try apply byte_of_range; lia).
    rewrite !byte_of_testbit by lia.
    destruct (Z.eqb_spec j (n - 1 - i)) as [E|E].
    + rewrite Hinv by lia.
      destruct (Z.ltb_spec i i); [lia|]. destruct (Z.leb_spec (n - i) i); [lia|].
      cbn [orb]. destruct (Z.leb_spec (n - (i + 1)) j); [|lia].
      rewrite orb_true_r. f_equal. lia.
    + destruct (Z.eqb_spec j i) as [E2|E2].
      * rewrite Hinv by lia.
        destruct (Z.ltb_spec (n - 1 - i) i); [lia|].
        destruct (Z.leb_spec (n - i) (n - 1 - i)); [lia|].
        cbn [orb]. destruct (Z.ltb_spec j (i + 1)); [|lia]. cbn [orb]. f_equal. lia.
      * rewrite Hinv by assumption.
        destruct (Z.ltb_spec j i), (Z.leb_spec (n - i) j), (Z.ltb_spec j (i + 1)),
          (Z.leb_spec (n - (i + 1)) j); try reflexivity; lia.
  - intros k Hk. replace k with (8 * (k / 8) + k mod 8) by (rewrite <- Z.div_mod; lia).
    pose proof (Z.mod_pos_bound k 8). assert (n <= k / 8) by (apply Z.div_le_lower_bound; lia).
    rewrite !set_byte_testbit by (try apply byte_of_range; lia).
    destruct (Z.eqb_spec (k / 8) (n - 1 - i)); [lia|].
    destruct (Z.eqb_spec (k / 8) i); [lia|]. apply Hhi. lia.
Qed.

Lemma bswap_bits : forall n x, 
  0 <= builtin_bswap n x < 2 ^ (8 * Z.of_nat n) /\
  forall j b, 0 <= j < Z.of_nat n -> 0 <= b < 8 ->
    Z.testbit (builtin_bswap n x) (8 * j + b) =
    Z.testbit x (8 * (Z.of_nat n - 1 - j) + b).
Proof.
  intros n. induction n as [|n IH]; intros x; cbn [builtin_bswap].
  - split; [cbn; lia|]. intros; lia.
  - destruct (IH (x / 256)) as [Hr Hb].
    pose proof (Z.mod_pos_bound x 256 ltac:(lia)).
    assert (E : 2 ^ (8 * Z.of_nat (S n)) = 256 * 2 ^ (8 * Z.of_nat n)).
    { change 256 with (2 ^ 8). rewrite <- Z.pow_add_r by lia. f_equal. lia. }
    split; [rewrite E; nia|]. intros j b Hj Hb8.
    rewrite testbit_concat by lia.
    destruct (Z.ltb_spec (8 * j + b) (8 * Z.of_nat n)).
    + rewrite Hb by lia. change 256 with (2 ^ 8). rewrite Z.div_pow2_bits by lia.
      f_equal. lia.
    + change 256 with (2 ^ 8). rewrite Z.mod_pow2_bits_low by lia. f_equal. lia.
Qed.

Lemma w_bytes : forall w, valid_w w ->
  exists n, w = 8 * n /\ w / 8 = n /\ 1 <= n <= 16 /\ (n = 1 \/ 2 * (n / 2) = n) /\ n / 2 <= 8.
Proof.
  intros w [->|[->|[->|[->| ->]]]]; [exists 1|exists 2|exists 4|exists 8|exists 16];
    repeat split; try reflexivity; try lia; cbn; auto; lia.
Qed.

Lemma byteswap_intrin_ok : forall w x, valid_w w -> 0 <= x < 2 ^ w ->
  0 <= byteswap_intrin w x < 2 ^ w /\
  forall j b, 0 <= j < w / 8 -> 0 <= b < 8 ->
    Z.testbit (byteswap_intrin w x) (8 * j + b) = Z.testbit x (8 * (w / 8 - 1 - j) + b).
Proof.
  intros w x Hw Hx. destruct (w_bytes w Hw) as (n & E & -> & Hn & _ & _).
  unfold byteswap_intrin. destruct (Z.eqb_spec w 8) as [E8|E8].
  - split; [assumption|]. intros j b Hj Hb. f_equal. lia.
  - destruct (Z.eqb_spec w 128) as [E128|E128].
    { assert (n = 16) by lia. subst n. subst w. clear E8.
      change (2 ^ 128) with (2 ^ 64 * 2 ^ 64) in *.
      destruct (bswap_bits 8 (x / 2 ^ 64)) as [H1 H2].
      destruct (bswap_bits 8 (x mod 2 ^ 64)) as [H3 H4].
      change (8 * Z.of_nat 8) with 64 in *. change (Z.of_nat 8) with 8 in *.
      set (lo := builtin_bswap 8 (x / 2 ^ 64)) in *.
      set (hi := builtin_bswap 8 (x mod 2 ^ 64)) in *. clearbody lo hi.
      split; [nia|]. intros j b Hj Hb.
      destruct (Z.lt_ge_cases j 8) as [L|L].
      - rewrite <- (Z.mod_pow2_bits_low _ 64) by lia. rewrite Z.mod_add by lia.
        rewrite Z.mod_small by lia. rewrite H2 by lia. rewrite Z.div_pow2_bits by lia.
        f_equal. lia.
      - replace (8 * j + b) with (8 * (j - 8) + b + 64) by lia.
        rewrite <- Z.div_pow2_bits by lia. rewrite Z.div_add by lia.
        rewrite Z.div_small by lia. cbn [Z.add]. rewrite H4 by lia.
        rewrite Z.mod_pow2_bits_low by lia. f_equal. lia. }
    replace (w / 8) with n by (subst w; rewrite Z.mul_comm, Z.div_mul; lia).
    destruct (bswap_bits (Z.to_nat n) x) as [H1 H2]. rewrite Z2Nat.id in * by lia.
    split; [subst w; assumption|]. intros j b Hj Hb. apply H2; lia.
Qed.

Lemma by_bytes : forall w x y, valid_w w -> 0 <= x < 2 ^ w -> 0 <= y < 2 ^ w ->
  (forall j b, 0 <= j < w / 8 -> 0 <= b < 8 ->
     Z.testbit x (8 * j + b) = Z.testbit y (8 * j + b)) -> x = y.
Proof.
  intros w x y Hw Hx Hy H. pose proof (valid_pos w Hw).
  destruct (w_bytes w Hw) as (n & E & En & Hn & _ & _). rewrite En in H.
  apply (word_ext w); try assumption; try lia. intros k Hk.
  rewrite (Z.div_mod k 8) by lia. apply H.
  - split; [apply Z.div_pos; lia|apply Z.div_lt_upper_bound; lia].
  - apply Z.mod_pos_bound. lia.
Qed.

Lemma byteswap_fallback_eq : forall w x, valid_w w -> 0 <= x < 2 ^ w ->
  byteswap_fallback w x = Ok (byteswap_intrin w x).
Proof.
  intros w x Hw Hx. pose proof (valid_pos w Hw).
  destruct (byteswap_intrin_ok w x Hw Hx) as [Hr Hb].
  destruct (w_bytes w Hw) as (n & E & En & Hn & He & H4).
  assert (H1 : rwp (byteswap_fallback w x) (fun r => r = byteswap_intrin w x)).
  { unfold byteswap_fallback.
    eapply rwp_conseq; [apply (byteswap_loop_ok w n x); try assumption; try lia|].
    - apply Z.div_pos; lia.
    - intros j b Hj Hb8. destruct (Z.ltb_spec j 0); [lia|].
      destruct (Z.leb_spec (n - 0) j); [lia|reflexivity].
    - intros k Hk. apply (testbit_high w); lia.
    - cbn beta. intros r [Hhi Hrb]. apply (by_bytes w); try assumption.
      + apply range_of_bits; [lia|]. intros k Hk. apply Hhi. lia.
      + intros j b Hj Hb8. rewrite Hb, Hrb by lia. rewrite En. reflexivity. }
  apply rwp_exists in H1. destruct H1 as (r & -> & ->). reflexivity.
Qed.

Lemma byteswap_twice : forall w x, valid_w w -> 0 <= x < 2 ^ w ->
  byteswap_intrin w (byteswap_intrin w x) = x.
Proof.
  intros w x Hw Hx. destruct (byteswap_intrin_ok w x Hw Hx) as [Hr Hb].
  destruct (byteswap_intrin_ok w _ Hw Hr) as [Hr2 Hb2].
  apply (by_bytes w); try assumption. intros j b Hj Hb8.
  rewrite Hb2, Hb by lia. f_equal. lia.
Qed.

(** Carries and borrows. *)
Lemma wrap_sub : forall w s c, 0 <= w -> 0 <= s - (if c : bool then 2 ^ w else 0) < 2 ^ w ->
  wrap w s = s - (if c then 2 ^ w else 0).
Proof.
  intros w s c Hw H. unfold wrap. symmetry.
  apply (Z.mod_unique_pos s (2 ^ w) (if c then 1 else 0)); destruct c; lia.
Qed.

Lemma wrap_add : forall w s c, 0 <= w -> 0 <= s + (if c : bool then 2 ^ w else 0) < 2 ^ w ->
  wrap w s = s + (if c then 2 ^ w else 0).
Proof.
  intros w s c Hw H. unfold wrap. symmetry.
  apply (Z.mod_unique_pos s (2 ^ w) (if c then -1 else 0)); destruct c; lia.
Qed.

Lemma add_fb : forall w a b c, valid_w w -> 0 <= a < 2 ^ w -> 0 <= b < 2 ^ w ->
  0 <= snd (addcarry_fallback w c a b) < 2 ^ w /\
  snd (addcarry_fallback w c a b) +
    (if fst (addcarry_fallback w c a b) then 2 ^ w else 0) =
  a + b + (if c =? 0 then 0 else 1).
Proof.
  intros w a b c Hw Ha Hb. pose proof (valid_pos w Hw).
  unfold addcarry_fallback. cbv zeta. cbn [fst snd].
  destruct (Z.eqb_spec c 0); cbn [negb b2z];
    (destruct (Z.lt_ge_cases (a + b + (if c =? 0 then 0 else 1)) (2 ^ w)) as [C|C];
     destruct (Z.eqb_spec c 0); try lia;
     [rewrite (wrap_sub w _ false) by lia|rewrite (wrap_sub w _ true) by lia]);
    repeat match goal with
    | |- context [?x <? ?y] => destruct (Z.ltb_spec x y)
    | |- context [?x <=? ?y] => destruct (Z.leb_spec x y)
    end; cbn [orb]; lia.
Qed.

Lemma add_in : forall w a b c, valid_w w -> 0 <= a < 2 ^ w -> 0 <= b < 2 ^ w ->
  0 <= c < 256 -> addcarry_intrin w c a b = addcarry_fallback w c a b.
Proof.
  intros w a b c Hw Ha Hb Hc. pose proof (valid_pos w Hw).
  unfold addcarry_intrin. destruct ((w <? 32) || (64 <? w)); [reflexivity|].
  rewrite (wrap_small 8 c) by lia.
  destruct (add_fb w a b c Hw Ha Hb) as [H1 H2].
  destruct (addcarry_fallback w c a b) as [co d]. cbn [fst snd] in *.
  replace (b2z (negb (c =? 0))) with (if c =? 0 then 0 else 1)
    by (destruct (c =? 0); reflexivity).
  rewrite <- H2. f_equal.
  - destruct co, (Z.leb_spec (2 ^ w) (d + 2 ^ w)), (Z.leb_spec (2 ^ w) (d + 0));
      try reflexivity; lia.
  - change ((d + (if co then 2 ^ w else 0)) mod 2 ^ w) with
      (wrap w (d + (if co then 2 ^ w else 0))).
    rewrite (wrap_sub w _ co) by lia. lia.
Qed.

Lemma sub_fb : forall w a b c, valid_w w -> 0 <= a < 2 ^ w -> 0 <= b < 2 ^ w ->
  0 <= snd (subborrow_fallback w c a b) < 2 ^ w /\
  snd (subborrow_fallback w c a b) -
    (if fst (subborrow_fallback w c a b) then 2 ^ w else 0) =
  a - b - (if c =? 0 then 0 else 1).
Proof.
  intros w a b c Hw Ha Hb. pose proof (valid_pos w Hw).
  unfold subborrow_fallback. cbn [fst snd].
  assert (E : forall t, wrap w (a - arith w t) = wrap w (a - t)).
  { intros t. unfold arith. destruct (w <? 32); [reflexivity|].
    unfold wrap. rewrite Zminus_mod_idemp_r. reflexivity. }
  rewrite E.
  destruct (Z.eqb_spec c 0); cbn [negb b2z].
  - destruct (Z.ltb_spec a b).
    + rewrite (wrap_add w _ true) by lia. lia.
    + rewrite (wrap_add w _ false) by lia. lia.
  - destruct (Z.leb_spec a b).
    + rewrite (wrap_add w _ true) by lia. lia.
    + rewrite (wrap_add w _ false) by lia. lia.
Qed.

Lemma sub_in : forall w a b c, valid_w w -> 0 <= a < 2 ^ w -> 0 <= b < 2 ^ w ->
  0 <= c < 256 -> subborrow_intrin w c a b = subborrow_fallback w c a b.
Proof.
  intros w a b c Hw Ha Hb Hc. pose proof (valid_pos w Hw).
  unfold subborrow_intrin. destruct ((w <? 32) || (64 <? w)); [reflexivity|].
  rewrite (wrap_small 8 c) by lia.
  destruct (sub_fb w a b c Hw Ha Hb) as [H1 H2].
  destruct (subborrow_fallback w c a b) as [co d]. cbn [fst snd] in *.
  replace (b2z (negb (c =? 0))) with (if c =? 0 then 0 else 1)
    by (destruct (c =? 0); reflexivity).
  rewrite <- H2. f_equal.
  - destruct co, (Z.ltb_spec (d - 2 ^ w) 0), (Z.ltb_spec (d - 0) 0);
      try reflexivity; lia.
  - change ((d - (if co then 2 ^ w else 0)) mod 2 ^ w) with
      (wrap w (d - (if co then 2 ^ w else 0))).
    rewrite (wrap_add w _ co) by lia. lia.
Qed.

Lemma addcarry_ok : forall w a b c, valid_w w -> 0 <= a < 2 ^ w -> 0 <= b < 2 ^ w ->
  (0 <= c < 256 -> addcarry_intrin w c a b = addcarry_fallback w c a b) /\
  exists co d, addcarry_fallback w c a b = (co, d) /\ 0 <= d < 2 ^ w /\
    d + (if co then 2 ^ w else 0) = a + b + (if c =? 0 then 0 else 1).
Proof.
  intros w a b c Hw Ha Hb. split; [exact (add_in w a b c Hw Ha Hb)|].
  pose proof (add_fb w a b c Hw Ha Hb) as H.
  destruct (addcarry_fallback w c a b) as [co d]. exists co, d. split; [reflexivity|exact H].
Qed.

Lemma subborrow_ok : forall w a b c, valid_w w -> 0 <= a < 2 ^ w -> 0 <= b < 2 ^ w ->
  (0 <= c < 256 -> subborrow_intrin w c a b = subborrow_fallback w c a b) /\
  exists co d, subborrow_fallback w c a b = (co, d) /\ 0 <= d < 2 ^ w /\
    d - (if co then 2 ^ w else 0) = a - b - (if c =? 0 then 0 else 1).
Proof.
  intros w a b c Hw Ha Hb. split; [exact (sub_in w a b c Hw Ha Hb)|].
  pose proof (sub_fb w a b c Hw Ha Hb) as H.
  destruct (subborrow_fallback w c a b) as [co d]. exists co, d. split; [reflexivity|exact H].
Qed.

(** A carry of a wide type whose low byte is zero is lost by the
    intrinsics. *)
Lemma addcarry_lost : forall w a b c, 32 <= w <= 64 -> c mod 256 = 0 ->
  addcarry_intrin w c a b = addcarry_intrin w 0 a b /\
  subborrow_intrin w c a b = subborrow_intrin w 0 a b.
Proof.
  intros w a b c Hw Hc. unfold addcarry_intrin, subborrow_intrin.
  destruct (Z.ltb_spec w 32) as [C|C]; [lia|]. destruct (Z.ltb_spec 64 w) as [C2|C2]; [lia|].
  cbn [orb]. unfold wrap. change (2 ^ 8) with 256. rewrite Hc. split; reflexivity.
Qed.

Lemma addcarry_wide_false : exists w a b c, valid_w w /\ 0 <= a < 2 ^ w /\
  0 <= b < 2 ^ w /\ 0 < c < 2 ^ 31 /\
  addcarry_intrin w c a b <> addcarry_fallback w c a b /\
  subborrow_intrin w c a b <> subborrow_fallback w c a b.
Proof.
  exists 64, 5, 5, 256. unfold valid_w.
  repeat split; try lia; vm_compute; discriminate.
Qed.

(** Multiplication by halves. *)
Lemma half_pow : forall w, valid_w w -> 2 ^ w = 2 ^ (w / 2) * 2 ^ (w / 2) /\ 0 < w / 2 /\
  w - w / 2 = w / 2.
Proof. intros w [->|[->|[->|[->| ->]]]]; repeat split; reflexivity. Qed.

Lemma mul_core : forall h H a1 a0 b1 b0 mi c lo d,
  H = h * h -> 0 < h -> 0 <= a0 < h -> 0 <= b0 < h -> 0 <= a1 < h -> 0 <= b1 < h ->
  mi + c * H = a1 * b0 + a0 * b1 -> 0 <= mi < H -> 
  lo + d * H = a0 * b0 + mi mod h * h ->
  let hi := mi / h + a1 * b1 + c * h + d in
  hi * H + lo = (a1 * h + a0) * (b1 * h + b0).
Proof.
  intros h H a1 a0 b1 b0 mi c lo d EH Hh Ha0 Hb0 Ha1 Hb1 Hmi Hr Hlo hi.
  pose proof (Z.div_mod mi h ltac:(lia)).
  unfold hi. clear hi. set (q := mi / h) in *. set (r := mi mod h) in *.
  replace ((a1 * h + a0) * (b1 * h + b0)) with
    (a1 * b1 * H + (a1 * b0 + a0 * b1) * h + a0 * b0) by (rewrite EH; ring).
  rewrite <- Hmi, H0.
  replace lo with (a0 * b0 + r * h - d * H) by lia. rewrite EH. ring.
Qed.

Lemma mod_shl : forall h mi, 0 < h -> (mi * h) mod (h * h) = mi mod h * h.
Proof.
  intros h mi Hh. rewrite Z.mul_mod_distr_r by lia. reflexivity.
Qed.

Lemma carry_sum : forall w a b, 0 <= w -> 0 <= a < 2 ^ w -> 0 <= b < 2 ^ w ->
  wrap w (a + b) + b2z ((wrap w (a + b) <? a) || (wrap w (a + b) <? b)) * 2 ^ w = a + b.
Proof.
  intros w a b Hw Ha Hb. destruct (Z.lt_ge_cases (a + b) (2 ^ w)) as [C|C].
  - rewrite (wrap_sub w _ false) by lia.
    destruct (Z.ltb_spec (a + b - 0) a), (Z.ltb_spec (a + b - 0) b); cbn [orb b2z]; lia.
  - rewrite (wrap_sub w _ true) by lia.
    destruct (Z.ltb_spec (a + b - 2 ^ w) a), (Z.ltb_spec (a + b - 2 ^ w) b);
      cbn [orb b2z]; lia.
Qed.

Lemma b2z_range : forall b, 0 <= b2z b <= 1.
Proof. intros []; cbn; lia. Qed.

Lemma mulx_fallback_ok : forall p w a b, valid_w w -> 0 <= a < 2 ^ w -> 0 <= b < 2 ^ w ->
  mulx_fallback p w a b = Ok (a * b / 2 ^ w, (a * b) mod 2 ^ w).
Proof.
  intros p w a b Hw Ha Hb. pose proof (valid_pos w Hw) as Hwp.
  pose proof (prom_ge w Hw) as Hpr. destruct (half_pow w Hw) as (EH & Hh & Hho).
  assert (Hgoal : rwp (mulx_fallback p w a b)
            (fun q => q = (a * b / 2 ^ w, (a * b) mod 2 ^ w))).
  2: { apply rwp_exists in Hgoal. destruct Hgoal as (q & -> & ->). reflexivity. }
  unfold mulx_fallback. cbv zeta.
  replace (w - w / 2) with (w / 2) by lia.
  set (o := w / 2) in *. set (h := 2 ^ o) in *.
  assert (Hhp : 0 < h) by (apply pow_pos; lia).
  assert (Eones : wrap w (Z.lnot 0) = Z.ones w)
    by (change (Z.lnot 0) with (-1); apply all_ones_eq; lia).
  rewrite Eones. apply rwp_bind, rwp_cshr; [lia|].
  assert (Elow : Z.shiftr (Z.ones w) o = Z.ones o).
  { apply Z.bits_inj'. intros k Hk. rewrite Z.shiftr_spec by lia.
    rewrite !Z.testbit_ones_nonneg by lia.
    destruct (Z.ltb_spec (k + o) w), (Z.ltb_spec k o); try reflexivity; lia. }
  rewrite Elow.
  assert (Hho2 : h < 2 ^ w) by (apply Z.pow_lt_mono_r; lia).
  assert (Eo : Z.ones o = h - 1) by (rewrite Z.ones_equiv; reflexivity).
  rewrite (wrap_small w (Z.ones o)) by lia.
  rewrite !Z.land_ones by lia. fold h.
  apply rwp_bind, rwp_cshr; [lia|]. apply rwp_bind, rwp_cshr; [lia|].
  rewrite !Z.shiftr_div_pow2 by lia. fold h.
  assert (Ha0 := Z.mod_pos_bound a h Hhp). assert (Hb0 := Z.mod_pos_bound b h Hhp).
  assert (Ha1 : 0 <= a / h < h)
    by (split; [apply Z.div_pos; lia|apply Z.div_lt_upper_bound; lia]).
  assert (Hb1 : 0 <= b / h < h)
    by (split; [apply Z.div_pos; lia|apply Z.div_lt_upper_bound; lia]).
  assert (Ea : a = a / h * h + a mod h) by (pose proof (Z.div_mod a h ltac:(lia)); lia).
  assert (Eb : b = b / h * h + b mod h) by (pose proof (Z.div_mod b h ltac:(lia)); lia).
  set (a1 := a / h) in *. set (a0 := a mod h) in *.
  set (b1 := b / h) in *. set (b0 := b mod h) in *.
  assert (Hpr' : forall x y, 0 <= x < h -> 0 <= y < h -> 0 <= x * y < 2 ^ w).
  { intros x y Hx Hy. rewrite EH. split; [lia|]. apply Z.mul_lt_mono_nonneg; lia. }
  rewrite (wrap_small w a0), (wrap_small w b0) by lia.
  rewrite (wrap_small w (a0 * b0)) by (apply Hpr'; lia).
  rewrite (wrap_small w (a1 * b0)) by (apply Hpr'; lia).
  rewrite (wrap_small w (a0 * b1)) by (apply Hpr'; lia).
  assert (Hmi := carry_sum w (a1 * b0) (a0 * b1) ltac:(lia)
                   (Hpr' a1 b0 Ha1 Hb0) (Hpr' a0 b1 Ha0 Hb1)).
  assert (Hmir := wrap_range w (a1 * b0 + a0 * b1) ltac:(lia)).
  set (mi := wrap w (a1 * b0 + a0 * b1)) in *.
  set (c := (mi <? a1 * b0) || (mi <? a0 * b1)) in *.
  apply rwp_bind, rwp_cshl; try assumption; try lia.
  intros s Es. rewrite !Es.
  assert (Es2 : wrap w (Z.shiftl mi o) = mi mod h * h).
  { unfold wrap. rewrite Z.shiftl_mul_pow2 by lia. fold h. rewrite EH. apply mod_shl. lia. }
  rewrite Es2.
  assert (Hms : 0 <= mi mod h * h < 2 ^ w).
  { pose proof (Z.mod_pos_bound mi h Hhp). rewrite EH. split; [lia|].
    apply Z.mul_lt_mono_pos_r; lia. }
  assert (Hlo := carry_sum w (a0 * b0) (mi mod h * h) ltac:(lia)
                   (Hpr' a0 b0 Ha0 Hb0) Hms).
  assert (Hlor := wrap_range w (a0 * b0 + mi mod h * h) ltac:(lia)).
  set (lo := wrap w (a0 * b0 + mi mod h * h)) in *.
  set (d := (lo <? a0 * b0) || (lo <? mi mod h * h)) in *.
  pose proof (b2z_range c). pose proof (b2z_range d).
  assert (1 < 2 ^ w) by (apply Z.pow_gt_1; lia).
  apply rwp_bind, rwp_cshl; try assumption; try lia.
  intros s2 Es3. rewrite !Es3.
  assert (Es4 : wrap w (Z.shiftl (b2z c) o) = b2z c * h).
  { rewrite Z.shiftl_mul_pow2 by lia. fold h. apply wrap_small.
    destruct c; cbn [b2z]; lia. }
  rewrite Es4.
  apply rwp_bind, rwp_cshr; [lia|]. rewrite Z.shiftr_div_pow2 by lia. fold h.
  assert (Hmh : 0 <= mi / h < h).
  { split; [apply Z.div_pos; lia|apply Z.div_lt_upper_bound; lia]. }
  rewrite (wrap_small w (mi / h)) by lia.
  assert (Hcore := mul_core h (2 ^ w) a1 a0 b1 b0 mi (b2z c) lo (b2z d) EH Hhp Ha0 Hb0
                     Ha1 Hb1 Hmi Hmir Hlo). cbv zeta in Hcore.
  rewrite <- Ea, <- Eb in Hcore.
  assert (Hab : 0 <= a * b < 2 ^ w * 2 ^ w).
  { split; [lia|]. apply Z.mul_lt_mono_nonneg; lia. }
  set (hi := mi / h + a1 * b1 + b2z c * h + b2z d) in *.
  assert (Hhi : hi = a * b / 2 ^ w).
  { apply (Z.div_unique_pos (a * b) (2 ^ w) hi lo); lia. }
  assert (Hhir : 0 <= hi < 2 ^ w).
  { rewrite Hhi. split; [apply Z.div_pos; lia|apply Z.div_lt_upper_bound; lia]. }
  apply rwp_ok. rewrite (wrap_small w hi) by assumption. rewrite Hhi. f_equal.
  apply (Z.mod_unique_pos (a * b) (2 ^ w) hi lo); lia.
Qed.

Lemma mulx_ok : forall p w a b, valid_w w -> 0 <= a < 2 ^ w -> 0 <= b < 2 ^ w ->
  mulx_intrin p w a b = mulx_fallback p w a b /\
  exists hi lo, mulx_fallback p w a b = Ok (hi, lo) /\
    0 <= hi < 2 ^ w /\ 0 <= lo < 2 ^ w /\ hi * 2 ^ w + lo = a * b.
Proof.
  intros p w a b Hw Ha Hb. pose proof (valid_pos w Hw).
  assert (0 < 2 ^ w) by (apply pow_pos; lia).
  assert (Hab : 0 <= a * b < 2 ^ w * 2 ^ w).
  { split; [lia|]. apply Z.mul_lt_mono_nonneg; lia. }
  assert (Hq : 0 <= a * b / 2 ^ w < 2 ^ w).
  { split; [apply Z.div_pos; lia|apply Z.div_lt_upper_bound; lia]. }
  rewrite mulx_fallback_ok by assumption. split.
  - unfold mulx_intrin. destruct (Z.eqb_spec w 64); [|apply mulx_fallback_ok; assumption].
    rewrite Z.shiftr_div_pow2 by lia. rewrite (wrap_small w (a * b / 2 ^ w)) by lia.
    reflexivity.
  - exists (a * b / 2 ^ w), ((a * b) mod 2 ^ w). split; [reflexivity|].
    split; [assumption|]. split; [apply Z.mod_pos_bound; lia|].
    pose proof (Z.div_mod (a * b) (2 ^ w) ltac:(lia)). lia.
Qed.

(** Double shifts. *)
Lemma shld_ok : forall p w d s c, valid_w w -> 0 <= d < 2 ^ w -> 0 <= s < 2 ^ w ->
  0 <= c < 2 * w -> (c = 0 -> w < 32) ->
  shld p w d s c = Ok ((d * 2 ^ w + s) * 2 ^ c mod 2 ^ (2 * w) / 2 ^ w).
Proof.
  intros p w d s c Hw Hd Hs Hc H0. pose proof (valid_pos w Hw).
  pose proof (prom_ge w Hw).
  assert (Hp32 : w < 32 -> prom w = 32).
  { intros C. unfold prom. destruct (Z.ltb_spec w 32); [reflexivity|lia]. }
  assert (Hw1 : 0 < 2 ^ w) by (apply pow_pos; lia).
  set (v := (d * 2 ^ w + s) * 2 ^ c mod 2 ^ (2 * w) / 2 ^ w).
  assert (Hv : 0 <= v < 2 ^ w).
  { assert (E2 : 2 ^ (2 * w) = 2 ^ w * 2 ^ w) by (rewrite <- Z.pow_add_r by lia; f_equal; lia).
    unfold v. pose proof (Z.mod_pos_bound ((d * 2 ^ w + s) * 2 ^ c) (2 ^ (2 * w))
                            ltac:(apply pow_pos; lia)).
    split; [apply Z.div_pos; lia|apply Z.div_lt_upper_bound; lia]. }
  assert (Hvb : forall k, 0 <= k < w -> Z.testbit v k =
    if k <? c - w then false
    else if k <? c then Z.testbit s (k + w - c) else Z.testbit d (k - c)).
  { intros k Hk. unfold v. rewrite Z.div_pow2_bits, Z.mod_pow2_bits_low by lia.
    destruct (Z.ltb_spec k (c - w)).
    - apply Z.mul_pow2_bits_low. lia.
    - rewrite Z.mul_pow2_bits by lia. rewrite testbit_concat by lia.
      destruct (Z.ltb_spec (k + w - c) w), (Z.ltb_spec k c); try lia; f_equal; lia. }
  assert (Hgoal : rwp (shld p w d s c) (fun r => r = v)).
  2: { apply rwp_exists in Hgoal. destruct Hgoal as (r & -> & ->). reflexivity. }
  unfold shld. destruct (Z.ltb_spec c w) as [C|C].
  - apply rwp_bind, rwp_cshl; try assumption; try lia.
    intros l El. apply rwp_bind, rwp_cshr; [destruct (Z.eq_dec c 0); lia|].
    apply rwp_ok. apply (word_ext w); try assumption; try lia; [apply wrap_range; lia|].
    intros k Hk. rewrite Hvb, wrap_testbit, Z.lor_spec, Z.shiftr_spec by lia.
    assert (Es : Z.testbit l k = Z.testbit d (k - c)).
    { rewrite <- (shl_testbit w l d c) by (assumption || lia).
      rewrite wrap_testbit by lia. destruct (Z.ltb_spec k w); [reflexivity|lia]. }
    rewrite Es. destruct (Z.ltb_spec k w); [|lia]. destruct (Z.ltb_spec k (c - w)); [lia|].
    destruct (Z.ltb_spec k c); cbn [andb].
    + rewrite Z.testbit_neg_r by lia. cbn [orb]. f_equal. lia.
    + rewrite (testbit_high w s) by lia. apply orb_false_r.
  - apply rwp_bind, rwp_cshl; try assumption; try lia.
    intros l El. apply rwp_ok. destruct (Z.ltb_spec c (w + w)); [|lia]. cbn [b2z].
    rewrite Z.mul_1_r.
    apply (word_ext w); try assumption; try lia; [apply wrap_range; lia|].
    intros k Hk. rewrite Hvb by lia. rewrite (shl_testbit w l s (c - w)) by (assumption || lia).
    destruct (Z.ltb_spec k (c - w)); [apply Z.testbit_neg_r; lia|].
    destruct (Z.ltb_spec k c); [f_equal; lia|lia].
Qed.

Lemma shrd_ok : forall p w d s c, valid_w w -> 0 <= d < 2 ^ w -> 0 <= s < 2 ^ w ->
  0 <= c < 2 * w -> (c = 0 -> w < 32) ->
  shrd p w d s c = Ok ((s * 2 ^ w + d) / 2 ^ c mod 2 ^ w).
Proof.
  intros p w d s c Hw Hd Hs Hc H0. pose proof (valid_pos w Hw).
  pose proof (prom_ge w Hw).
  assert (Hp32 : w < 32 -> prom w = 32).
  { intros C. unfold prom. destruct (Z.ltb_spec w 32); [reflexivity|lia]. }
  assert (Hw1 : 0 < 2 ^ w) by (apply pow_pos; lia).
  set (v := (s * 2 ^ w + d) / 2 ^ c mod 2 ^ w).
  assert (Hv : 0 <= v < 2 ^ w) by (apply Z.mod_pos_bound; lia).
  assert (Hvb : forall k, 0 <= k < w -> Z.testbit v k =
    if k + c <? w then Z.testbit d (k + c) else Z.testbit s (k + c - w)).
  { intros k Hk. unfold v. rewrite Z.mod_pow2_bits_low, Z.div_pow2_bits by lia.
    apply testbit_concat; lia. }
  assert (Hgoal : rwp (shrd p w d s c) (fun r => r = v)).
  2: { apply rwp_exists in Hgoal. destruct Hgoal as (r & -> & ->). reflexivity. }
  unfold shrd. destruct (Z.ltb_spec c w) as [C|C].
  - apply rwp_bind, rwp_cshr; [lia|].
    apply rwp_bind, rwp_cshl; try assumption; try lia.
    intros l El.
    apply rwp_ok. apply (word_ext w); try assumption; try lia; [apply wrap_range; lia|].
    intros k Hk. rewrite Hvb, wrap_testbit, Z.lor_spec, Z.shiftr_spec by lia.
    assert (Es : Z.testbit l k = Z.testbit s (k - (w - c))).
    { rewrite <- (shl_testbit w l s (w - c)) by (assumption || lia).
      rewrite wrap_testbit by lia. destruct (Z.ltb_spec k w); [reflexivity|lia]. }
    rewrite Es. destruct (Z.ltb_spec k w); [|lia].
    destruct (Z.ltb_spec (k + c) w); cbn [andb].
    + rewrite (Z.testbit_neg_r s) by lia. apply orb_false_r.
    + rewrite (testbit_high w d) by lia. cbn [orb]. f_equal. lia.
  - apply rwp_bind, rwp_cshr; [lia|].
    apply rwp_ok. destruct (Z.ltb_spec c (w + w)); [|lia]. cbn [b2z].
    rewrite Z.mul_1_r.
    apply (word_ext w); try assumption; try lia; [apply wrap_range; lia|].
    intros k Hk. rewrite Hvb, (shr_testbit w s (c - w)) by lia.
    destruct (Z.ltb_spec (k + c) w); [lia|]. f_equal. lia.
Qed.

(** Counts of at least twice the width on a machine without undefined shifts. *)
Lemma shd_big : forall o w d s c, valid_w w -> 2 * w <= c ->
  shld (Hw o) w d s c = Ok 0 /\ shrd (Hw o) w d s c = Ok 0.
Proof.
  intros o w d s c Hv Hc. pose proof (valid_pos w Hv).
  unfold shld, shrd. destruct (Z.ltb_spec c w); [lia|].
  destruct (Z.ltb_spec c (w + w)); [lia|]. cbn [b2z].
  assert (Hl : forall x, exists r, cshl (Hw o) w x (c - w) = Ok r).
  { intros x. unfold cshl. destruct ((0 <=? c - w) && (c - w <? prom w)), (w <? 32);
      eexists; reflexivity. }
  assert (Hr : forall x, exists r, cshr (Hw o) w x (c - w) = Ok r).
  { intros x. unfold cshr. destruct ((0 <=? c - w) && (c - w <? prom w)), (w <? 32);
      eexists; reflexivity. }
  destruct (Hl s) as (l & ->). destruct (Hr s) as (r & ->). cbn [rbind].
  rewrite !Z.mul_0_r. unfold wrap. rewrite Z.mod_0_l by (apply Z.pow_nonzero; lia).
  split; reflexivity.
Qed.

Lemma shd_zero_ub : forall p w d s, valid_w w -> 32 <= w ->
  p = Strict17 \/ p = Strict20 ->
  shld p w d s 0 = UB OverShift /\ shrd p w d s 0 = UB OverShift.
Proof.
  intros p w d s Hw H32 Hp.
  destruct Hw as [->|[->|[->|[->| ->]]]]; try lia; destruct Hp as [-> | ->]; split; reflexivity.
Qed.

Lemma shd_mid : forall p w d s c, valid_w w -> 0 <= s -> 2 * w <= c < w + prom w ->
  shrd p w d s c = Ok 0 /\
  (p = Strict17 -> 2 ^ 32 <= s * 2 ^ (c - w) -> shld p w d s c = UB NegShift) /\
  (p <> Strict17 \/ s * 2 ^ (c - w) < 2 ^ 32 -> shld p w d s c = Ok 0).
Proof.
  intros p w d s c Hw Hs Hc. pose proof (valid_pos w Hw). unfold prom in Hc.
  destruct (Z.ltb_spec w 32) as [C|C]; [|lia].
  unfold shld, shrd, cshl, cshr, prom. destruct (Z.ltb_spec c w); [lia|].
  destruct (Z.ltb_spec w 32); [|lia]. destruct (Z.leb_spec 0 (c - w)); [|lia].
  destruct (Z.ltb_spec (c - w) 32); [|lia]. destruct (Z.ltb_spec s 0); [lia|].
  destruct (Z.ltb_spec c (w + w)); [lia|]. cbn [andb orb b2z].
  assert (Z0 : forall x, wrap w (x * 0) = 0).
  { intros x. rewrite Z.mul_0_r. unfold wrap. apply Z.mod_0_l, Z.pow_nonzero; lia. }
  split; [cbn [rbind]; rewrite Z0; reflexivity|].
  destruct (Z.leb_spec (2 ^ 32) (s * 2 ^ (c - w))) as [D|D].
  - split; [intros -> _; reflexivity|]. intros [N|N]; [|lia].
    destruct p; [contradiction| |]; cbn [rbind]; rewrite Z0; reflexivity.
  - split; [lia|]. intros _. destruct p; cbn [rbind]; rewrite Z0; reflexivity.
Qed.

Lemma shd_big_ub : forall p w d s c, valid_w w -> w + prom w <= c ->
  p = Strict17 \/ p = Strict20 ->
  shld p w d s c = UB OverShift /\ shrd p w d s c = UB OverShift.
Proof.
  intros p w d s c Hw Hc Hp. pose proof (valid_pos w Hw). pose proof (prom_ge w Hw).
  unfold shld, shrd, cshl, cshr. destruct (Z.ltb_spec c w); [lia|].
  destruct (Z.ltb_spec (c - w) (prom w)); [lia|]. rewrite andb_false_r.
  destruct Hp as [-> | ->]; split; reflexivity.
Qed.
