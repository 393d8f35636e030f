(** Proofs about _bitexch (bit_details.hpp:763-837) and swap_ranges
    (swap_ranges.hpp). *)
From Coq Require Import ZArith Bool List Lia.
From Coq Require Import ZifyBool.
From Verif Require Import Base WordOps IterModel AlgModel ShiftModel SwapModel Spec
  ProofBase ProofIter ProofWord ProofAlg1 ProofTransform ProofShift.
Import ListNotations.
Open Scope Z_scope.
Ltac Zify.zify_post_hook ::= Z.div_mod_to_equations.

(** The ranges [A, A+len) and [B, B+len) are exchanged, nothing else changes. *)
Definition swapped (w : Z) (m m' : mem) (A B len : Z) : Prop :=
  wf_mem w m' /\ same_dom m m' /\
  forall i, bit w m' i =
    if inr A (A + len) i then bit w m (i - A + B)
    else if inr B (B + len) i then bit w m (i - B + A)
    else bit w m i.

Lemma swapped_refl : forall w m A B, wf_mem w m -> swapped w m m A B 0.
Proof.
  intros w m A B H. split; [assumption|]. split; [apply same_dom_refl|].
  intros i. bsplit; reflexivity.
Qed.

Lemma swapped_app : forall w m m1 m2 A B l1 l2, 0 <= l1 -> 0 <= l2 ->
  A + (l1 + l2) <= B \/ B + (l1 + l2) <= A ->
  swapped w m m1 A B l1 -> swapped w m1 m2 (A + l1) (B + l1) l2 ->
  swapped w m m2 A B (l1 + l2).
Proof.
  intros w m m1 m2 A B l1 l2 H1 H2 Hd (A1 & A2 & A3) (B1 & B2 & B3).
  split; [assumption|]. split; [eapply same_dom_trans; eassumption|].
  intros i. rewrite B3, !A3.
  replace (i - (A + l1) + (B + l1)) with (i - A + B) by lia.
  replace (i - (B + l1) + (A + l1)) with (i - B + A) by lia.
  bsplit; reflexivity.
Qed.

Lemma swapped_mapped : forall w m m' A B len a b, swapped w m m' A B len ->
  mapped w m a b -> mapped w m' a b.
Proof. intros w m m' A B len a b (_ & H & _) Hm. eapply mapped_dom; eassumption. Qed.

Lemma swapped_wf : forall w m m' A B len, swapped w m m' A B len -> wf_mem w m'.
Proof. intros w m m' A B len (H & _). exact H. Qed.

Lemma swapped_none : forall w m m' A B len a, swapped w m m' A B len ->
  m a <> None -> m' a <> None.
Proof. intros w m m' A B len a (_ & H & _) Ha Hn. apply Ha, H, Hn. Qed.

(** One of the three steps. *)
Lemma wp_exch_step : forall p w a0 a1 (left : bool) d msk s0 s1 len m
    (Q : unit -> mem -> Prop),
  let A := a0 * w + s0 in let B := a1 * w + s1 in
  valid_w w -> wf_mem w m -> m a0 <> None -> m a1 <> None ->
  0 <= s0 < w -> 0 <= s1 < w -> 0 <= len -> s0 + len <= w -> s1 + len <= w ->
  d = (if left then s0 - s1 else s1 - s0) -> 0 <= d ->
  0 <= msk < 2 ^ w -> (forall k, 0 <= k < w -> Z.testbit msk k = (k <? len)) ->
  (forall m', updated w m m' A (A + len)
     (fun i => xorb (bit w m i) (bit w m (i - A + B))) -> Q tt m') ->
  wp (exch_step p w a0 a1 left d msk s0) m Q.
Proof.
  intros p w a0 a1 left d msk s0 s1 len m Q A B Hw Hwf Ha0 Ha1 H0 H1 Hlen H0l H1l
    Hd Hd0 Hmr Hmb HQ.
  pose proof (valid_pos w Hw) as Hwp. pose proof (prom_ge w Hw) as Hpr.
  unfold exch_step.
  apply wp_bind, (wp_load w); try assumption; try lia. intros x Hx Hbx.
  apply wp_bind, (wp_load w); try assumption; try lia. intros y Hy Hby.
  apply wp_bind.
  apply (wp_conseq _ _ _ (fun s m' => m' = m /\ forall k, s0 <= k < s0 + len ->
    Z.testbit (wrap w s) k = Z.testbit y (k - s0 + s1))).
  { destruct left; apply wp_lift.
    - apply rwp_cshl; try assumption; try lia. intros s Hs. split; [reflexivity|].
      intros k Hk. rewrite (shl_testbit w s y d) by (assumption || lia). f_equal. lia.
    - apply rwp_cshr; [lia|]. split; [reflexivity|].
      intros k Hk. rewrite shr_testbit by lia. f_equal. lia. }
  intros s m' (-> & Hs). wpl. apply rwp_cshl; try assumption; try lia.
  intros k0 Hk0.
  apply (wp_store_part w _ _ _ A (A + len)
           (fun i => xorb (bit w m i) (bit w m (i - A + B)))); try assumption;
    try (unfold A; lia).
  { apply lxor_range; try lia. apply land_range; [lia|]. apply wrap_range. lia. }
  { intros k Hk. rewrite Z.lxor_spec, Z.land_spec.
    rewrite (shl_testbit w k0 msk s0) by (assumption || lia).
    unfold A, B. rewrite (Hbx (a0 * w + k)) by lia.
    replace (a0 * w + k - a0 * w) with k by lia. bsplit;
      try (((rewrite (Z.testbit_neg_r msk) by lia) || (rewrite Hmb by lia; bsplit));
           rewrite andb_false_r; apply xorb_false_r).
    rewrite Hs, Hmb by lia. rewrite (Hby (a0 * w + k - _ + _)) by lia. bsplit.
    rewrite andb_true_r. do 2 f_equal. lia. }
Qed.

(** The three steps together. *)
Lemma exch_three : forall w m m1 m2 m3 A B len,
  A + len <= B \/ B + len <= A ->
  updated w m m1 A (A + len) (fun i => xorb (bit w m i) (bit w m (i - A + B))) ->
  updated w m1 m2 B (B + len) (fun i => xorb (bit w m1 i) (bit w m1 (i - B + A))) ->
  updated w m2 m3 A (A + len) (fun i => xorb (bit w m2 i) (bit w m2 (i - A + B))) ->
  swapped w m m3 A B len.
Proof.
  intros w m m1 m2 m3 A B len Hd (A1 & A2 & A3) (B1 & B2 & B3) (C1 & C2 & C3).
  split; [assumption|].
  split; [eapply same_dom_trans; [|eassumption]; eapply same_dom_trans; eassumption|].
  intros i. rewrite C3, !B3, !A3.
  replace (i - A + B - B + A) with i by lia.
  replace (i - B + A - A + B) with i by lia.
  bsplit; destruct (bit w m i), (bit w m (i - A + B)), (bit w m (i - B + A)); reflexivity.
Qed.

Lemma exch_mask : forall p w len m (Q : Z -> mem -> Prop), valid_w w ->
  0 <= len <= w ->
  (forall msk, 0 <= msk < 2 ^ w ->
    (forall k, 0 <= k < w -> Z.testbit msk k = (k <? len)) -> Q msk m) ->
  wp (lift (if len <? w then
       let? s1 := cshl p w 1 len in
       Ok (wrap w (s1 - 1))
     else Ok (wrap w (-1)))) m Q.
Proof.
  intros p w len m Q Hw Hl HQ. pose proof (valid_pos w Hw) as Hwp.
  destruct (Z.ltb_spec len w) as [E|E].
  - apply wp_lift. rewrite cshl_one by (assumption || lia). apply rwp_ok.
    apply HQ; [apply wrap_range; lia|]. intros k Hk.
    rewrite wrap_testbit, ones_testbit' by lia. bsplit; reflexivity.
  - apply wp_lift, rwp_ok. apply HQ; [apply wrap_range; lia|]. intros k Hk.
    rewrite all_ones_testbit by lia. bsplit; reflexivity.
Qed.

Lemma wp_bitexch3 : forall p w a0 a1 s0 s1 len m (Q : unit -> mem -> Prop),
  let A := a0 * w + s0 in let B := a1 * w + s1 in
  valid_w w -> wf_mem w m -> m a0 <> None -> m a1 <> None ->
  0 <= s0 < w -> 0 <= s1 < w -> 0 <= len -> s0 + len <= w -> s1 + len <= w ->
  A + len <= B \/ B + len <= A ->
  (forall m', swapped w m m' A B len -> Q tt m') ->
  wp (bitexch3 p w a0 a1 s0 s1 len) m Q.
Proof.
  intros p w a0 a1 s0 s1 len m Q A B Hw Hwf Ha0 Ha1 H0 H1 Hlen H0l H1l Hdis HQ.
  unfold bitexch3. apply wp_bind, exch_mask; try assumption; try lia.
  intros msk Hmr Hmb.
  assert (Hdom : forall m1 m2 a lo hi f, updated w m1 m2 lo hi f -> m1 a <> None -> m2 a <> None).
  { intros m1 m2 a lo hi f (_ & Hd & _) Ha Hn. apply Ha, Hd, Hn. }
  destruct (Z.leb_spec s1 s0) as [E|E].
  - apply wp_bind, (wp_exch_step p w a0 a1 true _ _ s0 s1 len); try assumption; try lia.
    intros m1 U1. apply wp_bind, (wp_exch_step p w a1 a0 false _ _ s1 s0 len);
      try assumption; try lia; try (eapply updated_wf, U1);
      try (eapply Hdom; eassumption).
    intros m2 U2. apply (wp_exch_step p w a0 a1 true _ _ s0 s1 len);
      try assumption; try lia; try (eapply updated_wf, U2);
      try (eapply Hdom; [exact U2|]; eapply Hdom; eassumption).
    intros m3 U3. apply HQ. eapply exch_three; eassumption.
  - apply wp_bind, (wp_exch_step p w a0 a1 false _ _ s0 s1 len); try assumption; try lia.
    intros m1 U1. apply wp_bind, (wp_exch_step p w a1 a0 true _ _ s1 s0 len);
      try assumption; try lia; try (eapply updated_wf, U1);
      try (eapply Hdom; eassumption).
    intros m2 U2. apply (wp_exch_step p w a0 a1 false _ _ s0 s1 len);
      try assumption; try lia; try (eapply updated_wf, U2);
      try (eapply Hdom; [exact U2|]; eapply Hdom; eassumption).
    intros m3 U3. apply HQ. eapply exch_three; eassumption.
Qed.

(** The same start in both words. *)
Lemma wp_exch_mask_step : forall w a0 a1 msk s len m (Q : unit -> mem -> Prop),
  let A := a0 * w + s in let B := a1 * w + s in
  0 < w -> wf_mem w m -> m a0 <> None -> m a1 <> None ->
  0 <= s -> 0 <= len -> s + len <= w ->
  0 <= msk < 2 ^ w -> (forall k, 0 <= k < w -> Z.testbit msk k = inr s (s + len) k) ->
  (forall m', updated w m m' A (A + len)
     (fun i => xorb (bit w m i) (bit w m (i - A + B))) -> Q tt m') ->
  wp (let* x := load a0 in let* y := load a1 in
      store a0 (Z.lxor x (Z.land y msk))) m Q.
Proof.
  intros w a0 a1 msk s len m Q A B Hw Hwf Ha0 Ha1 Hs Hl Hsl Hmr Hmb HQ.
  apply wp_bind, (wp_load w); try assumption; try lia. intros x Hx Hbx.
  apply wp_bind, (wp_load w); try assumption; try lia. intros y Hy Hby.
  apply (wp_store_part w _ _ _ A (A + len)
           (fun i => xorb (bit w m i) (bit w m (i - A + B)))); try assumption;
    try (unfold A; lia).
  { apply lxor_range; try lia. apply land_range; lia. }
  intros k Hk. rewrite Z.lxor_spec, Z.land_spec, Hmb by lia.
  unfold A, B. rewrite (Hbx (a0 * w + k)) by lia.
  replace (a0 * w + k - a0 * w) with k by lia. bsplit.
  - rewrite (Hby (a0 * w + k - _ + _)) by lia.
    rewrite andb_true_r. do 2 f_equal. lia.
  - rewrite andb_false_r. apply xorb_false_r.
  - rewrite andb_false_r. apply xorb_false_r.
Qed.

Lemma wp_bitexch2 : forall p w a0 a1 s len m (Q : unit -> mem -> Prop),
  let A := a0 * w + s in let B := a1 * w + s in
  valid_w w -> wf_mem w m -> m a0 <> None -> m a1 <> None ->
  0 <= s < w -> 0 <= len -> s + len <= w ->
  A + len <= B \/ B + len <= A ->
  (forall m', swapped w m m' A B len -> Q tt m') ->
  wp (bitexch2 p w a0 a1 s len) m Q.
Proof.
  intros p w a0 a1 s len m Q A B Hw Hwf Ha0 Ha1 Hs Hl Hsl Hdis HQ.
  pose proof (valid_pos w Hw) as Hwp. pose proof (prom_ge w Hw) as Hpr.
  unfold bitexch2. apply wp_bind.
  apply (wp_conseq _ _ _ (fun msk m' => m' = m /\ 0 <= msk < 2 ^ w /\
    forall k, 0 <= k < w -> Z.testbit msk k = inr s (s + len) k)).
  { apply wp_lift. destruct (Z.ltb_spec len w) as [E|E].
    - rewrite cshl_one by (assumption || lia). cbn [rbind].
      assert (0 < 2 ^ len) by (apply pow_pos; lia).
      assert (2 ^ len < 2 ^ w) by (apply Z.pow_lt_mono_r; lia).
      rewrite arith_small by lia.
      apply rwp_bind, rwp_cshl; try assumption; try lia. intros s2 Hs2.
      apply rwp_ok. split; [reflexivity|]. split; [apply wrap_range; lia|].
      intros k Hk. rewrite (shl_testbit w s2 (2 ^ len - 1) s) by (assumption || lia).
      bsplit.
      + rewrite ones_testbit' by lia. bsplit. reflexivity.
      + rewrite ones_testbit' by lia. bsplit. reflexivity.
      + apply Z.testbit_neg_r. lia.
    - apply rwp_ok. split; [reflexivity|]. split; [apply wrap_range; lia|].
      intros k Hk. rewrite all_ones_testbit by lia. bsplit. reflexivity. }
  intros msk m' (-> & Hmr & Hmb). unfold bitexch_mask.
  assert (Hdom : forall m1 m2 a lo hi f, updated w m1 m2 lo hi f -> m1 a <> None -> m2 a <> None).
  { intros m1 m2 a lo hi f (_ & Hd & _) Ha Hn. apply Ha, Hd, Hn. }
  enough (Hx : wp (
    (let* x := load a0 in let* y := load a1 in store a0 (Z.lxor x (Z.land y msk))) ;;
    (let* y := load a1 in let* x := load a0 in store a1 (Z.lxor y (Z.land x msk))) ;;
    (let* x := load a0 in let* y := load a1 in store a0 (Z.lxor x (Z.land y msk)))) m Q).
  { unfold wp, bind in Hx |- *.
    destruct (load a0 m) as [[x0 n0]| | | |]; try exact Hx.
    destruct (load a1 n0) as [[y0 n1]| | | |]; try exact Hx.
    destruct (store a0 (Z.lxor x0 (Z.land y0 msk)) n1) as [[[] n2]| | | |]; try exact Hx.
    destruct (load a1 n2) as [[y1 n3]| | | |]; try exact Hx.
    destruct (load a0 n3) as [[x1 n4]| | | |]; exact Hx. }
  apply wp_bind, (wp_exch_mask_step w a0 a1 msk s len); try assumption; try lia.
  intros m1 U1. apply wp_bind, (wp_exch_mask_step w a1 a0 msk s len);
    try assumption; try lia; try (eapply updated_wf, U1);
    try (eapply Hdom; eassumption).
  intros m2 U2. apply (wp_exch_mask_step w a0 a1 msk s len);
    try assumption; try lia; try (eapply updated_wf, U2);
    try (eapply Hdom; [exact U2|]; eapply Hdom; eassumption).
  intros m3 U3. apply HQ. eapply exch_three; eassumption.
Qed.

Lemma wp_words_swap : forall w n a b m (Q : unit -> mem -> Prop), 0 < w ->
  wf_mem w m -> (forall k, 0 <= k < Z.of_nat n -> m (a + k) <> None) ->
  (forall k, 0 <= k < Z.of_nat n -> m (b + k) <> None) ->
  a + Z.of_nat n <= b \/ b + Z.of_nat n <= a ->
  (forall m', swapped w m m' (a * w) (b * w) (Z.of_nat n * w) -> Q tt m') ->
  wp (words_swap n a b) m Q.
Proof.
  intros w n. induction n as [|n IH]; intros a b m Q Hw Hwf Ha Hb Hd HQ.
  { apply wp_ret, HQ. apply swapped_refl. assumption. }
  cbn [words_swap].
  assert (Ha0 : m a <> None) by (specialize (Ha 0); rewrite Z.add_0_r in Ha; apply Ha; lia).
  assert (Hb0 : m b <> None) by (specialize (Hb 0); rewrite Z.add_0_r in Hb; apply Hb; lia).
  apply wp_bind, (wp_load w); try assumption. intros x Hx Hbx.
  apply wp_bind, (wp_load w); try assumption. intros y Hy Hby.
  apply wp_bind, (wp_store w); try assumption. intros m1 W1 D1 B1.
  assert (Hb1 : m1 b <> None) by (intros Hn; apply Hb0, D1, Hn).
  apply wp_bind, (wp_store w); try assumption. intros m2 W2 D2 B2.
  assert (Hab : (a + 1) * w <= b * w \/ (b + 1) * w <= a * w).
  { destruct Hd; [left|right]; apply mul_mono; lia. }
  assert (S1 : swapped w m m2 (a * w) (b * w) w).
  { split; [assumption|]. split; [eapply same_dom_trans; eassumption|].
    intros i. rewrite B2, B1. bsplit;
      try (rewrite Hby by lia; f_equal; lia); try (rewrite Hbx by lia; f_equal; lia);
      reflexivity. }
  apply IH; try assumption.
  - intros k Hk. replace (a + 1 + k) with (a + (k + 1)) by lia.
    intros Hn. apply (Ha (k + 1)); [lia|]. apply S1, Hn.
  - intros k Hk. replace (b + 1 + k) with (b + (k + 1)) by lia.
    intros Hn. apply (Hb (k + 1)); [lia|]. apply S1, Hn.
  - lia.
  - intros m3 S3. apply HQ. replace (Z.of_nat (S n) * w) with (w + Z.of_nat n * w) by lia.
    assert (Hdd : a * w + (w + Z.of_nat n * w) <= b * w \/
                  b * w + (w + Z.of_nat n * w) <= a * w).
    { destruct Hd as [Hd|Hd]; [left|right]; apply (mul_mono w) in Hd; lia. }
    eapply swapped_app; [lia|lia|exact Hdd|exact S1|].
    replace (a * w + w) with ((a + 1) * w) by lia.
    replace (b * w + w) with ((b + 1) * w) by lia. exact S3.
Qed.

(** The loop of the unaligned case. *)
Lemma wp_swap_loop : forall p w n it1 it2 pos m (Q : Z * Z -> mem -> Prop), valid_w w ->
  wf_mem w m -> 0 < pos < w ->
  let l := Z.of_nat n * w in let A := it1 * w in let B := it2 * w + pos in
  mapped w m A (A + l) -> mapped w m B (B + l) ->
  A + l <= B \/ B + l <= A ->
  (forall m', swapped w m m' A B l ->
     Q (it1 + Z.of_nat n, it2 + Z.of_nat n) m') ->
  wp (swap_loop p w n it1 it2 pos (w - pos)) m Q.
Proof.
  intros p w n. induction n as [|n IH]; intros it1 it2 pos m Q Hw Hwf Hp l A B HmA HmB Hd HQ.
  { apply wp_ret. rewrite !Z.add_0_r in HQ. apply HQ. apply swapped_refl. assumption. }
  pose proof (valid_pos w Hw) as Hwp.
  cbn [swap_loop]. rewrite usub_small by lia.
  assert (Hl : l = w + Z.of_nat n * w) by (unfold l; lia).
  assert (Hln : 0 <= Z.of_nat n * w) by lia.
  clearbody l.
  apply wp_bind, wp_bitexch3; try assumption; try lia;
    try (unfold A, B in *; lia).
  { eapply mapped_word; [|exact HmA|..]; unfold A, B in *; lia. }
  { eapply mapped_word; [|exact HmB|..]; unfold A, B in *; lia. }
  intros m1 S1. apply wp_bind, wp_bitexch3; try assumption; try lia;
    try (unfold A, B in *; lia).
  { eapply swapped_wf, S1. }
  { eapply swapped_none; [exact S1|].
    eapply mapped_word; [|exact HmA|..]; unfold A, B in *; lia. }
  { eapply swapped_none; [exact S1|].
    eapply mapped_word; [|exact HmB|..]; unfold A, B in *; lia. }
  intros m2 S2.
  assert (S12 : swapped w m m2 A B w).
  { replace w with ((w - pos) + (w - (w - pos))) at 2 by lia.
    eapply swapped_app; [lia|lia|unfold A, B in *; lia| |].
    - replace A with (it1 * w + 0) by (unfold A; lia). exact S1.
    - replace (A + (w - pos)) with (it1 * w + (w - pos)) by (unfold A; lia).
      replace (B + (w - pos)) with ((it2 + 1) * w + 0) by (unfold B; lia). exact S2. }
  apply IH; try assumption.
  - eapply swapped_wf, S12.
  - eapply swapped_mapped; [exact S12|]. eapply mapped_sub; [exact HmA|..]; unfold A; lia.
  - eapply swapped_mapped; [exact S12|]. eapply mapped_sub; [exact HmB|..]; unfold B; lia.
  - unfold A, B in *; lia.
  - intros m3 S3.
    replace (it1 + 1 + Z.of_nat n) with (it1 + Z.of_nat (S n)) by lia.
    replace (it2 + 1 + Z.of_nat n) with (it2 + Z.of_nat (S n)) by lia.
    apply HQ. rewrite Hl. eapply swapped_app; [lia|lia|lia|exact S12|].
    replace (A + w) with ((it1 + 1) * w) by (unfold A; lia).
    replace (B + w) with ((it2 + 1) * w + pos) by (unfold B; lia). exact S3.
Qed.

Lemma wp_mk_iter : forall w b q m (Q : iter -> mem -> Prop), 0 <= q < w ->
  (forall r, valid_it w r -> addr w r = b * w + q -> ib r = b -> ip r = q -> Q r m) ->
  wp (lift (mk_iter w b q)) m Q.
Proof.
  intros w b q m Q Hq H. apply wp_lift. unfold mk_iter.
  destruct (Z.ltb_spec q w); [|lia]. apply rwp_ok, H; try reflexivity.
  exact Hq.
Qed.

Lemma wp_swap_ranges : forall p w first1 last1 first2 m (Q : iter -> mem -> Prop),
  let len := addr w last1 - addr w first1 in
  let A := addr w first1 in let B := addr w first2 in
  valid_w w -> valid_it w first1 -> valid_it w last1 -> valid_it w first2 ->
  wf_mem w m -> 0 <= len <= 2 ^ 62 ->
  mapped w m A (A + len) -> mapped w m B (B + len) ->
  A + len <= B \/ B + len <= A ->
  (forall r m', valid_it w r -> addr w r = B + len ->
     swapped w m m' A B len -> Q r m') ->
  wp (swap_ranges p w first1 last1 first2) m Q.
Proof.
  intros p w first1 last1 first2 m Q len A B Hw Hf1 Hl1 Hf2 Hwf Hlen HmA HmB Hd HQ.
  pose proof (valid_pos w Hw) as Hwp.
  unfold swap_ranges. apply wp_bind, wp_assert_viable; try assumption.
  rewrite (ieq_addr w) by (assumption || lia).
  destruct (Z.eqb_spec (addr w first1) (addr w last1)) as [E|E].
  { apply wp_ret, HQ; try assumption; fold B; try lia.
    replace len with 0 by lia. apply swapped_refl. assumption. }
  assert (Hlen1 : 1 <= len) by lia.
  assert (Hal : addr w last1 = A + len) by (unfold A; lia).
  pose proof (base_le w first1 last1 Hf1 Hl1 ltac:(lia)) as Hib.
  assert (HA : A = ib first1 * w + ip first1) by reflexivity.
  assert (HB : B = ib first2 * w + ip first2) by reflexivity.
  assert (HL : A + len = ib last1 * w + ip last1) by (rewrite <- Hal; reflexivity).
  assert (HQ' : forall r m', valid_it w r -> addr w r = B + len ->
     swapped w m m' A B len -> Q r m') by exact HQ. clear HQ. rename HQ' into HQ.
  pose proof Hf1 as Hf1'. pose proof Hl1 as Hl1'. pose proof Hf2 as Hf2'.
  unfold valid_it in Hf1', Hl1', Hf2'.
  destruct (Z.eqb_spec (ib first1 + b2z (ip last1 =? 0)) (ib last1)) as [Eo|Eo].
  { (* one word *)
    unfold swap_one_word. apply wp_bind, wp_distance; try assumption. fold len.
    assert (Hfit : ip first1 + len <= w).
    { destruct (Z.eqb_spec (ip last1) 0); cbn [b2z] in Eo; rewrite <- Eo in HL; lia. }
    apply wp_bind. apply (wp_conseq _ _ _ (fun _ m' => swapped w m m' A B len)).
    - clearbody len A B.
      destruct (Z.leb_spec (ip first2) (ip first1)) as [C|C].
      + apply wp_bitexch3; try assumption; try lia.
        { eapply mapped_word; [|exact HmA|..]; lia. }
        { eapply mapped_word; [|exact HmB|..]; lia. }
        intros m1 S1. rewrite HA, HB. exact S1.
      + rewrite usub_small by lia. set (part := Z.min len (w - ip first2)).
        assert (Hpart : 1 <= part <= len) by (unfold part; lia).
        assert (Hpart2 : ip first2 + part <= w) by (unfold part; lia).
        apply wp_bind, wp_bitexch3; try assumption; try lia.
        { eapply mapped_word; [|exact HmA|..]; lia. }
        { eapply mapped_word; [|exact HmB|..]; lia. }
        intros m1 S1. rewrite <- HA, <- HB in S1.
        destruct (Z.ltb_spec part len) as [C1|C1].
        * assert (Hp : part = w - ip first2) by (unfold part in *; lia).
          clearbody part. rewrite usub_small by lia.
          apply wp_bitexch3; try assumption; try lia.
          { eapply swapped_wf, S1. }
          { eapply swapped_none; [exact S1|]. eapply mapped_word; [|exact HmA|..]; lia. }
          { eapply swapped_none; [exact S1|]. eapply mapped_word; [|exact HmB|..]; lia. }
          intros m2 S2. replace len with (part + (len - part)) by lia.
          eapply swapped_app; [lia|lia|lia|exact S1|].
          replace (A + part) with (ib first1 * w + (ip first1 + part)) by lia.
          replace (B + part) with ((ib first2 + 1) * w + 0) by lia. exact S2.
        * apply wp_ret. replace len with part by lia. exact S1.
    - intros _ m1 S1. apply wp_iadd; try assumption; try lia.
      intros r Hr Har. apply HQ; try assumption. }
  assert (Hib1 : ib first1 + 1 <= ib last1).
  { destruct (Z.eqb_spec (ip last1) 0); cbn [b2z] in Eo; [|lia].
    destruct (Z.eq_dec (ib first1) (ib last1)) as [Ee|Ee]; [|lia].
    rewrite Ee in HA. lia. }
  pose proof (mul_mono w (ib first1 + 1) (ib last1) ltac:(lia) Hib1) as Hmul.
  set (n := ib last1 - (ib first1 + 1)).
  assert (Hn : Z.of_nat (Z.to_nat n) = n) by (unfold n; lia).
  assert (Hnw : n * w = ib last1 * w - ib first1 * w - w) by (unfold n; lia).
  destruct (Z.eqb_spec (ip first1) (ip first2)) as [Es|Es].
  { (* same alignment *)
    unfold swap_aligned. rewrite usub_small by lia. fold n.
    set (l1 := w - ip first1) in *.
    assert (Hl : len = l1 + (n * w + ip last1)) by (unfold l1; lia).
    assert (Hn0 : 0 <= n) by (unfold n; lia).
    assert (Hnw0 : 0 <= n * w) by lia.
    clearbody len A B.
    apply wp_bind, wp_bitexch2; try assumption; try lia.
    { eapply mapped_word; [|exact HmA|..]; lia. }
    { eapply mapped_word; [|exact HmB|..]; lia. }
    intros m1 S1. rewrite <- HA in S1. rewrite Es, <- HB in S1.
    assert (Hdw : (ib first1 + 1) + n <= ib first2 + 1 \/ ib first2 + 1 + n <= ib first1 + 1).
    { destruct Hd as [Hd|Hd].
      - left. apply Z.lt_succ_r, (Z.mul_lt_mono_pos_r w); lia.
      - right. apply Z.lt_succ_r, (Z.mul_lt_mono_pos_r w); lia. }
    assert (HmA1 := swapped_mapped _ _ _ _ _ _ _ _ S1 HmA).
    assert (HmB1 := swapped_mapped _ _ _ _ _ _ _ _ S1 HmB).
    apply wp_bind, (wp_words_swap w); try lia.
    { eapply swapped_wf, S1. }
    { rewrite Hn. intros k Hk. pose proof (mul_mono w k (n - 1) ltac:(lia) ltac:(lia)).
      assert (0 <= k * w) by lia.
      eapply mapped_word; [|exact HmA1|..]; lia. }
    { rewrite Hn. intros k Hk. pose proof (mul_mono w k (n - 1) ltac:(lia) ltac:(lia)).
      assert (0 <= k * w) by lia.
      eapply mapped_word; [|exact HmB1|..]; lia. }
    rewrite Hn. intros m2 S2.
    assert (S12 : swapped w m m2 A B (l1 + n * w)).
    { eapply swapped_app; [lia|lia|lia|exact S1|].
      replace (A + l1) with ((ib first1 + 1) * w) by lia.
      replace (B + l1) with ((ib first2 + 1) * w) by lia. exact S2. }
    apply wp_bind.
    apply (wp_conseq _ _ _ (fun _ m' => swapped w m m' A B len)).
    - destruct (Z.eqb_spec (ip last1) 0) as [Ez|Ez]; cbn [negb].
      + apply wp_ret. replace len with (l1 + n * w) by lia. exact S12.
      + assert (HmA2 := swapped_mapped _ _ _ _ _ _ _ _ S12 HmA).
        assert (HmB2 := swapped_mapped _ _ _ _ _ _ _ _ S12 HmB).
        apply wp_bitexch2; try assumption; try lia.
        { eapply swapped_wf, S12. }
        { eapply mapped_word; [|exact HmA2|..]; lia. }
        { eapply mapped_word; [|exact HmB2|..]; lia. }
        intros m3 S3. replace len with ((l1 + n * w) + ip last1) by lia.
        eapply swapped_app; [lia|lia|lia|exact S12|].
        replace (A + (l1 + n * w)) with (ib last1 * w + 0) by lia.
        replace (B + (l1 + n * w)) with ((ib first2 + 1 + n) * w + 0) by lia. exact S3.
    - intros _ m3 S3. apply wp_mk_iter; [lia|]. intros r Hr Har _ _.
      apply HQ; try assumption. lia. }
  (* different alignment *)
  unfold swap_unaligned. rewrite !usub_small by lia.
  set (l1 := w - ip first1) in *.
  set (B' := B + l1).
  set (it2' := if ip first2 <? ip first1 then ib first2 else ib first2 + 1).
  set (pos := if ip first2 <? ip first1 then ip first2 + l1 else ip first2 + l1 - w).
  assert (Hpos : 0 < pos < w).
  { unfold pos, l1. destruct (Z.ltb_spec (ip first2) (ip first1)); lia. }
  assert (HB' : B' = it2' * w + pos).
  { unfold B', it2', pos. destruct (ip first2 <? ip first1); lia. }
  apply wp_bind.
  apply (wp_conseq _ _ _ (fun it m' => it = it2' /\ swapped w m m' A B l1)).
  { clearbody len A B. unfold it2'. 
    destruct (Z.ltb_spec (ip first2) (ip first1)) as [C|C].
    - apply wp_bind, wp_bitexch3; try assumption; try lia.
      { eapply mapped_word; [|exact HmA|..]; lia. }
      { eapply mapped_word; [|exact HmB|..]; lia. }
      rewrite <- HA, <- HB. intros m1 S1. apply wp_ret. split; [reflexivity|exact S1].
    - set (part := w - ip first2) in *.
      assert (Epart : part = w - ip first2) by reflexivity.
      assert (El1 : l1 = w - ip first1) by reflexivity. clearbody part l1.
      rewrite (usub_small l1 part) by lia.
      apply wp_bind, wp_bitexch3; try assumption; try lia.
      { eapply mapped_word; [|exact HmA|..]; lia. }
      { eapply mapped_word; [|exact HmB|..]; lia. }
      rewrite <- HA, <- HB. intros m1 S1.
      apply wp_bind, wp_bitexch3; try assumption; try lia.
      { eapply swapped_wf, S1. }
      { eapply swapped_none; [exact S1|]. eapply mapped_word; [|exact HmA|..]; lia. }
      { eapply swapped_none; [exact S1|]. eapply mapped_word; [|exact HmB|..]; lia. }
      intros m2 S2. apply wp_ret. split; [reflexivity|].
      replace l1 with (part + (l1 - part)) by lia.
      eapply swapped_app; [lia|lia|lia|exact S1|].
      replace (A + part) with (ib first1 * w + (ip first1 + part)) by lia.
      replace (B + part) with ((ib first2 + 1) * w + 0) by lia. exact S2. }
  intros it m1 (-> & S1).
  apply wp_bind. unfold advance. apply wp_iadd; try assumption; [lia|].
  intros f2 Vf2 Af2.
  assert (Hipf2 : ip f2 = pos).
  { fold B in Af2. assert (Haf : ib f2 * w + ip f2 = it2' * w + pos).
    { rewrite <- HB'. unfold B'. rewrite <- Af2. reflexivity. }
    assert (Hx : f2 = It it2' pos).
    { apply (addr_inj w); [lia|exact Vf2| |exact Haf]. unfold valid_it. cbn [ip]. lia. }
    rewrite Hx. reflexivity. }
  rewrite Hipf2. rewrite !usub_small by lia. fold n.
  assert (Hl : len = l1 + (n * w + ip last1)) by (unfold l1; lia).
  assert (Hn0 : 0 <= n) by (unfold n; lia).
  assert (Hnw0 : 0 <= n * w) by lia.
  clearbody len A B.
  assert (HmA1 := swapped_mapped _ _ _ _ _ _ _ _ S1 HmA).
  assert (HmB1 := swapped_mapped _ _ _ _ _ _ _ _ S1 HmB).
  apply wp_bind, wp_swap_loop; try assumption; rewrite ?Hn; try lia.
  { eapply swapped_wf, S1. }
  { eapply mapped_sub; [exact HmA1|..]; lia. }
  { eapply mapped_sub; [exact HmB1|..]; lia. }
  intros m2 S2.
  assert (S12 : swapped w m m2 A B (l1 + n * w)).
  { eapply swapped_app; [lia|lia|lia|exact S1|].
    replace (A + l1) with ((ib first1 + 1) * w) by lia.
    fold B'. rewrite HB'. exact S2. }
  assert (HmA2 := swapped_mapped _ _ _ _ _ _ _ _ S12 HmA).
  assert (HmB2 := swapped_mapped _ _ _ _ _ _ _ _ S12 HmB).
  assert (Hit1 : ib first1 + 1 + n = ib last1) by (unfold n; lia).
  rewrite Hit1.
  destruct (Z.eqb_spec (ip last1) 0) as [Ez|Ez]; cbn [negb].
  { apply wp_mk_iter; [lia|]. intros r Hr Har _ _. apply HQ; try assumption; [lia|].
    replace len with (l1 + n * w) by lia. exact S12. }
  destruct (Z.leb_spec (ip last1) (w - pos)) as [C|C].
  - apply wp_bind, wp_bitexch3; try assumption; try lia.
    { eapply swapped_wf, S12. }
    { eapply mapped_word; [|exact HmA2|..]; lia. }
    { eapply mapped_word; [|exact HmB2|..]; lia. }
    intros m3 S3. apply wp_bind, wp_mk_iter; [lia|]. intros r Hr Har _ _.
    apply wp_iadd; try assumption; [lia|]. intros r' Hr' Har'.
    apply HQ; try assumption; [lia|].
    replace len with ((l1 + n * w) + ip last1) by lia.
    eapply swapped_app; [lia|lia|lia|exact S12|].
    replace (A + (l1 + n * w)) with (ib last1 * w + 0) by lia.
    replace (B + (l1 + n * w)) with ((it2' + n) * w + pos) by lia. exact S3.
  - rewrite !usub_small by lia. set (part := w - pos) in *.
    apply wp_bind, wp_bitexch3; try assumption; try lia.
    { eapply swapped_wf, S12. }
    { eapply mapped_word; [|exact HmA2|..]; lia. }
    { eapply mapped_word; [|exact HmB2|..]; lia. }
    intros m3 S3.
    assert (S123 : swapped w m m3 A B (l1 + n * w + part)).
    { eapply swapped_app; [lia|lia|lia|exact S12|].
      replace (A + (l1 + n * w)) with (ib last1 * w + 0) by lia.
      replace (B + (l1 + n * w)) with ((it2' + n) * w + pos) by lia. exact S3. }
    assert (HmA3 := swapped_mapped _ _ _ _ _ _ _ _ S123 HmA).
    assert (HmB3 := swapped_mapped _ _ _ _ _ _ _ _ S123 HmB).
    apply wp_bind, wp_bitexch3; try assumption; try lia.
    { eapply swapped_wf, S123. }
    { eapply mapped_word; [|exact HmA3|..]; lia. }
    { eapply mapped_word; [|exact HmB3|..]; lia. }
    intros m4 S4. apply wp_mk_iter; [lia|]. intros r Hr Har _ _.
    apply HQ; try assumption; [lia|].
    replace len with ((l1 + n * w + part) + (ip last1 - part)) by lia.
    eapply swapped_app; [lia|lia|lia|exact S123|].
    replace (A + (l1 + n * w + part)) with (ib last1 * w + part) by lia.
    replace (B + (l1 + n * w + part)) with ((it2' + n + 1) * w + 0) by lia. exact S4.
Qed.

Lemma swap_ranges_ok : forall p w m first1 last1 first2,
  let len := addr w last1 - addr w first1 in
  let A := addr w first1 in let B := addr w first2 in
  valid_w w -> wf_mem w m -> good_range w m first1 last1 -> good_dest w m first2 len ->
  A + len <= B \/ B + len <= A ->
  exists r m', swap_ranges p w first1 last1 first2 m = Ok (r, m') /\ valid_it w r /\
    addr w r = B + len /\ wf_mem w m' /\ same_dom m m' /\
    forall i, bit w m' i =
      if inr A (A + len) i then bit w m (B + (i - A))
      else if inr B (B + len) i then bit w m (A + (i - B))
      else bit w m i.
Proof.
  intros p w m first1 last1 first2 len A B Hw Hwf (Hf & Hl & Hd & Hm) (Hv & Hmd) Ho.
  apply wp_exists. apply wp_swap_ranges; try assumption.
  { eapply mapped_sub; [exact Hm|..]; lia. }
  fold A B len. intros r m' Hr Ha (S1 & S2 & S3).
  repeat (split; [assumption|]). intros i. rewrite S3.
  replace (i - A + B) with (B + (i - A)) by lia.
  replace (i - B + A) with (A + (i - B)) by lia. reflexivity.
Qed.

(** Doing it twice restores every bit. *)
Lemma swap_ranges_twice : forall p w m first1 last1 first2,
  let len := addr w last1 - addr w first1 in
  let A := addr w first1 in let B := addr w first2 in
  valid_w w -> wf_mem w m -> good_range w m first1 last1 -> good_dest w m first2 len ->
  A + len <= B \/ B + len <= A ->
  exists r m' r' m'', swap_ranges p w first1 last1 first2 m = Ok (r, m') /\
    swap_ranges p w first1 last1 first2 m' = Ok (r', m'') /\
    forall i, bit w m'' i = bit w m i.
Proof.
  intros p w m first1 last1 first2 len A B Hw Hwf Hg Hds Ho.
  destruct (swap_ranges_ok p w m first1 last1 first2 Hw Hwf Hg Hds Ho)
    as (r & m' & E & _ & _ & W & D & S).
  assert (Hg' : good_range w m' first1 last1).
  { destruct Hg as (G1 & G2 & G3 & G4). repeat (split; [assumption|]).
    eapply mapped_dom; eassumption. }
  assert (Hds' : good_dest w m' first2 len).
  { destruct Hds as (G1 & G2). split; [assumption|]. eapply mapped_dom; eassumption. }
  destruct (swap_ranges_ok p w m' first1 last1 first2 Hw W Hg' Hds' Ho)
    as (r' & m'' & E' & _ & _ & _ & _ & S').
  exists r, m', r', m''. split; [assumption|]. split; [assumption|].
  intros i. rewrite S', !S. fold len A B.
  replace (A + (B + (i - A) - B)) with i by lia.
  replace (B + (A + (i - B) - A)) with i by lia. bsplit; reflexivity.
Qed.
