(** swap_ranges (swap_ranges.hpp) on two ranges that may overlap, the second more
    than one word after the first: the bits are exchanged one after the other. *)
From Coq Require Import ZArith Bool List Lia.
From Coq Require Import ZifyBool.
From Verif Require Import Base WordOps IterModel AlgModel ShiftModel SwapModel Spec
  ProofBase ProofIter ProofWord ProofAlg1 ProofTransform ProofShift ProofSwap.
Import ListNotations.
Open Scope Z_scope.
Ltac Zify.zify_post_hook ::= idtac.

Lemma mod_uniq : forall x k c, 0 <= x < k -> (x + c * k) mod k = x.
Proof. intros x k c H. rewrite Z_mod_plus_full. apply Z.mod_small, H. Qed.

(** The state after exchanging bit [i] with bit [i + k] for i = A .. A+t-1 in
    this order: the bits above came down by [k], the first [k] bits went to the
    end, rotated by [t]. *)
Definition slid (w : Z) (m m' : mem) (A k t : Z) : Prop :=
  wf_mem w m' /\ same_dom m m' /\
  forall i, bit w m' i =
    if inr A (A + t) i then bit w m (i + k)
    else if inr (A + t) (A + t + k) i then bit w m (A + (i - A) mod k)
    else bit w m i.

Lemma slid_refl : forall w m A k, wf_mem w m -> 0 < k -> slid w m m A k 0.
Proof.
  intros w m A k H Hk. split; [assumption|]. split; [apply same_dom_refl|].
  intros i. bsplit; try reflexivity. rewrite Z.mod_small by lia. f_equal. lia.
Qed.

Lemma slid_step : forall w m m1 m2 A k t l, 0 < k -> 0 <= t -> 0 <= l <= k ->
  slid w m m1 A k t -> swapped w m1 m2 (A + t) (A + t + k) l ->
  slid w m m2 A k (t + l).
Proof.
  intros w m m1 m2 A k t l Hk Ht Hl (A1 & A2 & A3) (B1 & B2 & B3).
  split; [assumption|]. split; [eapply same_dom_trans; eassumption|].
  intros i. rewrite B3, !A3.
  replace (i - (A + t) + (A + t + k)) with (i + k) by lia.
  replace (i - (A + t + k) + (A + t)) with (i - k) by lia.
  replace ((i - k - A) mod k) with ((i - A) mod k).
  2:{ replace (i - A) with (i - k - A + 1 * k) by lia. apply Z_mod_plus_full. }
  bsplit; reflexivity.
Qed.

Lemma slid_mapped : forall w m m' A k t a b, slid w m m' A k t ->
  mapped w m a b -> mapped w m' a b.
Proof. intros w m m' A k t a b (_ & H & _) Hm. eapply mapped_dom; eassumption. Qed.

Lemma slid_wf : forall w m m' A k t, slid w m m' A k t -> wf_mem w m'.
Proof. intros w m m' A k t (H & _). exact H. Qed.

Lemma slid_none : forall w m m' A k t a, slid w m m' A k t -> m a <> None -> m' a <> None.
Proof. intros w m m' A k t a (_ & H & _) Ha Hn. apply Ha, H, Hn. Qed.

Lemma wp_words_slide : forall w n a b m0 m A k t (Q : unit -> mem -> Prop), 0 < w ->
  w <= k -> 0 <= t -> a * w = A + t -> b * w = A + t + k ->
  mapped w m0 A (A + t + Z.of_nat n * w + k) -> slid w m0 m A k t ->
  (forall m', slid w m0 m' A k (t + Z.of_nat n * w) -> Q tt m') ->
  wp (words_swap n a b) m Q.
Proof.
  intros w n. induction n as [|n IH]; intros a b m0 m A k t Q Hw Hk Ht Ha Hb Hm Hs HQ.
  { apply wp_ret, HQ. replace (t + Z.of_nat 0 * w) with t by lia. exact Hs. }
  cbn [words_swap].
  assert (Hnn : 0 <= Z.of_nat n * w) by (apply Z.mul_nonneg_nonneg; lia).
  assert (Hsn : Z.of_nat (S n) * w = w + Z.of_nat n * w) by lia.
  rewrite Hsn in *. set (l := Z.of_nat n * w) in *.
  pose proof (slid_wf _ _ _ _ _ _ Hs) as Hwf.
  assert (Ha0 : m a <> None).
  { eapply slid_none; [exact Hs|]. eapply mapped_word; [|exact Hm|..]; lia. }
  assert (Hb0 : m b <> None).
  { eapply slid_none; [exact Hs|]. eapply mapped_word; [|exact Hm|..]; lia. }
  apply wp_bind, (wp_load w); try assumption. intros x Hx Hbx.
  apply wp_bind, (wp_load w); try assumption. intros y Hy Hby.
  apply wp_bind, (wp_store w); try assumption. intros m1 W1 D1 B1.
  assert (Hb1 : m1 b <> None) by (intros Hn; apply Hb0, D1, Hn).
  apply wp_bind, (wp_store w); try assumption. intros m2 W2 D2 B2.
  assert (S1 : swapped w m m2 (A + t) (A + t + k) w).
  { split; [assumption|]. split; [eapply same_dom_trans; eassumption|].
    intros i. rewrite B2, B1. rewrite <- Hb, <- Ha. bsplit;
      try (rewrite Hby by lia; f_equal; lia); try (rewrite Hbx by lia; f_equal; lia);
      reflexivity. }
  apply (IH (a + 1) (b + 1) m0 m2 A k (t + w)); try assumption; try lia.
  - fold l. eapply mapped_sub; [exact Hm|lia|lia].
  - eapply slid_step; [| | |exact Hs|exact S1]; lia.
  - fold l. intros m3 S3. apply HQ. replace (t + (w + l)) with (t + w + l) by lia. exact S3.
Qed.

Lemma wp_slide_loop : forall p w n it1 it2 pos m0 m A k t (Q : Z * Z -> mem -> Prop),
  valid_w w -> 0 < pos < w -> w < k -> 0 <= t ->
  it1 * w = A + t -> it2 * w + pos = A + t + k ->
  mapped w m0 A (A + t + Z.of_nat n * w + k) -> slid w m0 m A k t ->
  (forall m', slid w m0 m' A k (t + Z.of_nat n * w) ->
     Q (it1 + Z.of_nat n, it2 + Z.of_nat n) m') ->
  wp (swap_loop p w n it1 it2 pos (w - pos)) m Q.
Proof.
  intros p w n. induction n as [|n IH];
    intros it1 it2 pos m0 m A k t Q Hw Hp Hk Ht Ha Hb Hm Hs HQ.
  { apply wp_ret. rewrite !Z.add_0_r in HQ. apply HQ.
    replace (t + Z.of_nat 0 * w) with t by lia. exact Hs. }
  pose proof (valid_pos w Hw) as Hwp.
  cbn [swap_loop]. rewrite usub_small by lia.
  assert (Hnn : 0 <= Z.of_nat n * w) by (apply Z.mul_nonneg_nonneg; lia).
  assert (Hsn : Z.of_nat (S n) * w = w + Z.of_nat n * w) by lia.
  rewrite Hsn in *. set (l := Z.of_nat n * w) in *.
  pose proof (slid_wf _ _ _ _ _ _ Hs) as Hwf.
  apply wp_bind, wp_bitexch3; try assumption; try lia.
  { eapply slid_none; [exact Hs|]. eapply mapped_word; [|exact Hm|..]; lia. }
  { eapply slid_none; [exact Hs|]. eapply mapped_word; [|exact Hm|..]; lia. }
  intros m1 S1.
  assert (T1 : slid w m0 m1 A k (t + (w - pos))).
  { eapply slid_step; [| | |exact Hs|]; try lia.
    rewrite <- Hb, <- Ha. rewrite Z.add_0_r in S1. exact S1. }
  apply wp_bind, wp_bitexch3; try assumption; try lia.
  { eapply slid_wf, T1. }
  { eapply slid_none; [exact T1|]. eapply mapped_word; [|exact Hm|..]; lia. }
  { eapply slid_none; [exact T1|]. eapply mapped_word; [|exact Hm|..]; lia. }
  intros m2 S2.
  assert (T2 : slid w m0 m2 A k (t + w)).
  { replace (t + w) with (t + (w - pos) + pos) by lia.
    eapply slid_step; [| | |exact T1|]; try lia.
    replace (A + (t + (w - pos)) + k) with ((it2 + 1) * w + 0) by lia.
    replace (A + (t + (w - pos))) with (it1 * w + (w - pos)) by lia.
    replace pos with (w - (w - pos)) at 2 by lia. exact S2. }
  apply (IH (it1 + 1) (it2 + 1) pos m0 m2 A k (t + w)); try assumption; try lia.
  - fold l. eapply mapped_sub; [exact Hm|lia|lia].
  - intros m3 S3.
    replace (it1 + 1 + Z.of_nat n) with (it1 + Z.of_nat (S n)) by lia.
    replace (it2 + 1 + Z.of_nat n) with (it2 + Z.of_nat (S n)) by lia.
    apply HQ. fold l in S3. replace (t + (w + l)) with (t + w + l) by lia. exact S3.
Qed.

(** The exchange of [len] bits with the bits [k] further on, any [len]. *)
Lemma wp_swap_ranges_over : forall p w first1 last1 first2 m k (Q : iter -> mem -> Prop),
  let len := addr w last1 - addr w first1 in let A := addr w first1 in
  valid_w w -> valid_it w first1 -> valid_it w last1 -> valid_it w first2 ->
  wf_mem w m -> 0 <= len <= 2 ^ 62 -> w < k -> addr w first2 = A + k ->
  mapped w m A (A + len + k) ->
  (forall r m', valid_it w r -> addr w r = A + k + len ->
     slid w m m' A k len -> Q r m') ->
  wp (swap_ranges p w first1 last1 first2) m Q.
Proof.
  intros p w first1 last1 first2 m k Q len A Hw Hf1 Hl1 Hf2 Hwf Hlen Hk HB2 Hm HQ.
  pose proof (valid_pos w Hw) as Hwp.
  unfold swap_ranges. apply wp_bind, wp_assert_viable; try assumption.
  rewrite (ieq_addr w) by (assumption || lia).
  destruct (Z.eqb_spec (addr w first1) (addr w last1)) as [E|E].
  { apply wp_ret, HQ; try assumption; try lia.
    replace len with 0 by lia. apply slid_refl; [assumption|lia]. }
  assert (Hlen1 : 1 <= len) by lia.
  assert (Hal : addr w last1 = A + len) by (unfold A; lia).
  pose proof (base_le w first1 last1 Hf1 Hl1 ltac:(lia)) as Hib.
  assert (HA : A = ib first1 * w + ip first1) by reflexivity.
  assert (HB : A + k = ib first2 * w + ip first2) by (rewrite <- HB2; reflexivity).
  assert (HL : A + len = ib last1 * w + ip last1) by (rewrite <- Hal; reflexivity).
  assert (HQ' : forall r m', valid_it w r -> addr w r = A + k + len ->
     slid w m m' A k len -> Q r m') by exact HQ. clear HQ. rename HQ' into HQ.
  pose proof Hf1 as Hf1'. pose proof Hl1 as Hl1'. pose proof Hf2 as Hf2'.
  unfold valid_it in Hf1', Hl1', Hf2'.
  assert (S0 : slid w m m A k 0) by (apply slid_refl; [assumption|lia]).
  assert (Step : forall m1 m2 t l, 0 <= t -> 0 <= l <= k -> slid w m m1 A k t ->
    swapped w m1 m2 (A + t) (A + k + t) l -> slid w m m2 A k (t + l)).
  { intros m1 m2 t l Ht Hl Hs Hsw. eapply slid_step; [| | |exact Hs|]; try lia.
    replace (A + t + k) with (A + k + t) by lia. exact Hsw. }
  destruct (Z.eqb_spec (ib first1 + b2z (ip last1 =? 0)) (ib last1)) as [Eo|Eo].
  { (* one word *)
    unfold swap_one_word. apply wp_bind, wp_distance; try assumption. fold len.
    assert (Hfit : ip first1 + len <= w).
    { destruct (Z.eqb_spec (ip last1) 0); cbn [b2z] in Eo; rewrite <- Eo in HL; lia. }
    apply wp_bind. apply (wp_conseq _ _ _ (fun _ m' => slid w m m' A k len)).
    - clearbody len A.
      destruct (Z.leb_spec (ip first2) (ip first1)) as [C|C].
      + apply wp_bitexch3; try assumption; try lia.
        { eapply mapped_word; [|exact Hm|..]; lia. }
        { eapply mapped_word; [|exact Hm|..]; lia. }
        intros m1 S1. replace len with (0 + len) by lia.
        apply (Step m); try assumption; try lia. rewrite !Z.add_0_r, HB, HA. exact S1.
      + rewrite usub_small by lia. set (part := Z.min len (w - ip first2)).
        assert (Hpart : 1 <= part <= len) by (unfold part; lia).
        assert (Hpart2 : ip first2 + part <= w) by (unfold part; lia).
        apply wp_bind, wp_bitexch3; try assumption; try lia.
        { eapply mapped_word; [|exact Hm|..]; lia. }
        { eapply mapped_word; [|exact Hm|..]; lia. }
        intros m1 S1.
        assert (T1 : slid w m m1 A k part).
        { replace part with (0 + part) by lia. apply (Step m); try assumption; try lia.
          rewrite !Z.add_0_r, HB, HA. exact S1. }
        destruct (Z.ltb_spec part len) as [C1|C1].
        * assert (Hp : part = w - ip first2) by (unfold part in *; lia).
          clearbody part. rewrite usub_small by lia.
          apply wp_bitexch3; try assumption; try lia.
          { eapply slid_wf, T1. }
          { eapply slid_none; [exact T1|]. eapply mapped_word; [|exact Hm|..]; lia. }
          { eapply slid_none; [exact T1|]. eapply mapped_word; [|exact Hm|..]; lia. }
          intros m2 S2. replace len with (part + (len - part)) by lia.
          apply (Step m1); try assumption; try lia.
          replace (A + part) with (ib first1 * w + (ip first1 + part)) by lia.
          replace (A + k + part) with ((ib first2 + 1) * w + 0) by lia. exact S2.
        * apply wp_ret. replace len with part by lia. exact T1.
    - intros _ m1 S1. apply wp_iadd; try assumption; try lia.
      intros r Hr Har. apply HQ; try assumption. lia. }
  assert (Hib1 : ib first1 + 1 <= ib last1).
  { destruct (Z.eqb_spec (ip last1) 0); cbn [b2z] in Eo; [|lia].
    destruct (Z.eq_dec (ib first1) (ib last1)) as [Ee|Ee]; [|lia].
    rewrite Ee in HA. lia. }
  pose proof (mul_mono w (ib first1 + 1) (ib last1) ltac:(lia) Hib1) as Hmul.
  set (n := ib last1 - (ib first1 + 1)).
  assert (Hn : Z.of_nat (Z.to_nat n) = n) by (unfold n; lia).
  assert (Hnw : n * w = ib last1 * w - ib first1 * w - w) by (unfold n; lia).
  destruct (Z.eqb_spec (ip first1) (ip first2)) as [Es|Es].
  { (* same alignment *)
    unfold swap_aligned. rewrite usub_small by lia. fold n.
    set (l1 := w - ip first1) in *.
    assert (Hl : len = l1 + (n * w + ip last1)) by (unfold l1; lia).
    assert (Hl1e : l1 = w - ip first1) by reflexivity.
    assert (Hn0 : 0 <= n) by (unfold n; lia).
    assert (Hnw0 : 0 <= n * w) by lia.
    clearbody len A l1.
    apply wp_bind, wp_bitexch2; try assumption; try lia.
    { eapply mapped_word; [|exact Hm|..]; lia. }
    { eapply mapped_word; [|exact Hm|..]; lia. }
    intros m1 S1. rewrite <- HA in S1. rewrite Es, <- HB in S1.
    assert (T1 : slid w m m1 A k l1).
    { replace l1 with (0 + l1) by lia. apply (Step m); try assumption; try lia.
      rewrite !Z.add_0_r. exact S1. }
    apply wp_bind, (wp_words_slide w _ _ _ m m1 A k l1); try assumption; rewrite ?Hn; try lia.
    { eapply mapped_sub; [exact Hm|lia|lia]. }
    intros m2 T2.
    apply wp_bind.
    apply (wp_conseq _ _ _ (fun _ m' => slid w m m' A k len)).
    - destruct (Z.eqb_spec (ip last1) 0) as [Ez|Ez]; cbn [negb].
      + apply wp_ret. replace len with (l1 + n * w) by lia. exact T2.
      + assert (Hm2 := slid_mapped _ _ _ _ _ _ _ _ T2 Hm).
        apply wp_bitexch2; try assumption; try lia.
        { eapply slid_wf, T2. }
        { eapply mapped_word; [|exact Hm2|..]; lia. }
        { eapply mapped_word; [|exact Hm2|..]; lia. }
        intros m3 S3. replace len with ((l1 + n * w) + ip last1) by lia.
        apply (Step m2); try assumption; try lia.
        replace (A + (l1 + n * w)) with (ib last1 * w + 0) by lia.
        replace (A + k + (l1 + n * w)) with ((ib first2 + 1 + n) * w + 0) by lia. exact S3.
    - intros _ m3 S3. apply wp_mk_iter; [lia|]. intros r Hr Har _ _.
      apply HQ; try assumption. lia. }
  (* different alignment *)
  unfold swap_unaligned. rewrite !usub_small by lia.
  set (l1 := w - ip first1) in *.
  set (B' := A + k + l1).
  set (it2' := if ip first2 <? ip first1 then ib first2 else ib first2 + 1).
  set (pos := if ip first2 <? ip first1 then ip first2 + l1 else ip first2 + l1 - w).
  assert (Hpos : 0 < pos < w).
  { unfold pos, l1. destruct (Z.ltb_spec (ip first2) (ip first1)); lia. }
  assert (HB' : B' = it2' * w + pos).
  { unfold B', it2', pos. destruct (ip first2 <? ip first1); lia. }
  apply wp_bind.
  assert (El1 : l1 = w - ip first1) by reflexivity.
  apply (wp_conseq _ _ _ (fun it m' => it = it2' /\ slid w m m' A k l1)).
  { clearbody len A l1. unfold it2'.
    destruct (Z.ltb_spec (ip first2) (ip first1)) as [C|C].
    - apply wp_bind, wp_bitexch3; try assumption; try lia.
      { eapply mapped_word; [|exact Hm|..]; lia. }
      { eapply mapped_word; [|exact Hm|..]; lia. }
      rewrite <- HA, <- HB. intros m1 S1. apply wp_ret. split; [reflexivity|].
      replace l1 with (0 + l1) by lia. apply (Step m); try assumption; try lia.
      rewrite !Z.add_0_r. exact S1.
    - set (part := w - ip first2) in *.
      assert (Epart : part = w - ip first2) by reflexivity. clearbody part.
      rewrite (usub_small l1 part) by lia.
      apply wp_bind, wp_bitexch3; try assumption; try lia.
      { eapply mapped_word; [|exact Hm|..]; lia. }
      { eapply mapped_word; [|exact Hm|..]; lia. }
      rewrite <- HA, <- HB. intros m1 S1.
      assert (T1 : slid w m m1 A k part).
      { replace part with (0 + part) by lia. apply (Step m); try assumption; try lia.
        rewrite !Z.add_0_r. exact S1. }
      apply wp_bind, wp_bitexch3; try assumption; try lia.
      { eapply slid_wf, T1. }
      { eapply slid_none; [exact T1|]. eapply mapped_word; [|exact Hm|..]; lia. }
      { eapply slid_none; [exact T1|]. eapply mapped_word; [|exact Hm|..]; lia. }
      intros m2 S2. apply wp_ret. split; [reflexivity|].
      replace l1 with (part + (l1 - part)) by lia.
      apply (Step m1); try assumption; try lia.
      replace (A + part) with (ib first1 * w + (ip first1 + part)) by lia.
      replace (A + k + part) with ((ib first2 + 1) * w + 0) by lia. exact S2. }
  intros it m1 (-> & T1).
  apply wp_bind. unfold advance. apply wp_iadd; try assumption; [lia|].
  intros f2 Vf2 Af2.
  assert (Hipf2 : ip f2 = pos).
  { assert (Haf : ib f2 * w + ip f2 = it2' * w + pos).
    { rewrite <- HB'. unfold B'. rewrite HB2 in Af2. rewrite <- Af2. reflexivity. }
    assert (Hx : f2 = It it2' pos).
    { apply (addr_inj w); [lia|exact Vf2| |exact Haf]. unfold valid_it. cbn [ip]. lia. }
    rewrite Hx. reflexivity. }
  rewrite Hipf2. rewrite !usub_small by lia. fold n.
  assert (Hl : len = l1 + (n * w + ip last1)) by (unfold l1; lia).
  assert (Hn0 : 0 <= n) by (unfold n; lia).
  assert (Hnw0 : 0 <= n * w) by lia.
  assert (HB'2 : B' = A + k + l1) by reflexivity.
  clearbody len A B' l1 it2' pos.
  apply wp_bind, (wp_slide_loop p w _ _ _ pos m m1 A k l1); try assumption;
    rewrite ?Hn; try lia.
  { eapply mapped_sub; [exact Hm|lia|lia]. }
  intros m2 T2.
  assert (Hm2 := slid_mapped _ _ _ _ _ _ _ _ T2 Hm).
  assert (Hit1 : ib first1 + 1 + n = ib last1) by (unfold n; lia).
  rewrite Hit1.
  destruct (Z.eqb_spec (ip last1) 0) as [Ez|Ez]; cbn [negb].
  { apply wp_mk_iter; [lia|]. intros r Hr Har _ _. apply HQ; try assumption; [lia|].
    replace len with (l1 + n * w) by lia. exact T2. }
  destruct (Z.leb_spec (ip last1) (w - pos)) as [C|C].
  - apply wp_bind, wp_bitexch3; try assumption; try lia.
    { eapply slid_wf, T2. }
    { eapply mapped_word; [|exact Hm2|..]; lia. }
    { eapply mapped_word; [|exact Hm2|..]; lia. }
    intros m3 S3. apply wp_bind, wp_mk_iter; [lia|]. intros r Hr Har _ _.
    apply wp_iadd; try assumption; [lia|]. intros r' Hr' Har'.
    apply HQ; try assumption; [lia|].
    replace len with ((l1 + n * w) + ip last1) by lia.
    apply (Step m2); try assumption; try lia.
    replace (A + (l1 + n * w)) with (ib last1 * w + 0) by lia.
    replace (A + k + (l1 + n * w)) with ((it2' + n) * w + pos) by lia. exact S3.
  - rewrite !usub_small by lia. set (part := w - pos) in *.
    apply wp_bind, wp_bitexch3; try assumption; try lia.
    { eapply slid_wf, T2. }
    { eapply mapped_word; [|exact Hm2|..]; lia. }
    { eapply mapped_word; [|exact Hm2|..]; lia. }
    intros m3 S3.
    assert (T3 : slid w m m3 A k (l1 + n * w + part)).
    { apply (Step m2); try assumption; try lia.
      replace (A + (l1 + n * w)) with (ib last1 * w + 0) by lia.
      replace (A + k + (l1 + n * w)) with ((it2' + n) * w + pos) by lia. exact S3. }
    assert (Hm3 := slid_mapped _ _ _ _ _ _ _ _ T3 Hm).
    apply wp_bind, wp_bitexch3; try assumption; try lia.
    { eapply slid_wf, T3. }
    { eapply mapped_word; [|exact Hm3|..]; lia. }
    { eapply mapped_word; [|exact Hm3|..]; lia. }
    intros m4 S4. apply wp_mk_iter; [lia|]. intros r Hr Har _ _.
    apply HQ; try assumption; [lia|].
    replace len with ((l1 + n * w + part) + (ip last1 - part)) by lia.
    apply (Step m3); try assumption; try lia.
    replace (A + (l1 + n * w + part)) with (ib last1 * w + part) by lia.
    replace (A + k + (l1 + n * w + part)) with ((it2' + n + 1) * w + 0) by lia. exact S4.
Qed.

Lemma slid_app : forall w m m1 m2 A k t l, 0 < k -> 0 <= t -> 0 <= l ->
  slid w m m1 A k t -> slid w m1 m2 (A + t) k l -> slid w m m2 A k (t + l).
Proof.
  intros w m m1 m2 A k t l Hk Ht Hl (A1 & A2 & A3) (B1 & B2 & B3).
  split; [assumption|]. split; [eapply same_dom_trans; eassumption|].
  intros i. rewrite B3, !A3.
  pose proof (Z.mod_pos_bound (i - (A + t)) k ltac:(lia)) as Hb.
  replace ((A + t + (i - (A + t)) mod k - A) mod k) with ((i - A) mod k).
  2:{ replace (A + t + (i - (A + t)) mod k - A) with (t + (i - (A + t)) mod k) by lia.
      rewrite Zplus_mod_idemp_r. f_equal. lia. }
  bsplit; reflexivity.
Qed.
