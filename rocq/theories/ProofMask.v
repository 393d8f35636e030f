(** rotate within one word of 128 bits on machines. *)
From Coq Require Import ZArith Bool List Lia ZifyBool.
From Verif Require Import Demo Base WordOps IterModel AlgModel ShiftModel SwapModel RotateModel Spec
  SpecRotate SpecMask ProofBase ProofIter ProofWord ProofAlg1 ProofTransform ProofShift ProofSwap
  ProofSwapOver ProofRotate ProofRotateAll ProofWide.
Import ListNotations.
Open Scope Z_scope.
Ltac Zify.zify_post_hook ::= idtac.

Lemma cshl_machine : forall o x c, 0 <= c -> cshl (Hw o) 64 x c = Ok (machine_shl o x c).
Proof.
  intros o x c Hc. unfold cshl, machine_shl. change (prom 64) with 64.
  destruct (Z.leb_spec 0 c) as [C1|C1]; [|lia].
  destruct (Z.ltb_spec c 64) as [C2|C2]; cbn [andb]; change (64 <? 32) with false; cbv iota;
    unfold wrap; [rewrite Z.shiftl_mul_pow2 by lia|]; reflexivity.
Qed.

Lemma machine_mask_range : forall o pos len, 0 <= machine_mask o pos len < 2 ^ 64.
Proof. intros o pos len. unfold machine_mask, machine_shl at 1. apply Z.mod_pos_bound. lia. Qed.

Lemma wp_rotate_masked : forall o w first n_first last m (Q : iter -> mem -> Prop),
  let A := addr w first in let n := addr w last - A in let k := addr w n_first - A in
  64 < w -> valid_w w -> valid_it w first -> valid_it w n_first -> valid_it w last ->
  wf_mem w m -> one_word first last = true -> 0 < k < n -> n < w -> mapped w m A (A + n) ->
  (forall r m', valid_it w r -> addr w r = A + (n - k) ->
     updated w m m' A (A + n) (fun i =>
       bit w m (i + k) && Z.testbit (machine_mask o (ip first) n) (i - ib first * w + k) ||
       bit w m (i - (n - k)) && Z.testbit (machine_mask o (ip first) n) (i - ib first * w - (n - k))) -> Q r m') ->
  wp (rotate_one_word (Hw o) w first n_first last) m Q.
Proof.
  intros o w first n_first last m Q A n k W64 Hw Hf Hnf Hl Hwf Hone Hk Nw Hm HQ.
  pose proof (valid_pos w Hw) as Hwp. pose proof (prom_ge w Hw) as Hpr.
  set (b := ib first) in *.
  set (lp := if ip last =? 0 then w else ip last).
  assert (Hlp : addr w last = b * w + lp /\ 0 < lp <= w).
  { unfold one_word in Hone. apply Z.eqb_eq in Hone. fold b in Hone.
    unfold valid_it in Hl. unfold lp, addr. destruct (Z.eqb_spec (ip last) 0) as [E|E];
      cbn [b2z] in Hone; nia. }
  assert (Hnl : n = lp - ip first).
  { destruct Hlp as [Hlp1 _]. unfold n, A. rewrite Hlp1. unfold addr. fold b. lia. }
  assert (HA : A = b * w + ip first) by reflexivity.
  assert (Hnp : ib n_first = b /\ ip n_first = ip first + k).
  { unfold k, n, A, addr in *. unfold valid_it in Hnf, Hf. fold b in Hk, Hlp |- *.
    destruct Hlp as [Hlp1 Hlp2]. rewrite Hlp1 in Hk. assert (ib n_first = b) by nia.
    split; [assumption|]. rewrite H. lia. }
  assert (Hma : m b <> None).
  { apply (mapped_word w m A (A + n)); try assumption; unfold valid_it in Hf; lia. }
  unfold valid_it in Hf, Hnf.
  assert (E0 : (ip first =? 0) && (ip last =? 0) = false).
  { destruct (Z.eqb_spec (ip first) 0) as [E1|E1]; [|reflexivity].
    destruct (Z.eqb_spec (ip last) 0) as [E2|E2]; [|reflexivity]. exfalso.
    assert (El : lp = w) by (unfold lp; try rewrite E2; reflexivity). lia. }
  assert (HA' : A = addr w first) by reflexivity.
  unfold rotate_one_word. fold b. rewrite E0. fold lp. clearbody k n A. clearbody lp.
  destruct Hlp as [Hlp1 Hlp2]. destruct Hnp as [Hnp1 Hnp2].
  rewrite (usub_small (ip n_first)), (usub_small lp (ip n_first)), (usub_small lp (ip first)) by lia.
  replace (ip n_first - ip first) with k by lia.
  replace (lp - ip n_first) with (n - k) by lia.
  replace (lp - ip first) with n by lia.
  wpl. rewrite cshl_machine by lia. apply rwp_ok. wpl. rewrite cshl_machine by lia. apply rwp_ok.
  change (machine_shl o (wrap 64 (machine_shl o 1 n - 1)) (ip first))
    with (machine_mask o (ip first) n).
  pose proof (machine_mask_range o (ip first) n) as HM. set (M := machine_mask o (ip first) n) in *.
  clearbody M.
  assert (Hp2 : 2 ^ 64 <= 2 ^ w) by (apply Z.pow_le_mono_r; lia).
  rewrite (wrap_small w M) by lia.
  apply wp_bind, (wp_load w); try assumption; try lia. intros x Hx Hbx.
  set (rt := Z.land x M).
  assert (Hrt : 0 <= rt < 2 ^ w) by (apply land_range; lia).
  assert (HMh : forall j, 64 <= j -> Z.testbit M j = false) by (intros j Hj; apply (testbit_high 64); lia).
  assert (Hrb : forall j, Z.testbit rt j = bit w m (b * w + j) && Z.testbit M j).
  { intros j. unfold rt. rewrite Z.land_spec. destruct (Z.ltb_spec j 0) as [C|C].
    - rewrite !(Z.testbit_neg_r _ j) by lia. symmetry. apply andb_false_r.
    - destruct (Z.leb_spec 64 j) as [C1|C1]; [rewrite HMh by lia; rewrite !andb_false_r; reflexivity|].
      rewrite Hbx by lia. f_equal. f_equal. lia. }
  clearbody rt.
  wpl. apply rwp_cshr; [lia|]. wpl. apply rwp_cshl; try assumption; try lia.
  intros s Hs. wpl. apply rwp_bitblend; try assumption; try lia.
  { apply lor_range; [lia|apply wrap_range; lia|apply wrap_range; lia]. }
  intros v Hv Hvb.
  apply wp_bind, (wp_store_part w) with (lo := A) (hi := A + n)
    (f := fun i => bit w m (i + k) && Z.testbit M (i - b * w + k) ||
       bit w m (i - (n - k)) && Z.testbit M (i - b * w - (n - k)));
    try assumption; try lia.
  { intros j Hj. rewrite Hvb by lia. rewrite Z.lor_spec.
    rewrite shr_testbit, (shl_testbit w s rt (n - k)) by (assumption || lia).
    unfold inr. destruct (Z.leb_spec (ip first) j) as [C1|C1].
    2: { destruct (Z.leb_spec A (b * w + j)); [lia|]. cbn [andb].
         rewrite Hbx by lia. f_equal. lia. }
    destruct (Z.leb_spec A (b * w + j)); [|lia]. cbn [andb].
    destruct (Z.ltb_spec j (ip first + n)) as [C2|C2].
    2: { destruct (Z.ltb_spec (b * w + j) (A + n)); [lia|].
         rewrite Hbx by lia. f_equal. lia. }
    destruct (Z.ltb_spec (b * w + j) (A + n)); [|lia].
    rewrite (Hrb (j - (n - k))).
    replace (b * w + j - b * w + k) with (j + k) by lia.
    replace (b * w + j - b * w - (n - k)) with (j - (n - k)) by lia.
    replace (b * w + (j - (n - k))) with (b * w + j - (n - k)) by lia. f_equal.
    rewrite Hrb. f_equal. f_equal. lia. }
  intros m' U. rewrite swrap64_small by lia. apply wp_iadd; try assumption; [lia|].
  intros r Hr Har. apply HQ; [assumption|lia|exact U].
Qed.

Lemma rotate_machine_ok : forall o w m first n_first last,
  64 < w -> valid_w w -> wf_mem w m -> good_range w m first last -> valid_it w n_first ->
  addr w first < addr w n_first < addr w last ->
  let n := addr w last - addr w first in
  let k := addr w n_first - addr w first in
  let mask := machine_mask o (ip first) n in
  n < w -> ip first + n <= w ->
  exists r m', rotate (Hw o) w first n_first last m = Ok (r, m') /\ valid_it w r /\
    addr w r = addr w first + (addr w last - addr w n_first) /\
    updated w m m' (addr w first) (addr w last)
      (fun i => bit w m (i + k) && Z.testbit mask (i - ib first * w + k) ||
                bit w m (i - (n - k)) && Z.testbit mask (i - ib first * w - (n - k))).
Proof.
  intros o w m first n_first last W64 Vw Hwf (Hf & Hl & Hd & Hm) Hnf Hlt n k mask Nw H1.
  pose proof (valid_pos w Vw) as Hwp.
  apply (wp_exists _ (rotate (Hw o) w first n_first last) m (fun r m' => valid_it w r /\
    addr w r = addr w first + (addr w last - addr w n_first) /\
    updated w m m' (addr w first) (addr w last)
      (fun i => bit w m (i + k) && Z.testbit mask (i - ib first * w + k) ||
                bit w m (i - (n - k)) && Z.testbit mask (i - ib first * w - (n - k))))).
  unfold max_bits in Hd. unfold rotate.
  apply wp_bind, wp_assert_viable; try assumption; [lia|].
  apply wp_bind, wp_assert_viable; try assumption; [lia|].
  apply wp_bind, wp_assert_viable; try assumption.
  rewrite (ieq_addr w) by (assumption || lia).
  destruct (Z.eqb_spec (addr w first) (addr w n_first)) as [C1|C1]; [lia|].
  rewrite (one_word_iff w) by (assumption || unfold n in *; lia).
  apply wp_rotate_masked; try assumption; try (unfold n, k in *; lia).
  { apply one_word_iff with w; try assumption; unfold n in *; lia. }
  { replace (addr w first + (addr w last - addr w first)) with (addr w last) by lia. exact Hm. }
  replace (addr w first + (addr w last - addr w first)) with (addr w last) by lia.
  intros r m' V R U. split; [exact V|]. split; [lia|]. exact U.
Qed.

(** The mask of the low 64 bits, if the machine shifts the one out. *)
Lemma machine_mask_all : forall o, o true 1 64 mod 2 ^ 64 = 0 -> machine_mask o 0 64 = Z.ones 64.
Proof.
  intros o H. unfold machine_mask, machine_shl. change (0 <? 64) with true. change (64 <? 64) with false.
  cbv iota. rewrite H. reflexivity.
Qed.

Lemma machine_mask_inv : forall o, (forall j, 0 <= j < 64 -> Z.testbit (machine_mask o 0 64) j = true) ->
  o true 1 64 mod 2 ^ 64 = 0.
Proof.
  intros o H. pose proof (machine_mask_range o 0 64) as R.
  assert (E : machine_mask o 0 64 = Z.ones 64).
  { apply Z.bits_inj'. intros j Hj. destruct (Z.ltb_spec j 64) as [C|C].
    - rewrite H by lia. symmetry. apply Z.ones_spec_low. lia.
    - rewrite (testbit_high 64) by lia. symmetry. apply Z.ones_spec_high. lia. }
  unfold machine_mask, machine_shl in E. change (0 <? 64) with true in E.
  change (64 <? 64) with false in E. cbv iota in E. rewrite Z.pow_0_r, Z.mul_1_r, Z.mod_mod in E by lia.
  set (z := o true 1 64 mod 2 ^ 64) in *. pose proof (Z.mod_pos_bound (o true 1 64) (2 ^ 64) ltac:(lia)) as Rz.
  fold z in Rz. change (Z.ones 64) with (2 ^ 64 - 1) in E.
  destruct (Z.eq_dec z 0) as [C|C]; [exact C|].
  rewrite Z.mod_small in E by lia. lia.
Qed.

Lemma rotate_machine_exact : forall o w first n_first last,
  valid_w w -> valid_it w first -> valid_it w n_first -> valid_it w last ->
  addr w first < addr w n_first < addr w last ->
  addr w last - addr w first <= max_bits ->
  (quotients_fit 64 w (addr w n_first - addr w first) (addr w last - addr w n_first) = true /\
   machine_fits o w (ip first) (addr w last - addr w first)
   <->
   forall m, wf_mem w m -> good_range w m first last ->
   exists r m', rotate (Hw o) w first n_first last m = Ok (r, m') /\ valid_it w r /\
     addr w r = addr w first + (addr w last - addr w n_first) /\
     updated w m m' (addr w first) (addr w last)
       (fun i => let j := i + (addr w n_first - addr w first) in
          bit w m (if j <? addr w last then j else j - (addr w last - addr w first)))).
Proof.
  intros o w first n_first last Vw Hf Hnf Hl Hlt Hmax.
  pose proof (valid_pos w Vw) as Hwp.
  assert (Hg : forall i, good_range w (one_bit w i) first last).
  { intros i. repeat (split; [assumption|]). split; [lia|]. apply one_bit_mapped. }
  assert (Dec : mask_fits w (ip first) (addr w last - addr w first) \/
    64 < w /\ ip first + (addr w last - addr w first) <= w /\ addr w last - addr w first < w /\
    (64 <= addr w last - addr w first \/ 64 < ip first + (addr w last - addr w first))).
  { unfold mask_fits. unfold valid_it in Hf. lia. }
  destruct Dec as [Hmf|(W64 & H1 & Nw & Hd)].
  { rewrite <- (rotate_exact (Hw o) w first n_first last Vw Hf Hnf Hl ltac:(lia) Hmax Hmf).
    split; [tauto|]. intros Q. split; [exact Q|]. unfold mask_fits, machine_fits in *. lia. }
  set (n := addr w last - addr w first) in *. set (k := addr w n_first - addr w first) in *.
  split.
  - intros [_ Hfit] m Hwf G.
    assert (E : n = 64 /\ ip first = 0 /\ o true 1 64 mod 2 ^ 64 = 0)
      by (unfold machine_fits in Hfit; unfold valid_it in Hf; lia).
    destruct E as (E1 & E2 & E3).
    destruct (rotate_machine_ok o w m first n_first last W64 Vw Hwf G Hnf Hlt Nw H1)
      as (r & m' & E & V & R & U).
    exists r, m'. split; [exact E|]. split; [exact V|]. split; [exact R|].
    fold n k in U. rewrite E1, E2, (machine_mask_all o E3) in U.
    apply (updated_ext _ _ _ _ _ _ _ U).
    intros i Hi. cbv zeta.
    assert (Ei : addr w first = ib first * w) by (unfold addr; lia).
    destruct (Z.ltb_spec (i + k) (addr w last)) as [C|C].
    + rewrite Z.ones_spec_low by (unfold n, k in *; lia). rewrite (Z.testbit_neg_r _ (i - _ - _)) by (unfold n, k in *; lia).
      rewrite andb_true_r, andb_false_r, orb_false_r. reflexivity.
    + rewrite Z.ones_spec_high by (unfold n, k in *; lia). rewrite Z.ones_spec_low by (unfold n, k in *; lia).
      rewrite andb_false_r, andb_true_r, orb_false_l. f_equal. unfold n, k in *; lia.
  - intros Hall. 
    assert (Src : forall s, addr w first <= s < addr w last ->
      Z.testbit (machine_mask o (ip first) n) (s - ib first * w) = true).
    { intros s Hs.
      destruct (Hall (one_bit w s) (one_bit_wf w s ltac:(lia)) (Hg s)) as (r & m' & E & _ & _ & _ & _ & U).
      destruct (rotate_machine_ok o w (one_bit w s) first n_first last W64 Vw
        (one_bit_wf w s ltac:(lia)) (Hg s) Hnf Hlt Nw H1) as (r2 & m2 & E2 & _ & _ & _ & _ & U2).
      rewrite E in E2. injection E2 as _ <-. fold n k in U2.
      set (i := if k <=? s - addr w first then s - k else s + (n - k)).
      specialize (U i). specialize (U2 i). rewrite U2 in U. cbv zeta in U.
      assert (Hi : addr w first <= i < addr w last)
        by (unfold i; destruct (Z.leb_spec k (s - addr w first)); unfold n, k in *; lia).
      rewrite !inr_in in U by lia. rewrite !one_bit_bit in U by lia. unfold i in U.
      destruct (Z.leb_spec k (s - addr w first)) as [C|C].
      - replace (s - k + k) with s in U by lia.
        destruct (Z.ltb_spec s (addr w last)) as [_|X]; [|lia].
        destruct (Z.eqb_spec (s - k - (n - k)) s) as [X|_]; [unfold n, k in *; lia|].
        rewrite Z.eqb_refl in U. cbn [andb] in U. rewrite orb_false_r in U.
        replace (s - k - ib first * w + k) with (s - ib first * w) in U by lia. exact U.
      - destruct (Z.ltb_spec (s + (n - k) + k) (addr w last)) as [X|_]; [unfold n, k in *; lia|].
        replace (s + (n - k) + k - n) with s in U by lia.
        replace (s + (n - k) - (n - k)) with s in U by lia.
        destruct (Z.eqb_spec (s + (n - k) + k) s) as [X|_]; [unfold n, k in *; lia|].
        rewrite Z.eqb_refl in U. cbn [andb orb] in U.
        replace (s + (n - k) - ib first * w - (n - k)) with (s - ib first * w) in U by lia. exact U. }
    assert (H64 : ip first + n <= 64).
    { apply Z.nlt_ge. intros C. specialize (Src (addr w last - 1) ltac:(unfold n in *; lia)).
      rewrite (testbit_high 64) in Src; [discriminate Src|apply machine_mask_range|].
      unfold n, addr in *. lia. }
    split.
    + assert (Q : forall f r, quotients_fit (S f) w k r = true).
      { intros f r. cbn [quotients_fit]. destruct (Z.leb_spec k w) as [C|C]; [reflexivity|].
        unfold n, k in *; lia. }
      exact (Q 63%nat _).
    + right. right. right. split; [exact H64|]. right.
      assert (E : n = 64 /\ ip first = 0) by (unfold valid_it in Hf; lia). destruct E as [E1 E2].
      apply machine_mask_inv. intros j Hj. rewrite E1, E2 in Src.
      specialize (Src (addr w first + j) ltac:(unfold n in *; lia)).
      replace (addr w first + j - ib first * w) with j in Src by (unfold addr; lia). exact Src.
Qed.
