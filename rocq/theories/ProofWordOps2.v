(** Proofs about field extract, compare and exchange (WordOps.v). *)
From Coq Require Import ZArith Bool List Lia.
From Verif Require Import Base WordOps Spec ProofBase ProofWord ProofCnt ProofCount
  ProofSwap ProofBitswap ProofReverse ProofWordOps.
Import ListNotations.
Open Scope Z_scope.

Ltac Zify.zify_post_hook ::= idtac.

(** Extraction of a whole word. *)
Lemma bextr_full : forall p w x start, valid_w w -> 0 <= x < 2 ^ w -> 0 <= start < w ->
  w < 32 \/ (exists o, p = Hw o) -> bextr p w x start w = Ok (Z.shiftr x start).
Proof.
  intros p w x start Hw Hx Hs Hg. pose proof (valid_pos w Hw). pose proof (prom_ge w Hw).
  unfold bextr.
  assert (Hl : exists s, cshl p w 1 w = Ok s).
  { unfold cshl. destruct Hg as [Hg|(o & ->)].
    - unfold prom. destruct (Z.ltb_spec w 32); [|lia].
      destruct (Z.leb_spec 0 w); [|lia]. destruct (Z.ltb_spec w 32); [|lia]. cbn [andb].
      destruct p; try (eexists; reflexivity).
      assert (2 ^ w < 2 ^ 32) by (apply Z.pow_lt_mono_r; lia).
      destruct (Z.leb_spec (2 ^ 32) (1 * 2 ^ w)); [lia|]. eexists; reflexivity.
    - destruct ((0 <=? w) && (w <? prom w)), (w <? 32); eexists; reflexivity. }
  destruct Hl as (s & ->). cbn [rbind].
  assert (Hr : cshr p w x start = Ok (Z.shiftr x start)).
  { unfold cshr. destruct (Z.leb_spec 0 start); [|lia].
    destruct (Z.ltb_spec start (prom w)); [|lia]. reflexivity. }
  rewrite Hr. cbn [rbind].
  destruct (Z.ltb_spec w w); [lia|]. destruct (Z.ltb_spec start w); [|lia].
  cbn [b2z]. rewrite Z.mul_0_r, Z.mul_1_r. change (0 - 1) with (-1).
  rewrite all_ones_eq, Z.land_ones by lia. fold (wrap w (Z.shiftr x start)).
  pose proof (shiftr_range w x start ltac:(lia) Hx ltac:(lia)).
  rewrite wrap_wrap, wrap_small by lia. reflexivity.
Qed.

Lemma rwp_bextr_any : forall p w x start len (Q : Z -> Prop), valid_w w ->
  0 <= x < 2 ^ w -> 0 <= start < w -> 0 <= len <= w ->
  len < w \/ w < 32 \/ (exists o, p = Hw o) ->
  (forall v, 0 <= v < 2 ^ w ->
     (forall k, 0 <= k -> Z.testbit v k = (k <? len) && Z.testbit x (start + k)) -> Q v) ->
  rwp (bextr p w x start len) Q.
Proof.
  intros p w x start len Q Hw Hx Hs Hl Hg HQ. pose proof (valid_pos w Hw).
  destruct (Z.eq_dec len w) as [->|].
  - rewrite bextr_full by (assumption || (destruct Hg as [Hg|Hg]; [lia|exact Hg])).
    apply rwp_ok, HQ; [apply shiftr_range; lia|]. intros k Hk.
    rewrite Z.shiftr_spec by lia. rewrite (Z.add_comm k start).
    destruct (Z.ltb_spec k w); [reflexivity|]. apply (testbit_high w); lia.
  - apply rwp_bextr; try assumption; lia.
Qed.

Lemma bextr_ok : forall p w x start len, valid_w w ->
  0 <= x < 2 ^ w -> 0 <= start < w -> 0 <= len -> start + len <= w ->
  len < w \/ w < 32 \/ (exists o, p = Hw o) ->
  bextr p w x start len = Ok (x / 2 ^ start mod 2 ^ len).
Proof.
  intros p w x start len Hw Hx Hs Hl Hsl Hg. pose proof (valid_pos w Hw).
  assert (H1 : rwp (bextr p w x start len) (fun v => v = x / 2 ^ start mod 2 ^ len)).
  2: { apply rwp_exists in H1. destruct H1 as (v & -> & ->). reflexivity. }
  apply rwp_bextr_any; try assumption; try lia. intros v Hv Hb.
  apply Z.bits_inj'. intros k Hk. rewrite Hb by lia.
  destruct (Z.ltb_spec k len).
  - rewrite Z.mod_pow2_bits_low, Z.div_pow2_bits by lia. cbn [andb]. f_equal. lia.
  - rewrite Z.mod_pow2_bits_high by lia. reflexivity.
Qed.

Lemma bextr_full_ub : forall p w x, valid_w w -> 32 <= w ->
  p = Strict17 \/ p = Strict20 -> bextr p w x 0 w = UB OverShift.
Proof.
  intros p w x Hw H32 Hp.
  destruct Hw as [->|[->|[->|[->| ->]]]]; try lia; destruct Hp as [-> | ->]; reflexivity.
Qed.

Lemma bitblend_ok : forall p w x y start len, valid_w w ->
  0 <= x < 2 ^ w -> 0 <= y < 2 ^ w -> 0 <= start < w -> 0 <= len -> start + len <= w ->
  len < w \/ full_blend_defined p w ->
  exists v, bitblend p w x y start len = Ok v /\ 0 <= v < 2 ^ w /\
    forall k, 0 <= k < w -> Z.testbit v k =
      if inr start (start + len) k then Z.testbit y k else Z.testbit x k.
Proof.
  intros p w x y start len Hw Hx Hy Hs Hl Hsl Hg.
  apply rwp_exists, rwp_bitblend; auto.
Qed.

Lemma bitblend_mask_ok : forall w x y msk, 0 <= w -> 0 <= x < 2 ^ w -> 0 <= y < 2 ^ w ->
  0 <= bitblend_mask x y msk < 2 ^ w /\
  forall k, Z.testbit (bitblend_mask x y msk) k =
    if Z.testbit msk k then Z.testbit y k else Z.testbit x k.
Proof.
  intros w x y msk Hw Hx Hy. split; [apply bitblend_mask_range; assumption|].
  intros k. apply bitblend_mask_testbit.
Qed.

Lemma bitcmp_ok : forall p w x y s0 s1 len, valid_w w ->
  0 <= x < 2 ^ w -> 0 <= y < 2 ^ w -> 0 <= s0 < w -> 0 <= s1 < w -> 0 <= len ->
  s0 + len <= w -> s1 + len <= w ->
  len < w \/ w < 32 \/ (exists o, p = Hw o) ->
  exists r, bitcmp p w x y s0 s1 len = Ok r /\ (r = 0 \/ r = 1) /\
    (r = 1 <-> forall k, 0 <= k < len -> Z.testbit x (s0 + k) = Z.testbit y (s1 + k)).
Proof.
  intros p w x y s0 s1 len Hw Hx Hy H0 H1 Hl H0l H1l Hg. pose proof (valid_pos w Hw).
  apply rwp_exists. unfold bitcmp.
  apply rwp_bind, rwp_bextr_any; try assumption; try lia. intros u Hu Hub.
  apply rwp_bind, rwp_bextr_any; try assumption; try lia. intros v Hv Hvb.
  apply rwp_ok. destruct (Z.eqb_spec u v) as [E|E]; cbn [b2z].
  - split; [auto|]. split; [|reflexivity]. intros _ k Hk. subst v.
    specialize (Hub k ltac:(lia)). specialize (Hvb k ltac:(lia)).
    destruct (Z.ltb_spec k len); [|lia]. cbn [andb] in *. congruence.
  - split; [auto|]. split; [discriminate|]. intros Hk. exfalso. apply E.
    apply (word_ext w); try assumption; try lia. intros k Hk2.
    rewrite Hub, Hvb by lia. destruct (Z.ltb_spec k len); [|reflexivity].
    cbn [andb]. apply Hk. lia.
Qed.

Lemma bitexch3_ok : forall p w a0 a1 s0 s1 len m,
  let A := a0 * w + s0 in let B := a1 * w + s1 in
  valid_w w -> wf_mem w m -> m a0 <> None -> m a1 <> None ->
  0 <= s0 < w -> 0 <= s1 < w -> 0 <= len -> s0 + len <= w -> s1 + len <= w ->
  A + len <= B \/ B + len <= A ->
  exists m', bitexch3 p w a0 a1 s0 s1 len m = Ok (tt, m') /\
    wf_mem w m' /\ same_dom m m' /\
    forall i, bit w m' i =
      if inr A (A + len) i then bit w m (i - A + B)
      else if inr B (B + len) i then bit w m (i - B + A)
      else bit w m i.
Proof.
  intros p w a0 a1 s0 s1 len m A B Hw Hwf Ha0 Ha1 H0 H1 Hl H0l H1l Hd.
  assert (H : wp (bitexch3 p w a0 a1 s0 s1 len) m (fun _ m' => swapped w m m' A B len)).
  { apply wp_bitexch3; try assumption. intros m' Hm'. exact Hm'. }
  apply wp_exists in H. destruct H as ([] & m' & E & H). exists m'. split; [exact E|exact H].
Qed.

Lemma bitexch2_ok : forall p w a0 a1 s len m,
  let A := a0 * w + s in let B := a1 * w + s in
  valid_w w -> wf_mem w m -> m a0 <> None -> m a1 <> None -> a0 <> a1 ->
  0 <= s < w -> 0 <= len -> s + len <= w ->
  exists m', bitexch2 p w a0 a1 s len m = Ok (tt, m') /\
    wf_mem w m' /\ same_dom m m' /\
    forall i, bit w m' i =
      if inr A (A + len) i then bit w m (i - A + B)
      else if inr B (B + len) i then bit w m (i - B + A)
      else bit w m i.
Proof.
  intros p w a0 a1 s len m A B Hw Hwf Ha0 Ha1 Hne Hs Hl Hsl.
  pose proof (valid_pos w Hw).
  assert (H1 : wp (bitexch2 p w a0 a1 s len) m (fun _ m' => swapped w m m' A B len)).
  { apply wp_bitexch2; try assumption; [|intros m' Hm'; exact Hm'].
    destruct (Z.lt_ge_cases a0 a1) as [C|C].
    - left. pose proof (Z.mul_le_mono_nonneg_r (a0 + 1) a1 w). lia.
    - right. pose proof (Z.mul_le_mono_nonneg_r (a1 + 1) a0 w). lia. }
  apply wp_exists in H1. destruct H1 as ([] & m' & E & H1). exists m'. split; [exact E|exact H1].
Qed.

(** Exchange under a mask of two different words. *)
Lemma bitexch_mask_ok : forall w a0 a1 x y msk m,
  0 <= w -> m a0 = Some x -> m a1 = Some y -> a0 <> a1 ->
  0 <= x < 2 ^ w -> 0 <= y < 2 ^ w ->
  exists x' y' m', bitexch_mask a0 a1 msk m = Ok (tt, m') /\
    m' a0 = Some x' /\ m' a1 = Some y' /\
    0 <= x' < 2 ^ w /\ 0 <= y' < 2 ^ w /\
    (forall a, a <> a0 -> a <> a1 -> m' a = m a) /\
    forall k,
      Z.testbit x' k = Z.testbit (if Z.testbit msk k then y else x) k /\
      Z.testbit y' k = Z.testbit (if Z.testbit msk k then x else y) k.
Proof.
  intros w a0 a1 x y msk m Hw Hx Hy Hne Hxr Hyr.
  assert (E1 : (a0 =? a0) = true) by apply Z.eqb_refl.
  assert (E2 : (a1 =? a1) = true) by apply Z.eqb_refl.
  assert (E3 : (a0 =? a1) = false) by (apply Z.eqb_neq; assumption).
  assert (E4 : (a1 =? a0) = false) by (apply Z.eqb_neq; congruence).
  set (x1 := Z.lxor x (Z.land y msk)).
  set (y1 := Z.lxor y (Z.land x1 msk)).
  set (x2 := Z.lxor x1 (Z.land y1 msk)).
  assert (Hx1 : 0 <= x1 < 2 ^ w).
  { apply lxor_range; try assumption. apply land_range; assumption. }
  assert (Hy1 : 0 <= y1 < 2 ^ w).
  { apply lxor_range; try assumption. apply land_range; assumption. }
  assert (Hx2 : 0 <= x2 < 2 ^ w).
  { apply lxor_range; try assumption. apply land_range; assumption. }
  exists x2, y1, (mset (mset (mset m a0 x1) a1 y1) a0 x2).
  split.
  { unfold bitexch_mask, bind, load, store.
    rewrite Hx, Hy, Hx. unfold mset. rewrite E4, Hy, E1.
    rewrite E4, Hy. fold x1. fold y1. rewrite E3, E1, E2, E3, E1. reflexivity. }
  unfold mset. rewrite E1, E2, E4. split; [reflexivity|]. split; [reflexivity|].
  split; [assumption|]. split; [assumption|]. split.
  - intros a H0 H1. apply Z.eqb_neq in H0. apply Z.eqb_neq in H1. rewrite H0, H1.
    reflexivity.
  - intros k. unfold x2, y1, x1. rewrite !Z.lxor_spec, !Z.land_spec, !Z.lxor_spec,
      !Z.land_spec, !Z.lxor_spec, !Z.land_spec.
    destruct (Z.testbit msk k), (Z.testbit x k) eqn:X, (Z.testbit y k) eqn:Y;
      rewrite ?X, ?Y; split; reflexivity.
Qed.

(** The two references naming the same word: the selected bits are cleared. *)
Lemma bitexch_mask_alias : forall w a x msk m, 0 <= w -> m a = Some x -> 0 <= x < 2 ^ w ->
  exists m', bitexch_mask a a msk m = Ok (tt, m') /\ 
    m' a = Some (Z.land x (Z.lnot msk)) /\ forall b, b <> a -> m' b = m b.
Proof.
  intros w a x msk m Hw Hx Hxr.
  assert (E1 : (a =? a) = true) by apply Z.eqb_refl.
  set (x1 := Z.lxor x (Z.land x msk)).
  set (y1 := Z.lxor x1 (Z.land x1 msk)).
  set (x2 := Z.lxor y1 (Z.land y1 msk)).
  exists (mset (mset (mset m a x1) a y1) a x2). split.
  { unfold bitexch_mask, bind, load, store. rewrite Hx, Hx, Hx. unfold mset.
    repeat (progress (rewrite E1; cbv beta iota)). reflexivity. }
  unfold mset. rewrite E1. split.
  - f_equal. apply Z.bits_inj'. intros k Hk. unfold x2, y1, x1.
    rewrite Z.land_spec, Z.lnot_spec by lia.
    rewrite !Z.lxor_spec, !Z.land_spec, !Z.lxor_spec, !Z.land_spec, !Z.lxor_spec, !Z.land_spec.
    destruct (Z.testbit msk k), (Z.testbit x k); reflexivity.
  - intros b Hb. apply Z.eqb_neq in Hb. rewrite Hb. reflexivity.
Qed.

(** Packaged statements. *)
Lemma popcnt_ok : forall w x, valid_w w -> 0 <= x < 2 ^ w ->
  popcnt_intrin w x = count_true (Z.testbit x) 0 (Z.to_nat w) /\
  popcnt_fallback w x = Ok (count_true (Z.testbit x) 0 (Z.to_nat w)).
Proof.
  intros w x Hw Hx. split; [apply popcnt_intrin_count|apply popcnt_fallback_count];
    assumption.
Qed.

Lemma lzcnt_ok : forall w x, valid_w w -> 0 <= x < 2 ^ w ->
  exists n, lzcnt_intrin w x = n /\ lzcnt_fallback w x = Ok n /\ 0 <= n <= w /\
    (x = 0 <-> n = w) /\
    (n < w -> Z.testbit x (w - 1 - n) = true) /\
    (forall k, w - n <= k < w -> Z.testbit x k = false).
Proof.
  intros w x Hw Hx. pose proof (valid_pos w Hw).
  destruct (lzcnt_intrin_spec w x Hw Hx) as (H1 & H2 & H3).
  exists (lzcnt_intrin w x). split; [reflexivity|].
  split; [apply lzcnt_fallback_eq; assumption|]. split; [assumption|].
  split; [|split; assumption]. split.
  - intros ->. destruct (Z.eq_dec (lzcnt_intrin w 0) w) as [E|E]; [exact E|].
    specialize (H2 ltac:(lia)). rewrite Z.bits_0 in H2. discriminate.
  - intros E. apply (word_ext w); try assumption; try lia. intros k Hk.
    rewrite Z.bits_0. apply H3. lia.
Qed.

Lemma tzcnt_ok : forall w x, valid_w w -> 0 <= x < 2 ^ w ->
  exists n, tzcnt w x = n /\ tzcnt_fallback w x = Ok n /\ 0 <= n <= w /\
    (x = 0 <-> n = w) /\
    (n < w -> Z.testbit x n = true) /\
    (forall k, 0 <= k < n -> Z.testbit x k = false).
Proof.
  intros w x Hw Hx. pose proof (valid_pos w Hw).
  destruct (tzcnt_spec w x Hw Hx) as (H1 & H2 & H3).
  exists (tzcnt w x). split; [reflexivity|].
  split; [apply tzcnt_fallback_eq; assumption|]. split; [assumption|].
  split; [|split; assumption]. split.
  - intros ->. destruct (Z.eq_dec (tzcnt w 0) w) as [E|E]; [exact E|].
    specialize (H2 ltac:(lia)). rewrite Z.bits_0 in H2. discriminate.
  - intros E. apply (word_ext w); try assumption; try lia. intros k Hk.
    rewrite Z.bits_0. apply H3. lia.
Qed.

Lemma bitswap_twice : forall p w x, valid_w w -> 0 <= x < 2 ^ w ->
  exists r, bitswap p w x = Ok r /\ bitswap p w r = Ok x.
Proof.
  intros p w x Hw Hx. pose proof (valid_pos w Hw).
  destruct (bitswap_ok p w x Hw Hx) as (r & E & Hr & Hb).
  destruct (bitswap_ok p w r Hw Hr) as (y & E2 & Hy & Hb2).
  exists r. split; [exact E|]. rewrite E2. f_equal.
  apply (word_ext w); try assumption; try lia. intros k Hk.
  rewrite Hb2, Hb by lia. f_equal. lia.
Qed.

Lemma byte_div : forall x j, 0 <= j -> x / 256 ^ j mod 256 = byte_of x j.
Proof.
  intros x j Hj. unfold byte_of. change 256 with (2 ^ 8) at 1.
  rewrite <- Z.pow_mul_r by lia. reflexivity.
Qed.

Lemma byteswap_ok : forall w x, valid_w w -> 0 <= x < 2 ^ w ->
  exists r, byteswap_intrin w x = r /\ byteswap_fallback w x = Ok r /\
    0 <= r < 2 ^ w /\
    (forall j, 0 <= j < w / 8 ->
       r / 256 ^ j mod 256 = x / 256 ^ (w / 8 - 1 - j) mod 256) /\
    byteswap_fallback w r = Ok x.
Proof.
  intros w x Hw Hx. destruct (byteswap_intrin_ok w x Hw Hx) as [Hr Hb].
  exists (byteswap_intrin w x). split; [reflexivity|].
  split; [apply byteswap_fallback_eq; assumption|]. split; [assumption|].
  split.
  - intros j Hj. rewrite !byte_div by lia.
    apply (word_ext 8); try apply byte_of_range; try lia.
    intros b Hb8. rewrite !byte_of_testbit by lia. apply Hb; lia.
  - rewrite byteswap_fallback_eq by assumption. rewrite byteswap_twice by assumption.
    reflexivity.
Qed.

Lemma shd_zero_wrong : exists w dst src,
  valid_w w /\ 0 <= dst < 2 ^ w /\ 0 <= src < 2 ^ w /\
  let x86 := Hw (fun left x c =>
    if left then Z.shiftl x (c mod w) else Z.shiftr x (c mod w)) in
  shld x86 w dst src 0 <> Ok dst /\ shrd x86 w dst src 0 <> Ok dst.
Proof.
  exists 64, 1, 2. split; [unfold valid_w; auto|]. split; [lia|]. split; [lia|].
  split; vm_compute; discriminate.
Qed.
