(** Proofs about the remaining helpers of bit_algorithm_details.hpp: the padded
    read, the shifts of whole words, and count on an empty range. *)
From Coq Require Import ZArith Bool List Lia.
From Verif Require Import Base WordOps IterModel PopcntModel AlgModel Spec
  ProofBase ProofIter ProofWord ProofCount.
Import ListNotations.
Open Scope Z_scope.
Ltac Zify.zify_post_hook ::= idtac.

(** _padded_read *)
Definition lsb_mask (p : policy) (w n : Z) : res Z :=
  let? s := cshr p w (all_ones w) n in Ok (wrap w s).
Definition msb_mask (p : policy) (w n : Z) : res Z :=
  let? s := cshl p w (all_ones w) n in Ok (wrap w s).

Lemma all_ones_range : forall w, valid_w w -> 0 <= all_ones w < 2 ^ w.
Proof. intros w H. pose proof (valid_pos w H). apply wrap_range. lia. Qed.

Lemma rwp_lsb : forall p w n (Q : Z -> Prop), valid_w w -> 0 < n <= w ->
  n < prom w ->
  (forall v, 0 <= v < 2 ^ w ->
     (forall k, 0 <= k < w -> Z.testbit v k = (k <? w - n)) -> Q v) ->
  rwp (lsb_mask p w n) Q.
Proof.
  intros p w n Q Hv Hn Hp HQ. pose proof (valid_pos w Hv). unfold lsb_mask.
  apply rwp_bind, rwp_cshr; [lia|]. apply rwp_ok, HQ.
  - apply wrap_range. lia.
  - intros k Hk. rewrite shr_testbit by lia. unfold all_ones.
    rewrite all_ones_testbit by lia. bsplit; lia.
Qed.

Lemma rwp_msb : forall p w n (Q : Z -> Prop), valid_w w -> 0 <= n < w ->
  (forall v, 0 <= v < 2 ^ w ->
     (forall k, 0 <= k < w -> Z.testbit v k = (n <=? k)) -> Q v) ->
  rwp (msb_mask p w n) Q.
Proof.
  intros p w n Q Hv Hn HQ. pose proof (valid_pos w Hv) as Hwp.
  pose proof (prom_ge w Hv). unfold msb_mask.
  apply rwp_bind, rwp_cshl; try assumption; try lia; [apply all_ones_range, Hv|].
  intros s Hs. apply rwp_ok, HQ.
  - apply wrap_range. lia.
  - intros k Hk. rewrite (shl_testbit w s (all_ones w) n) by (assumption || lia).
    destruct (Z.leb_spec n k).
    + unfold all_ones. rewrite all_ones_testbit by lia. apply Z.ltb_lt. lia.
    + apply Z.testbit_neg_r. lia.
Qed.

Lemma wp_padded_read : forall p w first last b m (Q : Z -> mem -> Prop),
  valid_w w -> wf_mem w m -> valid_it w first -> valid_it w last ->
  addr w first < addr w last -> m (ib first) <> None ->
  (forall v, 0 <= v < 2 ^ w ->
     (forall k, 0 <= k < w -> Z.testbit v k =
        if inr (addr w first) (addr w last) (ib first * w + k)
        then bit w m (ib first * w + k) else b) -> Q v m) ->
  wp (padded_read p w first last b) m Q.
Proof.
  intros p w first last b m Q Hv Hwf Hf Hl Hlt Hm HQ.
  pose proof (valid_pos w Hv) as Hwp. pose proof (prom_ge w Hv) as Hpr.
  unfold padded_read. apply wp_bind, (wp_load w); try assumption; try lia.
  intros rd Hrd Hb.
  change (fun n => let? s := cshr p w (all_ones w) n in Ok (wrap w s))
    with (lsb_mask p w).
  change (fun n => let? s := cshl p w (all_ones w) n in Ok (wrap w s))
    with (msb_mask p w).
  assert (Hbk : forall k, 0 <= k < w -> bit w m (ib first * w + k) = Z.testbit rd k).
  { intros k Hk. rewrite Hb by lia. f_equal. lia. }
  unfold valid_it, addr in *.
  assert (Hcase : ib first = ib last /\ ip first < ip last \/
                  ib first < ib last /\ ib first * w + w <= ib last * w).
  { destruct (Z.lt_trichotomy (ib first) (ib last)) as [C|[C|C]].
    - right. pose proof (mul_mono w (ib first + 1) (ib last)). lia.
    - left. split; [assumption|]. rewrite C in Hlt. lia.
    - exfalso. pose proof (mul_mono w (ib last + 1) (ib first)). lia. }
  destruct (Z.eqb_spec (ip first) 0) as [F0|F0];
    destruct (Z.eqb_spec (ib first) (ib last)) as [E|E]; cbn [negb];
    destruct Hcase as [[C1 C2]|[C1 C2]]; try lia.
  - rewrite <- E in HQ. destruct b.
    + wpl. apply rwp_msb; [assumption|lia|]. intros v Hvr Hvb.
      apply wp_ret, HQ; [apply lor_range; lia|].
      intros k Hk. rewrite Z.lor_spec, Hvb, Hbk by lia. rewrite F0. unfold inr.
      bsplit; destruct (Z.testbit rd k); cbn; (reflexivity || lia).
    + wpl. apply rwp_lsb; [assumption|lia|lia|]. intros v Hvr Hvb.
      apply wp_ret, HQ; [apply land_range; lia|].
      intros k Hk. rewrite Z.land_spec, Hvb, Hbk by lia. rewrite F0. unfold inr.
      bsplit; destruct (Z.testbit rd k); cbn; (reflexivity || lia).
  - apply wp_ret, HQ; [assumption|]. intros k Hk. rewrite Hbk by lia. unfold inr.
    bsplit; (reflexivity || lia).
  - rewrite <- E in HQ. destruct b.
    + wpl. apply rwp_lsb; [assumption|lia|lia|]. intros v1 Hv1 Hb1.
      wpl. apply rwp_msb; [assumption|lia|]. intros v2 Hv2 Hb2.
      apply wp_ret, HQ; [apply lor_range; [lia|assumption|apply lor_range; lia]|].
      intros k Hk. rewrite !Z.lor_spec, Hb1, Hb2, Hbk by lia. unfold inr.
      bsplit; destruct (Z.testbit rd k); cbn; (reflexivity || lia).
    + wpl. apply rwp_msb; [assumption|lia|]. intros v1 Hv1 Hb1.
      wpl. apply rwp_lsb; [assumption|lia|lia|]. intros v2 Hv2 Hb2.
      apply wp_ret, HQ; [apply land_range; lia|].
      intros k Hk. rewrite !Z.land_spec, Hb1, Hb2, Hbk by lia. unfold inr.
      bsplit; destruct (Z.testbit rd k); cbn; (reflexivity || lia).
  - destruct b.
    + wpl. apply rwp_lsb; [assumption|lia|lia|]. intros v Hvr Hvb.
      apply wp_ret, HQ; [apply lor_range; lia|].
      intros k Hk. rewrite Z.lor_spec, Hvb, Hbk by lia. unfold inr.
      bsplit; destruct (Z.testbit rd k); cbn; (reflexivity || lia).
    + wpl. apply rwp_msb; [assumption|lia|]. intros v Hvr Hvb.
      apply wp_ret, HQ; [apply land_range; lia|].
      intros k Hk. rewrite Z.land_spec, Hvb, Hbk by lia. unfold inr.
      bsplit; destruct (Z.testbit rd k); cbn; (reflexivity || lia).
Qed.

Lemma padded_read_ok : forall p w m first last b,
  valid_w w -> wf_mem w m -> valid_it w first -> valid_it w last ->
  addr w first < addr w last -> m (ib first) <> None ->
  exists v, padded_read p w first last b m = Ok (v, m) /\ 0 <= v < 2 ^ w /\
    forall k, 0 <= k < w -> Z.testbit v k =
      if inr (addr w first) (addr w last) (ib first * w + k)
      then bit w m (ib first * w + k) else b.
Proof.
  intros p w m first last b Hv Hwf Hf Hl Hlt Hm.
  assert (H : wp (padded_read p w first last b) m (fun v m' => m' = m /\
    0 <= v < 2 ^ w /\ forall k, 0 <= k < w -> Z.testbit v k =
      if inr (addr w first) (addr w last) (ib first * w + k)
      then bit w m (ib first * w + k) else b)).
  { apply wp_padded_read; try assumption. auto. }
  apply wp_exists in H. destruct H as (v & m' & E & -> & H). eauto.
Qed.

(** Whole words. *)
Lemma mset_eq : forall m a (v : Z) b, mset m a v b = if b =? a then Some v else m b.
Proof. reflexivity. Qed.

Lemma words_copy_down : forall n src dst m, dst <= src ->
  (forall b, src <= b < src + Z.of_nat n -> m b <> None) ->
  (forall b, dst <= b < dst + Z.of_nat n -> m b <> None) ->
  exists m', words_copy n src dst m = Ok (tt, m') /\
    forall a, m' a = if inr dst (dst + Z.of_nat n) a then m (a + (src - dst)) else m a.
Proof.
  induction n as [|n IH]; intros src dst m Hle Hs Hd.
  - exists m. split; [reflexivity|]. intros a. unfold inr. bsplit; (reflexivity || lia).
  - cbn [words_copy]. unfold bind, load, store.
    destruct (dom_some m src (Hs src ltac:(lia))) as [x Ex]. rewrite Ex.
    destruct (dom_some m dst (Hd dst ltac:(lia))) as [y Ey]. rewrite Ey.
    destruct (IH (src + 1) (dst + 1) (mset m dst x) ltac:(lia)) as (m' & E & H).
    + intros b Hb. rewrite mset_eq. destruct (Z.eqb_spec b dst); [discriminate|].
      apply Hs. lia.
    + intros b Hb. rewrite mset_eq. destruct (Z.eqb_spec b dst); [discriminate|].
      apply Hd. lia.
    + exists m'. split; [exact E|]. intros a. rewrite H, !mset_eq.
      replace (a + (src + 1 - (dst + 1))) with (a + (src - dst)) by lia. unfold inr.
      destruct (Z.eqb_spec a dst) as [->|Ha].
      * replace (dst + (src - dst)) with src by lia.
        destruct (Z.eqb_spec src dst); bsplit; (congruence || lia).
      * destruct (Z.eqb_spec (a + (src - dst)) dst); bsplit; (congruence || lia).
Qed.

Lemma words_copy_up : forall n se de m, se <= de ->
  (forall b, se - Z.of_nat n <= b < se -> m b <> None) ->
  (forall b, de - Z.of_nat n <= b < de -> m b <> None) ->
  exists m', words_copy_backward n se de m = Ok (tt, m') /\
    forall a, m' a = if inr (de - Z.of_nat n) de a then m (a - (de - se)) else m a.
Proof.
  induction n as [|n IH]; intros se de m Hle Hs Hd.
  - exists m. split; [reflexivity|]. intros a. unfold inr. bsplit; (reflexivity || lia).
  - cbn [words_copy_backward]. unfold bind, load, store.
    destruct (dom_some m (se - 1) (Hs (se - 1) ltac:(lia))) as [x Ex]. rewrite Ex.
    destruct (dom_some m (de - 1) (Hd (de - 1) ltac:(lia))) as [y Ey]. rewrite Ey.
    destruct (IH (se - 1) (de - 1) (mset m (de - 1) x) ltac:(lia)) as (m' & E & H).
    + intros b Hb. rewrite mset_eq. destruct (Z.eqb_spec b (de - 1)); [discriminate|].
      apply Hs. lia.
    + intros b Hb. rewrite mset_eq. destruct (Z.eqb_spec b (de - 1)); [discriminate|].
      apply Hd. lia.
    + exists m'. split; [exact E|]. intros a. rewrite H, !mset_eq.
      replace (a - (de - 1 - (se - 1))) with (a - (de - se)) by lia. unfold inr.
      destruct (Z.eqb_spec a (de - 1)) as [->|Ha].
      * replace (de - 1 - (de - se)) with (se - 1) by lia.
        destruct (Z.eqb_spec (se - 1) (de - 1)); bsplit; (congruence || lia).
      * destruct (Z.eqb_spec (a - (de - se)) (de - 1)); bsplit; (congruence || lia).
Qed.

Lemma word_shift_left_ok : forall m first last n, first <= last ->
  (forall a, first <= a < last -> m a <> None) ->
  exists m', word_shift_left first last n m =
      Ok (if n <=? 0 then last else if last - first <=? n then first else last - n, m') /\
    forall a, m' a =
      if (0 <? n) && (n <? last - first) && inr first (last - n) a
      then m (a + n) else m a.
Proof.
  intros m first last n Hle Hm. unfold word_shift_left.
  destruct (Z.leb_spec n 0) as [C1|C1].
  { exists m. split; [reflexivity|]. intros a. bsplit; (reflexivity || lia). }
  destruct (Z.leb_spec (last - first) n) as [C2|C2].
  { exists m. split; [reflexivity|]. intros a.
    destruct (Z.ltb_spec n (last - first)); [lia|].
    rewrite andb_false_r. reflexivity. }
  destruct (words_copy_down (Z.to_nat (last - (first + n))) (first + n) first m)
    as (m' & E & H); try lia.
  - intros b Hb. apply Hm. lia.
  - intros b Hb. apply Hm. lia.
  - exists m'. unfold bind. rewrite E. split.
    + unfold ret. f_equal. f_equal. lia.
    + intros a. rewrite H. unfold inr.
      replace (a + (first + n - first)) with (a + n) by lia.
      bsplit; (reflexivity || lia).
Qed.

Lemma word_shift_right_ok : forall m first last n, first <= last ->
  (forall a, first <= a < last -> m a <> None) ->
  exists m', word_shift_right first last n m =
      Ok (if n <=? 0 then first else if last - first <=? n then last else first + n, m') /\
    forall a, m' a =
      if (0 <? n) && (n <? last - first) && inr (first + n) last a
      then m (a - n) else m a.
Proof.
  intros m first last n Hle Hm. unfold word_shift_right.
  destruct (Z.leb_spec n 0) as [C1|C1].
  { exists m. split; [reflexivity|]. intros a. bsplit; (reflexivity || lia). }
  destruct (Z.leb_spec (last - first) n) as [C2|C2].
  { exists m. split; [reflexivity|]. intros a.
    destruct (Z.ltb_spec n (last - first)); [lia|].
    rewrite andb_false_r. reflexivity. }
  destruct (words_copy_up (Z.to_nat (last - n - first)) (last - n) last m)
    as (m' & E & H); try lia.
  - intros b Hb. apply Hm. lia.
  - intros b Hb. apply Hm. lia.
  - exists m'. unfold bind. rewrite E. split; [reflexivity|].
    intros a. rewrite H. unfold inr.
    replace (a - (last - (last - n))) with (a - n) by lia.
    bsplit; (reflexivity || lia).
Qed.

(** count on an empty range whose word can be read. *)
Lemma count_empty_readable : forall t p w m it b,
  valid_w w -> wf_mem w m -> valid_it w it -> m (ib it) <> None ->
  count t p w it it b m = Ok (0, m).
Proof.
  intros t p w m it b Hv Hwf Hi Hm.
  assert (H : wp (count t p w it it b) m (fun r m' => r = 0 /\ m' = m)).
  { apply wp_count; try assumption; try lia.
    - intros i Hx. lia.
    - auto.
    - rewrite Z.sub_diag. split; reflexivity. }
  apply wp_exists in H. destruct H as (r & m' & E & -> & ->). exact E.
Qed.
