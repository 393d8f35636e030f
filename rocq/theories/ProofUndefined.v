(** The calls that execute an undefined shift: the blend of a whole word in
    _bitblend (bit_details.hpp:758-759). *)
From Coq Require Import ZArith Bool List Lia.
From Verif Require Import Base WordOps IterModel PopcntModel AlgModel ShiftModel
  ReverseModel Spec ProofBase ProofIter ProofWord ProofAlg1 ProofCopyBackward
  ProofShift ProofBitswap ProofReverse.
Import ListNotations.
Open Scope Z_scope.
Ltac Zify.zify_post_hook ::= idtac.

(** The computation ends in an undefined shift. *)
Definition badshift (k : ub) : Prop := k = OverShift \/ k = NegShift.
Definition bad {A} (c : M A) (m : mem) : Prop := exists k, c m = UB k /\ badshift k.

Lemma bad_left : forall A B (c : M A) (f : A -> M B) m, bad c m -> bad (bind c f) m.
Proof. intros A B c f m (k & E & Hk). exists k. unfold bind. rewrite E. auto. Qed.

Lemma bad_right : forall A B (c : M A) (f : A -> M B) m,
  wp c m (fun a m' => bad (f a) m') -> bad (bind c f) m.
Proof.
  intros A B c f m H. apply wp_exists in H. destruct H as (a & m' & E & k & Ek & Hk).
  exists k. unfold bind. rewrite E. auto.
Qed.

Lemma bad_assoc : forall A B C (c : M A) (f : A -> M B) (g : B -> M C) m,
  bad (bind c (fun x => bind (f x) g)) m -> bad (bind (bind c f) g) m.
Proof.
  intros A B C c f g m (k & E & Hk). exists k. split; [|exact Hk].
  unfold bind in *. destruct (c m) as [[a m1]| | | |]; exact E.
Qed.

Lemma bad_blend : forall p w x y m, valid_w w -> ~ full_blend_defined p w ->
  bad (lift (bitblend p w x y 0 w)) m.
Proof.
  intros p w x y m Hw Hg. unfold bad, lift, badshift.
  assert (H : exists k, bitblend p w x y 0 w = UB k /\ (k = OverShift \/ k = NegShift)).
  { unfold bitblend.
    destruct Hw as [->|[->|[->|[->| ->]]]]; destruct p as [| |o]; cbn in Hg; try lia;
      try (exfalso; apply Hg; exact I); eexists; (split; [reflexivity|auto]). }
  destruct H as (k & -> & Hk). exists k. auto.
Qed.

Ltac badl := apply bad_right, wp_lift.

Lemma one_word_full : forall first last, ib last - ib first = 1 -> ip last = 0 ->
  one_word first last = true.
Proof.
  intros first last H1 H2. unfold one_word. rewrite H2. cbn [Z.eqb b2z].
  apply Z.eqb_eq. lia.
Qed.

Lemma shift_left_bad : forall p w m first last n,
  valid_w w -> wf_mem w m -> good_range w m first last ->
  ip first = 0 -> ip last = 0 -> ib last - ib first = 1 -> 0 < n < w ->
  ~ full_blend_defined p w -> bad (shift_left p w first last n) m.
Proof.
  intros p w m first last n Hw Hwf (Hf & Hl & Hd & Hm) F0 L0 E1 Hn Hg.
  pose proof (valid_pos w Hw) as Hwp. pose proof (prom_ge w Hw) as Hpr.
  unfold max_bits in Hd.
  assert (Hdist : addr w last - addr w first = w) by (unfold addr; nia).
  unfold shift_left. apply bad_right, wp_assert_viable; try assumption.
  apply bad_right, wp_distance; try assumption.
  apply bad_right, wp_iadd; try assumption; [lia|]. intros mi _ _.
  rewrite Hdist. destruct (Z.leb_spec n 0); [lia|]. destruct (Z.leb_spec w n); [lia|].
  rewrite (one_word_full first last) by assumption.
  apply bad_right, (wp_load w); try assumption; try lia.
  { apply (mapped_word w m (addr w first) (addr w last)); try assumption;
      unfold addr in *; lia. }
  intros x Hx Hbx. unfold end_pos. rewrite L0, F0. cbn [Z.eqb]. rewrite Z.sub_0_r.
  badl. apply rwp_cshr; [lia|]. badl. apply rwp_cshr; [lia|].
  apply bad_left, bad_blend; assumption.
Qed.

Lemma shift_right_bad : forall p w m first last n,
  valid_w w -> wf_mem w m -> good_range w m first last ->
  ip first = 0 -> ip last = 0 -> ib last - ib first = 1 -> 0 < n < w ->
  ~ full_blend_defined p w -> bad (shift_right p w first last n) m.
Proof.
  intros p w m first last n Hw Hwf (Hf & Hl & Hd & Hm) F0 L0 E1 Hn Hg.
  pose proof (valid_pos w Hw) as Hwp. pose proof (prom_ge w Hw) as Hpr.
  unfold max_bits in Hd.
  assert (Hdist : addr w last - addr w first = w) by (unfold addr; nia).
  unfold shift_right.
  apply bad_right, wp_distance; try assumption.
  apply bad_right, wp_isub; try assumption; [lia|]. intros mi _ _.
  rewrite Hdist. destruct (Z.leb_spec n 0); [lia|]. destruct (Z.leb_spec w n); [lia|].
  rewrite (one_word_full first last) by assumption.
  apply bad_right, (wp_load w); try assumption; try lia.
  { apply (mapped_word w m (addr w first) (addr w last)); try assumption;
      unfold addr in *; lia. }
  intros x Hx Hbx. unfold end_pos. rewrite L0, F0. cbn [Z.eqb]. rewrite Z.sub_0_r.
  badl. apply rwp_cshl; try assumption; try lia.
  { apply wrap_range. lia. }
  intros s1 Hs1. badl. apply rwp_cshl; try assumption; try lia.
  { apply land_range; lia. }
  intros s2 Hs2. apply bad_left, bad_blend; assumption.
Qed.

Lemma reverse_bad : forall p w m first last,
  valid_w w -> wf_mem w m -> good_range w m first last ->
  ip first <> 0 -> ip last = 0 -> ib last - ib first = 1 ->
  ~ full_blend_defined p w -> bad (reverse p w first last) m.
Proof.
  intros p w m first last Hw Hwf (Hf & Hl & Hd & Hm) F0 L0 E1 Hg.
  pose proof (valid_pos w Hw) as Hwp. unfold max_bits in Hd.
  assert (Ha : m (ib first) <> None).
  { unfold valid_it in *.
    apply (mapped_word w m (addr w first) (addr w last)); try assumption; try lia;
      unfold addr in *; nia. }
  unfold reverse. apply bad_right, wp_assert_viable; try assumption.
  rewrite L0. cbn [Z.eqb negb b2z]. rewrite Z.mul_0_r, Z.add_0_r.
  destruct (Z.eqb_spec (ip first) 0) as [C|_]; [lia|]. cbn [andb negb].
  destruct (Z.eqb_spec (ib first) (ib last)) as [C|_]; [lia|]. cbn [negb].
  apply bad_right, (wp_load w); try assumption; [lia|]. intros x1 _ _.
  replace (ib last - 1) with (ib first) by lia.
  apply bad_right, (wp_load w); try assumption; [lia|]. intros x2 _ _.
  apply bad_right, wp_words_reverse; [lia| |].
  { intros b Hb. replace b with (ib first) by lia. exact Ha. }
  intros m1 H1.
  assert (H1' : forall b, m1 b = m b).
  { intros b. rewrite H1. unfold inr.
    destruct (Z.leb_spec (ib first) b); [|reflexivity].
    destruct (Z.ltb_spec b (ib last)); [|reflexivity].
    cbn [andb]. f_equal. lia. }
  assert (Hwf1 : wf_mem w m1) by (intros b v Hb; rewrite H1' in Hb; eapply Hwf, Hb).
  replace (ib last - ib first) with 1 by lia.
  apply bad_right, wp_words_bitswap; try assumption.
  { intros b Hb. cbn in Hb. rewrite H1'. replace b with (ib first) by lia. exact Ha. }
  intros m2 Hwf2 Hd2 _ _.
  assert (Ha2 : m2 (ib first) <> None).
  { intros Hn. apply Hd2 in Hn. rewrite H1' in Hn. contradiction. }
  unfold valid_it in Hf. unfold reverse_shift.
  destruct (Z.ltb_spec (ip first) 0) as [|_]; [lia|].
  destruct (Z.ltb_spec 0 (ip first)) as [_|]; [|lia].
  apply bad_left, bad_left. rewrite Z.sub_0_r.
  apply shift_right_bad; try assumption; cbn [ib ip]; try lia; try reflexivity.
  unfold good_range, valid_it, addr, max_bits; cbn [ib ip].
  assert (E2 : ib last = ib first + 1) by lia. rewrite E2.
  split; [lia|]. split; [lia|]. split; [nia|].
  intros i Hi. rewrite (div_word w (ib first)) by nia. exact Ha2.
Qed.

Lemma copy_backward_bad : forall p w m first last d,
  valid_w w -> wf_mem w m -> good_range w m first last ->
  good_dest_end w m d (addr w last - addr w first) ->
  addr w last <= addr w d \/ addr w d <= addr w first ->
  ip first = 0 -> ip last = ip d -> 2 <= ib last - ib first ->
  ~ full_blend_defined p w -> bad (copy_backward p w first last d) m.
Proof.
  intros p w m first last d Hw Hwf (Hf & Hl & Hd & Hms) (Hdv & Hmd) Hov F0 Epos Eib Hg.
  pose proof (valid_pos w Hw) as Hwp. pose proof (prom_ge w Hw) as Hpr.
  unfold max_bits in Hd. set (len := addr w last - addr w first) in *.
  assert (HF : addr w first = ib first * w) by (unfold addr; lia).
  assert (HL : addr w last = ib last * w + ip d) by (unfold addr; lia).
  assert (HD : addr w d = ib d * w + ip d) by reflexivity.
  assert (Hlen : len = (ib last - ib first) * w + ip d) by lia.
  assert (Hbig : 2 * w <= (ib last - ib first) * w) by (apply Z.mul_le_mono_nonneg_r; lia).
  pose proof Hdv as Hdv'. unfold valid_it in Hdv'.
  unfold copy_backward. apply bad_right, wp_assert_viable; try assumption.
  rewrite (ieq_addr w) by (assumption || lia).
  destruct (Z.eqb_spec (addr w first) (addr w last)) as [E|_]; [lia|].
  apply bad_right, wp_distance; try assumption. fold len.
  apply bad_right.
  apply (wp_conseq _ _ _ (fun '(rem, l1) m1 => wf_mem w m1 /\ same_dom m m1 /\
     l1 = It (ib last) 0 /\ rem = (ib last - ib first) * w)).
  { destruct (Z.eqb_spec (ip d) 0) as [E0|E0]; cbn [negb].
    - apply wp_ret. split; [assumption|]. split; [apply same_dom_refl|].
      split; [|lia]. destruct last as [bl pl]. cbn [ib ip] in *. f_equal. lia.
    - replace (Z.min len (ip d)) with (ip d) by lia.
      rewrite (usub_small (ip d)) by lia. rewrite Z.sub_diag.
      apply wp_bind, (wp_load w); try assumption; try lia.
      { apply (mapped_word w m (addr w d - len) (addr w d)); try assumption; lia. }
      intros x Hx Hbx. apply wp_bind, wp_isub; try assumption; try lia.
      intros src Hsrc Hsa. apply wp_bind, wp_get_word; try assumption; try lia.
      { eapply mapped_sub; [exact Hms|lia|lia]. }
      intros g Hg' Hgb. wpl. apply rwp_cshl; try assumption; try lia.
      intros s Hs. wpl. apply rwp_bitblend; try assumption; try lia.
      { apply wrap_range. lia. }
      intros v Hv Hvb. apply wp_bind, (wp_store w); try assumption; try lia.
      { apply (mapped_word w m (addr w d - len) (addr w d)); try assumption; lia. }
      intros m1 Hwf1 Hd1 _. rewrite swrap64_small by lia.
      apply wp_bind, wp_iadd; try assumption; try lia.
      intros l1 Hl1 Ha1. apply wp_ret. rewrite usub_small by lia.
      split; [assumption|]. split; [assumption|]. split; [|lia].
      apply (addr_inj w); try assumption; try lia.
      + unfold valid_it. cbn [ip]. lia.
      + unfold addr at 2. cbn [ib ip]. lia. }
  intros [rem l1] m1 (Hwf1 & Hd1 & -> & ->).
  assert (Hms1 : mapped w m1 (addr w first) (addr w last))
    by (eapply mapped_dom; eassumption).
  assert (Hmd1 : mapped w m1 (addr w d - len) (addr w d))
    by (eapply mapped_dom; eassumption).
  cbn [ip ib].
  destruct (Z.ltb_spec 0 ((ib last - ib first) * w)) as [_|]; [|lia].
  destruct (Z.ltb_spec w ((ib last - ib first) * w)) as [_|]; [|lia].
  cbn [Z.eqb andb]. apply bad_left, bad_right, wp_bind.
  set (n := ib last - ib first - 1).
  assert (Hn : 1 <= n) by lia.
  assert (Hnw : (ib last - ib first) * w = n * w + w) by (unfold n; lia).
  assert (Hnn : Z.of_nat (Z.to_nat n) = n) by lia.
  apply (wp_words_copy_backward w); rewrite ?Hnn; try assumption; try lia.
  { destruct Hov as [Ho|Ho].
    - left. nia.
    - right. unfold n. nia. }
  { intros b Hb. pose proof (mul_mono w (ib first + 1) b).
    pose proof (mul_mono w (b + 1) (ib last)).
    apply (mapped_word w m1 (addr w first) (addr w last)); try assumption; lia. }
  { intros b Hb. pose proof (mul_mono w (ib d - n) b).
    pose proof (mul_mono w (b + 1) (ib d)).
    apply (mapped_word w m1 (addr w d - len) (addr w d)); try assumption; lia. }
  intros m2 U2.
  assert (Hms2 : mapped w m2 (addr w first) (addr w last))
    by (eapply updated_mapped; eassumption).
  assert (Hmd2 : mapped w m2 (addr w d - len) (addr w d))
    by (eapply updated_mapped; eassumption).
  assert (Hv0 : valid_it w (It (ib last) 0)) by (unfold valid_it; cbn [ip]; lia).
  apply wp_bind, wp_isub; try assumption; try lia.
  intros l2 Hl2 Ha2. apply wp_ret.
  assert (Ha2' : addr w l2 = ib last * w - w * n).
  { rewrite Ha2. unfold addr. cbn [ib ip]. lia. }
  replace (usub ((ib last - ib first) * w) (w * n)) with w
    by (rewrite usub_small; lia).
  destruct (Z.ltb_spec 0 w) as [_|]; [|lia].
  apply bad_right, (wp_load w); try lia.
  { eapply updated_wf, U2. }
  { apply (mapped_word w m2 (addr w d - len) (addr w d)); try assumption; unfold n; lia. }
  intros x Hx Hbx. apply bad_right, wp_isub; try assumption; try lia.
  intros src Hsrc Hsa. apply bad_right, wp_get_word; try assumption; try lia.
  { eapply updated_wf, U2. }
  { eapply mapped_sub; [exact Hms2|unfold n in *; lia|unfold n in *; lia]. }
  intros g Hg' Hgb. rewrite usub_small by lia. rewrite Z.sub_diag.
  badl. apply rwp_cshl; try assumption; try lia.
  intros s Hs. apply bad_left, bad_blend; assumption.
Qed.
