(** Proofs about copy_backward (copy_backward.hpp). *)
From Coq Require Import ZArith Bool List Lia.
From Coq Require Import ZifyBool.
From Verif Require Import Base WordOps IterModel AlgModel Spec ProofBase ProofIter
  ProofWord ProofAlg1 ProofCopy.
Import ListNotations.
Open Scope Z_scope.
Ltac Zify.zify_post_hook ::= Z.div_mod_to_equations.

(** State of a backward copy: the destination is written down to bit [c]. *)
Definition bcopied (w : Z) (m0 m : mem) (c d delta : Z) : Prop :=
  updated w m0 m c d (fun i => bit w m0 (i + delta)).

Lemma bcopied_read : forall w m0 m d c delta first j,
  bcopied w m0 m c d delta -> delta <= 0 \/ d <= first ->
  first <= j < c + delta -> bit w m j = bit w m0 j.
Proof.
  intros w m0 m d c delta first j H Hov Hj.
  apply (updated_out _ _ _ _ _ _ _ H). lia.
Qed.

Lemma bcopied_step : forall w m0 m m' d c c' delta f,
  bcopied w m0 m c d delta -> updated w m m' c' c f -> c' <= c <= d ->
  (forall i, c' <= i < c -> f i = bit w m0 (i + delta)) ->
  bcopied w m0 m' c' d delta.
Proof.
  intros w m0 m m' d c c' delta f H1 H2 Hc Hf.
  eapply updated_app_left; [exact H1|exact H2|lia|reflexivity|exact Hf].
Qed.

Lemma wp_copy_backward_loop : forall p w fuel it last rem m0 m d first
    (Q : Z * iter * Z -> mem -> Prop),
  let delta := addr w last - it * w in
  valid_w w -> valid_it w last -> wf_mem w m0 ->
  0 <= rem < w * (Z.of_nat fuel + 1) -> rem <= 2 ^ 62 ->
  addr w last - rem = first ->
  mapped w m0 first (addr w last) ->
  mapped w m0 (it * w - rem) (it * w) ->
  delta <= 0 \/ d <= first -> it * w <= d ->
  bcopied w m0 m (it * w) d delta ->
  (forall it' last' rem' m', valid_it w last' -> 0 <= rem' < w ->
     it' * w <= it * w ->
     addr w last' = it' * w + delta -> addr w last' - rem' = first ->
     bcopied w m0 m' (it' * w) d delta -> Q (it', last', rem') m') ->
  wp (copy_backward_loop p w fuel it last rem) m Q.
Proof.
  intros p w fuel. induction fuel as [|fuel IH];
    intros it last rem m0 m d first Q delta Hw Hf Hwf Hr Hr2 Hl Hms Hmd Hov Hd Hc HQ;
    pose proof (valid_pos w Hw) as Hwp; cbn [copy_backward_loop];
    destruct (Z.leb_spec w rem) as [E|E].
  - lia.
  - apply wp_ret, HQ; try assumption; try lia.
  - apply wp_bind, wp_isub; try assumption; try lia. intros src Hsrc Hsa.
    apply wp_bind, wp_get_word; try assumption; try lia.
    { eapply updated_wf, Hc. }
    { eapply mapped_sub; [eapply updated_mapped; [exact Hc|exact Hms]|lia|lia]. }
    intros v Hv Hvb. apply wp_bind, (wp_store_word w); try assumption; try lia.
    { eapply updated_wf, Hc. }
    { apply (mapped_word w m (it * w - rem) (it * w)); try lia.
      eapply updated_mapped; eassumption. }
    intros m1 H1.
    assert (Hc1 : bcopied w m0 m1 ((it - 1) * w) d delta).
    { replace ((it - 1) * w + w) with (it * w) in H1 by lia.
      eapply bcopied_step; [exact Hc|exact H1|lia|].
      intros i Hi. cbv beta. rewrite Hvb by lia.
      rewrite (bcopied_read w m0 m d (it * w) delta first) by (assumption || lia).
      f_equal. lia. }
    rewrite swrap64_small by lia.
    apply wp_bind, wp_iadd; try assumption; try lia.
    intros last' Hl' Ha'. rewrite usub_small by lia.
    assert (Hdd : addr w last' - (it - 1) * w = delta) by lia.
    apply (IH _ _ _ m0 _ d first); try assumption; try lia.
    + eapply mapped_sub; [exact Hms|lia|lia].
    + eapply mapped_sub; [exact Hmd|lia|lia].
    + rewrite Hdd. assumption.
    + intros it' f2 rem' m' A1 A2 A3 A4 A5 A6. rewrite Hdd in *.
      apply HQ; try assumption. lia.
  - apply wp_ret, HQ; try assumption; try lia.
Qed.

Lemma wp_copy_backward : forall p w first last d m (Q : iter -> mem -> Prop),
  let len := addr w last - addr w first in
  valid_w w -> valid_it w first -> valid_it w last -> valid_it w d ->
  wf_mem w m -> 0 <= len <= 2 ^ 62 ->
  mapped w m (addr w first) (addr w last) ->
  mapped w m (addr w d - len) (addr w d) ->
  addr w last <= addr w d \/ addr w d <= addr w first ->
  (ip first <> 0 \/ ip last <> ip d \/ ib last - ib first < 2 \/
   full_blend_defined p w) ->
  (forall d' m', valid_it w d' -> addr w d' = addr w d - len ->
     updated w m m' (addr w d - len) (addr w d)
       (fun i => bit w m (i + (addr w last - addr w d))) -> Q d' m') ->
  wp (copy_backward p w first last d) m Q.
Proof.
  intros p w first last d m Q len Hw Hf Hl Hd Hwf Hlen Hms Hmd Hov Hg HQ.
  pose proof (valid_pos w Hw) as Hwp. pose proof (prom_ge w Hw) as Hpr.
  unfold copy_backward. set (delta := addr w last - addr w d) in *.
  apply wp_bind, wp_assert_viable; try assumption; try lia.
  rewrite (ieq_addr w) by (assumption || lia).
  destruct (Z.eqb_spec (addr w first) (addr w last)) as [E|E].
  { apply wp_ret, HQ; try assumption; try lia.
    apply updated_refl; [assumption|]. intros i Hi. lia. }
  apply wp_bind, wp_distance; try assumption; try lia. fold len.
  (* the partial last word *)
  apply wp_bind.
  apply (wp_conseq _ _ _ (fun '(rem, l1) m1 =>
     valid_it w l1 /\ addr w l1 - rem = addr w first /\ 0 <= rem <= len /\
     ((rem = 0 /\ bcopied w m m1 (addr w d - len) (addr w d) delta) \/
      (rem = len - ip d /\ addr w l1 = ib d * w + delta /\
       bcopied w m m1 (ib d * w) (addr w d) delta)))).
  { destruct (Z.eqb_spec (ip d) 0) as [E0|E0]; cbn [negb].
    - apply wp_ret. split; [assumption|]. split; [lia|]. split; [lia|]. right.
      unfold addr in *. split; [lia|]. split; [lia|].
      apply updated_refl; [assumption|]. intros i Hi. lia.
    - unfold valid_it in Hd.
      set (part := Z.min len (ip d)) in *.
      rewrite (usub_small (ip d)) by lia.
      apply wp_bind, (wp_load w); try assumption; try lia.
      { apply (mapped_word w m (addr w d - len) (addr w d)); try assumption;
          unfold addr; lia. }
      intros x Hx Hbx. apply wp_bind, wp_isub; try assumption; try lia.
      intros src Hsrc Hsa. apply wp_bind, wp_get_word; try assumption; try lia.
      { eapply mapped_sub; [exact Hms|lia|lia]. }
      intros g Hg' Hgb. wpl. apply rwp_cshl; try assumption; try lia.
      intros s Hs. wpl. apply rwp_bitblend; try assumption; try lia.
      { apply wrap_range. lia. }
      intros v Hv Hvb.
      apply wp_bind, (wp_store_part w _ _ _ (addr w d - part) (addr w d)
        (fun i => bit w m (i + delta))); try assumption; try lia.
      { apply (mapped_word w m (addr w d - len) (addr w d)); try assumption;
          unfold addr; lia. }
      { unfold addr. lia. }
      { unfold addr. lia. }
      { intros k Hk. rewrite Hvb by lia. unfold addr at 1 2. bsplit.
        - rewrite (shl_testbit w s g (ip d - part)) by (assumption || lia).
          rewrite Hgb by lia. f_equal. unfold delta, addr in *. lia.
        - rewrite Hbx by lia. f_equal. lia.
        - rewrite Hbx by lia. f_equal. lia. }
      intros m1 H1. rewrite swrap64_small by lia.
      apply wp_bind, wp_iadd; try assumption; try lia.
      intros l1 Hl1 Ha1. apply wp_ret. rewrite usub_small by lia.
      split; [assumption|]. split; [lia|]. split; [lia|].
      destruct (Z.le_gt_cases (ip d) len).
      + right. unfold addr in *. split; [lia|]. split; [lia|].
        replace (ib d * w + ip d - part) with (ib d * w) in H1 by lia. exact H1.
      + left. split; [lia|]. replace len with part by lia. exact H1. }
  intros [rem l1] m1 (Hl1 & Hrem & Hrl & Hst).
  (* the rest *)
  apply wp_bind.
  apply (wp_conseq _ _ _ (fun _ m2 =>
     bcopied w m m2 (addr w d - len) (addr w d) delta)).
  { destruct (Z.ltb_spec 0 rem) as [E1|E1].
    2:{ destruct Hst as [[_ H]|(H1 & H2 & H3)]; apply wp_ret.
        - exact H.
        - replace (addr w d - len) with (ib d * w) by (unfold addr in *; lia).
          exact H3. }
    destruct Hst as [[H _]|(H1 & H2 & H3)]; [lia|].
    assert (Hms1 : mapped w m1 (addr w first) (addr w last))
      by (eapply updated_mapped; eassumption).
    assert (Hmd1 : mapped w m1 (addr w d - len) (addr w d))
      by (eapply updated_mapped; eassumption).
    assert (Hdib : ib d * w <= addr w d) by (unfold addr, valid_it in *; lia).
    apply wp_bind.
    apply (wp_conseq _ _ _ (fun '(it2, l2, rem2) m2 =>
      valid_it w l2 /\ 0 <= rem2 <= w /\
      (rem2 = w -> full_blend_defined p w) /\ (it2 + 1) * w <= addr w d /\
      addr w l2 = (it2 + 1) * w + delta /\ addr w l2 - rem2 = addr w first /\
      bcopied w m m2 ((it2 + 1) * w) (addr w d) delta)).
    { destruct ((ip l1 =? 0) && (w <? rem)) eqn:E2.
      - assert (Hn : ib first < ib l1) by (unfold addr, valid_it in *; nia).
        pose proof (mul_mono w (ib first + 1) (ib l1) ltac:(lia) ltac:(lia)) as Hn2.
        assert (Hal : ib l1 * w = ib d * w + delta) by (unfold addr in H2; lia).
        assert (Hpl : ib first * w <= addr w first < ib first * w + w)
          by (unfold addr, valid_it in *; lia).
        apply wp_bind, (wp_words_copy_backward w); try lia.
        + eapply updated_wf, H3.
        + assert (delta <= 0 \/ addr w d <= addr w first) as [Ho|Ho] by lia.
          * left. nia.
          * right. nia.
        + intros b Hb. pose proof (mul_mono w (ib first + 1) b ltac:(lia) ltac:(lia)).
          pose proof (mul_mono w (b + 1) (ib l1) ltac:(lia) ltac:(lia)).
          apply (mapped_word w m1 (addr w first) (addr w last)); try assumption; lia.
        + intros b Hb.
          pose proof (mul_mono w (ib d - (ib l1 - ib first - 1)) b ltac:(lia) ltac:(lia)).
          pose proof (mul_mono w (b + 1) (ib d) ltac:(lia) ltac:(lia)).
          apply (mapped_word w m1 (addr w d - len) (addr w d)); try assumption; lia.
        + replace (Z.of_nat (Z.to_nat (ib l1 - ib first - 1)))
            with (ib l1 - ib first - 1) by lia.
          intros m2 H4. apply wp_bind, wp_isub; try assumption; try lia.
          intros l2 Hl2 Ha2. apply wp_ret.
          rewrite usub_small by lia.
          split; [assumption|].
          split; [lia|].
          split.
          { intros Hw2. assert (Hf0 : ip first = 0) by (unfold addr in *; lia).
            assert (Hsame : ip last = ip d).
            { unfold delta, addr, valid_it in *.
              assert (ib last * w - ib l1 * w = ip d - ip last) by lia.
              assert (ib last = ib l1) by nia. nia. }
            assert (2 <= ib last - ib first)
              by (unfold delta, addr, valid_it in *; nia).
            destruct Hg as [Hg|[Hg|[Hg|Hg]]]; try lia. assumption. }
          split; [lia|]. split; [lia|]. split; [lia|].
          replace (ib d - (ib l1 - ib first - 1) - 1 + 1)
            with (ib d - (ib l1 - ib first - 1)) by lia.
          eapply bcopied_step; [exact H3|exact H4|lia|].
          intros i Hi. cbv beta.
          replace ((ib l1 - ib d) * w) with delta by lia.
          apply (bcopied_read w m m1 (addr w d) (ib d * w) delta (addr w first));
            try assumption; lia.
      - assert (Hdd : addr w l1 - ib d * w = delta) by lia.
        apply wp_bind.
        apply (wp_copy_backward_loop p w _ _ _ _ m m1 (addr w d) (addr w first));
          try assumption; try lia; rewrite ?Hdd; try assumption; try lia.
        + eapply mapped_sub; [exact Hms|lia|unfold addr, valid_it in *; lia].
        + eapply mapped_sub; [exact Hmd|unfold addr in *; lia|lia].
        + intros it' f' rem' m' A1 A2 A3 A4 A5 A6. apply wp_ret.
          replace (it' - 1 + 1) with it' by lia.
          split; [assumption|]. split; [lia|]. split; [intros; lia|].
          repeat (split; [assumption||lia|]). assumption. }
    intros [[it2 l2] rem2] m2 (A1 & A2 & Ag & A3 & A4 & A5 & A6).
    destruct (Z.ltb_spec 0 rem2) as [E3|E3].
    2:{ apply wp_ret.
        replace (addr w d - len) with ((it2 + 1) * w) by lia. exact A6. }
    assert (Hwf2 : wf_mem w m2) by (eapply updated_wf, A6).
    assert (Hma : m2 it2 <> None).
    { apply (mapped_word w m2 (addr w d - len) (addr w d)); try lia.
      eapply updated_mapped; eassumption. }
    apply wp_bind, (wp_load w); try assumption; try lia.
    intros x Hx Hbx. apply wp_bind, wp_isub; try assumption; try lia.
    intros src Hsrc Hsa. apply wp_bind, wp_get_word; try assumption; try lia.
    { eapply mapped_sub; [eapply updated_mapped; [exact A6|exact Hms]|lia|lia]. }
    intros g Hg' Hgb. rewrite usub_small by lia.
    wpl. apply rwp_cshl; try assumption; try lia. intros s Hs.
    wpl. apply rwp_bitblend; try assumption; try lia.
    { apply wrap_range. lia. }
    { destruct (Z.eq_dec rem2 w); [right; auto|left; lia]. }
    intros v Hv Hvb.
    apply (wp_store_part w _ _ _ (addr w d - len) ((it2 + 1) * w)
        (fun i => bit w m (i + delta))); try assumption; try lia.
    { intros k Hk. rewrite Hvb by lia. bsplit.
      - rewrite (shl_testbit w s g (w - rem2)) by (assumption || lia).
        rewrite Hgb by lia.
        rewrite (bcopied_read w m m2 (addr w d) ((it2 + 1) * w) delta (addr w first))
          by (assumption || lia).
        f_equal. lia.
      - rewrite Hbx by lia. f_equal. lia. }
    intros m3 H4. eapply bcopied_step; [exact A6|exact H4|lia|reflexivity]. }
  intros _ m2 H2. apply wp_isub; try assumption; try lia.
  intros d' Hd' Ha'. apply HQ; assumption.
Qed.
