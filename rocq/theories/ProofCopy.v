(** Proofs about copy and move (copy.hpp, move.hpp). *)
From Coq Require Import ZArith Bool List Lia.
From Coq Require Import ZifyBool.
From Verif Require Import Base WordOps IterModel AlgModel Spec ProofBase ProofIter
  ProofWord ProofAlg1.
Import ListNotations.
Open Scope Z_scope.
Ltac Zify.zify_post_hook ::= Z.div_mod_to_equations.

Lemma low_mask_eq : forall p w n, valid_w w -> 0 <= n < w ->
  low_mask p w n = Ok (2 ^ n - 1).
Proof.
  intros p w n Hw Hn. unfold low_mask. rewrite cshl_one by (assumption || lia).
  cbn [rbind]. pose proof (pow_pos n). pose proof (pow_pos w).
  assert (2 ^ n < 2 ^ w) by (apply Z.pow_lt_mono_r; lia).
  rewrite arith_small by lia. rewrite wrap_small by lia. reflexivity.
Qed.

(** State of a forward copy: the destination is written up to bit [c]. *)
Definition copied (w : Z) (m0 m : mem) (d c delta : Z) : Prop :=
  updated w m0 m d c (fun i => bit w m0 (i + delta)).

Lemma copied_read : forall w m0 m d c delta last j,
  copied w m0 m d c delta -> 0 <= delta \/ last <= d ->
  c + delta <= j < last -> bit w m j = bit w m0 j.
Proof.
  intros w m0 m d c delta last j H Hov Hj.
  apply (updated_out _ _ _ _ _ _ _ H). lia.
Qed.

Lemma copied_step : forall w m0 m m' d c c' delta f,
  copied w m0 m d c delta -> updated w m m' c c' f -> d <= c <= c' ->
  (forall i, c <= i < c' -> f i = bit w m0 (i + delta)) ->
  copied w m0 m' d c' delta.
Proof.
  intros w m0 m m' d c c' delta f H1 H2 Hc Hf.
  eapply updated_app; [exact H1|exact H2|lia|reflexivity|exact Hf].
Qed.

Lemma wp_copy_loop : forall p w fuel it first rem m0 m d last
    (Q : Z * iter * Z -> mem -> Prop),
  let delta := addr w first - it * w in
  valid_w w -> valid_it w first -> wf_mem w m0 ->
  0 <= rem < w * (Z.of_nat fuel + 1) -> rem <= 2 ^ 62 ->
  addr w first + rem = last ->
  mapped w m0 (addr w first) last ->
  mapped w m0 (it * w) (it * w + rem) ->
  0 <= delta \/ last <= d -> d <= it * w ->
  copied w m0 m d (it * w) delta ->
  (forall it' first' rem' m', valid_it w first' -> 0 <= rem' < w ->
     it * w <= it' * w ->
     addr w first' = it' * w + delta -> addr w first' + rem' = last ->
     copied w m0 m' d (it' * w) delta -> Q (it', first', rem') m') ->
  wp (copy_loop p w fuel it first rem) m Q.
Proof.
  intros p w fuel. induction fuel as [|fuel IH];
    intros it first rem m0 m d last Q delta Hw Hf Hwf Hr Hr2 Hl Hms Hmd Hov Hd Hc HQ;
    pose proof (valid_pos w Hw) as Hwp; cbn [copy_loop];
    destruct (Z.leb_spec w rem) as [E|E].
  - lia.
  - apply wp_ret, HQ; try assumption; try lia.
  - apply wp_bind, wp_get_word; try assumption; try lia.
    { eapply updated_wf, Hc. }
    { eapply mapped_sub; [eapply updated_mapped; [exact Hc|exact Hms]|lia|lia]. }
    intros v Hv Hvb. apply wp_bind, (wp_store_word w); try assumption; try lia.
    { eapply updated_wf, Hc. }
    { apply (mapped_word w m (it * w) (it * w + rem)); try lia.
      eapply updated_mapped; eassumption. }
    intros m1 H1.
    assert (Hc1 : copied w m0 m1 d ((it + 1) * w) delta).
    { replace ((it + 1) * w) with (it * w + w) by lia.
      eapply copied_step; [exact Hc|exact H1|lia|].
      intros i Hi. cbv beta. rewrite Hvb by lia.
      rewrite (copied_read w m0 m d (it * w) delta last) by (assumption || lia).
      f_equal. lia. }
    apply wp_bind, wp_iadd; try assumption; try lia.
    intros first' Hf' Ha'. rewrite usub_small by lia.
    assert (Hdd : addr w first' - (it + 1) * w = delta) by lia.
    apply (IH _ _ _ m0 _ d last); try assumption; try lia.
    + eapply mapped_sub; [exact Hms|lia|lia].
    + eapply mapped_sub; [exact Hmd|lia|lia].
    + rewrite Hdd. assumption.
    + intros it' f2 rem' m' A1 A2 A3 A4 A5 A6. rewrite Hdd in *.
      apply HQ; try assumption. lia.
  - apply wp_ret, HQ; try assumption; try lia.
Qed.

Lemma wp_copy : forall p w first last d m (Q : iter -> mem -> Prop),
  let len := addr w last - addr w first in
  valid_w w -> valid_it w first -> valid_it w last -> valid_it w d ->
  wf_mem w m -> 0 <= len <= 2 ^ 62 ->
  mapped w m (addr w first) (addr w last) ->
  mapped w m (addr w d) (addr w d + len) ->
  addr w d <= addr w first \/ addr w last <= addr w d ->
  (forall d' m', valid_it w d' -> addr w d' = addr w d + len ->
     updated w m m' (addr w d) (addr w d + len)
       (fun i => bit w m (i + (addr w first - addr w d))) -> Q d' m') ->
  wp (copy p w first last d) m Q.
Proof.
  intros p w first last d m Q len Hw Hf Hl Hd Hwf Hlen Hms Hmd Hov HQ.
  pose proof (valid_pos w Hw) as Hwp. pose proof (prom_ge w Hw) as Hpr.
  unfold copy. set (delta := addr w first - addr w d) in *.
  apply wp_bind, wp_assert_viable; try assumption; try lia.
  rewrite (ieq_addr w) by (assumption || lia).
  destruct (Z.eqb_spec (addr w first) (addr w last)) as [E|E].
  { apply wp_ret, HQ; try assumption; try lia.
    apply updated_refl; [assumption|]. intros i Hi. lia. }
  apply wp_bind, wp_distance; try assumption; try lia. fold len.
  (* the partial first word *)
  apply wp_bind.
  apply (wp_conseq _ _ _ (fun '(rem, f1, it) m1 =>
     valid_it w f1 /\ addr w f1 + rem = addr w last /\ 0 <= rem <= len /\
     ((rem = 0 /\ copied w m m1 (addr w d) (addr w d + len) delta) \/
      (addr w d <= it * w /\ addr w f1 = it * w + delta /\
       copied w m m1 (addr w d) (it * w) delta)))).
  { destruct (Z.eqb_spec (ip d) 0) as [E0|E0]; cbn [negb].
    - apply wp_ret. split; [assumption|]. split; [lia|]. split; [lia|]. right.
      unfold addr in *. split; [lia|]. split; [lia|].
      apply updated_refl; [assumption|]. intros i Hi. lia.
    - unfold valid_it in Hd. rewrite usub_small by lia.
      set (part := Z.min len (w - ip d)) in *.
      apply wp_bind, (wp_load w); try assumption; try lia.
      { apply (mapped_word w m (addr w d) (addr w d + len)); try assumption;
          unfold addr; lia. }
      intros x Hx Hbx. apply wp_bind, wp_get_word; try assumption; try lia.
      { eapply mapped_sub; [exact Hms|lia|lia]. }
      intros g Hg Hgb. wpl. apply rwp_cshl; try assumption; try lia.
      intros s Hs. wpl. apply rwp_bitblend; try assumption; try lia.
      { apply wrap_range. lia. }
      intros v Hv Hvb.
      apply wp_bind, (wp_store_part w _ _ _ (addr w d) (addr w d + part)
        (fun i => bit w m (i + delta))); try assumption; try lia.
      { apply (mapped_word w m (addr w d) (addr w d + len)); try assumption;
          unfold addr; lia. }
      { unfold addr. lia. }
      { unfold addr. lia. }
      { intros k Hk. rewrite Hvb by lia. unfold addr at 1 2. bsplit.
        - rewrite (shl_testbit w s g (ip d)) by (assumption || lia).
          rewrite Hgb by lia. f_equal. unfold delta, addr. lia.
        - rewrite Hbx by lia. f_equal. lia.
        - rewrite Hbx by lia. f_equal. lia. }
      intros m1 H1. apply wp_bind, wp_iadd; try assumption; try lia.
      intros f1 Hf1 Ha1. apply wp_ret. rewrite usub_small by lia.
      split; [assumption|]. split; [lia|]. split; [lia|].
      destruct (Z.lt_ge_cases (w - ip d) len).
      + right. unfold addr in *. split; [lia|]. split; [lia|].
        replace ((ib d + 1) * w) with (ib d * w + ip d + part) by lia. exact H1.
      + left. split; [lia|]. replace len with part by lia. exact H1. }
  intros [[rem f1] it] m1 (Hf1 & Hrem & Hrl & Hst).
  (* the rest *)
  apply wp_bind.
  apply (wp_conseq _ _ _ (fun _ m2 =>
     copied w m m2 (addr w d) (addr w d + len) delta)).
  { destruct (Z.ltb_spec 0 rem) as [E1|E1].
    2:{ destruct Hst as [[_ H]|(H1 & H2 & H3)]; apply wp_ret.
        - exact H.
        - replace (addr w d + len) with (it * w) by lia. exact H3. }
    destruct Hst as [[H _]|(H1 & H2 & H3)]; [lia|].
    assert (Hms1 : mapped w m1 (addr w first) (addr w last))
      by (eapply updated_mapped; eassumption).
    assert (Hmd1 : mapped w m1 (addr w d) (addr w d + len))
      by (eapply updated_mapped; eassumption).
    apply wp_bind.
    apply (wp_conseq _ _ _ (fun '(it2, f2, rem2) m2 =>
      valid_it w f2 /\ 0 <= rem2 < w /\ it * w <= it2 * w /\
      addr w f2 = it2 * w + delta /\ addr w f2 + rem2 = addr w last /\
      copied w m m2 (addr w d) (it2 * w) delta)).
    { destruct ((ip f1 =? 0) && (w <? rem)) eqn:E2.
      - assert (Hn : ib f1 <= ib last) by (apply (base_le w); try assumption; lia).
        pose proof (mul_mono w (ib f1) (ib last) ltac:(lia) ltac:(lia)) as Hn2.
        assert (Hal : ib f1 * w = it * w + delta) by (unfold addr in H2; lia).
        assert (Hpl : ib last * w <= addr w last)
          by (unfold addr, valid_it in *; lia).
        replace (Z.of_nat (Z.to_nat (ib last - ib f1))) with (ib last - ib f1) by lia.
        apply wp_bind, (wp_words_copy w); try lia.
        + eapply updated_wf, H3.
        + assert (0 <= delta \/ addr w last <= addr w d) as [Ho|Ho] by lia.
          * left. nia.
          * right. nia.
        + replace (ib f1 + Z.of_nat (Z.to_nat (ib last - ib f1))) with (ib last) by lia.
          intros b Hb. pose proof (mul_mono w (ib f1) b ltac:(lia) ltac:(lia)).
          pose proof (mul_mono w (b + 1) (ib last) ltac:(lia) ltac:(lia)).
          apply (mapped_word w m1 (addr w first) (addr w last)); try assumption; lia.
        + intros b Hb. 
          pose proof (mul_mono w it b ltac:(lia) ltac:(lia)).
          pose proof (mul_mono w (b + 1) (it + (ib last - ib f1)) ltac:(lia) ltac:(lia)).
          apply (mapped_word w m1 (addr w d) (addr w d + len)); try assumption; lia.
        + replace (Z.of_nat (Z.to_nat (ib last - ib f1))) with (ib last - ib f1) by lia.
          intros m2 H4. apply wp_bind, wp_iadd; try assumption; try lia.
          intros f2 Hf2 Ha2. apply wp_ret.
          rewrite usub_small by lia.
          split; [assumption|].
          split; [unfold addr, valid_it in *; lia|].
          split; [lia|]. split; [lia|]. split; [lia|].
          eapply copied_step; [exact H3|exact H4|lia|].
          intros i Hi. cbv beta.
          replace ((ib f1 - it) * w) with delta by lia.
          apply (copied_read w m m1 (addr w d) (it * w) delta (addr w last));
            try assumption; lia.
      - assert (Hdd : addr w f1 - it * w = delta) by lia.
        apply (wp_copy_loop p w _ _ _ _ m m1 (addr w d) (addr w last));
          try assumption; try lia; rewrite ?Hdd; try assumption.
        + eapply mapped_sub; [exact Hms|lia|lia].
        + eapply mapped_sub; [exact Hmd|lia|lia].
        + intros it' f' rem' m' A1 A2 A3 A4 A5 A6.
          repeat (split; [assumption||lia|]). assumption. }
    intros [[it2 f2] rem2] m2 (A1 & A2 & A3 & A4 & A5 & A6).
    destruct (Z.ltb_spec 0 rem2) as [E3|E3].
    2:{ apply wp_ret. replace (addr w d + len) with (it2 * w) by lia. exact A6. }
    assert (Hwf2 : wf_mem w m2) by (eapply updated_wf, A6).
    assert (Hma : m2 it2 <> None).
    { apply (mapped_word w m2 (addr w d) (addr w d + len)); try lia.
      eapply updated_mapped; eassumption. }
    apply wp_bind, (wp_load w); try assumption; try lia.
    intros x Hx Hbx. apply wp_bind, wp_get_word; try assumption; try lia.
    { eapply mapped_sub; [eapply updated_mapped; [exact A6|exact Hms]|lia|lia]. }
    intros g Hg Hgb. wpl. rewrite low_mask_eq by (assumption || lia). apply rwp_ok.
    apply (wp_store_part w _ _ _ (it2 * w) (addr w d + len)
        (fun i => bit w m (i + delta))); try assumption; try lia.
    { apply bitblend_mask_range; lia. }
    { intros k Hk. rewrite bitblend_mask_testbit, ones_testbit' by lia. bsplit.
      - rewrite Hgb by lia.
        rewrite (copied_read w m m2 (addr w d) (it2 * w) delta (addr w last))
          by (assumption || lia).
        f_equal. lia.
      - rewrite Hbx by lia. f_equal. lia. }
    intros m3 H4. eapply copied_step; [exact A6|exact H4|lia|reflexivity]. }
  intros _ m2 H2. apply wp_iadd; try assumption; try lia.
  intros d' Hd' Ha'. apply HQ; assumption.
Qed.
