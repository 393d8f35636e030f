(** Proofs about transform (transform.hpp). *)
From Coq Require Import ZArith Bool List Lia.
From Coq Require Import ZifyBool.
From Verif Require Import Base WordOps IterModel AlgModel TransformModel HwyModel Spec
  ProofBase ProofIter ProofWord ProofAlg1 ProofCopy.
Import ListNotations.
Open Scope Z_scope.
Ltac Zify.zify_post_hook ::= Z.div_mod_to_equations.

(** Reading a source that the part already written does not cover. *)
Lemma updated_read : forall w m0 m d c g delta last j,
  updated w m0 m d c g -> 0 <= delta \/ last <= d ->
  c + delta <= j < last -> bit w m j = bit w m0 j.
Proof.
  intros w m0 m d c g delta last j H Hov Hj.
  apply (updated_out _ _ _ _ _ _ _ H). lia.
Qed.

Lemma updated_step : forall w m0 m m' d c c' g f,
  updated w m0 m d c g -> updated w m m' c c' f -> d <= c <= c' ->
  (forall i, c <= i < c' -> f i = g i) -> updated w m0 m' d c' g.
Proof.
  intros w m0 m m' d c c' g f H1 H2 Hc Hf.
  eapply updated_app; [exact H1|exact H2|lia|reflexivity|exact Hf].
Qed.

Lemma bind_ext : forall A B (c : M A) (f g : A -> M B) m,
  (forall a m', f a m' = g a m') -> bind c f m = bind c g m.
Proof.
  intros A B c f g m H. unfold bind. destruct (c m) as [[a m']| | | |]; auto.
Qed.

Lemma bind_eq : forall A B (c d : M A) (f : A -> M B) m,
  c m = d m -> bind c f m = bind d f m.
Proof. intros A B c d f m H. unfold bind. rewrite H. reflexivity. Qed.

(** The scalar build is the instance without vector code. *)
Lemma transform1_scalar : forall p w op first last d m,
  transform1_with (fun src last dst =>
    words_transform op (Z.to_nat (last - src)) src dst ;;
    ret (src + (last - src), dst + (last - src))) p w op first last d m =
  transform1 p w op first last d m.
Proof.
  intros. unfold transform1_with, transform1. apply bind_ext. intros _ m1.
  destruct (ieq first last); [reflexivity|]. apply bind_ext. intros total m2.
  apply bind_ext. intros [[rem f1] it] m3. apply bind_eq.
  destruct (0 <? rem); [|reflexivity].
  apply bind_eq.
  destruct ((ip f1 =? 0) && (w <? rem)); [|reflexivity].
  unfold bind, ret.
  destruct (words_transform op (Z.to_nat (ib last - ib f1)) (ib f1) it m3)
    as [[? ?]| | | |]; reflexivity.
Qed.

Section Unary.
Variable w : Z.
Variable op : Z -> Z.
Variable f : bool -> bool.
Hypothesis Hw : valid_w w.
Hypothesis op_range : forall x, 0 <= x < 2 ^ w -> 0 <= op x < 2 ^ w.
Hypothesis op_bits : forall x k, 0 <= x < 2 ^ w -> 0 <= k < w ->
  Z.testbit (op x) k = f (Z.testbit x k).

Lemma wp_words_transform : forall n src dst m (Q : unit -> mem -> Prop),
  wf_mem w m -> dst <= src \/ src + Z.of_nat n <= dst ->
  (forall b, src <= b < src + Z.of_nat n -> m b <> None) ->
  (forall b, dst <= b < dst + Z.of_nat n -> m b <> None) ->
  (forall m', updated w m m' (dst * w) ((dst + Z.of_nat n) * w)
     (fun i => f (bit w m (i + (src - dst) * w))) -> Q tt m') ->
  wp (words_transform op n src dst) m Q.
Proof.
  pose proof (valid_pos w Hw) as Hwp.
  induction n as [|n IH]; intros src dst m Q Hwf Ho Hms Hmd HQ.
  - apply wp_ret, HQ, updated_refl; [assumption|]. intros i Hi. lia.
  - cbn [words_transform]. apply wp_bind, (wp_load w); try assumption; try lia.
    { apply Hms. lia. }
    intros x Hx Hbx. apply wp_bind, (wp_store_word w); try assumption; try lia; try (apply op_range, Hx).
    { apply Hmd. lia. }
    intros m1 H1. apply IH; try assumption.
    + eapply updated_wf, H1.
    + lia.
    + intros b Hb Hn. destruct H1 as (_ & Hd & _). apply Hd in Hn. revert Hn.
      apply Hms. lia.
    + intros b Hb Hn. destruct H1 as (_ & Hd & _). apply Hd in Hn. revert Hn.
      apply Hmd. lia.
    + intros m2 H2. apply HQ.
      pose proof (mul_mono w (dst + 1) (dst + Z.of_nat (S n)) ltac:(lia) ltac:(lia)).
      replace (dst * w + w) with ((dst + 1) * w) in H1 by lia.
      replace (dst + 1 + Z.of_nat n) with (dst + Z.of_nat (S n)) in H2 by lia.
      eapply updated_app; [exact H1|exact H2|lia| |].
      * intros i Hi. cbv beta. rewrite op_bits by lia. rewrite Hbx by lia.
        do 2 f_equal. lia.
      * intros i Hi. cbv beta.
        replace (i + (src + 1 - (dst + 1)) * w) with (i + (src - dst) * w) by lia.
        f_equal. apply (updated_out _ _ _ _ _ _ _ H1).
        destruct Ho as [Ho|Ho].
        -- right. pose proof (mul_mono w dst src ltac:(lia) ltac:(lia)). lia.
        -- left. pose proof (mul_mono w (src + Z.of_nat (S n)) dst ltac:(lia) ltac:(lia)). lia.
Qed.

Lemma wp_transform_loop : forall p fuel it first rem m0 m d last
    (Q : Z * iter * Z -> mem -> Prop),
  let delta := addr w first - it * w in
  let G := fun i => f (bit w m0 (i + delta)) in
  valid_it w first -> wf_mem w m0 ->
  0 <= rem < w * (Z.of_nat fuel + 1) -> rem <= 2 ^ 62 ->
  addr w first + rem = last ->
  mapped w m0 (addr w first) last ->
  mapped w m0 (it * w) (it * w + rem) ->
  0 <= delta \/ last <= d -> d <= it * w ->
  updated w m0 m d (it * w) G ->
  (forall it' first' rem' m', valid_it w first' -> 0 <= rem' < w ->
     it * w <= it' * w ->
     addr w first' = it' * w + delta -> addr w first' + rem' = last ->
     updated w m0 m' d (it' * w) G -> Q (it', first', rem') m') ->
  wp (transform_loop p w op fuel it first rem) m Q.
Proof.
  intros p fuel. induction fuel as [|fuel IH];
    intros it first rem m0 m d last Q delta G Hf Hwf Hr Hr2 Hl Hms Hmd Hov Hd Hc HQ;
    pose proof (valid_pos w Hw) as Hwp; cbn [transform_loop];
    destruct (Z.leb_spec w rem) as [E|E].
  - lia.
  - apply wp_ret, HQ; try assumption; try lia.
  - apply wp_bind, wp_get_word; try assumption; try lia.
    { eapply updated_wf, Hc. }
    { eapply mapped_sub; [eapply updated_mapped; [exact Hc|exact Hms]|lia|lia]. }
    intros v Hv Hvb. apply wp_bind, (wp_store_word w); try assumption; try lia;
      try (apply op_range, Hv).
    { eapply updated_wf, Hc. }
    { apply (mapped_word w m (it * w) (it * w + rem)); try lia.
      eapply updated_mapped; eassumption. }
    intros m1 H1.
    assert (Hc1 : updated w m0 m1 d ((it + 1) * w) G).
    { replace ((it + 1) * w) with (it * w + w) by lia.
      eapply updated_step; [exact Hc|exact H1|lia|].
      intros i Hi. cbv beta. rewrite op_bits, Hvb by lia. unfold G. f_equal.
      rewrite (updated_read w m0 m d (it * w) G delta last) by (assumption || lia).
      f_equal. lia. }
    apply wp_bind, wp_iadd; try assumption; try lia.
    intros first' Hf' Ha'. rewrite usub_small by lia.
    assert (Hdd : addr w first' - (it + 1) * w = delta) by lia.
    apply (IH _ _ _ m0 _ d last); try assumption; try lia.
    + eapply mapped_sub; [exact Hms|lia|lia].
    + eapply mapped_sub; [exact Hmd|lia|lia].
    + rewrite Hdd. assumption.
    + intros it' f2 rem' m' A1 A2 A3 A4 A5 A6. rewrite Hdd in *.
      apply HQ; try assumption. lia.
  - apply wp_ret, HQ; try assumption; try lia.
Qed.

(** What transform needs of the stage that handles whole words. *)
Definition transforms_words (words : Z -> Z -> Z -> M (Z * Z)) : Prop :=
  forall src last dst m (Q : Z * Z -> mem -> Prop),
  wf_mem w m -> src <= last -> last - src < 2 ^ 62 ->
  dst <= src \/ last <= dst ->
  (forall b, src <= b < last -> m b <> None) ->
  (forall b, dst <= b < dst + (last - src) -> m b <> None) ->
  src < last ->
  (forall m', updated w m m' (dst * w) ((dst + (last - src)) * w)
     (fun i => f (bit w m (i + (src - dst) * w))) ->
     Q (last, dst + (last - src)) m') ->
  wp (words src last dst) m Q.

Lemma transforms_words_scalar : transforms_words (fun src last dst =>
  words_transform op (Z.to_nat (last - src)) src dst ;;
  ret (src + (last - src), dst + (last - src))).
Proof.
  intros src last dst m Q Hwf Hsl _ Ho Hs Hd _ HQ.
  assert (He : Z.of_nat (Z.to_nat (last - src)) = last - src) by lia.
  apply wp_bind, wp_words_transform; rewrite ?He; try assumption.
  - lia.
  - replace (src + (last - src)) with last by lia. assumption.
  - intros m' H. apply wp_ret. replace (src + (last - src)) with last by lia.
    apply HQ, H.
Qed.

Lemma wp_transform1_with : forall words p first last d m (Q : iter -> mem -> Prop),
  transforms_words words ->
  let len := addr w last - addr w first in
  valid_it w first -> valid_it w last -> valid_it w d ->
  wf_mem w m -> 0 <= len <= 2 ^ 62 ->
  mapped w m (addr w first) (addr w last) ->
  mapped w m (addr w d) (addr w d + len) ->
  addr w d <= addr w first \/ addr w last <= addr w d ->
  (forall d' m', valid_it w d' -> addr w d' = addr w d + len ->
     updated w m m' (addr w d) (addr w d + len)
       (fun i => f (bit w m (i + (addr w first - addr w d)))) -> Q d' m') ->
  wp (transform1_with words p w op first last d) m Q.
Proof.
  intros words p first last d m Q Hwords len Hf Hl Hd Hwf Hlen Hms Hmd Hov HQ.
  pose proof (valid_pos w Hw) as Hwp. pose proof (prom_ge w Hw) as Hpr.
  unfold transform1_with. unfold transforms_words in Hwords. set (delta := addr w first - addr w d) in *.
  set (G := fun i => f (bit w m (i + delta))) in *.
  apply wp_bind, wp_assert_viable; try assumption; try lia.
  rewrite (ieq_addr w) by (assumption || lia).
  destruct (Z.eqb_spec (addr w first) (addr w last)) as [E|E].
  { apply wp_ret, HQ; try assumption; try lia.
    apply updated_refl; [assumption|]. intros i Hi. lia. }
  apply wp_bind, wp_distance; try assumption; try lia. fold len.
  (* the partial first word *)
  apply wp_bind.
  apply (wp_conseq _ _ _ (fun '(rem, f1, it) m1 =>
     valid_it w f1 /\ addr w f1 + rem = addr w last /\ 0 <= rem <= len /\
     ((rem = 0 /\ updated w m m1 (addr w d) (addr w d + len) G) \/
      (addr w d <= it * w /\ addr w f1 = it * w + delta /\
       updated w m m1 (addr w d) (it * w) G)))).
  { destruct (Z.eqb_spec (ip d) 0) as [E0|E0]; cbn [negb].
    - apply wp_ret. split; [assumption|]. split; [lia|]. split; [lia|]. right.
      unfold addr in *. split; [lia|]. split; [lia|].
      apply updated_refl; [assumption|]. intros i Hi. lia.
    - unfold valid_it in Hd. rewrite usub_small by lia.
      set (part := Z.min len (w - ip d)) in *.
      apply wp_bind, (wp_load w); try assumption; try lia.
      { apply (mapped_word w m (addr w d) (addr w d + len)); try assumption;
          unfold addr; lia. }
      intros x Hx Hbx. apply wp_bind, wp_get_word; try assumption; try lia.
      { eapply mapped_sub; [exact Hms|lia|lia]. }
      intros g Hg Hgb. wpl. apply rwp_cshl; try assumption; try lia.
      intros s Hs. wpl. apply rwp_bitblend; try assumption; try lia.
      { apply op_range, wrap_range. lia. }
      intros v Hv Hvb.
      apply wp_bind, (wp_store_part w _ _ _ (addr w d) (addr w d + part) G);
        try assumption; try lia.
      { apply (mapped_word w m (addr w d) (addr w d + len)); try assumption;
          unfold addr; lia. }
      { unfold addr. lia. }
      { unfold addr. lia. }
      { intros k Hk. rewrite Hvb by lia. unfold addr at 1 2. bsplit.
        - rewrite op_bits by (try (apply wrap_range); lia).
          rewrite (shl_testbit w s g (ip d)) by (assumption || lia).
          rewrite Hgb by lia. unfold G. do 2 f_equal. unfold delta, addr. lia.
        - rewrite Hbx by lia. f_equal. lia.
        - rewrite Hbx by lia. f_equal. lia. }
      intros m1 H1. apply wp_bind, wp_iadd; try assumption; try lia.
      intros f1 Hf1 Ha1. apply wp_ret. rewrite usub_small by lia.
      split; [assumption|]. split; [lia|]. split; [lia|].
      destruct (Z.lt_ge_cases (w - ip d) len).
      + right. unfold addr in *. split; [lia|]. split; [lia|].
        replace ((ib d + 1) * w) with (ib d * w + ip d + part) by lia. exact H1.
      + left. split; [lia|]. replace len with part by lia. exact H1. }
  intros [[rem f1] it] m1 (Hf1 & Hrem & Hrl & Hst).
  (* the rest *)
  apply wp_bind.
  apply (wp_conseq _ _ _ (fun _ m2 =>
     updated w m m2 (addr w d) (addr w d + len) G)).
  { destruct (Z.ltb_spec 0 rem) as [E1|E1].
    2:{ destruct Hst as [[_ H]|(H1 & H2 & H3)]; apply wp_ret.
        - exact H.
        - replace (addr w d + len) with (it * w) by lia. exact H3. }
    destruct Hst as [[H _]|(H1 & H2 & H3)]; [lia|].
    assert (Hms1 : mapped w m1 (addr w first) (addr w last))
      by (eapply updated_mapped; eassumption).
    assert (Hmd1 : mapped w m1 (addr w d) (addr w d + len))
      by (eapply updated_mapped; eassumption).
    apply wp_bind.
    apply (wp_conseq _ _ _ (fun '(it2, f2, rem2) m2 =>
      valid_it w f2 /\ 0 <= rem2 < w /\ it * w <= it2 * w /\
      addr w f2 = it2 * w + delta /\ addr w f2 + rem2 = addr w last /\
      updated w m m2 (addr w d) (it2 * w) G)).
    { destruct ((ip f1 =? 0) && (w <? rem)) eqn:E2.
      - assert (Hn : ib f1 <= ib last) by (apply (base_le w); try assumption; lia).
        pose proof (mul_mono w (ib f1) (ib last) ltac:(lia) ltac:(lia)) as Hn2.
        assert (Hal : ib f1 * w = it * w + delta) by (unfold addr in H2; lia).
        assert (Hpl : ib last * w <= addr w last)
          by (unfold addr, valid_it in *; lia).
        assert (Hlt : ib f1 < ib last) by (clear - Hn E2 Hrem Hl Hf1; unfold addr, valid_it in *; nia).
        apply wp_bind, Hwords; try lia.
        + eapply updated_wf, H3.
        + unfold addr, valid_it in *. nia.
        + assert (0 <= delta \/ addr w last <= addr w d) as [Ho|Ho] by lia.
          * left. nia.
          * right. nia.
        + intros b Hb. pose proof (mul_mono w (ib f1) b ltac:(lia) ltac:(lia)).
          pose proof (mul_mono w (b + 1) (ib last) ltac:(lia) ltac:(lia)).
          apply (mapped_word w m1 (addr w first) (addr w last)); try assumption; lia.
        + intros b Hb. 
          pose proof (mul_mono w it b ltac:(lia) ltac:(lia)).
          pose proof (mul_mono w (b + 1) (it + (ib last - ib f1)) ltac:(lia) ltac:(lia)).
          apply (mapped_word w m1 (addr w d) (addr w d + len)); try assumption; lia.
        + intros m2 H4. apply wp_ret.
          rewrite usub_small by lia.
          unfold mk_aligned, addr in *. cbn [ib ip].
          split; [unfold valid_it; cbn; lia|].
          split; [unfold valid_it in *; lia|].
          split; [lia|]. split; [lia|]. split; [lia|].
          eapply updated_step; [exact H3|exact H4|lia|].
          intros i Hi. cbv beta. unfold G. f_equal.
          replace ((ib f1 - it) * w) with delta by lia.
          apply (updated_read w m m1 (addr w d) (it * w) G delta (addr w last));
            unfold addr; try assumption; lia.
      - assert (Hdd : addr w f1 - it * w = delta) by lia.
        apply (wp_transform_loop p _ _ _ _ m m1 (addr w d) (addr w last));
          try assumption; try lia; rewrite ?Hdd; try assumption.
        + eapply mapped_sub; [exact Hms|lia|lia].
        + eapply mapped_sub; [exact Hmd|lia|lia].
        + intros it' f' rem' m' A1 A2 A3 A4 A5 A6.
          repeat (split; [assumption||lia|]). assumption. }
    intros [[it2 f2] rem2] m2 (A1 & A2 & A3 & A4 & A5 & A6).
    destruct (Z.ltb_spec 0 rem2) as [E3|E3].
    2:{ apply wp_ret. replace (addr w d + len) with (it2 * w) by lia. exact A6. }
    assert (Hwf2 : wf_mem w m2) by (eapply updated_wf, A6).
    assert (Hma : m2 it2 <> None).
    { apply (mapped_word w m2 (addr w d) (addr w d + len)); try lia.
      eapply updated_mapped; eassumption. }
    apply wp_bind, (wp_load w); try assumption; try lia.
    intros x Hx Hbx. apply wp_bind, wp_get_word; try assumption; try lia.
    { eapply mapped_sub; [eapply updated_mapped; [exact A6|exact Hms]|lia|lia]. }
    intros g Hg Hgb. wpl. rewrite low_mask_eq by (assumption || lia). apply rwp_ok.
    apply (wp_store_part w _ _ _ (it2 * w) (addr w d + len) G); try assumption; try lia.
    { apply bitblend_mask_range; try lia. apply op_range, Hg. }
    { intros k Hk. rewrite bitblend_mask_testbit, ones_testbit' by lia. bsplit.
      - rewrite op_bits, Hgb by lia. unfold G. f_equal.
        rewrite (updated_read w m m2 (addr w d) (it2 * w) G delta (addr w last))
          by (assumption || lia).
        f_equal. lia.
      - rewrite Hbx by lia. f_equal. lia. }
    intros m3 H4. eapply updated_step; [exact A6|exact H4|lia|reflexivity]. }
  intros _ m2 H2. apply wp_iadd; try assumption; try lia.
  intros d' Hd' Ha'. apply HQ; assumption.
Qed.

Lemma wp_transform1 : forall p first last d m (Q : iter -> mem -> Prop),
  let len := addr w last - addr w first in
  valid_it w first -> valid_it w last -> valid_it w d ->
  wf_mem w m -> 0 <= len <= 2 ^ 62 ->
  mapped w m (addr w first) (addr w last) ->
  mapped w m (addr w d) (addr w d + len) ->
  addr w d <= addr w first \/ addr w last <= addr w d ->
  (forall d' m', valid_it w d' -> addr w d' = addr w d + len ->
     updated w m m' (addr w d) (addr w d + len)
       (fun i => f (bit w m (i + (addr w first - addr w d)))) -> Q d' m') ->
  wp (transform1 p w op first last d) m Q.
Proof.
  intros.
  assert (Hx : wp (transform1_with (fun src last dst =>
    words_transform op (Z.to_nat (last - src)) src dst ;;
    ret (src + (last - src), dst + (last - src))) p w op first last d) m Q)
    by (apply wp_transform1_with; try assumption; apply transforms_words_scalar).
  unfold wp in *. rewrite <- transform1_scalar. exact Hx.
Qed.
End Unary.

Section Binary.
Variable w : Z.
Variable op : Z -> Z -> Z.
Variable f : bool -> bool -> bool.
Hypothesis Hw : valid_w w.
Hypothesis op_range : forall x y, 0 <= x < 2 ^ w -> 0 <= y < 2 ^ w ->
  0 <= op x y < 2 ^ w.
Hypothesis op_bits : forall x y k, 0 <= x < 2 ^ w -> 0 <= y < 2 ^ w -> 0 <= k < w ->
  Z.testbit (op x y) k = f (Z.testbit x k) (Z.testbit y k).

Lemma wp_words_transform2 : forall n src1 src2 dst m (Q : unit -> mem -> Prop),
  wf_mem w m -> dst <= src1 \/ src1 + Z.of_nat n <= dst ->
  dst <= src2 \/ src2 + Z.of_nat n <= dst ->
  (forall b, src1 <= b < src1 + Z.of_nat n -> m b <> None) ->
  (forall b, src2 <= b < src2 + Z.of_nat n -> m b <> None) ->
  (forall b, dst <= b < dst + Z.of_nat n -> m b <> None) ->
  (forall m', updated w m m' (dst * w) ((dst + Z.of_nat n) * w)
     (fun i => f (bit w m (i + (src1 - dst) * w)) (bit w m (i + (src2 - dst) * w))) ->
     Q tt m') ->
  wp (words_transform2 op n src1 src2 dst) m Q.
Proof.
  pose proof (valid_pos w Hw) as Hwp.
  induction n as [|n IH]; intros src1 src2 dst m Q Hwf Ho1 Ho2 Hm1 Hm2 Hmd HQ.
  - apply wp_ret, HQ, updated_refl; [assumption|]. intros i Hi. lia.
  - cbn [words_transform2]. apply wp_bind, (wp_load w); try assumption; try lia.
    { apply Hm1. lia. }
    intros x Hx Hbx. apply wp_bind, (wp_load w); try assumption; try lia.
    { apply Hm2. lia. }
    intros y Hy Hby. apply wp_bind, (wp_store_word w); try assumption; try lia;
      try (apply op_range; assumption).
    { apply Hmd. lia. }
    intros m1 H1. apply IH; try assumption.
    + eapply updated_wf, H1.
    + lia.
    + lia.
    + intros b Hb Hn. destruct H1 as (_ & Hd & _). apply Hd in Hn. revert Hn.
      apply Hm1. lia.
    + intros b Hb Hn. destruct H1 as (_ & Hd & _). apply Hd in Hn. revert Hn.
      apply Hm2. lia.
    + intros b Hb Hn. destruct H1 as (_ & Hd & _). apply Hd in Hn. revert Hn.
      apply Hmd. lia.
    + intros m2 H2. apply HQ.
      pose proof (mul_mono w (dst + 1) (dst + Z.of_nat (S n)) ltac:(lia) ltac:(lia)).
      replace (dst * w + w) with ((dst + 1) * w) in H1 by lia.
      replace (dst + 1 + Z.of_nat n) with (dst + Z.of_nat (S n)) in H2 by lia.
      eapply updated_app; [exact H1|exact H2|lia| |].
      * intros i Hi. cbv beta. rewrite op_bits by lia. rewrite Hbx, Hby by lia.
        f_equal; f_equal; lia.
      * intros i Hi. cbv beta.
        replace (i + (src1 + 1 - (dst + 1)) * w) with (i + (src1 - dst) * w) by lia.
        replace (i + (src2 + 1 - (dst + 1)) * w) with (i + (src2 - dst) * w) by lia.
        f_equal; apply (updated_out _ _ _ _ _ _ _ H1).
        -- destruct Ho1 as [Ho|Ho].
           ++ right. pose proof (mul_mono w dst src1 ltac:(lia) ltac:(lia)). lia.
           ++ left. pose proof (mul_mono w (src1 + Z.of_nat (S n)) dst ltac:(lia) ltac:(lia)). lia.
        -- destruct Ho2 as [Ho|Ho].
           ++ right. pose proof (mul_mono w dst src2 ltac:(lia) ltac:(lia)). lia.
           ++ left. pose proof (mul_mono w (src2 + Z.of_nat (S n)) dst ltac:(lia) ltac:(lia)). lia.
Qed.

Lemma wp_transform2_loop : forall p fuel it first1 first2 rem m0 m d last1 last2
    (Q : Z * iter * iter * Z -> mem -> Prop),
  let delta1 := addr w first1 - it * w in
  let delta2 := addr w first2 - it * w in
  let G := fun i => f (bit w m0 (i + delta1)) (bit w m0 (i + delta2)) in
  valid_it w first1 -> valid_it w first2 -> wf_mem w m0 ->
  0 <= rem < w * (Z.of_nat fuel + 1) -> rem <= 2 ^ 62 ->
  addr w first1 + rem = last1 -> addr w first2 + rem = last2 ->
  mapped w m0 (addr w first1) last1 ->
  mapped w m0 (addr w first2) last2 ->
  mapped w m0 (it * w) (it * w + rem) ->
  0 <= delta1 \/ last1 <= d -> 0 <= delta2 \/ last2 <= d -> d <= it * w ->
  updated w m0 m d (it * w) G ->
  (forall it' first1' first2' rem' m', valid_it w first1' -> valid_it w first2' ->
     0 <= rem' < w -> it * w <= it' * w ->
     addr w first1' = it' * w + delta1 -> addr w first1' + rem' = last1 ->
     addr w first2' = it' * w + delta2 -> addr w first2' + rem' = last2 ->
     updated w m0 m' d (it' * w) G -> Q (it', first1', first2', rem') m') ->
  wp (transform2_loop p w op fuel it first1 first2 rem) m Q.
Proof.
  intros p fuel. induction fuel as [|fuel IH];
    intros it first1 first2 rem m0 m d last1 last2 Q delta1 delta2 G Hf1 Hf2 Hwf Hr Hr2
      Hl1 Hl2 Hms1 Hms2 Hmd Hov1 Hov2 Hd Hc HQ;
    pose proof (valid_pos w Hw) as Hwp; cbn [transform2_loop];
    destruct (Z.leb_spec w rem) as [E|E].
  - lia.
  - apply wp_ret, HQ; try assumption; try lia.
  - apply wp_bind, wp_get_word; try assumption; try lia.
    { eapply updated_wf, Hc. }
    { eapply mapped_sub; [eapply updated_mapped; [exact Hc|exact Hms1]|lia|lia]. }
    intros v Hv Hvb. apply wp_bind, wp_get_word; try assumption; try lia.
    { eapply updated_wf, Hc. }
    { eapply mapped_sub; [eapply updated_mapped; [exact Hc|exact Hms2]|lia|lia]. }
    intros u Hu Hub. apply wp_bind, (wp_store_word w); try assumption; try lia;
      try (apply op_range; assumption).
    { eapply updated_wf, Hc. }
    { apply (mapped_word w m (it * w) (it * w + rem)); try lia.
      eapply updated_mapped; eassumption. }
    intros m1 H1.
    assert (Hc1 : updated w m0 m1 d ((it + 1) * w) G).
    { replace ((it + 1) * w) with (it * w + w) by lia.
      eapply updated_step; [exact Hc|exact H1|lia|].
      intros i Hi. cbv beta. rewrite op_bits, Hvb, Hub by lia. unfold G.
      rewrite (updated_read w m0 m d (it * w) G delta1 last1) by (assumption || lia).
      rewrite (updated_read w m0 m d (it * w) G delta2 last2) by (assumption || lia).
      f_equal; f_equal; lia. }
    apply wp_bind, wp_iadd; try assumption; try lia.
    intros f1 Hf1' Ha1. apply wp_bind, wp_iadd; try assumption; try lia.
    intros f2 Hf2' Ha2. rewrite usub_small by lia.
    assert (Hdd1 : addr w f1 - (it + 1) * w = delta1) by lia.
    assert (Hdd2 : addr w f2 - (it + 1) * w = delta2) by lia.
    apply (IH _ _ _ _ m0 _ d last1 last2); try assumption; try lia.
    + eapply mapped_sub; [exact Hms1|lia|lia].
    + eapply mapped_sub; [exact Hms2|lia|lia].
    + eapply mapped_sub; [exact Hmd|lia|lia].
    + rewrite Hdd1, Hdd2. assumption.
    + intros it' g1 g2 rem' m' A1 A2 A3 A4 A5 A6 A7 A8 A9.
      rewrite Hdd1, Hdd2 in *.
      apply HQ; try assumption. lia.
  - apply wp_ret, HQ; try assumption; try lia.
Qed.

Lemma wp_transform2 : forall p first1 last1 first2 d m (Q : iter -> mem -> Prop),
  let len := addr w last1 - addr w first1 in
  valid_it w first1 -> valid_it w last1 -> valid_it w first2 -> valid_it w d ->
  wf_mem w m -> 0 <= len <= 2 ^ 62 ->
  mapped w m (addr w first1) (addr w last1) ->
  mapped w m (addr w first2) (addr w first2 + len) ->
  mapped w m (addr w d) (addr w d + len) ->
  addr w d <= addr w first1 \/ addr w last1 <= addr w d ->
  addr w d <= addr w first2 \/ addr w first2 + len <= addr w d ->
  (forall d' m', valid_it w d' -> addr w d' = addr w d + len ->
     updated w m m' (addr w d) (addr w d + len)
       (fun i => f (bit w m (i + (addr w first1 - addr w d)))
                   (bit w m (i + (addr w first2 - addr w d)))) -> Q d' m') ->
  wp (transform2 p w op first1 last1 first2 d) m Q.
Proof.
  intros p first1 last1 first2 d m Q len Hf1 Hl1 Hf2 Hd Hwf Hlen Hms1 Hms2 Hmd
    Hov1 Hov2 HQ.
  pose proof (valid_pos w Hw) as Hwp. pose proof (prom_ge w Hw) as Hpr.
  unfold transform2. set (delta1 := addr w first1 - addr w d) in *.
  set (delta2 := addr w first2 - addr w d) in *.
  set (last2 := addr w first2 + len) in *.
  set (G := fun i => f (bit w m (i + delta1)) (bit w m (i + delta2))) in *.
  apply wp_bind, wp_assert_viable; try assumption; try lia.
  rewrite (ieq_addr w) by (assumption || lia).
  destruct (Z.eqb_spec (addr w first1) (addr w last1)) as [E|E].
  { apply wp_ret, HQ; try assumption; try lia.
    apply updated_refl; [assumption|]. intros i Hi. lia. }
  apply wp_bind, wp_distance; try assumption; try lia. fold len.
  (* the partial first word *)
  apply wp_bind.
  apply (wp_conseq _ _ _ (fun '(rem, f1, f2, it) m1 =>
     valid_it w f1 /\ valid_it w f2 /\ addr w f1 + rem = addr w last1 /\
     addr w f2 + rem = last2 /\ 0 <= rem <= len /\
     ((rem = 0 /\ updated w m m1 (addr w d) (addr w d + len) G) \/
      (addr w d <= it * w /\ addr w f1 = it * w + delta1 /\
       addr w f2 = it * w + delta2 /\
       updated w m m1 (addr w d) (it * w) G)))).
  { destruct (Z.eqb_spec (ip d) 0) as [E0|E0]; cbn [negb].
    - apply wp_ret. split; [assumption|]. split; [assumption|].
      split; [lia|]. split; [lia|]. split; [lia|]. right.
      unfold addr in *. split; [lia|]. split; [lia|]. split; [lia|].
      apply updated_refl; [assumption|]. intros i Hi. lia.
    - unfold valid_it in Hd. rewrite usub_small by lia.
      set (part := Z.min len (w - ip d)) in *.
      apply wp_bind, (wp_load w); try assumption; try lia.
      { apply (mapped_word w m (addr w d) (addr w d + len)); try assumption;
          unfold addr; lia. }
      intros x Hx Hbx. apply wp_bind, wp_get_word; try assumption; try lia.
      { eapply mapped_sub; [exact Hms1|lia|lia]. }
      intros g Hg Hgb. wpl. apply rwp_cshl; try assumption; try lia.
      intros s Hs. apply wp_bind, wp_get_word; try assumption; try lia.
      { eapply mapped_sub; [exact Hms2|lia|lia]. }
      intros h Hh Hhb. wpl. apply rwp_cshl; try assumption; try lia.
      intros t Ht. wpl. apply rwp_bitblend; try assumption; try lia.
      { apply op_range; apply wrap_range; lia. }
      intros v Hv Hvb.
      apply wp_bind, (wp_store_part w _ _ _ (addr w d) (addr w d + part) G);
        try assumption; try lia.
      { apply (mapped_word w m (addr w d) (addr w d + len)); try assumption;
          unfold addr; lia. }
      { unfold addr. lia. }
      { unfold addr. lia. }
      { intros k Hk. rewrite Hvb by lia. unfold addr at 1 2. bsplit.
        - rewrite op_bits by (try (apply wrap_range); lia).
          rewrite (shl_testbit w s g (ip d)) by (assumption || lia).
          rewrite (shl_testbit w t h (ip d)) by (assumption || lia).
          rewrite Hgb, Hhb by lia. unfold G.
          f_equal; f_equal; unfold delta1, delta2, addr; lia.
        - rewrite Hbx by lia. f_equal. lia.
        - rewrite Hbx by lia. f_equal. lia. }
      intros m1 H1. apply wp_bind, wp_iadd; try assumption; try lia.
      intros f1 Hf1' Ha1. apply wp_bind, wp_iadd; try assumption; try lia.
      intros f2 Hf2' Ha2. apply wp_ret. rewrite usub_small by lia.
      split; [assumption|]. split; [assumption|].
      split; [lia|]. split; [lia|]. split; [lia|].
      destruct (Z.lt_ge_cases (w - ip d) len).
      + right. unfold addr in *. split; [lia|]. split; [lia|]. split; [lia|].
        replace ((ib d + 1) * w) with (ib d * w + ip d + part) by lia. exact H1.
      + left. split; [lia|]. replace len with part by lia. exact H1. }
  intros [[[rem f1] f2] it] m1 (Hf1' & Hf2' & Hrem1 & Hrem2 & Hrl & Hst).
  (* the rest *)
  apply wp_bind.
  apply (wp_conseq _ _ _ (fun _ m2 =>
     updated w m m2 (addr w d) (addr w d + len) G)).
  { destruct (Z.ltb_spec 0 rem) as [E1|E1].
    2:{ destruct Hst as [[_ H]|(H1 & H2 & H2' & H3)]; apply wp_ret.
        - exact H.
        - replace (addr w d + len) with (it * w) by lia. exact H3. }
    destruct Hst as [[H _]|(H1 & H2 & H2' & H3)]; [lia|].
    assert (Hms11 : mapped w m1 (addr w first1) (addr w last1))
      by (eapply updated_mapped; eassumption).
    assert (Hms21 : mapped w m1 (addr w first2) last2)
      by (eapply updated_mapped; eassumption).
    assert (Hmd1 : mapped w m1 (addr w d) (addr w d + len))
      by (eapply updated_mapped; eassumption).
    apply wp_bind.
    apply (wp_conseq _ _ _ (fun '(it2, f3, f4, rem2) m2 =>
      valid_it w f3 /\ valid_it w f4 /\ 0 <= rem2 < w /\ it * w <= it2 * w /\
      addr w f3 = it2 * w + delta1 /\ addr w f3 + rem2 = addr w last1 /\
      addr w f4 = it2 * w + delta2 /\ addr w f4 + rem2 = last2 /\
      updated w m m2 (addr w d) (it2 * w) G)).
    { destruct ((ip f1 =? 0) && (ip f2 =? 0) && (w <? rem)) eqn:E2.
      - assert (Hn : ib f1 <= ib last1) by (apply (base_le w); try assumption; lia).
        pose proof (mul_mono w (ib f1) (ib last1) ltac:(lia) ltac:(lia)) as Hn2.
        assert (Hal : ib f1 * w = it * w + delta1) by (unfold addr in H2; lia).
        assert (Hal2 : ib f2 * w = it * w + delta2) by (unfold addr in H2'; lia).
        assert (Hpl : ib last1 * w <= addr w last1)
          by (unfold addr, valid_it in *; lia).
        apply wp_bind, wp_words_transform2; try lia.
        + eapply updated_wf, H3.
        + assert (0 <= delta1 \/ addr w last1 <= addr w d) as [Ho|Ho] by lia.
          * left. nia.
          * right. replace (Z.of_nat (Z.to_nat (ib last1 - ib f1))) with (ib last1 - ib f1) by lia. nia.
        + assert (0 <= delta2 \/ last2 <= addr w d) as [Ho|Ho] by lia.
          * left. nia.
          * right. replace (Z.of_nat (Z.to_nat (ib last1 - ib f1))) with (ib last1 - ib f1) by lia. nia.
        + replace (ib f1 + Z.of_nat (Z.to_nat (ib last1 - ib f1))) with (ib last1) by lia.
          intros b Hb. pose proof (mul_mono w (ib f1) b ltac:(lia) ltac:(lia)).
          pose proof (mul_mono w (b + 1) (ib last1) ltac:(lia) ltac:(lia)).
          apply (mapped_word w m1 (addr w first1) (addr w last1)); try assumption; lia.
        + intros b Hb.
          pose proof (mul_mono w (ib f2) b ltac:(lia) ltac:(lia)).
          pose proof (mul_mono w (b + 1) (ib f2 + (ib last1 - ib f1)) ltac:(lia) ltac:(lia)).
          apply (mapped_word w m1 (addr w first2) last2); try assumption; lia.
        + intros b Hb.
          pose proof (mul_mono w it b ltac:(lia) ltac:(lia)).
          pose proof (mul_mono w (b + 1) (it + (ib last1 - ib f1)) ltac:(lia) ltac:(lia)).
          apply (mapped_word w m1 (addr w d) (addr w d + len)); try assumption; lia.
        + replace (Z.of_nat (Z.to_nat (ib last1 - ib f1))) with (ib last1 - ib f1) by lia.
          intros m2 H4.
          apply wp_bind, wp_iadd; try assumption; try lia.
          intros f3 Hf3 Ha3. apply wp_bind, wp_iadd; try assumption; try lia.
          intros f4 Hf4 Ha4. apply wp_ret.
          rewrite usub_small by lia.
          split; [assumption|]. split; [assumption|].
          split; [unfold addr, valid_it in *; lia|].
          split; [lia|]. split; [lia|]. split; [lia|]. split; [lia|]. split; [lia|].
          eapply updated_step; [exact H3|exact H4|lia|].
          intros i Hi. cbv beta. unfold G.
          replace ((ib f1 - it) * w) with delta1 by lia.
          replace ((ib f2 - it) * w) with delta2 by lia.
          f_equal.
          * apply (updated_read w m m1 (addr w d) (it * w) G delta1 (addr w last1));
              try assumption; lia.
          * apply (updated_read w m m1 (addr w d) (it * w) G delta2 last2);
              try assumption; lia.
      - assert (Hdd1 : addr w f1 - it * w = delta1) by lia.
        assert (Hdd2 : addr w f2 - it * w = delta2) by lia.
        apply (wp_transform2_loop p _ _ _ _ _ m m1 (addr w d) (addr w last1) last2);
          try assumption; try lia; rewrite ?Hdd1, ?Hdd2; try assumption.
        + eapply mapped_sub; [exact Hms1|lia|lia].
        + eapply mapped_sub; [exact Hms2|lia|lia].
        + eapply mapped_sub; [exact Hmd|lia|lia].
        + intros it' g1 g2 rem' m' A1 A2 A3 A4 A5 A6 A7 A8 A9.
          repeat (split; [assumption||lia|]). assumption. }
    intros [[[it2 f3] f4] rem2] m2 (A1 & A2 & A3 & A4 & A5 & A6 & A7 & A8 & A9).
    destruct (Z.ltb_spec 0 rem2) as [E3|E3].
    2:{ apply wp_ret. replace (addr w d + len) with (it2 * w) by lia. exact A9. }
    assert (Hwf2 : wf_mem w m2) by (eapply updated_wf, A9).
    assert (Hma : m2 it2 <> None).
    { apply (mapped_word w m2 (addr w d) (addr w d + len)); try lia.
      eapply updated_mapped; eassumption. }
    apply wp_bind, (wp_load w); try assumption; try lia.
    intros x Hx Hbx. apply wp_bind, wp_get_word; try assumption; try lia.
    { eapply mapped_sub; [eapply updated_mapped; [exact A9|exact Hms1]|lia|lia]. }
    intros g Hg Hgb. apply wp_bind, wp_get_word; try assumption; try lia.
    { eapply mapped_sub; [eapply updated_mapped; [exact A9|exact Hms2]|lia|lia]. }
    intros h Hh Hhb. wpl. rewrite low_mask_eq by (assumption || lia). apply rwp_ok.
    apply (wp_store_part w _ _ _ (it2 * w) (addr w d + len) G); try assumption; try lia.
    { apply bitblend_mask_range; try lia. apply op_range; assumption. }
    { intros k Hk. rewrite bitblend_mask_testbit, ones_testbit' by lia. bsplit.
      - rewrite op_bits, Hgb, Hhb by lia. unfold G.
        rewrite (updated_read w m m2 (addr w d) (it2 * w) G delta1 (addr w last1))
          by (assumption || lia).
        rewrite (updated_read w m m2 (addr w d) (it2 * w) G delta2 last2)
          by (assumption || lia).
        f_equal; f_equal; lia.
      - rewrite Hbx by lia. f_equal. lia. }
    intros m3 H4. eapply updated_step; [exact A9|exact H4|lia|reflexivity]. }
  intros _ m2 H2. apply wp_iadd; try assumption; try lia.
  intros d' Hd' Ha'. apply HQ; assumption.
Qed.
End Binary.

Lemma transform1_ok : forall p w op f m first last d,
  valid_w w -> wf_mem w m -> good_range w m first last ->
  good_dest w m d (addr w last - addr w first) ->
  addr w d <= addr w first \/ addr w last <= addr w d ->
  (forall x, 0 <= x < 2 ^ w -> 0 <= op x < 2 ^ w) ->
  (forall x k, 0 <= x < 2 ^ w -> 0 <= k < w ->
     Z.testbit (op x) k = f (Z.testbit x k)) ->
  exists d' m', transform1 p w op first last d m = Ok (d', m') /\ valid_it w d' /\
    addr w d' = addr w d + (addr w last - addr w first) /\
    updated w m m' (addr w d) (addr w d + (addr w last - addr w first))
      (fun i => f (bit w m (addr w first + (i - addr w d)))).
Proof.
  intros p w op f m first last d Hw Hwf (Hf & Hl & Hd & Hm) (Hv & Hmd) Ho Hr Hb.
  apply wp_exists. apply (wp_transform1 w op f); try assumption.
  intros d' m' H1 H2 H3. split; [assumption|]. split; [assumption|].
  eapply updated_ext; [exact H3|]. intros i Hi. cbv beta. do 2 f_equal. lia.
Qed.

Lemma transform2_ok : forall p w op f m first1 last1 first2 d,
  valid_w w -> wf_mem w m -> good_range w m first1 last1 ->
  good_dest w m first2 (addr w last1 - addr w first1) ->
  good_dest w m d (addr w last1 - addr w first1) ->
  addr w d <= addr w first1 \/ addr w last1 <= addr w d ->
  addr w d <= addr w first2 \/
    addr w first2 + (addr w last1 - addr w first1) <= addr w d ->
  (forall x y, 0 <= x < 2 ^ w -> 0 <= y < 2 ^ w -> 0 <= op x y < 2 ^ w) ->
  (forall x y k, 0 <= x < 2 ^ w -> 0 <= y < 2 ^ w -> 0 <= k < w ->
     Z.testbit (op x y) k = f (Z.testbit x k) (Z.testbit y k)) ->
  exists d' m', transform2 p w op first1 last1 first2 d m = Ok (d', m') /\
    valid_it w d' /\
    addr w d' = addr w d + (addr w last1 - addr w first1) /\
    updated w m m' (addr w d) (addr w d + (addr w last1 - addr w first1))
      (fun i => f (bit w m (addr w first1 + (i - addr w d)))
                  (bit w m (addr w first2 + (i - addr w d)))).
Proof.
  intros p w op f m first1 last1 first2 d Hw Hwf (Hf & Hl & Hd & Hm) (Hv2 & Hm2)
    (Hv & Hmd) Ho1 Ho2 Hr Hb.
  apply wp_exists. apply (wp_transform2 w op f); try assumption.
  intros d' m' H1 H2 H3. split; [assumption|]. split; [assumption|].
  eapply updated_ext; [exact H3|]. intros i Hi. cbv beta. f_equal; f_equal; lia.
Qed.

(** Concrete bitwise operations meet the hypotheses. *)
Lemma lxor_op_ok : forall w c, 0 <= w -> 0 <= c < 2 ^ w ->
  forall x, 0 <= x < 2 ^ w -> 0 <= Z.lxor x c < 2 ^ w.
Proof.
  intros w c Hw Hc x Hx.
  replace (Z.lxor x c) with (wrap w (Z.lxor x c)); [apply wrap_range; lia|].
  apply Z.bits_inj'. intros k Hk. rewrite wrap_testbit by lia.
  destruct (Z.ltb_spec k w) as [E|E]; [reflexivity|]. rewrite Z.lxor_spec.
  rewrite (testbit_high w x), (testbit_high w c) by lia. reflexivity.
Qed.

Lemma not8_ok :
  (forall x, 0 <= x < 2 ^ 8 -> 0 <= Z.lxor x 255 < 2 ^ 8) /\
  (forall x k, 0 <= x < 2 ^ 8 -> 0 <= k < 8 ->
     Z.testbit (Z.lxor x 255) k = negb (Z.testbit x k)).
Proof.
  split.
  - intros x Hx. apply (lxor_op_ok 8); lia.
  - intros x k Hx Hk. rewrite Z.lxor_spec. change 255 with (Z.ones 8).
    rewrite Z.ones_spec_low by lia. apply xorb_true_r.
Qed.

Lemma xor8_ok :
  (forall x y, 0 <= x < 2 ^ 8 -> 0 <= y < 2 ^ 8 -> 0 <= Z.lxor x y < 2 ^ 8) /\
  (forall x y k, 0 <= x < 2 ^ 8 -> 0 <= y < 2 ^ 8 -> 0 <= k < 8 ->
     Z.testbit (Z.lxor x y) k = xorb (Z.testbit x k) (Z.testbit y k)).
Proof.
  split.
  - intros x y Hx Hy. apply (lxor_op_ok 8); lia.
  - intros x y k Hx Hy Hk. apply Z.lxor_spec.
Qed.
