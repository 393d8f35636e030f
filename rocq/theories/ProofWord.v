(** Proofs about get_word, write_word, _padded_read and the word loops
    (bit_algorithm_details.hpp and the std algorithms on words). *)
From Coq Require Import ZArith Bool List Lia.
From Coq Require Import ZifyBool.
From Verif Require Import Base WordOps IterModel AlgModel Spec ProofBase ProofIter.
Import ListNotations.
Open Scope Z_scope.
Ltac Zify.zify_post_hook ::= Z.div_mod_to_equations.

(** Case analysis on the comparisons of the goal, dropping impossible cases. *)
Ltac bsplit :=
  unfold inr;
  repeat (match goal with
          | |- context [?a <=? ?b] => destruct (Z.leb_spec a b); try (exfalso; lia)
          | |- context [?a <? ?b] => destruct (Z.ltb_spec a b); try (exfalso; lia)
          | |- context [?a =? ?b] => destruct (Z.eqb_spec a b); try (exfalso; lia)
          end; cbn [andb orb negb]).

Ltac wpl := apply wp_bind, wp_lift.

Lemma usub_small : forall a b, 0 <= a - b < 2 ^ 64 -> usub a b = a - b.
Proof. intros a b H. unfold usub. apply wrap_small, H. Qed.

Lemma wp_get_word : forall p w first len m (Q : Z -> mem -> Prop),
  valid_w w -> valid_it w first -> wf_mem w m -> 1 <= len <= w ->
  mapped w m (addr w first) (addr w first + len) ->
  (forall v, 0 <= v < 2 ^ w ->
     (forall k, 0 <= k < len -> Z.testbit v k = bit w m (addr w first + k)) ->
     Q v m) ->
  wp (get_word p w first len) m Q.
Proof.
  intros p w first len m Q Hw Hv Hwf Hl Hm HQ.
  pose proof (valid_pos w Hw) as Hwp. pose proof (prom_ge w Hw) as Hpr.
  unfold valid_it in Hv. unfold get_word.
  destruct (Z.ltb_spec w len); [lia|]. apply wp_bind.
  apply (wp_load w); try lia; try assumption.
  { apply (mapped_word w m (addr w first) (addr w first + len)); unfold addr; lia || assumption. }
  intros x Hx Hbx. wpl. apply rwp_cshr; [lia|].
  destruct (Z.leb_spec len (w - ip first)).
  - apply wp_ret, HQ.
    + apply wrap_range. lia.
    + intros k Hk. rewrite shr_testbit by lia. unfold addr.
      rewrite Hbx by lia. f_equal. lia.
  - rewrite usub_small by lia.
    destruct (Z.ltb_spec w (len - (w - ip first))); [lia|].
    apply wp_bind, (wp_load w); try lia; try assumption.
    { apply (mapped_word w m (addr w first) (addr w first + len)); unfold addr; lia || assumption. }
    intros y Hy Hby. wpl. apply rwp_cshl; try lia; try assumption.
    intros s Hs. apply wp_lift.
    apply rwp_bitblend; try lia; try assumption; try (apply wrap_range; lia).
    intros v Hvr Hvb. apply HQ; [assumption|].
    intros k Hk. rewrite Hvb by lia. unfold addr. bsplit.
    + rewrite (shl_testbit w s y (w - ip first)) by (assumption || lia).
      rewrite Hby by lia. f_equal. lia.
    + rewrite shr_testbit by lia. rewrite Hbx by lia. f_equal. lia.
Qed.

Lemma wp_write_word : forall p w src dst len m (Q : unit -> mem -> Prop),
  valid_w w -> valid_it w dst -> wf_mem w m -> 1 <= len <= w ->
  0 <= src < 2 ^ w -> mapped w m (addr w dst) (addr w dst + len) ->
  (forall m', updated w m m' (addr w dst) (addr w dst + len)
                (fun i => Z.testbit src (i - addr w dst)) -> Q tt m') ->
  wp (write_word p w src dst len) m Q.
Proof.
  intros p w src dst len m Q Hw Hv Hwf Hl Hs Hm HQ.
  pose proof (valid_pos w Hw) as Hwp. pose proof (prom_ge w Hw) as Hpr.
  unfold valid_it in Hv.
  assert (Hma : m (ib dst) <> None).
  { apply (mapped_word w m (addr w dst) (addr w dst + len)); unfold addr; lia || assumption. }
  unfold write_word.
  destruct ((ip dst =? 0) && (len =? w)) eqn:E.
  - apply (wp_store w); try lia; try assumption.
    intros m' Hwf' Hd Hb. apply HQ. split; [assumption|]. split; [assumption|].
    intros i. rewrite Hb. unfold addr. bsplit; try reflexivity. f_equal. lia.
  - apply wp_bind, (wp_load w); try lia; try assumption. intros x Hx Hbx.
    wpl. apply rwp_cshl; try lia; try assumption. intros s Hsh.
    wpl. apply rwp_bitblend; try lia; try assumption; try (apply wrap_range; lia).
    intros v Hvr Hvb. apply wp_bind, (wp_store w); try lia; try assumption.
    intros m1 Hwf1 Hd1 Hb1.
    assert (Hone : forall i, ib dst * w <= i < ib dst * w + w ->
       Z.testbit v (i - ib dst * w) =
       if inr (addr w dst) (addr w dst + len) i
       then Z.testbit src (i - addr w dst) else bit w m i).
    { intros i Hi. rewrite Hvb by lia. unfold addr. bsplit.
      - rewrite (shl_testbit w s src (ip dst)) by (assumption || lia). f_equal. lia.
      - rewrite Hbx by lia. reflexivity.
      - rewrite Hbx by lia. reflexivity. }
    destruct (Z.ltb_spec (w - ip dst) len).
    + apply wp_bind, (wp_load w); try lia; try assumption.
      { intros Hn. apply Hd1 in Hn. revert Hn.
        apply (mapped_word w m (addr w dst) (addr w dst + len)); unfold addr; lia || assumption. }
      intros y Hy Hby. wpl. apply rwp_cshr; [lia|]. wpl.
      apply rwp_bitblend; try lia; try assumption; try (apply wrap_range; lia).
      intros v2 Hv2r Hv2b. apply (wp_store w); try lia; try assumption.
      { intros Hn. apply Hd1 in Hn. revert Hn.
        apply (mapped_word w m (addr w dst) (addr w dst + len)); unfold addr; lia || assumption. }
      intros m2 Hwf2 Hd2 Hb2. apply HQ. split; [assumption|].
      split; [eapply same_dom_trans; eassumption|].
      intros i. rewrite Hb2, Hb1.
      destruct (inr ((ib dst + 1) * w) ((ib dst + 1) * w + w) i) eqn:E2.
      * unfold inr in E2. rewrite Hv2b by lia. unfold addr. bsplit.
        -- rewrite shr_testbit by lia. f_equal. lia.
        -- rewrite <- Hby by lia. rewrite Hb1. bsplit. reflexivity.
      * unfold inr in E2. destruct (inr (ib dst * w) (ib dst * w + w) i) eqn:E3.
        -- unfold inr in E3. apply Hone. lia.
        -- unfold inr in E3. unfold addr. bsplit; reflexivity.
    + apply wp_ret, HQ. split; [assumption|]. split; [assumption|].
      intros i. rewrite Hb1.
      destruct (inr (ib dst * w) (ib dst * w + w) i) eqn:E3.
      * unfold inr in E3. apply Hone. lia.
      * unfold inr in E3. unfold addr. bsplit; reflexivity.
Qed.

Lemma mul_mono : forall w a b, 0 <= w -> a <= b -> a * w <= b * w.
Proof. intros. apply Z.mul_le_mono_nonneg_r; assumption. Qed.

Lemma mapped_words : forall w m a n, 0 < w ->
  mapped w m (a * w) ((a + n) * w) -> forall b, a <= b < a + n -> m b <> None.
Proof.
  intros w m a n Hw Hm b Hb. pose proof (mul_mono w (b + 1) (a + n)).
  pose proof (mul_mono w a b).
  apply (mapped_word w m (a * w) ((a + n) * w)); try assumption; lia.
Qed.

Lemma updated_refl : forall w m lo hi f, wf_mem w m ->
  (forall i, lo <= i < hi -> bit w m i = f i) -> updated w m m lo hi f.
Proof.
  intros w m lo hi f Hwf H. split; [assumption|]. split; [apply same_dom_refl|].
  intros i. bsplit; try reflexivity. apply H. lia.
Qed.

Lemma updated_ext : forall w m m' lo hi f g, updated w m m' lo hi f ->
  (forall i, lo <= i < hi -> f i = g i) -> updated w m m' lo hi g.
Proof.
  intros w m m' lo hi f g (H1 & H2 & H3) H. split; [assumption|].
  split; [assumption|]. intros i. rewrite H3. bsplit; try reflexivity.
  apply H. lia.
Qed.

(** Two adjacent updates make one. *)
Lemma updated_app : forall w m m1 m2 lo mid hi f g h,
  updated w m m1 lo mid f -> updated w m1 m2 mid hi g -> lo <= mid <= hi ->
  (forall i, lo <= i < mid -> f i = h i) ->
  (forall i, mid <= i < hi -> g i = h i) -> updated w m m2 lo hi h.
Proof.
  intros w m m1 m2 lo mid hi f g h (A1 & A2 & A3) (B1 & B2 & B3) H Hf Hg.
  split; [assumption|]. split; [eapply same_dom_trans; eassumption|].
  intros i. rewrite B3, A3. bsplit; try reflexivity; auto with zarith.
Qed.

(** The same with the second update to the left of the first one. *)
Lemma updated_app_left : forall w m m1 m2 lo mid hi f g h,
  updated w m m1 mid hi f -> updated w m1 m2 lo mid g -> lo <= mid <= hi ->
  (forall i, mid <= i < hi -> f i = h i) ->
  (forall i, lo <= i < mid -> g i = h i) -> updated w m m2 lo hi h.
Proof.
  intros w m m1 m2 lo mid hi f g h (A1 & A2 & A3) (B1 & B2 & B3) H Hf Hg.
  split; [assumption|]. split; [eapply same_dom_trans; eassumption|].
  intros i. rewrite B3, A3. bsplit; try reflexivity; auto with zarith.
Qed.

Lemma updated_mapped : forall w m m' lo hi f a b, updated w m m' lo hi f ->
  mapped w m a b -> mapped w m' a b.
Proof. intros w m m' lo hi f a b (_ & H & _) Hm. eapply mapped_dom; eassumption. Qed.

Lemma updated_wf : forall w m m' lo hi f, updated w m m' lo hi f -> wf_mem w m'.
Proof. intros w m m' lo hi f (H & _ & _). exact H. Qed.

Lemma updated_out : forall w m m' lo hi f i, updated w m m' lo hi f ->
  i < lo \/ hi <= i -> bit w m' i = bit w m i.
Proof. intros w m m' lo hi f i (_ & _ & H) Hi. rewrite H. bsplit; reflexivity. Qed.

Lemma updated_in : forall w m m' lo hi f i, updated w m m' lo hi f ->
  lo <= i < hi -> bit w m' i = f i.
Proof. intros w m m' lo hi f i (_ & _ & H) Hi. rewrite H. bsplit; reflexivity. Qed.

(** Storing a whole word. *)
Lemma wp_store_word : forall w a v m (Q : unit -> mem -> Prop), 0 < w ->
  wf_mem w m -> m a <> None -> 0 <= v < 2 ^ w ->
  (forall m', updated w m m' (a * w) (a * w + w)
                (fun i => Z.testbit v (i - a * w)) -> Q tt m') ->
  wp (store a v) m Q.
Proof.
  intros w a v m Q Hw Hwf Ha Hv H. apply (wp_store w); try assumption.
  intros m' H1 H2 H3. apply H. split; [assumption|]. split; assumption.
Qed.

(** Storing a word that keeps the bits outside [lo, hi). *)
Lemma wp_store_part : forall w a v m lo hi f (Q : unit -> mem -> Prop), 0 < w ->
  wf_mem w m -> m a <> None -> 0 <= v < 2 ^ w ->
  a * w <= lo -> hi <= a * w + w ->
  (forall k, 0 <= k < w -> Z.testbit v k =
     if inr lo hi (a * w + k) then f (a * w + k) else bit w m (a * w + k)) ->
  (forall m', updated w m m' lo hi f -> Q tt m') ->
  wp (store a v) m Q.
Proof.
  intros w a v m lo hi f Q Hw Hwf Ha Hv Hlo Hhi Hb H.
  apply (wp_store w); try assumption. intros m' H1 H2 H3. apply H.
  split; [assumption|]. split; [assumption|]. intros i. rewrite H3.
  destruct (inr (a * w) (a * w + w) i) eqn:E; unfold inr in E.
  - rewrite Hb by lia. replace (a * w + (i - a * w)) with i by lia. reflexivity.
  - bsplit; reflexivity.
Qed.

Lemma wp_words_fill : forall w n dst v m (Q : unit -> mem -> Prop), 0 < w ->
  wf_mem w m -> 0 <= v < 2 ^ w ->
  (forall b, dst <= b < dst + Z.of_nat n -> m b <> None) ->
  (forall m', updated w m m' (dst * w) ((dst + Z.of_nat n) * w)
     (fun i => Z.testbit v (i mod w)) -> Q tt m') ->
  wp (words_fill n dst v) m Q.
Proof.
  intros w n. induction n as [|n IH]; intros dst v m Q Hw Hwf Hv Hm HQ.
  - apply wp_ret, HQ, updated_refl; [assumption|]. intros i Hi. lia.
  - cbn [words_fill]. apply wp_bind, (wp_store_word w); try assumption.
    { apply Hm. lia. }
    intros m1 H1. apply IH; try assumption.
    + eapply updated_wf, H1.
    + intros b Hb Hn. destruct H1 as (_ & Hd & _). apply Hd in Hn. revert Hn.
      apply Hm. lia.
    + intros m2 H2. apply HQ.
      replace (dst * w + w) with ((dst + 1) * w) in H1 by lia.
      replace (dst + 1 + Z.of_nat n) with (dst + Z.of_nat (S n)) in H2 by lia.
      eapply updated_app; [exact H1|exact H2| | |reflexivity].
      * pose proof (mul_mono w (dst + 1) (dst + Z.of_nat (S n))). lia.
      * intros i Hi. cbv beta. rewrite (mod_word w dst) by lia. reflexivity.
Qed.

Lemma wp_words_copy : forall w n src dst m (Q : unit -> mem -> Prop), 0 < w ->
  wf_mem w m -> dst <= src \/ src + Z.of_nat n <= dst ->
  (forall b, src <= b < src + Z.of_nat n -> m b <> None) ->
  (forall b, dst <= b < dst + Z.of_nat n -> m b <> None) ->
  (forall m', updated w m m' (dst * w) ((dst + Z.of_nat n) * w)
     (fun i => bit w m (i + (src - dst) * w)) -> Q tt m') ->
  wp (words_copy n src dst) m Q.
Proof.
  intros w n. induction n as [|n IH]; intros src dst m Q Hw Hwf Ho Hms Hmd HQ.
  - apply wp_ret, HQ, updated_refl; [assumption|]. intros i Hi. lia.
  - cbn [words_copy]. apply wp_bind, (wp_load w); try assumption.
    { apply Hms. lia. }
    intros x Hx Hbx. apply wp_bind, (wp_store_word w); try assumption.
    { apply Hmd. lia. }
    intros m1 H1. apply IH; try assumption.
    + eapply updated_wf, H1.
    + lia.
    + intros b Hb Hn. destruct H1 as (_ & Hd & _). apply Hd in Hn. revert Hn.
      apply Hms. lia.
    + intros b Hb Hn. destruct H1 as (_ & Hd & _). apply Hd in Hn. revert Hn.
      apply Hmd. lia.
    + intros m2 H2. apply HQ.
      pose proof (mul_mono w (dst + 1) (dst + Z.of_nat (S n))).
      replace (dst * w + w) with ((dst + 1) * w) in H1 by lia.
      replace (dst + 1 + Z.of_nat n) with (dst + Z.of_nat (S n)) in H2 by lia.
      eapply updated_app; [exact H1|exact H2|lia| |].
      * intros i Hi. cbv beta. rewrite Hbx by lia. f_equal. lia.
      * intros i Hi. cbv beta.
        replace (i + (src + 1 - (dst + 1)) * w) with (i + (src - dst) * w) by lia.
        apply (updated_out _ _ _ _ _ _ _ H1).
        destruct Ho as [Ho|Ho].
        -- right. pose proof (mul_mono w dst src). lia.
        -- left. pose proof (mul_mono w (src + Z.of_nat (S n)) dst). lia.
Qed.

Lemma wp_words_copy_backward : forall w n se de m (Q : unit -> mem -> Prop),
  0 < w -> wf_mem w m -> se <= de \/ de <= se - Z.of_nat n ->
  (forall b, se - Z.of_nat n <= b < se -> m b <> None) ->
  (forall b, de - Z.of_nat n <= b < de -> m b <> None) ->
  (forall m', updated w m m' ((de - Z.of_nat n) * w) (de * w)
     (fun i => bit w m (i + (se - de) * w)) -> Q tt m') ->
  wp (words_copy_backward n se de) m Q.
Proof.
  intros w n. induction n as [|n IH]; intros se de m Q Hw Hwf Ho Hms Hmd HQ.
  - apply wp_ret, HQ, updated_refl; [assumption|]. intros i Hi. lia.
  - cbn [words_copy_backward]. apply wp_bind, (wp_load w); try assumption.
    { apply Hms. lia. }
    intros x Hx Hbx. apply wp_bind, (wp_store_word w); try assumption.
    { apply Hmd. lia. }
    intros m1 H1. apply IH; try assumption.
    + eapply updated_wf, H1.
    + lia.
    + intros b Hb Hn. destruct H1 as (_ & Hd & _). apply Hd in Hn. revert Hn.
      apply Hms. lia.
    + intros b Hb Hn. destruct H1 as (_ & Hd & _). apply Hd in Hn. revert Hn.
      apply Hmd. lia.
    + intros m2 H2. apply HQ.
      pose proof (mul_mono w (de - Z.of_nat (S n)) (de - 1)).
      replace ((de - 1) * w + w) with (de * w) in H1 by lia.
      replace (de - 1 - Z.of_nat n) with (de - Z.of_nat (S n)) in H2 by lia.
      eapply updated_app_left; [exact H1|exact H2|lia| |].
      * intros i Hi. cbv beta. rewrite Hbx by lia. f_equal. lia.
      * intros i Hi. cbv beta.
        replace (i + (se - 1 - (de - 1)) * w) with (i + (se - de) * w) by lia.
        apply (updated_out _ _ _ _ _ _ _ H1).
        destruct Ho as [Ho|Ho].
        -- left. pose proof (mul_mono w se de). lia.
        -- right. pose proof (mul_mono w de (se - Z.of_nat (S n))). lia.
Qed.
