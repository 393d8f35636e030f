(** Proofs about shift_left and shift_right (shift.hpp). *)
From Coq Require Import ZArith Bool List Lia.
From Coq Require Import ZifyBool.
From Verif Require Import Base WordOps IterModel AlgModel ShiftModel HwyModel Spec ProofBase
  ProofIter ProofWord ProofAlg1 ProofTransform.
Import ListNotations.
Open Scope Z_scope.
Ltac Zify.zify_post_hook ::= Z.div_mod_to_equations.

Lemma rwp_shrd : forall p w x y c (Q : Z -> Prop), valid_w w ->
  0 <= x < 2 ^ w -> 0 <= y < 2 ^ w -> 0 < c < w ->
  (forall v, 0 <= v < 2 ^ w ->
     (forall k, 0 <= k < w -> Z.testbit v k =
        if k <? w - c then Z.testbit x (k + c) else Z.testbit y (k - (w - c))) ->
     Q v) ->
  rwp (shrd p w x y c) Q.
Proof.
  intros p w x y c Q Hw Hx Hy Hc HQ.
  pose proof (valid_pos w Hw) as Hwp. pose proof (prom_ge w Hw) as Hpr.
  unfold shrd. destruct (Z.ltb_spec c w); [|lia].
  apply rwp_bind, rwp_cshr; [lia|]. apply rwp_bind, rwp_cshl; try assumption; try lia.
  intros s Hs. apply rwp_ok, HQ; [apply wrap_range; lia|].
  intros k Hk. rewrite wrap_testbit, Z.lor_spec, Z.shiftr_spec by lia.
  assert (Hsk : Z.testbit s k = Z.testbit y (k - (w - c))).
  { rewrite <- (shl_testbit w s y (w - c)) by (assumption || lia).
    rewrite wrap_testbit by lia. bsplit. reflexivity. }
  rewrite Hsk. bsplit.
  - rewrite (Z.testbit_neg_r y) by lia. apply orb_false_r.
  - rewrite (testbit_high w x) by lia. reflexivity.
Qed.

(** A word kept as it is outside [lo, hi) is an update of a larger range. *)
Lemma updated_widen : forall w m m' lo hi lo' hi' g, updated w m m' lo hi g ->
  lo' <= lo -> hi <= hi' ->
  updated w m m' lo' hi' (fun i => if inr lo hi i then g i else bit w m i).
Proof.
  intros w m m' lo hi lo' hi' g (H1 & H2 & H3) Hlo Hhi.
  split; [assumption|]. split; [assumption|]. intros i. rewrite H3.
  bsplit; reflexivity.
Qed.

Lemma all_ones_range : forall w, 0 <= w -> 0 <= all_ones w < 2 ^ w.
Proof. intros. apply wrap_range. assumption. Qed.

(** What a shift to the left promises. *)
Definition shifted_left (w : Z) (m m' : mem) (F L n : Z) : Prop :=
  exists g, updated w m m' F L g /\
    (forall i, F <= i < L - n -> g i = bit w m (i + n)) /\
    (forall i, L - n <= i < L ->
       g i = if F / w =? (L - 1) / w then false else bit w m i).

Lemma shifted_left_done : forall w m m' F L n, 0 <= n -> F / w < (L - 1) / w ->
  updated w m m' F (L - n) (fun i => bit w m (i + n)) ->
  shifted_left w m m' F L n.
Proof.
  intros w m m' F L n Hn HF H. eexists.
  split; [apply (updated_widen w m m' F (L - n) F L _ H); lia|].
  split; intros i Hi; cbv beta; bsplit; reflexivity.
Qed.

Lemma div_of : forall w a x, 0 < w -> a * w <= x < a * w + w -> x / w = a.
Proof. intros w a x Hw Hx. symmetry. apply (Z.div_unique_pos x w a (x - a * w)); lia. Qed.

(** The range is not in one word. *)
Lemma two_words : forall w first last, 0 < w -> valid_it w first -> valid_it w last ->
  addr w first < addr w last -> one_word first last = false ->
  addr w first / w < (addr w last - 1) / w.
Proof.
  intros w first last Hw Hf Hl Hd Ho. unfold valid_it, one_word, addr, b2z in *.
  rewrite (div_of w (ib first)) by lia.
  destruct (Z.eqb_spec (ip last) 0) as [E|E].
  - assert (ib first < ib last) by nia. rewrite (div_of w (ib last - 1)) by lia. lia.
  - rewrite (div_of w (ib last)) by lia. nia.
Qed.

(** The single word case. *)
Lemma wp_shift_left_one : forall p w first last n m (Q : iter -> mem -> Prop),
  let d := addr w last - addr w first in
  valid_w w -> valid_it w first -> valid_it w last -> wf_mem w m ->
  0 < n < d -> d <= 2 ^ 62 ->
  mapped w m (addr w first) (addr w last) ->
  one_word first last = true ->
  (ip first <> 0 \/ ip last <> 0 \/ full_blend_defined p w) ->
  (forall r m', valid_it w r -> addr w r = addr w last - n ->
     shifted_left w m m' (addr w first) (addr w last) n -> Q r m') ->
  wp (let* x := load (ib first) in
      let! mask := cshr p w (all_ones w) (w - end_pos w last) in
      let! s := cshr p w (Z.land x mask) n in
      let! v := bitblend p w x (wrap w s) (ip first) (end_pos w last - ip first) in
      store (ib first) v ;;
      let! r := iadd w first d in
      lift (isub w r n)) m Q.
Proof.
  intros p w first last n m Q d Hw Hf Hl Hwf Hn Hd Hm Ho Hg HQ.
  pose proof (valid_pos w Hw) as Hwp. pose proof (prom_ge w Hw) as Hpr.
  unfold one_word in Ho. unfold valid_it in Hf, Hl.
  assert (He : ib first * w + end_pos w last = addr w last /\
               ip first < end_pos w last <= w /\
               (end_pos w last = w <-> ip last = 0)).
  { unfold end_pos, d, addr, b2z in *.
    destruct (Z.eqb_spec (ip last) 0); [|lia].
    assert (ib last = ib first + 1) by lia. nia. }
  destruct He as (He1 & He2 & He3). set (e := end_pos w last) in *.
  clearbody e.
  assert (Hd' : d = e - ip first) by (unfold d, addr in *; lia).
  assert (Hma : m (ib first) <> None).
  { apply (mapped_word w m (addr w first) (addr w last)); try assumption;
      unfold d, addr in *; lia. }
  apply wp_bind, (wp_load w); try assumption; try lia. intros x Hx Hbx.
  wpl. apply rwp_cshr; [lia|]. wpl. apply rwp_cshr; [lia|].
  wpl. apply rwp_bitblend; try assumption; try lia; try (apply wrap_range; lia).
  { destruct Hg as [Hg|[Hg|Hg]]; [left; lia|left; lia|right; exact Hg]. }
  intros v Hv Hvb.
  set (g := fun i => if i <? addr w last - n then bit w m (i + n) else false).
  apply wp_bind, (wp_store_part w _ _ _ (addr w first) (addr w last) g);
    try assumption; try lia.
  { intros k Hk. rewrite Hvb by lia. rewrite <- He1. unfold addr at 1.
    replace (ip first + (e - ip first)) with e by lia.
    assert (HS : forall k', 0 <= k' < e - n -> Z.testbit x (k' + n) = bit w m (ib first * w + k' + n)).
    { intros k' Hk'. rewrite Hbx by lia. f_equal. lia. }
    unfold g. rewrite <- He1. bsplit.
    - rewrite shr_testbit by lia. rewrite Z.land_spec, Z.shiftr_spec by lia.
      rewrite HS by lia. unfold all_ones. rewrite all_ones_testbit by lia.
      bsplit. apply andb_true_r.
    - rewrite shr_testbit by lia. rewrite Z.land_spec, Z.shiftr_spec by lia.
      unfold all_ones. rewrite all_ones_testbit by lia. bsplit.
      apply andb_false_r.
    - rewrite Hbx by lia. f_equal. lia.
    - rewrite Hbx by lia. f_equal. lia. }
  intros m1 H1. apply wp_bind, wp_iadd; try assumption; try lia.
  intros r Hr Ha. apply wp_isub; try assumption; try lia.
  intros r' Hr' Ha'. apply HQ; try assumption.
  - unfold d in *. lia.
  - exists g. split; [exact H1|]. split.
    + intros i Hi. unfold g. bsplit. reflexivity.
    + intros i Hi. rewrite <- He1 in *. unfold addr in *. rewrite !(div_of w (ib first)) by lia.
      rewrite Z.eqb_refl. unfold g. bsplit. reflexivity.
Qed.

(** Alignment of first: the words up to the boundary are written. *)
Lemma wp_shift_left_align : forall p w first middle d n m
    (Q : iter * iter -> mem -> Prop),
  let F := addr w first in
  valid_w w -> valid_it w first -> valid_it w middle -> wf_mem w m ->
  addr w middle = F + n -> 0 < n -> w < d - n -> d <= 2 ^ 62 ->
  mapped w m F (F + d) ->
  (forall f mi m', valid_it w f -> ip f = 0 -> valid_it w mi ->
     F <= addr w f < F + w -> addr w mi = addr w f + n ->
     (ip first = 0 -> f = first) ->
     updated w m m' F (addr w f) (fun i => bit w m (i + n)) -> Q (f, mi) m') ->
  wp (shift_left_align p w first middle d n) m Q.
Proof.
  intros p w first middle d n m Q F Hw Hf Hm Hwf Ha Hn Hdn Hd Hmp HQ.
  pose proof (valid_pos w Hw) as Hwp. pose proof (prom_ge w Hw) as Hpr.
  unfold shift_left_align.
  destruct (Z.eqb_spec (ip first) 0) as [E|E]; cbn [negb].
  { apply wp_ret, HQ; try assumption; try reflexivity; try lia.
    apply updated_refl; [assumption|]. fold F. intros i Hi. lia. }
  unfold valid_it in Hf, Hm.
  assert (Hma : forall a, a * w < F + d -> F < a * w + w -> m a <> None).
  { intros a H1 H2. apply (mapped_word w m F (F + d)); try assumption; lia. }
  set (G := fun i => bit w m (i + n)) in *.
  assert (Hend : F + (w - ip first) = (ib first + 1) * w) by (unfold F, addr; lia).
  apply wp_bind.
  apply (wp_conseq _ _ _ (fun _ m1 => updated w m m1 F ((ib first + 1) * w) G)).
  { destruct (Z.leb_spec (ip middle) (ip first)) as [E1|E1].
    - apply wp_bind, (wp_load w); try assumption; try lia.
      { apply Hma; unfold F, addr in *; lia. }
      intros x Hx Hbx. apply wp_bind, (wp_load w); try assumption; try lia.
      { apply Hma; unfold F, addr in *; lia. }
      intros y Hy Hby. wpl. apply rwp_cshl; try assumption; try lia.
      intros s Hs. wpl. apply rwp_bitblend; try assumption; try lia;
        try (apply wrap_range; lia).
      intros v Hv Hvb.
      apply (wp_store_part w _ _ _ F ((ib first + 1) * w) G); try assumption;
        try (unfold F, addr; lia).
      { apply Hma; unfold F, addr in *; lia. }
      { intros k Hk. rewrite Hvb by lia. unfold F, addr. bsplit.
        - rewrite (shl_testbit w s y (ip first - ip middle)) by (assumption || lia).
          unfold G. rewrite Hby by (unfold F, addr in *; lia).
          f_equal. unfold F, addr in *. lia.
        - rewrite Hbx by lia. f_equal. lia. }
      intros m1 H1. exact H1.
    - set (n1 := w - ip middle). set (n2 := w - ip first - n1).
      assert (Hn2 : n2 = ip middle - ip first) by (unfold n2, n1; lia).
      apply wp_bind, (wp_load w); try assumption; try lia.
      { apply Hma; unfold F, addr in *; lia. }
      intros x Hx Hbx. apply wp_bind, (wp_load w); try assumption; try lia.
      { apply Hma; unfold F, addr in *; lia. }
      intros y Hy Hby. wpl. apply rwp_cshr; try lia.
      wpl. apply rwp_bitblend; try assumption; try lia;
        try (apply wrap_range; lia).
      intros v Hv Hvb.
      apply wp_bind, (wp_store_part w _ _ _ F (F + n1) G); try assumption;
        try (unfold F, addr; lia).
      { apply Hma; unfold F, addr in *; lia. }
      { intros k Hk. rewrite Hvb by lia. unfold F, addr. bsplit.
        - rewrite shr_testbit by lia. unfold G.
          rewrite Hby by (unfold F, addr in *; lia).
          f_equal. unfold F, addr in *. lia.
        - rewrite Hbx by lia. f_equal. lia.
        - rewrite Hbx by lia. f_equal. lia. }
      intros m1 H1.
      assert (Hma1 : forall a, a * w < F + d -> F < a * w + w -> m1 a <> None).
      { intros a G1 G2. apply (mapped_word w m1 F (F + d)); try lia.
        eapply updated_mapped; eassumption. }
      assert (Hwf1 : wf_mem w m1) by (eapply updated_wf, H1).
      apply wp_bind, (wp_load w); try assumption; try lia.
      { apply Hma1; unfold F, addr in *; lia. }
      intros x1 Hx1 Hbx1. apply wp_bind, (wp_load w); try assumption; try lia.
      { apply Hma1; unfold F, addr in *; nia. }
      intros y1 Hy1 Hby1. wpl. apply rwp_cshl; try assumption; try lia.
      intros s Hs. wpl. apply rwp_bitblend; try assumption; try lia;
        try (apply wrap_range; lia).
      intros v1 Hv1 Hvb1.
      apply (wp_store_part w _ _ _ (F + n1) ((ib first + 1) * w) G); try assumption;
        try (unfold F, addr; lia).
      { apply Hma1; unfold F, addr in *; lia. }
      { intros k Hk. rewrite Hvb1 by lia. unfold F at 1, addr at 1. bsplit.
        - rewrite (shl_testbit w s y1 (w - n2)) by (assumption || lia).
          transitivity (bit w m1 ((ib middle + 1) * w + (k - (w - n2)))).
          + rewrite Hby1 by lia. f_equal. lia.
          + rewrite (updated_out _ _ _ _ _ _ _ H1) by (unfold F, addr in *; nia).
            unfold G. f_equal. unfold F, addr in *. lia.
        - rewrite Hbx1 by lia. f_equal. lia. }
      intros m2 H2. eapply updated_step; [exact H1|exact H2|lia|reflexivity]. }
  intros _ m1 H1. replace (Z.min (d - n) (w - ip first)) with (w - ip first) by lia.
  apply wp_bind, wp_iadd; try assumption; try lia. intros f Hf' Haf.
  apply wp_bind, wp_iadd; try assumption; try lia. intros mi Hmi Hami.
  assert (Hff : addr w f = (ib first + 1) * w) by (fold F in Haf; lia).
  apply wp_ret, HQ; try assumption; try (fold F in Haf; lia).
  - unfold valid_it, addr in Hf', Hff. clear - Hf' Hff Hwp.
    assert (ib f = ib first + 1) by nia. nia.
  - rewrite Hff. exact H1.
Qed.

(** The loop over whole words. *)
Lemma wp_shift_left_loop : forall p w fuel fb mb lb off m0 m F n
    (Q : Z * Z -> mem -> Prop),
  valid_w w -> wf_mem w m0 -> 0 < off < w -> 0 < n ->
  mb * w + off = fb * w + n -> F <= fb * w ->
  lb - mb - 1 <= Z.of_nat fuel -> mb < lb ->
  (forall a, fb <= a < lb -> m0 a <> None) ->
  updated w m0 m F (fb * w) (fun i => bit w m0 (i + n)) ->
  (forall fb' mb' m', fb <= fb' -> fb' - fb = mb' - mb -> mb' + 1 = lb ->
     updated w m0 m' F (fb' * w) (fun i => bit w m0 (i + n)) -> Q (fb', mb') m') ->
  wp (shift_left_loop p w fuel fb mb lb off) m Q.
Proof.
  intros p w fuel. induction fuel as [|fuel IH];
    intros fb mb lb off m0 m F n Q Hw Hwf Ho Hn He HF Hfu Hl Hm Hu HQ;
    pose proof (valid_pos w Hw) as Hwp; cbn [shift_left_loop];
    destruct (Z.ltb_spec (mb + 1) lb) as [E|E].
  - lia.
  - apply wp_ret, HQ; try assumption; lia.
  - assert (Hfm : fb <= mb) by nia.
    assert (Hm1 : forall a, fb <= a < lb -> m a <> None).
    { intros a Ha Hx. destruct Hu as (_ & Hd & _). apply Hd in Hx. exact (Hm a Ha Hx). }
    assert (Hwf1 : wf_mem w m) by (eapply updated_wf, Hu).
    apply wp_bind, (wp_load w); try assumption; try lia; try (apply Hm1; lia).
    intros x Hx Hbx. apply wp_bind, (wp_load w); try assumption; try lia;
      try (apply Hm1; lia).
    intros y Hy Hby. wpl. apply rwp_shrd; try assumption.
    intros v Hv Hvb. apply wp_bind, (wp_store_word w); try assumption; try lia;
      try (apply Hm1; lia).
    intros m1 H1. pose proof (mul_mono w fb mb ltac:(lia) ltac:(lia)).
    apply (IH (fb + 1) (mb + 1) lb off m0 m1 F n); try assumption; try lia.
    + intros a Ha. apply Hm. lia.
    + replace ((fb + 1) * w) with (fb * w + w) by lia.
      eapply updated_step; [exact Hu|exact H1|lia|].
      intros i Hi. cbv beta. rewrite Hvb by lia.
      rewrite <- (updated_out _ _ _ _ _ _ (i + n) Hu) by lia. bsplit.
      * rewrite Hbx by lia. f_equal. lia.
      * rewrite Hby by lia. f_equal. lia.
    + intros fb' mb' m' A1 A2 A3 A4. apply HQ; try assumption; lia.
  - apply wp_ret, HQ; try assumption; lia.
Qed.

(** Iterator arithmetic wraps and does not fail, whatever the distance. *)
Lemma wp_iadd_any : forall w it n m (Q : iter -> mem -> Prop), valid_w w ->
  (forall r, Q r m) -> wp (lift (iadd w it n)) m Q.
Proof.
  intros w it n m Q Hw HQ. unfold iadd. rewrite floor_diff_div, mk_iter_eucl by assumption.
  apply HQ.
Qed.

Lemma wp_isub_any : forall w it n m (Q : iter -> mem -> Prop), valid_w w ->
  (forall r, Q r m) -> wp (lift (isub w it n)) m Q.
Proof.
  intros w it n m Q Hw HQ. unfold isub. rewrite floor_diff_div, mk_iter_eucl by assumption.
  apply HQ.
Qed.

Lemma shift_left_trivial : forall p w first last n m,
  valid_w w -> valid_it w first -> valid_it w last ->
  0 <= addr w last - addr w first <= 2 ^ 62 ->
  n <= 0 \/ addr w last - addr w first <= n ->
  shift_left p w first last n m =
    Ok (if n <=? 0 then last else first, m).
Proof.
  intros p w first last n m Hw Hf Hl Hd Ht.
  assert (Hx : wp (shift_left p w first last n) m
    (fun r m' => (r, m') = (if n <=? 0 then last else first, m))).
  { unfold shift_left. apply wp_bind, wp_assert_viable; try assumption.
    apply wp_bind, wp_distance; try assumption. apply wp_bind, wp_iadd_any; try assumption.
    intros mi. destruct (Z.leb_spec n 0); [apply wp_ret; reflexivity|].
    destruct (Z.leb_spec (addr w last - addr w first) n); [|lia].
    apply wp_ret. reflexivity. }
  apply wp_exists in Hx. destruct Hx as (r & m' & -> & ->). reflexivity.
Qed.

Lemma word_base : forall w b it, 0 < w -> valid_it w it -> addr w it = b * w ->
  ib it = b /\ ip it = 0.
Proof. intros w b it Hw Hv Ha. unfold valid_it, addr in *. assert (ib it = b) by nia. nia. Qed.

(** What shift_left needs of the stage that combines words from two. *)
Definition shifts_left_words (w : Z) (words : iter -> iter -> iter -> Z -> M (Z * Z))
  (last : iter) : Prop :=
  forall f mi m0 m F n (Q : Z * Z -> mem -> Prop),
  wf_mem w m0 -> ip f = 0 -> 0 < ip mi < w -> 0 < n ->
  addr w mi = addr w f + n -> F <= ib f * w -> ib mi < ib last ->
  ib last - ib f <= 2 ^ 60 ->
  (forall a, ib f <= a < ib last -> m0 a <> None) ->
  updated w m0 m F (ib f * w) (fun i => bit w m0 (i + n)) ->
  (forall fb' mb' m', ib f <= fb' -> fb' - ib f = mb' - ib mi -> mb' + 1 = ib last ->
     updated w m0 m' F (fb' * w) (fun i => bit w m0 (i + n)) -> Q (fb', mb') m') ->
  wp (words f mi last (ip mi)) m Q.

Lemma shifts_left_words_scalar : forall p w last, valid_w w ->
  shifts_left_words w (fun f mi l off => shift_left_loop p w
    (Z.to_nat (ib l - ib mi)) (ib f) (ib mi) (ib l) off) last.
Proof.
  intros p w last Hw f mi m0 m F n Q Hwf Hf0 Ho Hn Ha HF Hl _ Hm Hu HQ.
  unfold addr in Ha.
  apply (wp_shift_left_loop p w _ _ _ _ _ m0 m F n); try assumption; lia.
Qed.

Lemma wp_shift_left_with : forall words p w first last n m (Q : iter -> mem -> Prop),
  shifts_left_words w words last ->
  let d := addr w last - addr w first in
  valid_w w -> valid_it w first -> valid_it w last -> wf_mem w m ->
  0 < n < d -> d <= 2 ^ 62 ->
  mapped w m (addr w first) (addr w last) ->
  (ip first <> 0 \/ ip last <> 0 \/ ib last - ib first <> 1 \/
   full_blend_defined p w) ->
  (forall r m', valid_it w r -> addr w r = addr w last - n ->
     shifted_left w m m' (addr w first) (addr w last) n -> Q r m') ->
  wp (shift_left_with words p w first last n) m Q.
Proof.
  intros words p w first last n m Q Hwords d Hw Hf Hl Hwf Hn Hd Hm Hg HQ.
  pose proof (valid_pos w Hw) as Hwp. pose proof (prom_ge w Hw) as Hpr.
  unfold shift_left_with. unfold shifts_left_words in Hwords.
  apply wp_bind, wp_assert_viable; try assumption; try lia.
  apply wp_bind, wp_distance; try assumption; try lia. fold d.
  apply wp_bind, wp_iadd; try assumption; try lia. intros mid Hmid Hamid.
  destruct (Z.leb_spec n 0) as [C1|C1]; [lia|].
  destruct (Z.leb_spec d n) as [C2|C2]; [lia|].
  destruct (one_word first last) eqn:Eo.
  { apply wp_shift_left_one; try assumption.
    unfold one_word in Eo. destruct Hg as [Hg|[Hg|[Hg|Hg]]]; auto.
    right. left. destruct (Z.eqb_spec (ip last) 0); cbn [b2z] in Eo; lia. }
  assert (H2w : addr w first / w < (addr w last - 1) / w)
    by (apply two_words; try assumption; unfold d in *; lia).
  destruct (Z.leb_spec (d - n) w) as [Ew|Ew].
  { apply wp_bind, wp_get_word; try assumption; try lia.
    { eapply mapped_sub; [exact Hm|lia|lia]. }
    intros v Hv Hvb. apply wp_bind, wp_write_word; try assumption; try lia.
    { eapply mapped_sub; [exact Hm|lia|lia]. }
    intros m1 H1. apply wp_bind, wp_iadd; try assumption; try lia.
    intros r Hr Har. apply wp_isub; try assumption; try lia.
    intros r' Hr' Har'. apply HQ; [assumption|unfold d in *; lia|].
    apply shifted_left_done; [lia|exact H2w|].
    replace (addr w last - n) with (addr w first + (d - n)) by (unfold d; lia).
    eapply updated_ext; [exact H1|]. intros i Hi. cbv beta.
    rewrite Hvb by lia. f_equal. lia. }
  assert (Hma : forall a, a * w < addr w last -> addr w first < a * w + w -> m a <> None).
  { intros a H1 H2. apply (mapped_word w m (addr w first) (addr w last)); try assumption; lia. }
  apply wp_bind, (wp_load w); try assumption; try lia.
  { unfold valid_it in *. apply Hma; unfold d, addr in *; lia. }
  intros x0 _ _. apply wp_bind.
  apply (wp_conseq _ _ _ (fun _ m' => m' = m)).
  { destruct (Z.eqb_spec (ip last) 0) as [E|E]; cbn [negb]; [apply wp_ret; reflexivity|].
    apply (wp_load w); try assumption; try lia; [|intros; reflexivity].
    unfold valid_it in *. apply Hma; unfold d, addr in *; lia. }
  intros x1 m' ->. apply wp_bind, wp_shift_left_align; try assumption; try lia.
  { eapply mapped_sub; [exact Hm|lia|unfold d; lia]. }
  intros f mi m1 Hvf Hf0 Hvm Hfr Hmi _ H1.
  set (F := addr w first) in *. set (L := addr w last) in *.
  set (G := fun i => bit w m (i + n)) in *.
  assert (Hfa : addr w f = ib f * w) by (unfold addr; lia).
  assert (Hwf1 : wf_mem w m1) by (eapply updated_wf, H1).
  assert (Hm1 : mapped w m1 F L) by (eapply updated_mapped; eassumption).
  assert (Hma1 : forall a, a * w < L -> F < a * w + w -> m1 a <> None).
  { intros a G1 G2. apply (mapped_word w m1 F L); try assumption; lia. }
  assert (Hrd : forall i, addr w f <= i -> bit w m1 i = bit w m i).
  { intros i Hi. apply (updated_out _ _ _ _ _ _ _ H1). lia. }
  assert (HmL : addr w mi < L) by lia.
  assert (Hbm : ib mi <= ib last) by (apply (base_le w); try assumption; fold L; lia).
  assert (Hfm : ib f <= ib mi) by (apply (base_le w); try assumption; lia).
  pose proof (mul_mono w (ib f) (ib mi) ltac:(lia) ltac:(lia)) as Hmul.
  assert (HL : L = ib last * w + ip last) by reflexivity.
  assert (Hmie : addr w mi = ib mi * w + ip mi) by reflexivity.
  destruct (Z.eqb_spec (ib mi) (ib last)) as [E|E].
  { rewrite E in Hmie. set (bl := ip last - ip mi).
    assert (Hbl : bl = L - addr w mi) by (unfold bl; lia).
    unfold valid_it in Hvf, Hvm, Hl.
    destruct (Z.ltb_spec 0 bl) as [Cb|Cb]; [|lia].
    apply wp_bind, (wp_load w); try assumption; try lia; try (apply Hma1; lia).
    intros x Hx Hbx. apply wp_bind, (wp_load w); try assumption; try lia;
      try (apply Hma1; lia).
    intros y Hy Hby. wpl. apply rwp_cshr; [lia|].
    wpl. apply rwp_bitblend; try assumption; try lia; try (apply wrap_range; lia).
    intros v Hv Hvb.
    apply wp_bind, (wp_store_part w _ _ _ (addr w f) (addr w f + bl) G);
      try assumption; try lia; try (apply Hma1; lia).
    { intros k Hk. rewrite Hvb, Hfa by lia. bsplit.
      - rewrite shr_testbit by lia. unfold G.
        rewrite <- Hrd by lia. rewrite Hby by lia. f_equal. lia.
      - rewrite Hbx by lia. f_equal. lia. }
    intros m2 H2. apply wp_iadd; try assumption; try lia.
    intros r Hr Har. apply HQ; [assumption|lia|].
    apply shifted_left_done; [lia|exact H2w|].
    replace (L - n) with (addr w f + bl) by lia.
    eapply updated_step; [exact H1|exact H2|lia|reflexivity]. }
  apply wp_bind, wp_distance; try assumption; try (fold L; lia).
  pose proof (mul_mono w (ib mi + 1) (ib last) ltac:(lia) ltac:(lia)) as Hmul2.
  destruct (Z.eqb_spec (ip mi) 0) as [E0|E0].
  { (* whole word shift *)
    assert (Hws : n / w = ib mi - ib f).
    { replace n with ((ib mi - ib f) * w) by lia. apply Z.div_mul. lia. }
    rewrite Hws. unfold word_shift_left.
    assert (Hnw : n = (ib mi - ib f) * w) by lia.
    assert (Hws0 : 0 < ib mi - ib f) by (clear - Hnw C1 Hwp; nia).
    destruct (Z.leb_spec (ib mi - ib f) 0) as [C3|C3]; [lia|].
    destruct (Z.leb_spec (ib last - ib f) (ib mi - ib f)) as [C4|C4]; [lia|].
    replace (ib f + (ib mi - ib f)) with (ib mi) by lia.
    apply wp_bind, wp_bind, (wp_words_copy w); try assumption; try lia.
    { intros b Hb. pose proof (mul_mono w (ib mi) b ltac:(lia) ltac:(lia)).
      pose proof (mul_mono w (b + 1) (ib last) ltac:(lia) ltac:(lia)).
      unfold valid_it in *. apply Hma1; lia. }
    { intros b Hb. pose proof (mul_mono w (ib f) b ltac:(lia) ltac:(lia)).
      pose proof (mul_mono w (b + 1) (ib last) ltac:(lia) ltac:(lia)).
      unfold valid_it in *. apply Hma1; lia. }
    replace (Z.of_nat (Z.to_nat (ib last - ib mi))) with (ib last - ib mi) by lia.
    intros m2 H2. apply wp_ret. set (fb := ib f + (ib last - ib mi)) in *.
    assert (Hfb : fb * w = ib last * w - n) by (unfold fb; lia).
    assert (H12 : updated w m m2 F (fb * w) G).
    { eapply updated_step; [exact H1|rewrite Hfa; exact H2|lia|].
      intros i Hi. cbv beta. unfold G. replace ((ib mi - ib f) * w) with n by lia.
      apply Hrd. lia. }
    cbv zeta. destruct (Z.eqb_spec (ip last) 0) as [El|El]; cbn [negb].
    - apply wp_ret, HQ; [unfold valid_it; cbn; lia|unfold addr at 1; cbn [ib ip]; lia|].
      apply shifted_left_done; [lia|exact H2w|]. replace (L - n) with (fb * w) by lia. exact H12.
    - assert (Hwf2 : wf_mem w m2) by (eapply updated_wf, H12).
      assert (Hm2 : mapped w m2 F L) by (eapply updated_mapped; eassumption).
      unfold valid_it in *.
      apply wp_bind, (wp_load w); try assumption; try lia.
      { apply (mapped_word w m2 F L); try assumption; lia. }
      intros x Hx Hbx.
      assert (Haf : addr w (It fb 0) = fb * w) by (unfold addr; cbn [ib ip]; lia).
      apply wp_bind, wp_write_word; try assumption; try lia.
      { unfold valid_it. cbn. lia. }
      { rewrite Haf. eapply mapped_sub; [exact Hm2|lia|lia]. }
      rewrite Haf. intros m3 H3. apply wp_iadd; try assumption; try lia.
      { unfold valid_it. cbn. lia. }
      rewrite Haf. intros r Hr Har. apply HQ; [assumption|lia|].
      apply shifted_left_done; [lia|exact H2w|]. replace (L - n) with (fb * w + ip last) by lia.
      eapply updated_step; [exact H12|exact H3|lia|].
      intros i Hi. cbv beta.
      replace (i - fb * w) with (i + n - ib last * w) by lia.
      rewrite <- Hbx by lia. unfold G.
      apply (updated_out _ _ _ _ _ _ _ H12). lia. }
  (* words combined from two *)
  assert (Hsize : ib last - ib f <= 2 ^ 60).
  { assert (X : (ib last - ib f) * w <= 2 ^ 62) by (unfold d in *; unfold valid_it in Hl; lia).
    clear - X Hwp. nia. }
  unfold valid_it in Hvm, Hvf, Hl.
  apply wp_bind, (Hwords f mi m m1 F n); try assumption; try lia.
  { intros a Ha. pose proof (mul_mono w (ib f) a ltac:(lia) ltac:(lia)).
    pose proof (mul_mono w (a + 1) (ib last) ltac:(lia) ltac:(lia)).
    apply Hma; lia. }
  { rewrite <- Hfa. exact H1. }
  intros fb mb m2 B1 B2 B3 H2. cbn [ib ip].
  assert (Hfb : fb * w + n = mb * w + ip mi) by lia.
  assert (Hmb : mb * w + w = ib last * w) by (rewrite <- B3; lia).
  pose proof (mul_mono w (ib f) fb ltac:(lia) ltac:(lia)) as Hmul3.
  pose proof (mul_mono w fb mb ltac:(lia) ltac:(lia)) as Hmul4.
  assert (Hwf2 : wf_mem w m2) by (eapply updated_wf, H2).
  assert (Hm2 : mapped w m2 F L) by (eapply updated_mapped; eassumption).
  assert (Hma2 : forall a, a * w < L -> F < a * w + w -> m2 a <> None).
  { intros a G1 G2. apply (mapped_word w m2 F L); try assumption; lia. }
  assert (Hrd2 : forall i, fb * w <= i -> bit w m2 i = bit w m i).
  { intros i Hi. apply (updated_out _ _ _ _ _ _ _ H2). lia. }
  set (off := ip mi) in *.
  destruct (Z.eqb_spec (mb + 1) (ib last)) as [_|]; [|lia].
  apply wp_bind, wp_bind, (wp_load w); try assumption; try lia; try (apply Hma2; lia).
  intros x Hx Hbx. apply wp_bind, (wp_load w); try assumption; try lia;
    try (apply Hma2; lia).
  intros y Hy Hby. wpl. apply rwp_cshr; [lia|].
  wpl. apply rwp_bitblend; try assumption; try lia; try (apply wrap_range; lia).
  intros v Hv Hvb.
  apply wp_bind, (wp_store_part w _ _ _ (fb * w) (fb * w + (w - off)) G);
    try assumption; try lia; try (apply Hma2; lia).
  { intros k Hk. rewrite Hvb by lia. bsplit.
    - rewrite shr_testbit by lia. unfold G.
      rewrite <- Hrd2 by lia. rewrite Hby by lia. f_equal. lia.
    - rewrite Hbx by lia. f_equal. lia. }
  intros m3 H3.
  assert (Hvf2 : valid_it w (It fb 0)) by (unfold valid_it; cbn; lia).
  assert (Haf2 : addr w (It fb 0) = fb * w) by (unfold addr; cbn [ib ip]; lia).
  assert (Hvm2 : valid_it w (It mb off)) by (unfold valid_it; cbn; lia).
  assert (Ham2 : addr w (It mb off) = mb * w + off) by (unfold addr; cbn [ib ip]; lia).
  apply wp_bind, wp_iadd; try assumption; try lia. rewrite Haf2.
  intros f3 Hf3 Haf3. apply wp_bind, wp_iadd; try assumption; try lia. rewrite Ham2.
  intros m3' Hm3' Ham3. apply wp_ret.
  destruct (word_base w (ib last) m3' ltac:(lia) Hm3' ltac:(lia)) as [Hb3 Hp3].
  assert (H13 : updated w m m3 F (fb * w + (w - off)) G).
  { eapply updated_step; [exact H2|exact H3|lia|reflexivity]. }
  destruct (Z.eqb_spec (ip last) 0) as [El|El]; cbn [negb].
  - apply wp_ret, HQ; [assumption|lia|].
    apply shifted_left_done; [lia|exact H2w|].
    replace (L - n) with (fb * w + (w - off)) by lia. exact H13.
  - rewrite Hp3, Z.sub_0_r.
    assert (Hwf3 : wf_mem w m3) by (eapply updated_wf, H13).
    assert (Hm3 : mapped w m3 F L) by (eapply updated_mapped; eassumption).
    apply wp_bind, wp_get_word; try assumption; try lia.
    { eapply mapped_sub; [exact Hm3|lia|lia]. }
    intros u Hu Hub. apply wp_bind, wp_write_word; try assumption; try lia.
    { eapply mapped_sub; [exact Hm3|lia|lia]. }
    intros m4 H4. apply wp_iadd; try assumption; try lia.
    intros r Hr Har. apply HQ; [assumption|lia|].
    apply shifted_left_done; [lia|exact H2w|].
    replace (L - n) with (addr w f3 + ip last) by lia.
    rewrite <- Haf3 in H13.
    eapply updated_step; [exact H13|exact H4|lia|].
    intros i Hi. cbv beta. rewrite Hub by lia. unfold G.
    rewrite (updated_out _ _ _ _ _ _ _ H13) by lia. f_equal. lia.
Qed.

Lemma wp_shift_left : forall p w first last n m (Q : iter -> mem -> Prop),
  let d := addr w last - addr w first in
  valid_w w -> valid_it w first -> valid_it w last -> wf_mem w m ->
  0 < n < d -> d <= 2 ^ 62 ->
  mapped w m (addr w first) (addr w last) ->
  (ip first <> 0 \/ ip last <> 0 \/ ib last - ib first <> 1 \/
   full_blend_defined p w) ->
  (forall r m', valid_it w r -> addr w r = addr w last - n ->
     shifted_left w m m' (addr w first) (addr w last) n -> Q r m') ->
  wp (shift_left p w first last n) m Q.
Proof.
  intros p w first last n m Q d Hw. intros.
  change (shift_left p w first last n) with
    (shift_left_with (fun f mi l off => shift_left_loop p w
       (Z.to_nat (ib l - ib mi)) (ib f) (ib mi) (ib l) off) p w first last n).
  apply wp_shift_left_with; try assumption. apply shifts_left_words_scalar, Hw.
Qed.

(** What a shift to the right promises. *)
Definition shifted_right (w : Z) (m m' : mem) (F L n : Z) : Prop :=
  exists g, updated w m m' F L g /\
    (forall i, F + n <= i < L -> g i = bit w m (i - n)) /\
    (forall i, F <= i < F + n ->
       g i = if F / w =? (L - 1) / w then false
             else if (n mod w =? 0) && (F + n <? L / w * w) && (F + n - F mod w <=? i)
                  then bit w m (i - n) else bit w m i).

Lemma shifted_right_done : forall w m m' F L n lo,
  updated w m m' lo L (fun i => bit w m (i - n)) -> F <= lo ->
  F / w < (L - 1) / w ->
  lo = F + n - (if (n mod w =? 0) && (F + n <? L / w * w) then F mod w else 0) ->
  0 < w -> 0 <= n -> F + n <= L ->
  shifted_right w m m' F L n.
Proof.
  intros w m m' F L n lo H Hlo HF -> Hw Hn HL. eexists. pose proof (Z.mod_pos_bound F w Hw).
  split; [apply (updated_widen w m m' _ L F L _ H); destruct (_ && _); lia|].
  split; intros i Hi; cbv beta; destruct ((n mod w =? 0) && (F + n <? L / w * w));
    cbn [andb]; bsplit; try reflexivity; try lia.
Qed.

Lemma updated_step_left : forall w m0 m m' d c c' g f,
  updated w m0 m c d g -> updated w m m' c' c f -> c' <= c <= d ->
  (forall i, c' <= i < c -> f i = g i) -> updated w m0 m' c' d g.
Proof.
  intros w m0 m m' d c c' g f H1 H2 Hc Hf.
  eapply updated_app_left; [exact H1|exact H2|lia|reflexivity|exact Hf].
Qed.

(** One word built from two neighbours and stored. *)
Lemma wp_shift_right_word : forall p w lbp mbp off m0 m L n
    (Q : unit -> mem -> Prop),
  valid_w w -> 0 < off < w -> 0 < n ->
  (mbp + 1) * w + off = (lbp + 1) * w - n -> (lbp + 1) * w <= L ->
  m0 mbp <> None -> m0 (mbp + 1) <> None -> m0 lbp <> None ->
  updated w m0 m ((lbp + 1) * w) L (fun i => bit w m0 (i - n)) ->
  (forall m', updated w m0 m' (lbp * w) L (fun i => bit w m0 (i - n)) -> Q tt m') ->
  wp (let* x := load mbp in
      let* y := load (mbp + 1) in
      let! v := shrd p w x y off in
      store lbp v) m Q.
Proof.
  intros p w lbp mbp off m0 m L n Q Hw Ho Hn He HL Ha Hb Hc Hu HQ.
  pose proof (valid_pos w Hw) as Hwp.
  assert (Hwf : wf_mem w m) by (eapply updated_wf, Hu).
  assert (Hdom : forall a, m0 a <> None -> m a <> None).
  { intros a H1 H2. apply H1. destruct Hu as (_ & Hd & _). apply Hd. exact H2. }
  apply wp_bind, (wp_load w); try assumption; try lia; try (apply Hdom; assumption).
  intros x Hx Hbx. apply wp_bind, (wp_load w); try assumption; try lia;
    try (apply Hdom; assumption).
  intros y Hy Hby. wpl. apply rwp_shrd; try assumption.
  intros v Hv Hvb. apply (wp_store_word w); try assumption; try lia;
    try (apply Hdom; assumption).
  intros m1 H1. apply HQ. replace (lbp * w + w) with ((lbp + 1) * w) in H1 by lia.
  eapply updated_step_left; [exact Hu|exact H1|lia|].
  intros i Hi. cbv beta. rewrite Hvb by lia.
  rewrite <- (updated_out _ _ _ _ _ _ (i - n) Hu) by lia. bsplit.
  - rewrite Hbx by lia. f_equal. lia.
  - rewrite Hby by lia. f_equal. lia.
Qed.

Lemma wp_bind3 : forall A B C D (a : M A) (b : A -> M B) (c : A -> B -> M C)
    (d : M D) m (Q : D -> mem -> Prop) (e : A -> B -> C -> M unit),
  wp (bind (let* x := a in let* y := b x in let* v := c x y in e x y v)
        (fun _ => d)) m Q ->
  wp (let* x := a in let* y := b x in let* v := c x y in bind (e x y v)
        (fun _ => d)) m Q.
Proof.
  intros A B C D a b c d m Q e H. unfold wp, bind in *.
  destruct (a m) as [[x m1]| | | |]; try exact H.
  destruct (b x m1) as [[y m2]| | | |]; try exact H.
  destruct (c x y m2) as [[v m3]| | | |]; exact H.
Qed.

Lemma wp_shift_right_loop : forall p w fuel fb lbp mbp off m0 m L n
    (Q : Z * Z -> mem -> Prop),
  valid_w w -> 0 < off < w -> 0 < n ->
  (mbp + 1) * w + off = (lbp + 1) * w - n -> (lbp + 1) * w <= L ->
  mbp - fb <= Z.of_nat fuel -> fb <= mbp ->
  (forall a, fb <= a <= lbp -> m0 a <> None) ->
  updated w m0 m ((lbp + 1) * w) L (fun i => bit w m0 (i - n)) ->
  (forall lbp' m', lbp' - lbp = fb - mbp ->
     updated w m0 m' ((lbp' + 1) * w) L (fun i => bit w m0 (i - n)) ->
     Q (lbp', fb) m') ->
  wp (shift_right_loop p w fuel fb lbp mbp off) m Q.
Proof.
  intros p w fuel. induction fuel as [|fuel IH];
    intros fb lbp mbp off m0 m L n Q Hw Ho Hn He HL Hfu Hl Hm Hu HQ;
    pose proof (valid_pos w Hw) as Hwp; cbn [shift_right_loop];
    destruct (Z.ltb_spec fb mbp) as [E|E].
  - lia.
  - replace mbp with fb by lia. apply wp_ret, HQ; try assumption; lia.
  - assert (Hlm : mbp < lbp) by nia.
    apply wp_bind3, wp_bind, (wp_shift_right_word p w lbp mbp off m0 m L n);
      try assumption; try (apply Hm; lia).
    intros m1 H1. apply (IH _ (lbp - 1) (mbp - 1) off m0 m1 L n); try assumption; try lia.
    + intros a Ha. apply Hm. lia.
    + replace (lbp - 1 + 1) with lbp by lia. exact H1.
    + intros lbp' m' A1 A2. apply HQ; try assumption. lia.
  - replace mbp with fb by lia. apply wp_ret, HQ; try assumption; lia.
Qed.

(** What shift_right needs of the stage that combines words from two. *)
Definition shifts_right_words (w : Z)
  (words : iter -> iter -> iter -> Z -> M (iter * iter)) (m0 : mem)
  (first : iter) : Prop :=
  forall last middle m L n (Q : iter * iter -> mem -> Prop),
  let F := addr w first in
  valid_it w first -> wf_mem w m0 -> ip last = 0 -> 0 < ip middle < w -> 0 < n ->
  addr w middle = addr w last - n -> w <= addr w middle - F ->
  addr w last <= L -> ib last - ib first <= 2 ^ 60 ->
  (forall a, ib first <= a < ib last -> m0 a <> None) ->
  updated w m0 m (addr w last) L (fun i => bit w m0 (i - n)) ->
  (forall l1 mi1 m1, valid_it w l1 -> valid_it w mi1 -> addr w mi1 = addr w l1 - n ->
     ip mi1 = ip middle -> F <= addr w mi1 < F + w -> addr w l1 <= L ->
     updated w m0 m1 (addr w l1) L (fun i => bit w m0 (i - n)) -> Q (l1, mi1) m1) ->
  wp (words first last middle (ip middle)) m Q.

Lemma wp_shift_right_words : forall p w m0 first last middle m L n
    (Q : iter * iter -> mem -> Prop),
  let F := addr w first in
  valid_w w -> valid_it w first -> ip last = 0 -> 0 < ip middle < w -> 0 < n ->
  addr w middle = addr w last - n -> ib first < ib middle -> addr w last <= L ->
  (forall a, ib first <= a < ib last -> m0 a <> None) ->
  updated w m0 m (addr w last) L (fun i => bit w m0 (i - n)) ->
  (forall l1 mi1 m1, valid_it w l1 -> valid_it w mi1 -> addr w mi1 = addr w l1 - n ->
     ip mi1 = ip middle -> F <= addr w mi1 < F + w -> addr w l1 <= L ->
     updated w m0 m1 (addr w l1) L (fun i => bit w m0 (i - n)) -> Q (l1, mi1) m1) ->
  wp (shift_right_words p w first last middle (ip middle)) m Q.
Proof.
  intros p w m0 first last middle m L n Q F Hw Hf Hl0 Hmi Hn Ham Hb1 HL Hm Hu HQ.
  pose proof (valid_pos w Hw) as Hwp. unfold shift_right_words.
  assert (Hal : addr w last = ib last * w) by (unfold addr; lia).
  assert (Ham' : addr w middle = ib middle * w + ip middle) by reflexivity.
  assert (HFe : F = ib first * w + ip first) by reflexivity.
  unfold valid_it in Hf.
  assert (Hb2 : ib middle < ib last) by (clear - Hal Ham Ham' Hmi Hn Hwp; nia).
  apply wp_bind, (wp_shift_right_loop p w _ _ _ _ _ m0 m L n); try assumption; try lia.
  { intros a Ha. apply Hm. lia. }
  { replace (ib last - 1 + 1) with (ib last) by lia. rewrite <- Hal. exact Hu. }
  intros lbp m1 A1 A2.
  assert (He : (ib first + 1) * w + ip middle = (lbp + 1) * w - n)
    by (replace (ib first) with (lbp + 1 - ib last + ib middle - 1) by lia; lia).
  assert (Hlb : ib first < lbp) by (clear - He Hmi Hn Hwp; nia).
  assert (Hlb2 : lbp < ib last) by lia.
  pose proof (mul_mono w (lbp + 1) (ib last) ltac:(lia) ltac:(lia)) as Hmu.
  pose proof (mul_mono w (ib first + 1) lbp ltac:(lia) ltac:(lia)) as Hmu2.
  destruct (Z.leb_spec (ip first) (ip middle)) as [E2|E2].
  - apply wp_bind, wp_bind3, wp_bind,
      (wp_shift_right_word p w lbp (ib first) (ip middle) m0 m1 L n);
      try assumption; try lia; try (apply Hm; lia).
    intros m2 H2. apply wp_ret, wp_ret. cbn [ip].
    replace (lbp - 1 + 1) with lbp by lia.
    replace (ib first - 1 + 1) with (ib first) by lia.
    apply HQ; unfold valid_it, addr; cbn [ib ip]; rewrite ?Hl0, ?Z.add_0_r; try lia.
    exact H2.
  - apply wp_bind, wp_ret, wp_ret.
    apply HQ; unfold valid_it, addr; cbn [ib ip]; rewrite ?Hl0, ?Z.add_0_r; try lia.
    exact A2.
Qed.

Lemma shifts_right_words_scalar : forall p w m0 first, valid_w w ->
  shifts_right_words w (shift_right_words p w) m0 first.
Proof.
  intros p w m0 first Hw last middle m L n Q F Hf Hwf0 Hl0 Hmi Hn Ham HFm HL _ Hm Hu HQ.
  pose proof (valid_pos w Hw) as Hwp.
  apply (wp_shift_right_words p w m0 first last middle m L n); try assumption.
  unfold F, addr, valid_it in *. nia.
Qed.

Lemma wp_shift_right_main_with : forall words p w first last middle n m0 m L
    (Q : iter -> mem -> Prop),
  shifts_right_words w words m0 first ->
  let F := addr w first in
  valid_w w -> valid_it w first -> valid_it w last -> valid_it w middle ->
  wf_mem w m0 -> ip last = 0 -> 0 < n <= 2 ^ 62 ->
  addr w middle = addr w last - n -> F < addr w middle ->
  addr w last <= L -> L - F <= 2 ^ 62 ->
  F / w < (L - 1) / w -> L / w = ib last ->
  mapped w m0 F L ->
  updated w m0 m (addr w last) L (fun i => bit w m0 (i - n)) ->
  (forall r m', valid_it w r -> addr w r = F + n ->
     shifted_right w m0 m' F L n -> Q r m') ->
  wp (shift_right_main_with words p w first last middle n) m Q.
Proof.
  intros words p w first last middle n m0 m L Q Hwords F Hw Hf Hl Hmi Hwf0 Hl0 Hn Ham HFm HL HLF
    H2w HLw Hm Hu HQ.
  pose proof (valid_pos w Hw) as Hwp. pose proof (prom_ge w Hw) as Hpr.
  unfold shift_right_main_with. unfold shifts_right_words in Hwords.
  assert (Hal : addr w last = ib last * w) by (unfold addr; lia).
  assert (Ham' : addr w middle = ib middle * w + ip middle) by reflexivity.
  assert (HFe : F = ib first * w + ip first) by reflexivity.
  assert (Hwf : wf_mem w m) by (eapply updated_wf, Hu).
  assert (Hm1 : mapped w m F L) by (eapply updated_mapped; eassumption).
  assert (Hma : forall (m : mem), mapped w m F L -> forall a, a * w < L -> F < a * w + w -> m a <> None).
  { intros m' Hm' a G1 G2. apply (mapped_word w m' F L); try assumption; lia. }
  assert (Hbm : ib first <= ib middle) by (apply (base_le w); try assumption; fold F; lia).
  assert (Hml : ib middle <= ib last) by (apply (base_le w); try assumption; lia).
  assert (Hr : forall (m' : mem), shifted_right w m0 m' F L n ->
     wp (lift (iadd w first n)) m' Q).
  { intros m' Hs. apply wp_iadd; try assumption; try lia.
    intros r Hr1 Hr2. apply HQ; assumption. }
  destruct (Z.eqb_spec (ip middle) 0) as [E|E].
  { assert (Hws : n / w = ib last - ib middle).
    { replace n with ((ib last - ib middle) * w) by lia. apply Z.div_mul. lia. }
    rewrite Hws. unfold word_shift_right.
    assert (Hnw : n = (ib last - ib middle) * w) by lia.
    assert (H0 : 0 < ib last - ib middle) by (clear - Hnw Hn Hwp; nia).
    unfold valid_it in Hf.
    assert (H01 : ib first < ib middle) by (clear - HFm HFe Ham' E Hf Hwp; nia).
    destruct (Z.leb_spec (ib last - ib middle) 0) as [C1|C1]; [lia|].
    destruct (Z.leb_spec (ib last - ib first) (ib last - ib middle)) as [C2|C2]; [lia|].
    replace (ib last - (ib last - ib middle)) with (ib middle) by lia.
    apply wp_bind, wp_bind, (wp_words_copy_backward w); try assumption; try lia.
    { intros b Hb. pose proof (mul_mono w (ib first) b ltac:(lia) ltac:(lia)).
      pose proof (mul_mono w (b + 1) (ib last) ltac:(lia) ltac:(lia)).
      apply (Hma m Hm1); lia. }
    { intros b Hb. pose proof (mul_mono w (ib first) b ltac:(lia) ltac:(lia)).
      pose proof (mul_mono w (b + 1) (ib last) ltac:(lia) ltac:(lia)).
      apply (Hma m Hm1); lia. }
    replace (Z.of_nat (Z.to_nat (ib middle - ib first))) with (ib middle - ib first) by lia.
    intros m1 H1. apply wp_ret, Hr.
    set (lo := ib last - (ib middle - ib first)) in *.
    assert (Hlo : lo * w = ib first * w + n) by (unfold lo; lia).
    pose proof (mul_mono w (ib first + 1) lo ltac:(lia) ltac:(unfold lo; lia)).
    assert (HFw : F / w = ib first) by (apply div_of; lia).
    assert (HFmod : F mod w = ip first) 
      by (symmetry; apply (Z.mod_unique_pos F w (ib first)); lia).
    assert (Hnm : n mod w = 0).
    { replace n with ((ib last - ib middle) * w) by lia. apply Z.mod_mul. lia. }
    apply (shifted_right_done _ _ _ _ _ _ (lo * w)); [|lia|exact H2w| |lia|lia|lia].
    2: { rewrite HLw, HFmod, Hnm. change (0 =? 0) with true. cbn [andb].
         destruct (Z.ltb_spec (F + n) (ib last * w)); lia. }
    rewrite <- Hal in H1. pose proof (mul_mono w lo (ib last) ltac:(lia) ltac:(unfold lo; lia)).
    eapply updated_step_left; [exact Hu|exact H1|lia|].
    intros i Hi. cbv beta. replace (i + (ib middle - ib last) * w) with (i - n) by lia.
    apply (updated_out _ _ _ _ _ _ _ Hu). lia. }
  unfold valid_it in Hmi, Hf.
  assert (Hnm : n mod w <> 0).
  { intros Hz. apply E. assert (Hn' : n = n / w * w) by (rewrite (Z.div_mod n w) at 1 by lia; lia).
    assert (Hq : ib middle * w + ip middle = (ib last - n / w) * w) by lia.
    assert (Hb : ib middle = ib last - n / w).
    { rewrite <- (div_of w (ib middle) (ib middle * w + ip middle)) by lia.
      rewrite Hq. apply Z.div_mul. lia. }
    rewrite <- Hb in Hq. lia. }
  assert (Hdone : forall m', updated w m0 m' (F + n) L (fun i => bit w m0 (i - n)) ->
     shifted_right w m0 m' F L n).
  { intros m' Hu'. apply (shifted_right_done _ _ _ _ _ _ (F + n)); try assumption; try lia.
    destruct (Z.eqb_spec (n mod w) 0); [contradiction|]. cbn [andb]. lia. }
  apply wp_bind, wp_distance; try assumption; try (fold F; lia). fold F.
  apply wp_bind.
  apply (wp_conseq _ _ _ (fun '(l1, mi1) m1 =>
    valid_it w l1 /\ valid_it w mi1 /\ addr w mi1 = addr w l1 - n /\
    ip mi1 = ip middle /\
    F <= addr w mi1 < F + w /\ addr w l1 <= L /\
    updated w m0 m1 (addr w l1) L (fun i => bit w m0 (i - n)))).
  { destruct (Z.leb_spec w (addr w middle - F)) as [E1|E1].
    - apply (Hwords last middle m L n); try assumption; try lia.
      + clear - Hwp HFe Hal Hf HLF HL. nia.
      + intros a Ha. pose proof (mul_mono w (ib first) a ltac:(lia) ltac:(lia)).
        pose proof (mul_mono w (a + 1) (ib last) ltac:(lia) ltac:(lia)).
        apply (Hma m0 Hm); lia.
      + intros l1 mi1 m1 B1 B2 B3 B4 B5 B6 B7. repeat (split; [assumption|]). exact B7.
    - apply wp_ret. unfold valid_it in *. repeat (split; [lia|]). exact Hu. }
  intros [l1 mi1] m1 (A1 & A2 & A3 & A4 & A5 & A6 & A7).
  assert (Hm2 : mapped w m1 F L) by (eapply updated_mapped; eassumption).
  assert (Hwf1 : wf_mem w m1) by (eapply updated_wf, A7).
  apply wp_bind.
  apply (wp_conseq _ _ _ (fun _ m2 => shifted_right w m0 m2 F L n));
    [|intros _ m2 H2; apply Hr, H2].
  destruct (Z.eqb_spec (ip first) (ip mi1)) as [E1|E1]; cbn [negb].
  - apply wp_ret.
    assert (Heq : addr w mi1 = F).
    { assert (ib mi1 = ib first) 
        by (unfold F, addr in A5; unfold valid_it in A2; clear - A5 E1 A2 Hf Hwp; nia).
      unfold F, addr. lia. }
    apply Hdone. replace (F + n) with (addr w l1) by lia. exact A7.
  - assert (Hne : addr w mi1 <> F).
    { intros Hx. apply E1. unfold F in Hx. apply (addr_inj w) in Hx; try assumption.
      - rewrite Hx. reflexivity.
      - lia. }
    apply wp_bind, wp_distance; try assumption; try (fold F; lia). fold F.
    set (b := addr w mi1 - F) in *.
    apply wp_bind, wp_get_word; try assumption; try lia.
    { eapply mapped_sub; [exact Hm2|fold F; lia|fold F; lia]. }
    fold F. intros v Hv Hvb. apply wp_bind, wp_isub; try assumption; try lia.
    intros dst Hdst Had. apply wp_write_word; try assumption; try lia.
    { eapply mapped_sub; [exact Hm2|lia|lia]. }
    intros m2 H2.
    apply Hdone. replace (F + n) with (addr w dst) by lia.
    replace (addr w dst + b) with (addr w l1) in H2 by lia.
    eapply updated_step_left; [exact A7|exact H2|lia|].
    intros i Hi. cbv beta. rewrite Hvb by lia.
    rewrite (updated_out _ _ _ _ _ _ _ A7) by lia. f_equal. lia.
Qed.

Lemma shift_right_trivial : forall p w first last n m,
  valid_w w -> valid_it w first -> valid_it w last ->
  0 <= addr w last - addr w first <= 2 ^ 62 ->
  n <= 0 \/ addr w last - addr w first <= n ->
  shift_right p w first last n m =
    Ok (if n <=? 0 then first else last, m).
Proof.
  intros p w first last n m Hw Hf Hl Hd Ht.
  assert (Hx : wp (shift_right p w first last n) m
    (fun r m' => (r, m') = (if n <=? 0 then first else last, m))).
  { unfold shift_right.
    apply wp_bind, wp_distance; try assumption. apply wp_bind, wp_isub_any; try assumption.
    intros mi. destruct (Z.leb_spec n 0); [apply wp_ret; reflexivity|].
    destruct (Z.leb_spec (addr w last - addr w first) n); [|lia].
    apply wp_ret. reflexivity. }
  apply wp_exists in Hx. destruct Hx as (r & m' & -> & ->). reflexivity.
Qed.

Lemma wp_shift_right_with : forall words p w first last n m (Q : iter -> mem -> Prop),
  shifts_right_words w words m first ->
  let d := addr w last - addr w first in
  valid_w w -> valid_it w first -> valid_it w last -> wf_mem w m ->
  0 < n < d -> d <= 2 ^ 62 ->
  mapped w m (addr w first) (addr w last) ->
  (ip first <> 0 \/ ip last <> 0 \/ ib last - ib first <> 1 \/
   full_blend_defined p w) ->
  (forall r m', valid_it w r -> addr w r = addr w first + n ->
     shifted_right w m m' (addr w first) (addr w last) n -> Q r m') ->
  wp (shift_right_with words p w first last n) m Q.
Proof.
  intros words p w first last n m Q Hwords d Hw Hf Hl Hwf Hn Hd Hm Hg HQ.
  pose proof (valid_pos w Hw) as Hwp. pose proof (prom_ge w Hw) as Hpr.
  unfold shift_right_with.
  apply wp_bind, wp_distance; try assumption; try lia. fold d.
  apply wp_bind, wp_isub; try assumption; try lia. intros mid Hmid Hamid.
  destruct (Z.leb_spec n 0) as [C1|C1]; [lia|].
  destruct (Z.leb_spec d n) as [C2|C2]; [lia|].
  set (F := addr w first) in *. set (L := addr w last) in *.
  destruct (one_word first last) eqn:Eo.
  { unfold one_word in Eo. unfold valid_it in Hf, Hl.
    assert (He : ib first * w + end_pos w last = L /\
                 ip first < end_pos w last <= w /\
                 (end_pos w last = w -> ip last = 0 /\ ib last - ib first = 1)).
    { unfold end_pos, d, F, L, addr, b2z in *.
      destruct (Z.eqb_spec (ip last) 0); [|lia].
      assert (ib last = ib first + 1) by lia. nia. }
    destruct He as (He1 & He2 & He3). set (e := end_pos w last) in *. clearbody e.
    assert (HF : F = ib first * w + ip first) by reflexivity.
    assert (Hma : m (ib first) <> None).
    { apply (mapped_word w m F L); try assumption; lia. }
    apply wp_bind, (wp_load w); try assumption; try lia. intros x Hx Hbx.
    assert (Hao : 0 <= all_ones w < 2 ^ w) by (apply all_ones_range; lia).
    wpl. apply rwp_cshl; try assumption; try lia. intros msk Hmsk.
    assert (Hlx : 0 <= Z.land x msk < 2 ^ w) by (apply land_range; lia).
    wpl. apply rwp_cshl; try assumption; try lia. intros s Hs.
    wpl. apply rwp_bitblend; try assumption; try lia; try (apply wrap_range; lia).
    { destruct Hg as [Hg|[Hg|[Hg|Hg]]]; [left; lia|left; lia|left; lia|right; exact Hg]. }
    intros v Hv Hvb.
    assert (Hmb : forall k, 0 <= k < w -> Z.testbit msk k = (ip first <=? k)).
    { intros k Hk. transitivity (Z.testbit (wrap w msk) k).
      - rewrite wrap_testbit by lia. bsplit; reflexivity.
      - rewrite (shl_testbit w msk (all_ones w) (ip first)) by (assumption || lia).
        bsplit.
        + unfold all_ones. rewrite all_ones_testbit by lia. bsplit. reflexivity.
        + apply Z.testbit_neg_r. lia. }
    set (g := fun i => if F + n <=? i then bit w m (i - n) else false).
    apply wp_bind, (wp_store_part w _ _ _ F L g); try assumption; try lia.
    { intros k Hk. rewrite Hvb by lia. rewrite <- He1, HF.
      replace (ip first + (e - ip first)) with e by lia.
      unfold g. rewrite HF. bsplit; try (rewrite Hbx by lia; f_equal; lia).
      - rewrite (shl_testbit w s (Z.land x msk) n) by (assumption || lia).
        rewrite Z.land_spec, Hmb by lia. bsplit. rewrite andb_true_r.
        rewrite Hbx by lia. f_equal. lia.
      - rewrite (shl_testbit w s (Z.land x msk) n) by (assumption || lia).
        destruct (Z.lt_ge_cases (k - n) 0); [apply Z.testbit_neg_r; lia|].
        rewrite Z.land_spec, Hmb by lia. bsplit. apply andb_false_r. }
    intros m1 H1. apply wp_iadd; try assumption; try lia.
    intros r Hr Ha. apply HQ; try assumption.
    exists g. split; [exact H1|]. split; intros i Hi.
    - unfold g. bsplit. reflexivity.
    - rewrite !(div_of w (ib first)) by lia. rewrite Z.eqb_refl. unfold g. bsplit. reflexivity. }
  assert (H2w : F / w < (L - 1) / w) by (apply two_words; try assumption; fold F L; lia).
  assert (HLw : L / w = ib last)
    by (apply div_of; [lia|]; unfold L, addr; unfold valid_it in Hl; lia).
  destruct (Z.eqb_spec (ip last) 0) as [El|El]; cbn [negb].
  { apply (wp_shift_right_main_with words p w first last mid n m m L); try assumption; try lia.
    fold L. apply updated_refl; [assumption|]. intros i Hi. lia. }
  apply wp_bind, wp_distance; try assumption; try (fold F; unfold d in *; lia).
  fold F. unfold valid_it in Hl.
  assert (HLe : L = ib last * w + ip last) by reflexivity.
  set (bits := Z.min (ip last) (addr w mid - F)).
  apply wp_bind, wp_isub; try assumption; try (unfold d in *; lia).
  intros src Hsrc Hasrc. apply wp_bind, wp_get_word; try assumption;
    try (unfold d in *; lia).
  { eapply mapped_sub; [exact Hm|lia|lia]. }
  intros v Hv Hvb. apply wp_bind, wp_isub; try assumption; try (unfold d in *; lia).
  intros dst Hdst Hadst. apply wp_bind, wp_write_word; try assumption;
    try (unfold d in *; lia).
  { eapply mapped_sub; [exact Hm|lia|fold L in Hadst; lia]. }
  intros m1 H1. replace (addr w dst + bits) with L in H1 by (fold L in Hadst; lia).
  apply wp_bind, wp_isub; try assumption; try (unfold d in *; lia).
  intros mid2 Hmid2 Ham2. apply wp_bind, wp_isub; try assumption;
    try (unfold d in *; lia).
  intros l2 Hl2 Hal2. fold L in Hal2, Hadst.
  assert (Hu : updated w m m1 (addr w l2) L (fun i => bit w m (i - n))).
  { rewrite Hal2, <- Hadst. eapply updated_ext; [exact H1|].
    intros i Hi. cbv beta. rewrite Hvb by lia. f_equal. lia. }
  rewrite (ieq_addr w) by (assumption || lia). fold F.
  destruct (Z.eqb_spec (addr w mid2) F) as [E|E].
  { apply wp_iadd; try assumption; try lia. intros r Hr Har. apply HQ; try assumption.
    apply (shifted_right_done _ _ _ _ _ _ (addr w l2)); try assumption;
      try (unfold d in *; lia).
    rewrite HLw. destruct (Z.ltb_spec (F + n) (ib last * w)); [unfold d in *; lia|].
    rewrite andb_false_r. unfold d in *. lia. }
  assert (Hb : bits = ip last) by lia.
  destruct (word_base w (ib last) l2 ltac:(lia) Hl2 ltac:(lia)) as [Hb2 Hp2].
  apply (wp_shift_right_main_with words p w first l2 mid2 n m m1 L); try assumption;
    try (fold F; unfold d in *; lia).
Qed.

Lemma wp_shift_right : forall p w first last n m (Q : iter -> mem -> Prop),
  let d := addr w last - addr w first in
  valid_w w -> valid_it w first -> valid_it w last -> wf_mem w m ->
  0 < n < d -> d <= 2 ^ 62 ->
  mapped w m (addr w first) (addr w last) ->
  (ip first <> 0 \/ ip last <> 0 \/ ib last - ib first <> 1 \/
   full_blend_defined p w) ->
  (forall r m', valid_it w r -> addr w r = addr w first + n ->
     shifted_right w m m' (addr w first) (addr w last) n -> Q r m') ->
  wp (shift_right p w first last n) m Q.
Proof.
  intros p w first last n m Q d Hw. intros.
  change (shift_right p w first last n) with
    (shift_right_with (shift_right_words p w) p w first last n).
  apply wp_shift_right_with; try assumption. apply shifts_right_words_scalar, Hw.
Qed.

Lemma shift_left_ok : forall p w m first last n,
  valid_w w -> wf_mem w m -> good_range w m first last ->
  0 < n < addr w last - addr w first ->
  ip first <> 0 \/ ip last <> 0 \/ ib last - ib first <> 1 \/
    full_blend_defined p w ->
  exists r m', shift_left p w first last n m = Ok (r, m') /\ valid_it w r /\
    addr w r = addr w last - n /\ wf_mem w m' /\ same_dom m m' /\
    (forall i, addr w first <= i < addr w last - n ->
       bit w m' i = bit w m (i + n)) /\
    (forall i, i < addr w first \/ addr w last <= i -> bit w m' i = bit w m i).
Proof.
  intros p w m first last n Hw Hwf (Hf & Hl & Hd & Hm) Hn Hg.
  apply wp_exists. apply wp_shift_left; try assumption; try (unfold max_bits in Hd; lia).
  intros r m' H1 H2 (g & H3 & H4). split; [assumption|]. split; [assumption|].
  split; [eapply updated_wf, H3|]. split; [apply H3|]. split.
  - intros i Hi. rewrite (updated_in _ _ _ _ _ _ _ H3) by lia. apply H4, Hi.
  - intros i Hi. apply (updated_out _ _ _ _ _ _ _ H3 Hi).
Qed.

Lemma shift_left_hw : forall o w m first last n,
  valid_w w -> wf_mem w m -> good_range w m first last ->
  0 < n < addr w last - addr w first ->
  exists r m', shift_left (Hw o) w first last n m = Ok (r, m') /\ valid_it w r /\
    addr w r = addr w last - n /\ wf_mem w m' /\ same_dom m m' /\
    (forall i, addr w first <= i < addr w last - n ->
       bit w m' i = bit w m (i + n)) /\
    (forall i, i < addr w first \/ addr w last <= i -> bit w m' i = bit w m i).
Proof.
  intros. apply shift_left_ok; try assumption. do 3 right. exact I.
Qed.

Lemma shift_left_none : forall p w m first last n,
  valid_w w -> good_range w m first last ->
  (n <= 0 -> shift_left p w first last n m = Ok (last, m)) /\
  (0 < n -> addr w last - addr w first <= n ->
     shift_left p w first last n m = Ok (first, m)).
Proof.
  intros p w m first last n Hw (Hf & Hl & Hd & Hm). unfold max_bits in *.
  split; intros H; [|intros H']; rewrite shift_left_trivial by (assumption || lia);
    destruct (Z.leb_spec n 0); (lia || reflexivity).
Qed.

Lemma shift_right_ok : forall p w m first last n,
  valid_w w -> wf_mem w m -> good_range w m first last ->
  0 < n < addr w last - addr w first ->
  ip first <> 0 \/ ip last <> 0 \/ ib last - ib first <> 1 \/
    full_blend_defined p w ->
  exists r m', shift_right p w first last n m = Ok (r, m') /\ valid_it w r /\
    addr w r = addr w first + n /\ wf_mem w m' /\ same_dom m m' /\
    (forall i, addr w first + n <= i < addr w last ->
       bit w m' i = bit w m (i - n)) /\
    (forall i, i < addr w first \/ addr w last <= i -> bit w m' i = bit w m i).
Proof.
  intros p w m first last n Hw Hwf (Hf & Hl & Hd & Hm) Hn Hg.
  apply wp_exists. apply wp_shift_right; try assumption; try (unfold max_bits in Hd; lia).
  intros r m' H1 H2 (g & H3 & H4). split; [assumption|]. split; [assumption|].
  split; [eapply updated_wf, H3|]. split; [apply H3|]. split.
  - intros i Hi. rewrite (updated_in _ _ _ _ _ _ _ H3) by lia. apply H4, Hi.
  - intros i Hi. apply (updated_out _ _ _ _ _ _ _ H3 Hi).
Qed.

Lemma shift_right_hw : forall o w m first last n,
  valid_w w -> wf_mem w m -> good_range w m first last ->
  0 < n < addr w last - addr w first ->
  exists r m', shift_right (Hw o) w first last n m = Ok (r, m') /\ valid_it w r /\
    addr w r = addr w first + n /\ wf_mem w m' /\ same_dom m m' /\
    (forall i, addr w first + n <= i < addr w last ->
       bit w m' i = bit w m (i - n)) /\
    (forall i, i < addr w first \/ addr w last <= i -> bit w m' i = bit w m i).
Proof.
  intros. apply shift_right_ok; try assumption. do 3 right. exact I.
Qed.

Lemma shift_right_none : forall p w m first last n,
  valid_w w -> good_range w m first last ->
  (n <= 0 -> shift_right p w first last n m = Ok (first, m)) /\
  (0 < n -> addr w last - addr w first <= n ->
     shift_right p w first last n m = Ok (last, m)).
Proof.
  intros p w m first last n Hw (Hf & Hl & Hd & Hm). unfold max_bits in *.
  split; intros H; [|intros H']; rewrite shift_right_trivial by (assumption || lia);
    destruct (Z.leb_spec n 0); (lia || reflexivity).
Qed.
