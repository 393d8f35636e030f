(** Proofs about find and equal (find.hpp, equal.hpp). *)
From Coq Require Import ZArith Bool List Lia.
From Coq Require Import ZifyBool.
From Verif Require Import Base WordOps IterModel AlgModel HwyModel Spec ProofBase ProofIter
  ProofWord ProofCnt ProofAlg1 ProofCopy.
Import ListNotations.
Open Scope Z_scope.
Ltac Zify.zify_post_hook ::= Z.div_mod_to_equations.

Lemma lnot_word_testbit : forall w x k, 0 <= w -> 0 <= k < w ->
  Z.testbit (wrap w (Z.lnot x)) k = negb (Z.testbit x k).
Proof.
  intros w x k Hw Hk. rewrite wrap_testbit, Z.lnot_spec by lia.
  destruct (Z.ltb_spec k w); [reflexivity|lia].
Qed.

Lemma tz_bv_spec : forall w bv x, valid_w w -> 0 <= x < 2 ^ w ->
  0 <= tz_bv w bv x <= w /\
  (tz_bv w bv x < w -> Z.testbit x (tz_bv w bv x) = bv) /\
  (forall k, 0 <= k < tz_bv w bv x -> Z.testbit x k = negb bv).
Proof.
  intros w bv x Hw Hx. pose proof (valid_pos w Hw).
  unfold tz_bv. destruct bv; cbn [negb].
  - rewrite wrap_small by lia. apply tzcnt_spec; assumption.
  - destruct (tzcnt_spec w (wrap w (Z.lnot x)) Hw) as (H1 & H2 & H3).
    { apply wrap_range. lia. }
    set (t := tzcnt w (wrap w (Z.lnot x))) in *. clearbody t.
    split; [lia|]. split.
    + intros Ht. specialize (H2 Ht). rewrite lnot_word_testbit in H2 by lia.
      destruct (Z.testbit x t); [discriminate|reflexivity].
    + intros k Hk. specialize (H3 k Hk). rewrite lnot_word_testbit in H3 by lia.
      destruct (Z.testbit x k); [reflexivity|discriminate].
Qed.

Lemma wp_words_find : forall n it skip m (Q : Z -> mem -> Prop),
  (forall b, it <= b < it + Z.of_nat n -> m b <> None) ->
  (forall r, it <= r <= it + Z.of_nat n ->
     (forall b, it <= b < r -> m b = Some skip) ->
     (r < it + Z.of_nat n -> m r <> Some skip) -> Q r m) ->
  wp (words_find n it skip) m Q.
Proof.
  induction n as [|n IH]; intros it skip m Q Hm HQ; cbn [words_find].
  - apply wp_ret, HQ; lia.
  - apply wp_bind. destruct (dom_some m it) as [x Hx]; [apply Hm; lia|].
    unfold wp at 1, load. rewrite Hx.
    destruct (Z.eqb_spec x skip) as [E|E]; cbn [negb].
    + apply IH.
      * intros b Hb. apply Hm. lia.
      * intros r Hr H1 H2. apply HQ; try lia.
        -- intros b Hb. destruct (Z.eq_dec b it); [subst; assumption|].
           apply H1. lia.
        -- intros H. apply H2. lia.
    + apply wp_ret, HQ; try lia. congruence.
Qed.

(** The result of a search: the first position of value [bv]. *)
Definition first_pos (w : Z) (m : mem) (lo hi : Z) (bv : bool) (r : Z) : Prop :=
  lo <= r <= hi /\ (forall i, lo <= i < r -> bit w m i = negb bv) /\
  (r < hi -> bit w m r = bv).

Lemma skip_bits : forall w (bv : bool) k, 0 < w -> 0 <= k < w ->
  Z.testbit (if bv then 0 else all_ones w) k = negb bv.
Proof.
  intros w bv k Hw Hk. destruct bv; [apply Z.bits_0|].
  unfold all_ones. rewrite all_ones_testbit by lia. cbn. lia.
Qed.

Lemma skip_range : forall w (bv : bool), 0 < w ->
  0 <= (if bv then 0 else all_ones w) < 2 ^ w.
Proof.
  intros w bv Hw. destruct bv; [|apply wrap_range; lia].
  pose proof (pow_pos w). lia.
Qed.

(** What find needs of the stage that searches whole words. *)
Definition finds_words (w : Z) (words : Z -> iter -> bool -> M iter) (m : mem)
  (first last : iter) (bv : bool) : Prop :=
  forall it (Q : iter -> mem -> Prop), ib first <= it <= ib last ->
  (forall b, it <= b < ib last -> m b <> None) ->
  (ip last <> 0 -> m (ib last) <> None) ->
  (forall r, valid_it w r -> first_pos w m (it * w) (addr w last) bv (addr w r) ->
     Q r m) ->
  wp (words it last bv) m Q.

Lemma wp_find_with : forall words p w first last bv m (Q : iter -> mem -> Prop),
  finds_words w words m first last bv ->
  valid_w w -> valid_it w first -> valid_it w last -> wf_mem w m ->
  0 <= addr w last - addr w first <= 2 ^ 62 ->
  mapped w m (addr w first) (addr w last) ->
  (ip first <> 0 -> m (ib first) <> None) ->
  (forall r, valid_it w r ->
     first_pos w m (addr w first) (addr w last) bv (addr w r) -> Q r m) ->
  wp (find_with words p w first last bv) m Q.
Proof.
  intros words p w first last bv m Q Hwords Hw Hf Hl Hwf Hd Hm Hmf HQ.
  pose proof (valid_pos w Hw) as Hwp. pose proof (prom_ge w Hw) as Hpr.
  unfold find_with. apply wp_bind.
  apply (wp_conseq _ _ _ (fun s m1 => m1 = m /\
    match s with
    | inl r => valid_it w r /\
        first_pos w m (addr w first) (addr w last) bv (addr w r)
    | Datatypes.inr f => valid_it w f /\ ip f = 0 /\
        addr w first <= addr w f <= addr w last /\
        forall i, addr w first <= i < addr w f -> bit w m i = negb bv
    end)).
  { destruct (Z.eqb_spec (ip first) 0) as [E|E]; cbn [negb].
    { apply wp_ret. split; [reflexivity|]. split; [assumption|].
      split; [assumption|]. split; [lia|]. intros; lia. }
    apply wp_bind, (wp_load w); try assumption; try lia; auto.
    intros x Hx Hbx. wpl. unfold valid_it in Hf, Hl.
    apply rwp_cshr; [lia|].
    destruct (tz_bv_spec w bv (wrap w (Z.shiftr x (ip first))) Hw) as (T1 & T2 & T3).
    { apply wrap_range. lia. }
    set (t := tz_bv w bv (wrap w (Z.shiftr x (ip first)))) in *. clearbody t.
    assert (Hbit : forall k, 0 <= k -> k + ip first < w ->
      bit w m (addr w first + k) =
      Z.testbit (wrap w (Z.shiftr x (ip first))) k).
    { intros k Hk Hk2. rewrite shr_testbit by lia. unfold addr.
      rewrite Hbx by lia. f_equal. lia. }
    assert (Hfp : forall e, addr w first <= e -> e <= ib first * w + w ->
      first_pos w m (addr w first) e bv (addr w first + Z.min t (e - addr w first))).
    { intros e He1 He2. unfold addr in He2. split; [lia|]. split.
      - intros i Hi. replace i with (addr w first + (i - addr w first)) by lia.
        rewrite Hbit; [apply T3; lia|lia|unfold addr in *; lia].
      - intros Hlt. rewrite Z.min_l by lia.
        rewrite Hbit; [apply T2|lia|]; unfold addr in *; lia. }
    destruct (Z.eqb_spec (ib first + b2z (ip last =? 0)) (ib last)) as [E1|E1].
    - apply wp_bind, wp_distance; try assumption; try lia.
      assert (addr w last <= ib first * w + w).
      { unfold addr. destruct (Z.eqb_spec (ip last) 0); cbn [b2z] in E1;
          rewrite <- E1; lia. }
      rewrite wrap_small by lia.
      apply wp_bind, wp_iadd; try assumption; try lia.
      intros r Hr Har. apply wp_ret. split; [reflexivity|]. split; [assumption|].
      rewrite Har. apply Hfp; lia.
    - assert (Hlt : ib first * w + w <= ib last * w).
      { assert (ib first <= ib last) by (apply (base_le w); assumption || lia).
        assert (ib first < ib last).
        { destruct (Z.eqb_spec (ip last) 0); cbn [b2z] in E1; [|lia].
          assert (ib first = ib last -> False); [|lia].
          intros Heq. unfold addr in Hd. rewrite Heq in Hd. lia. }
        nia. }
      assert (Hw1 : ib first * w + w <= addr w last) by (unfold addr; lia).
      destruct (Z.ltb_spec (t + ip first) w) as [E2|E2].
      + apply wp_bind, wp_iadd; try assumption; try lia.
        intros r Hr Har. apply wp_ret. split; [reflexivity|]. split; [assumption|].
        rewrite Har. destruct (Hfp (ib first * w + w)) as (P1 & P2 & P3);
          [unfold addr; lia|lia|].
        rewrite Z.min_l in P1, P2, P3 by (unfold addr; lia).
        split; [lia|]. split; [assumption|]. intros _. apply P3. unfold addr. lia.
      + rewrite usub_small by lia. apply wp_bind, wp_iadd; try assumption; try lia.
        intros r Hr Har. apply wp_ret. split; [reflexivity|]. split; [assumption|].
        assert (Hr0 : addr w r = (ib first + 1) * w) by (unfold addr in *; lia).
        split.
        { rewrite <- (addr_pos w r), Hr0 by (assumption || lia). apply Z.mod_mul. lia. }
        split; [lia|]. intros i Hi.
        replace i with (addr w first + (i - addr w first)) by lia.
        rewrite Hbit; [apply T3|lia|]; unfold addr in *; lia. }
  intros s m1 (-> & Hs). destruct s as [r|f].
  { apply wp_ret. destruct Hs. apply HQ; assumption. }
  destruct Hs as (Hvf & Hf0 & Hfa & Hbefore).
  assert (Hbl : ib f <= ib last) by (apply (base_le w); assumption || lia).
  assert (Hadf : addr w f = ib f * w) by (unfold addr; lia).
  assert (Hfb : ib first <= ib f) by (apply (base_le w); assumption || lia).
  apply Hwords; try lia.
  - intros b Hb. pose proof (mul_mono w (ib f) b ltac:(lia) ltac:(lia)).
    pose proof (mul_mono w (b + 1) (ib last) ltac:(lia) ltac:(lia)).
    apply (mapped_word w m (addr w first) (addr w last)); try assumption;
      unfold addr, valid_it in *; lia.
  - intros Hl0. unfold valid_it in Hl.
    destruct (Z.eq_dec (addr w first) (addr w last)) as [Ee|Ee].
    + destruct (addr_inj w first last) as []; try assumption; try (unfold valid_it; lia).
      auto.
    + apply (mapped_word w m (addr w first) (addr w last)); try assumption;
        unfold addr in *; try lia. 
  - intros r Hr (P1 & P2 & P3). apply HQ; [assumption|].
    split; [lia|]. split; [|assumption].
    intros i Hi. destruct (Z.lt_ge_cases i (addr w f)); [apply Hbefore; lia|].
    apply P2. lia.
Qed.

Lemma finds_words_scalar : forall w m first last bv, valid_w w ->
  valid_it w last -> wf_mem w m -> finds_words w (find_words w) m first last bv.
Proof.
  intros w m first last bv Hw Hl Hwf it0 Q Hi0 Hm Hml HQ.
  pose proof (valid_pos w Hw) as Hwp. unfold find_words.
  assert (Hskip := fun k => skip_bits w bv k ltac:(lia)).
  assert (Hskr := skip_range w bv ltac:(lia)).
  set (skip := if bv then 0 else all_ones w) in *. clearbody skip.
  assert (He : it0 + Z.of_nat (Z.to_nat (ib last - it0)) = ib last) by lia.
  apply wp_bind, wp_words_find; rewrite He; [exact Hm|].
  intros it Hit Hall Hstop.
  pose proof (mul_mono w it0 it ltac:(lia) ltac:(lia)) as Hmm.
  assert (Hbefore : forall i, it0 * w <= i < it * w -> bit w m i = negb bv).
  { intros i Hi. pose proof (word_of w i ltac:(lia)) as Hwi.
    assert (it0 <= i / w < it)
      by (generalize dependent (i / w); intros q Hwi; clear - Hwi Hi Hwp; nia).
    rewrite (bit_word w m (i / w) skip) by (auto; lia). apply Hskip. lia. }
  unfold valid_it in Hl.
  destruct (Z.eqb_spec it (ib last)) as [E|E]; cbn [negb].
  - subst it. destruct (Z.eqb_spec (ip last) 0) as [E1|E1]; cbn [negb].
    + apply wp_ret, HQ; [assumption|]. unfold addr. split; [lia|]. split.
      * intros i Hi. apply Hbefore. lia.
      * lia.
    + apply wp_bind, (wp_load w); try assumption; try lia.
      { apply Hml. assumption. }
      intros x Hx Hbx. apply wp_lift.
      destruct (tz_bv_spec w bv x Hw Hx) as (T1 & T2 & T3).
      unfold mk_iter. destruct (Z.ltb_spec (Z.min (tz_bv w bv x) (ip last)) w); [|lia].
      apply rwp_ok, HQ.
      { unfold valid_it. cbn. lia. }
      unfold addr at 2. cbn [ib ip]. split; [unfold addr; lia|]. split.
      * intros i Hi. destruct (Z.lt_ge_cases i (ib last * w)).
        -- apply Hbefore. lia.
        -- rewrite Hbx by lia. apply T3. lia.
      * intros Hlt. unfold addr in Hlt. rewrite Z.min_l by lia.
        rewrite Hbx by lia.
        replace (ib last * w + tz_bv w bv x - ib last * w) with (tz_bv w bv x) by lia.
        apply T2. lia.
  - pose proof (mul_mono w (it + 1) (ib last) ltac:(lia) ltac:(lia)).
    assert (Hmit : m it <> None) by (apply Hm; lia).
    destruct (dom_some m it Hmit) as [y Hy].
    apply wp_bind, (wp_load w); try assumption; try lia.
    intros x Hx Hbx. apply wp_lift.
    destruct (tz_bv_spec w bv x Hw Hx) as (T1 & T2 & T3).
    assert (Hxs : x <> skip).
    { intros ->. apply Hstop; [lia|]. rewrite Hy. f_equal.
      apply (word_ext w); try lia; [apply (Hwf it), Hy|].
      intros k Hk. pose proof (bit_word w m it y (it * w + k) ltac:(lia) Hy ltac:(lia)) as B1.
      rewrite (Hbx (it * w + k)) in B1 by lia.
      replace (it * w + k - it * w) with k in B1 by lia. congruence. }
    assert (tz_bv w bv x < w).
    { destruct (Z.lt_ge_cases (tz_bv w bv x) w); [assumption|]. exfalso. apply Hxs.
      apply (word_ext w); try lia. intros k Hk. rewrite T3, Hskip by lia. reflexivity. }
    unfold mk_iter. destruct (Z.ltb_spec (tz_bv w bv x) w); [|lia].
    apply rwp_ok, HQ.
    { unfold valid_it. cbn. lia. }
    unfold addr at 2. cbn [ib ip]. split; [unfold addr; lia|]. split.
    + intros i Hi. destruct (Z.lt_ge_cases i (it * w)).
      * apply Hbefore. lia.
      * rewrite Hbx by lia. apply T3. lia.
    + intros _. rewrite Hbx by lia.
      replace (it * w + tz_bv w bv x - it * w) with (tz_bv w bv x) by lia.
      apply T2. lia.
Qed.

Lemma wp_find : forall p w first last bv m (Q : iter -> mem -> Prop),
  valid_w w -> valid_it w first -> valid_it w last -> wf_mem w m ->
  0 <= addr w last - addr w first <= 2 ^ 62 ->
  mapped w m (addr w first) (addr w last) ->
  (ip first <> 0 -> m (ib first) <> None) ->
  (forall r, valid_it w r ->
     first_pos w m (addr w first) (addr w last) bv (addr w r) -> Q r m) ->
  wp (find p w first last bv) m Q.
Proof.
  intros p w first last bv m Q Hw. intros.
  change (find p w first last bv) with (find_with (find_words w) p w first last bv).
  apply wp_find_with; try assumption. apply finds_words_scalar; assumption.
Qed.

(** Equality of two bit ranges of length [n]. *)
Definition same_bits (w : Z) (m : mem) (a b n : Z) : Prop :=
  forall k, 0 <= k < n -> bit w m (a + k) = bit w m (b + k).

Lemma same_bits_split : forall w m a b n k, 0 <= k <= n ->
  same_bits w m a b n <->
  same_bits w m a b k /\ same_bits w m (a + k) (b + k) (n - k).
Proof.
  intros w m a b n k Hk. split.
  - intros H. split; intros j Hj.
    + apply H. lia.
    + rewrite <- !Z.add_assoc. apply H. lia.
  - intros [H1 H2] j Hj. destruct (Z.lt_ge_cases j k).
    + apply H1. lia.
    + specialize (H2 (j - k)). replace (a + k + (j - k)) with (a + j) in H2 by lia.
      replace (b + k + (j - k)) with (b + j) in H2 by lia. apply H2. lia.
Qed.

(** Outcome [r] decides [P]. *)
Definition decides (r : bool) (P : Prop) : Prop := r = true <-> P.

Lemma wp_words_equal : forall w n a b m (Q : bool -> mem -> Prop), 0 < w ->
  wf_mem w m ->
  (forall c, a <= c < a + Z.of_nat n -> m c <> None) ->
  (forall c, b <= c < b + Z.of_nat n -> m c <> None) ->
  (forall r, decides r (same_bits w m (a * w) (b * w) (Z.of_nat n * w)) -> Q r m) ->
  wp (words_equal n a b) m Q.
Proof.
  intros w n. induction n as [|n IH]; intros a b m Q Hw Hwf Ha Hb HQ;
    cbn [words_equal].
  - apply wp_ret, HQ. split; [|reflexivity]. intros _ k Hk. lia.
  - apply wp_bind, (wp_load w); try assumption; [apply Ha; lia|].
    intros x Hx Hbx. apply wp_bind, (wp_load w); try assumption; [apply Hb; lia|].
    intros y Hy Hby.
    assert (Hword : x = y <-> same_bits w m (a * w) (b * w) w).
    { split.
      - intros -> k Hk. rewrite Hbx, Hby by lia. f_equal. lia.
      - intros H. apply (word_ext w); try lia. intros k Hk.
        specialize (H k Hk). rewrite Hbx, Hby in H by lia.
        replace (a * w + k - a * w) with k in H by lia.
        replace (b * w + k - b * w) with k in H by lia. exact H. }
    pose proof (same_bits_split w m (a * w) (b * w) (Z.of_nat (S n) * w) w) as Hsp.
    destruct (Z.eqb_spec x y) as [E|E].
    + apply IH; try assumption.
      * intros c Hc. apply Ha. lia.
      * intros c Hc. apply Hb. lia.
      * intros r Hr. apply HQ. unfold decides in *. rewrite Hr, Hsp by lia.
        replace ((a + 1) * w) with (a * w + w) by lia.
        replace ((b + 1) * w) with (b * w + w) by lia.
        replace (Z.of_nat (S n) * w - w) with (Z.of_nat n * w) by lia.
        rewrite <- Hword. tauto.
    + apply wp_ret, HQ. unfold decides. rewrite Hsp, <- Hword by lia.
      split; [discriminate|]. tauto.
Qed.

(** Comparing [n] bits of two words under a mask. *)
Lemma masked_eq : forall mask x y (lo hi : Z),
  (forall k, 0 <= k -> Z.testbit mask k = inr lo hi k) -> 0 <= lo ->
  (Z.land mask x = Z.land mask y <->
   forall k, lo <= k < hi -> Z.testbit x k = Z.testbit y k).
Proof.
  intros mask x y lo hi Hm Hlo. split.
  - intros H k Hk. assert (E : Z.testbit (Z.land mask x) k = Z.testbit (Z.land mask y) k)
      by (rewrite H; reflexivity).
    rewrite !Z.land_spec, Hm in E by lia. revert E. bsplit. auto.
  - intros H. apply Z.bits_inj'. intros k Hk. rewrite !Z.land_spec, Hm by lia.
    bsplit; try reflexivity. rewrite H by lia. reflexivity.
Qed.

Lemma wp_equal_tail : forall p w it first rem m (Q : bool -> mem -> Prop),
  valid_w w -> valid_it w first -> wf_mem w m -> 0 <= rem < w ->
  mapped w m (addr w first) (addr w first + rem) ->
  mapped w m (it * w) (it * w + rem) ->
  (forall r, decides r (same_bits w m (addr w first) (it * w) rem) -> Q r m) ->
  wp (equal_tail p w it first rem) m Q.
Proof.
  intros p w it first rem m Q Hw Hf Hwf Hr Hms Hmd HQ.
  pose proof (valid_pos w Hw). unfold equal_tail.
  destruct (Z.ltb_spec 0 rem) as [E|E].
  - wpl. rewrite low_mask_eq by (assumption || lia). apply rwp_ok.
    apply wp_bind, wp_get_word; try assumption; try lia.
    intros g Hg Hgb. apply wp_bind, (wp_load w); try assumption; try lia.
    { apply (mapped_word w m (it * w) (it * w + rem)); try assumption; lia. }
    intros x Hx Hbx. apply wp_ret, HQ. unfold decides.
    rewrite Z.eqb_eq, (masked_eq _ _ _ 0 rem); [|intros k Hk; rewrite ones_testbit'; bsplit; lia || reflexivity|lia].
    split.
    + intros H1 k Hk. rewrite <- Hgb by lia. rewrite <- H1 by lia.
      rewrite Hbx by lia. f_equal. lia.
    + intros H1 k Hk. rewrite Hgb, H1 by lia. rewrite Hbx by lia. f_equal. lia.
  - apply wp_ret, HQ. split; [|reflexivity]. intros _ k Hk. lia.
Qed.

Lemma wp_equal_loop : forall p w fuel it first rem m
    (Q : bool * Z * iter * Z -> mem -> Prop),
  valid_w w -> valid_it w first -> wf_mem w m ->
  0 <= rem < w * (Z.of_nat fuel + 1) -> rem <= 2 ^ 62 ->
  mapped w m (addr w first) (addr w first + rem) ->
  mapped w m (it * w) (it * w + rem) ->
  (forall it' first' rem',
     ~ same_bits w m (addr w first) (it * w) rem -> Q (true, it', first', rem') m) ->
  (forall it' first' rem', valid_it w first' -> 0 <= rem' < w ->
     mapped w m (addr w first') (addr w first' + rem') ->
     mapped w m (it' * w) (it' * w + rem') ->
     (same_bits w m (addr w first) (it * w) rem <->
      same_bits w m (addr w first') (it' * w) rem') ->
     Q (false, it', first', rem') m) ->
  wp (equal_loop p w fuel it first rem) m Q.
Proof.
  intros p w fuel. induction fuel as [|fuel IH];
    intros it first rem m Q Hw Hf Hwf Hr Hr2 Hms Hmd HQ1 HQ2;
    pose proof (valid_pos w Hw) as Hwp; cbn [equal_loop];
    destruct (Z.leb_spec w rem) as [E|E].
  - lia.
  - apply wp_ret, HQ2; try assumption; try lia. reflexivity.
  - apply wp_bind, (wp_load w); try assumption; try lia.
    { apply (mapped_word w m (it * w) (it * w + rem)); try assumption; lia. }
    intros x Hx Hbx. apply wp_bind, wp_get_word; try assumption; try lia.
    { eapply mapped_sub; [exact Hms|lia|lia]. }
    intros g Hg Hgb.
    assert (Hword : x = g <-> same_bits w m (addr w first) (it * w) w).
    { split.
      - intros -> k Hk. rewrite <- Hgb, Hbx by lia. f_equal. lia.
      - intros H. apply (word_ext w); try lia. intros k Hk.
        rewrite Hgb, H, Hbx by lia. f_equal. lia. }
    pose proof (same_bits_split w m (addr w first) (it * w) rem w ltac:(lia)) as Hsp.
    destruct (Z.eqb_spec x g) as [E1|E1]; cbn [negb].
    + apply wp_bind, wp_iadd; try assumption; try lia. intros first' Hf' Ha'.
      rewrite usub_small by lia.
      apply IH; try assumption; try lia.
      * eapply mapped_sub; [exact Hms|lia|lia].
      * eapply mapped_sub; [exact Hmd|lia|lia].
      * intros it' f2 rem' Hn. apply HQ1. rewrite Hsp. intros [_ H2]. apply Hn.
        rewrite Ha'. replace ((it + 1) * w) with (it * w + w) by lia. exact H2.
      * intros it' f2 rem' A1 A2 A3 A4 A5. apply HQ2; try assumption.
        rewrite Hsp, <- A5, Ha'. replace ((it + 1) * w) with (it * w + w) by lia.
        tauto.
    + apply wp_ret, HQ1. rewrite Hsp. tauto.
  - apply wp_ret, HQ2; try assumption; try lia. reflexivity.
Qed.

Lemma wp_equal : forall p w first last d m (Q : bool -> mem -> Prop),
  let len := addr w last - addr w first in
  valid_w w -> valid_it w first -> valid_it w last -> valid_it w d ->
  wf_mem w m -> 0 <= len <= 2 ^ 62 ->
  mapped w m (addr w first) (addr w last) ->
  mapped w m (addr w d) (addr w d + len) ->
  (forall r, decides r (same_bits w m (addr w first) (addr w d) len) -> Q r m) ->
  wp (equal p w first last d) m Q.
Proof.
  intros p w first last d m Q len Hw Hf Hl Hd Hwf Hlen Hms Hmd HQ.
  pose proof (valid_pos w Hw) as Hwp. pose proof (prom_ge w Hw) as Hpr.
  unfold equal. apply wp_bind, wp_assert_viable; try assumption; try lia.
  rewrite (ieq_addr w) by (assumption || lia).
  destruct (Z.eqb_spec (addr w first) (addr w last)) as [E|E].
  { apply wp_ret, HQ. split; [|reflexivity]. intros _ k Hk. lia. }
  apply wp_bind, wp_distance; try assumption; try lia. fold len.
  apply wp_bind.
  apply (wp_conseq _ _ _ (fun s m1 => m1 = m /\
    match s with
    | None => ~ same_bits w m (addr w first) (addr w d) len
    | Some (rem, f1, it) =>
        valid_it w f1 /\ addr w f1 + rem = addr w last /\ 0 <= rem <= len /\
        ((rem = 0 /\ same_bits w m (addr w first) (addr w d) len) \/
         (addr w f1 - addr w first = it * w - addr w d /\
         (same_bits w m (addr w first) (addr w d) len <->
         same_bits w m (addr w f1) (it * w) rem)))
    end)).
  { destruct (Z.eqb_spec (ip d) 0) as [E0|E0]; cbn [negb].
    - apply wp_ret. split; [reflexivity|]. split; [assumption|].
      split; [lia|]. split; [lia|]. right.
      assert (Ed : addr w d = ib d * w) by (unfold addr; lia).
      split; [lia|]. rewrite Ed. reflexivity.
    - unfold valid_it in Hd. rewrite usub_small by lia.
      set (part := Z.min len (w - ip d)) in *.
      pose proof (pow_pos part ltac:(lia)).
      assert (2 ^ part < 2 ^ w) by (apply Z.pow_lt_mono_r; lia).
      wpl. rewrite low_mask_eq by (assumption || lia). apply rwp_ok.
      wpl. apply rwp_cshl; try assumption; try lia. intros mk Hmk.
      apply wp_bind, wp_get_word; try assumption; try lia.
      { eapply mapped_sub; [exact Hms|lia|lia]. }
      intros g Hg Hgb. wpl. apply rwp_cshl; try assumption; try lia.
      intros c Hc. apply wp_bind, (wp_load w); try assumption; try lia.
      { apply (mapped_word w m (addr w d) (addr w d + len)); try assumption;
          unfold addr; lia. }
      intros x Hx Hbx.
      assert (Hmask : forall k, 0 <= k ->
        Z.testbit (wrap w mk) k = inr (ip d) (ip d + part) k).
      { intros k Hk. destruct (Z.lt_ge_cases k w).
        - rewrite (shl_testbit w mk (2 ^ part - 1) (ip d)) by (assumption || lia).
          destruct (Z.lt_ge_cases k (ip d)).
          + rewrite Z.testbit_neg_r by lia. bsplit. reflexivity.
          + rewrite ones_testbit' by lia. bsplit; reflexivity.
        - rewrite (testbit_high w) by (try lia; apply wrap_range; lia).
          bsplit. reflexivity. }
      assert (Hpart : Z.land (wrap w mk) x = Z.land (wrap w mk) (wrap w c) <->
        same_bits w m (addr w first) (addr w d) part).
      { rewrite (masked_eq _ _ _ (ip d) (ip d + part)) by (assumption || lia).
        split.
        - intros H1 k Hk. specialize (H1 (ip d + k) ltac:(lia)).
          rewrite (shl_testbit w c g (ip d)) in H1 by (assumption || lia).
          replace (ip d + k - ip d) with k in H1 by lia.
          rewrite <- Hgb, <- H1 by lia. unfold addr. rewrite Hbx by lia.
          f_equal. lia.
        - intros H1 k Hk. rewrite (shl_testbit w c g (ip d)) by (assumption || lia).
          rewrite Hgb, H1 by lia. unfold addr. rewrite Hbx by lia. f_equal. lia. }
      pose proof (same_bits_split w m (addr w first) (addr w d) len part ltac:(lia))
        as Hsp.
      destruct (Z.eqb_spec (Z.land (wrap w mk) x) (Z.land (wrap w mk) (wrap w c)))
        as [E1|E1]; cbn [negb].
      + apply wp_bind, wp_iadd; try assumption; try lia.
        intros f1 Hf1 Ha1. apply wp_ret. split; [reflexivity|].
        rewrite usub_small by lia. split; [assumption|]. split; [lia|].
        split; [lia|]. destruct (Z.lt_ge_cases (w - ip d) len).
        * right. assert (Ed : (ib d + 1) * w = addr w d + part) by (unfold addr; lia).
          split; [lia|]. rewrite Hsp, Ed, Ha1. tauto.
        * left. split; [lia|]. replace len with part by lia. tauto.
      + apply wp_ret. split; [reflexivity|]. rewrite Hsp. tauto. }
  intros [[[rem f1] it]|] m1 (-> & Hst).
  2:{ apply wp_ret, HQ. split; [discriminate|]. contradiction. }
  destruct Hst as (Hf1 & Hrem & Hrl & Hst).
  destruct (Z.ltb_spec 0 rem) as [E1|E1].
  2:{ apply wp_ret, HQ. split; [|reflexivity]. intros _.
      destruct Hst as [[_ H]|[_ H]]; [assumption|]. apply H. intros k Hk. lia. }
  destruct Hst as [[H _]|[Hdel Hiff]]; [lia|].
  assert (HQ' : forall r, decides r (same_bits w m (addr w f1) (it * w) rem) -> Q r m).
  { intros r Hr. apply HQ. unfold decides. rewrite Hiff. exact Hr. }
  assert (Hms1 : mapped w m (addr w f1) (addr w f1 + rem))
    by (eapply mapped_sub; [exact Hms|lia|lia]).
  assert (Hmd1 : mapped w m (it * w) (it * w + rem))
    by (eapply mapped_sub; [exact Hmd|lia|lia]).
  destruct ((ip f1 =? 0) && (w <=? rem)) eqn:E2.
  - assert (Hn : ib f1 <= ib last) by (apply (base_le w); assumption || lia).
    pose proof (mul_mono w (ib f1) (ib last) ltac:(lia) ltac:(lia)) as Hn2.
    assert (Hal : addr w f1 = ib f1 * w) by (unfold addr; lia).
    assert (Hpl : ib last * w <= addr w last < ib last * w + w)
      by (unfold addr, valid_it in *; lia).
    apply wp_bind, (wp_words_equal w); try assumption; try lia.
    { intros b Hb. pose proof (mul_mono w (ib f1) b ltac:(lia) ltac:(lia)).
      pose proof (mul_mono w (b + 1) (ib last) ltac:(lia) ltac:(lia)).
      apply (mapped_word w m (addr w first) (addr w last)); try assumption; lia. }
    { intros b Hb. pose proof (mul_mono w it b ltac:(lia) ltac:(lia)).
      pose proof (mul_mono w (b + 1) (it + (ib last - ib f1)) ltac:(lia) ltac:(lia)).
      apply (mapped_word w m (it * w) (it * w + rem)); try assumption; lia. }
    replace (Z.of_nat (Z.to_nat (ib last - ib f1))) with (ib last - ib f1) by lia.
    intros r Hr.
    pose proof (same_bits_split w m (addr w f1) (it * w) rem
      ((ib last - ib f1) * w) ltac:(lia)) as Hsp.
    rewrite <- Hal in Hr. unfold decides in Hr.
    destruct r; cbn [negb].
    + wpl. apply rwp_iadd; try assumption; try lia. intros f2 Hf2 Ha2.
      rewrite usub_small by lia.
      replace (w * (ib last - ib f1)) with ((ib last - ib f1) * w) in * by lia.
      apply wp_equal_tail; try assumption; try lia.
      * eapply mapped_sub; [exact Hms1|lia|lia].
      * eapply mapped_sub; [exact Hmd1|lia|lia].
      * intros r Hr2. apply HQ'. unfold decides in *. rewrite Hr2, Hsp, Ha2.
        replace ((it + (ib last - ib f1)) * w) with (it * w + (ib last - ib f1) * w) by lia.
        tauto.
    + apply wp_ret, HQ'. unfold decides. rewrite Hsp, <- Hr. split; [discriminate|].
      intros [H _]. exact H.
  - apply wp_bind, wp_equal_loop; try assumption; try lia.
    + intros it' f2 rem' Hn. apply wp_ret, HQ'. split; [discriminate|]. contradiction.
    + intros it' f2 rem' A1 A2 A3 A4 A5. apply wp_equal_tail; try assumption.
      intros r Hr. apply HQ'. unfold decides in *. rewrite Hr, A5. reflexivity.
Qed.
