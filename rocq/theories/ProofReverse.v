(** Proofs about reverse (reverse.hpp). *)
From Coq Require Import ZArith Bool List Lia.
From Coq Require Import ZifyBool.
From Verif Require Import Base WordOps IterModel AlgModel ShiftModel ReverseModel Spec
  ProofBase ProofIter ProofWord ProofAlg1 ProofTransform ProofShift ProofBitswap HwyAlgModel ProofWith.
Import ListNotations.
Open Scope Z_scope.
Ltac Zify.zify_post_hook ::= Z.div_mod_to_equations.

Lemma wp_load_some : forall a x m (Q : Z -> mem -> Prop), m a = Some x -> Q x m ->
  wp (load a) m Q.
Proof. intros a x m Q H HQ. unfold wp, load. rewrite H. exact HQ. Qed.

Lemma wp_store_some : forall a v m (Q : unit -> mem -> Prop), m a <> None ->
  Q tt (mset m a v) -> wp (store a v) m Q.
Proof.
  intros a v m Q H HQ. unfold wp, store. destruct (m a); [exact HQ|congruence].
Qed.

Lemma wp_words_reverse_loop : forall n lo hi m (Q : unit -> mem -> Prop),
  lo + Z.of_nat n <= hi - Z.of_nat n + 1 ->
  (forall b, lo <= b <= hi -> m b <> None) ->
  (forall m', (forall b, m' b =
     if inr lo (lo + Z.of_nat n) b || inr (hi - Z.of_nat n + 1) (hi + 1) b
     then m (lo + hi - b) else m b) -> Q tt m') ->
  wp (words_reverse_loop n lo hi) m Q.
Proof.
  induction n as [|n IH]; intros lo hi m Q Hn Hm HQ.
  { apply wp_ret, HQ. intros b. bsplit; reflexivity. }
  cbn [words_reverse_loop].
  assert (Hlo : m lo <> None) by (apply Hm; lia).
  assert (Hhi : m hi <> None) by (apply Hm; lia).
  destruct (dom_some m lo Hlo) as [x Hx]. destruct (dom_some m hi Hhi) as [y Hy].
  apply wp_bind, (wp_load_some _ x); [assumption|].
  apply wp_bind, (wp_load_some _ y); [assumption|].
  apply wp_bind, wp_store_some; [assumption|].
  apply wp_bind, wp_store_some.
  { unfold mset. destruct (hi =? lo); [discriminate|assumption]. }
  apply IH; [lia| |].
  { intros b Hb. unfold mset. destruct (b =? hi); [discriminate|].
    destruct (b =? lo); [discriminate|]. apply Hm. lia. }
  intros m' Hm'. apply HQ. intros b. rewrite Hm'. unfold mset.
  replace (lo + 1 + (hi - 1) - b) with (lo + hi - b) by lia.
  destruct (Z.eq_dec b lo) as [->|Nl]; [|destruct (Z.eq_dec b hi) as [->|Nh]].
  - replace (lo + hi - lo) with hi by lia. rewrite Hy. bsplit;
      destruct (Z.eqb_spec lo hi); destruct (Z.eqb_spec lo lo); try lia; congruence.
  - replace (lo + hi - hi) with lo by lia. rewrite Hx. bsplit;
      destruct (Z.eqb_spec hi hi); try lia; congruence.
  - bsplit; try reflexivity;
      destruct (Z.eqb_spec b hi); destruct (Z.eqb_spec b lo);
      destruct (Z.eqb_spec (lo + hi - b) hi); destruct (Z.eqb_spec (lo + hi - b) lo);
      try lia; reflexivity.
Qed.

Lemma wp_words_reverse : forall a e m (Q : unit -> mem -> Prop), a <= e ->
  (forall b, a <= b < e -> m b <> None) ->
  (forall m', (forall b, m' b = if inr a e b then m (a + e - 1 - b) else m b) ->
     Q tt m') ->
  wp (words_reverse a e) m Q.
Proof.
  intros a e m Q Hae Hm HQ. unfold words_reverse.
  apply wp_words_reverse_loop.
  - rewrite Z2Nat.id by lia. lia.
  - intros b Hb. apply Hm. lia.
  - rewrite Z2Nat.id by lia. intros m' H. apply HQ. intros b. rewrite H.
    replace (a + (e - 1) - b) with (a + e - 1 - b) by lia.
    set (h := (e - a) / 2) in *. assert (2 * h <= e - a < 2 * h + 2) by (unfold h; lia).
    clearbody h. bsplit; try reflexivity. f_equal. lia.
Qed.

Lemma wp_words_bitswap : forall p w n a m (Q : unit -> mem -> Prop), valid_w w ->
  wf_mem w m -> (forall b, a <= b < a + Z.of_nat n -> m b <> None) ->
  (forall m', wf_mem w m' -> same_dom m m' ->
     (forall b, inr a (a + Z.of_nat n) b = false -> m' b = m b) ->
     (forall b k, a <= b < a + Z.of_nat n -> 0 <= k < w ->
        bit w m' (b * w + k) = bit w m (b * w + (w - 1 - k))) -> Q tt m') ->
  wp (words_bitswap p w n a) m Q.
Proof.
  intros p w. induction n as [|n IH]; intros a m Q Hw Hwf Hm HQ.
  { apply wp_ret, HQ; try assumption; [apply same_dom_refl|reflexivity|].
    intros b k Hb. lia. }
  pose proof (valid_pos w Hw) as Hwp. cbn [words_bitswap].
  assert (Ha : m a <> None) by (apply Hm; lia).
  destruct (dom_some m a Ha) as [x Hx].
  apply wp_bind, (wp_load_some _ x); [assumption|].
  assert (Hxr : 0 <= x < 2 ^ w) by (eapply Hwf, Hx).
  wpl. apply rwp_bitswap; try assumption. intros r Hr Hrb.
  apply wp_bind, wp_store_some; [assumption|].
  assert (Hwf1 : wf_mem w (mset m a r)).
  { intros b v. unfold mset. destruct (Z.eqb_spec b a); [intros [= <-]; assumption|apply Hwf]. }
  assert (Hd1 : same_dom m (mset m a r)).
  { intros b. unfold mset. destruct (Z.eqb_spec b a) as [->|]; [|tauto].
    split; [congruence|discriminate]. }
  apply IH; try assumption.
  { intros b Hb Hn. apply (Hm b); [lia|]. apply Hd1, Hn. }
  intros m' W D O B. apply HQ; try assumption.
  - eapply same_dom_trans; eassumption.
  - intros b Hb. rewrite O by (unfold inr in *; lia). unfold mset.
    destruct (Z.eqb_spec b a); [unfold inr in Hb; lia|reflexivity].
  - intros b k Hb Hk.
    destruct (Z.eq_dec b a) as [->|Nb].
    + rewrite (bit_word w m' a r) by (try (rewrite O by (unfold inr; lia);
        unfold mset; rewrite Z.eqb_refl; reflexivity); lia).
      rewrite (bit_word w m a x) by (assumption || lia).
      replace (a * w + k - a * w) with k by lia. rewrite Hrb by lia. f_equal. lia.
    + rewrite B by lia. rewrite bit_mset by lia.
      assert (Hab : (a + 1) * w <= b * w) by (apply mul_mono; lia).
      unfold inr. destruct (Z.leb_spec (a * w) (b * w + (w - 1 - k)));
        destruct (Z.ltb_spec (b * w + (w - 1 - k)) (a * w + w)); try lia; reflexivity.
Qed.

(** Reversing the words and the bits in each word. *)
Lemma wp_reverse_words : forall p w a e m (Q : unit -> mem -> Prop), valid_w w ->
  wf_mem w m -> a <= e -> (forall b, a <= b < e -> m b <> None) ->
  (forall m', updated w m m' (a * w) (e * w)
     (fun i => bit w m ((a + e) * w - 1 - i)) -> Q tt m') ->
  wp (words_reverse a e ;; words_bitswap p w (Z.to_nat (e - a)) a) m Q.
Proof.
  intros p w a e m Q Hw Hwf Hae Hm HQ. pose proof (valid_pos w Hw) as Hwp.
  apply wp_bind, wp_words_reverse; try assumption. intros m1 H1.
  assert (Hd1 : same_dom m m1).
  { intros b. rewrite H1. unfold inr. destruct (Z.leb_spec a b);
      destruct (Z.ltb_spec b e); cbn [andb]; try tauto.
    split; intros Hn; exfalso; [apply (Hm b)|apply (Hm (a + e - 1 - b))]; try lia; assumption. }
  assert (Hwf1 : wf_mem w m1).
  { intros b x. rewrite H1. destruct (inr a e b); apply Hwf. }
  apply wp_words_bitswap; try assumption.
  { intros b Hb Hn. apply (Hm b); [lia|]. apply Hd1, Hn. }
  replace (a + Z.of_nat (Z.to_nat (e - a))) with e by lia.
  intros m2 W D O B. apply HQ.
  split; [assumption|]. split; [eapply same_dom_trans; eassumption|].
  intros i. pose proof (word_of w i ltac:(lia)) as Hi. set (b := i / w) in *.
  destruct (inr a e b) eqn:Eb.
  - unfold inr in Eb.
    pose proof (mul_mono w a b ltac:(lia) ltac:(lia)).
    pose proof (mul_mono w (b + 1) e ltac:(lia) ltac:(lia)).
    destruct (inr (a * w) (e * w) i) eqn:Ei; [|unfold inr in Ei; lia].
    replace i with (b * w + (i - b * w)) at 1 by lia.
    rewrite B by lia.
    assert (Hb : m b <> None) by (apply Hm; lia).
    assert (Hb' : m (a + e - 1 - b) <> None) by (apply Hm; lia).
    destruct (dom_some _ _ Hb') as [x Hx].
    assert (Hm1b : m1 b = Some x).
    { rewrite H1. destruct (inr a e b) eqn:E; [assumption|unfold inr in E; lia]. }
    rewrite (bit_word w m1 b x) by (assumption || lia).
    rewrite (bit_word w m (a + e - 1 - b) x) by (assumption || lia).
    f_equal. lia.
  - assert (Ei : inr (a * w) (e * w) i = false).
    { unfold inr in Eb |- *. destruct (Z.lt_ge_cases b a).
      - pose proof (mul_mono w (b + 1) a ltac:(lia) ltac:(lia)). lia.
      - pose proof (mul_mono w e b ltac:(lia) ltac:(lia)). lia. }
    rewrite Ei. unfold bit. fold b. rewrite O by assumption. rewrite H1, Eb. reflexivity.
Qed.

Lemma wp_assoc : forall A B C (c : M A) (f : A -> M B) (g : B -> M C) m
    (Q : C -> mem -> Prop),
  wp (bind (bind c f) g) m Q -> wp (bind c (fun x => bind (f x) g)) m Q.
Proof.
  intros A B C c f g m Q. unfold wp, bind. destruct (c m) as [[a m1]| | | |]; auto.
Qed.

Lemma updated_restore_left : forall w m m1 m2 lo mid hi g, lo <= mid -> mid <= hi ->
  updated w m m1 lo hi g -> updated w m1 m2 lo mid (fun i => bit w m i) ->
  updated w m m2 mid hi g.
Proof.
  intros w m m1 m2 lo mid hi g H1 H2 (A1 & A2 & A3) (B1 & B2 & B3).
  split; [assumption|]. split; [eapply same_dom_trans; eassumption|].
  intros i. rewrite B3, A3. bsplit; reflexivity.
Qed.

Lemma updated_restore_right : forall w m m1 m2 lo mid hi g, lo <= mid -> mid <= hi ->
  updated w m m1 lo hi g -> updated w m1 m2 mid hi (fun i => bit w m i) ->
  updated w m m2 lo mid g.
Proof.
  intros w m m1 m2 lo mid hi g H1 H2 (A1 & A2 & A3) (B1 & B2 & B3).
  split; [assumption|]. split; [eapply same_dom_trans; eassumption|].
  intros i. rewrite B3, A3. bsplit; reflexivity.
Qed.

Lemma updated_none : forall w m m' lo hi f a, updated w m m' lo hi f ->
  m a <> None -> m' a <> None.
Proof. intros w m m' lo hi f a (_ & H & _) Ha Hn. apply Ha, H, Hn. Qed.

Lemma wp_reverse_shift_with : forall sl sr p w first last e m m1 (Q : unit -> mem -> Prop),
  good_left p w sl -> good_right m (ib first * w) (addr w last + w) p w sr ->
  let a := ib first in let F := addr w first in let L := addr w last in
  valid_w w -> valid_it w first -> valid_it w last -> a < e ->
  (ip last = 0 /\ e = ib last \/ ip last <> 0 /\ e = ib last + 1) ->
  (ip last = 0 \/ ib last <> a) ->
  F <= L -> L - F + 2 * w <= 2 ^ 62 ->
  (forall b, a <= b < e -> m b <> None) ->
  (ip first = 0 \/ ip last <> 0 \/ ib last - ib first <> 1 \/ full_blend_defined p w) ->
  updated w m m1 (a * w) (e * w) (fun i => bit w m ((a + e) * w - 1 - i)) ->
  (forall m2 g, updated w m m2 (a * w) (e * w) g ->
     (forall i, F <= i < L -> g i = bit w m (F + L - 1 - i)) -> Q tt m2) ->
  wp (reverse_shift_with sl sr p w first last (e * w - L) e) m1 Q.
Proof.
  intros sl sr p w first last e m m1 Q GL GR a F L Hw Hf Hl Hae He Hmulti HFL Hmax Hm Hg U1 HQ.
  pose proof (valid_pos w Hw) as Hwp.
  unfold reverse_shift_with. set (gap := e * w - L).
  assert (HF : F = a * w + ip first) by reflexivity.
  assert (HL : L = ib last * w + ip last) by reflexivity.
  pose proof Hf as Hf'. pose proof Hl as Hl'. unfold valid_it in Hf', Hl'.
  assert (Hgap : 0 <= gap < w).
  { unfold gap. destruct He as [[E1 E2]|[E1 E2]]; rewrite E2; lia. }
  assert (Hew : (a + 1) * w <= e * w) by (apply mul_mono; lia).
  assert (HL2 : L = e * w - gap) by (unfold gap; lia).
  assert (Hm1 : forall b, a <= b < e -> m1 b <> None).
  { intros b Hb. eapply updated_none; [exact U1|]. apply Hm, Hb. }
  assert (Hwf1 : wf_mem w m1) by (eapply updated_wf, U1).
  assert (Hmap : mapped w m1 (a * w) (e * w)).
  { intros i Hi. apply Hm1. split; [apply Z.div_le_lower_bound; lia|].
    apply Z.div_lt_upper_bound; lia. }
  clearbody gap.
  destruct (Z.ltb_spec (ip first) gap) as [C|C].
  - assert (Hp : ip last <> 0 /\ e = ib last + 1).
    { destruct He as [[E1 E2]|E2]; [|exact E2]. rewrite E2 in HL2. lia. }
    destruct Hp as (Hp1 & Hp2). rewrite <- Hp2.
    assert (2 * w <= e * w - a * w).
    { destruct Hmulti as [?|Hmu]; [lia|].
      pose proof (mul_mono w (a + 2) e ltac:(lia)). lia. }
    apply wp_bind, GL; try assumption; unfold addr; cbn [ib ip];
      try (unfold valid_it; cbn [ip]; lia); rewrite ?Z.add_0_r; fold a; try lia; try assumption.
    intros r m2 Hr Har (g & U2 & Hg2 & _). rewrite ?Z.add_0_r in U2, Hg2.
    apply wp_ret. apply (HQ m2 g).
    + destruct U1 as (A1 & A2 & A3). destruct U2 as (B1 & B2 & B3).
      split; [assumption|]. split; [eapply same_dom_trans; eassumption|].
      intros i. rewrite B3, A3. bsplit; reflexivity.
    + intros i Hi. rewrite Hg2 by lia. destruct U1 as (A1 & A2 & A3). rewrite A3.
      bsplit. f_equal. lia.
  - destruct (Z.ltb_spec gap (ip first)) as [C1|C1].
    + assert (Hd1 : same_dom m m1) by apply U1. fold a L in GR.
      apply wp_bind, GR; try assumption; unfold addr; cbn [ib ip];
        try (unfold valid_it; cbn [ip]; lia); rewrite ?Z.add_0_r; fold a; try lia; try assumption.
      { right. right. destruct He as [[E1 E2]|[E1 E2]].
        - destruct Hg as [G|[G|[G|G]]]; [lia|lia|left; lia|right; assumption].
        - left. destruct Hmulti as [?|Hmu]; [lia|]. lia. }
      intros r m2 Hr Har (g & U2 & Hg2 & _). rewrite ?Z.add_0_r in U2, Hg2.
      apply wp_ret. apply (HQ m2 g).
      * destruct U1 as (A1 & A2 & A3). destruct U2 as (B1 & B2 & B3).
        split; [assumption|]. split; [eapply same_dom_trans; eassumption|].
        intros i. rewrite B3, A3. bsplit; reflexivity.
      * intros i Hi. rewrite Hg2 by lia. destruct U1 as (A1 & A2 & A3). rewrite A3.
        bsplit. f_equal. lia.
    + apply wp_ret. eapply HQ; [exact U1|]. intros i Hi. cbv beta. f_equal. lia.
Qed.

Lemma wp_reverse_with : forall sl sr p w first last m (Q : unit -> mem -> Prop),
  good_left p w sl -> good_right m (ib first * w) (addr w last + w) p w sr ->
  let F := addr w first in let L := addr w last in
  valid_w w -> valid_it w first -> valid_it w last -> wf_mem w m ->
  F <= L -> L - F + 2 * w <= 2 ^ 62 ->
  mapped w m F L ->
  (F = L -> ip first = 0 \/ m (ib first) <> None) ->
  (ip first = 0 \/ ip last <> 0 \/ ib last - ib first <> 1 \/ full_blend_defined p w) ->
  (forall m', updated w m m' F L (fun i => bit w m (F + L - 1 - i)) -> Q tt m') ->
  wp (reverse_with sl sr p w first last) m Q.
Proof.
  intros sl sr p w first last m Q GL GR F L Hw Hf Hl Hwf HFL Hmax Hm Hemp Hg HQ.
  pose proof (valid_pos w Hw) as Hwp. pose proof (prom_ge w Hw) as Hpr.
  assert (HF : F = ib first * w + ip first) by reflexivity.
  assert (HL : L = ib last * w + ip last) by reflexivity.
  pose proof Hf as Hf'. pose proof Hl as Hl'. unfold valid_it in Hf', Hl'.
  pose proof (base_le w first last Hf Hl HFL) as Hib.
  unfold reverse_with. apply wp_bind, wp_assert_viable; try assumption; [fold F L; lia|].
  destruct ((ip first =? 0) && (ip last =? 0)) eqn:E12.
  { (* both aligned *)
    assert (E1 : ip first = 0) by lia. assert (E2 : ip last = 0) by lia.
    apply wp_reverse_words; try assumption.
    { intros b Hb. pose proof (mul_mono w (b + 1) (ib last)). pose proof (mul_mono w (ib first) b).
      eapply mapped_word; [|exact Hm|..]; lia. }
    intros m' U. apply HQ. rewrite HF, HL, E1, E2, !Z.add_0_r.
    eapply updated_ext; [exact U|]. intros i Hi. cbv beta. f_equal. lia. }
  destruct (Z.eqb_spec (ib first) (ib last)) as [E3|E3]; cbn [negb].
  { (* one word *)
    assert (E2 : 0 < ip last).
    { destruct (Z.eq_dec (ip last) 0); [|lia]. rewrite E3 in HF. lia. }
    destruct (Z.eqb_spec (ip last) 0) as [|_]; [lia|]. cbn [negb b2z].
    rewrite Z.mul_1_r. rewrite <- E3 in HL. rewrite !usub_small by lia.
    assert (Ha : m (ib first) <> None).
    { destruct (Z.eq_dec F L) as [Ee|Ee].
      - destruct (Hemp Ee) as [H|H]; [|exact H]. lia.
      - eapply mapped_word; [|exact Hm|..]; lia. }
    apply wp_bind, (wp_load w); try assumption; [lia|]. intros x Hx Hbx.
    wpl. apply rwp_cshr; [lia|].
    rewrite wrap_small by (apply shiftr_range; lia).
    wpl. apply rwp_bitswap; try assumption; [apply shiftr_range; lia|].
    intros r Hr Hrb. wpl. apply rwp_cshr; [lia|].
    rewrite wrap_small by (apply shiftr_range; lia).
    wpl. apply rwp_bitblend; try assumption; try lia; [apply shiftr_range; lia|].
    intros v Hv Hvb.
    apply (wp_store_part w _ _ _ F L (fun i => bit w m (F + L - 1 - i)));
      try assumption; try lia.
    { intros k Hk. rewrite Hvb by lia.
      assert (Ei : inr F L (ib first * w + k) =
                   inr (ip first) (ip first + (ip last - ip first)) k)
        by (unfold inr; lia).
      rewrite Ei. destruct (inr (ip first) (ip first + (ip last - ip first)) k) eqn:Ek;
        unfold inr in Ek.
      - rewrite Z.shiftr_spec by lia. rewrite Hrb by lia.
        rewrite Z.shiftr_spec by lia. rewrite Hbx by lia. f_equal. lia.
      - rewrite Hbx by lia. f_equal. lia. }
  }
  (* several words *)
  set (a := ib first) in *.
  set (e := ib last + b2z (negb (ip last =? 0))).
  assert (He : ip last = 0 /\ e = ib last \/ ip last <> 0 /\ e = ib last + 1).
  { unfold e. destruct (Z.eqb_spec (ip last) 0); cbn [negb b2z]; [left|right]; lia. }
  assert (Hgap : usub w (ip last) * b2z (negb (ip last =? 0)) = e * w - L).
  { rewrite usub_small by lia. unfold e. destruct (Z.eqb_spec (ip last) 0);
      cbn [negb b2z]; lia. }
  rewrite Hgap.
  assert (Hle : ib last - b2z (ip last =? 0) = e - 1).
  { unfold e. destruct (Z.eqb_spec (ip last) 0); cbn [negb b2z]; lia. }
  rewrite Hle.
  assert (Hea : a < e) by lia. clearbody e.
  assert (Hle2 : L <= e * w < L + w).
  { destruct He as [[A B]|[A B]]; rewrite B; lia. }
  assert (Hma : forall b, a <= b < e -> m b <> None).
  { intros b Hb. pose proof (mul_mono w (a + 1) (b + 1) ltac:(lia) ltac:(lia)).
    pose proof (mul_mono w (b + 1) e ltac:(lia) ltac:(lia)).
    assert (F < L).
    { pose proof (mul_mono w (a + 1) (ib last) ltac:(lia) ltac:(lia)).
      destruct (Z.eq_dec F L); [|lia]. lia. }
    eapply mapped_word; [|exact Hm|..]; lia. }
  apply wp_bind, (wp_load w); try assumption; try lia; try (apply Hma; lia).
  intros x0 Hx0 Hbx0.
  apply wp_bind, (wp_load w); try assumption; try lia; try (apply Hma; lia).
  intros x1 Hx1 Hbx1.
  apply wp_assoc. apply wp_bind.
  apply wp_reverse_words; try assumption; try lia.
  intros m1 U1. apply wp_bind. apply (wp_reverse_shift_with sl sr p w first last e m);
    try assumption; try lia; fold a.
  intros m2 g U2 Hg2. fold F L in Hg2.
  assert (Haew : (a + 1) * w <= e * w) by (apply mul_mono; lia).
  apply wp_bind. apply (wp_conseq _ _ _ (fun _ m3 => updated w m m3 F (e * w) g)).
  { destruct (Z.eqb_spec (ip first) 0) as [E1|E1]; cbn [negb].
    - apply wp_ret. rewrite HF, E1, Z.add_0_r. exact U2.
    - rewrite usub_small by lia.
      assert (Ha2 : m2 a <> None) by (eapply updated_none; [exact U2|]; apply Hma; lia).
      assert (Hwf2 : wf_mem w m2) by (eapply updated_wf, U2).
      apply wp_bind, (wp_load w); try assumption; try lia. intros y Hy Hby.
      wpl. apply rwp_bitblend; try assumption; try lia.
      intros v Hv Hvb.
      apply (wp_store_part w _ _ _ (a * w) F (fun i => bit w m i)); try assumption; try lia.
      + intros k Hk. rewrite Hvb by lia. bsplit;
          try (rewrite Hby by lia; f_equal; lia); try (rewrite Hbx0 by lia; f_equal; lia).
      + intros m3 U3. eapply updated_restore_left; [| |exact U2|exact U3]; lia. }
  intros _ m3 U3.
  assert (Hend : updated w m m3 F (e * w) g ->
     (e * w = L) -> Q tt m3).
  { intros U Ee. apply HQ. rewrite Ee in U. eapply updated_ext; [exact U|].
    intros i Hi. apply Hg2, Hi. }
  destruct (Z.eqb_spec (ip last) 0) as [E2|E2]; cbn [negb].
  { apply wp_ret, Hend; [exact U3|]. destruct He as [[A B]|[A B]]; [rewrite B|]; lia. }
  destruct He as [[A _]|[_ He]]; [lia|]. rewrite usub_small by lia.
  assert (Hew : e * w = ib last * w + w) by (rewrite He; lia).
  assert (Ha3 : m3 (ib last) <> None) by (eapply updated_none; [exact U3|]; apply Hma; lia).
  assert (Hwf3 : wf_mem w m3) by (eapply updated_wf, U3).
  apply wp_bind, (wp_load w); try assumption; try lia. intros y Hy Hby.
  wpl. apply rwp_bitblend; try assumption; try lia. intros v Hv Hvb.
  replace (e - 1) with (ib last) in Hbx1 by lia.
  apply (wp_store_part w _ _ _ L (e * w) (fun i => bit w m i)); try assumption; try lia.
  - intros k Hk. rewrite Hvb by lia. bsplit;
      try (rewrite Hby by lia; f_equal; lia); try (rewrite Hbx1 by lia; f_equal; lia).
  - intros m4 U4. apply HQ. eapply updated_ext;
      [eapply updated_restore_right; [| |exact U3|exact U4]; lia|].
    intros i Hi. apply Hg2, Hi.
Qed.

Lemma wp_reverse : forall p w first last m (Q : unit -> mem -> Prop),
  let F := addr w first in let L := addr w last in
  valid_w w -> valid_it w first -> valid_it w last -> wf_mem w m ->
  F <= L -> L - F + 2 * w <= 2 ^ 62 ->
  mapped w m F L ->
  (F = L -> ip first = 0 \/ m (ib first) <> None) ->
  (ip first = 0 \/ ip last <> 0 \/ ib last - ib first <> 1 \/ full_blend_defined p w) ->
  (forall m', updated w m m' F L (fun i => bit w m (F + L - 1 - i)) -> Q tt m') ->
  wp (reverse p w first last) m Q.
Proof.
  intros p w first last m Q. rewrite <- reverse_with_scalar.
  apply wp_reverse_with; [apply good_left_scalar|apply good_right_scalar].
Qed.

Lemma reverse_with_ok : forall sl sr p w m first last,
  good_left p w sl -> good_right m (ib first * w) (addr w last + w) p w sr ->
  valid_w w -> wf_mem w m -> good_range w m first last ->
  addr w last - addr w first + 2 * w <= max_bits ->
  (addr w first = addr w last -> ip first = 0 \/ m (ib first) <> None) ->
  (ip first = 0 \/ ip last <> 0 \/ ib last - ib first <> 1 \/ full_blend_defined p w) ->
  exists m', reverse_with sl sr p w first last m = Ok (tt, m') /\
    updated w m m' (addr w first) (addr w last)
      (fun i => bit w m (addr w last - 1 - (i - addr w first))).
Proof.
  intros sl sr p w m first last GL GR Hw Hwf (Hf & Hl & Hd & Hm) Hmax Hemp Hg.
  assert (H : wp (reverse_with sl sr p w first last) m (fun _ m' =>
    updated w m m' (addr w first) (addr w last)
      (fun i => bit w m (addr w last - 1 - (i - addr w first))))).
  { apply wp_reverse_with; try assumption; try (unfold max_bits in *; lia).
    intros m' U. eapply updated_ext; [exact U|]. intros i Hi. cbv beta. f_equal. lia. }
  apply wp_exists in H. destruct H as ([] & m' & H1 & H2). exists m'. split; assumption.
Qed.

Lemma reverse_ok : forall p w m first last,
  valid_w w -> wf_mem w m -> good_range w m first last ->
  addr w last - addr w first + 2 * w <= max_bits ->
  (addr w first = addr w last -> ip first = 0 \/ m (ib first) <> None) ->
  (ip first = 0 \/ ip last <> 0 \/ ib last - ib first <> 1 \/ full_blend_defined p w) ->
  exists m', reverse p w first last m = Ok (tt, m') /\
    updated w m m' (addr w first) (addr w last)
      (fun i => bit w m (addr w last - 1 - (i - addr w first))).
Proof.
  intros p w m first last. rewrite <- reverse_with_scalar.
  apply reverse_with_ok; [apply good_left_scalar|apply good_right_scalar].
Qed.

Lemma reverse_hw : forall o w m first last,
  valid_w w -> wf_mem w m -> good_range w m first last ->
  addr w last - addr w first + 2 * w <= max_bits ->
  (addr w first = addr w last -> ip first = 0 \/ m (ib first) <> None) ->
  exists m', reverse (Hw o) w first last m = Ok (tt, m') /\
    updated w m m' (addr w first) (addr w last)
      (fun i => bit w m (addr w last - 1 - (i - addr w first))).
Proof.
  intros. apply reverse_ok; try assumption. right. right. right. exact I.
Qed.

Lemma reverse_twice : forall o w m first last,
  valid_w w -> wf_mem w m -> good_range w m first last ->
  addr w last - addr w first + 2 * w <= max_bits ->
  (addr w first = addr w last -> ip first = 0 \/ m (ib first) <> None) ->
  exists m' m'', reverse (Hw o) w first last m = Ok (tt, m') /\
    reverse (Hw o) w first last m' = Ok (tt, m'') /\
    forall i, bit w m'' i = bit w m i.
Proof.
  intros o w m first last Hw Hwf Hr Hmax Hemp.
  destruct (reverse_hw o w m first last Hw Hwf Hr Hmax Hemp) as (m' & E & U).
  assert (Hr' : good_range w m' first last).
  { destruct Hr as (R1 & R2 & R3 & R4). repeat (split; [assumption|]).
    eapply mapped_dom; [exact R4|apply U]. }
  destruct (reverse_hw o w m' first last Hw (proj1 U) Hr' Hmax) as (m'' & E' & U').
  { intros Hx. destruct (Hemp Hx) as [H|H]; [left; exact H|right].
    intros Hn. apply H, U, Hn. }
  exists m', m''. split; [assumption|]. split; [assumption|].
  destruct U as (_ & _ & B). destruct U' as (_ & _ & B').
  intros i. rewrite B', !B.
  replace (addr w last - 1 - (addr w last - 1 - (i - addr w first) - addr w first))
    with i by lia.
  bsplit; reflexivity.
Qed.

(** Outside the guard the behaviour is undefined: the shift by the full width
    in _bitblend (bit_details.hpp:758-759), reached through shift_right. *)
Lemma bitblend_full_ub : forall p w x y, valid_w w -> ~ full_blend_defined p w ->
  exists k, bitblend p w x y 0 w = UB k.
Proof.
  intros p w x y Hw Hg. unfold bitblend.
  destruct Hw as [->|[->|[->|[->| ->]]]]; destruct p as [| |o]; cbn in Hg; try lia;
    try (exfalso; apply Hg; exact I); eexists; reflexivity.
Qed.
