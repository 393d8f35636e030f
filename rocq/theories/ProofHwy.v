(** Proofs about the BITLIB_HWY builds of fill, find, transform and the shifts:
    the vector stages do what the scalar stages do. *)
From Coq Require Import ZArith Bool List Lia.
From Coq Require Import ZifyBool.
From Verif Require Import Base WordOps IterModel AlgModel ShiftModel TransformModel
  HwyModel Spec SpecHwy ProofBase ProofIter ProofWord ProofCnt ProofAlg1 ProofCopy
  ProofAlg2 ProofTransform ProofShift.
Import ListNotations.
Open Scope Z_scope.
Ltac Zify.zify_post_hook ::= idtac.

Lemma dom_updated : forall w m m' lo hi f a, updated w m m' lo hi f ->
  m a <> None -> m' a <> None.
Proof. intros w m m' lo hi f a (_ & Hd & _) H Hn. apply H, Hd, Hn. Qed.

(** ** Alignment *)

Lemma vector_aligned_64 : forall h w a, valid_w w -> vector_fits h w ->
  byte_addr h w a mod 64 = 0 -> vector_aligned h w a = Ok tt.
Proof.
  intros h w a Hw (Hl & Hf) Ha. unfold vector_aligned.
  assert (Hq : exists q, w = 8 * q /\ 0 < q /\ w / 8 = q)
    by (destruct Hw as [->|[->|[->|[->| ->]]]]; [exists 1|exists 2|exists 4|exists 8|exists 16]; cbn; lia).
  destruct Hq as (q & Hq & Hq0 & Hq8). rewrite Hq8.
  apply Z.mod_divide in Hf; [|nia]. destruct Hf as [k Hk].
  apply Z.mod_divide in Ha; [|lia]. destruct Ha as [c Hc].
  assert (H64 : 64 = k * (lanes h * q)) by nia.
  destruct (Z.eqb_spec (byte_addr h w a mod (lanes h * q)) 0) as [E|E]; [reflexivity|].
  exfalso. apply E. rewrite Hc, H64, Z.mul_assoc. apply Z.mod_mul. nia.
Qed.

Lemma byte_addr_next : forall h w a, valid_w w -> vector_fits h w ->
  vector_aligned h w a = Ok tt -> vector_aligned h w (a + lanes h) = Ok tt.
Proof.
  intros h w a Hw (Hl & Hf) Ha. unfold vector_aligned, byte_addr in *.
  assert (Hq0 : 0 < w / 8)
    by (destruct Hw as [->|[->|[->|[->| ->]]]]; cbn; lia).
  destruct (Z.eqb_spec ((origin h + a * (w / 8)) mod (lanes h * (w / 8))) 0) as [E|E];
    [|discriminate].
  replace (origin h + (a + lanes h) * (w / 8)) with
    (origin h + a * (w / 8) + 1 * (lanes h * (w / 8))) by lia.
  rewrite Z.mod_add by nia. rewrite E. reflexivity.
Qed.

Lemma byte_addr_prev : forall h w a, valid_w w -> vector_fits h w ->
  vector_aligned h w a = Ok tt -> vector_aligned h w (a - lanes h) = Ok tt.
Proof.
  intros h w a Hw (Hl & Hf) Ha. unfold vector_aligned, byte_addr in *.
  assert (Hq0 : 0 < w / 8)
    by (destruct Hw as [->|[->|[->|[->| ->]]]]; cbn; lia).
  destruct (Z.eqb_spec ((origin h + a * (w / 8)) mod (lanes h * (w / 8))) 0) as [E|E];
    [|discriminate].
  replace (origin h + (a - lanes h) * (w / 8)) with
    (origin h + a * (w / 8) + (-1) * (lanes h * (w / 8))) by lia.
  rewrite Z.mod_add by nia. rewrite E. reflexivity.
Qed.

(** Forming the address of a word is allowed. *)
Definition may_point (p : policy) (m : mem) (a : Z) : Prop :=
  match p with Hw _ => True | _ => m a <> None \/ m (a - 1) <> None end.

Lemma may_point_in : forall p (m : mem) a, m a <> None \/ m (a - 1) <> None ->
  may_point p m a.
Proof. intros [| |o] m a H; cbn; auto. Qed.

Lemma wp_is_aligned : forall p h w a m (Q : bool -> mem -> Prop),
  may_point p m a ->
  (forall b, (b = true -> byte_addr h w a mod 64 = 0) -> Q b m) ->
  wp (is_aligned p h w a) m Q.
Proof.
  intros p h w a m Q Hp HQ. unfold wp, is_aligned.
  assert (HQ' : Q (byte_addr h w a mod 64 =? 0) m) by (apply HQ; lia).
  destruct p as [| |o]; cbn in Hp; [| |exact HQ'];
    destruct (m a); try exact HQ'; destruct (m (a - 1)); try exact HQ';
    destruct Hp; congruence.
Qed.

(** ** Vector loads and stores *)

Lemma wp_vloadu : forall w n a m (Q : list Z -> mem -> Prop), 0 < w -> wf_mem w m ->
  (forall b, a <= b < a + Z.of_nat n -> m b <> None) ->
  (forall l, length l = n ->
     (forall i, 0 <= i < Z.of_nat n -> m (a + i) = Some (nth (Z.to_nat i) l 0)) ->
     Q l m) ->
  wp (vloadu n a) m Q.
Proof.
  intros w n. induction n as [|n IH]; intros a m Q Hw Hwf Hm HQ; cbn [vloadu].
  - apply wp_ret, HQ; [reflexivity|]. intros i Hi. lia.
  - apply wp_bind. destruct (dom_some m a) as [x Hx]; [apply Hm; lia|].
    unfold wp at 1, load. rewrite Hx. apply wp_bind, IH; try assumption.
    { intros b Hb. apply Hm. lia. }
    intros l Hl Hll. apply wp_ret, HQ; [cbn; lia|].
    intros i Hi. destruct (Z.eq_dec i 0) as [->|Hi0].
    + rewrite Z.add_0_r, Hx. reflexivity.
    + replace (Z.to_nat i) with (S (Z.to_nat (i - 1))) by lia. cbn [nth].
      rewrite <- Hll by lia. f_equal. lia.
Qed.

Lemma wp_vstoreu : forall w l a m (Q : unit -> mem -> Prop), 0 < w -> wf_mem w m ->
  (forall b, a <= b < a + Z.of_nat (length l) -> m b <> None) ->
  (forall x, In x l -> 0 <= x < 2 ^ w) ->
  (forall m', updated w m m' (a * w) ((a + Z.of_nat (length l)) * w)
     (fun i => Z.testbit (nth (Z.to_nat (i / w - a)) l 0) (i mod w)) -> Q tt m') ->
  wp (vstoreu a l) m Q.
Proof.
  intros w l. induction l as [|x l IH]; intros a m Q Hw Hwf Hm Hr HQ; cbn [vstoreu].
  - apply wp_ret, HQ, updated_refl; [assumption|]. cbn [length]. intros i Hi. lia.
  - cbn [length] in Hm, HQ.
    apply wp_bind, (wp_store_word w); try assumption.
    { apply Hm. lia. }
    { apply Hr. left. reflexivity. }
    intros m1 H1. apply IH; try assumption.
    + eapply updated_wf, H1.
    + intros b Hb. eapply dom_updated; [exact H1|]. apply Hm. lia.
    + intros y Hy. apply Hr. right. exact Hy.
    + intros m2 H2. apply HQ.
      replace (a * w + w) with ((a + 1) * w) in H1 by lia.
      replace (a + 1 + Z.of_nat (length l)) with (a + Z.of_nat (S (length l))) in H2 by lia.
      eapply updated_app; [exact H1|exact H2| | |].
      * pose proof (mul_mono w (a + 1) (a + Z.of_nat (S (length l)))). lia.
      * intros i Hi. cbv beta. rewrite (mod_word w a) by lia.
        assert (Hd : i / w = a) by (symmetry; apply (Z.div_unique i w a (i - a * w)); lia).
        rewrite Hd, Z.sub_diag. reflexivity.
      * intros i Hi. cbv beta.
        assert (Hd : a + 1 <= i / w) by (apply Z.div_le_lower_bound; lia).
        replace (Z.to_nat (i / w - a)) with (S (Z.to_nat (i / w - (a + 1)))) by lia.
        reflexivity.
Qed.

(** ** fill *)

Lemma wp_fill_align : forall p h w fuel it last v m0 m lo g (Q : Z -> mem -> Prop),
  0 < w -> wf_mem w m0 -> 0 <= v < 2 ^ w -> it <= last ->
  last - it <= Z.of_nat fuel -> lo <= it * w ->
  (forall b, it <= b < last -> m0 b <> None) ->
  (forall k, 0 <= k < w -> Z.testbit v k = g) ->
  updated w m0 m lo (it * w) (fun _ => g) ->
  (forall it' m', it <= it' <= last ->
     it' = last \/ byte_addr h w it' mod 64 = 0 ->
     updated w m0 m' lo (it' * w) (fun _ => g) -> Q it' m') ->
  wp (fill_align p h w fuel it last v) m Q.
Proof.
  intros p h w fuel. induction fuel as [|fuel IH];
    intros it last v m0 m lo g Q Hw Hwf Hv Hl Hfu Hlo Hm Hg Hu HQ; cbn [fill_align];
    destruct (Z.eqb_spec it last) as [E|E]; try lia;
    try (apply wp_ret, HQ; try assumption; lia).
  apply wp_bind, wp_is_aligned.
  { apply may_point_in. left. eapply dom_updated; [exact Hu|]. apply Hm. lia. }
  intros b Hb. destruct b.
  { apply wp_ret, HQ; [lia|right; apply Hb; reflexivity|assumption]. }
  apply wp_bind, (wp_store_word w); try assumption.
  { eapply updated_wf, Hu. }
  { eapply dom_updated; [exact Hu|]. apply Hm. lia. }
  intros m1 H1. apply (IH _ _ _ m0 m1 lo g); try assumption; try lia.
  - intros b Hbb. apply Hm. lia.
  - replace ((it + 1) * w) with (it * w + w) by lia.
    eapply updated_step; [exact Hu|exact H1|lia|].
    intros i Hi. cbv beta. apply Hg. lia.
  - intros it' m' Hi. apply HQ. lia.
Qed.

Lemma nth_repeat_in : forall (x : Z) n i, (i < n)%nat -> nth i (repeat x n) 0 = x.
Proof.
  intros x n. induction n as [|n IH]; intros i Hi; [lia|].
  destruct i; cbn; [reflexivity|]. apply IH. lia.
Qed.

Lemma wp_fill_vectors : forall h w fuel it last v m0 m lo g (Q : Z -> mem -> Prop),
  valid_w w -> vector_fits h w -> wf_mem w m0 -> 0 <= v < 2 ^ w -> it <= last ->
  last - it <= Z.of_nat fuel -> last - it <= 2 ^ 62 -> lo <= it * w ->
  it = last \/ vector_aligned h w it = Ok tt ->
  (forall b, it <= b < last -> m0 b <> None) ->
  (forall k, 0 <= k < w -> Z.testbit v k = g) ->
  updated w m0 m lo (it * w) (fun _ => g) ->
  (forall it' m', it <= it' <= last ->
     updated w m0 m' lo (it' * w) (fun _ => g) -> Q it' m') ->
  wp (fill_vectors h w fuel it last v) m Q.
Proof.
  intros h w fuel. induction fuel as [|fuel IH];
    intros it last v m0 m lo g Q Hw Hfit Hwf Hv Hl Hfu Hsz Hlo Hal Hm Hg Hu HQ;
    pose proof (valid_pos w Hw) as Hwp; pose proof (proj1 Hfit) as Hn;
    cbn [fill_vectors]; rewrite wrap_small by lia;
    destruct (Z.leb_spec (lanes h) (last - it)) as [E|E]; try lia;
    try (apply wp_ret, HQ; try assumption; lia).
  destruct Hal as [Hal|Hal]; [lia|].
  set (n := Z.to_nat (lanes h)).
  assert (Hlen : length (repeat v n) = n) by apply repeat_length.
  assert (Hn' : Z.of_nat n = lanes h) by (unfold n; lia).
  apply wp_bind. unfold vstore. wpl. rewrite Hal. apply rwp_ok.
  apply (wp_vstoreu w); rewrite ?Hlen, ?Hn'; try lia.
  { eapply updated_wf, Hu. }
  { intros b Hb. eapply dom_updated; [exact Hu|]. apply Hm. lia. }
  { intros x Hx. apply repeat_spec in Hx. subst x. exact Hv. }
  intros m1 H1.
  pose proof (mul_mono w it (it + lanes h) ltac:(lia) ltac:(lia)) as Hmm.
  apply (IH _ _ _ m0 m1 lo g); try assumption; try lia.
  - right. apply byte_addr_next; assumption.
  - intros b Hb. apply Hm. lia.
  - eapply updated_step; [exact Hu|exact H1|lia|].
    intros i Hi. cbv beta.
    assert (Hd : it <= i / w) by (apply Z.div_le_lower_bound; lia).
    assert (Hd2 : i / w < it + lanes h) by (apply Z.div_lt_upper_bound; lia).
    rewrite nth_repeat_in by lia. apply Hg, Z.mod_pos_bound. lia.
  - intros it' m' Hi. apply HQ. lia.
Qed.

Lemma fills_words_hwy : forall p h w first last bv, valid_w w -> vector_fits h w ->
  ib last - ib first <= 2 ^ 62 ->
  fills_words w (fill_words_hwy p h w) first last bv.
Proof.
  intros p h w first last bv Hw Hfit Hsz it m Q Hwf Hit Hm HQ.
  pose proof (valid_pos w Hw) as Hwp.
  assert (Hfw := fill_word_range w bv ltac:(lia)).
  assert (Hfb := fun k => fill_word_bits w bv k ltac:(lia)).
  unfold fill_words_hwy.
  set (fw := if bv then all_ones w else 0) in *. clearbody fw.
  apply wp_bind, (wp_fill_align p h w _ _ _ _ m m (it * w) bv);
    try assumption; try lia.
  { apply updated_refl; [assumption|]. intros i Hi. lia. }
  intros it1 m1 Hi1 Ha1 H1.
  pose proof (mul_mono w it it1 ltac:(lia) ltac:(lia)) as M1.
  apply wp_bind, (wp_fill_vectors h w _ _ _ _ m m1 (it * w) bv);
    try assumption; try lia.
  { destruct Ha1 as [Ha1|Ha1]; [left; exact Ha1|right; apply vector_aligned_64; assumption]. }
  { intros b Hb. apply Hm. lia. }
  intros it2 m2 Hi2 H2.
  pose proof (mul_mono w it1 it2 ltac:(lia) ltac:(lia)) as M2.
  pose proof (mul_mono w it2 (ib last) ltac:(lia) ltac:(lia)) as M3.
  assert (He : it2 + Z.of_nat (Z.to_nat (ib last - it2)) = ib last) by lia.
  apply (wp_words_fill w); rewrite ?He; try assumption; try lia.
  { eapply updated_wf, H2. }
  { intros b Hb. eapply dom_updated; [exact H2|]. apply Hm. lia. }
  intros m3 H3. apply HQ. eapply updated_step; [exact H2|exact H3|lia|].
  intros i Hi. cbv beta. apply Hfb, Z.mod_pos_bound. lia.
Qed.

(** ** find *)

Lemma nonskip_tz : forall w (bv : bool) x, valid_w w -> 0 <= x < 2 ^ w ->
  x <> (if bv then 0 else all_ones w) -> tz_bv w bv x < w.
Proof.
  intros w bv x Hw Hx Hn. pose proof (valid_pos w Hw) as Hwp.
  destruct (tz_bv_spec w bv x Hw Hx) as (T1 & T2 & T3).
  destruct (Z.lt_ge_cases (tz_bv w bv x) w) as [|C]; [assumption|].
  exfalso. apply Hn. apply (word_ext w); [lia|assumption|apply skip_range; lia|].
  intros k Hk. rewrite T3, skip_bits by lia. reflexivity.
Qed.

(** A word that holds a wanted bit gives the first position. *)
Lemma found_in_word : forall w m lo it hi (bv : bool) x, valid_w w -> wf_mem w m ->
  lo <= it * w -> it * w + w <= hi ->
  (forall i, lo <= i < it * w -> bit w m i = negb bv) ->
  m it = Some x -> x <> (if bv then 0 else all_ones w) ->
  mk_iter w it (tz_bv w bv x) = Ok (It it (tz_bv w bv x)) /\
  valid_it w (It it (tz_bv w bv x)) /\
  first_pos w m lo hi bv (addr w (It it (tz_bv w bv x))).
Proof.
  intros w m lo it hi bv x Hw Hwf Hlo Hhi Hb Hx Hn.
  pose proof (valid_pos w Hw) as Hwp.
  assert (Hxr : 0 <= x < 2 ^ w) by (apply (Hwf it), Hx).
  pose proof (nonskip_tz w bv x Hw Hxr Hn) as Ht.
  destruct (tz_bv_spec w bv x Hw Hxr) as (T1 & T2 & T3).
  set (t := tz_bv w bv x) in *. clearbody t.
  split; [unfold mk_iter; destruct (Z.ltb_spec t w); [reflexivity|lia]|].
  split; [unfold valid_it; cbn; lia|].
  unfold addr. cbn [ib ip].
  assert (Hbit : forall k, 0 <= k < w -> bit w m (it * w + k) = Z.testbit x k).
  { intros k Hk. rewrite (bit_word w m it x) by (assumption || lia). f_equal. lia. }
  split; [lia|]. split.
  - intros i Hi. destruct (Z.lt_ge_cases i (it * w)); [apply Hb; lia|].
    replace i with (it * w + (i - it * w)) by lia. rewrite Hbit by lia. apply T3. lia.
  - intros _. rewrite Hbit by lia. apply T2. lia.
Qed.

Lemma skip_word_bits : forall w m it (bv : bool) i, valid_w w ->
  m it = Some (if bv then 0 else all_ones w) -> it * w <= i < it * w + w ->
  bit w m i = negb bv.
Proof.
  intros w m it bv i Hw Hm Hi. pose proof (valid_pos w Hw).
  rewrite (bit_word w m it _ i ltac:(lia) Hm) by lia. apply skip_bits; lia.
Qed.

Lemma skip_test : forall w (bv : bool) x,
  (bv && (x =? 0)) || (negb bv && (x =? all_ones w)) = true <->
  x = (if bv then 0 else all_ones w).
Proof. intros w bv x. destruct bv; cbn; lia. Qed.

Lemma wp_find_align : forall p h w fuel it lastb hi m lo (bv : bool)
    (Q : iter + Z -> mem -> Prop),
  valid_w w -> wf_mem w m -> it <= lastb -> lastb - it <= Z.of_nat fuel ->
  lo <= it * w -> lastb * w <= hi ->
  (forall b, it <= b < lastb -> m b <> None) ->
  (forall i, lo <= i < it * w -> bit w m i = negb bv) ->
  (forall r, valid_it w r -> first_pos w m lo hi bv (addr w r) -> Q (inl r) m) ->
  (forall it', it <= it' <= lastb -> it' = lastb \/ byte_addr h w it' mod 64 = 0 ->
     (forall i, lo <= i < it' * w -> bit w m i = negb bv) -> Q (Datatypes.inr it') m) ->
  wp (find_align p h w fuel it lastb bv) m Q.
Proof.
  intros p h w fuel. induction fuel as [|fuel IH];
    intros it lastb hi m lo bv Q Hw Hwf Hl Hfu Hlo Hhi Hm Hb Hf Hg;
    pose proof (valid_pos w Hw) as Hwp; cbn [find_align];
    destruct (Z.eqb_spec it lastb) as [E|E]; try lia;
    try (apply wp_ret, Hg; try assumption; lia).
  apply wp_bind, wp_is_aligned.
  { apply may_point_in. left. apply Hm. lia. }
  intros b Hbb. destruct b.
  { apply wp_ret, Hg; [lia|right; apply Hbb; reflexivity|assumption]. }
  apply wp_bind. destruct (dom_some m it) as [x Hx]; [apply Hm; lia|].
  unfold wp at 1, load. rewrite Hx.
  pose proof (mul_mono w (it + 1) lastb ltac:(lia) ltac:(lia)) as Hmm.
  pose proof (skip_test w bv x) as Hst.
  destruct ((bv && (x =? 0)) || (negb bv && (x =? all_ones w))).
  - apply (IH _ _ hi m lo); try assumption; try lia.
    + intros b Hb'. apply Hm. lia.
    + intros i Hi. destruct (Z.lt_ge_cases i (it * w)); [apply Hb; lia|].
      apply (skip_word_bits w m it); try assumption; try lia.
      rewrite Hx. f_equal. apply Hst. reflexivity.
    + intros it' Hi. apply Hg. lia.
  - destruct (found_in_word w m lo it hi bv x) as (F1 & F2 & F3); try assumption; try lia.
    wpl. rewrite F1. apply rwp_ok, wp_ret, Hf; assumption.
Qed.

Lemma first_nonzero_spec : forall v i, (forall x, In x v -> 0 <= x) ->
  match first_nonzero i v with
  | Some j => i <= j < i + Z.of_nat (length v) /\ nth (Z.to_nat (j - i)) v 0 <> 0 /\
      forall k, i <= k < j -> nth (Z.to_nat (k - i)) v 0 = 0
  | None => forall k, i <= k < i + Z.of_nat (length v) ->
      nth (Z.to_nat (k - i)) v 0 = 0
  end.
Proof.
  induction v as [|x v IH]; intros i Hv; cbn [first_nonzero].
  - cbn. lia.
  - pose proof (Hv x (or_introl eq_refl)) as Hx. cbn [length].
    destruct (Z.ltb_spec 0 x) as [E|E].
    + rewrite Z.sub_diag. cbn. split; [lia|]. split; [lia|]. intros; lia.
    + assert (x = 0) by lia. subst x.
      specialize (IH (i + 1) ltac:(intros y Hy; apply Hv; right; exact Hy)).
      assert (Hcons : forall k, i < k ->
        nth (Z.to_nat (k - i)) (0 :: v) 0 = nth (Z.to_nat (k - (i + 1))) v 0).
      { intros k Hk. replace (Z.to_nat (k - i)) with (S (Z.to_nat (k - (i + 1)))) by lia.
        reflexivity. }
      destruct (first_nonzero (i + 1) v) as [j|].
      * destruct IH as (I1 & I2 & I3). split; [lia|]. rewrite Hcons by lia.
        split; [exact I2|]. intros k Hk. destruct (Z.eq_dec k i) as [->|].
        -- rewrite Z.sub_diag. reflexivity.
        -- rewrite Hcons by lia. apply I3. lia.
      * intros k Hk. destruct (Z.eq_dec k i) as [->|].
        -- rewrite Z.sub_diag. reflexivity.
        -- rewrite Hcons by lia. apply IH. lia.
Qed.

Lemma lnot_zero : forall w x, 0 <= w -> 0 <= x < 2 ^ w ->
  wrap w (Z.lnot x) = 0 <-> x = all_ones w.
Proof.
  intros w x Hw Hx. split; intros H.
  - apply (word_ext w); [lia|assumption|apply wrap_range; lia|]. intros k Hk.
    unfold all_ones. rewrite all_ones_testbit by lia.
    assert (Hz : Z.testbit (wrap w (Z.lnot x)) k = false) by (rewrite H; apply Z.bits_0).
    rewrite lnot_word_testbit in Hz by lia. destruct (Z.ltb_spec k w); [|lia].
    destruct (Z.testbit x k); [reflexivity|discriminate].
  - subst x. apply Z.bits_inj'. intros k Hk. rewrite Z.bits_0.
    destruct (Z.lt_ge_cases k w).
    + rewrite lnot_word_testbit by lia. unfold all_ones. rewrite all_ones_testbit by lia.
      destruct (Z.ltb_spec k w); [reflexivity|lia].
    + rewrite wrap_testbit by lia. destruct (Z.ltb_spec k w); [lia|reflexivity].
Qed.

Lemma nth_map0 : forall (f : Z -> Z) (l : list Z) i d, (i < length l)%nat ->
  nth i (map f l) d = f (nth i l d).
Proof.
  intros f l. induction l as [|x l IH]; intros i d Hi; [cbn in Hi; lia|].
  destruct i; cbn; [reflexivity|]. apply IH. cbn in Hi. lia.
Qed.

Lemma wp_find_vectors : forall h w fuel it lastb hi m lo (bv : bool)
    (Q : iter + Z -> mem -> Prop),
  valid_w w -> vector_fits h w -> wf_mem w m -> it <= lastb ->
  lastb - it <= Z.of_nat fuel -> lastb - it <= 2 ^ 62 ->
  it = lastb \/ vector_aligned h w it = Ok tt ->
  lo <= it * w -> lastb * w <= hi ->
  (forall b, it <= b < lastb -> m b <> None) ->
  (forall i, lo <= i < it * w -> bit w m i = negb bv) ->
  (forall r, valid_it w r -> first_pos w m lo hi bv (addr w r) -> Q (inl r) m) ->
  (forall it', it <= it' <= lastb ->
     (forall i, lo <= i < it' * w -> bit w m i = negb bv) -> Q (Datatypes.inr it') m) ->
  wp (find_vectors h w fuel it lastb bv) m Q.
Proof.
  intros h w fuel. induction fuel as [|fuel IH];
    intros it lastb hi m lo bv Q Hw Hfit Hwf Hl Hfu Hsz Hal Hlo Hhi Hm Hb Hf Hg;
    pose proof (valid_pos w Hw) as Hwp; pose proof (proj1 Hfit) as Hn;
    cbn [find_vectors]; rewrite wrap_small by lia;
    destruct (Z.leb_spec (lanes h) (lastb - it)) as [E|E]; try lia;
    try (apply wp_ret, Hg; try assumption; lia).
  destruct Hal as [Hal|Hal]; [lia|].
  assert (Hn' : Z.of_nat (Z.to_nat (lanes h)) = lanes h) by lia.
  apply wp_bind. unfold vload. wpl. rewrite Hal. apply rwp_ok.
  apply (wp_vloadu w); rewrite ?Hn'; try assumption; try lia.
  { intros b Hbb. apply Hm. lia. }
  intros l Hlen Hll.
  set (v := if bv then l else map (fun x => wrap w (Z.lnot x)) l).
  assert (Hvl : length v = length l) by (unfold v; destruct bv; [reflexivity|apply map_length]).
  assert (Hlr : forall x, In x l -> 0 <= x < 2 ^ w).
  { intros x Hx. destruct (In_nth l x 0 Hx) as (k & Hk & Hkx).
    apply (Hwf (it + Z.of_nat k)). rewrite Hll by lia. f_equal. rewrite Nat2Z.id. exact Hkx. }
  assert (Hz : forall k, 0 <= k < lanes h ->
    nth (Z.to_nat k) v 0 = 0 <-> nth (Z.to_nat k) l 0 = (if bv then 0 else all_ones w)).
  { intros k Hk. unfold v. destruct bv; [reflexivity|].
    rewrite nth_map0 by lia. apply lnot_zero; [lia|]. apply Hlr, nth_In. lia. }
  assert (Hv0 : forall x, In x v -> 0 <= x).
  { intros x Hx. unfold v in Hx. destruct bv; [apply Hlr in Hx; lia|].
    apply in_map_iff in Hx. destruct Hx as (y & <- & _).
    pose proof (wrap_range w (Z.lnot y)). lia. }
  pose proof (first_nonzero_spec v 0 Hv0) as Hfn.
  assert (Hbefore : forall j, 0 <= j <= lanes h ->
    (forall k, 0 <= k < j -> nth (Z.to_nat k) v 0 = 0) ->
    forall i, lo <= i < (it + j) * w -> bit w m i = negb bv).
  { intros j Hj Hk i Hi. destruct (Z.lt_ge_cases i (it * w)); [apply Hb; lia|].
    pose proof (word_of w i ltac:(lia)) as Hwi.
    assert (Hd : it <= i / w) by (apply Z.div_le_lower_bound; lia).
    assert (Hd2 : i / w < it + j) by (apply Z.div_lt_upper_bound; lia).
    apply (skip_word_bits w m (i / w)); try assumption; try lia.
    replace (i / w) with (it + (i / w - it)) at 1 by lia. rewrite Hll by lia. f_equal.
    apply Hz; [lia|]. apply Hk. lia. }
  destruct (first_nonzero 0 v) as [j|].
  - destruct Hfn as (F1 & F2 & F3). rewrite Hvl, Hlen, Hn' in F1.
    rewrite Z.sub_0_r in F2.
    apply wp_bind. unfold wp at 1, load. rewrite Hll by lia.
    pose proof (mul_mono w it (it + j) ltac:(lia) ltac:(lia)).
    pose proof (mul_mono w (it + j + 1) lastb ltac:(lia) ltac:(lia)).
    destruct (found_in_word w m lo (it + j) hi bv (nth (Z.to_nat j) l 0))
      as (G1 & G2 & G3); try assumption; try lia.
    { apply Hbefore; [lia|]. intros k Hk. pose proof (F3 k ltac:(lia)) as X. rewrite Z.sub_0_r in X. exact X. }
    { apply Hll. lia. }
    { intros Hc. apply F2, Hz; [lia|exact Hc]. }
    wpl. rewrite G1. apply rwp_ok, wp_ret, Hf; assumption.
  - pose proof (mul_mono w it (it + lanes h) ltac:(lia) ltac:(lia)).
    apply (IH _ _ hi m lo); try assumption; try lia.
    + right. apply byte_addr_next; assumption.
    + intros b Hbb. apply Hm. lia.
    + apply Hbefore; [lia|]. intros k Hk. pose proof (Hfn k ltac:(lia)) as X. rewrite Z.sub_0_r in X. exact X.
    + intros it' Hi. apply Hg. lia.
Qed.

Lemma finds_words_hwy : forall p h w m first last bv, valid_w w -> vector_fits h w ->
  valid_it w last -> wf_mem w m -> ib last - ib first <= 2 ^ 62 ->
  finds_words w (find_words_hwy p h w) m first last bv.
Proof.
  intros p h w m first last bv Hw Hfit Hl Hwf Hsz it Q Hi Hm Hml HQ.
  pose proof (valid_pos w Hw) as Hwp.
  assert (Hhi : ib last * w <= addr w last) by (unfold addr, valid_it in *; lia).
  unfold find_words_hwy.
  apply wp_bind, (wp_find_align p h w _ _ _ (addr w last) m (it * w));
    try assumption; try lia.
  intros it1 Hi1 Ha1 Hb1.
  pose proof (mul_mono w it it1 ltac:(lia) ltac:(lia)).
  apply wp_bind, (wp_find_vectors h w _ _ _ (addr w last) m (it * w));
    try assumption; try lia.
  { destruct Ha1 as [Ha1|Ha1]; [left; exact Ha1|right; apply vector_aligned_64; assumption]. }
  { intros b Hb. apply Hm. lia. }
  intros it2 Hi2 Hb2.
  pose proof (mul_mono w it1 it2 ltac:(lia) ltac:(lia)).
  apply (finds_words_scalar w m first last bv); try assumption; try lia.
  { intros b Hb. apply Hm. lia. }
  intros r Hr (P1 & P2 & P3). apply HQ; [assumption|].
  split; [lia|]. split; [|assumption].
  intros i Hi'. destruct (Z.lt_ge_cases i (it2 * w)); [apply Hb2; lia|apply P2; lia].
Qed.

(** ** transform with bit_not *)

Lemma op_not_range : forall w x, 0 <= w -> 0 <= op_not w x < 2 ^ w.
Proof. intros. apply wrap_range. assumption. Qed.

(** Lists of words read from memory. *)
Lemma read_range : forall w m a n l, wf_mem w m -> length l = n ->
  (forall i, 0 <= i < Z.of_nat n -> m (a + i) = Some (nth (Z.to_nat i) l 0)) ->
  forall x, In x l -> 0 <= x < 2 ^ w.
Proof.
  intros w m a n l Hwf Hlen Hll x Hx. destruct (In_nth l x 0 Hx) as (k & Hk & Hkx).
  apply (Hwf (a + Z.of_nat k)). rewrite Hll by lia. f_equal. rewrite Nat2Z.id. exact Hkx.
Qed.

Lemma read_bits : forall w m a n l j, 0 < w -> length l = n ->
  (forall i, 0 <= i < Z.of_nat n -> m (a + i) = Some (nth (Z.to_nat i) l 0)) ->
  a * w <= j < (a + Z.of_nat n) * w ->
  Z.testbit (nth (Z.to_nat (j / w - a)) l 0) (j mod w) = bit w m j.
Proof.
  intros w m a n l j Hw Hlen Hll Hj.
  assert (Hd : a <= j / w) by (apply Z.div_le_lower_bound; lia).
  assert (Hd2 : j / w < a + Z.of_nat n) by (apply Z.div_lt_upper_bound; lia).
  unfold bit. replace (j / w) with (a + (j / w - a)) at 2 by lia.
  rewrite Hll by lia. reflexivity.
Qed.

Lemma shift_words : forall w i d, 0 < w ->
  (i + d * w) / w = i / w + d /\ (i + d * w) mod w = i mod w.
Proof. intros w i d Hw. split; [apply Z.div_add; lia|apply Z.mod_add; lia]. Qed.

(** What is read from the source while the destination is being written. *)
Lemma not_read : forall w m0 m dst0 src dst last i,
  0 < w -> src <= last ->
  updated w m0 m (dst0 * w) (dst * w) (fun i => negb (bit w m0 (i + (src - dst) * w))) ->
  dst <= src \/ last <= dst0 -> dst0 <= dst ->
  src * w <= i < last * w -> bit w m i = bit w m0 i.
Proof.
  intros w m0 m dst0 src dst last i Hw Hl Hu Ho Hd Hi.
  apply (updated_out _ _ _ _ _ _ _ Hu). destruct Ho as [Ho|Ho].
  - right. pose proof (mul_mono w dst src ltac:(lia) ltac:(lia)). lia.
  - left. pose proof (mul_mono w last dst0 ltac:(lia) ltac:(lia)). lia.
Qed.

Lemma wp_not_align : forall p h w fuel src last dst m0 m dst0
    (Q : Z * Z -> mem -> Prop),
  valid_w w -> wf_mem w m0 -> src <= last -> last - src <= Z.of_nat fuel ->
  dst0 <= dst -> dst <= src \/ last <= dst0 ->
  (forall b, src <= b < last -> m0 b <> None) ->
  (forall b, dst <= b < dst + (last - src) -> m0 b <> None) ->
  updated w m0 m (dst0 * w) (dst * w) (fun i => negb (bit w m0 (i + (src - dst) * w))) ->
  (forall k m', 0 <= k <= last - src ->
     k = last - src \/ byte_addr h w (src + k) mod 64 = 0 ->
     updated w m0 m' (dst0 * w) ((dst + k) * w)
       (fun i => negb (bit w m0 (i + (src - dst) * w))) -> Q (src + k, dst + k) m') ->
  wp (not_align p h w fuel src last dst) m Q.
Proof.
  intros p h w fuel. induction fuel as [|fuel IH];
    intros src last dst m0 m dst0 Q Hw Hwf Hl Hfu Hd0 Ho Hms Hmd Hu HQ;
    pose proof (valid_pos w Hw) as Hwp; cbn [not_align];
    destruct (Z.eqb_spec src last) as [E|E]; try lia.
  1,2: replace (src, dst) with (src + 0, dst + 0) by (f_equal; lia);
    apply wp_ret, HQ; [lia|left; lia|]; rewrite Z.add_0_r; exact Hu.
  pose proof (not_read w m0 m dst0 src dst last) as Hrd.
  apply wp_bind, wp_is_aligned.
  { apply may_point_in. left. eapply dom_updated; [exact Hu|]. apply Hms. lia. }
  intros b Hb. destruct b.
  { replace (src, dst) with (src + 0, dst + 0) by (f_equal; lia).
    apply wp_ret, HQ; [lia| |rewrite Z.add_0_r; exact Hu].
    right. rewrite Z.add_0_r. apply Hb. reflexivity. }
  pose proof (mul_mono w (src + 1) last ltac:(lia) ltac:(lia)) as Hmm.
  pose proof (mul_mono w dst0 dst ltac:(lia) ltac:(lia)) as Hmm2.
  apply wp_bind, (wp_load w); try lia.
  { eapply updated_wf, Hu. }
  { eapply dom_updated; [exact Hu|]. apply Hms. lia. }
  intros x Hx Hbx. apply wp_bind, (wp_store_word w); try lia.
  { eapply updated_wf, Hu. }
  { eapply dom_updated; [exact Hu|]. apply Hmd. lia. }
  { apply op_not_range. lia. }
  intros m1 H1. apply (IH _ _ _ m0 m1 dst0); try assumption; try lia.
  - intros b Hbb. apply Hms. lia.
  - intros b Hbb. apply Hmd. lia.
  - replace (src + 1 - (dst + 1)) with (src - dst) by lia.
    replace ((dst + 1) * w) with (dst * w + w) by lia.
    eapply updated_step; [exact Hu|exact H1|lia|].
    intros i Hi. cbv beta. unfold op_not. rewrite lnot_word_testbit by lia. f_equal.
    rewrite <- Hrd by (assumption || lia). rewrite Hbx by lia. f_equal. lia.
  - intros k m' Hk Hal Hm'. replace (src + 1 - (dst + 1)) with (src - dst) in Hm' by lia.
    replace (src + 1 + k) with (src + (k + 1)) in * by lia.
    replace (dst + 1 + k) with (dst + (k + 1)) in * by lia.
    apply HQ; [lia| |exact Hm']. destruct Hal as [Hal|Hal]; [left; lia|right; exact Hal].
Qed.

(** One vector. *)
Lemma wp_not_vector : forall w n src dst m (Q : unit -> mem -> Prop), 0 < w ->
  wf_mem w m ->
  (forall b, src <= b < src + Z.of_nat n -> m b <> None) ->
  (forall b, dst <= b < dst + Z.of_nat n -> m b <> None) ->
  (forall m', updated w m m' (dst * w) ((dst + Z.of_nat n) * w)
     (fun i => negb (bit w m (i + (src - dst) * w))) -> Q tt m') ->
  wp (let* v := vloadu n src in vstoreu dst (map (op_not w) v)) m Q.
Proof.
  intros w n src dst m Q Hw Hwf Hms Hmd HQ.
  apply wp_bind, (wp_vloadu w); try assumption. intros l Hlen Hll.
  apply (wp_vstoreu w); rewrite ?map_length, ?Hlen; try assumption.
  { intros x Hx. apply in_map_iff in Hx. destruct Hx as (y & <- & _).
    apply op_not_range. lia. }
  intros m' H. apply HQ. eapply updated_ext; [exact H|]. intros i Hi. cbv beta.
  assert (Hd : dst <= i / w) by (apply Z.div_le_lower_bound; lia).
  assert (Hd2 : i / w < dst + Z.of_nat n) by (apply Z.div_lt_upper_bound; lia).
  rewrite nth_map0 by lia. unfold op_not.
  rewrite lnot_word_testbit by (lia || apply Z.mod_pos_bound; lia). f_equal.
  destruct (shift_words w i (src - dst) Hw) as [S1 S2].
  rewrite <- (read_bits w m src n l (i + (src - dst) * w)) by (assumption || lia).
  rewrite S1, S2. do 2 f_equal. lia.
Qed.

Lemma wp_assoc : forall A B C (a : M A) (b : A -> M B) (c : B -> M C) m Q,
  wp (bind (bind a b) c) m Q -> wp (let* x := a in bind (b x) c) m Q.
Proof.
  intros A B C a b c m Q H. unfold wp, bind in *.
  destruct (a m) as [[x m1]| | | |]; try exact H.
Qed.

Lemma wp_not_vectors : forall h w out fuel src last dst m0 m dst0
    (Q : Z * Z -> mem -> Prop),
  valid_w w -> vector_fits h w -> wf_mem w m0 -> src <= last ->
  last - src <= Z.of_nat fuel -> last - src <= 2 ^ 62 ->
  src = last \/ vector_aligned h w src = Ok tt ->
  (out = true -> vector_aligned h w dst = Ok tt) ->
  dst0 <= dst -> dst <= src \/ last <= dst0 ->
  (forall b, src <= b < last -> m0 b <> None) ->
  (forall b, dst <= b < dst + (last - src) -> m0 b <> None) ->
  updated w m0 m (dst0 * w) (dst * w) (fun i => negb (bit w m0 (i + (src - dst) * w))) ->
  (forall k m', 0 <= k <= last - src ->
     updated w m0 m' (dst0 * w) ((dst + k) * w)
       (fun i => negb (bit w m0 (i + (src - dst) * w))) -> Q (src + k, dst + k) m') ->
  wp (not_vectors h w out fuel src last dst) m Q.
Proof.
  intros h w out fuel. induction fuel as [|fuel IH];
    intros src last dst m0 m dst0 Q Hw Hfit Hwf Hl Hfu Hsz Hal Hout Hd0 Ho Hms Hmd Hu HQ;
    pose proof (valid_pos w Hw) as Hwp; pose proof (proj1 Hfit) as Hn;
    cbn [not_vectors]; rewrite wrap_small by lia;
    destruct (Z.leb_spec (lanes h) (last - src)) as [E|E]; try lia.
  1,3: replace (src, dst) with (src + 0, dst + 0) by (f_equal; lia);
    apply wp_ret, HQ; [lia|]; rewrite Z.add_0_r; exact Hu.
  destruct Hal as [Hal|Hal]; [lia|].
  assert (Hn' : Z.of_nat (Z.to_nat (lanes h)) = lanes h) by lia.
  pose proof (not_read w m0 m dst0 src dst last) as Hrd.
  pose proof (mul_mono w (src + lanes h) last ltac:(lia) ltac:(lia)) as Hmm.
  pose proof (mul_mono w dst0 dst ltac:(lia) ltac:(lia)) as Hmm2.
  pose proof (mul_mono w dst (dst + lanes h) ltac:(lia) ltac:(lia)) as Hmm3.
  unfold vload, vstore. rewrite Hal. cbn [lift].
  assert (Hst : forall v, (if out then (let! _ := vector_aligned h w dst in vstoreu dst v)
                           else vstoreu dst v) = vstoreu dst v).
  { intros v. destruct out; [|reflexivity]. rewrite Hout by reflexivity. reflexivity. }
  change (wp (let* v := vloadu (Z.to_nat (lanes h)) src in
    (if out then (let! _ := vector_aligned h w dst in vstoreu dst (map (op_not w) v))
     else vstoreu dst (map (op_not w) v)) ;;
    not_vectors h w out fuel (src + lanes h) last (dst + lanes h)) m Q).
  apply (wp_assoc _ _ _ _ (fun v => if out
    then (let! _ := vector_aligned h w dst in vstoreu dst (map (op_not w) v))
    else vstoreu dst (map (op_not w) v))).
  apply wp_bind.
  assert (Hstep : wp (let* v := vloadu (Z.to_nat (lanes h)) src in
      vstoreu dst (map (op_not w) v)) m
    (fun _ m' => wp (not_vectors h w out fuel (src + lanes h) last (dst + lanes h)) m' Q)).
  2:{ unfold wp, bind in *. destruct (vloadu (Z.to_nat (lanes h)) src m) as [[v m1]| | | |];
      try exact Hstep. rewrite Hst. exact Hstep. }
  apply wp_not_vector; rewrite ?Hn'; try lia.
  { eapply updated_wf, Hu. }
  { intros b Hb. eapply dom_updated; [exact Hu|]. apply Hms. lia. }
  { intros b Hb. eapply dom_updated; [exact Hu|]. apply Hmd. lia. }
  intros m1 H1. apply (IH _ _ _ m0 m1 dst0); try assumption; try lia.
  - right. apply byte_addr_next; assumption.
  - intros Ht. apply byte_addr_next; try assumption. apply Hout, Ht.
  - intros b Hbb. apply Hms. lia.
  - intros b Hbb. apply Hmd. lia.
  - replace (src + lanes h - (dst + lanes h)) with (src - dst) by lia.
    eapply updated_step; [exact Hu|exact H1|lia|].
    intros i Hi. cbv beta. f_equal. apply Hrd; assumption || lia.
  - intros k m' Hk Hm'.
    replace (src + lanes h - (dst + lanes h)) with (src - dst) in Hm' by lia.
    replace (src + lanes h + k) with (src + (k + lanes h)) in * by lia.
    replace (dst + lanes h + k) with (dst + (k + lanes h)) in * by lia.
    apply HQ; [lia|exact Hm'].
Qed.

Lemma not_words_ok : forall p h w, valid_w w -> vector_fits h w ->
  transforms_words w negb (not_words_hwy p h w).
Proof.
  intros p h w Hw Hfit src last dst m Q Hwf Hl Hsz Ho Hms Hmd Hlt HQ.
  pose proof (valid_pos w Hw) as Hwp. unfold not_words_hwy.
  apply wp_bind, (wp_not_align p h w _ _ _ _ m m dst); try assumption; try lia.
  { apply updated_refl; [assumption|]. intros i Hi. lia. }
  intros k1 m1 Hk1 Ha1 H1.
  apply wp_bind, wp_is_aligned.
  { apply may_point_in. destruct (Z.eq_dec k1 (last - src)) as [Ek|Ek].
    - right. eapply dom_updated; [exact H1|]. apply Hmd. lia.
    - left. eapply dom_updated; [exact H1|]. apply Hmd. lia. }
  intros out Hout.
  assert (Hdel : src + k1 - (dst + k1) = src - dst) by lia.
  apply wp_bind, (wp_not_vectors h w out _ _ _ _ m m1 dst); try assumption; try lia;
    rewrite ?Hdel.
  { destruct Ha1 as [Ha1|Ha1]; [left; lia|right; apply vector_aligned_64; assumption]. }
  { intros Ht. apply vector_aligned_64; try assumption. apply Hout, Ht. }
  { intros b Hb. apply Hms. lia. }
  { intros b Hb. apply Hmd. lia. }
  { exact H1. }
  intros k2 m2 Hk2 H2.
  set (s2 := src + k1 + k2) in *. set (d2 := dst + k1 + k2) in *.
  assert (He : Z.of_nat (Z.to_nat (last - s2)) = last - s2) by lia.
  apply wp_bind, (wp_words_transform w (op_not w) negb); rewrite ?He; try assumption;
    try lia.
  { intros x Hx. apply op_not_range. lia. }
  { intros x k Hx Hk. apply lnot_word_testbit; lia. }
  { eapply updated_wf, H2. }
  { intros b Hb. eapply dom_updated; [exact H2|]. apply Hms. lia. }
  { intros b Hb. eapply dom_updated; [exact H2|]. apply Hmd. lia. }
  intros m3 H3. apply wp_ret.
  replace (s2 + (last - s2)) with last by lia.
  replace (d2 + (last - s2)) with (dst + (last - src)) in * by lia.
  apply HQ.
  pose proof (mul_mono w dst d2 ltac:(lia) ltac:(lia)).
  pose proof (mul_mono w d2 (dst + (last - src)) ltac:(lia) ltac:(lia)).
  eapply updated_step; [exact H2|exact H3|lia|].
  intros i Hi. cbv beta. f_equal. replace (s2 - d2) with (src - dst) by lia.
  apply (not_read w m m2 dst s2 d2 last); try assumption; try lia.
  replace (s2 - d2) with (src - dst) by lia. exact H2.
Qed.

(** ** The shifts *)

Lemma vshrd_ok : forall w off v v1, 0 < off < w -> length v = length v1 ->
  (forall x, In x v -> 0 <= x < 2 ^ w) -> (forall x, In x v1 -> 0 <= x < 2 ^ w) ->
  exists r, vshrd w off v v1 = Ok r /\ length r = length v /\
    (forall x, In x r -> 0 <= x < 2 ^ w) /\
    (forall k j, (k < length v)%nat -> 0 <= j < w ->
       Z.testbit (nth k r 0) j =
       if j <? w - off then Z.testbit (nth k v 0) (j + off)
       else Z.testbit (nth k v1 0) (j - (w - off))).
Proof.
  intros w off v. induction v as [|x v IH]; intros v1 Ho Hlen Hv Hv1;
    destruct v1 as [|y v1]; try discriminate Hlen; cbn [vshrd].
  { exists []. repeat split; try (intros ? []); try (intros; cbn in *; lia). }
  destruct (IH v1 Ho) as (r & Hr & Hrl & Hrr & Hrb).
  { cbn in Hlen. lia. }
  { intros z Hz. apply Hv. right. exact Hz. }
  { intros z Hz. apply Hv1. right. exact Hz. }
  unfold lane_shr, lane_shl.
  replace ((0 <=? off) && (off <? w)) with true by lia.
  replace ((0 <=? w - off) && (w - off <? w)) with true by lia.
  cbn [rbind]. rewrite Hr. cbn [rbind]. eexists. split; [reflexivity|].
  pose proof (Hv x (or_introl eq_refl)) as Hx. pose proof (Hv1 y (or_introl eq_refl)) as Hy.
  split; [cbn; lia|]. split.
  - intros z [<-|Hz]; [|apply Hrr, Hz].
    apply lor_range; [lia| |apply wrap_range; lia].
    split; [apply Z.shiftr_nonneg; lia|].
    rewrite Z.shiftr_div_pow2 by lia. apply Z.le_lt_trans with x; [|lia].
    apply Z.div_le_upper_bound; [apply Z.pow_pos_nonneg; lia|].
    assert (1 <= 2 ^ off) by (apply Z.pow_le_mono_r with (a := 2) (b := 0); lia). nia.
  - intros k j Hk Hj. destruct k as [|k].
    + cbn [nth]. rewrite Z.lor_spec, Z.shiftr_spec by lia.
      unfold wrap. rewrite <- (Z.land_ones _ w), Z.land_spec, Z.ones_spec_low, andb_true_r
        by lia.
      rewrite Z.shiftl_spec by lia.
      destruct (Z.ltb_spec j (w - off)) as [E|E].
      * rewrite (Z.testbit_neg_r y) by lia. apply orb_false_r.
      * rewrite (testbit_high w x) by lia. reflexivity.
    + cbn [nth]. apply Hrb; [cbn in Hk; lia|exact Hj].
Qed.

(** One vector built from two neighbouring ones and stored. *)
Lemma wp_vector_shift : forall w off n s d m (Q : unit -> mem -> Prop),
  0 < off < w -> wf_mem w m ->
  (forall b, s <= b <= s + Z.of_nat n -> m b <> None) ->
  (forall b, d <= b < d + Z.of_nat n -> m b <> None) ->
  (forall m', updated w m m' (d * w) ((d + Z.of_nat n) * w)
     (fun i => bit w m (i + (s - d) * w + off)) -> Q tt m') ->
  wp (let* v := vloadu n s in
      let* v1 := vloadu n (s + 1) in
      let! r := vshrd w off v v1 in
      vstoreu d r) m Q.
Proof.
  intros w off n s d m Q Ho Hwf Hms Hmd HQ. assert (Hw : 0 < w) by lia.
  apply wp_bind, (wp_vloadu w); try assumption.
  { intros b Hb. apply Hms. lia. }
  intros v Hv Hvr. apply wp_bind, (wp_vloadu w); try assumption.
  { intros b Hb. apply Hms. lia. }
  intros v1 Hv1 Hvr1.
  destruct (vshrd_ok w off v v1) as (r & -> & Hrl & Hrr & Hrb); try lia.
  { apply (read_range w m s n v); assumption. }
  { apply (read_range w m (s + 1) n v1); assumption. }
  change (wp (vstoreu d r) m Q).
  apply (wp_vstoreu w); rewrite ?Hrl, ?Hv; try assumption.
  intros m' H. apply HQ. eapply updated_ext; [exact H|]. intros i Hi. cbv beta.
  assert (Hd : d <= i / w) by (apply Z.div_le_lower_bound; lia).
  assert (Hd2 : i / w < d + Z.of_nat n) by (apply Z.div_lt_upper_bound; lia).
  pose proof (Z.mod_pos_bound i w Hw) as Hj. pose proof (Z.div_mod i w ltac:(lia)) as Hdm.
  rewrite Hrb by lia. set (q := i / w) in *. set (j := i mod w) in *.
  destruct (Z.ltb_spec j (w - off)) as [E|E].
  - assert (Hp : i + (s - d) * w + off = (s + (q - d)) * w + (j + off)) by lia.
    assert (Hq : (i + (s - d) * w + off) / w = s + (q - d))
      by (symmetry; apply (Z.div_unique _ w _ (j + off)); lia).
    assert (Hr : (i + (s - d) * w + off) mod w = j + off)
      by (symmetry; apply (Z.mod_unique _ w (s + (q - d))); lia).
    rewrite <- (read_bits w m s n v) by (assumption || nia).
    rewrite Hq, Hr. do 2 f_equal. lia.
  - assert (Hp : i + (s - d) * w + off = (s + 1 + (q - d)) * w + (j - (w - off))) by lia.
    assert (Hq : (i + (s - d) * w + off) / w = s + 1 + (q - d))
      by (symmetry; apply (Z.div_unique _ w _ (j - (w - off))); lia).
    assert (Hr : (i + (s - d) * w + off) mod w = j - (w - off))
      by (symmetry; apply (Z.mod_unique _ w (s + 1 + (q - d))); lia).
    rewrite <- (read_bits w m (s + 1) n v1) by (assumption || nia).
    rewrite Hq, Hr. do 2 f_equal. lia.
Qed.

(** Iterators moved by whole words. *)
Lemma it_words : forall w b o k it, 0 <= o < w -> valid_it w it ->
  addr w it = addr w (It b o) + k * w -> it = It (b + k) o.
Proof.
  intros w b o k [ib' ip'] Ho Hv Ha. unfold valid_it, addr in *. cbn [ib ip] in *.
  assert (ib' = b + k) by nia. subst. f_equal. lia.
Qed.

Lemma wp_add_words : forall w b o k n m (Q : iter -> mem -> Prop), valid_w w -> 0 <= o < w ->
  n = k * w -> - 2 ^ 62 <= n <= 2 ^ 62 -> Q (It (b + k) o) m ->
  wp (lift (iadd_assign w (It b o) n)) m Q.
Proof.
  intros w b o k n m Q Hw Ho Hn Hk HQ. unfold iadd_assign. apply wp_iadd; try assumption.
  intros it Hv Ha. rewrite (it_words w b o k it); try assumption. lia.
Qed.

Lemma wp_sub_words : forall w b o k n m (Q : iter -> mem -> Prop), valid_w w -> 0 <= o < w ->
  n = k * w -> - 2 ^ 62 <= n <= 2 ^ 62 -> Q (It (b - k) o) m ->
  wp (lift (isub_assign w (It b o) n)) m Q.
Proof.
  intros w b o k n m Q Hw Ho Hn Hk HQ. unfold isub_assign. apply wp_isub; try assumption.
  intros it Hv Ha. rewrite (it_words w b o (- k) it); try assumption.
  rewrite Ha, Hn. ring.
Qed.

Lemma lanes_range : forall h w, valid_w w -> vector_fits h w -> 0 < lanes h <= 64.
Proof.
  intros h w Hw (Hl & Hf). split; [assumption|].
  apply Z.mod_divide in Hf; [|pose proof (valid_pos w Hw); nia].
  destruct Hf as [k Hk]. pose proof (valid_pos w Hw) as Hwp.
  assert (Hlw : 0 < lanes h * w) by nia. assert (0 < k) by nia.
  assert (lanes h * w <= 512) by nia. nia.
Qed.

Lemma wp_sl_align : forall p h w fuel fb mb lb off m0 m F n
    (Q : iter * iter -> mem -> Prop),
  valid_w w -> wf_mem w m0 -> 0 < off < w -> 0 < n ->
  mb * w + off = fb * w + n -> F <= fb * w ->
  lb - mb - 1 <= Z.of_nat fuel -> mb < lb ->
  (forall a, fb <= a < lb -> m0 a <> None) ->
  updated w m0 m F (fb * w) (fun i => bit w m0 (i + n)) ->
  (forall k m', 0 <= k -> mb + k < lb ->
     lb <= mb + k + 1 \/ byte_addr h w (fb + k) mod 64 = 0 ->
     updated w m0 m' F ((fb + k) * w) (fun i => bit w m0 (i + n)) ->
     Q (It (fb + k) 0, It (mb + k) off) m') ->
  wp (sl_align p h w fuel (It fb 0) (It mb off) lb off) m Q.
Proof.
  intros p h w fuel. induction fuel as [|fuel IH];
    intros fb mb lb off m0 m F n Q Hw Hwf Ho Hn He HF Hfu Hl Hm Hu HQ;
    pose proof (valid_pos w Hw) as Hwp; cbn [sl_align ib];
    destruct (Z.ltb_spec (mb + 1) lb) as [E|E].
  - lia.
  - replace (It fb 0, It mb off) with (It (fb + 0) 0, It (mb + 0) off)
      by (rewrite !Z.add_0_r; reflexivity).
    apply wp_ret, HQ; try lia. rewrite Z.add_0_r. exact Hu.
  - assert (Hfm : fb <= mb) by nia.
    assert (Hm1 : forall a, fb <= a < lb -> m a <> None).
    { intros a Ha. eapply dom_updated; [exact Hu|]. apply Hm. exact Ha. }
    assert (Hwf1 : wf_mem w m) by (eapply updated_wf, Hu).
    apply wp_bind, wp_is_aligned.
    { apply may_point_in. left. apply Hm1. lia. }
    intros al Hal. destruct al.
    { replace (It fb 0, It mb off) with (It (fb + 0) 0, It (mb + 0) off)
        by (rewrite !Z.add_0_r; reflexivity).
      apply wp_ret, HQ; try lia; [|rewrite Z.add_0_r; exact Hu].
      right. rewrite Z.add_0_r. apply Hal. reflexivity. }
    apply wp_bind, (wp_load w); try assumption; try lia; try (apply Hm1; lia).
    intros x Hx Hbx. apply wp_bind, (wp_load w); try assumption; try lia;
      try (apply Hm1; lia).
    intros y Hy Hby. wpl. apply rwp_shrd; try assumption.
    intros v Hv Hvb. apply wp_bind, (wp_store_word w); try assumption; try lia;
      try (apply Hm1; lia).
    intros m1 H1. pose proof (mul_mono w fb mb ltac:(lia) ltac:(lia)).
    apply wp_bind, (wp_add_words w fb 0 1); try assumption; try lia.
    apply wp_bind, (wp_add_words w mb off 1); try assumption; try lia.
    apply (IH (fb + 1) (mb + 1) lb off m0 m1 F n); try assumption; try lia.
    + intros a Ha. apply Hm. lia.
    + replace ((fb + 1) * w) with (fb * w + w) by lia.
      eapply updated_step; [exact Hu|exact H1|lia|].
      intros i Hi. cbv beta. rewrite Hvb by lia.
      rewrite <- (updated_out _ _ _ _ _ _ (i + n) Hu) by lia. bsplit.
      * rewrite Hbx by lia. f_equal. lia.
      * rewrite Hby by lia. f_equal. lia.
    + intros k m' A1 A2 A3 A4. replace (fb + 1 + k) with (fb + (k + 1)) in * by lia.
      replace (mb + 1 + k) with (mb + (k + 1)) in * by lia. apply HQ; try assumption; lia.
  - replace (It fb 0, It mb off) with (It (fb + 0) 0, It (mb + 0) off)
      by (rewrite !Z.add_0_r; reflexivity).
    apply wp_ret, HQ; try lia. rewrite Z.add_0_r. exact Hu.
Qed.

Lemma wp_assoc3 : forall A B C D (a : M A) (b : A -> M B) (c : A -> B -> M C)
    (e : A -> B -> C -> M unit) (d : M D) m (Q : D -> mem -> Prop),
  wp (bind (let* x := a in let* y := b x in let* v := c x y in e x y v)
        (fun _ => d)) m Q ->
  wp (let* x := a in let* y := b x in let* v := c x y in bind (e x y v)
        (fun _ => d)) m Q.
Proof. intros. apply wp_bind3. assumption. Qed.

Lemma wp_sl_vectors : forall h w fuel fb mb last off m0 m F n
    (Q : iter * iter -> mem -> Prop),
  let lb := ib last in
  valid_w w -> vector_fits h w -> wf_mem w m0 -> 0 < off < w -> 0 < n ->
  mb * w + off = fb * w + n -> F <= fb * w ->
  lb - mb - 1 <= Z.of_nat fuel -> mb < lb -> lb - mb <= 2 ^ 60 ->
  lb <= mb + 1 \/ vector_aligned h w fb = Ok tt ->
  (forall a, fb <= a < lb -> m0 a <> None) ->
  updated w m0 m F (fb * w) (fun i => bit w m0 (i + n)) ->
  (forall k m', 0 <= k -> mb + k < lb ->
     updated w m0 m' F ((fb + k) * w) (fun i => bit w m0 (i + n)) ->
     Q (It (fb + k) 0, It (mb + k) off) m') ->
  wp (sl_vectors h w fuel (It fb 0) (It mb off) last off) m Q.
Proof.
  intros h w fuel. induction fuel as [|fuel IH];
    intros fb mb last off m0 m F n Q lb Hw Hfit Hwf Ho Hn He HF Hfu Hl Hsz Hal Hm Hu HQ;
    pose proof (valid_pos w Hw) as Hwp; pose proof (lanes_range h w Hw Hfit) as Hla;
    cbn [sl_vectors ib]; fold lb; rewrite wrap_small by lia;
    assert (Hb01 : 0 <= b2z (negb (ip last =? 0)) <= 1) by (destruct (ip last =? 0); cbn; lia);
    destruct (Z.leb_spec (lanes h + 10 + b2z (negb (ip last =? 0))) (lb - mb)) as [E|E].
  1: lia.
  1,3: replace (It fb 0, It mb off) with (It (fb + 0) 0, It (mb + 0) off)
      by (rewrite !Z.add_0_r; reflexivity);
    apply wp_ret, HQ; try lia; rewrite Z.add_0_r; exact Hu.
  destruct Hal as [Hal|Hal]; [lia|].
  assert (Hfm : fb <= mb) by nia.
  assert (Hm1 : forall a, fb <= a < lb -> m a <> None).
  { intros a Ha. eapply dom_updated; [exact Hu|]. apply Hm. exact Ha. }
  assert (Hn' : Z.of_nat (Z.to_nat (lanes h)) = lanes h) by lia.
  cbv zeta. unfold vstore. rewrite Hal.
  apply (wp_assoc3 _ _ _ _ (vloadu (Z.to_nat (lanes h)) mb)
    (fun _ => vloadu (Z.to_nat (lanes h)) (mb + 1))
    (fun v v1 => lift (vshrd w off v v1))
    (fun _ _ r => vstoreu fb r)).
  apply wp_bind, wp_vector_shift; rewrite ?Hn'; try lia.
  { eapply updated_wf, Hu. }
  { intros b Hb. apply Hm1. lia. }
  { intros b Hb. apply Hm1. lia. }
  intros m1 H1.
  pose proof (mul_mono w fb mb ltac:(lia) ltac:(lia)) as Hmm.
  pose proof (mul_mono w fb (fb + lanes h) ltac:(lia) ltac:(lia)) as Hmm2.
  assert (Hnw : 0 <= lanes h * w <= 8192) by nia.
  apply wp_bind, (wp_add_words w fb 0 (lanes h)); try assumption; try lia.
  apply wp_bind, (wp_add_words w mb off (lanes h)); try assumption; try lia.
  apply (IH (fb + lanes h) (mb + lanes h) last off m0 m1 F n); try assumption; try lia.
  - right. apply byte_addr_next; assumption.
  - intros a Ha. apply Hm. lia.
  - eapply updated_step; [exact Hu|exact H1|lia|].
    intros i Hi. cbv beta. replace (i + (mb - fb) * w + off) with (i + n) by lia.
    apply (updated_out _ _ _ _ _ _ _ Hu). lia.
  - intros k m' A1 A2 A3. replace (fb + lanes h + k) with (fb + (k + lanes h)) in * by lia.
    replace (mb + lanes h + k) with (mb + (k + lanes h)) in * by lia.
    apply HQ; try assumption; lia.
Qed.

Lemma sl_words_ok : forall p h w last, valid_w w -> vector_fits h w ->
  shifts_left_words w (sl_words_hwy p h w) last.
Proof.
  intros p h w last Hw Hfit f mi m0 m F n Q Hwf Hf0 Ho Hn Ha HF Hl Hsz Hm Hu HQ.
  pose proof (valid_pos w Hw) as Hwp.
  destruct f as [fb fp]. destruct mi as [mb off]. unfold addr in Ha. cbn [ib ip] in *.
  subst fp. rewrite Z.add_0_r in Ha. unfold sl_words_hwy. cbn [ib].
  assert (Hfm : fb <= mb) by nia.
  apply wp_bind, (wp_sl_align p h w _ fb mb (ib last) off m0 m F n); try assumption; try lia.
  intros k1 m1 A1 A2 A3 A4.
  apply wp_bind, (wp_sl_vectors h w _ (fb + k1) (mb + k1) last off m0 m1 F n);
    try assumption; try lia.
  { destruct A3 as [A3|A3]; [left; exact A3|right; apply vector_aligned_64; assumption]. }
  { intros a Hx. apply Hm. lia. }
  intros k2 m2 B1 B2 B3. cbn [ib].
  apply (wp_shift_left_loop p w _ _ _ _ _ m0 m2 F n); try assumption; try lia.
  { intros a Hx. apply Hm. lia. }
  intros fb' mb' m' C1 C2 C3 C4. apply HQ; try assumption; lia.
Qed.

(** The words in front of the range which a vector may reach: needed only to
    form the address of a vector that would begin there. *)
Definition room_in_front (p : policy) (h : simd_unit) (m : mem) (fb : Z) : Prop :=
  match p with
  | Hw _ => True
  | _ => forall a, fb - lanes h < a < fb -> m a <> None
  end.

Lemma room_may_point : forall p h m0 m w lo hi g fb lb, room_in_front p h m0 fb ->
  0 < lanes h -> (forall a, fb <= a < lb -> m0 a <> None) -> fb < lb ->
  updated w m0 m lo hi g -> may_point p m (lb - lanes h).
Proof.
  intros p h m0 m w lo hi g fb lb Hr Hn Hm Hl Hu.
  assert (Hx : forall b, (fb - lanes h < b < fb -> m0 b <> None) ->
    fb - lanes h < b < lb -> m b <> None).
  { intros b Hb1 Hb2. eapply dom_updated; [exact Hu|].
    destruct (Z.lt_ge_cases b fb); [apply Hb1; lia|apply Hm; lia]. }
  destruct p as [| |o]; cbn in *; [left|left|exact I]; apply Hx; try lia; apply Hr.
Qed.

Lemma wp_sr_align : forall p h w fuel fb lb mb off m0 m L n
    (Q : iter * iter -> mem -> Prop),
  valid_w w -> vector_fits h w -> 0 < off < w -> 0 < n -> room_in_front p h m0 fb ->
  mb * w + off = lb * w - n -> lb * w <= L ->
  mb - fb - 1 <= Z.of_nat fuel -> fb < mb ->
  (forall a, fb <= a < lb -> m0 a <> None) ->
  updated w m0 m (lb * w) L (fun i => bit w m0 (i - n)) ->
  (forall k m', 0 <= k -> fb < mb - k ->
     mb - k - 1 <= fb \/ byte_addr h w (lb - k - lanes h) mod 64 = 0 ->
     updated w m0 m' ((lb - k) * w) L (fun i => bit w m0 (i - n)) ->
     Q (It (lb - k) 0, It (mb - k) off) m') ->
  wp (sr_align p h w fuel fb (It lb 0) (It mb off) off) m Q.
Proof.
  intros p h w fuel. induction fuel as [|fuel IH];
    intros fb lb mb off m0 m L n Q Hw Hfit Ho Hn Hroom He HL Hfu Hl Hm Hu HQ;
    pose proof (valid_pos w Hw) as Hwp; pose proof (proj1 Hfit) as Hla;
    cbn [sr_align ib];
    destruct (Z.ltb_spec fb (mb - 1)) as [E|E].
  - lia.
  - replace (It lb 0, It mb off) with (It (lb - 0) 0, It (mb - 0) off)
      by (rewrite !Z.sub_0_r; reflexivity).
    apply wp_ret, HQ; try lia. rewrite Z.sub_0_r. exact Hu.
  - assert (Hlm : mb < lb) by nia.
    apply wp_bind, wp_is_aligned.
    { eapply room_may_point; [exact Hroom|exact Hla|exact Hm|lia|exact Hu]. }
    intros al Hal. destruct al.
    { replace (It lb 0, It mb off) with (It (lb - 0) 0, It (mb - 0) off)
        by (rewrite !Z.sub_0_r; reflexivity).
      apply wp_ret, HQ; try lia; [|rewrite Z.sub_0_r; exact Hu].
      right. rewrite Z.sub_0_r. apply Hal. reflexivity. }
    apply (wp_assoc3 _ _ _ _ (load (mb - 1)) (fun _ => load mb)
      (fun x y => lift (shrd p w x y off)) (fun _ _ v => store (lb - 1) v)).
    replace (load mb) with (load (mb - 1 + 1)) by (f_equal; lia).
    apply wp_bind, (wp_shift_right_word p w (lb - 1) (mb - 1) off m0 m L n);
      try assumption; try lia; try (apply Hm; lia).
    { replace (lb - 1 + 1) with lb by lia. exact Hu. }
    intros m1 H1.
    apply wp_bind, (wp_sub_words w lb 0 1); try assumption; try lia.
    apply wp_bind, (wp_sub_words w mb off 1); try assumption; try lia.
    apply (IH fb (lb - 1) (mb - 1) off m0 m1 L n); try assumption; try lia.
    + intros a Ha. apply Hm. lia.
    + intros k m' A1 A2 A3 A4. replace (lb - 1 - k) with (lb - (k + 1)) in * by lia.
      replace (mb - 1 - k) with (mb - (k + 1)) in * by lia. apply HQ; try assumption; lia.
  - replace (It lb 0, It mb off) with (It (lb - 0) 0, It (mb - 0) off)
      by (rewrite !Z.sub_0_r; reflexivity).
    apply wp_ret, HQ; try lia. rewrite Z.sub_0_r. exact Hu.
Qed.

Lemma wp_sr_vectors : forall h w fuel fb lb mb off m0 m L n
    (Q : iter * iter -> mem -> Prop),
  valid_w w -> vector_fits h w -> 0 < off < w -> 0 < n ->
  mb * w + off = lb * w - n -> lb * w <= L ->
  mb - fb - 1 <= Z.of_nat fuel -> fb < mb -> mb - fb <= 2 ^ 60 ->
  mb - 1 <= fb \/ vector_aligned h w (lb - lanes h) = Ok tt ->
  (forall a, fb <= a < lb -> m0 a <> None) ->
  updated w m0 m (lb * w) L (fun i => bit w m0 (i - n)) ->
  (forall k m', 0 <= k -> fb < mb - k ->
     updated w m0 m' ((lb - k) * w) L (fun i => bit w m0 (i - n)) ->
     Q (It (lb - k) 0, It (mb - k) off) m') ->
  wp (sr_vectors h w fuel fb (It lb 0) (It mb off) off) m Q.
Proof.
  intros h w fuel. induction fuel as [|fuel IH];
    intros fb lb mb off m0 m L n Q Hw Hfit Ho Hn He HL Hfu Hl Hsz Hal Hm Hu HQ;
    pose proof (valid_pos w Hw) as Hwp; pose proof (lanes_range h w Hw Hfit) as Hla;
    cbn [sr_vectors ib]; rewrite wrap_small by lia;
    destruct (Z.ltb_spec (lanes h + 1) (mb - fb)) as [E|E].
  1: lia.
  1,3: replace (It lb 0, It mb off) with (It (lb - 0) 0, It (mb - 0) off)
      by (rewrite !Z.sub_0_r; reflexivity);
    apply wp_ret, HQ; try lia; rewrite Z.sub_0_r; exact Hu.
  destruct Hal as [Hal|Hal]; [lia|].
  assert (Hlm : mb < lb) by nia.
  assert (Hm1 : forall a, fb <= a < lb -> m a <> None).
  { intros a Ha. eapply dom_updated; [exact Hu|]. apply Hm. exact Ha. }
  assert (Hn' : Z.of_nat (Z.to_nat (lanes h)) = lanes h) by lia.
  cbv zeta. unfold vstore. rewrite Hal.
  apply (wp_assoc3 _ _ _ _ (vloadu (Z.to_nat (lanes h)) (mb - lanes h))
    (fun _ => vloadu (Z.to_nat (lanes h)) (mb - lanes h + 1))
    (fun v v1 => lift (vshrd w off v v1))
    (fun _ _ r => vstoreu (lb - lanes h) r)).
  apply wp_bind, wp_vector_shift; rewrite ?Hn'; try lia.
  { eapply updated_wf, Hu. }
  { intros b Hb. apply Hm1. lia. }
  { intros b Hb. apply Hm1. lia. }
  intros m1 H1. replace (lb - lanes h + lanes h) with lb in H1 by lia.
  pose proof (mul_mono w mb (lb - 1) ltac:(lia) ltac:(lia)) as Hmm.
  pose proof (mul_mono w (lb - lanes h) lb ltac:(lia) ltac:(lia)) as Hmm2.
  assert (Hnw : 0 <= w * lanes h <= 8192) by nia.
  apply wp_bind, (wp_sub_words w lb 0 (lanes h)); try assumption; try lia.
  apply wp_bind, (wp_sub_words w mb off (lanes h)); try assumption; try lia.
  apply (IH fb (lb - lanes h) (mb - lanes h) off m0 m1 L n); try assumption; try lia.
  - right. apply byte_addr_prev; assumption.
  - intros a Ha. apply Hm. lia.
  - eapply updated_step_left; [exact Hu|exact H1|lia|].
    intros i Hi. cbv beta.
    replace (i + (mb - lanes h - (lb - lanes h)) * w + off) with (i - n) by lia.
    apply (updated_out _ _ _ _ _ _ _ Hu). lia.
  - intros k m' A1 A2 A3. replace (lb - lanes h - k) with (lb - (k + lanes h)) in * by lia.
    replace (mb - lanes h - k) with (mb - (k + lanes h)) in * by lia.
    apply HQ; try assumption; lia.
Qed.

Lemma sr_words_ok : forall p h w m0 first, valid_w w -> vector_fits h w ->
  room_in_front p h m0 (ib first) -> shifts_right_words w (sr_words_hwy p h w) m0 first.
Proof.
  intros p h w m0 first Hw Hfit Hroom last middle m L n Q F Hf Hwf Hl0 Ho Hn Ha HF HL Hsz
    Hm Hu HQ.
  pose proof (valid_pos w Hw) as Hwp.
  destruct last as [lb lp]. destruct middle as [mb off].
  assert (Ha' := Ha). unfold addr in Ha'. cbn [ib ip] in *. subst lp.
  assert (HFe : F = ib first * w + ip first) by reflexivity.
  assert (Hal : addr w (It lb 0) = lb * w) by (unfold addr; cbn; lia).
  assert (Ham : addr w (It mb off) = mb * w + off) by reflexivity.
  unfold valid_it in Hf. rewrite Hal in *.
  assert (Hb1 : ib first < mb) by nia.
  assert (Hb2 : mb < lb) by nia.
  unfold sr_words_hwy. cbn [ib].
  apply wp_bind, (wp_sr_align p h w _ (ib first) lb mb off m0 m L n); try assumption; try lia.
  intros k1 m1 A1 A2 A3 A4. pose proof (mul_mono w (lb - k1) lb ltac:(lia) ltac:(lia)).
  apply wp_bind, (wp_sr_vectors h w _ (ib first) (lb - k1) (mb - k1) off m0 m1 L n);
    try assumption; try lia.
  { destruct A3 as [A3|A3]; [left; exact A3|right; apply vector_aligned_64; assumption]. }
  { intros a Hx. apply Hm. lia. }
  intros k2 m2 B1 B2 B3.
  set (k := k1 + k2). replace (lb - k1 - k2) with (lb - k) in * by (unfold k; lia).
  replace (mb - k1 - k2) with (mb - k) in * by (unfold k; lia).
  assert (Hk : 0 <= k) by (unfold k; lia). clearbody k.
  assert (Hal' : addr w (It (lb - k) 0) = (lb - k) * w) by (unfold addr; cbn; lia).
  assert (Ham' : addr w (It (mb - k) off) = (mb - k) * w + off) by reflexivity.
  pose proof (mul_mono w (lb - k) lb ltac:(lia) ltac:(lia)).
  assert (Hke : (lb - k) * w - (mb - k) * w = lb * w - mb * w) by ring.
  apply (wp_shift_right_words p w m0 first (It (lb - k) 0) (It (mb - k) off) m2 L n);
    rewrite ?Hal', ?Ham'; cbn [ib ip]; try assumption; try reflexivity; try lia.
  intros a Hx. apply Hm. lia.
Qed.

(** ** The algorithms *)

Lemma words_le : forall w first last, valid_w w -> valid_it w first -> valid_it w last ->
  addr w last - addr w first <= 2 ^ 62 -> ib last - ib first <= 2 ^ 62.
Proof. intros w f l Hw Hf Hl Hd. pose proof (valid_pos w Hw). unfold valid_it, addr in *. nia. Qed.

Lemma fill_hwy_ok : forall p h w m first last b,
  valid_w w -> vector_fits h w -> wf_mem w m -> good_range w m first last ->
  exists m', fill_hwy p h w first last b m = Ok (tt, m') /\
    updated w m m' (addr w first) (addr w last) (fun _ => b).
Proof.
  intros p h w m first last b Vw Hfit Hwf (Hf & Hl & Hd & Hm).
  assert (Hx : wp (fill_hwy p h w first last b) m
    (fun _ m' => updated w m m' (addr w first) (addr w last) (fun _ => b))).
  { unfold fill_hwy, max_bits in *. apply wp_fill_with; try assumption; try lia.
    - apply fills_words_hwy; try assumption. apply (words_le w); try assumption. lia.
    - auto. }
  apply wp_exists in Hx. destruct Hx as ([] & m' & E & H).
  exists m'. split; [exact E|exact H].
Qed.

Lemma find_hwy_ok : forall p h w m first last b,
  valid_w w -> vector_fits h w -> wf_mem w m -> good_range w m first last ->
  (ip first <> 0 -> m (ib first) <> None) ->
  exists r, find_hwy p h w first last b m = Ok (r, m) /\ valid_it w r /\
    addr w first <= addr w r <= addr w last /\
    (forall i, addr w first <= i < addr w r -> bit w m i <> b) /\
    (addr w r < addr w last -> bit w m (addr w r) = b).
Proof.
  intros p h w m first last b Vw Hfit Hwf (Hf & Hl & Hd & Hm) Hne.
  assert (Hx : wp (find_hwy p h w first last b) m (fun r m' => m' = m /\ valid_it w r /\
       first_pos w m (addr w first) (addr w last) b (addr w r))).
  { unfold find_hwy, max_bits in *. apply wp_find_with; try assumption; try lia.
    - apply finds_words_hwy; try assumption. apply (words_le w); try assumption. lia.
    - intros r Hr1 Hr2. split; [reflexivity|split; assumption]. }
  apply wp_exists in Hx. destruct Hx as (r & m' & E & -> & H1 & H2 & H3 & H4).
  exists r. split; [exact E|]. split; [assumption|]. split; [assumption|].
  split; [|assumption]. intros i Hi. rewrite H3 by assumption. destruct b; discriminate.
Qed.

Lemma transform_not_hwy_ok : forall p h w m first last d,
  valid_w w -> vector_fits h w -> wf_mem w m -> good_range w m first last ->
  good_dest w m d (addr w last - addr w first) ->
  addr w d <= addr w first \/ addr w last <= addr w d ->
  exists d' m', transform_not_hwy p h w first last d m = Ok (d', m') /\ valid_it w d' /\
    addr w d' = addr w d + (addr w last - addr w first) /\
    updated w m m' (addr w d) (addr w d + (addr w last - addr w first))
      (fun i => negb (bit w m (addr w first + (i - addr w d)))).
Proof.
  intros p h w m first last d Vw Hfit Hwf (Hf & Hl & Hd & Hm) (Hv & Hmd) Ho.
  pose proof (valid_pos w Vw) as Hwp.
  apply wp_exists. unfold transform_not_hwy, max_bits in *.
  apply (wp_transform1_with w (op_not w) negb Vw); try assumption; try lia.
  - intros x Hx. apply op_not_range. lia.
  - intros x k Hx Hk. apply lnot_word_testbit; lia.
  - apply not_words_ok; assumption.
  - intros d' m' H1 H2 H3. split; [assumption|]. split; [assumption|].
    eapply updated_ext; [exact H3|]. intros i Hi. cbv beta. do 2 f_equal. lia.
Qed.

Lemma shift_left_hwy_ok : forall p h w m first last n,
  valid_w w -> vector_fits h w -> wf_mem w m -> good_range w m first last ->
  0 < n < addr w last - addr w first ->
  ip first <> 0 \/ ip last <> 0 \/ ib last - ib first <> 1 \/
    full_blend_defined p w ->
  exists r m', shift_left_hwy p h w first last n m = Ok (r, m') /\ valid_it w r /\
    addr w r = addr w last - n /\ wf_mem w m' /\ same_dom m m' /\
    (forall i, addr w first <= i < addr w last - n ->
       bit w m' i = bit w m (i + n)) /\
    (forall i, i < addr w first \/ addr w last <= i -> bit w m' i = bit w m i).
Proof.
  intros p h w m first last n Vw Hfit Hwf (Hf & Hl & Hd & Hm) Hn Hg.
  apply wp_exists. unfold shift_left_hwy, max_bits in *.
  apply wp_shift_left_with; try assumption; try lia.
  { apply sl_words_ok; assumption. }
  intros r m' H1 H2 (g & H3 & H4). split; [assumption|]. split; [assumption|].
  split; [eapply updated_wf, H3|]. split; [apply H3|]. split.
  - intros i Hi. rewrite (updated_in _ _ _ _ _ _ _ H3) by lia. apply H4, Hi.
  - intros i Hi. apply (updated_out _ _ _ _ _ _ _ H3 Hi).
Qed.

Lemma shift_left_hwy_hw : forall o h w m first last n,
  valid_w w -> vector_fits h w -> wf_mem w m -> good_range w m first last ->
  0 < n < addr w last - addr w first ->
  exists r m', shift_left_hwy (Hw o) h w first last n m = Ok (r, m') /\ valid_it w r /\
    addr w r = addr w last - n /\ wf_mem w m' /\ same_dom m m' /\
    (forall i, addr w first <= i < addr w last - n ->
       bit w m' i = bit w m (i + n)) /\
    (forall i, i < addr w first \/ addr w last <= i -> bit w m' i = bit w m i).
Proof. intros. apply shift_left_hwy_ok; try assumption. do 3 right. exact I. Qed.

Lemma shift_right_hwy_gen : forall p h w m first last n,
  valid_w w -> vector_fits h w -> wf_mem w m -> good_range w m first last ->
  0 < n < addr w last - addr w first ->
  room_in_front p h m (ib first) ->
  ip first <> 0 \/ ip last <> 0 \/ ib last - ib first <> 1 \/
    full_blend_defined p w ->
  exists r m', shift_right_hwy p h w first last n m = Ok (r, m') /\ valid_it w r /\
    addr w r = addr w first + n /\ wf_mem w m' /\ same_dom m m' /\
    (forall i, addr w first + n <= i < addr w last ->
       bit w m' i = bit w m (i - n)) /\
    (forall i, i < addr w first \/ addr w last <= i -> bit w m' i = bit w m i).
Proof.
  intros p h w m first last n Vw Hfit Hwf (Hf & Hl & Hd & Hm) Hn Hroom Hg.
  apply wp_exists. unfold shift_right_hwy, max_bits in *.
  apply wp_shift_right_with; try assumption; try lia.
  { apply sr_words_ok; assumption. }
  intros r m' H1 H2 (g & H3 & H4). split; [assumption|]. split; [assumption|].
  split; [eapply updated_wf, H3|]. split; [apply H3|]. split.
  - intros i Hi. rewrite (updated_in _ _ _ _ _ _ _ H3) by lia. apply H4, Hi.
  - intros i Hi. apply (updated_out _ _ _ _ _ _ _ H3 Hi).
Qed.

Lemma shift_right_hwy_ok : forall p h w m first last n,
  valid_w w -> vector_fits h w -> wf_mem w m -> good_range w m first last ->
  0 < n < addr w last - addr w first ->
  (forall a, ib first - lanes h < a < ib first -> m a <> None) ->
  ip first <> 0 \/ ip last <> 0 \/ ib last - ib first <> 1 \/
    full_blend_defined p w ->
  exists r m', shift_right_hwy p h w first last n m = Ok (r, m') /\ valid_it w r /\
    addr w r = addr w first + n /\ wf_mem w m' /\ same_dom m m' /\
    (forall i, addr w first + n <= i < addr w last ->
       bit w m' i = bit w m (i - n)) /\
    (forall i, i < addr w first \/ addr w last <= i -> bit w m' i = bit w m i).
Proof.
  intros p h w m first last n Vw Hfit Hwf Hr Hn Hroom Hg.
  apply shift_right_hwy_gen; try assumption. destruct p; cbn; auto.
Qed.

Lemma shift_right_hwy_hw : forall o h w m first last n,
  valid_w w -> vector_fits h w -> wf_mem w m -> good_range w m first last ->
  0 < n < addr w last - addr w first ->
  exists r m', shift_right_hwy (Hw o) h w first last n m = Ok (r, m') /\ valid_it w r /\
    addr w r = addr w first + n /\ wf_mem w m' /\ same_dom m m' /\
    (forall i, addr w first + n <= i < addr w last ->
       bit w m' i = bit w m (i - n)) /\
    (forall i, i < addr w first \/ addr w last <= i -> bit w m' i = bit w m i).
Proof.
  intros. apply shift_right_hwy_gen; try assumption; [exact I|]. do 3 right. exact I.
Qed.

Lemma shifts_hwy_none : forall p h w m first last n,
  valid_w w -> good_range w m first last ->
  (n <= 0 -> shift_left_hwy p h w first last n m = Ok (last, m) /\
             shift_right_hwy p h w first last n m = Ok (first, m)) /\
  (0 < n -> addr w last - addr w first <= n ->
     shift_left_hwy p h w first last n m = Ok (first, m) /\
     shift_right_hwy p h w first last n m = Ok (last, m)).
Proof.
  intros p h w m first last n Vw (Hf & Hl & Hd & Hm). unfold max_bits in *.
  assert (HL : n <= 0 \/ addr w last - addr w first <= n ->
    wp (shift_left_hwy p h w first last n) m
      (fun r m' => (r, m') = (if n <=? 0 then last else first, m))).
  { intros Ht. unfold shift_left_hwy, shift_left_with.
    apply wp_bind, wp_assert_viable; try assumption.
    apply wp_bind, wp_distance; try assumption. apply wp_bind, wp_iadd_any; try assumption.
    intros mi. destruct (Z.leb_spec n 0); [apply wp_ret; reflexivity|].
    destruct (Z.leb_spec (addr w last - addr w first) n); [|lia].
    apply wp_ret. reflexivity. }
  assert (HR : n <= 0 \/ addr w last - addr w first <= n ->
    wp (shift_right_hwy p h w first last n) m
      (fun r m' => (r, m') = (if n <=? 0 then first else last, m))).
  { intros Ht. unfold shift_right_hwy, shift_right_with.
    apply wp_bind, wp_distance; try assumption. apply wp_bind, wp_isub_any; try assumption.
    intros mi. destruct (Z.leb_spec n 0); [apply wp_ret; reflexivity|].
    destruct (Z.leb_spec (addr w last - addr w first) n); [|lia].
    apply wp_ret. reflexivity. }
  split; intros H; [|intros H']; (specialize (HL ltac:(lia)); specialize (HR ltac:(lia));
    apply wp_exists in HL; destruct HL as (r & m' & -> & E);
    apply wp_exists in HR; destruct HR as (r2 & m2 & -> & E2);
    rewrite E, E2; destruct (Z.leb_spec n 0); try lia; split; reflexivity).
Qed.
