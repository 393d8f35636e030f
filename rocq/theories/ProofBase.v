(** Lemmas about words, shifts and memory used by all proofs. *)
From Coq Require Import ZArith Bool List Lia.
From Coq Require Import ZifyBool.
From Verif Require Import Base WordOps IterModel Spec.
Import ListNotations.
Open Scope Z_scope.
Ltac Zify.zify_post_hook ::= Z.div_mod_to_equations.

(** Arithmetic with the word width: split into the four widths. *)
Ltac splitw :=
  match goal with
  | H : valid_w ?w |- _ =>
    destruct H as [H|[H|[H|[H|H]]]]; subst w
  end.
Ltac zw := splitw; lia.

Lemma valid_pos : forall w, valid_w w -> 8 <= w <= 128.
Proof. intros w H. unfold valid_w in H. lia. Qed.

Lemma prom_ge : forall w, valid_w w -> w <= prom w.
Proof. intros w H. unfold prom. destruct (Z.ltb_spec w 32); lia. Qed.

Lemma pow_pos : forall w, 0 <= w -> 0 < 2 ^ w.
Proof. intros. apply Z.pow_pos_nonneg; lia. Qed.

Lemma wrap_range : forall w x, 0 <= w -> 0 <= wrap w x < 2 ^ w.
Proof. intros w x H. unfold wrap. apply Z.mod_pos_bound, pow_pos, H. Qed.

Lemma wrap_small : forall w x, 0 <= x < 2 ^ w -> wrap w x = x.
Proof. intros w x H. apply Z.mod_small, H. Qed.

Lemma wrap_wrap : forall w x, 0 <= w -> wrap w (wrap w x) = wrap w x.
Proof. intros. apply wrap_small, wrap_range. lia. Qed.

Lemma wrap_testbit : forall w x k, 0 <= w ->
  Z.testbit (wrap w x) k = (k <? w) && Z.testbit x k.
Proof.
  intros w x k Hw. unfold wrap.
  destruct (Z.ltb_spec k w).
  - rewrite Z.mod_pow2_bits_low by lia. reflexivity.
  - rewrite Z.mod_pow2_bits_high by lia. reflexivity.
Qed.

Lemma testbit_high : forall w x k, 0 <= x < 2 ^ w -> w <= k ->
  Z.testbit x k = false.
Proof.
  intros w x k Hx Hk. destruct (Z.eq_dec x 0) as [->|].
  - apply Z.bits_0.
  - apply Z.bits_above_log2; [lia|].
    enough (Z.log2 x < w) by lia. apply Z.log2_lt_pow2; lia.
Qed.

Lemma word_ext : forall w x y, 0 <= w -> 0 <= x < 2 ^ w -> 0 <= y < 2 ^ w ->
  (forall k, 0 <= k < w -> Z.testbit x k = Z.testbit y k) -> x = y.
Proof.
  intros w x y Hw Hx Hy H. apply Z.bits_inj'. intros k Hk.
  destruct (Z.lt_ge_cases k w).
  - apply H. lia.
  - rewrite !(testbit_high w) by lia. reflexivity.
Qed.

Lemma range_of_bits : forall w x, 0 <= w ->
  (forall k, w <= k -> Z.testbit x k = false) -> 0 <= x < 2 ^ w.
Proof.
  intros w x Hw H.
  replace x with (wrap w x); [apply wrap_range; lia|].
  apply Z.bits_inj'. intros k Hk. rewrite wrap_testbit by lia.
  destruct (Z.ltb_spec k w); [reflexivity|]. rewrite H; auto.
Qed.

Lemma all_ones_eq : forall w, 0 <= w -> wrap w (-1) = Z.ones w.
Proof.
  intros w H. apply Z.bits_inj'. intros k Hk.
  rewrite wrap_testbit, Z.bits_m1, Z.testbit_ones_nonneg, andb_true_r by lia.
  reflexivity.
Qed.

Lemma all_ones_testbit : forall w k, 0 <= w -> 0 <= k ->
  Z.testbit (wrap w (-1)) k = (k <? w).
Proof.
  intros. rewrite wrap_testbit, Z.bits_m1 by lia. apply andb_true_r.
Qed.

Lemma shiftl1_testbit : forall n k, 0 <= n -> 0 <= k ->
  Z.testbit (Z.shiftl 1 n - 1) k = (k <? n).
Proof.
  intros n k Hn Hk. rewrite Z.shiftl_1_l.
  change (2 ^ n - 1) with (Z.pred (2 ^ n)). rewrite <- Z.ones_equiv.
  rewrite Z.testbit_ones_nonneg by lia. reflexivity.
Qed.

(** Memory. *)
Lemma div_word : forall w a i, 0 < w -> a * w <= i < a * w + w -> i / w = a.
Proof.
  intros w a i Hw H. symmetry.
  apply (Z.div_unique_pos i w a (i - a * w)); lia.
Qed.

Lemma mod_word : forall w a i, 0 < w -> a * w <= i < a * w + w ->
  i mod w = i - a * w.
Proof.
  intros w a i Hw H. symmetry.
  apply (Z.mod_unique_pos i w a (i - a * w)); lia.
Qed.

Lemma word_of : forall w i, 0 < w -> i / w * w <= i < i / w * w + w.
Proof.
  intros w i Hw. pose proof (Z.div_mod i w). pose proof (Z.mod_pos_bound i w).
  lia.
Qed.

Lemma bit_word : forall w m a x i, 0 < w -> m a = Some x ->
  a * w <= i < a * w + w -> bit w m i = Z.testbit x (i - a * w).
Proof.
  intros w m a x i Hw Hm Hi. unfold bit.
  rewrite (div_word w a i), (mod_word w a i), Hm by lia. reflexivity.
Qed.

Lemma bit_none : forall w m i, m (i / w) = None -> bit w m i = false.
Proof. intros w m i H. unfold bit. rewrite H. reflexivity. Qed.

Lemma bit_mset : forall w m a v i, 0 < w ->
  bit w (mset m a v) i =
  if inr (a * w) (a * w + w) i then Z.testbit v (i - a * w) else bit w m i.
Proof.
  intros w m a v i Hw. unfold inr.
  destruct (Z.leb_spec (a * w) i); destruct (Z.ltb_spec i (a * w + w)); cbn [andb].
  - apply bit_word; try lia. unfold mset. rewrite Z.eqb_refl. reflexivity.
  - unfold bit, mset. destruct (Z.eqb_spec (i / w) a); [|reflexivity].
    pose proof (word_of w i). nia.
  - unfold bit, mset. destruct (Z.eqb_spec (i / w) a); [|reflexivity].
    pose proof (word_of w i). nia.
  - unfold bit, mset. destruct (Z.eqb_spec (i / w) a); [|reflexivity].
    pose proof (word_of w i). nia.
Qed.

Lemma mapped_word : forall w m lo hi a, 0 < w -> mapped w m lo hi ->
  a * w < hi -> lo < a * w + w -> lo < hi -> m a <> None.
Proof.
  intros w m lo hi a Hw H H1 H2 H3.
  specialize (H (Z.max lo (a * w))). rewrite (div_word w a) in H by lia.
  apply H. lia.
Qed.

Lemma mapped_sub : forall w m lo hi lo' hi', mapped w m lo hi ->
  lo <= lo' -> hi' <= hi -> mapped w m lo' hi'.
Proof. intros w m lo hi lo' hi' H H1 H2 i Hi. apply H. lia. Qed.

Lemma mapped_dom : forall w m m' lo hi, mapped w m lo hi -> same_dom m m' ->
  mapped w m' lo hi.
Proof. intros w m m' lo hi H Hd i Hi Hn. apply (H i Hi). apply Hd, Hn. Qed.

Lemma same_dom_refl : forall m, same_dom m m.
Proof. intros m a. reflexivity. Qed.

Lemma same_dom_trans : forall a b c, same_dom a b -> same_dom b c -> same_dom a c.
Proof. intros a b c H1 H2 x. rewrite (H1 x). apply H2. Qed.

Lemma same_dom_sym : forall a b, same_dom a b -> same_dom b a.
Proof. intros a b H x. symmetry. apply H. Qed.

Lemma dom_some : forall (m : mem) a, m a <> None -> exists x, m a = Some x.
Proof. intros m a H. destruct (m a) as [x|]; [exists x; reflexivity|congruence]. Qed.

(** Weakest preconditions. *)
Definition rwp {A} (r : res A) (Q : A -> Prop) : Prop :=
  match r with Ok a => Q a | _ => False end.

Definition wp {A} (c : M A) (m : mem) (Q : A -> mem -> Prop) : Prop :=
  match c m with Ok (a, m') => Q a m' | _ => False end.

Lemma rwp_ok : forall A (a : A) (Q : A -> Prop), Q a -> rwp (Ok a) Q.
Proof. intros. assumption. Qed.

Lemma rwp_bind : forall A B (r : res A) (f : A -> res B) (Q : B -> Prop),
  rwp r (fun a => rwp (f a) Q) -> rwp (rbind r f) Q.
Proof. intros A B r f Q H. destruct r; exact H. Qed.

Lemma rwp_conseq : forall A (r : res A) (P Q : A -> Prop),
  rwp r P -> (forall a, P a -> Q a) -> rwp r Q.
Proof. intros A r P Q H HPQ. destruct r; cbn in *; auto. Qed.

Lemma rwp_exists : forall A (r : res A) (Q : A -> Prop),
  rwp r Q -> exists a, r = Ok a /\ Q a.
Proof. intros A r Q H. destruct r; cbn in H; try contradiction. eauto. Qed.

Lemma wp_ret : forall A (a : A) m (Q : A -> mem -> Prop), Q a m -> wp (ret a) m Q.
Proof. intros. assumption. Qed.

Lemma wp_bind : forall A B (c : M A) (f : A -> M B) m (Q : B -> mem -> Prop),
  wp c m (fun a m' => wp (f a) m' Q) -> wp (bind c f) m Q.
Proof.
  intros A B c f m Q H. unfold wp, bind in *.
  destruct (c m) as [[a m']| | | |]; exact H.
Qed.

Lemma wp_conseq : forall A (c : M A) m (P Q : A -> mem -> Prop),
  wp c m P -> (forall a m', P a m' -> Q a m') -> wp c m Q.
Proof.
  intros A c m P Q H HPQ. unfold wp in *.
  destruct (c m) as [[a m']| | | |]; auto.
Qed.

Lemma wp_exists : forall A (c : M A) m (Q : A -> mem -> Prop),
  wp c m Q -> exists a m', c m = Ok (a, m') /\ Q a m'.
Proof.
  intros A c m Q H. unfold wp in H.
  destruct (c m) as [[a m']| | | |]; try contradiction. eauto.
Qed.

Lemma wp_lift : forall A (r : res A) m (Q : A -> mem -> Prop),
  rwp r (fun a => Q a m) -> wp (lift r) m Q.
Proof. intros A r m Q H. unfold wp, lift. destruct r; exact H. Qed.

Lemma wp_load : forall w a m (Q : Z -> mem -> Prop), 0 < w -> wf_mem w m ->
  m a <> None ->
  (forall x, 0 <= x < 2 ^ w ->
     (forall i, a * w <= i < a * w + w -> bit w m i = Z.testbit x (i - a * w)) ->
     Q x m) ->
  wp (load a) m Q.
Proof.
  intros w a m Q Hw Hwf Hn H. destruct (dom_some m a Hn) as [x Hx].
  unfold wp, load. rewrite Hx. apply H.
  - eapply Hwf, Hx.
  - intros i Hi. apply bit_word; assumption.
Qed.

Lemma wp_store : forall w a v m (Q : unit -> mem -> Prop), 0 < w -> wf_mem w m ->
  m a <> None -> 0 <= v < 2 ^ w ->
  (forall m', wf_mem w m' -> same_dom m m' ->
     (forall i, bit w m' i = if inr (a * w) (a * w + w) i
                             then Z.testbit v (i - a * w) else bit w m i) ->
     Q tt m') ->
  wp (store a v) m Q.
Proof.
  intros w a v m Q Hw Hwf Hn Hv H. destruct (dom_some m a Hn) as [x Hx].
  unfold wp, store. rewrite Hx. apply H.
  - intros b y Hb. unfold mset in Hb. destruct (Z.eqb_spec b a).
    + injection Hb as <-. exact Hv.
    + eapply Hwf, Hb.
  - intros b. unfold mset. destruct (Z.eqb_spec b a); [subst; rewrite Hx|];
      split; congruence.
  - intros i. apply bit_mset, Hw.
Qed.

(** Shifts. *)
Lemma rwp_cshr : forall p w x c (Q : Z -> Prop), 0 <= c < prom w ->
  Q (Z.shiftr x c) -> rwp (cshr p w x c) Q.
Proof.
  intros p w x c Q Hc H. unfold cshr.
  destruct (Z.leb_spec 0 c); [|lia]. destruct (Z.ltb_spec c (prom w)); [|lia].
  exact H.
Qed.

Lemma small_shl : forall w x c, valid_w w -> w < 32 -> 0 <= x < 2 ^ w ->
  0 <= c <= w -> x * 2 ^ c < 2 ^ 32.
Proof.
  intros w x c Hw H32 Hx Hc.
  assert (2 ^ c <= 2 ^ w) by (apply Z.pow_le_mono_r; lia).
  assert (0 < 2 ^ c) by (apply pow_pos; lia).
  assert (2 ^ w * 2 ^ w <= 2 ^ 32).
  { rewrite <- Z.pow_add_r by lia. apply Z.pow_le_mono_r; [lia|].
    unfold valid_w in Hw. lia. }
  nia.
Qed.

Lemma rwp_cshl : forall p w x c (Q : Z -> Prop), valid_w w ->
  0 <= x < 2 ^ w -> 0 <= c <= w -> c < prom w ->
  (forall s, wrap w s = wrap w (Z.shiftl x c) -> Q s) -> rwp (cshl p w x c) Q.
Proof.
  intros p w x c Q Hw Hx Hc Hp H. unfold cshl.
  destruct (Z.leb_spec 0 c); [|lia]. destruct (Z.ltb_spec c (prom w)); [|lia].
  cbn [andb]. destruct (Z.ltb_spec w 32) as [H32|H32].
  - pose proof (small_shl w x c Hw H32 Hx Hc).
    destruct p; try (apply H; reflexivity).
    destruct (Z.ltb_spec x 0); [lia|].
    destruct (Z.leb_spec (2 ^ 32) (x * 2 ^ c)); [lia|].
    apply H; reflexivity.
  - apply H. apply wrap_wrap. pose proof (valid_pos w Hw). lia.
Qed.

(** The shifted value converted to the word type, bit by bit. *)
Lemma shl_testbit : forall w s x c k, 0 <= w -> 0 <= c ->
  wrap w s = wrap w (Z.shiftl x c) -> 0 <= k < w ->
  Z.testbit (wrap w s) k = Z.testbit x (k - c).
Proof.
  intros w s x c k Hw Hc Hs Hk. rewrite Hs, wrap_testbit by lia.
  rewrite Z.shiftl_spec by lia. destruct (Z.ltb_spec k w); [reflexivity|lia].
Qed.

Lemma shr_testbit : forall w x c k, 0 <= w -> 0 <= c -> 0 <= k < w ->
  Z.testbit (wrap w (Z.shiftr x c)) k = Z.testbit x (k + c).
Proof.
  intros w x c k Hw Hc Hk. rewrite wrap_testbit, Z.shiftr_spec by lia.
  destruct (Z.ltb_spec k w); [reflexivity|lia].
Qed.

Lemma shiftr_range : forall w x c, 0 <= w -> 0 <= x < 2 ^ w -> 0 <= c ->
  0 <= Z.shiftr x c < 2 ^ w.
Proof.
  intros w x c Hw Hx Hc. apply range_of_bits; [lia|]. intros k Hk.
  rewrite Z.shiftr_spec by lia. apply (testbit_high w); lia.
Qed.

(** Blend (bit_details.hpp:753-761). *)
Lemma land_range : forall w x y, 0 <= w -> 0 <= x < 2 ^ w ->
  0 <= Z.land x y < 2 ^ w.
Proof.
  intros w x y Hw Hx. apply range_of_bits; [lia|]. intros k Hk.
  rewrite Z.land_spec, (testbit_high w x) by lia. reflexivity.
Qed.

Lemma lor_range : forall w x y, 0 <= w -> 0 <= x < 2 ^ w -> 0 <= y < 2 ^ w ->
  0 <= Z.lor x y < 2 ^ w.
Proof.
  intros w x y Hw Hx Hy. apply range_of_bits; [lia|]. intros k Hk.
  rewrite Z.lor_spec, (testbit_high w x), (testbit_high w y) by lia. reflexivity.
Qed.

Lemma lxor_range : forall w x y, 0 <= w -> 0 <= x < 2 ^ w -> 0 <= y < 2 ^ w ->
  0 <= Z.lxor x y < 2 ^ w.
Proof.
  intros w x y Hw Hx Hy. apply range_of_bits; [lia|]. intros k Hk.
  rewrite Z.lxor_spec, (testbit_high w x), (testbit_high w y) by lia. reflexivity.
Qed.

Lemma bitblend_mask_range : forall w x y k, 0 <= w ->
  0 <= x < 2 ^ w -> 0 <= y < 2 ^ w -> 0 <= bitblend_mask x y k < 2 ^ w.
Proof.
  intros. unfold bitblend_mask. apply lxor_range; try lia.
  apply land_range; try lia. apply lxor_range; lia.
Qed.

Lemma bitblend_mask_testbit : forall x y m k,
  Z.testbit (bitblend_mask x y m) k =
  if Z.testbit m k then Z.testbit y k else Z.testbit x k.
Proof.
  intros. unfold bitblend_mask. rewrite Z.lxor_spec, Z.land_spec, Z.lxor_spec.
  destruct (Z.testbit m k), (Z.testbit x k), (Z.testbit y k); reflexivity.
Qed.

Lemma cshl_full : forall p w, valid_w w -> full_blend_defined p w ->
  exists s, cshl p w 1 w = Ok s.
Proof.
  intros p w Hw Hp. unfold cshl. destruct p as [| |o]; cbn in Hp.
  - contradiction.
  - assert (E : prom w = 32) by (unfold prom; destruct (Z.ltb_spec w 32); lia).
    rewrite E. pose proof (valid_pos w Hw).
    destruct (Z.leb_spec 0 w); [|lia]. destruct (Z.ltb_spec w 32); [|lia].
    cbn [andb]. eauto.
  - destruct ((0 <=? w) && (w <? prom w)); destruct (w <? 32); eauto.
Qed.

Lemma cshl_val : forall p w x c, valid_w w -> 0 <= x < 2 ^ w -> 0 <= c <= w ->
  c < prom w -> cshl p w x c = Ok (arith w (Z.shiftl x c)).
Proof.
  intros p w x c Hw Hx Hc Hp. unfold cshl, arith.
  destruct (Z.leb_spec 0 c); [|lia]. destruct (Z.ltb_spec c (prom w)); [|lia].
  cbn [andb]. destruct (Z.ltb_spec w 32) as [H32|H32]; [|reflexivity].
  pose proof (small_shl w x c Hw H32 Hx Hc).
  destruct p; try reflexivity.
  destruct (Z.ltb_spec x 0); [lia|].
  destruct (Z.leb_spec (2 ^ 32) (x * 2 ^ c)); [lia|]. reflexivity.
Qed.

Lemma arith_small : forall w x, 0 <= x < 2 ^ w -> arith w x = x.
Proof.
  intros w x H. unfold arith. destruct (w <? 32); [reflexivity|].
  apply wrap_small, H.
Qed.

Lemma wrap_arith : forall w x, 0 <= w -> wrap w (arith w x) = wrap w x.
Proof.
  intros w x H. unfold arith. destruct (w <? 32); [reflexivity|].
  apply wrap_wrap, H.
Qed.

Lemma cshl_one : forall p w l, valid_w w -> 0 <= l < w ->
  cshl p w 1 l = Ok (2 ^ l).
Proof.
  intros p w l Hw Hl. pose proof (prom_ge w Hw). pose proof (valid_pos w Hw).
  assert (1 < 2 ^ w) by (apply Z.pow_gt_1; lia).
  rewrite cshl_val by (assumption || lia).
  rewrite Z.shiftl_1_l, arith_small; [reflexivity|].
  split; [pose proof (pow_pos l); lia|]. apply Z.pow_lt_mono_r; lia.
Qed.

Lemma ones_testbit' : forall n k, 0 <= n -> 0 <= k ->
  Z.testbit (2 ^ n - 1) k = (k <? n).
Proof.
  intros n k Hn Hk. rewrite <- Z.shiftl_1_l. apply shiftl1_testbit; lia.
Qed.

Lemma rwp_bitblend : forall p w x y s l (Q : Z -> Prop), valid_w w ->
  0 <= x < 2 ^ w -> 0 <= y < 2 ^ w -> 0 <= s < w -> 0 <= l -> s + l <= w ->
  l < w \/ full_blend_defined p w ->
  (forall v, 0 <= v < 2 ^ w ->
    (forall k, 0 <= k < w -> Z.testbit v k =
       if inr s (s + l) k then Z.testbit y k else Z.testbit x k) -> Q v) ->
  rwp (bitblend p w x y s l) Q.
Proof.
  intros p w x y s l Q Hw Hx Hy Hs Hl Hsl Hg HQ.
  pose proof (valid_pos w Hw) as Hwp. pose proof (prom_ge w Hw) as Hpr.
  unfold bitblend. apply rwp_bind.
  assert (HS : forall msk,
     (forall k, 0 <= k < w -> Z.testbit msk k = inr s (s + l) k) ->
     Q (wrap w (Z.lxor x (Z.land (Z.lxor x y) (wrap w msk * b2z (s <? w)))))).
  { intros msk Hk. destruct (Z.ltb_spec s w); [|lia]. cbn [b2z].
    rewrite Z.mul_1_r. change (Z.lxor x (Z.land (Z.lxor x y) (wrap w msk)))
      with (bitblend_mask x y (wrap w msk)).
    rewrite wrap_small by (apply bitblend_mask_range; lia). apply HQ.
    - apply bitblend_mask_range; lia.
    - intros k Hkk. rewrite bitblend_mask_testbit, wrap_testbit, Hk by lia.
      destruct (Z.ltb_spec k w); [reflexivity|lia]. }
  destruct (Z.lt_ge_cases l w) as [Hlw|Hlw].
  - rewrite cshl_one by (assumption || lia). apply rwp_ok, rwp_bind.
    destruct (Z.ltb_spec l w); [|lia]. cbn [b2z]. rewrite Z.mul_1_r.
    pose proof (pow_pos l Hl).
    assert (2 ^ l < 2 ^ w) by (apply Z.pow_lt_mono_r; lia).
    rewrite arith_small by lia.
    rewrite cshl_val by (assumption || lia).
    apply rwp_ok, rwp_ok. rewrite wrap_arith by lia. apply HS.
    intros k Hk. rewrite Z.shiftl_spec by lia. unfold inr.
    destruct (Z.leb_spec s k).
    + rewrite ones_testbit' by lia.
      destruct (Z.ltb_spec (k - s) l); destruct (Z.ltb_spec k (s + l));
        try lia; reflexivity.
    + rewrite Z.testbit_neg_r by lia. reflexivity.
  - assert (s = 0) by lia. assert (l = w) by lia. subst s l.
    destruct Hg as [Hg|Hg]; [lia|].
    destruct (cshl_full p w Hw Hg) as [s1 Hs1]. rewrite Hs1.
    apply rwp_ok, rwp_bind. rewrite Z.ltb_irrefl. cbn [b2z].
    rewrite Z.mul_0_r. change (0 - 1) with (-1).
    assert (HF : forall k, 0 <= k < w -> true = inr 0 (0 + w) k).
    { intros k Hk. unfold inr. symmetry. lia. }
    unfold arith, cshl. destruct (Z.ltb_spec 0 (prom w)); [|lia].
    cbn [Z.leb andb]. change (0 <=? 0) with true. cbn [andb].
    destruct (Z.ltb_spec w 32).
    + destruct p; cbn in Hg; try contradiction; apply rwp_ok, rwp_ok, HS;
        intros k Hk; rewrite Z.shiftl_0_r, Z.bits_m1 by lia; apply HF, Hk.
    + apply rwp_ok, rwp_ok, HS. intros k Hk.
      rewrite Z.shiftl_0_r, wrap_wrap, all_ones_testbit by lia.
      rewrite <- HF by lia. lia.
Qed.
