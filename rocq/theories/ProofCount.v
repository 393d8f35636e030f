(** Proofs about count (count.hpp). *)
From Coq Require Import ZArith Bool List Lia.
From Coq Require Import ZifyBool.
From Verif Require Import Base WordOps IterModel PopcntModel AlgModel Spec ProofBase
  ProofIter ProofWord ProofCnt ProofAlg1 ProofPopcnt ProofPopcnt2 ProofPopcnt3 ProofNeon.
Import ListNotations.
Open Scope Z_scope.
Ltac Zify.zify_post_hook ::= Z.div_mod_to_equations.

(** ** The word memory seen as bytes *)
Lemma byte_of_lane : forall x i, byte_of x i = lane 8 i x.
Proof. reflexivity. Qed.

Lemma byte_view_bit : forall w m i, valid_w w ->
  bit 8 (byte_view w m) i = bit w m i.
Proof.
  intros w m i Hw. unfold bit, byte_view.
  assert (H8 : exists c, w = 8 * c /\ w / 8 = c /\ 0 < c).
  { exists (w / 8). splitw; cbn; lia. }
  destruct H8 as (c & -> & -> & Hc).
  rewrite Z.div_div by lia.
  destruct (m (i / (8 * c))) as [x|]; [|reflexivity].
  rewrite byte_of_lane.
  pose proof (Z.mod_pos_bound i 8 ltac:(lia)).
  pose proof (Z.mod_pos_bound (i / 8) c ltac:(lia)).
  rewrite lane_testbit by lia.
  destruct (Z.ltb_spec (i mod 8) 8); [|lia]. cbn [andb].
  f_equal. rewrite Z.rem_mul_r by lia. lia.
Qed.

Lemma byte_view_wf : forall w m, wf_mem 8 (byte_view w m).
Proof.
  intros w m a x H. unfold byte_view in H.
  destruct (m (a / (w / 8))); [|discriminate]. injection H as <-.
  rewrite byte_of_lane. apply lane_range. lia.
Qed.

Lemma byte_view_mapped : forall w m a n, valid_w w ->
  (forall b, a <= b < a + n -> m b <> None) ->
  bmapped (byte_view w m) (a * (w / 8)) (n * (w / 8)).
Proof.
  intros w m a n Hw Hm b Hb Hn. unfold byte_view in Hn.
  assert (Hc : 0 < w / 8) by (splitw; cbn; lia).
  set (c := w / 8) in *. clearbody c.
  destruct (m (b / c)) eqn:E; [discriminate|]. revert E. apply Hm.
  pose proof (word_of c b Hc). set (q := b / c) in *. clearbody q. nia.
Qed.

Lemma bcount_view : forall w m a n, valid_w w ->
  bcount (byte_view w m) (a * (w / 8)) (n * (w / 8)) =
  count_true (bit w m) (a * w) (Z.to_nat (n * w)).
Proof.
  intros w m a n Hw. unfold bcount.
  assert (E : w = 8 * (w / 8)) by (splitw; reflexivity).
  replace (8 * (n * (w / 8))) with (n * w) by nia.
  apply count_true_ext. intros k Hk. rewrite byte_view_bit by assumption.
  f_equal. nia.
Qed.

(** On which targets and words popcnt is right: [n] words from word [a]. *)
Definition target_ok (t : target) (w a n : Z) : Prop :=
  match t with
  | X86 _ => True
  | Neon true => True
  | Neon false =>
      (w / 8 * n) mod 64 < 8 \/ (- (a * (w / 8))) mod 8 <= (w / 8 * n) mod 8
  | Generic => w / 8 * n < 8 \/ (- (a * (w / 8))) mod 8 <= (w / 8 * n) mod 8
  end.

Lemma target_ok_64 : forall t a n, target_ok t 64 a n.
Proof.
  intros t a n.
  assert (H : (- (a * (64 / 8))) mod 8 <= (64 / 8 * n) mod 8).
  { change (64 / 8) with 8. rewrite <- Z.mul_opp_l, Z.mod_mul by lia.
    apply Z.mod_pos_bound. lia. }
  destruct t as [c|[|]|]; cbn [target_ok]; auto.
Qed.

(** First whole word of a range. *)
Definition mid_word (first : iter) : Z :=
  if ip first =? 0 then ib first else ib first + 1.

Lemma wp_popcnt_mem : forall t w a n m (Q : Z -> mem -> Prop), valid_w w ->
  target_ok t w a n -> 0 <= n -> n * w < 2 ^ 64 ->
  (forall b, a <= b < a + n -> m b <> None) ->
  Q (count_true (bit w m) (a * w) (Z.to_nat (n * w))) m ->
  wp (popcnt_mem t w a (w / 8 * n)) m Q.
Proof.
  intros t w a n m Q Hw Ht Hn Hb Hm HQ. unfold wp, popcnt_mem.
  assert (E8 : w = 8 * (w / 8)) by (splitw; reflexivity).
  assert (E : popcnt t (byte_view w m) (a * (w / 8)) (w / 8 * n) =
    Ok (count_true (bit w m) (a * w) (Z.to_nat (n * w)))).
  { rewrite <- bcount_view, (Z.mul_comm n) by assumption.
    destruct t as [c|unaligned|]; cbn [popcnt].
    - assert (Hc : 0 < w / 8) by (splitw; cbn; lia).
      apply popcnt_x86_ok.
      + apply byte_view_wf.
      + apply Z.mul_nonneg_nonneg; lia.
      + clear - E8 Hb Hn. set (q := w / 8) in *. clearbody q. nia.
      + rewrite (Z.mul_comm _ n). apply byte_view_mapped; assumption.
    - assert (Hc : 0 < w / 8) by (splitw; cbn; lia).
      apply popcnt_neon_ok.
      + apply byte_view_wf.
      + apply Z.mul_nonneg_nonneg; lia.
      + clear - E8 Hb Hn. set (q := w / 8) in *. clearbody q. nia.
      + rewrite (Z.mul_comm _ n). apply byte_view_mapped; assumption.
      + destruct unaligned; [left; reflexivity|right; exact Ht].
    - assert (Hc : 0 < w / 8) by (splitw; cbn; lia).
      cbn [target_ok] in Ht. apply popcnt_generic_ok; try assumption.
      + apply byte_view_wf.
      + apply Z.mul_nonneg_nonneg; lia.
      + clear - E8 Hb Hn. set (q := w / 8) in *. clearbody q. nia.
      + rewrite (Z.mul_comm _ n). apply byte_view_mapped; assumption. }
  rewrite E. exact HQ.
Qed.

(** ** count *)
Lemma rwp_bextr : forall p w x start len (Q : Z -> Prop), valid_w w ->
  0 <= x < 2 ^ w -> 0 <= start < w -> 0 <= len < w ->
  (forall v, 0 <= v < 2 ^ w ->
     (forall k, 0 <= k -> Z.testbit v k = (k <? len) && Z.testbit x (start + k)) -> Q v) ->
  rwp (bextr p w x start len) Q.
Proof.
  intros p w x start len Q Hw Hx Hs Hl HQ. pose proof (valid_pos w Hw).
  pose proof (prom_ge w Hw). unfold bextr.
  apply rwp_bind. rewrite cshl_one by (assumption || lia). apply rwp_ok.
  apply rwp_bind, rwp_cshr; [lia|]. apply rwp_ok.
  destruct (Z.ltb_spec len w); [|lia]. destruct (Z.ltb_spec start w); [|lia].
  cbn [b2z]. rewrite !Z.mul_1_r.
  pose proof (pow_pos len ltac:(lia)).
  assert (2 ^ len < 2 ^ w) by (apply Z.pow_lt_mono_r; lia).
  rewrite (wrap_small w (2 ^ len - 1)) by lia.
  assert (Hr : 0 <= Z.land (Z.shiftr x start) (2 ^ len - 1) < 2 ^ w).
  { apply land_range; [lia|]. apply shiftr_range; lia. }
  rewrite wrap_small by exact Hr. apply HQ; [exact Hr|].
  intros k Hk. rewrite Z.land_spec, Z.shiftr_spec, ones_testbit' by lia.
  rewrite andb_comm. f_equal. f_equal. lia.
Qed.

Lemma wp_count : forall t p w first last v m (Q : Z -> mem -> Prop),
  let len := addr w last - addr w first in
  valid_w w -> valid_it w first -> valid_it w last -> wf_mem w m ->
  (ib first <> ib last -> target_ok t w (mid_word first) (ib last - mid_word first)) ->
  0 <= len <= 2 ^ 62 ->
  mapped w m (addr w first) (addr w last) ->
  (len = 0 -> m (ib first) <> None) ->
  Q (count_true (fun i => eqb (bit w m i) v) (addr w first) (Z.to_nat len)) m ->
  wp (count t p w first last v) m Q.
Proof.
  intros t p w first last v m Q len Hw Hf Hl Hwf Ht Hlen Hm Hne HQ.
  pose proof (valid_pos w Hw) as Hwp. pose proof (prom_ge w Hw) as Hpr.
  unfold count. apply wp_bind, wp_assert_viable; try assumption; try lia.
  assert (Hcr := count_true_range (bit w m) (Z.to_nat len) (addr w first)).
  apply wp_bind.
  apply (wp_conseq _ _ _ (fun r m1 => m1 = m /\ r = count_true (bit w m) (addr w first) (Z.to_nat len))).
  { destruct (Z.eqb_spec (ib first) (ib last)) as [E|E]; cbn [negb].
    - unfold valid_it, addr in *. unfold len, addr in *.
      apply wp_bind, (wp_load w); try assumption; try lia.
      { destruct (Z.eq_dec (ip first) (ip last)) as [E1|E1].
        - apply Hne. rewrite E. lia.
        - apply (mapped_word w m _ _ _ ltac:(lia) Hm); lia. }
      intros x Hx Hbx. wpl. apply rwp_bextr; try assumption; try lia.
      intros e He Heb. apply wp_ret. split; [reflexivity|].
      rewrite popcnt_intrin_count by assumption.
      replace (Z.to_nat w) with (Z.to_nat (ip last - ip first) +
        Z.to_nat (w - (ip last - ip first)))%nat by lia.
      rewrite count_true_app.
      rewrite (count_true_false _ (Z.to_nat (w - (ip last - ip first)))).
      + rewrite Z.add_0_r.
        replace (ib last * w + ip last - (ib first * w + ip first))
          with (ip last - ip first) by lia.
        apply count_true_ext. intros k Hk. rewrite Heb, Hbx by lia.
        destruct (Z.ltb_spec (0 + k) (ip last - ip first)); [|lia].
        cbn [andb]. f_equal. lia.
      + intros k Hk. rewrite Heb by lia.
        destruct (Z.ltb_spec (0 + Z.of_nat (Z.to_nat (ip last - ip first)) + k)
          (ip last - ip first)); [lia|]. reflexivity.
    - assert (Hb : ib first < ib last).
      { assert (ib first <= ib last) by (apply (base_le w); assumption || lia). lia. }
      pose proof (mul_mono w (ib first + 1) (ib last) ltac:(lia) ltac:(lia)) as Hmm.
      assert (Hsplit : forall a b c : Z, a <= b <= c ->
        count_true (bit w m) a (Z.to_nat (c - a)) =
        count_true (bit w m) a (Z.to_nat (b - a)) +
        count_true (bit w m) b (Z.to_nat (c - b))).
      { intros a b c Habc.
        replace (Z.to_nat (c - a)) with (Z.to_nat (b - a) + Z.to_nat (c - b))%nat by lia.
        rewrite count_true_app. do 2 f_equal. lia. }
      assert (Hrng : forall a b : Z, a <= b ->
        0 <= count_true (bit w m) a (Z.to_nat (b - a)) <= b - a).
      { intros a b Hab. pose proof (count_true_range (bit w m) (Z.to_nat (b - a)) a). lia. }
      apply wp_bind.
      apply (wp_conseq _ _ _ (fun q m1 => m1 = m /\ snd q = mid_word first /\ ib first <= snd q <= ib last /\ addr w first <= snd q * w /\ fst q = count_true (bit w m) (addr w first)
                  (Z.to_nat (snd q * w - addr w first)))).
      { destruct (Z.eqb_spec (ip first) 0) as [E1|E1]; cbn [negb].
        - apply wp_ret. cbn [fst snd]. split; [reflexivity|].
          split; [unfold mid_word; rewrite E1; reflexivity|]. split; [lia|].
          assert (Ha : addr w first = ib first * w) by (unfold addr; lia).
          split; [lia|]. rewrite Ha, Z.sub_diag. reflexivity.
        - unfold valid_it in Hf.
          apply wp_bind, (wp_load w); try assumption; try lia.
          { apply (mapped_word w m (addr w first) (addr w last)); try assumption;
              unfold addr, valid_it in *; lia. }
          intros x Hx Hbx. wpl. apply rwp_cshr; [lia|]. apply wp_ret. cbn [fst snd].
          split; [reflexivity|].
          split; [unfold mid_word; destruct (Z.eqb_spec (ip first) 0); [lia|reflexivity]|].
          split; [lia|]. split; [unfold addr; lia|].
          rewrite popcnt_intrin_count by (try assumption; apply wrap_range; lia).
          replace (Z.to_nat w) with (Z.to_nat (w - ip first) + Z.to_nat (ip first))%nat
            by lia.
          rewrite count_true_app.
          rewrite (count_true_false _ (Z.to_nat (ip first))).
          + rewrite Z.add_0_r.
            replace ((ib first + 1) * w - addr w first) with (w - ip first)
              by (unfold addr; lia).
            apply count_true_ext. intros k Hk. rewrite shr_testbit by lia.
            unfold addr. rewrite Hbx by lia. f_equal. lia.
          + intros k Hk. rewrite shr_testbit by lia. apply (testbit_high w); lia. }
      intros [r it] m1 (-> & Hmid & Hit & Hita & Hr). cbn [fst snd] in *.
      specialize (Ht E). rewrite <- Hmid in Ht.
      pose proof (mul_mono w it (ib last) ltac:(lia) ltac:(lia)) as Hmm2.
      assert (Hla : ib last * w <= addr w last < ib last * w + w)
        by (unfold addr, valid_it in *; lia).
      apply wp_bind, wp_popcnt_mem; try assumption; try lia.
      { intros b Hbb. pose proof (mul_mono w it b ltac:(lia) ltac:(lia)).
        pose proof (mul_mono w (b + 1) (ib last) ltac:(lia) ltac:(lia)).
        apply (mapped_word w m (addr w first) (addr w last)); try assumption; lia. }
      replace ((ib last - it) * w) with (ib last * w - it * w) by lia.
      rewrite Hr. rewrite <- (Hsplit (addr w first) (it * w) (ib last * w)) by lia.
      pose proof (Hrng (addr w first) (ib last * w) ltac:(lia)).
      rewrite (swrap64_small (count_true _ _ _)) by lia.
      destruct (Z.eqb_spec (ip last) 0) as [E3|E3]; cbn [negb].
      + apply wp_ret. split; [reflexivity|]. do 2 f_equal. unfold len, addr. lia.
      + unfold valid_it in Hl.
        apply wp_bind, (wp_load w); try assumption; try lia.
        { apply (mapped_word w m (addr w first) (addr w last)); try assumption;
            unfold addr in *; lia. }
        intros x Hx Hbx. wpl. apply rwp_cshl; try assumption; try lia.
        intros s Hs. apply wp_ret. split; [reflexivity|].
        assert (Htail : popcnt_intrin w (wrap w s) =
          count_true (bit w m) (ib last * w) (Z.to_nat (addr w last - ib last * w))).
        { rewrite popcnt_intrin_count by (try assumption; apply wrap_range; lia).
          replace (Z.to_nat w) with (Z.to_nat (w - ip last) + Z.to_nat (ip last))%nat by lia.
          rewrite count_true_app.
          rewrite (count_true_false _ (Z.to_nat (w - ip last))).
          - rewrite Z.add_0_l.
            replace (addr w last - ib last * w) with (ip last) by (unfold addr; lia).
            apply count_true_ext. intros k Hk.
            rewrite (shl_testbit w s x (w - ip last)) by (assumption || lia).
            rewrite Hbx by lia. f_equal. lia.
          - intros k Hk.
            rewrite (shl_testbit w s x (w - ip last)) by (assumption || lia).
            apply Z.testbit_neg_r. lia. }
        rewrite Htail. rewrite <- (Hsplit (addr w first) (ib last * w) (addr w last)) by lia.
        pose proof (Hrng (addr w first) (addr w last) ltac:(lia)).
        rewrite swrap64_small by lia. reflexivity. }
  intros r m1 (-> & ->). destruct v; cbn [negb].
  - apply wp_ret.
    rewrite (count_true_ext (bit w m) (fun i => eqb (bit w m i) true) _ _ (addr w first)).
    + exact HQ.
    + intros k Hk. destruct (bit w m (addr w first + k)); reflexivity.
  - wpl. rewrite idiff_eq by (assumption || lia). apply rwp_ok. fold len.
    apply wp_ret.
    rewrite (count_true_ext _ (fun i => negb (bit w m i)) _ _ (addr w first)) in HQ.
    + rewrite count_true_negb in HQ.
      replace (Z.of_nat (Z.to_nat len)) with len in HQ by lia. exact HQ.
    + intros k Hk. destruct (bit w m (addr w first + k)); reflexivity.
Qed.
