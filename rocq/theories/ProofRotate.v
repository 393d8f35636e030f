(** Proofs about rotate (rotate.hpp). *)
From Coq Require Import ZArith Bool List Lia.
From Coq Require Import ZifyBool.
From Verif Require Import Demo Base WordOps IterModel AlgModel ShiftModel SwapModel
  RotateModel Spec SpecRotate
  ProofBase ProofIter ProofWord ProofAlg1 ProofTransform ProofShift ProofSwap
  ProofSwapOver HwyAlgModel ProofWith.
Import ListNotations.
Open Scope Z_scope.
Ltac Zify.zify_post_hook ::= idtac.

(** The mirror image: bit [i] with bit [i - k] for i = E-1 .. E-t. *)
Definition slid_down (w : Z) (m m' : mem) (E k t : Z) : Prop :=
  wf_mem w m' /\ same_dom m m' /\
  forall i, bit w m' i =
    if inr (E - t) E i then bit w m (i - k)
    else if inr (E - t - k) (E - t) i then bit w m (E - k + (i - E) mod k)
    else bit w m i.

Lemma slid_down_refl : forall w m E k, wf_mem w m -> 0 < k -> slid_down w m m E k 0.
Proof.
  intros w m E k H Hk. split; [assumption|]. split; [apply same_dom_refl|].
  intros i. bsplit; try reflexivity.
  replace (i - E) with ((i - E + k) + (-1) * k) by lia.
  rewrite mod_uniq by lia. f_equal. lia.
Qed.

Lemma slid_down_step : forall w m m1 m2 E k t l, 0 < k -> 0 <= t -> 0 <= l <= k ->
  slid_down w m m1 E k t -> swapped w m1 m2 (E - t - k - l) (E - t - l) l ->
  slid_down w m m2 E k (t + l).
Proof.
  intros w m m1 m2 E k t l Hk Ht Hl (A1 & A2 & A3) (B1 & B2 & B3).
  split; [assumption|]. split; [eapply same_dom_trans; eassumption|].
  intros i. rewrite B3, !A3.
  replace (i - (E - t - k - l) + (E - t - l)) with (i + k) by lia.
  replace (i - (E - t - l) + (E - t - k - l)) with (i - k) by lia.
  replace ((i + k - E) mod k) with ((i - E) mod k).
  2:{ replace (i + k - E) with (i - E + 1 * k) by lia. symmetry. apply Z_mod_plus_full. }
  bsplit; reflexivity.
Qed.

Lemma slid_down_mapped : forall w m m' A k t a b, slid_down w m m' A k t ->
  mapped w m a b -> mapped w m' a b.
Proof. intros w m m' A k t a b (_ & H & _) Hm. eapply mapped_dom; eassumption. Qed.

(** Left rotation of [A, A+n) by [k]. *)
Definition rotl (w : Z) (m m' : mem) (A n k : Z) : Prop :=
  updated w m m' A (A + n)
    (fun i => bit w m (if i + k <? A + n then i + k else i + k - n)).

Lemma slid_rotl0 : forall w m m' A n k, 0 < k < n -> n mod k = 0 ->
  slid w m m' A k (n - k) -> rotl w m m' A n k.
Proof.
  intros w m m' A n k Hk Hn (A1 & A2 & A3).
  split; [assumption|]. split; [assumption|]. intros i. rewrite A3.
  pose proof (Z.div_mod n k ltac:(lia)) as Hdm. set (c := n / k) in *.
  bsplit; try reflexivity. f_equal.
  replace (i - A) with ((i + k - n - A) + (c - 1) * k) by lia.
  rewrite mod_uniq by lia. lia.
Qed.

Lemma slid_rotl : forall w m m1 m2 A n k, 0 < k < n -> n mod k <> 0 ->
  slid w m m1 A k (n - k) -> rotl w m1 m2 (A + (n - k)) k (k - n mod k) ->
  rotl w m m2 A n k.
Proof.
  intros w m m1 m2 A n k Hk Hn (A1 & A2 & A3) (B1 & B2 & B3).
  split; [assumption|]. split; [eapply same_dom_trans; eassumption|].
  intros i. rewrite B3, !A3.
  pose proof (Z.div_mod n k ltac:(lia)) as Hdm.
  pose proof (Z.mod_pos_bound n k ltac:(lia)) as Hr.
  set (c := n / k) in *. set (r := n mod k) in *. clearbody c r.
  destruct (inr (A + (n - k)) (A + (n - k) + k) i) eqn:Ei; unfold inr in Ei.
  - destruct (Z.ltb_spec (i + (k - r)) (A + (n - k) + k)) as [C|C].
    + bsplit. f_equal.
      replace (i + (k - r) - A) with ((i + k - n - A) + c * k) by lia.
      rewrite mod_uniq by lia. lia.
    + bsplit. f_equal.
      replace (i + (k - r) - k - A) with ((i + k - n - A) + (c - 1) * k) by lia.
      rewrite mod_uniq by lia. lia.
  - bsplit; reflexivity.
Qed.

Lemma slid_down_rotl0 : forall w m m' A n k, 0 < k < n -> n mod k = 0 ->
  slid_down w m m' (A + n) k (n - k) -> rotl w m m' A n (n - k).
Proof.
  intros w m m' A n k Hk Hn (A1 & A2 & A3).
  split; [assumption|]. split; [assumption|]. intros i. rewrite A3.
  pose proof (Z.div_mod n k ltac:(lia)) as Hdm. set (c := n / k) in *.
  bsplit; try reflexivity.
  - f_equal. lia.
  - f_equal. replace (i - (A + n)) with ((i - A) + (- c) * k) by lia.
    rewrite mod_uniq by lia. lia.
Qed.

Lemma slid_down_rotl : forall w m m1 m2 A n k, 0 < k < n -> n mod k <> 0 ->
  slid_down w m m1 (A + n) k (n - k) -> rotl w m1 m2 A k (n mod k) ->
  rotl w m m2 A n (n - k).
Proof.
  intros w m m1 m2 A n k Hk Hn (A1 & A2 & A3) (B1 & B2 & B3).
  split; [assumption|]. split; [eapply same_dom_trans; eassumption|].
  intros i. rewrite B3, !A3.
  pose proof (Z.div_mod n k ltac:(lia)) as Hdm.
  pose proof (Z.mod_pos_bound n k ltac:(lia)) as Hr.
  set (c := n / k) in *. set (r := n mod k) in *. clearbody c r.
  destruct (inr A (A + k) i) eqn:Ei; unfold inr in Ei.
  - destruct (Z.ltb_spec (i + r) (A + k)) as [C|C].
    + bsplit. f_equal.
      replace (i + r - (A + n)) with ((i - A) + (- c) * k) by lia.
      rewrite mod_uniq by lia. lia.
    + bsplit. f_equal.
      replace (i + r - k - (A + n)) with ((i - A) + (- c - 1) * k) by lia.
      rewrite mod_uniq by lia. lia.
  - bsplit; try reflexivity; f_equal; lia.
Qed.

Lemma wp_rot_up : forall pl w cnt p q k A t m0 m (Q : iter * iter -> mem -> Prop),
  let c := Z.of_nat cnt * k in
  valid_w w -> valid_it w p -> valid_it w q -> 0 < k -> 0 <= t ->
  addr w p = A + t -> addr w q = A + t + k -> t + c + k <= 2 ^ 62 ->
  mapped w m0 A (A + t + c + k) -> slid w m0 m A k t ->
  (forall p' q' m', valid_it w p' -> valid_it w q' ->
     addr w p' = A + (t + c) -> addr w q' = A + (t + c) + k ->
     slid w m0 m' A k (t + c) -> Q (p', q') m') ->
  wp (rot_up pl w cnt p q k) m Q.
Proof.
  intros pl w cnt. induction cnt as [|cnt IH];
    intros p q k A t m0 m Q c Hw Hp Hq Hk Ht Hap Haq Hmax Hm Hs HQ.
  { apply wp_ret. replace c with 0 in * by (unfold c; lia).
    rewrite !Z.add_0_r in HQ. apply HQ; assumption. }
  pose proof (valid_pos w Hw) as Hwp. cbn [rot_up].
  assert (Hc : c = k + Z.of_nat cnt * k) by (unfold c; lia).
  assert (Hc0 : 0 <= Z.of_nat cnt * k) by (apply Z.mul_nonneg_nonneg; lia).
  assert (Hm1 : mapped w m A (A + t + c + k)) by (eapply slid_mapped; eassumption).
  clearbody c. set (c' := Z.of_nat cnt * k) in *.
  apply wp_bind, wp_swap_ranges; try assumption; try lia.
  { apply Hs. }
  { eapply mapped_sub; [exact Hm1|lia|lia]. }
  { eapply mapped_sub; [exact Hm1|lia|lia]. }
  intros r m1 _ _ S1. rewrite Hap, Haq in S1.
  replace (A + t + k - (A + t)) with k in S1 by lia.
  apply wp_bind, wp_iadd; try assumption; [lia|]. intros p1 Hp1 Hap1.
  apply wp_bind, wp_iadd; try assumption; [lia|]. intros q1 Hq1 Haq1.
  apply (IH p1 q1 k A (t + k) m0 m1); try assumption; fold c'; try lia.
  { eapply mapped_sub; [exact Hm|lia|lia]. }
  { eapply slid_step; [| | |exact Hs|exact S1]; lia. }
  replace (t + k + c') with (t + c) by lia. exact HQ.
Qed.

Lemma wp_rot_down : forall pl w cnt p q k E t m0 m (Q : iter * iter -> mem -> Prop),
  let c := Z.of_nat cnt * k in
  valid_w w -> valid_it w p -> valid_it w q -> 0 < k -> 0 <= t ->
  addr w p = E - t - k -> addr w q = E - t -> t + c + k <= 2 ^ 62 ->
  mapped w m0 (E - t - c - k) E -> slid_down w m0 m E k t ->
  (forall p' q' m', valid_it w p' -> valid_it w q' ->
     addr w p' = E - (t + c) - k -> addr w q' = E - (t + c) ->
     slid_down w m0 m' E k (t + c) -> Q (p', q') m') ->
  wp (rot_down pl w cnt p q k) m Q.
Proof.
  intros pl w cnt. induction cnt as [|cnt IH];
    intros p q k E t m0 m Q c Hw Hp Hq Hk Ht Hap Haq Hmax Hm Hs HQ.
  { apply wp_ret. replace c with 0 in * by (unfold c; lia).
    rewrite !Z.add_0_r in HQ. apply HQ; assumption. }
  pose proof (valid_pos w Hw) as Hwp. cbn [rot_down].
  assert (Hc : c = k + Z.of_nat cnt * k) by (unfold c; lia).
  assert (Hc0 : 0 <= Z.of_nat cnt * k) by (apply Z.mul_nonneg_nonneg; lia).
  assert (Hm1 : mapped w m (E - t - c - k) E) by (eapply slid_down_mapped; eassumption).
  clearbody c. set (c' := Z.of_nat cnt * k) in *.
  apply wp_bind, wp_isub; try assumption; [lia|]. intros p1 Hp1 Hap1.
  apply wp_bind, wp_isub; try assumption; [lia|]. intros q1 Hq1 Haq1.
  apply wp_bind, wp_swap_ranges; try assumption; try lia.
  { apply Hs. }
  { eapply mapped_sub; [exact Hm1|lia|lia]. }
  { eapply mapped_sub; [exact Hm1|lia|lia]. }
  intros r m1 _ _ S1. rewrite Hap1, Haq1, Hap, Haq in S1.
  replace (E - t - k - (E - t - k - k)) with k in S1 by lia.
  apply (IH p1 q1 k E (t + k) m0 m1); try assumption; fold c'; try lia.
  { eapply mapped_sub; [exact Hm|lia|lia]. }
  { eapply slid_down_step; [| | |exact Hs|exact S1]; lia. }
  replace (t + k + c') with (t + c) by lia. exact HQ.
Qed.

Lemma updated_none : forall w m m' lo hi f a, updated w m m' lo hi f ->
  m a <> None -> m' a <> None.
Proof. intros w m m' lo hi f a (_ & H & _) Ha Hn. apply Ha, H, Hn. Qed.

(** Saving [k] bits in a word, shifting left and appending the saved bits. *)
Lemma wp_rot_small_left : forall A' sl pl w first last k (K : iter -> M A') m (Q : A' -> mem -> Prop),
  let A := addr w first in let n := addr w last - addr w first in
  good_left pl w sl ->
  valid_w w -> valid_it w first -> valid_it w last -> wf_mem w m ->
  0 < k < n -> k <= w -> n <= 2 ^ 62 ->
  mapped w m A (A + n) ->
  (ip first <> 0 \/ ip last <> 0 \/ ib last - ib first <> 1 \/ full_blend_defined pl w) ->
  (forall r m', valid_it w r -> addr w r = addr w last - k -> rotl w m m' A n k -> wp (K r) m' Q) ->
  wp (let* temp := get_word pl w first k in
      let* it := sl first last k in
      write_word pl w temp it k ;; K it) m Q.
Proof.
  intros A' sl pl w first last k K m Q A n GL Hw Hf Hl Hwf Hk Hkw Hn Hm Hg HQ.
  pose proof (valid_pos w Hw) as Hwp.
  apply wp_bind, wp_get_word; try assumption; [lia| |].
  { eapply mapped_sub; [exact Hm|..]; unfold A; lia. }
  intros v Hv Hvb. apply wp_bind, GL; try assumption.
  { eapply mapped_sub; [exact Hm|..]; unfold A, n; lia. }
  intros it m1 Hit Hait (g & U1 & Hg1 & _).
  apply wp_bind, wp_write_word; try assumption; [eapply updated_wf, U1|lia| |].
  { eapply mapped_dom; [|apply U1]. eapply mapped_sub; [exact Hm|..]; unfold A, n; lia. }
  intros m2 U2. apply HQ; try assumption.
  destruct U1 as (A1 & A2 & A3). destruct U2 as (B1 & B2 & B3).
  split; [assumption|]. split; [eapply same_dom_trans; eassumption|].
  intros i. rewrite B3, A3, Hait. fold A in A3, Hvb, Hg1 |- *.
  assert (Hal : addr w last = A + n) by (unfold A, n; lia). rewrite Hal in *.
  bsplit; try reflexivity.
  - rewrite Hvb by lia. f_equal. lia.
  - apply Hg1. lia.
Qed.

Lemma wp_rot_small_right : forall m0 A0 A1 A' sr pl w first last s k (K : iter -> M A') m (Q : A' -> mem -> Prop),
  let A := addr w first in let n := addr w last - addr w first in
  good_right m0 A0 A1 pl w sr ->
  valid_w w -> valid_it w first -> valid_it w last -> valid_it w s -> wf_mem w m ->
  same_dom m0 m -> A0 <= addr w first -> addr w last <= A1 ->
  addr w s = addr w last - k ->
  0 < k < n -> k <= w -> n <= 2 ^ 62 ->
  mapped w m A (A + n) ->
  (ip first <> 0 \/ ip last <> 0 \/ ib last - ib first <> 1 \/ full_blend_defined pl w) ->
  (forall r m', valid_it w r -> addr w r = A + k -> rotl w m m' A n (n - k) -> wp (K r) m' Q) ->
  wp (let* temp := get_word pl w s k in
      let* it := sr first last k in
      write_word pl w temp first k ;; K it) m Q.
Proof.
  intros m0 A0 A1 A' sr pl w first last s k K m Q A n GR Hw Hf Hl Hs Hwf Hsd HA0 HA1 Has Hk Hkw Hn Hm Hg HQ.
  pose proof (valid_pos w Hw) as Hwp.
  apply wp_bind, wp_get_word; try assumption; [lia| |].
  { eapply mapped_sub; [exact Hm|..]; unfold A, n; lia. }
  intros v Hv Hvb. apply wp_bind, GR; try assumption.
  { eapply mapped_sub; [exact Hm|..]; unfold A, n; lia. }
  intros it m1 Hit Hait (g & U1 & Hg1 & _).
  apply wp_bind, wp_write_word; try assumption; [eapply updated_wf, U1|lia| |].
  { eapply mapped_dom; [|apply U1]. eapply mapped_sub; [exact Hm|..]; unfold A, n; lia. }
  intros m2 U2. apply HQ; try assumption.
  destruct U1 as (D1 & D2 & A3). destruct U2 as (B1 & B2 & B3).
  split; [assumption|]. split; [eapply same_dom_trans; eassumption|].
  intros i. rewrite B3, A3. fold A in A3, Hvb, Hg1 |- *.
  assert (Hal : addr w last = A + n) by (unfold A, n; lia). rewrite Hal in *.
  bsplit; try reflexivity.
  - rewrite Hvb by lia. f_equal. lia.
  - rewrite Hg1 by lia. f_equal. lia.
Qed.

Lemma wp_pure_first : forall A B C (g : M A) (c : res B) (K : A -> B -> M C) m
    (Q : C -> mem -> Prop),
  wp (bind (lift c) (fun e => bind g (fun t => K t e))) m Q ->
  wp (bind g (fun t => bind (lift c) (fun e => K t e))) m Q.
Proof.
  intros A B C g c K m Q. unfold wp, bind, lift.
  destruct c; try contradiction. auto.
Qed.

(** Sizes for which the quotients of all rounds fit an unsigned int. *)
Lemma fits_small : forall w fuel l r, 0 < w -> 0 < l -> 0 < r ->
  l + r <= 2 ^ 32 * (w + 1) -> quotients_fit fuel w l r = true.
Proof.
  intros w fuel. induction fuel as [|f IH]; intros l r Hw Hl Hr Hs; [reflexivity|].
  cbn [quotients_fit].
  destruct (Z.leb_spec l w) as [C1|C1]; [reflexivity|].
  destruct (Z.leb_spec r w) as [C2|C2]; [reflexivity|]. cbn [orb].
  pose proof (Z.mod_pos_bound r l ltac:(lia)) as Hm1.
  pose proof (Z.mod_pos_bound l r ltac:(lia)) as Hm2.
  destruct (Z.ltb_spec l r) as [C3|C3].
  - destruct (Z.eqb_spec (r mod l) 0) as [C4|C4]; [reflexivity|]. apply IH; lia.
  - assert (Hq : l / r < 2 ^ 32) by (apply Z.div_lt_upper_bound; nia).
    destruct (Z.ltb_spec (l / r) (2 ^ 32)) as [C5|C5]; [|lia].
    destruct (Z.eqb_spec (l mod r) 0) as [C4|C4]; [reflexivity|]. apply IH; lia.
Qed.

Lemma fits_sizes : forall w fuel l r, 0 < w -> 0 <= l -> 0 < r ->
  Z.min l r <= 2 ^ 32 * (w + 1) -> r <= w \/ l / r < 2 ^ 32 ->
  quotients_fit fuel w l r = true.
Proof.
  intros w fuel l r Hw Hl Hr Hs Hq. destruct fuel as [|f]; [reflexivity|].
  cbn [quotients_fit].
  destruct (Z.leb_spec l w) as [C1|C1]; [reflexivity|].
  destruct (Z.leb_spec r w) as [C2|C2]; [reflexivity|]. cbn [orb].
  pose proof (Z.mod_pos_bound r l ltac:(lia)) as Hm1.
  pose proof (Z.mod_pos_bound l r ltac:(lia)) as Hm2.
  destruct (Z.ltb_spec l r) as [C3|C3].
  - destruct (Z.eqb_spec (r mod l) 0) as [C4|C4]; [reflexivity|]. apply fits_small; lia.
  - destruct (Z.ltb_spec (l / r) (2 ^ 32)) as [C5|C5]; [|lia].
    destruct (Z.eqb_spec (l mod r) 0) as [C4|C4]; [reflexivity|]. apply fits_small; lia.
Qed.

Lemma wp_rot_loop_with : forall m0 A0 A1 sl sr pl w fuel p n k r m (Q : iter -> mem -> Prop),
  good_left pl w sl -> good_right m0 A0 A1 pl w sr ->
  let A := addr w p in
  same_dom m0 m -> A0 <= A -> A + n <= A1 ->
  valid_w w -> valid_it w p -> wf_mem w m -> w < n -> 0 < k < n ->
  n < 2 ^ Z.of_nat fuel -> n <= 2 ^ 62 -> quotients_fit fuel w k (n - k) = true ->
  mapped w m A (A + n) ->
  (forall m', rotl w m m' A n k -> Q r m') ->
  wp (rot_loop_with sl sr pl w fuel p n k r) m Q.
Proof.
  intros m0 A0 A1 sl sr pl w fuel. induction fuel as [|fuel IH];
    intros p n k r m Q GL GR A Hsd HA0 HA1 Hw Hp Hwf Hn Hk Hf Hmax Hq Hm HQ;
    pose proof (valid_pos w Hw) as Hwp.
  { change (2 ^ Z.of_nat 0) with 1 in Hf. lia. }
  assert (Hpow : 2 ^ Z.of_nat (S fuel) = 2 * 2 ^ Z.of_nat fuel).
  { rewrite Nat2Z.inj_succ, Z.pow_succ_r by lia. reflexivity. }
  cbn [rot_loop_with]. destruct (Z.ltb_spec k (n - k)) as [C1|C1].
  - destruct (Z.leb_spec k w) as [C2|C2].
    + apply wp_pure_first. apply wp_bind, wp_iadd; try assumption; [lia|].
      intros e He Hae.
      apply wp_rot_small_left; try assumption; try lia.
      * replace (addr w p + (addr w e - addr w p)) with (A + n) by (unfold A; lia).
        exact Hm.
      * destruct (Z.eq_dec (ip p) 0); [|tauto]. destruct (Z.eq_dec (ip e) 0); [|tauto].
        right. right. left. intros E. unfold addr in Hae. nia.
      * intros r' m' _ _ R. apply wp_ret, HQ.
        replace n with (addr w e - addr w p) by lia. exact R.
    + apply wp_bind, wp_iadd; try assumption; [lia|]. intros q Hq1 Haq.
      assert (Hquot : Z.quot (n - k) k = (n - k) / k) by (apply Z.quot_div_nonneg; lia).
      rewrite Hquot.
      cbn [quotients_fit] in Hq.
      destruct (Z.leb_spec k w) as [C3|_] in Hq; [lia|].
      destruct (Z.leb_spec (n - k) w) as [C3|_] in Hq; [lia|]. cbn [orb] in Hq.
      destruct (Z.ltb_spec k (n - k)) as [_|C3] in Hq; [|lia].
      assert (Hfit : (n - k) mod k <> 0 ->
        quotients_fit fuel w (k - (n - k) mod k) ((n - k) mod k) = true).
      { intros Hz. destruct (Z.eqb_spec ((n - k) mod k) 0); [lia|]. exact Hq. }
      assert (Hd : 0 <= (n - k) / k) by (apply Z.div_pos; lia).
      pose proof (Z.div_mod (n - k) k ltac:(lia)) as Hdm.
      pose proof (Z.mod_pos_bound (n - k) k ltac:(lia)) as Hmb.
      assert (Hc : 0 <= wrap 32 ((n - k) / k) <= (n - k) / k).
      { unfold wrap. split; [apply Z.mod_pos_bound; lia|]. apply Z.mod_le; lia. }
      set (c := wrap 32 ((n - k) / k)) in *. set (rm := (n - k) mod k) in *.
      assert (Hck : 0 <= c * k <= n - k) by nia.
      assert (Hrm : rm = n mod k).
      { unfold rm. replace (n - k) with (n + (-1) * k) by lia. apply Z_mod_plus_full. }
      clearbody c rm.
      rewrite (wrap_small 64) by lia.
      apply wp_bind, (wp_rot_up pl w (Z.to_nat c) p q k A 0 m); try assumption;
        rewrite ?Z2Nat.id by lia; try lia.
      { eapply mapped_sub; [exact Hm|lia|lia]. }
      { apply slid_refl; [assumption|lia]. }
      intros p1 q1 m1 Hp1 Hq2 Hap1 Haq1 S1.
      rewrite Z.add_0_l in *.
      assert (Hm1 : mapped w m1 A (A + n)) by (eapply slid_mapped; eassumption).
      apply wp_bind, wp_iadd; try assumption; [lia|]. intros e He Hae.
      apply wp_bind, (wp_swap_ranges_over pl w _ _ _ m1 k); try assumption; try lia.
      { apply S1. }
      { eapply mapped_sub; [exact Hm1|lia|lia]. }
      intros r' m2 _ _ S2.
      replace (addr w e - addr w p1) with (n - k - c * k) in S2 by lia. rewrite Hap1 in S2.
      assert (S3 : slid w m m2 A k (n - k)).
      { replace (n - k) with (c * k + (n - k - c * k)) by lia.
        eapply slid_app; [| | |exact S1|exact S2]; lia. }
      apply wp_bind, wp_iadd; try assumption; [lia|]. intros p2 Hp2 Hap2.
      apply wp_bind, wp_iadd; try assumption; [lia|]. intros q2 Hq3 Haq2.
      assert (Hrem : Z.rem n k = rm) by (rewrite Z.rem_mod_nonneg by lia; lia).
      rewrite Hrem. destruct (Z.eqb_spec rm 0) as [C3|C3].
      * apply wp_ret, HQ. eapply slid_rotl0; [lia|lia|exact S3].
      * assert (Hkn : 2 * k <= n) by lia.
        apply IH; try assumption; try lia.
        { eapply same_dom_trans; [exact Hsd|apply S3]. }
        { apply S3. }
        { replace (k - (k - rm)) with rm by lia. apply Hfit. lia. }
        { eapply mapped_sub; [eapply slid_mapped; [exact S3|exact Hm]|lia|lia]. }
        intros m3 R. apply HQ. eapply slid_rotl; [lia|lia|exact S3|].
        rewrite <- Hrm. replace (A + (n - k)) with (addr w p2) by lia. exact R.
  - set (k1 := n - k). destruct (Z.leb_spec k1 w) as [C2|C2].
    + apply wp_bind, wp_iadd; try assumption; [lia|]. intros e He Hae.
      apply wp_bind, wp_isub; try assumption; [unfold k1; lia|]. intros s Hs Has.
      apply wp_pure_first. apply wp_bind, wp_iadd; try assumption; [lia|].
      intros e' He' Hae'.
      apply (wp_rot_small_right m0 A0 A1); try assumption; try (unfold k1; lia).
      * replace (addr w p + (addr w e' - addr w p)) with (A + n) by (unfold A; lia).
        exact Hm.
      * destruct (Z.eq_dec (ip p) 0); [|tauto]. destruct (Z.eq_dec (ip e') 0); [|tauto].
        right. right. left. intros E. unfold addr in Hae'. nia.
      * intros r' m' _ _ R. apply wp_ret, HQ.
        replace n with (addr w e' - addr w p) by lia.
        replace k with (addr w e' - addr w p - k1) by (unfold k1; lia). exact R.
    + apply wp_bind, wp_iadd; try assumption; [lia|]. intros q Hq1 Haq.
      apply wp_bind, wp_isub; try assumption; [unfold k1; lia|]. intros s Hs Has.
      assert (Hk1 : k1 = n - k) by reflexivity. clearbody k1.
      assert (Hquot : Z.quot (n - k1) k1 = (n - k1) / k1) by (apply Z.quot_div_nonneg; lia).
      rewrite Hquot.
      cbn [quotients_fit] in Hq.
      destruct (Z.leb_spec k w) as [C3|_] in Hq; [lia|].
      destruct (Z.leb_spec (n - k) w) as [C3|_] in Hq; [lia|]. cbn [orb] in Hq.
      destruct (Z.ltb_spec k (n - k)) as [C3|_] in Hq; [lia|].
      rewrite <- Hk1 in Hq. replace k with (n - k1) in Hq by lia.
      apply andb_prop in Hq. destruct Hq as (Hql & Hq).
      assert (Hfit : (n - k1) mod k1 <> 0 ->
        quotients_fit fuel w ((n - k1) mod k1) (k1 - (n - k1) mod k1) = true).
      { intros Hz. destruct (Z.eqb_spec ((n - k1) mod k1) 0); [lia|]. exact Hq. }
      assert (Hd : 0 <= (n - k1) / k1 < 2 ^ 32).
      { split; [apply Z.div_pos; lia|]. destruct (Z.ltb_spec ((n - k1) / k1) (2 ^ 32)); [lia|discriminate]. }
      rewrite (wrap_small 32) by exact Hd.
      pose proof (Z.div_mod (n - k1) k1 ltac:(lia)) as Hdm.
      pose proof (Z.mod_pos_bound (n - k1) k1 ltac:(lia)) as Hmb.
      set (c := (n - k1) / k1) in *. set (rm := (n - k1) mod k1) in *.
      assert (Hrm : rm = n mod k1).
      { unfold rm. replace (n - k1) with (n + (-1) * k1) by lia. apply Z_mod_plus_full. }
      clearbody c rm.
      rewrite (wrap_small 64) by lia. replace (n - k1 - c * k1) with rm by lia.
      set (E := A + n).
      assert (HE : E = A + n) by reflexivity. clearbody E.
      assert (HA : A = addr w p) by reflexivity. clearbody A.
      apply wp_bind, (wp_rot_down pl w (Z.to_nat c) s q k1 E 0 m); try assumption;
        rewrite ?Z2Nat.id by lia; try lia.
      { eapply mapped_sub; [exact Hm|lia|lia]. }
      { apply slid_down_refl; [assumption|lia]. }
      intros p1 q1 m1 Hp1 Hq2 Hap1 Haq1 S1.
      rewrite Z.add_0_l in *.
      assert (Hm1 : mapped w m1 A (A + n)) by (eapply slid_down_mapped; eassumption).
      apply wp_bind, wp_isub; try assumption; [lia|]. intros p2 Hp2 Hap2.
      apply wp_bind, wp_isub; try assumption; [lia|]. intros q2 Hq3 Haq2.
      apply wp_bind, wp_iadd; try assumption; [lia|]. intros e He Hae.
      apply wp_bind, wp_swap_ranges; try assumption; try lia.
      { apply S1. }
      { eapply mapped_sub; [exact Hm1|lia|lia]. }
      { eapply mapped_sub; [exact Hm1|lia|lia]. }
      intros r' m2 _ _ S2.
      replace (addr w e - addr w p2) with rm in S2 by lia.
      rewrite Hap2, Haq2, Hap1, Haq1 in S2.
      assert (S3 : slid_down w m m2 E k1 (c * k1 + rm)).
      { eapply slid_down_step; [| | |exact S1|exact S2]; lia. }
      replace (c * k1 + rm) with (n - k1) in S3 by lia.
      assert (Hrem : Z.rem n k1 = rm) by (rewrite Z.rem_mod_nonneg by lia; lia).
      rewrite Hrem. destruct (Z.eqb_spec rm 0) as [C3|C3].
      * apply wp_ret, HQ. replace k with (n - k1) by lia.
        eapply slid_down_rotl0; [lia|lia|rewrite <- HE; exact S3].
      * assert (Hkn : 2 * k1 <= n) by lia.
        apply IH; try assumption; try lia.
        { eapply same_dom_trans; [exact Hsd|apply S3]. }
        { apply S3. }
        { eapply mapped_sub; [eapply slid_down_mapped; [exact S3|exact Hm]|lia|lia]. }
        intros m3 R. apply HQ. replace k with (n - k1) by lia.
        eapply slid_down_rotl; [lia|lia|rewrite <- HE; exact S3|].
        rewrite <- Hrm. replace A with (addr w p2) by lia. exact R.
Qed.

Lemma wp_rotate_via_raw_with : forall sl sr pl w first n_first last m (Q : iter -> mem -> Prop),
  good_left pl w sl -> good_right m (addr w first) (addr w last) pl w sr ->
  let A := addr w first in let n := addr w last - A in let k := addr w n_first - A in
  valid_w w -> valid_it w first -> valid_it w n_first -> valid_it w last ->
  wf_mem w m -> w < n -> 0 < k < n -> n <= 2 ^ 62 -> quotients_fit 64 w k (n - k) = true ->
  mapped w m A (A + n) ->
  (forall r m', valid_it w r -> addr w r = A + (n - k) -> rotl w m m' A n k -> Q r m') ->
  wp (rotate_via_raw_with sl sr pl w first n_first last) m Q.
Proof.
  intros sl sr pl w first n_first last m Q GL GR A n k Hw Hf Hnf Hl Hwf Hn Hk Hmax Hq Hm HQ.
  pose proof (valid_pos w Hw) as Hwp.
  assert (HA : A = addr w first) by reflexivity.
  assert (Hn' : n = addr w last - A) by reflexivity.
  assert (Hk' : k = addr w n_first - A) by reflexivity.
  clearbody A n k. unfold rotate_via_raw_with.
  wpl. rewrite idiff_eq by (assumption || lia). apply rwp_ok.
  wpl. rewrite idiff_eq by (assumption || lia). apply rwp_ok.
  replace (addr w n_first - addr w first) with k by lia.
  replace (addr w last - addr w first) with n by lia.
  destruct (Z.eqb_spec k (n - k)) as [C|C].
  - apply wp_bind, wp_swap_ranges; try assumption; try lia.
    { eapply mapped_sub; [exact Hm|lia|lia]. }
    { eapply mapped_sub; [exact Hm|lia|lia]. }
    intros r m' _ _ S. apply wp_ret, HQ; [assumption|lia|].
    destruct S as (S1 & S2 & S3). split; [assumption|]. split; [assumption|].
    intros i. rewrite S3. bsplit; try reflexivity; f_equal; lia.
  - wpl. rewrite idiff_eq by (assumption || lia). apply rwp_ok.
    apply wp_bind, wp_iadd; try assumption; [lia|]. intros r Hr Har.
    apply (wp_rot_loop_with m (addr w first) (addr w last)); try assumption; try lia.
    { intros a. reflexivity. }
    { rewrite <- HA. assumption. }
    rewrite <- HA. intros m' R. apply HQ; [assumption|lia|assumption].
Qed.

Lemma wp_rotate_one_word : forall pl w first n_first last m (Q : iter -> mem -> Prop),
  let A := addr w first in let n := addr w last - A in let k := addr w n_first - A in
  valid_w w -> valid_it w first -> valid_it w n_first -> valid_it w last ->
  wf_mem w m -> one_word first last = true -> 0 < k < n ->
  w <= 64 \/ n = w \/ n < 64 /\ ip first + n <= 64 -> mapped w m A (A + n) ->
  (forall r m', valid_it w r -> addr w r = A + (n - k) -> rotl w m m' A n k -> Q r m') ->
  wp (rotate_one_word pl w first n_first last) m Q.
Proof.
  intros pl w first n_first last m Q A n k Hw Hf Hnf Hl Hwf Hone Hk Hw64 Hm HQ.
  pose proof (valid_pos w Hw) as Hwp. pose proof (prom_ge w Hw) as Hpr.
  set (b := ib first) in *.
  set (lp := if ip last =? 0 then w else ip last).
  assert (Hlp : addr w last = b * w + lp /\ 0 < lp <= w).
  { unfold one_word in Hone. apply Z.eqb_eq in Hone. fold b in Hone.
    unfold valid_it in Hl. unfold lp, addr. destruct (Z.eqb_spec (ip last) 0) as [E|E];
      cbn [b2z] in Hone; nia. }
  assert (Hnp : ib n_first = b /\ ip n_first = ip first + k).
  { unfold k, n, A, addr in *. unfold valid_it in Hnf, Hf. fold b in Hk, Hlp |- *.
    destruct Hlp as [Hlp1 Hlp2]. rewrite Hlp1 in Hk. assert (ib n_first = b) by nia.
    split; [assumption|]. rewrite H. lia. }
  assert (HA : A = b * w + ip first) by reflexivity.
  assert (HA' : A = addr w first) by reflexivity.
  assert (Hn : n = addr w last - A) by reflexivity.
  assert (Hma : m b <> None).
  { apply (mapped_word w m A (A + n)); try assumption; unfold valid_it in Hf; lia. }
  unfold valid_it in Hf, Hnf.
  clearbody k n A. destruct Hlp as [Hlp1 Hlp2]. destruct Hnp as [Hnp1 Hnp2].
  assert (Hnl : n = lp - ip first) by lia.
  unfold rotate_one_word. fold b.
  destruct ((ip first =? 0) && (ip last =? 0)) eqn:E.
  - assert (E1 : ip first = 0) by lia. assert (E2 : lp = w) by (unfold lp; destruct (Z.eqb_spec (ip last) 0); lia).
    clearbody lp. subst lp.
    apply wp_bind, (wp_load w); try assumption; try lia. intros x Hx Hbx.
    rewrite (usub_small w) by lia.
    wpl. apply rwp_cshr; [lia|]. wpl. apply rwp_cshl; try assumption; try lia.
    intros s Hs.
    assert (Hv : forall j, 0 <= j < w ->
      Z.testbit (wrap w (Z.lor (Z.shiftr x (ip n_first)) (wrap w s))) j =
      if j + k <? w then Z.testbit x (j + k) else Z.testbit x (j + k - w)).
    { intros j Hj. rewrite wrap_testbit, Z.lor_spec, Z.shiftr_spec by lia.
      rewrite (shl_testbit w s x (w - ip n_first)) by (assumption || lia).
      rewrite Hnp2, E1, !Z.add_0_l.
      destruct (Z.ltb_spec j w); [|lia]. cbn [andb].
      destruct (Z.ltb_spec (j + k) w).
      - rewrite (Z.testbit_neg_r x (j - (w - k))) by lia. apply orb_false_r.
      - rewrite (testbit_high w x (j + k)) by lia. cbn [orb]. f_equal. lia. }
    apply wp_bind, (wp_store_part w) with (lo := A) (hi := A + n)
      (f := fun i => bit w m (if i + k <? A + n then i + k else i + k - n));
      try assumption; try lia.
    { apply wrap_range. lia. }
    { intros j Hj. rewrite Hv by lia. unfold inr.
      destruct (Z.leb_spec A (b * w + j)); [|lia].
      destruct (Z.ltb_spec (b * w + j) (A + n)); [|lia]. cbn [andb].
      destruct (Z.ltb_spec (j + k) w); destruct (Z.ltb_spec (b * w + j + k) (A + n)); try lia;
        rewrite Hbx by lia; f_equal; lia. }
    intros m' U. rewrite swrap64_small by lia. apply wp_iadd; try assumption; [lia|].
    intros r Hr Har. apply HQ; [assumption|lia|exact U].
  - fold lp.
    assert (Hd : n < w).
    { unfold lp in Hnl, Hlp2. destruct (Z.eqb_spec (ip last) 0);
      destruct (Z.eqb_spec (ip first) 0); cbn [andb] in E; try discriminate; unfold valid_it in Hl; lia. }
    clearbody lp.
    rewrite (usub_small (ip n_first)), (usub_small lp (ip n_first)), (usub_small lp (ip first)) by lia.
    replace (ip n_first - ip first) with k by lia.
    replace (lp - ip n_first) with (n - k) by lia.
    replace (lp - ip first) with n by lia.
    assert (H64 : n < 64 /\ ip first + n <= 64) by lia. clear Hw64.
    wpl. rewrite (cshl_one pl 64) by (unfold valid_w; lia). apply rwp_ok.
    assert (Hp1 : 1 <= 2 ^ n) by (pose proof (pow_pos n); lia).
    assert (Hp2 : 2 ^ n < 2 ^ 64) by (apply Z.pow_lt_mono_r; lia).
    rewrite (wrap_small 64) by lia.
    assert (Emk : cshl pl 64 (2 ^ n - 1) (ip first) = Ok (wrap 64 (Z.shiftl (2 ^ n - 1) (ip first)))).
    { unfold cshl. change (prom 64) with 64. destruct (Z.leb_spec 0 (ip first)); [|lia].
      destruct (Z.ltb_spec (ip first) 64); [reflexivity|lia]. }
    wpl. rewrite Emk. apply rwp_ok. clear Emk.
    set (mk := wrap 64 (Z.shiftl (2 ^ n - 1) (ip first))).
    assert (Hmask : forall j, 0 <= j < w -> Z.testbit (wrap w mk) j = inr (ip first) lp j).
    { intros j Hj. rewrite wrap_testbit by lia.
      destruct (Z.ltb_spec j w); [|lia]. cbn [andb].
      unfold mk. rewrite wrap_testbit, Z.shiftl_spec by lia.
      unfold inr. destruct (Z.leb_spec (ip first) j).
      - rewrite ones_testbit' by lia. cbn [andb]. lia.
      - rewrite Z.testbit_neg_r by lia. apply andb_false_r. }
    clearbody mk.
    apply wp_bind, (wp_load w); try assumption; try lia. intros x Hx Hbx.
    set (rt := Z.land x (wrap w mk)).
    assert (Hrt : 0 <= rt < 2 ^ w) by (apply land_range; lia).
    assert (Hrb : forall j, 0 <= j < w -> Z.testbit rt j = inr (ip first) lp j && Z.testbit x j).
    { intros j Hj. unfold rt. rewrite Z.land_spec, Hmask by lia. apply andb_comm. }
    clearbody rt.
    wpl. apply rwp_cshr; [lia|]. wpl. apply rwp_cshl; try assumption; try lia.
    intros s Hs. wpl. apply rwp_bitblend; try assumption; try lia.
    { apply lor_range; [lia|apply wrap_range; lia|apply wrap_range; lia]. }
    intros v Hv Hvb.
    apply wp_bind, (wp_store_part w) with (lo := A) (hi := A + n)
      (f := fun i => bit w m (if i + k <? A + n then i + k else i + k - n));
      try assumption; try lia.
    { intros j Hj. rewrite Hvb by lia. rewrite Z.lor_spec.
      rewrite shr_testbit, (shl_testbit w s rt (n - k)) by (assumption || lia).
      unfold inr. destruct (Z.leb_spec (ip first) j); [|].
      2: { destruct (Z.leb_spec A (b * w + j)); [lia|]. cbn [andb].
           rewrite Hbx by lia. f_equal. lia. }
      destruct (Z.leb_spec A (b * w + j)); [|lia]. cbn [andb].
      destruct (Z.ltb_spec j (ip first + n)).
      2: { destruct (Z.ltb_spec (b * w + j) (A + n)); [lia|].
           rewrite Hbx by lia. f_equal. lia. }
      destruct (Z.ltb_spec (b * w + j) (A + n)); [|lia].
      destruct (Z.ltb_spec (b * w + j + k) (A + n)).
      - rewrite Hrb by lia. unfold inr.
        destruct (Z.leb_spec (ip first) (j + k)); [|lia].
        destruct (Z.ltb_spec (j + k) lp); [|lia]. cbn [andb].
        assert (Hz : Z.testbit rt (j - (n - k)) = false).
        { destruct (Z.ltb_spec (j - (n - k)) 0).
          - apply Z.testbit_neg_r. lia.
          - rewrite Hrb by lia. unfold inr.
            destruct (Z.leb_spec (ip first) (j - (n - k))); [lia|]. reflexivity. }
        rewrite Hz, orb_false_r. rewrite Hbx by lia. f_equal. lia.
      - assert (Hz : Z.testbit rt (j + k) = false).
        { destruct (Z.ltb_spec (j + k) w).
          - rewrite Hrb by lia. unfold inr. destruct (Z.ltb_spec (j + k) lp); [lia|].
            rewrite andb_false_r. reflexivity.
          - apply (testbit_high w); lia. }
        rewrite Hz, orb_false_l. rewrite Hrb by lia. unfold inr.
        destruct (Z.leb_spec (ip first) (j - (n - k))); [|lia].
        destruct (Z.ltb_spec (j - (n - k)) lp); [|lia]. cbn [andb].
        rewrite Hbx by lia. f_equal. lia. }
    intros m' U. rewrite swrap64_small by lia. apply wp_iadd; try assumption; [lia|].
    intros r Hr Har. apply HQ; [assumption|lia|exact U].
Qed.

Lemma one_word_size : forall w first last, valid_it w first -> valid_it w last ->
  0 < w -> addr w first < addr w last -> one_word first last = false ->
  ip first <> 0 \/ ip last <> 0 \/ ib last - ib first <> 1.
Proof.
  intros w first last Hf Hl Hw Hlt H. unfold one_word in H.
  destruct (Z.eqb_spec (ip last) 0) as [E|E]; [|tauto].
  right. right. cbn [b2z] in H. lia.
Qed.

Lemma wp_rotate_with : forall sl sr pl w first n_first last m (Q : iter -> mem -> Prop),
  good_left pl w sl -> good_right m (addr w first) (addr w last) pl w sr ->
  let A := addr w first in let n := addr w last - A in let k := addr w n_first - A in
  valid_w w -> valid_it w first -> valid_it w n_first -> valid_it w last ->
  wf_mem w m -> 0 <= k < n -> n <= 2 ^ 62 ->
  w <= 64 \/ w < ip first + n \/ n = w \/ n < 64 /\ ip first + n <= 64 ->
  quotients_fit 64 w k (n - k) = true ->
  mapped w m A (A + n) ->
  (forall r m', valid_it w r -> addr w r = A + (n - k) -> rotl w m m' A n k -> Q r m') ->
  wp (rotate_with sl sr pl w first n_first last) m Q.
Proof.
  intros sl sr pl w first n_first last m Q GL GR A n k Hw Hf Hnf Hl Hwf Hk Hmax Hw64 Hq Hm HQ.
  pose proof (valid_pos w Hw) as Hwp.
  unfold rotate_with.
  apply wp_bind, wp_assert_viable; try assumption; [unfold A, n, k in *; lia|].
  apply wp_bind, wp_assert_viable; try assumption; [unfold A, n, k in *; lia|].
  apply wp_bind, wp_assert_viable; try assumption; [unfold A, n, k in *; lia|].
  rewrite (ieq_addr w) by (assumption || lia).
  destruct (Z.eqb_spec (addr w first) (addr w n_first)) as [C1|C1].
  { apply wp_ret, HQ; [assumption|unfold A, n, k; lia|].
    apply updated_refl; [assumption|]. intros i Hi. cbv beta.
    replace k with 0 by (unfold k, A; lia). rewrite Z.add_0_r.
    destruct (Z.ltb_spec i (A + n)); [reflexivity|lia]. }
  destruct (one_word first last) eqn:C2.
  { apply wp_rotate_one_word; try assumption; [unfold n, k, A in *; lia|].
    fold A n. destruct Hw64 as [H|[H|H]]; [left; exact H| |tauto]. exfalso.
    unfold one_word in C2. apply Z.eqb_eq in C2. unfold n, A, addr, valid_it in *.
    destruct (Z.eqb_spec (ip last) 0) as [E|E]; cbn [b2z] in C2; nia. }
  assert (Hg : ip first <> 0 \/ ip last <> 0 \/ ib last - ib first <> 1 \/ full_blend_defined pl w).
  { assert (Hlt : addr w first < addr w last) by (unfold n, k, A in *; lia).
    destruct (one_word_size w first last Hf Hl ltac:(lia) Hlt C2) as [H|[H|H]]; tauto. }
  apply wp_bind, wp_within; try assumption; [unfold A, n, k in *; lia|].
  destruct (Z.leb_spec (addr w n_first - addr w first) w) as [C3|C3].
  { apply wp_bind, wp_distance; try assumption; [unfold A, n, k in *; lia|].
    apply wp_rot_small_left; try assumption; try (unfold A, n, k in *; lia).
    intros r m' Hr Har R. apply wp_ret, HQ; [assumption|unfold A, n, k; lia|exact R]. }
  apply wp_bind, wp_within; try assumption; [unfold A, n, k in *; lia|].
  destruct (Z.leb_spec (addr w last - addr w n_first) w) as [C4|C4].
  { apply wp_bind, wp_distance; try assumption; [unfold A, n, k in *; lia|].
    apply (wp_rot_small_right m (addr w first) (addr w last)); try assumption;
      try (unfold A, n, k in *; lia).
    { intros a. reflexivity. }
    intros r m' Hr Har R. apply wp_ret, HQ; [assumption|unfold A, n, k in *; lia|].
    replace k with (n - (addr w last - addr w n_first)) by (unfold n, k; lia). exact R. }
  apply wp_rotate_via_raw_with; try assumption; unfold A, n, k in *; lia.
Qed.

Lemma rotate_with_ok : forall sl sr p w m first n_first last,
  good_left p w sl -> good_right m (addr w first) (addr w last) p w sr ->
  valid_w w -> wf_mem w m -> good_range w m first last -> valid_it w n_first ->
  addr w first <= addr w n_first < addr w last ->
  mask_fits w (ip first) (addr w last - addr w first) ->
  quotients_fit 64 w (addr w n_first - addr w first) (addr w last - addr w n_first) = true ->
  exists r m', rotate_with sl sr p w first n_first last m = Ok (r, m') /\ valid_it w r /\
    addr w r = addr w first + (addr w last - addr w n_first) /\
    updated w m m' (addr w first) (addr w last)
      (fun i => let j := i + (addr w n_first - addr w first) in
         bit w m (if j <? addr w last then j else j - (addr w last - addr w first))).
Proof.
  intros sl sr p w m first n_first last GL GR Hw Hwf (Hf & Hl & Hd & Hm) Hnf Hlt Hmf Hq.
  assert (H : wp (rotate_with sl sr p w first n_first last) m (fun r m' => valid_it w r /\
    addr w r = addr w first + (addr w last - addr w n_first) /\
    updated w m m' (addr w first) (addr w last)
      (fun i => let j := i + (addr w n_first - addr w first) in
         bit w m (if j <? addr w last then j else j - (addr w last - addr w first))))).
  { replace (addr w last - addr w n_first)
      with (addr w last - addr w first - (addr w n_first - addr w first)) in Hq by lia.
    apply wp_rotate_with; try assumption; try (unfold max_bits in *; lia).
    { replace (addr w first + (addr w last - addr w first)) with (addr w last) by lia.
      exact Hm. }
    intros r m' Hr Har R. split; [assumption|]. split; [lia|].
    unfold rotl in R.
    replace (addr w first + (addr w last - addr w first)) with (addr w last) in R by lia.
    exact R. }
  unfold wp in H. destruct (rotate_with sl sr p w first n_first last m) as [[r m']| | | |]; try contradiction.
  exists r, m'. split; [reflexivity|exact H].
Qed.

Lemma rotate_fit_ok : forall p w m first n_first last,
  valid_w w -> wf_mem w m -> good_range w m first last -> valid_it w n_first ->
  addr w first <= addr w n_first < addr w last ->
  mask_fits w (ip first) (addr w last - addr w first) ->
  quotients_fit 64 w (addr w n_first - addr w first) (addr w last - addr w n_first) = true ->
  exists r m', rotate p w first n_first last m = Ok (r, m') /\ valid_it w r /\
    addr w r = addr w first + (addr w last - addr w n_first) /\
    updated w m m' (addr w first) (addr w last)
      (fun i => let j := i + (addr w n_first - addr w first) in
         bit w m (if j <? addr w last then j else j - (addr w last - addr w first))).
Proof.
  intros p w m first n_first last. rewrite <- rotate_with_scalar.
  apply rotate_with_ok; [apply good_left_scalar|apply good_right_scalar].
Qed.

Lemma rotate_ok : forall p w m first n_first last,
  valid_w w -> wf_mem w m -> good_range w m first last -> valid_it w n_first ->
  addr w first <= addr w n_first < addr w last ->
  Z.min (addr w n_first - addr w first) (addr w last - addr w n_first)
    <= 2 ^ 32 * (w + 1) ->
  mask_fits w (ip first) (addr w last - addr w first) ->
  (addr w last - addr w n_first <= w \/
   (addr w n_first - addr w first) / (addr w last - addr w n_first) < 2 ^ 32) ->
  exists r m', rotate p w first n_first last m = Ok (r, m') /\ valid_it w r /\
    addr w r = addr w first + (addr w last - addr w n_first) /\
    updated w m m' (addr w first) (addr w last)
      (fun i => let j := i + (addr w n_first - addr w first) in
         bit w m (if j <? addr w last then j else j - (addr w last - addr w first))).
Proof.
  intros p w m first n_first last Hw Hwf Hr Hnf Hlt Hs Hmf Hq.
  pose proof (valid_pos w Hw) as Hwp.
  apply rotate_fit_ok; try assumption. apply fits_sizes; try assumption; lia.
Qed.

(** ** n_first = last *)

Lemma wp_write_none : forall p w src dst m (Q : unit -> mem -> Prop),
  valid_w w -> valid_it w dst -> wf_mem w m -> m (ib dst) <> None ->
  0 <= src < 2 ^ w ->
  (forall m', updated w m m' 0 0 (fun _ => false) -> Q tt m') ->
  wp (write_word p w src dst 0) m Q.
Proof.
  intros p w src dst m Q Hw Hd Hwf Hm Hs HQ.
  pose proof (valid_pos w Hw) as Hwp. pose proof (prom_ge w Hw) as Hpr.
  unfold valid_it in Hd. unfold write_word.
  destruct (Z.eqb_spec 0 w); [lia|]. rewrite andb_false_r.
  apply wp_bind, (wp_load w); try assumption; try lia. intros x Hx Hbx.
  wpl. apply rwp_cshl; try assumption; try lia. intros s Es.
  wpl. apply rwp_bitblend; try assumption; try lia.
  { apply wrap_range. lia. }
  intros v Hv Hvb. destruct (Z.ltb_spec (w - ip dst) 0); [lia|].
  apply wp_bind, (wp_store w); try assumption; try lia.
  intros m' H1 H2 H3. apply wp_ret, HQ. split; [assumption|]. split; [assumption|].
  intros i. rewrite H3. unfold inr.
  destruct (Z.leb_spec (ib dst * w) i); destruct (Z.ltb_spec i (ib dst * w + w));
    cbn [andb]; try (bsplit; reflexivity).
  rewrite Hvb by lia. unfold inr.
  rewrite Hbx by lia. bsplit; try reflexivity.
Qed.

Lemma rotate_all_ok : forall p w m first last,
  valid_w w -> wf_mem w m -> good_range w m first last ->
  addr w first < addr w last -> m (ib last) <> None ->
  (ip last <> 0 \/ w < addr w last - addr w first) ->
  mask_fits w (ip first) (addr w last - addr w first) ->
  exists m', rotate p w first last last m = Ok (first, m') /\
    forall i, bit w m' i = bit w m i.
Proof.
  intros p w m first last Hw Hwf Hgr Hlt Hml Hg Hmf.
  pose proof (valid_pos w Hw) as Hwp. pose proof (prom_ge w Hw) as Hpr.
  pose proof Hgr as (Hf & Hl & Hd & Hm). unfold max_bits in Hd.
  enough (H : wp (rotate p w first last last) m (fun r m' => r = first /\
    forall i, bit w m' i = bit w m i)).
  { unfold wp in H. destruct (rotate p w first last last m) as [[r m']| | | |]; try contradiction.
    destruct H as [-> H]. exists m'. split; [reflexivity|exact H]. }
  unfold rotate.
  apply wp_bind, wp_assert_viable; try assumption.
  apply wp_bind, wp_assert_viable; try assumption; [lia|].
  apply wp_bind, wp_assert_viable; try assumption.
  rewrite (ieq_addr w) by (assumption || lia).
  destruct (Z.eqb_spec (addr w first) (addr w last)) as [C1|C1]; [lia|].
  destruct (one_word first last) eqn:C2.
  - unfold one_word in C2. apply Z.eqb_eq in C2.
    assert (E : ip last <> 0).
    { intros E. rewrite E in C2. cbn [b2z Z.eqb] in C2. unfold valid_it, addr in *. nia. }
    destruct (Z.eqb_spec (ip last) 0) as [E'|_]; [contradiction|]. cbn [b2z] in C2.
    rewrite Z.add_0_r in C2. set (b := ib first) in *.
    set (n := ip last - ip first).
    assert (Hn : n = ip last - ip first) by reflexivity.
    assert (Hn0 : 0 < n < w).
    { unfold addr in Hlt. fold b in Hlt. rewrite <- C2 in Hlt. unfold valid_it in *. lia. }
    assert (Hna : n = addr w last - addr w first)
      by (unfold addr; fold b; rewrite <- C2; lia).
    rewrite <- Hna in Hmf. unfold mask_fits in Hmf.
    clearbody n. unfold rotate_one_word. fold b.
    destruct (Z.eqb_spec (ip last) 0) as [E'|_]; [contradiction|]. rewrite andb_false_r.
    unfold valid_it in Hf, Hl.
    assert (H64 : n < 64 /\ ip first + n <= 64) by lia.
    rewrite (usub_small (ip last) (ip last)), (usub_small (ip last) (ip first)) by lia.
    rewrite Z.sub_diag, <- Hn.
    wpl. rewrite (cshl_one p 64) by (unfold valid_w; lia). apply rwp_ok.
    assert (Hp1 : 1 <= 2 ^ n) by (pose proof (pow_pos n); lia).
    assert (Hp2 : 2 ^ n < 2 ^ 64) by (apply Z.pow_lt_mono_r; lia).
    rewrite (wrap_small 64) by lia.
    assert (Emk : cshl p 64 (2 ^ n - 1) (ip first) = Ok (wrap 64 (Z.shiftl (2 ^ n - 1) (ip first)))).
    { unfold cshl. change (prom 64) with 64. destruct (Z.leb_spec 0 (ip first)); [|lia].
      destruct (Z.ltb_spec (ip first) 64); [reflexivity|lia]. }
    wpl. rewrite Emk. apply rwp_ok. clear Emk.
    set (mk := wrap 64 (Z.shiftl (2 ^ n - 1) (ip first))).
    assert (Hmask : forall j, 0 <= j < w -> Z.testbit (wrap w mk) j = inr (ip first) (ip last) j).
    { intros j Hj. rewrite wrap_testbit by lia.
      destruct (Z.ltb_spec j w); [|lia]. cbn [andb].
      unfold mk. rewrite wrap_testbit, Z.shiftl_spec by lia.
      unfold inr. destruct (Z.leb_spec (ip first) j).
      - rewrite ones_testbit' by lia. cbn [andb]. lia.
      - rewrite Z.testbit_neg_r by lia. apply andb_false_r. }
    clearbody mk. rewrite <- C2 in Hml.
    apply wp_bind, (wp_load w); try assumption; try lia. intros x Hx Hbx.
    set (rt := Z.land x (wrap w mk)).
    assert (Hrt : 0 <= rt < 2 ^ w) by (apply land_range; lia).
    assert (Hrb : forall j, 0 <= j < w ->
      Z.testbit rt j = inr (ip first) (ip last) j && Z.testbit x j).
    { intros j Hj. unfold rt. rewrite Z.land_spec, Hmask by lia. apply andb_comm. }
    clearbody rt.
    wpl. apply rwp_cshr; [lia|]. wpl. apply rwp_cshl; try assumption; try lia.
    intros s Hs. wpl. apply rwp_bitblend; try assumption; try lia.
    { apply lor_range; [lia|apply wrap_range; lia|apply wrap_range; lia]. }
    intros v Hv Hvb.
    assert (Hvx : v = x).
    { apply (word_ext w); try assumption; try lia. intros j Hj. rewrite Hvb by lia.
      unfold inr. destruct (Z.leb_spec (ip first) j); [|reflexivity].
      destruct (Z.ltb_spec j (ip first + n)); [|reflexivity]. cbn [andb].
      rewrite Z.lor_spec, shr_testbit, (shl_testbit w s rt 0) by (assumption || lia).
      rewrite Z.sub_0_r, (Hrb j) by lia. unfold inr.
      destruct (Z.leb_spec (ip first) j); [|lia].
      destruct (Z.ltb_spec j (ip last)); [|lia]. cbn [andb].
      assert (Hz : Z.testbit rt (j + n) = false).
      { destruct (Z.ltb_spec (j + n) w).
        - rewrite Hrb by lia. unfold inr. destruct (Z.ltb_spec (j + n) (ip last)); [lia|].
          rewrite andb_false_r. reflexivity.
        - apply (testbit_high w); lia. }
      rewrite Hz. reflexivity. }
    apply wp_bind, (wp_store w); try assumption; try lia.
    intros m' H1 H2 H3. rewrite swrap64_small by lia.
    apply wp_iadd; try assumption; [lia|].
    intros r Hr Har. split.
    { apply (addr_inj w); try assumption; lia. }
    intros i. rewrite H3, Hvx.
    destruct (inr (b * w) (b * w + w) i) eqn:Ei; [|reflexivity].
    unfold inr in Ei. rewrite Hbx by lia. reflexivity.
  - assert (Hg2 : w < addr w last - addr w first \/ addr w last - addr w first <= w) by lia.
    apply wp_bind, wp_within; try assumption; [lia|].
    destruct (Z.leb_spec (addr w last - addr w first) w) as [C3|C3].
    + apply wp_bind, wp_distance; try assumption.
      apply wp_bind, wp_get_word; try assumption; [lia| |].
      { eapply mapped_sub; [exact Hm|lia|lia]. }
      intros v Hv Hvb. apply wp_bind.
      destruct (shift_left_none p w m first last (addr w last - addr w first) Hw Hgr)
        as [_ Hsl].
      unfold wp at 1. rewrite Hsl by lia. 
      apply wp_bind, wp_write_word; try assumption; [lia| |].
      { eapply mapped_sub; [exact Hm|lia|lia]. }
      intros m' (_ & _ & U). apply wp_ret. split; [reflexivity|].
      intros i. rewrite U. unfold inr.
      destruct (Z.leb_spec (addr w first) i); [|reflexivity].
      destruct (Z.ltb_spec i (addr w first + (addr w last - addr w first))); [|reflexivity].
      cbn [andb]. rewrite Hvb by lia. f_equal. lia.
    + apply wp_bind, wp_within; try assumption; [lia|].
      rewrite Z.sub_diag. destruct (Z.leb_spec 0 w); [|lia].
      apply wp_bind, wp_distance; try assumption; [lia|]. rewrite Z.sub_diag.
      apply wp_bind. unfold get_word. destruct (Z.ltb_spec w 0); [lia|].
      apply wp_bind, (wp_load w); try assumption; try lia. intros x Hx Hbx.
      unfold valid_it in Hl.
      wpl. apply rwp_cshr; [lia|]. destruct (Z.leb_spec 0 (w - ip last)); [|lia].
      apply wp_ret, wp_bind.
      destruct (shift_right_none p w m first last 0 Hw Hgr)
        as [Hsr _].
      unfold wp at 1. rewrite Hsr by lia.
      apply wp_bind, wp_write_none; try assumption.
      { apply (mapped_word w m (addr w first) (addr w last)); try assumption;
          [lia| |]; set (L := addr w last) in *; clearbody L;
          unfold addr in *; unfold valid_it in Hf; lia. }
      { apply wrap_range. lia. }
      intros m' (_ & _ & U). apply wp_ret. split; [reflexivity|].
      intros i. rewrite U. bsplit; reflexivity.
Qed.

(** Reading past the end of the array. *)
Lemma rotate_all_overread : forall p w m first last,
  valid_w w -> wf_mem w m -> good_range w m first last ->
  w < addr w last - addr w first -> m (ib last) = None ->
  rotate p w first last last m = UB OutOfBounds.
Proof.
  intros p w m first last Hw Hwf Hgr Hlt Hml.
  pose proof (valid_pos w Hw) as Hwp.
  pose proof Hgr as (Hf & Hl & Hd & Hm). unfold max_bits in Hd.
  unfold rotate. unfold bind, lift.
  rewrite !assert_viable_eq by (assumption || lia).
  rewrite (ieq_addr w) by (assumption || lia).
  destruct (Z.eqb_spec (addr w first) (addr w last)) as [C1|C1]; [lia|].
  destruct (one_word first last) eqn:C2.
  { unfold one_word in C2. apply Z.eqb_eq in C2. unfold valid_it, addr in *.
    destruct (Z.eqb_spec (ip last) 0); cbn [b2z] in C2; nia. }
  rewrite is_within_eq by (assumption || lia).
  destruct (Z.leb_spec (addr w last - addr w first) w) as [C3|C3]; [lia|].
  rewrite is_within_eq by (assumption || lia).
  rewrite Z.sub_diag. destruct (Z.leb_spec 0 w); [|lia].
  rewrite distance_eq by (assumption || lia). rewrite Z.sub_diag.
  unfold get_word. destruct (Z.ltb_spec w 0); [lia|].
  unfold bind, load. rewrite Hml. reflexivity.
Qed.

Lemma rotate_all_word : forall p w first last, valid_w w ->
  valid_it w first -> valid_it w last ->
  0 < addr w last - addr w first <= w -> ip last = 0 -> forall m,
  ib last = ib first + 1 /\
  rotate p w first last last m = rotate_one_word p w first last last m.
Proof.
  intros p w first last Hw Hf Hl Hd E m.
  pose proof (valid_pos w Hw) as Hwp.
  assert (Hb : ib last = ib first + 1) by (unfold valid_it, addr in *; nia).
  split; [exact Hb|].
  unfold rotate. unfold bind at 1 2 3. unfold lift at 1 2 3.
  rewrite !assert_viable_eq by (assumption || lia).
  rewrite (ieq_addr w) by (assumption || lia).
  destruct (Z.eqb_spec (addr w first) (addr w last)) as [C1|C1]; [lia|].
  replace (one_word first last) with true; [reflexivity|].
  unfold one_word. rewrite E. cbn [Z.eqb b2z]. lia.
Qed.

(** The last word of the range is whole: undefined, ... *)
Lemma rotate_all_undefined : forall p w m first last,
  valid_w w -> wf_mem w m -> good_range w m first last ->
  p = Strict17 \/ p = Strict20 ->
  0 < addr w last - addr w first <= w -> ip last = 0 ->
  (ip first <> 0 \/ 32 <= w) ->
  rotate p w first last last m = UB OverShift.
Proof.
  intros p w m first last Hw Hwf (Hf & Hl & Hd & Hm) Hp Hlt E Hg.
  pose proof (valid_pos w Hw) as Hwp. pose proof (prom_ge w Hw) as Hpr.
  destruct (rotate_all_word p w first last Hw Hf Hl Hlt E m) as [Hb ->].
  assert (Hma : m (ib first) <> None).
  { apply (mapped_word w m (addr w first) (addr w last)); try assumption; try lia;
      unfold addr in *; unfold valid_it in *; nia. }
  destruct (dom_some m (ib first) Hma) as [x Hx].
  unfold rotate_one_word. rewrite E. cbn [Z.eqb]. rewrite andb_true_r.
  destruct (Z.eqb_spec (ip first) 0) as [E1|E1].
  - unfold bind at 1. unfold load. rewrite Hx.
    unfold bind at 1. unfold lift at 1. unfold cshr. cbn [Z.leb Z.compare andb].
    destruct (Z.ltb_spec 0 (prom w)); [|lia].
    unfold bind at 1. unfold lift at 1.
    rewrite (usub_small w 0), Z.sub_0_r by lia. unfold cshl.
    destruct (Z.ltb_spec w (prom w)) as [C|C].
    { unfold prom in C. destruct (Z.ltb_spec w 32); lia. }
    rewrite andb_false_r. destruct Hp as [-> | ->]; reflexivity.
  - unfold valid_it in Hf.
    rewrite (usub_small w (ip first)), (usub_small w 0) by lia.
    destruct (Z.lt_ge_cases (w - ip first) 64) as [D64|D64].
    2: { unfold bind at 1. unfold lift at 1. unfold cshl. change (prom 64) with 64.
         destruct (Z.ltb_spec (w - ip first) 64); [lia|]. rewrite andb_false_r.
         destruct Hp as [-> | ->]; reflexivity. }
    unfold bind at 1. unfold lift at 1. rewrite (cshl_one p 64) by (unfold valid_w; lia).
    assert (Hp1 : 1 <= 2 ^ (w - ip first)) by (pose proof (pow_pos (w - ip first)); lia).
    assert (Hp2 : 2 ^ (w - ip first) < 2 ^ 64) by (apply Z.pow_lt_mono_r; lia).
    rewrite (wrap_small 64) by lia.
    destruct (Z.lt_ge_cases (ip first) 64) as [P64|P64].
    2: { unfold bind at 1. unfold lift at 1. unfold cshl. change (prom 64) with 64.
         destruct (Z.ltb_spec (ip first) 64); [lia|]. rewrite andb_false_r.
         destruct Hp as [-> | ->]; reflexivity. }
    assert (Hc : exists mk, cshl p 64 (2 ^ (w - ip first) - 1) (ip first) = Ok mk).
    { assert (R : rwp (cshl p 64 (2 ^ (w - ip first) - 1) (ip first)) (fun _ => True)).
      { apply rwp_cshl; [unfold valid_w; lia|lia|lia|change (prom 64) with 64; lia|tauto]. }
      destruct (cshl p 64 (2 ^ (w - ip first) - 1) (ip first)) as [mk| | | |]; try contradiction R.
      exists mk. reflexivity. }
    destruct Hc as [mk Hc].
    unfold bind at 1. unfold lift at 1. rewrite Hc.
    unfold bind at 1. unfold load. rewrite Hx.
    unfold bind at 1. unfold lift at 1. unfold cshr.
    assert (Hk : usub 0 (ip first) = 2 ^ 64 - ip first).
    { unfold usub, wrap. symmetry. apply Z.mod_unique with (q := -1); lia. }
    rewrite Hk.
    assert (Hpm : prom w <= 128) by (unfold prom; destruct (Z.ltb_spec w 32); lia).
    destruct (Z.ltb_spec (2 ^ 64 - ip first) (prom w)); [lia|].
    rewrite andb_false_r. destruct Hp as [-> | ->]; reflexivity.
Qed.

(** ... or, for words narrower than int, last is returned. *)
Lemma rotate_all_last : forall p w m first last,
  valid_w w -> wf_mem w m -> good_range w m first last ->
  w < 32 -> addr w last - addr w first = w -> ip last = 0 ->
  exists m', rotate p w first last last m = Ok (last, m').
Proof.
  intros p w m first last Hw Hwf (Hf & Hl & Hd & Hm) H32 Hlt E.
  pose proof (valid_pos w Hw) as Hwp. pose proof (prom_ge w Hw) as Hpr.
  destruct (rotate_all_word p w first last Hw Hf Hl ltac:(lia) E m) as [Hb ->].
  assert (E1 : ip first = 0) by (unfold addr in *; nia).
  assert (Hma : m (ib first) <> None).
  { apply (mapped_word w m (addr w first) (addr w last)); try assumption; try lia;
      unfold addr in *; unfold valid_it in *; nia. }
  assert (H : wp (rotate_one_word p w first last last) m (fun r _ => r = last)).
  { unfold rotate_one_word. rewrite E, E1. cbn [Z.eqb andb].
    apply wp_bind, (wp_load w); try assumption; try lia. intros x Hx Hbx.
    wpl. apply rwp_cshr; [lia|]. rewrite (usub_small w 0), Z.sub_0_r by lia.
    wpl. apply rwp_cshl; try assumption; try lia.
    { unfold prom. destruct (Z.ltb_spec w 32); lia. }
    intros s Hs. apply wp_bind, (wp_store w); try assumption; try lia.
    { apply wrap_range. lia. }
    intros m' _ _ _. rewrite swrap64_small by lia.
    apply wp_iadd; try assumption; [lia|]. intros r Hr Har.
    apply (addr_inj w); try assumption; lia. }
  unfold wp in H. destruct (rotate_one_word p w first last last m) as [[r m']| | | |];
    try contradiction. subst r. exists m'. reflexivity.
Qed.

Lemma rotate_all_refuted :
  (exists w m first last, valid_w w /\ wf_mem w m /\ good_range w m first last /\
     addr w first < addr w last /\
     rotate Strict20 w first last last m = UB OutOfBounds) /\
  (exists w m first last, valid_w w /\ wf_mem w m /\ good_range w m first last /\
     addr w first < addr w last /\
     rotate Strict20 w first last last m = UB OverShift) /\
  (exists w m first last r m', valid_w w /\ wf_mem w m /\ good_range w m first last /\
     addr w first < addr w last /\
     rotate Strict20 w first last last m = Ok (r, m') /\ r <> first).
Proof.
  split; [|split].
  - exists 64, (mem_of [1; 2]), (It 0 3), (It 2 0). demo.
  - exists 64, (mem_of [1; 2]), (It 0 0), (It 1 0). demo.
  - exists 8, (mem_of [1; 2]), (It 0 0), (It 1 0), (It 1 0).
    destruct (rotate_all_last Strict20 8 (mem_of [1; 2]) (It 0 0) (It 1 0)) as [m' H];
      try (demo; fail). exists m'.
    split; [unfold valid_w; lia|]. split; [demo|]. split; [demo|]. split; [demo|].
    split; [exact H|discriminate].
Qed.
