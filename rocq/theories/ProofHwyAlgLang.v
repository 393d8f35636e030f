(** reverse and rotate in the BITLIB_HWY build under the rules of the language. *)
From Coq Require Import ZArith Bool List Lia.
From Coq Require Import ZifyBool.
From Verif Require Import Base WordOps IterModel AlgModel ShiftModel SwapModel
  ReverseModel RotateModel HwyModel HwyAlgModel Spec SpecHwy SpecRotate SpecStd SpecPoint
  ProofBase ProofIter ProofWord ProofAlg1 ProofShift ProofSwap ProofSwapOver ProofHwy ProofWith ProofReverse ProofRotate
  ProofRotateAll ProofOracle ProofHwyRight ProofHwyAlg.
Import ListNotations.
Open Scope Z_scope.
Ltac Zify.zify_post_hook ::= idtac.

Lemma good_right_later : forall m0 A0 B0 A1 p w sr, A0 <= B0 ->
  good_right m0 A0 A1 p w sr -> good_right m0 B0 A1 p w sr.
Proof.
  intros m0 A0 B0 A1 p w sr H G first last n m Q d Vw V1 V2 Hwf Hd HA HA1.
  apply (G first last n m Q); try assumption. lia.
Qed.

(** ** rotate *)
Lemma rotate_hwy_strict : forall p q h w m first n_first last,
  valid_w w -> vector_fits h w -> wf_mem w m -> good_range w m first last ->
  valid_it w n_first -> addr w first <= addr w n_first < addr w last ->
  mask_fits w (ip first) (addr w last - addr w first) ->
  (forall a, ib first - lanes h < a < ib first -> m a <> None) ->
  agree (rotate_hwy p h w first n_first last) (rotate q w first n_first last) m.
Proof.
  intros p q h w m first n_first last Vw Hfit Hwf (Hf & Hl & Hd & Hm) Hnf Hlt Hmf Hroom.
  pose proof (valid_pos w Vw) as Hwp. unfold max_bits in Hd.
  destruct (rotate_every_with w first n_first last Vw Hf Hnf Hl Hlt ltac:(unfold max_bits; lia) Hmf)
    as (s & _ & _ & _ & Hrun).
  assert (Hm' : mapped w m (addr w first) (addr w first + (addr w last - addr w first))).
  { replace (addr w first + (addr w last - addr w first)) with (addr w last) by lia. exact Hm. }
  assert (GR : good_right m (addr w first) (addr w last) p w (shift_right_hwy p h w)).
  { apply (good_right_later m (ib first * w)).
    { unfold valid_it, addr in *. lia. }
    apply good_right_room; [exact Hfit|]. intros a Ha Hb.
    destruct (Z.lt_ge_cases a (ib first)) as [C|C]; [apply Hroom; lia|].
    pose proof (mul_mono w (ib first + 1) (a + 1) ltac:(lia) ltac:(lia)).
    unfold valid_it, addr in *.
    eapply (mapped_word w); [lia|exact Hm|..]; lia. }
  destruct (Hrun _ _ p m (good_left_hwy p h w Hfit) GR Hwf Hm') as (r1 & m1 & E1 & V1 & A1 & U1).
  destruct (Hrun _ _ q m (good_left_scalar q w) (good_right_scalar m _ _ q w) Hwf Hm')
    as (r2 & m2 & E2 & V2 & A2 & U2).
  rewrite rotate_with_scalar in E2.
  assert (r2 = r1) as -> by (apply (addr_inj w); try assumption; lia).
  exists r1, m1, m2. split; [exact E1|]. split; [exact E2|].
  exact (updated_same w m m1 m2 _ _ _ ltac:(lia) U1 U2).
Qed.

(** What a program [F] with the shift as a parameter does with it: nothing, or one call. *)
Definition shape (w : Z) (o : option (Z * Z * Z))
  (F : (iter -> iter -> Z -> M iter) -> M iter) (m : mem) : Prop :=
  match o with
  | None => forall sr1 sr2, F sr1 m = F sr2 m
  | Some (a, b, n) => w < b - a /\ 0 < n < b - a /\ b - a <= 2 ^ 62 /\
    exists f l m1 K, valid_it w f /\ valid_it w l /\ addr w f = a /\ addr w l = b /\
      wf_mem w m1 /\ same_dom m m1 /\ mapped w m1 a b /\
      forall sr, F sr m = bind (sr f l n) K m1
  end.

Lemma shape_bind : forall A w o (c : M A) (G : (iter -> iter -> Z -> M iter) -> A -> M iter) m,
  wp c m (fun x m' => same_dom m m' /\ shape w o (fun sr => G sr x) m') ->
  shape w o (fun sr => bind c (G sr)) m.
Proof.
  intros A w o c G m H. apply wp_exists in H. destruct H as (x & m' & E & Hd & S).
  destruct o as [[[a b] n]|]; cbn [shape] in *.
  - destruct S as (S1 & S2 & S3 & f & l & m1 & K & V1 & V2 & A1 & A2 & Hwf & Hd1 & Hm & HF).
    split; [exact S1|]. split; [exact S2|]. split; [exact S3|].
    exists f, l, m1, K. repeat (split; [assumption|]).
    split; [eapply same_dom_trans; eassumption|]. split; [exact Hm|].
    intros sr. unfold bind at 1. rewrite E. apply HF.
  - intros sr1 sr2. unfold bind. rewrite E. apply S.
Qed.

Lemma same_dom_id : forall m, same_dom m m.
Proof. intros m a. reflexivity. Qed.

Lemma rot_loop_shape : forall sl pl w fuel p n k r m,
  valid_w w -> valid_it w p -> wf_mem w m -> w < n -> 0 < k < n -> n <= 2 ^ 62 ->
  mapped w m (addr w p) (addr w p + n) ->
  shape w (last_shift fuel w (addr w p) k (n - k))
    (fun sr => rot_loop_with sl sr pl w fuel p n k r) m.
Proof.
  intros sl pl w fuel. induction fuel as [|f IH];
    intros p n k r m Vw Hp Hwf Hn Hk Hmax Hm; pose proof (valid_pos w Vw) as Hwp.
  { intros sr1 sr2. reflexivity. }
  cbn [last_shift rot_loop_with].
  destruct (Z.ltb_spec k (n - k)) as [C1|C1].
  - destruct (Z.leb_spec k w) as [C2|C2]; cbn [orb].
    { intros sr1 sr2. reflexivity. }
    assert (Hrm : (n - k) mod k = n mod k).
    { replace (n - k) with (n + (-1) * k) by lia. apply Z_mod_plus_full. }
    rewrite Hrm.
    pose proof (Z.mod_pos_bound n k ltac:(lia)) as Hmb0.
    apply shape_bind, wp_iadd; try assumption; [lia|]. intros q Hq1 Haq.
    split; [apply same_dom_id|].
    assert (Hquot : Z.quot (n - k) k = (n - k) / k) by (apply Z.quot_div_nonneg; lia).
    rewrite Hquot.
    assert (Hd : 0 <= (n - k) / k) by (apply Z.div_pos; lia).
    pose proof (Z.div_mod (n - k) k ltac:(lia)) as Hdm.
    pose proof (Z.mod_pos_bound (n - k) k ltac:(lia)) as Hmb.
    assert (Hc : 0 <= wrap 32 ((n - k) / k) <= (n - k) / k).
    { unfold wrap. split; [apply Z.mod_pos_bound; lia|]. apply Z.mod_le; lia. }
    set (c := wrap 32 ((n - k) / k)) in *.
    assert (Hck : 0 <= c * k <= n - k) by nia.
    clearbody c. set (A := addr w p) in *.
    rewrite (wrap_small 64) by lia.
    apply shape_bind, (wp_rot_up pl w (Z.to_nat c) p q k A 0 m); try assumption;
      rewrite ?Z2Nat.id by lia; try (unfold A; lia).
    { eapply mapped_sub; [exact Hm|lia|lia]. }
    { apply slid_refl; [assumption|lia]. }
    intros p1 q1 m1 Hp1 Hq2 Hap1 Haq1 S1. rewrite Z.add_0_l in *.
    split; [apply S1|].
    assert (Hm1 : mapped w m1 A (A + n)) by (eapply slid_mapped; eassumption).
    apply shape_bind, wp_iadd; try assumption; [lia|]. intros e He Hae.
    split; [apply same_dom_id|].
    apply shape_bind, (wp_swap_ranges_over pl w _ _ _ m1 k); try assumption; try lia.
    { apply S1. }
    { eapply mapped_sub; [exact Hm1|lia|lia]. }
    intros r' m2 _ _ S2. split; [apply S2|].
    assert (Hm2 : mapped w m2 A (A + n)) by (eapply mapped_dom; [exact Hm1|apply S2]).
    apply shape_bind, wp_iadd; try assumption; [lia|]. intros p2 Hp2 Hap2.
    split; [apply same_dom_id|].
    apply shape_bind, wp_iadd; try assumption; [lia|]. intros q2 Hq3 Haq2.
    split; [apply same_dom_id|].
    rewrite Z.rem_mod_nonneg by lia.
    destruct (Z.eqb_spec (n mod k) 0) as [C4|C4].
    { intros sr1 sr2. reflexivity. }
    replace (A + (n - k)) with (addr w p2) by lia.
    replace (n mod k) with (k - (k - n mod k)) at 2 by lia.
    apply IH; try assumption; try lia.
    { apply S2. }
    { eapply mapped_sub; [exact Hm2|lia|lia]. }
  - set (k1 := n - k) in *. destruct (Z.leb_spec k1 w) as [C2|C2].
    + assert (Hk1 : k = n - k1) by (unfold k1; lia). clearbody k1. subst k.
      apply shape_bind, wp_iadd; try assumption; [lia|]. intros e He Hae.
      split; [apply same_dom_id|].
      apply shape_bind, wp_isub; try assumption; [lia|]. intros s Hs Has.
      split; [apply same_dom_id|].
      apply shape_bind, wp_get_word; try assumption; [lia| |].
      { eapply mapped_sub; [exact Hm|lia|lia]. }
      intros v Hv Hvb. split; [apply same_dom_id|].
      apply shape_bind, wp_iadd; try assumption; [lia|]. intros e' He' Hae'.
      split; [apply same_dom_id|].
      cbn [shape]. split; [lia|]. split; [lia|]. split; [lia|].
      exists p, e', m, (fun _ => write_word pl w v p k1 ;; ret r).
      repeat (split; [assumption || lia|]). split; [apply same_dom_id|].
      split; [|reflexivity]. replace (addr w p + (n - k1) + k1) with (addr w p + n) by lia.
      exact Hm.
    + assert (Hk1 : k = n - k1) by (unfold k1; lia). clearbody k1. subst k.
      assert (Hrm : (n - k1) mod k1 = n mod k1).
      { replace (n - k1) with (n + (-1) * k1) by lia. apply Z_mod_plus_full. }
      rewrite Hrm. pose proof (Z.mod_pos_bound n k1 ltac:(lia)) as Hmb0.
      apply shape_bind, wp_iadd; try assumption; [lia|]. intros q Hq1 Haq.
      split; [apply same_dom_id|].
      apply shape_bind, wp_isub; try assumption; [lia|]. intros s Hs Has.
      split; [apply same_dom_id|].
      assert (Hquot : Z.quot (n - k1) k1 = (n - k1) / k1) by (apply Z.quot_div_nonneg; lia).
      rewrite Hquot.
      assert (Hd : 0 <= (n - k1) / k1) by (apply Z.div_pos; lia).
      pose proof (Z.div_mod (n - k1) k1 ltac:(lia)) as Hdm.
      pose proof (Z.mod_pos_bound (n - k1) k1 ltac:(lia)) as Hmb.
      assert (Hc : 0 <= wrap 32 ((n - k1) / k1) <= (n - k1) / k1).
      { unfold wrap. split; [apply Z.mod_pos_bound; lia|]. apply Z.mod_le; lia. }
      set (c := wrap 32 ((n - k1) / k1)) in *.
      assert (Hck : 0 <= c * k1 <= n - k1) by nia.
      clearbody c. rewrite (wrap_small 64) by lia.
      set (A := addr w p) in *. set (E := A + n) in *.
      assert (HE : E = A + n) by reflexivity. clearbody E.
      assert (HA : A = addr w p) by reflexivity. clearbody A.
      apply shape_bind, (wp_rot_down pl w (Z.to_nat c) s q k1 E 0 m); try assumption;
        rewrite ?Z2Nat.id by lia; try lia.
      { eapply mapped_sub; [exact Hm|lia|lia]. }
      { apply slid_down_refl; [assumption|lia]. }
      intros p1 q1 m1 Hp1 Hq2 Hap1 Haq1 S1. rewrite Z.add_0_l in *.
      split; [apply S1|].
      assert (Hm1 : mapped w m1 A E) by (eapply slid_down_mapped; eassumption).
      apply shape_bind, wp_isub; try assumption; [lia|]. intros p2 Hp2 Hap2.
      split; [apply same_dom_id|].
      apply shape_bind, wp_isub; try assumption; [lia|]. intros q2 Hq3 Haq2.
      split; [apply same_dom_id|].
      apply shape_bind, wp_iadd; try assumption; [lia|]. intros e He Hae.
      split; [apply same_dom_id|].
      apply shape_bind, (wp_swap_ranges_over pl w _ _ _ m1 k1); try assumption; try lia.
      { apply S1. }
      { eapply mapped_sub; [exact Hm1|lia|lia]. }
      intros r' m2 _ _ S2. split; [apply S2|].
      assert (Hm2 : mapped w m2 A E) by (eapply mapped_dom; [exact Hm1|apply S2]).
      rewrite Z.rem_mod_nonneg by lia.
      destruct (Z.eqb_spec (n mod k1) 0) as [C4|C4].
      { intros sr1 sr2. reflexivity. }
      replace A with (addr w p2) by lia.
      apply IH; try assumption; try lia.
      { apply S2. }
      { eapply mapped_sub; [exact Hm2|lia|lia]. }
Qed.

Lemma last_shift_S : forall f w a l r, last_shift (S f) w a l r =
  if l <? r then
    if (l <=? w) || (r mod l =? 0) then None
    else last_shift f w (a + r) (l - r mod l) (r mod l)
  else if r <=? w then Some (a, a + l + r, r)
  else if l mod r =? 0 then None
  else last_shift f w a (l mod r) (r - l mod r).
Proof. reflexivity. Qed.

Lemma rotate_shape : forall sl pl w first n_first last m,
  let A := addr w first in let l := addr w n_first - A in let r := addr w last - addr w n_first in
  valid_w w -> valid_it w first -> valid_it w n_first -> valid_it w last -> wf_mem w m ->
  0 <= l -> 0 < r -> l + r <= 2 ^ 62 -> mapped w m A (A + (l + r)) ->
  shape w (rotate_shift w A l r)
    (fun sr => rotate_with sl sr pl w first n_first last) m.
Proof.
  intros sl pl w first n_first last m A l r Vw Hf Hnf Hl Hwf Hl0 Hr0 Hmax Hm.
  pose proof (valid_pos w Vw) as Hwp.
  assert (HA : A = addr w first) by reflexivity.
  assert (Hl' : l = addr w n_first - A) by reflexivity.
  assert (Hr' : r = addr w last - addr w n_first) by reflexivity.
  clearbody A l r. unfold rotate_with, rotate_shift.
  apply shape_bind, wp_assert_viable; try assumption; [lia|]. split; [apply same_dom_id|].
  apply shape_bind, wp_assert_viable; try assumption; [lia|]. split; [apply same_dom_id|].
  apply shape_bind, wp_assert_viable; try assumption; [lia|]. split; [apply same_dom_id|].
  rewrite (ieq_addr w) by (assumption || lia).
  destruct (Z.eqb_spec (addr w first) (addr w n_first)) as [C1|C1].
  { destruct (Z.leb_spec l w) as [C|C]; [|lia]. intros sr1 sr2. reflexivity. }
  destruct (one_word first last) eqn:C2.
  { destruct (Z.leb_spec l w) as [C|C].
    { intros sr1 sr2. reflexivity. }
    exfalso. unfold one_word in C2. apply Z.eqb_eq in C2. unfold valid_it, addr in *.
    rewrite <- C2 in *. destruct (Z.eqb_spec (ip last) 0); cbn [b2z] in *; lia. }
  apply shape_bind, wp_within; try assumption; [lia|]. split; [apply same_dom_id|].
  replace (addr w n_first - addr w first) with l by lia.
  destruct (Z.leb_spec l w) as [C3|C3].
  { intros sr1 sr2. reflexivity. }
  apply shape_bind, wp_within; try assumption; [lia|]. split; [apply same_dom_id|].
  replace (addr w last - addr w n_first) with r by lia.
  destruct (Z.leb_spec r w) as [C4|C4].
  { rewrite (last_shift_S 63). destruct (Z.ltb_spec l r) as [C|C]; [lia|].
    destruct (Z.leb_spec r w) as [_|C5]; [|lia].
    apply shape_bind, wp_distance; try assumption; [lia|]. split; [apply same_dom_id|].
    replace (addr w last - addr w n_first) with r by lia.
    apply shape_bind, wp_get_word; try assumption; [lia| |].
    { eapply mapped_sub; [exact Hm|lia|lia]. }
    intros v Hv Hvb. split; [apply same_dom_id|].
    cbn [shape]. split; [lia|]. split; [lia|]. split; [lia|].
    eexists first, last, m, _. repeat (split; [assumption || lia|]). split; [apply same_dom_id|].
    split; [|reflexivity]. replace (A + l + r) with (A + (l + r)) by lia. exact Hm. }
  unfold rotate_via_raw_with.
  apply shape_bind. rewrite idiff_eq by (assumption || lia). apply wp_ret.
  split; [apply same_dom_id|].
  apply shape_bind. rewrite idiff_eq by (assumption || lia). apply wp_ret.
  split; [apply same_dom_id|].
  replace (addr w n_first - addr w first) with l by lia.
  replace (addr w last - addr w first) with (l + r) by lia.
  replace (l + r - l) with r by lia.
  destruct (Z.eqb_spec l r) as [C5|C5].
  { rewrite (last_shift_S 63). destruct (Z.ltb_spec l r) as [C|C]; [lia|].
    destruct (Z.leb_spec r w) as [C6|C6]; [lia|].
    rewrite C5, Z.mod_same by lia. intros sr1 sr2. reflexivity. }
  apply shape_bind. rewrite idiff_eq by (assumption || lia). apply wp_ret.
  split; [apply same_dom_id|].
  apply shape_bind, wp_iadd; try assumption; [lia|]. intros x Hx Hax.
  split; [apply same_dom_id|].
  replace r with (l + r - l) at 1 by lia. rewrite HA.
  apply rot_loop_shape; try assumption; try lia. rewrite <- HA. exact Hm.
Qed.

(** The vector shift at one call only. *)
Definition at_place (w a b n : Z) (sr1 sr2 : iter -> iter -> Z -> M iter)
  (f l : iter) (k : Z) : M iter :=
  if (addr w f =? a) && (addr w l =? b) && (k =? n) then sr1 f l k else sr2 f l k.

Lemma word_of : forall w i, valid_w w -> valid_it w i -> ib i = addr w i / w.
Proof.
  intros w i Vw V. pose proof (valid_pos w Vw). unfold valid_it, addr in *.
  apply Z.div_unique with (ip i); lia.
Qed.

Lemma good_right_place : forall m0 A0 A1 p h w a b n, vector_fits h w ->
  (n mod w <> 0 -> forall x, looked_at h w (a / w) ((b / w * w - n) / w) (b / w) x ->
     may_be_formed m0 x) ->
  good_right m0 A0 A1 p w (at_place w a b n (shift_right_hwy p h w) (shift_right p w)).
Proof.
  intros m0 A0 A1 p h w a b n Hfit Hin f l k m Q d Vw V1 V2 Hwf Hdom HA0 HA1 Hk Hd Hm Hfb HQ.
  unfold at_place. destruct ((addr w f =? a) && (addr w l =? b) && (k =? n)) eqn:C.
  2: { apply wp_shift_right; assumption. }
  assert (Ea : a = addr w f) by lia. assert (Eb : b = addr w l) by lia.
  assert (En : n = k) by lia. subst a b n. clear C.
  rewrite <- !word_of in Hin by assumption.
  destruct (shift_right_all p h w m f l k Vw Hfit Hwf) as (r & m' & E & V & A & S);
    try assumption.
  { repeat (split; try assumption). fold d. unfold max_bits. lia. }
  { intros C x L. specialize (Hin C x L). unfold may_point, may_be_formed in *.
    assert (D : forall y, m0 y <> None -> m y <> None) by (intros y Hy N; apply Hy, Hdom, N).
    destruct p; try exact I; destruct Hin as [H|H]; [left|right|left|right]; apply D, H. }
  unfold wp. rewrite E. apply HQ; assumption.
Qed.

Lemma rotate_hwy_inside : forall p q h w m first n_first last,
  valid_w w -> vector_fits h w -> wf_mem w m -> good_range w m first last ->
  valid_it w n_first -> addr w first <= addr w n_first < addr w last ->
  mask_fits w (ip first) (addr w last - addr w first) ->
  (forall a b n,
     rotate_shift w (addr w first) (addr w n_first - addr w first)
       (addr w last - addr w n_first) = Some (a, b, n) ->
     n mod w <> 0 -> forall x, looked_at h w (a / w) ((b / w * w - n) / w) (b / w) x ->
     may_be_formed m x) ->
  agree (rotate_hwy p h w first n_first last) (rotate q w first n_first last) m.
Proof.
  intros p q h w m first n_first last Vw Hfit Hwf (Hf & Hl & Hd & Hm) Hnf Hlt Hmf Hin.
  pose proof (valid_pos w Vw) as Hwp.
  destruct (rotate_every_with w first n_first last Vw Hf Hnf Hl Hlt ltac:(lia) Hmf)
    as (s & _ & _ & _ & Hrun).
  unfold max_bits in Hd.
  assert (Hm' : mapped w m (addr w first) (addr w first + (addr w last - addr w first))).
  { replace (addr w first + (addr w last - addr w first)) with (addr w last) by lia. exact Hm. }
  assert (X : exists sr, good_right m (addr w first) (addr w last) p w sr /\
    rotate_hwy p h w first n_first last m =
    rotate_with (shift_left_hwy p h w) sr p w first n_first last m).
  { pose proof (rotate_shape (shift_left_hwy p h w) p w first n_first last m Vw Hf Hnf Hl Hwf
      ltac:(lia) ltac:(lia) ltac:(lia)) as S. cbv zeta in S.
    replace (addr w n_first - addr w first + (addr w last - addr w n_first))
      with (addr w last - addr w first) in S by lia. specialize (S Hm').
    destruct (rotate_shift w (addr w first) (addr w n_first - addr w first)
      (addr w last - addr w n_first)) as [[[a b] n]|].
    - exists (at_place w a b n (shift_right_hwy p h w) (shift_right p w)).
      split; [apply good_right_place; [exact Hfit|apply (Hin a b n eq_refl)]|].
      destruct S as (_ & _ & _ & f & l & m1 & K & _ & _ & A1 & A2 & _ & _ & _ & HF).
      unfold rotate_hwy. rewrite !HF. unfold at_place.
      rewrite A1, A2, !Z.eqb_refl. reflexivity.
    - exists (shift_right p w). split; [apply good_right_scalar|]. apply S. }
  destruct X as (sr & GR & X).
  destruct (Hrun _ _ p m (good_left_hwy p h w Hfit) GR Hwf Hm') as (r1 & m1 & E1 & V1 & A1 & U1).
  destruct (Hrun _ _ q m (good_left_scalar q w) (good_right_scalar m _ _ q w) Hwf Hm')
    as (r2 & m2 & E2 & V2 & A2 & U2).
  rewrite rotate_with_scalar in E2. rewrite <- X in E1.
  assert (r2 = r1) as -> by (apply (addr_inj w); try assumption; lia).
  exists r1, m1, m2. split; [exact E1|]. split; [exact E2|].
  exact (updated_same w m m1 m2 _ _ _ ltac:(lia) U1 U2).
Qed.

Lemma rotate_hwy_pointer : forall p h w m first n_first last a b n x,
  p = Strict17 \/ p = Strict20 ->
  valid_w w -> vector_fits h w -> wf_mem w m -> good_range w m first last ->
  valid_it w n_first -> addr w first <= addr w n_first < addr w last ->
  rotate_shift w (addr w first) (addr w n_first - addr w first)
    (addr w last - addr w n_first) = Some (a, b, n) ->
  n mod w <> 0 -> looked_at h w (a / w) ((b / w * w - n) / w) (b / w) x ->
  m x = None -> m (x - 1) = None ->
  rotate_hwy p h w first n_first last m = UB OutOfBounds.
Proof.
  intros p h w m first n_first last a b n x Hp Vw Hfit Hwf (Hf & Hl & Hd & Hm) Hnf Hlt
    Hs Hn L N1 N2.
  pose proof (valid_pos w Vw) as Hwp. unfold max_bits in Hd.
  pose proof (rotate_shape (shift_left_hwy p h w) p w first n_first last m Vw Hf Hnf Hl Hwf
    ltac:(lia) ltac:(lia) ltac:(lia)) as S. cbv zeta in S.
  replace (addr w first + (addr w n_first - addr w first + (addr w last - addr w n_first)))
    with (addr w last) in S by lia. specialize (S Hm). rewrite Hs in S.
  destruct S as (B1 & B2 & B3 & f & l & m1 & K & V1 & V2 & A1 & A2 & Hwf1 & Hdom & Hm1 & HF).
  unfold rotate_hwy. rewrite HF. apply bind_ub_now. subst a b.
  rewrite <- !word_of in L by assumption.
  apply (shift_right_pointer p h w m1 f l n x); try assumption.
  - repeat (split; try assumption). unfold max_bits. lia.
  - apply Hdom, N1.
  - apply Hdom, N2.
Qed.

Lemma rotate_hwy_undefined : forall p h w m first n_first last,
  p = Strict17 \/ p = Strict20 ->
  valid_w w -> vector_fits h w -> wf_mem w m -> good_range w m first last ->
  valid_it w n_first -> addr w first <= addr w n_first < addr w last ->
  mask_fits w (ip first) (addr w last - addr w first) ->
  rotate_hwy p h w first n_first last m = UB OutOfBounds <->
  exists a b n,
    rotate_shift w (addr w first) (addr w n_first - addr w first)
      (addr w last - addr w n_first) = Some (a, b, n) /\
    n mod w <> 0 /\
    ~ (forall x, looked_at h w (a / w) ((b / w * w - n) / w) (b / w) x -> may_be_formed m x).
Proof.
  intros p h w m first n_first last Hp Vw Hfit Hwf Hr Hnf Hlt Hmf.
  pose proof (rotate_hwy_inside p p h w m first n_first last Vw Hfit Hwf Hr Hnf Hlt Hmf) as S.
  destruct (rotate_shift w (addr w first) (addr w n_first - addr w first)
    (addr w last - addr w n_first)) as [[[a b] n]|] eqn:Es.
  - split.
    + intros E. exists a, b, n. split; [reflexivity|]. split.
      * intros Z. destruct S as (r & m1 & m2 & E' & _);
          [intros ? ? ? [= <- <- <-] C; contradiction|congruence].
      * intros K. destruct S as (r & m1 & m2 & E' & _);
          [intros ? ? ? [= <- <- <-] _; exact K|congruence].
    + intros (a' & b' & n' & [= <- <- <-] & Hn & K).
      assert (D : rotate_hwy p h w first n_first last m = UB OutOfBounds \/
        rotate_hwy p h w first n_first last m <> UB OutOfBounds).
      { destruct (rotate_hwy p h w first n_first last m) as [y|k| | |]; try (right; discriminate).
        destruct k; try (right; discriminate). left; reflexivity. }
      destruct D as [D|D]; [exact D|]. exfalso. apply K. intros x L. unfold may_be_formed.
      destruct (m x) eqn:E1; [left; discriminate|].
      destruct (m (x - 1)) eqn:E2; [right; discriminate|].
      exfalso. apply D. apply (rotate_hwy_pointer p h w m first n_first last a b n x); assumption.
  - split.
    + intros E. destruct S as (r & m1 & m2 & E' & _); [discriminate|congruence].
    + intros (a' & b' & n' & [=] & _).
Qed.

(** ** reverse *)
(** The one call of shift_right that reverse makes. *)
Definition the_call (w : Z) (first last f l : iter) (n : Z) : bool :=
  let e := ib last + b2z (negb (ip last =? 0)) in
  (ib f =? ib first) && (ip f =? 0) && (ib l =? e) && (ip l =? 0) &&
  (n =? ip first - usub w (ip last) * b2z (negb (ip last =? 0))).

Definition at_call (w : Z) (first last : iter) (sr1 sr2 : iter -> iter -> Z -> M iter)
  (f l : iter) (n : Z) : M iter :=
  if the_call w first last f l n then sr1 f l n else sr2 f l n.

Lemma reverse_at_call : forall sl sr1 sr2 p w first last,
  reverse_with sl (at_call w first last sr1 sr2) p w first last =
  reverse_with sl sr1 p w first last.
Proof.
  intros sl sr1 sr2 p w first last. unfold reverse_with, reverse_shift_with.
  set (N := usub w (ip last) * b2z (negb (ip last =? 0))).
  set (e := ib last + b2z (negb (ip last =? 0))).
  assert (H : at_call w first last sr1 sr2 (It (ib first) 0) (It e 0) (ip first - N) =
    sr1 (It (ib first) 0) (It e 0) (ip first - N)).
  { unfold at_call, the_call. fold N e. cbn [ib ip]. rewrite !Z.eqb_refl. reflexivity. }
  rewrite H. reflexivity.
Qed.

Lemma reverse_hwy_inside : forall p h w m first last,
  valid_w w -> vector_fits h w -> wf_mem w m -> good_range w m first last ->
  addr w last - addr w first + 2 * w <= max_bits ->
  (addr w first = addr w last -> ip first = 0 \/ m (ib first) <> None) ->
  (ip first = 0 \/ ip last <> 0 \/ ib last - ib first <> 1 \/ full_blend_defined p w) ->
  let e := (addr w last + (w - 1)) / w in
  (e * w - addr w last < ip first ->
   forall a, looked_at h w (ib first) (e - 1) e a -> may_be_formed m a) ->
  exists m', reverse_hwy p h w first last m = Ok (tt, m') /\
    updated w m m' (addr w first) (addr w last)
      (fun i => bit w m (addr w last - 1 - (i - addr w first))).
Proof.
  intros p h w m first last Vw Hfit Hwf Hr Hmax Hemp Hg e Hin.
  pose proof (valid_pos w Vw) as Hwp. unfold reverse_hwy.
  rewrite <- (reverse_at_call _ _ (shift_right p w)).
  destruct Hr as (Hf & Hl & Hd & Hm). pose proof Hf as Hf'. pose proof Hl as Hl'.
  unfold valid_it in Hf', Hl'.
  set (e' := ib last + b2z (negb (ip last =? 0))).
  assert (Ee : e' * w - addr w last = usub w (ip last) * b2z (negb (ip last =? 0)) /\ e = e').
  { unfold e, e', addr. rewrite usub_small by lia.
    destruct (Z.eqb_spec (ip last) 0) as [C|C]; cbn [negb b2z].
    - split; [lia|]. symmetry. apply Z.div_unique with (w - 1); lia.
    - split; [lia|]. symmetry. apply Z.div_unique with (ip last - 1); lia. }
  destruct Ee as (Eg & Ee). rewrite Ee in Hin. clear e Ee.
  apply reverse_with_ok; try assumption; [apply good_left_hwy, Hfit| |repeat (split; try assumption)].
  intros f l n m1 Q d _ V1 V2 Hwf1 Hdom HA0 HA1 Hn Hd1 Hm1 Hfb HQ.
  unfold at_call. destruct (the_call w first last f l n) eqn:C.
  2: { apply wp_shift_right; assumption. }
  unfold the_call in C. fold e' in C. rewrite <- Eg in C.
  assert (If : ib f = ib first) by lia. assert (Pf : ip f = 0) by lia.
  assert (Il : ib l = e') by lia. assert (Pl : ip l = 0) by lia.
  assert (En : n = ip first - (e' * w - addr w last)) by lia. clear C.
  assert (Hn2 : 0 < n < w).
  { split; [lia|]. assert (0 <= e' * w - addr w last); [|lia]. rewrite Eg, usub_small by lia.
    destruct (Z.eqb_spec (ip last) 0); cbn [negb b2z]; lia. }
  destruct (shift_right_all p h w m1 f l n Vw Hfit Hwf1) as (r & m' & E & V & A & S);
    try assumption; try (fold d; lia).
  { repeat (split; try assumption). fold d. unfold max_bits. lia. }
  { intros _ a. rewrite If, Il.
    replace ((e' * w - n) / w) with (e' - 1).
    2: { apply Z.div_unique with (w - n); lia. }
    intros L. specialize (Hin ltac:(lia) a L).
    unfold may_point, may_be_formed in *.
    assert (D : forall x, m x <> None -> m1 x <> None) by (intros x Hx N; apply Hx, Hdom, N).
    destruct p; try exact I; destruct Hin as [H|H]; [left|right|left|right]; apply D, H. }
  unfold wp. rewrite E. apply HQ; assumption.
Qed.

Lemma reverse_hwy_pointer : forall p h w m first last a,
  p = Strict17 \/ p = Strict20 ->
  valid_w w -> vector_fits h w -> wf_mem w m -> good_range w m first last ->
  addr w last - addr w first + 2 * w <= max_bits ->
  let e := (addr w last + (w - 1)) / w in
  e * w - addr w last < ip first ->
  looked_at h w (ib first) (e - 1) e a -> m a = None -> m (a - 1) = None ->
  reverse_hwy p h w first last m = UB OutOfBounds.
Proof.
  intros p h w m first last x Hp Vw Hfit Hwf (Hf & Hl & Hd & Hm) Hmax e Hgt Hlook N1 N2.
  pose proof (valid_pos w Vw) as Hwp. unfold max_bits in *.
  pose proof Hf as Hf'. pose proof Hl as Hl'. unfold valid_it in Hf', Hl'.
  set (e' := ib last + b2z (negb (ip last =? 0))).
  assert (Ee : e' * w - addr w last = usub w (ip last) * b2z (negb (ip last =? 0)) /\ e = e').
  { unfold e, e', addr. rewrite usub_small by lia.
    destruct (Z.eqb_spec (ip last) 0) as [C|C]; cbn [negb b2z].
    - split; [lia|]. symmetry. apply Z.div_unique with (w - 1); lia.
    - split; [lia|]. symmetry. apply Z.div_unique with (ip last - 1); lia. }
  destruct Ee as (Eg & Ee). rewrite Ee in *. clear e Ee.
  assert (Hb : ib first + 2 < e') by (destruct Hlook as (j & J1 & _ & J3 & _); lia).
  assert (Hg0 : 0 <= e' * w - addr w last < w).
  { rewrite Eg, usub_small by lia. destruct (Z.eqb_spec (ip last) 0); cbn [negb b2z]; lia. }
  assert (Hib : ib first + 1 < ib last).
  { unfold e' in Hb. destruct (negb (ip last =? 0)); cbn [b2z] in Hb; lia. }
  assert (Hle : ib last - b2z (ip last =? 0) = e' - 1).
  { unfold e'. destruct (Z.eqb_spec (ip last) 0); cbn [negb b2z]; lia. }
  assert (Hma : forall b, ib first <= b < e' -> m b <> None).
  { intros b Hbb. pose proof (mul_mono w (ib first + 1) (b + 1) ltac:(lia) ltac:(lia)).
    pose proof (mul_mono w (b + 1) e' ltac:(lia) ltac:(lia)).
    pose proof (mul_mono w (ib first + 3) e' ltac:(lia) ltac:(lia)).
    eapply (mapped_word w); [lia|exact Hm|..]; unfold addr in *; lia. }
  unfold reverse_hwy, reverse_with. cbv zeta.
  rewrite <- Eg, Hle. fold e'.
  apply bind_ub. apply wp_assert_viable; try assumption; try lia.
  destruct (Z.eqb_spec (ip first) 0) as [C1|C1]; [lia|]. cbn [andb].
  destruct (Z.eqb_spec (ib first) (ib last)) as [C2|C2]; [lia|]. cbn [negb].
  apply bind_ub, (wp_load w); try assumption; try lia; [apply Hma; lia|]. intros x0 _ _.
  apply bind_ub, (wp_load w); try assumption; try lia; [apply Hma; lia|]. intros x1 _ _.
  assert (W : wp (words_reverse (ib first) e' ;;
      words_bitswap p w (Z.to_nat (e' - ib first)) (ib first)) m
    (fun _ m1 => wf_mem w m1 /\ same_dom m m1)).
  { apply wp_reverse_words; try assumption; try lia. intros m1 U. split; [eapply updated_wf, U|apply U]. }
  apply wp_exists in W. destruct W as ([] & m1 & W & Hwf1 & Hdom).
  assert (U : shift_right_hwy p h w (It (ib first) 0) (It e' 0)
      (ip first - (e' * w - addr w last)) m1 = UB OutOfBounds).
  { pose proof (mul_mono w (ib first + 3) e' ltac:(lia) ltac:(lia)).
    apply (shift_right_pointer p h w m1 _ _ _ x); try assumption; unfold addr in *; cbn [ib ip] in *.
    - assert (D : mapped w m1 (ib first * w) (e' * w)).
      { intros i Hi N. apply Hdom in N. revert N. apply Hma.
        split; [apply Z.div_le_lower_bound; lia|]. apply Z.div_lt_upper_bound; lia. }
      repeat split; unfold valid_it, addr, max_bits; cbn [ib ip]; rewrite ?Z.add_0_r; try lia.
      exact D.
    - lia.
    - rewrite Z.mod_small; lia.
    - replace ((e' * w - (ip first - (e' * w - (ib last * w + ip last)))) / w) with (e' - 1).
      2: { apply Z.div_unique with (w - (ip first - (e' * w - (ib last * w + ip last)))); lia. }
      exact Hlook.
    - apply Hdom, N1.
    - apply Hdom, N2. }
  unfold bind in W |- *.
  destruct (words_reverse (ib first) e' m) as [[[] m2]| | | |]; try discriminate.
  rewrite W. unfold reverse_shift_with.
  destruct (Z.ltb_spec (ip first) (e' * w - addr w last)) as [C3|C3]; [lia|].
  destruct (Z.ltb_spec (e' * w - addr w last) (ip first)) as [C4|C4]; [|lia].
  unfold bind. rewrite U. reflexivity.
Qed.

Lemma reverse_hwy_undefined : forall p h w m first last,
  p = Strict17 \/ p = Strict20 ->
  valid_w w -> vector_fits h w -> wf_mem w m -> good_range w m first last ->
  addr w last - addr w first + 2 * w <= max_bits ->
  (addr w first = addr w last -> ip first = 0 \/ m (ib first) <> None) ->
  (ip first = 0 \/ ip last <> 0 \/ ib last - ib first <> 1 \/ full_blend_defined p w) ->
  let e := (addr w last + (w - 1)) / w in
  reverse_hwy p h w first last m = UB OutOfBounds <->
  e * w - addr w last < ip first /\
  ~ (forall a, looked_at h w (ib first) (e - 1) e a -> may_be_formed m a).
Proof.
  intros p h w m first last Hp Vw Hfit Hwf Hr Hmax Hemp Hg e.
  pose proof (reverse_hwy_inside p h w m first last Vw Hfit Hwf Hr Hmax Hemp Hg) as S.
  cbv zeta in S. fold e in S. split.
  - intros E. split.
    + destruct (Z.lt_ge_cases (e * w - addr w last) (ip first)) as [C|C]; [exact C|].
      destruct S as (m' & E' & _); [lia|congruence].
    + intros K. destruct S as (m' & E' & _); [intros _; exact K|congruence].
  - intros [C K].
    assert (D : reverse_hwy p h w first last m = UB OutOfBounds \/
      reverse_hwy p h w first last m <> UB OutOfBounds).
    { destruct (reverse_hwy p h w first last m) as [x|k| | |]; try (right; discriminate).
      destruct k; try (right; discriminate). left; reflexivity. }
    destruct D as [D|D]; [exact D|]. exfalso. apply K. intros a L. unfold may_be_formed.
    destruct (m a) eqn:E1; [left; discriminate|].
    destruct (m (a - 1)) eqn:E2; [right; discriminate|].
    exfalso. apply D. apply (reverse_hwy_pointer p h w m first last a); assumption.
Qed.
