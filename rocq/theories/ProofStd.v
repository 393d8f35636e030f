(** The element-by-element algorithms on bit iterators do what the word-parallel
    ones do. *)
From Coq Require Import ZArith Bool List Lia ZifyBool.
From Verif Require Import Base WordOps IterModel RefModel PopcntModel AlgModel TransformModel
  SwapModel ReverseModel RotateModel StdModel Spec SpecRef SpecClient SpecStd SpecRotate ProofBase ProofIter ProofWord ProofAlg1
  ProofRange ProofTransform ProofSwap ProofReverse ProofRotate ProofReference ProofOracle ProofVec2 Demo.
Import ListNotations.
Open Scope Z_scope.
Ltac Zify.zify_post_hook ::= idtac.

Section Std.
Variables (p : policy) (w : Z).
Hypothesis Vw : valid_w w.

Lemma wpos : 8 <= w <= 128. Proof. apply valid_pos, Vw. Qed.

(** Dereferencing, reading, assigning. *)
Lemma wp_deref : forall it m (Q : bref -> mem -> Prop), valid_it w it ->
  (forall r, refers_to w r (addr w it) -> Q r m) -> wp (lift (ideref p w it)) m Q.
Proof.
  intros it m Q Vi H. destruct (mk_ref_refers p w (ib it) (ip it) Vw Vi) as (r & E & R & _).
  apply wp_lift. unfold ideref. rewrite E. apply rwp_ok, H, R.
Qed.

Lemma wp_get : forall r i m (Q : bool -> mem -> Prop), wf_mem w m -> refers_to w r i ->
  mapped w m i (i + 1) -> Q (bit w m i) m -> wp (ref_get r) m Q.
Proof. intros r i m Q Wf R M H. apply (wp_ok _ _ _ _ _ _ (ref_get_ok w m r i Vw Wf R M)), H. Qed.

Lemma wp_put : forall r i b m (Q : unit -> mem -> Prop), wf_mem w m -> refers_to w r i ->
  mapped w m i (i + 1) ->
  (forall m', updated w m m' i (i + 1) (fun _ => b) -> Q tt m') -> wp (ref_assign_val w r b) m Q.
Proof.
  intros r i b m Q Wf R M H. pose proof wpos.
  destruct (ref_assign_ok p w m r i r i b 0 0 Vw Wf R M R M ltac:(lia)) as ((m' & E & U) & _).
  apply (wp_ok _ _ _ _ _ _ E), H, U.
Qed.

Lemma wp_put_ref : forall r i r' i' m (Q : unit -> mem -> Prop), wf_mem w m -> refers_to w r i ->
  refers_to w r' i' -> mapped w m i (i + 1) -> mapped w m i' (i' + 1) ->
  (forall m', updated w m m' i (i + 1) (fun _ => bit w m i') -> Q tt m') ->
  wp (ref_assign_ref w r r') m Q.
Proof.
  intros r i r' i' m Q Wf R R' M M' H. pose proof wpos.
  destruct (ref_assign_ok p w m r i r' i' true 0 0 Vw Wf R M R' M' ltac:(lia))
    as (_ & (m' & E & U) & _).
  apply (wp_ok _ _ _ _ _ _ E), H, U.
Qed.

Lemma wp_exchange : forall r i r' i' m (Q : unit -> mem -> Prop), wf_mem w m -> refers_to w r i ->
  refers_to w r' i' -> mapped w m i (i + 1) -> mapped w m i' (i' + 1) ->
  (forall m', wf_mem w m' -> same_dom m m' ->
     (forall k, bit w m' k = if k =? i then bit w m i' else
                             if k =? i' then bit w m i else bit w m k) -> Q tt m') ->
  wp (ref_swap r r') m Q.
Proof.
  intros r i r' i' m Q Wf R R' M M' H.
  destruct (ref_swap_ok w m r r' i i' Vw Wf R R' M M') as (m' & E & W & D & B).
  apply (wp_ok _ _ _ _ _ _ E). auto.
Qed.

Lemma at_end : forall f l, valid_it w f -> valid_it w l -> addr w f <= addr w l ->
  ine f l = (addr w f <? addr w l).
Proof.
  intros f l Vf Vl H. pose proof wpos. destruct (cmp_addr w f l ltac:(lia) Vf Vl) as (-> & _). lia.
Qed.

Lemma sub_mapped : forall m lo hi i, mapped w m lo hi -> lo <= i < hi -> mapped w m i (i + 1).
Proof. intros m lo hi i M H j Hj. apply M. lia. Qed.

(** std::fill *)
Lemma wp_std_fill : forall fuel first last b m (Q : unit -> mem -> Prop),
  valid_it w first -> valid_it w last -> wf_mem w m -> addr w first <= addr w last ->
  mapped w m (addr w first) (addr w last) -> addr w last - addr w first < Z.of_nat fuel ->
  (forall m', updated w m m' (addr w first) (addr w last) (fun _ => b) -> Q tt m') ->
  wp (std_fill p w fuel first last b) m Q.
Proof.
  pose proof wpos as Pw. induction fuel as [|f IH]; intros first last b m Q Vf Vl Wf Hle M Hf HQ; [lia|].
  cbn [std_fill]. rewrite at_end by assumption.
  destruct (Z.ltb_spec (addr w first) (addr w last)) as [C|C].
  - destruct (iinc_spec w first ltac:(lia) Vf) as [Vi Ai].
    apply wp_bind, wp_deref; [assumption|]. intros r R.
    apply wp_bind, (wp_put r (addr w first)); try assumption; [apply (sub_mapped m (addr w first) (addr w last)); [assumption|lia]|].
    intros m1 U1. apply IH; rewrite ?Ai; try assumption; try lia.
    + eapply updated_wf, U1.
    + eapply updated_mapped; [exact U1|]. intros i Hi. apply M. lia.
    + intros m2 U2. apply HQ. eapply updated_app; [exact U1|exact U2|lia|reflexivity|reflexivity].
  - apply wp_ret, HQ, updated_refl; [assumption|]. intros. lia.
Qed.

(** std::copy; the destination is before the source or behind it. *)
Lemma wp_std_copy : forall fuel first last d m (Q : iter -> mem -> Prop),
  let len := addr w last - addr w first in
  valid_it w first -> valid_it w last -> valid_it w d -> wf_mem w m -> 0 <= len ->
  mapped w m (addr w first) (addr w last) -> mapped w m (addr w d) (addr w d + len) ->
  addr w d <= addr w first \/ addr w last <= addr w d -> len < Z.of_nat fuel ->
  (forall d' m', valid_it w d' -> addr w d' = addr w d + len ->
     updated w m m' (addr w d) (addr w d + len)
       (fun i => bit w m (addr w first + (i - addr w d))) -> Q d' m') ->
  wp (std_copy p w fuel first last d) m Q.
Proof.
  pose proof wpos as Pw.
  induction fuel as [|f IH]; intros first last d m Q len Vf Vl Vd Wf Hle M Md Ho Hf HQ; [lia|].
  cbn [std_copy]. unfold len in *. rewrite at_end by (assumption || lia).
  destruct (Z.ltb_spec (addr w first) (addr w last)) as [C|C].
  - destruct (iinc_spec w first ltac:(lia) Vf) as [Vi Ai]. destruct (iinc_spec w d ltac:(lia) Vd) as [Vj Aj].
    apply wp_bind, wp_deref; [assumption|]. intros r R.
    apply wp_bind, wp_deref; [assumption|]. intros s S.
    apply wp_bind, (wp_put_ref r (addr w d) s (addr w first)); try assumption;
      [eapply sub_mapped; [exact Md|lia]|eapply sub_mapped; [exact M|lia]|].
    intros m1 U1. apply IH; rewrite ?Ai, ?Aj; try assumption; try lia.
    + eapply updated_wf, U1.
    + eapply updated_mapped; [exact U1|]. intros i Hi. apply M. lia.
    + eapply updated_mapped; [exact U1|]. intros i Hi. apply Md. lia.
    + intros d' m2 Vd' Ad' U2. apply HQ; [assumption|lia|].
      replace (addr w d + 1 + (addr w last - (addr w first + 1))) with
        (addr w d + (addr w last - addr w first)) in U2 by ring.
      eapply updated_app; [exact U1|exact U2|lia| |]; intros i Hi; cbv beta.
      * f_equal. lia.
      * rewrite (updated_out _ _ _ _ _ _ _ U1) by lia. f_equal. lia.
  - apply wp_ret, HQ; [assumption|lia|]. apply updated_refl; [assumption|]. intros. lia.
Qed.

(** std::copy_backward *)
Lemma wp_std_copy_backward : forall fuel first last d m (Q : iter -> mem -> Prop),
  let len := addr w last - addr w first in
  valid_it w first -> valid_it w last -> valid_it w d -> wf_mem w m -> 0 <= len ->
  mapped w m (addr w first) (addr w last) -> mapped w m (addr w d - len) (addr w d) ->
  addr w last <= addr w d \/ addr w d <= addr w first -> len < Z.of_nat fuel ->
  (forall d' m', valid_it w d' -> addr w d' = addr w d - len ->
     updated w m m' (addr w d - len) (addr w d)
       (fun i => bit w m (addr w last - (addr w d - i))) -> Q d' m') ->
  wp (std_copy_backward p w fuel first last d) m Q.
Proof.
  pose proof wpos as Pw.
  induction fuel as [|f IH]; intros first last d m Q len Vf Vl Vd Wf Hle M Md Ho Hf HQ; [lia|].
  cbn [std_copy_backward]. unfold len in *. rewrite at_end by (assumption || lia). cbv zeta.
  destruct (Z.ltb_spec (addr w first) (addr w last)) as [C|C].
  - destruct (idec_spec w last ltac:(lia) Vl) as [Vi Ai]. destruct (idec_spec w d ltac:(lia) Vd) as [Vj Aj].
    apply wp_bind, wp_deref; [assumption|]. intros r R.
    apply wp_bind, wp_deref; [assumption|]. intros s S. rewrite Ai in S. rewrite Aj in R.
    apply wp_bind, (wp_put_ref r (addr w d - 1) s (addr w last - 1)); try assumption;
      [eapply sub_mapped; [exact Md|lia]|eapply sub_mapped; [exact M|lia]|].
    replace (addr w d - 1 + 1) with (addr w d) by ring.
    intros m1 U1. apply IH; rewrite ?Ai, ?Aj; try assumption; try lia.
    + eapply updated_wf, U1.
    + eapply updated_mapped; [exact U1|]. intros i Hi. apply M. lia.
    + eapply updated_mapped; [exact U1|]. intros i Hi. apply Md. lia.
    + intros d' m2 Vd' Ad' U2. apply HQ; [assumption|lia|].
      replace (addr w d - 1 - (addr w last - 1 - addr w first)) with
        (addr w d - (addr w last - addr w first)) in U2 by ring.
      eapply updated_app_left; [exact U1|exact U2|lia| |]; intros i Hi; cbv beta.
      * f_equal. lia.
      * rewrite (updated_out _ _ _ _ _ _ _ U1) by lia. f_equal. lia.
  - apply wp_ret, HQ; [assumption|lia|]. apply updated_refl; [assumption|]. intros. lia.
Qed.

(** std::transform *)
Lemma wp_std_transform : forall fuel g first last d m (Q : iter -> mem -> Prop),
  let len := addr w last - addr w first in
  valid_it w first -> valid_it w last -> valid_it w d -> wf_mem w m -> 0 <= len ->
  mapped w m (addr w first) (addr w last) -> mapped w m (addr w d) (addr w d + len) ->
  addr w d <= addr w first \/ addr w last <= addr w d -> len < Z.of_nat fuel ->
  (forall d' m', valid_it w d' -> addr w d' = addr w d + len ->
     updated w m m' (addr w d) (addr w d + len)
       (fun i => g (bit w m (addr w first + (i - addr w d)))) -> Q d' m') ->
  wp (std_transform p w fuel g first last d) m Q.
Proof.
  pose proof wpos as Pw.
  induction fuel as [|f IH]; intros g first last d m Q len Vf Vl Vd Wf Hle M Md Ho Hf HQ; [lia|].
  cbn [std_transform]. unfold len in *. rewrite at_end by (assumption || lia).
  destruct (Z.ltb_spec (addr w first) (addr w last)) as [C|C].
  - destruct (iinc_spec w first ltac:(lia) Vf) as [Vi Ai]. destruct (iinc_spec w d ltac:(lia) Vd) as [Vj Aj].
    apply wp_bind, wp_deref; [assumption|]. intros s S.
    apply wp_bind, (wp_get s (addr w first)); try assumption; [eapply sub_mapped; [exact M|lia]|].
    apply wp_bind, wp_deref; [assumption|]. intros r R.
    apply wp_bind, (wp_put r (addr w d)); try assumption; [eapply sub_mapped; [exact Md|lia]|].
    intros m1 U1. apply IH; rewrite ?Ai, ?Aj; try assumption; try lia.
    + eapply updated_wf, U1.
    + eapply updated_mapped; [exact U1|]. intros i Hi. apply M. lia.
    + eapply updated_mapped; [exact U1|]. intros i Hi. apply Md. lia.
    + intros d' m2 Vd' Ad' U2. apply HQ; [assumption|lia|].
      replace (addr w d + 1 + (addr w last - (addr w first + 1))) with
        (addr w d + (addr w last - addr w first)) in U2 by ring.
      eapply updated_app; [exact U1|exact U2|lia| |]; intros i Hi; cbv beta.
      * do 2 f_equal. lia.
      * rewrite (updated_out _ _ _ _ _ _ _ U1) by lia. do 2 f_equal. lia.
  - apply wp_ret, HQ; [assumption|lia|]. apply updated_refl; [assumption|]. intros. lia.
Qed.

Lemma wp_std_transform2 : forall fuel g first last first2 d m (Q : iter -> mem -> Prop),
  let len := addr w last - addr w first in
  valid_it w first -> valid_it w last -> valid_it w first2 -> valid_it w d -> wf_mem w m -> 0 <= len ->
  mapped w m (addr w first) (addr w last) -> mapped w m (addr w first2) (addr w first2 + len) ->
  mapped w m (addr w d) (addr w d + len) ->
  addr w d <= addr w first \/ addr w last <= addr w d ->
  addr w d <= addr w first2 \/ addr w first2 + len <= addr w d -> len < Z.of_nat fuel ->
  (forall d' m', valid_it w d' -> addr w d' = addr w d + len ->
     updated w m m' (addr w d) (addr w d + len)
       (fun i => g (bit w m (addr w first + (i - addr w d)))
                   (bit w m (addr w first2 + (i - addr w d)))) -> Q d' m') ->
  wp (std_transform2 p w fuel g first last first2 d) m Q.
Proof.
  pose proof wpos as Pw.
  induction fuel as [|f IH]; intros g first last first2 d m Q len Vf Vl Vs Vd Wf Hle M Ms Md Ho Ho2 Hf HQ; [lia|].
  cbn [std_transform2]. unfold len in *. rewrite at_end by (assumption || lia).
  destruct (Z.ltb_spec (addr w first) (addr w last)) as [C|C].
  - destruct (iinc_spec w first ltac:(lia) Vf) as [Vi Ai]. destruct (iinc_spec w d ltac:(lia) Vd) as [Vj Aj].
    destruct (iinc_spec w first2 ltac:(lia) Vs) as [Vk Ak].
    apply wp_bind, wp_deref; [assumption|]. intros s S.
    apply wp_bind, (wp_get s (addr w first)); try assumption; [eapply sub_mapped; [exact M|lia]|].
    apply wp_bind, wp_deref; [assumption|]. intros s2 S2.
    apply wp_bind, (wp_get s2 (addr w first2)); try assumption; [eapply sub_mapped; [exact Ms|lia]|].
    apply wp_bind, wp_deref; [assumption|]. intros r R.
    apply wp_bind, (wp_put r (addr w d)); try assumption; [eapply sub_mapped; [exact Md|lia]|].
    intros m1 U1. apply IH; rewrite ?Ai, ?Aj, ?Ak; try assumption; try lia.
    + eapply updated_wf, U1.
    + eapply updated_mapped; [exact U1|]. intros i Hi. apply M. lia.
    + eapply updated_mapped; [exact U1|]. intros i Hi. apply Ms. lia.
    + eapply updated_mapped; [exact U1|]. intros i Hi. apply Md. lia.
    + intros d' m2 Vd' Ad' U2. apply HQ; [assumption|lia|].
      replace (addr w d + 1 + (addr w last - (addr w first + 1))) with
        (addr w d + (addr w last - addr w first)) in U2 by ring.
      eapply updated_app; [exact U1|exact U2|lia| |]; intros i Hi; cbv beta.
      * f_equal; f_equal; lia.
      * rewrite !(updated_out _ _ _ _ _ _ _ U1) by lia. f_equal; f_equal; lia.
  - apply wp_ret, HQ; [assumption|lia|]. apply updated_refl; [assumption|]. intros. lia.
Qed.

(** std::swap_ranges *)
Lemma wp_std_swap_ranges : forall fuel first last d m (Q : iter -> mem -> Prop),
  let len := addr w last - addr w first in
  let A := addr w first in let B := addr w d in
  valid_it w first -> valid_it w last -> valid_it w d -> wf_mem w m -> 0 <= len ->
  mapped w m A (A + len) -> mapped w m B (B + len) ->
  A + len <= B \/ B + len <= A -> len < Z.of_nat fuel ->
  (forall d' m', valid_it w d' -> addr w d' = B + len -> wf_mem w m' -> same_dom m m' ->
     (forall i, bit w m' i =
      if inr A (A + len) i then bit w m (B + (i - A))
      else if inr B (B + len) i then bit w m (A + (i - B))
      else bit w m i) -> Q d' m') ->
  wp (std_swap_ranges p w fuel first last d) m Q.
Proof.
  pose proof wpos as Pw.
  induction fuel as [|f IH]; intros first last d m Q len A B Vf Vl Vd Wf Hle M Md Ho Hf HQ; [lia|].
  cbn [std_swap_ranges]. unfold len, A, B in *. clear len A B. rewrite at_end by (assumption || lia).
  destruct (Z.ltb_spec (addr w first) (addr w last)) as [C|C].
  - destruct (iinc_spec w first ltac:(lia) Vf) as [Vi Ai]. destruct (iinc_spec w d ltac:(lia) Vd) as [Vj Aj].
    apply wp_bind, wp_deref; [assumption|]. intros r R.
    apply wp_bind, wp_deref; [assumption|]. intros s S.
    apply wp_bind, (wp_exchange r (addr w first) s (addr w d)); try assumption;
      [eapply sub_mapped; [exact M|lia]|eapply sub_mapped; [exact Md|lia]|].
    intros m1 W1 D1 B1. apply IH; rewrite ?Ai, ?Aj; try assumption; try lia.
    + eapply mapped_dom; [|exact D1]. intros i Hi. apply M. lia.
    + eapply mapped_dom; [|exact D1]. intros i Hi. apply Md. lia.
    + intros d' m2 Vd' Ad' W2 D2 B2. apply HQ; [assumption|lia|assumption|eapply same_dom_trans; eassumption|].
      intros i. rewrite B2. unfold inr. rewrite !B1.
      bsplit; try reflexivity; try lia; f_equal; lia.
  - apply wp_ret, HQ; [assumption|lia|assumption|apply same_dom_refl|]. intros i. unfold inr.
    bsplit; reflexivity.
Qed.

(** std::reverse *)
Lemma wp_rev_loop : forall fuel first last m (Q : unit -> mem -> Prop),
  let A := addr w first in let B := addr w last in
  valid_it w first -> valid_it w last -> wf_mem w m -> A <= B + 1 ->
  mapped w m A (B + 1) -> B - A < 2 * Z.of_nat fuel - 1 ->
  (forall m', updated w m m' A (B + 1) (fun i => bit w m (B - (i - A))) -> Q tt m') ->
  wp (rev_loop p w fuel first last) m Q.
Proof.
  pose proof wpos as Pw.
  induction fuel as [|f IH]; intros first last m Q A B Vf Vl Wf Hle M Hf HQ; [lia|].
  cbn [rev_loop]. unfold A, B in *. clear A B.
  destruct (cmp_addr w first last ltac:(lia) Vf Vl) as (_ & -> & _).
  destruct (Z.ltb_spec (addr w first) (addr w last)) as [C|C].
  - destruct (iinc_spec w first ltac:(lia) Vf) as [Vi Ai]. destruct (idec_spec w last ltac:(lia) Vl) as [Vj Aj].
    apply wp_bind, wp_deref; [assumption|]. intros r R.
    apply wp_bind, wp_deref; [assumption|]. intros s S.
    apply wp_bind, (wp_exchange r (addr w first) s (addr w last)); try assumption;
      [eapply sub_mapped; [exact M|lia]|eapply sub_mapped; [exact M|lia]|].
    intros m1 W1 D1 B1. apply IH; rewrite ?Ai, ?Aj; try assumption; try lia.
    + eapply mapped_dom; [|exact D1]. intros i Hi. apply M. lia.
    + intros m2 (W2 & D2 & B2). apply HQ. split; [assumption|].
      split; [eapply same_dom_trans; eassumption|].
      intros i. rewrite B2. unfold inr. rewrite !B1.
      bsplit; try reflexivity; try lia; f_equal; lia.
  - apply wp_ret, HQ, updated_refl; [assumption|]. intros i Hi. f_equal. lia.
Qed.

Lemma wp_std_reverse : forall fuel first last m (Q : unit -> mem -> Prop),
  valid_it w first -> valid_it w last -> wf_mem w m -> addr w first <= addr w last ->
  mapped w m (addr w first) (addr w last) -> addr w last - addr w first < Z.of_nat fuel ->
  (forall m', updated w m m' (addr w first) (addr w last)
     (fun i => bit w m (addr w last - 1 - (i - addr w first))) -> Q tt m') ->
  wp (std_reverse p w fuel first last) m Q.
Proof.
  intros fuel first last m Q Vf Vl Wf Hle M Hf HQ. pose proof wpos as Pw. unfold std_reverse.
  rewrite (ieq_addr w) by (assumption || lia).
  destruct (Z.eqb_spec (addr w first) (addr w last)) as [E|E].
  - apply wp_ret, HQ, updated_refl; [assumption|]. intros. lia.
  - destruct (idec_spec w last ltac:(lia) Vl) as [Vj Aj].
    apply wp_rev_loop; rewrite ?Aj; try assumption; try lia.
    + intros i Hi. apply M. lia.
    + intros m' U. apply HQ. replace (addr w last - 1 + 1) with (addr w last) in U by ring. exact U.
Qed.

(** std::find *)
Lemma wp_std_find : forall fuel first last b m (Q : iter -> mem -> Prop),
  valid_it w first -> valid_it w last -> wf_mem w m -> addr w first <= addr w last ->
  mapped w m (addr w first) (addr w last) -> addr w last - addr w first < Z.of_nat fuel ->
  (forall r, valid_it w r -> addr w first <= addr w r <= addr w last ->
     (forall i, addr w first <= i < addr w r -> bit w m i <> b) ->
     (addr w r < addr w last -> bit w m (addr w r) = b) -> Q r m) ->
  wp (std_find p w fuel first last b) m Q.
Proof.
  pose proof wpos as Pw. induction fuel as [|f IH]; intros first last b m Q Vf Vl Wf Hle M Hf HQ; [lia|].
  cbn [std_find]. rewrite at_end by assumption.
  destruct (Z.ltb_spec (addr w first) (addr w last)) as [C|C].
  - destruct (iinc_spec w first ltac:(lia) Vf) as [Vi Ai].
    apply wp_bind, wp_deref; [assumption|]. intros s S.
    apply wp_bind, (wp_get s (addr w first)); try assumption; [eapply sub_mapped; [exact M|lia]|].
    destruct (eqb (bit w m (addr w first)) b) eqn:E.
    + apply eqb_prop in E. apply wp_ret, HQ; try assumption; try lia. intros _. exact E.
    + apply IH; rewrite ?Ai; try assumption; try lia.
      { intros i Hi. apply M. lia. }
      intros r Vr Ar H1 H2. apply HQ; try assumption; try lia.
      intros i Hi. destruct (Z.eq_dec i (addr w first)) as [->|N].
      * intros X. rewrite X, eqb_reflx in E. discriminate.
      * apply H1. lia.
  - apply wp_ret, HQ; try assumption; try lia; intros; lia.
Qed.

(** std::count *)
Lemma count_true_step : forall f lo n, 0 < n ->
  count_true f lo (Z.to_nat n) = b2z (f lo) + count_true f (lo + 1) (Z.to_nat (n - 1)).
Proof.
  intros f lo n Hn. replace (Z.to_nat n) with (S (Z.to_nat (n - 1))) by lia. cbn [count_true].
  unfold b2z. destruct (f lo); lia.
Qed.

Lemma wp_std_count : forall fuel first last b n m (Q : Z -> mem -> Prop),
  valid_it w first -> valid_it w last -> wf_mem w m -> addr w first <= addr w last ->
  mapped w m (addr w first) (addr w last) -> addr w last - addr w first < Z.of_nat fuel ->
  Q (n + count_true (fun i => eqb (bit w m i) b) (addr w first)
           (Z.to_nat (addr w last - addr w first))) m ->
  wp (std_count p w fuel first last b n) m Q.
Proof.
  pose proof wpos as Pw. induction fuel as [|f IH]; intros first last b n m Q Vf Vl Wf Hle M Hf HQ; [lia|].
  cbn [std_count]. rewrite at_end by assumption.
  destruct (Z.ltb_spec (addr w first) (addr w last)) as [C|C].
  - destruct (iinc_spec w first ltac:(lia) Vf) as [Vi Ai].
    apply wp_bind, wp_deref; [assumption|]. intros s S.
    apply wp_bind, (wp_get s (addr w first)); try assumption; [eapply sub_mapped; [exact M|lia]|].
    apply IH; rewrite ?Ai; try assumption; try lia.
    { intros i Hi. apply M. lia. }
    rewrite count_true_step in HQ by lia.
    replace (addr w last - (addr w first + 1)) with (addr w last - addr w first - 1) by ring.
    destruct (eqb (bit w m (addr w first)) b); cbn [b2z] in HQ;
      [rewrite <- Z.add_assoc; exact HQ|rewrite Z.add_0_l in HQ; exact HQ].
  - replace (Z.to_nat (addr w last - addr w first)) with O in HQ by lia. cbn [count_true] in HQ.
    rewrite Z.add_0_r in HQ. apply wp_ret, HQ.
Qed.

(** std::equal *)
Lemma wp_std_equal : forall fuel first last d m (Q : bool -> mem -> Prop),
  let len := addr w last - addr w first in
  valid_it w first -> valid_it w last -> valid_it w d -> wf_mem w m -> 0 <= len ->
  mapped w m (addr w first) (addr w last) -> mapped w m (addr w d) (addr w d + len) ->
  len < Z.of_nat fuel ->
  (forall r, (r = true <-> forall k, 0 <= k < len ->
     bit w m (addr w first + k) = bit w m (addr w d + k)) -> Q r m) ->
  wp (std_equal p w fuel first last d) m Q.
Proof.
  pose proof wpos as Pw.
  induction fuel as [|f IH]; intros first last d m Q len Vf Vl Vd Wf Hle M Md Hf HQ; [lia|].
  cbn [std_equal]. unfold len in *. rewrite at_end by (assumption || lia).
  destruct (Z.ltb_spec (addr w first) (addr w last)) as [C|C].
  - destruct (iinc_spec w first ltac:(lia) Vf) as [Vi Ai]. destruct (iinc_spec w d ltac:(lia) Vd) as [Vj Aj].
    apply wp_bind, wp_deref; [assumption|]. intros s S.
    apply wp_bind, (wp_get s (addr w first)); try assumption; [eapply sub_mapped; [exact M|lia]|].
    apply wp_bind, wp_deref; [assumption|]. intros r R.
    apply wp_bind, (wp_get r (addr w d)); try assumption; [eapply sub_mapped; [exact Md|lia]|].
    destruct (eqb (bit w m (addr w first)) (bit w m (addr w d))) eqn:E.
    + apply eqb_prop in E. apply IH; rewrite ?Ai, ?Aj; try assumption; try lia.
      { intros i Hi. apply M. lia. }
      { intros i Hi. apply Md. lia. }
      intros t T. apply HQ. rewrite T. split; intros H k Hk.
      * destruct (Z.eq_dec k 0) as [->|N]; [rewrite !Z.add_0_r; exact E|].
        specialize (H (k - 1) ltac:(lia)). replace (addr w first + k) with (addr w first + 1 + (k - 1)) by ring.
        replace (addr w d + k) with (addr w d + 1 + (k - 1)) by ring. exact H.
      * rewrite <- !Z.add_assoc. apply H. lia.
    + apply wp_ret, HQ. split; [discriminate|]. intros H. specialize (H 0 ltac:(lia)).
      rewrite !Z.add_0_r in H. rewrite H, eqb_reflx in E. discriminate.
  - apply wp_ret, HQ. split; [|reflexivity]. intros _ k Hk. lia.
Qed.

(** std::rotate *)
Lemma wp_std_rotate : forall fuel first mid last m (Q : iter -> mem -> Prop),
  let n := addr w last - addr w first in let k := addr w mid - addr w first in
  valid_it w first -> valid_it w mid -> valid_it w last -> wf_mem w m ->
  addr w first <= addr w mid <= addr w last -> n <= max_bits ->
  mapped w m (addr w first) (addr w last) -> n < Z.of_nat fuel ->
  (forall r m', valid_it w r -> addr w r = addr w first + (n - k) ->
     updated w m m' (addr w first) (addr w last)
       (fun i => bit w m (rotl_from (addr w first) n k i)) -> Q r m') ->
  wp (std_rotate p w fuel first mid last) m Q.
Proof.
  intros fuel first mid last m Q n k Vf Vm Vl Wf Hle Hmax M Hf HQ. unfold n, k in *. clear n k.
  pose proof wpos as Pw. unfold std_rotate, max_bits in *.
  rewrite !(ieq_addr w) by (assumption || lia).
  destruct (Z.eqb_spec (addr w first) (addr w mid)) as [E|E].
  { apply wp_ret, HQ; [assumption|lia|]. apply updated_refl; [assumption|].
    intros i Hi. f_equal. unfold rotl_from. bsplit; lia. }
  destruct (Z.eqb_spec (addr w mid) (addr w last)) as [E'|E'].
  { apply wp_ret, HQ; [assumption|lia|]. apply updated_refl; [assumption|].
    intros i Hi. f_equal. unfold rotl_from. bsplit; lia. }
  apply wp_bind, wp_std_reverse; try assumption; try lia.
  { intros i Hi. apply M. lia. }
  intros m1 U1. pose proof (updated_wf _ _ _ _ _ _ U1) as W1.
  apply wp_bind, wp_std_reverse; try assumption; try lia.
  { eapply updated_mapped; [exact U1|]. intros i Hi. apply M. lia. }
  intros m2 U2. pose proof (updated_wf _ _ _ _ _ _ U2) as W2.
  apply wp_bind, wp_std_reverse; try assumption; try lia.
  { eapply updated_mapped; [exact U2|]. eapply updated_mapped; [exact U1|]. exact M. }
  intros m3 U3. destruct U1 as (X1 & D1 & B1), U2 as (X2 & D2 & B2), U3 as (X3 & D3 & B3).
  apply wp_bind, wp_lift. rewrite idiff_eq by (assumption || lia). apply rwp_ok.
  apply wp_iadd; [apply Vw|assumption|lia|]. intros r Vr Ar.
  apply HQ; [assumption|lia|]. split; [assumption|].
  split; [eapply same_dom_trans; [exact D1|]; eapply same_dom_trans; eassumption|].
  intros i. rewrite B3, B2. unfold inr, rotl_from. rewrite !B2, !B1. unfold inr.
  bsplit; try lia; try reflexivity; f_equal; lia.
Qed.
End Std.

(** Agreement of the two families. *)
Lemma std_fill_agree : forall p w m fuel first last b,
  valid_w w -> wf_mem w m -> good_range w m first last ->
  addr w last - addr w first < Z.of_nat fuel ->
  agree (fill p w first last b) (std_fill p w fuel first last b) m.
Proof.
  intros p w m fuel first last b Vw Wf G Hf. pose proof (valid_pos w Vw) as Pw.
  destruct (fill_ok p w m first last b Vw Wf G) as (m1 & E1 & U1).
  destruct G as (Vf & Vl & Hd & M).
  destruct (wp_exists _ _ _ _ (wp_std_fill p w Vw fuel first last b m
    (fun _ m' => updated w m m' (addr w first) (addr w last) (fun _ => b))
    Vf Vl Wf ltac:(lia) M Hf (fun m' H => H))) as ([] & m2 & E2 & U2).
  exists tt, m1, m2. split; [exact E1|]. split; [exact E2|].
  eapply updated_same; [|exact U1|exact U2]. lia.
Qed.

Lemma std_copy_agree : forall p w m fuel first last d,
  valid_w w -> wf_mem w m -> good_range w m first last ->
  good_dest w m d (addr w last - addr w first) ->
  addr w d <= addr w first \/ addr w last <= addr w d ->
  addr w last - addr w first < Z.of_nat fuel ->
  agree (copy p w first last d) (std_copy p w fuel first last d) m.
Proof.
  intros p w m fuel first last d Vw Wf G Gd Ho Hf. pose proof (valid_pos w Vw) as Pw.
  destruct (copy_ok p w m first last d Vw Wf G Gd Ho) as (r1 & m1 & E1 & V1 & A1 & U1).
  destruct G as (Vf & Vl & Hd & M), Gd as (Vd & Md).
  destruct (wp_exists _ _ _ _ (wp_std_copy p w Vw fuel first last d m
    (fun d' m' => valid_it w d' /\ addr w d' = addr w d + (addr w last - addr w first) /\
     updated w m m' (addr w d) (addr w d + (addr w last - addr w first))
       (fun i => bit w m (addr w first + (i - addr w d))))
    Vf Vl Vd Wf ltac:(lia) M Md Ho Hf (fun d' m' H1 H2 H3 => conj H1 (conj H2 H3))))
    as (r2 & m2 & E2 & V2 & A2 & U2).
  assert (r1 = r2) by (apply (addr_inj w); [lia|assumption..|lia]). subst r2.
  exists r1, m1, m2. split; [exact E1|]. split; [exact E2|].
  eapply updated_same; [|exact U1|exact U2]. lia.
Qed.

Lemma std_move_agree : forall p w m fuel first last d,
  valid_w w -> wf_mem w m -> good_range w m first last ->
  good_dest w m d (addr w last - addr w first) ->
  addr w d <= addr w first \/ addr w last <= addr w d ->
  addr w last - addr w first < Z.of_nat fuel ->
  agree (move p w first last d) (std_copy p w fuel first last d) m.
Proof. exact std_copy_agree. Qed.

Lemma std_copy_backward_agree : forall p w m fuel first last d,
  valid_w w -> wf_mem w m -> good_range w m first last ->
  good_dest_end w m d (addr w last - addr w first) ->
  addr w last <= addr w d \/ addr w d <= addr w first ->
  ip first <> 0 \/ ip last <> ip d \/ ib last - ib first < 2 \/ full_blend_defined p w ->
  addr w last - addr w first < Z.of_nat fuel ->
  agree (copy_backward p w first last d) (std_copy_backward p w fuel first last d) m.
Proof.
  intros p w m fuel first last d Vw Wf G Gd Ho Hg Hf. pose proof (valid_pos w Vw) as Pw.
  destruct (copy_backward_ok p w m first last d Vw Wf G Gd Ho Hg) as (r1 & m1 & E1 & V1 & A1 & U1).
  destruct G as (Vf & Vl & Hd & M), Gd as (Vd & Md).
  destruct (wp_exists _ _ _ _ (wp_std_copy_backward p w Vw fuel first last d m
    (fun d' m' => valid_it w d' /\ addr w d' = addr w d - (addr w last - addr w first) /\
     updated w m m' (addr w d - (addr w last - addr w first)) (addr w d)
       (fun i => bit w m (addr w last - (addr w d - i))))
    Vf Vl Vd Wf ltac:(lia) M Md Ho Hf (fun d' m' H1 H2 H3 => conj H1 (conj H2 H3))))
    as (r2 & m2 & E2 & V2 & A2 & U2).
  assert (r1 = r2) by (apply (addr_inj w); [lia|assumption..|lia]). subst r2.
  exists r1, m1, m2. split; [exact E1|]. split; [exact E2|].
  eapply updated_same; [|exact U1|exact U2]. lia.
Qed.

Lemma std_swap_agree : forall p w m fuel first last d,
  let len := addr w last - addr w first in
  valid_w w -> wf_mem w m -> good_range w m first last -> good_dest w m d len ->
  addr w last <= addr w d \/ addr w d + len <= addr w first -> len < Z.of_nat fuel ->
  agree (swap_ranges p w first last d) (std_swap_ranges p w fuel first last d) m.
Proof.
  intros p w m fuel first last d len Vw Wf G Gd Ho Hf. unfold len in *. clear len.
  pose proof (valid_pos w Vw) as Pw.
  destruct (swap_ranges_ok p w m first last d Vw Wf G Gd ltac:(lia))
    as (r1 & m1 & E1 & V1 & A1 & W1 & D1 & B1).
  destruct G as (Vf & Vl & Hd & M), Gd as (Vd & Md).
  destruct (wp_exists _ _ _ _ (wp_std_swap_ranges p w Vw fuel first last d m
    (fun d' m' => valid_it w d' /\ addr w d' = addr w d + (addr w last - addr w first) /\
     wf_mem w m' /\ same_dom m m' /\ forall i, bit w m' i = bit w m1 i)
    Vf Vl Vd Wf ltac:(lia)
    ltac:(replace (addr w first + (addr w last - addr w first)) with (addr w last) by ring; exact M)
    Md ltac:(lia) Hf
    ltac:(intros d' m' H1 H2 H3 H4 H5; repeat (split; [assumption|]); intros i; rewrite H5, B1; reflexivity)))
    as (r2 & m2 & E2 & V2 & A2 & W2 & D2 & B2).
  assert (r1 = r2) by (apply (addr_inj w); [lia|assumption..|lia]). subst r2.
  exists r1, m1, m2. split; [exact E1|]. split; [exact E2|].
  apply (same_words w m); try assumption; [lia|]. intros i. symmetry. apply B2.
Qed.

Lemma std_reverse_agree : forall p w m fuel first last,
  valid_w w -> wf_mem w m -> good_range w m first last ->
  addr w last - addr w first + 2 * w <= max_bits ->
  (addr w first = addr w last -> ip first = 0 \/ m (ib first) <> None) ->
  ip first = 0 \/ ip last <> 0 \/ ib last - ib first <> 1 \/ full_blend_defined p w ->
  addr w last - addr w first < Z.of_nat fuel ->
  agree (reverse p w first last) (std_reverse p w fuel first last) m.
Proof.
  intros p w m fuel first last Vw Wf G Hx He Hg Hf. pose proof (valid_pos w Vw) as Pw.
  destruct (reverse_ok p w m first last Vw Wf G Hx He Hg) as (m1 & E1 & U1).
  destruct G as (Vf & Vl & Hd & M).
  destruct (wp_exists _ _ _ _ (wp_std_reverse p w Vw fuel first last m
    (fun _ m' => updated w m m' (addr w first) (addr w last)
       (fun i => bit w m (addr w last - 1 - (i - addr w first))))
    Vf Vl Wf ltac:(lia) M Hf (fun m' H => H))) as ([] & m2 & E2 & U2).
  exists tt, m1, m2. split; [exact E1|]. split; [exact E2|].
  eapply updated_same; [|exact U1|exact U2]. lia.
Qed.

Lemma std_rotate_agree : forall p w m fuel first n_first last,
  valid_w w -> wf_mem w m -> good_range w m first last -> valid_it w n_first ->
  addr w first <= addr w n_first < addr w last ->
  Z.min (addr w n_first - addr w first) (addr w last - addr w n_first) <= 2 ^ 32 * (w + 1) ->
  (addr w last - addr w n_first <= w \/
   (addr w n_first - addr w first) / (addr w last - addr w n_first) < 2 ^ 32) ->
  mask_fits w (ip first) (addr w last - addr w first) ->
  addr w last - addr w first < Z.of_nat fuel ->
  agree (rotate p w first n_first last) (std_rotate p w fuel first n_first last) m.
Proof.
  intros p w m fuel first n_first last Vw Wf G Vn Hn Hs Hq Hmf Hf. pose proof (valid_pos w Vw) as Pw.
  destruct (rotate_ok p w m first n_first last Vw Wf G Vn Hn Hs Hmf Hq) as (r1 & m1 & E1 & V1 & A1 & U1).
  destruct G as (Vf & Vl & Hd & M).
  destruct (wp_exists _ _ _ _ (wp_std_rotate p w Vw fuel first n_first last m
    (fun r m' => valid_it w r /\
      addr w r = addr w first + (addr w last - addr w first - (addr w n_first - addr w first)) /\
      updated w m m' (addr w first) (addr w last)
       (fun i => bit w m (rotl_from (addr w first) (addr w last - addr w first)
                                    (addr w n_first - addr w first) i)))
    Vf Vn Vl Wf ltac:(lia) ltac:(lia) M Hf (fun d' m' H1 H2 H3 => conj H1 (conj H2 H3))))
    as (r2 & m2 & E2 & V2 & A2 & U2).
  assert (r1 = r2) by (apply (addr_inj w); [lia|assumption..|lia]). subst r2.
  exists r1, m1, m2. split; [exact E1|]. split; [exact E2|].
  eapply updated_same; [|exact U1|]; [lia|]. eapply updated_ext; [exact U2|].
  intros i Hi. cbv beta zeta. unfold rotl_from. f_equal. bsplit; lia.
Qed.

Lemma std_transform_agree : forall p w op g m fuel first last d,
  valid_w w -> wf_mem w m -> good_range w m first last ->
  good_dest w m d (addr w last - addr w first) ->
  addr w d <= addr w first \/ addr w last <= addr w d -> bitwise w op g ->
  addr w last - addr w first < Z.of_nat fuel ->
  agree (transform1 p w op first last d) (std_transform p w fuel g first last d) m.
Proof.
  intros p w op g m fuel first last d Vw Wf G Gd Ho Hop Hf. pose proof (valid_pos w Vw) as Pw.
  destruct (transform1_ok p w op g m first last d Vw Wf G Gd Ho
    (fun x Hx => proj1 (Hop x Hx)) (fun x k Hx Hk => proj2 (Hop x Hx) k Hk))
    as (r1 & m1 & E1 & V1 & A1 & U1).
  destruct G as (Vf & Vl & Hd & M), Gd as (Vd & Md).
  destruct (wp_exists _ _ _ _ (wp_std_transform p w Vw fuel g first last d m
    (fun d' m' => valid_it w d' /\ addr w d' = addr w d + (addr w last - addr w first) /\
     updated w m m' (addr w d) (addr w d + (addr w last - addr w first))
       (fun i => g (bit w m (addr w first + (i - addr w d)))))
    Vf Vl Vd Wf ltac:(lia) M Md Ho Hf (fun d' m' H1 H2 H3 => conj H1 (conj H2 H3))))
    as (r2 & m2 & E2 & V2 & A2 & U2).
  assert (r1 = r2) by (apply (addr_inj w); [lia|assumption..|lia]). subst r2.
  exists r1, m1, m2. split; [exact E1|]. split; [exact E2|].
  eapply updated_same; [|exact U1|exact U2]. lia.
Qed.

Lemma std_transform2_agree : forall p w op g m fuel first last first2 d,
  let len := addr w last - addr w first in
  valid_w w -> wf_mem w m -> good_range w m first last -> good_dest w m first2 len ->
  good_dest w m d len -> addr w d <= addr w first \/ addr w last <= addr w d ->
  addr w d <= addr w first2 \/ addr w first2 + len <= addr w d -> bitwise2 w op g ->
  len < Z.of_nat fuel ->
  agree (transform2 p w op first last first2 d) (std_transform2 p w fuel g first last first2 d) m.
Proof.
  intros p w op g m fuel first last first2 d len Vw Wf G Gs Gd Ho Ho2 Hop Hf. unfold len in *. clear len.
  pose proof (valid_pos w Vw) as Pw.
  destruct (transform2_ok p w op g m first last first2 d Vw Wf G Gs Gd Ho Ho2
    (fun x y Hx Hy => proj1 (Hop x y Hx Hy)) (fun x y k Hx Hy Hk => proj2 (Hop x y Hx Hy) k Hk))
    as (r1 & m1 & E1 & V1 & A1 & U1).
  destruct G as (Vf & Vl & Hd & M), Gd as (Vd & Md), Gs as (Vs & Ms).
  destruct (wp_exists _ _ _ _ (wp_std_transform2 p w Vw fuel g first last first2 d m
    (fun d' m' => valid_it w d' /\ addr w d' = addr w d + (addr w last - addr w first) /\
     updated w m m' (addr w d) (addr w d + (addr w last - addr w first))
       (fun i => g (bit w m (addr w first + (i - addr w d)))
                   (bit w m (addr w first2 + (i - addr w d)))))
    Vf Vl Vs Vd Wf ltac:(lia) M Ms Md Ho Ho2 Hf (fun d' m' H1 H2 H3 => conj H1 (conj H2 H3))))
    as (r2 & m2 & E2 & V2 & A2 & U2).
  assert (r1 = r2) by (apply (addr_inj w); [lia|assumption..|lia]). subst r2.
  exists r1, m1, m2. split; [exact E1|]. split; [exact E2|].
  eapply updated_same; [|exact U1|exact U2]. lia.
Qed.

Lemma std_find_agree : forall p w m fuel first last b,
  valid_w w -> wf_mem w m -> good_range w m first last ->
  (ip first <> 0 -> m (ib first) <> None) -> addr w last - addr w first < Z.of_nat fuel ->
  agree (find p w first last b) (std_find p w fuel first last b) m.
Proof.
  intros p w m fuel first last b Vw Wf G Hne Hf. pose proof (valid_pos w Vw) as Pw.
  destruct (find_ok p w m first last b Vw Wf G Hne) as (r1 & E1 & V1 & A1 & B1 & C1).
  destruct G as (Vf & Vl & Hd & M).
  destruct (wp_exists _ _ _ _ (wp_std_find p w Vw fuel first last b m
    (fun r m' => m' = m /\ r = r1) Vf Vl Wf ltac:(lia) M Hf
    ltac:(intros r V2 A2 B2 C2; split; [reflexivity|]; apply (addr_inj w); [lia|assumption..|];
      destruct (Z.lt_trichotomy (addr w r) (addr w r1)) as [H|[H|H]]; [|exact H|];
      [exfalso; apply (B1 (addr w r)); [lia|apply C2; lia]
      |exfalso; apply (B2 (addr w r1)); [lia|apply C1; lia]])))
    as (r2 & m2 & E2 & -> & ->).
  exists r1, m, m. split; [exact E1|]. split; [exact E2|reflexivity].
Qed.

Lemma std_count_agree : forall t p w m fuel first last b,
  valid_w w -> wf_mem w m -> good_range w m first last ->
  (exists c, t = X86 c) \/ t = Neon true \/ w = 64 ->
  (first = last -> m (ib first) <> None) -> addr w last - addr w first < Z.of_nat fuel ->
  agree (count t p w first last b) (std_count p w fuel first last b 0) m.
Proof.
  intros t p w m fuel first last b Vw Wf G Ht Hne Hf.
  pose proof (count_ok t p w m first last b Vw Wf G Ht Hne) as E1.
  destruct G as (Vf & Vl & Hd & M).
  destruct (wp_exists _ _ _ _ (wp_std_count p w Vw fuel first last b 0 m
    (fun r m' => m' = m /\ r = count_true (fun i => eqb (bit w m i) b) (addr w first)
        (Z.to_nat (addr w last - addr w first))) Vf Vl Wf ltac:(lia) M Hf
     ltac:(split; [reflexivity|apply Z.add_0_l]))) as (r2 & m2 & E2 & -> & ->).
  eexists _, m, m. split; [exact E1|]. split; [exact E2|reflexivity].
Qed.

Lemma std_equal_agree : forall p w m fuel first last d,
  valid_w w -> wf_mem w m -> good_range w m first last ->
  good_dest w m d (addr w last - addr w first) -> addr w last - addr w first < Z.of_nat fuel ->
  agree (equal p w first last d) (std_equal p w fuel first last d) m.
Proof.
  intros p w m fuel first last d Vw Wf G Gd Hf.
  destruct (equal_ok p w m first last d Vw Wf G Gd) as (r1 & E1 & H1).
  destruct G as (Vf & Vl & Hd & M), Gd as (Vd & Md).
  destruct (wp_exists _ _ _ _ (wp_std_equal p w Vw fuel first last d m
    (fun r m' => m' = m /\ r = r1) Vf Vl Vd Wf ltac:(lia) M Md Hf
    ltac:(intros r Hr; split; [reflexivity|]; destruct r, r1; try reflexivity;
      [symmetry; apply H1, Hr; reflexivity|apply Hr, H1; reflexivity])))
    as (r2 & m2 & E2 & -> & ->).
  exists r1, m, m. split; [exact E1|]. split; [exact E2|reflexivity].
Qed.

(** Calls that the loops answer and the word-parallel algorithms do not. *)
Lemma std_copy_backward_refuted : exists p w m fuel first last d,
  valid_w w /\ wf_mem w m /\ good_range w m first last /\
  good_dest_end w m d (addr w last - addr w first) /\ addr w last <= addr w d /\
  (exists r m', std_copy_backward p w fuel first last d m = Ok (r, m')) /\
  exists u, copy_backward p w first last d m = UB u.
Proof.
  exists Strict17, 8, (mem_of [1; 2; 3; 4]), 20%nat, (It 0 0), (It 2 0), (It 4 0).
  repeat match goal with |- _ /\ _ => split end; try (demo; fail).
  - eexists _, _. vm_compute. reflexivity.
  - eexists. vm_compute. reflexivity.
Qed.

Lemma std_reverse_refuted : exists p w m fuel first last,
  valid_w w /\ wf_mem w m /\ good_range w m first last /\
  (exists m', std_reverse p w fuel first last m = Ok (tt, m')) /\
  exists u, reverse p w first last m = UB u.
Proof.
  exists Strict17, 8, (mem_of [1; 2; 3; 4]), 20%nat, (It 0 3), (It 1 0).
  repeat match goal with |- _ /\ _ => split end; try (demo; fail).
  - eexists. vm_compute. reflexivity.
  - eexists. vm_compute. reflexivity.
Qed.

Lemma std_rotate_refuted : exists p w m fuel first last,
  valid_w w /\ wf_mem w m /\ good_range w m first last /\ addr w first < addr w last /\
  std_rotate p w fuel first last last m = Ok (first, m) /\
  rotate p w first last last m = UB OutOfBounds.
Proof.
  exists Strict17, 8, (mem_of [1; 2; 3; 4]), 40%nat, (It 0 3), (It 4 0).
  repeat match goal with |- _ /\ _ => split end; try (demo; fail).
Qed.

Lemma std_count_refuted : exists t p w m fuel it b,
  valid_w w /\ wf_mem w m /\ good_range w m it it /\
  std_count p w fuel it it b 0 m = Ok (0, m) /\ count t p w it it b m = UB OutOfBounds.
Proof.
  exists (X86 (Cpu true true true)), Strict17, 8, (mem_of [1; 2]), 1%nat, (It 2 0), true.
  repeat match goal with |- _ /\ _ => split end; try (demo; fail).
Qed.

(** Complementing and conjunction work bit by bit. *)
Lemma bitwise_not8 : bitwise 8 (fun x => Z.lxor x 255) negb.
Proof.
  intros x Hx. split; [apply (lxor_op_ok 8 255); lia|]. intros k Hk. rewrite Z.lxor_spec.
  change 255 with (Z.ones 8). rewrite Z.ones_spec_low by lia. destruct (Z.testbit x k); reflexivity.
Qed.

Lemma bitwise2_and8 : bitwise2 8 Z.land andb.
Proof.
  intros x y Hx Hy. split; [|intros k Hk; apply Z.land_spec].
  replace (Z.land x y) with (wrap 8 (Z.land x y)); [apply wrap_range; lia|].
  apply Z.bits_inj'. intros k Hk. rewrite wrap_testbit by lia.
  destruct (Z.ltb_spec k 8) as [E|E]; [reflexivity|]. rewrite Z.land_spec, (testbit_high 8 x) by lia.
  reflexivity.
Qed.
