(** Proofs about reverse and rotate in the BITLIB_HWY build. *)
From Coq Require Import ZArith Bool List Lia.
From Coq Require Import ZifyBool.
From Verif Require Import Base WordOps IterModel AlgModel ShiftModel SwapModel
  ReverseModel RotateModel HwyModel HwyAlgModel Spec SpecHwy SpecRotate SpecStd
  ProofBase ProofIter ProofWord ProofShift ProofHwy ProofWith ProofReverse ProofRotate
  ProofRotateAll ProofOracle.
Import ListNotations.
Open Scope Z_scope.
Ltac Zify.zify_post_hook ::= idtac.

Lemma reverse_hwy_hw : forall o h w m first last,
  valid_w w -> vector_fits h w -> wf_mem w m -> good_range w m first last ->
  addr w last - addr w first + 2 * w <= max_bits ->
  (addr w first = addr w last -> ip first = 0 \/ m (ib first) <> None) ->
  exists m', reverse_hwy (Hw o) h w first last m = Ok (tt, m') /\
    updated w m m' (addr w first) (addr w last)
      (fun i => bit w m (addr w last - 1 - (i - addr w first))).
Proof.
  intros o h w m first last Vw Hfit Hwf Hr Hmax Hemp. unfold reverse_hwy.
  apply reverse_with_ok; try assumption.
  - apply good_left_hwy, Hfit.
  - apply good_right_hwy, Hfit.
  - do 3 right. exact I.
Qed.

Lemma reverse_hwy_same : forall o h w m first last,
  valid_w w -> vector_fits h w -> wf_mem w m -> good_range w m first last ->
  addr w last - addr w first + 2 * w <= max_bits ->
  (addr w first = addr w last -> ip first = 0 \/ m (ib first) <> None) ->
  agree (reverse_hwy (Hw o) h w first last) (reverse (Hw o) w first last) m.
Proof.
  intros o h w m first last Vw Hfit Hwf Hr Hmax Hemp. pose proof (valid_pos w Vw) as Hwp.
  destruct (reverse_hwy_hw o h w m first last Vw Hfit Hwf Hr Hmax Hemp) as (m1 & E1 & U1).
  destruct (reverse_hw o w m first last Vw Hwf Hr Hmax Hemp) as (m2 & E2 & U2).
  exists tt, m1, m2. split; [exact E1|]. split; [exact E2|].
  exact (updated_same w m m1 m2 _ _ _ ltac:(lia) U1 U2).
Qed.

Lemma rotate_hwy_every : forall w first n_first last,
  valid_w w -> valid_it w first -> valid_it w n_first -> valid_it w last ->
  addr w first <= addr w n_first < addr w last ->
  addr w last - addr w first <= max_bits ->
  mask_fits w (ip first) (addr w last - addr w first) ->
  let A := addr w first in let n := addr w last - A in let k := addr w n_first - A in
  exists s, perm A n s /\
    (quotients_fit 64 w k (addr w last - addr w n_first) = true <->
     forall i, A <= i < A + n -> s i = rotl_from A n k i) /\
    (forall o h m, vector_fits h w -> wf_mem w m -> mapped w m A (A + n) ->
      exists r m', rotate_hwy (Hw o) h w first n_first last m = Ok (r, m') /\ valid_it w r /\
        addr w r = A + (addr w last - addr w n_first) /\
        updated w m m' A (A + n) (fun i => bit w m (s i))) /\
    (forall p m, wf_mem w m -> mapped w m A (A + n) ->
      exists r m', rotate p w first n_first last m = Ok (r, m') /\ valid_it w r /\
        addr w r = A + (addr w last - addr w n_first) /\
        updated w m m' A (A + n) (fun i => bit w m (s i))).
Proof.
  intros w first n_first last Vw Hf Hnf Hl Hlt Hmax Hmf A n k.
  destruct (rotate_every_with w first n_first last Vw Hf Hnf Hl Hlt Hmax Hmf)
    as (s & Ps & Hq & _ & Hrun).
  exists s. split; [exact Ps|]. split; [exact Hq|]. split.
  - intros o h m Hfit Hwf Hm. unfold rotate_hwy.
    exact (Hrun _ _ (Hw o) m (good_left_hwy (Hw o) h w Hfit)
      (good_right_hwy m _ _ o h w Hfit) Hwf Hm).
  - intros p m Hwf Hm.
    destruct (Hrun _ _ p m (good_left_scalar p w) (good_right_scalar m _ _ p w) Hwf Hm)
      as (r & m' & E & R).
    rewrite rotate_with_scalar in E. exists r, m'. split; [exact E|exact R].
Qed.

Lemma rotate_hwy_same : forall o p h w m first n_first last,
  valid_w w -> vector_fits h w -> wf_mem w m -> good_range w m first last ->
  valid_it w n_first -> addr w first <= addr w n_first < addr w last ->
  mask_fits w (ip first) (addr w last - addr w first) ->
  agree (rotate_hwy (Hw o) h w first n_first last) (rotate p w first n_first last) m.
Proof.
  intros o p h w m first n_first last Vw Hfit Hwf (Hf & Hl & Hd & Hm) Hnf Hlt Hmf.
  pose proof (valid_pos w Vw) as Hwp.
  destruct (rotate_hwy_every w first n_first last Vw Hf Hnf Hl Hlt ltac:(lia) Hmf)
    as (s & _ & _ & R1 & R2).
  assert (Hm' : mapped w m (addr w first) (addr w first + (addr w last - addr w first))).
  { replace (addr w first + (addr w last - addr w first)) with (addr w last) by lia. exact Hm. }
  destruct (R1 o h m Hfit Hwf Hm') as (r1 & m1 & E1 & V1 & A1 & U1).
  destruct (R2 p m Hwf Hm') as (r2 & m2 & E2 & V2 & A2 & U2).
  assert (r2 = r1) as -> by (apply (addr_inj w); try assumption; lia).
  exists r1, m1, m2. split; [exact E1|]. split; [exact E2|].
  exact (updated_same w m m1 m2 _ _ _ ltac:(lia) U1 U2).
Qed.

Lemma rotate_hwy_exact : forall o h w first n_first last,
  valid_w w -> vector_fits h w ->
  valid_it w first -> valid_it w n_first -> valid_it w last ->
  addr w first <= addr w n_first < addr w last ->
  addr w last - addr w first <= max_bits ->
  mask_fits w (ip first) (addr w last - addr w first) ->
  (quotients_fit 64 w (addr w n_first - addr w first) (addr w last - addr w n_first) = true
   <->
   forall m, wf_mem w m -> good_range w m first last ->
   exists r m', rotate_hwy (Hw o) h w first n_first last m = Ok (r, m') /\ valid_it w r /\
     addr w r = addr w first + (addr w last - addr w n_first) /\
     updated w m m' (addr w first) (addr w last)
       (fun i => let j := i + (addr w n_first - addr w first) in
          bit w m (if j <? addr w last then j else j - (addr w last - addr w first)))).
Proof.
  intros o h w first n_first last Vw Hfit Hf Hnf Hl Hlt Hmax Hmf.
  pose proof (valid_pos w Vw) as Hwp.
  pose proof (rotate_exact (Hw o) w first n_first last Vw Hf Hnf Hl Hlt Hmax Hmf) as X.
  assert (Hsame : forall m, wf_mem w m -> good_range w m first last ->
    agree (rotate_hwy (Hw o) h w first n_first last) (rotate (Hw o) w first n_first last) m).
  { intros m Hwf Hr. apply rotate_hwy_same; assumption. }
  rewrite X. clear X.
  assert (Htr : forall m m1 m2 f, (forall a, m1 a = m2 a) ->
    updated w m m1 (addr w first) (addr w last) f ->
    updated w m m2 (addr w first) (addr w last) f).
  { intros m m1 m2 f He (U1 & U2 & U3). split; [|split].
    - intros a x Hx. apply (U1 a x). rewrite He. exact Hx.
    - intros a. rewrite <- He. apply U2.
    - intros i. rewrite <- U3. unfold bit. rewrite He. reflexivity. }
  split; intros H m Hwf Hr; destruct (H m Hwf Hr) as (r & m' & E & V & A & U);
    destruct (Hsame m Hwf Hr) as (r1 & m1 & m2 & E1 & E2 & He).
  - rewrite E in E2. injection E2 as <- <-. exists r, m1. split; [exact E1|].
    split; [exact V|]. split; [exact A|]. apply (Htr m m' m1); [|exact U].
    intros a. symmetry. apply He.
  - rewrite E in E1. injection E1 as <- <-. exists r, m2. split; [exact E2|].
    split; [exact V|]. split; [exact A|]. apply (Htr m m' m2); [exact He|exact U].
Qed.
