(** Proofs about the mask of a bit iterator, the constructors for the first bit of
    a word and the free functions that move a bit iterator. *)
From Coq Require Import ZArith Bool List Lia.
From Verif Require Import Base WordOps IterModel RefModel Spec SpecRef ProofBase
  ProofIter ProofWord ProofRef ProofReference.
Import ListNotations.
Open Scope Z_scope.
Ltac Zify.zify_post_hook ::= idtac.

Lemma imask_eq : forall p w it, valid_w w -> valid_it w it -> imask p w it = Ok (2 ^ ip it).
Proof.
  intros p w it Hw Hv. unfold imask.
  pose proof (mk_ref_eq p w (ib it) (ip it) Hw Hv) as H. unfold mk_ref in H.
  unfold valid_it in Hv. replace ((0 <=? ip it) && (ip it <? w)) with true in H by lia.
  destruct (cshl p w 1 (ip it)) as [s| | | |]; try discriminate H.
  cbn [rbind] in *. congruence.
Qed.

Lemma mask_selects : forall p w m it x, valid_w w -> valid_it w it ->
  m (ib it) = Some x ->
  exists k, imask p w it = Ok k /\ 0 < k < 2 ^ w /\
    (forall j, 0 <= j -> Z.testbit k j = (j =? ip it)) /\
    (Z.land x k <> 0 <-> bit w m (addr w it) = true).
Proof.
  intros p w m it x Hw Hv Hx. exists (2 ^ ip it).
  pose proof (valid_pos w Hw) as Hwp. unfold valid_it in Hv.
  split; [apply imask_eq; assumption|].
  split; [split; [apply Z.pow_pos_nonneg; lia|apply Z.pow_lt_mono_r; lia]|].
  assert (Hb : forall j, 0 <= j -> Z.testbit (2 ^ ip it) j = (j =? ip it)).
  { intros j Hj. rewrite Z.pow2_bits_eqb by lia. apply Z.eqb_sym. }
  split; [exact Hb|].
  assert (Hbit : bit w m (addr w it) = Z.testbit x (ip it)).
  { unfold bit, addr. rewrite Z.div_add_l, Z.div_small by lia. rewrite Z.add_0_r, Hx.
    rewrite Z.add_comm, Z.mod_add, Z.mod_small by lia. reflexivity. }
  rewrite Hbit. split; intros H.
  - destruct (Z.testbit x (ip it)) eqn:E; [reflexivity|]. exfalso. apply H.
    apply Z.bits_inj'. intros j Hj. rewrite Z.land_spec, Hb, Z.bits_0 by lia.
    destruct (Z.eqb_spec j (ip it)) as [->|]; [rewrite E; reflexivity|apply andb_false_r].
  - intros E. assert (H0 : Z.testbit (Z.land x (2 ^ ip it)) (ip it) = false)
      by (rewrite E; apply Z.bits_0).
    rewrite Z.land_spec, Hb, H, Z.eqb_refl in H0 by lia. discriminate.
Qed.

Lemma aligned_ok : forall p w a, valid_w w ->
  valid_it w (mk_aligned a) /\ addr w (mk_aligned a) = a * w /\
  refers_to w (ref_aligned a) (a * w) /\ points_to w (ptr_aligned (Some a)) (a * w) /\
  ideref p w (mk_aligned a) = Ok (ref_aligned a).
Proof.
  intros p w a Hw. pose proof (valid_pos w Hw) as Hwp.
  split; [unfold valid_it, mk_aligned; cbn; lia|].
  split; [unfold addr, mk_aligned; cbn; lia|].
  split; [exists a, 0; repeat split; (lia || reflexivity)|].
  split; [exists a, 0; repeat split; (lia || reflexivity)|].
  unfold ideref, mk_aligned. cbn [ib ip]. rewrite mk_ref_eq by (assumption || lia).
  reflexivity.
Qed.

Lemma moves_ok : forall w it n, valid_w w -> valid_it w it ->
  - 2 ^ 63 <= ip it + n < 2 ^ 63 ->
  exists r, valid_it w r /\ addr w r = addr w it + n /\
    iadd_left w n it = Ok r /\ advance w it n = Ok r /\ inext w it n = Ok r /\
    iadd_assign w it n = Ok r.
Proof.
  intros w it n Hw Hv Hn. destruct (iadd_exact w it n Hw Hv Hn) as (r & E & Hr & Ha).
  exists r. unfold iadd_left, advance, inext, iadd_assign. auto 10.
Qed.
