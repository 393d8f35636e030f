(** Proofs about the words behind a bit_vector. *)
From Coq Require Import ZArith Bool List Lia.
From Verif Require Import Base WordOps IterModel RefModel Spec VecModel DataModel SpecVec
  ProofBase ProofIter ProofVec ProofVec2 ProofVec3 ProofVec4 ProofCap.
Import ListNotations.
Open Scope Z_scope.

Lemma vdata_ok : forall w v, valid_w w -> vec_ok w v -> 0 < vlen v ->
  vdata v = Ok (Some 0) /\ vdata_const v = Some 0.
Proof.
  intros w v Hw (_ & V2 & _) Hn. pose proof (valid_pos w Hw) as Pw. unfold vdata, vdata_const, wsize.
  destruct (Z.eqb_spec (vlen v) 0) as [C|C]; [lia|].
  destruct (vwords v) as [|x l]; [cbn in V2; lia|]. split; reflexivity.
Qed.

Lemma vmem_load : forall ws ext k, 0 <= k < Z.of_nat (length ws) ->
  load k (vmem ws ext) = Ok (nth (Z.to_nat k) ws 0, vmem ws ext).
Proof.
  intros ws ext k Hk. unfold load, vmem. destruct (Z.ltb_spec k 0) as [C|C]; [lia|].
  unfold wsize. destruct (Z.ltb_spec k (Z.of_nat (length ws))) as [D|D]; [reflexivity|lia].
Qed.

Lemma data_get_ok : forall v k, 0 <= k < Z.of_nat (length (vwords v)) ->
  data_get v 0 k = Ok (nth (Z.to_nat k) (vwords v) 0).
Proof.
  intros v k Hk. unfold data_get, on_words, on_words_ext. rewrite Z.add_0_l, vmem_load by assumption. reflexivity.
Qed.

Lemma data_read : forall w v i, valid_w w -> vec_ok w v -> 0 <= i < vlen v ->
  exists a x, vdata v = Ok (Some a) /\ vdata_const v = Some a /\ mk_aligned a = vbegin /\
    data_get v a (i / w) = Ok x /\ 0 <= x < 2 ^ w /\
    Z.testbit x (i mod w) = get_at i (vbits w v).
Proof.
  intros w v i Hw V Hi. pose proof (valid_pos w Hw) as Pw. pose proof V as (V1 & V2 & V3).
  destruct (vdata_ok w v Hw V ltac:(lia)) as [D1 D2].
  assert (Hk : 0 <= i / w < Z.of_nat (length (vwords v))).
  { split; [apply Z.div_pos; lia|]. apply Z.div_lt_upper_bound; [lia|].
    rewrite Z.mul_comm. lia. }
  exists 0, (nth (Z.to_nat (i / w)) (vwords v) 0). split; [assumption|]. split; [assumption|].
  split; [reflexivity|]. split; [apply data_get_ok; assumption|]. split.
  - apply (proj1 (Forall_nth _ _) V1). lia.
  - unfold get_at, vbits. rewrite nth_firstn by lia. symmetry. apply list_bits_nth; lia.
Qed.

Lemma data_put_ok : forall v k x, 0 <= k < Z.of_nat (length (vwords v)) ->
  exists l, data_put v 0 k x = Ok (BV l (vlen v)) /\ length l = length (vwords v) /\
    forall j, 0 <= j < Z.of_nat (length l) ->
      nth (Z.to_nat j) l 0 = if j =? k then x else nth (Z.to_nat j) (vwords v) 0.
Proof.
  intros v k x Hk. unfold data_put, on_words, on_words_ext. rewrite Z.add_0_l.
  unfold store. assert (E : exists y, vmem (vwords v) nomem k = Some y).
  { unfold vmem. destruct (Z.ltb_spec k 0) as [C|C]; [lia|].
    unfold wsize. destruct (Z.ltb_spec k (Z.of_nat (length (vwords v)))) as [D|D]; [|lia]. eexists. reflexivity. }
  destruct E as (y & E). rewrite E. cbn [rbind]. eexists. split; [reflexivity|].
  rewrite words_of_length. split; [reflexivity|]. intros j Hj.
  rewrite words_of_nth by lia. rewrite Z2Nat.id by lia. unfold mset.
  destruct (Z.eqb_spec j k) as [C|C].
  - subst. reflexivity.
  - unfold vmem. destruct (Z.ltb_spec j 0) as [D|D]; [lia|].
    unfold wsize. destruct (Z.ltb_spec j (Z.of_nat (length (vwords v)))) as [F|F]; [reflexivity|lia].
Qed.

Lemma data_write : forall w v k x, valid_w w -> vec_ok w v -> 0 <= k -> k * w < vlen v ->
  0 <= x < 2 ^ w ->
  exists a v', vdata v = Ok (Some a) /\ data_put v a k x = Ok v' /\ vec_ok w v' /\
    vlen v' = vlen v /\
    forall i, 0 <= i < vlen v ->
      get_at i (vbits w v') = if i / w =? k then Z.testbit x (i mod w) else get_at i (vbits w v).
Proof.
  intros w v k x Hw V Hk Hl Hx. pose proof (valid_pos w Hw) as Pw. pose proof V as (V1 & V2 & V3).
  destruct (vdata_ok w v Hw V ltac:(clear - Hk Hl Pw; nia)) as [D1 D2].
  destruct (data_put_ok v k x ltac:(split; [lia|]; clear - Hl V2 Pw; nia)) as (l & E & L & N).
  assert (V' : vec_ok w (BV l (vlen v))).
  { unfold vec_ok. cbn [vwords vlen]. rewrite L. split; [|auto]. apply Forall_nth. intros j d Hj.
    rewrite (nth_indep l d 0) by assumption. specialize (N (Z.of_nat j) ltac:(lia)). rewrite Nat2Z.id in N. rewrite N.
    destruct (Z.eqb_spec (Z.of_nat j) k) as [C|C]; [lia|]. apply (proj1 (Forall_nth _ _) V1). lia. }
  exists 0, (BV l (vlen v)). split; [assumption|]. split; [assumption|]. split; [assumption|].
  split; [reflexivity|]. intros i Hi.
  assert (Hq : 0 <= i / w < Z.of_nat (length (vwords v))).
  { split; [apply Z.div_pos; lia|]. apply Z.div_lt_upper_bound; [lia|]. rewrite Z.mul_comm. lia. }
  unfold get_at, vbits. cbn [vwords vlen]. rewrite !nth_firstn by lia.
  rewrite !list_bits_nth by lia. rewrite N by lia.
  destruct (i / w =? k); reflexivity.
Qed.

Lemma ends_ok : forall w v, valid_w w -> vec_ok w v ->
  exists e, vend w v = Ok e /\ vcend w v = Ok e /\ vcbegin v = vbegin /\
    idiff w e vbegin = Ok (vsize v) /\
    (vlen v = 0 -> ieq e vbegin = true).
Proof.
  intros w v Hw (_ & V2 & V3). pose proof (valid_pos w Hw) as Pw. unfold max_bits in *.
  unfold vend, vcend. rewrite swrap64_small by lia.
  pose proof (begin_valid w ltac:(lia)) as Vb. pose proof (begin_addr w) as Ab.
  destruct (iadd w vbegin (vlen v)) as [e| | | |] eqn:E.
  2-5: exfalso; rewrite iadd_eq in E by (assumption || (cbn [ip vbegin mk_aligned]; lia)); discriminate.
  exists e. split; [reflexivity|]. split; [exact E|]. split; [reflexivity|].
  pose proof (iadd_inv w vbegin (vlen v) e Hw Vb ltac:(lia) E) as [I1 I2].
  split.
  - rewrite idiff_eq by (assumption || lia). f_equal. unfold vsize. lia.
  - intros Z0. rewrite (ieq_addr w) by (assumption || lia). apply Z.eqb_eq. lia.
Qed.

Lemma max_size_ok : forall w v, valid_w w -> vec_ok w v ->
  vmax_size w (most_words w) = 2 ^ 64 - w /\ vsize v <= vmax_size w (most_words w).
Proof.
  intros w v Hw (_ & V2 & V3). unfold max_bits, vsize in *.
  assert (E : vmax_size w (most_words w) = 2 ^ 64 - w) by (destruct Hw as [->|[->|[->|[->| ->]]]]; reflexivity).
  rewrite E. split; [reflexivity|]. pose proof (valid_pos w Hw). lia.
Qed.

Lemma max_size_wraps : exists w most v, valid_w w /\ vec_ok w v /\
  Z.of_nat (length (vwords v)) <= most < 2 ^ 64 /\ vmax_size w most < vsize v.
Proof.
  exists 8, (2 ^ 61), (BV [1] 1). split; [unfold valid_w; lia|].
  split; [unfold vec_ok, words_ok, max_bits; cbn; repeat split; try lia; repeat constructor; lia|].
  vm_compute. intuition discriminate.
Qed.

Lemma data_empty : exists p w s v0 v, valid_w w /\
  ctor_string p w s = Ok v0 /\ vrun p w v0 [OpPop; OpPop; OpPop] = Ok ([ONone; ONone; ONone], v) /\
  vec_ok w v /\ vbits w v = [] /\ vdata v = Ok None /\ vdata_const v <> None.
Proof.
  exists Strict17, 8, [49; 48; 49], (BV [5; 0; 0] 3), (BV [5; 0] 0). split; [unfold valid_w; lia|].
  split; [vm_compute; reflexivity|]. split; [vm_compute; reflexivity|].
  split; [unfold vec_ok, words_ok, max_bits; cbn; repeat split; try lia; repeat constructor; lia|].
  vm_compute. intuition discriminate.
Qed.
