(** Proofs about the vector code of libpopcnt.h (Harley-Seal with AVX2 and
    AVX512) and about popcnt as a whole. *)
From Coq Require Import ZArith Bool List Lia.
From Coq Require Import ZifyBool.
From Verif Require Import Base WordOps IterModel PopcntModel Spec ProofBase ProofIter
  ProofWord ProofCnt ProofPopcnt.
Import ListNotations.
Open Scope Z_scope.
Ltac Zify.zify_post_hook ::= Z.div_mod_to_equations.

Lemma lane_testbit : forall k i v j, 0 <= k -> 0 <= i -> 0 <= j ->
  Z.testbit (lane k i v) j = (j <? k) && Z.testbit v (k * i + j).
Proof.
  intros k i v j Hk Hi Hj. unfold lane.
  change ((v / 2 ^ (k * i)) mod 2 ^ k) with (wrap k (v / 2 ^ (k * i))).
  rewrite wrap_testbit, Z.div_pow2_bits by lia. f_equal. f_equal. lia.
Qed.

Lemma lane_range : forall k i v, 0 <= k -> 0 <= lane k i v < 2 ^ k.
Proof. intros k i v Hk. apply wrap_range, Hk. Qed.

(** Sum of the lane counts of the first [n] lanes of [k] bits. *)
Fixpoint lanes (f : Z -> Z) (k : Z) (v : Z) (n : nat) : Z :=
  match n with O => 0 | S n' => lanes f k v n' + f (lane k (Z.of_nat n') v) end.

Lemma cnt_lanes : forall k v n,
  cnt v (k * n) = lanes (fun x => cnt x k) (Z.of_nat k) v n.
Proof.
  intros k v n. induction n as [|n IH].
  - rewrite Nat.mul_0_r. reflexivity.
  - replace (k * S n)%nat with (k * n + k)%nat by lia.
    unfold cnt. rewrite count_true_app. fold (cnt v (k * n)). rewrite IH.
    cbn [lanes]. f_equal. unfold cnt. apply count_true_ext. intros j Hj.
    rewrite lane_testbit by lia. destruct (Z.ltb_spec (0 + j) (Z.of_nat k)); [|lia].
    cbn [andb]. f_equal. lia.
Qed.

Lemma lanes_ext : forall f g k v n, (forall x, 0 <= x < 2 ^ k -> f x = g x) ->
  0 <= k -> lanes f k v n = lanes g k v n.
Proof.
  intros f g k v n H Hk. induction n as [|n IH]; [reflexivity|].
  cbn [lanes]. rewrite IH, H; [reflexivity|]. apply lane_range, Hk.
Qed.

(** *** AVX2 *)
Lemma avx2_lo_eq : forall v i, 0 <= i -> avx2_lo v i = lane 8 i v mod 16.
Proof. intros v i Hi. unfold avx2_lo. apply land15. Qed.

Lemma avx2_hi_eq : forall v i, 0 <= i -> avx2_hi v i = lane 8 i v / 16.
Proof.
  intros v i Hi. unfold avx2_hi.
  replace (lane 8 i v / 16) with (Z.shiftr (lane 8 i v) 4)
    by (rewrite Z.shiftr_div_pow2 by lia; reflexivity).
  apply Z.bits_inj'. intros k Hk. change 15 with (Z.ones 4).
  assert (0 <= i mod 2 < 2) by lia. assert (0 <= i / 2) by lia.
  rewrite Z.land_spec, Z.testbit_ones_nonneg, Z.shiftr_spec, !lane_testbit by lia.
  destruct (Z.ltb_spec k 4).
  - rewrite Z.shiftr_spec, lane_testbit by lia.
    destruct (Z.ltb_spec k 8); [|lia]. destruct (Z.ltb_spec (k + 4) 8); [|lia].
    destruct (Z.ltb_spec (8 * (i mod 2) + k + 4) 16); [|lia].
    cbn [andb]. rewrite andb_true_r. f_equal. lia.
  - rewrite andb_false_r. destruct (Z.ltb_spec (k + 4) 8); [lia|]. reflexivity.
Qed.

Lemma avx2_byte : forall b, 0 <= b < 256 ->
  Z.abs (lookup1 (b mod 16) - lookup2 (b / 16)) = pc8 b.
Proof.
  intros b Hb. apply Z.eqb_eq. revert b Hb.
  apply all_bytes. vm_compute. reflexivity.
Qed.

Definition summ (l : list Z) : Z := fold_left Z.add l 0.

Lemma fold_left_add : forall l a, fold_left Z.add l a = a + summ l.
Proof.
  unfold summ. induction l as [|x l IH]; intros a; cbn [fold_left]; [lia|].
  rewrite IH, (IH (0 + x)). lia.
Qed.

Lemma summ_cons : forall x l, summ (x :: l) = x + summ l.
Proof. intros. unfold summ. cbn [fold_left]. rewrite fold_left_add. unfold summ. lia. Qed.

Lemma avx2_sad_eq : forall v j, 0 <= j -> avx2_sad v j =
  pc8 (lane 8 (8 * j) v) + pc8 (lane 8 (8 * j + 1) v) + pc8 (lane 8 (8 * j + 2) v) +
  pc8 (lane 8 (8 * j + 3) v) + pc8 (lane 8 (8 * j + 4) v) + pc8 (lane 8 (8 * j + 5) v) +
  pc8 (lane 8 (8 * j + 6) v) + pc8 (lane 8 (8 * j + 7) v).
Proof.
  intros v j Hj. unfold avx2_sad. cbn [map fold_left].
  rewrite !avx2_lo_eq, !avx2_hi_eq by lia.
  rewrite !avx2_byte by (apply (lane_range 8); lia).
  rewrite Z.add_0_r, Z.add_0_l. reflexivity.
Qed.

Lemma popcnt256_sum : forall v, summ (popcnt256 v) = cnt v 256.
Proof.
  intros v. change 256%nat with (8 * 32)%nat. rewrite cnt_lanes.
  unfold popcnt256. cbn [map]. rewrite !summ_cons, !avx2_sad_eq by lia.
  change (summ []) with 0. cbn [lanes].
  change (Z.of_nat 8) with 8.
  repeat match goal with
  | |- context [8 * ?a + ?b] => let c := eval vm_compute in (8 * a + b) in
      change (8 * a + b) with c
  | |- context [lane 8 (8 * ?a) v] => let c := eval vm_compute in (8 * a) in
      change (lane 8 (8 * a) v) with (lane 8 c v)
  | |- context [Z.of_nat ?a] => let c := eval vm_compute in (Z.of_nat a) in
      change (Z.of_nat a) with c
  end.
  unfold pc8, cnt. lia.
Qed.

Lemma popcnt256_length : forall v, length (popcnt256 v) = 4%nat.
Proof. reflexivity. Qed.

(** *** AVX512 *)
Lemma popcnt512_sum : forall v, summ (popcnt512 v) = cnt v 512.
Proof.
  intros v. change 512%nat with (16 * 32)%nat. rewrite cnt_lanes.
  rewrite <- (lanes_ext swar16) by (try lia; apply swar16_cnt).
  unfold popcnt512. cbn [map fold_left]. rewrite !summ_cons.
  change (summ []) with 0. cbn [lanes].
  change (Z.of_nat 16) with 16.
  repeat match goal with
  | |- context [4 * ?a + ?b] => let c := eval vm_compute in (4 * a + b) in
      change (4 * a + b) with c
  | |- context [Z.of_nat ?a] => let c := eval vm_compute in (Z.of_nat a) in
      change (Z.of_nat a) with c
  end.
  lia.
Qed.

(** *** Carry-save adders *)
Definition csa_ok (csa : Z -> Z -> Z -> Z * Z) : Prop :=
  forall a b c k, 0 <= k ->
  b2z (Z.testbit a k) + b2z (Z.testbit b k) + b2z (Z.testbit c k) =
  2 * b2z (Z.testbit (fst (csa a b c)) k) + b2z (Z.testbit (snd (csa a b c)) k).

Lemma csa256_ok : csa_ok csa256.
Proof.
  intros a b c k Hk. unfold csa256. cbn [fst snd].
  rewrite !Z.lor_spec, !Z.land_spec, !Z.lxor_spec.
  destruct (Z.testbit a k), (Z.testbit b k), (Z.testbit c k); reflexivity.
Qed.

Lemma csa512_ok : csa_ok csa512.
Proof.
  intros a b c k Hk. unfold csa512, ternlog. cbn [fst snd map fold_left].
  repeat match goal with
  | |- context [Z.testbit ?x ?y] =>
    lazymatch x with
    | Z0 => idtac | Zpos _ => idtac
    end;
    lazymatch y with Z0 => idtac | Zpos _ => idtac end;
    let v := eval vm_compute in (Z.testbit x y) in change (Z.testbit x y) with v
  end.
  repeat (rewrite ?Z.lor_spec, ?Z.land_spec, ?Z.lnot_spec, ?Z.bits_0 by lia).
  destruct (Z.testbit a k), (Z.testbit b k), (Z.testbit c k); reflexivity.
Qed.

Lemma count_true_lin : forall f g h p q n lo,
  (forall k, 0 <= k < Z.of_nat n ->
     b2z (f (lo + k)) + b2z (g (lo + k)) + b2z (h (lo + k)) =
     2 * b2z (p (lo + k)) + b2z (q (lo + k))) ->
  count_true f lo n + count_true g lo n + count_true h lo n =
  2 * count_true p lo n + count_true q lo n.
Proof.
  intros f g h p q n. induction n as [|n IH]; intros lo H; [reflexivity|].
  cbn [count_true]. specialize (IH (lo + 1)).
  pose proof (H 0 ltac:(lia)) as H0. rewrite Z.add_0_r in H0.
  assert (E : forall b : bool, (if b then 1 else 0) = b2z b) by reflexivity.
  rewrite !E.
  enough (count_true f (lo + 1) n + count_true g (lo + 1) n + count_true h (lo + 1) n =
    2 * count_true p (lo + 1) n + count_true q (lo + 1) n) by lia.
  apply IH. intros k Hk. specialize (H (k + 1) ltac:(lia)).
  replace (lo + 1 + k) with (lo + (k + 1)) by lia. exact H.
Qed.

Lemma csa_cnt : forall csa a b c n, csa_ok csa ->
  cnt a n + cnt b n + cnt c n =
  2 * cnt (fst (csa a b c)) n + cnt (snd (csa a b c)) n.
Proof.
  intros csa a b c n H. apply count_true_lin. intros k Hk. apply H. lia.
Qed.

(** *** Arithmetic modulo 2^64 *)
Definition eqm (a b : Z) : Prop := (a - b) mod 2 ^ 64 = 0.

Lemma eqm_iff : forall a b, eqm a b <-> exists k, a = b + k * 2 ^ 64.
Proof.
  intros a b. unfold eqm. split.
  - intros H. exists ((a - b) / 2 ^ 64). lia.
  - intros [k ->]. replace (b + k * 2 ^ 64 - b) with (k * 2 ^ 64) by lia.
    apply Z.mod_mul. lia.
Qed.

Lemma eqm_refl : forall a, eqm a a.
Proof. intros a. apply eqm_iff. exists 0. lia. Qed.

Lemma eqm_trans : forall a b c, eqm a b -> eqm b c -> eqm a c.
Proof.
  intros a b c H1 H2. apply eqm_iff in H1, H2. destruct H1 as [k ->], H2 as [l ->].
  apply eqm_iff. exists (l + k). lia.
Qed.

Lemma eqm_add : forall a b c d, eqm a b -> eqm c d -> eqm (a + c) (b + d).
Proof.
  intros a b c d H1 H2. apply eqm_iff in H1, H2. destruct H1 as [k ->], H2 as [l ->].
  apply eqm_iff. exists (k + l). lia.
Qed.

Lemma eqm_mul : forall z a b, eqm a b -> eqm (z * a) (z * b).
Proof.
  intros z a b H. apply eqm_iff in H. destruct H as [k ->].
  apply eqm_iff. exists (z * k). lia.
Qed.

Lemma eqm_wrap : forall a, eqm (wrap 64 a) a.
Proof.
  intros a. apply eqm_iff. exists (- (a / 2 ^ 64)). unfold wrap. lia.
Qed.

Lemma eqm_wrap_eq : forall a b, eqm a b -> 0 <= b < 2 ^ 64 -> wrap 64 a = b.
Proof.
  intros a b H Hb. apply eqm_iff in H. destruct H as [k ->].
  unfold wrap. rewrite Z.mod_add by lia. apply Z.mod_small, Hb.
Qed.

Lemma add64_sum : forall x y, length x = length y ->
  eqm (summ (add64 x y)) (summ x + summ y) /\ length (add64 x y) = length x.
Proof.
  induction x as [|a x IH]; intros [|b y] Hl; try discriminate Hl.
  - split; [apply eqm_refl|reflexivity].
  - injection Hl as Hl. destruct (IH y Hl) as [H1 H2].
    unfold add64 in *. cbn [combine map fst snd length]. rewrite !summ_cons.
    split; [|lia].
    eapply eqm_trans; [apply eqm_add; [apply eqm_wrap|exact H1]|].
    replace (a + b + (summ x + summ y)) with (a + summ x + (b + summ y)) by lia.
    apply eqm_refl.
Qed.

Lemma slli64_sum : forall c x, 0 <= c ->
  eqm (summ (slli64 c x)) (2 ^ c * summ x) /\ length (slli64 c x) = length x.
Proof.
  intros c x Hc. unfold slli64. split; [|apply map_length].
  induction x as [|a x IH]; [rewrite Z.mul_0_r; apply eqm_refl|].
  cbn [map]. rewrite !summ_cons.
  rewrite Z.mul_add_distr_l. apply eqm_add; [|exact IH].
  rewrite Z.shiftl_mul_pow2 by lia. rewrite Z.mul_comm. apply eqm_wrap.
Qed.

(** *** Bytes in memory *)
Definition bmapped (rd : mem) (a n : Z) : Prop :=
  forall b, a <= b < a + n -> rd b <> None.

(** Number of set bits in the [n] bytes at [a]. *)
Definition bcount (rd : mem) (a n : Z) : Z :=
  count_true (bit 8 rd) (8 * a) (Z.to_nat (8 * n)).

Lemma bcount_split : forall rd a n k, 0 <= k <= n ->
  bcount rd a n = bcount rd a k + bcount rd (a + k) (n - k).
Proof.
  intros rd a n k Hk. unfold bcount.
  replace (Z.to_nat (8 * n)) with (Z.to_nat (8 * k) + Z.to_nat (8 * (n - k)))%nat by lia.
  rewrite count_true_app. f_equal. f_equal. lia.
Qed.

Lemma bcount_range : forall rd a n, 0 <= n -> 0 <= bcount rd a n <= 8 * n.
Proof.
  intros rd a n Hn. unfold bcount.
  pose proof (count_true_range (bit 8 rd) (Z.to_nat (8 * n)) (8 * a)). lia.
Qed.

Lemma rwp_load_bytes : forall rd n a (Q : Z -> Prop), wf_mem 8 rd ->
  bmapped rd a (Z.of_nat n) ->
  (forall v, 0 <= v < 2 ^ (8 * Z.of_nat n) ->
     cnt v (8 * n) = bcount rd a (Z.of_nat n) -> Q v) ->
  rwp (load_bytes rd a n) Q.
Proof.
  intros rd n. induction n as [|n IH]; intros a Q Hwf Hm HQ; cbn [load_bytes].
  - apply HQ; [cbn; lia|reflexivity].
  - destruct (dom_some rd a) as [b Hb]; [apply Hm; lia|]. rewrite Hb.
    pose proof (Hwf a b Hb) as Hr. change (2 ^ 8) with 256 in Hr.
    apply rwp_bind, IH; try assumption.
    { intros c Hc. apply Hm. lia. }
    intros v Hv Hc. apply rwp_ok, HQ.
    + replace (8 * Z.of_nat (S n)) with (8 + 8 * Z.of_nat n) by lia.
      rewrite Z.pow_add_r by lia. change (2 ^ 8) with 256. nia.
    + rewrite (bcount_split rd a (Z.of_nat (S n)) 1) by lia.
      replace (Z.of_nat (S n) - 1) with (Z.of_nat n) by lia. rewrite <- Hc.
      replace (8 * S n)%nat with (8 + 8 * n)%nat by lia.
      unfold cnt. rewrite count_true_app. f_equal.
      * unfold bcount. change (Z.to_nat (8 * 1)) with 8%nat.
        apply count_true_ext. intros k Hk. rewrite byte_split_testbit by lia.
        rewrite (bit_word 8 rd a b) by (assumption || lia).
        destruct (Z.ltb_spec (0 + k) 8); [|lia]. f_equal. lia.
      * apply count_true_ext. intros k Hk. rewrite byte_split_testbit by lia.
        destruct (Z.ltb_spec (0 + Z.of_nat 8 + k) 8); [lia|]. f_equal. lia.
Qed.

(** *** Harley-Seal *)
Record simd_ok (s : simd) : Prop := SimdOk {
  so_bytes : 0 < vbytes s;
  so_csa : csa_ok (vcsa s);
  so_sum : forall v, summ (vpop s v) = cnt v (Z.to_nat (8 * vbytes s));
  so_len : forall v, length (vpop s v) = length (vzero s);
  so_zero : summ (vzero s) = 0 }.

Lemma avx2_ok : simd_ok avx2.
Proof.
  split; try reflexivity.
  - exact csa256_ok.
  - apply popcnt256_sum.
Qed.

Lemma avx512_ok : simd_ok avx512.
Proof.
  split; try reflexivity.
  - exact csa512_ok.
  - apply popcnt512_sum.
Qed.

Section HS.
Variable s : simd.
Hypothesis Hs : simd_ok s.
Variable rd : mem.
Hypothesis Hwf : wf_mem 8 rd.

Let B := vbytes s.
Let c (v : Z) : Z := cnt v (Z.to_nat (8 * B)).

Lemma rwp_vload : forall a k (Q : Z -> Prop),
  bmapped rd (a + k * B) B ->
  (forall v, c v = bcount rd (a + k * B) B -> Q v) -> rwp (vload s rd a k) Q.
Proof.
  intros a k Q Hm HQ. pose proof (so_bytes s Hs) as HB. fold B in HB.
  unfold vload. fold B.
  assert (E : Z.of_nat (Z.to_nat B) = B) by lia.
  apply rwp_load_bytes; [assumption| |]; rewrite E; [assumption|].
  intros v Hv Hc. apply HQ. unfold c.
  replace (Z.to_nat (8 * B)) with (8 * Z.to_nat B)%nat by lia. exact Hc.
Qed.

Lemma bcount_two : forall a k,
  bcount rd (a + k * B) B + bcount rd (a + (k + 1) * B) B =
  bcount rd (a + k * B) (2 * B).
Proof.
  intros a k. pose proof (so_bytes s Hs) as HB. fold B in HB.
  rewrite (bcount_split rd (a + k * B) (2 * B) B) by lia.
  f_equal. f_equal; lia.
Qed.

Lemma rwp_csa_load : forall a k o (Q : Z * Z -> Prop),
  bmapped rd (a + k * B) (2 * B) ->
  (forall h l, c o + bcount rd (a + k * B) (2 * B) = 2 * c h + c l -> Q (h, l)) ->
  rwp (csa_load s rd a k o) Q.
Proof.
  intros a k o Q Hm HQ. pose proof (so_bytes s Hs) as HB. fold B in HB.
  unfold csa_load. apply rwp_bind, rwp_vload.
  { intros b Hb. apply Hm. lia. }
  intros x Hx. apply rwp_bind, rwp_vload.
  { intros b Hb. apply Hm. lia. }
  intros y Hy. rewrite (surjective_pairing (vcsa s o x y)). apply rwp_ok, HQ.
  rewrite <- bcount_two, <- Hx, <- Hy.
  pose proof (csa_cnt (vcsa s) o x y (Z.to_nat (8 * B)) (so_csa s Hs)) as H.
  fold (c o) (c x) (c y) in H. unfold c in *. lia.
Qed.

(** Number of bits held by the accumulators. *)
Definition held (h : hs) : Z :=
  c (ones h) + 2 * c (twos h) + 4 * c (fours h) + 8 * c (eights h).

Lemma vcsa_c : forall x y z h l, vcsa s x y z = (h, l) ->
  c x + c y + c z = 2 * c h + c l.
Proof.
  intros x y z h l E.
  pose proof (csa_cnt (vcsa s) x y z (Z.to_nat (8 * B)) (so_csa s Hs)) as H.
  rewrite E in H. exact H.
Qed.

Lemma rwp_hs_block : forall a i h (Q : Z * hs -> Prop),
  bmapped rd (a + i * B) (16 * B) ->
  (forall sx h', held h + bcount rd (a + i * B) (16 * B) = 16 * c sx + held h' ->
     Q (sx, h')) ->
  rwp (hs_block s rd a i h) Q.
Proof.
  intros a i h Q Hm HQ. pose proof (so_bytes s Hs) as HB. fold B in HB.
  assert (Hmk : forall k, 0 <= k <= 14 -> bmapped rd (a + (i + k) * B) (2 * B)).
  { intros k Hk b Hb. apply Hm. nia. }
  assert (Hsum : bcount rd (a + i * B) (16 * B) =
    bcount rd (a + (i + 0) * B) (2 * B) + bcount rd (a + (i + 2) * B) (2 * B) +
    bcount rd (a + (i + 4) * B) (2 * B) + bcount rd (a + (i + 6) * B) (2 * B) +
    bcount rd (a + (i + 8) * B) (2 * B) + bcount rd (a + (i + 10) * B) (2 * B) +
    bcount rd (a + (i + 12) * B) (2 * B) + bcount rd (a + (i + 14) * B) (2 * B)).
  { assert (Hp : forall k n, 2 <= n -> bcount rd (a + (i + k) * B) (n * B) =
      bcount rd (a + (i + k) * B) (2 * B) + bcount rd (a + (i + (k + 2)) * B) ((n - 2) * B)).
    { intros k n Hn. rewrite (bcount_split rd _ (n * B) (2 * B)) by nia.
      f_equal. f_equal; lia. }
    replace (a + i * B) with (a + (i + 0) * B) by lia.
    rewrite (Hp 0 16), (Hp (0 + 2) (16 - 2)), (Hp (0 + 2 + 2) (16 - 2 - 2)),
      (Hp (0 + 2 + 2 + 2) (16 - 2 - 2 - 2)),
      (Hp (0 + 2 + 2 + 2 + 2) (16 - 2 - 2 - 2 - 2)),
      (Hp (0 + 2 + 2 + 2 + 2 + 2) (16 - 2 - 2 - 2 - 2 - 2)),
      (Hp (0 + 2 + 2 + 2 + 2 + 2 + 2) (16 - 2 - 2 - 2 - 2 - 2 - 2)) by lia.
    cbn [Z.add Z.sub Z.opp Pos.add Pos.succ Pos.add_carry Z.pos_sub Pos.pred_double Z.succ_double Z.pred_double Z.double]. lia. }
  unfold hs_block.
  apply rwp_bind, rwp_csa_load; [apply Hmk; lia|]. intros tA o1 E1.
  apply rwp_bind, rwp_csa_load; [apply Hmk; lia|]. intros tB o2 E2.
  destruct (vcsa s (twos h) tA tB) as [fA t1] eqn:C1. apply vcsa_c in C1.
  apply rwp_bind, rwp_csa_load; [apply Hmk; lia|]. intros tA2 o3 E3.
  apply rwp_bind, rwp_csa_load; [apply Hmk; lia|]. intros tB2 o4 E4.
  destruct (vcsa s t1 tA2 tB2) as [fB t2] eqn:C2. apply vcsa_c in C2.
  destruct (vcsa s (fours h) fA fB) as [eA f1] eqn:C3. apply vcsa_c in C3.
  apply rwp_bind, rwp_csa_load; [apply Hmk; lia|]. intros tA3 o5 E5.
  apply rwp_bind, rwp_csa_load; [apply Hmk; lia|]. intros tB3 o6 E6.
  destruct (vcsa s t2 tA3 tB3) as [fA2 t3] eqn:C4. apply vcsa_c in C4.
  apply rwp_bind, rwp_csa_load; [apply Hmk; lia|]. intros tA4 o7 E7.
  apply rwp_bind, rwp_csa_load; [apply Hmk; lia|]. intros tB4 o8 E8.
  destruct (vcsa s t3 tA4 tB4) as [fB2 t4] eqn:C5. apply vcsa_c in C5.
  destruct (vcsa s f1 fA2 fB2) as [eB f2] eqn:C6. apply vcsa_c in C6.
  destruct (vcsa s (eights h) eA eB) as [sx e1] eqn:C7. apply vcsa_c in C7.
  apply rwp_ok, HQ. rewrite Hsum. unfold held. cbn [ones twos fours eights]. lia.
Qed.

Lemma rwp_hs_loop : forall fuel a limit i ct h (Q : Z * list Z * hs -> Prop),
  limit - i <= 16 * Z.of_nat fuel -> 0 <= i <= limit -> (limit - i) mod 16 = 0 ->
  bmapped rd a (limit * B) -> length ct = length (vzero s) ->
  eqm (16 * summ ct + held h) (bcount rd a (i * B)) ->
  (forall ct' h', length ct' = length (vzero s) ->
     eqm (16 * summ ct' + held h') (bcount rd a (limit * B)) ->
     Q (limit, ct', h')) ->
  rwp (hs_loop s rd a fuel limit i ct h) Q.
Proof.
  induction fuel as [|fuel IH]; intros a limit i ct h Q Hf Hi Hmod Hm Hl He HQ;
    pose proof (so_bytes s Hs) as HB; fold B in HB; cbn [hs_loop];
    destruct (Z.leb_spec limit i) as [E|E].
  - assert (i = limit) by lia. subst i. apply HQ; assumption.
  - lia.
  - assert (i = limit) by lia. subst i. apply HQ; assumption.
  - assert (Hi16 : i + 16 <= limit) by lia.
    apply rwp_bind, rwp_hs_block.
    { intros b Hb. apply Hm. nia. }
    intros sx h' Hh. destruct (add64_sum ct (vpop s sx)) as [A1 A2].
    { rewrite (so_len s Hs). exact Hl. }
    apply IH; try assumption; try lia.
    + rewrite (bcount_split rd a ((i + 16) * B) (i * B)) by nia.
      replace ((i + 16) * B - i * B) with (16 * B) by lia.
      eapply eqm_trans.
      { apply eqm_add; [apply eqm_mul, A1|apply eqm_refl]. }
      rewrite (so_sum s Hs). fold B. fold (c sx).
      replace (16 * (summ ct + c sx) + held h') with
        (16 * summ ct + held h + bcount rd (a + i * B) (16 * B)) by lia.
      apply eqm_add; [exact He|apply eqm_refl].
Qed.

Lemma rwp_hs_tail : forall fuel a size i ct (Q : list Z -> Prop),
  size - i <= Z.of_nat fuel -> 0 <= i <= size ->
  bmapped rd a (size * B) -> length ct = length (vzero s) ->
  eqm (summ ct) (bcount rd a (i * B)) ->
  (forall ct', eqm (summ ct') (bcount rd a (size * B)) -> Q ct') ->
  rwp (hs_tail s rd a fuel size i ct) Q.
Proof.
  induction fuel as [|fuel IH]; intros a size i ct Q Hf Hi Hm Hl He HQ;
    pose proof (so_bytes s Hs) as HB; fold B in HB; cbn [hs_tail];
    destruct (Z.leb_spec size i) as [E|E].
  - assert (i = size) by lia. subst i. apply HQ; assumption.
  - lia.
  - assert (i = size) by lia. subst i. apply HQ; assumption.
  - apply rwp_bind, rwp_vload.
    { intros b Hb. apply Hm. nia. }
    intros v Hv. destruct (add64_sum ct (vpop s v)) as [A1 A2].
    { rewrite (so_len s Hs). exact Hl. }
    apply IH; try assumption; try lia.
    rewrite (bcount_split rd a ((i + 1) * B) (i * B)) by nia.
    replace ((i + 1) * B - i * B) with B by lia.
    eapply eqm_trans; [exact A1|]. apply eqm_add; [exact He|].
    rewrite (so_sum s Hs). fold B. fold (c v). rewrite Hv. apply eqm_refl.
Qed.

Lemma c_zero : c 0 = 0.
Proof. unfold c, cnt. apply count_true_false. intros. apply Z.bits_0. Qed.

Lemma popcnt_simd_eqm : forall a size, 0 <= size -> bmapped rd a (size * B) ->
  rwp (popcnt_simd s rd a size) (fun r => eqm r (bcount rd a (size * B))).
Proof.
  intros a size Hsz Hm. pose proof (so_bytes s Hs) as HB. fold B in HB.
  unfold popcnt_simd. set (limit := size - size mod 16).
  assert (Hlim : limit = 16 * (size / 16)) by (unfold limit; lia).
  apply rwp_bind, rwp_hs_loop; try lia.
  - intros b Hb. apply Hm. nia.
  - unfold held. cbn [ones twos fours eights]. rewrite c_zero, (so_zero s Hs).
    apply eqm_refl.
  - intros ct h Hl He.
    destruct (slli64_sum 4 ct) as [A1 L1]; [lia|].
    destruct (slli64_sum 3 (vpop s (eights h))) as [A2 L2]; [lia|].
    destruct (slli64_sum 2 (vpop s (fours h))) as [A3 L3]; [lia|].
    destruct (slli64_sum 1 (vpop s (twos h))) as [A4 L4]; [lia|].
    rewrite (so_len s Hs) in L2, L3, L4.
    destruct (add64_sum (slli64 4 ct) (slli64 3 (vpop s (eights h)))) as [B1 M1];
      [congruence|].
    set (c1 := add64 (slli64 4 ct) (slli64 3 (vpop s (eights h)))) in *.
    destruct (add64_sum c1 (slli64 2 (vpop s (fours h)))) as [B2 M2]; [congruence|].
    set (c2 := add64 c1 (slli64 2 (vpop s (fours h)))) in *.
    destruct (add64_sum c2 (slli64 1 (vpop s (twos h)))) as [B3 M3]; [congruence|].
    set (c3 := add64 c2 (slli64 1 (vpop s (twos h)))) in *.
    destruct (add64_sum c3 (vpop s (ones h))) as [B4 M4];
      [rewrite (so_len s Hs); congruence|].
    set (c4 := add64 c3 (vpop s (ones h))) in *.
    rewrite (so_sum s Hs) in A2, A3, A4, B4. fold B in A2, A3, A4, B4.
    change (cnt (eights h) (Z.to_nat (8 * B))) with (c (eights h)) in A2.
    change (cnt (fours h) (Z.to_nat (8 * B))) with (c (fours h)) in A3.
    change (cnt (twos h) (Z.to_nat (8 * B))) with (c (twos h)) in A4.
    change (cnt (ones h) (Z.to_nat (8 * B))) with (c (ones h)) in B4.
    apply rwp_bind, rwp_hs_tail; try lia.
    + exact Hm.
    + eapply eqm_trans; [|exact He].
      eapply eqm_trans; [exact B4|].
      eapply eqm_trans; [apply eqm_add; [exact B3|apply eqm_refl]|].
      eapply eqm_trans; [apply eqm_add; [apply eqm_add; [exact B2|exact A4]|apply eqm_refl]|].
      eapply eqm_trans; [apply eqm_add; [apply eqm_add; [apply eqm_add;
        [exact B1|exact A3]|apply eqm_refl]|apply eqm_refl]|].
      eapply eqm_trans; [apply eqm_add; [apply eqm_add; [apply eqm_add;
        [apply eqm_add; [exact A1|exact A2]|apply eqm_refl]|apply eqm_refl]|apply eqm_refl]|].
      unfold held. change (2 ^ 4) with 16. change (2 ^ 3) with 8. change (2 ^ 2) with 4.
      change (2 ^ 1) with 2.
      replace (16 * summ ct + 8 * c (eights h) + 4 * c (fours h) + 2 * c (twos h) +
         c (ones h)) with (16 * summ ct + (c (ones h) + 2 * c (twos h) +
         4 * c (fours h) + 8 * c (eights h))) by lia.
      apply eqm_refl.
    + intros ct' He'. apply rwp_ok. eapply eqm_trans; [apply eqm_wrap|exact He'].
Qed.

Lemma rwp_simd_part : forall on min a size i ct (Q : Z * Z -> Prop),
  0 <= i <= size -> i mod B = 0 -> bmapped rd a size ->
  8 * size < 2 ^ 64 -> ct = bcount rd a i ->
  (forall i', 0 <= i' <= size -> i' = i \/ i' = size - size mod B ->
     Q (i', bcount rd a i')) ->
  rwp (simd_part s on min rd a size i ct) Q.
Proof.
  intros on min a size i ct Q Hi Hmod Hm Hsz Hct HQ.
  pose proof (so_bytes s Hs) as HB. fold B in HB.
  unfold simd_part. destruct (on && (i + min <=? size)).
  - fold B.
    assert (E : size - size mod B = i + (size - i) / B * B).
    { assert (Ei : i = i / B * B) by (pose proof (word_of B i HB); lia).
      assert ((size - i) / B = size / B - i / B).
      { rewrite Ei at 1. replace (size - i / B * B) with (size + - (i / B) * B) by lia.
        rewrite Z.div_add by lia. lia. }
      pose proof (word_of B size HB). nia. }
    assert (Hle : 0 <= (size - i) / B) by (apply Z.div_pos; lia).
    assert (Hub : i + (size - i) / B * B <= size)
      by (pose proof (word_of B (size - i) HB); lia).
    apply rwp_bind. eapply rwp_conseq.
    { apply popcnt_simd_eqm; [lia|]. intros b Hb. apply Hm. lia. }
    intros r Hr. cbv beta in Hr. apply rwp_ok. rewrite E.
    replace (wrap 64 (ct + r)) with (bcount rd a (i + (size - i) / B * B)).
    + apply HQ; nia.
    + symmetry. apply eqm_wrap_eq.
      * rewrite (bcount_split rd a _ i) by nia. subst ct.
        apply eqm_add; [apply eqm_refl|]. eapply eqm_trans; [exact Hr|].
        replace (i + (size - i) / B * B - i) with ((size - i) / B * B) by lia.
        apply eqm_refl.
      * pose proof (bcount_range rd a (i + (size - i) / B * B) ltac:(nia)). lia.
  - subst ct. apply HQ; lia.
Qed.

End HS.
