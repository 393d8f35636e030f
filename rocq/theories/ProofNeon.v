(** Proofs about the NEON variant of popcnt (libpopcnt.h:662-757). *)
From Coq Require Import ZArith Bool List Lia.
From Coq Require Import ZifyBool.
From Verif Require Import Base WordOps IterModel PopcntModel Spec ProofBase
  ProofIter ProofWord ProofCnt ProofPopcnt ProofPopcnt2 ProofPopcnt3.
Import ListNotations.
Open Scope Z_scope.
Ltac Zify.zify_post_hook ::= Z.div_mod_to_equations.

Lemma list16 : forall (l : list Z), length l = 16%nat ->
  exists x0 x1 x2 x3 x4 x5 x6 x7 x8 x9 x10 x11 x12 x13 x14 x15,
  l = [x0; x1; x2; x3; x4; x5; x6; x7; x8; x9; x10; x11; x12; x13; x14; x15].
Proof.
  intros l H. do 16 (destruct l as [|? l]; [discriminate H|]).
  destruct l; [|discriminate H]. repeat eexists.
Qed.

(** A vector of 16 byte counters, none above [b]. *)
Definition vec16 (b : Z) (l : list Z) : Prop :=
  length l = 16%nat /\ Forall (fun x => 0 <= x <= b) l.

Lemma vaddq_sum : forall x y, length x = length y ->
  Forall (fun q => 0 <= fst q + snd q < 256) (combine x y) ->
  summ (vaddq x y) = summ x + summ y.
Proof.
  induction x as [|a x IH]; intros [|b y] Hl HF; try discriminate Hl; [reflexivity|].
  injection Hl as Hl. cbn [combine] in HF. inversion HF as [|q l Hq HF2]; subst.
  unfold vaddq in *. cbn [combine map fst snd] in *. rewrite !summ_cons, IH by assumption.
  rewrite wrap_small by (change (2 ^ 8) with 256; assumption). lia.
Qed.

Lemma vaddq_vec16 : forall b c x y, vec16 b x -> vec16 c y -> 0 <= b -> 0 <= c ->
  b + c < 256 -> vec16 (b + c) (vaddq x y) /\ summ (vaddq x y) = summ x + summ y.
Proof.
  intros b c x y [L1 F1] [L2 F2] Hb Hc Hbc.
  assert (HF : Forall (fun q => 0 <= fst q <= b /\ 0 <= snd q <= c) (combine x y)).
  { clear L1 L2. revert y F2. induction F1 as [|x0 x Hx F1 IH]; intros y F2; [constructor|].
    destruct F2 as [|y0 y Hy F2]; [constructor|]. cbn [combine]. constructor.
    - cbn [fst snd]. lia.
    - apply IH, F2. }
  split.
  - split.
    + unfold vaddq. rewrite map_length, combine_length. lia.
    + unfold vaddq. clear - HF Hbc. induction HF as [|[u v] l Hq HF IH]; constructor.
      * cbn [fst snd] in *. cbv beta. rewrite wrap_small; change (2 ^ 8) with 256; lia.
      * exact IH.
  - apply vaddq_sum; [lia|]. clear - HF Hbc. eapply Forall_impl; [|exact HF].
    intros [u v] Hq. cbn [fst snd] in *. lia.
Qed.

Lemma vcntq_vec16 : forall v j, 0 <= j -> vec16 8 (vcntq (vld4q v j)).
Proof.
  intros v j Hj. split; [reflexivity|]. unfold vcntq, vld4q. rewrite map_map.
  apply Forall_forall. intros x Hx. apply in_map_iff in Hx. destruct Hx as (k & <- & _).
  rewrite (builtin_popcount_count _ 8) by (apply lane_range; lia).
  apply count_true_range.
Qed.

Lemma vld4q_sum : forall v,
  summ (vcntq (vld4q v 0)) + summ (vcntq (vld4q v 1)) +
  summ (vcntq (vld4q v 2)) + summ (vcntq (vld4q v 3)) = cnt v 512.
Proof.
  intros v. change 512%nat with (8 * 64)%nat. rewrite cnt_lanes.
  rewrite <- (lanes_ext builtin_popcount).
  - unfold vcntq, vld4q. cbn [map]. rewrite !summ_cons. change (summ []) with 0.
    cbn [lanes]. change (Z.of_nat 8) with 8.
    repeat match goal with
    | |- context [4 * ?a + ?b] => let c := eval vm_compute in (4 * a + b) in
        change (4 * a + b) with c
    | |- context [Z.of_nat ?a] => let c := eval vm_compute in (Z.of_nat a) in
        change (Z.of_nat a) with c
    end.
    lia.
  - intros x Hx. apply builtin_popcount_count. exact Hx.
  - lia.
Qed.

Lemma vpaddl_16 : forall t, vec16 255 t ->
  exists a b, vpaddl 64 (vpaddl 32 (vpaddl 16 t)) = [a; b] /\ a + b = summ t.
Proof.
  intros t [Hl HF]. destruct (list16 t Hl) as (x0 & x1 & x2 & x3 & x4 & x5 & x6 & x7 &
    x8 & x9 & x10 & x11 & x12 & x13 & x14 & x15 & ->).
  repeat match goal with
  | H : Forall _ (_ :: _) |- _ => inversion H; clear H; subst
  end.
  cbn [vpaddl].
  do 2 eexists. split; [reflexivity|].
  rewrite !(wrap_small 16) by (change (2 ^ 16) with 65536; lia).
  rewrite !(wrap_small 32) by (change (2 ^ 32) with 4294967296; lia).
  rewrite !(wrap_small 64) by (change (2 ^ 64) with 18446744073709551616; lia).
  rewrite !summ_cons. change (summ []) with 0. lia.
Qed.

Lemma vpadalq_eqm : forall s t, length s = 2%nat -> vec16 255 t ->
  eqm (summ (vpadalq s t)) (summ s + summ t) /\ length (vpadalq s t) = 2%nat.
Proof.
  intros s t Hs Ht. unfold vpadalq. destruct (vpaddl_16 t Ht) as (a & b & -> & Hab).
  destruct (add64_sum s [a; b]) as [H1 H2]; [rewrite Hs; reflexivity|].
  split; [|rewrite H2; exact Hs].
  rewrite !summ_cons in H1. change (summ []) with 0 in H1.
  rewrite <- Hab. replace (a + b) with (a + (b + 0)) by lia. exact H1.
Qed.

(** Four vectors of counters, and their total. *)
Definition vecs (b : Z) (t : list (list Z)) : Prop :=
  exists t0 t1 t2 t3, t = [t0; t1; t2; t3] /\
    vec16 b t0 /\ vec16 b t1 /\ vec16 b t2 /\ vec16 b t3.
Definition total (t : list (list Z)) : Z := summ (map summ t).

Lemma fold_vpadalq : forall s t, length s = 2%nat -> vecs 255 t ->
  eqm (summ (fold_left vpadalq t s)) (summ s + total t) /\
  length (fold_left vpadalq t s) = 2%nat.
Proof.
  intros s t Hs (t0 & t1 & t2 & t3 & -> & V0 & V1 & V2 & V3).
  destruct (vpadalq_eqm s t0 Hs V0) as [E0 L0].
  destruct (vpadalq_eqm _ t1 L0 V1) as [E1 L1].
  destruct (vpadalq_eqm _ t2 L1 V2) as [E2 L2].
  destruct (vpadalq_eqm _ t3 L2 V3) as [E3 L3].
  cbn [fold_left]. split; [|exact L3].
  unfold total. cbn [map]. rewrite !summ_cons. change (summ []) with 0.
  eapply eqm_trans; [exact E3|].
  replace (summ s + (summ t0 + (summ t1 + (summ t2 + (summ t3 + 0)))))
    with (summ s + summ t0 + summ t1 + summ t2 + summ t3) by lia.
  apply eqm_add; [|apply eqm_refl]. eapply eqm_trans; [exact E2|].
  apply eqm_add; [|apply eqm_refl]. eapply eqm_trans; [exact E1|].
  apply eqm_add; [|apply eqm_refl]. exact E0.
Qed.

Section Bytes.
Variable rd : mem.
Hypothesis Hwf : wf_mem 8 rd.

Lemma rwp_neon_inner : forall fuel a limit i i0 t (Q : Z * Z * list (list Z) -> Prop),
  limit - i <= Z.of_nat fuel -> i0 <= i <= limit -> limit - i0 <= 31 -> 0 <= i0 ->
  bmapped rd a (64 * limit) ->
  vecs (8 * (i - i0)) t -> total t = bcount rd (a + 64 * i0) (64 * (i - i0)) ->
  (forall t', vecs 255 t' -> total t' = bcount rd (a + 64 * i0) (64 * (limit - i0)) ->
     Q (limit, a + 64 * limit, t')) ->
  rwp (neon_inner rd fuel limit i (a + 64 * i) t) Q.
Proof.
  assert (Hmon : forall b t, b <= 255 -> vecs b t -> vecs 255 t).
  { intros b t Hb (t0 & t1 & t2 & t3 & E & V0 & V1 & V2 & V3).
    exists t0, t1, t2, t3. split; [exact E|]. unfold vec16 in *.
    assert (Hf : forall l, Forall (fun x => 0 <= x <= b) l -> Forall (fun x => 0 <= x <= 255) l).
    { intros l. apply Forall_impl. intros x Hx. lia. }
    intuition auto. }
  induction fuel as [|fuel IH]; intros a limit i i0 t Q Hf Hi Hl Hi0 Hm Hv Ht HQ;
    cbn [neon_inner]; destruct (Z.leb_spec limit i) as [E|E].
  - replace i with limit in * by lia. apply rwp_ok, HQ; [|exact Ht].
    eapply Hmon; [|exact Hv]. lia.
  - lia.
  - replace i with limit in * by lia. apply rwp_ok, HQ; [|exact Ht].
    eapply Hmon; [|exact Hv]. lia.
  - apply rwp_bind, rwp_load_bytes; [assumption| |].
    { intros b Hb. apply Hm. lia. }
    intros v _ Hc. change (8 * 64)%nat with 512%nat in Hc.
    change (Z.of_nat 64) with 64 in Hc.
    destruct Hv as (t0 & t1 & t2 & t3 & -> & V0 & V1 & V2 & V3).
    cbn [map combine fst snd].
    replace (a + 64 * i + 64) with (a + 64 * (i + 1)) by lia.
    destruct (vaddq_vec16 _ 8 _ _ V0 (vcntq_vec16 v 0 ltac:(lia))) as [W0 S0]; try lia.
    destruct (vaddq_vec16 _ 8 _ _ V1 (vcntq_vec16 v 1 ltac:(lia))) as [W1 S1]; try lia.
    destruct (vaddq_vec16 _ 8 _ _ V2 (vcntq_vec16 v 2 ltac:(lia))) as [W2 S2]; try lia.
    destruct (vaddq_vec16 _ 8 _ _ V3 (vcntq_vec16 v 3 ltac:(lia))) as [W3 S3]; try lia.
    replace (8 * (i - i0) + 8) with (8 * (i + 1 - i0)) in * by lia.
    apply (IH a limit (i + 1) i0); try assumption; try lia.
    + do 4 eexists. split; [reflexivity|]. auto.
    + unfold total in *. cbn [map] in *. rewrite !summ_cons in *.
      change (summ []) with 0 in *. rewrite S0, S1, S2, S3.
      rewrite (bcount_split rd _ (64 * (i + 1 - i0)) (64 * (i - i0))) by lia.
      replace (a + 64 * i0 + 64 * (i - i0)) with (a + 64 * i) by lia.
      replace (64 * (i + 1 - i0) - 64 * (i - i0)) with 64 by lia.
      rewrite <- Hc, <- vld4q_sum. lia.
Qed.

Lemma rwp_neon_outer : forall fuel a iters i sum (Q : Z * list Z -> Prop),
  iters - i <= 31 * Z.of_nat fuel -> (0 < fuel)%nat -> 0 <= i <= iters ->
  bmapped rd a (64 * iters) -> length sum = 2%nat ->
  eqm (summ sum) (bcount rd a (64 * i)) ->
  (forall sum', length sum' = 2%nat -> eqm (summ sum') (bcount rd a (64 * iters)) ->
     Q (a + 64 * iters, sum')) ->
  rwp (neon_outer rd fuel iters i (a + 64 * i) sum) Q.
Proof.
  induction fuel as [|fuel IH]; intros a iters i sum Q Hf Hfu Hi Hm Hl Hs HQ; [lia|].
  cbn [neon_outer].
  set (limit := if i + 31 <? iters then i + 31 else iters).
  assert (Hlim : i <= limit <= iters /\ limit - i <= 31 /\
                 (limit < iters -> limit = i + 31)).
  { unfold limit. destruct (Z.ltb_spec (i + 31) iters); lia. }
  apply rwp_bind, (rwp_neon_inner _ a limit i i); try lia.
  - intros b Hb. apply Hm. lia.
  - exists (repeat 0 16), (repeat 0 16), (repeat 0 16), (repeat 0 16).
    split; [reflexivity|].
    assert (vec16 (8 * (i - i)) (repeat 0 16)).
    { split; [reflexivity|]. apply Forall_forall. intros x Hx.
      apply repeat_spec in Hx. lia. }
    auto.
  - rewrite Z.sub_diag. reflexivity.
  - intros t Hv Ht. destruct (fold_vpadalq sum t Hl Hv) as [E1 L1].
    assert (E2 : eqm (summ (fold_left vpadalq t sum)) (bcount rd a (64 * limit))).
    { rewrite (bcount_split rd a (64 * limit) (64 * i)) by lia.
      replace (64 * limit - 64 * i) with (64 * (limit - i)) by lia. rewrite <- Ht.
      eapply eqm_trans; [exact E1|]. apply eqm_add; [exact Hs|apply eqm_refl]. }
    destruct (Z.ltb_spec limit iters) as [C|C].
    + apply IH; try assumption; lia.
    + replace limit with iters in * by lia. apply rwp_ok, HQ; assumption.
Qed.

(** Value of the tail, lines 747-753. *)
Lemma rwp_tail64 : forall o a size i (Q : Z -> Prop), 0 <= i <= size -> size - i <= 8 ->
  0 <= o -> o + 8 * size < 2 ^ 64 -> bmapped rd a size ->
  Q (o + bcount rd a size) ->
  rwp (if i <? size then
    let? val := load_bytes rd (a + i) (Z.to_nat (size - i)) in
    Ok (wrap 64 (o + bcount rd a i + popcount64 val))
  else Ok (o + bcount rd a i)) Q.
Proof.
  intros o a size i Q Hi Hs Ho Hb Hm HQ. destruct (Z.ltb_spec i size) as [E|E].
  - assert (En : Z.of_nat (Z.to_nat (size - i)) = size - i) by lia.
    apply rwp_bind, rwp_load_bytes; [assumption| |].
    { intros b Hbb. apply Hm. lia. }
    rewrite En. intros v Hv Hc. apply rwp_ok.
    assert (Hp : 2 ^ (8 * (size - i)) <= 2 ^ 64) by (apply Z.pow_le_mono_r; lia).
    rewrite popcount64_count by lia. fold (cnt v 64).
    replace 64%nat with (8 * Z.to_nat (size - i) + (64 - 8 * Z.to_nat (size - i)))%nat
      by lia.
    rewrite cnt_more; [|replace (Z.of_nat (8 * Z.to_nat (size - i)))
                          with (8 * (size - i)) by lia; exact Hv].
    rewrite Hc. rewrite (bcount_split rd a size i) in HQ by lia.
    pose proof (bcount_range rd a i ltac:(lia)).
    pose proof (bcount_range rd (a + i) (size - i) ltac:(lia)).
    rewrite wrap_small by lia. rewrite <- Z.add_assoc. exact HQ.
  - apply rwp_ok. replace i with size by lia. exact HQ.
Qed.

(** The chunks of 64 bytes, lines 683-729. *)
Lemma rwp_neon_chunks : forall a size (Q : Z * Z * Z -> Prop),
  0 <= size -> 8 * size < 2 ^ 64 -> bmapped rd a size ->
  Q (a + 64 * (size / 64), size mod 64, bcount rd a (64 * (size / 64))) ->
  rwp (if 64 <=? size then
       let iters := size / 64 in
       let? (ptr, sum) := neon_outer rd (S (Z.to_nat (iters / 31))) iters 0 a [0; 0] in
       Ok (ptr, size mod 64,
           wrap 64 (wrap 64 (0 + nth 0 sum 0) + nth 1 sum 0))
     else Ok (a, size, 0)) Q.
Proof.
  intros a size Q Hs0 Hs Hm HQ.
  destruct (Z.leb_spec 64 size) as [E|E].
  - cbv zeta. apply rwp_bind. replace a with (a + 64 * 0) at 1 by lia.
    apply rwp_neon_outer; try lia.
    + intros b Hb. apply Hm. lia.
    + reflexivity.
    + apply eqm_refl.
    + intros sum Hl He. destruct sum as [|s0 [|s1 [|]]]; try discriminate Hl.
      cbn [nth]. apply rwp_ok. rewrite !summ_cons in He. change (summ []) with 0 in He.
      replace (wrap 64 (wrap 64 (0 + s0) + s1)) with (bcount rd a (64 * (size / 64))).
      * exact HQ.
      * symmetry. apply eqm_wrap_eq.
        -- eapply eqm_trans; [apply eqm_add; [apply eqm_wrap|apply eqm_refl]|].
           replace (0 + s0 + s1) with (s0 + (s1 + 0)) by lia. exact He.
        -- pose proof (bcount_range rd a (64 * (size / 64))). lia.
  - apply rwp_ok. replace (size / 64) with 0 in HQ by lia.
    replace (size mod 64) with size in HQ by lia.
    rewrite Z.mul_0_r, Z.add_0_r in HQ. exact HQ.
Qed.

Lemma popcnt_neon_ok : forall u a size, 0 <= size -> 8 * size < 2 ^ 64 ->
  bmapped rd a size ->
  u = true \/ size mod 64 < 8 \/ (- a) mod 8 <= size mod 8 ->
  popcnt_neon u rd a size = Ok (bcount rd a size).
Proof.
  intros u a size Hs0 Hs Hm Hg.
  enough (H : rwp (popcnt_neon u rd a size) (fun r => r = bcount rd a size)).
  { apply rwp_exists in H. destruct H as (r & -> & ->). reflexivity. }
  unfold popcnt_neon. apply rwp_bind, rwp_neon_chunks; try assumption.
  set (k := 64 * (size / 64)). set (r := size mod 64).
  assert (Hk : k + r = size /\ 0 <= r < 64 /\ 0 <= k) by lia.
  assert (Hr8 : r mod 8 = size mod 8) by lia.
  pose proof (bcount_range rd a k ltac:(lia)) as Hck.
  assert (Hm' : bmapped rd (a + k) r) by (intros b Hb; apply Hm; lia).
  assert (Hres : bcount rd a k + bcount rd (a + k) r = bcount rd a size).
  { rewrite (bcount_split rd a size k) by lia. do 2 f_equal. lia. }
  assert (Ha8 : (- (a + k)) mod 8 = (- a) mod 8).
  { unfold k. replace (- (a + 64 * (size / 64))) with (- a + (- (8 * (size / 64))) * 8) by lia.
    apply Z.mod_add. lia. }
  change (size mod 64) with r in Hg. clearbody k r. apply rwp_bind. destruct u.
  - apply (rwp_pop_words_o rd Hwf popcnt64 (bcount rd a k)); try assumption; try lia.
    { intros x Hx. apply popcnt64_cnt. exact Hx. }
    { cbn. lia. }
    intros i H1 H2. apply rwp_tail64; try assumption; lia.
  - destruct (Z.leb_spec 8 r) as [E|E].
    + assert (Hg' : (- a) mod 8 <= size mod 8)
        by (destruct Hg as [Hg|[Hg|Hg]]; [discriminate Hg|lia|exact Hg]).
      apply rwp_bind, (rwp_pop_align_o rd Hwf (bcount rd a k) _ _ r); try assumption; try lia.
      { cbn. lia. }
      rewrite !Z.add_0_l, !Z.add_0_r, Ha8.
      assert (Hal : 0 <= (- a) mod 8 < 8) by lia.
      assert (Hmm : (- a) mod 8 mod 8 = (- a) mod 8) by (apply Z.mod_small; lia).
      apply (rwp_pop_words_o rd Hwf popcnt64 (bcount rd a k)); try assumption; try lia.
      { intros x Hx. apply popcnt64_cnt. exact Hx. }
      intros i H1 H2. apply rwp_tail64; try assumption; lia.
    + apply rwp_ok. replace (bcount rd a k) with (bcount rd a k + bcount rd (a + k) 0)
        by (rewrite bcount_0; lia).
      apply rwp_tail64; try assumption; try lia.
Qed.

Lemma popcnt_neon_oob : forall a size, 8 <= size mod 64 -> 0 <= size ->
  8 * size < 2 ^ 64 -> bmapped rd a size -> size mod 8 < (- a) mod 8 ->
  rd (a + size) = None ->
  popcnt_neon false rd a size = UB OutOfBounds.
Proof.
  intros a size Hs8 Hs0 Hs Hm Hg Hn. unfold popcnt_neon.
  match goal with |- rbind ?c _ = _ => assert (Hch : rwp c (fun q =>
    q = (a + 64 * (size / 64), size mod 64, bcount rd a (64 * (size / 64))))) end.
  { apply rwp_neon_chunks; try assumption. reflexivity. }
  apply rwp_exists in Hch. destruct Hch as (q & -> & ->). cbn [rbind].
  set (k := 64 * (size / 64)). set (r := size mod 64) in *.
  assert (Hk : k + r = size /\ 0 <= r < 64 /\ 0 <= k) by lia.
  assert (Hr8 : r mod 8 = size mod 8) by lia.
  pose proof (bcount_range rd a k ltac:(lia)) as Hck.
  assert (Hm' : bmapped rd (a + k) r) by (intros b Hb; apply Hm; lia).
  assert (Ha8 : (- (a + k)) mod 8 = (- a) mod 8).
  { unfold k. replace (- (a + 64 * (size / 64))) with (- a + (- (8 * (size / 64))) * 8) by lia.
    apply Z.mod_add. lia. }
  clearbody k r. destruct (Z.leb_spec 8 r) as [_|]; [|lia].
  assert (Hal : rwp (pop_align rd (a + k) 8 0 (bcount rd a k))
    (fun q => fst q = (- a) mod 8)).
  { apply (rwp_pop_align_o rd Hwf (bcount rd a k) _ _ r); try assumption; try lia.
    - rewrite bcount_0. lia.
    - cbn [fst]. rewrite Z.add_0_r, Ha8. lia. }
  apply rwp_exists in Hal. destruct Hal as ([i c] & -> & Hi). cbn [fst] in Hi. subst i.
  cbn [rbind]. rewrite pop_words_oob; try assumption; try reflexivity; try lia.
  replace (a + k + r) with (a + size) by lia. exact Hn.
Qed.

End Bytes.
