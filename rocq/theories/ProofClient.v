(** Programs over several bit_vectors. *)
From Coq Require Import ZArith Bool List Lia ZifyBool.
From Verif Require Import Base WordOps IterModel RefModel PopcntModel AlgModel TransformModel
  ShiftModel SwapModel ReverseModel RotateModel Spec SpecRotate VecModel SpecVec ClientModel
  SpecClient ProofBase ProofIter ProofRange ProofShift ProofTransform ProofSwap ProofReverse
  ProofRotate ProofVec ProofVec2 ProofVec3 ProofVec4.
Import ListNotations.
Open Scope Z_scope.
Ltac Zify.zify_post_hook ::= idtac.

(** Bit address of begin() of vector [x]. *)
Definition base (w : Z) (x : nat) : Z := Z.of_nat x * (stride * w).

Lemma stride_pos : 0 < stride. Proof. reflexivity. Qed.

Lemma room : forall w, 8 <= w -> 2 ^ 63 <= stride * w.
Proof. intros w H. unfold stride. change (2 ^ 63) with (2 ^ 60 * 8). nia. Qed.

Lemma pool_begin_valid : forall w x, 0 < w -> valid_it w (pool_begin x).
Proof. intros w x H. unfold valid_it, pool_begin, mk_aligned. cbn. lia. Qed.

Lemma pool_begin_addr : forall w x, addr w (pool_begin x) = base w x.
Proof. intros w x. unfold addr, pool_begin, mk_aligned, base. cbn [ib ip]. ring. Qed.

Lemma base_mod : forall w x i, 0 < w -> (base w x + i) mod w = i mod w.
Proof.
  intros w x i H. unfold base.
  replace (Z.of_nat x * (stride * w) + i) with (i + (Z.of_nat x * stride) * w) by ring.
  apply Z.mod_add. lia.
Qed.

Lemma base_div : forall w x i, 0 < w -> (base w x + i) / w = Z.of_nat x * stride + i / w.
Proof.
  intros w x i H. unfold base.
  replace (Z.of_nat x * (stride * w) + i) with ((Z.of_nat x * stride) * w + i) by ring.
  apply Z.div_add_l. lia.
Qed.

(** Different vectors lie in different places. *)
Lemma inr_base : forall w x y d e i, 0 < w -> 0 <= i < stride * w -> 0 <= d -> e <= stride * w ->
  inr (base w y + d) (base w y + e) (base w x + i) = (x =? y)%nat && inr d e i.
Proof.
  intros w x y d e i Pw Hi Hd He. unfold inr, base.
  destruct (Nat.eqb_spec x y) as [->|N]; [cbn [andb]; lia|].
  cbn [andb]. pose proof stride_pos.
  assert (C : Z.of_nat x + 1 <= Z.of_nat y \/ Z.of_nat y + 1 <= Z.of_nat x) by lia.
  set (s := stride * w) in *.
  destruct C as [C|C]; assert (0 <= s) by nia.
  - assert (Z.of_nat x * s + s <= Z.of_nat y * s) by nia. lia.
  - assert (Z.of_nat y * s + s <= Z.of_nat x * s) by nia. lia.
Qed.

(** Words of the pool. *)
Lemma word_split : forall x k, 0 <= k < stride ->
  (Z.of_nat x * stride + k) / stride = Z.of_nat x /\ (Z.of_nat x * stride + k) mod stride = k.
Proof.
  intros x k H. pose proof stride_pos. split.
  - rewrite Z.div_add_l by lia. rewrite Z.div_small by lia. lia.
  - rewrite Z.add_comm, Z.mod_add by lia. apply Z.mod_small. lia.
Qed.

Lemma pool_word : forall vs x v k, nth_error vs x = Some v -> 0 <= k < wsize (vwords v) ->
  wsize (vwords v) <= stride ->
  pool vs (Z.of_nat x * stride + k) = Some (nth (Z.to_nat k) (vwords v) 0).
Proof.
  intros vs x v k Hx Hk Hs. destruct (word_split x k ltac:(lia)) as [E1 E2].
  unfold pool. rewrite E1, E2, Nat2Z.id, Hx. pose proof stride_pos.
  destruct (Z.ltb_spec (Z.of_nat x * stride + k) 0) as [C|C]; [nia|].
  destruct (Z.ltb_spec k (wsize (vwords v))) as [C'|C']; [reflexivity|lia].
Qed.

Lemma size_stride : forall w v, 8 <= w -> vec_ok w v -> wsize (vwords v) <= stride.
Proof.
  intros w v Hw (_ & _ & H). unfold wsize, max_bits, stride in *.
  change (2 ^ 62) with (2 ^ 60 * 4) in H. nia.
Qed.

Lemma pool_wf : forall w vs, Forall (vec_ok w) vs -> wf_mem w (pool vs).
Proof.
  intros w vs H a x E. unfold pool in E. destruct (a <? 0); [discriminate|].
  destruct (nth_error vs (Z.to_nat (a / stride))) as [v|] eqn:Ev; [|discriminate].
  apply nth_error_In in Ev. rewrite Forall_forall in H. destruct (H v Ev) as (W & _).
  destruct (Z.ltb_spec (a mod stride) (wsize (vwords v))) as [C|C]; [|discriminate].
  injection E as <-. unfold words_ok in W. rewrite Forall_forall in W. apply W, nth_In.
  pose proof (Z.mod_pos_bound a stride stride_pos). unfold wsize in C. lia.
Qed.

Lemma pool_mapped : forall w vs x v i j, 8 <= w -> nth_error vs x = Some v -> vec_ok w v ->
  0 <= i -> j <= wsize (vwords v) * w -> mapped w (pool vs) (base w x + i) (base w x + j).
Proof.
  intros w vs x v i j Hw Hx V Hi Hj k Hk.
  replace k with (base w x + (k - base w x)) by ring. set (q := k - base w x).
  rewrite base_div by lia.
  assert (0 <= q / w < wsize (vwords v))
    by (split; [apply Z.div_pos; lia|apply Z.div_lt_upper_bound; lia]).
  rewrite (pool_word vs x v) by (try assumption; try lia; apply (size_stride w); assumption).
  discriminate.
Qed.

Lemma pool_bit : forall w vs x v i, 8 <= w -> nth_error vs x = Some v -> vec_ok w v ->
  0 <= i < wsize (vwords v) * w ->
  bit w (pool vs) (base w x + i) = get_at i (list_bits w (vwords v)).
Proof.
  intros w vs x v i Hw Hx V Hi. unfold bit. rewrite base_div, base_mod by lia.
  assert (0 <= i / w < wsize (vwords v))
    by (split; [apply Z.div_pos; lia|apply Z.div_lt_upper_bound; lia]).
  rewrite (pool_word vs x v) by (try assumption; try lia; apply (size_stride w); assumption).
  unfold get_at. rewrite list_bits_nth by (try lia; exact Hi). reflexivity.
Qed.

(** The vectors after an algorithm. *)
Lemma unpool_nth : forall vs k m x, nth_error (unpool k vs m) x =
  option_map (fun v => BV (map (fun n => match m ((k + Z.of_nat x) * stride + Z.of_nat n) with
                                         | Some y => y | None => 0 end)
                             (seq 0 (length (vwords v)))) (vlen v)) (nth_error vs x).
Proof.
  induction vs as [|v vs IH]; intros k m x; [destruct x; reflexivity|].
  destruct x as [|x]; cbn [unpool nth_error option_map].
  - replace (k + Z.of_nat 0) with k by lia. reflexivity.
  - rewrite IH. replace (k + 1 + Z.of_nat x) with (k + Z.of_nat (S x)) by lia. reflexivity.
Qed.

Lemma unpool_length : forall vs k m, length (unpool k vs m) = length vs.
Proof. induction vs as [|v vs IH]; intros k m; cbn; [reflexivity|]. rewrite IH. reflexivity. Qed.

Definition read_back (m : mem) (x : nat) (v : bvec) : bvec :=
  BV (map (fun n => match m (Z.of_nat x * stride + Z.of_nat n) with Some y => y | None => 0 end)
        (seq 0 (length (vwords v)))) (vlen v).

Lemma read_back_ok : forall w m x v, 0 <= w -> wf_mem w m -> vec_ok w v -> vec_ok w (read_back m x v).
Proof.
  intros w m x v Hw Wf (V1 & V2 & V3). unfold read_back, vec_ok. cbn [vwords vlen].
  rewrite map_length, seq_length. split; [|split; assumption].
  unfold words_ok. rewrite Forall_map. apply Forall_forall. intros k _.
  destruct (m (Z.of_nat x * stride + Z.of_nat k)) as [y|] eqn:E; [apply (Wf _ _ E)|].
  pose proof (pow_pos w Hw). lia.
Qed.

Lemma read_back_bit : forall w vs m x v i, 8 <= w -> vec_ok w v -> nth_error vs x = Some v ->
  same_dom (pool vs) m -> 0 <= i < vlen v ->
  get_at i (vbits w (read_back m x v)) = bit w m (base w x + i).
Proof.
  intros w vs m x v i Hw V Hx D Hi. pose proof V as (V1 & V2 & V3).
  unfold get_at, vbits. rewrite nth_firstn by (unfold read_back; cbn [vlen]; lia).
  assert (Hi' : 0 <= i < wsize (vwords v) * w) by (unfold wsize; lia).
  rewrite list_bits_nth by (unfold read_back; cbn [vwords]; rewrite ?map_length, ?seq_length; lia).
  assert (Hq : 0 <= i / w < wsize (vwords v))
    by (split; [apply Z.div_pos; lia|apply Z.div_lt_upper_bound; lia]).
  unfold bit. rewrite base_div, base_mod by lia.
  unfold read_back. cbn [vwords].
  set (g := fun n => match m (Z.of_nat x * stride + Z.of_nat n) with Some y => y | None => 0 end).
  assert (L : (Z.to_nat (i / w) < length (vwords v))%nat) by (unfold wsize in Hq; lia).
  rewrite (nth_indep _ 0 (g O)) by (rewrite map_length, seq_length; exact L).
  rewrite map_nth, seq_nth by exact L. unfold g. rewrite Nat.add_0_l, Z2Nat.id by lia.
  destruct (m (Z.of_nat x * stride + i / w)) as [y|] eqn:E; [reflexivity|]. exfalso.
  apply D in E. rewrite (pool_word vs x v) in E by (try assumption; try lia; apply (size_stride w); assumption).
  discriminate.
Qed.

(** Lists of lists. *)
Lemma row_map : forall w vs x v, nth_error vs x = Some v -> row x (map (vbits w) vs) = vbits w v.
Proof.
  intros w vs x v H. unfold row. apply nth_error_nth. rewrite nth_error_map, H. reflexivity.
Qed.

Lemma row_put : forall x y l ls, (y < length ls)%nat ->
  row x (put_row y l ls) = if (x =? y)%nat then l else row x ls.
Proof.
  intros x y l ls H. unfold row, put_row.
  assert (L : length (firstn y ls) = y) by (rewrite firstn_length; lia).
  destruct (Nat.eqb_spec x y) as [->|N].
  - rewrite app_nth2 by lia. rewrite L, Nat.sub_diag. reflexivity.
  - destruct (Nat.lt_ge_cases x y) as [C|C].
    + rewrite app_nth1 by lia. revert x y C L H N. induction ls as [|a ls IH]; intros x y C L H N.
      * cbn in H. lia.
      * destruct y as [|y]; [lia|]. destruct x as [|x]; [reflexivity|]. cbn [firstn nth].
        apply IH; cbn in *; try lia.
    + rewrite app_nth2 by lia. rewrite L. destruct (x - y)%nat as [|k] eqn:E; [lia|].
      cbn [nth]. rewrite nth_skipn. f_equal. lia.
Qed.

Lemma put_row_length : forall y l ls, (y < length ls)%nat -> length (put_row y l ls) = length ls.
Proof.
  intros y l ls H. unfold put_row. rewrite app_length, firstn_length. cbn [length].
  rewrite skipn_length. lia.
Qed.

Lemma rows_ext : forall ls ls', length ls = length ls' ->
  (forall x, (x < length ls)%nat -> row x ls = row x ls') -> ls = ls'.
Proof. intros ls ls' H1 H2. apply (nth_ext ls ls' [] []); assumption. Qed.

Lemma zlen_pos : forall A (l : list A), 0 <= zlen l. Proof. intros. unfold zlen. lia. Qed.

Lemma zlen_over : forall i x l, 0 <= i -> i + zlen x <= zlen l -> zlen (over i x l) = zlen l.
Proof.
  intros i x l H1 H2. pose proof (zlen_pos _ x). unfold over.
  rewrite !zlen_app, zlen_firstn, zlen_skipn by lia. lia.
Qed.

Lemma get_over : forall i x l k, 0 <= i -> i + zlen x <= zlen l -> 0 <= k ->
  get_at k (over i x l) = if inr i (i + zlen x) k then get_at (k - i) x else get_at k l.
Proof.
  intros i x l k H1 H2 H3. pose proof (zlen_pos _ x). unfold over, inr.
  rewrite get_app, zlen_firstn by lia.
  destruct (Z.ltb_spec k i) as [C|C].
  - rewrite get_firstn by lia. replace (i <=? k) with false by lia. reflexivity.
  - rewrite get_app by lia. replace (i <=? k) with true by lia. cbn [andb].
    destruct (Z.ltb_spec (k - i) (zlen x)) as [C'|C'].
    + replace (k <? i + zlen x) with true by lia. reflexivity.
    + replace (k <? i + zlen x) with false by lia. rewrite get_skipn by lia. f_equal. lia.
Qed.

(** The state after an algorithm. *)
Lemma state_after : forall w vs m ls', 8 <= w -> Forall (vec_ok w) vs -> wf_mem w m ->
  same_dom (pool vs) m -> length ls' = length vs ->
  (forall x v, nth_error vs x = Some v -> zlen (row x ls') = vlen v /\
     forall i, 0 <= i < vlen v -> bit w m (base w x + i) = get_at i (row x ls')) ->
  Forall (vec_ok w) (unpool 0 vs m) /\ map (vbits w) (unpool 0 vs m) = ls'.
Proof.
  intros w vs m ls' Hw V Wf D L H.
  assert (N : forall x, nth_error (unpool 0 vs m) x = option_map (read_back m x) (nth_error vs x)).
  { intros x. rewrite unpool_nth. reflexivity. }
  rewrite Forall_forall in V. split.
  - apply Forall_forall. intros v' Hin. apply In_nth_error in Hin. destruct Hin as [x E].
    rewrite N in E. destruct (nth_error vs x) as [v|] eqn:Ev; [|discriminate].
    injection E as <-. apply read_back_ok; [lia|assumption|]. apply V. eapply nth_error_In, Ev.
  - apply rows_ext; [rewrite map_length, unpool_length; lia|].
    intros x Hx. rewrite map_length, unpool_length in Hx.
    destruct (nth_error vs x) as [v|] eqn:Ev; [|apply nth_error_None in Ev; lia].
    assert (Vv : vec_ok w v) by (apply V; eapply nth_error_In, Ev).
    rewrite (row_map w _ x (read_back m x v)) by (rewrite N, Ev; reflexivity).
    destruct (H x v Ev) as [H1 H2].
    assert (Lv : zlen (vbits w (read_back m x v)) = vlen v)
      by (rewrite vbits_length; [reflexivity|lia|apply read_back_ok; [lia|assumption..]]).
    apply list_ext; [lia|]. intros i Hi. rewrite Lv in Hi.
    rewrite (read_back_bit w vs) by assumption. apply H2. lia.
Qed.

Section Vectors.
Variables (w : Z) (vs : list bvec).
Hypothesis Vw : valid_w w.
Hypothesis Vs : Forall (vec_ok w) vs.
Let ls := map (vbits w) vs.

Lemma width : 8 <= w <= 128. Proof. apply valid_pos, Vw. Qed.

Lemma vec_in : forall x, (x < length ls)%nat -> exists v, nth_error vs x = Some v /\ vec_ok w v /\
  row x ls = vbits w v /\ zlen (row x ls) = vlen v.
Proof.
  intros x H. unfold ls in H. rewrite map_length in H.
  destruct (nth_error vs x) as [v|] eqn:E; [|apply nth_error_None in E; lia].
  exists v. split; [reflexivity|]. rewrite Forall_forall in Vs.
  assert (V : vec_ok w v) by (apply Vs; eapply nth_error_In, E).
  split; [assumption|]. unfold ls. rewrite (row_map w vs x v E). split; [reflexivity|].
  apply vbits_length; [pose proof width; lia|assumption].
Qed.

Lemma row_max : forall x, (x < length ls)%nat -> zlen (row x ls) <= max_bits.
Proof. intros x H. destruct (vec_in x H) as (v & _ & (_ & V2 & V3) & _ & E). lia. Qed.

Lemma row_bit : forall x i, (x < length ls)%nat -> 0 <= i < zlen (row x ls) ->
  bit w (pool vs) (base w x + i) = get_at i (row x ls).
Proof.
  intros x i H Hi. destruct (vec_in x H) as (v & E & V & R & L). pose proof width.
  pose proof V as (V1 & V2 & V3).
  rewrite (pool_bit w vs x v) by (try assumption; unfold wsize; lia).
  rewrite R. unfold get_at, vbits. rewrite nth_firstn by lia. reflexivity.
Qed.

Lemma row_range : forall x i j f l, range_in ls x i j -> valid_it w f -> valid_it w l ->
  addr w f = base w x + i -> addr w l = base w x + j -> good_range w (pool vs) f l.
Proof.
  intros x i j f l (R1 & R2 & R3) Vf Vl Af Al. pose proof (row_max x R1).
  destruct (vec_in x R1) as (v & E & V & R & L). pose proof V as (V1 & V2 & V3).
  split; [assumption|]. split; [assumption|]. split; [lia|]. rewrite Af, Al. pose proof width.
  apply (pool_mapped w vs x v); try assumption; unfold wsize; lia.
Qed.

Lemma row_dest : forall y d n o, range_in ls y d (d + n) -> valid_it w o ->
  addr w o = base w y + d -> good_dest w (pool vs) o n.
Proof.
  intros y d n o (R1 & R2 & R3) Vo Ao. destruct (vec_in y R1) as (v & E & V & R & L).
  pose proof V as (V1 & V2 & V3). split; [assumption|]. pose proof width.
  rewrite Ao. replace (base w y + d + n) with (base w y + (d + n)) by ring.
  apply (pool_mapped w vs y v); try assumption; unfold wsize; lia.
Qed.

(** The word of a position that is not a multiple of the width exists. *)
Lemma row_word : forall x i f, (x < length ls)%nat -> 0 <= i <= zlen (row x ls) -> valid_it w f ->
  addr w f = base w x + i -> i mod w <> 0 -> pool vs (ib f) <> None.
Proof.
  intros x i f H Hi Vf Af Hm. destruct (vec_in x H) as (v & E & V & R & L).
  pose proof V as (V1 & V2 & V3). pose proof width.
  assert (Eb : ib f = Z.of_nat x * stride + i / w).
  { rewrite <- base_div by lia. rewrite <- Af. unfold addr. unfold valid_it in Vf.
    rewrite Z.div_add_l by lia. rewrite (Z.div_small (ip f)) by lia. lia. }
  rewrite Eb. assert (Hq : 0 <= i / w < wsize (vwords v)).
  { split; [apply Z.div_pos; lia|]. unfold wsize.
    pose proof (Z.div_mod i w ltac:(lia)). pose proof (Z.mod_pos_bound i w ltac:(lia)). nia. }
  rewrite (pool_word vs x v) by first [assumption|lia|apply (size_stride w); [lia|assumption]].
  discriminate.
Qed.

Lemma pos_of : forall x i f, valid_it w f -> addr w f = base w x + i -> ip f = i mod w.
Proof.
  intros x i f Vf Af. pose proof width. rewrite <- (base_mod w x i) by lia. rewrite <- Af.
  unfold addr. unfold valid_it in Vf.
  rewrite Z.add_comm, Z.mod_add by lia. symmetry. apply Z.mod_small. lia.
Qed.

Lemma same_alg : same_dom (pool vs) (pool vs). Proof. intros a. tauto. Qed.

Lemma state_same : Forall (vec_ok w) (unpool 0 vs (pool vs)) /\ map (vbits w) (unpool 0 vs (pool vs)) = ls.
Proof.
  pose proof width. apply state_after; try assumption; try lia.
  - apply pool_wf, Vs.
  - apply same_alg.
  - unfold ls. apply map_length.
  - intros x v E. assert (Hx : (x < length ls)%nat).
    { unfold ls. rewrite map_length. apply nth_error_Some. congruence. }
    destruct (vec_in x Hx) as (v' & E' & V & R & L). rewrite E in E'. injection E' as <-.
    split; [exact L|]. intros i Hi. apply row_bit; [assumption|lia].
Qed.

(** One range of one vector was written. *)
Lemma state_over : forall m y d X g, (y < length ls)%nat -> 0 <= d ->
  d + zlen X <= zlen (row y ls) ->
  updated w (pool vs) m (base w y + d) (base w y + (d + zlen X)) g ->
  (forall k, 0 <= k < zlen X -> g (base w y + (d + k)) = get_at k X) ->
  Forall (vec_ok w) (unpool 0 vs m) /\
  map (vbits w) (unpool 0 vs m) = put_row y (over d X (row y ls)) ls.
Proof.
  intros m y d X g Hy Hd Hl (Wf & D & B) Hg. pose proof width. pose proof (room w ltac:(lia)) as Rm.
  pose proof (row_max y Hy) as My. unfold max_bits in My.
  apply state_after; try assumption; try lia.
  - rewrite put_row_length by exact Hy. unfold ls. apply map_length.
  - intros x v E. assert (Hx : (x < length ls)%nat).
    { unfold ls. rewrite map_length. apply nth_error_Some. congruence. }
    destruct (vec_in x Hx) as (v' & E' & V & R & L). rewrite E in E'. injection E' as <-.
    pose proof (row_max x Hx) as Mx. unfold max_bits in Mx.
    rewrite row_put by exact Hy. split.
    + destruct (Nat.eqb_spec x y) as [->|N]; [rewrite zlen_over by lia|]; exact L.
    + intros i Hi. rewrite B. rewrite inr_base by lia.
      destruct (Nat.eqb_spec x y) as [->|N]; cbn [andb].
      * rewrite get_over by lia. destruct (inr d (d + zlen X) i) eqn:I.
        -- unfold inr in I. rewrite <- Hg by lia. f_equal. ring.
        -- apply row_bit; [assumption|lia].
      * apply row_bit; [assumption|lia].
Qed.

(** What the caller sees of an iterator. *)
Lemma wp_see : forall x n it m (Q : vout -> mem -> Prop), valid_it w it ->
  addr w it = base w x + n -> - 2 ^ 62 <= n <= 2 ^ 62 -> Q (OIdx n) m -> wp (see_pos w x it) m Q.
Proof.
  intros x n it m Q Vi Ai Hn H. pose proof width. unfold see_pos.
  assert (E : idiff w it (pool_begin x) = Ok n).
  { rewrite idiff_eq; [|assumption|assumption|apply pool_begin_valid; lia
      |rewrite pool_begin_addr; lia]. rewrite pool_begin_addr. f_equal. lia. }
  rewrite E. apply wp_bind, wp_lift, rwp_ok. apply wp_ret. exact H.
Qed.

Lemma wp_pos : forall x i A (k : iter -> M A) m (Q : A -> mem -> Prop), - 2 ^ 62 <= i <= 2 ^ 62 ->
  (forall it, valid_it w it -> addr w it = base w x + i -> wp (k it) m Q) ->
  wp (bind (lift (pos w x i)) k) m Q.
Proof.
  intros x i A k m Q Hi H. pose proof width. unfold pos. apply wp_bind. apply wp_iadd.
  - exact Vw.
  - apply pool_begin_valid. lia.
  - exact Hi.
  - intros it Vi Ai. rewrite pool_begin_addr in Ai. apply H; assumption.
Qed.

End Vectors.
