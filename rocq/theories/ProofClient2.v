(** Every statement of a program over several bit_vectors. *)
From Coq Require Import ZArith Bool List Lia ZifyBool.
From Verif Require Import Base WordOps IterModel RefModel PopcntModel AlgModel TransformModel
  ShiftModel SwapModel ReverseModel RotateModel Spec SpecRotate VecModel SpecVec ClientModel
  SpecClient ProofBase ProofIter ProofRange ProofShift ProofTransform ProofSwap ProofReverse
  ProofRotate ProofCount ProofDetails ProofVec ProofVec2 ProofVec3 ProofVec4 ProofClient.
Import ListNotations.
Open Scope Z_scope.
Ltac Zify.zify_post_hook ::= idtac.

(** Elements of the lists in the specification. *)
Lemma get_cons0 : forall x l, get_at 0 (x :: l) = x. Proof. reflexivity. Qed.

Lemma get_cons : forall x l k, 0 <= k -> get_at (1 + k) (x :: l) = get_at k l.
Proof.
  intros x l k H. unfold get_at. replace (Z.to_nat (1 + k)) with (S (Z.to_nat k)) by lia. reflexivity.
Qed.

Lemma zlen_cons : forall A (x : A) l, zlen (x :: l) = 1 + zlen l.
Proof. intros. unfold zlen. cbn [length]. lia. Qed.

Lemma get_map : forall f l k, 0 <= k < zlen l -> get_at k (map f l) = f (get_at k l).
Proof.
  intros f l k H. unfold get_at, zlen in *.
  rewrite (nth_indep _ false (f false)) by (rewrite map_length; lia). apply map_nth.
Qed.

Lemma zlen_map : forall A B (f : A -> B) l, zlen (map f l) = zlen l.
Proof. intros. unfold zlen. rewrite map_length. reflexivity. Qed.

Lemma get_rev : forall l k, 0 <= k < zlen l -> get_at k (rev l) = get_at (zlen l - 1 - k) l.
Proof.
  intros l k H. unfold get_at, zlen in *. rewrite rev_nth by lia. f_equal. lia.
Qed.

Lemma zlen_rev : forall A (l : list A), zlen (rev l) = zlen l.
Proof. intros. unfold zlen. rewrite rev_length. reflexivity. Qed.

Lemma zlen_zip : forall f a b, zlen a = zlen b -> zlen (zip f a b) = zlen a.
Proof.
  intros f a. induction a as [|x a IH]; intros [|y b] H; try reflexivity.
  - unfold zlen in H. cbn in H. lia.
  - rewrite !zlen_cons in H. cbn [zip]. rewrite !zlen_cons, IH by lia. reflexivity.
Qed.

Lemma get_zip : forall f a b k, zlen a = zlen b -> 0 <= k < zlen a ->
  get_at k (zip f a b) = f (get_at k a) (get_at k b).
Proof.
  intros f a. induction a as [|x a IH]; intros [|y b] k H Hk.
  - unfold zlen in Hk. cbn in Hk. lia.
  - unfold zlen in Hk. cbn in Hk. lia.
  - unfold zlen in H. cbn in H. lia.
  - rewrite !zlen_cons in *. cbn [zip]. destruct (Z.eq_dec k 0) as [->|N]; [reflexivity|].
    replace k with (1 + (k - 1)) by ring. rewrite !get_cons by lia. apply IH; lia.
Qed.

Lemma count_occurrences : forall f b l lo,
  (forall k, 0 <= k < zlen l -> f (lo + k) = eqb (get_at k l) b) ->
  count_true f lo (length l) = occurrences b l.
Proof.
  intros f b l. induction l as [|x l IH]; intros lo H; [reflexivity|].
  cbn [length count_true]. rewrite IH.
  - pose proof (H 0) as H0. rewrite get_cons0, Z.add_0_r in H0.
    rewrite H0 by (rewrite zlen_cons; pose proof (zlen_pos _ l); lia).
    unfold occurrences. cbn [filter]. destruct (eqb x b); [rewrite zlen_cons|]; reflexivity.
  - intros k Hk. pose proof (H (1 + k)) as H1. rewrite get_cons in H1 by lia.
    rewrite <- H1 by (rewrite zlen_cons; lia). f_equal. ring.
Qed.

Lemma index_unique : forall b l r, 0 <= r <= zlen l ->
  (forall k, 0 <= k < r -> get_at k l <> b) -> (r < zlen l -> get_at r l = b) ->
  r = index_of b l.
Proof.
  intros b l. induction l as [|x l IH]; intros r H1 H2 H3.
  - unfold zlen in H1. cbn in *. lia.
  - cbn [index_of]. rewrite zlen_cons in *. destruct (Z.eq_dec r 0) as [->|N].
    + rewrite get_cons0 in H3. rewrite H3 by (pose proof (zlen_pos _ l); lia).
      rewrite eqb_reflx. reflexivity.
    + pose proof (H2 0 ltac:(lia)) as H0. rewrite get_cons0 in H0.
      destruct (eqb x b) eqn:E; [apply eqb_prop in E; contradiction|].
      rewrite <- (IH (r - 1)); [ring|lia| |].
      * intros k Hk. specialize (H2 (1 + k) ltac:(lia)). rewrite get_cons in H2 by lia. exact H2.
      * intros Hr. specialize (H3 ltac:(lia)). replace r with (1 + (r - 1)) in H3 by ring.
        rewrite get_cons in H3 by lia. exact H3.
Qed.

Lemma slices_eq : forall l l' n, zlen l = n -> zlen l' = n ->
  (l = l' <-> forall k, 0 <= k < n -> get_at k l = get_at k l').
Proof.
  intros l l' n H1 H2. split; [intros -> k _; reflexivity|].
  intros H. apply list_ext; [lia|]. intros k Hk. apply H. lia.
Qed.

Section Calls.
Variables (t : target) (p : policy) (w : Z) (vs : list bvec).
Hypothesis Vw : valid_w w.
Hypothesis Vs : Forall (vec_ok w) vs.
Let ls := map (vbits w) vs.

Definition after (a : alg) (o : vout) (m : mem) : Prop :=
  Forall (vec_ok w) (unpool 0 vs m) /\ alg_spec w ls a o (map (vbits w) (unpool 0 vs m)).

Lemma wf : wf_mem w (pool vs). Proof. apply pool_wf, Vs. Qed.

Lemma slice_bit : forall x i j k, range_in ls x i j -> 0 <= k < j - i ->
  bit w (pool vs) (base w x + (i + k)) = get_at k (slice i j (row x ls)).
Proof.
  intros x i j k (R1 & R2 & R3) Hk. rewrite get_slice by lia.
  apply row_bit; [assumption|assumption|exact R1|fold ls; lia].
Qed.

Lemma slice_len : forall x i j, range_in ls x i j -> zlen (slice i j (row x ls)) = j - i.
Proof. intros x i j (R1 & R2 & R3). apply zlen_slice; lia. Qed.

Lemma range_max : forall x i j, range_in ls x i j -> 0 <= i <= j /\ j <= 2 ^ 62.
Proof.
  intros x i j (R1 & R2 & R3). pose proof (row_max w vs Vw Vs x R1) as M. fold ls in M.
  unfold max_bits in M. lia.
Qed.

(** One range was written. *)
Lemma wrote : forall m y d X e g, range_in ls y d (d + zlen X) -> e = base w y + (d + zlen X) ->
  updated w (pool vs) m (base w y + d) e g ->
  (forall k, 0 <= k < zlen X -> g (base w y + (d + k)) = get_at k X) ->
  Forall (vec_ok w) (unpool 0 vs m) /\
  map (vbits w) (unpool 0 vs m) = put_row y (over d X (row y ls)) ls.
Proof.
  intros m y d X e g (R1 & R2 & R3) -> U H.
  apply (state_over w vs Vw Vs m y d X g); try assumption; lia.
Qed.

Lemma fill_call : forall x i j b, alg_pre t p w ls (AFill x i j b) ->
  wp (alg_call t p w (AFill x i j b)) (pool vs) (after (AFill x i j b)).
Proof.
  intros x i j b R. cbn [alg_pre alg_call] in *. pose proof (range_max _ _ _ R).
  apply wp_pos; [assumption|lia|]. intros f Vf Af. apply wp_pos; [assumption|lia|]. intros l Vl Al.
  destruct (fill_ok p w (pool vs) f l b Vw wf (row_range w vs Vw Vs x i j f l R Vf Vl Af Al))
    as (m & E & U).
  apply wp_bind, (wp_ok _ _ _ _ _ _ E), wp_ret. unfold after. cbn [alg_spec].
  assert (L : zlen (repeat b (Z.to_nat (j - i))) = j - i) by (apply zlen_repeat; lia).
  destruct (wrote m x i (repeat b (Z.to_nat (j - i))) (addr w l) (fun _ => b)) as [W1 W2].
  - rewrite L. replace (i + (j - i)) with j by ring. exact R.
  - rewrite L, Al. ring.
  - rewrite Af in U. exact U.
  - intros k Hk. rewrite L in Hk. rewrite get_repeat by lia. reflexivity.
  - auto.
Qed.

Lemma reverse_call : forall x i j, alg_pre t p w ls (AReverse x i j) ->
  wp (alg_call t p w (AReverse x i j)) (pool vs) (after (AReverse x i j)).
Proof.
  intros x i j (R & Hm & Hs). cbn [alg_call]. pose proof (range_max _ _ _ R).
  pose proof (width w Vw) as Pw.
  apply wp_pos; [assumption|lia|]. intros f Vf Af. apply wp_pos; [assumption|lia|]. intros l Vl Al.
  pose proof (pos_of w Vw x i f Vf Af) as Pf. pose proof (pos_of w Vw x j l Vl Al) as Pl.
  destruct (reverse_ok p w (pool vs) f l Vw wf (row_range w vs Vw Vs x i j f l R Vf Vl Af Al))
    as (m & E & U).
  { lia. }
  { intros Ee. destruct (Z.eq_dec (i mod w) 0) as [C|C]; [left; congruence|right].
    apply (row_word w vs Vw Vs x i f); try assumption; [apply R|]. fold ls.
    destruct R as (R1 & R2 & R3). lia. }
  { rewrite Pf, Pl. destruct Hs as [Hs|[Hs|[Hs|Hs]]]; auto.
    destruct (Z.eq_dec (i mod w) 0) as [C|C]; [auto|].
    destruct (Z.eq_dec (j mod w) 0) as [C'|C']; [|auto]. right. right. left. intros D.
    unfold addr in Af, Al. pose proof (Z.mod_pos_bound i w ltac:(lia)).
    rewrite Pf in Af. rewrite Pl in Al. nia. }
  apply wp_bind, (wp_ok _ _ _ _ _ _ E), wp_ret. unfold after. cbn [alg_spec].
  assert (L : zlen (rev (slice i j (row x ls))) = j - i) by (rewrite zlen_rev; apply slice_len, R).
  destruct (wrote m x i (rev (slice i j (row x ls))) (addr w l)
    (fun k => bit w (pool vs) (addr w l - 1 - (k - addr w f)))) as [W1 W2].
  - rewrite L. replace (i + (j - i)) with j by ring. exact R.
  - rewrite L, Al. ring.
  - rewrite <- Af. exact U.
  - intros k Hk. rewrite L in Hk. rewrite get_rev by (rewrite slice_len by exact R; lia).
    rewrite slice_len by exact R. rewrite <- slice_bit by (try exact R; lia).
    f_equal. rewrite Af, Al. ring.
  - auto.
Qed.

Lemma rotate_call : forall x i k j, alg_pre t p w ls (ARotate x i k j) ->
  wp (alg_call t p w (ARotate x i k j)) (pool vs) (after (ARotate x i k j)).
Proof.
  intros x i k j (R & Hk & Hq & Hmf). cbn [alg_call]. pose proof (range_max _ _ _ R).
  pose proof (width w Vw) as Pw.
  apply wp_pos; [assumption|lia|]. intros f Vf Af. apply wp_pos; [assumption|lia|]. intros n Vn An.
  apply wp_pos; [assumption|lia|]. intros l Vl Al.
  destruct (rotate_fit_ok p w (pool vs) f n l Vw wf (row_range w vs Vw Vs x i j f l R Vf Vl Af Al))
    as (r & m & E & Vr & Ar & U); [assumption|lia| | |].
  { replace (ip f) with (i mod w). 2: {
      rewrite <- (Z.mod_small (ip f) w) by (destruct Vf; lia).
      assert (Eb : base w x + i = addr w f) by lia.
      unfold base, addr in Eb.
      replace (ip f) with (i + (Z.of_nat x * stride - ib f) * w) by lia.
      symmetry. apply Z.mod_add. lia. }
    replace (addr w l - addr w f) with (j - i) by lia. exact Hmf. }
  { rewrite Af, An, Al. replace (base w x + k - (base w x + i)) with (k - i) by ring.
    replace (base w x + j - (base w x + k)) with (j - k) by ring. exact Hq. }
  apply wp_bind, (wp_ok _ _ _ _ _ _ E).
  apply (wp_see w Vw x (i + (j - k))); [assumption|lia|lia|]. unfold after. cbn [alg_spec].
  assert (R1 : range_in ls x k j) by (destruct R as (? & ? & ?); repeat split; try assumption; lia).
  assert (R2 : range_in ls x i k) by (destruct R as (? & ? & ?); repeat split; try assumption; lia).
  assert (L : zlen (slice k j (row x ls) ++ slice i k (row x ls)) = j - i)
    by (rewrite zlen_app, !slice_len by assumption; ring).
  destruct (wrote m x i (slice k j (row x ls) ++ slice i k (row x ls)) (addr w l)
    (fun q => let j' := q + (addr w n - addr w f) in
       bit w (pool vs) (if j' <? addr w l then j' else j' - (addr w l - addr w f)))) as [W1 W2].
  - rewrite L. replace (i + (j - i)) with j by ring. exact R.
  - rewrite L, Al. ring.
  - rewrite <- Af. exact U.
  - intros q Hq'. rewrite L in Hq'. cbv zeta. rewrite Af, An, Al.
    rewrite get_app, slice_len by (assumption || lia).
    destruct (Z.ltb_spec q (j - k)) as [C|C].
    + replace (base w x + (i + q) + (base w x + k - (base w x + i)) <? base w x + j) with true by lia.
      rewrite <- slice_bit by (try exact R1; lia). f_equal. ring.
    + replace (base w x + (i + q) + (base w x + k - (base w x + i)) <? base w x + j) with false by lia.
      rewrite <- slice_bit by (try exact R2; lia). f_equal. ring.
  - auto.
Qed.

Lemma apart : forall x y a b, x <> y -> a <= 2 ^ 62 -> b <= 2 ^ 62 ->
  base w x + a <= base w y \/ base w y + b <= base w x.
Proof.
  intros x y a b N Ha Hb. pose proof (width w Vw). pose proof (room w ltac:(lia)) as Rm.
  unfold base. set (s := stride * w) in *.
  assert (C : Z.of_nat x + 1 <= Z.of_nat y \/ Z.of_nat y + 1 <= Z.of_nat x) by lia.
  destruct C as [C|C]; [left|right]; nia.
Qed.

(** Everything outside a range is as before. *)
Lemma kept : forall m lo hi, wf_mem w m -> same_dom (pool vs) m ->
  (forall i, i < lo \/ hi <= i -> bit w m i = bit w (pool vs) i) ->
  updated w (pool vs) m lo hi (bit w m).
Proof.
  intros m lo hi Wf D H. split; [assumption|]. split; [assumption|]. intros i.
  destruct (inr lo hi i) eqn:E; [reflexivity|]. apply H. unfold inr in E. lia.
Qed.

(** The bits of [n] positions from [a] on. *)
Definition bits_at (m : mem) (a n : Z) : list bool :=
  map (fun k => bit w m (a + Z.of_nat k)) (seq 0 (Z.to_nat n)).

Lemma zlen_bits_at : forall m a n, 0 <= n -> zlen (bits_at m a n) = n.
Proof. intros m a n H. unfold bits_at. rewrite zlen_map. unfold zlen. rewrite seq_length. lia. Qed.

Lemma get_bits_at : forall m a n k, 0 <= k < n -> get_at k (bits_at m a n) = bit w m (a + k).
Proof.
  intros m a n k H. unfold get_at, bits_at.
  set (g := fun q => bit w m (a + Z.of_nat q)).
  rewrite (nth_indep _ false (g O)) by (rewrite map_length, seq_length; lia).
  rewrite map_nth, seq_nth by lia. unfold g. f_equal. lia.
Qed.

Lemma shift_rule : forall x i j f l, shift_defined p w i j -> valid_it w f -> valid_it w l ->
  addr w f = base w x + i -> addr w l = base w x + j ->
  ip f <> 0 \/ ip l <> 0 \/ ib l - ib f <> 1 \/ full_blend_defined p w.
Proof.
  intros x i j f l H Vf Vl Af Al. pose proof (width w Vw). apply shift_cond; try assumption.
  unfold shift_defined in *. rewrite Af, Al. rewrite base_mod by lia.
  replace (base w x + j - (base w x + i)) with (j - i) by ring. exact H.
Qed.

Lemma shift_left_call : forall x i j n, alg_pre t p w ls (AShiftLeft x i j n) ->
  wp (alg_call t p w (AShiftLeft x i j n)) (pool vs) (after (AShiftLeft x i j n)).
Proof.
  intros x i j n (R & Hs). cbn [alg_call]. pose proof (range_max _ _ _ R).
  apply wp_pos; [assumption|lia|]. intros f Vf Af. apply wp_pos; [assumption|lia|]. intros l Vl Al.
  pose proof (row_range w vs Vw Vs x i j f l R Vf Vl Af Al) as G.
  destruct (shift_left_none p w (pool vs) f l n Vw G) as [N1 N2].
  destruct (Z.leb_spec n 0) as [C1|C1]; [|destruct (Z.leb_spec (j - i) n) as [C2|C2]].
  - apply wp_bind, (wp_ok _ _ _ _ _ _ (N1 C1)), (wp_see w Vw x j); [assumption..|lia|].
    destruct (state_same w vs Vw Vs) as [S1 S2]. split; [exact S1|]. cbn [alg_spec].
    left. split; [exact C1|]. split; [reflexivity|exact S2].
  - apply wp_bind, (wp_ok _ _ _ _ _ _ (N2 C1 ltac:(lia))), (wp_see w Vw x i); [assumption..|lia|].
    destruct (state_same w vs Vw Vs) as [S1 S2]. split; [exact S1|]. cbn [alg_spec].
    right. left. auto.
  - destruct (shift_left_ok p w (pool vs) f l n Vw wf G ltac:(lia)
      (shift_rule x i j f l (Hs ltac:(lia)) Vf Vl Af Al)) as (r & m & E & Vr & Ar & Wf & D & B1 & B2).
    apply wp_bind, (wp_ok _ _ _ _ _ _ E), (wp_see w Vw x (j - n)); [assumption|lia|lia|].
    assert (R1 : range_in ls x (i + n) j)
      by (destruct R as (? & ? & ?); repeat split; try assumption; lia).
    set (X := slice (i + n) j (row x ls) ++ bits_at m (base w x + (j - n)) n).
    assert (L : zlen X = j - i)
      by (unfold X; rewrite zlen_app, slice_len, zlen_bits_at by (assumption || lia); ring).
    destruct (wrote m x i X (addr w l) (bit w m)) as [W1 W2].
    + rewrite L. replace (i + (j - i)) with j by ring. exact R.
    + rewrite L, Al. ring.
    + rewrite <- Af. apply kept; assumption.
    + intros k Hk. rewrite L in Hk. unfold X. rewrite get_app, slice_len by (assumption || lia).
      destruct (Z.ltb_spec k (j - (i + n))) as [C|C].
      * rewrite B1 by lia. rewrite <- slice_bit by (try exact R1; lia). f_equal. ring.
      * rewrite get_bits_at by lia. f_equal. ring.
    + split; [exact W1|]. cbn [alg_spec]. right. right. split; [lia|]. split; [reflexivity|].
      exists (bits_at m (base w x + (j - n)) n). split; [apply zlen_bits_at; lia|]. exact W2.
Qed.

Lemma shift_right_call : forall x i j n, alg_pre t p w ls (AShiftRight x i j n) ->
  wp (alg_call t p w (AShiftRight x i j n)) (pool vs) (after (AShiftRight x i j n)).
Proof.
  intros x i j n (R & Hs). cbn [alg_call]. pose proof (range_max _ _ _ R).
  apply wp_pos; [assumption|lia|]. intros f Vf Af. apply wp_pos; [assumption|lia|]. intros l Vl Al.
  pose proof (row_range w vs Vw Vs x i j f l R Vf Vl Af Al) as G.
  destruct (shift_right_none p w (pool vs) f l n Vw G) as [N1 N2].
  destruct (Z.leb_spec n 0) as [C1|C1]; [|destruct (Z.leb_spec (j - i) n) as [C2|C2]].
  - apply wp_bind, (wp_ok _ _ _ _ _ _ (N1 C1)), (wp_see w Vw x i); [assumption..|lia|].
    destruct (state_same w vs Vw Vs) as [S1 S2]. split; [exact S1|]. cbn [alg_spec].
    left. split; [exact C1|]. split; [reflexivity|exact S2].
  - apply wp_bind, (wp_ok _ _ _ _ _ _ (N2 C1 ltac:(lia))), (wp_see w Vw x j); [assumption..|lia|].
    destruct (state_same w vs Vw Vs) as [S1 S2]. split; [exact S1|]. cbn [alg_spec].
    right. left. auto.
  - destruct (shift_right_ok p w (pool vs) f l n Vw wf G ltac:(lia)
      (shift_rule x i j f l (Hs ltac:(lia)) Vf Vl Af Al)) as (r & m & E & Vr & Ar & Wf & D & B1 & B2).
    apply wp_bind, (wp_ok _ _ _ _ _ _ E), (wp_see w Vw x (i + n)); [assumption|lia|lia|].
    assert (R1 : range_in ls x i (j - n))
      by (destruct R as (? & ? & ?); repeat split; try assumption; lia).
    set (X := bits_at m (base w x + i) n ++ slice i (j - n) (row x ls)).
    assert (L : zlen X = j - i)
      by (unfold X; rewrite zlen_app, slice_len, zlen_bits_at by (assumption || lia); ring).
    destruct (wrote m x i X (addr w l) (bit w m)) as [W1 W2].
    + rewrite L. replace (i + (j - i)) with j by ring. exact R.
    + rewrite L, Al. ring.
    + rewrite <- Af. apply kept; assumption.
    + intros k Hk. rewrite L in Hk. unfold X. rewrite get_app, zlen_bits_at by lia.
      destruct (Z.ltb_spec k n) as [C|C].
      * rewrite get_bits_at by lia. f_equal. ring.
      * rewrite B1 by lia. rewrite <- slice_bit by (try exact R1; lia). f_equal. ring.
    + split; [exact W1|]. cbn [alg_spec]. right. right. split; [lia|]. split; [reflexivity|].
      exists (bits_at m (base w x + i) n). split; [apply zlen_bits_at; lia|]. exact W2.
Qed.

Lemma no_overlap : forall x i j y d f l o, range_in ls x i j -> range_in ls y d (d + (j - i)) ->
  (x = y -> d <= i \/ j <= d) ->
  addr w f = base w x + i -> addr w l = base w x + j -> addr w o = base w y + d ->
  addr w o <= addr w f \/ addr w l <= addr w o.
Proof.
  intros x i j y d f l o R1 R2 H -> -> ->.
  pose proof (range_max _ _ _ R1). pose proof (range_max _ _ _ R2).
  destruct (Nat.eq_dec x y) as [->|N]; [destruct (H eq_refl); lia|].
  destruct (apart x y j d N ltac:(lia) ltac:(lia)); lia.
Qed.

Lemma copy_call : forall x i j y d, alg_pre t p w ls (ACopy x i j y d) ->
  wp (alg_call t p w (ACopy x i j y d)) (pool vs) (after (ACopy x i j y d)).
Proof.
  intros x i j y d (R & R' & Ho & _). cbn [alg_call].
  pose proof (range_max _ _ _ R). pose proof (range_max _ _ _ R').
  apply wp_pos; [assumption|lia|]. intros f Vf Af. apply wp_pos; [assumption|lia|]. intros l Vl Al.
  apply wp_pos; [assumption|lia|]. intros o Vo Ao.
  assert (Ed : addr w l - addr w f = j - i) by lia.
  destruct (copy_ok p w (pool vs) f l o Vw wf (row_range w vs Vw Vs x i j f l R Vf Vl Af Al))
    as (r & m & E & Vr & Ar & U).
  { rewrite Ed. apply (row_dest w vs Vw Vs y d); assumption. }
  { apply (no_overlap x i j y d); assumption. }
  rewrite Ed in *.
  apply wp_bind, (wp_ok _ _ _ _ _ _ E), (wp_see w Vw y (d + (j - i))); [assumption|lia|lia|].
  pose proof (slice_len _ _ _ R) as L.
  destruct (wrote m y d (slice i j (row x ls)) (addr w o + (j - i))
    (fun k => bit w (pool vs) (addr w f + (k - addr w o)))) as [W1 W2].
  - rewrite L. exact R'.
  - rewrite L, Ao. ring.
  - rewrite <- Ao. exact U.
  - intros k Hk. rewrite L in Hk. rewrite <- slice_bit by (try exact R; lia).
    f_equal. rewrite Af, Ao. ring.
  - unfold after. cbn [alg_spec]. auto.
Qed.

Lemma copy_backward_call : forall x i j y d, alg_pre t p w ls (ACopyBackward x i j y d) ->
  wp (alg_call t p w (ACopyBackward x i j y d)) (pool vs) (after (ACopyBackward x i j y d)).
Proof.
  intros x i j y d (R & R' & Ho & Hs). cbn [alg_call]. pose proof (width w Vw) as Pw.
  pose proof (range_max _ _ _ R). pose proof (range_max _ _ _ R').
  apply wp_pos; [assumption|lia|]. intros f Vf Af. apply wp_pos; [assumption|lia|]. intros l Vl Al.
  apply wp_pos; [assumption|lia|]. intros o Vo Ao.
  assert (Ed : addr w l - addr w f = j - i) by lia.
  pose proof (pos_of w Vw x i f Vf Af) as Pf. pose proof (pos_of w Vw x j l Vl Al) as Pl.
  pose proof (pos_of w Vw y d o Vo Ao) as Po.
  destruct (copy_backward_ok p w (pool vs) f l o Vw wf (row_range w vs Vw Vs x i j f l R Vf Vl Af Al))
    as (r & m & E & Vr & Ar & U).
  { rewrite Ed. split; [assumption|]. rewrite Ao.
    destruct R' as (R1 & R2 & R3). destruct (vec_in w vs Vw Vs y R1) as (v & Ev & V & Rv & Lv).
    fold ls in Rv, Lv. pose proof V as (V1 & V2 & V3).
    replace (base w y + d - (j - i)) with (base w y + (d - (j - i))) by ring.
    apply (pool_mapped w vs y v); try assumption; unfold wsize; lia. }
  { rewrite Af, Al, Ao. destruct (Nat.eq_dec x y) as [->|N]; [destruct (Ho eq_refl); lia|].
    destruct (apart x y j d N ltac:(lia) ltac:(lia)); lia. }
  { rewrite Pf, Pl, Po. destruct Hs as [Hs|[Hs|[Hs|Hs]]]; auto.
    destruct (Z.eq_dec (i mod w) 0) as [C|C]; [|auto]. right. right. left.
    unfold addr in Af, Al. pose proof (Z.mod_pos_bound j w ltac:(lia)).
    rewrite Pf in Af. rewrite Pl in Al. nia. }
  rewrite Ed in *.
  apply wp_bind, (wp_ok _ _ _ _ _ _ E), (wp_see w Vw y (d - (j - i))); [assumption|lia|lia|].
  pose proof (slice_len _ _ _ R) as L.
  destruct (wrote m y (d - (j - i)) (slice i j (row x ls)) (addr w o)
    (fun k => bit w (pool vs) (addr w l - (addr w o - k)))) as [W1 W2].
  - rewrite L. replace (d - (j - i) + (j - i)) with d by ring. exact R'.
  - rewrite L, Ao. ring.
  - replace (base w y + (d - (j - i))) with (addr w o - (j - i)) by (rewrite Ao; ring). exact U.
  - intros k Hk. rewrite L in Hk. rewrite <- slice_bit by (try exact R; lia).
    f_equal. rewrite Al, Ao. ring.
  - unfold after. cbn [alg_spec]. auto.
Qed.

Lemma transform_call : forall op x i j y d, alg_pre t p w ls (ATransform op x i j y d) ->
  wp (alg_call t p w (ATransform op x i j y d)) (pool vs) (after (ATransform op x i j y d)).
Proof.
  intros op x i j y d (R & R' & Ho & g & Hg). cbn [alg_call].
  pose proof (range_max _ _ _ R). pose proof (range_max _ _ _ R').
  apply wp_pos; [assumption|lia|]. intros f Vf Af. apply wp_pos; [assumption|lia|]. intros l Vl Al.
  apply wp_pos; [assumption|lia|]. intros o Vo Ao.
  assert (Ed : addr w l - addr w f = j - i) by lia.
  assert (T : forall g, bitwise w op g -> exists d' m', transform1 p w op f l o (pool vs) = Ok (d', m') /\
    valid_it w d' /\ addr w d' = addr w o + (addr w l - addr w f) /\
    updated w (pool vs) m' (addr w o) (addr w o + (addr w l - addr w f))
      (fun i => g (bit w (pool vs) (addr w f + (i - addr w o))))).
  { intros g' Hg'. apply transform1_ok; try assumption.
    - apply wf.
    - apply (row_range w vs Vw Vs x i j); assumption.
    - rewrite Ed. apply (row_dest w vs Vw Vs y d); assumption.
    - apply (no_overlap x i j y d); assumption.
    - intros q Hq. apply (Hg' q Hq).
    - intros q k Hq Hk. apply (Hg' q Hq). exact Hk. }
  destruct (T g Hg) as (r & m & E & Vr & Ar & _). rewrite Ed in *.
  apply wp_bind, (wp_ok _ _ _ _ _ _ E), (wp_see w Vw y (d + (j - i))); [assumption|lia|lia|].
  assert (W : forall h, bitwise w op h -> Forall (vec_ok w) (unpool 0 vs m) /\
    map (vbits w) (unpool 0 vs m) = put_row y (over d (map h (slice i j (row x ls))) (row y ls)) ls).
  { intros h Hh. destruct (T h Hh) as (r' & m' & E' & _ & _ & U).
    rewrite E in E'. injection E' as <- <-.
    assert (L : zlen (map h (slice i j (row x ls))) = j - i) by (rewrite zlen_map; apply slice_len, R).
    apply (wrote m y d (map h (slice i j (row x ls))) (addr w o + (j - i))
      (fun k => h (bit w (pool vs) (addr w f + (k - addr w o))))).
    - rewrite L. exact R'.
    - rewrite L, Ao. ring.
    - rewrite <- Ao. exact U.
    - intros k Hk. rewrite L in Hk. rewrite get_map by (rewrite slice_len by exact R; lia).
      rewrite <- slice_bit by (try exact R; lia). do 2 f_equal. rewrite Af, Ao. ring. }
  split; [apply (W g Hg)|]. cbn [alg_spec]. split; [reflexivity|]. intros h Hh. apply (W h Hh).
Qed.

Lemma transform2_call : forall op x i j z k y d, alg_pre t p w ls (ATransform2 op x i j z k y d) ->
  wp (alg_call t p w (ATransform2 op x i j z k y d)) (pool vs) (after (ATransform2 op x i j z k y d)).
Proof.
  intros op x i j z k y d (R & R2 & R' & Ho & Ho2 & g & Hg). cbn [alg_call].
  pose proof (range_max _ _ _ R). pose proof (range_max _ _ _ R'). pose proof (range_max _ _ _ R2).
  apply wp_pos; [assumption|lia|]. intros f Vf Af. apply wp_pos; [assumption|lia|]. intros l Vl Al.
  apply wp_pos; [assumption|lia|]. intros f2 Vf2 Af2. apply wp_pos; [assumption|lia|]. intros o Vo Ao.
  assert (Ed : addr w l - addr w f = j - i) by lia.
  assert (T : forall g, bitwise2 w op g -> exists d' m',
    transform2 p w op f l f2 o (pool vs) = Ok (d', m') /\
    valid_it w d' /\ addr w d' = addr w o + (addr w l - addr w f) /\
    updated w (pool vs) m' (addr w o) (addr w o + (addr w l - addr w f))
      (fun i => g (bit w (pool vs) (addr w f + (i - addr w o)))
                  (bit w (pool vs) (addr w f2 + (i - addr w o))))).
  { intros g' Hg'. apply transform2_ok; try assumption.
    - apply wf.
    - apply (row_range w vs Vw Vs x i j); assumption.
    - rewrite Ed. apply (row_dest w vs Vw Vs z k); assumption.
    - rewrite Ed. apply (row_dest w vs Vw Vs y d); assumption.
    - apply (no_overlap x i j y d); assumption.
    - rewrite Ed, Af2, Ao. destruct (Nat.eq_dec z y) as [->|N]; [destruct (Ho2 eq_refl); lia|].
      destruct (apart z y (k + (j - i)) d N ltac:(lia) ltac:(lia)); lia.
    - intros q q' Hq Hq'. apply (Hg' q q' Hq Hq').
    - intros q q' b Hq Hq' Hb. apply (Hg' q q' Hq Hq'). exact Hb. }
  destruct (T g Hg) as (r & m & E & Vr & Ar & _). rewrite Ed in *.
  apply wp_bind, (wp_ok _ _ _ _ _ _ E), (wp_see w Vw y (d + (j - i))); [assumption|lia|lia|].
  pose proof (slice_len _ _ _ R) as L1. pose proof (slice_len _ _ _ R2) as L2.
  replace (k + (j - i) - k) with (j - i) in L2 by ring.
  assert (W : forall h, bitwise2 w op h -> Forall (vec_ok w) (unpool 0 vs m) /\
    map (vbits w) (unpool 0 vs m) =
      put_row y (over d (zip h (slice i j (row x ls)) (slice k (k + (j - i)) (row z ls))) (row y ls)) ls).
  { intros h Hh. destruct (T h Hh) as (r' & m' & E' & _ & _ & U).
    rewrite E in E'. injection E' as <- <-.
    assert (L : zlen (zip h (slice i j (row x ls)) (slice k (k + (j - i)) (row z ls))) = j - i)
      by (rewrite zlen_zip; lia).
    apply (wrote m y d (zip h (slice i j (row x ls)) (slice k (k + (j - i)) (row z ls)))
      (addr w o + (j - i)) (fun q => h (bit w (pool vs) (addr w f + (q - addr w o)))
                                       (bit w (pool vs) (addr w f2 + (q - addr w o))))).
    - rewrite L. exact R'.
    - rewrite L, Ao. ring.
    - rewrite <- Ao. exact U.
    - intros q Hq. rewrite L in Hq. rewrite get_zip by lia.
      rewrite <- (slice_bit x i j) by (try exact R; lia).
      rewrite <- (slice_bit z k (k + (j - i))) by (try exact R2; lia).
      f_equal; f_equal; rewrite ?Af, ?Af2, Ao; ring. }
  split; [apply (W g Hg)|]. cbn [alg_spec]. split; [reflexivity|]. intros h Hh. apply (W h Hh).
Qed.

Lemma unchanged : Forall (vec_ok w) (unpool 0 vs (pool vs)) /\
  map (vbits w) (unpool 0 vs (pool vs)) = ls.
Proof. apply state_same; assumption. Qed.

Lemma count_call : forall x i j b, alg_pre t p w ls (ACount x i j b) ->
  wp (alg_call t p w (ACount x i j b)) (pool vs) (after (ACount x i j b)).
Proof.
  intros x i j b (R & He & Ht). cbn [alg_call]. pose proof (range_max _ _ _ R).
  apply wp_pos; [assumption|lia|]. intros f Vf Af. apply wp_pos; [assumption|lia|]. intros l Vl Al.
  pose proof (row_range w vs Vw Vs x i j f l R Vf Vl Af Al) as G.
  assert (E : count t p w f l b (pool vs) = Ok (occurrences b (slice i j (row x ls)), pool vs)).
  { rewrite (count_ok t p w (pool vs) f l b Vw wf G Ht).
    - do 2 f_equal. replace (addr w l - addr w f) with (zlen (slice i j (row x ls)))
        by (rewrite slice_len by exact R; lia).
      unfold zlen at 1. rewrite Nat2Z.id. apply count_occurrences.
      intros k Hk. rewrite slice_len in Hk by exact R. f_equal.
      rewrite <- slice_bit by (try exact R; lia). f_equal. rewrite Af. ring.
    - intros Ee. assert (i = j) by (rewrite Ee in Af; lia). subst j.
      destruct He as [He|He]; [lia|]. apply (row_word w vs Vw Vs x i f); try assumption; [apply R|].
      fold ls. destruct R as (R1 & R2 & R3). lia. }
  apply wp_bind, (wp_ok _ _ _ _ _ _ E), wp_ret. unfold after. cbn [alg_spec].
  destruct unchanged as [U1 U2]. auto.
Qed.

Lemma find_call : forall x i j b, alg_pre t p w ls (AFind x i j b) ->
  wp (alg_call t p w (AFind x i j b)) (pool vs) (after (AFind x i j b)).
Proof.
  intros x i j b R. cbn [alg_call alg_pre] in *. pose proof (range_max _ _ _ R).
  apply wp_pos; [assumption|lia|]. intros f Vf Af. apply wp_pos; [assumption|lia|]. intros l Vl Al.
  pose proof (row_range w vs Vw Vs x i j f l R Vf Vl Af Al) as G.
  pose proof (pos_of w Vw x i f Vf Af) as Pf.
  destruct (find_ok p w (pool vs) f l b Vw wf G) as (r & E & Vr & Hr & H1 & H2).
  { intros Hp. apply (row_word w vs Vw Vs x i f); try assumption; [apply R| |congruence].
    fold ls. destruct R as (R1 & R2 & R3). lia. }
  assert (I : addr w r - addr w f = index_of b (slice i j (row x ls))).
  { apply index_unique.
    - rewrite slice_len by exact R. lia.
    - intros k Hk. rewrite <- slice_bit by (try exact R; lia). apply H1. lia.
    - intros Hk. rewrite slice_len in Hk by exact R. rewrite <- slice_bit by (try exact R; lia).
      rewrite <- H2 by lia. f_equal. lia. }
  apply wp_bind, (wp_ok _ _ _ _ _ _ E).
  apply (wp_see w Vw x (i + index_of b (slice i j (row x ls)))); [assumption|lia|lia|].
  unfold after. cbn [alg_spec]. destruct unchanged as [U1 U2]. auto.
Qed.

Lemma equal_call : forall x i j y d, alg_pre t p w ls (AEqual x i j y d) ->
  wp (alg_call t p w (AEqual x i j y d)) (pool vs) (after (AEqual x i j y d)).
Proof.
  intros x i j y d (R & R'). cbn [alg_call].
  pose proof (range_max _ _ _ R). pose proof (range_max _ _ _ R').
  apply wp_pos; [assumption|lia|]. intros f Vf Af. apply wp_pos; [assumption|lia|]. intros l Vl Al.
  apply wp_pos; [assumption|lia|]. intros o Vo Ao.
  assert (Ed : addr w l - addr w f = j - i) by lia.
  destruct (equal_ok p w (pool vs) f l o Vw wf (row_range w vs Vw Vs x i j f l R Vf Vl Af Al))
    as (r & E & Hr).
  { rewrite Ed. apply (row_dest w vs Vw Vs y d); assumption. }
  apply wp_bind, (wp_ok _ _ _ _ _ _ E), wp_ret. unfold after. cbn [alg_spec].
  destruct unchanged as [U1 U2]. split; [exact U1|]. split; [|exact U2].
  exists r. split; [reflexivity|]. rewrite Hr.
  pose proof (slice_len _ _ _ R) as L1. pose proof (slice_len _ _ _ R') as L2.
  rewrite (slices_eq _ _ (j - i)) by lia. rewrite Ed.
  split; intros H' k Hk; specialize (H' k Hk).
  - rewrite <- !slice_bit by (try exact R; try exact R'; lia).
    rewrite Af, Ao, <- !Z.add_assoc in H'. exact H'.
  - rewrite <- !slice_bit in H' by (try exact R; try exact R'; lia).
    rewrite Af, Ao, <- !Z.add_assoc. exact H'.
Qed.

Lemma swap_call : forall x i j y d, alg_pre t p w ls (ASwapRanges x i j y d) ->
  wp (alg_call t p w (ASwapRanges x i j y d)) (pool vs) (after (ASwapRanges x i j y d)).
Proof.
  intros x i j y d (R & R' & Ho). cbn [alg_call]. pose proof (width w Vw) as Pw.
  pose proof (room w ltac:(lia)) as Rm.
  pose proof (range_max _ _ _ R). pose proof (range_max _ _ _ R').
  apply wp_pos; [assumption|lia|]. intros f Vf Af. apply wp_pos; [assumption|lia|]. intros l Vl Al.
  apply wp_pos; [assumption|lia|]. intros o Vo Ao.
  assert (Ed : addr w l - addr w f = j - i) by lia.
  pose proof (swap_ranges_ok p w (pool vs) f l o) as S. cbv zeta in S. rewrite Ed in S.
  destruct S as (r & m & E & Vr & Ar & Wf & D & B); try assumption.
  { apply wf. }
  { apply (row_range w vs Vw Vs x i j); assumption. }
  { apply (row_dest w vs Vw Vs y d); assumption. }
  { rewrite Af, Ao. destruct (Nat.eq_dec x y) as [->|N]; [destruct (Ho eq_refl); lia|].
    destruct (apart x y j (d + (j - i)) N ltac:(lia) ltac:(lia)); lia. }
  apply wp_bind, (wp_ok _ _ _ _ _ _ E), (wp_see w Vw y (d + (j - i))); [assumption|lia|lia|].
  unfold after. cbn [alg_spec].
  pose proof (slice_len _ _ _ R) as L1. pose proof (slice_len _ _ _ R') as L2.
  replace (d + (j - i) - d) with (j - i) in L2 by ring.
  pose proof R as (Hx & _ & R3). pose proof R' as (Hy & _ & R3').
  set (A := slice i j (row x ls)) in *. set (C := slice d (d + (j - i)) (row y ls)) in *.
  set (ls1 := put_row x (over i C (row x ls)) ls).
  assert (Len1 : length ls1 = length ls) by (apply put_row_length; exact Hx).
  assert (Row1 : forall q, row q ls1 = if (q =? x)%nat then over i C (row x ls) else row q ls)
    by (intros q; apply row_put; exact Hx).
  assert (Ly : zlen (row y ls1) = zlen (row y ls)).
  { rewrite Row1. destruct (Nat.eqb_spec y x) as [->|N]; [apply zlen_over; lia|reflexivity]. }
  assert (S : Forall (vec_ok w) (unpool 0 vs m) /\
    map (vbits w) (unpool 0 vs m) = put_row y (over d A (row y ls1)) ls1).
  { apply state_after; try assumption; try lia.
    - rewrite put_row_length by lia. rewrite Len1. unfold ls. apply map_length.
    - intros q v Ev. assert (Hq : (q < length ls)%nat).
      { unfold ls. rewrite map_length. apply nth_error_Some. congruence. }
      destruct (vec_in w vs Vw Vs q Hq) as (v' & Ev' & V & Rv & Lv). fold ls in Rv, Lv.
      rewrite Ev in Ev'. injection Ev' as <-.
      pose proof (row_max w vs Vw Vs q Hq) as Mq. fold ls in Mq. unfold max_bits in Mq.
      rewrite row_put by lia. split.
      + destruct (Nat.eqb_spec q y) as [->|N]; [rewrite zlen_over by lia; lia|].
        rewrite Row1. destruct (Nat.eqb_spec q x) as [->|N']; [rewrite zlen_over by lia; lia|lia].
      + intros k Hk. rewrite B, Af, Ao.
        replace (base w x + i + (j - i)) with (base w x + (i + (j - i))) by ring.
        replace (base w y + d + (j - i)) with (base w y + (d + (j - i))) by ring.
        rewrite !inr_base by lia.
        assert (K : bit w (pool vs) (base w q + k) = get_at k (row q ls))
          by (apply row_bit; [assumption..|fold ls; lia]).
        destruct (Nat.eqb_spec q y) as [Ey|Ny].
        * subst q. cbn [andb]. rewrite get_over by lia. rewrite L1.
          destruct (inr d (d + (j - i)) k) eqn:I2.
          -- replace ((y =? x)%nat && inr i (i + (j - i)) k) with false.
             ++ unfold inr in I2. unfold A. rewrite <- slice_bit by (try exact R; lia). f_equal. ring.
             ++ destruct (Nat.eqb_spec y x) as [->|N]; [|reflexivity]. cbn [andb].
                specialize (Ho eq_refl). unfold inr in *. lia.
          -- rewrite Row1. destruct (Nat.eqb_spec y x) as [->|N]; cbn [andb]; [|exact K].
             rewrite get_over by lia. rewrite L2.
             destruct (inr i (i + (j - i)) k) eqn:I1; [|exact K].
             unfold inr in I1. unfold C. rewrite <- slice_bit by (try exact R'; lia). f_equal. ring.
        * cbn [andb]. rewrite Row1. destruct (Nat.eqb_spec q x) as [Ex|Nx]; cbn [andb]; [|exact K].
          subst q. rewrite get_over by lia. rewrite L2.
          destruct (inr i (i + (j - i)) k) eqn:I1; [|exact K].
          unfold inr in I1. unfold C. rewrite <- slice_bit by (try exact R'; lia). f_equal. ring. }
  destruct S as [S1 S2]. auto.
Qed.

Lemma alg_step_ok : forall a, alg_pre t p w ls a ->
  exists o vs', alg_step t p w vs a = Ok (o, vs') /\ Forall (vec_ok w) vs' /\
    alg_spec w ls a o (map (vbits w) vs').
Proof.
  intros a Pre. assert (W : wp (alg_call t p w a) (pool vs) (after a)).
  { destruct a; [apply fill_call|apply reverse_call|apply rotate_call|apply shift_left_call
      |apply shift_right_call|apply copy_call|apply copy_call|apply copy_backward_call|apply swap_call
      |apply transform_call|apply transform2_call|apply count_call|apply find_call|apply equal_call];
      exact Pre. }
  apply wp_exists in W. destruct W as (o & m & E & W1 & W2).
  exists o, (unpool 0 vs m). unfold alg_step. rewrite E. auto.
Qed.
End Calls.
