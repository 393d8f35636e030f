(** Bounds on the accesses of rotate. *)
From Coq Require Import ZArith Bool List Lia.
From Verif Require Import Base WordOps IterModel PopcntModel Spec ProofBase ProofIter
  AlgModel ShiftModel ReverseModel ThreadModel TraceModel SpecCost ProofCost ProofCost2
  ProofCost3.
Import ListNotations.
Open Scope Z_scope.

(** The words of a range against its length. *)
Lemma words_of_len : forall w A n, 0 < w -> 0 <= n -> words_of w A (A + n) <= n / w + 2.
Proof.
  intros w A n Hw Hn. unfold words_of. assert (0 <= n / w) by (apply Z.div_pos; lia).
  destruct (Z.ltb_spec A (A + n)); [|lia].
  pose proof (Z.div_mod A w ltac:(lia)) as E1. pose proof (Z.mod_pos_bound A w Hw).
  pose proof (Z.div_mod n w ltac:(lia)) as E2. pose proof (Z.mod_pos_bound n w Hw).
  assert ((A + n - 1) / w < A / w + n / w + 2); [|lia].
  apply Z.div_lt_upper_bound; lia.
Qed.

Lemma words_of_times : forall w A n, 0 < w -> 0 <= n -> n <= w * words_of w A (A + n).
Proof.
  intros w A n Hw Hn. unfold words_of. destruct (Z.ltb_spec A (A + n)); [|lia].
  pose proof (Z.div_mod A w ltac:(lia)) as E1. pose proof (Z.mod_pos_bound A w Hw).
  pose proof (Z.div_mod (A + n - 1) w ltac:(lia)) as E2. pose proof (Z.mod_pos_bound (A + n - 1) w Hw).
  lia.
Qed.

(** A swap of [k] bits. *)
Lemma c_swap_len : forall p w a b d k, valid_w w -> valid_it w a -> valid_it w b ->
  addr w b = addr w a + k -> 0 <= k <= 2 ^ 62 ->
  within (swap_ranges p w a b d) (12 * (k / w + 2)) (6 * (k / w + 2)) any.
Proof.
  intros p w a b d k Vw Va Vb E H. pose proof (valid_pos w Vw).
  pose proof (words_of_len w (addr w a) k ltac:(lia) ltac:(lia)) as L.
  eapply within_mono; [apply c_swap_ranges; try assumption| | |auto].
  - unfold max_bits. lia.
  - rewrite E. lia.
  - rewrite E. lia.
Qed.

Lemma c_rot_up : forall pl w k, valid_w w -> 0 <= k <= 2 ^ 62 -> forall n p q,
  valid_it w p -> valid_it w q -> addr w q = addr w p + k ->
  within (rot_up pl w n p q k) (Z.of_nat n * (12 * (k / w + 2))) (Z.of_nat n * (6 * (k / w + 2)))
    (fun '(p', q') => valid_it w p').
Proof.
  intros pl w k Vw Hk. pose proof (valid_pos w Vw).
  assert (0 <= k / w) by (apply Z.div_pos; lia).
  induction n as [|n IH]; intros p q Vp Vq E; cbn [rot_up]; [w1; auto|].
  eapply within_bind; [apply (c_swap_len _ _ _ _ _ k); assumption|nia|nia|]. intros _ _.
  unfold iadd_assign.
  edestruct (iadd_exact w p k Vw Vp) as [p' [Ep [Vp' Ap]]]; [unfold valid_it in Vp; lia|].
  edestruct (iadd_exact w q k Vw Vq) as [q' [Eq [Vq' Aq]]]; [unfold valid_it in Vq; lia|].
  rewrite Ep. apply wb_ok. rewrite Eq. apply wb_ok.
  eapply within_mono; [apply IH; assumption || lia|lia|lia|auto].
Qed.

Lemma c_rot_down : forall pl w k, valid_w w -> 0 <= k <= 2 ^ 62 -> forall n p q,
  valid_it w p -> valid_it w q -> addr w q = addr w p + k ->
  within (rot_down pl w n p q k) (Z.of_nat n * (12 * (k / w + 2))) (Z.of_nat n * (6 * (k / w + 2)))
    (fun '(p', q') => valid_it w p').
Proof.
  intros pl w k Vw Hk. pose proof (valid_pos w Vw).
  assert (0 <= k / w) by (apply Z.div_pos; lia).
  induction n as [|n IH]; intros p q Vp Vq E; cbn [rot_down]; [w1; auto|].
  unfold isub_assign.
  edestruct (isub_exact w p k Vw Vp) as [p' [Ep [Vp' Ap]]]; [unfold valid_it in Vp; lia|].
  edestruct (isub_exact w q k Vw Vq) as [q' [Eq [Vq' Aq]]]; [unfold valid_it in Vq; lia|].
  rewrite Ep. apply wb_ok. rewrite Eq. apply wb_ok.
  eapply within_bind; [apply (c_swap_len _ _ _ _ _ k); assumption || lia|nia|nia|]. intros _ _.
  eapply within_mono; [apply IH; assumption || lia|lia|lia|auto].
Qed.

(** One round: [s] swaps of [k] bits and one of the [n - k - s * k] bits left. *)
Lemma round_cost : forall w n k s c, 0 < w -> w < k -> k <= n - k -> 0 <= s -> s * k <= n - k ->
  0 <= c ->
  w * (s * (c * (k / w + 2)) + c * ((n - k - s * k) / w + 2)) <= 5 * c * (n - k).
Proof.
  intros w n k s c Hw H1 H2 H3 H4 Hc.
  pose proof (Z.mul_div_le k w Hw) as D1. pose proof (Z.mul_div_le (n - k - s * k) w Hw) as D2.
  assert (A1 : w * (s * (k / w + 2)) <= s * k + 2 * w * s) by (clear - D1 H3; nia).
  assert (A2 : w * ((n - k - s * k) / w + 2) <= n - k - s * k + 2 * w) by lia.
  assert (A3 : w * (s + 1) <= 2 * (n - k)) by (clear - H1 H2 H3 H4 Hw; nia).
  assert (A4 : w * (s * (k / w + 2) + ((n - k - s * k) / w + 2)) <= 5 * (n - k)) by lia.
  clear - A4 Hc. nia.
Qed.

(** The number of swaps of a round and what is left over. *)
Lemma round_swaps : forall n k, 0 < k -> k <= n - k -> n <= 2 ^ 62 ->
  let s := wrap 32 (Z.quot (n - k) k) in
  0 <= s /\ s * k <= n - k /\ wrap 64 (n - k - s * k) = n - k - s * k.
Proof.
  intros n k H1 H2 H3. cbv zeta. set (q := Z.quot (n - k) k).
  assert (Q : 0 <= q /\ q * k <= n - k).
  { unfold q. rewrite Z.quot_div_nonneg by lia. split; [apply Z.div_pos; lia|].
    pose proof (Z.mul_div_le (n - k) k H1). lia. }
  assert (S : 0 <= wrap 32 q <= q).
  { unfold wrap. split; [apply Z.mod_pos_bound; lia|apply Z.mod_le; lia]. }
  assert (S2 : wrap 32 q * k <= n - k) by (clear - Q S H1; nia).
  split; [lia|]. split; [exact S2|]. apply wrap_small.
  assert (0 <= wrap 32 q * k) by (clear - S H1; nia). lia.
Qed.

(** What is left of the budget after a round that costs [u + v]. *)
Lemma budget : forall w a n k u v x d, 0 < w -> 0 <= a -> 0 <= k -> 0 <= d ->
  w * (u + v) <= a * (n - k) -> a * n + d * w <= w * x ->
  u + v <= x /\ a * k + d * w <= w * (x - u - v).
Proof.
  intros w a n k u v x d Hw Ha Hk Hd H1 H2.
  assert (E : a * k + d * w <= w * (x - u - v)) by lia.
  split; [|exact E]. clear - E Hw Ha Hk Hd.
  assert (0 <= a * k) by (apply Z.mul_nonneg_nonneg; assumption).
  assert (0 <= d * w) by (apply Z.mul_nonneg_nonneg; lia).
  nia.
Qed.

Lemma c_rot_loop : forall pl w, valid_w w -> forall fuel p n k r, valid_it w p ->
  0 < k < n -> n <= 2 ^ 62 -> forall x y, 60 * n + 20 * w <= w * x -> 30 * n + 10 * w <= w * y ->
  within (rot_loop pl w fuel p n k r) x y any.
Proof.
  intros pl w Vw. pose proof (valid_pos w Vw) as W.
  induction fuel as [|fuel IH]; intros p n k r Vp Hk Hn x y Hx Hy; cbn [rot_loop];
    (assert (X0 : 20 <= x) by (clear - Hx W Hk; nia));
    (assert (Y0 : 10 <= y) by (clear - Hy W Hk; nia)); [ws|].
  assert (Vp0 := Vp). unfold valid_it in Vp0.
  assert (SH : 2 * (n / w + 2) + 16 <= x /\ n / w + 2 + 7 <= y).
  { pose proof (Z.mul_div_le n w ltac:(lia)). clear - W Hk Hx Hy H. nia. }
  assert (N0 : 0 <= n / w) by (apply Z.div_pos; lia).
  pose proof (words_of_len w (addr w p) n ltac:(lia) ltac:(lia)) as LT.
  pose proof (words_of_nonneg w (addr w p) (addr w p + n) ltac:(lia)) as LN.
  destruct (Z.ltb_spec k (n - k)) as [C1|C1].
  - destruct (Z.leb_spec k w) as [C2|C2].
    + wb c_get_word. intros tw _.
      destruct (iadd_exact w p n Vw Vp) as [e [Ee [Ve Ae]]]; [lia|]. rewrite Ee. w1.
      eapply within_bind; [apply c_shift_left; try assumption| | |].
      * lia.
      * rewrite Ae. lia.
      * rewrite Ae. lia.
      * rewrite Ae. intros ti _. wb c_write_word. intros _ _. ws.
    + destruct (iadd_exact w p k Vw Vp) as [q [Eq [Vq Aq]]]; [lia|]. rewrite Eq. w1. cbv zeta.
      destruct (round_swaps n k ltac:(lia) ltac:(lia) Hn) as [S1 [S2 S3]].
      set (s := wrap 32 (Z.quot (n - k) k)) in *. rewrite S3.
      pose proof (round_cost w n k s 12 ltac:(lia) C2 ltac:(lia) S1 S2 ltac:(lia)) as RC1.
      pose proof (round_cost w n k s 6 ltac:(lia) C2 ltac:(lia) S1 S2 ltac:(lia)) as RC2.
      assert (K0 : 0 <= k / w) by (apply Z.div_pos; lia).
      assert (R0 : 0 <= (n - k - s * k) / w) by (apply Z.div_pos; lia).
      set (R := n - k - s * k) in *.
      assert (HR : 0 <= R <= n) by (unfold R; clear - S1 S2 Hk; nia).
      destruct (budget w 60 n k (s * (12 * (k / w + 2))) (12 * (R / w + 2)) x 20
        ltac:(lia) ltac:(lia) ltac:(lia) ltac:(lia) RC1 Hx) as [X1 X2].
      destruct (budget w 30 n k (s * (6 * (k / w + 2))) (6 * (R / w + 2)) y 10
        ltac:(lia) ltac:(lia) ltac:(lia) ltac:(lia) RC2 Hy) as [Y1 Y2].
      assert (CC : 0 <= s * (12 * (k / w + 2)) /\ 0 <= s * (6 * (k / w + 2)))
        by (clear - S1 K0; nia).
      remember (s * (12 * (k / w + 2))) as c1 eqn:Ec1. remember (s * (6 * (k / w + 2))) as c2 eqn:Ec2.
      assert (RN : 0 <= R / w + 2) by (clear - R0; lia).
      remember (R / w + 2) as Rw eqn:ERw.
      pose proof (fun _ : unit => X2) as X3. pose proof (fun _ : unit => Y2) as Y3. clear X2 Y2.
      clear RC1 RC2 SH LT LN N0 R0 Hx Hy S2 S3.
      eapply within_bind; [apply c_rot_up; assumption || lia| | |];
        [rewrite Z2Nat.id, <- Ec1 by lia; lia|rewrite Z2Nat.id, <- Ec2 by lia; lia|].
      rewrite Z2Nat.id, <- Ec1, <- Ec2 by lia. clear Ec1 Ec2 CC.
      assert (CN : 0 <= x - c1 - 12 * Rw /\ 0 <= y - c2 - 6 * Rw) by (clear - X1 Y1; lia).
      intros [p' q'] Vp'. assert (Vp1 := Vp'). unfold valid_it in Vp1.
      destruct (iadd_exact w p' R Vw Vp') as [e [Ee [Ve Ae]]]; [lia|]. rewrite Ee. w1.
      eapply within_bind; [apply (c_swap_len _ _ _ _ _ R); assumption || lia|rewrite <- ERw; lia|rewrite <- ERw; lia|].
      intros _ _. rewrite <- ERw.
      assert (Ee' : iadd_assign w p' R = Ok e) by exact Ee. rewrite Ee'. w1. w1.
      rewrite Z.rem_mod_nonneg by lia.
      pose proof (Z.mod_pos_bound n k ltac:(lia)).
      destruct (Z.eqb_spec (n mod k) 0) as [C3|C3]; [ws|].
      apply IH; [assumption|lia|lia| |].
      * exact (X3 tt).
      * exact (Y3 tt).
  - set (k2 := n - k) in *. assert (K2 : 0 < k2 < n /\ k2 <= n - k2) by (unfold k2; lia).
    clearbody k2.
    destruct (Z.leb_spec k2 w) as [C2|C2].
    + destruct (iadd_exact w p n Vw Vp) as [e [Ee [Ve Ae]]]; [lia|]. rewrite Ee. do 2 w1.
      wb c_get_word. intros tw _. w1.
      eapply within_bind; [apply c_shift_right; try assumption| | |].
      * lia.
      * rewrite Ae. lia.
      * rewrite Ae. lia.
      * rewrite Ae. intros ti _. wb c_write_word. intros _ _. ws.
    + destruct (iadd_exact w p n Vw Vp) as [q [Eq [Vq Aq]]]; [lia|]. rewrite Eq. w1.
      assert (Vq0 := Vq). unfold valid_it in Vq0.
      destruct (isub_exact w q k2 Vw Vq) as [p1 [Ep1 [Vp1 Ap1]]]; [lia|]. rewrite Ep1. w1. cbv zeta.
      destruct (round_swaps n k2 ltac:(lia) ltac:(lia) Hn) as [S1 [S2 S3]].
      set (s := wrap 32 (Z.quot (n - k2) k2)) in *. rewrite S3.
      pose proof (round_cost w n k2 s 12 ltac:(lia) C2 ltac:(lia) S1 S2 ltac:(lia)) as RC1.
      pose proof (round_cost w n k2 s 6 ltac:(lia) C2 ltac:(lia) S1 S2 ltac:(lia)) as RC2.
      assert (K0 : 0 <= k2 / w) by (apply Z.div_pos; lia).
      assert (R0 : 0 <= (n - k2 - s * k2) / w) by (apply Z.div_pos; lia).
      set (R := n - k2 - s * k2) in *.
      assert (HR : 0 <= R <= n) by (unfold R; clear - S1 S2 K2; nia).
      destruct (budget w 60 n k2 (s * (12 * (k2 / w + 2))) (12 * (R / w + 2)) x 20
        ltac:(lia) ltac:(lia) ltac:(lia) ltac:(lia) RC1 Hx) as [X1 X2].
      destruct (budget w 30 n k2 (s * (6 * (k2 / w + 2))) (6 * (R / w + 2)) y 10
        ltac:(lia) ltac:(lia) ltac:(lia) ltac:(lia) RC2 Hy) as [Y1 Y2].
      assert (CC : 0 <= s * (12 * (k2 / w + 2)) /\ 0 <= s * (6 * (k2 / w + 2)))
        by (clear - S1 K0; nia).
      remember (s * (12 * (k2 / w + 2))) as c1 eqn:Ec1. remember (s * (6 * (k2 / w + 2))) as c2 eqn:Ec2.
      assert (RN : 0 <= R / w + 2) by (clear - R0; lia).
      remember (R / w + 2) as Rw eqn:ERw.
      pose proof (fun _ : unit => X2) as X3. pose proof (fun _ : unit => Y2) as Y3. clear X2 Y2.
      clear RC1 RC2 SH LT LN N0 R0 Hx Hy S2 S3.
      eapply within_bind; [apply c_rot_down; assumption || lia| | |];
        [rewrite Z2Nat.id, <- Ec1 by lia; lia|rewrite Z2Nat.id, <- Ec2 by lia; lia|].
      rewrite Z2Nat.id, <- Ec1, <- Ec2 by lia. clear Ec1 Ec2 CC.
      assert (CN : 0 <= x - c1 - 12 * Rw /\ 0 <= y - c2 - 6 * Rw) by (clear - X1 Y1; lia).
      intros [p' q'] Vp'. assert (Vp2 := Vp'). unfold valid_it in Vp2.
      destruct (isub_exact w p' R Vw Vp') as [p3 [Ep3 [Vp3 Ap3]]]; [lia|].
      assert (Ep4 : isub_assign w p' R = Ok p3) by exact Ep3. rewrite Ep4. w1. w1.
      assert (Vp4 := Vp3). unfold valid_it in Vp4.
      destruct (iadd_exact w p3 R Vw Vp3) as [e [Ee [Ve Ae]]]; [lia|]. rewrite Ee. w1.
      eapply within_bind; [apply (c_swap_len _ _ _ _ _ R); assumption || lia|rewrite <- ERw; lia|rewrite <- ERw; lia|].
      intros _ _. rewrite <- ERw.
      rewrite Z.rem_mod_nonneg by lia.
      pose proof (Z.mod_pos_bound n k2 ltac:(lia)).
      destruct (Z.eqb_spec (n mod k2) 0) as [C3|C3]; [ws|].
      apply IH; [assumption|lia|lia| |].
      * exact (X3 tt).
      * exact (Y3 tt).
Qed.

Lemma c_rotate : forall p w first n_first last, valid_w w -> valid_it w first ->
  valid_it w n_first -> valid_it w last -> addr w first <= addr w n_first <= addr w last ->
  addr w last - addr w first <= max_bits ->
  let T := words_of w (addr w first) (addr w last) in
  within (rotate p w first n_first last) (60 * T + 20) (30 * T + 10) any.
Proof.
  intros p w first nf last Vw V1 Vn V2 H Hmax T. pose proof (valid_pos w Vw) as W.
  pose proof (words_of_nonneg w (addr w first) (addr w last) ltac:(lia) : 0 <= T) as T0.
  unfold rotate, max_bits in *. cbv zeta.
  rewrite !assert_viable_eq by (assumption || lia). do 3 w1.
  rewrite (ieq_addr w) by (assumption || lia).
  destruct (Z.eqb_spec (addr w first) (addr w nf)) as [C0|C0]; [ws|].
  destruct (one_word first last).
  { unfold rotate_one_word. ws. }
  rewrite !is_within_eq by (assumption || lia). w1.
  destruct (Z.leb_spec (addr w nf - addr w first) w) as [C1|C1].
  - w1. wb c_get_word. intros x _.
    eapply within_bind; [apply c_shift_left; assumption || lia| | |].
    + fold T. lia.
    + fold T. lia.
    + fold T. intros nl _. wb c_write_word. intros _ _. ws.
  - w1. destruct (Z.leb_spec (addr w last - addr w nf) w) as [C2|C2].
    + w1. wb c_get_word. intros x _.
      eapply within_bind; [apply c_shift_right; assumption || lia| | |].
      * fold T. lia.
      * fold T. lia.
      * fold T. intros nl _. wb c_write_word. intros _ _. ws.
    + unfold rotate_via_raw. rewrite !idiff_eq by (assumption || lia). do 2 w1.
      pose proof (words_of_times w (addr w first) (addr w last - addr w first) ltac:(lia) ltac:(lia)) as TT.
      replace (addr w first + (addr w last - addr w first)) with (addr w last) in TT by lia. fold T in TT.
      destruct (Z.eqb_spec (addr w nf - addr w first) (addr w last - addr w first - (addr w nf - addr w first))) as [C3|C3].
      * eapply within_bind with (r1 := 60 * T + 20) (n1 := 30 * T + 10); [|lia|lia|intros _ _; ws].
        eapply within_mono; [apply (c_swap_len _ _ _ _ _ (addr w nf - addr w first)); assumption || lia| | |].
        -- pose proof (Z.mul_div_le (addr w nf - addr w first) w ltac:(lia)). clear - H0 TT C3 W C1. nia.
        -- pose proof (Z.mul_div_le (addr w nf - addr w first) w ltac:(lia)). clear - H0 TT C3 W C1. nia.
        -- intros a Ha. exact Ha.
      * do 2 w1. apply c_rot_loop; try assumption; try lia.
Qed.
