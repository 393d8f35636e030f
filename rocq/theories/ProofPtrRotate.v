(** Proofs about reverse and rotate over checked word iterators. *)
From Coq Require Import ZArith Bool List Lia.
From Verif Require Import Base WordOps IterModel AlgModel ShiftModel SwapModel ReverseModel RotateModel Spec
  PtrModel SpecPtr ProofBase ProofIter ProofWord ProofPtr ProofPtrFront ProofPtrBack ProofPtrSwap ProofPtrShift.
Import ListNotations.
Open Scope Z_scope.

Section Rotate.
Variable p : policy.
Variable w : Z.
Hypothesis Vw : valid_w w.

Lemma reverse_both : forall A f l m, valid_it w f -> valid_it w l ->
  addr w f <= addr w l -> addr w l - addr w f + 2 * w <= max_bits -> inside A w (addr w f) (addr w l) ->
  (~ reverses_from_front w A f l -> reverse_c A p w f l m = reverse p w f l m) /\
  (reverses_from_front w A f l -> breaks (reverse_c A p w f l) (reverse p w f l) m).
Proof.
  intros A f l m Vf Vl Hd Hb [I1 I2]. pose proof (valid_pos w Vw) as Pw. unfold max_bits in Hb.
  assert (Vf' : 0 <= ip f < w) by exact Vf. assert (Vl' : 0 <= ip l < w) by exact Vl.
  assert (Al : addr w l = ib l * w + ip l) by reflexivity. assert (Af : addr w f = ib f * w + ip f) by reflexivity.
  assert (B1 : alo A <= ib f) by (rewrite Af in I1; clear - I1 Vf' Pw; nia).
  set (e := ib l + b2z (negb (ip l =? 0))).
  assert (B2 : ib l <= e <= ahi A).
  { unfold e. rewrite Al in I2. destruct (Z.eqb_spec (ip l) 0) as [C|C]; cbn [negb b2z].
    - split; [lia|]. assert (ib l * w <= ahi A * w) by lia. clear - H Pw. nia.
    - split; [lia|]. assert (ib l * w < ahi A * w) by lia. clear - H Pw. nia. }
  assert (B3 : ib f <= ib l) by (rewrite Af, Al in Hd; clear - Hd Vf' Vl' Pw; nia).
  set (gap := if ip l =? 0 then 0 else w - ip l).
  assert (Eg : usub w (ip l) * b2z (negb (ip l =? 0)) = gap).
  { unfold gap. rewrite usub_small by lia. destruct (ip l =? 0); cbn [negb b2z]; lia. }
  assert (Hg : 0 <= gap < w) by (unfold gap; destruct (Z.eqb_spec (ip l) 0); lia).
  assert (Ee : e * w = addr w l + gap).
  { rewrite Al. unfold e, gap. destruct (Z.eqb_spec (ip l) 0); cbn [negb b2z]; lia. }
  assert (Ze : ib f * w <= e * w) by (assert (ib f <= e) by lia; clear - H Pw; nia).
  assert (HIn : inside A w (addr w (It (ib f) 0)) (addr w (It e 0))).
  { unfold inside, addr. cbn [ib ip]. clear - B1 B2 B3 Pw. split; nia. }
  assert (Vz : forall b, valid_it w (It b 0)) by (intros b; unfold valid_it; cbn [ip]; lia).
  assert (Bad : ib f < ib l -> gap < ip f -> (shifts_from_front w A (It (ib f) 0) (It e 0) (ip f - gap) <-> reverses_from_front w A f l)).
  { intros L1 L2. unfold shifts_from_front, reverses_from_front. fold gap. unfold addr at 1. cbn [ib ip].
    pose proof (Z.mod_pos_bound (- (ip f - gap)) w ltac:(lia)) as Mb. split.
    - intros (D1 & D2 & D3 & D4 & D5). split; [exact D5|]. split; [lia|].
      assert (X : (ib f + 1) * w < e * w) by lia. assert (X1 : ib f + 2 <= e) by (clear - X Pw; nia).
      assert (X2 : (ib f + 2) * w <= e * w) by (clear - X1 Pw; nia). lia.
    - intros (D1 & D2 & D3). repeat split; try lia.
      + rewrite Z.mod_small by lia. lia.
      + assert (ib f * w + w < e * w) by lia. assert (ib f + 2 <= e) by (clear - H Pw; nia).
        assert (ib f * w + 2 * w <= e * w) by (clear - H0 Pw; nia). lia. }
  unfold reverse_c, reverse. cbv zeta. rewrite Eg. fold e.
  split.
  - intros N. apply sim_eq with (Q := fun _ => True).
    apply sim_ok2 with (a := tt); [apply assert_viable_eq; (assumption || lia)..|].
    destruct ((ip f =? 0) && (ip l =? 0)) eqn:C0; [apply sim_same|].
    destruct (Z.eqb_spec (ib f) (ib l)) as [C1|C1]; cbn [negb]; [apply sim_same|].
    sk. apply sim_form; [destruct (ip l =? 0); cbn [b2z]; lia|]. sk. apply sim_form; [lia|]. sk. sk.
    apply sim_bind with (Q := fun _ => True); [|intros _ m' _; apply sim_same].
    unfold reverse_shift_c, reverse_shift.
    destruct (Z.ltb_spec (ip f) gap) as [C2|C2].
    + assert (C3 : ip l <> 0) by (unfold gap in C2; destruct (Z.eqb_spec (ip l) 0); lia).
      assert (Ee' : e = ib l + 1) by (unfold e; destruct (Z.eqb_spec (ip l) 0); cbn [negb b2z]; lia).
      apply sim_form; [lia|]. rewrite <- Ee'.
      apply sim_bind with (Q := fun _ => True); [|intros _ m' _; apply sim_same].
      apply (shift_left_sim p w Vw); try apply Vz; try assumption; unfold addr; cbn [ib ip]; unfold max_bits; try lia.
      apply pointable_in; try lia. assert (e = e) by reflexivity.
      assert (ib f * w + w <= e * w) by (assert (ib f + 1 <= e) by lia; clear - H0 Pw; nia).
      assert (alo A * w <= ib f * w) by (clear - B1 Pw; nia).
      assert (e * w <= ahi A * w) by (clear - B2 Pw; nia). lia.
    + destruct (Z.ltb_spec gap (ip f)) as [C3|C3]; [|apply sim_same].
      apply sim_bind with (Q := fun _ => True); [|intros _ m' _; apply sim_same].
      assert (Hfe : ib f * w + w <= e * w) by (assert (ib f + 1 <= e) by lia; clear - H Pw; nia).
      assert (alo A * w <= ib f * w) by (clear - B1 Pw; nia).
      assert (e * w <= ahi A * w) by (clear - B2 Pw; nia).
      apply (proj1 (shift_right_both p w Vw A (It (ib f) 0) (It e 0) (ip f - gap) mm2 (Vz _) (Vz _)
        ltac:(unfold addr; cbn [ib ip]; lia) ltac:(unfold addr, max_bits in *; cbn [ib ip]; lia)
        ltac:(unfold max_bits; lia) HIn
        ltac:(apply pointable_in; unfold addr; cbn [ib ip]; lia))).
      rewrite Bad by lia. exact N.
  - intros B. assert (B' := B). destruct B' as (D1 & D2 & D3). fold gap in D2.
    apply breaks_ok2 with (a := tt); [apply assert_viable_eq; (assumption || lia)..|].
    destruct (Z.eqb_spec (ip f) 0) as [C0|C0]; [lia|]. cbn [andb].
    assert (L1 : ib f < ib l).
    { rewrite Al in D3. assert (ib f * w + w < ib l * w + ip l) by lia. clear - H Vl' Pw. nia. }
    destruct (Z.eqb_spec (ib f) (ib l)) as [C1|C1]; cbn [negb]; [lia|].
    bk. apply breaks_ok with (a := ib l - b2z (ip l =? 0)).
    { apply form_ok. destruct (ip l =? 0); cbn [b2z]; lia. }
    bk. apply breaks_ok with (a := e); [apply form_ok; lia|]. bk. bk.
    apply breaks_left. unfold reverse_shift_c, reverse_shift.
    destruct (Z.ltb_spec (ip f) gap) as [C2|C2]; [lia|].
    destruct (Z.ltb_spec gap (ip f)) as [C3|C3]; [|lia].
    apply breaks_left.
    assert (Hfe : ib f * w + w <= e * w) by (assert (ib f + 1 <= e) by lia; clear - H Pw; nia).
    assert (alo A * w <= ib f * w) by (clear - B1 Pw; nia).
    assert (e * w <= ahi A * w) by (clear - B2 Pw; nia).
    apply (proj2 (shift_right_both p w Vw A (It (ib f) 0) (It e 0) (ip f - gap) mm2 (Vz _) (Vz _)
      ltac:(unfold addr; cbn [ib ip]; lia) ltac:(unfold addr, max_bits in *; cbn [ib ip]; lia)
      ltac:(unfold max_bits; lia) HIn
      ltac:(apply pointable_in; unfold addr; cbn [ib ip]; lia))).
    apply Bad; [lia|lia|exact B].
Qed.

Lemma rot_up_ptr : forall A n x q k m, valid_it w x -> valid_it w q -> 0 < k <= 2 ^ 62 ->
  addr w q = addr w x + k -> alo A * w <= addr w x -> addr w q + Z.of_nat n * k <= ahi A * w ->
  sim (fun s => let '(x', q') := s in valid_it w x' /\ valid_it w q' /\
      addr w x' = addr w x + Z.of_nat n * k /\ addr w q' = addr w q + Z.of_nat n * k)
    (rot_up_c A p w n x q k) (rot_up p w n x q k) m.
Proof.
  intros A n. induction n as [|n IH]; intros x q k m Vx Vq Hk Eq H1 H2; cbn [rot_up_c rot_up].
  - apply sim_ret. cbn [Z.of_nat] in *. split; [exact Vx|]. split; [exact Vq|]. lia.
  - rewrite Nat2Z.inj_succ in *. unfold Z.succ in *.
    assert (0 <= Z.of_nat n * k) by (apply Z.mul_nonneg_nonneg; lia).
    apply sim_bind with (Q := fun _ => True).
    { apply (swap_sim p w Vw); try assumption; unfold max_bits; try (split; lia); lia. }
    intros _ m' _. unfold iadd_assign.
    apply sim_iadd_bind; try (assumption || lia). intros x' Vx' Ex'.
    apply sim_iadd_bind; try (assumption || lia). intros q' Vq' Eq'.
    eapply sim_weak; [|apply IH; try (assumption || lia)].
    intros [x'' q''] (R1 & R2 & R3 & R4). split; [exact R1|]. split; [exact R2|]. lia.
Qed.

Lemma rot_down_ptr : forall A n x q k m, valid_it w x -> valid_it w q -> 0 < k <= 2 ^ 62 ->
  addr w q = addr w x + k -> alo A * w <= addr w x - Z.of_nat n * k -> addr w q <= ahi A * w ->
  sim (fun s => let '(x', q') := s in valid_it w x' /\ valid_it w q' /\
      addr w x' = addr w x - Z.of_nat n * k /\ addr w q' = addr w q - Z.of_nat n * k)
    (rot_down_c A p w n x q k) (rot_down p w n x q k) m.
Proof.
  intros A n. induction n as [|n IH]; intros x q k m Vx Vq Hk Eq H1 H2; cbn [rot_down_c rot_down].
  - apply sim_ret. cbn [Z.of_nat] in *. split; [exact Vx|]. split; [exact Vq|]. lia.
  - rewrite Nat2Z.inj_succ in *. unfold Z.succ in *.
    assert (0 <= Z.of_nat n * k) by (apply Z.mul_nonneg_nonneg; lia). unfold isub_assign.
    apply sim_isub_bind; try (assumption || lia). intros x' Vx' Ex'.
    apply sim_isub_bind; try (assumption || lia). intros q' Vq' Eq'.
    apply sim_bind with (Q := fun _ => True).
    { apply (swap_sim p w Vw); try assumption; unfold max_bits; try (split; lia); lia. }
    intros _ m' _.
    eapply sim_weak; [|apply IH; try (assumption || lia)].
    intros [x'' q''] (R1 & R2 & R3 & R4). split; [exact R1|]. split; [exact R2|]. lia.
Qed.

(** full_swaps times k, and the rest. *)
Lemma swaps_ok : forall n k, 0 < k -> k <= n -> n <= 2 ^ 62 ->
  let fs := wrap 32 (Z.quot (n - k) k) in 0 <= fs /\ 0 <= fs * k <= n - k.
Proof.
  intros n k H1 H2 H3. rewrite Z.quot_div_nonneg by lia. intros fs.
  assert (D : 0 <= (n - k) / k) by (apply Z.div_pos; lia).
  assert (F1 : 0 <= fs) by (unfold fs, wrap; apply Z.mod_pos_bound; reflexivity).
  assert (F2 : fs <= (n - k) / k) by (unfold fs, wrap; apply Z.mod_le; [assumption|reflexivity]).
  pose proof (Z.mul_div_le (n - k) k H1). split; [assumption|]. clear - F1 F2 H H1. nia.
Qed.

Lemma rot_loop_ptr : forall A fuel x n k r m, valid_it w x -> 0 < k < n -> n <= 2 ^ 62 ->
  inside A w (addr w x) (addr w x + n) -> (alo A < ib x \/ k < n - k) ->
  sim (fun _ => True) (rot_loop_c A p w fuel x n k r) (rot_loop p w fuel x n k r) m.
Proof.
  pose proof (valid_pos w Vw) as Pw.
  intros A fuel. induction fuel as [|fuel IH]; intros x n k r m Vx Hk Hn I HA; cbn [rot_loop_c rot_loop];
    [apply sim_same|]. assert (I' := I). destruct I' as [I1 I2].
  assert (Vx' : 0 <= ip x < w) by exact Vx.
  destruct (Z.ltb_spec k (n - k)) as [C1|C1].
  - destruct (Z.leb_spec k w) as [C2|C2].
    + sk. apply sim_iadd_bind; try (assumption || lia). intros e Ve Ee.
      apply sim_bind with (Q := fun _ => True); [|intros it m' _; apply sim_same].
      apply (shift_left_sim p w Vw); try assumption; unfold max_bits; try lia; try (split; lia).
      apply pointable_in; lia.
    + apply sim_iadd_bind; try (assumption || lia). intros q Vq Eq. cbv zeta.
      destruct (swaps_ok n k ltac:(lia) ltac:(lia) Hn) as [F1 F2].
      set (fs := wrap 32 (Z.quot (n - k) k)) in *. clearbody fs. rewrite wrap_small by lia.
      eapply sim_bind; [apply rot_up_ptr; try (assumption || lia); rewrite Z2Nat.id; lia|].
      rewrite Z2Nat.id by lia. intros [x1 q1] m' (V1 & V2 & E1 & E2).
      apply sim_iadd_bind; try (assumption || lia). intros e Ve Ee.
      apply sim_bind with (Q := fun _ => True).
      { apply (swap_sim p w Vw); try assumption; unfold max_bits; try (split; lia); lia. }
      intros _ m'' _. unfold iadd_assign.
      apply sim_iadd_bind; try (assumption || lia). intros x2 V3 E3.
      apply sim_iadd_bind; try (assumption || lia). intros q2 V4 E4.
      destruct (Z.eqb_spec (Z.rem n k) 0) as [C3|C3]; [apply sim_same|].
      rewrite Z.rem_mod_nonneg in * by lia. pose proof (Z.mod_pos_bound n k ltac:(lia)) as Mb.
      apply IH; try (assumption || lia); [split; lia|]. left.
      assert (addr w x + w <= addr w x2) by lia. unfold addr, valid_it in H, V3, I1.
      assert (X : ib x * w + w < ib x2 * w + w) by lia. assert (ib x < ib x2) by (clear - X Pw; nia).
      assert (alo A <= ib x) by (clear - I1 Vx' Pw; nia). lia.
  - destruct HA as [HA|HA]; [|lia].
    destruct (Z.leb_spec (n - k) w) as [C2|C2].
    + apply sim_iadd_bind; try (assumption || lia). intros e Ve Ee.
      apply sim_isub_bind; try (assumption || lia). intros s Vs Es. sk.
      apply sim_iadd_bind; try (assumption || lia). intros e' Ve' Ee'.
      apply sim_bind with (Q := fun _ => True); [|intros it m' _; apply sim_same].
      apply (proj1 (shift_right_both p w Vw A x e' (n - k) mm Vx Ve' ltac:(lia) ltac:(unfold max_bits; lia)
        ltac:(unfold max_bits; lia) ltac:(split; lia) ltac:(apply pointable_in; lia))).
      intros (_ & _ & _ & _ & B). lia.
    + cbv zeta. apply sim_iadd_bind; try (assumption || lia). intros q Vq Eq.
      apply sim_isub_bind; try (assumption || lia). intros y Vy Ey.
      destruct (swaps_ok n (n - k) ltac:(lia) ltac:(lia) Hn) as [F1 F2].
      set (fs := wrap 32 (Z.quot (n - (n - k)) (n - k))) in *. clearbody fs. rewrite wrap_small by lia.
      eapply sim_bind; [apply rot_down_ptr; try (assumption || lia); rewrite Z2Nat.id; lia|].
      rewrite Z2Nat.id by lia. intros [x1 q1] m' (V1 & V2 & E1 & E2). unfold isub_assign.
      apply sim_isub_bind; try (assumption || lia). intros x2 V3 E3.
      apply sim_isub_bind; try (assumption || lia). intros q2 V4 E4.
      apply sim_iadd_bind; try (assumption || lia). intros e Ve Ee.
      apply sim_bind with (Q := fun _ => True).
      { apply (swap_sim p w Vw); try assumption; unfold max_bits; try (split; lia); lia. }
      intros _ m'' _.
      destruct (Z.eqb_spec (Z.rem n (n - k)) 0) as [C3|C3]; [apply sim_same|].
      rewrite Z.rem_mod_nonneg in * by lia. pose proof (Z.mod_pos_bound n (n - k) ltac:(lia)) as Mb.
      assert (Ex : addr w x2 = addr w x) by lia.
      apply IH; try (assumption || lia); [split; lia|]. left.
      unfold addr, valid_it in Ex, V3. assert (ib x < ib x2 + 1) by (clear - Ex Vx' V3 Pw; nia). lia.
Qed.

Lemma breaks_iadd : forall T A it n (k k' : iter -> M T) m, valid_it w it -> - 2 ^ 62 <= n <= 2 ^ 62 ->
  alo A * w <= addr w it + n <= ahi A * w ->
  (forall it' m', valid_it w it' -> addr w it' = addr w it + n -> breaks (k it') (k' it') m') ->
  breaks (bind (lift (iadd_c A w it n)) k) (bind (lift (iadd w it n)) k') m.
Proof.
  intros T A it n k k' m V Hn Hr H.
  apply breaks_bind with (Q := fun i => valid_it w i /\ addr w i = addr w it + n).
  - apply sim_iadd; auto.
  - intros i m' [H1 H2]. auto.
Qed.

Lemma breaks_isub : forall T A it n (k k' : iter -> M T) m, valid_it w it -> - 2 ^ 62 <= n <= 2 ^ 62 ->
  alo A * w <= addr w it - n <= ahi A * w ->
  (forall it' m', valid_it w it' -> addr w it' = addr w it - n -> breaks (k it') (k' it') m') ->
  breaks (bind (lift (isub_c A w it n)) k) (bind (lift (isub w it n)) k') m.
Proof.
  intros T A it n k k' m V Hn Hr H.
  apply breaks_bind with (Q := fun i => valid_it w i /\ addr w i = addr w it - n).
  - apply sim_isub; auto.
  - intros i m' [H1 H2]. auto.
Qed.

(** The loop, decided exactly. *)
Lemma rot_loop_both : forall A fuel x n k r m, valid_it w x -> 0 < k < n -> n <= 2 ^ 62 ->
  inside A w (addr w x) (addr w x + n) ->
  (~ rotates_from_front w A x k (n - k) ->
     sim (fun _ => True) (rot_loop_c A p w fuel x n k r) (rot_loop p w fuel x n k r) m) /\
  (rotates_from_front w A x k (n - k) ->
     breaks (rot_loop_c A p w fuel x n k r) (rot_loop p w fuel x n k r) m).
Proof.
  pose proof (valid_pos w Vw) as Pw.
  intros A fuel. induction fuel as [|fuel IH]; intros x n k r m Vx Hk Hn I.
  { cbn [rot_loop_c rot_loop]. split; [intros _; apply sim_same|]. intros _ s E. discriminate E. }
  assert (I' := I). destruct I' as [I1 I2].
  assert (Vx' : 0 <= ip x < w) by exact Vx.
  destruct (Z.ltb_spec k (n - k)) as [C1|C1].
  { split; [|intros B; inversion B; lia].
    intros _. apply rot_loop_ptr; try assumption. right. exact C1. }
  cbn [rot_loop_c rot_loop]. destruct (Z.ltb_spec k (n - k)) as [C1'|_]; [lia|].
  destruct (Z.leb_spec (n - k) w) as [C2|C2].
  - split.
    + intros NB.
      apply sim_iadd_bind; try (assumption || lia). intros e Ve Ee.
      apply sim_isub_bind; try (assumption || lia). intros s Vs Es. sk.
      apply sim_iadd_bind; try (assumption || lia). intros e' Ve' Ee'.
      apply sim_bind with (Q := fun _ => True); [|intros it m' _; apply sim_same].
      apply (proj1 (shift_right_both p w Vw A x e' (n - k) mm Vx Ve' ltac:(lia) ltac:(unfold max_bits; lia)
        ltac:(unfold max_bits; lia) ltac:(split; lia) ltac:(apply pointable_in; lia))).
      intros B. apply NB. apply LastShift with (last := e'); try assumption. lia.
    + intros B. inversion B as [a b last L1 L2 Vl El S|a b L1 L2 R]; subst; [|lia].
      apply breaks_iadd; try (assumption || lia). intros e m1 Ve Ee.
      apply breaks_isub; try (assumption || lia). intros s m2 Vs Es. bk.
      apply breaks_iadd; try (assumption || lia). intros e' m3 Ve' Ee'.
      apply breaks_left.
      apply (proj2 (shift_right_both p w Vw A x e' (n - k) m3 Vx Ve' ltac:(lia) ltac:(unfold max_bits; lia)
        ltac:(unfold max_bits; lia) ltac:(split; lia) ltac:(apply pointable_in; lia))).
      replace e' with last; [exact S|]. apply (addr_inj w); try assumption; lia.
  - assert (HS : (rotates_from_front w A x k (n - k) ->
       rotates_from_front w A x (Z.rem n (n - k)) (n - k - Z.rem n (n - k))) /\
       (~ rotates_from_front w A x k (n - k) ->
       ~ rotates_from_front w A x (Z.rem n (n - k)) (n - k - Z.rem n (n - k)))).
    { rewrite Z.rem_mod_nonneg by lia.
      assert (Em : n mod (n - k) = k mod (n - k)).
      { replace n with (k + 1 * (n - k)) at 1 by lia. apply Z.mod_add. lia. }
      rewrite Em. split.
      - intros B. inversion B as [a b last L1 L2 Vl El S|a b L1 L2 R]; subst; [lia|]. exact R.
      - intros NB B. apply NB. apply AfterSwaps; assumption. }
    set (stop := Z.rem n (n - k)) in *.
    cbv zeta.
    destruct (swaps_ok n (n - k) ltac:(lia) ltac:(lia) Hn) as [F1 F2].
    set (fs := wrap 32 (Z.quot (n - (n - k)) (n - k))) in *. clearbody fs. rewrite wrap_small by lia.
    split.
    + intros NB. destruct HS as [_ HS]. specialize (HS NB).
      apply sim_iadd_bind; try (assumption || lia). intros q Vq Eq.
      apply sim_isub_bind; try (assumption || lia). intros y Vy Ey.
      eapply sim_bind; [apply rot_down_ptr; try (assumption || lia); rewrite Z2Nat.id; lia|].
      rewrite Z2Nat.id by lia. intros [x1 q1] m' (V1 & V2 & E1 & E2). unfold isub_assign.
      apply sim_isub_bind; try (assumption || lia). intros x2 V3 E3.
      apply sim_isub_bind; try (assumption || lia). intros q2 V4 E4.
      apply sim_iadd_bind; try (assumption || lia). intros e Ve Ee.
      apply sim_bind with (Q := fun _ => True).
      { apply (swap_sim p w Vw); try assumption; unfold max_bits; try (split; lia); lia. }
      intros _ m'' _. destruct (Z.eqb_spec stop 0) as [C3|C3]; [apply sim_same|].
      replace x2 with x by (apply (addr_inj w); (assumption || lia)).
      unfold stop in *. rewrite Z.rem_mod_nonneg in * by lia.
      pose proof (Z.mod_pos_bound n (n - k) ltac:(lia)) as Mb.
      apply IH; try (assumption || lia). split; lia.
    + intros B. destruct HS as [HS _]. specialize (HS B).
      apply breaks_iadd; try (assumption || lia). intros q m1 Vq Eq.
      apply breaks_isub; try (assumption || lia). intros y m2 Vy Ey.
      eapply breaks_bind; [apply rot_down_ptr; try (assumption || lia); rewrite Z2Nat.id; lia|].
      rewrite Z2Nat.id by lia. intros [x1 q1] m' (V1 & V2 & E1 & E2). unfold isub_assign.
      apply breaks_isub; try (assumption || lia). intros x2 m3 V3 E3.
      apply breaks_isub; try (assumption || lia). intros q2 m4 V4 E4.
      apply breaks_iadd; try (assumption || lia). intros e m5 Ve Ee.
      apply breaks_bind with (Q := fun _ => True).
      { apply (swap_sim p w Vw); try assumption; unfold max_bits; try (split; lia); lia. }
      intros _ m'' _. destruct (Z.eqb_spec stop 0) as [C3|C3].
      { exfalso. rewrite C3 in HS. inversion HS; lia. }
      replace x2 with x by (apply (addr_inj w); (assumption || lia)).
      unfold stop in *. rewrite Z.rem_mod_nonneg in * by lia.
      pose proof (Z.mod_pos_bound n (n - k) ltac:(lia)) as Mb.
      apply IH; try (assumption || lia). split; lia.
Qed.

Lemma rotate_ptr_ok : forall A f nf l m, valid_it w f -> valid_it w nf -> valid_it w l ->
  addr w f <= addr w nf -> addr w nf < addr w l -> addr w l - addr w f <= max_bits ->
  inside A w (addr w f) (addr w l) ->
  ~ (w < addr w nf - addr w f /\ rotates_from_front w A f (addr w nf - addr w f) (addr w l - addr w nf)) ->
  rotate_c A p w f nf l m = rotate p w f nf l m.
Proof.
  intros A f nf l m Vf Vn Vl Hf Hl Hb I HA. pose proof (valid_pos w Vw) as Pw.
  assert (I' := I). destruct I' as [I1 I2]. assert (Hb' := Hb). unfold max_bits in Hb'.
  apply sim_eq with (Q := fun _ => True). unfold rotate_c, rotate.
  apply sim_ok2 with (a := tt); [apply assert_viable_eq; (assumption || lia)..|].
  apply sim_ok2 with (a := tt); [apply assert_viable_eq; (assumption || lia)..|].
  apply sim_ok2 with (a := tt); [apply assert_viable_eq; (assumption || lia)..|].
  rewrite (ieq_addr w) by (assumption || lia).
  destruct (Z.eqb_spec (addr w f) (addr w nf)) as [C0|C0]; [apply sim_same|].
  apply sim_ok with (a := one_word f l); [apply (one_word_eq w Vw); (assumption || lia)|].
  destruct (one_word f l) eqn:C1.
  { unfold one_word in C1. apply Z.eqb_eq in C1.
    pose proof (one_word_len w Vw f l Vf Vl ltac:(lia) C1) as L1.
    unfold rotate_one_word_c, rotate_one_word. unfold valid_it in Vf, Vn, Vl.
    assert (Bn : ib nf = ib f).
    { unfold addr in *. assert (ib f * w < (ib nf + 1) * w) by lia. assert (ib nf * w < (ib f + 1) * w) by lia.
      clear - H H0 Pw. nia. }
    assert (Hlp : ib f * w + (if ip l =? 0 then w else ip l) = addr w l).
    { unfold addr. destruct (Z.eqb_spec (ip l) 0) as [C|C]; cbn [b2z] in C1; rewrite <- C1; lia. }
    assert (An : addr w nf = ib f * w + ip nf) by (unfold addr; rewrite Bn; reflexivity).
    assert (Af : addr w f = ib f * w + ip f) by reflexivity.
    destruct ((ip f =? 0) && (ip l =? 0)) eqn:C2.
    - apply andb_prop in C2. destruct C2 as [C2 C3]. apply Z.eqb_eq in C2. rewrite C3 in Hlp.
      sk. sk. sk. sk. unfold iadd_assign. rewrite (usub_small w), swrap64_small by lia.
      apply sim_iadd; try (assumption || lia).
    - cbv zeta. sk. sk. sk. sk. sk. sk. sk. unfold iadd_assign.
      set (lp := if ip l =? 0 then w else ip l) in *.
      rewrite (usub_small lp (ip nf)), swrap64_small by lia.
      apply sim_iadd; try (assumption || lia). }
  rewrite is_within_c_eq by (assumption || lia || (split; lia)). rewrite is_within_eq by (assumption || lia).
  apply sim_ok2 with (a := addr w nf - addr w f <=? w); [reflexivity..|].
  destruct (Z.leb_spec (addr w nf - addr w f) w) as [C2|C2].
  { apply sim_dist; try (assumption || lia). sk.
    apply sim_bind with (Q := fun _ => True); [|intros it m' _; apply sim_same].
    apply (shift_left_sim p w Vw); try assumption; unfold max_bits; try lia.
    apply pointable_in; lia. }
  rewrite is_within_c_eq by (assumption || lia || (split; lia)). rewrite is_within_eq by (assumption || lia).
  apply sim_ok2 with (a := addr w l - addr w nf <=? w); [reflexivity..|].
  destruct (Z.leb_spec (addr w l - addr w nf) w) as [C3|C3].
  { apply sim_dist; try (assumption || lia). sk.
    apply sim_bind with (Q := fun _ => True); [|intros it m' _; apply sim_same].
    apply (proj1 (shift_right_both p w Vw A f l (addr w l - addr w nf) mm Vf Vl ltac:(lia) Hb
      ltac:(unfold max_bits; lia) I ltac:(apply pointable_in; lia))).
    intros B. apply HA. split; [lia|]. apply LastShift with (last := l); try (assumption || lia). }
  unfold rotate_via_raw_c, rotate_via_raw.
  apply sim_ok2 with (a := addr w nf - addr w f); [apply idiff_eq; (assumption || lia)..|].
  apply sim_ok2 with (a := addr w l - addr w f); [apply idiff_eq; (assumption || lia)..|].
  destruct (Z.eqb_spec (addr w nf - addr w f) (addr w l - addr w f - (addr w nf - addr w f))) as [C4|C4].
  { apply sim_bind with (Q := fun _ => True); [|intros it m' _; apply sim_same].
    apply (swap_sim p w Vw); try assumption; unfold max_bits; try (split; lia); lia. }
  apply sim_ok2 with (a := addr w l - addr w nf); [apply idiff_eq; (assumption || lia)..|].
  apply sim_iadd_bind; try (assumption || lia). intros r Vr Er.
  apply rot_loop_both; try (assumption || lia); [split; lia|].
  intros B. apply HA. split; [lia|].
  replace (addr w l - addr w f - (addr w nf - addr w f)) with (addr w l - addr w nf) in B by lia. exact B.
Qed.

Lemma rotate_ptr_bad : forall A f nf l m, valid_it w f -> valid_it w nf -> valid_it w l ->
  w < addr w nf - addr w f -> addr w nf < addr w l ->
  addr w l - addr w f <= max_bits -> inside A w (addr w f) (addr w l) ->
  rotates_from_front w A f (addr w nf - addr w f) (addr w l - addr w nf) ->
  breaks (rotate_c A p w f nf l) (rotate p w f nf l) m.
Proof.
  intros A f nf l m Vf Vn Vl Hf Hl Hb I HB. pose proof (valid_pos w Vw) as Pw.
  assert (I' := I). destruct I' as [I1 I2]. assert (Hb' := Hb). unfold max_bits in Hb'.
  unfold rotate_c, rotate.
  apply breaks_ok2 with (a := tt); [apply assert_viable_eq; (assumption || lia)..|].
  apply breaks_ok2 with (a := tt); [apply assert_viable_eq; (assumption || lia)..|].
  apply breaks_ok2 with (a := tt); [apply assert_viable_eq; (assumption || lia)..|].
  rewrite (ieq_addr w) by (assumption || lia).
  destruct (Z.eqb_spec (addr w f) (addr w nf)) as [C0|C0]; [lia|].
  apply breaks_ok with (a := one_word f l); [apply (one_word_eq w Vw); (assumption || lia)|].
  destruct (one_word f l) eqn:C1.
  { exfalso. unfold one_word in C1. apply Z.eqb_eq in C1.
    pose proof (one_word_len w Vw f l Vf Vl ltac:(lia) C1) as L1. unfold addr, valid_it in *. lia. }
  rewrite is_within_c_eq by (assumption || lia || (split; lia)). rewrite is_within_eq by (assumption || lia).
  apply breaks_ok2 with (a := addr w nf - addr w f <=? w); [reflexivity..|].
  destruct (Z.leb_spec (addr w nf - addr w f) w) as [C2|C2]; [lia|].
  rewrite is_within_c_eq by (assumption || lia || (split; lia)). rewrite is_within_eq by (assumption || lia).
  apply breaks_ok2 with (a := addr w l - addr w nf <=? w); [reflexivity..|].
  destruct (Z.leb_spec (addr w l - addr w nf) w) as [C3|C3].
  { apply breaks_ok2 with (a := addr w l - addr w nf); [apply distance_eq; (assumption || lia)..|]. bk.
    apply breaks_left.
    inversion HB as [a b last L1 L2 Vl' El S|a b L1 L2 R]; subst; [|lia].
    apply (proj2 (shift_right_both p w Vw A f l (addr w l - addr w nf) mm Vf Vl ltac:(lia) Hb
      ltac:(unfold max_bits; lia) I ltac:(apply pointable_in; lia))).
    replace l with last at 1; [exact S|]. apply (addr_inj w); (assumption || lia). }
  unfold rotate_via_raw_c, rotate_via_raw.
  apply breaks_ok2 with (a := addr w nf - addr w f); [apply idiff_eq; (assumption || lia)..|].
  apply breaks_ok2 with (a := addr w l - addr w f); [apply idiff_eq; (assumption || lia)..|].
  destruct (Z.eqb_spec (addr w nf - addr w f) (addr w l - addr w f - (addr w nf - addr w f))) as [C4|C4].
  { exfalso. inversion HB as [a b last L1 L2 Vl' El S|a b L1 L2 R]; subst; [lia|].
    replace (addr w l - addr w nf) with (addr w nf - addr w f) in R by lia.
    rewrite Z.mod_same in R by lia. inversion R; lia. }
  apply breaks_ok2 with (a := addr w l - addr w nf); [apply idiff_eq; (assumption || lia)..|].
  apply breaks_iadd; try (assumption || lia). intros r m' Vr Er.
  apply rot_loop_both; try (assumption || lia); [split; lia|].
  replace (addr w l - addr w f - (addr w nf - addr w f)) with (addr w l - addr w nf) by lia. exact HB.
Qed.

(** A word in front of the range, or a first part that is short, is enough. *)
Lemma not_from_front : forall A f a b,
  rotates_from_front w A f a b -> ib f = alo A /\ b <= a.
Proof.
  intros A f a b R. split.
  - induction R as [a b last L1 L2 Vl El (_ & _ & _ & _ & S)|a b L1 L2 R IH]; assumption.
  - inversion R; assumption.
Qed.

Lemma rotate_ptr : forall A f nf l m, valid_it w f -> valid_it w nf -> valid_it w l ->
  addr w f <= addr w nf -> addr w nf < addr w l -> addr w l - addr w f <= max_bits ->
  inside A w (addr w f) (addr w l) ->
  (alo A < ib f \/ addr w nf - addr w f <= w \/ addr w nf - addr w f <= addr w l - addr w nf) ->
  rotate_c A p w f nf l m = rotate p w f nf l m.
Proof.
  intros A f nf l m Vf Vn Vl Hf Hl Hb I HA. pose proof (valid_pos w Vw) as Pw.
  apply rotate_ptr_ok; try assumption. intros [N R].
  destruct (not_from_front A f _ _ R) as [N1 N2].
  assert (E : addr w l - addr w nf = addr w nf - addr w f) by lia. rewrite E in R.
  inversion R as [a b last L1 L2 Vl' El S|a b L1 L2 R']; subst; [lia|].
  rewrite Z.mod_same in R' by lia. inversion R'; lia.
Qed.

End Rotate.
