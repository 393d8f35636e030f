(** Proofs about the shifts over checked word iterators. *)
From Coq Require Import ZArith Bool List Lia.
From Verif Require Import Base WordOps IterModel AlgModel ShiftModel Spec PtrModel SpecPtr
  ProofBase ProofIter ProofWord ProofPtr ProofPtrFront ProofPtrBack ProofPtrSwap.
Import ListNotations.
Open Scope Z_scope.

Section Shift.
Variable p : policy.
Variable w : Z.
Hypothesis Vw : valid_w w.

Lemma shift_left_align_ptr : forall A f mi l d n m, valid_it w f -> valid_it w mi -> valid_it w l ->
  addr w mi = addr w f + n -> addr w l = addr w f + d -> 0 < n -> w < d - n -> d <= 2 ^ 62 ->
  inside A w (addr w f) (addr w l) ->
  sim (fun s => let '(f', mi') := s in
      valid_it w f' /\ valid_it w mi' /\ addr w mi' = addr w f' + n /\ ip f' = 0 /\
      addr w f <= addr w f' /\ addr w mi' <= addr w l)
    (shift_left_align_c A p w f mi d n) (shift_left_align p w f mi d n) m.
Proof.
  intros A f mi l d n m Vf Vm Vl Em El Hn Hdn Hb [I1 I2]. pose proof (valid_pos w Vw) as Pw.
  assert (Vf' : 0 <= ip f < w) by exact Vf. assert (Vm' : 0 <= ip mi < w) by exact Vm.
  unfold shift_left_align_c, shift_left_align.
  destruct (Z.eqb_spec (ip f) 0) as [C|C]; cbn [negb].
  - apply sim_ret. repeat split; try lia; try apply Vf; try apply Vm.
  - apply sim_bind with (Q := fun _ => True).
    + destruct (ip mi <=? ip f); [apply sim_same|]. cbv zeta. sk. sk. sk. sk. sk. sk.
      apply sim_form; [|apply sim_same]. unfold addr in *.
      assert (Z1 : (ib mi + 1) * w <= ahi A * w) by lia. assert (Z2 : alo A * w < (ib mi + 1) * w) by lia.
      clear - Z1 Z2 Pw. nia.
    + intros _ m' _. cbv zeta. unfold iadd_assign. rewrite Z.min_r by lia.
      apply sim_iadd_bind; try (assumption || (unfold addr in *; lia)). intros f' V' E'.
      apply sim_iadd_bind; try (assumption || (unfold addr in *; lia)). intros mi' Vm'' Em'.
      apply sim_ret. split; [exact V'|]. split; [exact Vm''|].
      assert (Hip : ip f' = 0).
      { unfold addr, valid_it in E', V'. assert (X : ib f' * w + ip f' = (ib f + 1) * w) by lia.
        assert (ib f' = ib f + 1) by (clear - X V' Pw; nia). rewrite H in X. lia. }
      repeat split; try lia.
Qed.

Lemma word_shift_left_ptr : forall A f l n m, alo A <= f -> f <= l -> l <= ahi A ->
  sim (fun fb => f <= fb <= l) (word_shift_left_c A f l n) (word_shift_left f l n) m.
Proof.
  intros A f l n m H1 H2 H3. unfold word_shift_left_c, word_shift_left.
  destruct (Z.leb_spec n 0) as [C1|C1]; [apply sim_ret; lia|].
  destruct (Z.leb_spec (l - f) n) as [C2|C2]; [apply sim_ret; lia|]. cbv zeta.
  apply sim_form; [lia|]. sk. rewrite form_ok by lia. apply sim_ret. lia.
Qed.

Lemma shift_left_loop_ptr : forall A fuel fb mb lb o m, alo A <= fb -> fb <= mb -> mb < lb -> lb <= ahi A ->
  sim (fun s => snd s = lb - 1 /\ fst s = fb + (lb - 1 - mb))
    (shift_left_loop_c A p w fuel fb mb lb o) (shift_left_loop p w fuel fb mb lb o) m.
Proof.
  intros A fuel. induction fuel as [|fuel IH]; intros fb mb lb o m H1 H2 H3 H4;
    cbn [shift_left_loop_c shift_left_loop]; (apply sim_form; [lia|]);
    destruct (Z.ltb_spec (mb + 1) lb) as [C|C].
  - split; [reflexivity|discriminate].
  - apply sim_ret. cbn [fst snd]. lia.
  - sk. sk. sk. sk. apply sim_form; [lia|]. apply sim_form; [lia|].
    eapply sim_weak; [|apply IH; lia]. intros s [Q1 Q2]. lia.
  - apply sim_ret. cbn [fst snd]. lia.
Qed.

Lemma shift_left_sim : forall A f l n m, valid_it w f -> valid_it w l ->
  addr w f <= addr w l -> addr w l - addr w f <= max_bits -> - max_bits <= n <= max_bits ->
  inside A w (addr w f) (addr w l) -> pointable A w (addr w f + n) ->
  sim (fun _ => True) (shift_left_c A p w f l n) (shift_left p w f l n) m.
Proof.
  intros A f l n m Vf Vl Hd Hb Hn I P. pose proof (valid_pos w Vw) as Pw. unfold max_bits in *.
  assert (I' := I). destruct I' as [I1 I2].
  unfold shift_left_c, shift_left.
  apply sim_ok2 with (a := tt); [apply assert_viable_eq; (assumption || lia)..|].
  apply sim_dist; try (assumption || lia).
  rewrite iadd_c_eq by (assumption || lia).
  pose proof (rwp_iadd w f n (fun mi => valid_it w mi /\ addr w mi = addr w f + n) Vw Vf Hn) as R.
  destruct (iadd w f n) as [mi| | | |]; try (exfalso; apply R; auto; fail). 
  destruct R as [Vm Em]; [auto|].
  apply sim_ok2 with (a := mi); [reflexivity..|].
  destruct (Z.leb_spec n 0) as [C1|C1]; [apply sim_same|].
  set (d := addr w l - addr w f) in *. assert (El : addr w l = addr w f + d) by lia. clearbody d.
  destruct (Z.leb_spec d n) as [C2|C2]; [apply sim_same|].
  apply sim_ok with (a := ib f + b2z (ip l =? 0) =? ib l); [apply (one_word_eq w Vw); (assumption || lia)|].
  fold (one_word f l). destruct (one_word f l).
  { sk. sk. sk. sk. sk.
    apply sim_iadd_bind; try (assumption || lia). intros r Vr Er.
    apply sim_isub; try (assumption || lia). }
  destruct (Z.leb_spec (d - n) w) as [C3|C3].
  { sk. sk. apply sim_iadd_bind; try (assumption || lia). intros r Vr Er.
    apply sim_isub; try (assumption || lia). }
  sk. sk.
  eapply sim_bind; [apply (shift_left_align_ptr A f mi l d n); (assumption || lia)|].
  intros [f1 m1] m' (V1 & Vm1 & Em1 & Hp1 & Hf1 & Hm1).
  assert (V1' : 0 <= ip f1 < w) by exact V1. assert (Vm1' : 0 <= ip m1 < w) by exact Vm1.
  assert (Vl' : 0 <= ip l < w) by exact Vl. assert (Vf' : 0 <= ip f < w) by exact Vf.
  assert (B1 : alo A <= ib f1).
  { unfold addr in *. assert (alo A * w <= ib f1 * w) by lia. clear - H Pw. nia. }
  assert (B2 : ib f1 <= ib m1).
  { unfold addr in *. assert (ib f1 * w < (ib m1 + 1) * w) by lia. clear - H Pw. nia. }
  assert (B3 : ib m1 <= ib l).
  { unfold addr in *. assert (ib m1 * w < (ib l + 1) * w) by lia. clear - H Pw. nia. }
  assert (B4 : ib l <= ahi A) by (unfold addr in *; clear - I2 Vl' Pw; nia).
  destruct (Z.eqb_spec (ib m1) (ib l)) as [C4|C4].
  - cbv zeta. destruct (Z.ltb_spec 0 (ip l - ip m1)) as [C5|C5]; [|apply sim_same].
    sk. sk. sk. sk. sk. unfold iadd_assign. apply sim_iadd; try (assumption || (unfold addr in *; lia)).
  - apply sim_dist; try (assumption || (unfold addr in *; lia)). cbv zeta.
    destruct (Z.eqb_spec (ip m1) 0) as [C5|C5].
    + eapply sim_bind; [apply word_shift_left_ptr; lia|]. intros fb m'' [Q1 Q2].
      destruct (negb (ip l =? 0)); [|apply sim_same]. sk. sk. unfold iadd_assign.
      apply sim_iadd; try assumption; try (unfold valid_it, addr; cbn [ib ip]; lia).
      unfold addr; cbn [ib ip].
      assert (alo A * w <= fb * w) by (clear - B1 Q1 Pw; nia).
      assert (fb * w <= ib l * w) by (clear - Q2 Pw; nia). unfold addr in I2. lia.
    + eapply sim_bind; [apply shift_left_loop_ptr; lia|]. intros [fb mb] m'' [Q1 Q2]. cbn [fst snd] in Q1, Q2.
      cbn [ib ip]. apply sim_form; [lia|].
      assert (Hfb : alo A <= fb <= ib l - 1) by lia.
      assert (Hfb1 : alo A * w <= fb * w) by (clear - Hfb Pw; nia).
      assert (Hfb2 : fb * w + w <= ib l * w) by (clear - Hfb Pw; nia).
      rewrite Q1. replace (ib l - 1 + 1) with (ib l) by ring. rewrite Z.eqb_refl.
      apply sim_bind with (Q := fun s => let '(f2, m2) := s in
        valid_it w f2 /\ alo A * w <= addr w f2 <= ib l * w /\ ip m2 = 0).
      * sk. sk. sk. sk. sk. unfold iadd_assign.
        apply sim_iadd_bind; try assumption; try (unfold valid_it, addr in *; cbn [ib ip]; lia).
        intros f2 V2 E2. unfold addr in E2 at 2. cbn [ib ip] in E2.
        apply sim_iadd_bind; try assumption; try (unfold valid_it, addr in *; cbn [ib ip]; lia).
        intros m2 Vm2 Em2. unfold addr in Em2. cbn [ib ip] in Em2.
        apply sim_ret. split; [exact V2|]. split; [lia|]. unfold valid_it in Vm2.
        assert (X : ib m2 * w + ip m2 = ib l * w) by lia.
        assert (ib m2 = ib l) by (clear - X Vm2 Pw; nia). rewrite H in X. lia.
      * intros [f2 m2] m3 (V2 & H2 & H3). destruct (negb (ip l =? 0)); [|apply sim_same].
        cbv zeta. sk. sk. unfold iadd_assign. rewrite H3.
        apply sim_iadd; try assumption; try (unfold addr in *; lia).
Qed.

Lemma shift_left_ptr : forall A f l n m, valid_it w f -> valid_it w l ->
  addr w f <= addr w l -> addr w l - addr w f <= max_bits -> - max_bits <= n <= max_bits ->
  inside A w (addr w f) (addr w l) ->
  (pointable A w (addr w f + n) -> shift_left_c A p w f l n m = shift_left p w f l n m) /\
  (~ pointable A w (addr w f + n) -> shift_left_c A p w f l n m = UB BadUse).
Proof.
  intros A f l n m Vf Vl Hd Hb Hn I. split; intros P.
  - eapply sim_eq. apply shift_left_sim; assumption.
  - unfold shift_left_c. unfold max_bits in *. rewrite assert_viable_eq by (assumption || lia).
    rewrite distance_eq by (assumption || lia). rewrite iadd_c_bad by (assumption || lia). reflexivity.
Qed.

Lemma shift_right_loop_ptr : forall A fuel fb lbp mbp o m, alo A <= fb -> fb <= mbp -> mbp <= lbp -> lbp <= ahi A ->
  sim (fun s => snd s = fb /\ fst s = lbp - (mbp - fb))
    (shift_right_loop_c A p w fuel fb lbp mbp o) (shift_right_loop p w fuel fb lbp mbp o) m.
Proof.
  intros A fuel. induction fuel as [|fuel IH]; intros fb lbp mbp o m H1 H2 H3 H4;
    cbn [shift_right_loop_c shift_right_loop]; destruct (Z.ltb_spec fb mbp) as [C|C].
  - split; [reflexivity|discriminate].
  - apply sim_ret. cbn [fst snd]. lia.
  - sk. sk. sk. sk. apply sim_form; [lia|]. apply sim_form; [lia|].
    eapply sim_weak; [|apply IH; lia]. intros s [Q1 Q2]. lia.
  - apply sim_ret. cbn [fst snd]. lia.
Qed.

Lemma word_shift_right_ptr : forall A f l n m, alo A <= f -> f <= l -> l <= ahi A ->
  sim (fun _ => True) (word_shift_right_c A f l n) (word_shift_right f l n) m.
Proof.
  intros A f l n m H1 H2 H3. unfold word_shift_right_c, word_shift_right. cbv zeta.
  destruct (Z.leb_spec n 0) as [C1|C1]; [apply sim_same|].
  destruct (Z.leb_spec (l - f) n) as [C2|C2]; [apply sim_same|].
  apply sim_form; [lia|]. sk. rewrite form_ok by lia. apply sim_same.
Qed.

(** The iterators in the main part: last is aligned, middle is n bits before. *)
Lemma shift_right_main_both : forall A f l l1 mi n m, valid_it w f -> valid_it w l -> valid_it w mi ->
  ip l = 0 -> ib l = ib l1 -> addr w mi = addr w l - n -> 0 < n <= 2 ^ 62 -> addr w f <= addr w mi ->
  addr w l - addr w f <= max_bits -> inside A w (addr w f) (addr w l) ->
  (~ shifts_from_front w A f l1 n ->
     sim (fun _ => True) (shift_right_main_c A p w f l mi n) (shift_right_main p w f l mi n) m) /\
  (shifts_from_front w A f l1 n -> breaks (shift_right_main_c A p w f l mi n) (shift_right_main p w f l mi n) m).
Proof.
  intros A f l l1 mi n m Vf Vl Vm Hl El Em Hn Hf Hb [I1 I2]. pose proof (valid_pos w Vw) as Pw.
  unfold max_bits in Hb. unfold shifts_from_front. rewrite <- El. clear El l1.
  assert (Vf' : 0 <= ip f < w) by exact Vf. assert (Vm' : 0 <= ip mi < w) by exact Vm.
  assert (Al : addr w l = ib l * w) by (unfold addr; lia).
  assert (Eo : ip mi = (- n) mod w).
  { unfold addr in Em. rewrite <- (Z.mod_small (ip mi) w) by lia.
    rewrite <- (Z.mod_add (ip mi) (ib mi) w), <- (Z.mod_add (- n) (ib l) w) by lia. f_equal. lia. }
  assert (En : n mod w = 0 <-> ip mi = 0).
  { rewrite Eo. split; intros H.
    - rewrite Z.mod_opp_l_z by lia. reflexivity.
    - destruct (Z.eq_dec (n mod w) 0) as [E|E]; [assumption|].
      rewrite Z.mod_opp_l_nz in H by lia. pose proof (Z.mod_pos_bound n w). lia. }
  rewrite <- Eo.
  assert (B1 : alo A <= ib f) by (unfold addr in *; clear - I1 Vf' Pw; nia).
  assert (B2 : ib l <= ahi A) by (rewrite Al in I2; clear - I2 Pw; nia).
  assert (B3 : ib f <= ib mi).
  { unfold addr in Hf. assert (ib f * w < (ib mi + 1) * w) by lia. clear - H Pw. nia. }
  assert (B4 : ib mi <= ib l).
  { rewrite Al in Em. unfold addr in Em. assert (ib mi * w <= ib l * w) by lia. clear - H Pw. nia. }
  unfold shift_right_main_c, shift_right_main. cbv zeta.
  set (Q1 := fun s : iter * iter => let '(l', mi') := s in valid_it w l' /\ valid_it w mi' /\
    addr w l' = addr w mi' + n /\ addr w f <= addr w mi' <= addr w mi).
  (* the loop *)
  assert (SL : forall m0, w <= addr w mi - addr w f ->
    sim (fun s : Z * Z => snd s = ib f /\ fst s = ib l - 1 - (ib mi - 1 - ib f))
      (shift_right_loop_c A p w (Z.to_nat (ib mi - ib f)) (ib f) (ib l - 1) (ib mi - 1) (ip mi))
      (shift_right_loop p w (Z.to_nat (ib mi - ib f)) (ib f) (ib l - 1) (ib mi - 1) (ip mi)) m0 /\
    ib f + 1 <= ib mi).
  { intros m0 H. assert (ib f + 1 <= ib mi).
    { unfold addr in H. assert ((ib f + 1) * w <= ib mi * w + ip mi) by lia. clear - H0 Vm' Pw. nia. }
    split; [|assumption]. apply shift_right_loop_ptr; lia. }
  split.
  - intros N. destruct (Z.eqb_spec (ip mi) 0) as [C1|C1].
    + eapply sim_bind; [apply word_shift_right_ptr; lia|]. intros _ m' _.
      apply sim_iadd; try (assumption || lia).
    + apply sim_dist; try (assumption || lia).
      apply sim_bind with (Q := Q1).
      * destruct (Z.leb_spec w (addr w mi - addr w f)) as [C2|C2].
        2: { apply sim_ret. unfold Q1. split; [exact Vl|]. split; [exact Vm|]. lia. }
        unfold shift_right_words_c, shift_right_words.
        destruct (SL m C2) as [SL1 SL2].
        apply sim_form; [lia|]. apply sim_form; [lia|].
        eapply sim_bind; [exact SL1|]. intros [lbp mbp] m' [E1 E2]. cbn [fst snd] in E1, E2.
        apply sim_bind with (Q := fun s : Z * Z => snd s = (if ip f <=? ip mi then ib f - 1 else ib f) /\
          fst s = snd s + (ib l - ib mi)).
        -- destruct (Z.leb_spec (ip f) (ip mi)) as [C3|C3].
           ++ assert (ib f <> alo A). { intros E. apply N. repeat split; lia. }
              sk. sk. sk. sk. apply sim_form; [lia|]. apply sim_form; [lia|]. apply sim_ret. cbn [fst snd]. lia.
           ++ apply sim_ret. cbn [fst snd]. lia.
        -- intros [lbp' mbp'] m'' [E3 E4]. cbn [fst snd] in E3, E4.
           assert (K : mbp' + 1 = ib f + (if ip f <=? ip mi then 0 else 1)) by (destruct (ip f <=? ip mi); lia).
           assert (K1 : ib f <= mbp' + 1 <= ib mi) by (destruct (ip f <=? ip mi); lia).
           apply sim_form; [lia|]. apply sim_form; [lia|]. apply sim_ret. unfold Q1.
           split; [unfold valid_it; cbn [ip]; lia|]. split; [exact Vm|].
           unfold addr. cbn [ib ip]. rewrite Hl. split.
           { rewrite Al in Em. unfold addr in Em. rewrite E4. lia. }
           assert (K2 : (mbp' + 1) * w <= ib mi * w) by (clear - K1 Pw; nia).
           split; [|lia]. rewrite K. destruct (Z.leb_spec (ip f) (ip mi)); lia.
      * intros [l' mi'] m' (V1 & V2 & E1 & E2).
        apply sim_bind with (Q := fun _ => True).
        2: { intros _ m'' _. apply sim_iadd; try (assumption || lia). }
        destruct (negb (ip f =? ip mi')); [|apply sim_same].
        apply sim_dist; try (assumption || lia). sk.
        apply sim_isub_bind; try (assumption || lia). intros ds Vds Eds. apply sim_same.
  - intros (D1 & D2 & D3 & D4 & D5).
    destruct (Z.eqb_spec (ip mi) 0) as [C1|C1]; [tauto|].
    apply breaks_ok2 with (a := addr w mi - addr w f); [apply distance_eq; (assumption || lia)..|].
    apply breaks_left.
    destruct (Z.leb_spec w (addr w mi - addr w f)) as [C2|C2]; [|lia].
    unfold shift_right_words_c, shift_right_words. destruct (SL m C2) as [SL1 SL2].
    apply breaks_ok with (a := ib l - 1); [apply form_ok; lia|].
    apply breaks_ok with (a := ib mi - 1); [apply form_ok; lia|].
    eapply breaks_bind; [exact SL1|]. intros [lbp mbp] m' [E1 E2]. cbn [fst snd] in E1, E2.
    apply breaks_left. destruct (Z.leb_spec (ip f) (ip mi)) as [C3|C3]; [|lia].
    bk. bk. bk. bk.
    destruct (Z.leb_spec (alo A) (lbp - 1)) as [C4|C4].
    + apply breaks_ok with (a := lbp - 1); [apply form_ok; lia|]. apply breaks_now. apply form_bad. lia.
    + apply breaks_now. apply form_bad. lia.
Qed.

Lemma shift_right_both : forall A f l n m, valid_it w f -> valid_it w l ->
  addr w f <= addr w l -> addr w l - addr w f <= max_bits -> - max_bits <= n <= max_bits ->
  inside A w (addr w f) (addr w l) -> pointable A w (addr w l - n) ->
  (~ shifts_from_front w A f l n -> sim (fun _ => True) (shift_right_c A p w f l n) (shift_right p w f l n) m) /\
  (shifts_from_front w A f l n -> breaks (shift_right_c A p w f l n) (shift_right p w f l n) m).
Proof.
  intros A f l n m Vf Vl Hd Hb Hn I P. pose proof (valid_pos w Vw) as Pw. unfold max_bits in Hb, Hn.
  assert (I' := I). destruct I' as [I1 I2].
  assert (Vf' : 0 <= ip f < w) by exact Vf. assert (Vl' : 0 <= ip l < w) by exact Vl.
  unfold shift_right_c, shift_right.
  pose proof (rwp_isub w l n (fun mi => valid_it w mi /\ addr w mi = addr w l - n) Vw Vl Hn) as R.
  rewrite isub_c_eq by (assumption || lia).
  destruct (isub w l n) as [mi| | | |] eqn:Es; try (exfalso; apply R; auto; fail).
  destruct R as [Vm Em]; [auto|].
  assert (W1 : addr w f < addr w l -> one_word_c A f l = Ok (one_word f l))
    by (intros; apply (one_word_eq w Vw); assumption).
  split.
  - intros N.
    apply sim_dist; try (assumption || lia). apply sim_ok2 with (a := mi); [reflexivity..|].
    destruct (Z.leb_spec n 0) as [C1|C1]; [apply sim_same|].
    destruct (Z.leb_spec (addr w l - addr w f) n) as [C2|C2]; [apply sim_same|].
    apply sim_ok with (a := one_word f l); [apply W1; lia|].
    destruct (one_word f l).
    { sk. sk. sk. sk. sk. apply sim_iadd; try (assumption || lia). }
    destruct (Z.eqb_spec (ip l) 0) as [C3|C3]; cbn [negb].
    + apply (proj1 (shift_right_main_both A f l l mi n m Vf Vl Vm C3 eq_refl Em ltac:(lia) ltac:(lia) Hb I) N).
    + apply sim_dist; try (assumption || lia). cbv zeta.
      apply sim_isub_bind; try (assumption || lia). intros sc Vsc Esc. sk.
      apply sim_isub_bind; try (assumption || lia). intros ds Vds Eds. sk. unfold isub_assign.
      apply sim_isub_bind; try (assumption || lia). intros mi1 Vm1 Em1.
      apply sim_isub_bind; try (assumption || lia). intros l1 Vl1 El1.
      rewrite (ieq_addr w) by (assumption || lia).
      destruct (Z.eqb_spec (addr w mi1) (addr w f)) as [C4|C4]; [apply sim_iadd; try (assumption || lia)|].
      assert (Hmin : Z.min (ip l) (addr w mi - addr w f) = ip l) by lia. rewrite Hmin in *.
      assert (X : ip l1 = 0 /\ ib l1 = ib l).
      { unfold addr, valid_it in El1, Vl1. assert (X : ib l1 * w + ip l1 = ib l * w) by lia.
        assert (ib l1 = ib l) by (clear - X Vl1 Pw; nia). rewrite H in X. lia. }
      destruct X as [X1 X2].
      apply (proj1 (shift_right_main_both A f l1 l mi1 n mm0 Vf Vl1 Vm1 X1 X2 ltac:(lia) ltac:(lia) ltac:(lia)
        ltac:(unfold max_bits; lia) ltac:(split; lia)) N).
  - intros B. assert (B' := B). destruct B' as (D1 & D2 & D3 & D4 & D5).
    assert (Ll : ib l * w <= addr w l) by (unfold addr; lia).
    apply breaks_ok2 with (a := addr w l - addr w f); [apply distance_eq; (assumption || lia)..|].
    apply breaks_ok2 with (a := mi); [reflexivity..|].
    destruct (Z.leb_spec n 0) as [C1|C1]; [lia|].
    destruct (Z.leb_spec (addr w l - addr w f) n) as [C2|C2]; [lia|].
    apply breaks_ok with (a := one_word f l); [apply W1; lia|].
    destruct (one_word f l) eqn:C5.
    { exfalso. unfold one_word in C5. apply Z.eqb_eq in C5.
      pose proof (one_word_len w Vw f l Vf Vl ltac:(lia) C5). unfold addr in *. lia. }
    destruct (Z.eqb_spec (ip l) 0) as [C3|C3]; cbn [negb].
    + apply (proj2 (shift_right_main_both A f l l mi n m Vf Vl Vm C3 eq_refl Em ltac:(lia) ltac:(lia) Hb I) B).
    + assert (Hmin : Z.min (ip l) (addr w mi - addr w f) = ip l) by (unfold addr in *; lia).
      assert (Al : addr w l = ib l * w + ip l) by reflexivity.
      apply breaks_ok2 with (a := addr w mi - addr w f); [apply distance_eq; (assumption || lia)..|]. cbv zeta.
      rewrite Hmin in *.
      apply breaks_bind with (Q := fun _ => True).
      { apply sim_isub; try (assumption || lia). }
      intros sc m1 _. bk.
      apply breaks_bind with (Q := fun _ => True).
      { apply sim_isub; try (assumption || lia). }
      intros ds m2 _. bk. unfold isub_assign.
      apply breaks_bind with (Q := fun mi1 => valid_it w mi1 /\ addr w mi1 = addr w mi - ip l).
      { apply sim_isub; try (assumption || lia); auto. }
      intros mi1 m3 [Vm1 Em1].
      apply breaks_bind with (Q := fun l1 => valid_it w l1 /\ addr w l1 = addr w l - ip l).
      { apply sim_isub; try (assumption || lia); auto. }
      intros l1 m4 [Vl1 El1].
      rewrite (ieq_addr w) by (assumption || lia).
      destruct (Z.eqb_spec (addr w mi1) (addr w f)) as [C4|C4]; [lia|].
      assert (X : ip l1 = 0 /\ ib l1 = ib l).
      { unfold addr, valid_it in El1, Vl1. assert (X : ib l1 * w + ip l1 = ib l * w) by lia.
        assert (ib l1 = ib l) by (clear - X Vl1 Pw; nia). rewrite H in X. lia. }
      destruct X as [X1 X2].
      apply (proj2 (shift_right_main_both A f l1 l mi1 n m4 Vf Vl1 Vm1 X1 X2 ltac:(lia) ltac:(lia) ltac:(lia)
        ltac:(unfold max_bits; lia) ltac:(split; lia)) B).
Qed.

Lemma shift_right_ptr_bad : forall A f l n m, valid_it w f -> valid_it w l ->
  addr w f <= addr w l -> addr w l - addr w f <= max_bits -> - max_bits <= n <= max_bits ->
  ~ pointable A w (addr w l - n) -> shift_right_c A p w f l n m = UB BadUse.
Proof.
  intros A f l n m Vf Vl Hd Hb Hn P.
  unfold shift_right_c. unfold max_bits in *.
  rewrite distance_eq by (assumption || lia). rewrite isub_c_bad by (assumption || lia). reflexivity.
Qed.

End Shift.
