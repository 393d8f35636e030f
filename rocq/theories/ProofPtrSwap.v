(** Proofs about swap_ranges over checked word iterators. *)
From Coq Require Import ZArith Bool List Lia.
From Verif Require Import Base WordOps IterModel AlgModel SwapModel Spec PtrModel SpecPtr
  ProofBase ProofIter ProofWord ProofPtr ProofPtrFront.
Import ListNotations.
Open Scope Z_scope.

Section Swap.
Variable p : policy.
Variable w : Z.
Hypothesis Vw : valid_w w.

Lemma one_word_eq : forall A f l, valid_it w f -> valid_it w l -> addr w f < addr w l ->
  inside A w (addr w f) (addr w l) -> one_word_c A f l = Ok (ib f + b2z (ip l =? 0) =? ib l).
Proof.
  intros A f l Vf Vl Hd [I1 I2]. pose proof (valid_pos w Vw) as Pw. unfold one_word_c.
  assert (B1 : alo A <= ib f) by (unfold addr, valid_it in *; clear - I1 Vf Pw; nia).
  rewrite form_ok; [reflexivity|]. split; [destruct (ip l =? 0); cbn [b2z]; lia|].
  destruct (Z.eqb_spec (ip l) 0) as [C2|C2]; cbn [b2z]; unfold addr, valid_it in *.
  - assert (ib f * w < ib l * w) by lia. assert (ib f < ib l) by (clear - H Pw; nia).
    assert (ib l <= ahi A) by (clear - I2 C2 Pw; nia). lia.
  - assert (ib f * w <= ahi A * w) by lia. clear - H Pw. nia.
Qed.

(** Not in one word: the first word ends before last. *)
Lemma not_one_word : forall f l, valid_it w f -> valid_it w l -> addr w f < addr w l ->
  ib f + b2z (ip l =? 0) <> ib l -> ib f * w + w < addr w l /\ ib f + 1 <= ib l.
Proof.
  intros f l Vf Vl Hd N. pose proof (valid_pos w Vw) as Pw. unfold addr, valid_it in *.
  destruct (Z.eqb_spec (ip l) 0) as [C|C]; cbn [b2z] in N.
  - assert (ib f * w < ib l * w) by lia. assert (ib f + 1 <= ib l) by (clear - H Pw; nia).
    assert (ib f + 2 <= ib l) by lia. split; [|lia]. rewrite C. clear - H1 Pw. nia.
  - assert (ib f * w < (ib l + 1) * w) by lia. assert (ib f < ib l + 1) by (clear - H Pw; nia).
    assert (ib f + 1 <= ib l) by lia. split; [|lia]. assert (0 < ip l) by lia. clear - H1 H2 Pw. nia.
Qed.

Lemma one_word_len : forall f l, valid_it w f -> valid_it w l -> addr w f < addr w l ->
  ib f + b2z (ip l =? 0) = ib l -> addr w l <= ib f * w + w.
Proof.
  intros f l Vf Vl Hd N. pose proof (valid_pos w Vw) as Pw. unfold addr, valid_it in *.
  destruct (Z.eqb_spec (ip l) 0) as [C|C]; cbn [b2z] in N; rewrite <- N; lia.
Qed.

Lemma swap_one_word_ptr : forall B f l d m, valid_it w f -> valid_it w l -> valid_it w d ->
  addr w f < addr w l -> addr w l <= ib f * w + w ->
  inside B w (addr w d) (addr w d + (addr w l - addr w f)) ->
  sim (fun _ => True) (swap_one_word_c B p w f l d) (swap_one_word p w f l d) m.
Proof.
  intros B f l d m Vf Vl Vd Hd Hl [J1 J2]. pose proof (valid_pos w Vw) as Pw. unfold valid_it in *.
  assert (Hw : addr w l - addr w f <= w) by (unfold addr in *; lia).
  unfold swap_one_word_c, swap_one_word. cbv zeta.
  apply sim_dist; try (assumption || lia).
  apply sim_bind with (Q := fun _ => True).
  2: { intros _ m' _. apply sim_iadd; try (assumption || lia). }
  destruct (ip d <=? ip f); [apply sim_same|]. sk.
  rewrite (usub_small w) by lia.
  destruct (Z.ltb_spec (Z.min (addr w l - addr w f) (w - ip d)) (addr w l - addr w f)) as [C|C]; [|apply sim_same].
  apply sim_form; [|apply sim_same].
  set (len := addr w l - addr w f) in *. clearbody len. unfold addr in J1, J2.
  assert (w - ip d < len) by lia. clear - J1 J2 Vd Pw H. nia.
Qed.

Lemma swap_aligned_ptr : forall A B f l d m, valid_it w f -> valid_it w l -> valid_it w d ->
  ib f * w + w < addr w l -> ib f + 1 <= ib l -> ip f = ip d ->
  inside A w (addr w f) (addr w l) -> inside B w (addr w d) (addr w d + (addr w l - addr w f)) ->
  sim (fun _ => True) (swap_aligned_c A B p w f l d) (swap_aligned p w f l d) m.
Proof.
  intros A B f l d m Vf Vl Vd Hd Hl Hp [I1 I2] [J1 J2]. pose proof (valid_pos w Vw) as Pw. unfold valid_it in *.
  unfold swap_aligned_c, swap_aligned. cbv zeta. unfold addr in *.
  assert (B1 : alo A <= ib f) by (clear - I1 Vf Pw; nia).
  assert (B2 : ib l <= ahi A) by (clear - I2 Vl Pw; nia).
  assert (B3 : alo B <= ib d) by (clear - J1 Vd Pw; nia).
  assert (B4 : ib d + (ib l - ib f) <= ahi B).
  { assert ((ib d + (ib l - ib f)) * w <= ahi B * w) by lia. clear - H Pw. nia. }
  apply sim_form; [lia|]. apply sim_form; [lia|]. sk. sk. apply sim_form; [lia|]. apply sim_same.
Qed.

Lemma swap_loop_ptr : forall A B n it1 it2 pos dg m, 0 < pos < w ->
  inside A w (it1 * w) (it1 * w + Z.of_nat n * w) ->
  inside B w (it2 * w + pos) (it2 * w + pos + Z.of_nat n * w) ->
  sim (fun s => s = (it1 + Z.of_nat n, it2 + Z.of_nat n)) (swap_loop_c A B p w n it1 it2 pos dg)
      (swap_loop p w n it1 it2 pos dg) m.
Proof.
  pose proof (valid_pos w Vw) as Pw.
  intros A B n. induction n as [|n IH]; intros it1 it2 pos dg m Hp [I1 I2] [J1 J2]; cbn [swap_loop_c swap_loop].
  - apply sim_ret. cbn [Z.of_nat]. rewrite !Z.add_0_r. reflexivity.
  - rewrite Nat2Z.inj_succ in I2, J2. unfold Z.succ in I2, J2.
    assert (Hn : 0 <= Z.of_nat n) by lia. assert (Hn2 : 0 <= Z.of_nat n * w) by (clear - Hn Pw; nia).
    apply sim_form.
    { assert (alo B * w < (it2 + 1) * w) by lia. assert ((it2 + 1) * w < (ahi B + 1) * w) by lia.
      clear - H H0 Pw. nia. }
    sk. apply sim_form; [apply (base_step w Vw); lia|]. sk.
    eapply sim_weak; [|apply IH; [assumption|split; lia|split; lia]].
    intros s ->. f_equal; lia.
Qed.

Lemma swap_unaligned_ptr : forall A B f l d m, valid_it w f -> valid_it w l -> valid_it w d ->
  ib f * w + w < addr w l -> ib f + 1 <= ib l -> ip f <> ip d ->
  addr w l - addr w f <= max_bits ->
  inside A w (addr w f) (addr w l) -> inside B w (addr w d) (addr w d + (addr w l - addr w f)) ->
  sim (fun _ => True) (swap_unaligned_c A B p w f l d) (swap_unaligned p w f l d) m.
Proof.
  intros A B f l d m Vf Vl Vd Hd Hl Hp Hb [I1 I2] [J1 J2]. pose proof (valid_pos w Vw) as Pw.
  unfold max_bits in Hb.
  unfold swap_unaligned_c, swap_unaligned. cbv zeta.
  assert (Vf' : 0 <= ip f < w) by exact Vf. assert (Vd' : 0 <= ip d < w) by exact Vd.
  assert (Vl' : 0 <= ip l < w) by exact Vl.
  rewrite (usub_small w (ip f)) by lia.
  assert (B1 : alo A <= ib f) by (unfold addr in *; clear - I1 Vf' Pw; nia).
  assert (B2 : ib l <= ahi A) by (unfold addr in *; clear - I2 Vl' Pw; nia).
  assert (B3 : alo B <= ib d) by (unfold addr in *; clear - J1 Vd' Pw; nia).
  apply sim_bind with (Q := fun s => s = if ip d <? ip f then ib d else ib d + 1).
  - destruct (Z.ltb_spec (ip d) (ip f)) as [C|C].
    + sk. apply sim_ret. reflexivity.
    + apply sim_form.
      { assert ((ib d + 1) * w <= ahi B * w) by (unfold addr in *; lia). clear - H B3 Pw. nia. }
      sk. sk. apply sim_ret. reflexivity.
  - intros s m' ->. apply sim_form; [lia|]. unfold advance.
    apply sim_iadd_bind; try (assumption || (unfold addr in *; lia)).
    intros d' V' E'. assert (V1 : 0 <= ip d' < w) by exact V'.
    set (it2 := if ip d <? ip f then ib d else ib d + 1).
    assert (E2 : it2 = ib d' /\ 0 < ip d').
    { unfold addr in E'. unfold it2. destruct (Z.ltb_spec (ip d) (ip f)) as [C|C].
      - assert (X : ib d' * w + ip d' = ib d * w + (ip d + (w - ip f))) by lia.
        assert (ib d' = ib d) by (clear - X V1 Vd' Vf' C Pw; nia). rewrite H in X. split; [congruence|lia].
      - assert (X : ib d' * w + ip d' = (ib d + 1) * w + (ip d - ip f)) by lia.
        assert (ib d' = ib d + 1) by (clear - X V1 Vd' Vf' C Pw; nia). rewrite H in X. split; [congruence|lia]. }
    destruct E2 as [E2 E3]. clearbody it2. subst it2.
    assert (Hn : 0 <= (ib l - (ib f + 1)) * w) by (clear - Hl Pw; nia).
    eapply sim_bind.
    + apply swap_loop_ptr; [lia|split|split]; rewrite ?Z2Nat.id by lia; unfold addr in *; lia.
    + intros s m'' ->. rewrite Z2Nat.id by lia. cbn beta iota.
      destruct (Z.eqb_spec (ip l) 0) as [C|C]; cbn [negb]; [apply sim_same|].
      rewrite (usub_small w (ip d')) by lia.
      assert (Er : (ib d' + (ib l - (ib f + 1))) * w + ip d' + ip l = addr w d + (addr w l - addr w f))
        by (unfold addr in *; lia).
      destruct (Z.leb_spec (ip l) (w - ip d')) as [C2|C2].
      * sk. unfold mk_iter. destruct (Z.ltb_spec (ip d') w); [|lia].
        apply sim_ok2 with (a := It (ib d' + (ib l - (ib f + 1))) (ip d')); [reflexivity..|].
        apply sim_iadd; try assumption; try (unfold valid_it, addr in *; cbn [ib ip]; lia). 
      * apply sim_form; [|apply sim_same].
        set (b := ib d' + (ib l - (ib f + 1))) in *.
        assert (Z1 : alo B * w < (b + 1) * w) by (unfold addr in *; lia).
        assert (Z2 : (b + 1) * w < ahi B * w) by lia. clear - Z1 Z2 Pw. nia.
Qed.

Lemma swap_sim : forall A B f l d m, valid_it w f -> valid_it w l -> valid_it w d ->
  addr w f <= addr w l -> addr w l - addr w f <= max_bits ->
  inside A w (addr w f) (addr w l) -> inside B w (addr w d) (addr w d + (addr w l - addr w f)) ->
  sim (fun _ => True) (swap_ranges_c A B p w f l d) (swap_ranges p w f l d) m.
Proof.
  intros A B f l d m Vf Vl Vd Hd Hb HI HJ. pose proof (valid_pos w Vw) as Pw.
  assert (Hb' := Hb). unfold max_bits in Hb'.
  unfold swap_ranges_c, swap_ranges.
  apply sim_ok2 with (a := tt); [apply assert_viable_eq; (assumption || lia)..|].
  rewrite (ieq_addr w) by (assumption || lia).
  destruct (Z.eqb_spec (addr w f) (addr w l)) as [C0|C0]; [apply sim_same|].
  assert (Hlt : addr w f < addr w l) by lia.
  apply sim_ok with (a := ib f + b2z (ip l =? 0) =? ib l); [apply one_word_eq; assumption|].
  destruct (Z.eqb_spec (ib f + b2z (ip l =? 0)) (ib l)) as [C1|C1].
  - apply swap_one_word_ptr; try assumption. apply (one_word_len f l); assumption.
  - destruct (not_one_word f l Vf Vl Hlt C1) as [H1 H2].
    destruct (Z.eqb_spec (ip f) (ip d)) as [C2|C2].
    + apply swap_aligned_ptr; assumption.
    + apply swap_unaligned_ptr; assumption.
Qed.

End Swap.
