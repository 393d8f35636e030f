(** Proofs about the algorithms over checked word iterators: those that go through
    their ranges from the front. *)
From Coq Require Import ZArith Bool List Lia.
From Verif Require Import Base WordOps IterModel PopcntModel AlgModel TransformModel Spec PtrModel SpecPtr
  ProofBase ProofIter ProofWord ProofAlg2 ProofPtr.
Import ListNotations.
Open Scope Z_scope.

Ltac sk := apply sim_skip; let x := fresh "x" in let mm := fresh "mm" in intros x mm.

Section Front.
Variable p : policy.
Variable w : Z.
Hypothesis Vw : valid_w w.

Lemma fill_ptr : forall A f l bv m, valid_it w f -> valid_it w l ->
  addr w f <= addr w l -> addr w l - addr w f <= max_bits -> inside A w (addr w f) (addr w l) ->
  fill_c A p w f l bv m = fill p w f l bv m.
Proof.
  intros A f l bv m Vf Vl Hd Hb I. pose proof (valid_pos w Vw) as Pw. unfold max_bits in Hb.
  apply sim_eq with (Q := fun _ => True). unfold fill_c, fill.
  apply sim_ok2 with (a := tt); [apply assert_viable_eq; (assumption || lia)..|].
  apply sim_dist; try (assumption || lia).
  destruct (Z.eqb_spec (addr w l - addr w f) 0) as [C0|C0]; [apply sim_same|].
  rewrite is_within_c_eq by assumption. rewrite is_within_eq by (assumption || lia).
  apply sim_ok2 with (a := addr w l - addr w f <=? w); [reflexivity..|].
  destruct (Z.leb_spec (addr w l - addr w f) w) as [C1|C1]; [apply sim_same|].
  destruct I as [I1 I2].
  assert (B1 : alo A <= ib f) by (unfold addr, valid_it in *; clear - I1 Vf Pw; nia).
  assert (B2 : ib f + 1 <= ahi A) by (unfold addr, valid_it in *; clear - I2 Vl Vf C1 Pw; nia).
  apply sim_bind with (Q := fun _ => True).
  - destruct (negb (ip f =? 0)).
    + sk. rewrite form_ok by lia. apply sim_same.
    + apply sim_same.
  - intros a m' _. apply sim_same.
Qed.

Lemma find_ptr : forall A f l bv m, valid_it w f -> valid_it w l ->
  addr w f <= addr w l -> addr w l - addr w f <= max_bits -> inside A w (addr w f) (addr w l) ->
  find_c A p w f l bv m = find p w f l bv m.
Proof.
  intros A f l bv m Vf Vl Hd Hb [I1 I2]. pose proof (valid_pos w Vw) as Pw. unfold max_bits in Hb.
  apply sim_eq with (Q := fun _ => True). unfold find_c, find. cbv zeta.
  apply sim_bind with (Q := fun _ => True); [|intros a m' _; apply sim_same].
  destruct (Z.eqb_spec (ip f) 0) as [C1|C1]; cbn [negb]; [apply sim_same|].
  sk. sk.
  assert (B1 : alo A <= ib f) by (unfold addr, valid_it in *; clear - I1 Vf Pw; nia).
  assert (B2 : ib f + b2z (ip l =? 0) <= ahi A).
  { destruct (Z.eqb_spec (ip l) 0) as [C2|C2]; cbn [b2z]; unfold addr, valid_it in *.
    - assert (ib f * w < ib l * w) by lia. assert (ib f < ib l) by (clear - H Pw; nia).
      assert (ib l <= ahi A) by (clear - I2 C2 Pw; nia). lia.
    - assert (ib f * w <= ahi A * w) by lia. clear - H Pw. nia. }
  rewrite form_ok by (destruct (ip l =? 0); cbn [b2z] in *; lia).
  apply sim_ok with (a := ib f + b2z (ip l =? 0)); [reflexivity|].
  destruct (tz_bv_spec w bv (wrap w x0) Vw) as [[T1 T2] _]; [apply wrap_range; lia|].
  set (num := tz_bv w bv (wrap w x0)) in *. clearbody num.
  destruct (Z.eqb_spec (ib f + b2z (ip l =? 0)) (ib l)) as [C2|C2].
  - apply sim_dist; try (assumption || lia). rewrite wrap_small by lia.
    apply sim_iadd_bind; try (assumption || lia). intros it' V' E'. apply sim_same.
  - assert (B3 : ib f < ib l).
    { destruct (Z.eqb_spec (ip l) 0) as [C3|C3]; cbn [b2z] in C2; unfold addr, valid_it in *.
      - assert (ib f * w < ib l * w) by lia. clear - H Pw. nia.
      - assert (ib f * w < (ib l + 1) * w) by lia. assert (ib f < ib l + 1) by (clear - H Pw; nia). lia. }
    assert (B4 : ib l <= ahi A) by (unfold addr, valid_it in *; clear - I2 Vl Pw; nia).
    destruct (Z.ltb_spec (num + ip f) w) as [C3|C3].
    + apply sim_iadd_bind; try (assumption || lia).
      * unfold addr, valid_it in *. clear - C3 B1 B3 B4 Pw Vf T1. nia.
      * intros it' V' E'. apply sim_same.
    + unfold valid_it in Vf. rewrite usub_small by lia.
      apply sim_iadd_bind; try (assumption || lia).
      * unfold addr. clear - C3 B1 B3 B4 Pw Vf T1. nia.
      * intros it' V' E'. apply sim_same.
Qed.

Lemma equal_loop_ptr : forall A B fuel it f rem m, valid_it w f -> 0 <= rem <= 2 ^ 62 ->
  inside A w (addr w f) (addr w f + rem) -> inside B w (it * w) (it * w + rem) ->
  sim (fun _ => True) (equal_loop_c A B p w fuel it f rem) (equal_loop p w fuel it f rem) m.
Proof.
  pose proof (valid_pos w Vw) as Pw.
  intros A B fuel. induction fuel as [|fuel IH]; intros it f rem m Vf Hr [I1 I2] [J1 J2];
    cbn [equal_loop_c equal_loop]; destruct (Z.leb_spec w rem) as [C|C]; try apply sim_same.
  sk. sk. destruct (negb (x =? x0)); [apply sim_same|].
  apply sim_form; [split; [|assert ((it + 1) * w <= ahi B * w) by lia; clear - H Pw; nia];
    assert (alo B * w <= it * w) by lia; clear - H Pw; nia|].
  apply sim_iadd_bind; try (assumption || lia). intros f' V' E'.
  rewrite usub_small by lia. apply IH; try (assumption || lia); split; lia.
Qed.

Lemma base_step : forall A it n, alo A * w <= it * w -> it * w + n * w <= ahi A * w -> 0 <= n ->
  alo A <= it + n <= ahi A.
Proof.
  intros A it n H1 H2 H3. pose proof (valid_pos w Vw) as Pw.
  assert (alo A <= it) by (clear - H1 Pw; nia). assert ((it + n) * w <= ahi A * w) by lia.
  clear - H H0 H3 Pw. nia.
Qed.

Lemma equal_ptr : forall A B f l d m, valid_it w f -> valid_it w l -> valid_it w d ->
  addr w f <= addr w l -> addr w l - addr w f <= max_bits ->
  inside A w (addr w f) (addr w l) -> inside B w (addr w d) (addr w d + (addr w l - addr w f)) ->
  equal_c A B p w f l d m = equal p w f l d m.
Proof.
  intros A B f l d m Vf Vl Vd Hd Hb [I1 I2] [J1 J2]. pose proof (valid_pos w Vw) as Pw. unfold max_bits in Hb.
  apply sim_eq with (Q := fun _ => True). unfold equal_c, equal.
  apply sim_ok2 with (a := tt); [apply assert_viable_eq; (assumption || lia)..|].
  rewrite (ieq_addr w) by (assumption || lia).
  destruct (Z.eqb_spec (addr w f) (addr w l)) as [C0|C0]; [apply sim_same|].
  apply sim_dist; try (assumption || lia).
  set (total := addr w l - addr w f) in *. assert (Ht : 0 < total <= 2 ^ 62) by lia.
  assert (El : addr w l = addr w f + total) by lia. clearbody total.
  apply sim_bind with (Q := fun s => match s with None => True | Some (rem, f', it) =>
    valid_it w f' /\ 0 <= rem <= total /\ addr w f' = addr w f + (total - rem) /\
    (0 < rem -> it * w = addr w d + (total - rem)) end).
  - destruct (Z.eqb_spec (ip d) 0) as [C1|C1]; cbn [negb].
    + apply sim_ret. unfold addr, valid_it in *. repeat split; lia.
    + cbv zeta. unfold valid_it in Vd. rewrite (usub_small w) by lia.
      sk. sk. sk. sk. sk. destruct (negb (Z.land (wrap w x0) x3 =? _)).
      { apply sim_ret. exact I. }
      apply sim_iadd_bind; try (assumption || lia). intros f' V' E'.
      apply sim_form.
      * unfold addr in J1, J2. clear - J1 J2 Vd Pw Ht. nia.
      * rewrite usub_small by lia. apply sim_ret. unfold addr in *. repeat split; try (lia || apply V').
  - intros [[[rem f'] it]|] m' HQ; [|apply sim_same]. destruct HQ as (V' & Hr & E' & Hit).
    destruct (Z.ltb_spec 0 rem) as [C1|C1]; [|apply sim_same]. specialize (Hit C1).
    destruct ((ip f' =? 0) && (w <=? rem)) eqn:C2.
    + apply andb_prop in C2. destruct C2 as [C2 C3]. apply Z.eqb_eq in C2. apply Z.leb_le in C3. cbv zeta.
      sk. destruct (negb x); [apply sim_same|].
      assert (Bn : 0 <= ib l - ib f' /\ (ib l - ib f') * w <= rem).
      { unfold addr, valid_it in *. assert (ib f' * w <= ib l * w + ip l) by lia. split; [|lia].
        clear - H Vl Pw. nia. }
      destruct Bn as [Bn1 Bn2]. assert (Bn0 : 0 <= (ib l - ib f') * w) by (clear - Bn1 Pw; nia).
      apply sim_form; [apply base_step; lia|].
      apply sim_iadd_bind; try (assumption || lia). intros f'' V'' E''. apply sim_same.
    + apply sim_bind with (Q := fun _ => True).
      * apply equal_loop_ptr; try (assumption || lia); split; lia.
      * intros [[[b it'] f''] rem'] m'' _. apply sim_same.
Qed.

Lemma copy_loop_ptr : forall A B fuel it f rem m, valid_it w f -> 0 <= rem <= 2 ^ 62 ->
  inside A w (addr w f) (addr w f + rem) -> inside B w (it * w) (it * w + rem) ->
  sim (fun _ => True) (copy_loop_c A B p w fuel it f rem) (copy_loop p w fuel it f rem) m.
Proof.
  pose proof (valid_pos w Vw) as Pw.
  intros A B fuel. induction fuel as [|fuel IH]; intros it f rem m Vf Hr [I1 I2] [J1 J2];
    cbn [copy_loop_c copy_loop]; destruct (Z.leb_spec w rem) as [C|C]; try apply sim_same.
  sk. sk. apply sim_form; [apply base_step; lia|].
  apply sim_iadd_bind; try (assumption || lia). intros f' V' E'.
  rewrite usub_small by lia. apply IH; try (assumption || lia); split; lia.
Qed.

Lemma copy_ptr : forall A B f l d m, valid_it w f -> valid_it w l -> valid_it w d ->
  addr w f <= addr w l -> addr w l - addr w f <= max_bits ->
  inside A w (addr w f) (addr w l) -> inside B w (addr w d) (addr w d + (addr w l - addr w f)) ->
  copy_c A B p w f l d m = copy p w f l d m.
Proof.
  intros A B f l d m Vf Vl Vd Hd Hb [I1 I2] [J1 J2]. pose proof (valid_pos w Vw) as Pw. unfold max_bits in Hb.
  apply sim_eq with (Q := fun _ => True). unfold copy_c, copy.
  apply sim_ok2 with (a := tt); [apply assert_viable_eq; (assumption || lia)..|].
  rewrite (ieq_addr w) by (assumption || lia).
  destruct (Z.eqb_spec (addr w f) (addr w l)) as [C0|C0]; [apply sim_same|].
  apply sim_dist; try (assumption || lia).
  set (total := addr w l - addr w f) in *. assert (Ht : 0 < total <= 2 ^ 62) by lia.
  assert (El : addr w l = addr w f + total) by lia. clearbody total.
  apply sim_bind with (Q := fun s => let '(rem, f', it) := s in
    valid_it w f' /\ 0 <= rem <= total /\ addr w f' = addr w f + (total - rem) /\
    (0 < rem -> it * w = addr w d + (total - rem))).
  - destruct (Z.eqb_spec (ip d) 0) as [C1|C1]; cbn [negb].
    + apply sim_ret. unfold addr, valid_it in *. repeat split; lia.
    + cbv zeta. unfold valid_it in Vd. rewrite (usub_small w) by lia.
      sk. sk. sk. sk. sk.
      apply sim_iadd_bind; try (assumption || lia). intros f' V' E'.
      apply sim_form.
      * unfold addr in J1, J2. clear - J1 J2 Vd Pw Ht. nia.
      * rewrite usub_small by lia. apply sim_ret. unfold addr in *. repeat split; try (lia || apply V').
  - intros [[rem f'] it] m' HQ. destruct HQ as (V' & Hr & E' & Hit).
    apply sim_bind with (Q := fun _ => True).
    2: { intros _ m'' _. apply sim_iadd; try (assumption || lia). }
    destruct (Z.ltb_spec 0 rem) as [C1|C1]; [|apply sim_same]. specialize (Hit C1).
    apply sim_bind with (Q := fun _ => True).
    2: { intros [[it' f''] rem'] m'' _. apply sim_same. }
    destruct ((ip f' =? 0) && (w <? rem)) eqn:C2.
    + apply andb_prop in C2. destruct C2 as [C2 C3]. apply Z.eqb_eq in C2. apply Z.ltb_lt in C3. cbv zeta.
      sk.
      assert (Bn : 0 <= ib l - ib f' /\ (ib l - ib f') * w <= rem).
      { unfold addr, valid_it in *. assert (ib f' * w <= ib l * w + ip l) by lia. split; [|lia].
        clear - H Vl Pw. nia. }
      destruct Bn as [Bn1 Bn2]. assert (Bn0 : 0 <= (ib l - ib f') * w) by (clear - Bn1 Pw; nia).
      apply sim_form; [apply base_step; lia|].
      apply sim_iadd_bind; try (assumption || lia). intros f'' V'' E''. apply sim_same.
    + apply copy_loop_ptr; try (assumption || lia); split; lia.
Qed.

Lemma transform_loop_ptr : forall A B op fuel it f rem m, valid_it w f -> 0 <= rem <= 2 ^ 62 ->
  inside A w (addr w f) (addr w f + rem) -> inside B w (it * w) (it * w + rem) ->
  sim (fun _ => True) (transform_loop_c A B p w op fuel it f rem) (transform_loop p w op fuel it f rem) m.
Proof.
  pose proof (valid_pos w Vw) as Pw.
  intros A B op fuel. induction fuel as [|fuel IH]; intros it f rem m Vf Hr [I1 I2] [J1 J2];
    cbn [transform_loop_c transform_loop]; destruct (Z.leb_spec w rem) as [C|C]; try apply sim_same.
  sk. sk. apply sim_form; [apply base_step; lia|].
  apply sim_iadd_bind; try (assumption || lia). intros f' V' E'.
  rewrite usub_small by lia. apply IH; try (assumption || lia); split; lia.
Qed.

Lemma transform1_ptr : forall A B op f l d m, valid_it w f -> valid_it w l -> valid_it w d ->
  addr w f <= addr w l -> addr w l - addr w f <= max_bits ->
  inside A w (addr w f) (addr w l) -> inside B w (addr w d) (addr w d + (addr w l - addr w f)) ->
  transform1_c A B p w op f l d m = transform1 p w op f l d m.
Proof.
  intros A B op f l d m Vf Vl Vd Hd Hb [I1 I2] [J1 J2]. pose proof (valid_pos w Vw) as Pw. unfold max_bits in Hb.
  apply sim_eq with (Q := fun _ => True). unfold transform1_c, transform1.
  apply sim_ok2 with (a := tt); [apply assert_viable_eq; (assumption || lia)..|].
  rewrite (ieq_addr w) by (assumption || lia).
  destruct (Z.eqb_spec (addr w f) (addr w l)) as [C0|C0]; [apply sim_same|].
  apply sim_dist; try (assumption || lia).
  set (total := addr w l - addr w f) in *. assert (Ht : 0 < total <= 2 ^ 62) by lia.
  assert (El : addr w l = addr w f + total) by lia. clearbody total.
  apply sim_bind with (Q := fun s => let '(rem, f', it) := s in
    valid_it w f' /\ 0 <= rem <= total /\ addr w f' = addr w f + (total - rem) /\
    (0 < rem -> it * w = addr w d + (total - rem))).
  - destruct (Z.eqb_spec (ip d) 0) as [C1|C1]; cbn [negb].
    + apply sim_ret. unfold addr, valid_it in *. repeat split; lia.
    + cbv zeta. unfold valid_it in Vd. rewrite (usub_small w) by lia.
      sk. sk. sk. sk. sk.
      apply sim_iadd_bind; try (assumption || lia). intros f' V' E'.
      apply sim_form.
      * unfold addr in J1, J2. clear - J1 J2 Vd Pw Ht. nia.
      * rewrite usub_small by lia. apply sim_ret. unfold addr in *. repeat split; try (lia || apply V').
  - intros [[rem f'] it] m' HQ. destruct HQ as (V' & Hr & E' & Hit).
    apply sim_bind with (Q := fun _ => True).
    2: { intros _ m'' _. apply sim_iadd; try (assumption || lia). }
    destruct (Z.ltb_spec 0 rem) as [C1|C1]; [|apply sim_same]. specialize (Hit C1).
    apply sim_bind with (Q := fun _ => True).
    2: { intros [[it' f''] rem'] m'' _. apply sim_same. }
    destruct ((ip f' =? 0) && (w <? rem)) eqn:C2.
    + apply andb_prop in C2. destruct C2 as [C2 C3]. apply Z.eqb_eq in C2. apply Z.ltb_lt in C3. cbv zeta.
      sk.
      assert (Bn : 0 <= ib l - ib f' /\ (ib l - ib f') * w <= rem).
      { unfold addr, valid_it in *. assert (ib f' * w <= ib l * w + ip l) by lia. split; [|lia].
        clear - H Vl Pw. nia. }
      destruct Bn as [Bn1 Bn2]. assert (Bn0 : 0 <= (ib l - ib f') * w) by (clear - Bn1 Pw; nia).
      apply sim_form; [apply base_step; lia|].
      apply sim_form; [apply base_step; unfold addr in *; lia|]. apply sim_same.
    + apply transform_loop_ptr; try (assumption || lia); split; lia.
Qed.

Lemma transform2_loop_ptr : forall A1 A2 B op fuel it f1 f2 rem m, valid_it w f1 -> valid_it w f2 ->
  0 <= rem <= 2 ^ 62 ->
  inside A1 w (addr w f1) (addr w f1 + rem) -> inside A2 w (addr w f2) (addr w f2 + rem) ->
  inside B w (it * w) (it * w + rem) ->
  sim (fun _ => True) (transform2_loop_c A1 A2 B p w op fuel it f1 f2 rem)
      (transform2_loop p w op fuel it f1 f2 rem) m.
Proof.
  pose proof (valid_pos w Vw) as Pw.
  intros A1 A2 B op fuel. induction fuel as [|fuel IH]; intros it f1 f2 rem m V1 V2 Hr [I1 I2] [K1 K2] [J1 J2];
    cbn [transform2_loop_c transform2_loop]; destruct (Z.leb_spec w rem) as [C|C]; try apply sim_same.
  sk. sk. sk. apply sim_form; [apply base_step; lia|].
  apply sim_iadd_bind; try (assumption || lia). intros f1' V1' E1'.
  apply sim_iadd_bind; try (assumption || lia). intros f2' V2' E2'.
  rewrite usub_small by lia. apply IH; try (assumption || lia); split; lia.
Qed.

Lemma transform2_ptr : forall A1 A2 B op f l f2 d m, valid_it w f -> valid_it w l -> valid_it w f2 -> valid_it w d ->
  addr w f <= addr w l -> addr w l - addr w f <= max_bits ->
  inside A1 w (addr w f) (addr w l) -> inside A2 w (addr w f2) (addr w f2 + (addr w l - addr w f)) ->
  inside B w (addr w d) (addr w d + (addr w l - addr w f)) ->
  transform2_c A1 A2 B p w op f l f2 d m = transform2 p w op f l f2 d m.
Proof.
  intros A1 A2 B op f l f2 d m Vf Vl V2 Vd Hd Hb [I1 I2] [K1 K2] [J1 J2].
  pose proof (valid_pos w Vw) as Pw. unfold max_bits in Hb.
  apply sim_eq with (Q := fun _ => True). unfold transform2_c, transform2.
  apply sim_ok2 with (a := tt); [apply assert_viable_eq; (assumption || lia)..|].
  rewrite (ieq_addr w) by (assumption || lia).
  destruct (Z.eqb_spec (addr w f) (addr w l)) as [C0|C0]; [apply sim_same|].
  apply sim_dist; try (assumption || lia).
  set (total := addr w l - addr w f) in *. assert (Ht : 0 < total <= 2 ^ 62) by lia.
  assert (El : addr w l = addr w f + total) by lia. clearbody total.
  apply sim_bind with (Q := fun s => let '(rem, f', f2', it) := s in
    valid_it w f' /\ valid_it w f2' /\ 0 <= rem <= total /\ addr w f' = addr w f + (total - rem) /\
    addr w f2' = addr w f2 + (total - rem) /\
    (0 < rem -> it * w = addr w d + (total - rem))).
  - destruct (Z.eqb_spec (ip d) 0) as [C1|C1]; cbn [negb].
    + apply sim_ret. unfold addr, valid_it in *. repeat split; lia.
    + cbv zeta. unfold valid_it in Vd. rewrite (usub_small w) by lia.
      sk. sk. sk. sk. sk. sk. sk.
      apply sim_iadd_bind; try (assumption || lia). intros f' V' E'.
      apply sim_iadd_bind; try (assumption || lia). intros f2' V2' E2'.
      apply sim_form.
      * unfold addr in J1, J2. clear - J1 J2 Vd Pw Ht. nia.
      * rewrite usub_small by lia. apply sim_ret. unfold addr in *.
        repeat split; try (lia || apply V' || apply V2').
  - intros [[[rem f'] f2'] it] m' HQ. destruct HQ as (V' & V2' & Hr & E' & E2' & Hit).
    apply sim_bind with (Q := fun _ => True).
    2: { intros _ m'' _. apply sim_iadd; try (assumption || lia). }
    destruct (Z.ltb_spec 0 rem) as [C1|C1]; [|apply sim_same]. specialize (Hit C1).
    apply sim_bind with (Q := fun _ => True).
    2: { intros [[[it' f''] f2''] rem'] m'' _. apply sim_same. }
    destruct ((ip f' =? 0) && (ip f2' =? 0) && (w <? rem)) eqn:C2.
    + apply andb_prop in C2. destruct C2 as [C2 C3]. apply andb_prop in C2. destruct C2 as [C2 C4].
      apply Z.eqb_eq in C2. apply Z.ltb_lt in C3. cbv zeta.
      sk.
      assert (Bn : 0 <= ib l - ib f' /\ (ib l - ib f') * w <= rem).
      { unfold addr, valid_it in *. assert (ib f' * w <= ib l * w + ip l) by lia. split; [|lia].
        clear - H Vl Pw. nia. }
      destruct Bn as [Bn1 Bn2]. assert (Bn0 : 0 <= (ib l - ib f') * w) by (clear - Bn1 Pw; nia).
      apply sim_form; [apply base_step; lia|].
      apply sim_iadd_bind; try (assumption || lia). intros f'' V'' E''.
      apply sim_iadd_bind; try (assumption || lia). intros f2'' V2'' E2''. apply sim_same.
    + apply transform2_loop_ptr; try (assumption || lia); split; lia.
Qed.

End Front.
