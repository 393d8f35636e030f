(** Proofs about the algorithms over checked word iterators: count, copy_backward and
    swap_ranges. *)
From Coq Require Import ZArith Bool List Lia.
From Verif Require Import Base WordOps IterModel PopcntModel AlgModel SwapModel Spec PtrModel SpecPtr
  ProofBase ProofIter ProofWord ProofPtr ProofPtrFront.
Import ListNotations.
Open Scope Z_scope.

(** Whenever the plain computation [c'] ends well, the checked one [c] has computed a
    pointer outside its array. *)
Definition breaks {T} (c c' : M T) (m : mem) : Prop := forall r, c' m = Ok r -> c m = UB BadUse.

Lemma breaks_bind : forall T U (Q : T -> Prop) (c c' : M T) (k k' : T -> M U) m,
  sim Q c c' m -> (forall a m', Q a -> breaks (k a) (k' a) m') -> breaks (bind c k) (bind c' k') m.
Proof.
  intros T U Q c c' k k' m [E H] K r. unfold bind. rewrite E.
  destruct (c' m) as [[a m']| | | |]; try discriminate. apply K. apply (H a m'). reflexivity.
Qed.

Lemma breaks_left : forall T U (c c' : M T) (k k' : T -> M U) m,
  breaks c c' m -> breaks (bind c k) (bind c' k') m.
Proof.
  intros T U c c' k k' m H r. unfold bind. destruct (c' m) as [x| | | |] eqn:E; try discriminate.
  intros _. rewrite (H _ E). reflexivity.
Qed.

Lemma breaks_now : forall T U r (k : T -> M U) c' m, r = UB BadUse -> breaks (bind (lift r) k) c' m.
Proof. intros T U r k c' m -> s _. reflexivity. Qed.

Lemma breaks_skip : forall T U (c : M T) (k k' : T -> M U) m,
  (forall a m', breaks (k a) (k' a) m') -> breaks (bind c k) (bind c k') m.
Proof. intros T U c k k' m H. eapply breaks_bind; [apply sim_same|]. intros. apply H. Qed.

Lemma breaks_ok : forall T U r (a : T) (k : T -> M U) c m, r = Ok a -> breaks (k a) c m ->
  breaks (bind (lift r) k) c m.
Proof. intros T U r a k c m -> H. exact H. Qed.

Lemma breaks_ok2 : forall T U r r' (a : T) (k k' : T -> M U) m, r = Ok a -> r' = Ok a -> breaks (k a) (k' a) m ->
  breaks (bind (lift r) k) (bind (lift r') k') m.
Proof. intros T U r r' a k k' m -> -> H. exact H. Qed.

Ltac bk := apply breaks_skip; let x := fresh "x" in let mm := fresh "mm" in intros x mm.

Section Back.
Variable p : policy.
Variable w : Z.
Hypothesis Vw : valid_w w.

Lemma form_ref_ok : forall A a, alo A <= a < ahi A -> form_ref A a = Ok a.
Proof.
  intros A a H. unfold form_ref. rewrite (proj2 (Z.leb_le _ _)), (proj2 (Z.ltb_lt _ _)) by lia. reflexivity.
Qed.

Lemma count_ptr : forall t A f l v m, valid_it w f -> valid_it w l ->
  addr w f <= addr w l -> addr w l - addr w f <= max_bits -> inside A w (addr w f) (addr w l) ->
  ~ (ip f <> 0 /\ ib f + 1 = ib l /\ ib l = ahi A) ->
  count_c A t p w f l v m = count t p w f l v m.
Proof.
  intros t A f l v m Vf Vl Hd Hb [I1 I2] N. pose proof (valid_pos w Vw) as Pw. unfold max_bits in Hb.
  apply sim_eq with (Q := fun _ => True). unfold count_c, count.
  apply sim_ok2 with (a := tt); [apply assert_viable_eq; (assumption || lia)..|].
  apply sim_bind with (Q := fun _ => True); [|intros a m' _; apply sim_same].
  destruct (Z.eqb_spec (ib f) (ib l)) as [C0|C0]; cbn [negb]; [apply sim_same|].
  assert (L1 : ib f + 1 <= ib l) by (unfold addr, valid_it in *; clear - Hd Vf Vl C0 Pw; nia).
  assert (B1 : alo A <= ib f) by (unfold addr, valid_it in *; clear - I1 Vf Pw; nia).
  assert (B2 : ib l <= ahi A) by (unfold addr, valid_it in *; clear - I2 Vl Pw; nia).
  apply sim_bind with (Q := fun s => alo A <= snd s < ahi A).
  - destruct (Z.eqb_spec (ip f) 0) as [C1|C1]; cbn [negb].
    + apply sim_ret. cbn [snd]. lia.
    + sk. sk. apply sim_form; [lia|]. apply sim_ret. cbn [snd]. lia.
  - intros [r it] m' HQ. cbn [snd] in HQ. rewrite form_ref_ok by assumption.
    apply sim_ok with (a := it); [reflexivity|]. apply sim_same.
Qed.

Lemma count_breaks : forall t A f l v m, valid_it w f -> valid_it w l ->
  addr w f <= addr w l -> addr w l - addr w f <= max_bits -> inside A w (addr w f) (addr w l) ->
  (ip f <> 0 /\ ib f + 1 = ib l /\ ib l = ahi A) ->
  breaks (count_c A t p w f l v) (count t p w f l v) m.
Proof.
  intros t A f l v m Vf Vl Hd Hb [I1 I2] (N1 & N2 & N3). pose proof (valid_pos w Vw) as Pw. unfold max_bits in Hb.
  unfold count_c, count.
  apply breaks_ok2 with (a := tt); [apply assert_viable_eq; (assumption || lia)..|].
  apply breaks_left.
  destruct (Z.eqb_spec (ib f) (ib l)) as [C0|C0]; cbn [negb]; [lia|].
  assert (B1 : alo A <= ib f) by (unfold addr, valid_it in *; clear - I1 Vf Pw; nia).
  apply breaks_bind with (Q := fun s => snd s = ahi A).
  - destruct (Z.eqb_spec (ip f) 0) as [C1|C1]; cbn [negb]; [lia|].
    sk. sk. apply sim_form; [lia|]. apply sim_ret. cbn [snd]. lia.
  - intros [r it] m' HQ. cbn [snd] in HQ. apply breaks_now. subst it. unfold form_ref.
    rewrite Z.ltb_irrefl, Bool.andb_false_r. reflexivity.
Qed.

Lemma copy_backward_loop_ptr : forall A B fuel it l rem m, valid_it w l -> 0 <= rem <= 2 ^ 62 ->
  inside A w (addr w l - rem) (addr w l) -> inside B w (it * w - rem) (it * w) ->
  sim (fun s => let '(it', l', rem') := s in
         valid_it w l' /\ rem' = rem mod w /\ it' = it - rem / w /\ addr w l' = addr w l - (rem - rem'))
    (copy_backward_loop_c A B p w fuel it l rem) (copy_backward_loop p w fuel it l rem) m.
Proof.
  pose proof (valid_pos w Vw) as Pw.
  intros A B fuel. induction fuel as [|fuel IH]; intros it l rem m Vl Hr [I1 I2] [J1 J2];
    cbn [copy_backward_loop_c copy_backward_loop]; destruct (Z.leb_spec w rem) as [C|C].
  - split; [reflexivity|discriminate].
  - apply sim_ret. rewrite Z.div_small, Z.mod_small by lia. repeat split; try lia; apply Vl.
  - apply sim_isub_bind; try (assumption || lia). intros s Vs Es. sk.
    assert (K : alo B <= it - 1 <= ahi B).
    { assert (alo B * w <= (it - 1) * w) by lia. assert (it * w <= ahi B * w) by lia. clear - H H0 Pw. nia. }
    apply sim_form; [assumption|]. sk. rewrite (swrap64_small (- w)) by lia.
    apply sim_iadd_bind; try (assumption || lia). intros l' V' E'. rewrite usub_small by lia.
    eapply sim_weak; [|apply IH; try (assumption || lia); split; lia].
    intros [[it' l''] rem'] (Q1 & Q2 & Q3 & Q4).
    replace rem with ((rem - w) + 1 * w) by ring. rewrite Z.mod_add, Z.div_add by lia.
    repeat split; try lia; apply Q1.
  - apply sim_ret. rewrite Z.div_small, Z.mod_small by lia. repeat split; try lia; apply Vl.
Qed.

Lemma copy_backward_both : forall A B f l d m, valid_it w f -> valid_it w l -> valid_it w d ->
  addr w f <= addr w l -> addr w l - addr w f <= max_bits ->
  inside A w (addr w f) (addr w l) -> inside B w (addr w d - (addr w l - addr w f)) (addr w d) ->
  (~ copies_to_front w B f d (addr w l - addr w f) ->
     copy_backward_c A B p w f l d m = copy_backward p w f l d m) /\
  (copies_to_front w B f d (addr w l - addr w f) ->
     breaks (copy_backward_c A B p w f l d) (copy_backward p w f l d) m).
Proof.
  intros A B f l d m Vf Vl Vd Hd Hb [I1 I2] [J1 J2]. pose proof (valid_pos w Vw) as Pw. unfold max_bits in Hb.
  unfold copy_backward_c, copy_backward.
  set (total := addr w l - addr w f) in *. assert (Ht : 0 <= total <= 2 ^ 62) by lia.
  assert (El : addr w l = addr w f + total) by lia.
  set (Q1 := fun s : Z * iter => let '(rem, l') := s in
    valid_it w l' /\ 0 <= rem <= total /\ addr w l' = addr w f + rem /\ rem = total - Z.min total (ip d)).
  assert (S1 : forall m, 0 < total -> sim Q1
    (if negb (ip d =? 0) then
       let partial := Z.min total (ip d) in
       let* x := load (ib d) in
       let! src := isub_c A w l partial in
       let* g := get_word p w src partial in
       let! s := cshl p w g (usub (ip d) partial) in
       let! v := bitblend p w x (wrap w s) (usub (ip d) partial) partial in
       store (ib d) v ;;
       let! l := iadd_c A w l (swrap64 (- partial)) in
       ret (usub total partial, l)
     else ret (total, l))
    (if negb (ip d =? 0) then
       let partial := Z.min total (ip d) in
       let* x := load (ib d) in
       let! src := isub w l partial in
       let* g := get_word p w src partial in
       let! s := cshl p w g (usub (ip d) partial) in
       let! v := bitblend p w x (wrap w s) (usub (ip d) partial) partial in
       store (ib d) v ;;
       let! l := iadd w l (swrap64 (- partial)) in
       ret (usub total partial, l)
     else ret (total, l)) m).
  { intros m0 Ht0. destruct (Z.eqb_spec (ip d) 0) as [C1|C1]; cbn [negb].
    - apply sim_ret. unfold Q1. rewrite C1, Z.min_r by lia. repeat split; try lia; apply Vl.
    - cbv zeta. unfold valid_it in Vd. sk.
      apply sim_isub_bind; try (assumption || lia). intros s Vs Es. sk. sk. sk. sk.
      rewrite (swrap64_small (- Z.min _ _)) by lia.
      apply sim_iadd_bind; try (assumption || lia). intros l' V' E'.
      rewrite usub_small by lia. apply sim_ret. unfold Q1. repeat split; try lia; apply V'. }
  assert (Ebd : addr w d = ib d * w + ip d) by reflexivity.
  unfold valid_it in Vd.
  (* what the words path needs *)
  assert (P1 : forall rem, 0 < rem -> rem = total - Z.min total (ip d) -> ib d * w = addr w d - (total - rem)).
  { intros rem H1 H2. lia. }
  split.
  - intros N. apply sim_eq with (Q := fun _ => True).
    apply sim_ok2 with (a := tt); [apply assert_viable_eq; (assumption || lia)..|].
    rewrite (ieq_addr w) by (assumption || lia).
    destruct (Z.eqb_spec (addr w f) (addr w l)) as [C0|C0]; [apply sim_same|].
    apply sim_dist; try (assumption || lia). fold total.
    apply sim_bind with (Q := Q1); [apply S1; lia|].
    intros [rem l'] m' (V' & Hr & E' & Er).
    apply sim_bind with (Q := fun _ => True).
    2: { intros _ m'' _. apply sim_isub; try (assumption || lia). }
    destruct (Z.ltb_spec 0 rem) as [C1|C1]; [|apply sim_same].
    pose proof (P1 rem C1 Er) as Eit.
    apply sim_bind with (Q := fun s => let '(it', l'', rem') := s in
      valid_it w l'' /\ 0 <= rem' <= rem /\ addr w f <= addr w l'' - rem' /\ addr w l'' - rem' <= addr w l).
    + destruct ((ip l' =? 0) && (w <? rem)) eqn:C2.
      * apply andb_prop in C2. destruct C2 as [C2 C3]. apply Z.eqb_eq in C2. apply Z.ltb_lt in C3. cbv zeta.
        unfold valid_it in Vf.
        assert (Bn : ib f + 1 <= ib l') by (unfold addr in *; clear - E' C2 C3 Vf Pw; nia).
        assert (Bn2 : 0 <= (ib l' - ib f - 1) * w) by (clear - Bn Pw; nia).
        assert (Bn3 : (ib l' - ib f - 1) * w + w - ip f = rem) by (unfold addr in *; lia).
        assert (A1 : alo A <= ib f) by (unfold addr in I1; clear - I1 Vf Pw; nia).
        assert (A2 : ib l' <= ahi A) by (unfold addr in *; assert (ib l' * w <= ahi A * w) by lia; clear - H Pw; nia).
        apply sim_form; [lia|]. sk.
        assert (K1 : alo B * w <= (ib d - (ib l' - ib f - 1) - 1) * w + ip f) by lia.
        assert (K2 : (ib d - (ib l' - ib f - 1)) * w <= ahi B * w) by lia.
        apply sim_form; [clear - K1 K2 Vf Pw; nia|].
        assert (K3 : addr w f <= addr w l' - (ib l' - ib f - 1) * w) by lia.
        apply sim_isub_bind; try (exact Vw || exact V' || lia).
        intros l'' V'' E''. apply sim_form; [clear - K1 K2 Vf Pw; nia|].
        rewrite usub_small by lia. apply sim_ret. split; [exact V''|]. lia.
      * eapply sim_bind; [apply copy_backward_loop_ptr; try (exact Vw || exact V' || lia); split; lia|].
        intros [[it' l''] rem'] m'' (V'' & Er' & Eit' & E''). pose proof (Z.mod_pos_bound rem w). 
        pose proof (Z.div_mod rem w) as DM.
        assert (K1 : it' * w = addr w d - total + rem') by (rewrite Eit', Er'; lia).
        assert (K2 : it' * w <= ahi B * w) by (pose proof (Z.mod_le rem w); lia).
        apply sim_form.
        { destruct (Z.leb_spec (alo B) (it' - 1)) as [C4|C4]; [split; [assumption|]; clear - K2 Pw; nia|].
          exfalso. apply N. fold total. split; [lia|].
          assert (Z1 : it' * w <= alo B * w) by (clear - C4 Pw; nia). split; [lia|].
          assert (Z2 : alo B * w < ib d * w) by lia. split; [clear - Z2 Pw; nia|].
          assert (Rm : rem mod w = 0) by lia. assert (Hrem : rem = w * (rem / w)) by lia.
          assert (Hip : ip l' = ip f).
          { unfold addr, valid_it in E', V', Vf.
            assert (X : ib l' * w + ip l' = (ib f + rem / w) * w + ip f) by lia.
            rewrite <- (Z.mod_small (ip l') w), <- (Z.mod_small (ip f) w) by lia.
            rewrite <- (Z.mod_add (ip l') (ib l') w), <- (Z.mod_add (ip f) (ib f + rem / w) w) by lia.
            f_equal. lia. }
          destruct (Z.eqb_spec (ip l') 0) as [C5|C5]; [|left; lia]. cbn [andb] in C2. apply Z.ltb_ge in C2.
          right. assert (Z3 : ib d * w = alo B * w + rem) by lia.
          assert (rem / w = 1) by (clear - C2 C1 Hrem Pw; nia). rewrite H0 in Hrem.
          assert ((ib d) * w = (alo B + 1) * w) by lia. clear - H1 Pw. nia. }
        apply sim_ret. split; [exact V''|]. pose proof (Z.mod_le rem w). lia.
    + intros [[it' l''] rem'] m'' (V'' & Hr' & H1 & H2). destruct (Z.ltb_spec 0 rem') as [C4|C4]; [|apply sim_same].
      sk. apply sim_isub_bind; try (exact Vw || exact V'' || lia). intros s Vs Es. apply sim_same.
  - intros (C00 & E1 & E2 & E3).
    apply breaks_ok2 with (a := tt); [apply assert_viable_eq; (assumption || lia)..|].
    rewrite (ieq_addr w) by (assumption || lia).
    destruct (Z.eqb_spec (addr w f) (addr w l)) as [C0|C0]; [lia|].
    apply breaks_ok2 with (a := total); [apply distance_eq; (assumption || lia)..|].
    apply breaks_bind with (Q := Q1); [apply S1; lia|].
    intros [rem l'] m' (V' & Hr & E' & Er).
    apply breaks_left.
    assert (Z0 : alo B * w < ib d * w) by (clear - E2 Pw; nia).
    destruct (Z.ltb_spec 0 rem) as [C1|C1]; [|lia].
    pose proof (P1 rem C1 Er) as Eit.
    assert (Hrem : rem = (ib d - alo B) * w) by lia.
    assert (Rd : rem / w = ib d - alo B) by (rewrite Hrem, Z.div_mul; lia).
    apply breaks_left.
    destruct ((ip l' =? 0) && (w <? rem)) eqn:C2.
    + exfalso. apply andb_prop in C2. destruct C2 as [C2 C3]. apply Z.eqb_eq in C2. apply Z.ltb_lt in C3.
      assert (Hip : ip l' = ip f).
      { unfold addr, valid_it in E', V', Vf.
        assert (X : ib l' * w + ip l' = (ib f + (ib d - alo B)) * w + ip f) by lia.
        rewrite <- (Z.mod_small (ip l') w), <- (Z.mod_small (ip f) w) by lia.
        rewrite <- (Z.mod_add (ip l') (ib l') w), <- (Z.mod_add (ip f) (ib f + (ib d - alo B)) w) by lia.
        f_equal. lia. }
      destruct E3 as [E3|E3]; [lia|]. rewrite E3 in Hrem. lia.
    + eapply breaks_bind; [apply copy_backward_loop_ptr; try (exact Vw || exact V' || lia); split; lia|].
      intros [[it' l''] rem'] m'' (V'' & Er' & Eit' & E''). apply breaks_now. apply form_bad. lia.
Qed.

End Back.
