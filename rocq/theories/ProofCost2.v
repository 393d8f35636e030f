(** Bounds on the accesses of copy_backward, swap_ranges, the shifts, reverse and rotate. *)
From Coq Require Import ZArith Bool List Lia.
From Verif Require Import Base WordOps IterModel PopcntModel Spec ProofBase ProofIter
  AlgModel ShiftModel ReverseModel ThreadModel TraceModel SpecCost ProofCost.
Import ListNotations.
Open Scope Z_scope.

Lemma c_copy_backward_loop : forall p w, valid_w w -> forall n R it last, 0 <= R < 2 ^ 63 ->
  Z.of_nat n = R / w ->
  within (copy_backward_loop p w n it last R) (2 * Z.of_nat n) (Z.of_nat n)
    (fun '(_, _, r) => r = R mod w).
Proof.
  intros p w Vw. pose proof (valid_pos w Vw) as W.
  induction n as [|n IH]; intros R it first HR Hn; cbn [copy_backward_loop].
  - destruct (Z.leb_spec w R).
    + pose proof (Z.div_le_lower_bound R w 1). lia.
    + w1. rewrite Z.mod_small by lia. reflexivity.
  - destruct (Z.leb_spec w R).
    + w1. wb c_get_word. intros x _. do 2 w1. rewrite usub_small by lia.
      eapply within_mono; [apply IH|lia|lia|].
      * lia.
      * replace (R - w) with (R + (-1) * w) by lia. rewrite Z.div_add by lia. lia.
      * intros [[? ?] ?] ->. replace (R - w) with (R + (-1) * w) by lia.
        rewrite Z.mod_add by lia. reflexivity.
    + rewrite Z.div_small in Hn by lia. lia.
Qed.

(** The words of a destination given by its end. *)
Definition rest_back (d : iter) (N : Z) : Z :=
  if ip d =? 0 then N else N - Z.min N (ip d).

Lemma words_split_back : forall w d N, 0 < w -> valid_it w d -> 0 < N ->
  words_of w (addr w d - N) (addr w d) =
    (if ip d =? 0 then 0 else 1) + rest_back d N / w + (if rest_back d N mod w =? 0 then 0 else 1).
Proof.
  intros w d N Hw Hd HN. set (e := It ((addr w d - N) / w) ((addr w d - N) mod w)).
  assert (Ve : valid_it w e) by (unfold e, valid_it; cbn; apply Z.mod_pos_bound; lia).
  assert (Ae : addr w e = addr w d - N).
  { unfold e, addr; cbn [ib ip]. pose proof (Z.div_mod (ib d * w + ip d - N) w ltac:(lia)). lia. }
  rewrite <- Ae, words_of_it by (assumption || lia). unfold rest_back, valid_it in *.
  clearbody e. unfold addr in *.
  assert (S : forall R k, R = k * w - ip e -> ib d - ib e = k ->
    k = R / w + (if R mod w =? 0 then 0 else 1)).
  { intros R k E _. destruct (Z.eqb_spec (ip e) 0) as [C|C].
    - rewrite <- (Z.div_unique R w k 0), <- (Z.mod_unique R w k 0) by lia. cbn [Z.eqb]. lia.
    - rewrite <- (Z.div_unique R w (k - 1) (w - ip e)),
        <- (Z.mod_unique R w (k - 1) (w - ip e)) by lia.
      destruct (Z.eqb_spec (w - ip e) 0); lia. }
  destruct (Z.eqb_spec (ip d) 0) as [C|C].
  - pose proof (S N (ib d - ib e) ltac:(lia) eq_refl). lia.
  - destruct (Z.leb_spec N (ip d)) as [C1|C1].
    + rewrite Z.min_l, Z.sub_diag by lia. rewrite Z.div_0_l, Z.mod_0_l by lia. cbn [Z.eqb]. nia.
    + rewrite Z.min_r by lia. pose proof (S (N - ip d) (ib d - ib e) ltac:(lia) eq_refl). lia.
Qed.

Lemma rest_back_bound : forall w d N, valid_it w d -> 0 <= N -> 0 <= rest_back d N <= N.
Proof. intros w d N Hd HN. unfold rest_back, valid_it in *. destruct (ip d =? 0); lia. Qed.

Lemma c_copy_backward : forall p w first last d, valid_w w -> valid_it w first ->
  valid_it w last -> valid_it w d -> 0 <= addr w last - addr w first <= max_bits ->
  let T := words_of w (addr w d - (addr w last - addr w first)) (addr w d) in
  within (copy_backward p w first last d) (3 * T) T any.
Proof.
  intros p w first last d Vw V1 V2 Vd H T. pose proof (valid_pos w Vw) as W.
  pose proof (words_of_nonneg w (addr w d - (addr w last - addr w first)) (addr w d) ltac:(lia)) as T0.
  unfold copy_backward, max_bits in *. cbv zeta.
  rewrite assert_viable_eq, distance_eq by (assumption || lia). w1.
  rewrite (ieq_addr w) by (assumption || lia).
  destruct (Z.eqb_spec (addr w first) (addr w last)) as [C0|C0]; [ws|]. w1.
  set (N := addr w last - addr w first) in *. subst T.
  revert T0. rewrite words_split_back by (assumption || lia). intros T0.
  pose proof (rest_back_bound w d N Vd ltac:(lia)) as RB.
  set (R := rest_back d N) in *.
  assert (0 <= R / w) by (apply Z.div_pos; lia).
  apply within_bind with (r1 := if ip d =? 0 then 0 else 3) (n1 := if ip d =? 0 then 0 else 1)
    (P := fun '(r, l) => r = R /\ addr w l = addr w first + R /\ valid_it w l).
  - unfold R, rest_back. destruct (Z.eqb_spec (ip d) 0) as [C1|C1]; cbn [negb].
    + w1. split; [reflexivity|]. split; [unfold N; lia|assumption].
    + do 2 w1. wb c_get_word. intros g _. unfold valid_it in Vd.
      do 3 w1. wl l Hl. w1. unfold advance in *. rewrite swrap64_small in Hl by lia.
      edestruct (iadd_exact w last (- Z.min N (ip d)) Vw V2) as [f' [F1 [F2 F3]]].
      { unfold valid_it in V2. lia. }
      rewrite F1 in Hl. injection Hl as <-. rewrite usub_small by lia. rewrite F3.
      split; [reflexivity|]. split; [unfold N; lia|assumption].
  - destruct (ip d =? 0), (R mod w =? 0); lia.
  - destruct (ip d =? 0), (R mod w =? 0); lia.
  - intros [r l] [-> [F Vl]].
    destruct (Z.ltb_spec 0 R) as [C1|C1].
    2:{ destruct (ip d =? 0), (R mod w =? 0); ws. }
    set (Q := R / w + (if R mod w =? 0 then 0 else 1)).
    apply within_bind with (r1 := 3 * Q) (n1 := Q) (P := any).
    + assert (TL : forall it l r k, 0 <= k -> k + (if 0 <? r then 1 else 0) <= Q ->
        within (if 0 <? r then
           tbind (load it) (fun x => tbind (lift (isub w l r)) (fun src =>
           tbind (get_word p w src r) (fun g => tbind (lift (cshl p w g (usub w r))) (fun s =>
           tbind (lift (bitblend p w x (wrap w s) (usub w r) r)) (fun v => store it v)))))
         else ret tt) (3 * Q - 2 * k) (Q - k) any).
      { intros it l' r k K0. destruct (0 <? r); intros HK; [|ws].
        do 2 w1. wb c_get_word. intros g _. ws. }
      destruct ((ip l =? 0) && (w <? R)) eqn:C2.
      * set (n := ib l - ib first - 1).
        assert (E : R = w * n + (w - ip first)) by (unfold n, addr, valid_it in *; lia).
        assert (Hn : 0 <= n) by (unfold valid_it in V1; nia).
        assert (EQ : Q = n + 1).
        { unfold Q, valid_it in *. destruct (Z.eqb_spec (ip first) 0) as [C3|C3].
          - rewrite <- (Z.div_unique R w (n + 1) 0), <- (Z.mod_unique R w (n + 1) 0) by lia.
            cbn [Z.eqb]. lia.
          - rewrite <- (Z.div_unique R w n (w - ip first)),
              <- (Z.mod_unique R w n (w - ip first)) by lia.
            destruct (Z.eqb_spec (w - ip first) 0); lia. }
        cbv zeta. apply wb_assoc.
        eapply within_bind; [apply c_words_copy_backward|lia|lia|]. intros _ _.
        apply wb_assoc. apply wb_lift; [lia|lia|]. intros l' _. apply wb_ret.
        eapply within_mono; [apply (TL _ _ _ n); [lia|]|lia|lia|auto].
        destruct (0 <? _); lia.
      * apply wb_assoc.
        eapply within_bind; [apply c_copy_backward_loop; [assumption|lia|lia]| | |].
        -- unfold Q. destruct (R mod w =? 0); lia.
        -- unfold Q. destruct (R mod w =? 0); lia.
        -- intros [[it' l'] r'] ->. apply wb_ret.
           eapply within_mono; [apply (TL _ _ _ (R / w)); [lia|]|lia|lia|auto].
           unfold Q. pose proof (Z.mod_pos_bound R w).
           destruct (Z.ltb_spec 0 (R mod w)), (Z.eqb_spec (R mod w) 0); lia.
    + unfold Q. destruct (ip d =? 0), (R mod w =? 0); lia.
    + unfold Q. destruct (ip d =? 0), (R mod w =? 0); lia.
    + intros _ _. unfold Q. destruct (ip d =? 0), (R mod w =? 0); ws.
Qed.

(** swap_ranges: at most 12 reads and 6 writes for every word of the first range. *)
Lemma c_swap_loop : forall p w n a b s l,
  within (swap_loop p w n a b s l) (12 * Z.of_nat n) (6 * Z.of_nat n)
    (fun '(x, _) => x = a + Z.of_nat n).
Proof.
  intros p w. induction n as [|n IH]; intros; cbn [swap_loop].
  - w1. lia.
  - wb c_bitexch3. intros _ _. wb c_bitexch3. intros _ _.
    eapply within_mono; [apply IH|lia|lia|]. intros [x y] ->. lia.
Qed.

Lemma c_swap_ranges : forall p w first last first2, valid_w w -> valid_it w first ->
  valid_it w last -> 0 <= addr w last - addr w first <= max_bits ->
  let T := words_of w (addr w first) (addr w last) in
  within (swap_ranges p w first last first2) (12 * T) (6 * T) any.
Proof.
  intros p w first last first2 Vw V1 V2 H T. pose proof (valid_pos w Vw) as W.
  pose proof (words_of_nonneg w (addr w first) (addr w last) ltac:(lia)) as T0.
  unfold swap_ranges, max_bits in *. cbv zeta.
  rewrite assert_viable_eq by (assumption || lia). w1.
  rewrite (ieq_addr w) by (assumption || lia).
  destruct (Z.eqb_spec (addr w first) (addr w last)) as [C0|C0]; [ws|].
  assert (ET : T = ib last - ib first + (if ip last =? 0 then 0 else 1))
    by (apply words_of_it; assumption || lia). clearbody T.
  assert (T1 : ib first <= ib last) by (unfold addr, valid_it in *; nia).
  assert (T2 : ip last = 0 -> ib first < ib last) by (unfold addr, valid_it in *; nia).
  destruct (Z.eqb_spec (ib first + b2z (ip last =? 0)) (ib last)) as [C1|C1].
  - assert (T = 1).
    { rewrite ET. unfold b2z in C1. destruct (ip last =? 0); lia. }
    unfold swap_one_word. cbv zeta. w1.
    destruct (ip first2 <=? ip first).
    + wb c_bitexch3. intros _ _. ws.
    + w1. wb c_bitexch3. intros _ _. destruct (_ <? _); [wb c_bitexch3; intros _ _; ws|ws].
  - assert (T3 : ib first < ib last).
    { unfold b2z in C1. destruct (Z.eqb_spec (ip last) 0); lia. }
    assert (T4 : 1 <= T) by (rewrite ET; destruct (ip last =? 0); lia).
    destruct (ip first =? ip first2).
    + unfold swap_aligned. cbv zeta. wb c_bitexch2. intros _ _.
      eapply within_bind; [apply c_words_swap|destruct (ip last =? 0); lia|destruct (ip last =? 0); lia|].
      intros _ _. destruct (ip last =? 0); cbn [negb]; [ws|]. wb c_bitexch2. intros _ _. ws.
    + unfold swap_unaligned. cbv zeta.
      apply within_bind with (r1 := 12) (n1 := 6) (P := any).
      * destruct (_ <? _); wb c_bitexch3; intros _ _; [ws|wb c_bitexch3; intros _ _; ws].
      * destruct (ip last =? 0); lia.
      * destruct (ip last =? 0); lia.
      * intros it2 _. apply wb_lift; [destruct (ip last =? 0); lia|destruct (ip last =? 0); lia|].
        intros f2 _.
        eapply within_bind; [apply c_swap_loop|destruct (ip last =? 0); lia|destruct (ip last =? 0); lia|].
        intros [x y] ->. destruct (ip last =? 0); cbn [negb]; [ws|].
        destruct (_ <=? _); wb c_bitexch3; intros _ _; [ws|wb c_bitexch3; intros _ _; ws].
Qed.
