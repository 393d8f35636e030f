(** Programs over several bit_vectors under the shift rules of the language: a
    statement either meets the rules or executes an undefined shift. *)
From Coq Require Import ZArith Bool List Lia ZifyBool.
From Verif Require Import Base WordOps IterModel PopcntModel AlgModel ShiftModel ReverseModel Spec
  SpecRotate VecModel SpecVec ClientModel SpecClient ProofBase ProofIter ProofUndefined ProofVec
  ProofVec2 ProofVec3 ProofVec4 ProofVec5 ProofClient ProofClient2 ProofClient3.
Import ListNotations.
Open Scope Z_scope.
Ltac Zify.zify_post_hook ::= idtac.

Section Rules.
Variables (t : target) (p : policy) (h : bool -> Z -> Z -> Z) (w : Z) (vs : list bvec).
Hypothesis Vw : valid_w w.
Hypothesis Vs : Forall (vec_ok w) vs.
Let ls := map (vbits w) vs.

Lemma bad_pos : forall x i A (k : iter -> M A) m, - 2 ^ 62 <= i <= 2 ^ 62 ->
  (forall it, valid_it w it -> addr w it = base w x + i -> bad (k it) m) ->
  bad (bind (lift (pos w x i)) k) m.
Proof.
  intros x i A k m Hi H. apply bad_right.
  pose proof (width w Vw) as Pw.
  assert (W : wp (bind (lift (pos w x i)) (fun it => ret it)) m (fun it m' => bad (k it) m')).
  { apply (wp_pos w Vw); [exact Hi|]. intros it Vi Ai. apply wp_ret. apply H; assumption. }
  apply wp_exists in W. destruct W as (it & m' & E & B). unfold bind, ret in E.
  destruct (lift (pos w x i) m) as [[it' m1]| | | |] eqn:E'; try discriminate.
  injection E as -> ->. apply (wp_ok _ _ _ _ _ _ E'). exact B.
Qed.

Lemma blend_dec : full_blend_defined p w \/ ~ full_blend_defined p w.
Proof.
  unfold full_blend_defined. destruct p; [tauto| |tauto]. destruct (Z_lt_dec w 32); tauto.
Qed.

Lemma words_of : forall x i j f l, valid_it w f -> valid_it w l -> addr w f = base w x + i ->
  addr w l = base w x + j -> (ib l - ib f) * w = (j - j mod w) - (i - i mod w).
Proof.
  intros x i j f l Vf Vl Af Al. pose proof (pos_of w Vw x i f Vf Af) as Pf.
  pose proof (pos_of w Vw x j l Vl Al) as Pl. unfold addr in *. rewrite Pf in Af.
  rewrite Pl in Al. lia.
Qed.

Lemma alg_rules : forall a, alg_pre t (Hw h) w ls a ->
  alg_pre t p w ls a \/ ~ alg_pre t p w ls a /\ bad (alg_call t p w a) (pool vs).
Proof.
  intros a Pre. pose proof (width w Vw) as Pw. pose proof (pool_wf w vs Vs) as Wf.
  destruct a; cbn [alg_pre alg_call] in *; try (left; exact Pre).
  - destruct Pre as (R & Hm & _).
    pose proof (range_max w vs Vw Vs _ _ _ R) as Rm.
    destruct (Z.eq_dec (i mod w) 0) as [C1|C1]; [left; auto 10|].
    destruct (Z.eq_dec (j mod w) 0) as [C2|C2]; [|left; auto 10].
    destruct (Z_lt_dec (j - i) w) as [C3|C3]; [|left; split; [exact R|]; split; [exact Hm|]; right; right; left; lia].
    destruct blend_dec as [C4|C4]; [left; auto 10|right].
    split; [intros (_ & _ & [X|[X|[X|X]]]); auto; lia|].
    apply bad_pos; [lia|]. intros f Vf Af. apply bad_pos; [lia|]. intros l Vl Al.
    apply bad_left, (reverse_bad p w); try assumption.
    + apply (row_range w vs Vw Vs x i j); assumption.
    + rewrite (pos_of w Vw x i f Vf Af). exact C1.
    + rewrite (pos_of w Vw x j l Vl Al). exact C2.
    + pose proof (words_of x i j f l Vf Vl Af Al). pose proof (Z.mod_pos_bound i w ltac:(lia)).
      nia.
  - destruct Pre as (R & _).
    pose proof (range_max w vs Vw Vs _ _ _ R) as Rm.
    destruct (Z_lt_dec 0 n) as [C1|C1]; [|left; split; [exact R|]; intros; lia].
    destruct (Z_lt_dec n (j - i)) as [C2|C2]; [|left; split; [exact R|]; intros; lia].
    destruct (shift_dec p w i j) as [D|D]; [left; auto 10|right].
    split; [intros (_ & F); apply D, F; lia|].
    apply bad_pos; [lia|]. intros f Vf Af. apply bad_pos; [lia|]. intros l Vl Al.
    destruct (undefined_word p w f l Vw Vf Vl) as (U1 & U2 & U3 & U4).
    { unfold shift_defined in *. rewrite Af, Al, base_mod by lia.
      replace (base w x + j - (base w x + i)) with (j - i) by ring. exact D. }
    apply bad_left, (shift_left_bad p w); try assumption.
    + apply (row_range w vs Vw Vs x i j); assumption.
    + unfold shift_defined in D. destruct (Z.eq_dec (j - i) w) as [E|E]; [lia|tauto].
  - destruct Pre as (R & _).
    pose proof (range_max w vs Vw Vs _ _ _ R) as Rm.
    destruct (Z_lt_dec 0 n) as [C1|C1]; [|left; split; [exact R|]; intros; lia].
    destruct (Z_lt_dec n (j - i)) as [C2|C2]; [|left; split; [exact R|]; intros; lia].
    destruct (shift_dec p w i j) as [D|D]; [left; auto 10|right].
    split; [intros (_ & F); apply D, F; lia|].
    apply bad_pos; [lia|]. intros f Vf Af. apply bad_pos; [lia|]. intros l Vl Al.
    destruct (undefined_word p w f l Vw Vf Vl) as (U1 & U2 & U3 & U4).
    { unfold shift_defined in *. rewrite Af, Al, base_mod by lia.
      replace (base w x + j - (base w x + i)) with (j - i) by ring. exact D. }
    apply bad_left, (shift_right_bad p w); try assumption.
    + apply (row_range w vs Vw Vs x i j); assumption.
    + unfold shift_defined in D. destruct (Z.eq_dec (j - i) w) as [E|E]; [lia|tauto].
  - destruct Pre as (R & R' & Ho & _).
    pose proof (range_max w vs Vw Vs _ _ _ R) as Rm.
    pose proof (range_max w vs Vw Vs _ _ _ R') as Rm'.
    destruct (Z.eq_dec (i mod w) 0) as [C1|C1]; [|left; auto 10].
    destruct (Z.eq_dec (j mod w) (d mod w)) as [C2|C2]; [|left; auto 10].
    destruct (Z_lt_dec (j - i) (2 * w)) as [C3|C3]; [left; auto 10|].
    destruct blend_dec as [C4|C4]; [left; auto 10|right].
    split; [intros (_ & _ & _ & [X|[X|[X|X]]]); auto; lia|].
    apply bad_pos; [lia|]. intros f Vf Af. apply bad_pos; [lia|]. intros l Vl Al.
    apply bad_pos; [lia|]. intros o Vo Ao. assert (Ed : addr w l - addr w f = j - i) by lia.
    apply bad_left, (copy_backward_bad p w); try assumption.
    + apply (row_range w vs Vw Vs x i j); assumption.
    + rewrite Ed. split; [assumption|]. rewrite Ao.
      destruct R' as (R1 & R2 & R3). destruct (vec_in w vs Vw Vs y R1) as (u & Ev & V & Rv & Lv).
      fold ls in Rv, Lv. pose proof V as (V1 & V2 & V3).
      replace (base w y + d - (j - i)) with (base w y + (d - (j - i))) by ring.
      apply (pool_mapped w vs y u); try assumption; unfold wsize; lia.
    + rewrite Af, Al, Ao. destruct (Nat.eq_dec x y) as [->|N]; [destruct (Ho eq_refl); lia|].
      destruct (apart w Vw x y j d N ltac:(lia) ltac:(lia)); lia.
    + rewrite (pos_of w Vw x i f Vf Af). exact C1.
    + rewrite (pos_of w Vw x j l Vl Al), (pos_of w Vw y d o Vo Ao). exact C2.
    + pose proof (words_of x i j f l Vf Vl Af Al). pose proof (Z.mod_pos_bound j w ltac:(lia)).
      nia.
Qed.
End Rules.

Lemma rbad_lift : forall A (c : M A) m, bad c m -> rbad (c m).
Proof. intros A c m (k & E & H). exists k. auto. Qed.

Lemma cstep_rules : forall t p h w vs c, valid_w w -> Forall (vec_ok w) vs ->
  cpre t (Hw h) w (map (vbits w) vs) c ->
  cpre t p w (map (vbits w) vs) c \/
  ~ cpre t p w (map (vbits w) vs) c /\ rbad (cstep t p w vs c).
Proof.
  intros t p h w vs c Vw Vs Pre. pose proof (valid_pos w Vw) as Pw.
  destruct c as [a|x o|x i y j k|x y|x y r|x y r1 r2|y|s|n b|y j k|x]; cbn [cpre cstep] in *;
    try (left; exact Pre).
  - destruct (alg_rules t p h w vs Vw Vs a Pre) as [L|[N B]]; [left; exact L|right].
    split; [exact N|]. apply rbad_bind. destruct B as (k & E & Hk). exists k.
    unfold alg_step. rewrite E. auto.
  - destruct Pre as [Hx Pre]. destruct (vec_in w vs Vw Vs x Hx) as (v & E & V & R & L).
    rewrite R in *. destruct (vstep_rules p h w v o Vw V Pre) as [Q|[N B]]; [left; auto|right].
    split; [tauto|]. unfold vec_at. rewrite E. cbn [rbind]. apply rbad_bind, B.
  - destruct Pre as (Hx & Nxy & Ry & Hi & Hl & Hs). pose proof Ry as (Hy & Hj & Hk).
    destruct (vec_in w vs Vw Vs x Hx) as (v & E & V & R & L).
    destruct (vec_in w vs Vw Vs y Hy) as (u & Eu & Vu & Ru & Lu).
    rewrite R, Ru in *. pose proof Vu as (U1 & U2 & U3).
    assert (P : vpre (Hw h) w (vbits w v) (OpInsertRange i (vwords u) j k)).
    { cbn [vpre]. unfold zlen at 2 3. repeat split; try assumption; try lia. }
    destruct (vstep_rules p h w v _ Vw V P) as [Q|[N B]]; [left|right].
    + cbn [vpre] in Q. intuition auto.
    + split; [|unfold vec_at; rewrite E, Eu; cbn [rbind]; apply rbad_bind, B].
      intros (_ & _ & _ & _ & _ & F). apply N. cbn [vpre] in *. intuition auto.
Qed.

(** The claim for one statement and for programs. *)
Lemma statement_rules : forall t p h w, valid_w w -> forall vs c, Forall (vec_ok w) vs ->
  cpre t (Hw h) w (map (vbits w) vs) c ->
  (cpre t p w (map (vbits w) vs) c <-> forall k, cstep t p w vs c <> UB k) /\
  (~ cpre t p w (map (vbits w) vs) c ->
     exists k, cstep t p w vs c = UB k /\ (k = OverShift \/ k = NegShift)).
Proof.
  intros t p h w Vw vs c Vs Pre. destruct (cstep_rules t p h w vs c Vw Vs Pre) as [Q|[N B]].
  - split; [|intros; contradiction]. split; [|auto]. intros _ k E.
    destruct (cstep_ok t p w Vw vs c Vs Q) as (o & vs' & E' & _). congruence.
  - split; [|auto]. split; [contradiction|]. intros H. exfalso. destruct B as (k & E & _).
    exact (H k E).
Qed.

Lemma program_rules : forall t p h w, valid_w w -> forall cs vs, Forall (vec_ok w) vs ->
  cpre_all t (Hw h) w (map (vbits w) vs) cs ->
  (exists os vs', crun t p w vs cs = Ok (os, vs') /\ Forall (vec_ok w) vs' /\
     cspec_all w (map (vbits w) vs) cs os (map (vbits w) vs')) \/
  (exists cs1 c cs2 os vs1 k, cs = cs1 ++ c :: cs2 /\ crun t p w vs cs1 = Ok (os, vs1) /\
     cspec_all w (map (vbits w) vs) cs1 os (map (vbits w) vs1) /\
     ~ cpre t p w (map (vbits w) vs1) c /\
     crun t p w vs cs = UB k /\ (k = OverShift \/ k = NegShift)).
Proof.
  intros t p h w Vw. induction cs as [|c cs IH]; intros vs Vs Pre.
  - left. exists [], vs. cbn. auto.
  - cbn [cpre_all] in Pre. destruct Pre as [P1 P2].
    destruct (cstep_rules t p h w vs c Vw Vs P1) as [Q|[N B]].
    + destruct (cstep_ok t p w Vw vs c Vs Q) as (o & vs1 & E & V1 & S).
      destruct (IH vs1 V1 (P2 _ _ S))
        as [(os & vs2 & E2 & V2 & S2)|(cs1 & c' & cs2 & os & vs2 & k & -> & E2 & S2 & N & E3 & Hk)].
      * left. exists (o :: os), vs2. cbn [crun cspec_all]. rewrite E. cbn [rbind]. rewrite E2.
        cbn [rbind]. split; [reflexivity|]. split; [exact V2|]. exists (map (vbits w) vs1). auto.
      * right. exists (c :: cs1), c', cs2, (o :: os), vs2, k. cbn [app crun cspec_all].
        rewrite E. cbn [rbind]. rewrite E2, E3. cbn [rbind]. repeat split; auto.
        exists (map (vbits w) vs1). auto.
    + right. destruct B as (k & E & Hk). exists [], c, cs, [], vs, k. cbn [app crun cspec_all].
      rewrite E. cbn [rbind]. repeat split; auto.
Qed.
