(** Programs over several bit_vectors in the BITLIB_HWY build. *)
From Coq Require Import ZArith Bool List Lia.
From Coq Require Import ZifyBool.
From Verif Require Import Base WordOps IterModel RefModel PopcntModel AlgModel TransformModel
  ShiftModel SwapModel ReverseModel RotateModel VecModel HwyModel HwyAlgModel HwyVecModel
  ClientModel HwyClientModel Spec SpecRotate SpecHwy SpecStd SpecVec SpecPoint SpecClient
  SpecHwyClient ProofBase ProofIter ProofWord ProofRange ProofShift ProofReverse ProofRotate
  ProofHwy ProofHwyRight ProofHwyAlg ProofHwyAlgLang ProofVec ProofVec2 ProofVec3 ProofVec4
  ProofVec5 ProofOracle ProofClient ProofClient2 ProofClient3 ProofHwyVec ProofHwyProg.
Import ListNotations.
Open Scope Z_scope.
Ltac Zify.zify_post_hook ::= idtac.

Lemma alike_refl : forall A (c : M A) m, alike c m c m.
Proof.
  intros A c m. unfold alike. destruct (c m) as [[r m']|k| | |]; try reflexivity.
  exists m'. split; reflexivity.
Qed.

Lemma alike_end : forall A (x : A) m1 m2, (forall a, m1 a = m2 a) -> alike (ret x) m1 (ret x) m2.
Proof. intros A x m1 m2 H. unfold alike, ret. exists m2. auto. Qed.

Lemma alike_see : forall w x it m1 m2, (forall a, m1 a = m2 a) ->
  alike (see_pos w x it) m1 (see_pos w x it) m2.
Proof. intros w x it m1 m2 H. unfold see_pos. apply alike_lift. intros n _. apply alike_end, H. Qed.

(** A storage of the pool lies where the storage of the call lies. *)
Lemma place_shift : forall h w x a, valid_w w ->
  at_64 h w (Z.of_nat x * stride + a) <-> at_64 h w a.
Proof.
  intros h w x a Vw. unfold at_64, byte_addr.
  replace (origin h + (Z.of_nat x * stride + a) * (w / 8))
    with (origin h + a * (w / 8) + (Z.of_nat x * 2 ^ 54 * (w / 8)) * 64)
    by (unfold stride; change (2 ^ 60) with (2 ^ 54 * 64); ring).
  rewrite Z.mod_add by lia. reflexivity.
Qed.

Lemma looked_at_shift : forall h w x f m l a, valid_w w ->
  looked_at h w (Z.of_nat x * stride + f) (Z.of_nat x * stride + m) (Z.of_nat x * stride + l)
    (Z.of_nat x * stride + a) <-> looked_at h w f m l a.
Proof.
  intros h w x f m l a Vw. set (X := Z.of_nat x * stride). unfold looked_at.
  split; intros (j & J1 & J2 & J3 & J4); exists j; (split; [exact J1|]); (split; [lia|]);
    (split; [lia|]); intros i Hi; specialize (J4 i Hi).
  - intros K. apply J4. replace (X + l - i - lanes h) with (X + (l - i - lanes h)) by lia.
    apply place_shift; assumption.
  - intros K. apply J4. replace (X + l - i - lanes h) with (X + (l - i - lanes h)) in K by lia.
    apply place_shift in K; assumption.
Qed.

Lemma last_shift_move : forall fuel w d a l r,
  last_shift fuel w (d + a) l r =
  option_map (fun x => match x with (a, b, n) => (d + a, d + b, n) end) (last_shift fuel w a l r).
Proof.
  induction fuel as [|f IH]; intros w d a l r; [reflexivity|]. rewrite !last_shift_S.
  destruct (l <? r).
  - destruct ((l <=? w) || (r mod l =? 0)); [reflexivity|]. rewrite <- Z.add_assoc. apply IH.
  - destruct (r <=? w); [cbn [option_map]; replace (d + a + l + r) with (d + (a + l + r)) by lia; reflexivity|].
    destruct (l mod r =? 0); [reflexivity|]. apply IH.
Qed.

Lemma rotate_shift_move : forall w d a l r,
  rotate_shift w (d + a) l r =
  option_map (fun x => match x with (a, b, n) => (d + a, d + b, n) end) (rotate_shift w a l r).
Proof.
  intros w d a l r. unfold rotate_shift. destruct (l <=? w); [reflexivity|]. apply last_shift_move.
Qed.

Lemma last_shift_facts : forall fuel w a l r a' b n, 0 < w -> 0 <= l -> 0 < r ->
  last_shift fuel w a l r = Some (a', b, n) -> a <= a' /\ b <= a + l + r /\ 0 < n.
Proof.
  induction fuel as [|f IH]; intros w a l r a' b n Pw Hl Hr E; [discriminate E|].
  rewrite last_shift_S in E. destruct (Z.ltb_spec l r) as [C|C].
  - destruct ((l <=? w) || (r mod l =? 0)) eqn:D; [discriminate E|].
    pose proof (Z.mod_pos_bound r l ltac:(lia)). apply IH in E; lia.
  - destruct (r <=? w); [injection E as <- <- <-; lia|].
    destruct (Z.eqb_spec (l mod r) 0) as [D|D]; [discriminate E|].
    pose proof (Z.mod_pos_bound l r ltac:(lia)).
    pose proof (Z.mod_le l r ltac:(lia) ltac:(lia)). apply IH in E; lia.
Qed.

Section Calls.
Variables (t : target) (p : policy) (h : simd_unit) (w : Z) (vs : list bvec).
Hypothesis Vw : valid_w w.
Hypothesis Hfit : vector_fits h w.
Hypothesis Vs : Forall (vec_ok w) vs.
Let ls := map (vbits w) vs.

Lemma pos_inv : forall x i f, - 2 ^ 62 <= i <= 2 ^ 62 -> pos w x i = Ok f ->
  valid_it w f /\ addr w f = base w x + i /\ ib f = Z.of_nat x * stride + i / w /\ ip f = i mod w.
Proof.
  intros x i f Hi E. pose proof (width w Vw) as Pw. unfold pos in E.
  assert (H : rwp (iadd w (pool_begin x) i) (fun it => valid_it w it /\ addr w it = base w x + i)).
  { apply rwp_iadd; [assumption|apply pool_begin_valid; lia|exact Hi|].
    intros it V A. rewrite pool_begin_addr in A. auto. }
  rewrite E in H. cbn in H. destruct H as [V A]. split; [exact V|]. split; [exact A|].
  split; [rewrite (word_of w f Vw V), A, base_div by lia; reflexivity|].
  apply (pos_of w Vw x); assumption.
Qed.

Lemma pos_ok : forall x i, - 2 ^ 62 <= i <= 2 ^ 62 -> exists f, pos w x i = Ok f.
Proof.
  intros x i Hi. pose proof (width w Vw) as Pw. unfold pos.
  assert (H : rwp (iadd w (pool_begin x) i) (fun _ => True)).
  { apply rwp_iadd; [assumption|apply pool_begin_valid; lia|exact Hi|auto]. }
  destruct (iadd w (pool_begin x) i) as [f| | | |]; try contradiction. exists f. reflexivity.
Qed.

(** The words of a vector, and those in front of it. *)
Lemma words_formed : forall x i l a, (x < length ls)%nat -> 0 <= i <= zlen (row x ls) ->
  l <= (i + (w - 1)) / w -> 0 <= a < l ->
  may_be_formed (pool vs) (Z.of_nat x * stride + a).
Proof.
  intros x i l a Hx Hi Hl Ha. left. pose proof (width w Vw) as Pw.
  destruct (vec_in w vs Vw Vs x Hx) as (v & E & V & R & L). fold ls in R, L.
  pose proof V as (V1 & V2 & V3). pose proof (size_stride w v ltac:(lia) V).
  rewrite (pool_word vs x v); [discriminate|assumption| |assumption]. split; [lia|].
  unfold wsize. assert ((i + (w - 1)) / w < Z.of_nat (length (vwords v)) + 1); [|lia].
  apply Z.div_lt_upper_bound; nia.
Qed.

Lemma front_unmapped : forall x a, -64 <= a < 0 -> pool vs (Z.of_nat x * stride + a) = None.
Proof.
  intros x a Ha. unfold pool. pose proof (width w Vw) as Pw.
  destruct (Z.ltb_spec (Z.of_nat x * stride + a) 0) as [C|C]; [reflexivity|].
  assert (Hd : (Z.of_nat x * stride + a) / stride = Z.of_nat x - 1 /\
    (Z.of_nat x * stride + a) mod stride = stride + a).
  { assert (0 < stride) by reflexivity. assert (64 < stride) by reflexivity.
    replace (Z.of_nat x * stride + a) with (stride + a + (Z.of_nat x - 1) * stride) by ring.
    rewrite Z.div_add, Z.mod_add by lia. rewrite Z.div_small, Z.mod_small by lia. lia. }
  destruct Hd as [-> ->].
  destruct (nth_error vs (Z.to_nat (Z.of_nat x - 1))) as [v|] eqn:E; [|reflexivity].
  rewrite Forall_forall in Vs. destruct (Vs v ltac:(eapply nth_error_In, E)) as (_ & _ & V3).
  destruct (Z.ltb_spec (stride + a) (wsize (vwords v))) as [D|D]; [|reflexivity]. exfalso.
  unfold wsize, max_bits, stride in *. change (2 ^ 62) with (2 ^ 60 * 4) in V3. nia.
Qed.

Lemma moved_middle : forall X j n, ((X + j) * w - n) / w = X + (j * w - n) / w.
Proof.
  intros X j n. pose proof (width w Vw) as Pw.
  replace ((X + j) * w - n) with (X * w + (j * w - n)) by ring. apply Z.div_add_l. lia.
Qed.

(** What the addresses of a shift to the right have to be. *)
Lemma shift_formed : forall x i j n, (x < length ls)%nat -> 0 <= i -> 0 <= j <= zlen (row x ls) -> 0 < n ->
  inserts_inside h w i n j -> n mod w <> 0 ->
  forall a, looked_at h w (Z.of_nat x * stride + i / w)
    (((Z.of_nat x * stride + j / w) * w - n) / w) (Z.of_nat x * stride + j / w) a ->
  may_be_formed (pool vs) a.
Proof.
  intros x i j n Hx Hi Hj Hn H Hm a L. pose proof (width w Vw) as Pw.
  replace a with (Z.of_nat x * stride + (a - Z.of_nat x * stride)) in * by lia.
  rewrite moved_middle in L. apply (proj1 (looked_at_shift h w x _ _ _ _ Vw)) in L.
  pose proof (H Hm _ L) as H0. destruct L as (q & Q1 & Q2 & _).
  apply (words_formed x j (j / w)); try assumption; [apply Z.div_le_mono; lia|].
  destruct Hfit. lia.
Qed.

Lemma alg_call_alike : forall a, alg_pre t p w ls a ->
  match p with Hw _ => True | _ => alg_inside h w a end ->
  alike (alg_call_hwy t p h w a) (pool vs) (alg_call t p w a) (pool vs).
Proof.
  intros a Pre Hin. pose proof (width w Vw) as Pw. pose proof (pool_wf w vs Vs) as Wf.
  destruct a; cbn [alg_pre alg_call_hwy alg_call] in *;
    match goal with |- alike ?c1 _ ?c2 _ => first [constr_eq c1 c2; exact (alike_refl _ c1 _)|idtac] end.
  - pose proof (range_max w vs Vw Vs _ _ _ Pre) as Rm.
    apply alike_lift; intros f Ef. apply pos_inv in Ef; [|lia]. destruct Ef as (Vf & Af & _).
    apply alike_lift; intros l El. apply pos_inv in El; [|lia]. destruct El as (Vl & Al & _).
    apply alike_bind; [|intros; apply alike_end; assumption].
    apply alike_agree, fill_hwy_same; try assumption. apply (row_range w vs Vw Vs x i j); assumption.
  - destruct Pre as (R & Hm & Hs). pose proof (range_max w vs Vw Vs _ _ _ R) as Rm.
    apply alike_lift; intros f Ef. apply pos_inv in Ef; [|lia]. destruct Ef as (Vf & Af & Bf & Pf).
    apply alike_lift; intros l El. apply pos_inv in El; [|lia]. destruct El as (Vl & Al & Bl & Pl).
    apply alike_bind; [|intros; apply alike_end; assumption].
    pose proof (row_range w vs Vw Vs x i j f l R Vf Vl Af Al) as G.
    assert (He : addr w f = addr w l -> ip f = 0 \/ pool vs (ib f) <> None).
    { intros Ee. destruct (Z.eq_dec (i mod w) 0) as [C|C]; [left; congruence|right].
      apply (row_word w vs Vw Vs x i f); try assumption; [apply R|].
      destruct R as (R1 & R2 & R3). fold ls. lia. }
    assert (Hb : ip f = 0 \/ ip l <> 0 \/ ib l - ib f <> 1 \/ full_blend_defined p w).
    { rewrite Pf, Pl. destruct Hs as [Hs|[Hs|[Hs|Hs]]]; auto.
      destruct (Z.eq_dec (i mod w) 0) as [C|C]; [auto|].
      destruct (Z.eq_dec (j mod w) 0) as [C'|C']; [|auto]. right. right. left. intros D.
      unfold addr in Af, Al. pose proof (Z.mod_pos_bound i w ltac:(lia)).
      rewrite Pf in Af. rewrite Pl in Al. nia. }
    assert (Hmx : addr w l - addr w f + 2 * w <= max_bits) by lia.
    apply alike_agree.
    assert (H1 : exists m', reverse_hwy p h w f l (pool vs) = Ok (tt, m') /\
      updated w (pool vs) m' (addr w f) (addr w l)
        (fun i => bit w (pool vs) (addr w l - 1 - (i - addr w f)))).
    { destruct p as [| |o]; [| |apply reverse_hwy_hw; assumption];
        (apply reverse_hwy_inside; try assumption; cbv zeta; rewrite Al, Pf, Bf;
         intros C a L; cbn [alg_inside] in Hin; cbv zeta in Hin;
         assert (Ee : (base w x + j + (w - 1)) / w = Z.of_nat x * stride + (j + (w - 1)) / w)
           by (rewrite <- Z.add_assoc, base_div by lia; reflexivity);
         rewrite Ee in *;
         replace a with (Z.of_nat x * stride + (a - Z.of_nat x * stride)) in * by lia;
         rewrite <- Z.add_sub_assoc in L; apply (proj1 (looked_at_shift h w x _ _ _ _ Vw)) in L;
         destruct R as (R1 & R2 & R3);
         assert (Hd : (j + (w - 1)) / w * w - j < i mod w) by (unfold base in C; lia);
         pose proof (Hin Hd _ L) as H0; destruct L as (q & Q1 & Q2 & _);
         apply (words_formed x j ((j + (w - 1)) / w)); try assumption; [fold ls; lia|lia|];
         destruct Hfit; lia). }
    destruct H1 as (m1 & E1 & U1).
    destruct (reverse_ok p w (pool vs) f l Vw Wf G Hmx He Hb) as (m2 & E2 & U2).
    exists tt, m1, m2. split; [exact E1|]. split; [exact E2|].
    exact (updated_same w _ m1 m2 _ _ _ ltac:(lia) U1 U2).
  - destruct Pre as (R & Hk & Hq & Hmf). pose proof (range_max w vs Vw Vs _ _ _ R) as Rm.
    apply alike_lift; intros f Ef. apply pos_inv in Ef; [|lia]. destruct Ef as (Vf & Af & Bf & Pf).
    apply alike_lift; intros c Ec. apply pos_inv in Ec; [|lia]. destruct Ec as (Vc & Ac & Bc & Pc).
    apply alike_lift; intros l El. apply pos_inv in El; [|lia]. destruct El as (Vl & Al & Bl & Pl).
    apply alike_bind; [|intros; apply alike_see; assumption].
    pose proof (row_range w vs Vw Vs x i j f l R Vf Vl Af Al) as G.
    assert (Hmf' : mask_fits w (ip f) (addr w l - addr w f)).
    { rewrite Pf. replace (addr w l - addr w f) with (j - i) by lia. exact Hmf. }
    apply alike_agree. destruct p as [| |o]; [| |apply rotate_hwy_same; try assumption; lia];
      (apply rotate_hwy_inside; try assumption; [lia|]; intros a b n; rewrite Af, Ac, Al, rotate_shift_move;
       replace (base w x + k - (base w x + i)) with (k - i) by ring;
       replace (base w x + j - (base w x + k)) with (j - k) by ring;
       destruct (rotate_shift w i (k - i) (j - k)) as [[[a0 b0] n0]|] eqn:Er; [|discriminate];
       cbn [option_map]; intros Q; injection Q as <- <- <-;
       assert (Fx : i <= a0 /\ b0 <= i + (k - i) + (j - k) /\ 0 < n0)
         by (unfold rotate_shift in Er; destruct (k - i <=? w); [discriminate Er|];
             apply last_shift_facts in Er; lia);
       intros Hn y L; rewrite !base_div in L by lia;
       destruct R as (R1 & R2 & R3);
       assert (Hb0 : 0 <= b0) by
         (destruct (Z.leb_spec 0 b0) as [Cb|Cb]; [exact Cb|]; exfalso; destruct L as (q & Q1 & Q2 & Q3 & _);
          rewrite moved_middle in Q3;
          assert ((b0 / w * w - n0) / w <= a0 / w); [|lia];
          apply Z.div_le_mono; [lia|]; pose proof (Z.mul_div_le b0 w ltac:(lia)); lia);
       apply (shift_formed x a0 b0 n0); try assumption; try (fold ls; lia);
       cbn [alg_inside] in Hin; apply (Hin _ _ _ Er); lia).
  - destruct Pre as (R & Hs). pose proof (range_max w vs Vw Vs _ _ _ R) as Rm.
    apply alike_lift; intros f Ef. apply pos_inv in Ef; [|lia]. destruct Ef as (Vf & Af & Bf & Pf).
    apply alike_lift; intros l El. apply pos_inv in El; [|lia]. destruct El as (Vl & Al & Bl & Pl).
    apply alike_bind; [|intros; apply alike_see; assumption].
    apply alike_agree, shift_left_hwy_same; try assumption.
    { apply (row_range w vs Vw Vs x i j); assumption. }
    rewrite Af, Al. intros Hn. unfold shift_defined in *. rewrite base_mod by lia.
    replace (base w x + j - (base w x + i)) with (j - i) in * by ring. apply Hs. lia.
  - destruct Pre as (R & Hs). pose proof (range_max w vs Vw Vs _ _ _ R) as Rm.
    apply alike_lift; intros f Ef. apply pos_inv in Ef; [|lia]. destruct Ef as (Vf & Af & Bf & Pf).
    apply alike_lift; intros l El. apply pos_inv in El; [|lia]. destruct El as (Vl & Al & Bl & Pl).
    apply alike_bind; [|intros; apply alike_see; assumption].
    pose proof (row_range w vs Vw Vs x i j f l R Vf Vl Af Al) as G.
    destruct (Z.leb_spec n 0) as [C|C].
    { destruct (shifts_hwy_none p h w (pool vs) f l n Vw G) as [N1 _].
      apply alike_agree. exists f, (pool vs), (pool vs).
      destruct (shift_right_none p w (pool vs) f l n Vw G) as [S1 _].
      split; [apply N1, C|]. split; [apply S1, C|reflexivity]. }
    apply alike_agree, shift_right_hwy_same; try assumption.
    + intros Hm a L. rewrite Bf, Bl in L. destruct R as (R1 & R2 & R3).
      destruct p as [| |o]; [| |exact I]; (apply may_point_in, (shift_formed x i j n); try assumption;
        [lia|fold ls; lia|apply Hin, C]).
    + rewrite Af, Al. intros Hn. unfold shift_defined in *. rewrite base_mod by lia.
      replace (base w x + j - (base w x + i)) with (j - i) in * by ring. apply Hs. lia.
  - pose proof (range_max w vs Vw Vs _ _ _ Pre) as Rm.
    apply alike_lift; intros f Ef. apply pos_inv in Ef; [|lia]. destruct Ef as (Vf & Af & Bf & Pf).
    apply alike_lift; intros l El. apply pos_inv in El; [|lia]. destruct El as (Vl & Al & _).
    apply alike_bind; [|intros; apply alike_see; assumption].
    apply alike_agree, find_hwy_same; try assumption.
    { apply (row_range w vs Vw Vs x i j); assumption. }
    intros N. apply (row_word w vs Vw Vs x i f); try assumption; [apply Pre| |congruence].
    destruct Pre as (R1 & R2 & R3). fold ls. lia.
Qed.

Lemma unpool_ext : forall us k m m', (forall a, m a = m' a) -> unpool k us m = unpool k us m'.
Proof.
  induction us as [|v us IH]; intros k m m' H; [reflexivity|]. cbn [unpool]. f_equal; [|apply IH, H].
  f_equal. apply map_ext. intros n. rewrite H. reflexivity.
Qed.

Lemma alg_step_hwy_same : forall a, alg_pre t p w ls a ->
  match p with Hw _ => True | _ => alg_inside h w a end ->
  alg_step_hwy t p h w vs a = alg_step t p w vs a.
Proof.
  intros a Pre Hin. pose proof (alg_call_alike a Pre Hin) as H. unfold alike in H.
  unfold alg_step_hwy, alg_step. destruct (alg_call_hwy t p h w a (pool vs)) as [[r m]|k| | |];
    try (rewrite H; reflexivity).
  destruct H as (m' & E & H). rewrite E. rewrite (unpool_ext _ _ m m' H). reflexivity.
Qed.
End Calls.

(** ** A statement that forms a pointer in front of the storage *)
Section Front.
Variables (t : target) (p : policy) (h : simd_unit) (w : Z) (vs : list bvec).
Hypothesis Hp : p = Strict17 \/ p = Strict20.
Hypothesis Vw : valid_w w.
Hypothesis Hfit : vector_fits h w.
Hypothesis Vs : Forall (vec_ok w) vs.
Let ls := map (vbits w) vs.

Lemma alg_front : forall a, alg_pre t p w ls a ->
  alg_call_hwy t p h w a (pool vs) <> UB OutOfBounds -> alg_inside h w a.
Proof.
  intros a Pre E. pose proof (width w Vw) as Pw. pose proof (pool_wf w vs Vs) as Wf.
  destruct a; cbn [alg_inside]; try exact I; cbn [alg_pre alg_call_hwy] in Pre, E.
  - destruct Pre as (R & Hm & Hs). pose proof (range_max w vs Vw Vs _ _ _ R) as Rm.
    cbv zeta. intros C a L. destruct (Z.leb_spec 0 a) as [Ca|Ca]; [exact Ca|]. exfalso. apply E.
    destruct (pos_ok w Vw x i ltac:(lia)) as (f & Ef). destruct (pos_ok w Vw x j ltac:(lia)) as (l & El).
    unfold bind, lift. rewrite Ef, El.
    apply (pos_inv w Vw) in Ef; [|lia]. destruct Ef as (Vf & Af & Bf & Pf).
    apply (pos_inv w Vw) in El; [|lia]. destruct El as (Vl & Al & Bl & Pl).
    assert (Na : -62 <= a).
    { destruct L as (q & Q1 & Q2 & Q3 & _). assert (0 <= i / w) by (apply Z.div_pos; lia).
      destruct Hfit as [H1 H2]. assert (lanes h <= 64); [|lia].
      destruct (Z.leb_spec (lanes h) 64) as [C1|C1]; [exact C1|].
      rewrite Z.mod_small in H2 by nia. discriminate H2. }
    assert (Ee : (addr w l + (w - 1)) / w = Z.of_nat x * stride + (j + (w - 1)) / w)
      by (rewrite Al, <- Z.add_assoc, base_div by lia; reflexivity).
    rewrite (reverse_hwy_pointer p h w (pool vs) f l (Z.of_nat x * stride + a)); try assumption;
      [reflexivity|..].
    + apply (row_range w vs Vw Vs x i j); assumption.
    + lia.
    + rewrite Ee, Pf, Al. unfold base. lia.
    + rewrite Ee, Bf, <- Z.add_sub_assoc. apply looked_at_shift; assumption.
    + apply (front_unmapped w vs Vw Vs). lia.
    + rewrite <- Z.add_sub_assoc. apply (front_unmapped w vs Vw Vs). lia.
  - destruct Pre as (R & Hk & Hq & Hmf). pose proof (range_max w vs Vw Vs _ _ _ R) as Rm.
    intros a b n Er _ Hn y L. destruct (Z.leb_spec 0 y) as [Ca|Ca]; [exact Ca|]. exfalso. apply E.
    destruct (pos_ok w Vw x i ltac:(lia)) as (f & Ef). destruct (pos_ok w Vw x k ltac:(lia)) as (c & Ec).
    destruct (pos_ok w Vw x j ltac:(lia)) as (l & El).
    unfold bind, lift. rewrite Ef, Ec, El.
    apply (pos_inv w Vw) in Ef; [|lia]. destruct Ef as (Vf & Af & Bf & Pf).
    apply (pos_inv w Vw) in Ec; [|lia]. destruct Ec as (Vc & Ac & Bc & Pc).
    apply (pos_inv w Vw) in El; [|lia]. destruct El as (Vl & Al & Bl & Pl).
    assert (Fx : i <= a /\ b <= i + (k - i) + (j - k) /\ 0 < n)
      by (unfold rotate_shift in Er; destruct (k - i <=? w); [discriminate Er|];
          apply last_shift_facts in Er; lia).
    pose proof (looked_at_near h w a n b y Vw Hfit ltac:(lia) ltac:(lia) L) as Na.
    rewrite (rotate_hwy_pointer p h w (pool vs) f c l (base w x + a) (base w x + b) n
      (Z.of_nat x * stride + y)); try assumption; [reflexivity|..].
    + apply (row_range w vs Vw Vs x i j); assumption.
    + lia.
    + rewrite Af, Ac, Al, rotate_shift_move.
      replace (base w x + k - (base w x + i)) with (k - i) by ring.
      replace (base w x + j - (base w x + k)) with (j - k) by ring. rewrite Er. reflexivity.
    + rewrite !base_div, (moved_middle w Vw) by lia. apply looked_at_shift; assumption.
    + apply (front_unmapped w vs Vw Vs). lia.
    + rewrite <- Z.add_sub_assoc. apply (front_unmapped w vs Vw Vs). lia.
  - destruct Pre as (R & Hs). pose proof (range_max w vs Vw Vs _ _ _ R) as Rm.
    intros Hn Hm a L. destruct (Z.leb_spec 0 a) as [Ca|Ca]; [exact Ca|]. exfalso. apply E.
    destruct (pos_ok w Vw x i ltac:(lia)) as (f & Ef). destruct (pos_ok w Vw x j ltac:(lia)) as (l & El).
    unfold bind, lift. rewrite Ef, El.
    apply (pos_inv w Vw) in Ef; [|lia]. destruct Ef as (Vf & Af & Bf & Pf).
    apply (pos_inv w Vw) in El; [|lia]. destruct El as (Vl & Al & Bl & Pl).
    pose proof (looked_at_near h w i n j a Vw Hfit ltac:(lia) ltac:(lia) L) as Na.
    assert (Hd : n < j - i).
    { destruct (Z.ltb_spec n (j - i)) as [C|C]; [exact C|]. exfalso.
      destruct L as (q & Q1 & Q2 & Q3 & _). assert ((j / w * w - n) / w <= i / w); [|lia].
      apply Z.div_le_mono; [lia|]. pose proof (Z.mul_div_le j w ltac:(lia)). lia. }
    rewrite (shift_right_pointer p h w (pool vs) f l n (Z.of_nat x * stride + a)); try assumption;
      [reflexivity|..].
    + apply (row_range w vs Vw Vs x i j); assumption.
    + lia.
    + rewrite Bf, Bl, (moved_middle w Vw). apply looked_at_shift; assumption.
    + apply (front_unmapped w vs Vw Vs). lia.
    + rewrite <- Z.add_sub_assoc. apply (front_unmapped w vs Vw Vs). lia.
Qed.
End Front.

Lemma insert_pre : forall p w vs v u x y i j k, valid_w w -> Forall (vec_ok w) vs ->
  nth_error vs x = Some v -> nth_error vs y = Some u ->
  range_in (map (vbits w) vs) y j k -> 0 <= i <= zlen (row x (map (vbits w) vs)) ->
  zlen (row x (map (vbits w) vs)) + (k - j) <= 2 ^ 24 ->
  (j < k -> i < zlen (row x (map (vbits w) vs)) ->
     shift_defined p w i (zlen (row x (map (vbits w) vs)) + (k - j))) ->
  vpre p w (vbits w v) (OpInsertRange i (vwords u) j k).
Proof.
  intros p w vs v u x y i j k Vw Vs Ev Eu (_ & R2 & R3) Hi Hl Hs. pose proof (valid_pos w Vw) as Pw.
  rewrite (row_map w vs x v Ev) in *. rewrite (row_map w vs y u Eu) in R3.
  assert (Vu : vec_ok w u) by (rewrite Forall_forall in Vs; apply Vs; eapply nth_error_In, Eu).
  pose proof (vbits_length w u ltac:(lia) Vu) as Lu. destruct Vu as (U1 & U2 & U3).
  cbn [vpre]. unfold zlen at 2 3. repeat split; try assumption; lia.
Qed.

Lemma cstep_hwy_same : forall t p h w vs c, valid_w w -> vector_fits h w -> Forall (vec_ok w) vs ->
  cpre t p w (map (vbits w) vs) c ->
  match p with Hw _ => True | _ => statement_inside h w (map (vbits w) vs) c end ->
  cstep_hwy t p h w vs c = cstep t p w vs c.
Proof.
  intros t p h w vs c Vw Hfit Vs Pre Hin. pose proof (valid_pos w Vw) as Pw.
  destruct c as [a|x o|x i y j k|x y|x y r|x y r1 r2|y|s|n b|y j k|x];
    cbn [cpre cstep_hwy cstep statement_inside] in *;
    match goal with |- ?a = ?b => first [constr_eq a b; exact eq_refl | idtac] end.
  - rewrite alg_step_hwy_same; try assumption. reflexivity.
  - destruct Pre as [Hx Pre]. destruct (vec_in w vs Vw Vs x Hx) as (v & E & V & R & L).
    unfold vec_at. rewrite E. cbn [rbind]. rewrite R in *.
    rewrite vstep_hwy_same; try assumption. reflexivity.
  - destruct Pre as (Hx & Nxy & Ry & Hi & Hl & Hs). pose proof Ry as (Hy & Hj & Hk).
    destruct (vec_in w vs Vw Vs x Hx) as (v & E & V & R & L).
    destruct (vec_in w vs Vw Vs y Hy) as (u & Eu & Vu & Ru & Lu).
    pose proof (insert_pre p w vs v u x y i j k Vw Vs E Eu Ry Hi Hl Hs) as P.
    unfold vec_at. rewrite E, Eu. cbn [rbind]. rewrite R in *.
    rewrite vstep_hwy_same; try assumption. reflexivity.
Qed.

Lemma cstep_front : forall t p h w vs c, p = Strict17 \/ p = Strict20 -> valid_w w ->
  vector_fits h w -> Forall (vec_ok w) vs -> cpre t p w (map (vbits w) vs) c ->
  cstep_hwy t p h w vs c <> UB OutOfBounds -> statement_inside h w (map (vbits w) vs) c.
Proof.
  intros t p h w vs c Hp Vw Hfit Vs Pre Q. pose proof (valid_pos w Vw) as Pw.
  destruct c as [a|x o|x i y j k|x y|x y r|x y r1 r2|y|s|n b|y j k|x];
    cbn [statement_inside]; try exact I; cbn [cpre cstep_hwy] in Pre, Q.
  - apply (alg_front t p h w vs Hp Vw Hfit Vs a Pre). intros E. apply Q.
    unfold alg_step_hwy. rewrite E. reflexivity.
  - destruct Pre as [Hx Pre]. destruct (vec_in w vs Vw Vs x Hx) as (v & E & V & R & L).
    unfold vec_at in Q. rewrite E in Q. cbn [rbind] in Q. rewrite R in *.
    apply (vstep_hwy_front p); try assumption. intros F. apply Q. rewrite F. reflexivity.
  - destruct Pre as (Hx & Nxy & Ry & Hi & Hl & Hs). pose proof Ry as (Hy & Hj & Hk).
    destruct (vec_in w vs Vw Vs x Hx) as (v & E & V & R & L).
    destruct (vec_in w vs Vw Vs y Hy) as (u & Eu & Vu & Ru & Lu).
    pose proof (insert_pre p w vs v u x y i j k Vw Vs E Eu Ry Hi Hl Hs) as P.
    unfold vec_at in Q. rewrite E, Eu in Q. cbn [rbind] in Q. rewrite R in *.
    apply (vstep_hwy_front p h w v (OpInsertRange i (vwords u) j k)); try assumption.
    intros F. apply Q. rewrite F. reflexivity.
Qed.

Lemma statement_hwy_undefined : forall t p h w vs c, p = Strict17 \/ p = Strict20 -> valid_w w ->
  vector_fits h w -> Forall (vec_ok w) vs -> cpre t p w (map (vbits w) vs) c ->
  cstep_hwy t p h w vs c = UB OutOfBounds <-> ~ statement_inside h w (map (vbits w) vs) c.
Proof.
  intros t p h w vs c Hp Vw Hfit Vs Pre. split.
  - intros E K. rewrite cstep_hwy_same in E; try assumption; [|destruct p; (exact I || exact K)].
    destruct (cstep_ok t p w Vw vs c Vs Pre) as (o & vs' & E' & _). congruence.
  - intros N. destruct (is_oob _ (cstep_hwy t p h w vs c)) as [E|E]; [exact E|exfalso].
    apply N, (cstep_front t p); assumption.
Qed.

Lemma crun_hwy_gen : forall t p n w cs vs, valid_w w -> vector_fits (Unit n 0) w ->
  Forall (vec_ok w) vs -> cpre_all t p w (map (vbits w) vs) (map snd cs) ->
  match p with Hw _ => True | _ => program_inside n w (map (vbits w) vs) cs end ->
  crun_hwy t p n w vs cs = crun t p w vs (map snd cs).
Proof.
  intros t p n w cs. induction cs as [|[place c] cs IH]; intros vs Vw Hfit Vs Pre Hin; [reflexivity|].
  cbn [map snd crun_hwy crun cpre_all] in *. destruct Pre as [P1 P2].
  rewrite cstep_hwy_same; try assumption.
  2:{ destruct p; [apply Hin..|exact I]. }
  destruct (cstep_ok t p w Vw vs c Vs P1) as (o & vs1 & E & V1 & S). rewrite E. cbn [rbind].
  rewrite IH; try assumption; [reflexivity|exact (P2 _ _ S)|].
  destruct p; [apply (proj2 Hin _ _ S)..|exact I].
Qed.

Lemma crun_hwy_same : forall t o n w cs vs, valid_w w -> vector_fits (Unit n 0) w ->
  Forall (vec_ok w) vs -> cpre_all t (Hw o) w (map (vbits w) vs) (map snd cs) ->
  crun_hwy t (Hw o) n w vs cs = crun t (Hw o) w vs (map snd cs).
Proof. intros t o n w cs vs Vw Hfit Vs Pre. apply crun_hwy_gen; try assumption. exact I. Qed.

Lemma crun_hwy_ok : forall t o n w cs vs, valid_w w -> vector_fits (Unit n 0) w ->
  Forall (vec_ok w) vs -> cpre_all t (Hw o) w (map (vbits w) vs) (map snd cs) ->
  exists os vs', crun_hwy t (Hw o) n w vs cs = Ok (os, vs') /\ Forall (vec_ok w) vs' /\
    cspec_all w (map (vbits w) vs) (map snd cs) os (map (vbits w) vs').
Proof.
  intros t o n w cs vs Vw Hfit Vs Pre. rewrite crun_hwy_same by assumption.
  apply crun_ok; assumption.
Qed.

Lemma crun_hwy_inside : forall t p n w cs vs, valid_w w -> vector_fits (Unit n 0) w ->
  Forall (vec_ok w) vs -> cpre_all t p w (map (vbits w) vs) (map snd cs) ->
  program_inside n w (map (vbits w) vs) cs ->
  exists os vs', crun_hwy t p n w vs cs = Ok (os, vs') /\ Forall (vec_ok w) vs' /\
    cspec_all w (map (vbits w) vs) (map snd cs) os (map (vbits w) vs').
Proof.
  intros t p n w cs vs Vw Hfit Vs Pre Hin. rewrite crun_hwy_gen; try assumption.
  - apply crun_ok; assumption.
  - destruct p; (exact I || exact Hin).
Qed.

(** A program runs as on lists, or as on lists up to a statement that looks at a word in
    front of the storage. *)
Lemma crun_hwy_rules : forall t p n w cs vs, p = Strict17 \/ p = Strict20 -> valid_w w ->
  vector_fits (Unit n 0) w -> Forall (vec_ok w) vs ->
  cpre_all t p w (map (vbits w) vs) (map snd cs) ->
  (exists os vs', crun_hwy t p n w vs cs = Ok (os, vs') /\ Forall (vec_ok w) vs' /\
     cspec_all w (map (vbits w) vs) (map snd cs) os (map (vbits w) vs')) \/
  (exists cs1 place c cs2 os vs1, cs = cs1 ++ (place, c) :: cs2 /\
     crun_hwy t p n w vs cs1 = Ok (os, vs1) /\
     cspec_all w (map (vbits w) vs) (map snd cs1) os (map (vbits w) vs1) /\
     ~ statement_inside (Unit n place) w (map (vbits w) vs1) c /\
     crun_hwy t p n w vs cs = UB OutOfBounds).
Proof.
  intros t p n w cs vs Hp Vw Hfit. revert vs.
  induction cs as [|[place c] cs IH]; intros vs Vs Pre.
  - left. exists [], vs. cbn. auto.
  - cbn [map snd cpre_all] in Pre. destruct Pre as [P1 P2].
    destruct (is_oob _ (cstep_hwy t p (Unit n place) w vs c)) as [E|E].
    + right. exists [], place, c, cs, [], vs. cbn [app crun_hwy map cspec_all]. rewrite E. cbn [rbind].
      split; [reflexivity|]. split; [reflexivity|]. split; [reflexivity|]. split; [|reflexivity].
      apply (statement_hwy_undefined t p); assumption.
    + pose proof (cstep_front t p (Unit n place) w vs c Hp Vw Hfit Vs P1 E) as K.
      pose proof (cstep_hwy_same t p (Unit n place) w vs c Vw Hfit Vs P1
        ltac:(destruct p; (exact I || exact K))) as Es.
      destruct (cstep_ok t p w Vw vs c Vs P1) as (o & vs1 & E1 & V1 & S). rewrite E1 in Es.
      destruct (IH vs1 V1 (P2 _ _ S))
        as [(os & vs2 & E2 & V2 & S2)|(cs1 & pl & c' & cs2 & os & vs2 & -> & E2 & S2 & N & E3)].
      * left. exists (o :: os), vs2. cbn [crun_hwy map snd cspec_all]. rewrite Es. cbn [rbind].
        rewrite E2. cbn [rbind]. split; [reflexivity|]. split; [exact V2|].
        exists (map (vbits w) vs1). auto.
      * right. exists ((place, c) :: cs1), pl, c', cs2, (o :: os), vs2.
        cbn [app crun_hwy map snd cspec_all]. rewrite Es. cbn [rbind]. rewrite E2, E3. cbn [rbind].
        repeat split; auto. exists (map (vbits w) vs1). auto.
Qed.
