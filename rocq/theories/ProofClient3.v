(** Programs over several bit_vectors. *)
From Coq Require Import ZArith Bool List Lia ZifyBool.
From Verif Require Import Base IterModel PopcntModel Spec SpecRotate VecModel SpecVec ClientModel
  SpecClient ProofBase ProofIter ProofVec ProofVec2 ProofVec3 ProofVec4 ProofClient ProofClient2.
Import ListNotations.
Open Scope Z_scope.
Ltac Zify.zify_post_hook ::= idtac.

Lemma map_put_vec : forall w x v vs,
  map (vbits w) (put_vec x v vs) = put_row x (vbits w v) (map (vbits w) vs).
Proof.
  intros w x v vs. unfold put_vec, put_row. rewrite map_app. cbn [map].
  rewrite firstn_map, skipn_map. reflexivity.
Qed.

Lemma put_vec_ok : forall w x v vs, Forall (vec_ok w) vs -> vec_ok w v ->
  Forall (vec_ok w) (put_vec x v vs).
Proof.
  intros w x v vs H Hv. unfold put_vec. rewrite Forall_forall in *. intros u Hu.
  apply in_app_or in Hu. destruct Hu as [Hu|[<-|Hu]]; [|assumption|].
  - apply H. rewrite <- (firstn_skipn x vs). apply in_or_app. left. exact Hu.
  - apply H. rewrite <- (firstn_skipn (S x) vs). apply in_or_app. right. exact Hu.
Qed.

(** A slice of the contents is a slice of the storage. *)
Lemma slice_vbits : forall w v j k, 0 < w -> vec_ok w v -> 0 <= j <= k -> k <= vlen v ->
  slice j k (list_bits w (vwords v)) = slice j k (vbits w v).
Proof.
  intros w v j k Hw V Hj Hk. pose proof V as (V1 & V2 & V3).
  pose proof (vbits_length w v Hw V) as L.
  assert (L' : zlen (list_bits w (vwords v)) = Z.of_nat (length (vwords v)) * w)
    by (unfold zlen; rewrite list_bits_length by lia; lia).
  apply list_ext; rewrite !zlen_slice by lia; [reflexivity|].
  intros i Hi. rewrite !get_slice by lia. unfold get_at, vbits. rewrite nth_firstn by lia. reflexivity.
Qed.

(** Replacing one element of a list. *)
Lemma put_length : forall A (a : A) x l, (x < length l)%nat ->
  length (firstn x l ++ a :: skipn (S x) l) = length l.
Proof. intros A a x l H. rewrite app_length, firstn_length_le by lia. cbn [length]. rewrite skipn_length. lia. Qed.

Lemma put_nth : forall A (a : A) x l, (x < length l)%nat ->
  nth_error (firstn x l ++ a :: skipn (S x) l) x = Some a.
Proof.
  intros A a x l H. rewrite nth_error_app2; rewrite firstn_length_le by lia; [|lia].
  rewrite Nat.sub_diag. reflexivity.
Qed.

Lemma put_put : forall A (a b : A) x l, (x < length l)%nat ->
  firstn x (firstn x l ++ b :: skipn (S x) l) ++ a :: skipn (S x) (firstn x l ++ b :: skipn (S x) l)
  = firstn x l ++ a :: skipn (S x) l.
Proof.
  intros A a b x l H. rewrite firstn_app, skipn_app, firstn_length_le by lia.
  rewrite (Nat.sub_diag x), firstn_firstn, Nat.min_id. cbn [firstn]. rewrite app_nil_r.
  rewrite (skipn_all2 (firstn x l)) by (rewrite firstn_length_le; lia).
  replace (S x - x)%nat with 1%nat by lia. reflexivity.
Qed.

Lemma put_app : forall A (a t : A) x l, (x < length l)%nat ->
  firstn x (l ++ [t]) ++ a :: skipn (S x) (l ++ [t]) = (firstn x l ++ a :: skipn (S x) l) ++ [t].
Proof.
  intros A a t x l H. rewrite firstn_app, skipn_app.
  replace (x - length l)%nat with O by lia. replace (S x - length l)%nat with O by lia.
  cbn [firstn skipn]. rewrite app_nil_r, <- app_assoc. reflexivity.
Qed.

Lemma put_last : forall A (a t : A) l,
  firstn (length l) (l ++ [t]) ++ a :: skipn (S (length l)) (l ++ [t]) = l ++ [a].
Proof.
  intros A a t l. rewrite firstn_app, firstn_all, Nat.sub_diag. cbn [firstn]. rewrite app_nil_r.
  rewrite skipn_all2 by (rewrite app_length; cbn; lia). reflexivity.
Qed.

Lemma move_at_ok : forall w x y rest vs, valid_w w -> Forall (vec_ok w) vs ->
  (x < length vs)%nat -> (y < length vs)%nat -> words_ok w rest -> zlen rest * w <= max_bits ->
  exists vs', move_at x y rest vs = Ok vs' /\ Forall (vec_ok w) vs' /\
    map (vbits w) vs' =
    put_row y [] (put_row x (row y (map (vbits w) vs)) (map (vbits w) vs)).
Proof.
  intros w x y rest vs Vw Vs Hx Hy Hr Hm. pose proof (valid_pos w Vw) as Pw.
  assert (Hx' : (x < length (map (vbits w) vs))%nat) by (rewrite map_length; exact Hx).
  assert (Hy' : (y < length (map (vbits w) vs))%nat) by (rewrite map_length; exact Hy).
  destruct (vec_in w vs Vw Vs x Hx') as (v & E & V & R & L).
  destruct (vec_in w vs Vw Vs y Hy') as (u & Eu & Vu & Ru & Lu).
  unfold move_at, vec_at. rewrite E, Eu. cbn [rbind].
  replace (BV (vwords u) (vlen u)) with u by (destruct u; reflexivity).
  set (vs1 := put_vec x u vs).
  assert (L1 : length vs1 = length vs) by (apply put_length; exact Hx).
  assert (V1 : Forall (vec_ok w) vs1) by (apply put_vec_ok; assumption).
  destruct (nth_error vs1 y) as [u1|] eqn:E1; [|apply nth_error_None in E1; lia].
  cbn [rbind].
  assert (Pn : forall c, nth_error (put_vec y c vs1) y = Some c)
    by (intros c; apply put_nth; lia).
  assert (Pp : forall c d, put_vec y c (put_vec y d vs1) = put_vec y c vs1)
    by (intros c d; apply put_put; lia).
  rewrite Pn. cbn [rbind vwords]. rewrite Pp.
  assert (Vz : vec_ok w (BV rest 0)).
  { split; [exact Hr|]. cbn [vlen vwords]. unfold zlen in Hm. lia. }
  eexists. split; [reflexivity|]. split; [apply put_vec_ok; assumption|].
  rewrite map_put_vec. unfold vs1. rewrite map_put_vec, Ru. reflexivity.
Qed.

Lemma swap_at_ok : forall w x y rest1 rest2 vs, valid_w w -> Forall (vec_ok w) vs ->
  (x < length vs)%nat -> (y < length vs)%nat ->
  words_ok w rest1 -> zlen rest1 * w <= max_bits ->
  words_ok w rest2 -> zlen rest2 * w <= max_bits ->
  exists vs', swap_at x y rest1 rest2 vs = Ok vs' /\ Forall (vec_ok w) vs' /\
    map (vbits w) vs' =
    put_row y (row x (map (vbits w) vs)) (put_row x (row y (map (vbits w) vs)) (map (vbits w) vs)).
Proof.
  intros w x y rest1 rest2 vs Vw Vs Hx Hy Hr1 Hm1 Hr2 Hm2.
  set (ls := map (vbits w) vs).
  assert (Ll : length ls = length vs) by apply map_length.
  destruct (vec_in w vs Vw Vs x ltac:(fold ls; lia)) as (v & E & V & R & L). fold ls in R.
  unfold swap_at, vec_at. rewrite E. cbn [rbind].
  replace (ctor_copy v) with v by (destruct v; reflexivity).
  destruct (move_at_ok w x y rest1 (vs ++ [v]) Vw) as (vs1 & E1 & V1 & M1);
    try assumption; try (rewrite app_length; cbn [length]; lia).
  { apply Forall_app. auto. }
  rewrite E1. cbn [rbind].
  assert (L1 : length vs1 = S (length vs)).
  { rewrite <- (map_length (vbits w) vs1), M1. unfold put_row.
    rewrite put_length; rewrite put_length; rewrite ?map_length, ?app_length; cbn [length]; lia. }
  destruct (move_at_ok w y (length vs) rest2 vs1 Vw) as (vs2 & E2 & V2 & M2);
    try assumption; try lia.
  rewrite E2. cbn [rbind]. eexists. split; [reflexivity|]. split.
  { rewrite Forall_forall in *. intros q Hq. apply V2.
    rewrite <- (firstn_skipn (length vs) vs2). apply in_or_app. left. exact Hq. }
  rewrite <- firstn_map, M2, M1. clear M1 M2 E1 E2. rewrite map_app. cbn [map]. fold ls.
  rewrite <- Ll, <- R. set (b := row x ls).
  assert (Ry : row y (ls ++ [b]) = row y ls) by (unfold row; apply app_nth1; lia).
  assert (Ap : forall k c l t, (k < length l)%nat ->
    put_row k c (l ++ [t]) = put_row k c l ++ [t]) by (intros; apply put_app; assumption).
  assert (Le : forall k c l, (k < length l)%nat -> length (put_row k c l) = length l)
    by (intros; apply put_length; assumption).
  rewrite Ry, Ap by lia. set (l1 := put_row x (row y ls) ls).
  assert (Ll1 : length l1 = length ls) by (apply Le; lia).
  rewrite Ap by lia. set (l2 := put_row y [] l1).
  assert (Ll2 : length l2 = length ls) by (unfold l2; rewrite Le; lia).
  assert (Rt : row (length ls) (l2 ++ [b]) = b).
  { unfold row. rewrite app_nth2 by lia. rewrite Ll2, Nat.sub_diag. reflexivity. }
  rewrite Rt, Ap by lia. set (l3 := put_row y b l2).
  assert (Ll3 : length l3 = length ls) by (unfold l3; rewrite Le; lia).
  rewrite <- Ll3. unfold put_row at 1. rewrite put_last.
  rewrite firstn_app, firstn_all, Nat.sub_diag. cbn [firstn]. rewrite app_nil_r.
  unfold l3, l2, put_row. apply put_put. lia.
Qed.

Section Step.
Variables (t : target) (p : policy) (w : Z).
Hypothesis Vw : valid_w w.

Lemma cstep_ok : forall vs c, Forall (vec_ok w) vs -> cpre t p w (map (vbits w) vs) c ->
  exists o vs', cstep t p w vs c = Ok (o, vs') /\ Forall (vec_ok w) vs' /\
    cspec w (map (vbits w) vs) c o (map (vbits w) vs').
Proof.
  intros vs c Vs Pre. pose proof (valid_pos w Vw) as Pw.
  destruct c as [a|x o|x i y j k|x y|x y r|x y r1 r2|y|s|n b|y j k|x]; cbn [cpre cstep cspec] in *.
  - destruct (alg_step_ok t p w vs Vw Vs a Pre) as (r & vs' & E & V' & S).
    exists (COut r), vs'. rewrite E. cbn [rbind]. split; [reflexivity|]. split; [exact V'|].
    exists r. auto.
  - destruct Pre as [Hx Pre]. destruct (vec_in w vs Vw Vs x Hx) as (v & E & V & R & L).
    rewrite R in *. pose proof (vstep_wp p w v o Vw V Pre) as H. apply rwp_exists in H.
    destruct H as ([r v'] & Es & H1 & H2 & H3). cbn [fst snd] in *. unfold vec_at.
    rewrite E. cbn [rbind]. rewrite Es. cbn [rbind]. exists (COut r), (put_vec x v' vs).
    split; [reflexivity|]. split; [apply put_vec_ok; assumption|].
    rewrite map_put_vec. rewrite H1, H3. auto.
  - destruct Pre as (Hx & Nxy & Ry & Hi & Hl & Hs). pose proof Ry as (Hy & Hj & Hk).
    destruct (vec_in w vs Vw Vs x Hx) as (v & E & V & R & L).
    destruct (vec_in w vs Vw Vs y Hy) as (u & Eu & Vu & Ru & Lu).
    rewrite R, Ru in *. pose proof Vu as (U1 & U2 & U3).
    assert (P : vpre p w (vbits w v) (OpInsertRange i (vwords u) j k)).
    { cbn [vpre]. unfold zlen at 2 3. repeat split; try assumption; try lia. }
    pose proof (vstep_wp p w v _ Vw V P) as H. apply rwp_exists in H.
    destruct H as ([r v'] & Es & H1 & H2 & H3). cbn [fst snd vspec] in *. unfold vec_at.
    rewrite E, Eu. cbn [rbind]. rewrite Es. cbn [rbind]. exists (COut r), (put_vec x v' vs).
    split; [reflexivity|]. split; [apply put_vec_ok; assumption|].
    rewrite map_put_vec. rewrite H1, H3. rewrite slice_vbits by (try assumption; lia). auto.
  - destruct Pre as (Hx & Hy). destruct (vec_in w vs Vw Vs x Hx) as (v & E & V & R & L).
    destruct (vec_in w vs Vw Vs y Hy) as (u & Eu & Vu & Ru & Lu). unfold vec_at. rewrite E, Eu.
    cbn [rbind]. exists (COut ONone), (put_vec x (ctor_copy u) vs). split; [reflexivity|].
    assert (Ec : ctor_copy u = u) by (destruct u; reflexivity). rewrite Ec.
    split; [apply put_vec_ok; assumption|]. rewrite map_put_vec, Ru. auto.
  - destruct Pre as (Hx & Hy & Hr & Hm). rewrite map_length in Hx, Hy.
    destruct (move_at_ok w x y r vs Vw Vs Hx Hy Hr Hm) as (vs' & E & V' & M).
    rewrite E. cbn [rbind]. exists (COut ONone), vs'. auto.
  - destruct Pre as (Hx & Hy & Hr1 & Hm1 & Hr2 & Hm2). rewrite map_length in Hx, Hy.
    destruct (swap_at_ok w x y r1 r2 vs Vw Vs Hx Hy Hr1 Hm1 Hr2 Hm2) as (vs' & E & V' & M).
    rewrite E. cbn [rbind]. exists (COut ONone), vs'. auto.
  - destruct (vec_in w vs Vw Vs y Pre) as (u & Eu & Vu & Ru & Lu). unfold vec_at. rewrite Eu.
    cbn [rbind]. exists (COut ONone), (vs ++ [ctor_copy u]). split; [reflexivity|].
    assert (Ec : ctor_copy u = u) by (destruct u; reflexivity). rewrite Ec.
    split; [apply Forall_app; auto|]. rewrite map_app. cbn [map]. rewrite Ru. auto.
  - destruct (ctor_string_ok p w s Vw Pre) as (v & E & V & B). rewrite E. cbn [rbind].
    exists (COut ONone), (vs ++ [v]). split; [reflexivity|].
    split; [apply Forall_app; auto|]. rewrite map_app. cbn [map]. rewrite B. auto.
  - destruct (ctor_fill_ok w n b Vw Pre) as (V & B).
    exists (COut ONone), (vs ++ [ctor_fill w n b]). split; [reflexivity|].
    split; [apply Forall_app; auto|]. rewrite map_app. cbn [map]. rewrite B. auto.
  - destruct Pre as (Ry & Hm). pose proof Ry as (Hy & Hj & Hk).
    destruct (vec_in w vs Vw Vs y Hy) as (u & Eu & Vu & Ru & Lu).
    rewrite Ru in *. pose proof Vu as (U1 & U2 & U3). unfold max_bits in *.
    assert (Ve : valid_it w (ext_begin (vwords u))) by (unfold valid_it, ext_begin; cbn [ip]; lia).
    assert (Ae : addr w (ext_begin (vwords u)) = (- zlen (vwords u) - 64) * w)
      by (unfold addr, ext_begin, wsize, zlen; cbn [ib ip]; lia).
    assert (Zu : 0 <= zlen (vwords u)) by apply zlen_pos.
    assert (Zl : zlen (vwords u) * w = Z.of_nat (length (vwords u)) * w) by reflexivity.
    assert (H : rwp (cstep t p w vs (CRange y j k)) (fun r => Forall (vec_ok w) (snd r) /\
      cspec w (map (vbits w) vs) (CRange y j k) (fst r) (map (vbits w) (snd r)))).
    { cbn [cstep cspec]. unfold vec_at. rewrite Eu. cbn [rbind].
      apply rwp_bind, rwp_iadd; [assumption..|lia|]. intros f Vf Af.
      apply rwp_bind, rwp_iadd; [assumption..|lia|]. intros l Vl Al.
      destruct (ctor_bits_ok p w (ext_mem (vwords u)) f l Vw) as (v & e & E & _ & V & B).
      - intros a Ha. unfold ext_mem. replace (a <? -64) with false by lia.
        rewrite andb_false_r. reflexivity.
      - apply ext_wf. assumption.
      - split; [assumption|]. split; [assumption|]. unfold max_bits. split; [lia|].
        rewrite Af, Al, Ae. apply ext_mapped; lia.
      - rewrite Al, Ae. nia.
      - replace (addr w l - addr w f) with (k - j) by lia. exact Hm.
      - rewrite E. cbn [rbind]. apply rwp_ok. cbn [fst snd].
        split; [apply Forall_app; auto|]. split; [reflexivity|]. rewrite map_app. cbn [map].
        rewrite B, Ru. do 2 f_equal. replace (addr w l - addr w f) with (k - j) by lia.
        pose proof (vbits_length w u ltac:(lia) Vu) as Lu'.
        rewrite <- (slice_vbits w u) by (try assumption; lia).
        assert (Lb : zlen (list_bits w (vwords u)) = zlen (vwords u) * w)
          by (unfold zlen; rewrite list_bits_length by lia; lia).
        apply list_ext; [rewrite zlen_map, zlen_slice by lia; unfold zlen; rewrite seq_length; lia|].
        rewrite zlen_map. unfold zlen at 1. rewrite seq_length. intros q Hq.
        rewrite get_slice by lia. rewrite <- ext_bit by lia. unfold get_at.
        set (g := fun k0 => bit w (ext_mem (vwords u)) (addr w f + Z.of_nat k0)).
        rewrite (nth_indep _ false (g O)) by (rewrite map_length, seq_length; lia).
        rewrite map_nth, seq_nth by lia. unfold g. f_equal. lia. }
    apply rwp_exists in H. destruct H as ([o vs'] & E & H1 & H2). cbn [fst snd cstep cspec] in *.
    exists o, vs'. rewrite Ru in H2. auto.
  - destruct Pre as [Hx Hl]. destruct (vec_in w vs Vw Vs x Hx) as (v & E & V & R & L).
    unfold vec_at. rewrite E. cbn [rbind]. rewrite debug_string_ok by (try assumption; lia).
    cbn [rbind]. eexists. exists vs. split; [reflexivity|]. split; [exact Vs|]. rewrite R. auto.
Qed.

Lemma crun_ok : forall cs vs, Forall (vec_ok w) vs -> cpre_all t p w (map (vbits w) vs) cs ->
  exists os vs', crun t p w vs cs = Ok (os, vs') /\ Forall (vec_ok w) vs' /\
    cspec_all w (map (vbits w) vs) cs os (map (vbits w) vs').
Proof.
  induction cs as [|c cs IH]; intros vs Vs Pre.
  - exists [], vs. cbn. auto.
  - cbn [cpre_all] in Pre. destruct Pre as [P1 P2].
    destruct (cstep_ok vs c Vs P1) as (o & vs1 & E & V1 & S).
    destruct (IH vs1 V1 (P2 _ _ S)) as (os & vs2 & E2 & V2 & S2).
    exists (o :: os), vs2. cbn [crun cspec_all]. rewrite E. cbn [rbind]. rewrite E2. cbn [rbind].
    split; [reflexivity|]. split; [exact V2|]. exists (map (vbits w) vs1). auto.
Qed.
End Step.

(** For the examples: the lists after a statement, and preconditions on concrete
    lists. *)
Ltac after_spec :=
  intros ?o ?ls ?S; cbn [cspec alg_spec] in S;
  try (destruct S as (?r & ?E & S)); destruct S as [? ?]; subst.
Ltac side := unfold cpre, alg_pre, range_in, vpre, shift_defined;
  repeat match goal with |- _ /\ _ => split end; intros;
  try (vm_compute; lia); try (vm_compute; intuition congruence).

Lemma land_bitwise : forall w, 0 <= w -> bitwise2 w Z.land andb.
Proof.
  intros w Hw x y Hx Hy. split.
  - split; [apply Z.land_nonneg; lia|].
    destruct (Z.eq_dec (Z.land x y) 0) as [->|N]; [apply pow_pos; lia|].
    assert (0 <= Z.land x y) by (apply Z.land_nonneg; lia).
    apply Z.log2_lt_pow2; [lia|]. pose proof (Z.log2_land x y ltac:(lia) ltac:(lia)).
    assert (0 < x) by (destruct (Z.eq_dec x 0) as [->|]; [rewrite Z.land_0_l in N; congruence|lia]).
    destruct Hx as [_ Hx]. apply Z.log2_lt_pow2 in Hx; lia.
  - intros k _. apply Z.land_spec.
Qed.
