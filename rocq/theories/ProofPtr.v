(** Proofs about the algorithms over checked word iterators: the tools, and the
    algorithms that read or write from the front. *)
From Coq Require Import ZArith Bool List Lia.
From Verif Require Import Base WordOps IterModel PopcntModel AlgModel TransformModel Spec PtrModel SpecPtr
  ProofBase ProofIter ProofWord.
Import ListNotations.
Open Scope Z_scope.

(** The checked computation [c] does what [c'] does, whose results satisfy [Q]. *)
Definition sim {T} (Q : T -> Prop) (c c' : M T) (m : mem) : Prop :=
  c m = c' m /\ (forall a m', c' m = Ok (a, m') -> Q a).

Lemma sim_bind : forall T U (Q : T -> Prop) (R : U -> Prop) c c' k k' m,
  sim Q c c' m -> (forall a m', Q a -> sim R (k a) (k' a) m') -> sim R (bind c k) (bind c' k') m.
Proof.
  intros T U Q R c c' k k' m [E H] K. unfold sim, bind. rewrite E.
  destruct (c' m) as [[a m']| | | |]; try (split; [reflexivity|discriminate]).
  apply K. apply (H a m'). reflexivity.
Qed.

Lemma sim_ret : forall T (Q : T -> Prop) a m, Q a -> sim Q (ret a) (ret a) m.
Proof. intros T Q a m H. split; [reflexivity|]. intros b m' E. injection E as <- <-. assumption. Qed.

Lemma sim_same : forall T (c : M T) m, sim (fun _ => True) c c m.
Proof. intros. split; auto. Qed.

Lemma sim_weak : forall T (Q R : T -> Prop) c c' m, (forall a, Q a -> R a) -> sim Q c c' m -> sim R c c' m.
Proof. intros T Q R c c' m H [E K]. split; [assumption|]. intros a m' F. apply H, (K a m'), F. Qed.

Lemma sim_lift : forall T (Q : T -> Prop) r r' m, r = r' -> (forall a, r' = Ok a -> Q a) ->
  sim Q (lift r) (lift r') m.
Proof.
  intros T Q r r' m -> H. split; [reflexivity|]. intros a m' E. unfold lift in E.
  destruct r' as [b| | | |]; try discriminate. injection E as <- <-. apply H. reflexivity.
Qed.

Lemma sim_ok : forall T U (Q : U -> Prop) r (a : T) k c m, r = Ok a -> sim Q (k a) c m ->
  sim Q (bind (lift r) k) c m.
Proof. intros T U Q r a k c m -> H. exact H. Qed.

Lemma sim_ok2 : forall T U (Q : U -> Prop) r r' (a : T) k k' m, r = Ok a -> r' = Ok a -> sim Q (k a) (k' a) m ->
  sim Q (bind (lift r) k) (bind (lift r') k') m.
Proof. intros T U Q r r' a k k' m -> -> H. exact H. Qed.

Lemma sim_skip : forall T U (Q : U -> Prop) (c : M T) k k' m,
  (forall a m', sim Q (k a) (k' a) m') -> sim Q (bind c k) (bind c k') m.
Proof. intros. eapply sim_bind; [apply sim_same|]. intros. apply H. Qed.

Lemma sim_eq : forall T (Q : T -> Prop) c c' m, sim Q c c' m -> c m = c' m.
Proof. intros T Q c c' m H. apply H. Qed.

Lemma form_ok : forall A a, alo A <= a <= ahi A -> form A a = Ok a.
Proof.
  intros A a H. unfold form. rewrite (proj2 (Z.leb_le _ _)), (proj2 (Z.leb_le _ _)) by lia. reflexivity.
Qed.

Lemma form_bad : forall A a, ~ (alo A <= a <= ahi A) -> form A a = UB BadUse.
Proof.
  intros A a H. unfold form. destruct (Z.leb_spec (alo A) a), (Z.leb_spec a (ahi A)); try reflexivity. lia.
Qed.

Lemma addr_div : forall w it n, 0 < w -> valid_it w it -> (addr w it + n) / w = ib it + (ip it + n) / w.
Proof.
  intros w it n Hw V. unfold addr. rewrite <- Z.add_assoc, (Z.add_comm (ib it * w)), Z.div_add by lia. lia.
Qed.

Lemma iadd_c_eq : forall A w it n, valid_w w -> valid_it w it -> - 2 ^ 62 <= n <= 2 ^ 62 ->
  pointable A w (addr w it + n) -> iadd_c A w it n = iadd w it n.
Proof.
  intros A w it n Vw V Hn P. pose proof (valid_pos w Vw) as Pw. unfold valid_it in V.
  unfold iadd_c, iadd. rewrite swrap64_small by lia. rewrite floor_diff_div by assumption.
  unfold pointable in P. rewrite addr_div in P by (lia || exact V). rewrite form_ok by assumption. reflexivity.
Qed.

Lemma isub_c_eq : forall A w it n, valid_w w -> valid_it w it -> - 2 ^ 62 <= n <= 2 ^ 62 ->
  pointable A w (addr w it - n) -> isub_c A w it n = isub w it n.
Proof.
  intros A w it n Vw V Hn P. pose proof (valid_pos w Vw) as Pw. unfold valid_it in V.
  unfold isub_c, isub. rewrite swrap64_small by lia. rewrite floor_diff_div by assumption.
  unfold pointable in P. unfold Z.sub in P. rewrite addr_div in P by (lia || exact V).
  rewrite form_ok by assumption. reflexivity.
Qed.

Lemma iadd_c_bad : forall A w it n, valid_w w -> valid_it w it -> - 2 ^ 62 <= n <= 2 ^ 62 ->
  ~ pointable A w (addr w it + n) -> iadd_c A w it n = UB BadUse.
Proof.
  intros A w it n Vw V Hn P. pose proof (valid_pos w Vw) as Pw. unfold valid_it in V.
  unfold iadd_c. rewrite swrap64_small by lia. rewrite floor_diff_div by assumption.
  unfold pointable in P. rewrite addr_div in P by (lia || exact V). rewrite form_bad by assumption. reflexivity.
Qed.

Lemma isub_c_bad : forall A w it n, valid_w w -> valid_it w it -> - 2 ^ 62 <= n <= 2 ^ 62 ->
  ~ pointable A w (addr w it - n) -> isub_c A w it n = UB BadUse.
Proof.
  intros A w it n Vw V Hn P. pose proof (valid_pos w Vw) as Pw. unfold valid_it in V.
  unfold isub_c. rewrite swrap64_small by lia. rewrite floor_diff_div by assumption.
  unfold pointable in P. unfold Z.sub in P. rewrite addr_div in P by (lia || exact V).
  rewrite form_bad by assumption. reflexivity.
Qed.

Lemma pointable_in : forall A w i, 0 < w -> alo A * w <= i <= ahi A * w -> pointable A w i.
Proof.
  intros A w i Hw H. unfold pointable. split.
  - apply Z.div_le_lower_bound; lia.
  - apply Z.div_le_upper_bound; lia.
Qed.

(** A word pointer inside, from the bit it belongs to. *)
Lemma base_in : forall A w it, 0 < w -> valid_it w it -> alo A * w <= addr w it <= ahi A * w ->
  alo A <= ib it <= ahi A.
Proof. intros A w it Hw V H. unfold valid_it, addr in *. nia. Qed.

Lemma base_lt : forall A w it i, 0 < w -> valid_it w it -> addr w it < i -> i <= ahi A * w -> ib it < ahi A.
Proof. intros A w it i Hw V H1 H2. unfold valid_it, addr in *. nia. Qed.

Section Tools.
Variable w : Z.
Hypothesis Vw : valid_w w.

Lemma sim_iadd : forall A it n (Q : iter -> Prop) (m : mem), valid_it w it -> - 2 ^ 62 <= n <= 2 ^ 62 ->
  alo A * w <= addr w it + n <= ahi A * w ->
  (forall it', valid_it w it' -> addr w it' = addr w it + n -> Q it') ->
  sim Q (lift (iadd_c A w it n)) (lift (iadd w it n)) m.
Proof.
  intros A it n Q m V Hn Hr HQ. pose proof (valid_pos w Vw) as Pw. apply sim_lift.
  - apply iadd_c_eq; try assumption. apply pointable_in; lia.
  - intros it' E. pose proof (rwp_iadd w it n Q Vw V Hn HQ) as R. rewrite E in R. exact R.
Qed.

Lemma sim_isub : forall A it n (Q : iter -> Prop) (m : mem), valid_it w it -> - 2 ^ 62 <= n <= 2 ^ 62 ->
  alo A * w <= addr w it - n <= ahi A * w ->
  (forall it', valid_it w it' -> addr w it' = addr w it - n -> Q it') ->
  sim Q (lift (isub_c A w it n)) (lift (isub w it n)) m.
Proof.
  intros A it n Q m V Hn Hr HQ. pose proof (valid_pos w Vw) as Pw. apply sim_lift.
  - apply isub_c_eq; try assumption. apply pointable_in; lia.
  - intros it' E. pose proof (rwp_isub w it n Q Vw V Hn HQ) as R. rewrite E in R. exact R.
Qed.

Lemma sim_iadd_bind : forall T (Q : T -> Prop) A it n k k' m, valid_it w it -> - 2 ^ 62 <= n <= 2 ^ 62 ->
  alo A * w <= addr w it + n <= ahi A * w ->
  (forall it', valid_it w it' -> addr w it' = addr w it + n -> sim Q (k it') (k' it') m) ->
  sim Q (bind (lift (iadd_c A w it n)) k) (bind (lift (iadd w it n)) k') m.
Proof.
  intros T Q A it n k k' m V Hn Hr H.
  destruct (sim_iadd A it n (fun it' => sim Q (k it') (k' it') m) m V Hn Hr H) as [E K].
  unfold sim, bind. rewrite E. unfold lift in *.
  destruct (iadd w it n) as [a| | | |]; try (split; [reflexivity|discriminate]). apply (K a m). reflexivity.
Qed.

Lemma sim_isub_bind : forall T (Q : T -> Prop) A it n k k' m, valid_it w it -> - 2 ^ 62 <= n <= 2 ^ 62 ->
  alo A * w <= addr w it - n <= ahi A * w ->
  (forall it', valid_it w it' -> addr w it' = addr w it - n -> sim Q (k it') (k' it') m) ->
  sim Q (bind (lift (isub_c A w it n)) k) (bind (lift (isub w it n)) k') m.
Proof.
  intros T Q A it n k k' m V Hn Hr H.
  destruct (sim_isub A it n (fun it' => sim Q (k it') (k' it') m) m V Hn Hr H) as [E K].
  unfold sim, bind. rewrite E. unfold lift in *.
  destruct (isub w it n) as [a| | | |]; try (split; [reflexivity|discriminate]). apply (K a m). reflexivity.
Qed.

Lemma sim_form : forall T (Q : T -> Prop) A a k c m, alo A <= a <= ahi A -> sim Q (k a) c m ->
  sim Q (bind (lift (form A a)) k) c m.
Proof. intros T Q A a k c m H S. apply (sim_ok _ _ Q _ a); [apply form_ok; assumption|exact S]. Qed.

Lemma sim_dist : forall T (Q : T -> Prop) f l k k' m, valid_it w f -> valid_it w l ->
  0 <= addr w l - addr w f <= 2 ^ 62 -> sim Q (k (addr w l - addr w f)) (k' (addr w l - addr w f)) m ->
  sim Q (bind (lift (distance w f l)) k) (bind (lift (distance w f l)) k') m.
Proof.
  intros T Q f l k k' m Vf Vl H S. eapply sim_ok2; [apply distance_eq; assumption..|exact S].
Qed.

Lemma is_within_c_eq : forall A f l, valid_it w f -> valid_it w l -> addr w f <= addr w l ->
  inside A w (addr w f) (addr w l) -> is_within_c A w f l = is_within w f l.
Proof.
  intros A f l Vf Vl Hd [I1 I2]. pose proof (valid_pos w Vw) as Pw. unfold valid_it in *.
  rewrite is_within_eq by (assumption || lia). unfold is_within_c.
  destruct (Z.eqb_spec (ib f) (ib l)) as [C1|C1].
  { f_equal. symmetry. apply Z.leb_le. unfold addr. rewrite C1. lia. }
  assert (L1 : ib f + 1 <= ib l) by (unfold addr in Hd; clear - Hd Vf Vl C1 Pw; nia).
  assert (B1 : alo A <= ib f) by (unfold addr in I1; clear - I1 Vf Pw; nia).
  assert (B2 : ib l <= ahi A) by (unfold addr in I2; clear - I2 Vl Pw; nia).
  rewrite form_ok by lia. cbn [rbind].
  destruct (Z.eqb_spec (ib f + 1) (ib l)) as [C2|C2]; cbn [andb].
  - destruct (Z.leb_spec (ip l) (ip f)) as [C3|C3].
    { f_equal. symmetry. apply Z.leb_le. unfold addr. rewrite <- C2. clear - C3. nia. }
    assert (B3 : ib l + 1 <= ahi A) by (unfold addr in I2; clear - I2 Vl Vf C3 Pw; nia).
    rewrite iadd_c_eq.
    2: assumption. 2: exact Vf. 2: lia.
    2: { unfold pointable. rewrite addr_div by (lia || exact Vf).
         replace (ip f + w) with (ip f + 1 * w) by ring. rewrite Z.div_add, Z.div_small by lia. lia. }
    rewrite iadd_eq by (assumption || lia). cbn [rbind ib ip].
    replace ((ip f + w) / w) with 1 by (replace (ip f + w) with (ip f + 1 * w) by ring; rewrite Z.div_add, Z.div_small by lia; lia).
    replace ((ip f + w) mod w) with (ip f) by (replace (ip f + w) with (ip f + 1 * w) by ring; rewrite Z.mod_add, Z.mod_small by lia; lia).
    rewrite (proj2 (Z.eqb_eq _ _) C2). cbn [andb]. rewrite (proj2 (Z.leb_gt _ _)) by lia.
    rewrite form_ok by lia. cbn [rbind]. rewrite (proj2 (Z.eqb_neq _ _)) by lia. cbn [andb].
    f_equal. symmetry. apply Z.leb_gt. unfold addr. rewrite <- C2. clear - C3. nia.
  - rewrite iadd_c_eq.
    2: assumption. 2: exact Vf. 2: lia.
    2: { unfold pointable. rewrite addr_div by (lia || exact Vf).
         replace (ip f + w) with (ip f + 1 * w) by ring. rewrite Z.div_add, Z.div_small by lia. lia. }
    rewrite iadd_eq by (assumption || lia). cbn [rbind ib ip].
    replace ((ip f + w) / w) with 1 by (replace (ip f + w) with (ip f + 1 * w) by ring; rewrite Z.div_add, Z.div_small by lia; lia).
    replace ((ip f + w) mod w) with (ip f) by (replace (ip f + w) with (ip f + 1 * w) by ring; rewrite Z.mod_add, Z.mod_small by lia; lia).
    rewrite (proj2 (Z.eqb_neq _ _) C2). cbn [andb]. rewrite form_ok by lia. cbn [rbind].
    rewrite (proj2 (Z.leb_gt (ip l) (ip f - w))) by lia. rewrite Bool.andb_false_r.
    f_equal. symmetry. apply Z.leb_gt. unfold addr. assert (ib f + 2 <= ib l) by lia. clear - H Vf Vl Pw. nia.
Qed.

End Tools.
