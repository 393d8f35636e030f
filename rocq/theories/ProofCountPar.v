(** Proofs for C57_count_bytes: count at the side of other threads, byte by byte. *)
From Coq Require Import ZArith Bool List Lia.
From Verif Require Import Base IterModel PopcntModel AlgModel ThreadModel Spec SpecCost SpecReads
  ProofBase ProofCount ProofCountTrace.
From Verif Require CountTraceModel.
Import ListNotations.
Open Scope Z_scope.

Lemma split_eq : forall (T : Type) (l1 us1 : list T) t x l2 us2, l1 ++ t :: l2 = us1 ++ x :: us2 ->
  (l1 = us1 /\ t = x /\ l2 = us2) \/
  (exists l, l1 = us1 ++ x :: l /\ us2 = l ++ t :: l2) \/
  (exists l, us1 = l1 ++ t :: l /\ l2 = l ++ x :: us2).
Proof.
  induction l1 as [|y l1 IH]; intros [|z us1] t x l2 us2 H; cbn in H; injection H as E1 E2.
  - left. auto.
  - right; right. exists us1. subst. auto.
  - right; left. exists l1. subst. auto.
  - destruct (IH _ _ _ _ _ E2) as [(a & b & c)|[(l & a & b)|(l & a & b)]]; subst; [left; auto|..];
      right; [left|right]; exists l; auto.
Qed.

Lemma split_len : forall (T : Type) (l1 us1 : list T) t x l2 us2, l1 ++ t :: l2 = us1 ++ x :: us2 ->
  length l1 = length us1 -> l1 = us1 /\ t = x /\ l2 = us2.
Proof.
  induction l1 as [|y l1 IH]; intros [|z us1] t x l2 us2 H L; cbn in H, L; try discriminate L;
    injection H as E1 E2.
  - auto.
  - injection L as L. destruct (IH _ _ _ _ _ E2 L) as (a & b & c). subst. auto.
Qed.

Lemma step_split : forall A (m m' : mem) (ts ts' : list (thread A)), pstep (m, ts) (m', ts') ->
  exists l1 t t' l2, ts = l1 ++ t :: l2 /\ ts' = l1 ++ t' :: l2 /\
    ((exists a k v, t = Read a k /\ m a = Some v /\ t' = k v /\ m' = m) \/
     (exists a v, t = Write a v t' /\ m' = mset m a v)).
Proof.
  intros A m m' ts ts' H. inversion H; subst.
  - eexists ts1, _, _, ts2. split; [reflexivity|]. split; [reflexivity|]. left. eauto 8.
  - eexists ts1, _, _, ts2. split; [reflexivity|]. split; [reflexivity|]. right. eauto.
Qed.

Lemma writes_nonneg : forall A (t : thread A) m, 0 <= writes t m.
Proof.
  induction t as [r|a k IH|a v k IH]; intros m; cbn [writes]; [lia|..];
    destruct (m a); try lia; [apply IH|]. specialize (IH (mset m a v)). lia.
Qed.

Section Par.
Variable A : Type.
Variable m0 : mem.
Variable P : Z -> Prop.
Variable R : A.

(** What is left of the reader, seen from the memory at the beginning. *)
Definition left_over (c : thread A) : Prop :=
  alone c m0 = Ok (R, m0) /\ Forall P (read_at c m0) /\ writes c m0 = 0.
Definition same_on (m : mem) : Prop := forall k, P k -> m k = m0 k.

Lemma left_step : forall a k v, left_over (Read a k) -> m0 a = Some v -> left_over (k v).
Proof.
  intros a k v (H1 & H2 & H3) E. cbn [alone read_at writes] in H1, H2, H3. rewrite E in H1, H2, H3.
  inversion H2; subst. split; auto.
Qed.

Lemma left_no_write : forall a v k, ~ left_over (Write a v k).
Proof.
  intros a v k (H1 & _ & H3). cbn [alone writes] in H1, H3. destruct (m0 a); [|discriminate].
  pose proof (writes_nonneg A k (mset m0 a v)). lia.
Qed.

Lemma avoids_step : forall (t t' : thread A) m m', avoids P t -> same_on m ->
  ((exists a k v, t = Read a k /\ m a = Some v /\ t' = k v /\ m' = m) \/
   (exists a v, t = Write a v t' /\ m' = mset m a v)) -> avoids P t' /\ same_on m'.
Proof.
  intros t t' m m' Ha Hs [(a & k & v & -> & E & -> & ->)|(a & v & -> & ->)]; inversion Ha; subst.
  - auto.
  - split; [assumption|]. intros b Pb. unfold mset. destruct (Z.eqb_spec b a) as [C|C]; [|auto].
    subst. contradiction.
Qed.

Lemma par_steps : forall s s', psteps s s' -> forall m ts1 c ts2, s = (m, ts1 ++ c :: ts2) ->
  Forall (avoids P) ts1 -> Forall (avoids P) ts2 -> same_on m -> left_over c ->
  exists m' us1 x us2, s' = (m', us1 ++ x :: us2) /\ length us1 = length ts1 /\
    Forall (avoids P) us1 /\ Forall (avoids P) us2 /\ same_on m' /\ left_over x.
Proof.
  induction 1 as [s|s s1 s2 H H2 IH]; intros m ts1 c ts2 -> F1 F2 Hs Hc.
  - exists m, ts1, c, ts2. auto 8.
  - destruct s1 as [m1 l1']. destruct (step_split _ _ _ _ _ H) as (l1 & t & t' & l2 & E1 & E2 & St).
    destruct (split_eq _ _ _ _ _ _ _ E1) as [(-> & -> & ->)|[(l & -> & ->)|(l & -> & ->)]].
    + destruct St as [(a & k & v & -> & E & -> & ->)|(a & v & -> & ->)].
      * assert (Pa : P a /\ m0 a = Some v).
        { destruct Hc as (_ & Hr & _). cbn [read_at] in Hr. inversion Hr; subst.
          split; [assumption|]. rewrite <- Hs; assumption. }
        destruct Pa as [Pa Ea].
        apply (IH _ _ _ _ (f_equal (pair m) E2)); auto. apply (left_step a); assumption.
      * exfalso. apply (left_no_write _ _ _ Hc).
    + apply Forall_app in F1. destruct F1 as [F1 F3]. inversion F3; subst.
      destruct (avoids_step _ _ _ _ H3 Hs St) as [N1 N2].
      destruct (IH m1 (l1 ++ t' :: l) c ts2) as (m' & us1 & x & us2 & Q1 & Q2 & Q3); auto.
      * rewrite <- ?app_assoc. reflexivity.
      * apply Forall_app. auto.
      * exists m', us1, x, us2. split; [exact Q1|]. split; [|exact Q3].
        rewrite Q2, !app_length. reflexivity.
    + apply Forall_app in F2. destruct F2 as [F2 F3]. inversion F3; subst.
      destruct (avoids_step _ _ _ _ H3 Hs St) as [N1 N2].
      destruct (IH m1 ts1 c (l ++ t' :: l2)) as (m' & us1 & x & us2 & Q); auto.
      * rewrite <- ?app_assoc. reflexivity.
      * apply Forall_app. auto.
      * eauto 8.
Qed.
End Par.

Lemma count_par_ok : forall t p w m first last b ts1 ts2 m' us1 x us2,
  let own k := ib first * (w / 8) <= k < ((addr w last - 1) / w + 1) * (w / 8) in
  (let it := if ip first =? 0 then ib first else ib first + 1 in
   ib first <> ib last -> keeps_inside t (it * (w / 8)) (w / 8 * (ib last - it))) ->
  valid_w w -> wf_mem w m -> good_range w m first last -> addr w first < addr w last ->
  Forall (avoids own) ts1 -> Forall (avoids own) ts2 ->
  psteps (byte_view w m, ts1 ++ CountTraceModel.count t p w first last b :: ts2)
         (m', us1 ++ x :: us2) -> length us1 = length ts1 ->
  (forall k, own k -> m' k = byte_view w m k) /\
  ((exists a f, x = Read a f /\ own a /\ m' a <> None) \/
   x = Done (Ok (count_true (fun i => eqb (bit w m i) b) (addr w first)
                   (Z.to_nat (addr w last - addr w first))))).
Proof.
  intros t p w m first last b ts1 ts2 m' us1 x us2 own Ht Vw Wf Hr Hlt F1 F2 Hst Hlen.
  destruct (count_reads_ok t p w m first last b Ht Vw Wf Hr Hlt) as [Er Ew].
  set (n := count_true (fun i => eqb (bit w m i) b) (addr w first)
              (Z.to_nat (addr w last - addr w first))).
  assert (Ea : alone (CountTraceModel.count t p w first last b) (byte_view w m) = Ok (n, byte_view w m)).
  { destruct (count_same_ok t p w m first last b Vw Wf) as (r & E1 & E2). destruct Hr as (Hf & Hl & Hd & Mp).
    pose proof (wp_count t p w first last b m (fun y m' => y = n /\ m' = m) Vw Hf Hl Wf) as Q.
    cbv zeta in Q. unfold max_bits in Hd.
    specialize (Q (fun N => Ht N) ltac:(lia) Mp ltac:(lia) (conj eq_refl eq_refl)).
    unfold wp in Q. destruct (count t p w first last b m) as [[y m1]| | | |]; try contradiction.
    destruct Q as [-> ->]. destruct r; cbn [lift] in E1, E2; try discriminate E2.
    injection E2 as <-. exact E1. }
  destruct (par_steps Z (byte_view w m) own n _ _ Hst _ _ _ _ eq_refl F1 F2 (fun _ _ => eq_refl))
    as (m2 & vs1 & y & vs2 & E & L & _ & _ & Hs & Hl).
  { split; [exact Ea|]. split; [|exact Ew]. rewrite Er. unfold from_to. apply Forall_forall.
    intros k Hk. apply in_map_iff in Hk. destruct Hk as (i & <- & Hi). apply in_seq in Hi.
    unfold own. lia. }
  injection E as <- E. destruct (split_len _ _ _ _ _ _ _ E ltac:(congruence)) as (_ & <- & _).
  split; [exact Hs|]. destruct x as [r|a f|a v k].
  - right. destruct Hl as (H1 & _). cbn [alone] in H1. destruct r; cbn [lift] in H1; try discriminate H1.
    injection H1 as ->. reflexivity.
  - left. exists a, f. split; [reflexivity|]. destruct Hl as (H1 & H2 & _). cbn [alone read_at] in H1, H2.
    inversion H2; subst. split; [assumption|]. rewrite (Hs a) by assumption.
    destruct (byte_view w m a); discriminate.
  - exfalso. apply (left_no_write _ _ _ _ _ _ _ Hl).
Qed.
