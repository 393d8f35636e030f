(** Proofs about bit_reference (bit_reference.hpp). *)
From Coq Require Import ZArith Bool List Lia.
From Coq Require Import ZifyBool.
From Verif Require Import Base WordOps IterModel RefModel Spec SpecRef
  ProofBase ProofIter ProofWord ProofCnt ProofRef.
Open Scope Z_scope.
Ltac Zify.zify_post_hook ::= idtac.

Lemma pow2_testbit : forall q k, 0 <= q -> 0 <= k -> Z.testbit (2 ^ q) k = (k =? q).
Proof.
  intros q k Hq Hk. rewrite Z.pow2_bits_eqb by lia. apply Z.eqb_sym.
Qed.

Lemma pow2_range : forall w q, 0 <= q < w -> 0 <= 2 ^ q < 2 ^ w.
Proof. intros w q H. pose proof (pow_pos q). split; [lia|]. apply Z.pow_lt_mono_r; lia. Qed.

Lemma tzcnt_pow2 : forall w q, valid_w w -> 0 <= q < w -> tzcnt w (2 ^ q) = q.
Proof.
  intros w q Hw Hq. destruct (tzcnt_spec w (2 ^ q) Hw (pow2_range w q Hq)) as (H1 & H2 & H3).
  set (t := tzcnt w (2 ^ q)) in *. clearbody t.
  destruct (Z.lt_trichotomy t q) as [C|[C|C]]; [|exact C|].
  - specialize (H2 ltac:(lia)). rewrite pow2_testbit in H2 by lia. lia.
  - specialize (H3 q ltac:(lia)). rewrite pow2_testbit in H3 by lia. lia.
Qed.

Lemma land_pow2 : forall x q, 0 <= x -> 0 <= q ->
  negb (Z.land x (2 ^ q) =? 0) = Z.testbit x q.
Proof.
  intros x q Hx Hq.
  assert (E : Z.land x (2 ^ q) = if Z.testbit x q then 2 ^ q else 0).
  { apply Z.bits_inj'. intros k Hk. rewrite Z.land_spec, pow2_testbit by lia.
    destruct (Z.eqb_spec k q) as [->|C].
    - destruct (Z.testbit x q); [rewrite pow2_testbit by lia; lia|now rewrite Z.bits_0].
    - rewrite andb_false_r. destruct (Z.testbit x q); [|now rewrite Z.bits_0].
      rewrite pow2_testbit by lia. lia. }
  rewrite E. destruct (Z.testbit x q); [|reflexivity].
  pose proof (pow_pos q). destruct (Z.eqb_spec (2 ^ q) 0); [lia|reflexivity].
Qed.

(** Bit [i] becomes [b]; nothing else changes. *)
Definition wrote (w : Z) (m m' : mem) (i : Z) (b : bool) : Prop :=
  updated w m m' i (i + 1) (fun _ => b).

Section Ref.
Variables (w a q : Z).
Hypothesis Hw : valid_w w.
Hypothesis Hq : 0 <= q < w.
Local Notation i := (a * w + q).
Local Notation r := (Ref a (2 ^ q)).

Lemma wp_ref_get : forall m (Q : bool -> mem -> Prop),
  wf_mem w m -> m a <> None -> Q (bit w m i) m -> wp (ref_get r) m Q.
Proof.
  intros m Q Hwf Ha HQ. unfold ref_get. cbn [rptr rmask].
  apply wp_bind, (wp_load w); try assumption; [lia|]. intros x Hx Hbx. apply wp_ret.
  rewrite land_pow2 by lia. rewrite Hbx in HQ by lia.
  replace (a * w + q - a * w) with q in HQ by lia. exact HQ.
Qed.

Lemma wp_ref_write : forall m v b x (Q : unit -> mem -> Prop),
  wf_mem w m -> m a <> None -> 0 <= v < 2 ^ w ->
  (forall j, a * w <= j < a * w + w -> bit w m j = Z.testbit x (j - a * w)) ->
  (forall k, 0 <= k < w -> Z.testbit v k = if k =? q then b else Z.testbit x k) ->
  (forall m', wrote w m m' i b -> Q tt m') -> wp (store a v) m Q.
Proof.
  intros m v b x Q Hwf Ha Hv Hbx Hb HQ.
  apply (wp_store_part w) with (lo := i) (hi := i + 1) (f := fun _ => b);
    try assumption; try lia.
  intros k Hk. rewrite Hb by lia. unfold inr.
  destruct (Z.eqb_spec k q) as [->|C].
  - destruct (Z.leb_spec i i); [|lia]. destruct (Z.ltb_spec i (i + 1)); [|lia]. reflexivity.
  - rewrite Hbx by lia. replace (a * w + k - a * w) with k by lia.
    destruct (Z.leb_spec i (a * w + k)); destruct (Z.ltb_spec (a * w + k) (i + 1));
      cbn [andb]; try reflexivity. lia.
Qed.

Local Ltac step :=
  intros m Q Hwf Ha HQ; cbn [rptr rmask];
  apply wp_bind, (wp_load w); try assumption; [lia|]; intros x Hx Hbx;
  pose proof (pow2_range w q Hq) as Hm;
  eapply wp_ref_write; [exact Hwf|exact Ha| |exact Hbx| |exact HQ].

Lemma wp_ref_set1 : forall m (Q : unit -> mem -> Prop), wf_mem w m -> m a <> None ->
  (forall m', wrote w m m' i true -> Q tt m') -> wp (ref_set1 r) m Q.
Proof.
  unfold ref_set1. step.
  - apply lor_range; lia.
  - intros k Hk. rewrite Z.lor_spec, pow2_testbit by lia.
    destruct (k =? q); [apply orb_true_r|apply orb_false_r].
Qed.

Lemma wp_ref_reset : forall m (Q : unit -> mem -> Prop), wf_mem w m -> m a <> None ->
  (forall m', wrote w m m' i false -> Q tt m') -> wp (ref_reset w r) m Q.
Proof.
  unfold ref_reset. step.
  - apply wrap_range; lia.
  - intros k Hk. rewrite wrap_testbit, Z.land_spec, Z.lnot_spec, pow2_testbit by lia.
    destruct (Z.ltb_spec k w); [|lia]. cbn [andb].
    destruct (k =? q); [apply andb_false_r|apply andb_true_r].
Qed.

Lemma wp_ref_flip : forall m (Q : unit -> mem -> Prop), wf_mem w m -> m a <> None ->
  (forall m', wrote w m m' i (negb (bit w m i)) -> Q tt m') -> wp (ref_flip r) m Q.
Proof.
  unfold ref_flip. step.
  - apply lxor_range; lia.
  - intros k Hk. rewrite Z.lxor_spec, pow2_testbit by lia.
    destruct (Z.eqb_spec k q) as [->|C]; [|apply xorb_false_r].
    rewrite Hbx by lia. replace (a * w + q - a * w) with q by lia. apply xorb_true_r.
Qed.

Lemma wp_ref_set : forall m b (Q : unit -> mem -> Prop), wf_mem w m -> m a <> None ->
  (forall m', wrote w m m' i b -> Q tt m') -> wp (ref_set w r b) m Q.
Proof.
  intros m b Q Hwf Ha HQ. unfold ref_set. destruct b;
    [apply wp_ref_set1|apply wp_ref_reset]; assumption.
Qed.

Lemma wp_ref_assign_val : forall m b (Q : unit -> mem -> Prop), wf_mem w m -> m a <> None ->
  (forall m', wrote w m m' i b -> Q tt m') -> wp (ref_assign_val w r b) m Q.
Proof.
  intros m b Q Hwf Ha HQ. unfold ref_assign_val. destruct b;
    [apply wp_ref_set1|apply wp_ref_reset]; assumption.
Qed.

Lemma land1 : forall x, negb (Z.land x 1 =? 0) = Z.testbit x 0.
Proof.
  intros x. assert (E : Z.land x 1 = if Z.testbit x 0 then 1 else 0).
  { apply Z.bits_inj'. intros k Hk. rewrite Z.land_spec. change 1 with (2 ^ 0) at 1.
    rewrite pow2_testbit by lia. destruct (Z.eqb_spec k 0) as [->|C].
    - destruct (Z.testbit x 0); reflexivity.
    - rewrite andb_false_r. destruct (Z.testbit x 0); [|now rewrite Z.bits_0].
      change 1 with (2 ^ 0). rewrite pow2_testbit by lia. lia. }
  rewrite E. destruct (Z.testbit x 0); reflexivity.
Qed.

Lemma wp_ref_assign_word : forall m v (Q : unit -> mem -> Prop), wf_mem w m -> m a <> None ->
  (forall m', wrote w m m' i (Z.testbit v 0) -> Q tt m') -> wp (ref_assign_word w r v) m Q.
Proof.
  intros m v Q Hwf Ha HQ. unfold ref_assign_word. rewrite land1.
  destruct (Z.testbit v 0); [apply wp_ref_set1|apply wp_ref_reset]; assumption.
Qed.

Lemma wp_ref_assign_word_pos : forall p m v n (Q : unit -> mem -> Prop),
  wf_mem w m -> m a <> None -> 0 <= n < w ->
  (forall m', wrote w m m' i (Z.testbit v n) -> Q tt m') ->
  wp (ref_assign_word_pos p w r v n) m Q.
Proof.
  intros p m v n Q Hwf Ha Hn HQ. unfold ref_assign_word_pos.
  pose proof (prom_ge w Hw). destruct (Z.ltb_spec n w); [|lia].
  wpl. apply rwp_cshr; [lia|]. rewrite land1, Z.shiftr_spec by lia.
  rewrite Z.add_0_l. destruct (Z.testbit v n); [apply wp_ref_set1|apply wp_ref_reset]; assumption.
Qed.

Lemma b2z_mask : forall (b : bool) k, 0 <= k ->
  Z.testbit (2 ^ q * b2z b) k = b && (k =? q).
Proof.
  intros b k Hk. destruct b; cbn [b2z andb].
  - rewrite Z.mul_1_r. apply pow2_testbit; lia.
  - rewrite Z.mul_0_r. apply Z.bits_0.
Qed.

Lemma wp_ref_and : forall m (b : bool) (Q : unit -> mem -> Prop), wf_mem w m -> m a <> None ->
  (forall m', wrote w m m' i (bit w m i && b) -> Q tt m') -> wp (ref_and w r b) m Q.
Proof.
  intros m b. revert m. unfold ref_and. step.
  - apply wrap_range; lia.
  - intros k Hk. rewrite wrap_testbit, Z.land_spec, Z.lnot_spec, b2z_mask by lia.
    destruct (Z.ltb_spec k w); [|lia]. cbn [andb].
    destruct (Z.eqb_spec k q) as [->|C].
    + rewrite Hbx by lia. replace (a * w + q - a * w) with q by lia.
      destruct (Z.testbit x q), b; reflexivity.
    + destruct (Z.testbit x k), b; reflexivity.
Qed.

Lemma wp_ref_or : forall m (b : bool) (Q : unit -> mem -> Prop), wf_mem w m -> m a <> None ->
  (forall m', wrote w m m' i (bit w m i || b) -> Q tt m') -> wp (ref_or w r b) m Q.
Proof.
  intros m b. revert m. unfold ref_or. step.
  - apply wrap_range; lia.
  - intros k Hk. rewrite wrap_testbit, Z.lor_spec, b2z_mask by lia.
    destruct (Z.ltb_spec k w); [|lia]. cbn [andb].
    destruct (Z.eqb_spec k q) as [->|C].
    + rewrite Hbx by lia. replace (a * w + q - a * w) with q by lia.
      destruct (Z.testbit x q), b; reflexivity.
    + destruct (Z.testbit x k), b; reflexivity.
Qed.

Lemma wp_ref_xor : forall m (b : bool) (Q : unit -> mem -> Prop), wf_mem w m -> m a <> None ->
  (forall m', wrote w m m' i (xorb (bit w m i) b) -> Q tt m') -> wp (ref_xor w r b) m Q.
Proof.
  intros m b. revert m. unfold ref_xor. step.
  - apply wrap_range; lia.
  - intros k Hk. rewrite wrap_testbit, Z.lxor_spec, b2z_mask by lia.
    destruct (Z.ltb_spec k w); [|lia]. cbn [andb].
    destruct (Z.eqb_spec k q) as [->|C].
    + rewrite Hbx by lia. replace (a * w + q - a * w) with q by lia.
      destruct (Z.testbit x q), b; reflexivity.
    + destruct (Z.testbit x k), b; reflexivity.
Qed.
End Ref.

Lemma wp_ref_assign_ref : forall w a q a' q' m (Q : unit -> mem -> Prop), valid_w w ->
  0 <= q < w -> 0 <= q' < w -> wf_mem w m -> m a <> None -> m a' <> None ->
  (forall m', wrote w m m' (a * w + q) (bit w m (a' * w + q')) -> Q tt m') ->
  wp (ref_assign_ref w (Ref a (2 ^ q)) (Ref a' (2 ^ q'))) m Q.
Proof.
  intros w a q a' q' m Q Hw Hq Hq' Hwf Ha Ha' HQ. unfold ref_assign_ref.
  apply wp_bind, (wp_ref_get w); try assumption.
  destruct (bit w m (a' * w + q')); [apply (wp_ref_set1 w)|apply (wp_ref_reset w)]; assumption.
Qed.

Lemma writes_wp : forall w c m i b,
  wp c m (fun _ m' => wrote w m m' i b) -> writes w c m i b.
Proof.
  intros w c m i b H. unfold wp in H. destruct (c m) as [[[] m']| | | |] eqn:E; try contradiction.
  exists m'. split; [exact E|exact H].
Qed.

(** ** The theorems in terms of [refers_to] *)

Lemma mk_ref_refers : forall p w a q, valid_w w -> 0 <= q < w ->
  exists r, mk_ref p w a q = Ok r /\ refers_to w r (a * w + q) /\
    rptr r = a /\ rmask r = 2 ^ q /\ ref_position w r = q.
Proof.
  intros p w a q Hw Hq. exists (Ref a (2 ^ q)). split; [apply mk_ref_eq; assumption|].
  split; [exists a, q; auto|]. cbn [rptr rmask]. split; [reflexivity|].
  split; [reflexivity|]. apply tzcnt_pow2; assumption.
Qed.

Lemma mk_ref_assert : forall p w a q, 0 <= q -> mk_ref p w a q = Assert \/ q < w.
Proof.
  intros p w a q Hq. unfold mk_ref. destruct (Z.ltb_spec q w); [right; assumption|left].
  rewrite andb_false_r. reflexivity.
Qed.

Lemma refers_mapped : forall w m a q, 0 <= q < w -> mapped w m (a * w + q) (a * w + q + 1) ->
  m a <> None.
Proof. intros w m a q Hq Hm. eapply (mapped_word w); [|exact Hm|lia|lia|lia]. lia. Qed.

Lemma ref_get_ok : forall w m r i, valid_w w -> wf_mem w m -> refers_to w r i ->
  mapped w m i (i + 1) -> ref_get r m = Ok (bit w m i, m).
Proof.
  intros w m r i Hw Hwf (a & q & Hq & -> & ->) Hm.
  assert (H : wp (ref_get (Ref a (2 ^ q))) m (fun b m' => b = bit w m (a * w + q) /\ m' = m)).
  { apply (wp_ref_get w); auto. eapply refers_mapped; eassumption. }
  unfold wp in H. destruct (ref_get (Ref a (2 ^ q)) m) as [[b m']| | | |]; try contradiction.
  destruct H as [-> ->]. reflexivity.
Qed.

Lemma ref_set_ok : forall w m r i (b : bool), valid_w w -> wf_mem w m -> refers_to w r i ->
  mapped w m i (i + 1) ->
  writes w (ref_set1 r) m i true /\ writes w (ref_reset w r) m i false /\
  writes w (ref_set w r b) m i b /\ writes w (ref_flip r) m i (negb (bit w m i)).
Proof.
  intros w m r i b Hw Hwf (a & q & Hq & -> & ->) Hm.
  pose proof (refers_mapped w m a q Hq Hm) as Ha.
  repeat split; apply writes_wp;
    [apply (wp_ref_set1 w)|apply (wp_ref_reset w)|apply (wp_ref_set w)|apply (wp_ref_flip w)];
    auto.
Qed.

Lemma ref_assign_ok : forall p w m r i r' i' (b : bool) v n, valid_w w -> wf_mem w m ->
  refers_to w r i -> mapped w m i (i + 1) ->
  refers_to w r' i' -> mapped w m i' (i' + 1) -> 0 <= n < w ->
  writes w (ref_assign_val w r b) m i b /\
  writes w (ref_assign_ref w r r') m i (bit w m i') /\
  writes w (ref_assign_word w r v) m i (Z.testbit v 0) /\
  writes w (ref_assign_word_pos p w r v n) m i (Z.testbit v n).
Proof.
  intros p w m r i r' i' b v n Hw Hwf (a & q & Hq & -> & ->) Hm (a' & q' & Hq' & -> & ->) Hm' Hn.
  pose proof (refers_mapped w m a q Hq Hm) as Ha.
  pose proof (refers_mapped w m a' q' Hq' Hm') as Ha'.
  repeat split; apply writes_wp;
    [apply (wp_ref_assign_val w)|apply (wp_ref_assign_ref w)|apply (wp_ref_assign_word w)
    |apply (wp_ref_assign_word_pos w)]; auto.
Qed.

Lemma ref_compound_ok : forall w m r i (b : bool), valid_w w -> wf_mem w m -> refers_to w r i ->
  mapped w m i (i + 1) ->
  writes w (ref_and w r b) m i (bit w m i && b) /\
  writes w (ref_or w r b) m i (bit w m i || b) /\
  writes w (ref_xor w r b) m i (xorb (bit w m i) b).
Proof.
  intros w m r i b Hw Hwf (a & q & Hq & -> & ->) Hm.
  pose proof (refers_mapped w m a q Hq Hm) as Ha.
  repeat split; apply writes_wp;
    [apply (wp_ref_and w)|apply (wp_ref_or w)|apply (wp_ref_xor w)]; auto.
Qed.

(** ** Swap *)

Lemma refers_inj : forall w a q a' q', 0 <= q < w -> 0 <= q' < w ->
  a * w + q = a' * w + q' -> a = a' /\ q = q'.
Proof.
  intros w a q a' q' Hq Hq' H.
  assert (E : It a q = It a' q').
  { apply (addr_inj w); [lia|exact Hq|exact Hq'|exact H]. }
  injection E as -> ->. auto.
Qed.

Lemma ref_swap_ok : forall w m l r i j, valid_w w -> wf_mem w m ->
  refers_to w l i -> refers_to w r j -> mapped w m i (i + 1) -> mapped w m j (j + 1) ->
  exists m', ref_swap l r m = Ok (tt, m') /\ wf_mem w m' /\ same_dom m m' /\
    forall k, bit w m' k = if k =? i then bit w m j else
                           if k =? j then bit w m i else bit w m k.
Proof.
  intros w m l r i j Hw Hwf (a & q & Hq & -> & ->) (a' & q' & Hq' & -> & ->) Hm Hm'.
  pose proof (refers_mapped w m a q Hq Hm) as Ha.
  pose proof (refers_mapped w m a' q' Hq' Hm') as Ha'.
  assert (H : wp (ref_swap (Ref a (2 ^ q)) (Ref a' (2 ^ q'))) m (fun _ m' =>
    wf_mem w m' /\ same_dom m m' /\
    forall k, bit w m' k = if k =? a * w + q then bit w m (a' * w + q') else
                if k =? a' * w + q' then bit w m (a * w + q) else bit w m k)).
  { unfold ref_swap. set (i := a * w + q). set (j := a' * w + q').
    apply wp_bind, (wp_ref_get w); try assumption. fold i.
    apply wp_bind, (wp_ref_get w); try assumption. fold j.
    destruct (eqb (bit w m i) (bit w m j)) eqn:E; cbn [negb].
    - apply eqb_prop in E. apply wp_ret. split; [assumption|].
      split; [apply same_dom_refl|]. intros k.
      destruct (Z.eqb_spec k i) as [->|]; [assumption|].
      destruct (Z.eqb_spec k j) as [->|]; congruence.
    - apply wp_bind, (wp_ref_flip w); try assumption. fold i.
      intros m1 (A1 & A2 & A3).
      assert (Ha1 : m1 a' <> None) by (intros X; apply Ha', A2, X).
      apply (wp_ref_flip w); try assumption. fold j.
      intros m2 (B1 & B2 & B3). split; [assumption|].
      split; [eapply same_dom_trans; eassumption|]. intros k. rewrite B3, A3, A3.
      assert (Hij : i <> j) by (intros X; rewrite X, eqb_reflx in E; discriminate).
      unfold inr.
      destruct (Z.eqb_spec k i) as [->|C1].
      + destruct (Z.leb_spec j i); destruct (Z.ltb_spec i (j + 1)); cbn [andb]; try lia;
        destruct (Z.leb_spec i i); try lia; destruct (Z.ltb_spec i (i + 1)); try lia;
        cbn [andb]; destruct (bit w m i), (bit w m j); try reflexivity; discriminate.
      + destruct (Z.eqb_spec k j) as [->|C2].
        * destruct (Z.leb_spec j j); try lia; destruct (Z.ltb_spec j (j + 1)); try lia.
          destruct (Z.leb_spec i j); destruct (Z.ltb_spec j (i + 1)); cbn [andb]; try lia;
          destruct (bit w m i), (bit w m j); try reflexivity; discriminate.
        * destruct (Z.leb_spec j k); destruct (Z.ltb_spec k (j + 1)); cbn [andb]; try lia;
          destruct (Z.leb_spec i k); destruct (Z.ltb_spec k (i + 1)); cbn [andb]; try lia;
          reflexivity. }
  unfold wp in H. destruct (ref_swap (Ref a (2 ^ q)) (Ref a' (2 ^ q')) m)
    as [[[] m']| | | |]; try contradiction.
  exists m'. split; [reflexivity|exact H].
Qed.

Lemma ref_swap_val_ok : forall w m r i v, valid_w w -> wf_mem w m ->
  refers_to w r i -> mapped w m i (i + 1) ->
  exists m', ref_swap_val r v m = Ok (bit w m i, m') /\
    updated w m m' i (i + 1) (fun _ => v).
Proof.
  intros w m r i v Hw Hwf (a & q & Hq & -> & ->) Hm.
  pose proof (refers_mapped w m a q Hq Hm) as Ha.
  assert (H : wp (ref_swap_val (Ref a (2 ^ q)) v) m (fun b m' =>
    b = bit w m (a * w + q) /\ updated w m m' (a * w + q) (a * w + q + 1) (fun _ => v))).
  { unfold ref_swap_val. apply wp_bind, (wp_ref_get w); try assumption.
    destruct (eqb (bit w m (a * w + q)) v) eqn:E; cbn [negb].
    - apply eqb_prop in E. apply wp_ret. split; [auto|].
      apply updated_refl; [assumption|]. intros i Hi.
      replace i with (a * w + q) by lia. exact E.
    - apply wp_bind, (wp_ref_flip w); try assumption. intros m' U. apply wp_ret.
      split; [destruct (bit w m (a * w + q)), v; try reflexivity; discriminate|].
      eapply updated_ext; [exact U|]. intros i Hi. cbv beta.
      destruct (bit w m (a * w + q)), v; try reflexivity; discriminate. }
  unfold wp in H. destruct (ref_swap_val (Ref a (2 ^ q)) v m) as [[b m']| | | |]; try contradiction.
  destruct H as [-> H]. exists m'. split; [reflexivity|exact H].
Qed.

(** ** bit_value *)

Lemma val_ops : forall l r, val_not l = negb l /\ val_and l r = (l && r)%bool /\
  val_or l r = (l || r)%bool /\ val_xor l r = xorb l r /\
  val_and_assign l r = (l && r)%bool /\ val_or_assign l r = (l || r)%bool /\
  val_xor_assign l r = xorb l r.
Proof. intros [|] [|]; repeat split. Qed.

Lemma val_of_word_ok : forall p w v n, valid_w w -> 0 <= n < w ->
  val_of_word p w v n = Ok (Z.testbit v n).
Proof.
  intros p w v n Hw Hn. pose proof (prom_ge w Hw). unfold val_of_word, cshr.
  destruct (Z.ltb_spec n w); [|lia]. destruct (Z.leb_spec 0 n); [|lia].
  destruct (Z.ltb_spec n (prom w)); [|lia]. cbn [andb rbind]. rewrite land1.
  rewrite Z.shiftr_spec by lia. reflexivity.
Qed.
