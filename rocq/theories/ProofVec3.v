(** Histories of calls on a bit_vector. *)
From Coq Require Import ZArith Bool List Lia.
From Verif Require Import Base WordOps IterModel RefModel PopcntModel AlgModel ShiftModel
  Spec SpecRef VecModel SpecVec ProofBase ProofIter ProofReference ProofRef ProofRange
  ProofShift ProofVec ProofVec2.
Import ListNotations.
Open Scope Z_scope.
Ltac Zify.zify_post_hook ::= idtac.

(** The storage handed to insert(pos, first, last). *)
Lemma ext_bit : forall w src i, 0 < w -> 0 <= i < zlen src * w ->
  bit w (ext_mem src) ((- zlen src - 64) * w + i) = get_at i (list_bits w src).
Proof.
  intros w src i Hw Hi. unfold get_at. rewrite list_bits_nth by (assumption || exact Hi).
  assert (D : 0 <= i / w < zlen src).
  { split; [apply Z.div_pos; lia|apply Z.div_lt_upper_bound; lia]. }
  unfold bit. rewrite Z.div_add_l by lia.
  replace ((- zlen src - 64) * w + i) with (i + (- zlen src - 64) * w) by lia.
  rewrite Z.mod_add by lia. unfold ext_mem, wsize. fold (zlen src).
  replace (- zlen src - 64 <=? - zlen src - 64 + i / w) with true by lia.
  replace (- zlen src - 64 + i / w <? -64) with true by lia. cbn [andb].
  f_equal. f_equal. lia.
Qed.

Lemma ext_mapped : forall w src j k, 0 < w -> 0 <= j -> k <= zlen src * w ->
  mapped w (ext_mem src) ((- zlen src - 64) * w + j) ((- zlen src - 64) * w + k).
Proof.
  intros w src j k Hw Hj Hk i Hi. set (x := i - (- zlen src - 64) * w).
  assert (D : 0 <= x / w < zlen src).
  { split; [apply Z.div_pos; lia|apply Z.div_lt_upper_bound; lia]. }
  replace i with ((- zlen src - 64) * w + x) by lia. rewrite Z.div_add_l by lia.
  unfold ext_mem, wsize. fold (zlen src).
  replace (- zlen src - 64 <=? - zlen src - 64 + x / w) with true by lia.
  replace (- zlen src - 64 + x / w <? -64) with true by lia. discriminate.
Qed.

Lemma ext_wf : forall w src, words_ok w src -> wf_mem w (ext_mem src).
Proof.
  intros w src H a x E. unfold ext_mem, wsize in E.
  destruct ((- Z.of_nat (length src) - 64 <=? a) && (a <? -64)) eqn:C; [|discriminate].
  injection E as <-. unfold words_ok in H. rewrite Forall_forall in H. apply H, nth_In. lia.
Qed.

Lemma see_iter_wp : forall w r i (P : bvec -> Prop), valid_w w -> 0 <= i <= 2 ^ 62 ->
  rwp r (fun x => valid_it w (fst x) /\ addr w (fst x) = i /\ P (snd x)) ->
  rwp (see_iter w r) (fun y => fst y = OIdx i /\ P (snd y)).
Proof.
  intros w r i P Hw Hi H. pose proof (valid_pos w Hw) as Pw. unfold see_iter. apply rwp_bind.
  eapply rwp_conseq; [exact H|]. intros [it v] (H1 & H2 & H3). cbn [fst snd] in *.
  rewrite idiff_eq; [|assumption|assumption|apply begin_valid; lia|rewrite begin_addr; lia].
  cbn [rbind]. apply rwp_ok. cbn [fst snd]. rewrite begin_addr, H2, Z.sub_0_r. auto.
Qed.

Lemma seen_ok : forall w (v : bvec) (x : vout) l', vec_ok w v /\ vbits w v = l' ->
  x = x /\ vec_ok w v /\ vbits w v = l'.
Proof. auto. Qed.

(** One call. *)
Lemma vstep_wp : forall p w v o, valid_w w -> vec_ok w v -> vpre p w (vbits w v) o ->
  rwp (vstep p w v o) (fun r => fst r = fst (vspec w (vbits w v) o) /\
    vec_ok w (snd r) /\ vbits w (snd r) = snd (vspec w (vbits w v) o)).
Proof.
  intros p w v o Hw V Pre. pose proof (valid_pos w Hw) as Pw. pose proof V as (V1 & V2 & V3).
  pose proof (vbits_length w v ltac:(lia) V) as Hn.
  pose proof (begin_valid w ltac:(lia)) as Vb. pose proof (begin_addr w) as Ab.
  assert (Hmb : vlen v <= 2 ^ 62) by (unfold max_bits in V3; lia).
  destruct o; cbn [vstep vpre vspec fst snd] in *; rewrite ?Hn in Pre.
  - apply rwp_bind. eapply rwp_conseq; [apply push_back_wp; assumption|].
    intros v' H. apply rwp_ok. auto.
  - apply rwp_bind. eapply rwp_conseq; [apply pop_back_wp; assumption|].
    intros v' H. apply rwp_ok. auto.
  - destruct Pre as (P1 & P2 & P3).
    apply rwp_bind, rwp_iadd; [assumption..|lia|]. intros pos Vp Ap.
    apply (see_iter_wp w _ i (fun v' => vec_ok w v' /\ vbits w v' = insert_at i [b] (vbits w v)));
      [assumption|lia|]. apply insert1_wp; [assumption..|lia|assumption|assumption].
  - destruct Pre as (P1 & P2 & P3 & P4).
    apply rwp_bind, rwp_iadd; [assumption..|lia|]. intros pos Vp Ap.
    apply (see_iter_wp w _ i (fun v' => vec_ok w v' /\ vbits w v' = insert_at i (repeat b (Z.to_nat n)) (vbits w v)));
      [assumption|lia|]. apply insert_n_wp; [assumption..|lia|assumption|assumption].
  - destruct Pre as (P1 & P2 & P3 & P4 & P5 & P6 & P7). unfold max_bits in P5.
    assert (Ve : valid_it w (ext_begin src)) by (unfold valid_it, ext_begin; cbn; lia).
    assert (Ae : addr w (ext_begin src) = (- zlen src - 64) * w)
      by (unfold addr, ext_begin, wsize; cbn [ib ip]; unfold zlen; lia).
    assert (0 <= zlen src) by (unfold zlen; lia).
    apply rwp_bind, rwp_iadd; [assumption..|lia|]. intros pos Vp Ap.
    apply rwp_bind, rwp_iadd; [assumption..|lia|]. intros f Vf Af.
    apply rwp_bind, rwp_iadd; [assumption..|lia|]. intros e Vl Al.
    apply (see_iter_wp w _ i (fun v' => vec_ok w v' /\
      vbits w v' = insert_at i (slice j k (list_bits w src)) (vbits w v))); [assumption|lia|].
    apply rwp_bind.
    eapply rwp_conseq; [apply (insert_range_wp p w (ext_mem src) v pos i f e); try assumption|].
    + intros a Ha. unfold ext_mem. replace (a <? -64) with false by lia.
      rewrite andb_false_r. reflexivity.
    + apply ext_wf. assumption.
    + split; [assumption|]. split; [assumption|]. unfold max_bits. split; [lia|].
      rewrite Af, Al, Ae. apply ext_mapped; lia.
    + rewrite Al, Ae. nia.
    + lia.
    + intros H1 H2. replace (addr w e - addr w f) with (k - j) by lia. apply P7; lia.
    + intros [[it v'] ext'] (H1 & H2 & H3 & H4 & H5). apply rwp_ok. cbn [fst snd].
      split; [assumption|]. split; [assumption|]. split; [assumption|].
      rewrite H5. f_equal. apply list_ext.
      * rewrite zlen_slice; [|lia|unfold zlen in *; rewrite list_bits_length by lia; lia].
        unfold zlen. rewrite map_length, seq_length. lia.
      * assert (L : zlen (map (fun k0 => bit w (ext_mem src) (addr w f + Z.of_nat k0))
          (seq 0 (Z.to_nat (addr w e - addr w f)))) = k - j)
          by (unfold zlen; rewrite map_length, seq_length; lia).
        rewrite L. intros x Hx. rewrite get_slice by lia.
        rewrite <- ext_bit by lia. unfold get_at.
        set (g := fun k0 => bit w (ext_mem src) (addr w f + Z.of_nat k0)).
        rewrite (nth_indep _ false (g O)) by (rewrite map_length, seq_length; lia).
        rewrite map_nth, seq_nth by lia. unfold g. f_equal. lia.
  - destruct Pre as (P1 & P2).
    apply rwp_bind, rwp_iadd; [assumption..|lia|]. intros pos Vp Ap.
    apply (see_iter_wp w _ i (fun v' => vec_ok w v' /\ vbits w v' = erase_at i (i + 1) (vbits w v)));
      [assumption|lia|].
    eapply rwp_conseq; [apply (erase1_wp p w v pos i); [assumption..|lia|assumption|assumption]|].
    intros r (H1 & H2 & H3). rewrite H1. split; [assumption|]. split; [lia|]. auto.
  - destruct Pre as (P1 & P2 & P3 & P4).
    apply rwp_bind, rwp_iadd; [assumption..|lia|]. intros f Vf Af.
    apply rwp_bind, rwp_iadd; [assumption..|lia|]. intros e Ve Ae.
    apply (see_iter_wp w _ i (fun v' => vec_ok w v' /\ vbits w v' = erase_at i j (vbits w v)));
      [assumption|lia|].
    apply erase_range_wp; [assumption..|lia|lia|assumption|assumption|assumption|assumption].
  - apply rwp_bind. eapply rwp_conseq; [apply vset_wp; assumption|].
    intros v' H. apply rwp_ok. auto.
  - rewrite Hn. unfold vat_set. destruct (Z.ltb_spec i (vlen v)) as [C|C].
    + pose proof (vset_wp p w v i b Hw V ltac:(lia)) as H. apply rwp_exists in H.
      destruct H as (v' & E & H). rewrite E. cbn. auto.
    + cbn. auto.
  - rewrite vget_ok by assumption. cbn. auto.
  - rewrite Hn. unfold vat. destruct (Z.ltb_spec i (vlen v)) as [C|C].
    + rewrite vget_ok by (assumption || lia). cbn. auto.
    + cbn. auto.
  - apply nil_zlen in Pre. unfold vfront. rewrite vget_ok by (assumption || lia). cbn.
    split; [|auto]. destruct (vbits w v); reflexivity.
  - pose proof (last_get _ Pre) as Hl. apply nil_zlen in Pre. unfold vback.
    rewrite wrap_small by lia. rewrite vget_ok by (assumption || lia). cbn.
    rewrite Hl, Hn. auto.
  - cbn. rewrite Hn. auto.
  - cbn. split; [|auto]. unfold vempty. rewrite <- Hn. destruct (vbits w v); reflexivity.
  - cbn. split; [reflexivity|]. split; [|reflexivity].
    split; [constructor|]. cbn. unfold max_bits. lia.
  - cbn. auto.
  - cbn. auto.
  - destruct Pre as [P1 P2]. cbn. split; [reflexivity|]. apply resize_ok; assumption.
  - cbn. split; [reflexivity|]. unfold ctor_copy. destruct other. auto.
  - cbn. split; [reflexivity|]. destruct other. auto.
Qed.

(** All histories. *)
Lemma vrun_ok : forall p w os v, valid_w w -> vec_ok w v -> vpre_all p w (vbits w v) os ->
  exists v', vrun p w v os = Ok (fst (vspec_run w (vbits w v) os), v') /\
    vec_ok w v' /\ vbits w v' = snd (vspec_run w (vbits w v) os).
Proof.
  intros p w os. induction os as [|o os IH]; intros v Hw V Pre.
  - exists v. cbn. auto.
  - cbn [vpre_all] in Pre. destruct Pre as [P1 P2].
    pose proof (vstep_wp p w v o Hw V P1) as H. apply rwp_exists in H.
    destruct H as ([x v1] & E & H1 & H2 & H3). cbn [fst snd] in *. subst x.
    rewrite <- H3 in P2. destruct (IH v1 Hw H2 P2) as (v2 & E2 & V2 & B2).
    exists v2. cbn [vrun vspec_run]. rewrite E. cbn [rbind]. rewrite E2. cbn [rbind].
    rewrite H3 in *. destruct (vspec w (vbits w v) o) as [x l1]. cbn [fst snd] in *.
    destruct (vspec_run w l1 os) as [xs l2]. cbn [fst snd] in *. auto.
Qed.
