(** Histories of a bit vector that only grows: the storage beyond size() stays
    zero, so that resize appends zeros. *)
From Coq Require Import ZArith Bool List Lia ZifyBool.
From Verif Require Import Base WordOps IterModel RefModel AlgModel ShiftModel VecModel Spec SpecVec
  SpecGrow ProofBase ProofIter ProofRange ProofVec ProofVec2 ProofVec3 ProofVec4.
Import ListNotations.
Open Scope Z_scope.
Ltac Zify.zify_post_hook ::= idtac.

Lemma clean_bit : forall w v, 0 < w -> 0 <= vlen v -> (clean w v <->
  forall j, vlen v <= j -> bit w (vmem (vwords v) nomem) j = false).
Proof.
  intros w v Hp Hv. unfold clean, get_at, zlen. split; intros H j Hj.
  - rewrite <- list_bits_bit by lia.
    destruct (Z_lt_dec j (Z.of_nat (length (vwords v)) * w)) as [C|C]; [apply H; lia|].
    apply nth_overflow. rewrite list_bits_length by lia. lia.
  - rewrite (list_bits_bit w (vwords v) nomem) by lia. apply H. lia.
Qed.

Lemma kept_clean : forall w v v', valid_w w -> vec_ok w v -> vec_ok w v' -> clean w v ->
  zlen (vbits w v) <= zlen (vbits w v') -> kept w v v' -> clean w v'.
Proof.
  intros w v v' Vw V V' C L K. pose proof (valid_pos w Vw) as Pw.
  rewrite !vbits_length in L by (assumption || lia).
  pose proof V as (_ & V2 & _). pose proof V' as (_ & V2' & _).
  rewrite clean_bit in * by lia. intros j Hj. rewrite K by lia. apply C. lia.
Qed.

Lemma resize_grow : forall w v n, valid_w w -> vec_ok w v -> clean w v -> vlen v <= n < 2 ^ 32 ->
  vec_ok w (resize w v n) /\ clean w (resize w v n) /\
  vbits w (resize w v n) = vbits w v ++ repeat false (Z.to_nat (n - vlen v)).
Proof.
  intros w v n Vw V C Hn. pose proof (valid_pos w Vw) as Pw. pose proof V as (V1 & V2 & V3).
  destruct (resize_exact w v n Vw V ltac:(lia)) as [V' E'].
  split; [exact V'|].
  assert (B : forall j, 0 <= j -> n <= j -> bit w (vmem (vwords (resize w v n)) nomem) j = false).
  { intros j Hj Hk. unfold resize. cbn [vwords]. unfold resize_words, wsize.
    pose proof (word_count_ok w n Vw ltac:(lia)) as Hc. set (c := word_count w n) in *.
    rewrite clean_bit in C by lia.
    destruct (Z.leb_spec c (Z.of_nat (length (vwords v)))) as [D|D].
    - destruct (Z_lt_dec j (c * w)) as [F|F].
      + rewrite bit_cut by nia. apply C. lia.
      + rewrite vmem_bit by lia. rewrite firstn_length.
        destruct (Z.ltb_spec j (Z.of_nat (Nat.min (Z.to_nat c) (length (vwords v))) * w)) as [G|G];
          [nia|reflexivity].
    - rewrite bit_zeros by lia. apply C. lia. }
  split.
  - rewrite clean_bit by (cbn; lia). cbn [vlen resize]. intros j Hj. apply B; lia.
  - apply resize_clean; [assumption..|].
    apply (nth_ext _ _ false false).
    + rewrite skipn_length, repeat_length, list_bits_length by lia. lia.
    + intros k Hk. rewrite nth_skipn, nth_repeat.
      rewrite skipn_length, list_bits_length in Hk by lia.
      replace (Z.to_nat (vlen v) + k)%nat with (Z.to_nat (vlen v + Z.of_nat k)) by lia.
      apply C. unfold zlen. lia.
Qed.

Lemma see_full : forall w r i (P : bvec -> Prop), valid_w w -> 0 <= i <= 2 ^ 62 ->
  rwp r (fun q => (valid_it w (fst q) /\ addr w (fst q) = i) /\ P (snd q)) ->
  rwp (see_iter w r) (fun q => fst q = OIdx i /\ P (snd q)).
Proof.
  intros w r i P Vw Hi H. apply see_iter_wp; [assumption..|].
  eapply rwp_conseq; [exact H|]. intros q ((A & B) & C). auto.
Qed.

Lemma zlen_grow : forall i x l, 0 <= i <= zlen l -> zlen l <= zlen (insert_at i x l).
Proof. intros i x l Hi. rewrite zlen_insert by assumption. unfold zlen. lia. Qed.

Lemma vstep_grow : forall p w v o, valid_w w -> vec_ok w v -> clean w v -> gpre p w (vbits w v) o ->
  rwp (vstep p w v o) (fun r => fst r = fst (gspec w (vbits w v) o) /\
    (vec_ok w (snd r) /\ clean w (snd r)) /\ vbits w (snd r) = snd (gspec w (vbits w v) o)).
Proof.
  intros p w v o Vw V C Pre. pose proof (valid_pos w Vw) as Pw. pose proof V as (V1 & V2 & V3).
  pose proof (vbits_length w v ltac:(lia) V) as Hn.
  pose proof (begin_valid w ltac:(lia)) as Vb. pose proof (begin_addr w) as Ab.
  assert (Hmb : vlen v <= 2 ^ 62) by (unfold max_bits in V3; lia).
  assert (Same : forall x, gpre p w (vbits w v) o -> vpre p w (vbits w v) o ->
    gspec w (vbits w v) o = vspec w (vbits w v) o -> vstep p w v o = Ok (x, v) ->
    rwp (vstep p w v o) (fun r => fst r = fst (gspec w (vbits w v) o) /\
      (vec_ok w (snd r) /\ clean w (snd r)) /\ vbits w (snd r) = snd (gspec w (vbits w v) o))).
  { intros x _ P Eg Es. pose proof (vstep_wp p w v o Vw V P) as H. rewrite Es in *.
    cbn in *. rewrite Eg. tauto. }
  destruct o; cbn [gpre] in Pre; try contradiction.
  - cbn [vstep vpre gspec vspec fst snd] in *; rewrite ?Hn in Pre.
    apply rwp_bind. eapply rwp_conseq; [apply push_back_full; assumption|].
    intros v' [[H1 H2] H3]. apply rwp_ok. split; [reflexivity|]. cbn [fst snd].
    split; [|assumption]. split; [assumption|]. apply (kept_clean w v); try assumption.
    rewrite H2, zlen_app. unfold zlen. lia.
  - cbn [vstep vpre gspec vspec fst snd] in *; rewrite ?Hn in Pre. destruct Pre as (P1 & P2 & P3).
    apply rwp_bind, rwp_iadd; [assumption..|lia|]. intros pos Vp Ap.
    apply (see_full w _ i (fun v' => (vec_ok w v' /\ clean w v') /\ vbits w v' = insert_at i [b] (vbits w v)));
      [assumption|lia|].
    eapply rwp_conseq; [apply (insert1_full p w v pos i b); [assumption..|lia|assumption|assumption]|].
    intros r [(H1 & H2 & H3 & H4) H5]. split; [auto|]. split; [|assumption]. split; [assumption|].
    apply (kept_clean w v); try assumption. rewrite H4. apply zlen_grow. lia.
  - cbn [vstep vpre gspec vspec fst snd] in *; rewrite ?Hn in Pre. destruct Pre as (P1 & P2 & P3 & P4).
    apply rwp_bind, rwp_iadd; [assumption..|lia|]. intros pos Vp Ap.
    apply (see_full w _ i (fun v' => (vec_ok w v' /\ clean w v') /\
      vbits w v' = insert_at i (repeat b (Z.to_nat n)) (vbits w v))); [assumption|lia|].
    eapply rwp_conseq; [apply (insert_n_full p w v pos i n b); try assumption; try lia;
      intros _; apply grow_ok; [assumption..|lia]|].
    intros r [(H1 & H2 & H3 & H4) H5]. split; [auto|]. split; [|assumption]. split; [assumption|].
    apply (kept_clean w v); try assumption. rewrite H4. apply zlen_grow. lia.
  - pose proof (vstep_wp p w v (OpInsertRange i src j k) Vw V Pre) as Hs.
    cbn [vstep vpre gspec vspec fst snd] in *; rewrite ?Hn in Pre.
    destruct Pre as (P1 & P2 & P3 & P4 & P5 & P6 & P7). unfold max_bits in P5.
    apply rwp_exists in Hs. destruct Hs as ([x v'] & Es & H1 & H2 & H3). cbn [fst snd] in *.
    rewrite Es. cbn. split; [assumption|]. split; [|assumption]. split; [assumption|].
    apply (kept_clean w v); try assumption; [rewrite H3; apply zlen_grow; lia|].
    assert (Ve : valid_it w (ext_begin src)) by (unfold valid_it, ext_begin; cbn; lia).
    assert (Ae : addr w (ext_begin src) = (- zlen src - 64) * w)
      by (unfold addr, ext_begin, wsize; cbn [ib ip]; unfold zlen; lia).
    assert (0 <= zlen src) by (unfold zlen; lia).
    assert (K : rwp (let? pos := iadd w vbegin i in
      let? f := iadd w (ext_begin src) j in
      let? l := iadd w (ext_begin src) k in
      see_iter w (let? (r, v', _) := insert_range p w (ext_mem src) v pos f l in Ok (r, v')))
      (fun q => fst q = OIdx i /\ kept w v (snd q))).
    { apply rwp_bind, rwp_iadd; [assumption..|lia|]. intros pos Vp Ap.
      apply rwp_bind, rwp_iadd; [assumption..|lia|]. intros f Vf Af.
      apply rwp_bind, rwp_iadd; [assumption..|lia|]. intros e Vl Al.
      apply (see_full w _ i (fun v' => kept w v v')); [assumption|lia|].
      apply rwp_bind.
      eapply rwp_conseq; [apply (insert_range_full p w (ext_mem src) v pos i f e); try assumption|].
      - intros a Ha. apply ext_none. assumption.
      - apply ext_wf. assumption.
      - split; [assumption|]. split; [assumption|]. unfold max_bits. split; [lia|].
        rewrite Af, Al, Ae. apply ext_mapped; lia.
      - rewrite Al, Ae. nia.
      - intros _. apply grow_ok; [assumption..|lia].
      - intros Q1 Q2. replace (addr w e - addr w f) with (k - j) by lia. apply P7; lia.
      - intros [[it v1] ext'] [(Q1 & Q2 & _) Q3]. apply rwp_ok. cbn [fst snd].
        split; [|assumption]. split; [assumption|lia]. }
    rewrite Es in K. apply K.
  - cbn [vstep vpre gspec vspec fst snd] in *; rewrite ?Hn in Pre.
    apply rwp_bind. eapply rwp_conseq; [apply vset_full; assumption|].
    intros v' [[H1 H2] [H3 H4]]. apply rwp_ok. split; [reflexivity|]. cbn [fst snd].
    split; [|assumption]. split; [assumption|]. apply (kept_clean w v); try assumption.
    rewrite !vbits_length by (assumption || lia). lia.
  - cbn [vstep vpre gspec vspec fst snd] in *. rewrite Hn. unfold vat_set.
    destruct (Z.ltb_spec i (vlen v)) as [D|D].
    + pose proof (vset_full p w v i b Vw V ltac:(lia)) as H. apply rwp_exists in H.
      destruct H as (v' & E & [[H1 H2] [H3 H4]]). rewrite E. cbn.
      split; [reflexivity|]. split; [|assumption]. split; [assumption|].
      apply (kept_clean w v); try assumption. rewrite !vbits_length by (assumption || lia). lia.
    + cbn. auto.
  - apply (Same (OBit (get_at i (vbits w v)))); [assumption..|reflexivity|].
    cbn [vstep vpre] in *. rewrite Hn in Pre. rewrite vget_ok by assumption. reflexivity.
  - cbn [vstep vpre gspec vspec fst snd] in *. rewrite Hn. unfold vat.
    destruct (Z.ltb_spec i (vlen v)) as [D|D].
    + rewrite vget_ok by (assumption || lia). cbn. auto.
    + cbn. auto.
  - cbn [vpre] in Pre. pose proof Pre as Pre'. apply nil_zlen in Pre'.
    apply (Same (OBit (get_at 0 (vbits w v)))); [assumption..|reflexivity|].
    cbn [vstep]. unfold vfront. rewrite vget_ok by (assumption || lia). reflexivity.
  - cbn [vpre] in Pre. pose proof Pre as Pre'. apply nil_zlen in Pre'.
    apply (Same (OBit (get_at (vlen v - 1) (vbits w v)))); [assumption..|reflexivity|].
    cbn [vstep]. unfold vback. rewrite wrap_small by lia. rewrite vget_ok by (assumption || lia). reflexivity.
  - apply (Same (ONum (vsize v))); [assumption..|reflexivity|reflexivity].
  - apply (Same (OBit (vempty v))); [assumption..|reflexivity|reflexivity].
  - cbn. split; [reflexivity|]. split; [|reflexivity]. split.
    + split; [constructor|]. cbn. unfold max_bits. lia.
    + intros j Hj. cbn in Hj. lia.
  - cbn. auto.
  - cbn. auto.
  - cbn [vstep gspec fst snd]. rewrite Hn in *. cbn. split; [reflexivity|].
    destruct (resize_grow w v n Vw V C Pre) as (H1 & H2 & H3). auto.
  - destruct Pre as [P1 P2]. cbn. split; [reflexivity|]. unfold ctor_copy. destruct other. auto.
  - destruct Pre as [P1 P2]. cbn. split; [reflexivity|]. destruct other. auto.
Qed.

Lemma vrun_grow : forall p w os v, valid_w w -> vec_ok w v -> clean w v ->
  gpre_all p w (vbits w v) os ->
  exists v', vrun p w v os = Ok (fst (gspec_run w (vbits w v) os), v') /\
    vec_ok w v' /\ clean w v' /\ vbits w v' = snd (gspec_run w (vbits w v) os).
Proof.
  intros p w os. induction os as [|o os IH]; intros v Vw V C Pre.
  - exists v. cbn. auto.
  - cbn [gpre_all] in Pre. destruct Pre as [P1 P2].
    pose proof (vstep_grow p w v o Vw V C P1) as H. apply rwp_exists in H.
    destruct H as ([x v1] & E & H1 & [H2 H2'] & H3). cbn [fst snd] in *. subst x.
    rewrite <- H3 in P2. destruct (IH v1 Vw H2 H2' P2) as (v2 & E2 & V2 & C2 & B2).
    exists v2. cbn [vrun gspec_run]. rewrite E. cbn [rbind]. rewrite E2. cbn [rbind].
    rewrite H3 in *. destruct (gspec w (vbits w v) o) as [x l1]. cbn [fst snd] in *.
    destruct (gspec_run w l1 os) as [xs l2]. cbn [fst snd] in *. auto.
Qed.

(** Vectors that start clean. *)
Lemma clean_default : forall w, clean w ctor_default.
Proof. intros w j Hj. cbn in Hj. lia. Qed.

Lemma clean_count : forall w n, valid_w w -> 0 <= n -> clean w (ctor_count w n).
Proof.
  intros w n Vw Hn. pose proof (valid_pos w Vw) as Pw. rewrite clean_bit by (cbn; lia).
  intros j Hj. cbn [ctor_count vwords vlen] in *. rewrite vmem_bit by lia.
  destruct (j <? _); [|reflexivity].
  assert (Z0 : forall k m, nth k (repeat 0 m) 0 = 0) by (intros; apply nth_repeat).
  rewrite Z0. apply Z.bits_0.
Qed.

Lemma clean_start : forall w n, valid_w w -> 0 <= n ->
  clean w ctor_default /\ clean w (ctor_count w n).
Proof. intros w n Vw Hn. split; [apply clean_default|apply clean_count; assumption]. Qed.
