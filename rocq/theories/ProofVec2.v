(** The operations of bit_vector on lists. *)
From Coq Require Import ZArith Bool List Lia.
From Verif Require Import Base WordOps IterModel RefModel PopcntModel AlgModel ShiftModel
  Spec SpecRef VecModel SpecVec ProofBase ProofIter ProofReference ProofRef ProofRange
  ProofShift ProofVec.
Import ListNotations.
Open Scope Z_scope.
Ltac Zify.zify_post_hook ::= idtac.

Lemma wp_ok : forall A (c : M A) m a m' (Q : A -> mem -> Prop),
  c m = Ok (a, m') -> Q a m' -> wp c m Q.
Proof. intros A c m a m' Q E H. unfold wp. rewrite E. exact H. Qed.

Lemma begin_valid : forall w, 0 < w -> valid_it w vbegin.
Proof. intros w H. unfold valid_it, vbegin. cbn. lia. Qed.

Lemma begin_addr : forall w, addr w vbegin = 0.
Proof. intros w. reflexivity. Qed.

(** Storage with some zero words appended, or cut. *)
Lemma words_ok_app : forall w a b, words_ok w a -> words_ok w b -> words_ok w (a ++ b).
Proof. intros w a b. unfold words_ok. intros. apply Forall_app. split; assumption. Qed.

Lemma words_ok_zeros : forall w n, 0 <= w -> words_ok w (repeat 0 n).
Proof.
  intros w n Hw. unfold words_ok. apply Forall_forall. intros x Hx. apply repeat_spec in Hx.
  subst. pose proof (pow_pos w Hw). lia.
Qed.

Lemma words_ok_firstn : forall w ws n, words_ok w ws -> words_ok w (firstn n ws).
Proof.
  intros w ws n H. unfold words_ok in *. rewrite Forall_forall in *. intros x Hx. apply H.
  rewrite <- (firstn_skipn n ws). apply in_or_app. left. exact Hx.
Qed.

Lemma bit_zeros : forall w ws n ext i, 0 < w -> 0 <= i ->
  bit w (vmem (ws ++ repeat 0 n) ext) i = bit w (vmem ws ext) i.
Proof.
  intros w ws n ext i Hw Hi. rewrite !vmem_bit by assumption. rewrite app_length, repeat_length.
  destruct (Z.ltb_spec i (Z.of_nat (length ws) * w)) as [C|C].
  - destruct (Z.ltb_spec i (Z.of_nat (length ws + n) * w)) as [D|D]; [|nia].
    assert (0 <= i / w) by (apply Z.div_pos; lia).
    assert (i / w < Z.of_nat (length ws)) by (apply Z.div_lt_upper_bound; lia).
    rewrite app_nth1 by lia. reflexivity.
  - destruct (Z.ltb_spec i (Z.of_nat (length ws + n) * w)) as [D|D]; [|reflexivity].
    assert (Z.of_nat (length ws) <= i / w) by (apply Z.div_le_lower_bound; lia).
    rewrite app_nth2 by lia.
    replace (nth (Z.to_nat (i / w) - length ws) (repeat 0 n) 0) with 0; [apply Z.bits_0|].
    symmetry. apply nth_repeat.
Qed.

Lemma bit_cut : forall w ws n ext i, 0 < w -> 0 <= i < n * w -> n <= Z.of_nat (length ws) ->
  bit w (vmem (firstn (Z.to_nat n) ws) ext) i = bit w (vmem ws ext) i.
Proof.
  intros w ws n ext i Hw Hi Hn. rewrite !vmem_bit by lia. rewrite firstn_length.
  assert (0 <= i / w) by (apply Z.div_pos; lia).
  assert (i / w < n) by (apply Z.div_lt_upper_bound; lia).
  destruct (Z.ltb_spec i (Z.of_nat (length ws) * w)) as [C|C]; [|nia].
  destruct (Z.ltb_spec i (Z.of_nat (Nat.min (Z.to_nat n) (length ws)) * w)) as [D|D]; [|nia].
  rewrite nth_firstn by lia. reflexivity.
Qed.

(** The storage made large enough for one more bit. *)
Definition room (w : Z) (v : bvec) : list Z :=
  if wrap 64 (wsize (vwords v) * w) =? vlen v then vwords v ++ [0] else vwords v.

Lemma room_ok : forall w v, valid_w w -> vec_ok w v -> vlen v + w <= max_bits ->
  words_ok w (room w v) /\ vlen v + 1 <= Z.of_nat (length (room w v)) * w <= max_bits /\
  (forall ext i, 0 <= i -> bit w (vmem (room w v) ext) i = bit w (vmem (vwords v) ext) i).
Proof.
  intros w v Hw (H1 & H2 & H3) Hb. pose proof (valid_pos w Hw). unfold room, wsize.
  unfold max_bits in *. rewrite wrap_small by lia.
  destruct (Z.eqb_spec (Z.of_nat (length (vwords v)) * w) (vlen v)) as [E|E].
  - split; [apply words_ok_app; [assumption|apply (words_ok_zeros w 1); lia]|].
    rewrite app_length. cbn [length]. split; [nia|].
    intros ext i Hi. apply (bit_zeros w (vwords v) 1); lia.
  - split; [assumption|]. split; [lia|]. reflexivity.
Qed.

(** References into the storage. *)
Lemma iindex_begin : forall p w i, valid_w w -> 0 <= i < 2 ^ 62 ->
  exists r, iindex p w vbegin i = Ok r /\ refers_to w r i.
Proof.
  intros p w i Hw Hi. pose proof (valid_pos w Hw).
  unfold iindex, vbegin. cbn [mk_aligned ib ip]. rewrite !Z.add_0_l.
  rewrite swrap64_small by lia.  rewrite floor_diff_div by assumption.
  replace (i - i / w * w) with (i mod w) by (rewrite Z.mod_eq by lia; lia).
  pose proof (Z.mod_pos_bound i w ltac:(lia)).
  rewrite wrap_small by lia.
  destruct (mk_ref_refers p w (i / w) (i mod w) Hw ltac:(lia)) as (r & E & R & _).
  exists r. split; [exact E|].
  replace i with (i / w * w + i mod w) at 1 by (rewrite Z.mod_eq by lia; lia). exact R.
Qed.

Lemma wp_set_index : forall p w i b m (Q : unit -> mem -> Prop), valid_w w -> wf_mem w m ->
  0 <= i < 2 ^ 62 -> mapped w m i (i + 1) ->
  (forall m', updated w m m' i (i + 1) (fun _ => b) -> Q tt m') ->
  wp (let! r := iindex p w vbegin i in ref_assign_val w r b) m Q.
Proof.
  intros p w i b m Q Hw Wf Hi Hm HQ. destruct (iindex_begin p w i Hw Hi) as (r & E & R).
  apply wp_bind, wp_lift. rewrite E. apply rwp_ok.
  destruct R as (a & q & Hq & -> & ->).
  apply wp_ref_assign_val; [assumption..| |].
  - apply (refers_mapped w m a q); assumption.
  - intros m' H. apply HQ, H.
Qed.

Lemma wp_get_index : forall p w i m (Q : bool -> mem -> Prop), valid_w w -> wf_mem w m ->
  0 <= i < 2 ^ 62 -> mapped w m i (i + 1) -> Q (bit w m i) m ->
  wp (let! r := iindex p w vbegin i in ref_get r) m Q.
Proof.
  intros p w i m Q Hw Wf Hi Hm HQ. destruct (iindex_begin p w i Hw Hi) as (r & E & R).
  apply wp_bind, wp_lift. rewrite E. apply rwp_ok.
  destruct R as (a & q & Hq & -> & ->).
  apply (wp_ref_get w); [assumption..| |exact HQ].
  apply (refers_mapped w m a q); assumption.
Qed.

Lemma inr_one : forall i j, inr i (i + 1) j = (j =? i).
Proof. intros i j. unfold inr. destruct (Z.eqb_spec j i); lia. Qed.

(** The storage beyond the new length is as before. *)
Definition kept (w : Z) (v v' : bvec) : Prop := forall j, vlen v' <= j ->
  bit w (vmem (vwords v') nomem) j = bit w (vmem (vwords v) nomem) j.

(** push_back *)
Lemma push_back_full : forall p w v b, valid_w w -> vec_ok w v -> vlen v + w <= max_bits ->
  rwp (push_back p w v b) (fun v' => (vec_ok w v' /\ vbits w v' = vbits w v ++ [b]) /\ kept w v v').
Proof.
  intros p w v b Hw V Hb. pose proof (valid_pos w Hw) as Pw.
  destruct (room_ok w v Hw V Hb) as (R1 & R2 & R3).
  pose proof V as (V1 & V2 & V3). unfold max_bits in *.
  unfold push_back. fold (room w v). cbv zeta.
  rewrite swrap64_small by lia. rewrite wrap_small by lia. apply rwp_bind.
  eapply rwp_conseq; [apply (on_words_wp0 unit w (room w v) _ (fun _ ws' =>
    length ws' = length (room w v) /\ words_ok w ws' /\
    forall i, 0 <= i -> bit w (vmem ws' nomem) i =
      if i =? vlen v then b else bit w (vmem (room w v) nomem) i)); [lia|]|].
  - apply wp_set_index; [assumption|apply vmem_wf; [assumption|apply nomem_wf]|lia|
      apply vmem_mapped; lia|].
    intros m' (U1 & U2 & U3). split; [assumption|]. split; [assumption|].
    intros ws' L W B. split; [assumption|]. split; [assumption|].
    intros i Hi. rewrite B, U3, inr_one by lia. reflexivity.
  - intros [[] ws'] (L & W & B). apply rwp_ok.
    assert (V' : vec_ok w (BV ws' (vlen v + 1))).
    { split; [exact W|]. cbn [vwords vlen]. rewrite L. unfold max_bits. lia. }
    split; [split; [exact V'|]|unfold kept; cbn [vwords vlen]; intros j Hj; rewrite B by lia;
      destruct (Z.eqb_spec j (vlen v)) as [E|E]; [lia|apply R3; lia]].
    pose proof (vbits_length w v ltac:(lia) V) as Hn.
    apply vbits_eq; [lia|assumption|rewrite zlen_app, Hn; reflexivity|].
    cbn [vwords vlen]. intros i Hi. rewrite B by lia. rewrite get_app by lia. rewrite Hn.
    destruct (Z.eqb_spec i (vlen v)) as [E|E].
    + subst i. destruct (Z.ltb_spec (vlen v) (vlen v)); [lia|]. rewrite Z.sub_diag. reflexivity.
    + destruct (Z.ltb_spec i (vlen v)); [|lia]. rewrite R3 by lia. symmetry. apply vbits_nth;
      [lia|assumption|lia].
Qed.

Lemma push_back_wp : forall p w v b, valid_w w -> vec_ok w v -> vlen v + w <= max_bits ->
  rwp (push_back p w v b) (fun v' => vec_ok w v' /\ vbits w v' = vbits w v ++ [b]).
Proof.
  intros p w v b Vw V Hb. eapply rwp_conseq; [apply push_back_full; assumption|].
  intros v' [H _]. exact H.
Qed.

(** pop_back *)
Lemma pop_word_wp : forall ws, ws <> [] ->
  pop_word ws = Ok (firstn (Z.to_nat (Z.of_nat (length ws) - 1)) ws).
Proof.
  intros ws H. destruct ws as [|x ws]; [congruence|]. unfold pop_word. f_equal.
  rewrite removelast_firstn_len. f_equal. lia.
Qed.

Lemma drop_last_wp : forall w v ws' (l : list bool) n, valid_w w ->
  vec_ok w v -> length ws' = length (vwords v) -> words_ok w ws' -> n = vlen v - 1 ->
  0 <= n -> zlen l = n ->
  (forall i, 0 <= i < n -> bit w (vmem ws' nomem) i = get_at i l) ->
  rwp (if n mod w =? 0 then let? l := pop_word ws' in Ok (BV l n) else Ok (BV ws' n))
    (fun v' => vec_ok w v' /\ vbits w v' = l).
Proof.
  intros w v ws' l n Hw V L W En Hn Hl B. pose proof (valid_pos w Hw) as Pw.
  pose proof V as (V1 & V2 & V3).
  destruct (Z.eqb_spec (n mod w) 0) as [E|E].
  - assert (Ne : ws' <> []) by (intros ->; cbn in L; lia).
    rewrite pop_word_wp by assumption. rewrite L. cbn [rbind]. apply rwp_ok.
    assert (En' : n = n / w * w) by (pose proof (Z.div_mod n w ltac:(lia)); lia).
    assert (n / w < Z.of_nat (length (vwords v))) by (apply Z.div_lt_upper_bound; lia).
    assert (n <= (Z.of_nat (length (vwords v)) - 1) * w) by (rewrite En'; apply Z.mul_le_mono_nonneg_r; lia).
    assert (V' : vec_ok w (BV (firstn (Z.to_nat (Z.of_nat (length (vwords v)) - 1)) ws') n)).
    { split; cbn [vwords vlen]; [apply words_ok_firstn; assumption|].
      rewrite firstn_length, L.
      replace (Z.of_nat (Nat.min (Z.to_nat (Z.of_nat (length (vwords v)) - 1)) (length (vwords v))))
        with (Z.of_nat (length (vwords v)) - 1) by lia. nia. }
    split; [exact V'|]. apply vbits_eq; [lia|assumption|assumption|].
    cbn [vwords vlen]. intros i Hi. rewrite bit_cut by nia. apply B. lia.
  - apply rwp_ok.
    assert (V' : vec_ok w (BV ws' n)).
    { split; cbn [vwords vlen]; [assumption|]. rewrite L. lia. }
    split; [exact V'|]. apply vbits_eq; [lia|assumption|assumption|].
    cbn [vwords vlen]. intros i Hi. apply B. lia.
Qed.

Lemma pop_back_wp : forall w v, valid_w w -> vec_ok w v -> vbits w v <> [] ->
  rwp (pop_back w v) (fun v' => vec_ok w v' /\ vbits w v' = removelast (vbits w v)).
Proof.
  intros w v Hw V Hn. pose proof (valid_pos w Hw) as Pw. pose proof V as (V1 & V2 & V3).
  pose proof (vbits_length w v ltac:(lia) V) as Hl. apply nil_zlen in Hn.
  unfold max_bits in *. unfold pop_back. rewrite wrap_small by lia. cbv zeta.
  apply (drop_last_wp w v); [assumption..|reflexivity|assumption|reflexivity|lia| |].
  - rewrite removelast_firstn', zlen_firstn; lia.
  - intros i Hi. rewrite removelast_firstn'. rewrite get_firstn by lia. symmetry.
    apply vbits_nth; [lia|assumption|lia].
Qed.

(** Shifts of a part of the storage. *)
Lemma shift_cond : forall p w f e, valid_w w -> valid_it w f -> valid_it w e ->
  shift_defined p w (addr w f) (addr w e) ->
  ip f <> 0 \/ ip e <> 0 \/ ib e - ib f <> 1 \/ full_blend_defined p w.
Proof.
  intros p w f e Hw Vf Ve H. pose proof (valid_pos w Hw) as Pw.
  destruct H as [H|[H|H]]; [rewrite addr_pos in H by (assumption || lia); auto| |auto].
  unfold addr in H. destruct (Z.eq_dec (ip f) 0); [|auto].
  destruct (Z.eq_dec (ip e) 0); [|auto]. destruct (Z.eq_dec (ib e - ib f) 1); [|auto].
  exfalso. apply H. nia.
Qed.

Lemma wp_shift_right : forall p w m f e n (Q : iter -> mem -> Prop), valid_w w -> wf_mem w m ->
  good_range w m f e -> 0 < n <= addr w e - addr w f ->
  (n < addr w e - addr w f -> shift_defined p w (addr w f) (addr w e)) ->
  (forall r m', wf_mem w m' -> same_dom m m' ->
    (forall i, addr w f + n <= i < addr w e -> bit w m' i = bit w m (i - n)) ->
    (forall i, i < addr w f \/ addr w e <= i -> bit w m' i = bit w m i) -> Q r m') ->
  wp (shift_right p w f e n) m Q.
Proof.
  intros p w m f e n Q Hw Wf G Hn Hd HQ. pose proof G as (G1 & G2 & G3 & G4).
  destruct (Z.ltb_spec n (addr w e - addr w f)) as [C|C].
  - destruct (shift_right_ok p w m f e n Hw Wf G ltac:(lia)
      (shift_cond p w f e Hw G1 G2 (Hd C))) as (r & m' & E & _ & _ & H1 & H2 & H3 & H4).
    apply (wp_ok _ _ _ _ _ _ E). apply HQ; assumption.
  - destruct (shift_right_none p w m f e n Hw G) as [_ E].
    specialize (E ltac:(lia) ltac:(lia)). apply (wp_ok _ _ _ _ _ _ E).
    apply HQ; [assumption|apply same_dom_refl|intros i Hi; lia|reflexivity].
Qed.

Lemma wp_shift_left : forall p w m f e n (Q : iter -> mem -> Prop), valid_w w -> wf_mem w m ->
  good_range w m f e -> 0 < n <= addr w e - addr w f ->
  (n < addr w e - addr w f -> shift_defined p w (addr w f) (addr w e)) ->
  (forall r m', wf_mem w m' -> same_dom m m' ->
    (forall i, addr w f <= i < addr w e - n -> bit w m' i = bit w m (i + n)) ->
    (forall i, i < addr w f \/ addr w e <= i -> bit w m' i = bit w m i) -> Q r m') ->
  wp (shift_left p w f e n) m Q.
Proof.
  intros p w m f e n Q Hw Wf G Hn Hd HQ. pose proof G as (G1 & G2 & G3 & G4).
  destruct (Z.ltb_spec n (addr w e - addr w f)) as [C|C].
  - destruct (shift_left_ok p w m f e n Hw Wf G ltac:(lia)
      (shift_cond p w f e Hw G1 G2 (Hd C))) as (r & m' & E & _ & _ & H1 & H2 & H3 & H4).
    apply (wp_ok _ _ _ _ _ _ E). apply HQ; assumption.
  - destruct (shift_left_none p w m f e n Hw G) as [_ E].
    specialize (E ltac:(lia) ltac:(lia)). apply (wp_ok _ _ _ _ _ _ E).
    apply HQ; [assumption|apply same_dom_refl|intros i Hi; lia|reflexivity].
Qed.

Lemma wp_iadd : forall w it n m (Q : iter -> mem -> Prop), valid_w w -> valid_it w it ->
  - 2 ^ 62 <= n <= 2 ^ 62 ->
  (forall it', valid_it w it' -> addr w it' = addr w it + n -> Q it' m) ->
  wp (lift (iadd w it n)) m Q.
Proof. intros. apply wp_lift, rwp_iadd; assumption. Qed.

(** insert(pos, value) *)
Lemma insert1_full : forall p w v pos i b, valid_w w -> vec_ok w v -> vlen v + w <= max_bits ->
  valid_it w pos -> addr w pos = i -> 0 <= i <= vlen v ->
  (i < vlen v -> shift_defined p w i (vlen v + 1)) ->
  rwp (insert1 p w v pos b) (fun r => (valid_it w (fst r) /\ addr w (fst r) = i /\
    vec_ok w (snd r) /\ vbits w (snd r) = insert_at i [b] (vbits w v)) /\ kept w v (snd r)).
Proof.
  intros p w v pos i b Hw V Hb Vp Ap Hi Hd. pose proof (valid_pos w Hw) as Pw.
  destruct (room_ok w v Hw V Hb) as (R1 & R2 & R3).
  pose proof V as (V1 & V2 & V3). unfold max_bits in *.
  pose proof (begin_valid w ltac:(lia)) as Vb. pose proof (begin_addr w) as Ab.
  unfold insert1. apply rwp_bind. rewrite distance_eq by (assumption || lia).
  rewrite Ap, Ab, Z.sub_0_r. apply rwp_ok. fold (room w v). cbv zeta.
  rewrite wrap_small, swrap64_small by lia. apply rwp_bind.
  eapply rwp_conseq; [apply (on_words_wp0 unit w (room w v) _ (fun _ ws' =>
    length ws' = length (room w v) /\ words_ok w ws' /\
    forall j, 0 <= j -> bit w (vmem ws' nomem) j =
      if j =? i then b else if (j <? i) || (vlen v + 1 <=? j) then bit w (vmem (vwords v) nomem) j
      else bit w (vmem (vwords v) nomem) (j - 1))); [lia|]|].
  - assert (Wf : wf_mem w (vmem (room w v) nomem)) by (apply vmem_wf; [assumption|apply nomem_wf]).
    apply wp_bind, wp_iadd; [assumption..|lia|]. intros f Vf Af.
    apply wp_bind, wp_iadd; [assumption..|lia|]. intros e Ve Ae.
    apply wp_bind, wp_shift_right; [assumption..| | |rewrite Af, Ae, Ab, !Z.add_0_l; intros; apply Hd; lia|].
    + split; [assumption|]. split; [assumption|]. unfold max_bits. split; [lia|].
      apply vmem_mapped; lia.
    + lia.
    + intros _ m1 W1 D1 S1 F1.
      apply wp_set_index; [assumption..|lia|
        apply (mapped_dom w (vmem (room w v) nomem)); [apply vmem_mapped; lia|assumption]|].
      intros m2 (W2 & D2 & B2). split; [assumption|].
      split; [eapply same_dom_trans; eassumption|].
      intros ws' L W B. split; [assumption|]. split; [assumption|].
      intros j Hj. rewrite B, B2, inr_one by lia.
      destruct (Z.eqb_spec j i) as [E|E]; [reflexivity|].
      destruct ((j <? i) || (vlen v + 1 <=? j)) eqn:C.
      * rewrite F1 by lia. apply R3. lia.
      * rewrite S1 by lia. apply R3. lia.
  - intros [[] ws'] (L & W & B). apply rwp_bind, rwp_iadd; [assumption..|lia|].
    intros r Vr Ar. apply rwp_ok. cbn [fst snd].
    split; [|unfold kept; cbn [vwords vlen]; intros j Hj; rewrite B by lia;
      replace (j =? i) with false by lia;
      replace ((j <? i) || (vlen v + 1 <=? j)) with true by lia; reflexivity].
    split; [assumption|]. split; [lia|].
    assert (V' : vec_ok w (BV ws' (vlen v + 1))).
    { split; [exact W|]. cbn [vwords vlen]. rewrite L. unfold max_bits. lia. }
    split; [exact V'|]. pose proof (vbits_length w v ltac:(lia) V) as Hn.
    apply vbits_eq; [lia|assumption|rewrite zlen_insert, Hn by lia; reflexivity|].
    cbn [vwords vlen]. intros j Hj. rewrite B by lia. rewrite get_insert by lia.
    change (zlen [b]) with 1.
    destruct (Z.eqb_spec j i) as [E|E].
    + subst j. destruct (Z.ltb_spec i i); [lia|]. destruct (Z.ltb_spec i (i + 1)); [|lia].
      rewrite Z.sub_diag. reflexivity.
    + replace ((j <? i) || (vlen v + 1 <=? j)) with (j <? i) by lia.
      destruct (Z.ltb_spec j i) as [C|C].
      * symmetry. apply vbits_nth; [lia|assumption|lia].
      * destruct (Z.ltb_spec j (i + 1)); [lia|]. symmetry.
        apply vbits_nth; [lia|assumption|lia].
Qed.

Lemma insert1_wp : forall p w v pos i b, valid_w w -> vec_ok w v -> vlen v + w <= max_bits ->
  valid_it w pos -> addr w pos = i -> 0 <= i <= vlen v ->
  (i < vlen v -> shift_defined p w i (vlen v + 1)) ->
  rwp (insert1 p w v pos b) (fun r => valid_it w (fst r) /\ addr w (fst r) = i /\
    vec_ok w (snd r) /\ vbits w (snd r) = insert_at i [b] (vbits w v)).
Proof.
  intros p w v pos i b Vw V Hb Vp Ap Hi Hd.
  eapply rwp_conseq; [apply insert1_full; eassumption|]. intros r [H _]. exact H.
Qed.

(** erase(pos) *)
Lemma erase1_wp : forall p w v pos i, valid_w w -> vec_ok w v ->
  valid_it w pos -> addr w pos = i -> 0 <= i < vlen v ->
  (i + 1 < vlen v -> shift_defined p w i (vlen v)) ->
  rwp (erase1 p w v pos) (fun r => fst r = pos /\
    vec_ok w (snd r) /\ vbits w (snd r) = erase_at i (i + 1) (vbits w v)).
Proof.
  intros p w v pos i Hw V Vp Ap Hi Hd. pose proof (valid_pos w Hw) as Pw.
  pose proof V as (V1 & V2 & V3). unfold max_bits in *.
  pose proof (begin_valid w ltac:(lia)) as Vb. pose proof (begin_addr w) as Ab.
  pose proof (vbits_length w v ltac:(lia) V) as Hn.
  unfold erase1. rewrite swrap64_small by lia. rewrite wrap_small by lia. apply rwp_bind.
  eapply rwp_conseq; [apply (on_words_wp0 iter w (vwords v) _ (fun _ ws' =>
    length ws' = length (vwords v) /\ words_ok w ws' /\
    forall j, 0 <= j < vlen v - 1 -> bit w (vmem ws' nomem) j =
      if j <? i then bit w (vmem (vwords v) nomem) j
      else bit w (vmem (vwords v) nomem) (j + 1))); [lia|]|].
  - assert (Wf : wf_mem w (vmem (vwords v) nomem)) by (apply vmem_wf; [assumption|apply nomem_wf]).
    apply wp_bind, wp_iadd; [assumption..|lia|]. intros e Ve Ae.
    apply wp_shift_left; [assumption..| | |rewrite Ap, Ae, Ab, Z.add_0_l; intros; apply Hd; lia|].
    + split; [assumption|]. split; [assumption|]. unfold max_bits. split; [lia|].
      apply vmem_mapped; lia.
    + lia.
    + intros r m1 W1 D1 S1 F1. split; [assumption|]. split; [assumption|].
      intros ws' L W B. split; [assumption|]. split; [assumption|].
      intros j Hj. rewrite B by lia.
      destruct (Z.ltb_spec j i) as [C|C]; [apply F1; lia|apply S1; lia].
  - intros [r ws'] (L & W & B). cbv zeta.
    assert (H := drop_last_wp w v ws' (erase_at i (i + 1) (vbits w v)) (vlen v - 1)).
    specialize (H Hw V L W eq_refl ltac:(lia)).
    rewrite zlen_erase, Hn in H by lia. specialize (H ltac:(lia)).
    assert (G : forall j, 0 <= j < vlen v - 1 ->
      bit w (vmem ws' nomem) j = get_at j (erase_at i (i + 1) (vbits w v))).
    { intros j Hj. rewrite B by lia. rewrite get_erase by lia.
      destruct (Z.ltb_spec j i) as [C|C]; [|replace (j + (i + 1 - i)) with (j + 1) by lia];
        symmetry; apply vbits_nth; lia || assumption. }
    specialize (H G). revert H. destruct ((vlen v - 1) mod w =? 0).
    + destruct (pop_word ws'); cbn [rbind]; try contradiction. cbn. auto.
    + cbn. auto.
Qed.

(** word_count and float *)
Lemma word_count_ok : forall w n, valid_w w -> 0 <= n < 2 ^ 32 ->
  n <= word_count w n * w < n + w.
Proof.
  intros w n Hw Hn. pose proof (valid_pos w Hw). unfold word_count. rewrite wrap_small by lia.
  pose proof (Z.div_mod (n + w - 1) w ltac:(lia)). pose proof (Z.mod_pos_bound (n + w - 1) w ltac:(lia)).
  nia.
Qed.

Lemma to_float_small : forall n, 0 <= n <= 2 ^ 24 -> to_float n = n.
Proof.
  intros n Hn. unfold to_float. destruct (Z.ltb_spec n (2 ^ 24)) as [C|C]; [reflexivity|].
  replace n with (2 ^ 24) by lia. reflexivity.
Qed.

Lemma to_float_large : forall n, 2 ^ 24 <= n -> 2 ^ 24 <= to_float n.
Proof.
  intros n Hn. unfold to_float. destruct (Z.ltb_spec n (2 ^ 24)) as [C|C]; [lia|].
  cbv zeta. set (e := Z.log2 n - 23).
  assert (L : 24 <= Z.log2 n) by (apply Z.log2_le_pow2; lia).
  assert (He : 0 < 2 ^ e) by (apply Z.pow_pos_nonneg; lia).
  assert (Q : 2 ^ 24 <= n / 2 ^ e * 2 ^ e).
  { assert (2 ^ 23 <= n / 2 ^ e).
    { apply Z.div_le_lower_bound; [assumption|]. rewrite <- Z.pow_add_r by lia.
      replace (e + 23) with (Z.log2 n) by lia. apply Z.log2_spec. lia. }
    assert (2 ^ 1 <= 2 ^ e) by (apply Z.pow_le_mono_r; lia).
    nia. }
  repeat match goal with |- context [if ?c then _ else _] => destruct c end; nia.
Qed.

Lemma grow_ok : forall w v n, valid_w w -> vec_ok w v -> vlen v <= n <= 2 ^ 24 ->
  exists ws, grow w (vwords v) n = Ok ws /\ words_ok w ws /\
    n <= Z.of_nat (length ws) * w <= max_bits /\
    (forall ext i, 0 <= i -> bit w (vmem ws ext) i = bit w (vmem (vwords v) ext) i).
Proof.
  intros w v n Hw (V1 & V2 & V3) Hn. pose proof (valid_pos w Hw) as Pw.
  unfold max_bits in *. unfold grow, wsize. rewrite !wrap_small by lia.
  rewrite (to_float_small n) by lia.
  set (cap := Z.of_nat (length (vwords v)) * w) in *.
  destruct (Z.leb_spec cap (2 ^ 24)) as [C|C].
  - rewrite (to_float_small cap) by lia. cbv zeta.
    destruct (Z.ltb_spec cap n) as [D|D].
    + rewrite (to_float_small (n - cap)) by lia.
      destruct (Z.ltb_spec (n - cap) (2 ^ 32)) as [E|E]; [|lia].
      pose proof (word_count_ok w (n - cap) Hw ltac:(lia)) as Hc.
      set (c := word_count w (n - cap)) in *.
      assert (0 <= c) by nia. eexists. split; [reflexivity|].
      unfold resize_words, wsize.
      destruct (Z.leb_spec (Z.of_nat (length (vwords v)) + c) (Z.of_nat (length (vwords v)))) as [F|F];
        [exfalso; nia|].
      split; [apply words_ok_app; [assumption|apply words_ok_zeros; lia]|].
      split; [|intros ext i Hi; apply bit_zeros; lia].
      rewrite app_length, repeat_length. nia.
    + exists (vwords v). split; [reflexivity|]. split; [assumption|]. fold cap. split; [lia|reflexivity].
  - cbv zeta. destruct (Z.ltb_spec (to_float cap) n) as [D|D].
    + pose proof (to_float_large cap ltac:(lia)). lia.
    + exists (vwords v). split; [reflexivity|]. split; [assumption|]. fold cap. split; [lia|reflexivity].
Qed.

(** The storage has been enlarged for [n] bits and holds the old ones. *)
Definition grown (w : Z) (v : bvec) (n : Z) : Prop :=
  exists ws, grow w (vwords v) n = Ok ws /\ words_ok w ws /\
    n <= Z.of_nat (length ws) * w <= max_bits /\
    (forall ext i, 0 <= i -> bit w (vmem ws ext) i = bit w (vmem (vwords v) ext) i).

(** insert(pos, count, value) *)
Lemma insert_n_full : forall p w v pos i c b, valid_w w -> vec_ok w v -> 0 <= c ->
  (0 < c -> grown w v (vlen v + c)) -> valid_it w pos -> addr w pos = i -> 0 <= i <= vlen v ->
  (0 < c -> i < vlen v -> shift_defined p w i (vlen v + c)) ->
  rwp (insert_n p w v pos c b) (fun r => (valid_it w (fst r) /\ addr w (fst r) = i /\
    vec_ok w (snd r) /\ vbits w (snd r) = insert_at i (repeat b (Z.to_nat c)) (vbits w v)) /\
    kept w v (snd r)).
Proof.
  intros p w v pos i c b Hw V Hc Hb Vp Ap Hi Hd. pose proof (valid_pos w Hw) as Pw.
  pose proof V as (V1 & V2 & V3). unfold max_bits in V3.
  pose proof (begin_valid w ltac:(lia)) as Vb. pose proof (begin_addr w) as Ab.
  pose proof (vbits_length w v ltac:(lia) V) as Hn.
  unfold insert_n. apply rwp_bind. rewrite distance_eq by (assumption || lia).
  rewrite Ap, Ab, Z.sub_0_r. apply rwp_ok.
  destruct (Z.eqb_spec c 0) as [E|E].
  - subst c. apply rwp_bind, rwp_iadd; [assumption..|lia|]. intros r Vr Ar. apply rwp_ok.
    cbn [fst snd]. split; [|intros j Hj; reflexivity].
    split; [assumption|]. split; [lia|]. split; [assumption|].
    unfold insert_at. cbn [Z.to_nat repeat app]. symmetry. apply firstn_skipn.
  - destruct (Hb ltac:(lia)) as (ws & Eg & R1 & R2 & R3).
    unfold max_bits in *. rewrite Eg. cbn [rbind]. rewrite wrap_small by lia. cbv zeta.
    rewrite !swrap64_small by lia. apply rwp_bind.
    eapply rwp_conseq; [apply (on_words_wp0 unit w ws _ (fun _ ws' =>
      length ws' = length ws /\ words_ok w ws' /\
      forall j, 0 <= j -> bit w (vmem ws' nomem) j =
        if (j <? i) || (vlen v + c <=? j) then bit w (vmem (vwords v) nomem) j
        else if j <? i + c then b else bit w (vmem (vwords v) nomem) (j - c))); [lia|]|].
    + assert (Wf : wf_mem w (vmem ws nomem)) by (apply vmem_wf; [assumption|apply nomem_wf]).
      apply wp_bind, wp_iadd; [assumption..|lia|]. intros f Vf Af.
      apply wp_bind, wp_iadd; [assumption..|lia|]. intros e Ve Ae.
      apply wp_bind, wp_shift_right; [assumption..| | |rewrite Af, Ae, Ab, !Z.add_0_l; intros; apply Hd; lia|].
      * split; [assumption|]. split; [assumption|]. unfold max_bits. split; [lia|].
        apply vmem_mapped; lia.
      * lia.
      * intros _ m1 W1 D1 S1 F1. apply wp_bind, wp_iadd; [assumption..|lia|]. intros g Vg Ag.
        assert (G : good_range w m1 f g).
        { split; [assumption|]. split; [assumption|]. unfold max_bits. split; [lia|].
          apply (mapped_dom w (vmem ws nomem)); [apply vmem_mapped; lia|assumption]. }
        destruct (fill_ok p w m1 f g b Hw W1 G) as (m2 & E2 & W2 & D2 & B2).
        apply (wp_ok _ _ _ _ _ _ E2). split; [assumption|].
        split; [eapply same_dom_trans; eassumption|].
        intros ws' L W B. split; [assumption|]. split; [assumption|].
        intros j Hj. rewrite B, B2 by lia. unfold inr.
        destruct ((j <? i) || (vlen v + c <=? j)) eqn:C.
        -- replace ((addr w f <=? j) && (j <? addr w g)) with false by lia. rewrite F1 by lia. apply R3. lia.
        -- replace (addr w f <=? j) with true by lia. cbn [andb].
           destruct (Z.ltb_spec j (i + c)) as [C'|C'].
           ++ replace (j <? addr w g) with true by lia. reflexivity.
           ++ replace (j <? addr w g) with false by lia. rewrite S1 by lia. apply R3. lia.
    + intros [[] ws'] (L & W & B). apply rwp_bind, rwp_iadd; [assumption..|lia|].
      intros r Vr Ar. apply rwp_ok. cbn [fst snd].
      split; [|unfold kept; cbn [vwords vlen]; intros j Hj; rewrite B by lia;
        replace ((j <? i) || (vlen v + c <=? j)) with true by lia; reflexivity].
      split; [assumption|]. split; [lia|].
      assert (V' : vec_ok w (BV ws' (vlen v + c))).
      { split; [exact W|]. cbn [vwords vlen]. rewrite L. unfold max_bits. lia. }
      split; [exact V'|].
      apply vbits_eq; [lia|assumption|rewrite zlen_insert, zlen_repeat by lia; cbn; lia|].
      cbn [vwords vlen]. intros j Hj. rewrite B by lia. rewrite get_insert by lia.
      rewrite zlen_repeat by lia.
      replace ((j <? i) || (vlen v + c <=? j)) with (j <? i) by lia.
      destruct (Z.ltb_spec j i) as [C|C].
      * symmetry. apply vbits_nth; [lia|assumption|lia].
      * destruct (Z.ltb_spec j (i + c)) as [C'|C'].
        -- symmetry. apply get_repeat. lia.
        -- symmetry. apply vbits_nth; [lia|assumption|lia].
Qed.

Lemma insert_n_gen : forall p w v pos i c b, valid_w w -> vec_ok w v -> 0 <= c ->
  (0 < c -> grown w v (vlen v + c)) -> valid_it w pos -> addr w pos = i -> 0 <= i <= vlen v ->
  (0 < c -> i < vlen v -> shift_defined p w i (vlen v + c)) ->
  rwp (insert_n p w v pos c b) (fun r => valid_it w (fst r) /\ addr w (fst r) = i /\
    vec_ok w (snd r) /\ vbits w (snd r) = insert_at i (repeat b (Z.to_nat c)) (vbits w v)).
Proof.
  intros p w v pos i c b Vw V Hc Hb Vp Ap Hi Hd.
  eapply rwp_conseq; [apply insert_n_full; eassumption|]. intros r [H _]. exact H.
Qed.

Lemma insert_n_wp : forall p w v pos i c b, valid_w w -> vec_ok w v -> 0 <= c ->
  vlen v + c <= 2 ^ 24 -> valid_it w pos -> addr w pos = i -> 0 <= i <= vlen v ->
  (0 < c -> i < vlen v -> shift_defined p w i (vlen v + c)) ->
  rwp (insert_n p w v pos c b) (fun r => valid_it w (fst r) /\ addr w (fst r) = i /\
    vec_ok w (snd r) /\ vbits w (snd r) = insert_at i (repeat b (Z.to_nat c)) (vbits w v)).
Proof.
  intros p w v pos i c b Hw V Hc Hb Vp Ap Hi Hd. apply insert_n_gen; try assumption.
  intros _. apply grow_ok; [assumption..|lia].
Qed.

(** insert(pos, first, last): the inserted bits come from other memory. *)
Lemma insert_range_full : forall p w ext v pos i first last, valid_w w -> vec_ok w v ->
  (forall a, 0 <= a -> ext a = None) ->
  wf_mem w ext -> good_range w ext first last -> addr w last <= 0 ->
  (addr w first < addr w last -> grown w v (vlen v + (addr w last - addr w first))) ->
  valid_it w pos -> addr w pos = i -> 0 <= i <= vlen v ->
  (addr w first < addr w last -> i < vlen v ->
     shift_defined p w i (vlen v + (addr w last - addr w first))) ->
  rwp (insert_range p w ext v pos first last) (fun r =>
    let '(it, v', ext') := r in (valid_it w it /\ addr w it = i /\
    (forall a, ext' a = ext a) /\ vec_ok w v' /\
    vbits w v' = insert_at i (map (fun k => bit w ext (addr w first + Z.of_nat k))
      (seq 0 (Z.to_nat (addr w last - addr w first)))) (vbits w v)) /\ kept w v v').
Proof.
  intros p w ext v pos i first last Hw V Hp We G Hneg Hb Vp Ap Hi Hd.
  pose proof (valid_pos w Hw) as Pw.
  pose proof V as (V1 & V2 & V3). pose proof G as (G1 & G2 & G3 & G4). unfold max_bits in *.
  pose proof (begin_valid w ltac:(lia)) as Vb. pose proof (begin_addr w) as Ab.
  pose proof (vbits_length w v ltac:(lia) V) as Hn.
  set (c := addr w last - addr w first) in *.
  set (src := map (fun k => bit w ext (addr w first + Z.of_nat k)) (seq 0 (Z.to_nat c))).
  assert (Ls : zlen src = c) by (unfold zlen, src; rewrite map_length, seq_length; lia).
  assert (Gs : forall k, 0 <= k < c -> get_at k src = bit w ext (addr w first + k)).
  { intros k Hk. unfold get_at, src.
    set (g := fun k => bit w ext (addr w first + Z.of_nat k)).
    rewrite (nth_indep _ false (g O)) by (rewrite map_length, seq_length; lia).
    rewrite map_nth, seq_nth by lia. unfold g. f_equal. lia. }
  unfold insert_range. apply rwp_bind. rewrite distance_eq by (assumption || lia).
  rewrite Ap, Ab, Z.sub_0_r. apply rwp_ok.
  apply rwp_bind. rewrite distance_eq by (assumption || lia). fold c. apply rwp_ok. cbv zeta.
  rewrite (wrap_small 64 c) by lia.
  destruct (Z.eqb_spec c 0) as [E|E].
  - apply rwp_bind, rwp_iadd; [assumption..|lia|]. intros r Vr Ar. apply rwp_ok.
    split; [|intros j Hj; reflexivity].
    split; [assumption|]. split; [lia|]. split; [reflexivity|]. split; [assumption|].
    unfold insert_at, src. rewrite E. cbn [Z.to_nat seq map app]. symmetry. apply firstn_skipn.
  - destruct (Hb ltac:(lia)) as (ws & Eg & R1 & R2 & R3).
    unfold max_bits in *. rewrite Eg. cbn [rbind]. rewrite wrap_small by lia. cbv zeta.
    rewrite !swrap64_small by lia. apply rwp_bind.
    assert (Ext : forall a, a < 0 -> vmem ws ext a = ext a).
    { intros a Ha. unfold vmem. destruct (Z.ltb_spec a 0); [reflexivity|lia]. }
    assert (Neg : forall j, j < 0 -> j / w < 0) by (intros j Hj; apply Z.div_lt_upper_bound; lia).
    assert (Be : forall j, j < 0 -> bit w (vmem ws ext) j = bit w ext j).
    { intros j Hj. unfold bit. rewrite Ext by (apply Neg; exact Hj). reflexivity. }
    eapply rwp_conseq; [apply (on_words_wp iter w ws ext _ (fun _ ws' e =>
      length ws' = length ws /\ words_ok w ws' /\ (forall a, e a = ext a) /\
      forall j, 0 <= j -> bit w (vmem ws' nomem) j =
        if (j <? i) || (vlen v + c <=? j) then bit w (vmem (vwords v) nomem) j
        else if j <? i + c then bit w ext (addr w first + (j - i))
        else bit w (vmem (vwords v) nomem) (j - c))); [lia|]|].
    + assert (Wf : wf_mem w (vmem ws ext)) by (apply vmem_wf; assumption).
      assert (R3' : forall j, 0 <= j -> bit w (vmem ws ext) j = bit w (vmem (vwords v) nomem) j).
      { intros j Hj. rewrite R3 by lia. rewrite !vmem_bit by lia. reflexivity. }
      apply wp_bind, wp_iadd; [assumption..|lia|]. intros f Vf Af.
      apply wp_bind, wp_iadd; [assumption..|lia|]. intros e Ve Ae.
      apply wp_bind, wp_shift_right; [assumption..| | |rewrite Af, Ae, Ab, !Z.add_0_l; intros; apply Hd; lia|].
      * split; [assumption|]. split; [assumption|]. unfold max_bits. split; [lia|].
        apply vmem_mapped; lia.
      * lia.
      * intros _ m1 W1 D1 S1 F1.
        assert (G' : good_range w m1 first last).
        { split; [assumption|]. split; [assumption|]. unfold max_bits. split; [lia|].
          apply (mapped_dom w (vmem ws ext)); [|assumption]. intros j Hj.
          rewrite Ext by (apply Neg; lia). apply G4, Hj. }
        assert (Gd : good_dest w m1 f (addr w last - addr w first)).
        { split; [assumption|]. apply (mapped_dom w (vmem ws ext)); [apply vmem_mapped; lia|assumption]. }
        destruct (copy_ok p w m1 first last f Hw W1 G' Gd ltac:(lia))
          as (d' & m2 & E2 & _ & _ & W2 & D2 & B2).
        apply (wp_ok _ _ _ _ _ _ E2). split; [assumption|].
        assert (D12 : same_dom (vmem ws ext) m2) by (eapply same_dom_trans; eassumption).
        split; [exact D12|].
        intros ws' L W B. split; [assumption|]. split; [assumption|]. split.
        -- intros a. unfold outside. destruct (Z.ltb_spec a 0) as [Ca|Ca].
           ++ rewrite <- Ext by lia.
              destruct (vmem ws ext a) as [x|] eqn:Ex; [|apply D12; assumption].
              destruct (m2 a) as [y|] eqn:Ey; [|exfalso; apply D12 in Ey; congruence].
              f_equal. apply (word_ext w); [lia|apply (W2 _ _ Ey)|apply (Wf _ _ Ex)|].
              intros k Hk.
              assert (Bk : bit w m2 (a * w + k) = bit w (vmem ws ext) (a * w + k)).
              { rewrite B2. unfold inr. replace (addr w f <=? a * w + k) with false by nia.
                cbn [andb]. apply F1. left. nia. }
              unfold bit in Bk. rewrite (div_word w a), (mod_word w a) in Bk by lia.
              replace (a * w + k - a * w) with k in Bk by lia. rewrite Ex, Ey in Bk. exact Bk.
           ++ symmetry. apply Hp. lia.
        -- intros j Hj. rewrite B, B2 by lia. unfold inr.
           destruct ((j <? i) || (vlen v + c <=? j)) eqn:C.
           ++ replace ((addr w f <=? j) && (j <? addr w f + (addr w last - addr w first))) with false by lia.
              rewrite F1 by lia.
              apply R3'. lia.
           ++ replace (addr w f <=? j) with true by lia. cbn [andb].
              destruct (Z.ltb_spec j (i + c)) as [C'|C'].
              ** replace (j <? addr w f + (addr w last - addr w first)) with true by lia.
                 replace (addr w first + (j - addr w f)) with (addr w first + (j - i)) by lia.
                 rewrite F1 by lia. apply Be. lia.
              ** replace (j <? addr w f + (addr w last - addr w first)) with false by lia.
                 rewrite S1 by lia. apply R3'. lia.
    + intros [[r0 ws'] e] (L & W & He & B). apply rwp_bind, rwp_iadd; [assumption..|lia|].
      intros r Vr Ar. apply rwp_ok.
      split; [|unfold kept; cbn [vwords vlen]; intros j Hj; rewrite B by lia;
        replace ((j <? i) || (vlen v + c <=? j)) with true by lia; reflexivity].
      split; [assumption|]. split; [lia|]. split; [exact He|].
      assert (V' : vec_ok w (BV ws' (vlen v + c))).
      { split; [exact W|]. cbn [vwords vlen]. rewrite L. unfold max_bits. lia. }
      split; [exact V'|].
      apply vbits_eq; [lia|assumption|rewrite zlen_insert, Ls, Hn by lia; reflexivity|].
      cbn [vwords vlen]. intros j Hj. rewrite B by lia. rewrite get_insert by lia. rewrite Ls.
      replace ((j <? i) || (vlen v + c <=? j)) with (j <? i) by lia.
      destruct (Z.ltb_spec j i) as [C|C].
      * symmetry. apply vbits_nth; [lia|assumption|lia].
      * destruct (Z.ltb_spec j (i + c)) as [C'|C'].
        -- symmetry. apply Gs. lia.
        -- symmetry. apply vbits_nth; [lia|assumption|lia].
Qed.

Lemma insert_range_gen : forall p w ext v pos i first last, valid_w w -> vec_ok w v ->
  (forall a, 0 <= a -> ext a = None) ->
  wf_mem w ext -> good_range w ext first last -> addr w last <= 0 ->
  (addr w first < addr w last -> grown w v (vlen v + (addr w last - addr w first))) ->
  valid_it w pos -> addr w pos = i -> 0 <= i <= vlen v ->
  (addr w first < addr w last -> i < vlen v ->
     shift_defined p w i (vlen v + (addr w last - addr w first))) ->
  rwp (insert_range p w ext v pos first last) (fun r =>
    let '(it, v', ext') := r in valid_it w it /\ addr w it = i /\
    (forall a, ext' a = ext a) /\ vec_ok w v' /\
    vbits w v' = insert_at i (map (fun k => bit w ext (addr w first + Z.of_nat k))
      (seq 0 (Z.to_nat (addr w last - addr w first)))) (vbits w v)).
Proof.
  intros p w ext v pos i first last Vw V Hp We G Hneg Hb Vp Ap Hi Hd.
  eapply rwp_conseq; [apply insert_range_full; eassumption|].
  intros [[it v'] ext'] [H _]. exact H.
Qed.

Lemma insert_range_wp : forall p w ext v pos i first last, valid_w w -> vec_ok w v ->
  (forall a, 0 <= a -> ext a = None) ->
  wf_mem w ext -> good_range w ext first last -> addr w last <= 0 ->
  vlen v + (addr w last - addr w first) <= 2 ^ 24 ->
  valid_it w pos -> addr w pos = i -> 0 <= i <= vlen v ->
  (addr w first < addr w last -> i < vlen v ->
     shift_defined p w i (vlen v + (addr w last - addr w first))) ->
  rwp (insert_range p w ext v pos first last) (fun r =>
    let '(it, v', ext') := r in valid_it w it /\ addr w it = i /\
    (forall a, ext' a = ext a) /\ vec_ok w v' /\
    vbits w v' = insert_at i (map (fun k => bit w ext (addr w first + Z.of_nat k))
      (seq 0 (Z.to_nat (addr w last - addr w first)))) (vbits w v)).
Proof.
  intros p w ext v pos i first last Hw V Hp We G Hneg Hb Vp Ap Hi Hd.
  apply insert_range_gen; try assumption.
  intros _. apply grow_ok; [assumption..|]. pose proof G as (_ & _ & G3 & _). lia.
Qed.

(** resize to at most the current length *)
Lemma cut_wp : forall w ws n l, valid_w w -> words_ok w ws ->
  0 <= n < 2 ^ 32 -> n <= Z.of_nat (length ws) * w -> Z.of_nat (length ws) * w <= max_bits ->
  zlen l = n -> (forall i, 0 <= i < n -> bit w (vmem ws nomem) i = get_at i l) ->
  vec_ok w (BV (resize_words ws (word_count w n)) n) /\
  vbits w (BV (resize_words ws (word_count w n)) n) = l.
Proof.
  intros w ws n l Hw W Hn Hl Hm Ll B. pose proof (valid_pos w Hw) as Pw.
  pose proof (word_count_ok w n Hw Hn) as Hc. set (c := word_count w n) in *.
  assert (0 <= c) by nia. assert (c <= Z.of_nat (length ws)) by nia.
  unfold resize_words, wsize. destruct (Z.leb_spec c (Z.of_nat (length ws))) as [C|C]; [|lia].
  assert (V' : vec_ok w (BV (firstn (Z.to_nat c) ws) n)).
  { split; cbn [vwords vlen]; [apply words_ok_firstn; assumption|].
    rewrite firstn_length. replace (Z.of_nat (Nat.min (Z.to_nat c) (length ws))) with c by lia. nia. }
  split; [exact V'|]. apply vbits_eq; [lia|assumption|assumption|].
  cbn [vwords vlen]. intros i Hi. rewrite bit_cut by nia. apply B. lia.
Qed.

Lemma resize_ok : forall w v n, valid_w w -> vec_ok w v -> 0 <= n <= vlen v -> n < 2 ^ 32 ->
  vec_ok w (resize w v n) /\ vbits w (resize w v n) = firstn (Z.to_nat n) (vbits w v).
Proof.
  intros w v n Hw V Hn Hb. pose proof (valid_pos w Hw) as Pw. pose proof V as (V1 & V2 & V3).
  pose proof (vbits_length w v ltac:(lia) V) as Hl.
  unfold resize. apply cut_wp; [assumption..|lia|lia|assumption|apply zlen_firstn; lia|].
  intros i Hi. rewrite get_firstn by lia. symmetry. apply vbits_nth; [lia|assumption|lia].
Qed.

(** erase(first, last) *)
Lemma erase_range_wp : forall p w v first last i j, valid_w w -> vec_ok w v ->
  valid_it w first -> valid_it w last -> addr w first = i -> addr w last = j ->
  0 <= i <= j -> j <= vlen v -> vlen v - (j - i) < 2 ^ 32 ->
  (i < j < vlen v -> shift_defined p w i (vlen v)) ->
  rwp (erase_range p w v first last) (fun r => valid_it w (fst r) /\ addr w (fst r) = i /\
    vec_ok w (snd r) /\ vbits w (snd r) = erase_at i j (vbits w v)).
Proof.
  intros p w v first last i j Hw V Vf Vl Af Al Hij Hj Hb Hd. pose proof (valid_pos w Hw) as Pw.
  pose proof V as (V1 & V2 & V3). unfold max_bits in *.
  pose proof (begin_valid w ltac:(lia)) as Vb. pose proof (begin_addr w) as Ab.
  pose proof (vbits_length w v ltac:(lia) V) as Hn.
  unfold erase_range. apply rwp_bind. rewrite distance_eq by (assumption || lia).
  rewrite Ab, Z.sub_0_r. apply rwp_ok.
  apply rwp_bind. rewrite distance_eq by (assumption || lia). apply rwp_ok. rewrite Af, Al.
  destruct (Z.eqb_spec (j - i) 0) as [E|E].
  - apply rwp_ok. cbn [fst snd]. split; [assumption|]. split; [lia|]. split; [assumption|].
    unfold erase_at. replace j with i by lia. symmetry. apply firstn_skipn.
  - apply rwp_bind.
    eapply rwp_conseq; [apply (on_words_wp0 iter w (vwords v) _ (fun _ ws' =>
      length ws' = length (vwords v) /\ words_ok w ws' /\
      forall k, 0 <= k < vlen v - (j - i) -> bit w (vmem ws' nomem) k =
        if k <? i then bit w (vmem (vwords v) nomem) k
        else bit w (vmem (vwords v) nomem) (k + (j - i)))); [lia|]|].
    + assert (Wf : wf_mem w (vmem (vwords v) nomem)) by (apply vmem_wf; [assumption|apply nomem_wf]).
      unfold vend. rewrite swrap64_small by lia.
      apply wp_bind, wp_iadd; [assumption..|lia|]. intros e Ve Ae.
      apply wp_shift_left; [assumption..| | |rewrite Af, Ae, Ab, Z.add_0_l; intros; apply Hd; lia|].
      * split; [assumption|]. split; [assumption|]. unfold max_bits. split; [lia|].
        apply vmem_mapped; lia.
      * lia.
      * intros r m1 W1 D1 S1 F1. split; [assumption|]. split; [assumption|].
        intros ws' L W B. split; [assumption|]. split; [assumption|].
        intros k Hk. rewrite B by lia.
        destruct (Z.ltb_spec k i) as [C|C]; [apply F1; lia|apply S1; lia].
    + intros [r0 ws'] (L & W & B). rewrite wrap_small by lia. cbv zeta.
      apply rwp_bind, rwp_iadd; [assumption..|lia|]. intros r Vr Ar. apply rwp_ok.
      cbn [fst snd]. split; [assumption|]. split; [lia|].
      apply cut_wp; [assumption..|lia|rewrite L; lia|rewrite L; exact V3|rewrite zlen_erase; lia|].
      intros k Hk. rewrite B by lia. rewrite get_erase by lia.
      destruct (Z.ltb_spec k i) as [C|C]; symmetry; apply vbits_nth; lia || assumption.
Qed.

(** Element access *)
Lemma vget_ok : forall p w v i, valid_w w -> vec_ok w v -> 0 <= i < vlen v ->
  vget p w v i = Ok (get_at i (vbits w v)).
Proof.
  intros p w v i Hw V Hi. pose proof (valid_pos w Hw) as Pw. pose proof V as (V1 & V2 & V3).
  unfold max_bits in *.
  assert (H : rwp (vget p w v i) (fun b => b = get_at i (vbits w v))).
  { unfold vget. rewrite swrap64_small by lia. apply rwp_bind.
    eapply rwp_conseq; [apply (on_words_wp0 bool w (vwords v) _ (fun b _ => b = get_at i (vbits w v)));
      [lia|]|].
    - apply wp_get_index; [assumption|apply vmem_wf; [assumption|apply nomem_wf]|lia|
        apply vmem_mapped; lia|].
      split; [apply vmem_wf; [assumption|apply nomem_wf]|]. split; [apply same_dom_refl|].
      intros _ _ _ _. symmetry. apply vbits_nth; [lia|assumption|lia].
    - intros [b ws'] Hb. apply rwp_ok. exact Hb. }
  apply rwp_exists in H. destruct H as (b & E & ->). exact E.
Qed.

Lemma vset_full : forall p w v i b, valid_w w -> vec_ok w v -> 0 <= i < vlen v ->
  rwp (vset p w v i b) (fun v' => (vec_ok w v' /\ vbits w v' = set_at i b (vbits w v)) /\
    vlen v' = vlen v /\ kept w v v').
Proof.
  intros p w v i b Hw V Hi. pose proof (valid_pos w Hw) as Pw. pose proof V as (V1 & V2 & V3).
  unfold max_bits in *. pose proof (vbits_length w v ltac:(lia) V) as Hn.
  unfold vset. rewrite swrap64_small by lia. apply rwp_bind.
  eapply rwp_conseq; [apply (on_words_wp0 unit w (vwords v) _ (fun _ ws' =>
    length ws' = length (vwords v) /\ words_ok w ws' /\
    forall j, 0 <= j -> bit w (vmem ws' nomem) j =
      if j =? i then b else bit w (vmem (vwords v) nomem) j)); [lia|]|].
  - apply wp_set_index; [assumption|apply vmem_wf; [assumption|apply nomem_wf]|lia|
      apply vmem_mapped; lia|].
    intros m' (U1 & U2 & U3). split; [assumption|]. split; [assumption|].
    intros ws' L W B. split; [assumption|]. split; [assumption|].
    intros j Hj. rewrite B, U3, inr_one by lia. reflexivity.
  - intros [[] ws'] (L & W & B). apply rwp_ok.
    assert (V' : vec_ok w (BV ws' (vlen v))).
    { split; [exact W|]. cbn [vwords vlen]. rewrite L. unfold max_bits. lia. }
    split; [split; [exact V'|]|split; [reflexivity|unfold kept; cbn [vwords vlen]; intros j Hj;
      rewrite B by lia; replace (j =? i) with false by lia; reflexivity]].
    apply vbits_eq; [lia|assumption|rewrite zlen_set by lia; cbn; lia|].
    cbn [vwords vlen]. intros j Hj. rewrite B by lia. rewrite get_set by lia.
    destruct (Z.eqb_spec j i); [reflexivity|]. symmetry. apply vbits_nth; [lia|assumption|lia].
Qed.

Lemma vset_wp : forall p w v i b, valid_w w -> vec_ok w v -> 0 <= i < vlen v ->
  rwp (vset p w v i b) (fun v' => vec_ok w v' /\ vbits w v' = set_at i b (vbits w v)).
Proof.
  intros p w v i b Vw V Hi. eapply rwp_conseq; [apply vset_full; assumption|].
  intros v' [H _]. exact H.
Qed.
