(** The algorithms on words that do not lie one after the other. *)
From Coq Require Import ZArith Bool List Lia ZifyBool.
From Verif Require Import Base WordOps IterModel RefModel PopcntModel AlgModel ThreadModel HwyModel
  SeqModel Spec SpecHwy SpecSeq ProofBase ProofIter ProofWord ProofAlg1 ProofTransform ProofCnt ProofCount ProofRange ProofHwy ProofSteps Demo.
Import ListNotations.
Open Scope Z_scope.
Ltac Zify.zify_post_hook ::= idtac.

Lemma via_like : forall A (loc : Z -> Z) (t : thread A) m ma,
  (forall i j, loc i = loc j -> i = j) -> (forall i, m (loc i) = ma i) ->
  like_array loc m (alone (via loc t) m) (alone t ma).
Proof.
  intros A loc t. induction t as [r|a k IH|a v k IH]; intros m ma Inj E.
  - cbn. unfold lift. destruct r; cbn; try reflexivity. exists m. auto.
  - cbn [via alone]. rewrite E. destruct (ma a) as [x|]; [apply IH; assumption|reflexivity].
  - cbn [via alone]. rewrite E. destruct (ma a) as [x|] eqn:Ea; [|reflexivity].
    specialize (IH (mset m (loc a) v) (mset ma a v) Inj).
    assert (E' : forall i, mset m (loc a) v (loc i) = mset ma a v i).
    { intros i. unfold mset. destruct (Z.eqb_spec i a) as [->|N].
      - rewrite Z.eqb_refl. reflexivity.
      - destruct (Z.eqb_spec (loc i) (loc a)) as [H|H]; [apply Inj in H; contradiction|apply E]. }
    specialize (IH E'). unfold like_array in *.
    destruct (alone k (mset ma a v)) as [[x' ma']|u| | |]; try exact IH.
    destruct IH as (m' & H1 & H2 & H3). exists m'. split; [exact H1|]. split; [exact H2|].
    intros b Hb. rewrite (H3 b Hb). unfold mset.
    destruct (Z.eqb_spec b (loc a)) as [H|H]; [exfalso; apply (Hb a); auto|reflexivity].
Qed.

Lemma seq_total : forall loc p w c, exists r, seq_call loc p w c r.
Proof.
  intros loc p w c.
  assert (H : exists t, forall m, alone t m = run_call p w c m)
    by (exists (thread_of p w c); exact (proj2 (proj2_sig (st_run_call p w c)))).
  destruct H as (t & H).
  destruct c; cbn [seq_call];
    (eexists; reflexivity) || (exists (alone (via loc t)); exists t; split; [exact H|reflexivity]).
Qed.

Lemma seq_like : forall loc p w c r m, (forall i j, loc i = loc j -> i = j) ->
  (forall t f l b, c <> CCount t f l b) -> seq_call loc p w c r ->
  like_array loc m (r m) (run_call p w c (as_array loc m)).
Proof.
  intros loc p w c r m Inj Nc H.
  assert (H' : exists t, (forall m, alone t m = run_call p w c m) /\ r = alone (via loc t))
    by (destruct c; try exact H; exfalso; eapply Nc; reflexivity).
  destruct H' as (t & Et & ->). rewrite <- Et. apply via_like; [exact Inj|]. reflexivity.
Qed.

(** count. *)
Lemma viable_shift : forall w f l a b, b - a = ib l - ib f ->
  assert_viable w (It a (ip f)) (It b (ip l)) = assert_viable w f l.
Proof.
  intros w f l a b E. unfold assert_viable, idiff. cbn [ib ip]. rewrite E. reflexivity.
Qed.

(** The array that starts where the first word is. *)
Lemma count_seq_array : forall loc t p w first last b m, ib first <= ib last ->
  adjacent loc (ib first) (ib last) ->
  count_seq loc t p w first last b m =
  count t p w (It (loc (ib first)) (ip first))
    (It (loc (ib first) + (ib last - ib first)) (ip last)) b m.
Proof.
  intros loc t p w first last b m Hle H. unfold count_seq, count. cbn [ib ip].
  rewrite viable_shift by lia.
  assert (Ed : idiff w (It (loc (ib first) + (ib last - ib first)) (ip last))
    (It (loc (ib first)) (ip first)) = idiff w last first).
  { unfold idiff. cbn [ib ip].
    replace (loc (ib first) + (ib last - ib first) - loc (ib first)) with (ib last - ib first)
      by lia. reflexivity. }
  rewrite Ed. pose proof (H (ib last) ltac:(lia)) as El.
  destruct (Z.eqb_spec (ib first) (ib last)) as [E|E].
  { replace (loc (ib first) =? loc (ib first) + (ib last - ib first)) with true by lia.
    reflexivity. }
  replace (loc (ib first) =? loc (ib first) + (ib last - ib first)) with false by lia.
  cbn [negb]. rewrite El. destruct (ip first =? 0); cbn [negb].
  - unfold bind, ret, lift. destruct (assert_viable w first last) as [u|k| | |]; [|reflexivity..].
    replace (loc (ib first) + (ib last - ib first) - loc (ib first)) with (ib last - ib first)
      by lia. reflexivity.
  - pose proof (H (ib first + 1) ltac:(lia)) as E1.
    replace (loc (ib first) + (ib first + 1 - ib first)) with (loc (ib first) + 1) in E1 by lia.
    unfold bind, ret, lift. destruct (assert_viable w first last) as [u|k| | |]; [|reflexivity..].
    destruct (load (loc (ib first)) m) as [[x m1]|k| | |]; [|reflexivity..].
    destruct (cshr p w x (ip first)) as [y|k| | |]; [|reflexivity..]. cbv beta iota. rewrite E1.
    replace (loc (ib first) + (ib last - ib first) - (loc (ib first) + 1))
      with (ib last - (ib first + 1)) by lia. reflexivity.
Qed.

Lemma count_seq_ok : forall loc t p w m first last b,
  valid_w w -> wf_mem w m -> good_range w (as_array loc m) first last ->
  adjacent loc (ib first) (ib last) ->
  (exists c, t = X86 c) \/ t = Neon true \/ w = 64 ->
  (first = last -> m (loc (ib first)) <> None) ->
  count_seq loc t p w first last b m =
  Ok (count_true (fun i => eqb (bit w (as_array loc m) i) b) (addr w first)
        (Z.to_nat (addr w last - addr w first)), m).
Proof.
  intros loc t p w m first last b Vw Wf (Vf & Vl & Hd & M) Ad Ht Hne.
  pose proof (valid_pos w Vw) as Pw.
  assert (Hle : ib first <= ib last) by (apply (base_le w); assumption || lia).
  rewrite count_seq_array by assumption.
  set (d := loc (ib first) - ib first).
  assert (Ea : forall k, addr w (It (loc (ib first)) k) = ib first * w + k + d * w)
    by (intros k; unfold addr, d; cbn [ib ip]; lia).
  assert (El : addr w (It (loc (ib first) + (ib last - ib first)) (ip last)) =
    addr w last + d * w) by (unfold addr, d; cbn [ib ip]; lia).
  assert (Hq : forall i, addr w first <= i < addr w last ->
    ib first <= i / w <= ib last /\ (i + d * w) / w = loc (i / w) /\ (i + d * w) mod w = i mod w).
  { intros i Hi. unfold addr, valid_it in *.
    assert (ib first <= i / w) by (apply Z.div_le_lower_bound; lia).
    assert (i / w <= ib last) by (apply Z.lt_succ_r, Z.div_lt_upper_bound; lia).
    split; [lia|]. rewrite Z.div_add, Z.mod_add by lia. split; [|reflexivity].
    rewrite (Ad (i / w)) by lia. unfold d. lia. }
  rewrite count_ok; try assumption.
  - f_equal. f_equal. rewrite El, Ea.
    replace (addr w last + d * w - (ib first * w + ip first + d * w))
      with (addr w last - addr w first) by (unfold addr; lia).
    apply count_true_ext. intros k Hk. f_equal. unfold bit, as_array.
    destruct (Hq (addr w first + k) ltac:(lia)) as (_ & Q1 & Q2).
    replace (ib first * w + ip first + d * w + k) with (addr w first + k + d * w)
      by (unfold addr; lia).
    rewrite Q1, Q2. reflexivity.
  - split; [unfold valid_it in *; cbn [ip]; lia|]. split; [unfold valid_it in *; cbn [ip]; lia|].
    rewrite El, Ea. unfold max_bits in *. unfold addr in Hd. split; [unfold addr; lia|].
    intros i Hi. specialize (M (i - d * w)). unfold addr in M.
    destruct (Hq (i - d * w) ltac:(unfold addr in *; lia)) as (_ & Q1 & _).
    replace (i - d * w + d * w) with i in Q1 by lia. rewrite Q1. apply M. unfold addr in Hi. lia.
  - cbn [ib]. intros E. apply Hne. injection E as E1 E2.
    destruct first as [fb fp], last as [lb lp]. cbn [ib ip] in *. f_equal; [lia|assumption].
Qed.

(** Zero everywhere but in one word. *)
Lemma count_seq_wrong : forall loc t p w first last j,
  let it := if ip first =? 0 then ib first else ib first + 1 in
  valid_w w -> valid_it w first -> valid_it w last -> addr w last - addr w first <= max_bits ->
  (exists c, t = X86 c) \/ t = Neon true \/ w = 64 ->
  0 <= j < ib last - it ->
  (forall k, ib first <= k <= ib last -> loc k <> loc it + j) ->
  exists m n, wf_mem w m /\ good_range w (as_array loc m) first last /\
    (forall i, addr w first <= i < addr w last -> bit w (as_array loc m) i = false) /\
    count_seq loc t p w first last true m = Ok (n, m) /\ 0 < n.
Proof.
  intros loc t p w first last j it Vw Vf Vl Hmax Ht Hj Hno.
  pose proof (valid_pos w Vw) as Pw. pose proof (prom_ge w Vw) as Pp.
  pose (m := fun a : Z => Some (if a =? loc it + j then 1 else 0)).
  assert (Wf : wf_mem w m).
  { intros a x E. unfold m in E. injection E as <-. pose proof (Z.pow_gt_1 2 w). bsplit; lia. }
  assert (Hit : ib first <= it) by (unfold it; bsplit; lia).
  assert (Hz : forall k, ib first <= k <= ib last -> m (loc k) = Some 0).
  { intros k Hk. unfold m. specialize (Hno k Hk).
    destruct (Z.eqb_spec (loc k) (loc it + j)); [contradiction|reflexivity]. }
  assert (Hda : 0 <= addr w last - addr w first).
  { unfold addr, valid_it in *. pose proof (mul_mono w (ib first + 1) (ib last) ltac:(lia)
      ltac:(lia)). lia. }
  assert (Hn : wp (count_seq loc t p w first last true) m (fun n m' => m' = m /\ 0 < n)).
  { unfold count_seq. apply wp_bind, wp_assert_viable; try assumption; try (unfold max_bits in *; lia).
    apply wp_bind. apply (wp_conseq _ _ _ (fun n m' => m' = m /\ 0 < n)).
    2:{ intros n m' (-> & H). cbn [negb]. apply wp_ret. auto. }
    destruct (Z.eqb_spec (ib first) (ib last)) as [E|E]; [lia|]. cbn [negb].
    apply wp_bind. apply (wp_conseq _ _ _ (fun q m' => m' = m /\ q = (0, it))).
    { unfold it. destruct (Z.eqb_spec (ip first) 0) as [E0|E0]; cbn [negb].
      - apply wp_ret. auto.
      - apply wp_bind. unfold wp, load. rewrite (Hz (ib first)) by lia.
        apply (wp_bind _ _ (lift (cshr p w 0 (ip first)))). unfold valid_it in *.
        apply wp_lift, rwp_cshr; [lia|]. apply wp_ret. split; [reflexivity|]. f_equal.
        rewrite Z.shiftr_0_l. unfold wrap. rewrite Z.mod_0_l by (apply Z.pow_nonzero; lia).
        rewrite popcnt_intrin_count by (try assumption; lia).
        apply count_true_false. intros k Hk. apply Z.bits_0. }
    intros q m' (-> & ->).
    assert (Hb : (ib last - it) * w <= 2 ^ 62 + w).
    { unfold addr, valid_it, max_bits in *.
      assert (it * w >= ib first * w) by nia. nia. }
    apply wp_bind, wp_popcnt_mem; try assumption; try lia.
    { destruct Ht as [[c ->]|[->|Ht]]; [exact I|exact I|]. subst w. apply target_ok_64. }
    { intros b Hb'. unfold m. discriminate. }
    assert (Hc : 0 < count_true (bit w m) (loc it * w) (Z.to_nat ((ib last - it) * w)) <= (ib last - it) * w).
    { pose proof (count_true_range (bit w m) (Z.to_nat ((ib last - it) * w)) (loc it * w)) as R.
      assert (0 <= (ib last - it) * w) by (apply Z.mul_nonneg_nonneg; lia).
      assert (0 <= j * w /\ j * w + w <= (ib last - it) * w) by (clear - Hj Pw; nia).
      split; [|lia].
      replace (Z.to_nat ((ib last - it) * w)) with
        (Z.to_nat (j * w) + (1 + Z.to_nat ((ib last - it) * w - j * w - 1)))%nat by lia.
      rewrite count_true_app. cbn [count_true Nat.add].
      match goal with |- context [if bit w m ?i then _ else _] =>
        assert (Hbt : bit w m i = true) end.
      { unfold bit, m. rewrite Z2Nat.id by lia.
        replace (loc it * w + j * w) with ((loc it + j) * w) by lia.
        rewrite Z.div_mul, Z.mod_mul, Z.eqb_refl by lia. reflexivity. }
      rewrite Hbt.
      match goal with |- 0 < count_true _ ?a ?b + (1 + count_true _ ?c ?d) =>
        pose proof (count_true_range (bit w m) b a);
        pose proof (count_true_range (bit w m) d c) end. lia. }
    set (n := count_true (bit w m) (loc it * w) (Z.to_nat ((ib last - it) * w))) in *.
    clearbody n. cbv zeta. rewrite swrap64_small by lia.
    destruct (Z.eqb_spec (ip last) 0) as [E0|E0]; cbn [negb].
    - apply wp_ret. split; [reflexivity|lia].
    - apply wp_bind. unfold wp, load. rewrite (Hz (ib last)) by lia.
      apply (wp_bind _ _ (lift (cshl p w 0 (w - ip last)))). unfold valid_it in *.
      apply wp_lift, rwp_cshl; [assumption|lia..|]. intros s Hs. apply wp_ret.
      split; [reflexivity|]. rewrite Hs, Z.shiftl_0_l.
      rewrite popcnt_intrin_count by (try assumption; apply wrap_range; lia).
      unfold wrap. rewrite Z.mod_0_l by (apply Z.pow_nonzero; lia).
      rewrite count_true_false by (intros; apply Z.bits_0). rewrite swrap64_small by lia. lia. }
  exists m. unfold wp in Hn.
  destruct (count_seq loc t p w first last true m) as [[n m']| | | |] eqn:E; try contradiction.
  destruct Hn as (-> & Hn). exists n. split; [exact Wf|]. split.
  { split; [assumption|]. split; [assumption|]. split; [lia|].
    intros i Hi. unfold as_array, m. discriminate. }
  split; [|split; [reflexivity|assumption]].
  intros i Hi. unfold bit, as_array. rewrite Hz; [apply Z.bits_0|].
  unfold addr, valid_it in *. split; [apply Z.div_le_lower_bound; lia|].
  apply Z.lt_succ_r, Z.div_lt_upper_bound; lia.
Qed.

(** The whole words of fill with vectors. *)
Lemma fill_align_seq_array : forall loc p h w d last v fuel it m,
  (forall k, it <= k <= last -> loc k = k + d) -> it <= last ->
  fill_align_seq loc p h w fuel it last v m =
  bind (fill_align p h w fuel (it + d) (last + d) v) (fun a => ret (a - d)) m.
Proof.
  intros loc p h w d last v fuel. induction fuel as [|f IH]; intros it m H Hle;
    cbn [fill_align_seq fill_align];
    (destruct (Z.eqb_spec it last) as [E|E];
     [replace (it + d =? last + d) with true by lia; unfold bind, ret; do 2 f_equal; lia|]);
    replace (it + d =? last + d) with false by lia; rewrite (H it) by lia; unfold bind;
    (destruct (is_aligned p h w (it + d) m) as [[[|] m1]|k| | |];
     [unfold ret; do 2 f_equal; lia| |reflexivity..]); [reflexivity|].
  destruct (store (it + d) v m1) as [[u m2]|k| | |]; [|reflexivity..].
  rewrite IH; [|intros k Hk; apply H; lia|lia].
  replace (it + 1 + d) with (it + d + 1) by lia. reflexivity.
Qed.

Lemma fill_vectors_seq_array : forall loc h w d last v fuel it m, 0 < lanes h ->
  (forall k, it <= k <= last -> loc k = k + d) -> it <= last -> last - it <= 2 ^ 62 ->
  fill_vectors_seq loc h w fuel it last v m =
  bind (fill_vectors h w fuel (it + d) (last + d) v) (fun a => ret (a - d)) m.
Proof.
  intros loc h w d last v fuel. induction fuel as [|f IH]; intros it m Hp H Hle Hmax;
    cbn [fill_vectors_seq fill_vectors];
    replace (last + d - (it + d)) with (last - it) by lia;
    rewrite wrap_small by lia;
    (destruct (Z.leb_spec (lanes h) (last - it)) as [L|L];
     [|unfold bind, ret; do 2 f_equal; lia]); [reflexivity|].
  rewrite (H it) by lia. unfold bind.
  destruct (vstore h w (it + d) (repeat v (Z.to_nat (lanes h))) m) as [[u m2]|k| | |];
    [|reflexivity..].
  rewrite IH; [|assumption|intros k Hk; apply H; lia|lia|lia].
  replace (it + lanes h + d) with (it + d + lanes h) by lia. reflexivity.
Qed.

Lemma fill_rest_seq_array : forall loc d v n it m,
  (forall k, it <= k < it + Z.of_nat n -> loc k = k + d) ->
  fill_rest_seq loc n it v m = words_fill n (it + d) v m.
Proof.
  intros loc d v n. induction n as [|n IH]; intros it m H; [reflexivity|].
  cbn [fill_rest_seq words_fill]. rewrite (H it) by lia. unfold bind.
  destruct (store (it + d) v m) as [[u m2]|k| | |]; [|reflexivity..].
  rewrite IH by (intros k Hk; apply H; lia). f_equal. lia.
Qed.

Lemma wp_eq : forall A (c c' : M A) m (Q : A -> mem -> Prop), c m = c' m -> wp c' m Q -> wp c m Q.
Proof. intros A c c' m Q E. unfold wp. rewrite E. auto. Qed.

Lemma fill_words_seq_ok : forall loc p h w m it last (bv : bool),
  valid_w w -> wf_mem w m -> vector_fits h w -> 0 <= last - it <= 2 ^ 58 ->
  adjacent loc it last -> (forall k, it <= k < last -> m (loc k) <> None) ->
  exists m', fill_words_seq loc p h w it last (if bv then all_ones w else 0) m = Ok (tt, m') /\
    (forall i, it * w <= i < last * w -> bit w (as_array loc m') i = bv) /\
    forall a, a < loc it \/ loc it + (last - it) <= a -> m' a = m a.
Proof.
  intros loc p h w m it last bv Vw Wf Hfit Hd Ad Hm. pose proof (valid_pos w Vw) as Pw.
  pose proof (fill_word_range w bv ltac:(lia)) as Hfw.
  assert (Hfb : forall k, 0 <= k < w -> Z.testbit (if bv then all_ones w else 0) k = bv)
    by (intros k; apply fill_word_bits; lia).
  set (fw := if bv then all_ones w else 0) in *. clearbody fw.
  set (d := loc it - it).
  assert (Hl : forall k, it <= k <= last -> loc k = k + d)
    by (intros k Hk; rewrite (Ad k Hk); unfold d; lia).
  assert (H : wp (fill_words_seq loc p h w it last fw) m
    (fun _ m' => updated w m m' ((it + d) * w) ((last + d) * w) (fun _ => bv))).
  { unfold fill_words_seq.
    apply wp_bind. eapply wp_eq; [apply (fill_align_seq_array loc p h w d); [assumption|lia]|].
    apply wp_bind, (wp_fill_align p h w _ _ _ _ m m ((it + d) * w) bv); try assumption; try lia.
    { intros b Hb. replace b with (b - d + d) by lia. rewrite <- Hl by lia. apply Hm. lia. }
    { apply updated_refl; [assumption|]. intros i Hi. lia. }
    intros a1 m1 Hi1 Ha1 U1. apply wp_ret.
    apply wp_bind.
    eapply wp_eq; [apply (fill_vectors_seq_array loc h w d); [apply Hfit|intros; apply Hl; lia|lia..]|].
    replace (a1 - d + d) with a1 by lia.
    pose proof (mul_mono w (it + d) a1 ltac:(lia) ltac:(lia)) as M1.
    apply wp_bind, (wp_fill_vectors h w _ _ _ _ m m1 ((it + d) * w) bv); try assumption; try lia.
    { destruct Ha1 as [Ha1|Ha1]; [left; exact Ha1|right; apply vector_aligned_64; assumption]. }
    { intros b Hb. replace b with (b - d + d) by lia. rewrite <- Hl by lia. apply Hm. lia. }
    intros a2 m2 Hi2 U2. apply wp_ret.
    pose proof (mul_mono w a1 a2 ltac:(lia) ltac:(lia)) as M2.
    pose proof (mul_mono w a2 (last + d) ltac:(lia) ltac:(lia)) as M3.
    eapply wp_eq; [apply (fill_rest_seq_array loc d); intros; apply Hl; lia|].
    replace (a2 - d + d) with a2 by lia. replace (last - (a2 - d)) with (last + d - a2) by lia.
    assert (He : a2 + Z.of_nat (Z.to_nat (last + d - a2)) = last + d) by lia.
    apply (wp_words_fill w); rewrite ?He; try assumption; try lia.
    { eapply updated_wf, U2. }
    { intros b Hb. eapply dom_updated; [exact U2|].
      replace b with (b - d + d) by lia. rewrite <- Hl by lia. apply Hm. lia. }
    intros m3 U3. eapply updated_step; [exact U2|exact U3|lia|].
    intros i Hi. cbv beta. apply Hfb, Z.mod_pos_bound. lia. }
  unfold wp in H.
  destruct (fill_words_seq loc p h w it last fw m) as [[[] m']|k| | |]; try contradiction.
  exists m'. split; [reflexivity|]. destruct H as (W' & D' & B'). split.
  - intros i Hi. unfold bit, as_array.
    assert (Hk : it <= i / w < last)
      by (split; [apply Z.div_le_lower_bound|apply Z.div_lt_upper_bound]; lia).
    rewrite Hl by lia. specialize (B' (i + d * w)). unfold bit, inr in B'.
    rewrite Z.div_add, Z.mod_add in B' by lia. rewrite B'. bsplit; lia || reflexivity.
  - intros a Ha.
    assert (Hb : forall k, 0 <= k < w -> bit w m' (a * w + k) = bit w m (a * w + k)).
    { intros k Hk. rewrite B'. unfold inr, d.
      destruct Ha as [Ha|Ha]; [pose proof (mul_mono w (a + 1) (loc it) ltac:(lia) ltac:(lia))
        |pose proof (mul_mono w (loc it + (last - it)) a ltac:(lia) ltac:(lia))];
      bsplit; lia || reflexivity. }
    specialize (D' a). destruct (m' a) as [y|] eqn:E1, (m a) as [x|] eqn:E2;
      [|exfalso; destruct D' as (D1 & D2);
        (specialize (D1 eq_refl); discriminate) || (specialize (D2 eq_refl); discriminate)..
       |reflexivity].
    f_equal. apply (word_ext w); [lia|eapply W'; eassumption|eapply Wf; eassumption|].
    intros k Hk. specialize (Hb k Hk). unfold bit in Hb.
    replace ((a * w + k) / w) with a in Hb by (rewrite Z.add_comm, Z.div_add, Z.div_small; lia).
    replace ((a * w + k) mod w) with k in Hb by (rewrite Z.add_comm, Z.mod_add, Z.mod_small; lia).
    rewrite E1, E2 in Hb. exact Hb.
Qed.

(** A reversed array of bytes: count looks at the words behind the first one. *)
Lemma count_seq_refuted : exists loc t p w m first last n,
  valid_w w /\ wf_mem w m /\ good_range w (as_array loc m) first last /\
  (forall i j, loc i = loc j -> i = j) /\
  count_seq loc t p w first last true m = Ok (n, m) /\
  n <> count_true (bit w (as_array loc m)) (addr w first)
         (Z.to_nat (addr w last - addr w first)).
Proof.
  exists (fun i => 3 - i), (X86 (Cpu true true true)), Strict17, 8,
    (mem_of [1; 3; 7; 15; 31; 63]), (It 0 4), (It 3 4), 8.
  split; [unfold valid_w; lia|]. split; [apply mem_of_wf; reflexivity|].
  split.
  { split; [unfold valid_it; cbn; lia|]. split; [unfold valid_it; cbn; lia|].
    split; [vm_compute; split; congruence|]. intros i Hi. unfold as_array.
    assert (0 <= i / 8 <= 3)
      by (unfold addr in Hi; cbn [ib ip] in Hi;
          split; [apply Z.div_le_lower_bound|apply Z.lt_succ_r, Z.div_lt_upper_bound]; lia).
    assert (E : i / 8 = 0 \/ i / 8 = 1 \/ i / 8 = 2 \/ i / 8 = 3) by lia.
    destruct E as [-> |[-> |[-> | ->]]]; vm_compute; discriminate. }
  split; [intros; lia|]. split; vm_compute; congruence.
Qed.

(** And vectors are stored behind the first word: one of the words of the sequence keeps
    its value. *)
Lemma fill_words_seq_refuted : exists loc p h w m it last k m',
  valid_w w /\ wf_mem w m /\ vector_fits h w /\ (forall i j, loc i = loc j -> i = j) /\
  (forall i, it <= i < last -> m (loc i) <> None) /\ it <= k < last /\
  fill_words_seq loc p h w it last 0 m = Ok (tt, m') /\ m' (loc k) <> Some 0.
Proof.
  exists (fun i => 15 - i), Strict17, (Unit 4 0), 64,
    (mem_of [1; 2; 3; 4; 5; 6; 7; 8; 9; 10; 11; 12; 13; 14; 15; 16]), 7, 11, 8.
  eexists. split; [unfold valid_w; lia|]. split; [apply mem_of_wf; reflexivity|].
  split; [unfold vector_fits; vm_compute; intuition congruence|].
  split; [intros; lia|].
  split.
  { intros i Hi. assert (E : i = 7 \/ i = 8 \/ i = 9 \/ i = 10) by lia.
    destruct E as [-> |[-> |[-> | ->]]]; vm_compute; discriminate. }
  split; [lia|]. split; [vm_compute; reflexivity|]. vm_compute. discriminate.
Qed.

(** The same of the call. *)
Lemma count_call_ok : forall loc t p w m first last b r,
  valid_w w -> wf_mem w m -> good_range w (as_array loc m) first last ->
  adjacent loc (ib first) (ib last) ->
  (exists c, t = X86 c) \/ t = Neon true \/ w = 64 ->
  (first = last -> m (loc (ib first)) <> None) ->
  seq_call loc p w (CCount t first last b) r ->
  r m = Ok (ANum (count_true (fun i => eqb (bit w (as_array loc m) i) b) (addr w first)
        (Z.to_nat (addr w last - addr w first))), m).
Proof.
  intros loc t p w m first last b r Vw Wf G Ad Ht Hne Hr. cbn [seq_call] in Hr. subst r.
  unfold bind. rewrite count_seq_ok by assumption. reflexivity.
Qed.
