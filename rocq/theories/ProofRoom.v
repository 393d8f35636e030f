(** Bulk insertion into a bit vector of any size: the storage it makes, in float
    arithmetic, and what happens when that is too little. *)
From Coq Require Import ZArith Bool List Lia ZifyBool.
From Verif Require Import Base WordOps IterModel RefModel AlgModel ShiftModel VecModel Spec SpecVec SpecRoom
  ProofBase ProofIter ProofRange ProofRef ProofAlg1 ProofAlg2 ProofCopy ProofShift
  ProofVec ProofVec2 ProofVec4 ProofFrame.
Import ListNotations.
Open Scope Z_scope.
Ltac Zify.zify_post_hook ::= idtac.

(** Rounding *)
Lemma rounds_unique : forall n f, 0 <= n -> rounds n f -> f = to_float n.
Proof.
  intros n f Hn [[C ->]|(k & q & Hk & Hb & -> & Hr & Ht)]; unfold to_float.
  - destruct (Z.ltb_spec n (2 ^ 24)); [reflexivity|lia].
  - assert (L : Z.log2 n = 23 + k).
    { apply Z.log2_unique; [lia|]. replace (Z.succ (23 + k)) with (24 + k) by lia. exact Hb. }
    destruct (Z.ltb_spec n (2 ^ 24)) as [C|C].
    + assert (k = 0).
      { destruct (Z.eq_dec k 0) as [|N]; [assumption|]. exfalso.
        assert (2 ^ 24 <= 2 ^ (23 + k)) by (apply Z.pow_le_mono_r; lia). lia. }
      subst k. rewrite Z.pow_0_r in *. lia.
    + cbv zeta. rewrite L. replace (23 + k - 23) with k by lia.
      assert (0 < k).
      { destruct (Z.eq_dec k 0) as [->|N]; [|lia]. change (24 + 0) with 24 in Hb. lia. }
      assert (P : 2 ^ k = 2 * 2 ^ (k - 1)) by (rewrite <- Z.pow_succ_r by lia; f_equal; lia).
      assert (0 < 2 ^ (k - 1)) by (apply Z.pow_pos_nonneg; lia).
      set (h := 2 ^ (k - 1)) in *. rewrite P in *.
      pose proof (Z.div_mod n (2 * h) ltac:(lia)) as D.
      pose proof (Z.mod_pos_bound n (2 * h) ltac:(lia)) as M.
      set (a := n / (2 * h)) in *. set (r := n mod (2 * h)) in *.
      f_equal.
      destruct (Z.ltb_spec r h) as [C1|C1].
      * assert (- 1 < q - a < 1) by nia. lia.
      * destruct (Z.ltb_spec h r) as [C2|C2].
        -- assert (- 1 < q - (a + 1) < 1) by nia. lia.
        -- assert (r = h) by lia.
           assert (q = a \/ q = a + 1) as [E|E] by (assert (-1 <= q - a <= 1 /\ q - a <> -1) by nia; lia).
           ++ subst q. rewrite Ht by nia. reflexivity.
           ++ assert (Z.even (a + 1) = true) by (rewrite <- E; apply Ht; nia).
              rewrite Z.even_add in *. destruct (Z.even a); [discriminate|assumption].
Qed.

Lemma rounds_exists : forall n, 0 <= n -> rounds n (to_float n).
Proof.
  intros n Hn. unfold to_float. destruct (Z.ltb_spec n (2 ^ 24)) as [C|C]; [left; lia|].
  right. set (k := Z.log2 n - 23).
  assert (L : 24 <= Z.log2 n) by (apply Z.log2_le_pow2; lia).
  exists k. cbv zeta.
  set (q' := if n mod 2 ^ k <? 2 ^ (k - 1) then _ else _). exists q'.
  split; [lia|]. split.
  { replace (23 + k) with (Z.log2 n) by lia. replace (24 + k) with (Z.succ (Z.log2 n)) by lia.
    apply Z.log2_spec. lia. }
  split; [reflexivity|]. subst q'.
  assert (P : 2 ^ k = 2 * 2 ^ (k - 1)) by (rewrite <- Z.pow_succ_r by lia; f_equal; lia).
  assert (0 < 2 ^ (k - 1)) by (apply Z.pow_pos_nonneg; lia).
  set (h := 2 ^ (k - 1)) in *. rewrite P in *.
  pose proof (Z.div_mod n (2 * h) ltac:(lia)) as D.
  pose proof (Z.mod_pos_bound n (2 * h) ltac:(lia)) as M.
  set (a := n / (2 * h)) in *. set (r := n mod (2 * h)) in *.
  destruct (Z.ltb_spec r h) as [C1|C1].
  - split; [|intros E; exfalso]; nia.
  - destruct (Z.ltb_spec h r) as [C2|C2].
    + split; [|intros E; exfalso]; nia.
    + assert (r = h) by lia. destruct (Z.even a) eqn:Ea.
      * split; [nia|auto].
      * split; [nia|]. intros _. rewrite Z.even_add, Ea. reflexivity.
Qed.

Lemma to_float_nonneg : forall n, 0 <= n -> 0 <= to_float n.
Proof.
  intros n Hn. destruct (Z.leb_spec (2 ^ 24) n) as [C|C].
  - pose proof (to_float_large n C). lia.
  - rewrite to_float_small by lia. lia.
Qed.

Lemma grow_room : forall w v n s, valid_w w -> vec_ok w v -> 0 <= n < 2 ^ 64 ->
  new_room w (zlen (vwords v) * w) n s -> s <= max_bits ->
  exists ws, grow w (vwords v) n = Ok ws /\ words_ok w ws /\
    Z.of_nat (length ws) * w = s /\ vlen v <= s /\
    (forall ext i, 0 <= i -> bit w (vmem ws ext) i = bit w (vmem (vwords v) ext) i).
Proof.
  intros w v n s Hw (V1 & V2 & V3) Hn (a & t & Ra & Rt & H) Hs. pose proof (valid_pos w Hw) as Pw.
  unfold max_bits in *. unfold grow, wsize, zlen in *. rewrite !wrap_small by lia.
  apply rounds_unique in Ra, Rt; [|lia..]. rewrite <- Ra, <- Rt.
  set (cap := Z.of_nat (length (vwords v)) * w) in *. cbv zeta.
  destruct H as [(C & ->)|(C & x & Rx & Hx & (d & Hd) & Hc)].
  - destruct (Z.ltb_spec a t) as [D|D]; [lia|]. exists (vwords v).
    split; [reflexivity|]. split; [assumption|]. fold cap. split; [lia|]. split; [lia|reflexivity].
  - destruct (Z.ltb_spec a t) as [D|D]; [|lia].
    pose proof (rounds_unique (t - a) x ltac:(lia) Rx) as Ex.
    pose proof (to_float_nonneg (t - a) ltac:(lia)) as Hx0.
    rewrite <- Ex in *.
    destruct (Z.ltb_spec x (2 ^ 32)) as [E|E]; [|lia].
    pose proof (word_count_ok w x Hw ltac:(lia)) as Wc. set (c := word_count w x) in *.
    assert (0 <= c) by nia.
    assert (Es : s = cap + c * w).
    { unfold cap in *. assert (d = Z.of_nat (length (vwords v)) + c) by nia. nia. }
    eexists. split; [reflexivity|]. unfold resize_words, wsize.
    destruct (Z.leb_spec (Z.of_nat (length (vwords v)) + c) (Z.of_nat (length (vwords v)))) as [F|F].
    + assert (c = 0) by lia.
      replace (Z.to_nat (Z.of_nat (length (vwords v)) + c)) with (length (vwords v)) by lia.
      rewrite firstn_all. split; [assumption|]. fold cap. split; [nia|]. split; [nia|reflexivity].
    + split; [apply words_ok_app; [assumption|apply words_ok_zeros; lia]|].
      rewrite app_length, repeat_length. split; [unfold cap in *; nia|]. split; [nia|].
      intros ext i Hi. apply bit_zeros; lia.
Qed.

Lemma grow_undefined : forall w v n, valid_w w -> vec_ok w v -> 0 <= n < 2 ^ 64 ->
  too_much_room (zlen (vwords v) * w) n -> grow w (vwords v) n = UB BadUse.
Proof.
  intros w v n Hw (V1 & V2 & V3) Hn (a & t & x & Ra & Rt & C & Rx & Hx).
  pose proof (valid_pos w Hw) as Pw.
  unfold max_bits in *. unfold grow, wsize, zlen in *. rewrite !wrap_small by lia.
  apply rounds_unique in Ra, Rt; [|lia..]. rewrite <- Ra, <- Rt. cbv zeta.
  destruct (Z.ltb_spec a t) as [D|D]; [|lia].
  apply rounds_unique in Rx; [|lia]. rewrite <- Rx.
  destruct (Z.ltb_spec x (2 ^ 32)) as [E|E]; [lia|reflexivity].
Qed.

(** A computation that must change a word which is not there goes out of
    bounds. *)
Lemma short_oob : forall A (c : M A) m big a, framed c -> below m big -> m a = None ->
  wp c big (fun _ m' => m' a <> big a) -> c m = UB OutOfBounds.
Proof.
  intros A c m big a F B Ha H. specialize (F m big B). unfold wp in H.
  destruct (c m) as [[x m1]|k| | |]; try (rewrite F in H; contradiction).
  - destruct F as (big1 & E & _ & _ & F). rewrite E in H. rewrite F in H by exact Ha.
    contradiction H. reflexivity.
  - destruct k; [reflexivity|..]; rewrite F in H; contradiction.
Qed.

Lemma below_vmem : forall ws r ext, below (vmem ws ext) (vmem (ws ++ r) ext).
Proof.
  intros ws r ext a x. unfold vmem, wsize. rewrite app_length.
  destruct (Z.ltb_spec a 0) as [C|C]; [auto|].
  destruct (Z.ltb_spec a (Z.of_nat (length ws))) as [D|D]; [|discriminate].
  destruct (Z.ltb_spec a (Z.of_nat (length ws + length r))) as [E|E]; [|lia].
  rewrite app_nth1 by lia. auto.
Qed.

Lemma words_ok_repeat : forall w x n, 0 <= x < 2 ^ w -> words_ok w (repeat x n).
Proof. intros w x n Hx. unfold words_ok. apply Forall_forall. intros y Hy.
  apply repeat_spec in Hy. subst y. assumption. Qed.

(** Bits of the storage in front and behind. *)
Lemma bit_front : forall w ws r ext i, 0 < w -> i < Z.of_nat (length ws) * w ->
  bit w (vmem (ws ++ r) ext) i = bit w (vmem ws ext) i.
Proof.
  intros w ws r ext i Hw Hi. unfold bit.
  assert (D : i / w < Z.of_nat (length ws)) by (apply Z.div_lt_upper_bound; nia).
  unfold vmem, wsize. rewrite app_length.
  destruct (Z.ltb_spec (i / w) 0) as [C|C]; [reflexivity|].
  destruct (Z.ltb_spec (i / w) (Z.of_nat (length ws))) as [E|E]; [|lia].
  destruct (Z.ltb_spec (i / w) (Z.of_nat (length ws + length r))) as [F|F]; [|lia].
  rewrite app_nth1 by lia. reflexivity.
Qed.

Lemma bit_back : forall w ws (x : bool) n ext i, 0 < w ->
  Z.of_nat (length ws) * w <= i < (Z.of_nat (length ws) + Z.of_nat n) * w ->
  bit w (vmem (ws ++ repeat (if x then 2 ^ w - 1 else 0) n) ext) i = x.
Proof.
  intros w ws x n ext i Hw Hi. unfold bit.
  assert (D : Z.of_nat (length ws) <= i / w < Z.of_nat (length ws) + Z.of_nat n).
  { split; [apply Z.div_le_lower_bound; nia|apply Z.div_lt_upper_bound; nia]. }
  unfold vmem, wsize. rewrite app_length, repeat_length.
  destruct (Z.ltb_spec (i / w) 0) as [C|C]; [lia|].
  destruct (Z.ltb_spec (i / w) (Z.of_nat (length ws + n))) as [F|F]; [|lia].
  rewrite app_nth2 by lia. rewrite (nth_indep _ 0 (if x then 2 ^ w - 1 else 0)) by (rewrite repeat_length; lia).
  rewrite nth_repeat.
  pose proof (Z.mod_pos_bound i w ltac:(lia)).
  destruct x; [|apply Z.bits_0]. replace (2 ^ w - 1) with (Z.ones w) by (rewrite Z.ones_equiv; lia).
  apply Z.ones_spec_low. lia.
Qed.

(** The bit that an insertion leaves at the end. *)
Lemma insert_last_n : forall p w m i c e b, valid_w w -> wf_mem w m -> 0 <= i -> 0 < c ->
  i + c <= e <= max_bits -> mapped w m i e -> (i + c < e -> shift_defined p w i e) ->
  wp (let! f := iadd w vbegin i in
      let! l := iadd w vbegin e in
      shift_right p w f l c ;;
      let! g := iadd w f c in
      fill p w f g b) m
    (fun _ m' => bit w m' (e - 1) = if i + c <? e then bit w m (e - 1 - c) else b).
Proof.
  intros p w m i c e b Hw Wf Hi Hc He Hm Hd. pose proof (valid_pos w Hw) as Pw.
  unfold max_bits in *.
  pose proof (begin_valid w ltac:(lia)) as Vb. pose proof (begin_addr w) as Ab.
  apply wp_bind, wp_iadd; [assumption..|lia|]. intros f Vf Af.
  apply wp_bind, wp_iadd; [assumption..|lia|]. intros l Vl Al.
  rewrite Ab, Z.add_0_l in Af, Al.
  apply wp_bind, wp_shift_right; [assumption..| |lia|rewrite Af, Al; intros; apply Hd; lia|].
  { split; [assumption|]. split; [assumption|]. unfold max_bits. split; [lia|].
    rewrite Af, Al. assumption. }
  intros _ m1 W1 D1 S1 F1. apply wp_bind, wp_iadd; [assumption..|lia|]. intros g Vg Ag.
  assert (G : good_range w m1 f g).
  { split; [assumption|]. split; [assumption|]. unfold max_bits. split; [lia|].
    apply (mapped_dom w m); [|assumption]. intros j Hj. apply Hm. lia. }
  destruct (fill_ok p w m1 f g b Hw W1 G) as (m2 & E2 & W2 & D2 & B2).
  apply (wp_ok _ _ _ _ _ _ E2). rewrite B2. unfold inr.
  destruct (Z.ltb_spec (i + c) e) as [C|C].
  - replace (e - 1 <? addr w g) with false by lia. rewrite andb_false_r.
    rewrite S1 by lia. reflexivity.
  - replace (e - 1 <? addr w g) with true by lia.
    replace (addr w f <=? e - 1) with true by lia. reflexivity.
Qed.

Lemma insert_last_range : forall p w m i c e first last, valid_w w -> wf_mem w m -> 0 <= i -> 0 < c ->
  i + c <= e <= max_bits -> mapped w m i e -> (i + c < e -> shift_defined p w i e) ->
  good_range w m first last -> addr w last <= 0 -> addr w last - addr w first = c ->
  wp (let! f := iadd w vbegin i in
      let! l := iadd w vbegin e in
      shift_right p w f l c ;;
      copy p w first last f) m
    (fun _ m' => bit w m' (e - 1) = if i + c <? e then bit w m (e - 1 - c)
                                    else bit w m (addr w last - 1)).
Proof.
  intros p w m i c e first last Hw Wf Hi Hc He Hm Hd G Hneg Hlen. pose proof (valid_pos w Hw) as Pw.
  pose proof G as (G1 & G2 & G3 & G4). unfold max_bits in *.
  pose proof (begin_valid w ltac:(lia)) as Vb. pose proof (begin_addr w) as Ab.
  apply wp_bind, wp_iadd; [assumption..|lia|]. intros f Vf Af.
  apply wp_bind, wp_iadd; [assumption..|lia|]. intros l Vl Al.
  rewrite Ab, Z.add_0_l in Af, Al.
  apply wp_bind, wp_shift_right; [assumption..| |lia|rewrite Af, Al; intros; apply Hd; lia|].
  { split; [assumption|]. split; [assumption|]. unfold max_bits. split; [lia|].
    rewrite Af, Al. assumption. }
  intros _ m1 W1 D1 S1 F1.
  assert (G' : good_range w m1 first last).
  { split; [assumption|]. split; [assumption|]. unfold max_bits. split; [lia|].
    apply (mapped_dom w m); assumption. }
  assert (Gd : good_dest w m1 f (addr w last - addr w first)).
  { split; [assumption|]. apply (mapped_dom w m); [|assumption]. intros j Hj. apply Hm. lia. }
  destruct (copy_ok p w m1 first last f Hw W1 G' Gd ltac:(lia))
    as (d' & m2 & E2 & _ & _ & W2 & D2 & B2).
  apply (wp_ok _ _ _ _ _ _ E2). rewrite B2. unfold inr.
  destruct (Z.ltb_spec (i + c) e) as [C|C].
  - replace (e - 1 <? addr w f + (addr w last - addr w first)) with false by lia.
    rewrite andb_false_r. rewrite S1 by lia. reflexivity.
  - replace (e - 1 <? addr w f + (addr w last - addr w first)) with true by lia.
    replace (addr w f <=? e - 1) with true by lia. cbn [andb].
    rewrite F1 by lia. f_equal. lia.
Qed.

(** On a storage that does not reach the end, such a computation is out of
    bounds. [X] is the bit it would leave there. *)
Lemma short_words : forall A w ws ext e (X : bool) (c : M A), valid_w w -> words_ok w ws ->
  wf_mem w ext -> Z.of_nat (length ws) * w < e -> framed c ->
  (forall r, words_ok w r -> e <= Z.of_nat (length (ws ++ r)) * w ->
    wp c (vmem (ws ++ r) ext) (fun _ m' => bit w m' (e - 1) = X)) ->
  c (vmem ws ext) = UB OutOfBounds.
Proof.
  intros A w ws ext e X c Hw Hok We Hs F H. pose proof (valid_pos w Hw) as Pw.
  set (r := repeat (if negb X then 2 ^ w - 1 else 0) (Z.to_nat e)).
  assert (Hr : words_ok w r).
  { apply words_ok_repeat. pose proof (pow_pos w ltac:(lia)). destruct (negb X); lia. }
  assert (Le : Z.of_nat (length (ws ++ r)) = Z.of_nat (length ws) + e).
  { unfold r. rewrite app_length, repeat_length. lia. }
  specialize (H r Hr). rewrite Le in H. specialize (H ltac:(nia)).
  assert (D : Z.of_nat (length ws) <= (e - 1) / w) by (apply Z.div_le_lower_bound; nia).
  apply (short_oob _ c _ (vmem (ws ++ r) ext) ((e - 1) / w) F); [apply below_vmem| |].
  - unfold vmem, wsize. destruct (Z.ltb_spec ((e - 1) / w) 0); [lia|].
    destruct (Z.ltb_spec ((e - 1) / w) (Z.of_nat (length ws))); [lia|reflexivity].
  - eapply wp_conseq; [exact H|]. intros a m' B E.
    assert (B' : bit w m' (e - 1) = bit w (vmem (ws ++ r) ext) (e - 1)).
    { unfold bit. rewrite E. reflexivity. }
    unfold r in B'. rewrite bit_back in B' by (rewrite ?Z2Nat.id by lia; nia).
    rewrite B in B'. destruct X; discriminate.
Qed.

Lemma on_words_oob : forall A ws (c : M A), c (vmem ws nomem) = UB OutOfBounds ->
  on_words ws c = UB OutOfBounds.
Proof. intros A ws c E. unfold on_words, on_words_ext. rewrite E. reflexivity. Qed.

Lemma insert_n_exact : forall p w v pos i c b s, valid_w w -> vec_ok w v -> 0 < c ->
  vlen v + c <= max_bits -> new_room w (zlen (vwords v) * w) (vlen v + c) s -> s <= max_bits ->
  valid_it w pos -> addr w pos = i -> 0 <= i <= vlen v ->
  (i < vlen v -> shift_defined p w i (vlen v + c)) ->
  (vlen v + c <= s ->
    exists r v', insert_n p w v pos c b = Ok (r, v') /\ valid_it w r /\ addr w r = i /\
      vec_ok w v' /\ vbits w v' = insert_at i (repeat b (Z.to_nat c)) (vbits w v)) /\
  (s < vlen v + c -> insert_n p w v pos c b = UB OutOfBounds).
Proof.
  intros p w v pos i c b s Hw V Hc Hb Hr Hs Vp Ap Hi Hd. pose proof (valid_pos w Hw) as Pw.
  pose proof V as (V1 & V2 & V3).
  assert (B64 : 0 <= vlen v + c < 2 ^ 64) by (unfold max_bits in *; lia).
  destruct (grow_room w v (vlen v + c) s Hw V B64 Hr Hs) as (ws & Eg & R1 & R2 & R3 & R4).
  split; intros C.
  - assert (H : rwp (insert_n p w v pos c b) (fun r => valid_it w (fst r) /\ addr w (fst r) = i /\
      vec_ok w (snd r) /\ vbits w (snd r) = insert_at i (repeat b (Z.to_nat c)) (vbits w v))).
    { apply insert_n_gen; try assumption; [lia| |auto].
      intros _. exists ws. split; [assumption|]. split; [assumption|]. split; [lia|assumption]. }
    apply rwp_exists in H. destruct H as ([r v'] & E & H). exists r, v'. auto.
  - unfold max_bits in *.
    pose proof (begin_valid w ltac:(lia)) as Vb. pose proof (begin_addr w) as Ab.
    unfold insert_n. rewrite distance_eq by (assumption || lia).
    rewrite Ap, Ab, Z.sub_0_r. cbn [rbind].
    destruct (Z.eqb_spec c 0) as [E|E]; [lia|]. rewrite Eg. cbn [rbind].
    rewrite wrap_small by lia. cbv zeta. rewrite !swrap64_small by lia.
    rewrite on_words_oob; [reflexivity|].
    apply (short_words _ w ws nomem (vlen v + c)
      (if i + c <? vlen v + c then bit w (vmem ws nomem) (vlen v + c - 1 - c) else b));
      [assumption|assumption|apply nomem_wf|lia|repeat fstep|].
    intros r Wr Lr. eapply wp_conseq.
    + apply insert_last_n; [assumption|apply vmem_wf; [apply words_ok_app; assumption|apply nomem_wf]|
        lia|lia|unfold max_bits; lia|apply vmem_mapped; lia|intros; apply Hd; lia].
    + intros [] m' B. cbv beta. rewrite B. destruct (Z.ltb_spec (i + c) (vlen v + c)) as [D|D]; [|reflexivity].
      apply bit_front; lia.
Qed.

Lemma insert_range_exact : forall p w ext v pos i first last s, valid_w w -> vec_ok w v ->
  (forall a, 0 <= a -> ext a = None) ->
  wf_mem w ext -> good_range w ext first last -> addr w last <= 0 ->
  addr w first < addr w last -> vlen v + (addr w last - addr w first) <= max_bits ->
  new_room w (zlen (vwords v) * w) (vlen v + (addr w last - addr w first)) s -> s <= max_bits ->
  valid_it w pos -> addr w pos = i -> 0 <= i <= vlen v ->
  (i < vlen v -> shift_defined p w i (vlen v + (addr w last - addr w first))) ->
  (vlen v + (addr w last - addr w first) <= s ->
    exists r v' ext', insert_range p w ext v pos first last = Ok (r, v', ext') /\
      valid_it w r /\ addr w r = i /\ (forall a, ext' a = ext a) /\ vec_ok w v' /\
      vbits w v' = insert_at i (map (fun k => bit w ext (addr w first + Z.of_nat k))
        (seq 0 (Z.to_nat (addr w last - addr w first)))) (vbits w v)) /\
  (s < vlen v + (addr w last - addr w first) ->
    insert_range p w ext v pos first last = UB OutOfBounds).
Proof.
  intros p w ext v pos i first last s Hw V Hp We G Hneg Hne Hb Hr Hs Vp Ap Hi Hd.
  pose proof (valid_pos w Hw) as Pw.
  pose proof V as (V1 & V2 & V3). pose proof G as (G1 & G2 & G3 & G4).
  set (c := addr w last - addr w first) in *.
  assert (Hc : 0 < c) by (unfold c; lia).
  assert (B64 : 0 <= vlen v + c < 2 ^ 64) by (unfold max_bits in *; lia).
  destruct (grow_room w v (vlen v + c) s Hw V B64 Hr Hs) as (ws & Eg & R1 & R2 & R3 & R4).
  split; intros C.
  - pose proof (insert_range_gen p w ext v pos i first last Hw V Hp We G Hneg) as H.
    fold c in H. assert (Gw : addr w first < addr w last -> grown w v (vlen v + c)).
    { intros _. exists ws. split; [assumption|]. split; [assumption|]. split; [lia|assumption]. }
    specialize (H Gw Vp Ap Hi ltac:(auto)).
    apply rwp_exists in H. destruct H as ([[r v'] ext'] & E & H). exists r, v', ext'. auto.
  - unfold max_bits in *.
    pose proof (begin_valid w ltac:(lia)) as Vb. pose proof (begin_addr w) as Ab.
    unfold insert_range. rewrite distance_eq by (assumption || lia).
    rewrite Ap, Ab, Z.sub_0_r. cbn [rbind].
    rewrite distance_eq by (assumption || lia). fold c. cbn [rbind]. cbv zeta.
    rewrite (wrap_small 64 c) by lia.
    destruct (Z.eqb_spec c 0) as [E|E]; [lia|]. rewrite Eg. cbn [rbind].
    rewrite wrap_small by lia. cbv zeta. rewrite !swrap64_small by lia.
    unfold on_words_ext.
    assert (Neg : forall j, j < 0 -> j / w < 0) by (intros j Hj; apply Z.div_lt_upper_bound; lia).
    assert (Ext : forall l a, a < 0 -> vmem l ext a = ext a).
    { intros l a Ha. unfold vmem. destruct (Z.ltb_spec a 0); [reflexivity|lia]. }
    rewrite (short_words _ w ws ext (vlen v + c)
      (if i + c <? vlen v + c then bit w (vmem ws ext) (vlen v + c - 1 - c)
       else bit w ext (addr w last - 1)));
      [reflexivity|assumption|assumption|assumption|lia|repeat fstep|].
    intros r Wr Lr. eapply wp_conseq.
    + apply (insert_last_range p w _ i c (vlen v + c) first last);
        [assumption|apply vmem_wf; [apply words_ok_app; assumption|assumption]|
        lia|lia|unfold max_bits; lia|apply vmem_mapped; lia|intros; apply Hd; lia| |assumption|reflexivity].
      split; [assumption|]. split; [assumption|]. unfold max_bits. split; [fold c; lia|].
      intros j Hj. rewrite Ext by (apply Neg; lia). apply G4, Hj.
    + intros x m' B. cbv beta. rewrite B. destruct (Z.ltb_spec (i + c) (vlen v + c)) as [D|D].
      * apply bit_front; lia.
      * unfold bit. rewrite Ext by (apply Neg; lia). reflexivity.
Qed.

Lemma insert_n_undefined : forall p w v pos i c b, valid_w w -> vec_ok w v -> 0 < c ->
  vlen v + c <= max_bits -> too_much_room (zlen (vwords v) * w) (vlen v + c) ->
  valid_it w pos -> addr w pos = i -> 0 <= i <= vlen v ->
  insert_n p w v pos c b = UB BadUse.
Proof.
  intros p w v pos i c b Hw V Hc Hb Hr Vp Ap Hi. pose proof (valid_pos w Hw) as Pw.
  pose proof V as (V1 & V2 & V3). unfold max_bits in *.
  pose proof (begin_valid w ltac:(lia)) as Vb. pose proof (begin_addr w) as Ab.
  unfold insert_n. rewrite distance_eq by (assumption || lia).
  rewrite Ap, Ab, Z.sub_0_r. cbn [rbind]. destruct (Z.eqb_spec c 0) as [E|E]; [lia|].
  rewrite (grow_undefined w v (vlen v + c) Hw V ltac:(lia) Hr). reflexivity.
Qed.

Lemma insert_range_undefined : forall p w ext v pos i first last, valid_w w -> vec_ok w v ->
  valid_it w first -> valid_it w last -> addr w first < addr w last ->
  vlen v + (addr w last - addr w first) <= max_bits ->
  too_much_room (zlen (vwords v) * w) (vlen v + (addr w last - addr w first)) ->
  valid_it w pos -> addr w pos = i -> 0 <= i <= vlen v ->
  insert_range p w ext v pos first last = UB BadUse.
Proof.
  intros p w ext v pos i first last Hw V G1 G2 Hne Hb Hr Vp Ap Hi. pose proof (valid_pos w Hw) as Pw.
  pose proof V as (V1 & V2 & V3). unfold max_bits in *.
  pose proof (begin_valid w ltac:(lia)) as Vb. pose proof (begin_addr w) as Ab.
  unfold insert_range. rewrite distance_eq by (assumption || lia).
  rewrite Ap, Ab, Z.sub_0_r. cbn [rbind]. rewrite distance_eq by (assumption || lia). cbn [rbind]. cbv zeta.
  set (c := addr w last - addr w first) in *.
  rewrite (wrap_small 64 c) by lia. destruct (Z.eqb_spec c 0) as [E|E]; [lia|].
  rewrite (grow_undefined w v (vlen v + c) Hw V ltac:(lia) Hr). reflexivity.
Qed.

Lemma room_decided : forall w cap n, valid_w w -> 0 <= cap -> (w | cap) -> 0 <= n ->
  (exists s, new_room w cap n s /\ forall s', new_room w cap n s' -> s' = s) \/
  too_much_room cap n.
Proof.
  intros w cap n Hw Hc (d & ->) Hn. pose proof (valid_pos w Hw) as Pw.
  pose proof (rounds_exists (d * w) Hc) as Ra. pose proof (rounds_exists n Hn) as Rt.
  destruct (Z.leb_spec (to_float n) (to_float (d * w))) as [C|C].
  - left. exists (d * w). split; [exists (to_float (d * w)), (to_float n); auto|].
    intros s' (a & t & Ra' & Rt' & H). apply rounds_unique in Ra', Rt'; [|lia..].
    destruct H as [(_ & E)|(H & _)]; [exact E|lia].
  - pose proof (rounds_exists (to_float n - to_float (d * w)) ltac:(lia)) as Rx.
    set (x := to_float (to_float n - to_float (d * w))) in *.
    destruct (Z.ltb_spec x (2 ^ 32)) as [D|D].
    + left. pose proof (to_float_nonneg (to_float n - to_float (d * w)) ltac:(lia)) as Hx.
      fold x in Hx. pose proof (word_count_ok w x Hw ltac:(lia)) as Wc.
      exists (d * w + word_count w x * w). split.
      * exists (to_float (d * w)), (to_float n). split; [exact Ra|]. split; [exact Rt|]. right.
        split; [lia|]. exists x. split; [exact Rx|]. split; [exact D|].
        split; [exists (d + word_count w x); ring|lia].
      * intros s' (a & t & Ra' & Rt' & H). apply rounds_unique in Ra', Rt'; [|lia..]. subst a t.
        destruct H as [(H & _)|(_ & y & Ry & _ & (k & ->) & Hk)]; [lia|].
        apply rounds_unique in Ry; [|lia]. fold x in Ry. subst y.
        assert (k = d + word_count w x) by nia. nia.
    + right. exists (to_float (d * w)), (to_float n), x. auto.
Qed.
