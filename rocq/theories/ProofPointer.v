(** Proofs about bit_pointer (bit_pointer.hpp) and the stream operators
    (bit_value.hpp, bit_reference.hpp). *)
From Coq Require Import ZArith Bool List Lia.
From Coq Require Import ZifyBool.
From Verif Require Import Base WordOps IterModel RefModel Spec SpecRef
  ProofBase ProofIter ProofWord ProofCnt ProofRef ProofReference.
Import ListNotations.
Open Scope Z_scope.
Ltac Zify.zify_post_hook ::= idtac.

Lemma mk_ptr_ok : forall p w a q, valid_w w -> 0 <= q < w ->
  mk_ptr p w a q = Ok (Ptr (Some a) (2 ^ q)).
Proof. intros p w a q Hw Hq. unfold mk_ptr. rewrite mk_ref_eq by assumption. reflexivity. Qed.

Lemma mk_ptr_points : forall p w a q, valid_w w -> 0 <= q < w ->
  exists x, mk_ptr p w a q = Ok x /\ points_to w x (a * w + q).
Proof.
  intros p w a q Hw Hq. rewrite mk_ptr_ok by assumption. eexists. split; [reflexivity|].
  exists a, q. auto.
Qed.

Lemma ptr_step : forall w (s : Z), valid_w w -> - 2 ^ 63 <= s < 2 ^ 63 ->
  let d := floor_diff w s in let q' := wrap 64 (s - d * w) in
  0 <= q' < w /\ d * w + q' = s.
Proof.
  intros w s Hw Hs d q'. pose proof (valid_pos w Hw).
  unfold q', d. rewrite floor_diff_div by assumption.
  pose proof (Z.div_mod s w ltac:(lia)). pose proof (Z.mod_pos_bound s w ltac:(lia)).
  replace (s - s / w * w) with (s mod w) by lia. rewrite wrap_small by lia. lia.
Qed.

Lemma padd_ok : forall p w x i n, valid_w w -> points_to w x i ->
  - 2 ^ 63 <= i mod w + n < 2 ^ 63 ->
  exists y, padd p w x n = Ok y /\ points_to w y (i + n).
Proof.
  intros p w x i n Hw (a & q & Hq & -> & ->) Hn. pose proof (valid_pos w Hw).
  rewrite (Z.add_comm (a * w)), Z_mod_plus_full, Z.mod_small in Hn by lia.
  unfold padd. cbn [pp]. unfold ptr_pos. cbn [pmask]. rewrite tzcnt_pow2 by assumption.
  rewrite swrap64_small by lia.
  destruct (ptr_step w (q + n) Hw Hn) as (H1 & H2).
  set (d := floor_diff w (q + n)) in *. set (q' := wrap 64 (q + n - d * w)) in *.
  clearbody d q'. rewrite mk_ptr_ok by assumption. eexists. split; [reflexivity|].
  exists (a + d), q'. split; [assumption|]. split; [reflexivity|]. lia.
Qed.

Lemma psub_ok : forall p w x i n, valid_w w -> points_to w x i ->
  - 2 ^ 63 <= i mod w - n < 2 ^ 63 ->
  exists y, psub p w x n = Ok y /\ points_to w y (i - n).
Proof.
  intros p w x i n Hw (a & q & Hq & -> & ->) Hn. pose proof (valid_pos w Hw).
  rewrite (Z.add_comm (a * w)), Z_mod_plus_full, Z.mod_small in Hn by lia.
  unfold psub. cbn [pp]. unfold ptr_pos. cbn [pmask]. rewrite tzcnt_pow2 by assumption.
  rewrite swrap64_small by lia.
  destruct (ptr_step w (q - n) Hw Hn) as (H1 & H2).
  set (d := floor_diff w (q - n)) in *. set (q' := wrap 64 (q - n - d * w)) in *.
  clearbody d q'. rewrite mk_ptr_ok by assumption. eexists. split; [reflexivity|].
  exists (a + d), q'. split; [assumption|]. split; [reflexivity|]. lia.
Qed.

Lemma pindex_ok : forall p w x i n, valid_w w -> points_to w x i ->
  - 2 ^ 63 <= i mod w + n < 2 ^ 63 ->
  exists r, pindex p w x n = Ok r /\ refers_to w r (i + n).
Proof.
  intros p w x i n Hw (a & q & Hq & -> & ->) Hn. pose proof (valid_pos w Hw).
  rewrite (Z.add_comm (a * w)), Z_mod_plus_full, Z.mod_small in Hn by lia.
  unfold pindex. cbn [pp]. unfold ptr_pos. cbn [pmask]. rewrite tzcnt_pow2 by assumption.
  rewrite swrap64_small by lia.
  destruct (ptr_step w (q + n) Hw Hn) as (H1 & H2).
  set (d := floor_diff w (q + n)) in *. set (q' := wrap 64 (q + n - d * w)) in *.
  clearbody d q'. rewrite mk_ref_eq by assumption. eexists. split; [reflexivity|].
  exists (a + d), q'. split; [assumption|]. split; [reflexivity|]. lia.
Qed.

Lemma pinc_ok : forall w x i, valid_w w -> points_to w x i ->
  exists y, pinc w x = Ok y /\ points_to w y (i + 1).
Proof.
  intros w x i Hw (a & q & Hq & -> & ->). pose proof (valid_pos w Hw).
  unfold pinc. cbn [pp]. unfold ptr_pos. cbn [pmask]. rewrite tzcnt_pow2 by assumption.
  destruct (Z.ltb_spec (q + 1) w); eexists; (split; [reflexivity|]).
  - exists a, (q + 1). split; [lia|]. split; [|lia]. f_equal.
    rewrite Z.shiftl_mul_pow2, <- Z.pow_add_r by lia. apply wrap_small, pow2_range. lia.
  - exists (a + 1), 0. split; [lia|]. split; [reflexivity|]. lia.
Qed.

Lemma pdec_ok : forall w x i, valid_w w -> points_to w x i ->
  exists y, pdec w x = Ok y /\ points_to w y (i - 1).
Proof.
  intros w x i Hw (a & q & Hq & -> & ->). pose proof (valid_pos w Hw).
  unfold pdec. cbn [pp]. unfold ptr_pos. cbn [pmask]. rewrite tzcnt_pow2 by assumption.
  destruct (Z.eqb_spec q 0) as [C|C]; eexists; (split; [reflexivity|]).
  - exists (a - 1), (w - 1). split; [lia|]. split; [|lia]. f_equal.
    rewrite Z.shiftl_1_l. apply wrap_small, pow2_range. lia.
  - exists a, (q - 1). split; [lia|]. split; [|lia]. f_equal.
    rewrite Z.shiftr_div_pow2 by lia. replace q with (q - 1 + 1) at 1 by lia.
    rewrite Z.pow_add_r, Z.div_mul by lia. reflexivity.
Qed.

Lemma pdiff_ok : forall w x y i j, valid_w w -> points_to w x i -> points_to w y j ->
  - 2 ^ 63 + w <= i - j < 2 ^ 63 - w -> pdiff w x y = Ok (i - j).
Proof.
  intros w x y i j Hw (a & q & Hq & -> & ->) (b & r & Hr & -> & ->) Hd.
  unfold pdiff, ptr_pos. cbn [pp pmask]. rewrite !tzcnt_pow2 by assumption.
  unfold in_int64. destruct (Z.leb_spec (- 2 ^ 63) ((a - b) * w)); [|lia].
  destruct (Z.ltb_spec ((a - b) * w) (2 ^ 63)); [|lia].
  cbn [andb]. rewrite swrap64_small by lia. f_equal. lia.
Qed.

Lemma pcmp_ok : forall w x y i j, valid_w w -> points_to w x i -> points_to w y j ->
  peq w x y = (i =? j) /\ pne w x y = negb (i =? j) /\
  plt w x y = Ok (i <? j) /\ ple w x y = Ok (i <=? j) /\
  pgt w x y = Ok (j <? i) /\ pge w x y = Ok (j <=? i).
Proof.
  intros w x y i j Hw (a & q & Hq & -> & ->) (b & r & Hr & -> & ->).
  unfold peq, pne, plt, ple, pgt, pge, ptr_pos. cbn [pp pmask].
  rewrite !tzcnt_pow2 by assumption.
  assert (H : a < b -> a * w + q < b * w + r) by nia.
  assert (H' : b < a -> b * w + r < a * w + q) by nia.
  destruct (Z.lt_trichotomy a b) as [C|[C|C]].
  - specialize (H C). repeat split; try f_equal; lia.
  - subst b. clear H H'. repeat split; try f_equal; lia.
  - specialize (H' C). repeat split; try f_equal; lia.
Qed.

Lemma ptr_deref_ok : forall p w r i, valid_w w -> refers_to w r i ->
  exists x, ref_addr p w r = Ok x /\ points_to w x i /\ ptr_deref x = Ok r.
Proof.
  intros p w r i Hw (a & q & Hq & -> & ->). unfold ref_addr, ref_position. cbn [rptr rmask].
  rewrite tzcnt_pow2, mk_ptr_ok by assumption. eexists. split; [reflexivity|].
  split; [exists a, q; auto|reflexivity].
Qed.

Lemma ptr_bool_ok : forall w x i, points_to w x i -> ptr_bool x = true /\ ptr_bool ptr_null = false.
Proof. intros w x i (a & q & Hq & -> & ->). split; reflexivity. Qed.

(** ** Laws *)

Lemma pinc_pdec : forall w x i, valid_w w -> points_to w x i ->
  (exists y, pinc w x = Ok y /\ pdec w y = Ok x) /\
  (exists y, pdec w x = Ok y /\ pinc w y = Ok x).
Proof.
  intros w x i Hw Hx.
  assert (U : forall y z j, points_to w y j -> points_to w z j -> y = z).
  { intros y z j (a & q & Hq & -> & ->) (b & r & Hr & -> & E).
    destruct (refers_inj w a q b r Hq Hr E) as [-> ->]. reflexivity. }
  split.
  - destruct (pinc_ok w x i Hw Hx) as (y & E & Hy). exists y. split; [exact E|].
    destruct (pdec_ok w y (i + 1) Hw Hy) as (z & E' & Hz). rewrite E'. f_equal.
    apply (U _ _ i); [|exact Hx]. replace (i + 1 - 1) with i in Hz by lia. exact Hz.
  - destruct (pdec_ok w x i Hw Hx) as (y & E & Hy). exists y. split; [exact E|].
    destruct (pinc_ok w y (i - 1) Hw Hy) as (z & E' & Hz). rewrite E'. f_equal.
    apply (U _ _ i); [|exact Hx]. replace (i - 1 + 1) with i in Hz by lia. exact Hz.
Qed.

(** ** Streams *)

Lemma skip_white : forall l, skip_spaces l = drop_white l.
Proof.
  induction l as [|c l IH]; [reflexivity|]. cbn [skip_spaces drop_white]. rewrite IH.
  replace (existsb (Z.eqb c) white) with (is_space c); [reflexivity|].
  unfold is_space, white. cbn [existsb].
  destruct (Z.leb_spec 9 c), (Z.leb_spec c 13); cbn [andb]; lia.
Qed.

Lemma extract_char : forall s x c l, good_stream s -> pending s = c :: l ->
  extract s x =
    if c =? 48 then (false, Is l false false false (skipws s))
    else if c =? 49 then (true, Is l false false false (skipws s))
    else (x, Is (c :: l) false true false (skipws s)).
Proof.
  intros [ch e f b k] x c l (H1 & H2 & H3) Hp. cbn in H1, H2, H3. subst.
  unfold pending in Hp. cbn [skipws chars] in Hp. rewrite <- skip_white in Hp.
  unfold extract, sentry. cbn [eofb failb badb skipws chars orb].
  destruct k.
  - rewrite Hp. cbn [chars eofb failb badb skipws]. reflexivity.
  - rewrite Hp. cbn [chars eofb failb badb skipws]. reflexivity.
Qed.

Lemma extract_end : forall s x, good_stream s -> pending s = [] ->
  extract s x = (x, Is [] true true false (skipws s)).
Proof.
  intros [ch e f b k] x (H1 & H2 & H3) Hp. cbn in H1, H2, H3. subst.
  unfold pending in Hp. cbn [skipws chars] in Hp. rewrite <- skip_white in Hp.
  unfold extract, sentry. cbn [eofb failb badb skipws chars orb].
  destruct k; rewrite Hp; reflexivity.
Qed.

Lemma extract_bad : forall s x, eofb s = true \/ failb s = true \/ badb s = true ->
  extract s x = (x, Is (chars s) (eofb s) true (badb s) (skipws s)).
Proof.
  intros [ch e f b k] x H. unfold extract, sentry. cbn [eofb failb badb skipws chars] in *.
  replace (e || f || b)%bool with true; [reflexivity|].
  destruct H as [H|[H|H]]; rewrite H; rewrite ?orb_true_r; reflexivity.
Qed.

Lemma extract_many_ok : forall l rest k,
  extract_many (length l) (Is (map insert_char l ++ rest) false false false k)
  = (l, Is rest false false false k).
Proof.
  intros l rest k. induction l as [|b l IH]; [reflexivity|].
  cbn [length map app extract_many].
  set (s := Is (insert_char b :: map insert_char l ++ rest) false false false k).
  rewrite (extract_char s false (insert_char b) (map insert_char l ++ rest)).
  - subst s. cbn [skipws]. destruct b; cbn [insert_char Z.eqb Pos.eqb]; rewrite IH; reflexivity.
  - repeat split.
  - unfold pending, s. cbn [skipws chars]. destruct k; [|reflexivity].
    destruct b; reflexivity.
Qed.

Lemma extract_ref_ok : forall w m r i s, valid_w w -> wf_mem w m -> refers_to w r i ->
  mapped w m i (i + 1) ->
  exists m', extract_ref w s r m = Ok (snd (extract s (bit w m i)), m') /\
    updated w m m' i (i + 1) (fun _ => fst (extract s (bit w m i))).
Proof.
  intros w m r i s Hw Hwf Hr Hm.
  assert (H : wp (extract_ref w s r) m (fun s' m' => s' = snd (extract s (bit w m i)) /\
    updated w m m' i (i + 1) (fun _ => fst (extract s (bit w m i))))).
  { unfold extract_ref, extract. apply wp_bind. unfold wp at 1.
    rewrite (ref_get_ok w m r i) by assumption.
    assert (Hid : updated w m m i (i + 1) (fun _ => bit w m i)).
    { apply updated_refl; [assumption|]. intros j Hj. f_equal. lia. }
    destruct (sentry s) as [ok s1]. destruct ok; [|apply wp_ret; cbn; auto].
    destruct (chars s1) as [|c l]; [apply wp_ret; cbn; auto|].
    destruct (ref_assign_ok Strict17 w m r i r i false 0 0) as (W0 & _); try assumption.
    { pose proof (valid_pos w Hw). lia. }
    destruct (ref_assign_ok Strict17 w m r i r i true 0 0) as (W1 & _); try assumption.
    { pose proof (valid_pos w Hw). lia. }
    destruct W0 as (m0 & E0 & U0). destruct W1 as (m1 & E1 & U1).
    destruct (c =? 48).
    - apply wp_bind. unfold wp at 1. rewrite E0. apply wp_ret. cbn. auto.
    - destruct (c =? 49).
      + apply wp_bind. unfold wp at 1. rewrite E1. apply wp_ret. cbn. auto.
      + apply wp_ret. cbn. auto. }
  unfold wp in H. destruct (extract_ref w s r m) as [[s' m']| | | |]; try contradiction.
  destruct H as [-> H]. exists m'. split; [reflexivity|exact H].
Qed.

(** ** Conjunctions stated in Properties_Ref.v *)

Lemma val_all : forall p w v n (l r : bool), valid_w w -> 0 <= n < w ->
  val_of_word p w v n = Ok (Z.testbit v n) /\
  val_not l = negb l /\ val_and l r = (l && r)%bool /\
  val_or l r = (l || r)%bool /\ val_xor l r = xorb l r /\
  val_and_assign l r = (l && r)%bool /\ val_or_assign l r = (l || r)%bool /\
  val_xor_assign l r = xorb l r.
Proof.
  intros. split; [apply val_of_word_ok; assumption|apply val_ops].
Qed.

Lemma ptr_offset : forall p w x i n, valid_w w -> points_to w x i ->
  - 2 ^ 63 <= i mod w + n < 2 ^ 63 -> - 2 ^ 63 <= i mod w - n < 2 ^ 63 ->
  (exists y, padd p w x n = Ok y /\ points_to w y (i + n)) /\
  (exists y, psub p w x n = Ok y /\ points_to w y (i - n)) /\
  (exists r, pindex p w x n = Ok r /\ refers_to w r (i + n)).
Proof.
  intros. split; [apply padd_ok; assumption|].
  split; [apply psub_ok; assumption|apply pindex_ok; assumption].
Qed.

Lemma ptr_step_ok : forall w x i, valid_w w -> points_to w x i ->
  (exists y, pinc w x = Ok y /\ points_to w y (i + 1) /\ pdec w y = Ok x) /\
  (exists y, pdec w x = Ok y /\ points_to w y (i - 1) /\ pinc w y = Ok x).
Proof.
  intros w x i Hw Hx. destruct (pinc_pdec w x i Hw Hx) as [(y & E1 & E2) (z & E3 & E4)].
  destruct (pinc_ok w x i Hw Hx) as (y' & E5 & H5).
  destruct (pdec_ok w x i Hw Hx) as (z' & E6 & H6).
  split; [exists y|exists z]; split; try assumption; split; try assumption; congruence.
Qed.

Lemma ptr_compare : forall w x y i j,
  valid_w w -> points_to w x i -> points_to w y j ->
  (- 2 ^ 63 + w <= i - j < 2 ^ 63 - w -> pdiff w x y = Ok (i - j)) /\
  peq w x y = (i =? j) /\ pne w x y = negb (i =? j) /\
  plt w x y = Ok (i <? j) /\ ple w x y = Ok (i <=? j) /\
  pgt w x y = Ok (j <? i) /\ pge w x y = Ok (j <=? i).
Proof.
  intros w x y i j Hw Hx Hy. split; [apply pdiff_ok; assumption|apply pcmp_ok; assumption].
Qed.

Lemma ptr_address : forall p w r i, valid_w w -> refers_to w r i ->
  exists x, ref_addr p w r = Ok x /\ points_to w x i /\ ptr_deref x = Ok r /\
    ptr_bool x = true /\ ptr_bool ptr_null = false.
Proof.
  intros p w r i Hw Hr. destruct (ptr_deref_ok p w r i Hw Hr) as (x & H1 & H2 & H3).
  exists x. repeat (split; [assumption|]). apply (ptr_bool_ok w x i). exact H2.
Qed.

Lemma extract_stop : forall s x,
  (good_stream s -> pending s = [] ->
     extract s x = (x, Is [] true true false (skipws s))) /\
  (eofb s = true \/ failb s = true \/ badb s = true ->
     extract s x = (x, Is (chars s) (eofb s) true (badb s) (skipws s))).
Proof. intros s x. split; [apply extract_end|apply extract_bad]. Qed.

Lemma null_pointer : forall w x i, valid_w w -> points_to w x i ->
  forall y, y = ptr_null \/ y = ptr_aligned None ->
  ptr_bool y = false /\ peq w y y = true /\ pne w y y = false /\
  peq w x y = false /\ peq w y x = false /\ pne w x y = true /\ pne w y x = true.
Proof.
  intros w x i Vw (a & q & Hq & -> & ->) y [-> | ->];
    unfold ptr_bool, peq, pne, ptr_null, ptr_aligned; cbn [pp]; rewrite Z.eqb_refl;
    repeat split.
Qed.
