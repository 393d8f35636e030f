(** Proofs about get_word and write_word across word types. *)
From Coq Require Import ZArith Bool List Lia.
From Coq Require Import ZifyBool.
From Verif Require Import Base WordOps IterModel PopcntModel AlgModel SwapModel MixedModel Spec
  ProofBase ProofIter ProofWord.
Open Scope Z_scope.
Ltac Zify.zify_post_hook ::= idtac.

Lemma wrap_byte : forall t x, valid_w t -> 0 <= x < 256 -> wrap t x = x.
Proof.
  intros t x Ht Hx. apply wrap_small. split; [lia|].
  assert (2 ^ 8 <= 2 ^ t) by (apply Z.pow_le_mono_r; [lia|]; pose proof (valid_pos t Ht); lia).
  change (2 ^ 8) with 256 in H. lia.
Qed.

Lemma wp_get_word_loop : forall p t w m A total fuel r it off len (Q : Z -> mem -> Prop),
  valid_w t -> valid_w w -> wf_mem w m -> 0 < off < t -> 1 <= len ->
  off + len = total -> total <= t -> (Z.to_nat len <= fuel)%nat ->
  it * w = A + off -> mapped w m A (A + total) -> 0 <= r < 2 ^ t ->
  (forall k, 0 <= k < off -> Z.testbit r k = bit w m (A + k)) ->
  (forall v, 0 <= v < 2 ^ t ->
     (forall k, 0 <= k < total -> Z.testbit v k = bit w m (A + k)) -> Q v m) ->
  wp (get_word_loop p t w fuel r it off len) m Q.
Proof.
  intros p t w m A total fuel. induction fuel as [|f IH];
    intros r it off len Q Ht Hw Hwf Hoff Hlen Htot Hmax Hfu Hit Hm Hr Hbits HQ;
    pose proof (valid_pos w Hw) as Hwp; pose proof (valid_pos t Ht) as Htp;
    pose proof (prom_ge t Ht) as Hpr; [lia|].
  cbn [get_word_loop].
  assert (Hma : m it <> None).
  { apply (mapped_word w m A (A + total)); try assumption; lia. }
  destruct (Z.ltb_spec w len) as [C|C].
  - apply wp_bind, (wp_load w); try assumption; [lia|]. intros y Hy Hby.
    wpl. apply rwp_cshl; try assumption; try lia; [apply wrap_range; lia|]. intros s Hs.
    wpl. apply rwp_bitblend; try assumption; try lia; try (apply wrap_range; lia).
    intros v Hv Hvb.
    rewrite wrap_byte by (assumption || lia).
    apply IH; try assumption; try lia.
    intros k Hk. rewrite Hvb by lia. bsplit; [|apply Hbits; lia].
    rewrite (shl_testbit t s (wrap t y) off) by (assumption || lia).
    rewrite wrap_testbit by lia.
    destruct (Z.ltb_spec (k - off) t) as [C2|C2]; [|lia]. cbn [andb].
    rewrite Hby by lia. f_equal. lia.
  - apply wp_bind, (wp_load w); try assumption; [lia|]. intros y Hy Hby.
    wpl. apply rwp_cshl; try assumption; try lia; [apply wrap_range; lia|]. intros s Hs.
    apply wp_lift. apply rwp_bitblend; try assumption; try lia; try (apply wrap_range; lia).
    intros v Hv Hvb. apply HQ; [assumption|].
    intros k Hk. rewrite Hvb by lia. bsplit; [|apply Hbits; lia].
    rewrite (shl_testbit t s (wrap t y) off) by (assumption || lia).
    rewrite wrap_testbit by lia.
    destruct (Z.ltb_spec (k - off) t) as [C2|C2]; [|lia]. cbn [andb].
    rewrite Hby by lia. f_equal. lia.
Qed.

Lemma get_word_as_ok : forall nd p t w m first len,
  valid_w t -> valid_w w -> wf_mem w m -> valid_it w first -> 1 <= len <= t ->
  (nd = true \/ len <= w) ->
  mapped w m (addr w first) (addr w first + len) ->
  exists v, get_word_as nd p t w first len m = Ok (v, m) /\ 0 <= v < 2 ^ t /\
    forall k, 0 <= k < len -> Z.testbit v k = bit w m (addr w first + k).
Proof.
  intros nd p t w m first len Ht Hw Hwf Hv Hl Hnd Hm.
  pose proof (valid_pos w Hw) as Hwp. pose proof (valid_pos t Ht) as Htp.
  pose proof (prom_ge w Hw) as Hpr. unfold valid_it in Hv.
  assert (H : wp (get_word_as nd p t w first len) m (fun v m' => m' = m /\ 0 <= v < 2 ^ t /\
    forall k, 0 <= k < len -> Z.testbit v k = bit w m (addr w first + k))).
  2: { destruct (wp_exists _ _ _ _ H) as (v & m' & E & -> & R). exists v. split; assumption. }
  unfold get_word_as. rewrite wrap_byte by (assumption || lia).
  destruct (negb nd && (w <? len)) eqn:E.
  { exfalso. apply andb_true_iff in E as (E1 & E2). apply Z.ltb_lt in E2.
    destruct Hnd as [->|Hnd]; [discriminate|lia]. }
  apply wp_bind, (wp_load w); try assumption; [lia| |].
  { apply (mapped_word w m (addr w first) (addr w first + len)); try assumption; unfold addr; lia. }
  intros x Hx Hbx. wpl. apply rwp_cshr; [lia|].
  assert (Hlow : forall k, 0 <= k < t -> k < w - ip first ->
    Z.testbit (wrap t (Z.shiftr x (ip first))) k = bit w m (addr w first + k)).
  { intros k Hk Hkw. rewrite shr_testbit by lia. unfold addr. rewrite Hbx by lia. f_equal. lia. }
  destruct (Z.leb_spec len (w - ip first)) as [C|C].
  - apply wp_ret. split; [reflexivity|]. split; [apply wrap_range; lia|].
    intros k Hk. apply Hlow; lia.
  - rewrite usub_small by lia.
    apply (wp_get_word_loop p t w m (addr w first) len); try assumption; try lia.
    + unfold addr. lia.
    + apply wrap_range. lia.
    + intros k Hk. apply Hlow; lia.
    + intros v Hvr Hvb. split; [reflexivity|]. split; assumption.
Qed.

Lemma get_word_as_assert : forall p t w m first len, w < len ->
  get_word_as false p t w first len m = Assert.
Proof.
  intros p t w m first len H. unfold get_word_as.
  destruct (Z.ltb_spec w len) as [C|C]; [reflexivity|lia].
Qed.

Lemma write_word_as_ok : forall p s w m src dst len,
  valid_w s -> valid_w w -> s < w -> wf_mem w m -> valid_it w dst ->
  1 <= len -> ip dst + len <= s -> (len < s \/ full_blend_defined p s) ->
  0 <= src < 2 ^ s -> m (ib dst) <> None ->
  exists m', write_word_as p s w src dst len m = Ok (tt, m') /\
    updated w m m' (ib dst * w) (ib dst * w + w)
      (fun i => if inr (addr w dst) (addr w dst + len) i then Z.testbit src (i - addr w dst)
                else (i <? ib dst * w + s) && bit w m i).
Proof.
  intros p s w m src dst len Hs Hw Hsw Hwf Hv Hl Hfit Hfull Hsrc Hma.
  pose proof (valid_pos w Hw) as Hwp. pose proof (valid_pos s Hs) as Hsp.
  pose proof (prom_ge s Hs) as Hpr. unfold valid_it in Hv.
  assert (Hle : 2 ^ s <= 2 ^ w) by (apply Z.pow_le_mono_r; lia).
  assert (H : wp (write_word_as p s w src dst len) m (fun _ m' =>
    updated w m m' (ib dst * w) (ib dst * w + w)
      (fun i => if inr (addr w dst) (addr w dst + len) i then Z.testbit src (i - addr w dst)
                else (i <? ib dst * w + s) && bit w m i))).
  2: { destruct (wp_exists _ _ _ _ H) as ([] & m' & E & R). exists m'. split; assumption. }
  unfold write_word_as.
  destruct ((ip dst =? 0) && (len =? w)) eqn:E.
  { exfalso. apply andb_true_iff in E as (E1 & E2). apply Z.eqb_eq in E2. lia. }
  apply wp_bind, (wp_load w); try assumption; [lia|]. intros x Hx Hbx.
  wpl. apply rwp_cshl; try assumption; try lia. intros c Hc.
  wpl. rewrite (wrap_byte s (ip dst)), (wrap_byte s (w - ip dst)) by (assumption || lia).
  rewrite Z.min_r by lia.
  apply rwp_bitblend; try assumption; try lia; try (apply wrap_range; lia).
  intros v Hvr Hvb. apply wp_bind, (wp_store w); try assumption; try lia.
  intros m1 W1 D1 B1.
  destruct (Z.ltb_spec (w - ip dst) len) as [C|C]; [lia|].
  apply wp_ret. split; [exact W1|]. split; [exact D1|].
  intros i. rewrite B1. destruct (inr (ib dst * w) (ib dst * w + w) i) eqn:Ei; [|reflexivity].
  unfold inr in Ei. apply andb_true_iff in Ei as (Ei1 & Ei2).
  apply Z.leb_le in Ei1. apply Z.ltb_lt in Ei2.
  destruct (Z.ltb_spec (i - ib dst * w) s) as [C3|C3].
  - rewrite Hvb by lia. unfold addr. bsplit.
    + rewrite (shl_testbit s c src (ip dst)) by (assumption || lia). f_equal. lia.
    + rewrite wrap_testbit by lia. bsplit. rewrite Hbx by lia. reflexivity.
    + rewrite wrap_testbit by lia. bsplit. rewrite Hbx by lia. reflexivity.
  - unfold addr. bsplit. rewrite (testbit_high s) by lia. reflexivity.
Qed.

(** _bitblend on a machine, for every start and every length up to the width. *)
Lemma rwp_bitblend_any : forall o s x y st l (Q : Z -> Prop), valid_w s ->
  0 <= x < 2 ^ s -> 0 <= y < 2 ^ s -> 0 <= st -> 0 <= l <= s ->
  (forall v, 0 <= v < 2 ^ s ->
    (forall k, 0 <= k < s -> Z.testbit v k =
       if inr st (st + l) k then Z.testbit y k else Z.testbit x k) -> Q v) ->
  rwp (bitblend (Hw o) s x y st l) Q.
Proof.
  intros o s x y st l Q Hs Hx Hy Hst Hl HQ.
  pose proof (valid_pos s Hs) as Hsp.
  assert (H1 : exists s1, cshl (Hw o) s 1 l = Ok s1 /\ (l < s -> s1 = 2 ^ l)).
  { destruct (Z.ltb_spec l s) as [C|C].
    - exists (2 ^ l). split; [apply cshl_one; assumption || lia|reflexivity].
    - unfold cshl. destruct ((0 <=? l) && (l <? prom s)), (s <? 32);
        (eexists; split; [reflexivity|lia]). }
  destruct H1 as (s1 & E1 & E1').
  set (f := arith s (s1 * b2z (l <? s) - 1)).
  assert (H2 : exists s2, cshl (Hw o) s f st = Ok s2 /\
    (st < s -> wrap s s2 = wrap s (Z.shiftl f st))).
  { unfold cshl. destruct (Z.leb_spec 0 st) as [C1|C1]; [|lia].
    pose proof (prom_ge s Hs) as Hpr.
    destruct (Z.ltb_spec st (prom s)) as [C2|C2]; cbn [andb]; destruct (s <? 32);
      (eexists; split; [reflexivity|]); intros Hc; try lia; try reflexivity.
    apply wrap_wrap. lia. }
  destruct H2 as (s2 & E2 & E2').
  unfold bitblend. rewrite E1. cbn [rbind]. fold f. rewrite E2. cbn [rbind].
  apply rwp_ok. apply HQ; [apply wrap_range; lia|].
  intros k Hk. rewrite wrap_testbit by lia.
  destruct (Z.ltb_spec k s) as [Ck|Ck]; [|lia]. cbn [andb].
  rewrite Z.lxor_spec, Z.land_spec, Z.lxor_spec.
  assert (Hm : Z.testbit (wrap s s2 * b2z (st <? s)) k = inr st (st + l) k).
  { destruct (Z.ltb_spec st s) as [C|C]; cbn [b2z].
    - rewrite Z.mul_1_r, E2', wrap_testbit, Z.shiftl_spec by lia.
      destruct (Z.ltb_spec k s) as [Ck'|Ck']; [|lia]. cbn [andb].
      destruct (Z.ltb_spec k st) as [C3|C3].
      { rewrite Z.testbit_neg_r by lia. unfold inr.
        destruct (Z.leb_spec st k) as [C4|C4]; [lia|reflexivity]. }
      assert (Hf : Z.testbit f (k - st) = (k - st <? l)).
      { assert (Ef : wrap s f = wrap s (2 ^ l - 1)).
        { unfold f. rewrite wrap_arith by lia.
          destruct (Z.ltb_spec l s) as [C5|C5]; cbn [b2z].
          - rewrite E1' by lia. f_equal. lia.
          - replace l with s by lia. rewrite Z.mul_0_r. unfold wrap.
            replace (2 ^ s - 1) with (0 - 1 + 1 * 2 ^ s) by lia.
            rewrite Z.mod_add by (pose proof (pow_pos s); lia). reflexivity. }
        pose proof (wrap_testbit s f (k - st) ltac:(lia)) as T1.
        pose proof (wrap_testbit s (2 ^ l - 1) (k - st) ltac:(lia)) as T2.
        destruct (Z.ltb_spec (k - st) s) as [C6|C6]; [|lia]. cbn [andb] in T1, T2.
        rewrite <- T1, Ef, T2.
        replace (2 ^ l - 1) with (Z.ones l) by (rewrite Z.ones_equiv; lia).
        apply Z.testbit_ones_nonneg; lia. }
      rewrite Hf. unfold inr.
      destruct (Z.leb_spec st k) as [C4|C4]; [|lia]. cbn [andb].
      destruct (Z.ltb_spec (k - st) l) as [C5|C5], (Z.ltb_spec k (st + l)) as [C6|C6]; lia || reflexivity.
    - rewrite Z.mul_0_r, Z.testbit_0_l. unfold inr.
      destruct (Z.leb_spec st k) as [C4|C4]; [lia|reflexivity]. }
  rewrite Hm.
  destruct (inr st (st + l) k), (Z.testbit x k), (Z.testbit y k); reflexivity.
Qed.

Lemma cshl_hw_any : forall o s x c, exists v, cshl (Hw o) s x c = Ok v.
Proof.
  intros o s x c. unfold cshl. destruct ((0 <=? c) && (c <? prom s)), (s <? 32); eauto.
Qed.

Lemma write_word_as_hw : forall o s w m src dst len,
  valid_w s -> valid_w w -> s < w -> wf_mem w m -> valid_it w dst ->
  1 <= len <= s -> 0 <= src < 2 ^ s -> mapped w m (addr w dst) (addr w dst + len) ->
  exists m', write_word_as (Hw o) s w src dst len m = Ok (tt, m') /\
    updated w m m' (ib dst * w) (ib dst * w + (if w <? ip dst + len then 2 * w else w))
      (fun i => (i mod w <? s) &&
         (if inr (addr w dst) (addr w dst + len) i then Z.testbit src (i - addr w dst)
          else bit w m i)).
Proof.
  intros o s w m src dst len Hs Vw Hsw Hwf Hv Hl Hsrc Hm.
  pose proof (valid_pos w Vw) as Hwp. pose proof (valid_pos s Hs) as Hsp.
  pose proof (prom_ge s Hs) as Hpr. unfold valid_it in Hv.
  assert (Hle : 2 ^ s <= 2 ^ w) by (apply Z.pow_le_mono_r; lia).
  assert (Hma : m (ib dst) <> None).
  { apply (mapped_word w m (addr w dst) (addr w dst + len)); try assumption; unfold addr; lia. }
  set (R := fun m' => updated w m m' (ib dst * w)
      (ib dst * w + (if w <? ip dst + len then 2 * w else w))
      (fun i => (i mod w <? s) &&
         (if inr (addr w dst) (addr w dst + len) i then Z.testbit src (i - addr w dst)
          else bit w m i))).
  assert (H : wp (write_word_as (Hw o) s w src dst len) m (fun _ m' => R m')).
  2: { destruct (wp_exists _ _ _ _ H) as ([] & m' & E & Rm). exists m'. split; assumption. }
  unfold write_word_as.
  destruct ((ip dst =? 0) && (len =? w)) eqn:E.
  { exfalso. apply andb_true_iff in E as (E1 & E2). apply Z.eqb_eq in E2. lia. }
  apply wp_bind, (wp_load w); try assumption; [lia|]. intros x Hx Hbx.
  destruct (cshl_hw_any o s src (ip dst)) as (c & Ec). rewrite Ec. wpl. apply rwp_ok.
  assert (Hcb : forall k, ip dst <= k < s -> Z.testbit (wrap s c) k = Z.testbit src (k - ip dst)).
  { intros k Hk. revert Ec. unfold cshl.
    destruct (Z.leb_spec 0 (ip dst)) as [C1|C1]; [|lia].
    destruct (Z.ltb_spec (ip dst) (prom s)) as [C2|C2]; [|lia]. cbn [andb].
    intros Ec. apply (shl_testbit s c src (ip dst)); try lia.
    destruct (s <? 32); injection Ec as <-; [reflexivity|apply wrap_wrap; lia]. }
  wpl. rewrite (wrap_byte s (ip dst)), (wrap_byte s (w - ip dst)) by (assumption || lia).
  apply rwp_bitblend_any; try assumption; try lia; try (apply wrap_range; lia).
  intros v Hvr Hvb. apply wp_bind, (wp_store w); try assumption; try lia.
  intros m1 W1 D1 B1.
  assert (First : forall i, ib dst * w <= i < ib dst * w + w ->
    bit w m1 i = (i mod w <? s) &&
      (if inr (addr w dst) (addr w dst + len) i then Z.testbit src (i - addr w dst)
       else bit w m i)).
  { intros i Hi. rewrite B1.
    replace (i mod w) with (i - ib dst * w)
      by (apply Z.mod_unique with (q := ib dst); [left|]; lia).
    assert (Ei : inr (ib dst * w) (ib dst * w + w) i = true).
    { unfold inr. apply andb_true_iff. lia. }
    rewrite Ei. destruct (Z.ltb_spec (i - ib dst * w) s) as [C3|C3]; cbn [andb].
    - rewrite Hvb by lia. unfold addr. bsplit.
      + rewrite Hcb by lia. f_equal. lia.
      + rewrite wrap_testbit by lia. bsplit. rewrite Hbx by lia. reflexivity.
      + rewrite wrap_testbit by lia. bsplit. rewrite Hbx by lia. reflexivity.
    - rewrite (testbit_high s) by lia. reflexivity. }
  destruct (Z.ltb_spec (w - ip dst) len) as [C|C].
  - assert (Hmb : m (ib dst + 1) <> None).
    { apply (mapped_word w m (addr w dst) (addr w dst + len)); try assumption; unfold addr; lia. }
    assert (Hmb1 : m1 (ib dst + 1) <> None) by (intros F; apply Hmb, (D1 (ib dst + 1)), F).
    apply wp_bind, (wp_load w); try assumption; [lia|]. intros y Hy Hby.
    wpl. apply rwp_cshr; [lia|].
    wpl. rewrite (wrap_byte s (len - (w - ip dst))) by (assumption || lia).
    apply rwp_bitblend_any; try assumption; try lia; try (apply wrap_range; lia).
    intros v2 Hv2 Hvb2. apply (wp_store w); try assumption; try lia.
    intros m2 W2 D2 B2. unfold R. destruct (Z.ltb_spec w (ip dst + len)) as [C5|C5]; [|lia].
    split; [exact W2|]. split; [intros a; rewrite (D1 a); apply D2|].
    intros i. rewrite B2.
    destruct (Z.ltb_spec i (ib dst * w)) as [G1|G1].
    { rewrite B1. bsplit; reflexivity. }
    destruct (Z.ltb_spec i (ib dst * w + w)) as [G2|G2].
    { rewrite First by lia.
      assert (T1 : inr ((ib dst + 1) * w) ((ib dst + 1) * w + w) i = false)
        by (unfold inr; apply andb_false_iff; lia).
      assert (T2 : inr (ib dst * w) (ib dst * w + 2 * w) i = true)
        by (unfold inr; apply andb_true_iff; lia).
      rewrite T1, T2. reflexivity. }
    destruct (Z.ltb_spec i (ib dst * w + 2 * w)) as [G3|G3].
    2: { rewrite B1. bsplit; reflexivity. }
    assert (T1 : inr ((ib dst + 1) * w) ((ib dst + 1) * w + w) i = true)
      by (unfold inr; apply andb_true_iff; lia).
    assert (T2 : inr (ib dst * w) (ib dst * w + 2 * w) i = true)
      by (unfold inr; apply andb_true_iff; lia).
    rewrite T1, T2.
    replace (i mod w) with (i - (ib dst + 1) * w)
      by (apply Z.mod_unique with (q := ib dst + 1); [left|]; lia).
    assert (Hold : bit w m i = Z.testbit y (i - (ib dst + 1) * w)).
    { rewrite <- Hby by lia. rewrite B1. bsplit; reflexivity. }
    destruct (Z.ltb_spec (i - (ib dst + 1) * w) s) as [C3|C3]; cbn [andb].
    + rewrite Hvb2 by lia. unfold addr. bsplit.
      * rewrite shr_testbit by lia. f_equal. lia.
      * rewrite wrap_testbit by lia. bsplit. rewrite Hold. reflexivity.
    + rewrite (testbit_high s) by lia. reflexivity.
  - apply wp_ret. unfold R. destruct (Z.ltb_spec w (ip dst + len)) as [C5|C5]; [lia|].
    split; [exact W1|]. split; [exact D1|].
    intros i. destruct (inr (ib dst * w) (ib dst * w + w) i) eqn:Ei.
    + unfold inr in Ei. apply andb_true_iff in Ei as (Ei1 & Ei2).
      apply Z.leb_le in Ei1. apply Z.ltb_lt in Ei2. apply First. lia.
    + rewrite B1, Ei. reflexivity.
Qed.

(** swap_ranges across word types. *)
Lemma mixed_same : forall p w first1 last1 first2 m,
  swap_ranges_mixed p w w first1 last1 first2 m = swap_ranges p w first1 last1 first2 m.
Proof. intros. unfold swap_ranges_mixed. rewrite Z.eqb_refl. reflexivity. Qed.

Lemma mixed_swap : forall p w1 w2 m first1 last1 first2,
  valid_w w1 -> w1 <> w2 -> valid_it w1 first1 -> valid_it w1 last1 ->
  0 <= addr w1 last1 - addr w1 first1 <= max_bits ->
  swap_ranges_mixed p w1 w2 first1 last1 first2 m =
    if addr w1 first1 =? addr w1 last1 then Ok (first2, m) else UB BadUse.
Proof.
  intros p w1 w2 m first1 last1 first2 Vw N V1 V2 H. unfold swap_ranges_mixed, max_bits in *.
  destruct (Z.eqb_spec w1 w2) as [C|C]; [congruence|].
  unfold bind, lift. rewrite assert_viable_eq by (assumption || lia). cbn [rbind].
  rewrite (ieq_addr w1) by (assumption || (pose proof (valid_pos w1 Vw); lia)). destruct (addr w1 first1 =? addr w1 last1); reflexivity.
Qed.
