(** _rotate_via_copy_begin and _rotate_via_copy_end. *)
From Coq Require Import ZArith Bool List Lia ZifyBool.
From Verif Require Import Base WordOps IterModel AlgModel ShiftModel RotateCopyModel Spec SpecRotate
  ProofBase ProofIter ProofWord ProofAlg1 ProofCopy ProofRange ProofShift ProofSwap ProofVec2.
Import ListNotations.
Open Scope Z_scope.
Ltac Zify.zify_post_hook ::= idtac.

Lemma swrap16_small : forall x, - 2 ^ 15 <= x < 2 ^ 15 -> swrap16 x = x.
Proof. intros x H. unfold swrap16. rewrite Z.mod_small by lia. lia. Qed.

Lemma swrap16_range : forall x, - 2 ^ 15 <= swrap16 x < 2 ^ 15.
Proof. intros x. unfold swrap16. pose proof (Z.mod_pos_bound (x + 2 ^ 15) (2 ^ 16)). lia. Qed.

Lemma swrap16_le : forall x, 0 <= x -> swrap16 x <= x.
Proof.
  intros x H. unfold swrap16. pose proof (Z.mod_le (x + 2 ^ 15) (2 ^ 16)). lia.
Qed.

(** The conversion of k - (digits - position), which may be negative in the
    64-bit type. *)
Lemma swrap16_wrap : forall x, swrap16 (wrap 64 x) = swrap16 x.
Proof.
  intros x. unfold swrap16, wrap. f_equal.
  rewrite <- (Zplus_mod_idemp_l (x mod 2 ^ 64)), <- (Zplus_mod_idemp_l x).
  f_equal. f_equal. symmetry.
  apply Znumtheory.Zmod_div_mod; [lia|lia|]. exists (2 ^ 48). reflexivity.
Qed.

(** Words copied to the array when [l] is the initial bits_left_to_copy. *)
Definition rounds (w l : Z) : Z := if 0 <? l then (l + w - 1) / w else 0.

Lemma rounds_spec : forall w l, 0 < w -> 0 <= rounds w l /\
  (0 < l -> (rounds w l - 1) * w < l <= rounds w l * w) /\ (l <= 0 -> rounds w l = 0).
Proof.
  intros w l Hw. unfold rounds. destruct (Z.ltb_spec 0 l) as [C|C].
  - pose proof (Z.div_mod (l + w - 1) w ltac:(lia)). pose proof (Z.mod_pos_bound (l + w - 1) w Hw).
    pose proof (Z.div_pos (l + w - 1) w). split; [lia|]. split; [lia|lia].
  - lia.
Qed.

Lemma loop_words : forall w n fuel buf bs it pos left m, 8 <= w <= 128 ->
  left < 2 ^ 15 -> rounds w left = Z.of_nat n -> (n < fuel)%nat -> 0 <= pos -> pos + Z.of_nat n <= bs ->
  pos + Z.of_nat n < 2 ^ 16 ->
  buf_loop w fuel buf bs it pos left m = words_copy n it (buf + pos) m.
Proof.
  intros w n. induction n as [|n IH]; intros fuel buf bs it pos left m Hw H1 Hr Hf Hp Hb Hs;
    (destruct fuel as [|fuel]; [lia|]); cbn [buf_loop words_copy];
    pose proof (rounds_spec w left ltac:(lia)) as (R1 & R2 & R3).
  - replace (0 <? left) with false; [reflexivity|]. destruct (Z_lt_dec 0 left) as [C|C]; lia.
  - replace (0 <? left) with true by (destruct (Z_lt_dec 0 left); lia).
    assert (L0 : 0 < left) by (destruct (Z_lt_dec 0 left); lia). specialize (R2 L0).
    unfold bind. destruct (load it m) as [[x m1]| | | |]; try reflexivity.
    replace (pos <? bs) with true by lia.
    destruct (store (buf + pos) x m1) as [[u m2]| | | |]; try reflexivity.
    replace (buf + pos + 1) with (buf + (pos + 1)) by ring.
    assert (Ew : wrap 16 (pos + 1) = pos + 1) by (unfold wrap; apply Z.mod_small; lia).
    rewrite Ew, swrap16_small by lia. apply IH; try lia.
    pose proof (rounds_spec w (left - w) ltac:(lia)) as (T1 & T2 & T3).
    destruct (Z_lt_dec 0 (left - w)) as [C|C].
    + specialize (T2 C). nia.
    + rewrite T3 by lia. nia.
Qed.

(** Too many words for the array. *)
Lemma loop_overrun : forall w n fuel buf bs it pos left m, 8 <= w <= 128 ->
  left < 2 ^ 15 -> rounds w left = Z.of_nat n -> (n <= fuel)%nat -> 0 <= pos ->
  bs < pos + Z.of_nat n -> pos <= bs -> pos + Z.of_nat n < 2 ^ 16 ->
  (forall b, it <= b < it + Z.of_nat n -> m b <> None) ->
  (forall b, buf <= b < buf + bs -> m b <> None) ->
  buf_loop w fuel buf bs it pos left m = UB OutOfBounds.
Proof.
  intros w n. induction n as [|n IH]; intros fuel buf bs it pos left m Hw H1 Hr Hf Hp Hb Hb' Hs Hm1 Hm2;
    [lia|]. destruct fuel as [|fuel]; [lia|]. cbn [buf_loop].
  pose proof (rounds_spec w left ltac:(lia)) as (R1 & R2 & R3).
  replace (0 <? left) with true by (destruct (Z_lt_dec 0 left); lia).
  assert (L0 : 0 < left) by (destruct (Z_lt_dec 0 left); lia). specialize (R2 L0).
  unfold bind, load. destruct (m it) as [x|] eqn:E; [|exfalso; apply (Hm1 it); [lia|exact E]].
  destruct (Z.ltb_spec pos bs) as [C|C]; [|reflexivity].
  unfold store. destruct (m (buf + pos)) as [y|] eqn:E2;
    [|exfalso; apply (Hm2 (buf + pos)); [lia|exact E2]].
  assert (Ew : wrap 16 (pos + 1) = pos + 1) by (unfold wrap; apply Z.mod_small; lia).
  rewrite Ew, swrap16_small by lia. apply IH; try lia.
  - pose proof (rounds_spec w (left - w) ltac:(lia)) as (T1 & T2 & T3).
    destruct (Z_lt_dec 0 (left - w)) as [C2|C2].
    + specialize (T2 C2). nia.
    + rewrite T3 by lia. nia.
  - intros b Hx. unfold mset. destruct (b =? buf + pos); [discriminate|]. apply Hm1. lia.
  - intros b Hx. unfold mset. destruct (b =? buf + pos); [discriminate|]. apply Hm2. lia.
Qed.

(** Words the array receives. *)
Definition cnt (w : Z) (s : iter) (k : Z) : Z := 1 + rounds w (swrap16 (k - (w - ip s))).

Lemma cnt_spec : forall w s k, 8 <= w <= 128 -> valid_it w s -> 0 <= k ->
  1 <= cnt w s k < 2 ^ 15 /\ (cnt w s k - 1) * w <= Z.max 0 (ip s + k - 1) /\
  (ip s + k - w < 2 ^ 15 -> ip s + k <= cnt w s k * w).
Proof.
  intros w s k Hw Vs Hk. unfold cnt, valid_it in *. set (l := k - (w - ip s)).
  pose proof (rounds_spec w (swrap16 l) ltac:(lia)) as (R1 & R2 & R3).
  pose proof (swrap16_range l) as Rg.
  assert (Le : swrap16 l <= l).
  { destruct (Z_lt_dec l 0) as [C|C]; [|apply swrap16_le; lia]. rewrite swrap16_small; lia. }
  destruct (Z_lt_dec 0 (swrap16 l)) as [C|C].
  - specialize (R2 C). split; [nia|]. split; [unfold l in *; lia|].
    intros H. rewrite swrap16_small in R2 |- * by (unfold l; lia). unfold l in *. lia.
  - rewrite R3 by lia. split; [lia|]. split; [lia|]. intros H. rewrite swrap16_small in C by lia.
    unfold l in *. lia.
Qed.

Lemma wp_buf_fill : forall w buf bs s k m (Q : unit -> mem -> Prop), valid_w w -> wf_mem w m ->
  valid_it w s -> 0 <= k <= bs * w -> cnt w s k <= bs ->
  (forall b, ib s <= b < ib s + cnt w s k -> m b <> None) ->
  (forall b, buf <= b < buf + bs -> m b <> None) ->
  buf <= ib s \/ ib s + cnt w s k <= buf ->
  (forall m1, updated w m m1 (buf * w) ((buf + cnt w s k) * w)
     (fun i => bit w m (i + (ib s - buf) * w)) -> Q tt m1) ->
  wp (buf_fill w buf bs s k) m Q.
Proof.
  intros w buf bs s k m Q Vw Wf Vs Hk Hc M1 M2 Ho HQ. pose proof (valid_pos w Vw) as Pw.
  pose proof (cnt_spec w s k Pw Vs ltac:(lia)) as (C1 & C2 & C3).
  assert (E : buf_fill w buf bs s k m = words_copy (Z.to_nat (cnt w s k)) (ib s) buf m).
  { unfold buf_fill. replace (k <=? bs * w) with true by lia.
    replace (Z.to_nat (cnt w s k)) with (S (Z.to_nat (cnt w s k - 1))) by lia. cbn [words_copy].
    unfold bind. destruct (load (ib s) m) as [[x m1]| | | |]; try reflexivity.
    destruct (store buf x m1) as [[u m2]| | | |]; try reflexivity. cbv zeta.
    rewrite swrap16_wrap. unfold cnt in *. pose proof (swrap16_range (k - (w - ip s))).
    set (l := swrap16 (k - (w - ip s))) in *.
    pose proof (rounds_spec w l ltac:(lia)) as (R1 & R2 & R3).
    apply loop_words; try lia.
    destruct (Z_lt_dec 0 l) as [D|D]; [|rewrite R3 by lia; lia]. specialize (R2 D).
    assert (rounds w l <= l) by nia. lia. }
  unfold wp in *. rewrite E. revert Q HQ. intros Q HQ.
  apply (wp_words_copy w); rewrite ?Z2Nat.id by lia; try assumption; try lia.
  intros b Hb. apply M2. lia.
Qed.

(** Outside the array, and away from the range that is rotated. *)
Definition off (lo hi i : Z) : Prop := i < lo \/ hi <= i.

(** Bit [x] of the array after it is filled: the first [c] words are those of the
    range, the others keep what they held. *)
Definition buf_bit (w : Z) (m : mem) (buf : Z) (s : iter) (c x : Z) : bool :=
  if x <? c * w then bit w m (ib s * w + x) else bit w m (buf * w + x).

Section Rotate.
Variables (p : policy) (w : Z) (m : mem) (buf bs : Z) (first n_first last : iter).
Hypothesis Vw : valid_w w.
Hypothesis Wf : wf_mem w m.
Hypothesis Rg : good_range w m first last.
Hypothesis Vn : valid_it w n_first.
Let F := addr w first.
Let N := addr w n_first.
Let L := addr w last.
Hypothesis Hn : F <= N <= L.
Hypothesis Hb : mapped w m (buf * w) ((buf + bs) * w).
Hypothesis Hbs : 0 < bs.
Hypothesis Hd : buf + bs <= ib first \/ L <= buf * w.

(** The array is filled from the word of [s]; [k] bits from [s] on are in the range. *)
Lemma filled : forall s k (Q : unit -> mem -> Prop), valid_it w s -> F <= addr w s -> 0 <= k ->
  addr w s + k <= L -> ip s + k <= bs * w -> m (ib s) <> None ->
  (forall m1, wf_mem w m1 -> same_dom m m1 ->
     (forall i, off (buf * w) ((buf + bs) * w) i -> bit w m1 i = bit w m i) ->
     (forall x, 0 <= x < bs * w -> bit w m1 (buf * w + x) = buf_bit w m buf s (cnt w s k) x) ->
     Q tt m1) ->
  wp (buf_fill w buf bs s k) m Q.
Proof.
  intros s k Q Vs Hs Hk Hsk Hbk Ms HQ. pose proof (valid_pos w Vw) as Pw.
  pose proof (cnt_spec w s k Pw Vs Hk) as (C1 & C2 & C3). set (c := cnt w s k) in *.
  destruct Rg as (Vf & Vl & Hl & Hm). fold F L in Hl, Hm. unfold valid_it in Vs, Vf.
  assert (Cb : c <= bs) by nia.
  assert (Sw : forall b, ib s <= b < ib s + c -> m b <> None).
  { intros b Hx. destruct (Z.eq_dec b (ib s)) as [->|Nb]; [exact Ms|].
    apply (mapped_word w m F L); try assumption; unfold F, addr in *; nia. }
  apply (wp_buf_fill w buf bs s k); fold c; try assumption; try lia.
  - apply mapped_words with (w := w); [lia|exact Hb].
  - unfold F, addr in *. destruct Hd as [D|D]; [left; nia|].
    destruct (Z_le_dec buf (ib s)) as [E|E]; [left; lia|right].
    assert ((ib s + c - 1) * w < buf * w) by nia. nia.
  - intros m1 U. apply HQ.
    + eapply updated_wf, U.
    + apply U.
    + intros i Hi. apply (updated_out _ _ _ _ _ _ _ U). unfold off in Hi. nia.
    + intros x Hx. unfold buf_bit. destruct (Z.ltb_spec x (c * w)) as [D|D].
      * rewrite (updated_in _ _ _ _ _ _ _ U) by lia. f_equal. ring.
      * apply (updated_out _ _ _ _ _ _ _ U). lia.
Qed.

(** Where the bits of the rotated range come from when the array does not hold
    all of them. *)
Lemma begin_wp : let k := N - F in ip first + k <= bs * w -> m (ib first) <> None ->
  (0 < k < L - F -> ip first <> 0 \/ ip last <> 0 \/ ib last - ib first <> 1 \/
     full_blend_defined p w) ->
  wp (rotate_copy_begin p w buf bs first n_first last) m (fun r m' => valid_it w r /\
    addr w r = F + (L - N) /\ wf_mem w m' /\ same_dom m m' /\
    forall i, off (buf * w) ((buf + bs) * w) i ->
      bit w m' i = if inr F L i then
                     if i <? L - k then bit w m (i + k)
                     else buf_bit w m buf first (cnt w first k) (ip first + (i - (L - k)))
                   else bit w m i).
Proof.
  intros k Hk M0 Hs. pose proof (valid_pos w Vw) as Pw. pose proof Rg as (Vf & Vl & Hl & Hm).
  fold F L in Hl, Hm. unfold max_bits in Hl. unfold rotate_copy_begin.
  assert (Vf' := Vf). unfold valid_it in Vf'.
  apply wp_bind, wp_distance; [assumption..|fold F N; lia|]. fold F N. fold k.
  apply wp_bind, filled; try assumption; try (unfold k, F in *; lia).
  intros m1 W1 D1 O1 B1.
  assert (Af : forall f, ib f = buf -> ip f = ip first -> addr w f = buf * w + ip first)
    by (intros f E1 E2; unfold addr; rewrite E1, E2; reflexivity).
  assert (Hb1 : mapped w m1 (buf * w) ((buf + bs) * w)) by (eapply mapped_dom; eassumption).
  assert (Hm1 : mapped w m1 F L) by (eapply mapped_dom; eassumption).
  assert (Far : forall i, F <= i < L -> off (buf * w) ((buf + bs) * w) i)
    by (intros i Hi; unfold off, F, addr in *; nia).
  (* the copy from the array, after the shift *)
  assert (Tail : forall r m2, wf_mem w m2 -> same_dom m1 m2 -> valid_it w r -> addr w r = F + (L - N) ->
    (forall i, off F L i -> bit w m2 i = bit w m1 i) ->
    (forall i, F <= i < L - k -> bit w m2 i = bit w m1 (i + k)) ->
    wp (let! f := mk_iter w buf (ip first) in let! e := iadd w f k in copy p w f e r;; ret r) m2
      (fun r m' => valid_it w r /\
        addr w r = F + (L - N) /\ wf_mem w m' /\ same_dom m m' /\
        forall i, off (buf * w) ((buf + bs) * w) i ->
          bit w m' i = if inr F L i then
                         if i <? L - k then bit w m (i + k)
                         else buf_bit w m buf first (cnt w first k) (ip first + (i - (L - k)))
                       else bit w m i)).
  { intros r m2 W2 D2 Vr Ar O2 S2.
    apply wp_bind, wp_mk_iter; [lia|]. intros f Vff Aff _ _.
    apply wp_bind, wp_iadd; [assumption..|unfold k; lia|]. intros e Ve Ae.
    assert (Ek : addr w e - addr w f = k) by lia.
    apply wp_bind, wp_copy; rewrite ?Ek; try assumption; try (unfold k; lia).
    - intros i Hi. apply (mapped_dom _ _ _ _ _ Hb1 D2). rewrite Ae, Aff in Hi. lia.
    - intros i Hi. apply (mapped_dom _ _ _ _ _ Hm1 D2). rewrite Ar in Hi. unfold k in Hi. lia.
    - rewrite Ae, Aff, Ar. unfold F, addr in *. destruct Hd as [D|D]; [right; nia|left; nia].
    - rewrite Ar. replace (F + (L - N) + k) with L by (unfold k; ring).
      replace (F + (L - N)) with (L - k) by (unfold k; ring).
      intros r' m3 Vr' Ar' U. apply wp_ret. split; [assumption|]. split; [rewrite Ar; unfold k; ring|].
      split; [eapply updated_wf, U|].
      split; [eapply same_dom_trans; [exact D1|]; eapply same_dom_trans; [exact D2|apply U]|].
      intros i Hi. unfold inr. destruct U as (_ & _ & U). rewrite U. unfold inr.
      destruct (Z.leb_spec F i) as [C1|C1]; cbn [andb].
      + destruct (Z.ltb_spec i L) as [C2|C2].
        * rewrite andb_true_r. destruct (Z.ltb_spec i (L - k)) as [C3|C3].
          -- replace (L - k <=? i) with false by lia. rewrite S2 by lia. apply O1, Far. unfold k in *. lia.
          -- replace (L - k <=? i) with true by lia.
             replace (i + (addr w f - (L - k))) with (buf * w + (ip first + (i - (L - k)))) by lia.
             rewrite O2.
             ++ apply B1. lia.
             ++ unfold off, F, addr in *. destruct Hd as [D|D]; nia.
        * rewrite andb_false_r. rewrite O2 by (unfold off; lia). apply O1, Hi.
      + replace (L - k <=? i) with false by (unfold k; lia). cbn [andb].
        rewrite O2 by (unfold off; lia). apply O1, Hi. }
  assert (Rg1 : good_range w m1 first last)
    by (split; [assumption|]; split; [assumption|]; split; [unfold max_bits; fold F L; lia|exact Hm1]).
  destruct (shift_left_none p w m1 first last k Vw Rg1) as [Z1 Z2].
  fold F L in Z2. apply wp_bind.
  destruct (Z_le_dec k 0) as [C0|C0].
  - apply (wp_ok _ _ _ _ _ _ (Z1 C0)). apply Tail; try assumption.
    + apply same_dom_refl.
    + unfold k in *. fold L. lia.
    + reflexivity.
    + intros i Hi. f_equal. unfold k in *. lia.
  - destruct (Z_le_dec (L - F) k) as [C1|C1].
    + apply (wp_ok _ _ _ _ _ _ (Z2 ltac:(lia) C1)). apply Tail; try assumption.
      * apply same_dom_refl.
      * unfold k in *. fold F. lia.
      * reflexivity.
      * intros i Hi. unfold k in *. lia.
    + destruct (shift_left_ok p w m1 first last k Vw W1 Rg1) as (r & m2 & E & Vr & Ar & W2 & D2 & S2 & O2).
      * fold F L. lia.
      * apply Hs. lia.
      * apply (wp_ok _ _ _ _ _ _ E). fold F L in Ar, S2, O2. apply Tail; try assumption.
        unfold k in *. lia.
Qed.

Lemma end_wp : let k := L - N in ip n_first + k <= bs * w -> m (ib n_first) <> None ->
  (0 < k < L - F -> ip first <> 0 \/ ip last <> 0 \/ ib last - ib first <> 1 \/
     full_blend_defined p w) ->
  wp (rotate_copy_end p w buf bs first n_first last) m (fun r m' => valid_it w r /\
    addr w r = F + (L - N) /\ wf_mem w m' /\ same_dom m m' /\
    forall i, off (buf * w) ((buf + bs) * w) i ->
      bit w m' i = if inr F L i then
                     if F + k <=? i then bit w m (i - k)
                     else buf_bit w m buf n_first (cnt w n_first k) (ip n_first + (i - F))
                   else bit w m i).
Proof.
  intros k Hk M0 Hs. pose proof (valid_pos w Vw) as Pw. pose proof Rg as (Vf & Vl & Hl & Hm).
  fold F L in Hl, Hm. unfold max_bits in Hl. unfold rotate_copy_end.
  assert (Vf' := Vf). unfold valid_it in Vf'. assert (Vn' := Vn). unfold valid_it in Vn'.
  apply wp_bind, wp_distance; [assumption..|fold L N; lia|]. fold L N. fold k.
  apply wp_bind, filled; try assumption; try (fold N; unfold k; lia).
  intros m1 W1 D1 O1 B1.
  assert (Hb1 : mapped w m1 (buf * w) ((buf + bs) * w)) by (eapply mapped_dom; eassumption).
  assert (Hm1 : mapped w m1 F L) by (eapply mapped_dom; eassumption).
  assert (Far : forall i, F <= i < L -> off (buf * w) ((buf + bs) * w) i)
    by (intros i Hi; unfold off, F, addr in *; nia).
  (* the copy from the array, after the shift *)
  assert (Tail : forall r m2, wf_mem w m2 -> same_dom m1 m2 -> valid_it w r -> addr w r = F + (L - N) ->
    (forall i, off F L i -> bit w m2 i = bit w m1 i) ->
    (forall i, F + k <= i < L -> bit w m2 i = bit w m1 (i - k)) ->
    wp (let! f := mk_iter w buf (ip n_first) in let! e := iadd w f k in copy p w f e first;; ret r) m2
      (fun r m' => valid_it w r /\
        addr w r = F + (L - N) /\ wf_mem w m' /\ same_dom m m' /\
        forall i, off (buf * w) ((buf + bs) * w) i ->
          bit w m' i = if inr F L i then
                         if F + k <=? i then bit w m (i - k)
                         else buf_bit w m buf n_first (cnt w n_first k) (ip n_first + (i - F))
                       else bit w m i)).
  { intros r m2 W2 D2 Vr Ar O2 S2.
    apply wp_bind, wp_mk_iter; [lia|]. intros f Vff Aff _ _.
    apply wp_bind, wp_iadd; [assumption..|unfold k; lia|]. intros e Ve Ae.
    assert (Ek : addr w e - addr w f = k) by lia.
    apply wp_bind, wp_copy; rewrite ?Ek; try assumption; try (unfold k; lia).
    - intros i Hi. apply (mapped_dom _ _ _ _ _ Hb1 D2). rewrite Ae, Aff in Hi. lia.
    - intros i Hi. apply (mapped_dom _ _ _ _ _ Hm1 D2). fold F in Hi. unfold k in Hi. lia.
    - fold F. rewrite Ae, Aff. unfold F, addr in *. destruct Hd as [D|D]; [right; nia|left; nia].
    - fold F.
      intros r' m3 Vr' Ar' U. apply wp_ret. split; [assumption|]. split; [exact Ar|].
      split; [eapply updated_wf, U|].
      split; [eapply same_dom_trans; [exact D1|]; eapply same_dom_trans; [exact D2|apply U]|].
      intros i Hi. unfold inr. destruct U as (_ & _ & U). rewrite U. unfold inr.
      destruct (Z.leb_spec F i) as [C1|C1]; cbn [andb].
      + destruct (Z.ltb_spec i L) as [C2|C2].
        * destruct (Z.leb_spec (F + k) i) as [C3|C3].
          -- replace (i <? F + k) with false by lia. rewrite S2 by lia. apply O1, Far. unfold k in *. lia.
          -- replace (i <? F + k) with true by lia.
             replace (i + (addr w f - F)) with (buf * w + (ip n_first + (i - F))) by lia.
             rewrite O2.
             ++ apply B1. lia.
             ++ unfold off, F, addr in *. destruct Hd as [D|D]; nia.
        * replace (i <? F + k) with false by (unfold k; lia).
          rewrite O2 by (unfold off; lia). apply O1, Hi.
      + rewrite O2 by (unfold off; lia). apply O1, Hi. }
  assert (Rg1 : good_range w m1 first last)
    by (split; [assumption|]; split; [assumption|]; split; [unfold max_bits; fold F L; lia|exact Hm1]).
  destruct (shift_right_none p w m1 first last k Vw Rg1) as [Z1 Z2].
  fold F L in Z2. apply wp_bind.
  destruct (Z_le_dec k 0) as [C0|C0].
  - apply (wp_ok _ _ _ _ _ _ (Z1 C0)). apply Tail; try assumption.
    + apply same_dom_refl.
    + unfold k in *. fold F. lia.
    + reflexivity.
    + intros i Hi. f_equal. unfold k in *. lia.
  - destruct (Z_le_dec (L - F) k) as [C1|C1].
    + apply (wp_ok _ _ _ _ _ _ (Z2 ltac:(lia) C1)). apply Tail; try assumption.
      * apply same_dom_refl.
      * unfold k in *. fold L. lia.
      * reflexivity.
      * intros i Hi. unfold k in *. lia.
    + destruct (shift_right_ok p w m1 first last k Vw W1 Rg1) as (r & m2 & E & Vr & Ar & W2 & D2 & S2 & O2).
      * fold F L. lia.
      * apply Hs. lia.
      * apply (wp_ok _ _ _ _ _ _ E). fold F L in Ar, S2, O2. apply Tail; assumption.
Qed.

(** The array holds the part that is carried over: a rotation. *)
Lemma copy_begin_ok : let k := N - F in ip first + k <= bs * w -> ip first + k - w < 2 ^ 15 ->
  m (ib first) <> None ->
  (0 < k < L - F -> ip first <> 0 \/ ip last <> 0 \/ ib last - ib first <> 1 \/
     full_blend_defined p w) ->
  exists r m', rotate_copy_begin p w buf bs first n_first last m = Ok (r, m') /\ valid_it w r /\
    addr w r = F + (L - N) /\ wf_mem w m' /\ same_dom m m' /\
    forall i, i < buf * w \/ (buf + bs) * w <= i ->
      bit w m' i = if inr F L i then bit w m (rotl_from F (L - F) k i) else bit w m i.
Proof.
  intros k H1 H2 H3 H4. pose proof (begin_wp H1 H3 H4) as W. apply wp_exists in W.
  destruct W as (r & m' & E & W1 & W2 & W3 & W4 & W5). exists r, m'. repeat (split; [assumption|]).
  intros i Hi. rewrite W5 by exact Hi. unfold inr, rotl_from. fold k. pose proof (valid_pos w Vw) as Pw.
  pose proof Rg as (Vf & _).
  pose proof (cnt_spec w first k Pw Vf ltac:(unfold k; lia)) as (_ & _ & C). specialize (C H2).
  unfold buf_bit. bsplit; try reflexivity; try (exfalso; lia). f_equal. unfold k, F, addr in *. lia.
Qed.

Lemma copy_end_ok : let k := L - N in ip n_first + k <= bs * w -> ip n_first + k - w < 2 ^ 15 ->
  m (ib n_first) <> None ->
  (0 < k < L - F -> ip first <> 0 \/ ip last <> 0 \/ ib last - ib first <> 1 \/
     full_blend_defined p w) ->
  exists r m', rotate_copy_end p w buf bs first n_first last m = Ok (r, m') /\ valid_it w r /\
    addr w r = F + (L - N) /\ wf_mem w m' /\ same_dom m m' /\
    forall i, i < buf * w \/ (buf + bs) * w <= i ->
      bit w m' i = if inr F L i then bit w m (rotl_from F (L - F) (N - F) i) else bit w m i.
Proof.
  intros k H1 H2 H3 H4. pose proof (end_wp H1 H3 H4) as W. apply wp_exists in W.
  destruct W as (r & m' & E & W1 & W2 & W3 & W4 & W5). exists r, m'. repeat (split; [assumption|]).
  intros i Hi. rewrite W5 by exact Hi. unfold inr, rotl_from. fold k. pose proof (valid_pos w Vw) as Pw.
  pose proof (cnt_spec w n_first k Pw Vn ltac:(unfold k; lia)) as (_ & _ & C). specialize (C H2).
  assert (Vn' := Vn). unfold valid_it in Vn'.
  unfold buf_bit. bsplit; try reflexivity; try (exfalso; unfold k in *; lia); f_equal; unfold k; try lia.
  unfold N, addr in *. lia.
Qed.

(** bits_left_to_copy does not fit short int: the last bit carried over is read
    from a word of the array that was never written. *)
Lemma cnt_long : forall s k, valid_it w s -> 2 ^ 15 <= ip s + k - w ->
  cnt w s k * w <= ip s + k - 1.
Proof.
  intros s k Vs H. pose proof (valid_pos w Vw) as Pw. unfold valid_it in Vs. unfold cnt.
  set (l := k - (w - ip s)) in *. pose proof (rounds_spec w (swrap16 l) ltac:(lia)) as (R1 & R2 & R3).
  assert (Le : swrap16 l <= l - 2 ^ 16).
  { unfold swrap16. pose proof (Z.div_mod (l + 2 ^ 15) (2 ^ 16) ltac:(lia)) as E.
    assert (1 <= (l + 2 ^ 15) / 2 ^ 16) by (apply Z.div_le_lower_bound; unfold l; lia). lia. }
  destruct (Z_lt_dec 0 (swrap16 l)) as [C|C].
  - specialize (R2 C). unfold l in *. lia.
  - rewrite R3 by lia. unfold l in *. lia.
Qed.

Lemma copy_begin_long : let k := N - F in ip first + k <= bs * w -> 2 ^ 15 <= ip first + k - w ->
  m (ib first) <> None ->
  (0 < k < L - F -> ip first <> 0 \/ ip last <> 0 \/ ib last - ib first <> 1 \/
     full_blend_defined p w) ->
  exists r m', rotate_copy_begin p w buf bs first n_first last m = Ok (r, m') /\
    bit w m' (L - 1) = bit w m (buf * w + (ip first + k - 1)).
Proof.
  intros k H1 H2 H3 H4. pose proof (begin_wp H1 H3 H4) as W. apply wp_exists in W.
  destruct W as (r & m' & E & W1 & W2 & W3 & W4 & W5). exists r, m'. split; [exact E|].
  pose proof (valid_pos w Vw) as Pw. pose proof Rg as (Vf & _). assert (Vf' := Vf).
  unfold valid_it in Vf'. pose proof (cnt_long first k Vf H2) as C. fold k in W5.
  rewrite W5 by (unfold off, k, F, addr in *; destruct Hd as [D|D]; nia).
  unfold inr, buf_bit. bsplit; try (exfalso; unfold k in *; lia). f_equal. lia.
Qed.

Lemma copy_end_long : let k := L - N in ip n_first + k <= bs * w -> 2 ^ 15 <= ip n_first + k - w ->
  m (ib n_first) <> None ->
  (0 < k < L - F -> ip first <> 0 \/ ip last <> 0 \/ ib last - ib first <> 1 \/
     full_blend_defined p w) ->
  exists r m', rotate_copy_end p w buf bs first n_first last m = Ok (r, m') /\
    bit w m' (F + k - 1) = bit w m (buf * w + (ip n_first + k - 1)).
Proof.
  intros k H1 H2 H3 H4. pose proof (end_wp H1 H3 H4) as W. apply wp_exists in W.
  destruct W as (r & m' & E & W1 & W2 & W3 & W4 & W5). exists r, m'. split; [exact E|].
  pose proof (valid_pos w Vw) as Pw. assert (Vn' := Vn). pose proof Rg as (Vf & _).
  unfold valid_it in Vn', Vf. pose proof (cnt_long n_first k Vn H2) as C. fold k in W5.
  rewrite W5 by (unfold off, k, F, addr in *; destruct Hd as [D|D]; nia).
  unfold inr, buf_bit. bsplit; try (exfalso; unfold k in *; lia). f_equal. lia.
Qed.

(** The assertion holds and the array is too short. *)
Lemma fill_overrun : forall s k, valid_it w s -> F <= addr w s -> 0 <= k -> addr w s + k <= L ->
  k <= bs * w < ip s + k -> ip s + k - w < 2 ^ 15 ->
  buf_fill w buf bs s k m = UB OutOfBounds.
Proof.
  intros s k Vs Hs Hk Hsk Hkb Hsh. pose proof (valid_pos w Vw) as Pw.
  pose proof (cnt_spec w s k Pw Vs Hk) as (C1 & C2 & C3). specialize (C3 Hsh).
  pose proof Rg as (Vf & Vl & Hl & Hm). fold F L in Hl, Hm. unfold valid_it in Vs, Vf.
  assert (Sw : forall b, ib s <= b < ib s + cnt w s k -> m b <> None).
  { intros b Hx. apply (mapped_word w m F L); try assumption; unfold F, addr in *; nia. }
  pose proof (mapped_words w m buf bs ltac:(lia) Hb) as Sb.
  unfold buf_fill. replace (k <=? bs * w) with true by lia. unfold bind, load, store.
  destruct (m (ib s)) as [x|] eqn:E1; [|exfalso; apply (Sw (ib s)); [lia|exact E1]].
  destruct (m buf) as [y|] eqn:E2; [|exfalso; apply (Sb buf); [lia|exact E2]].
  cbv zeta. rewrite swrap16_wrap. unfold cnt in *. pose proof (swrap16_range (k - (w - ip s))).
  set (l := swrap16 (k - (w - ip s))) in *.
  pose proof (rounds_spec w l ltac:(lia)) as (R1 & R2 & R3).
  apply (loop_overrun w (Z.to_nat (rounds w l))); rewrite ?Z2Nat.id by lia; try lia.
  - destruct (Z_lt_dec 0 l) as [D|D]; [|rewrite R3 by lia; lia]. specialize (R2 D).
    assert (rounds w l <= l) by nia. lia.
  - nia.
  - intros b Hx. unfold mset. destruct (b =? buf); [discriminate|]. apply Sw. lia.
  - intros b Hx. unfold mset. destruct (b =? buf); [discriminate|]. apply Sb. lia.
Qed.

Lemma copy_begin_overrun : let k := N - F in k <= bs * w < ip first + k ->
  ip first + k - w < 2 ^ 15 ->
  rotate_copy_begin p w buf bs first n_first last m = UB OutOfBounds.
Proof.
  intros k H1 H2. pose proof Rg as (Vf & Vl & Hl & Hm). fold F L in Hl, Hm. unfold max_bits in Hl.
  unfold rotate_copy_begin. rewrite distance_eq by (first [assumption|fold F N; lia]).
  fold F N. fold k. unfold bind, lift.
  rewrite fill_overrun; try assumption; try reflexivity; fold F; unfold k in *; lia.
Qed.

Lemma copy_end_overrun : let k := L - N in k <= bs * w < ip n_first + k ->
  ip n_first + k - w < 2 ^ 15 ->
  rotate_copy_end p w buf bs first n_first last m = UB OutOfBounds.
Proof.
  intros k H1 H2. pose proof Rg as (Vf & Vl & Hl & Hm). fold F L in Hl, Hm. unfold max_bits in Hl.
  unfold rotate_copy_end. rewrite distance_eq by (first [assumption|fold L N; lia]).
  fold L N. fold k. unfold bind, lift.
  rewrite fill_overrun; try assumption; try reflexivity; fold N; unfold k in *; lia.
Qed.
End Rotate.
